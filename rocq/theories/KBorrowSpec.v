(** * KBorrowSpec: the ideal for Chain: each block is an allocation of its own, which is gone when its link is freed. *)
From Verif Require Import Base Spec SyncModel SyncSpec UnsyncModel UnsyncSpec ChainModel ChainSpec BorrowModel BorrowSpec UBorrowModel UBorrowSpec KBorrowModel.

(** The chains without tags (ChainModel), the objects in each link, the tags of pointers that were given out for each link, and the calls in progress. *)
Record kideal := MkKI { iworld : world; ilinks : list (list iobj); itagsused : list (list nat); ikbusy : list nat; ikcalls : nat }.

Definition objects (i : kideal) (p : nat) : list iobj := nth p (ilinks i) [].
Definition given (i : kideal) (p : nat) : list nat := nth p (itagsused i) [].

(** The answers and the chains are those of the model without tags; only a new block and a new link change the objects. *)
Inductive kistep (t : target) : kideal -> kop -> kanswer -> kideal -> Prop :=
| KINew s sz addr u w' : cstep t (iworld s) (ONew sz addr) = Some (w', ANewOk) ->
    kistep t s (KOp (ONew sz addr) u) (KAns ANewOk None) (MkKI w' (ilinks s ++ [[]]) (itagsused s ++ [[]]) (ikbusy s) (ikcalls s))
| KICall s o u w' r : cstep t (iworld s) o = Some (w', r) -> r <> ANewOk -> (forall a, r <> ABox (RBlock a)) ->
    kistep t s (KOp o u) (KAns r None) (MkKI w' (ilinks s) (itagsused s) (ikbusy s) (ikcalls s))
(* the block is as large as asked for, aligned, in the data region of the newest link, and apart from all others there; its first pointer is new *)
| KIBox s i l u w' a p k n : cstep t (iworld s) (OBumpBox i l) = Some (w', ABox (RBlock a)) ->
    nth_error (chains (iworld s)) i = Some (Some (Some p)) -> nth_error (store (iworld s)) p = Some (Some k) ->
    let b := MkBlock (ptr a) (lsize l) in
    inside b (udata (lbump k)) -> aligned (ptr a) (lalign l) -> Forall (fun o => disjoint b (iblk o)) (objects s p) -> ~ In n (given s p) ->
    kistep t s (KOp (OBumpBox i l) u) (KAns (ABox (RBlock a)) (Some (p, n)))
      (MkKI w' (BorrowModel.set_nth (ilinks s) p (objects s p ++ [new_object b n SharedRW])) (BorrowModel.set_nth (itagsused s) p (n :: given s p)) (ikbusy s) (ikcalls s))
(* accesses follow the rules on the object alone, and are undefined behaviour exactly if they are by these rules *)
| KIAct s p j a o o' n : link_live (iworld s) p -> nth_error (objects s p) j = Some o -> act_ok (MkO (iblk o) (itags o)) a = true -> prot_ok (ikbusy s) a = true ->
    ideal_act (ikbusy s) o a n = Some o' -> ~ In n (given s p) ->
    kistep t s (KAct p j a) (match a with CRetag _ _ _ => KTag n | _ => KDone end)
      (MkKI (iworld s) (BorrowModel.set_nth (ilinks s) p (BorrowModel.set_nth (objects s p) j o')) (BorrowModel.set_nth (itagsused s) p (used_after a n (given s p))) (ikbusy s) (ikcalls s))
| KIActUB s p j a o n : link_live (iworld s) p -> nth_error (objects s p) j = Some o -> act_ok (MkO (iblk o) (itags o)) a = true -> prot_ok (ikbusy s) a = true ->
    ideal_act (ikbusy s) o a n = None -> kistep t s (KAct p j a) KUB s
| KIActNot s p j a : (link_live (iworld s) p -> forall o, nth_error (objects s p) j = Some o -> act_ok (MkO (iblk o) (itags o)) a && prot_ok (ikbusy s) a = false) ->
    kistep t s (KAct p j a) KInvalid s
| KIEnter s : kistep t s KEnter (KTag (ikcalls s)) (MkKI (iworld s) (ilinks s) (itagsused s) (ikcalls s :: ikbusy s) (S (ikcalls s)))
| KIExit s c : kistep t s (KExit c) KDone (MkKI (iworld s) (ilinks s) (itagsused s) (leave (ikbusy s) c) (ikcalls s)).

(** A program and its answers *)
Inductive kiruns (t : target) : kideal -> list (kop * kanswer) -> kideal -> Prop :=
| KINil s : kiruns t s [] s
| KICons s1 o r s2 h s3 : kistep t s1 o r s2 -> kiruns t s2 h s3 -> kiruns t s1 ((o, r) :: h) s3.

Definition kideal_new : kideal := MkKI empty_world [] [] [] 0.

(** What the compiler checks: the rules of ownership for chains, and that a chain is not dropped or moved as long as there are borrows: no
    call in progress has a reference to a block of the chain.  (For the chain that is moved into another one this is asked only for its links
    other than the first, that is for those that are freed.) *)
Definition kop_ok (t : target) (w : kworld) (o : kop) : Prop :=
  match o with
  | KOp o _ => owner_ok t (kw w) o /\
      match o with
      | ODrop i => forall ps p c, chain_owns (kw w) i ps -> In p ps -> In c (prots_of w p) -> ~ In c (kbusy w)
      | OChain i j => forall ps p c, chain_owns (kw w) j ps -> In p (tl ps) -> In c (prots_of w p) -> ~ In c (kbusy w)
      | _ => True
      end
  | _ => True
  end.

Fixpoint kprog_ok (t : target) (w : kworld) (os : list kop) : Prop :=
  match os with
  | [] => True
  | o :: os => kop_ok t w o /\ kprog_ok t (fst (kstep t w o)) os
  end.

(** The calls that were made, without the tags *)
Fixpoint cops_of (os : list kop) : list cop :=
  match os with
  | [] => []
  | KOp o _ :: os => o :: cops_of os
  | _ :: os => cops_of os
  end.
Fixpoint canswers_of (h : list (kop * kanswer)) : list (cop * cans) :=
  match h with
  | [] => []
  | (KOp o _, KAns r _) :: h => (o, r) :: canswers_of h
  | _ :: h => canswers_of h
  end.

Definition kplain (o : kop) : Prop := match o with KAct _ _ (CRetag _ _ _) => False | _ => True end.

(** A reference that is an argument is one of a function that has not returned yet. *)
Definition argument_of (busy : list nat) (a : cact) : Prop := forall t parts c, a = CRetag t parts (Some c) -> In c busy.
