(** * TreeSpec: the ideal for threads that share a Bump under Tree Borrows: each block is an allocation of its own. *)
From Verif Require Import Base Spec SyncModel SyncSpec ConcModel BorrowModel BorrowSpec TreeModel.

(** An object of the client: a tree of its own, and the tags of the pointers to it *)
Record nobj := MkN { nblk : block; ntree : tree; ntags : list nat }.

(** A new allocation with a pointer of tag [n], the only one *)
Definition new_alloc (b : block) (n : nat) (p : tperm) : nobj :=
  MkN b (MkTree (fun y => if Nat.eqb y n then [n] else []) (fun _ _ => p)) [n].

(** How the client gets the block: by a new mutable reference, or by a pointer with which everything is allowed *)
Definition first_perm (u : buse) (im : bool) : tperm := match u with ULeak => PReserved im | URaw | UBoxed => PActive end.

(** [niused]: the tags that were given out; [nishares]: the number of references to the Bump; and what each thread is calling *)
Record nideal := MkNI { niobjs : list nobj; niused : list nat; niowned : bool; nishares : nat; nicalls : nat -> option (call * buse * bool) }.

Definition set_ncall (f : nat -> option (call * buse * bool)) (i : nat) (x : option (call * buse * bool)) : nat -> option (call * buse * bool) :=
  fun j => if Nat.eqb j i then x else f j.

Definition with_nobjs (s : nideal) (os : list nobj) (used : list nat) : nideal := MkNI os used (niowned s) (nishares s) (nicalls s).

Inductive nistep (st : block) : nideal -> nop -> nanswer -> nideal -> Prop :=
| NIShareOwner s : niowned s = true -> nistep st s (NShare None) NDone (MkNI (niobjs s) (niused s) (niowned s) (S (nishares s)) (nicalls s))
| NIShareOwnerNot s : niowned s = false -> nistep st s (NShare None) NInvalid s
| NIShare s i : (i < nishares s)%nat -> nistep st s (NShare (Some i)) NDone (MkNI (niobjs s) (niused s) (niowned s) (S (nishares s)) (nicalls s))
| NIShareNot s i : (nishares s <= i)%nat -> nistep st s (NShare (Some i)) NInvalid s
| NIReset s : niowned s = true -> (forall i, nicalls s i = None) -> nistep st s NReset NDone (MkNI [] (niused s) true 0 (nicalls s))
| NIResetNot s : niowned s = false \/ (exists i, nicalls s i <> None) -> nistep st s NReset NInvalid s
(* accesses follow the rules on the object alone, and are undefined behaviour exactly if they are by these rules *)
| NIAct s k a o r n : nth_error (niobjs s) k = Some o -> nact_ok (MkO (nblk o) (ntags o)) a = true ->
    tree_act n a (ntree o) = Some r -> ~ In n (niused s) ->
    nistep st s (NAct k a) (nact_answer n a) (with_nobjs s (set_nth (niobjs s) k (MkN (nblk o) r (tags_after n a (ntags o)))) (tags_after n a (niused s)))
| NIActUB s k a o n : nth_error (niobjs s) k = Some o -> nact_ok (MkO (nblk o) (ntags o)) a = true ->
    tree_act n a (ntree o) = None -> nistep st s (NAct k a) NUB s
| NIActNot s k a : (forall o, nth_error (niobjs s) k = Some o -> nact_ok (MkO (nblk o) (ntags o)) a = false) -> nistep st s (NAct k a) NInvalid s
| NIInvoke s i k c u im : nicalls s i = None -> (k < nishares s)%nat -> c <> CReset ->
    nistep st s (NInvoke i k c u im) NMore (MkNI (niobjs s) (niused s) (niowned s) (nishares s) (set_ncall (nicalls s) i (Some (c, u, im))))
| NIInvokeNot s i k c u im : nicalls s i <> None \/ (nishares s <= k)%nat \/ c = CReset -> nistep st s (NInvoke i k c u im) NInvalid s
(* a step inside of a call is never undefined behaviour, and nothing happens to the objects *)
| NIMore s i : nicalls s i <> None -> nistep st s (NStep i) NMore s
(* the block is aligned, in the slab, and apart from all others; its first pointer is new *)
| NIBlock s i c u im a n : nicalls s i = Some (c, u, im) -> c <> CLevel ->
    let b := MkBlock (ptr a) (lsize (asked c)) in
    inside b st -> aligned (ptr a) (lalign (asked c)) -> Forall (fun o => disjoint b (nblk o)) (niobjs s) -> ~ In n (niused s) ->
    nistep st s (NStep i) (NReturn c (RBlock a) (Some n))
      (MkNI (niobjs s ++ [new_alloc b n (first_perm u im)]) (n :: niused s) (niowned s) (nishares s) (set_ncall (nicalls s) i None))
| NIOther s i c u im r : nicalls s i = Some (c, u, im) -> (forall a, r <> RBlock a) ->
    nistep st s (NStep i) (NReturn c r None) (MkNI (niobjs s) (niused s) (niowned s) (nishares s) (set_ncall (nicalls s) i None))
| NIStepNot s i : nicalls s i = None -> nistep st s (NStep i) NInvalid s.

(** A program and its answers *)
Inductive niruns (st : block) : nideal -> list (nop * nanswer) -> nideal -> Prop :=
| NINil s : niruns st s [] s
| NICons s1 o r s2 h s3 : nistep st s1 o r s2 -> niruns st s2 h s3 -> niruns st s1 ((o, r) :: h) s3.

Definition nideal_new (owned : bool) : nideal := MkNI [] [] owned (if owned then 0 else 1) (fun _ => None).

(** The layouts that the client asks for are valid. *)
Definition nop_ok (t : target) (o : nop) : Prop := match o with NInvoke _ _ c _ _ => valid_call t c | _ => True end.

(** Only reads and writes, no references made from references *)
Definition nplain (o : nop) : Prop := match o with NAct _ (NRetag _ _ _) => False | _ => True end.

(** What the threads see: the invocations and returns *)
Fixpoint nseen (h : list (nop * nanswer)) : list hevent :=
  match h with
  | [] => []
  | (NInvoke i _ c _ _, NMore) :: h => EInv i c :: nseen h
  | (NStep i, NReturn c r _) :: h => ERet i c r :: nseen h
  | _ :: h => nseen h
  end.

(** What a client may try: an access through a pointer that it has to the object, to a part of it; the parts of the type of a reference
    are in the object, in order, and do not overlap. *)
Definition nclient_access (o : bobj) (a : nact) : Prop :=
  match a with
  | NRead t b | NWrite t b => In t (otags o) /\ within (oblk o) b
  | NRetag t _ parts => In t (otags o) /\ Forall (fun p => within (oblk o) (snd p)) parts /\
      ForallOrdPairs (fun p q => start (snd p) + size (snd p) <= start (snd q)) parts
  end.

(** How often thread [i] may step *)
Definition nsteps (i : nat) (os : list nop) : Z :=
  Z.of_nat (length (filter (fun o => match o with NStep j => Nat.eqb j i | _ => false end) os)).
