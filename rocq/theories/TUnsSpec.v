(** * TUnsSpec: the ideal for the unsync Bump under Tree Borrows: each block is an allocation of its own. *)
From Verif Require Import Base Spec SyncModel SyncSpec UnsyncModel UnsyncSpec BorrowModel BorrowSpec UBorrowModel UBorrowSpec TreeModel TreeSpec TExitModel TUnsModel.

(** How the client gets the block: by a new mutable reference (which claims to be unique if the type is Unpin), or by a pointer with which
    everything is allowed *)
Definition txuse_perm (u : txuse) : tperm := match u with TXLeak true im => PReserved im | TXRaw | TXLeak false _ | TXBoxed | TXBox _ _ => PActive end.

(** [ti_used]: the tags that were given out; [ti_shares]: the number of references to the Bump *)
Record txideal := MkTI { ti_objs : list nobj; ti_used : list nat; ti_shares : nat }.

Inductive txistep (t : target) (st : block) : txideal -> txop -> txanswer -> txideal -> Prop :=
| TIShareOwner s : txistep t st s (TXShare None) TXDone (MkTI (ti_objs s) (ti_used s) (S (ti_shares s)))
| TIShare s i : (i < ti_shares s)%nat -> txistep t st s (TXShare (Some i)) TXDone (MkTI (ti_objs s) (ti_used s) (S (ti_shares s)))
| TIShareNot s i : (ti_shares s <= i)%nat -> txistep t st s (TXShare (Some i)) TXInvalid s
(* the block is as large as asked for, aligned, in the data region, and apart from all others; its first pointer is new *)
| TICallBlock s i c u a n l : (i < ti_shares s)%nat -> tuse_ok c u = true -> ucall_layout c = Some l ->
    let b := MkBlock (ptr a) (lsize l) in
    inside b st -> aligned (ptr a) (lalign l) -> Forall (fun o => disjoint b (nblk o)) (ti_objs s) -> ~ In n (ti_used s) ->
    txistep t st s (TXCall i c u) (TXResponse (RBlock a) (Some n)) (MkTI (ti_objs s ++ [new_alloc b n (txuse_perm u)]) (n :: ti_used s) (ti_shares s))
| TICallOther s i c u r : (i < ti_shares s)%nat -> tuse_ok c u = true -> (forall a, r <> RBlock a) ->
    txistep t st s (TXCall i c u) (TXResponse r None) s
| TICallNot s i c u : (ti_shares s <= i)%nat \/ tuse_ok c u = false -> txistep t st s (TXCall i c u) TXInvalid s
| TIReset s : txistep t st s TXReset TXDone (MkTI [] (ti_used s) 0)
(* accesses follow the rules on the object alone, and are undefined behaviour exactly if they are by these rules *)
| TIAct s k a o r n : nth_error (ti_objs s) k = Some o -> nact_ok (MkO (nblk o) (ntags o)) a = true ->
    tree_act n a (ntree o) = Some r -> ~ In n (ti_used s) ->
    txistep t st s (TXAct k a) (if makes_tag a then TXTag n else TXDone)
      (MkTI (set_nth (ti_objs s) k (MkN (nblk o) r (tags_after n a (ntags o)))) (tags_after n a (ti_used s)) (ti_shares s))
| TIActUB s k a o n : nth_error (ti_objs s) k = Some o -> nact_ok (MkO (nblk o) (ntags o)) a = true ->
    tree_act n a (ntree o) = None -> txistep t st s (TXAct k a) TXUB s
| TIActNot s k a : (forall o, nth_error (ti_objs s) k = Some o -> nact_ok (MkO (nblk o) (ntags o)) a = false) -> txistep t st s (TXAct k a) TXInvalid s.

(** A program and its answers *)
Inductive txiruns (t : target) (st : block) : txideal -> list (txop * txanswer) -> txideal -> Prop :=
| TINil s : txiruns t st s [] s
| TICons s1 o r s2 h s3 : txistep t st s1 o r s2 -> txiruns t st s2 h s3 -> txiruns t st s1 ((o, r) :: h) s3.

Definition txideal_new : txideal := MkTI [] [] 0.

(** The layouts that the client asks for are valid. *)
Definition txop_ok (t : target) (o : txop) : Prop := match o with TXCall _ c _ => valid_ucall t c | _ => True end.

(** Only reads and writes, no references made from references *)
Definition txplain (o : txop) : Prop := match o with TXAct _ (NRetag _ _ _) => False | _ => True end.

(** The calls that were made, without the tags *)
Fixpoint txcalls_of (h : list (txop * txanswer)) : list uevent :=
  match h with
  | [] => []
  | (TXCall _ c _, TXResponse r _) :: h => (c, r) :: txcalls_of h
  | (TXReset, TXDone) :: h => (UCall CReset, RUnit) :: txcalls_of h
  | _ :: h => txcalls_of h
  end.

(** What is done with the result of a call: only a LeakBox is used as one.  [reset] is no call through a shared reference. *)
Definition tused_as_box (u : txuse) : Prop := match u with TXBox _ _ => True | TXRaw | TXLeak _ _ | TXBoxed => False end.
Definition tpossible_use (c : ucall) (u : txuse) : Prop := c <> UCall CReset /\ (returns_box c <-> tused_as_box u).
