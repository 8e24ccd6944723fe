(** * UBorrowSpec: the ideal for the unsync Bump: each block is an allocation of its own. *)
From Verif Require Import Base Spec SyncModel SyncSpec UnsyncModel UnsyncSpec BorrowModel BorrowSpec UBorrowModel.

(** How the client gets the block: a reference &mut T is unique if T is Unpin; raw pointers, boxes and references to types that are
    not Unpin are shared. *)
Definition xuse_perm (u : xuse) : perm := match u with XLeak true => Unique | XRaw | XLeak false | XBoxed | XBox _ => SharedRW end.

Inductive xistep (t : target) (st : block) : ideal -> xop -> banswer -> ideal -> Prop :=
| XIShareOwner s :
    xistep t st s (XShare None) BDone (MkIdeal (iobjs s) (iused s) (iowned s) (S (ishares s)) (ibusy s) (icalls s))
| XIShare s i : (i < ishares s)%nat ->
    xistep t st s (XShare (Some i)) BDone (MkIdeal (iobjs s) (iused s) (iowned s) (S (ishares s)) (ibusy s) (icalls s))
| XIShareNot s i : (ishares s <= i)%nat -> xistep t st s (XShare (Some i)) BInvalid s
(* the block is as large as asked for, aligned, in the data region, and apart from all others; its first pointer is new *)
| XICallBlock s i c u a n l : (i < ishares s)%nat -> use_ok c u = true -> ucall_layout c = Some l ->
    let b := MkBlock (ptr a) (lsize l) in
    inside b st -> aligned (ptr a) (lalign l) -> Forall (fun o => disjoint b (iblk o)) (iobjs s) -> ~ In n (iused s) ->
    xistep t st s (XCall i c u) (BResponse (RBlock a) (Some n)) (with_objs s (iobjs s ++ [new_object b n (xuse_perm u)]) (n :: iused s))
| XICallOther s i c u r : (i < ishares s)%nat -> use_ok c u = true -> (forall a, r <> RBlock a) ->
    xistep t st s (XCall i c u) (BResponse r None) s
| XICallNot s i c u : (ishares s <= i)%nat \/ use_ok c u = false -> xistep t st s (XCall i c u) BInvalid s
| XIReset s : ibusy s = [] -> xistep t st s XReset BDone (MkIdeal [] (iused s) (iowned s) 0 [] (icalls s))
| XIResetNot s : ibusy s <> [] -> xistep t st s XReset BInvalid s
(* accesses follow the rules on the object alone, and are undefined behaviour exactly if they are by these rules *)
| XIAct s k a o o' n : nth_error (iobjs s) k = Some o -> act_ok (MkO (iblk o) (itags o)) a = true ->
    ideal_act (ibusy s) o a n = Some o' -> ~ In n (iused s) ->
    xistep t st s (XAct k a) (act_answer a n) (with_objs s (set_nth (iobjs s) k o') (used_after a n (iused s)))
| XIActUB s k a o n : nth_error (iobjs s) k = Some o -> act_ok (MkO (iblk o) (itags o)) a = true ->
    ideal_act (ibusy s) o a n = None ->
    xistep t st s (XAct k a) BUB s
| XIActNot s k a : (forall o, nth_error (iobjs s) k = Some o -> act_ok (MkO (iblk o) (itags o)) a = false) -> xistep t st s (XAct k a) BInvalid s
| XIEnter s : xistep t st s XEnter (BTag (icalls s)) (MkIdeal (iobjs s) (iused s) (iowned s) (ishares s) (icalls s :: ibusy s) (S (icalls s)))
| XIExit s c : xistep t st s (XExit c) BDone (MkIdeal (iobjs s) (iused s) (iowned s) (ishares s) (leave (ibusy s) c) (icalls s)).

(** A program and its answers *)
Inductive xiruns (t : target) (st : block) : ideal -> list (xop * banswer) -> ideal -> Prop :=
| XINil s : xiruns t st s [] s
| XICons s1 o r s2 h s3 : xistep t st s1 o r s2 -> xiruns t st s2 h s3 -> xiruns t st s1 ((o, r) :: h) s3.

Definition xideal_new : ideal := MkIdeal [] [] true 0 [] 0.

(** The layouts that the client asks for are valid. *)
Definition xop_ok (t : target) (o : xop) : Prop := match o with XCall _ c _ => valid_ucall t c | _ => True end.

(** The calls that were made, without the tags *)
Fixpoint ucalls_of (h : list (xop * banswer)) : list uevent :=
  match h with
  | [] => []
  | (XCall _ c _, BResponse r _) :: h => (c, r) :: ucalls_of h
  | (XReset, BDone) :: h => (UCall CReset, RUnit) :: ucalls_of h
  | _ :: h => ucalls_of h
  end.

Definition xplain (o : xop) : Prop := match o with XAct _ (CRetag _ _ _) => False | _ => True end.

(** The methods that return a LeakBox, and what is done with the result of a call: only a LeakBox is used as one.  [reset] is no call
    through a shared reference. *)
Definition returns_box (c : ucall) : Prop := match c with UBumpBox _ | UBumpArray _ _ => True | UCall _ => False end.
Definition used_as_box (u : xuse) : Prop := match u with XBox _ => True | XRaw | XLeak _ | XBoxed => False end.
Definition possible_use (c : ucall) (u : xuse) : Prop := c <> UCall CReset /\ (returns_box c <-> used_as_box u).
