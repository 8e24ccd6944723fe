(** * TExitSpec: the ideal for ExitStack under Tree Borrows: each pinned value is an allocation of its own, of which the stack keeps a raw pointer. *)
From Verif Require Import Base Spec SyncModel SyncSpec UnsyncModel UnsyncSpec ExitModel BorrowModel BorrowSpec UBorrowModel EBorrowModel TreeModel TreeSpec TExitModel.

(** A slot: its block; layout of the type, whether it is Unpin, and whether it has interior mutability; and what it contains.  A pinned
    value is an object, of which the stack keeps the raw pointer with the tag in [IZPinned]. *)
Inductive izstatus := IZOpen | IZPinned (o : nobj) (base : nat) | IZOver.
Record izslot := MkIZ { iz_blk : block; iz_lay : layout; iz_unpin : bool; iz_im : bool; iz_status : izstatus }.

(** [i_used]: tags that were given out; [i_chain]: the pinned values, last one first; [i_drop]: the values that are left, while a destructor runs *)
Record zideal := MkZI { i_slots : list izslot; i_used : list nat; i_shares : nat; i_chain : list nat; i_drop : option (list nat) }.

Definition iz_with (s : izslot) (x : izstatus) : izslot := MkIZ (iz_blk s) (iz_lay s) (iz_unpin s) (iz_im s) x.
Definition iz_end (s : izslot) : izslot := match iz_status s with IZOpen => iz_with s IZOver | _ => s end.
Definition iz_over (s : izslot) : izslot := iz_with s IZOver.

(** A value with only one pointer to it.  It was made from a reference &mut T, so that reads through other pointers than those made from it
    freeze it; not so if T is not Unpin: then the reference does not claim to be unique, and nothing freezes it. *)
Definition pinned_value (b : block) (base : nat) (unpin : bool) : nobj :=
  MkN b (MkTree (fun y => if Nat.eqb y base then [base] else []) (fun _ _ => if unpin then PActive else PCell)) [].

(** A new reference &mut T, with tag [n], made from the raw pointer *)
Definition ref_from (o : nobj) (base : nat) (unpin im : bool) (n : nat) (o' : nobj) : Prop :=
  exists r, tree_retag n base unpin [(if unpin then im else true, nblk o)] (ntree o) = Some r /\ o' = MkN (nblk o) r (n :: ntags o).

(** All bytes of the value are read through a pointer that has nothing to do with those of the value. *)
Definition read_elsewhere (o : nobj) : nobj := MkN (nblk o) (MkTree (line (ntree o)) (fun x y => foreign false (perms (ntree o) x y))) (ntags o).
Definition iz_read (s : izslot) : izslot := match iz_status s with IZPinned o base => iz_with s (IZPinned (read_elsewhere o) base) | _ => s end.

(** All values are gone and the memory is free. *)
Definition i_reset (s : zideal) : zideal := MkZI [] (i_used s) 0 [] None.

(** The next destructor: it gets a new reference to the value.  Without a value left, the stack is reset. *)
Inductive izgo (s : zideal) (slots : list izslot) : list nat -> zanswer -> zideal -> Prop :=
| IZGoEnd : izgo s slots [] ZDone (i_reset s)
| IZGo k chain v o base d o' : nth_error slots k = Some v -> iz_status v = IZPinned o base -> ref_from o base (iz_unpin v) (iz_im v) d o' -> ~ In d (i_used s) ->
    izgo s slots (k :: chain) (ZTag d) (MkZI (set_nth slots k (iz_with v (IZPinned o' base))) (d :: i_used s) 0 [] (Some chain)).

(** [unpin]: is the type Mem of the stack Unpin? *)
Inductive zistep (t : target) (st : block) (unpin : bool) : zideal -> zop -> zanswer -> zideal -> Prop :=
| ZIShareOwner s : i_drop s = None -> zistep t st unpin s (ZShare None) ZDone (MkZI (i_slots s) (i_used s) (S (i_shares s)) (i_chain s) None)
| ZIShare s i : i_drop s = None -> (i < i_shares s)%nat ->
    zistep t st unpin s (ZShare (Some i)) ZDone (MkZI (i_slots s) (i_used s) (S (i_shares s)) (i_chain s) None)
| ZIShareNot s f : i_drop s <> None \/ (exists i, f = Some i /\ (i_shares s <= i)%nat) -> zistep t st unpin s (ZShare f) ZInvalid s
(* a slot has room for the value, in the memory of the stack and apart from all others *)
| ZISlot s i l p im a : i_drop s = None -> (i < i_shares s)%nat ->
    inside (MkBlock (ptr a) (lsize (pin_layout t l))) st -> Forall (fun v => disjoint (MkBlock (ptr a) (lsize (pin_layout t l))) (iz_blk v)) (i_slots s) ->
    zistep t st unpin s (ZSlot i l p im) (ZResponse (RBlock a))
      (MkZI (i_slots s ++ [MkIZ (MkBlock (ptr a) (lsize (pin_layout t l))) l p im IZOpen]) (i_used s) (i_shares s) (i_chain s) None)
| ZISlotOther s i l p im r : i_drop s = None -> (i < i_shares s)%nat -> (forall a, r <> RBlock a) -> zistep t st unpin s (ZSlot i l p im) (ZResponse r) s
| ZISlotNot s i l p im : i_drop s <> None \/ (i_shares s <= i)%nat -> zistep t st unpin s (ZSlot i l p im) ZInvalid s
(* the value is as large as its type, aligned, and in its slot; the client gets a reference that was made from the stack's pointer *)
| ZIPin s k v b base n o : i_drop s = None -> nth_error (i_slots s) k = Some v -> iz_status v = IZOpen ->
    size b = lsize (iz_lay v) -> aligned (start b) (lalign (iz_lay v)) -> inside b (iz_blk v) ->
    ref_from (pinned_value b base (iz_unpin v)) base (iz_unpin v) (iz_im v) n o -> n <> base -> ~ In base (i_used s) -> ~ In n (i_used s) ->
    zistep t st unpin s (ZPin k) (ZTag n)
      (MkZI (set_nth (i_slots s) k (iz_with v (IZPinned o base))) (n :: base :: i_used s) (i_shares s) (k :: i_chain s) None)
| ZIPinNot s k : i_drop s <> None \/ (forall v, nth_error (i_slots s) k = Some v -> iz_status v <> IZOpen) -> zistep t st unpin s (ZPin k) ZInvalid s
(* if Mem is Unpin then pop_all reads all values through its own unique reference; then the destructors run, last value first *)
| ZIPop s r s' : i_drop s = None -> izgo s (map (fun v => iz_end (if unpin then iz_read v else v)) (i_slots s)) (i_chain s) r s' -> zistep t st unpin s ZPop r s'
| ZIPopNot s : i_drop s <> None -> zistep t st unpin s ZPop ZInvalid s
| ZIRet s chain r s' : i_drop s = Some chain -> izgo s (i_slots s) chain r s' -> zistep t st unpin s ZRet r s'
| ZIRetNot s : i_drop s = None -> zistep t st unpin s ZRet ZInvalid s
(* after a panic of a destructor the other values are lost; their memory is not used again *)
| ZIPanic s : i_drop s <> None -> zistep t st unpin s ZPanic ZDone (MkZI (map iz_over (i_slots s)) (i_used s) 0 [] None)
| ZIPanicNot s : i_drop s = None -> zistep t st unpin s ZPanic ZInvalid s
(* accesses follow the rules on the value alone, and are undefined behaviour exactly if they are by these rules *)
| ZIAct s k a v o base r n : nth_error (i_slots s) k = Some v -> iz_status v = IZPinned o base -> nact_ok (MkO (nblk o) (ntags o)) a = true ->
    tree_act n a (ntree o) = Some r -> ~ In n (i_used s) ->
    zistep t st unpin s (ZAct k a) (if makes_tag a then ZTag n else ZDone)
      (MkZI (set_nth (i_slots s) k (iz_with v (IZPinned (MkN (nblk o) r (tags_after n a (ntags o))) base))) (tags_after n a (i_used s)) (i_shares s) (i_chain s) (i_drop s))
| ZIActUB s k a v o base n : nth_error (i_slots s) k = Some v -> iz_status v = IZPinned o base -> nact_ok (MkO (nblk o) (ntags o)) a = true ->
    tree_act n a (ntree o) = None -> zistep t st unpin s (ZAct k a) ZUB s
| ZIActNot s k a : (forall v o base, nth_error (i_slots s) k = Some v -> iz_status v = IZPinned o base -> nact_ok (MkO (nblk o) (ntags o)) a = false) ->
    zistep t st unpin s (ZAct k a) ZInvalid s.

(** A program and its answers *)
Inductive ziruns (t : target) (st : block) (unpin : bool) : zideal -> list (zop * zanswer) -> zideal -> Prop :=
| ZINil s : ziruns t st unpin s [] s
| ZICons s1 o r s2 h s3 : zistep t st unpin s1 o r s2 -> ziruns t st unpin s2 h s3 -> ziruns t st unpin s1 ((o, r) :: h) s3.

Definition zideal_new : zideal := MkZI [] [] 0 [] None.

(** The layouts of the values are valid, and so are those of their slots. *)
Definition zop_ok (t : target) (o : zop) : Prop := match o with ZSlot _ l _ _ => type_layout t l /\ type_layout t (pin_layout t l) | _ => True end.

(** The calls of the memory that were made, without the tags *)
Fixpoint zcalls_of (t : target) (h : list (zop * zanswer)) : list uevent :=
  match h with
  | [] => []
  | (ZSlot _ l _ _, ZResponse r) :: h => (UBumpBox (pin_layout t l), r) :: zcalls_of t h
  | (ZPop, ZDone) :: h => (UCall CReset, RUnit) :: zcalls_of t h
  | (ZRet, ZDone) :: h => (UCall CReset, RUnit) :: zcalls_of t h
  | _ :: h => zcalls_of t h
  end.

(** Values are only read and written, through the last reference to each of them: the one of [pin], and in a destructor its argument.  If
    Mem is Unpin then destructors only read those that are Unpin. *)
Definition zlatest (unpin : bool) (w : zworld) (o : zop) : Prop :=
  match o with
  | ZAct k a => exists z n tags b, nth_error (zslots w) k = Some (z, SPinned (n :: tags)) /\
      (a = NRead n b \/ a = NWrite n b /\ (zdrop w = None \/ unpin && zunpin z = false))
  | _ => True
  end.
Fixpoint all_zlatest (t : target) (pl : places) (unpin : bool) (w : zworld) (os : list zop) : Prop :=
  match os with [] => True | o :: os => zlatest unpin w o /\ all_zlatest t pl unpin (fst (zstep t pl unpin w o)) os end.
