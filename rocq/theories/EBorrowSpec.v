(** * EBorrowSpec: the ideal for ExitStack: each pinned value is an allocation of its own, of which the stack keeps a raw pointer. *)
From Verif Require Import Base Spec SyncModel SyncSpec UnsyncModel UnsyncSpec ExitModel BorrowModel BorrowSpec UBorrowModel EBorrowModel.

(** A slot: its block; layout of the type and whether it is Unpin; and what it contains.  A pinned value is an object, of which the
    stack keeps the raw pointer with the tag in [IPinned]. *)
Inductive istatus := IOpen | IPinned (o : iobj) (base : nat) | IOver.
Record islot := MkIS { is_blk : block; is_lay : layout; is_unpin : bool; is_status : istatus }.

(** [j_used]: tags that were given out; [j_chain]: the pinned values, last one first; [j_drop]: the values that are left, while a
    destructor runs, and its call *)
Record yideal := MkYI { j_slots : list islot; j_used : list nat; j_shares : nat; j_chain : list nat;
                        j_drop : option (list nat * nat); j_busy : list nat; j_calls : nat }.

Definition with_status (s : islot) (x : istatus) : islot := MkIS (is_blk s) (is_lay s) (is_unpin s) x.
Definition over_open (s : islot) : islot := match is_status s with IOpen => with_status s IOver | _ => s end.
Definition over_all (s : islot) : islot := with_status s IOver.

(** A value with only a raw pointer to it *)
Definition raw_object (b : block) (base : nat) : iobj := MkI b (fun _ => [MkItem base SharedRW None]) [].

(** A reference &mut T made from the raw pointer, with tag [n] *)
Definition make_ref (o : iobj) (base : nat) (unpin : bool) (prot : option nat) (n : nat) (o' : iobj) : Prop :=
  ideal_act [] o (CRetag base [(mut_kind unpin, iblk o)] prot) n = Some o'.

(** All values are gone and the memory is free. *)
Definition j_reset (s : yideal) : yideal := MkYI [] (j_used s) 0 [] None [] (j_calls s).

(** The next destructor: it gets a new reference to the value.  Without a value left, the stack is reset. *)
Inductive igo (s : yideal) (slots : list islot) : list nat -> banswer -> yideal -> Prop :=
| IGoEnd : igo s slots [] BDone (j_reset s)
| IGo k chain v o base d o' : nth_error slots k = Some v -> is_status v = IPinned o base -> make_ref o base (is_unpin v) (Some (j_calls s)) d o' -> ~ In d (j_used s) ->
    igo s slots (k :: chain) (BTag d)
      (MkYI (set_nth slots k (with_status v (IPinned o' base))) (d :: j_used s) 0 [] (Some (chain, j_calls s)) [j_calls s] (S (j_calls s))).

(** [unpin]: is the type Mem of the stack Unpin? *)
Inductive yistep (t : target) (st : block) (unpin : bool) : yideal -> yop -> banswer -> yideal -> Prop :=
| YIShareOwner s : j_drop s = None ->
    yistep t st unpin s (YShare None) BDone (MkYI (j_slots s) (j_used s) (S (j_shares s)) (j_chain s) None (j_busy s) (j_calls s))
| YIShare s i : j_drop s = None -> (i < j_shares s)%nat ->
    yistep t st unpin s (YShare (Some i)) BDone (MkYI (j_slots s) (j_used s) (S (j_shares s)) (j_chain s) None (j_busy s) (j_calls s))
| YIShareNot s f : j_drop s <> None \/ (exists i, f = Some i /\ (j_shares s <= i)%nat) -> yistep t st unpin s (YShare f) BInvalid s
(* a slot has room for the value, in the memory of the stack and apart from all others *)
| YISlot s i l p a : j_drop s = None -> (i < j_shares s)%nat ->
    inside (MkBlock (ptr a) (lsize (pin_layout t l))) st -> Forall (fun v => disjoint (MkBlock (ptr a) (lsize (pin_layout t l))) (is_blk v)) (j_slots s) ->
    yistep t st unpin s (YSlot i l p) (BResponse (RBlock a) None)
      (MkYI (j_slots s ++ [MkIS (MkBlock (ptr a) (lsize (pin_layout t l))) l p IOpen]) (j_used s) (j_shares s) (j_chain s) None (j_busy s) (j_calls s))
| YISlotOther s i l p r : j_drop s = None -> (i < j_shares s)%nat -> (forall a, r <> RBlock a) -> yistep t st unpin s (YSlot i l p) (BResponse r None) s
| YISlotNot s i l p : j_drop s <> None \/ (j_shares s <= i)%nat -> yistep t st unpin s (YSlot i l p) BInvalid s
(* the value is as large as its type, aligned, and in its slot; the client gets a reference that was made from the stack's pointer *)
| YIPin s k v b base n o : j_drop s = None -> nth_error (j_slots s) k = Some v -> is_status v = IOpen ->
    size b = lsize (is_lay v) -> aligned (start b) (lalign (is_lay v)) -> inside b (is_blk v) ->
    make_ref (raw_object b base) base (is_unpin v) None n o -> n <> base -> ~ In base (j_used s) -> ~ In n (j_used s) ->
    yistep t st unpin s (YPin k) (BTag n)
      (MkYI (set_nth (j_slots s) k (with_status v (IPinned o base))) (n :: base :: j_used s) (j_shares s) (k :: j_chain s) None (j_busy s) (j_calls s))
| YIPinNot s k : j_drop s <> None \/ (forall v, nth_error (j_slots s) k = Some v -> is_status v <> IOpen) -> yistep t st unpin s (YPin k) BInvalid s
(* pop_all is undefined behaviour if Mem is Unpin and a value is pinned; else the destructors run, last value first *)
| YIPop s r s' : j_drop s = None -> j_busy s = [] -> unpin = false \/ j_chain s = [] ->
    igo s (map over_open (j_slots s)) (j_chain s) r s' -> yistep t st unpin s YPop r s'
| YIPopUB s : j_drop s = None -> j_busy s = [] -> unpin = true -> j_chain s <> [] -> yistep t st unpin s YPop BUB s
| YIPopNot s : j_drop s <> None \/ j_busy s <> [] -> yistep t st unpin s YPop BInvalid s
| YIRet s chain c r s' : j_drop s = Some (chain, c) -> j_busy s = [c] -> igo s (j_slots s) chain r s' -> yistep t st unpin s YRet r s'
| YIRetNot s : (forall chain c, j_drop s = Some (chain, c) -> j_busy s <> [c]) -> yistep t st unpin s YRet BInvalid s
(* after a panic of a destructor the other values are lost; their memory is not used again *)
| YIPanic s : j_drop s <> None ->
    yistep t st unpin s YPanic BDone (MkYI (map over_all (j_slots s)) (j_used s) 0 [] None [] (j_calls s))
| YIPanicNot s : j_drop s = None -> yistep t st unpin s YPanic BInvalid s
(* accesses follow the rules on the value alone, and are undefined behaviour exactly if they are by these rules *)
| YIAct s k a v o o' base n : nth_error (j_slots s) k = Some v -> is_status v = IPinned o base -> act_ok (MkO (iblk o) (itags o)) a = true ->
    ideal_act (j_busy s) o a n = Some o' -> ~ In n (j_used s) ->
    yistep t st unpin s (YAct k a) (act_answer a n)
      (MkYI (set_nth (j_slots s) k (with_status v (IPinned o' base))) (used_after a n (j_used s)) (j_shares s) (j_chain s) (j_drop s) (j_busy s) (j_calls s))
| YIActUB s k a v o base n : nth_error (j_slots s) k = Some v -> is_status v = IPinned o base -> act_ok (MkO (iblk o) (itags o)) a = true ->
    ideal_act (j_busy s) o a n = None -> yistep t st unpin s (YAct k a) BUB s
| YIActNot s k a : (forall v o base, nth_error (j_slots s) k = Some v -> is_status v = IPinned o base -> act_ok (MkO (iblk o) (itags o)) a = false) ->
    yistep t st unpin s (YAct k a) BInvalid s
| YIEnter s : yistep t st unpin s YEnter (BTag (j_calls s))
    (MkYI (j_slots s) (j_used s) (j_shares s) (j_chain s) (j_drop s) (j_calls s :: j_busy s) (S (j_calls s)))
| YIExit s c : (forall chain, j_drop s <> Some (chain, c)) -> yistep t st unpin s (YExit c) BDone
    (MkYI (j_slots s) (j_used s) (j_shares s) (j_chain s) (j_drop s) (leave (j_busy s) c) (j_calls s))
| YIExitNot s c chain : j_drop s = Some (chain, c) -> yistep t st unpin s (YExit c) BInvalid s.

(** A program and its answers *)
Inductive yiruns (t : target) (st : block) (unpin : bool) : yideal -> list (yop * banswer) -> yideal -> Prop :=
| YINil s : yiruns t st unpin s [] s
| YICons s1 o r s2 h s3 : yistep t st unpin s1 o r s2 -> yiruns t st unpin s2 h s3 -> yiruns t st unpin s1 ((o, r) :: h) s3.

Definition yideal_new : yideal := MkYI [] [] 0 [] None [] 0.

(** The layouts of the values are valid, and so are those of their slots. *)
Definition yop_ok (t : target) (o : yop) : Prop := match o with YSlot _ l _ => type_layout t l /\ type_layout t (pin_layout t l) | _ => True end.

(** The ExitStack is somewhere in memory: its fields are apart. *)
Definition stack_place (t : target) (pl : places) : Prop :=
  valid_region t (p_st pl) /\ disjoint (p_hd pl) (p_st pl) /\ disjoint (p_hd pl) (p_tp pl) /\ disjoint (p_st pl) (p_tp pl).

(** The number of values that are pinned *)
Definition pinned_now (s : yideal) : nat := length (j_chain s).

(** The calls of the memory that were made, without the tags *)
Fixpoint ecalls_of (t : target) (h : list (yop * banswer)) : list uevent :=
  match h with
  | [] => []
  | (YSlot _ l _, BResponse r _) :: h => (UBumpBox (pin_layout t l), r) :: ecalls_of t h
  | (YPop, BDone) :: h => (UCall CReset, RUnit) :: ecalls_of t h
  | (YRet, BDone) :: h => (UCall CReset, RUnit) :: ecalls_of t h
  | _ :: h => ecalls_of t h
  end.

(** Values are only read and written, through the last reference to each of them: the one of [pin], and in a destructor its argument. *)
Definition latest (w : yworld) (o : yop) : Prop :=
  match o with
  | YAct k a => exists s n tags b, nth_error (yslots w) k = Some (s, SPinned (n :: tags)) /\ (a = CRead n b \/ a = CWrite n b)
  | _ => True
  end.
Fixpoint all_latest (t : target) (pl : places) (unpin : bool) (w : yworld) (os : list yop) : Prop :=
  match os with [] => True | o :: os => latest w o /\ all_latest t pl unpin (fst (ystep t pl unpin w o)) os end.
