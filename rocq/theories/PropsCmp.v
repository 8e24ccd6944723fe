(** * C80: comparing, hashing and indexing containers is comparing, hashing and indexing their contents. *)
From Verif Require Import Base Spec BaseFacts SyncModel SyncSpec PropsSync SyncMemModel UninitModel UninitSpec PropsUninit
  FixedVecModel FixedVecSpec FixedVecProofs FixedVecPool FixedVecAcct FixedVecIter PropsFixedVec OwnModel OwnSpec OwnProofs PropsOwn RcModel RcSpec RcProofs RcRefine RcAcct RcMore PropsRc
  CmpModel CmpSpec CmpProofs.

(** Two vectors holding 11, 13, 14 and 11, 15, at different addresses and with different capacities; whatever is in
    memory behind their elements. *)
Definition ex_gv : fvec := {| funinit := MkView 8192 16 2; flen := 2 |}.
Definition ex_g2 : eheap := fun a => if a =? 8192 then Some 11 else if a =? 8200 then Some 15 else if a =? 4120 then Some 99 else None.
Definition ex_int : impls Z := {|
  e_eq := Z.eqb; e_ne x y := negb (x =? y); e_pcmp x y := Some (x ?= y); e_lt := Z.ltb; e_le := Z.leb;
  e_gt x y := y <? x; e_ge x y := y <=? x; e_cmp := Z.compare; e_hash x := [x] |}.
(** Numbers where 0 is not comparable to anything and not equal to itself, like a NaN *)
Definition ex_float : impls Z := {|
  e_eq x y := (x =? y) && negb (x =? 0); e_ne x y := negb ((x =? y) && negb (x =? 0));
  e_pcmp x y := if (x =? 0) || (y =? 0) then None else Some (x ?= y);
  e_lt := Z.ltb; e_le := Z.leb; e_gt x y := y <? x; e_ge x y := y <=? x; e_cmp := Z.compare; e_hash x := [x] |}.
Example ex_gv_ok : vec_ok (x64 false) ex_u64 ex_g2 ex_gv [11; 15].
Proof.
  split; [|split; [vm_compute; split; congruence|reflexivity]].
  split; [unfold valid_region; vm_compute; repeat split; congruence|]. split; [apply ex_u64_type|]. exists 1024. reflexivity.
Qed.

(** Two vectors are equal iff they have the same length and equal elements at every position, whatever their
    addresses, capacities and the memory around; [!=] is its negation.  Uninitialised memory is never compared. *)
Theorem C80_equal : forall t I l h v g w xs ys, vec_ok t l h v xs -> vec_ok t l g w ys ->
  exists b, f_eq I l h v g w = Some b /\ f_ne I l h v g w = Some (negb b) /\
    (b = true <-> pointwise (fun x y => e_eq I x y = true) xs ys).
Proof.
  intros t I l h v g w xs ys (_ & _ & H) (_ & _ & G). unfold f_eq, f_ne, slice_ne. rewrite H, G.
  destruct (slice_eq_spec I xs ys) as (b & E & B). exists b. rewrite E. auto.
Qed.
Print Assumptions C80_equal.

Example C80_equal_nonvacuous :
  f_eq ex_int ex_u64 ex_h3 ex_fv ex_g2 ex_gv = Some false /\ f_eq ex_int ex_u64 ex_h3 ex_fv ex_h3 ex_fv = Some true.
Proof. split; reflexivity. Qed.

(** Order is lexicographic: decided by the first elements that are not "equal" in the elements' order; a vector that
    is a beginning of the other is smaller; if the first such pair has no order, neither have the vectors. *)
Theorem C80_partial_order : forall t I l h v g w xs ys, vec_ok t l h v xs -> vec_ok t l g w ys ->
  let same x y := e_pcmp I x y = Some Eq in
  exists c, f_pcmp I l h v g w = Some c /\
    (c = Some Lt <-> lex_below same (fun x y => e_pcmp I x y = Some Lt) xs ys) /\
    (c = Some Eq <-> pointwise same xs ys) /\
    (c = Some Gt <-> lex_below (fun y x => same x y) (fun y x => e_pcmp I x y = Some Gt) ys xs) /\
    (c = None <-> lex_unordered same (fun x y => e_pcmp I x y = None) xs ys) /\
    f_lt I l h v g w = Some (match c with Some Lt => true | _ => false end) /\
    f_le I l h v g w = Some (match c with Some Lt | Some Eq => true | _ => false end) /\
    f_gt I l h v g w = Some (match c with Some Gt => true | _ => false end) /\
    f_ge I l h v g w = Some (match c with Some Gt | Some Eq => true | _ => false end).
Proof.
  intros t I l h v g w xs ys (_ & _ & H) (_ & _ & G) same. unfold f_pcmp, f_lt, f_le, f_gt, f_ge, slice_lt, slice_le, slice_gt, slice_ge.
  rewrite H, G. destruct (slice_pcmp_spec I xs ys) as (c & E & C1 & C2 & C3 & C4). exists c. rewrite E. repeat (split; [assumption || reflexivity|]). reflexivity.
Qed.
Print Assumptions C80_partial_order.

Theorem C80_order : forall t I l h v g w xs ys, vec_ok t l h v xs -> vec_ok t l g w ys ->
  let same x y := e_cmp I x y = Eq in
  exists c, f_cmp I l h v g w = Some c /\
    (c = Lt <-> lex_below same (fun x y => e_cmp I x y = Lt) xs ys) /\
    (c = Eq <-> pointwise same xs ys) /\
    (c = Gt <-> lex_below (fun y x => same x y) (fun y x => e_cmp I x y = Gt) ys xs).
Proof. intros t I l h v g w xs ys (_ & _ & H) (_ & _ & G) same. unfold f_cmp. rewrite H, G. apply slice_cmp_spec. Qed.
Print Assumptions C80_order.

Example C80_order_nonvacuous :
  f_cmp ex_int ex_u64 ex_h3 ex_fv ex_g2 ex_gv = Some Lt /\ f_pcmp ex_int ex_u64 ex_g2 ex_gv ex_h3 ex_fv = Some (Some Gt) /\
  f_pcmp ex_float ex_u64 ex_h3 ex_fv ex_g2 ex_gv = Some (Some Lt) /\
  f_pcmp ex_float ex_u64 ex_h3 ex_fv (fun a => if a =? 8200 then Some 0 else ex_g2 a) ex_gv = Some None /\
  f_eq ex_float ex_u64 (fun _ => Some 0) ex_gv (fun _ => Some 0) ex_gv = Some false.
Proof. repeat split; reflexivity. Qed.

(** Vectors are as lawful as their elements, and everything depends on the contents only: there is one set of
    functions on sequences, lawful if the elements' are, that gives the answers for all vectors. *)
Theorem C80_laws : forall I : impls elem, exists S : impls (list elem), (lawful I -> lawful S) /\
  forall t l h v g w xs ys, vec_ok t l h v xs -> vec_ok t l g w ys ->
    f_eq I l h v g w = Some (e_eq S xs ys) /\ f_ne I l h v g w = Some (e_ne S xs ys) /\
    f_pcmp I l h v g w = Some (e_pcmp S xs ys) /\ f_cmp I l h v g w = Some (e_cmp S xs ys) /\
    f_lt I l h v g w = Some (e_lt S xs ys) /\ f_le I l h v g w = Some (e_le S xs ys) /\
    f_gt I l h v g w = Some (e_gt S xs ys) /\ f_ge I l h v g w = Some (e_ge S xs ys) /\
    f_hash I l h v = Some (e_hash S xs).
Proof.
  intros I. exists (slice_impls I). split; [apply slice_lawful|]. intros t l h v g w xs ys (_ & _ & H) (_ & _ & G).
  unfold f_eq, f_ne, f_pcmp, f_cmp, f_lt, f_le, f_gt, f_ge, f_hash, slice_ne, slice_lt, slice_le, slice_gt, slice_ge. rewrite H, G.
  cbn [slice_impls e_eq e_ne e_pcmp e_cmp e_lt e_le e_gt e_ge e_hash]. unfold slice_ne, slice_lt, slice_le, slice_gt, slice_ge.
  destruct (slice_eq_spec I xs ys) as (b & -> & _), (slice_pcmp_spec I xs ys) as (c & -> & _), (slice_cmp_spec I xs ys) as (d & -> & _).
  rewrite slice_hash_spec. cbn. repeat split.
Qed.
Print Assumptions C80_laws.

Example C80_laws_nonvacuous : lawful ex_int.
Proof.
  constructor; cbn [ex_int e_eq e_ne e_pcmp e_lt e_le e_gt e_ge e_cmp e_hash]; intros.
  - apply Z.eqb_refl.
  - apply Z.eqb_sym.
  - rewrite Z.eqb_eq in *. congruence.
  - reflexivity.
  - rewrite Z.eqb_eq. apply Z.compare_eq_iff.
  - apply Z.compare_antisym.
  - rewrite Z.compare_lt_iff in *. lia.
  - reflexivity.
  - unfold Z.ltb. destruct (x ?= y); reflexivity.
  - unfold Z.leb. destruct (x ?= y); reflexivity.
  - unfold Z.ltb. rewrite Z.compare_antisym. destruct (x ?= y); reflexivity.
  - unfold Z.leb. rewrite Z.compare_antisym. destruct (x ?= y); reflexivity.
  - rewrite Z.eqb_eq in *. congruence.
Qed.

(** A vector hashes as the slice that it borrows as (so that it can be looked up by a slice): the length, then every
    element in order. *)
Theorem C80_hash : forall t I l h v xs, vec_ok t l h v xs ->
  f_hash I l h v = Some (Z.of_nat (length xs) :: flat_map (e_hash I) xs) /\
  f_borrow l h v = map Some xs /\ f_as_ref l h v = map Some xs /\ f_hash I l h v = slice_hash I (f_borrow l h v).
Proof.
  intros t I l h v xs (_ & _ & H). unfold f_hash, f_borrow, f_as_ref. rewrite H. split; [apply slice_hash_spec|]. auto.
Qed.
Print Assumptions C80_hash.

(** Indexing: the element, or a panic exactly when out of bounds; the capacity behind the length is not accessible. *)
Theorem C80_index : forall t l h v xs i a b, vec_ok t l h v xs -> 0 <= i -> 0 <= a ->
  (forall x, nth_error xs (Z.to_nat i) = Some x -> f_index l h v i = Ret (Some x)) /\
  (len xs <= i -> f_index l h v i = Panic PN_index) /\
  (forall pre mid post, xs = pre ++ mid ++ post -> a = len pre -> b = len pre + len mid -> f_index_range l h v a b = Ret (map Some mid)) /\
  (b < a \/ len xs < b -> f_index_range l h v a b = Panic PN_index).
Proof.
  intros t l h v xs i a b (_ & _ & H) I0 A0. unfold FixedVecSpec.holds in H. unfold f_index, f_index_range. rewrite !H. unfold slice_index, slice_range. rewrite map_length.
  fold (len xs). split; [|split; [|split]].
  - intros x N. assert (Z.to_nat i < length xs)%nat by (apply nth_error_Some; congruence).
    destruct (Z.ltb_spec i (len xs)); [|unfold len in *; lia]. rewrite nth_error_map, N. reflexivity.
  - intros L. destruct (Z.ltb_spec i (len xs)); [lia|reflexivity].
  - intros pre mid post -> -> ->. rewrite !len_app. pose proof (len_nonneg mid). pose proof (len_nonneg post).
    destruct (Z.leb_spec (len pre) (len pre + len mid)); [|lia]. destruct (Z.leb_spec (len pre + len mid) (len pre + (len mid + len post))); [|lia].
    cbn [andb]. replace (len pre + len mid - len pre) with (len mid) by lia. unfold len. rewrite !Nat2Z.id, !map_app.
    rewrite <- (map_length Some pre) at 1. rewrite skipn_app, Nat.sub_diag, skipn_all. cbn [app skipn]. rewrite <- (map_length Some mid) at 1.
    rewrite firstn_app, Nat.sub_diag, firstn_all. cbn [firstn]. rewrite app_nil_r. reflexivity.
  - intros L. destruct (Z.leb_spec a b); [|reflexivity]. destruct (Z.leb_spec b (len xs)); [lia|reflexivity].
Qed.
Print Assumptions C80_index.

(** Assigning to an index replaces that element only. *)
Theorem C80_index_set : forall t l h v pre x post e, valid_target t -> vec_ok t l h v (pre ++ x :: post) -> (lsize l = 0 -> e = 0) ->
  exists h', f_index_set l h v (len pre) e = Ret h' /\ vec_ok t l h' v (pre ++ e :: post) /\
    same_outside (region (funinit v)) h h'.
Proof.
  intros t l h v pre x post e V OK ZE. pose proof OK as (W & (L0 & L1) & H). unfold f_index_set, slice_index. rewrite H, map_length. fold (len (pre ++ x :: post)).
  assert (LL : len (pre ++ x :: post) = len pre + 1 + len post) by (rewrite len_app, len_cons; lia).
  pose proof (len_nonneg pre). pose proof (len_nonneg post).
  destruct (Z.ltb_spec (len pre) (len (pre ++ x :: post))); [|lia].
  rewrite nth_error_map. unfold len at 1. rewrite Nat2Z.id, nth_error_app2, Nat.sub_diag by lia. cbn [nth_error option_map unwrap obind].
  pose proof (ok_rep _ _ _ _ _ OK) as R. destruct (rep_facts t l h v _ _ V R) as (F1 & F2 & F3 & F4 & F5 & F6 & F7).
  destruct R as (RW & RC & RL & RLC & RS & RZ).
  eexists. split; [reflexivity|].
  assert (FR : same_outside (region (funinit v)) h (h_write l h (slot l v (len pre)) e)).
  { apply write_frame; [exact F1|]. intros P. unfold in_block, slot. cbn. nia. }
  split; [|exact FR]. apply (rep_ok t l _ v (f_capacity t l v) _ V). split; [exact RW|]. split; [exact RC|].
  split; [rewrite len_app, len_cons; lia|]. split; [rewrite len_app, len_cons; lia|]. split.
  - apply slots_app in RS as (S1 & S2). apply slots_cons in S2 as (S2 & S3). apply slots_app.
    assert (SA : slots l (h_write l h (slot l v (len pre)) e) (uptr (funinit v)) (pre ++ [e])) by (apply slots_write; auto).
    apply slots_app in SA as (SA & SB). apply slots_single in SB.
    split; [exact SA|]. apply slots_cons. split; [exact SB|].
    destruct (Z.eq_dec (lsize l) 0) as [Z0|NZ].
    + unfold h_write. rewrite Z0. rewrite Z0 in S3. exact S3.
    + refine (slots_frame l (MkBlock (slot l v (len pre)) (lsize l)) h _ _ post F1 _ _ S3).
      * apply write_frame; [exact F1|]. intros _. unfold in_block. cbn. lia.
      * apply disjoint_intro; unfold slot; cbn [start size]; left; lia.
  - intros Z0. specialize (RZ Z0). apply Forall_app in RZ as (Z1 & Z2). apply Forall_app. split; [exact Z1|]. inversion Z2; subst. constructor; auto.
Qed.
Print Assumptions C80_index_set.

Example C80_index_nonvacuous : vec_ok (x64 false) ex_u64 ex_h3 ex_fv ([11] ++ 13 :: [14]) /\
  f_index ex_u64 ex_h3 ex_fv 2 = Ret (Some 14) /\ f_index ex_u64 ex_h3 ex_fv 3 = Panic PN_index /\
  f_index_range ex_u64 ex_h3 ex_fv 1 3 = Ret [Some 13; Some 14] /\ f_index_range ex_u64 ex_h3 ex_fv 1 4 = Panic PN_index /\
  match f_index_set ex_u64 ex_h3 ex_fv 1 20 with Ret h => f_as_slice ex_u64 h ex_fv = map Some [11; 20; 14] | Panic _ => False end.
Proof. split; [apply ex_fv_ok|]. repeat split; reflexivity. Qed.

(** Boxes (and LeakBoxes): after any history, comparing or hashing boxes of one type compares or hashes the values
    that were last put into them. *)
Theorem C80_box : forall t us m cs s I i j k k' bs bs', own_reach t us m cs s ->
  nth_error (otoks s) i = Some k -> nth_error (otoks s) j = Some k' -> olay k = olay k' ->
  life (events_of i (olog s)) = Some (Some bs) -> life (events_of j (olog s)) = Some (Some bs') ->
  own_eq I (omem s) (olay k) (oview k) (oview k') = e_eq I bs bs' /\
  own_ne I (omem s) (olay k) (oview k) (oview k') = e_ne I bs bs' /\
  own_pcmp I (omem s) (olay k) (oview k) (oview k') = e_pcmp I bs bs' /\
  own_lt I (omem s) (olay k) (oview k) (oview k') = e_lt I bs bs' /\
  own_le I (omem s) (olay k) (oview k) (oview k') = e_le I bs bs' /\
  own_ge I (omem s) (olay k) (oview k) (oview k') = e_ge I bs bs' /\
  own_gt I (omem s) (olay k) (oview k) (oview k') = e_gt I bs bs' /\
  own_cmp I (omem s) (olay k) (oview k) (oview k') = e_cmp I bs bs' /\
  own_hash I (omem s) (olay k) (oview k) = e_hash I bs.
Proof.
  intros t us m cs s I i j k k' bs bs' R N N' LE L L'.
  rewrite (C54_lifecycle t us m cs s i k R N) in L. rewrite (C54_lifecycle t us m cs s j k' R N') in L'.
  destruct (with_value (okd k)); [|discriminate]. destruct (with_value (okd k')); [|discriminate].
  injection L as <-. injection L' as <-. rewrite <- LE. repeat split.
Qed.
Print Assumptions C80_box.

(** Bytes, compared as unsigned numbers in big-endian order; [None] never occurs *)
Definition ex_bytes : impls (list (option Z)) :=
  let num bs := fold_left (fun n b => n * 256 + match b with Some x => x | None => 0 end) bs 0 in {|
  e_eq x y := num x =? num y; e_ne x y := negb (num x =? num y); e_pcmp x y := Some (num x ?= num y); e_lt x y := num x <? num y;
  e_le x y := num x <=? num y; e_gt x y := num y <? num x; e_ge x y := num y <=? num x; e_cmp x y := num x ?= num y; e_hash x := [num x] |}.
Example C80_box_nonvacuous :
  let us := [(MkView 4096 16 0, ex_u32); (MkView 4112 8 0, ex_u32)] in
  let s := fst (orun (x64 true) (oinit us (fun _ => None)) [(0%nat, ONew (ex_b4 7)); (1%nat, ONew (ex_b4 9))]) in
  map okd (otoks s) = [OBox; OBox] /\ life (events_of 0 (olog s)) = Some (Some (ex_b4 7)) /\ life (events_of 1 (olog s)) = Some (Some (ex_b4 9)) /\
  own_lt ex_bytes (omem s) ex_u32 (MkView 4096 16 0) (MkView 4112 8 0) = true.
Proof. vm_compute. auto. Qed.

(** Rc: after any history, comparing or hashing handles compares or hashes the values that the reference semantics
    (C47) gives for them; two handles of the same value are equal if the type's equality is reflexive. *)
Theorem C80_rc : forall t us os s (I : impls rvalue) i j k k', valid_target t -> rc_reach t us os s ->
  tok s i = Some k -> tok s j = Some k' -> tkind k = KStrong -> tkind k' = KStrong ->
  exists v w, snd (sstep t (fst (srun t (sinit us) os)) (RDeref i)) = AVal v /\ snd (sstep t (fst (srun t (sinit us) os)) (RDeref j)) = AVal w /\
    rc_eq I s i j = Some (e_eq I v w) /\ rc_ne I s i j = Some (e_ne I v w) /\ rc_pcmp I s i j = Some (e_pcmp I v w) /\
    rc_lt I s i j = Some (e_lt I v w) /\ rc_le I s i j = Some (e_le I v w) /\ rc_ge I s i j = Some (e_ge I v w) /\
    rc_gt I s i j = Some (e_gt I v w) /\ rc_cmp I s i j = Some (e_cmp I v w) /\ rc_hash I s i = Some (e_hash I v) /\
    (snd (rstep t s (RPtrEq i j)) = ABool true -> v = w).
Proof.
  intros t us os s I i j k k' V H T T' K K'.
  destruct (box_facts t us os s i k V H T ltac:(congruence)) as (b & HB & _).
  destruct (box_facts t us os s j k' V H T' ltac:(congruence)) as (b' & HB' & _).
  destruct (reach_rel t us os s V H) as (R & L). assert (LT : Z.of_nat (length (rtoks s)) < usize_max t) by lia.
  destruct (step_rel t s _ (RDeref i) V R Logic.I (or_intror LT) ltac:(discriminate)) as (_ & A1).
  destruct (step_rel t s _ (RDeref j) V R Logic.I (or_intror LT) ltac:(discriminate)) as (_ & A2).
  exists (bval b), (bval b'). rewrite <- A1, <- A2. cbn [rstep]. rewrite T, T', K, K'. unfold at_box. rewrite HB, HB'. cbn [snd].
  assert (V1 : rc_value s i = Some (bval b)) by (unfold rc_value; rewrite T, K, HB; reflexivity).
  assert (V2 : rc_value s j = Some (bval b')) by (unfold rc_value; rewrite T', K', HB'; reflexivity).
  unfold rc_eq, rc_ne, rc_pcmp, rc_lt, rc_le, rc_ge, rc_gt, rc_cmp, rc_hash, rc_two. rewrite V1, V2. repeat (split; [reflexivity|]).
  destruct (Z.eqb_spec (uptr (tview k)) (uptr (tview k'))) as [E|E]; [|intros [= ]]. intros _. rewrite E in HB. congruence.
Qed.
Print Assumptions C80_rc.

Example C80_rc_nonvacuous :
  rc_lt ex_int (ex_at 17) 1 4 = Some true /\ rc_eq ex_int (ex_at 2) 0 2 = Some true /\ snd (rstep (x64 false) (ex_at 2) (RPtrEq 0 2)) = ABool true.
Proof. vm_compute. auto. Qed.
