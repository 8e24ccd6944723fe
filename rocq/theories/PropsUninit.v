(** * Claims about uninitialised regions (C29-C36, C75). *)
From Verif Require Import Base Spec BaseFacts SyncModel SyncSpec SyncProofs PropsSync
  UninitModel UninitSpec UninitProofs.

(** Examples: 30 bytes at 4096 and at 4100, as slice of u64 *)
Definition ex_v : uview := {| uptr := 4096; ulen := 30; umeta := 3 |}.
Definition ex_u32 : layout := {| lsize := 4; lalign := 4 |}.
Example ex_u64_type : type_layout (x64 false) ex_u64.
Proof. apply ex_layouts_ok. Qed.
Example ex_u32_type : type_layout (x64 false) ex_u32.
Proof.
  split; [|exists 1; reflexivity]. unfold valid_layout, ex_u32. cbn [lsize lalign].
  split; [lia|]. split; [exists 2; split; [lia|reflexivity]|]. vm_compute. split; congruence.
Qed.
Example ex_v_ok : wf_view (x64 false) (TSlice ex_u64) ex_v.
Proof.
  split; [unfold valid_region; vm_compute; repeat split; congruence|]. split; [apply ex_u64_type|].
  exists 512. reflexivity.
Qed.

(** C29. [split_at] succeeds iff that many elements fit; it cuts the region in two adjacent parts, and the
    first holds exactly that many elements; otherwise nothing changes.  It never panics. *)
Theorem C29_split_at_partition : forall t l v n,
  valid_target t -> wf_view t (TSlice l) v -> is_usize t n ->
  (n * lsize l <= ulen v -> exists a b,
     v_split_at t l v n = Ret (a, Some b) /\ cut v (n * lsize l) a b /\
     wf_view t (TSlice l) a /\ wf_view t (TSlice l) b /\ disjoint (region a) (region b) /\
     (0 < lsize l -> v_capacity t l a = n /\ v_capacity t l b = v_capacity t l v - n) /\
     (lsize l = 0 -> v_capacity t l a = usize_max t /\ v_capacity t l b = usize_max t)) /\
  (ulen v < n * lsize l -> v_split_at t l v n = Ret (v, None)).
Proof.
  intros t l v n Ht Hw Hn. pose proof (type_layout_size t l (proj1 (proj2 Hw))) as Hs.
  rewrite (v_split_at_spec t l v n Ht Hw Hn). destruct Hn as [Hn _]. split; intros H.
  - destruct (Z.leb_spec (n * lsize l) (ulen v)); [|lia]. do 2 eexists. split; [reflexivity|].
    assert (Hc : cut v (n * lsize l) (fst (at_view t l v (n * lsize l))) (snd (at_view t l v (n * lsize l))))
      by (apply at_view_cut; nia).
    destruct (wf_cut_slice t l v n Hw Hn H) as [W1 W2].
    split; [exact Hc|]. split; [exact W1|]. split; [exact W2|]. split; [apply (cut_pair _ _ _ _ Hc)|].
    split; intros Hz.
    + unfold v_capacity. destruct (Z.eqb_spec (lsize l) 0); [lia|]. cbn [at_view fst snd ulen from_memory uptr].
      split; [apply Z.div_mul; lia|].
      replace (ulen v - n * lsize l) with (ulen v + (- n) * lsize l) by lia. rewrite Z.div_add by lia. lia.
    + unfold v_capacity. rewrite Hz. split; reflexivity.
  - destruct (Z.leb_spec (n * lsize l) (ulen v)); [lia|reflexivity].
Qed.
Print Assumptions C29_split_at_partition.

Example C29_nonvacuous :
  wf_view (x64 false) (TSlice ex_u64) ex_v /\
  v_split_at (x64 false) ex_u64 ex_v 2 =
    Ret ({| uptr := 4096; ulen := 16; umeta := 3 |}, Some {| uptr := 4112; ulen := 14; umeta := 1 |}) /\
  v_split_at (x64 false) ex_u64 ex_v 4 = Ret (ex_v, None) /\
  v_split_at (x64 false) ex_u64 ex_v (2 ^ 61) = Ret (ex_v, None).
Proof. split; [exact ex_v_ok|]. repeat split; reflexivity. Qed.

(** C30. [split_at_byte] of a region for a value of layout [l]: when it succeeds and what it gives.  The tail
    is the adjacent remainder exactly if the pointee has size 1 or the split is at 0. *)
Theorem C30_split_at_byte : forall t l v k,
  valid_target t -> wf_view t (TSized l) v -> is_usize t k ->
  (~ (lsize l <= k <= ulen v) -> v_split_at_byte l v k = (v, None)) /\
  (lsize l <= k <= ulen v -> exists a b,
     v_split_at_byte l v k = (a, Some b) /\ region a = MkBlock (uptr v) k /\ ulen b = ulen v - k /\
     uptr b = uptr v + k + k * (lsize l - 1) /\ (cut v k a b <-> lsize l = 1 \/ k = 0) /\
     (1 < lsize l -> k < ulen v -> ~ inside (region b) (region v)) /\
     (lsize l = 0 -> 0 < k < ulen v -> ~ disjoint (region a) (region b))).
Proof.
  intros t l v k Ht [(R1 & R2 & R3) (Hl & Hal & Hsz)] [Hk _]. pose proof (type_layout_size t l Hl) as Hs.
  cbn in R1, R2, R3. rewrite v_split_at_byte_spec.
  destruct (Z.leb_spec (lsize l) k), (Z.leb_spec k (ulen v)); cbn [andb]; (split; [|try (intros; lia)]); try reflexivity; try lia.
  intros _. do 2 eexists. split; [reflexivity|]. split; [reflexivity|]. split; [reflexivity|].
  split; [cbn [from_memory uptr]; lia|].
  unfold cut, region. cbn [from_memory uptr ulen]. split; [|split].
  - split.
    + intros (_ & E & _). injection E as E. assert (k * (lsize l - 1) = 0) by lia.
      destruct (Z.mul_eq_0 k (lsize l - 1)) as [M _]. specialize (M ltac:(assumption)). lia.
    + intros Hor. assert (k * lsize l = k) as -> by (destruct Hor as [-> | ->]; lia).
      split; [reflexivity|]. split; [reflexivity|lia].
  - intros H1 H2 Hin. specialize (Hin (uptr v + k * lsize l + (ulen v - k) - 1)).
    unfold in_block in Hin. cbn [start size] in Hin. nia.
  - intros Hz H1 Hd. apply (Hd (uptr v)). unfold in_block. cbn [start size]. rewrite Hz. lia.
Qed.
Print Assumptions C30_split_at_byte.

(** C30, the documented contract of [split_to_fit] ("split off the tail that is not required for holding an
    instance of T") fails for a u32 in 8 bytes: the tail starts 8 bytes past the end of the region. *)
Theorem C30_split_to_fit_in_bounds_refuted :
  exists t l v a b, valid_target t /\ wf_view t (TSized l) v /\ v_split_to_fit l v = Ret (a, b) /\
    0 < ulen b /\ disjoint (region b) (region v).
Proof.
  exists (x64 false), ex_u32, {| uptr := 4096; ulen := 8; umeta := 0 |}. do 2 eexists.
  split; [exact ex_target_ok|]. split.
  - split; [unfold valid_region; vm_compute; repeat split; congruence|]. split; [exact ex_u32_type|].
    split; [exists 1024; reflexivity|vm_compute; congruence].
  - split; [reflexivity|]. split; [reflexivity|]. apply disjoint_intro. right. vm_compute. congruence.
Qed.
Print Assumptions C30_split_to_fit_in_bounds_refuted.

Example C30_nonvacuous :
  v_split_at_byte {| lsize := 1; lalign := 1 |} ex_v 10 =
    ({| uptr := 4096; ulen := 10; umeta := 3 |}, Some {| uptr := 4106; ulen := 20; umeta := 0 |}) /\
  v_split_at_byte unit_layout ex_v 10 =
    ({| uptr := 4096; ulen := 10; umeta := 3 |}, Some {| uptr := 4096; ulen := 20; umeta := 0 |}).
Proof. split; reflexivity. Qed.

(** C31. Casting succeeds iff the region is aligned and large enough, and keeps address and length. *)
Theorem C31_cast_exact : forall t l v,
  valid_target t -> type_layout t l -> valid_region t (region v) ->
  ((exists c, v_cast v l = Some c) <-> aligned (uptr v) (lalign l) /\ lsize l <= ulen v) /\
  (forall c, v_cast v l = Some c -> region c = region v /\ wf_view t (TSized l) c) /\
  ((exists c, v_cast_slice t v l = Some c) <-> aligned (uptr v) (lalign l)) /\
  (forall c, v_cast_slice t v l = Some c -> region c = region v /\ wf_view t (TSlice l) c).
Proof.
  intros t l v Ht Hl Hr. pose proof (type_layout_align t l Hl) as Ha.
  assert (Hlen : 0 <= ulen v) by (destruct Hr as (_ & R2 & _); cbn in R2; lia).
  destruct (v_cast_spec v l Ha) as [C1 C2]. destruct (v_cast_slice_spec t v l Ha Hlen) as [S1 S2].
  assert (D1 : (aligned (uptr v) (lalign l) /\ lsize l <= ulen v) \/ ~ (aligned (uptr v) (lalign l) /\ lsize l <= ulen v)).
  { destruct (Znumtheory.Zdivide_dec (lalign l) (uptr v)); destruct (Z.le_gt_cases (lsize l) (ulen v)); unfold aligned;
      [left; auto|right; lia|right; tauto|right; tauto]. }
  assert (D2 : aligned (uptr v) (lalign l) \/ ~ aligned (uptr v) (lalign l)).
  { destruct (Znumtheory.Zdivide_dec (lalign l) (uptr v)); unfold aligned; auto. }
  split; [|split; [|split]].
  - split; [|intros H; eexists; apply C1, H].
    intros [c Hc]. destruct D1 as [D|D]; [exact D|]. rewrite (C2 D) in Hc. discriminate.
  - intros c Hc. destruct D1 as [D|D]; [|rewrite (C2 D) in Hc; discriminate].
    rewrite (C1 D) in Hc. injection Hc as <-. split; [reflexivity|]. split; [exact Hr|]. cbn. tauto.
  - split; [|intros H; eexists; apply S1, H].
    intros [c Hc]. destruct D2 as [D|D]; [exact D|]. rewrite (S2 D) in Hc. discriminate.
  - intros c Hc. destruct D2 as [D|D]; [|rewrite (S2 D) in Hc; discriminate].
    rewrite (S1 D) in Hc. injection Hc as <-. split; [reflexivity|]. split; [exact Hr|]. cbn. tauto.
Qed.
Print Assumptions C31_cast_exact.

(** C31, conversions from places: they never panic, and the region is the place. *)
Theorem C31_from_places : forall t l p n,
  valid_target t -> type_layout t l -> aligned p (lalign l) ->
  (valid_region t (MkBlock p (lsize l)) -> exists v,
     v_from_maybe_uninit p l = Ret v /\ region v = MkBlock p (lsize l) /\ wf_view t (TSized l) v) /\
  (0 <= n -> valid_region t (MkBlock p (n * lsize l)) -> exists v,
     v_from_maybe_uninit_slice t p l n = Ret v /\ region v = MkBlock p (n * lsize l) /\ wf_view t (TSlice l) v /\
     (0 < lsize l -> v_capacity t l v = n /\ v_as_ptr v = (p, n))) /\
  ((exists v, v_invent_for_zst l = Ret v /\ ulen v = 0 /\ aligned (uptr v) (lalign l)) <-> lsize l = 0).
Proof.
  intros t l p n Ht Hl Hp. pose proof (type_layout_align t l Hl) as Ha. pose proof (type_layout_size t l Hl) as Hs.
  split; [|split].
  - intros Hr. unfold v_from_maybe_uninit. destruct (v_cast_spec (from_memory p (lsize l)) l Ha) as [C1 _].
    rewrite C1 by (cbn; split; [exact Hp|lia]). eexists. split; [reflexivity|]. split; [reflexivity|].
    split; [exact Hr|]. cbn. split; [exact Hl|]. split; [exact Hp|lia].
  - intros Hn Hr. unfold v_from_maybe_uninit_slice. rewrite (Z.mul_comm (lsize l) n).
    destruct (v_cast_slice_spec t (from_memory p (n * lsize l)) l Ha ltac:(cbn; nia)) as [C1 _].
    rewrite C1 by (cbn; exact Hp). eexists. split; [reflexivity|]. split; [reflexivity|].
    split; [split; [exact Hr|]; cbn; auto|]. intros Hz. unfold v_capacity, v_as_ptr.
    destruct (Z.eqb_spec (lsize l) 0); [lia|]. cbn [ulen uptr umeta from_memory]. rewrite Z.div_mul by lia. auto.
  - unfold v_invent_for_zst. destruct (Z.eqb_spec (lsize l) 0) as [E|E].
    + split; [auto|]. intros _. destruct (v_cast_spec (from_memory (lalign l) 0) l Ha) as [C1 _].
      assert (aligned (lalign l) (lalign l)) by (exists 1; lia).
      rewrite C1 by (cbn; split; [assumption|lia]). eexists. split; [reflexivity|]. auto.
    + split; [intros (v & H & _); discriminate|lia].
Qed.
Print Assumptions C31_from_places.

Example C31_nonvacuous :
  v_cast {| uptr := 4096; ulen := 8; umeta := 0 |} ex_u64 = Some {| uptr := 4096; ulen := 8; umeta := 0 |} /\
  v_cast {| uptr := 4096; ulen := 7; umeta := 0 |} ex_u64 = None /\
  v_cast {| uptr := 4100; ulen := 8; umeta := 0 |} ex_u64 = None /\
  v_cast_slice (x64 false) {| uptr := 4096; ulen := 30; umeta := 0 |} ex_u64 = Some ex_v.
Proof. repeat split; reflexivity. Qed.

(** C32. The capacity is the number of whole elements in the bytes; every element below it lies in the
    region and is aligned; elements of size zero are unlimited.  The slice handed out has that length. *)
Theorem C32_capacity : forall t l v,
  valid_target t -> wf_view t (TSlice l) v ->
  (0 < lsize l -> whole_elements (lsize l) (ulen v) (v_capacity t l v)) /\
  (lsize l = 0 -> v_capacity t l v = usize_max t) /\
  is_usize t (v_capacity t l v) /\
  v_into_slice t l v = (uptr v, v_capacity t l v) /\
  (forall i, 0 <= i < v_capacity t l v ->
     inside (element (uptr v) l i) (region v) /\ aligned (start (element (uptr v) l i)) (lalign l)) /\
  (forall i j, i <> j -> disjoint (element (uptr v) l i) (element (uptr v) l j)).
Proof.
  intros t l v Ht Hw. pose proof Hw as [(R1 & R2 & R3) [Hl Hal]]. cbn in R1, R2, R3.
  pose proof (type_layout_size t l Hl) as Hs. pose proof (addr_space_pos t Ht). pose proof (isize_lt_usize t Ht).
  assert (HC : 0 < lsize l -> whole_elements (lsize l) (ulen v) (v_capacity t l v)) by (intros; apply capacity_whole; assumption).
  assert (HZ : lsize l = 0 -> v_capacity t l v = usize_max t) by (intros Hz; unfold v_capacity; rewrite Hz; reflexivity).
  split; [exact HC|]. split; [exact HZ|]. split; [|split; [reflexivity|split]].
  - unfold is_usize, usize_max in *. destruct (Z.eq_dec (lsize l) 0) as [E|E]; [rewrite HZ by exact E; lia|].
    destruct (HC ltac:(lia)) as (H1 & H2). nia.
  - intros i Hi. split.
    + destruct (Z.eq_dec (lsize l) 0) as [E|E].
      * intros x Hx. unfold in_block, element in Hx. cbn in Hx. lia.
      * destruct (HC ltac:(lia)) as (H1 & H2). apply inside_intro; cbn; nia.
    + cbn. unfold aligned. apply Z.divide_add_r; [exact Hal|]. apply Z.divide_mul_r. apply Hl.
  - intros i j Hij x [H1 H2]. unfold in_block, element in *. cbn in *. nia.
Qed.
Print Assumptions C32_capacity.

Example C32_nonvacuous :
  wf_view (x64 false) (TSlice ex_u64) ex_v /\ v_capacity (x64 false) ex_u64 ex_v = 3 /\
  element (uptr ex_v) ex_u64 2 = MkBlock 4112 8.
Proof. split; [exact ex_v_ok|]. split; reflexivity. Qed.

(** C33. [split_first] and [split_last] *)
Theorem C33_split_first : forall t l v,
  valid_target t -> wf_view t (TSlice l) v ->
  (lsize l <= ulen v -> exists first rest,
     v_split_first t l v = Ret (rest, Some first) /\ cut v (lsize l) first rest /\
     wf_view t (TSized l) first /\ wf_view t (TSlice l) rest /\
     (0 < lsize l -> v_capacity t l rest = v_capacity t l v - 1)) /\
  (ulen v < lsize l -> v_split_first t l v = Ret (v, None)).
Proof.
  intros t l v Ht Hw. destruct (v_split_first_spec t l v Ht Hw) as [F1 F2]. split; [|exact F2].
  intros H. destruct (F1 H) as (a & b & E & Hc & Wa & Wb). exists a, b.
  repeat (split; [assumption|]). intros Hz. destruct Hc as (_ & Hb & _). injection Hb as _ Hb.
  unfold v_capacity. destruct (Z.eqb_spec (lsize l) 0); [lia|]. rewrite Hb.
  replace (ulen v - lsize l) with (ulen v + (-1) * lsize l) by lia. rewrite Z.div_add by lia. lia.
Qed.
Print Assumptions C33_split_first.

Theorem C33_split_last : forall t l v,
  valid_target t -> wf_view t (TSlice l) v ->
  (lsize l <= ulen v -> exists last rest n,
     v_split_last t l v = Ret (rest, Some last) /\ cut v (n * lsize l) rest last /\
     (0 < lsize l -> whole_elements (lsize l) (ulen v) (n + 1) /\ v_capacity t l rest = n) /\
     wf_view t (TSized l) last /\ wf_view t (TSlice l) rest) /\
  (ulen v < lsize l -> v_split_last t l v = Ret (v, None)).
Proof.
  intros t l v Ht Hw. destruct (v_split_last_spec t l v Ht Hw) as [F1 F2]. split; [|exact F2].
  intros H. destruct (F1 H) as (a & b & n & E & Hn & Hn0 & Hc & Wa & Wb). exists a, b, n.
  split; [exact E|]. split; [exact Hc|]. split; [|auto]. intros Hz. split; [apply Hn, Hz|].
  destruct Hc as (Hb & _ & _). injection Hb as _ Hb. unfold v_capacity.
  destruct (Z.eqb_spec (lsize l) 0); [lia|]. rewrite Hb. apply Z.div_mul. lia.
Qed.
Print Assumptions C33_split_last.

Example C33_nonvacuous :
  v_split_first (x64 false) ex_u64 ex_v =
    Ret ({| uptr := 4104; ulen := 22; umeta := 2 |}, Some {| uptr := 4096; ulen := 8; umeta := 0 |}) /\
  v_split_last (x64 false) ex_u64 ex_v =
    Ret ({| uptr := 4096; ulen := 16; umeta := 3 |}, Some {| uptr := 4112; ulen := 14; umeta := 0 |}).
Proof. split; reflexivity. Qed.

(** C34. [shrink_to_fit] keeps address and capacity, gives back the slack after it, less than one element, and
    a second call changes nothing. *)
Theorem C34_shrink_to_fit : forall t l v,
  valid_target t -> wf_view t (TSlice l) v ->
  exists a b k, v_shrink_to_fit t l v = Ret (a, b) /\ cut v k a b /\
    wf_view t (TSlice l) a /\ wf_view t TRaw b /\
    v_capacity t l a = v_capacity t l v /\ (0 < lsize l -> ulen b < lsize l) /\
    exists b', v_shrink_to_fit t l a = Ret (a, b') /\ ulen b' = 0.
Proof.
  intros t l v Ht Hw. pose proof Hw as [_ [Hl _]]. pose proof (type_layout_size t l Hl) as Hs.
  destruct (v_shrink_spec t l v Ht Hw) as (a & b & E & Hc & Wa & Wb).
  destruct (v_shrink_spec t l a Ht Wa) as (a' & b' & E' & Hc' & Wa' & Wb').
  exists a, b. eexists. split; [exact E|]. split; [exact Hc|]. split; [exact Wa|]. split; [exact Wb|].
  assert (HC : v_capacity t l a = v_capacity t l v).
  { unfold v_capacity in *. destruct (Z.eqb_spec (lsize l) 0); [reflexivity|].
    destruct Hc as (Ha & _ & _). injection Ha as _ Ha. rewrite Ha. apply Z.div_mul. lia. }
  split; [exact HC|]. split.
  - intros Hz. destruct (capacity_whole t l v Hw Hz) as (H1 & H2). destruct Hc as (_ & Hb & _). injection Hb as _ Hb.
    destruct (Z.eqb_spec (lsize l) 0); [lia|]. lia.
  - exists b'. destruct Hc as (Ha & _ & _), Hc' as (Ha' & Hb' & _).
    injection Ha as Ha1 Ha2. injection Ha' as Ha1' Ha2'. injection Hb' as Hb1 Hb2.
    assert (Hk : ulen a' = ulen a) by (rewrite Ha2, Ha2', HC; reflexivity).
    split; [|lia]. rewrite E'.
    assert (Hm : umeta a' = umeta a); [|destruct a', a; cbn in *; congruence].
    clear - E'. unfold v_shrink_to_fit, v_split_at in E'. destruct (checked_mul _ _ _); [|discriminate].
    destruct (ulen a <? z); [discriminate|]. unfold unwrap in E'. destruct (v_cast_slice _ _ _); [|discriminate].
    cbn in E'. injection E' as <- _. reflexivity.
Qed.
Print Assumptions C34_shrink_to_fit.

Example C34_nonvacuous :
  v_shrink_to_fit (x64 false) ex_u64 ex_v =
    Ret ({| uptr := 4096; ulen := 24; umeta := 3 |}, {| uptr := 4120; ulen := 6; umeta := 0 |}).
Proof. reflexivity. Qed.

(** C35. Splitting raw memory for a layout: exactly when the address is already aligned and the bytes
    suffice; then everything is handed over and nothing remains. *)
Theorem C35_split_layout_exact : forall t v l,
  valid_target t -> wf_view t TRaw v -> valid_layout t l ->
  (aligned (uptr v) (lalign l) /\ lsize l <= ulen v -> exists a b,
     v_split_layout t v l = Ret (a, Some b) /\ ulen a = 0 /\ region b = region v) /\
  (~ (aligned (uptr v) (lalign l) /\ lsize l <= ulen v) -> v_split_layout t v l = Ret (v, None)).
Proof.
  intros t v l Ht Hw Hl.
  destruct (v_split_layout_spec t v l Ht Hw (valid_layout_align t l Hl) (proj1 Hl)) as [F1 F2].
  split; [|exact F2]. intros H. rewrite (F1 H). do 2 eexists. split; [reflexivity|]. split; reflexivity.
Qed.
Print Assumptions C35_split_layout_exact.

(** The typed forms *)
Theorem C35_split_cast_slice_exact : forall t v l,
  valid_target t -> wf_view t TRaw v -> type_layout t l ->
  (aligned (uptr v) (lalign l) /\ lsize l <= ulen v -> exists a b,
     v_split_cast t v l = Ret (a, Some b) /\ ulen a = 0 /\ region b = region v /\ wf_view t (TSized l) b) /\
  (~ (aligned (uptr v) (lalign l) /\ lsize l <= ulen v) -> v_split_cast t v l = Ret (v, None)) /\
  (aligned (uptr v) (lalign l) -> exists a b,
     v_split_slice t v l = Ret (a, Some b) /\ ulen a = 0 /\ region b = region v /\ wf_view t (TSlice l) b) /\
  (~ aligned (uptr v) (lalign l) -> v_split_slice t v l = Ret (v, None)).
Proof.
  intros t v l Ht Hw Hl. pose proof (type_layout_align t l Hl) as Ha. pose proof (type_layout_size t l Hl) as Hs.
  assert (Hlen : 0 <= ulen v) by (destruct Hw as [(_ & R2 & _) _]; cbn in R2; lia).
  destruct (v_split_layout_spec t v l Ht Hw Ha Hs) as [F1 F2].
  destruct (v_split_layout_spec t v {| lsize := 0; lalign := lalign l |} Ht Hw Ha ltac:(cbn; lia)) as [G1 G2].
  cbn [lsize lalign] in G1, G2.
  unfold v_split_cast, v_split_slice. split; [|split; [|split]].
  - intros H. rewrite (F1 H). cbn [obind]. destruct (v_cast_spec (from_memory (uptr v) (ulen v)) l Ha) as [C1 _].
    rewrite C1 by exact H. do 2 eexists. split; [reflexivity|]. split; [reflexivity|]. split; [reflexivity|].
    split; [apply Hw|]. cbn. tauto.
  - intros H. rewrite (F2 H). reflexivity.
  - intros H. rewrite G1 by (split; [exact H|lia]). cbn [obind].
    destruct (v_cast_slice_spec t (from_memory (uptr v) (ulen v)) l Ha Hlen) as [C1 _].
    rewrite C1 by exact H. do 2 eexists. split; [reflexivity|]. split; [reflexivity|]. split; [reflexivity|].
    split; [apply Hw|]. cbn. tauto.
  - intros H. rewrite G2 by tauto. reflexivity.
Qed.
Print Assumptions C35_split_cast_slice_exact.

(** C35, the documented purpose ("split so that the second part fits the layout") fails although there is an
    aligned place with enough room. *)
Theorem C35_split_layout_skips_padding_refuted :
  exists t v l, valid_target t /\ wf_view t TRaw v /\ valid_layout t l /\
    fits_in (region v) 0 l /\ v_split_layout t v l = Ret (v, None).
Proof.
  exists (x64 false), {| uptr := 4097; ulen := 1000; umeta := 0 |}, ex_u64.
  split; [exact ex_target_ok|]. split; [|split; [apply ex_u64_type|split]].
  - split; [unfold valid_region; vm_compute; repeat split; congruence|exact I].
  - exists 4104. split; [cbn; lia|]. split; [exists 513; reflexivity|cbn; lia].
  - reflexivity.
Qed.
Print Assumptions C35_split_layout_skips_padding_refuted.

Example C35_nonvacuous :
  v_split_layout (x64 false) {| uptr := 4096; ulen := 30; umeta := 0 |} ex_u64 =
    Ret ({| uptr := 4096; ulen := 0; umeta := 0 |}, Some {| uptr := 4096; ulen := 30; umeta := 0 |}).
Proof. reflexivity. Qed.

(** C36. After [split_at] the fat pointer of the first half keeps the element count of the whole, so that the
    slice it denotes reaches outside the half's region whenever something was cut off; the slice of
    [into_maybe_uninit_slice] stays within. *)
Theorem C36_stale_slice_pointer : forall t l v n a b,
  valid_target t -> wf_view t (TSlice l) v -> is_usize t n ->
  umeta v = v_capacity t l v -> 0 < lsize l -> n < v_capacity t l v ->
  v_split_at t l v n = Ret (a, Some b) ->
  v_as_ptr a = (uptr v, v_capacity t l v) /\
  (exists i, 0 <= i < snd (v_as_ptr a) /\ ~ inside (element (fst (v_as_ptr a)) l i) (region a) /\
     inside (element (fst (v_as_ptr a)) l i) (region b)) /\
  v_into_slice t l a = (uptr v, n) /\
  (forall i, 0 <= i < snd (v_into_slice t l a) -> inside (element (fst (v_into_slice t l a)) l i) (region a)).
Proof.
  intros t l v n a b Ht Hw Hn Hm Hz Hlt E.
  destruct (capacity_whole t l v Hw Hz) as (H1 & H2). pose proof Hn as [Hn0 _].
  rewrite (v_split_at_spec t l v n Ht Hw Hn) in E.
  destruct (Z.leb_spec (n * lsize l) (ulen v)); [|nia]. injection E as <- <-.
  unfold v_as_ptr, v_into_slice. cbn [at_view fst snd uptr umeta]. rewrite Hm. split; [reflexivity|].
  assert (EC : v_capacity t l (MkView (uptr v) (n * lsize l) (v_capacity t l v)) = n).
  { unfold v_capacity. destruct (Z.eqb_spec (lsize l) 0); [lia|]. cbn [ulen]. apply Z.div_mul. lia. }
  rewrite EC. split; [|split; [reflexivity|]].
  - exists n. split; [lia|]. split.
    + intros Hin. specialize (Hin (uptr v + n * lsize l)). unfold in_block, element, region in Hin. cbn in Hin. lia.
    + apply inside_intro; cbn; nia.
  - intros i Hi. apply inside_intro; cbn; nia.
Qed.
Print Assumptions C36_stale_slice_pointer.

Example C36_nonvacuous :
  wf_view (x64 false) (TSlice ex_u64) ex_v /\ umeta ex_v = v_capacity (x64 false) ex_u64 ex_v /\
  exists a b, v_split_at (x64 false) ex_u64 ex_v 1 = Ret (a, Some b) /\ v_as_ptr a = (4096, 3) /\
    v_into_slice (x64 false) ex_u64 a = (4096, 1).
Proof. split; [exact ex_v_ok|]. split; [reflexivity|]. do 2 eexists. split; [reflexivity|]. split; reflexivity. Qed.

(** C75. Any history of casts and splits of one region, other than byte splits through a pointer to a type of
    size other than 1, runs without panic, and the regions the client ends up with are all well-formed,
    inside the original region, and pairwise disjoint. *)
Theorem C75_regions_disjoint : forall t ty v os,
  valid_target t -> wf_view t ty v -> good_ops t [(ty, v)] os ->
  exists P, prun t [(ty, v)] os = Ret P /\
    Forall (fun x => wf_view t (fst x) (snd x) /\ inside (region (snd x)) (region v)) P /\
    pairwise disjoint (map (fun x => region (snd x)) P).
Proof.
  intros t ty v os Ht Hw Hg. destruct (prun_inv t (region v) [(ty, v)] os Ht) as (P & E & HP).
  - split.
    + constructor; [|constructor]. split; [exact Hw|]. cbn. apply inside_refl.
    + cbn. apply pairwise_cons; [apply disjoint_sym|constructor|apply pairwise_nil].
  - exact Hg.
  - exists P. destruct HP. auto.
Qed.
Print Assumptions C75_regions_disjoint.

Definition ex_uops : list uop :=
  [OpCastSlice 0 ex_u64; OpSplitFirst 0; OpShrink 0; OpAsMemory 1; OpSplitSlice 1 ex_u32; OpSplitAt 3 1].
Example C75_nonvacuous :
  let v := {| uptr := 4096; ulen := 30; umeta := 0 |} in
  good_ops (x64 false) [(TRaw, v)] ex_uops /\
  exists P, prun (x64 false) [(TRaw, v)] ex_uops = Ret P /\
    map (fun x => region (snd x)) P =
      [MkBlock 4104 16; MkBlock 4096 0; MkBlock 4120 6; MkBlock 4096 4; MkBlock 4100 4].
Proof.
  cbn zeta. split; [|eexists; split; reflexivity].
  repeat (apply good_cons; [first [exact ex_u64_type|exact ex_u32_type|exact I|vm_compute; split; congruence]
                           |cbn; tauto|intros P' [= <-]]).
  apply good_nil.
Qed.

(** C75, the excluded calls: splitting raw memory at a byte gives two overlapping regions. *)
Theorem C75_split_at_byte_overlap_refuted :
  exists t v P, valid_target t /\ wf_view t TRaw v /\ prun t [(TRaw, v)] [OpSplitAtByte 0 10] = Ret P /\
    ~ pairwise disjoint (map (fun x => region (snd x)) P).
Proof.
  exists (x64 false), {| uptr := 4096; ulen := 30; umeta := 0 |}. eexists.
  split; [exact ex_target_ok|]. split; [|split; [reflexivity|]].
  - split; [unfold valid_region; vm_compute; repeat split; congruence|exact I].
  - intros H. specialize (H 0%nat 1%nat _ _ ltac:(congruence) eq_refl eq_refl).
    apply (H 4096). unfold in_block. cbn. lia.
Qed.
Print Assumptions C75_split_at_byte_overlap_refuted.
