(** * ReentProofs: the vector's operations with arbitrary destructors and iterators *)
From Verif Require Import Base Spec BaseFacts UninitModel UninitSpec UninitProofs SyncMemModel FixedVecModel FixedVecSpec FixedVecProofs
  FixedVecMemModel MemBumpProofs FixedVecMemProofs ReentModel ReentSpec.

Lemma upto_seq n : upto n = map Z.of_nat (seq 0 n).
Proof. induction n as [|n IH]; [reflexivity|]. rewrite seq_S, map_app, <- IH. reflexivity. Qed.
Lemma slice_seq l m a n : b_slice l m a n = map (fun k => b_read l m (a + Z.of_nat k * lsize l)) (seq 0 (Z.to_nat n)).
Proof. unfold b_slice. rewrite upto_seq, map_map. reflexivity. Qed.
Lemma slice_len l m a n : length (b_slice l m a n) = Z.to_nat n.
Proof. rewrite slice_seq, map_length, seq_length. reflexivity. Qed.
Lemma combine_map {A B X} (f : X -> A) (g : X -> B) xs : combine (map f xs) (map g xs) = map (fun x => (f x, g x)) xs.
Proof. induction xs as [|x xs IH]; [reflexivity|]. cbn. rewrite IH. reflexivity. Qed.
Definition placed_at (l : layout) (m : mem) (a : Z) (k : nat) : option Z * bval :=
  (Some (a + Z.of_nat k * lsize l), b_read l m (a + Z.of_nat k * lsize l)).
Lemma places_seq l m a n : at_places l a (b_slice l m a n) = map (placed_at l m a) (seq 0 (Z.to_nat n)).
Proof. unfold at_places. rewrite slice_len, upto_seq, map_map, slice_seq. apply combine_map. Qed.
Lemma skipn_seq j i n : skipn j (seq i n) = seq (i + j) (n - j).
Proof.
  revert i n. induction j as [|j IH]; intros i n.
  - rewrite Nat.add_0_r, Nat.sub_0_r. reflexivity.
  - destruct n as [|n]; [reflexivity|]. cbn [seq skipn]. rewrite IH. f_equal; lia.
Qed.
Lemma firstn_seq j i n : firstn j (seq i n) = seq i (Nat.min j n).
Proof.
  revert i n. induction j as [|j IH]; intros i n; [reflexivity|]. destruct n as [|n]; [reflexivity|]. cbn [seq firstn Nat.min]. rewrite IH. reflexivity.
Qed.
Lemma slice_In l m a n k : (k < Z.to_nat n)%nat -> In (b_read l m (a + Z.of_nat k * lsize l)) (b_slice l m a n).
Proof. intros K. rewrite slice_seq. apply in_map_iff. exists k. split; [reflexivity|]. apply in_seq. lia. Qed.
Lemma slice_same l m m' a n : 0 <= lsize l -> 0 <= n -> (forall y, a <= y < a + n * lsize l -> m' y = m y) -> b_slice l m' a n = b_slice l m a n.
Proof.
  intros L N S. rewrite !slice_seq. apply map_ext_in. intros k K. apply in_seq in K. unfold b_read. apply read_ext. intros y Y. apply S.
  assert ((Z.of_nat k + 1) * lsize l <= n * lsize l) by (apply Z.mul_le_mono_nonneg_r; lia). lia.
Qed.
Lemma slice_take l m a n k : 0 <= k <= n -> take k (b_slice l m a n) = b_slice l m a k.
Proof. intros K. unfold take. rewrite !slice_seq, firstn_map, firstn_seq. do 2 f_equal. lia. Qed.
Lemma slice_app l m a n k : 0 <= n -> 0 <= k -> b_slice l m a (n + k) = b_slice l m a n ++ b_slice l m (a + n * lsize l) k.
Proof.
  intros N K. rewrite !slice_seq. replace (Z.to_nat (n + k)) with (Z.to_nat n + Z.to_nat k)%nat by lia. rewrite seq_app, map_app. f_equal.
  rewrite Nat.add_0_l. replace (seq (Z.to_nat n) (Z.to_nat k)) with (map (fun x => Z.to_nat n + x)%nat (seq 0 (Z.to_nat k))).
  - rewrite map_map. apply map_ext. intros x. f_equal. rewrite Nat2Z.inj_add, Z2Nat.id by lia. lia.
  - generalize (Z.to_nat k) as q. intros q. assert (G : forall i, map (fun x => (Z.to_nat n + x)%nat) (seq i q) = seq (Z.to_nat n + i) q).
    { induction q as [|q IH]; intros i; [reflexivity|]. cbn. rewrite IH. do 2 f_equal. lia. }
    rewrite G. f_equal. lia.
Qed.
Lemma slice_skip l m a n k : 0 <= k <= n -> skip k (b_slice l m a n) = b_slice l m (a + k * lsize l) (n - k).
Proof.
  intros K. replace n with (k + (n - k)) at 1 by lia. rewrite slice_app by lia. unfold skip. rewrite skipn_app, skipn_all2, slice_len.
  - replace (Z.to_nat k - Z.to_nat k)%nat with 0%nat by lia. reflexivity.
  - rewrite slice_len. lia.
Qed.
Lemma slice_length l m a n : 0 <= n -> len (b_slice l m a n) = n.
Proof. intros N. unfold len. rewrite slice_len. lia. Qed.

Lemma vec_facts t l v : valid_target t -> vec_wf t l v ->
  0 <= lsize l /\ 0 <= flen v /\ flen v * lsize l <= ulen (funinit v) /\ 0 <= ulen (funinit v) /\ f_capacity t l v * lsize l <= ulen (funinit v) /\
  0 <= f_capacity t l v <= usize_max t.
Proof.
  intros V (W & F). pose proof W as [(R1 & R2 & R3) [T A]]. cbn in R1, R2, R3. pose proof (type_layout_size t l T) as S.
  unfold f_capacity, v_capacity in *. pose proof (addr_space_pos t V). unfold usize_max in *. destruct (Z.eqb_spec (lsize l) 0) as [E|E].
  - rewrite E. lia.
  - pose proof (Z.mul_div_le (ulen (funinit v)) (lsize l) ltac:(lia)). pose proof (Z.div_pos (ulen (funinit v)) (lsize l) ltac:(lia) ltac:(lia)).
    assert (flen v * lsize l <= ulen (funinit v) / lsize l * lsize l) by (apply Z.mul_le_mono_nonneg_r; lia).
    assert (ulen (funinit v) / lsize l <= ulen (funinit v)) by (apply Z.div_le_upper_bound; nia). lia.
Qed.

(** ** truncate *)
Lemma trunc_loop {C} (I : rworld C -> Prop) (dt : dtor C) unw l U m0 a L : 0 <= lsize l ->
  (forall y, a <= y < a + Z.of_nat L * lsize l -> in_block U y) ->
  respects I dt l U (b_slice l m0 a (Z.of_nat L)) -> forall n ll w, I w -> (n <= ll <= L)%nat ->
  (forall y, a <= y < a + Z.of_nat ll * lsize l -> rmem w y = m0 y) ->
  exists w' k r, drop_each dt unw (rev (map (placed_at l m0 a) (seq (ll - n) n))) w = (w', k, r) /\
    r_truncate_loop dt unw l w n (a + Z.of_nat ll * lsize l) (Z.of_nat ll) = (w', Z.of_nat ll - k, r) /\
    0 <= k <= Z.of_nat n /\ (r = DOk -> k = Z.of_nat n) /\
    (forall y, a <= y < a + (Z.of_nat ll - k) * lsize l -> rmem w' y = m0 y).
Proof.
  intros L0 HU R. induction n as [|n IH]; intros ll w IW N M.
  - exists w, 0, DOk. cbn. rewrite Z.sub_0_r. auto with zarith.
  - rewrite seq_S, map_app, rev_app_distr. cbn [map rev app]. unfold placed_at at 1. cbn [drop_each r_truncate_loop].
    replace (ll - S n + n)%nat with (ll - 1)%nat by lia.
    replace (a + Z.of_nat ll * lsize l - lsize l) with (a + Z.of_nat (ll - 1) * lsize l) by nia.
    replace (Z.of_nat ll - 1) with (Z.of_nat (ll - 1)) by lia.
    set (x := a + Z.of_nat (ll - 1) * lsize l) in *.
    assert (XE : x + lsize l = a + Z.of_nat ll * lsize l) by (unfold x; nia).
    assert (X0 : a <= x) by (unfold x; nia).
    assert (ER : b_read l (rmem w) x = b_read l m0 x) by (apply read_ext; intros y Y; apply M; lia).
    unfold drop_in_place, invoke. rewrite ER.
    assert (IN : In (b_read l m0 x) (b_slice l m0 a (Z.of_nat L))) by (apply slice_In; lia).
    assert (M' : forall y, a <= y < x -> rmem (fst (dt unw (Some x) (b_read l m0 x) w)) y = m0 y).
    { intros y Y. rewrite (proj2 (R unw (Some x) _ w IW IN)).
      - apply M. lia.
      - apply HU. assert (Z.of_nat ll * lsize l <= Z.of_nat L * lsize l) by nia. lia.
      - intros b [= <-]. unfold in_block. cbn. lia. }
    pose proof (proj1 (R unw (Some x) _ w IW IN)) as IW1.
    destruct (dt unw (Some x) (b_read l m0 x) w) as [w1 r1] eqn:E1. cbn [fst] in M', IW1.
    destruct r1; cbn [raise].
    + destruct (IH (ll - 1)%nat w1 IW1 ltac:(lia) M') as (w' & k & r & E2 & E3 & K & KO & M2).
      replace (ll - 1 - n)%nat with (ll - S n)%nat in E2 by lia. rewrite E2. exists w', (k + 1), r. split; [reflexivity|].
      fold x in E3. split; [rewrite E3; f_equal; f_equal; lia|]. split; [lia|]. split; [intros Q; specialize (KO Q); lia|].
      intros y Y. apply M2. replace (Z.of_nat (ll - 1) - k) with (Z.of_nat ll - (k + 1)) by lia. exact Y.
    + unfold raise. destruct unw; exists w1, 1; eexists; (split; [reflexivity|]); (split; [do 2 f_equal; lia|]);
        (split; [lia|]); (split; [discriminate|]); intros y Y; apply M'; unfold x; replace (Z.of_nat (ll - 1)) with (Z.of_nat ll - 1) by lia; exact Y.
    + exists w1, 1, DAbort. (split; [reflexivity|]); (split; [do 2 f_equal; lia|]);
        (split; [lia|]); (split; [discriminate|]); intros y Y; apply M'; unfold x; replace (Z.of_nat (ll - 1)) with (Z.of_nat ll - 1) by lia; exact Y.
Qed.

Lemma truncate_full {C} (I : rworld C -> Prop) (dt : dtor C) t unw l w v n :
  valid_target t -> vec_wf t l v -> 0 <= n -> I w ->
  let xs := y_as_slice l (rmem w) v in
  respects I dt l (region (funinit v)) xs ->
  exists w' v' k r, r_truncate dt unw l w v n = (w', v', r) /\
    drop_each dt unw (rev (skip n (at_places l (uptr (funinit v)) xs))) w = (w', k, r) /\
    funinit v' = funinit v /\ vec_wf t l v' /\ y_as_slice l (rmem w') v' = take (len xs - k) xs /\
    0 <= k <= Z.max 0 (len xs - n) /\ (r = DOk -> k = Z.max 0 (len xs - n)).
Proof.
  intros V W N IW xs R. destruct (vec_facts t l v V W) as (L0 & F & FU & U0 & _). unfold r_truncate.
  assert (LX : len xs = flen v) by (apply slice_length; exact F).
  assert (SL : slot l v 0 = uptr (funinit v)) by (unfold slot; lia).
  unfold xs, y_as_slice in *. rewrite SL in *. rewrite places_seq.
  destruct (trunc_loop I dt unw l (region (funinit v)) (rmem w) (uptr (funinit v)) (Z.to_nat (flen v)) L0) with (n := Z.to_nat (flen v - n)) (ll := Z.to_nat (flen v)) (w := w)
    as (w' & k & r & E1 & E2 & K & KO & M); auto.
  - intros y Y. rewrite Z2Nat.id in Y by exact F. unfold in_block. cbn. lia.
  - rewrite Z2Nat.id by exact F. exact R.
  - lia.
  - rewrite Z2Nat.id in E2 by exact F. unfold slot at 1. rewrite E2. exists w', {| funinit := funinit v; flen := flen v - k |}, k, r. split; [reflexivity|].
    split. { rewrite <- E1. unfold skip. rewrite skipn_map, skipn_seq. destruct (Z.le_gt_cases n (flen v)).
      - do 4 f_equal; lia.
      - replace (Z.to_nat (flen v) - Z.to_nat n)%nat with 0%nat by lia. replace (Z.to_nat (flen v - n)) with 0%nat by lia. reflexivity. }
    split; [reflexivity|]. rewrite Z2Nat.id in M by exact F.
    split. { destruct W as (W1 & W2). split; [exact W1|]. unfold f_capacity in *. cbn [funinit flen]. lia. }
    rewrite LX. split; [|split; [lia|intros Q; specialize (KO Q); lia]]. cbn [funinit flen]. unfold slot. cbn [funinit flen]. rewrite Z.mul_0_l, Z.add_0_r.
    rewrite slice_take by lia. apply slice_same; [exact L0|lia|exact M].
Qed.

(** ** drop of a slice *)
Lemma drop_all_unw {C} (dt : dtor C) xs : forall w, drop_all dt true xs w = drop_each dt true xs w.
Proof.
  intros w. unfold drop_all. assert (N : forall w, snd (drop_each dt true xs w) <> DPanic).
  { induction xs as [|[p x] xs IH]; intros w0; cbn [drop_each]; [discriminate|]. destruct (dt true p x w0) as [w1 []]; cbn; try discriminate.
    specialize (IH w1). destruct (drop_each dt true xs w1) as [[w2 k] r]. exact IH. }
  specialize (N w). destruct (drop_each dt true xs w) as [[w1 k] []]; cbn in N; congruence.
Qed.

Lemma each_count {C} (dt : dtor C) unw xs : forall w, let '(w', k, r) := drop_each dt unw xs w in 0 <= k <= len xs /\ (r = DOk -> k = len xs) /\ (r <> DOk -> 0 < k).
Proof.
  induction xs as [|[p x] xs IH]; intros w; cbn [drop_each].
  - cbn. split; [lia|]. split; [lia|congruence].
  - rewrite len_cons. pose proof (len_nonneg xs). destruct (dt unw p x w) as [w1 []].
    + specialize (IH w1). destruct (drop_each dt unw xs w1) as [[w2 k] r]. destruct IH as (I1 & I2 & I3). split; [lia|]. split; [intros Q; specialize (I2 Q); lia|lia].
    + split; [lia|]. split; [destruct unw; discriminate|lia].
    + split; [lia|]. split; [discriminate|lia].
Qed.
Lemma all_count {C} (dt : dtor C) unw xs w : let '(w', k, r) := drop_all dt unw xs w in 0 <= k <= len xs /\ (r <> DAbort -> k = len xs).
Proof.
  unfold drop_all. pose proof (each_count dt unw xs w) as E. destruct (drop_each dt unw xs w) as [[w1 k] []]; destruct E as (E1 & E2 & E3).
  - split; [exact E1|]. auto.
  - pose proof (each_count dt true (skip k xs) w1) as D. rewrite len_skip in D by lia.
    destruct (drop_each dt true (skip k xs) w1) as [[w2 k2] []] eqn:Q; destruct D as (D1 & D2 & D3).
    + split; [lia|]. intros _. specialize (D2 eq_refl). lia.
    + split; [lia|]. intros _. pose proof (drop_all_unw dt (skip k xs) w1) as N. unfold drop_all in N. rewrite Q in N. exfalso.
      assert (NN : forall ys w, snd (drop_each dt true ys w) <> DPanic).
      { induction ys as [|[p x] ys IH]; intros w0; cbn [drop_each]; [discriminate|]. destruct (dt true p x w0) as [w3 []]; cbn; try discriminate.
        specialize (IH w3). destruct (drop_each dt true ys w3) as [[w4 k4] r]. exact IH. }
      specialize (NN (skip k xs) w1). rewrite Q in NN. cbn in NN. congruence.
    + split; [lia|congruence].
  - split; [exact E1|congruence].
Qed.

Lemma drop_loop {C} (I : rworld C -> Prop) (dt : dtor C) unw l U m0 a L : 0 <= lsize l ->
  (forall y, a <= y < a + Z.of_nat L * lsize l -> in_block U y) ->
  respects I dt l U (b_slice l m0 a (Z.of_nat L)) -> forall n i w pan, I w -> (i + n = L)%nat ->
  (forall y, a + Z.of_nat i * lsize l <= y < a + Z.of_nat L * lsize l -> rmem w y = m0 y) ->
  let xs := map (placed_at l m0 a) (seq i n) in
  r_drop_slice dt unw l w (a + Z.of_nat i * lsize l) n pan =
  (if pan then let '(w', k, r) := drop_each dt true xs w in (w', match r with DOk => DPanic | _ => r end)
   else let '(w', k, r) := drop_all dt unw xs w in (w', r)).
Proof.
  intros L0 HU R. induction n as [|n IH]; intros i w pan IW N M.
  - cbn. destruct pan; reflexivity.
  - cbn zeta. cbn [seq map r_drop_slice]. unfold placed_at at 1 3.
    set (x := a + Z.of_nat i * lsize l) in *.
    assert (XE : x + lsize l = a + Z.of_nat (i + 1) * lsize l) by (unfold x; nia).
    assert (XL : x + lsize l <= a + Z.of_nat L * lsize l) by (rewrite XE; nia).
    assert (X0 : a <= x) by (unfold x; nia).
    assert (ER : b_read l (rmem w) x = b_read l m0 x) by (apply read_ext; intros y Y; apply M; lia).
    unfold drop_in_place, invoke. rewrite ER.
    assert (IN : In (b_read l m0 x) (b_slice l m0 a (Z.of_nat L))) by (apply slice_In; lia).
    assert (M' : forall u y, x + lsize l <= y < a + Z.of_nat L * lsize l -> rmem (fst (dt u (Some x) (b_read l m0 x) w)) y = m0 y).
    { intros u y Y. rewrite (proj2 (R u (Some x) _ w IW IN)).
      - apply M. lia.
      - apply HU. lia.
      - intros b [= <-]. unfold in_block. cbn. lia. }
    pose proof (fun u => proj1 (R u (Some x) _ w IW IN)) as IW1.
    replace (S i) with (i + 1)%nat by lia.
    assert (IH' : forall w1 pan1, I w1 -> (forall y, a + Z.of_nat (i + 1) * lsize l <= y < a + Z.of_nat L * lsize l -> rmem w1 y = m0 y) ->
       r_drop_slice dt unw l w1 (x + lsize l) n pan1 =
       (if pan1 then let '(w', k, r) := drop_each dt true (map (placed_at l m0 a) (seq (i + 1) n)) w1 in (w', match r with DOk => DPanic | _ => r end)
        else let '(w', k, r) := drop_all dt unw (map (placed_at l m0 a) (seq (i + 1) n)) w1 in (w', r))).
    { intros w1 pan1 I1 M1. rewrite XE. apply IH; [exact I1|lia|exact M1]. }
    rewrite <- XE in IH'. set (ys := map (placed_at l m0 a) (seq (i + 1) n)) in *.
    destruct pan.
    + rewrite orb_true_r. cbn [drop_each raise]. specialize (M' true). specialize (IW1 true). destruct (dt true (Some x) (b_read l m0 x) w) as [w1 []]; cbn [fst] in M', IW1.
      * rewrite (IH' w1 true IW1 M'). destruct (drop_each dt true ys w1) as [[w2 k2] r2]. reflexivity.
      * reflexivity.
      * reflexivity.
    + rewrite orb_false_r. unfold drop_all. cbn [drop_each]. specialize (M' unw). specialize (IW1 unw). destruct (dt unw (Some x) (b_read l m0 x) w) as [w1 []]; cbn [fst] in M', IW1.
      * rewrite (IH' w1 false IW1 M'). unfold drop_all. pose proof (each_count dt unw ys w1) as CN.
        destruct (drop_each dt unw ys w1) as [[w2 k2] []]; try reflexivity. destruct CN as (C1 & _ & C3).
        replace (skip (k2 + 1) ((Some x, b_read l m0 x) :: ys)) with (skip k2 ys).
        2:{ unfold skip. replace (Z.to_nat (k2 + 1)) with (Datatypes.S (Z.to_nat k2)) by lia. reflexivity. }
        destruct (drop_each dt true (skip k2 ys) w2) as [[w3 k3] []]; reflexivity.
      * unfold raise. destruct unw; [reflexivity|]. rewrite (IH' w1 true IW1 M').
        change (skip 1 ((Some x, b_read l m0 x) :: ys)) with ys. destruct (drop_each dt true ys w1) as [[w2 k2] []]; reflexivity.
      * reflexivity.
Qed.

Lemma drop_full {C} (I : rworld C -> Prop) (dt : dtor C) t unw l w v :
  valid_target t -> vec_wf t l v -> I w ->
  let xs := y_as_slice l (rmem w) v in
  respects I dt l (region (funinit v)) xs ->
  exists w' k r, r_drop dt unw l w v = (w', r) /\
    drop_all dt unw (at_places l (uptr (funinit v)) xs) w = (w', k, r) /\ (r <> DAbort -> k = len xs).
Proof.
  intros V W IW xs R. destruct (vec_facts t l v V W) as (L0 & F & FU & U0 & _). unfold r_drop.
  assert (LX : len xs = flen v) by (apply slice_length; exact F).
  assert (SL : slot l v 0 = uptr (funinit v)) by (unfold slot; lia).
  unfold xs, y_as_slice in *. rewrite SL in *. rewrite places_seq.
  pose proof (drop_loop I dt unw l (region (funinit v)) (rmem w) (uptr (funinit v)) (Z.to_nat (flen v)) L0) as D.
  rewrite Z2Nat.id in D by exact F. specialize (D ltac:(intros y Y; unfold in_block; cbn; lia) R (Z.to_nat (flen v)) 0%nat w false IW ltac:(lia) ltac:(reflexivity)).
  cbn zeta in D. rewrite Z.mul_0_l, Z.add_0_r in D. rewrite D.
  pose proof (all_count dt unw (map (placed_at l (rmem w) (uptr (funinit v))) (seq 0 (Z.to_nat (flen v)))) w) as CN.
  destruct (drop_all dt unw _ w) as [[w' k] r]. exists w', k, r. split; [reflexivity|]. split; [reflexivity|]. intros Q.
  destruct CN as (_ & CN). rewrite (CN Q), LX. unfold len. rewrite map_length, seq_length. lia.
Qed.

(** ** Drain *)
(** A drain of [v1] over the region [U]: the front is the vector, then a gap, the rest of the items, a gap, the tail. *)
Definition drain_at (l : layout) (v1 : fvec) (d : drain) : Prop :=
  delements d = uptr (funinit v1) + flen v1 * lsize l /\ 0 <= dstart d /\ dstart d <= dend d /\ dend d <= dtail d /\ 0 <= dtail_len d.

Lemma drain_at_start t l v lo hi v1 d : 0 <= flen v -> valid_bound t true lo -> valid_bound t false hi -> valid_target t ->
  f_drain t l v lo hi = Ret (v1, d) ->
  drain_at l v1 d /\ funinit v1 = funinit v /\ flen v1 = range_start lo /\ 0 <= range_start lo <= range_end hi (flen v) /\ range_end hi (flen v) <= flen v /\
  dtail d = range_end hi (flen v) - range_start lo /\ dtail_len d = flen v - range_end hi (flen v).
Proof.
  intros F Vl Vh V. unfold f_drain.
  assert (A : forall m x, op_add t m x 1 = Ret (x + 1) \/ exists q, op_add t m x 1 = Panic q \/ (debug t = false /\ usize_max t <= x)).
  { intros m x. unfold op_add. destruct (Z.leb_spec (x + 1) (usize_max t)); [left; reflexivity|]. right. destruct (debug t); [exists m; left; reflexivity|]. exists m. right. split; [reflexivity|lia]. }
  assert (SL : forall start, match lo with Included n => Ret n | Excluded n => op_add t PN_bound n 1 | Unbounded => Ret 0 end = Ret start -> start = range_start lo /\ 0 <= start).
  { intros start. destruct lo as [n|n|]; cbn [range_start valid_bound] in *.
    - intros [= <-]. destruct Vl as ((? & _) & _). auto.
    - destruct Vl as ((? & ?) & [K|K]); [discriminate|]. unfold op_add. destruct (Z.leb_spec (n + 1) (usize_max t)); [intros [= <-]; lia|].
      destruct (debug t); [discriminate|]. destruct K as [K|K]; [discriminate|lia].
    - intros [= <-]. lia. }
  assert (SH : forall e, match hi with Included n => op_add t PN_bound n 1 | Excluded n => Ret n | Unbounded => Ret (flen v) end = Ret e -> e = range_end hi (flen v)).
  { intros e. destruct hi as [n|n|]; cbn [range_end valid_bound] in *.
    - destruct Vh as ((? & ?) & [K|K]); [discriminate|]. unfold op_add. destruct (Z.leb_spec (n + 1) (usize_max t)); [intros [= <-]; lia|].
      destruct (debug t); [discriminate|]. destruct K as [K|K]; [discriminate|lia].
    - intros [= <-]. lia.
    - intros [= <-]. lia. }
  destruct (match lo with Included n => Ret n | Excluded n => op_add t PN_bound n 1 | Unbounded => Ret 0 end) as [start|] eqn:E1; cbn [obind]; [|discriminate].
  destruct (match hi with Included n => op_add t PN_bound n 1 | Excluded n => Ret n | Unbounded => Ret (flen v) end) as [e|] eqn:E2; cbn [obind]; [|discriminate].
  destruct (SL _ eq_refl) as (-> & S0). rewrite <- (SH _ eq_refl).
  destruct (Z.leb_spec (range_start lo) e) as [B1|]; cbn; [|discriminate].
  destruct (Z.leb_spec e (flen v)) as [B2|]; cbn; [|discriminate].
  intros Q. apply (f_equal (fun o => match o with Ret x => x | Panic _ => (v1, d) end)) in Q. cbn in Q.
  assert (Q1 := f_equal fst Q). assert (Q2 := f_equal snd Q). cbn in Q1, Q2. clear Q. subst v1 d. cbn [funinit flen dtail dtail_len].
  split; [|repeat split; auto; lia]. unfold drain_at. cbn [funinit flen dstart dend dtail dtail_len delements]. repeat split; try lia. 
Qed.

Lemma drain_at_consume l m v1 fronts : forall d d' ans, drain_at l v1 d -> yd_consume l m d fronts = (d', ans) ->
  drain_at l v1 d' /\ dtail d' = dtail d /\ dtail_len d' = dtail_len d.
Proof.
  induction fronts as [|b fs IH]; intros d d' ans A; cbn [yd_consume].
  - intros [= <- <-]. auto.
  - destruct (if b then yd_next l m d else yd_next_back l m d) as [d1 x] eqn:E. destruct (yd_consume l m d1 fs) as [d2 xs] eqn:E2. intros [= <- <-].
    destruct A as (A1 & A2 & A3 & A4 & A5).
    assert (B : drain_at l v1 d1 /\ dtail d1 = dtail d /\ dtail_len d1 = dtail_len d).
    { destruct b; [unfold yd_next in E|unfold yd_next_back in E]; unfold d_is_empty in E; destruct (Z.eqb_spec (dstart d) (dend d)); injection E as <- <-;
        unfold drain_at; cbn [dstart dend dtail dtail_len delements]; repeat split; auto; lia. }
    destruct B as (B1 & B2 & B3). destruct (IH d1 d2 xs B1 E2) as (I1 & I2 & I3). split; [exact I1|]. split; congruence.
Qed.

Lemma drain_loop {C} (I : rworld C -> Prop) (dt : dtor C) unw l U m0 v1 L : 0 <= lsize l -> forall n d w, I w ->
  drain_at l v1 d -> Z.of_nat n = d_len d ->
  (forall y, uptr (funinit v1) <= y < L -> in_block U y) -> delements d + dend d * lsize l <= L -> 0 <= flen v1 ->
  respects I dt l U (yd_as_slice l m0 d) ->
  (forall y, in_block U y -> rmem w y = m0 y) ->
  exists w' d' k r, drop_each dt unw (as_locals (yd_as_slice l m0 d)) w = (w', k, r) /\
    r_drain_loop dt unw l w d n = (w', d', r) /\ drain_at l v1 d' /\ dtail d' = dtail d /\ dtail_len d' = dtail_len d /\
    (forall y, in_block U y -> rmem w' y = m0 y).
Proof.
  intros L0. induction n as [|n IH]; intros d w IW A N HU HL F R M.
  - unfold yd_as_slice. rewrite slice_seq, <- N. cbn. exists w, d, 0, DOk. auto 8.
  - pose proof A as (A1 & A2 & A3 & A4 & A5). unfold d_len in N.
    set (x := delements d + dstart d * lsize l).
    assert (ES : yd_as_slice l m0 d = b_read l m0 x :: yd_as_slice l m0 {| dstart := dstart d + 1; dend := dend d; dtail := dtail d; dtail_len := dtail_len d; delements := delements d |}).
    { unfold yd_as_slice, d_len. cbn [dstart dend delements]. replace (dend d - dstart d) with (1 + (dend d - (dstart d + 1))) by lia.
      rewrite slice_app by lia. rewrite (slice_seq l m0 _ 1). change (Z.to_nat 1) with 1%nat. cbn [seq map app]. change (Z.of_nat 0) with 0. rewrite Z.mul_0_l, Z.add_0_r. fold x. f_equal. replace (x + 1 * lsize l) with (delements d + (dstart d + 1) * lsize l) by (unfold x; lia). reflexivity. }
    set (d1 := {| dstart := dstart d + 1; dend := dend d; dtail := dtail d; dtail_len := dtail_len d; delements := delements d |}) in *.
    assert (X1 : x + lsize l <= L).
    { unfold x. assert ((dstart d + 1) * lsize l <= dend d * lsize l) by (apply Z.mul_le_mono_nonneg_r; lia). lia. }
    assert (X0 : uptr (funinit v1) <= x) by (unfold x; rewrite A1; nia).
    assert (ER : b_read l (rmem w) x = b_read l m0 x) by (apply read_ext; intros y Y; apply M, HU; lia).
    rewrite ES in *. cbn [as_locals map drop_each r_drain_loop]. unfold yd_next, d_is_empty. destruct (Z.eqb_spec (dstart d) (dend d)) as [E|_]; [lia|]. fold x d1. rewrite ER.
    unfold invoke.
    assert (M' : forall y, in_block U y -> rmem (fst (dt unw None (b_read l m0 x) w)) y = m0 y).
    { intros y Y. rewrite (proj2 (R unw None _ w IW (or_introl eq_refl))); auto. discriminate. }
    pose proof (proj1 (R unw None _ w IW (or_introl eq_refl))) as IW1.
    assert (D1 : drain_at l v1 d1) by (unfold drain_at, d1; cbn [dstart dend dtail dtail_len delements]; repeat split; auto; lia).
    destruct (dt unw None (b_read l m0 x) w) as [w1 []]; cbn [fst] in M', IW1.
    + destruct (IH d1 w1 IW1 D1) as (w' & d' & k & r & I1 & I2 & I3 & I4 & I5 & I6); auto.
      * unfold d_len, d1. cbn [dstart dend]. lia.
      * intros u p z ww IQ IN. apply R; [exact IQ|]. right. exact IN.
      * change (map (fun x0 : bval => (None, x0)) (yd_as_slice l m0 d1)) with (as_locals (yd_as_slice l m0 d1)). rewrite I1.
        exists w', d', (k + 1), r. auto 8.
    + exists w1, d1, 1, (raise unw). destruct unw; cbn [raise]; auto 8.
    + exists w1, d1, 1, DAbort. auto 8.
Qed.

Lemma read_copied l m src dst n k : 0 <= lsize l -> (k < Z.to_nat n)%nat ->
  b_read l (mem_copy m src dst (n * lsize l)) (dst + Z.of_nat k * lsize l) = b_read l m (src + Z.of_nat k * lsize l).
Proof.
  intros L0 K. unfold b_read. apply nth_error_ext_. intros j. rewrite !nth_mem_read by exact L0. destruct (Z.ltb_spec (Z.of_nat j) (lsize l)); [|reflexivity].
  f_equal. unfold mem_copy. assert ((Z.of_nat k + 1) * lsize l <= n * lsize l) by (apply Z.mul_le_mono_nonneg_r; lia).
  destruct (Z.leb_spec dst (dst + Z.of_nat k * lsize l + Z.of_nat j)); [|nia]. destruct (Z.ltb_spec (dst + Z.of_nat k * lsize l + Z.of_nat j) (dst + n * lsize l)); [|lia].
  cbn [andb]. f_equal. lia.
Qed.
Lemma slice_copied l m src dst n : 0 <= lsize l -> b_slice l (mem_copy m src dst (n * lsize l)) dst n = b_slice l m src n.
Proof. intros L0. rewrite !slice_seq. apply map_ext_in. intros k K. apply in_seq in K. apply read_copied; [exact L0|lia]. Qed.

Lemma drain_full {C} (I : rworld C -> Prop) (dt : dtor C) t unw l (m : mem) v lo hi v1 d fronts d' ans (w : rworld C) :
  valid_target t -> vec_wf t l v -> valid_bound t true lo -> valid_bound t false hi -> I w ->
  f_drain t l v lo hi = Ret (v1, d) -> yd_consume l m d fronts = (d', ans) ->
  (forall y, in_block (region (funinit v)) y -> rmem w y = m y) ->
  let xs := y_as_slice l m v in let rest := yd_as_slice l m d' in
  respects I dt l (region (funinit v)) rest ->
  exists w' v' w2 k r, r_drain_drop dt unw l w v1 d' = (w', v', r) /\
    drop_each dt unw (as_locals rest) w = (w2, k, r) /\ same_but (region (funinit v)) w2 w' /\
    funinit v' = funinit v /\ vec_wf t l v' /\
    y_as_slice l (rmem w') v' = take (range_start lo) xs ++ match r with DOk => skip (range_end hi (len xs)) xs | _ => [] end.
Proof.
  intros V W Vl Vh IW ED EC M xs rest R. destruct (vec_facts t l v V W) as (L0 & F & FU & U0 & _).
  destruct (drain_at_start t l v lo hi v1 d F Vl Vh V ED) as (A & Ev & Ef & B1 & B2 & T1 & T2).
  destruct (drain_at_consume l m v1 fronts d d' ans A EC) as (A' & T3 & T4).
  set (s := range_start lo) in *. assert (LX : len xs = flen v) by (apply slice_length; exact F). rewrite LX. set (e := range_end hi (flen v)) in *.
  pose proof A' as (A1 & A2 & A3 & A4 & A5).
  assert (HU : forall y, uptr (funinit v1) <= y < uptr (funinit v) + flen v * lsize l -> in_block (region (funinit v)) y).
  { intros y Y. rewrite Ev in Y. unfold in_block. cbn. lia. }
  assert (HT : delements d' + dtail d' * lsize l = uptr (funinit v) + e * lsize l) by (rewrite A1, T3, T1, Ef, Ev; lia).
  assert (HE : uptr (funinit v) + e * lsize l <= uptr (funinit v) + flen v * lsize l) by nia.
  destruct (drain_loop I dt unw l (region (funinit v)) m v1 (uptr (funinit v) + flen v * lsize l) L0 (Z.to_nat (d_len d')) d' w IW A') as (w1 & d2 & k & r & E1 & E2 & A'' & T5 & T6 & M1); auto.
  { unfold d_len. lia. }
  { assert (dend d' * lsize l <= dtail d' * lsize l) by (apply Z.mul_le_mono_nonneg_r; lia). lia. }
  { lia. }
  unfold r_drain_drop. rewrite E2. pose proof A'' as (A1'' & _).
  assert (FR : forall m', (forall y, in_block (region (funinit v)) y -> m' y = m y) -> b_slice l m' (uptr (funinit v)) s = take s xs).
  { intros m' M'. unfold xs, y_as_slice, slot. rewrite Z.mul_0_l, Z.add_0_r, slice_take by lia. apply slice_same; [exact L0|lia|]. intros y Y. apply M', HU. rewrite Ev. nia. }
  assert (WF : forall n, 0 <= n <= flen v -> vec_wf t l {| funinit := funinit v1; flen := n |}).
  { intros n Nn. destruct W as (W1 & W2). split; cbn [funinit flen]; [rewrite Ev; exact W1|]. unfold f_capacity in *. cbn [funinit]. rewrite Ev. lia. }
  assert (V1 : y_as_slice l (rmem w1) v1 = take s xs).
  { unfold y_as_slice, slot. rewrite Z.mul_0_l, Z.add_0_r, Ef, Ev. apply FR, M1. }
  assert (W1 : vec_wf t l v1) by (specialize (WF (flen v1) ltac:(lia)); destruct v1; exact WF).
  destruct r.
  - destruct (Z.eqb_spec (dtail_len d2) 0) as [Z0|Z0].
    + exists w1, v1, w1, k, DOk. split; [reflexivity|]. split; [exact E1|]. split; [split; auto|]. split; [exact Ev|]. split; [exact W1|].
      rewrite V1. assert (E0 : e = flen v) by lia. rewrite E0, skip_all by lia. rewrite app_nil_r. reflexivity.
    + eexists _, _, w1, k, DOk. split; [reflexivity|]. split; [exact E1|].
      assert (SRC : delements d2 + dtail d2 * lsize l = uptr (funinit v) + e * lsize l) by (rewrite A1'', T5, <- HT, A1; lia).
      assert (DST : delements d2 = uptr (funinit v) + s * lsize l) by (rewrite A1'', Ef, Ev; lia).
      assert (TL : dtail_len d2 = flen v - e) by lia. rewrite SRC, DST, TL.
      assert (IC : s * lsize l + (flen v - e) * lsize l <= flen v * lsize l) by nia.
      split. { split; [reflexivity|]. cbn [rmem]. intros y Y. unfold mem_copy. destruct (Z.leb_spec (uptr (funinit v) + s * lsize l) y), (Z.ltb_spec y (uptr (funinit v) + s * lsize l + (flen v - e) * lsize l)); cbn [andb]; try reflexivity.
               exfalso. apply Y. apply HU. rewrite Ev. nia. }
      cbn [funinit]. split; [exact Ev|]. split; [apply WF; lia|].
      cbn [rmem]. unfold y_as_slice, slot. cbn [funinit flen]. rewrite Z.mul_0_l, Z.add_0_r, Ef, Ev, slice_app by lia. f_equal.
      * rewrite <- (FR (rmem w1) M1). apply slice_same; [exact L0|lia|]. intros y Y. unfold mem_copy. destruct (Z.leb_spec (uptr (funinit v) + s * lsize l) y); [lia|]. reflexivity.
      * rewrite slice_copied by exact L0. unfold xs, y_as_slice, slot. rewrite Z.mul_0_l, Z.add_0_r, slice_skip by lia.
        apply slice_same; [exact L0|lia|]. intros y Y. apply M1, HU. rewrite Ev. nia.
  - exists w1, v1, w1, k, DPanic. rewrite app_nil_r. split; [reflexivity|]. split; [exact E1|]. split; [split; auto|]. auto.
  - exists w1, v1, w1, k, DAbort. rewrite app_nil_r. split; [reflexivity|]. split; [exact E1|]. split; [split; auto|]. auto.
Qed.

(** ** fill and extend *)
Lemma same_but_refl {C} U (w : rworld C) : same_but U w w.
Proof. split; auto. Qed.
Lemma same_but_trans {C} U (a b c : rworld C) : same_but U a b -> same_but U b c -> same_but U a c.
Proof. intros (A1 & A2) (B1 & B2). split; [congruence|]. intros y Y. rewrite B2, A2; auto. Qed.

Lemma fill_loop_full {C} (I : rworld C -> Prop) (next : rnext C) close unw l U : 0 <= lsize l -> stable U I -> items_of_size I next l ->
  (forall u, apart I U (next u)) -> (forall u, apart I U (close u)) -> forall n w w0 v, I w0 ->
  (forall y, uptr (funinit v) <= y < uptr (funinit v) + (flen v + Z.of_nat n) * lsize l -> in_block U y) -> 0 <= flen v ->
  same_but U w0 w ->
  let '(w2, items, r) := filled next close unw n w0 in
  exists w' v', r_fill_loop next close unw l w v n = (w', v', r) /\ same_but U w2 w' /\ funinit v' = funinit v /\
    flen v' = flen v + len items /\ len items <= Z.of_nat n /\
    y_as_slice l (rmem w') v' = y_as_slice l (rmem w) v ++ items.
Proof.
  intros L0 ST IT AN AC. induction n as [|n IH]; intros w w0 v IW0 HU F SB.
  - unfold filled. cbn. exists w, v. rewrite app_nil_r. unfold len. cbn. auto 8 with zarith.
  - unfold filled. cbn [ask r_fill_loop]. destruct (AN unw) as (AN1 & AN2). destruct (AN1 _ _ IW0 SB) as (S1 & S2). pose proof (proj1 (AN2 w0 IW0)) as IW1. pose proof (ST _ _ SB IW0) as IW. pose proof (proj2 (AN2 w IW)) as AN3. clear AN2. rename AN3 into AN2.
    assert (SZ := fun x => IT unw w x IW). destruct (next unw w0) as [w1 q1] eqn:E0. destruct (next unw w) as [w1' q1'] eqn:E1. cbn [fst snd] in *. subst q1'.
    assert (SL : y_as_slice l (rmem w1') v = y_as_slice l (rmem w) v).
    { unfold y_as_slice, slot. rewrite Z.mul_0_l, Z.add_0_r. apply slice_same; auto. intros y Y. apply AN2, HU. nia. }
    destruct q1 as [|x| |].
    + exists w1', v. rewrite app_nil_r. split; [reflexivity|]. split; [exact S1|]. unfold len. cbn. auto 8 with zarith.
    + specialize (SZ x eq_refl).
      set (w3 := MkRW (rcl w1') (mem_write (rmem w1') (slot l v (flen v)) x)). set (v3 := {| funinit := funinit v; flen := flen v + 1 |}).
      assert (IN : forall y, slot l v (flen v) <= y < slot l v (flen v) + lsize l -> in_block U y) by (intros y Y; apply HU; unfold slot in Y; nia).
      assert (SB3 : same_but U w1 w3).
      { eapply same_but_trans; [exact S1|]. split; [reflexivity|]. intros y Y. unfold w3. cbn [rmem]. unfold mem_write. rewrite SZ.
        destruct (Z.leb_spec (slot l v (flen v)) y), (Z.ltb_spec y (slot l v (flen v) + lsize l)); cbn [andb]; try reflexivity. exfalso. apply Y, IN. lia. }
      specialize (IH w3 w1 v3 IW1). cbn [funinit flen v3] in IH.
      specialize (IH ltac:(intros y Y; apply HU; nia) ltac:(lia) SB3). unfold filled in IH. destruct (ask next unw n w1) as [[w2 xs] how] eqn:EA.
      assert (SL3 : y_as_slice l (rmem w3) v3 = y_as_slice l (rmem w) v ++ [x]).
      { rewrite <- SL. unfold y_as_slice, slot, v3, w3. cbn [funinit flen rmem]. rewrite Z.mul_0_l, Z.add_0_r, slice_app by lia. f_equal.
        - apply slice_same; auto. intros y Y. unfold mem_write, slot. destruct (Z.leb_spec (uptr (funinit v) + flen v * lsize l) y); [lia|reflexivity].
        - rewrite slice_seq. change (Z.to_nat 1) with 1%nat. cbn [seq map app]. change (Z.of_nat 0) with 0. rewrite Z.mul_0_l, Z.add_0_r. unfold b_read, slot. rewrite read_write_same by exact SZ. reflexivity. }
      rewrite SL3 in IH.
      assert (G : forall items w2 r, (exists w' v', r_fill_loop next close unw l w3 v3 n = (w', v', r) /\ same_but U w2 w' /\ funinit v' = funinit v /\
            flen v' = flen v + 1 + len items /\ len items <= Z.of_nat n /\ y_as_slice l (rmem w') v' = (y_as_slice l (rmem w) v ++ [x]) ++ items) ->
          exists w' v', r_fill_loop next close unw l w3 v3 n = (w', v', r) /\ same_but U w2 w' /\ funinit v' = funinit v /\
            flen v' = flen v + len (x :: items) /\ len (x :: items) <= Z.of_nat (S n) /\ y_as_slice l (rmem w') v' = y_as_slice l (rmem w) v ++ x :: items).
      { intros items w5 r (w' & v' & I1 & I2 & I3 & I4 & I5 & I6). exists w', v'. rewrite len_cons, <- app_assoc in *. auto 8 with zarith. }
      destruct how; try (apply G; exact IH). destruct (after_panic close unw w2) as [w5 r5]. apply G, IH.
    + unfold r_unwind_iter, after_panic. destruct unw.
      * exists w1', v. rewrite app_nil_r. split; [reflexivity|]. split; [exact S1|]. unfold len. cbn. auto 8 with zarith.
      * destruct (AC true) as (AC1 & AC2). destruct (AC1 _ _ IW1 S1) as (S3 & S4). pose proof (proj2 (AC2 w1' (ST _ _ S1 IW1))) as AC3. clear AC2. rename AC3 into AC2. destruct (close true w1) as [w2 r2]. destruct (close true w1') as [w2' r2']. cbn [fst snd] in *. subst r2'.
        assert (SL2 : y_as_slice l (rmem w2') v = y_as_slice l (rmem w) v).
        { rewrite <- SL. unfold y_as_slice, slot. rewrite Z.mul_0_l, Z.add_0_r. apply slice_same; auto. intros y Y. apply AC2, HU. nia. }
        destruct r2; exists w2', v; rewrite app_nil_r; (split; [reflexivity|]); (split; [exact S3|]); unfold len; cbn; auto 8 with zarith.
    + exists w1', v. rewrite app_nil_r. split; [reflexivity|]. split; [exact S1|]. unfold len. cbn. auto 8 with zarith.
Qed.

Lemma room_sub t l v : valid_target t -> vec_wf t l v -> op_sub t PN_cap (f_capacity t l v) (flen v) = Ret (f_capacity t l v - flen v).
Proof. intros V (_ & W). unfold op_sub. destruct (Z.leb_spec (flen v) (f_capacity t l v)); [reflexivity|lia]. Qed.

Lemma fill_full {C} (I : rworld C -> Prop) (next : rnext C) close t unw l w v :
  valid_target t -> vec_wf t l v -> I w -> stable (region (funinit v)) I -> items_of_size I next l ->
  (forall u, apart I (region (funinit v)) (next u)) -> (forall u, apart I (region (funinit v)) (close u)) ->
  let xs := y_as_slice l (rmem w) v in
  let '(w2, items, r) := filled next close unw (Z.to_nat (f_capacity t l v - len xs)) w in
  exists w' v', r_fill next close unw t l w v = Ret (w', v', r) /\ same_but (region (funinit v)) w2 w' /\ funinit v' = funinit v /\
    vec_wf t l v' /\ y_as_slice l (rmem w') v' = xs ++ items.
Proof.
  intros V W IW ST IT AN AC xs. destruct (vec_facts t l v V W) as (L0 & F & FU & U0 & CU & CM). unfold r_fill. rewrite room_sub by auto. cbn [obind].
  assert (LX : len xs = flen v) by (apply slice_length; exact F). rewrite LX.
  pose proof W as (W1 & W2).
  pose proof (fill_loop_full I next close unw l (region (funinit v)) L0 ST IT AN AC (Z.to_nat (f_capacity t l v - flen v)) w w v IW) as H.
  specialize (H ltac:(intros y Y; rewrite Z2Nat.id in Y by lia; replace (flen v + (f_capacity t l v - flen v)) with (f_capacity t l v) in Y by lia; unfold in_block; cbn; lia) F (same_but_refl _ _)).
  destruct (filled next close unw (Z.to_nat (f_capacity t l v - flen v)) w) as [[w2 items] r].
  destruct H as (w' & v' & H1 & H2 & H3 & H4 & H5 & H6). rewrite H1. exists w', v'. split; [reflexivity|]. split; [exact H2|]. split; [exact H3|].
  split; [|exact H6]. split; [rewrite H3; exact W1|]. unfold f_capacity in *. rewrite H3. pose proof (len_nonneg items). lia.
Qed.

Lemma ask_inv {C} (I : rworld C -> Prop) (next : rnext C) unw U : (forall u, apart I U (next u)) -> forall n w, I w -> I (fst (fst (ask next unw n w))).
Proof.
  intros AN. induction n as [|n IH]; intros w IW; cbn [ask]; [exact IW|]. pose proof (proj1 (proj2 (AN unw) w IW)) as I1.
  destruct (next unw w) as [w1 []]; cbn [fst] in *; try exact I1. specialize (IH w1 I1). destruct (ask next unw n w1) as [[w2 xs] how]. exact IH.
Qed.
Lemma filled_inv {C} (I : rworld C -> Prop) (next : rnext C) close unw U n w : (forall u, apart I U (next u)) -> (forall u, apart I U (close u)) ->
  I w -> I (fst (fst (filled next close unw n w))).
Proof.
  intros AN AC IW. unfold filled. pose proof (ask_inv I next unw U AN n w IW) as I1. destruct (ask next unw n w) as [[w1 xs] []]; cbn [fst] in *; try exact I1.
  unfold after_panic. destruct unw; [exact I1|]. pose proof (proj1 (proj2 (AC true) w1 I1)) as I2. destruct (close true w1). exact I2.
Qed.

Lemma extend_full {C} (I : rworld C -> Prop) (dt : dtor C) (next : rnext C) close t unw l w v :
  valid_target t -> vec_wf t l v -> I w -> stable (region (funinit v)) I -> items_of_size I next l ->
  (forall u, apart I (region (funinit v)) (next u)) -> (forall u, apart I (region (funinit v)) (close u)) ->
  (forall u x, apart I (region (funinit v)) (dt u None x)) ->
  let xs := y_as_slice l (rmem w) v in
  let '(w2, items, r) := extended dt next close unw (Z.to_nat (f_capacity t l v - len xs)) w in
  exists w' v', r_extend dt next close unw t l w v = Ret (w', v', r) /\ same_but (region (funinit v)) w2 w' /\ funinit v' = funinit v /\
    vec_wf t l v' /\ y_as_slice l (rmem w') v' = xs ++ items.
Proof.
  intros V W IW ST IT AN AC AD xs. pose proof (fill_full I next close t unw l w v V W IW ST IT AN AC) as H. cbn zeta in H. fold xs in H.
  unfold extended, r_extend. set (U := region (funinit v)) in *.
  pose proof (filled_inv I next close unw U (Z.to_nat (f_capacity t l v - len xs)) w AN AC IW) as IW1.
  destruct (filled next close unw (Z.to_nat (f_capacity t l v - len xs)) w) as [[w1 items] r1]. cbn [fst] in IW1.
  destruct H as (w1' & v1 & E1 & SB & Ev & W1 & SL). rewrite E1. cbn [obind].
  assert (KEEP : forall (A : Type) (f : rworld C -> rworld C * A) a a', apart I U f -> I a -> same_but U a a' -> y_as_slice l (rmem a') v1 = xs ++ items ->
    I (fst (f a)) /\ same_but U (fst (f a)) (fst (f a')) /\ snd (f a') = snd (f a) /\ y_as_slice l (rmem (fst (f a'))) v1 = xs ++ items).
  { intros A f a a' (P1 & P2) IA S0 Q. destruct (P1 _ _ IA S0) as (P3 & P4). split; [apply P2; exact IA|]. split; [exact P3|]. split; [exact P4|]. rewrite <- Q.
    destruct (vec_facts t l v1 V W1) as (L0 & F1 & FU1 & U01 & _). unfold y_as_slice, slot. rewrite Z.mul_0_l, Z.add_0_r. apply slice_same; auto.
    intros y Y. apply (P2 a' (ST _ _ S0 IA)). unfold U. rewrite <- Ev. unfold in_block. cbn. lia. }
  assert (CL : forall u a a', I a -> same_but U a a' -> y_as_slice l (rmem a') v1 = xs ++ items ->
     let '(b, r) := after_panic close u a in exists b', r_unwind_iter close u a' = (b', r) /\ same_but U b b' /\ y_as_slice l (rmem b') v1 = xs ++ items).
  { intros u a a' IA S0 Q. unfold after_panic, r_unwind_iter. destruct u; [eauto|]. destruct (KEEP _ (close true) a a' (AC true) IA S0 Q) as (K0 & K1 & K2 & K3).
    destruct (close true a) as [b r]. destruct (close true a') as [b' r']. cbn [fst snd] in *. subst r'. destruct r; eauto. }
  destruct r1; [|exists w1', v1; auto 8|exists w1', v1; auto 8].
  destruct (KEEP _ (next unw) w1 w1' (AN unw) IW1 SB SL) as (K0 & K1 & K2 & K3). destruct (next unw w1) as [w2 q]. destruct (next unw w1') as [w2' q']. cbn [fst snd] in *. subst q'.
  destruct q as [|x| |].
  - destruct (KEEP _ (close unw) w2 w2' (AC unw) K0 K1 K3) as (J0 & J1 & J2 & J3). destruct (close unw w2) as [w3 r3]. destruct (close unw w2') as [w3' r3']. cbn [fst snd] in *. subst r3'.
    exists w3', v1. auto 8.
  - destruct unw; [exists w2', v1; auto 8|]. unfold invoke.
    destruct (KEEP _ (dt true None x) w2 w2' (AD true x) K0 K1 K3) as (J0 & J1 & J2 & J3). destruct (dt true None x w2) as [w3 r3]. destruct (dt true None x w2') as [w3' r3']. cbn [fst snd] in *. subst r3'.
    destruct r3; cbn [raise]; [|exists w3', v1; auto 8|exists w3', v1; auto 8].
    specialize (CL false w3 w3' J0 J1 J3). destruct (after_panic close false w3) as [w4 r4]. destruct CL as (b' & CL1 & CL2 & CL3). rewrite CL1. exists b', v1. auto 8.
  - specialize (CL unw w2 w2' K0 K1 K3). destruct (after_panic close unw w2) as [w4 r4]. destruct CL as (b' & CL1 & CL2 & CL3). rewrite CL1. exists b', v1. auto 8.
  - exists w2', v1. auto 8.
Qed.
