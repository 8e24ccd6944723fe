(** * FixedVecMemProofs: elements as bytes simulate elements as a map *)
From Verif Require Import Base Spec BaseFacts SyncProofs SyncMemModel SyncMemSpec SyncMemProofs UninitModel UninitSpec UninitProofs
  FixedVecModel FixedVecSpec FixedVecProofs FixedVecPool MemBumpProofs FixedVecMemModel FixedVecMemSpec.

(** Places for elements in the region [u] *)
Definition on_grid (l : layout) (u : uview) (a : Z) : Prop :=
  uptr u <= a /\ a + lsize l <= uptr u + ulen u /\ (lsize l | a - uptr u).
Definition gslot (l : layout) (u : uview) (a : Z) : Prop := lsize l = 0 \/ on_grid l u a.
Definition agree (code : bval -> elem) (l : layout) (u : uview) (m : mem) (h : eheap) : Prop :=
  0 < lsize l -> forall a, on_grid l u a -> h a = Some (code (b_read l m a)).
Definition vfit (l : layout) (u : uview) (v : fvec) : Prop :=
  uptr u <= uptr (funinit v) /\ uptr (funinit v) + ulen (funinit v) <= uptr u + ulen u /\ (lsize l | uptr (funinit v) - uptr u).

Lemma fit_slot l u v i : 0 <= lsize l -> vfit l u v -> 0 <= i -> (i + 1) * lsize l <= ulen (funinit v) -> gslot l u (uptr (funinit v) + i * lsize l).
Proof.
  intros L (F1 & F2 & F3) I0 I1. right. split; [nia|]. split; [nia|].
  replace (uptr (funinit v) + i * lsize l - uptr u) with ((uptr (funinit v) - uptr u) + i * lsize l) by lia.
  apply Z.divide_add_r; [exact F3|]. exists i. reflexivity.
Qed.

Lemma agree_read code l u m h a : 0 <= lsize l -> (lsize l = 0 -> code [] = 0) -> agree code l u m h -> gslot l u a ->
  h_read l h a = Some (code (b_read l m a)).
Proof.
  intros L C A [Z0|G]; unfold h_read.
  - rewrite Z0. cbn. unfold b_read, mem_read. rewrite Z0. cbn. rewrite C by exact Z0. reflexivity.
  - destruct (Z.eqb_spec (lsize l) 0) as [E|E]; [|apply A; [lia|exact G]].
    unfold b_read, mem_read. rewrite E. cbn. rewrite C by exact E. reflexivity.
Qed.

Lemma grid_gap s a b : 0 < s -> (s | a) -> (s | b) -> a <> b -> a + s <= b \/ b + s <= a.
Proof. intros S (x & ->) (y & ->) N. assert (x <> y) by congruence. nia. Qed.
Lemma grid_gap2 l u a b : 0 < lsize l -> on_grid l u a -> on_grid l u b -> a <> b -> a + lsize l <= b \/ b + lsize l <= a.
Proof. intros S (_ & _ & A) (_ & _ & B) N. destruct (grid_gap _ _ _ S A B ltac:(lia)); lia. Qed.

Lemma read_write_same m a bs n : Z.of_nat (length bs) = n -> mem_read (mem_write m a bs) a n = bs.
Proof.
  intros <-. apply nth_error_ext_. intros k. rewrite nth_mem_read by lia. destruct (Z.ltb_spec (Z.of_nat k) (Z.of_nat (length bs))) as [K|K].
  - unfold mem_write. destruct (Z.leb_spec a (a + Z.of_nat k)); [|lia]. destruct (Z.ltb_spec (a + Z.of_nat k) (a + Z.of_nat (length bs))); [|lia].
    cbn [andb]. replace (a + Z.of_nat k - a) with (Z.of_nat k) by lia. rewrite Nat2Z.id. symmetry. apply nth_error_nth'. lia.
  - symmetry. apply nth_error_None. lia.
Qed.
Lemma read_ext m m' a n : (forall x, a <= x < a + n -> m' x = m x) -> mem_read m' a n = mem_read m a n.
Proof.
  intros H. destruct (Z.le_gt_cases 0 n).
  - apply nth_error_ext_. intros k. rewrite !nth_mem_read by lia. destruct (Z.ltb_spec (Z.of_nat k) n); [|reflexivity]. f_equal. apply H. lia.
  - unfold mem_read. replace (Z.to_nat n) with 0%nat by lia. reflexivity.
Qed.

Lemma b_read_length l m a : 0 <= lsize l -> Z.of_nat (length (b_read l m a)) = lsize l.
Proof. intros L. unfold b_read, mem_read. rewrite map_length, seq_length. lia. Qed.

Lemma agree_write code l u m h a bs : 0 <= lsize l -> Z.of_nat (length bs) = lsize l -> agree code l u m h -> gslot l u a ->
  agree code l u (mem_write m a bs) (h_write l h a (code bs)).
Proof.
  intros L LB A G S x X. unfold h_write. destruct (Z.eqb_spec (lsize l) 0); [lia|]. destruct G as [?|G]; [lia|].
  unfold b_read. destruct (Z.eqb_spec x a) as [->|N].
  - rewrite read_write_same by exact LB. reflexivity.
  - rewrite A by auto. do 2 f_equal. symmetry. apply read_ext. intros y Y. unfold mem_write. rewrite LB.
    destruct (grid_gap2 l u x a S X G N); destruct (Z.leb_spec a y), (Z.ltb_spec y (a + lsize l)); cbn; try reflexivity; lia.
Qed.

Lemma write_inside l u m a bs : Z.of_nat (length bs) = lsize l -> gslot l u a -> SyncMemSpec.same_outside (region u) m (mem_write m a bs).
Proof.
  intros LB G x X. unfold mem_write. rewrite LB. destruct (Z.leb_spec a x), (Z.ltb_spec x (a + lsize l)); cbn [andb]; try reflexivity.
  exfalso. apply X. destruct G as [?|(G1 & G2 & _)]; [lia|]. unfold in_block. cbn. lia.
Qed.

Lemma agree_stable code l u m m' h : (forall x, in_block (region u) x -> m' x = m x) -> agree code l u m h -> agree code l u m' h.
Proof.
  intros S A P a G. rewrite A by auto. do 2 f_equal. symmetry. apply read_ext. intros x X. apply S. destruct G as (G1 & G2 & _). unfold in_block. cbn. lia.
Qed.

Lemma agree_copy code l u m h src dst n : 0 <= lsize l -> 0 < n -> agree code l u m h -> gslot l u src -> gslot l u dst ->
  src + n * lsize l <= uptr u + ulen u ->
  agree code l u (mem_copy m src dst (n * lsize l)) (h_copy l h src dst n).
Proof.
  intros L N A GS GD HS S x X. unfold h_copy. destruct (Z.eqb_spec (lsize l) 0); [lia|]. destruct GS as [?|GS]; [lia|]. destruct GD as [?|GD]; [lia|].
  pose proof GS as (S1 & S2 & S3). pose proof GD as (D1 & D2 & D3). pose proof X as (X1 & X2 & X3).
  assert (DX : (lsize l | x - dst)) by (replace (x - dst) with ((x - uptr u) - (dst - uptr u)) by lia; apply Z.divide_sub_r; assumption).
  destruct (Z.leb_spec dst x) as [Y1|Y1]; [destruct (Z.ltb_spec x (dst + n * lsize l)) as [Y2|Y2]|]; cbn [andb].
  - assert (Q : (x - dst) mod lsize l =? 0 = true) by (apply Z.eqb_eq; apply Z.mod_divide; [lia|exact DX]). rewrite Q. cbn [andb].
    destruct DX as (q & Q2). assert (q < n) by nia. assert (0 <= q) by nia. assert (q * lsize l + lsize l <= n * lsize l) by nia.
    assert (X' : on_grid l u (src + (x - dst))).
    { split; [lia|]. split; [lia|]. replace (src + (x - dst) - uptr u) with ((src - uptr u) + (x - dst)) by lia. apply Z.divide_add_r; [exact S3|exists q; exact Q2]. }
    rewrite (A S _ X'). do 2 f_equal. unfold b_read. apply nth_error_ext_. intros k. rewrite !nth_mem_read by lia.
    destruct (Z.ltb_spec (Z.of_nat k) (lsize l)); [|reflexivity]. f_equal. unfold mem_copy.
    destruct (Z.leb_spec dst (x + Z.of_nat k)); [|lia]. destruct (Z.ltb_spec (x + Z.of_nat k) (dst + n * lsize l)); [|lia]. cbn [andb]. f_equal. lia.
  - rewrite (A S _ X). do 2 f_equal. unfold b_read. symmetry. apply read_ext. intros y Y. unfold mem_copy.
    destruct (Z.leb_spec dst y), (Z.ltb_spec y (dst + n * lsize l)); cbn; try reflexivity; lia.
  - rewrite (A S _ X). do 2 f_equal. unfold b_read. symmetry. apply read_ext. intros y Y. unfold mem_copy.
    assert (x + lsize l <= dst) by (destruct (grid_gap2 l u x dst S X GD ltac:(lia)); lia).
    destruct (Z.leb_spec dst y), (Z.ltb_spec y (dst + n * lsize l)); cbn; try reflexivity; lia.
Qed.

Lemma copy_inside l u m src dst n : 0 <= lsize l -> uptr u <= dst -> dst + n * lsize l <= uptr u + ulen u ->
  SyncMemSpec.same_outside (region u) m (mem_copy m src dst (n * lsize l)).
Proof.
  intros L D1 D2 x X. unfold mem_copy. destruct (Z.leb_spec dst x), (Z.ltb_spec x (dst + n * lsize l)); cbn [andb]; try reflexivity.
  exfalso. apply X. unfold in_block. cbn. lia.
Qed.

(** ** Functions in lock step *)
Definition wrel (code : bval -> elem) (l : layout) (u : uview) (y : yworld) (w : fworld) : Prop :=
  agree code l u (ymem y) (wheap w) /\ wdrops w = map (fun b => Some (code b)) (ydrops y).

Lemma wrel_log code l u y w x : wrel code l u y w -> wrel code l u (y_log y x) (log_drop w (Some (code x))).
Proof. intros (A & D). split; [exact A|]. cbn. rewrite D, map_app. reflexivity. Qed.

Lemma slice_sim code l u m h a n : 0 <= lsize l -> (lsize l = 0 -> code [] = 0) -> agree code l u m h ->
  (forall i, 0 <= i < n -> gslot l u (a + i * lsize l)) -> read_slots l h a n = map (fun b => Some (code b)) (b_slice l m a n).
Proof.
  intros L C A G. unfold read_slots, b_slice. rewrite map_map. apply map_ext_in. intros i I.
  assert (0 <= i < n).
  { assert (K : forall k, In i (upto k) -> 0 <= i < Z.of_nat k).
    { induction k as [|k IH]; cbn [upto]; [intros []|]. intros J. apply in_app_or in J as [J|[<-|[]]]; [specialize (IH J)|]; lia. }
    specialize (K _ I). lia. }
  eapply agree_read; eauto.
Qed.

(** Everything about a vector that is needed *)
Definition vgood (t : target) (l : layout) (u : uview) (h : eheap) (v : fvec) : Prop :=
  vfit l u v /\ exists cap xs, vec_rep t l h v cap xs.

Lemma good_slots t l u h v : valid_target t -> vgood t l u h v ->
  0 <= lsize l /\ 0 <= flen v /\ flen v * lsize l <= ulen (funinit v) /\ forall i, 0 <= i < flen v -> gslot l u (uptr (funinit v) + i * lsize l).
Proof.
  intros V (F & cap & xs & R). destruct (rep_facts t l h v cap xs V R) as (F1 & F2 & F3 & F4 & F5 & F6 & F7).
  destruct R as (_ & _ & Hl & _). pose proof (len_nonneg xs). split; [exact F1|]. split; [lia|]. split; [lia|].
  intros i I. apply fit_slot; auto; [lia|]. nia.
Qed.

Lemma as_slice_sim code t l u m h v : valid_target t -> (lsize l = 0 -> code [] = 0) -> agree code l u m h -> vgood t l u h v ->
  f_as_slice l h v = map (fun b => Some (code b)) (y_as_slice l m v).
Proof.
  intros V C A G. destruct (good_slots t l u h v V G) as (L & F & _ & S). unfold f_as_slice, y_as_slice, slot.
  apply (slice_sim code l u); auto. intros i I. rewrite Z.mul_0_l, Z.add_0_r. auto.
Qed.

Lemma push_sim code t l u m h v x : valid_target t -> agree code l u m h -> vgood t l u h v -> Z.of_nat (length x) = lsize l ->
  match y_push t l m v x, f_push t l h v (code x) with
  | Panic _, Panic _ => True
  | Ret (m', v', r), Ret (h', v'', r') =>
      v'' = v' /\ r' = option_map code r /\ funinit v' = funinit v /\ agree code l u m' h' /\ SyncMemSpec.same_outside (region u) m m'
  | _, _ => False
  end.
Proof.
  intros V A G LX. destruct (good_slots t l u h v V G) as (L & F & FS & S). destruct G as (FT & cap & xs & R).
  unfold y_push, f_push. destruct (flen v =? usize_max t) eqn:Q.
  { cbn. repeat split; auto. }
  destruct (head_tail_spec t l h v cap xs V R) as (all & tail & EH & (_ & Hcut & _) & _ & Wt). rewrite EH. cbn [obind snd].
  injection Hcut as Hc1 Hc2. pose proof R as (_ & _ & Hl & _).
  destruct (v_split_first_spec t l tail V Wt) as [S1 S2].
  destruct (Z.le_gt_cases (lsize l) (ulen tail)) as [Q1|Q1].
  - destruct (S1 Q1) as (a & b & E & (Ha & _ & _) & _). injection Ha as Ha1 Ha2. rewrite E. cbn [obind snd].
    assert (GA : gslot l u (uptr a)).
    { rewrite Ha1, Hc1. rewrite <- Hl. apply fit_slot; auto. rewrite Hc2 in Q1. nia. }
    repeat split; auto; [apply agree_write; auto|]. eapply write_inside; eauto.
  - rewrite (S2 Q1). cbn [obind snd]. repeat split; auto.
Qed.

Lemma pop_sim code t l u m h v : valid_target t -> (lsize l = 0 -> code [] = 0) -> agree code l u m h -> vgood t l u h v ->
  match y_pop t l m v, f_pop t l h v with
  | Panic _, Panic _ => True
  | Ret (v', r), Ret (v'', r') => v'' = v' /\ r' = option_map (fun b => Some (code b)) r /\ funinit v' = funinit v
  | _, _ => False
  end.
Proof.
  intros V C A G. destruct (good_slots t l u h v V G) as (L & F & FS & S). destruct G as (FT & cap & xs & R).
  unfold y_pop, f_pop. destruct (Z.eqb_spec (flen v) 0) as [E0|E0]; [cbn; auto|].
  destruct (head_tail_spec t l h v cap xs V R) as (all & tail & EH & (Hcut & _ & _) & Wa & _). rewrite EH. cbn [obind fst].
  injection Hcut as Hc1 Hc2. pose proof R as (_ & _ & Hl & _).
  destruct (v_split_last_spec t l all V Wa) as [S1 _].
  destruct S1 as (a & b & n & E & W & N & (_ & Hb & _) & _); [rewrite Hc2, <- Hl; nia|]. rewrite E. cbn [obind snd unwrap].
  injection Hb as Hb1 Hb2. split; [reflexivity|]. split; [|reflexivity]. cbn [option_map]. f_equal.
  eapply agree_read; eauto. destruct (Z.eq_dec (lsize l) 0) as [Z0|Z0]; [left; exact Z0|].
  destruct (W ltac:(lia)) as (W1 & W2). rewrite Hc2, <- Hl in W2. assert (n + 1 = flen v) by nia.
  rewrite Hb1, Hc1. apply fit_slot; auto. nia.
Qed.

Lemma truncate_loop_sim code boom l u : 0 <= lsize l -> (lsize l = 0 -> code [] = 0) -> forall n y w ptr ll,
  wrel code l u y w -> (forall i, 0 < i <= Z.of_nat n -> gslot l u (ptr - i * lsize l)) ->
  let '(y', ll', p) := y_truncate_loop (fun b => boom (code b)) l y n ptr ll in
  let '(w', ll'', p') := truncate_loop boom l w n ptr ll in
  ll'' = ll' /\ p' = p /\ wrel code l u y' w' /\ ymem y' = ymem y.
Proof.
  intros L C. induction n as [|n IH]; intros y w ptr ll W G; cbn [y_truncate_loop truncate_loop].
  - auto.
  - assert (E : h_read l (wheap w) (ptr - lsize l) = Some (code (b_read l (ymem y) (ptr - lsize l)))).
    { eapply agree_read; eauto; [apply W|]. replace (ptr - lsize l) with (ptr - 1 * lsize l) by lia. apply G. lia. }
    rewrite E. cbn [booms]. pose proof (wrel_log code l u y w (b_read l (ymem y) (ptr - lsize l)) W) as W'.
    destruct (boom (code (b_read l (ymem y) (ptr - lsize l)))); [auto|].
    refine (IH _ _ (ptr - lsize l) (ll - 1) W' _). intros i I.
    replace (ptr - lsize l - i * lsize l) with (ptr - (i + 1) * lsize l) by lia. apply G. lia.
Qed.

Lemma truncate_sim code boom t l u y w v n : valid_target t -> (lsize l = 0 -> code [] = 0) -> wrel code l u y w -> vgood t l u (wheap w) v -> 0 <= n ->
  let '(y', v', p) := y_truncate (fun b => boom (code b)) l y v n in
  let '(w', v'', p') := f_truncate boom l w v n in
  v'' = v' /\ p' = p /\ wrel code l u y' w' /\ ymem y' = ymem y /\ funinit v' = funinit v.
Proof.
  intros V C W G N. destruct (good_slots t l u _ v V G) as (L & F & FS & S). unfold y_truncate, f_truncate.
  assert (H : forall i, 0 < i <= Z.of_nat (Z.to_nat (flen v - n)) -> gslot l u (slot l v (flen v) - i * lsize l)).
  { intros i I. unfold slot. replace (uptr (funinit v) + flen v * lsize l - i * lsize l) with (uptr (funinit v) + (flen v - i) * lsize l) by lia. apply S. lia. }
  pose proof (truncate_loop_sim code boom l u L C (Z.to_nat (flen v - n)) y w (slot l v (flen v)) (flen v) W H) as K.
  destruct (y_truncate_loop _ l y _ _ _) as [[y' ll] p]. destruct (truncate_loop boom l w _ _ _) as [[w' ll'] p'].
  destruct K as (-> & -> & K1 & K2). auto.
Qed.

Lemma fill_loop_sim code b l u : 0 <= lsize l -> forall n m h v items,
  agree code l u m h -> Forall (fun e => Z.of_nat (length e) = lsize l) items ->
  (forall i, flen v <= i < flen v + Z.of_nat n -> gslot l u (uptr (funinit v) + i * lsize l)) ->
  let '(m', v', rest, p) := y_fill_loop b l m v n items in
  let '(h', v'', rest', p') := fill_loop (list_next b) l h v n (map code items) in
  v'' = v' /\ rest' = map code rest /\ p' = p /\ funinit v' = funinit v /\ agree code l u m' h' /\ SyncMemSpec.same_outside (region u) m m'.
Proof.
  intros L. induction n as [|n IH]; intros m h v items A FA G; cbn [y_fill_loop fill_loop].
  - repeat split; auto.
  - destruct items as [|e items]; cbn [map list_next].
    + destruct b; repeat split; auto.
    + inversion FA as [|? ? LE FA']; subst. assert (GA : gslot l u (slot l v (flen v))) by (apply G; lia).
      pose proof (agree_write code l u m h _ e L LE A GA) as A'.
      specialize (IH (mem_write m (slot l v (flen v)) e) (h_write l h (slot l v (flen v)) (code e)) {| funinit := funinit v; flen := flen v + 1 |} items A' FA').
      cbn [flen funinit] in IH. specialize (IH ltac:(intros i I; apply G; lia)).
      destruct (y_fill_loop b l _ _ n items) as [[[m' v'] rest] p]. destruct (fill_loop _ l _ _ n _) as [[[h' v''] rest'] p'].
      destruct IH as (H1 & H2 & H3 & H4 & H5 & H6). repeat split; auto.
      intros x X. rewrite (H6 x X). apply (write_inside l u m _ e LE GA x X).
Qed.

Lemma fill_sim code b t l u m h v items : valid_target t -> agree code l u m h -> vgood t l u h v ->
  Forall (fun e => Z.of_nat (length e) = lsize l) items ->
  match y_fill b t l m v items, f_fill (list_next b) t l h v (map code items) with
  | Panic _, Panic _ => True
  | Ret (m', v', rest, p), Ret (h', v'', rest', p') =>
    v'' = v' /\ rest' = map code rest /\ p' = p /\ funinit v' = funinit v /\ agree code l u m' h' /\ SyncMemSpec.same_outside (region u) m m'
  | _, _ => False
  end.
Proof.
  intros V A G FA. destruct (good_slots t l u h v V G) as (L & F & FS & S). destruct G as (FT & cap & xs & R).
  rewrite (f_fill_unfold _ t l h v (map code items) cap xs V R).
  unfold y_fill. destruct (rep_facts t l h v cap xs V R) as (F1 & F2 & F3 & F4 & F5 & F6 & F7). pose proof R as (_ & Hc & Hl & Hlc & _).
  unfold f_capacity. rewrite <- Hc. unfold op_sub.
  destruct (Z.leb_spec (flen v) cap); [|lia]. cbn [obind]. replace (cap - flen v) with (cap - len xs) by lia.
  pose proof (fill_loop_sim code b l u L (Z.to_nat (cap - len xs)) m h v items A FA) as K.
  assert (K0 : forall i, flen v <= i < flen v + Z.of_nat (Z.to_nat (cap - len xs)) -> gslot l u (uptr (funinit v) + i * lsize l)).
  { intros i I. apply fit_slot; auto; [lia|]. nia. }
  specialize (K K0). destruct (y_fill_loop b l m v _ items) as [[[m' v'] rest] p]. destruct (fill_loop _ l h v _ _) as [[[h' v''] rest'] p']. exact K.
Qed.

(** ** Drains *)
Definition dgood (l : layout) (u : uview) (d : drain) : Prop :=
  0 <= dstart d <= dend d /\ dend d <= dtail d /\ 0 <= dtail_len d /\
  (forall i, 0 <= i < dtail d + dtail_len d -> gslot l u (delements d + i * lsize l)) /\
  (0 < dtail_len d -> uptr u <= delements d /\ delements d + (dtail d + dtail_len d) * lsize l <= uptr u + ulen u).

Lemma drain_good t l u h v lo hi v' d : valid_target t -> vgood t l u h v -> valid_bound t true lo -> valid_bound t false hi ->
  f_drain t l v lo hi = Ret (v', d) -> funinit v' = funinit v /\ dgood l u d.
Proof.
  intros V G B1 B2. destruct (good_slots t l u h v V G) as (L & F & FS & S). destruct G as ((T1 & T2 & T3) & _).
  unfold f_drain.
  assert (Q : forall st, (match lo with Included n => Ret n | Excluded n => op_add t PN_bound n 1 | Unbounded => Ret 0 end) = Ret st -> 0 <= st).
  { intros st. destruct lo as [n|n|]; cbn in B1.
    - intros [= <-]. apply B1.
    - destruct B1 as ((N1 & N2) & B1). unfold op_add, wrap. destruct (n + 1 <=? usize_max t) eqn:Q1; [intros [= <-]; lia|]. apply Z.leb_gt in Q1.
      destruct (debug t) eqn:D; [discriminate|]. intros _. destruct B1 as [?|[?|?]]; try congruence; lia.
    - intros [= <-]. lia. }
  destruct (match lo with Included n => Ret n | Excluded n => op_add t PN_bound n 1 | Unbounded => Ret 0 end) as [st|]; [|discriminate]. specialize (Q st eq_refl).
  cbn [obind]. destruct (match hi with Included n => op_add t PN_bound n 1 | Excluded n => Ret n | Unbounded => Ret (flen v) end) as [en|]; [|discriminate].
  cbn [obind]. destruct (Z.leb_spec st en) as [O1|O1]; [|discriminate]. destruct (Z.leb_spec en (flen v)) as [O2|O2]; [|discriminate].
  intros [= <- <-]. split; [reflexivity|]. split; [cbn; lia|]. split; [cbn; lia|]. split; [cbn; lia|]. split.
  - cbn [delements dtail dtail_len]. unfold slot. intros i I. replace (uptr (funinit v) + st * lsize l + i * lsize l) with (uptr (funinit v) + (st + i) * lsize l) by lia.
    apply S. lia.
  - cbn [delements dtail dtail_len]. unfold slot. intros P. split; [nia|]. nia.
Qed.

Lemma next_sim code l u m h d : 0 <= lsize l -> (lsize l = 0 -> code [] = 0) -> agree code l u m h -> dgood l u d ->
  let '(d', r) := yd_next l m d in d_next l h d = (d', option_map (fun b => Some (code b)) r) /\ dgood l u d' /\ dtail_len d' = dtail_len d.
Proof.
  intros L C A (D1 & D2 & D3 & D4 & D5). unfold yd_next, d_next, d_is_empty. destruct (Z.eqb_spec (dstart d) (dend d)) as [E|E].
  - split; [reflexivity|]. split; [|reflexivity]. repeat split; try tauto; try lia.
  - rewrite (agree_read code l u m h) by (auto; apply D4; lia). split; [reflexivity|]. split; [|reflexivity].
    split; [cbn; lia|]. auto.
Qed.
Lemma next_back_sim code l u m h d : 0 <= lsize l -> (lsize l = 0 -> code [] = 0) -> agree code l u m h -> dgood l u d ->
  let '(d', r) := yd_next_back l m d in d_next_back l h d = (d', option_map (fun b => Some (code b)) r) /\ dgood l u d' /\ dtail_len d' = dtail_len d.
Proof.
  intros L C A (D1 & D2 & D3 & D4 & D5). unfold yd_next_back, d_next_back, d_is_empty. destruct (Z.eqb_spec (dstart d) (dend d)) as [E|E].
  - split; [reflexivity|]. split; [|reflexivity]. repeat split; try tauto; try lia.
  - rewrite (agree_read code l u m h) by (auto; apply D4; lia). split; [reflexivity|]. split; [|reflexivity].
    split; [cbn; lia|]. split; [cbn; lia|]. auto.
Qed.
Lemma consume_sim code l u m h : 0 <= lsize l -> (lsize l = 0 -> code [] = 0) -> agree code l u m h -> forall fronts d, dgood l u d ->
  let '(d', rs) := yd_consume l m d fronts in d_consume l h d fronts = (d', map (option_map (fun b => Some (code b))) rs) /\ dgood l u d'.
Proof.
  intros L C A. induction fronts as [|b fs IH]; intros d D; cbn [yd_consume d_consume].
  - auto.
  - assert (K : let '(d', r) := if b then yd_next l m d else yd_next_back l m d in
        (if b then d_next l h d else d_next_back l h d) = (d', option_map (fun b => Some (code b)) r) /\ dgood l u d').
    { destruct b; [pose proof (next_sim code l u m h d L C A D) as K; destruct (yd_next l m d)|
                   pose proof (next_back_sim code l u m h d L C A D) as K; destruct (yd_next_back l m d)]; destruct K as (K1 & K2 & _); auto. }
    destruct (if b then yd_next l m d else yd_next_back l m d) as [d1 r]. destruct K as (-> & D1). specialize (IH d1 D1).
    destruct (yd_consume l m d1 fs) as [d2 rs]. destruct IH as (-> & D2). auto.
Qed.

Lemma drop_loop_sim code boom l u : 0 <= lsize l -> (lsize l = 0 -> code [] = 0) -> forall n y w d, wrel code l u y w -> dgood l u d ->
  let '(y', d', p) := yd_drop_loop (fun b => boom (code b)) l y d n in
  let '(w', d'', p') := d_drop_loop boom l w d n in
  d'' = d' /\ p' = p /\ wrel code l u y' w' /\ ymem y' = ymem y /\ dgood l u d'.
Proof.
  intros L C. induction n as [|n IH]; intros y w d W D; cbn [yd_drop_loop d_drop_loop].
  - auto.
  - pose proof (next_sim code l u _ _ d L C (proj1 W) D) as K. destruct (yd_next l (ymem y) d) as [d1 [x|]]; destruct K as (-> & D1 & _); cbn [option_map].
    + cbn [booms]. pose proof (wrel_log code l u y w x W) as W'. destruct (boom (code x)); [auto|]. exact (IH _ _ d1 W' D1).
    + auto.
Qed.

Lemma d_drop_sim code boom t l u y w v d : valid_target t -> 0 <= lsize l -> (lsize l = 0 -> code [] = 0) -> wrel code l u y w -> dgood l u d ->
  let '(y', v', p) := yd_drop (fun b => boom (code b)) l y v d in
  let '(w', v'', p') := d_drop boom l w v d in
  v'' = v' /\ p' = p /\ wrel code l u y' w' /\ funinit v' = funinit v /\ SyncMemSpec.same_outside (region u) (ymem y) (ymem y').
Proof.
  intros V L C W D. unfold yd_drop, d_drop. pose proof (drop_loop_sim code boom l u L C (Z.to_nat (d_len d)) y w d W D) as K.
  destruct (yd_drop_loop _ l y d _) as [[y' d'] p]. destruct (d_drop_loop boom l w d _) as [[w' d''] p']. destruct K as (-> & -> & W' & M & D').
  destruct p; [repeat split; auto; try apply W'; intros x _; rewrite M; reflexivity|].
  destruct (Z.eqb_spec (dtail_len d') 0) as [E|E]; [repeat split; auto; try apply W'; intros x _; rewrite M; reflexivity|].
  destruct D' as (D1 & D2 & D3 & D4 & D5). destruct (D5 ltac:(lia)) as (B1 & B2).
  split; [reflexivity|]. split; [reflexivity|]. split.
  - split; [|apply W']. cbn [y_with ymem wheap]. apply agree_copy; auto; try lia; try apply W'.
    + apply D4. lia.
    + replace (delements d') with (delements d' + 0 * lsize l) by lia. apply D4. lia.
  - split; [reflexivity|]. cbn [y_with ymem]. rewrite <- M. apply copy_inside; auto. nia.
Qed.

Lemma drop_slice_sim code boom l u : forall xs y w b, wrel code l u y w ->
  let '(y', r) := y_drop_slice (fun b => boom (code b)) y xs b in
  let '(w', r') := drop_slice boom w (map (fun b => Some (code b)) xs) b in
  r' = r /\ wrel code l u y' w' /\ ymem y' = ymem y.
Proof.
  induction xs as [|x xs IH]; intros y w b W; cbn [y_drop_slice drop_slice map]; [auto|].
  cbn [booms]. pose proof (wrel_log code l u y w x W) as W'. destruct (boom (code x)).
  - destruct b; [auto|]. exact (IH _ _ true W').
  - exact (IH _ _ b W').
Qed.

(** ** Steps and histories *)
Definition fits_all (l : layout) (u : uview) (P : list fentry) : Prop := forall i e, nth_error P i = Some e -> ealive e = true -> vfit l u (evec e).
Definition ysim (code : bval -> elem) (t : target) (l : layout) (u : uview) (y : ystate) (a : astate) : Prop :=
  exists s h0, rel t l (region u) h0 s a /\ fpool s = ypool y /\ wrel code l u (yw y) (fw s) /\ fits_all l u (ypool y).

Lemma fits_upd l u P i e v b : fits_all l u P -> nth_error P i = Some e -> (b = true -> vfit l u v) ->
  fits_all l u (upd_nth i {| evec := v; ealive := b; eparent := eparent e |} P).
Proof.
  intros F N V j f J A. destruct (Nat.eq_dec i j) as [<-|D].
  - rewrite (upd_nth_nth_eq _ _ _ _ N) in J. injection J as <-. cbn in *. auto.
  - rewrite upd_nth_nth_ne in J by exact D. eauto.
Qed.
Lemma fits_app l u P f : fits_all l u P -> (ealive f = true -> vfit l u (evec f)) -> fits_all l u (P ++ [f]).
Proof.
  intros F V j g J A. destruct (Nat.lt_ge_cases j (length P)).
  - rewrite nth_error_app1 in J by lia. eauto.
  - rewrite nth_error_app2 in J by lia. destruct (j - length P)%nat as [|k]; cbn in J; [injection J as <-; auto|destruct k; discriminate].
Qed.
Lemma vfit_eq l u v v' : funinit v' = funinit v -> vfit l u v -> vfit l u v'.
Proof. unfold vfit. intros ->. auto. Qed.
Lemma vfit_cut l u v k a b n m : 0 <= lsize l -> vfit l u v -> cut (funinit v) k a b -> (lsize l | k) ->
  vfit l u {| funinit := a; flen := n |} /\ vfit l u {| funinit := b; flen := m |}.
Proof.
  intros L (F1 & F2 & F3) (A & B & K) D. injection A as A1 A2. injection B as B1 B2. unfold vfit. cbn [funinit]. rewrite A1, A2, B1, B2.
  split; (split; [lia|]; split; [lia|]); auto. replace (uptr (funinit v) + k - uptr u) with ((uptr (funinit v) - uptr u) + k) by lia. apply Z.divide_add_r; assumption.
Qed.

Lemma some_answer_inj r r' : some_answer r = some_answer r' -> r = r'.
Proof.
  assert (M : forall (A B : Type) (f : A -> B), (forall x y, f x = f y -> x = y) -> forall xs ys, map f xs = map f ys -> xs = ys).
  { intros A B f I. induction xs as [|x xs IH]; intros [|y ys] E; try discriminate; [reflexivity|]. cbn in E. injection E as E1 E2. f_equal; auto. }
  assert (S : forall x y : elem, Some x = Some y -> x = y) by (intros; congruence).
  assert (O : forall x y : option elem, option_map (@Some elem) x = option_map (@Some elem) y -> x = y) by (intros [x|] [y|]; cbn; congruence).
  destruct r, r'; cbn; intros E; try discriminate; try congruence.
  - injection E as E. f_equal. auto.
  - injection E as E ->. f_equal. eapply M; [|exact E]. exact O.
  - injection E as E. f_equal. eapply M; [|exact E]. exact S.
Qed.

Lemma map_code (code : bval -> elem) xs : map (fun b => Some (code b)) xs = map (@Some elem) (map code xs).
Proof. rewrite map_map. reflexivity. Qed.
Lemma omap_code (code : bval -> elem) xs : map (option_map (fun b : bval => Some (code b))) xs = map (option_map (@Some elem)) (map (option_map code) xs).
Proof. rewrite map_map. apply map_ext. intros [x|]; reflexivity. Qed.

(** One call on a vector, in both models *)
Lemma do_sim code boom t l u y s a h0 i e o q : valid_target t -> (lsize l = 0 -> code [] = 0) ->
  rel t l (region u) h0 s a -> fpool s = ypool y -> wrel code l u (yw y) (fw s) -> fits_all l u (ypool y) ->
  valid_yop t l (region u) o -> ynamed code o = Some q -> i = yop_index o -> nth_error (ypool y) i = Some e -> ealive e = true ->
  let '(y', r) := ydo t l (fun b => boom (code b)) y e o in
  let '(s', r') := fdo t l boom s e q in
  r' = some_answer (yname code r) /\ fpool s' = ypool y' /\ wrel code l u (yw y') (fw s') /\ fits_all l u (ypool y') /\
  SyncMemSpec.same_outside (region u) (ymem (yw y)) (ymem (yw y')).
Proof.
  intros V C R PE W FA (VV & VO) Q -> N AL.
  destruct (Forall2_nth _ _ _ _ _ (r_pool _ _ _ _ _ _ R) (eq_ind_r (fun P => nth_error P _ = Some e) N PE)) as (x & _ & _ & _ & X). specialize (X AL).
  set (v := evec e) in *. assert (VF : vfit l u v) by (apply (FA _ e N AL)).
  assert (G : vgood t l u (wheap (fw s)) v) by (split; [exact VF|eauto]).
  destruct (good_slots t l u _ v V G) as (L & F & FS & S). destruct W as (A & D).
  assert (RF : forall m, SyncMemSpec.same_outside (region u) m m) by (intros m z _; reflexivity).
  assert (UP : forall v', funinit v' = funinit v -> fits_all l u (upd_nth (yop_index o) {| evec := v'; ealive := ealive e; eparent := eparent e |} (ypool y))).
  { intros v' E. apply (fits_upd l u _ _ e); auto. intros _. eapply vfit_eq; eauto. }
  assert (KI : fits_all l u (upd_nth (yop_index o) {| evec := evec e; ealive := false; eparent := eparent e |} (ypool y))).
  { apply (fits_upd l u _ _ e); auto; discriminate. }
  destruct o as [i p|i|i n|i|i items b|i items b|i lo hi fronts forget|i|i n|i n|i|i|i|i k p|i j k|a0 bs]; cbn [ynamed] in Q; try discriminate; injection Q as <-;
    cbn [ydo fdo yop_index op_index] in *; fold v.
  - (* push *)
    inversion VV as [|? ? LE _]; subst. pose proof (push_sim code t l u _ _ v p V A G LE) as K.
    destruct (y_push t l (ymem (yw y)) v p) as [[[m' v'] r]|], (f_push t l (wheap (fw s)) v (code p)) as [[[h' v''] r']|]; try contradiction.
    + destruct K as (-> & -> & E & A' & SO). destruct r as [x'|]; cbn [option_map put yput with_heap y_with yw ypool fw fpool ymem];
        (split; [reflexivity|]; split; [congruence|]; split; [split; [exact A'|exact D]|]; split; [apply UP; exact E|exact SO]).
    + (split; [reflexivity|]; split; [exact PE|]; split; [split; assumption|]; split; [exact FA|apply RF]).
  - (* pop *)
    pose proof (pop_sim code t l u _ _ v V C A G) as K.
    destruct (y_pop t l (ymem (yw y)) v) as [[v' r]|], (f_pop t l (wheap (fw s)) v) as [[v'' r']|]; try contradiction.
    + destruct K as (-> & -> & E). cbn [put yput yw ypool fw fpool]. split; [destruct r; reflexivity|]. split; [congruence|]. split; [split; assumption|]. split; [apply UP; exact E|apply RF].
    + (split; [reflexivity|]; split; [exact PE|]; split; [split; assumption|]; split; [exact FA|apply RF]).
  - (* truncate *)
    pose proof (truncate_sim code boom t l u _ _ v n V C (conj A D) G (proj1 VO)) as K.
    destruct (y_truncate _ l (yw y) v n) as [[y' v'] p]. destruct (f_truncate boom l (fw s) v n) as [[w' v''] p'].
    destruct K as (-> & -> & W' & M & E). cbn [put yput yw ypool fw fpool]. split; [destruct p; reflexivity|]. split; [congruence|]. split; [exact W'|].
    split; [apply UP; exact E|]. rewrite M. apply RF.
  - (* clear *)
    unfold y_clear, f_clear. pose proof (truncate_sim code boom t l u _ _ v 0 V C (conj A D) G ltac:(lia)) as K.
    destruct (y_truncate _ l (yw y) v 0) as [[y' v'] p]. destruct (f_truncate boom l (fw s) v 0) as [[w' v''] p'].
    destruct K as (-> & -> & W' & M & E). cbn [put yput yw ypool fw fpool]. split; [destruct p; reflexivity|]. split; [congruence|]. split; [exact W'|].
    split; [apply UP; exact E|]. rewrite M. apply RF.
  - (* fill *)
    pose proof (fill_sim code b t l u _ _ v items V A G VV) as K.
    destruct (y_fill b t l (ymem (yw y)) v items) as [[[[m' v'] rest] p]|]; match type of K with context [@f_fill ?S ?n ?tt ?ll ?hh ?vv ?it] => destruct (@f_fill S n tt ll hh vv it) as [[[[h' v''] rest'] p']|] end; try contradiction.
    + destruct K as (-> & -> & -> & E & A' & SO). cbn [put yput with_heap y_with yw ypool fw fpool ymem].
      split; [reflexivity|]. split; [congruence|]. split; [split; [exact A'|exact D]|]. split; [apply UP; exact E|exact SO].
    + (split; [reflexivity|]; split; [exact PE|]; split; [split; assumption|]; split; [exact FA|apply RF]).
  - (* extend *)
    unfold y_extend, f_extend. pose proof (fill_sim code b t l u _ _ v items V A G VV) as K.
    destruct (y_fill b t l (ymem (yw y)) v items) as [[[[m' v'] rest] p]|]; match type of K with context [@f_fill ?S ?n ?tt ?ll ?hh ?vv ?it] => destruct (@f_fill S n tt ll hh vv it) as [[[[h' v''] rest'] p']|] end; try contradiction; cbn [obind].
    + destruct K as (-> & -> & -> & E & A' & SO).
      assert (U2 : forall r1 r2, r2 = some_answer (yname code r1) ->
        r2 = some_answer (yname code r1) /\ upd_nth i {| evec := v'; ealive := ealive e; eparent := eparent e |} (fpool s) =
          upd_nth i {| evec := v'; ealive := ealive e; eparent := eparent e |} (ypool y) /\
        wrel code l u (y_with (yw y) m') (with_heap (fw s) h') /\
        fits_all l u (upd_nth i {| evec := v'; ealive := ealive e; eparent := eparent e |} (ypool y)) /\
        SyncMemSpec.same_outside (region u) (ymem (yw y)) m').
      { intros r1 r2 RR. split; [exact RR|]. split; [congruence|]. split; [split; assumption|]. split; [apply UP; exact E|exact SO]. }
      destruct p; [exact (U2 (YRest rest false) _ eq_refl)|].
      destruct rest as [|x0 rest]; cbn [map list_next].
      * destruct b; [exact (U2 (YRest [] false) _ eq_refl)|exact (U2 (YRest [] true) _ eq_refl)].
      * destruct (U2 YOk _ eq_refl) as (_ & U3 & U4 & U5 & U6). apply wrel_log with (x := x0) in U4.
        destruct (boom (code x0)); cbn [put yput yw ypool fw fpool y_log ymem y_with]; (split; [reflexivity|]; split; [exact U3|]; split; [exact U4|]; split; [exact U5|exact U6]).
    + (split; [reflexivity|]; split; [exact PE|]; split; [split; assumption|]; split; [exact FA|apply RF]).
  - (* drain *)
    destruct VO as (B1 & B2). destruct (f_drain t l v lo hi) as [[v' d]|] eqn:ED; [|(split; [reflexivity|]; split; [exact PE|]; split; [split; assumption|]; split; [exact FA|apply RF])].
    destruct (drain_good t l u _ v lo hi v' d V G B1 B2 ED) as (E & DG).
    pose proof (consume_sim code l u _ _ L C A fronts d DG) as K. destruct (yd_consume l (ymem (yw y)) d fronts) as [d' xs]. destruct K as (-> & DG').
    destruct forget.
    + cbn [put yput yw ypool fw fpool some_answer yname]. rewrite omap_code. split; [reflexivity|]. split; [congruence|]. split; [split; assumption|]. split; [apply UP; exact E|apply RF].
    + pose proof (d_drop_sim code boom t l u _ _ v' d' V L C (conj A D) DG') as K.
      destruct (yd_drop _ l (yw y) v' d') as [[y' v2] p]. destruct (d_drop boom l (fw s) v' d') as [[w' v2'] p']. destruct K as (-> & -> & W' & E' & SO).
      cbn [put yput yw ypool fw fpool some_answer yname]. rewrite omap_code. split; [reflexivity|]. split; [congruence|]. split; [exact W'|]. split; [apply UP; congruence|exact SO].
  - (* shrink *)
    destruct (shrink_spec t l (wheap (fw s)) v _ _ V X) as (v' & b & ES & _ & Hc). rewrite ES.
    cbn [put yput yw ypool fw fpool]. split; [reflexivity|]. split; [congruence|]. split; [split; assumption|]. split; [|apply RF].
    apply (fits_upd l u _ _ e); auto. intros _. destruct v' as [v1 v2]. eapply (vfit_cut l u v _ v1 b v2 0); eauto.
    destruct (lsize l =? 0) eqn:Z0; [exists 0; lia|]. eexists. reflexivity.
  - (* split_borrowed *)
    unfold f_split_borrowed. pose proof X as (_ & Hcap & _). unfold f_capacity. rewrite <- Hcap.
    destruct (Z.leb_spec n (acap x)) as [Hle|Hgt]; [|(split; [reflexivity|]; split; [exact PE|]; split; [split; assumption|]; split; [exact FA|apply RF])].
    destruct (split_common t l _ v _ _ n V X VO Hle) as (ua & ub & -> & Hc & _). cbn [obind snd unwrap put yput yw ypool fw fpool].
    split; [cbn; congruence|]. split; [congruence|]. split; [split; assumption|]. split; [|apply RF].
    assert (DV : (lsize l | n * lsize l)) by (exists n; reflexivity).
    apply fits_app; [apply UP; reflexivity|]. intros _. cbn [evec]. apply (vfit_cut l u v _ ua ub 0 (saturating_sub (flen v) n) L VF Hc DV).
  - (* split_and_shrink *)
    unfold f_split_and_shrink. pose proof X as (_ & Hcap & _). unfold f_capacity. rewrite <- Hcap.
    destruct (Z.leb_spec n (acap x)) as [Hle|Hgt]; [|(split; [reflexivity|]; split; [exact PE|]; split; [split; assumption|]; split; [exact FA|apply RF])].
    destruct (split_common t l _ v _ _ n V X VO Hle) as (ua & ub & -> & Hc & _). cbn [obind snd fst unwrap put yput yw ypool fw fpool].
    split; [cbn; congruence|]. split; [congruence|]. split; [split; assumption|]. split; [|apply RF].
    assert (DV : (lsize l | n * lsize l)) by (exists n; reflexivity).
    destruct (vfit_cut l u v _ ua ub (flen v - saturating_sub (flen v) n) (saturating_sub (flen v) n) L VF Hc DV) as (V1 & V2).
    apply fits_app; [apply (fits_upd l u _ _ e); auto|]; auto.
  - (* drop *)
    unfold y_drop, f_drop. rewrite (as_slice_sim code t l u _ _ v V C A G).
    pose proof (drop_slice_sim code boom l u (y_as_slice l (ymem (yw y)) v) _ _ false (conj A D)) as K.
    destruct (y_drop_slice _ (yw y) _ false) as [y' r]. destruct (drop_slice boom (fw s) _ false) as [w' r']. destruct K as (-> & W' & M).
    cbn [kill ykill yw ypool fw fpool]. split; [destruct r; reflexivity|]. split; [congruence|]. split; [exact W'|]. split; [exact KI|]. rewrite M. apply RF.
  - (* forget *)
    cbn [kill ykill yw ypool fw fpool]. split; [reflexivity|]. split; [congruence|]. split; [split; assumption|]. split; [exact KI|apply RF].
  - (* slice *)
    cbn [some_answer yname]. rewrite (as_slice_sim code t l u _ _ v V C A G), map_code. split; [reflexivity|]. split; [exact PE|]. split; [split; assumption|]. split; [exact FA|apply RF].
  - (* replace *)
    inversion VV as [|? ? LE _]; subst. unfold y_replace, f_replace, slot. destruct (Z.ltb_spec k (flen v)) as [K|K].
    + assert (GS : gslot l u (uptr (funinit v) + k * lsize l)) by (apply S; destruct VO; lia). cbv iota beta.
      cbn [put yput with_heap y_with yw ypool fw fpool ymem]. split; [cbn [some_answer yname option_map]; rewrite (agree_read code l u _ _ _ L C A GS); reflexivity|].
      split; [congruence|]. split; [split; [apply agree_write; auto|exact D]|]. split; [apply UP; reflexivity|]. eapply write_inside; eauto.
    + (split; [reflexivity|]; split; [exact PE|]; split; [split; assumption|]; split; [exact FA|apply RF]).
  - (* swap *)
    unfold y_swap, f_swap, slot. destruct VO as ((J0 & _) & K0 & _).
    destruct (Z.ltb_spec j (flen v)) as [J|J]; [|(split; [reflexivity|]; split; [exact PE|]; split; [split; assumption|]; split; [exact FA|apply RF])].
    destruct (Z.ltb_spec k (flen v)) as [K|K]; [|(split; [reflexivity|]; split; [exact PE|]; split; [split; assumption|]; split; [exact FA|apply RF])].
    assert (GJ : gslot l u (uptr (funinit v) + j * lsize l)) by (apply S; lia).
    assert (GK : gslot l u (uptr (funinit v) + k * lsize l)) by (apply S; lia). cbv iota beta.
    rewrite (agree_read code l u _ _ _ L C A GJ), (agree_read code l u _ _ _ L C A GK).
    assert (LR : forall a, Z.of_nat (length (b_read l (ymem (yw y)) a)) = lsize l) by (intros b; apply b_read_length; exact L).
    cbn [put yput with_heap y_with yw ypool fw fpool ymem]. split; [reflexivity|].
    split; [congruence|]. split; [split; [|exact D]|].
    { exact (agree_write code l u _ _ _ _ L (LR _) (agree_write code l u _ _ _ _ L (LR _) A GJ) GK). }
    split; [apply UP; reflexivity|]. intros z Z0. rewrite (write_inside l u _ _ _ (LR _) GK z Z0). apply (write_inside l u _ _ _ (LR _) GJ z Z0).
Qed.

Lemma ynamed_index code o q : ynamed code o = Some q -> op_index q = yop_index o.
Proof. destruct o; cbn; intros E; try discriminate; injection E as <-; reflexivity. Qed.
Lemma ynamed_valid code t l B o q : (lsize l = 0 -> code [] = 0) -> valid_yop t l B o -> ynamed code o = Some q -> valid_fop t l q.
Proof.
  intros C (VV & VO) Q. split.
  - intros Z0. assert (K : forall xs, Forall (fun e : bval => Z.of_nat (length e) = lsize l) xs -> Forall (fun e => e = 0) (map code xs)).
    { intros xs H. apply Forall_forall. intros e E. apply in_map_iff in E as (b & <- & E). rewrite Forall_forall in H. specialize (H b E).
      rewrite Z0 in H. destruct b; [auto|cbn [length] in H; lia]. }
    destruct o; cbn in Q; try discriminate; injection Q as <-; cbn [op_elems]; try constructor; cbn [yop_vals] in VV; try (apply K in VV; exact VV);
      inversion VV as [|? ? LE _]; subst; try apply Forall_nil; rewrite Z0 in LE; destruct e; auto; cbn [length] in LE; lia.
  - destruct o; cbn in Q; try discriminate; injection Q as <-; auto.
Qed.

Lemma ysim_stable code t l u y a m : (forall x, in_block (region u) x -> m x = ymem (yw y) x) -> ysim code t l u y a ->
  ysim code t l u {| yw := y_with (yw y) m; ypool := ypool y |} a.
Proof.
  intros S (s & h0 & R & P & (A & D) & F). exists s, h0. split; [exact R|]. split; [exact P|]. split; [|exact F].
  split; [|exact D]. cbn [yw y_with ymem]. eapply agree_stable; eauto.
Qed.

Lemma ystep_sim code boom t l u y a o : valid_target t -> (lsize l = 0 -> code [] = 0) -> ysim code t l u y a -> valid_yop t l (region u) o ->
  let '(y', r) := ystep t l (fun b => boom (code b)) y o in
  let '(a', r') := match ynamed code o with Some q => astep (lsize l =? 0) (usize_max t) boom a q | None => (a, FOk) end in
  r' = yname code r /\ ysim code t l u y' a' /\
  match o with
  | YElsewhere b bs => ymem (yw y') = mem_write (ymem (yw y)) b bs
  | _ => SyncMemSpec.same_outside (region u) (ymem (yw y)) (ymem (yw y'))
  end.
Proof.
  intros V C SM VO. destruct (ynamed code o) as [q|] eqn:Q.
  - destruct SM as (s & h0 & R & P & W & F).
    pose proof (step_rel t l (region u) h0 boom s a q V R (ynamed_valid code t l _ o q C VO Q)) as K.
    assert (E : ystep t l (fun b => boom (code b)) y o =
      if usable (ypool y) (yop_index o) then match nth_error (ypool y) (yop_index o) with Some e => ydo t l (fun b => boom (code b)) y e o | None => (y, YNone) end else (y, YNone))
      by (destruct o; try reflexivity; discriminate).
    rewrite E. clear E. unfold fstep in K. rewrite (ynamed_index code o q Q), P in K.
    assert (FR : forall m m', SyncMemSpec.same_outside (region u) m m' ->
      match o with YElsewhere b bs => m' = mem_write m b bs | _ => SyncMemSpec.same_outside (region u) m m' end)
      by (intros m m' H; destruct o; auto; discriminate).
    assert (NO : forall r' a', FNone = some_answer r' /\ rel t l (region u) h0 s a' -> r' = yname code YNone /\ ysim code t l u y a' /\
      match o with YElsewhere b bs => ymem (yw y) = mem_write (ymem (yw y)) b bs | _ => SyncMemSpec.same_outside (region u) (ymem (yw y)) (ymem (yw y)) end).
    { intros r' a' (K1 & K2). split; [destruct r'; try discriminate; reflexivity|]. split; [exists s, h0; auto|]. apply FR. intros x _. reflexivity. }
    destruct (usable (ypool y) (yop_index o)) eqn:U; [|destruct (astep _ _ boom a q) as [a' r']; apply NO; exact K].
    destruct (usable_inv _ _ U) as (e & He & Ha & _). rewrite He in *.
    pose proof (do_sim code boom t l u y s a h0 _ e o q V C R P W F VO Q eq_refl He Ha) as D.
    destruct (ydo t l _ y e o) as [y' r]. destruct (fdo t l boom s e q) as [s' r1]. destruct (astep _ _ boom a q) as [a' r'].
    destruct D as (D1 & D2 & D3 & D4 & D5). destruct K as (K1 & K2).
    split; [apply some_answer_inj; congruence|]. split; [exists s', h0; auto|]. apply FR. exact D5.
  - destruct o as [| | | | | | | | | | | | | | |b bs]; cbn in Q; try discriminate. cbn [ystep yname]. split; [reflexivity|]. split; [|reflexivity].
    apply ysim_stable; [|exact SM]. intros x X. unfold mem_write. destruct VO as (_ & VO).
    destruct (Z.leb_spec b x); [|reflexivity]. destruct (Z.ltb_spec x (b + Z.of_nat (length bs))); [|reflexivity]. exfalso.
    apply (VO x). split; [unfold in_block; cbn; lia|exact X].
Qed.

Lemma ysim_init code t l u m : valid_target t -> wf_view t (TSlice l) u -> ysim code t l u (yinit m u) (ainit (v_capacity t l u)).
Proof.
  intros V W. exists (finit (fun a => Some (code (b_read l m a))) u), (fun a => Some (code (b_read l m a))).
  split; [apply init_rel; assumption|]. split; [reflexivity|]. split; [split; [intros _ a _; reflexivity|reflexivity]|].
  intros [|[|i]] e H _; cbn in H; try discriminate. injection H as <-. unfold vfit. cbn. repeat split; try lia. rewrite Z.sub_diag. apply Z.divide_0_r.
Qed.

Lemma others_same B : forall os m m', SyncMemSpec.same_outside B m m' -> SyncMemSpec.same_outside B (others m os) (others m' os).
Proof.
  induction os as [|o os IH]; intros m m' S; cbn [others]; [exact S|].
  destruct o; auto. apply IH. intros x X. unfold mem_write. destruct (_ && _); [reflexivity|]. apply S. exact X.
Qed.

Lemma yrun_sim code boom t l u os : forall y a, valid_target t -> (lsize l = 0 -> code [] = 0) -> ysim code t l u y a -> Forall (valid_yop t l (region u)) os ->
  let '(y', rs) := yrun t l (fun b => boom (code b)) y os in
  let '(a', rs') := ayrun code (lsize l =? 0) (usize_max t) boom a os in
  rs' = map (yname code) rs /\ ysim code t l u y' a' /\
  (~ In YAborted rs -> SyncMemSpec.same_outside (region u) (others (ymem (yw y)) os) (ymem (yw y'))).
Proof.
  induction os as [|o os IH]; intros y a V C SM VO; cbn [yrun ayrun others].
  - split; [reflexivity|]. split; [exact SM|]. intros _ x _. reflexivity.
  - apply Forall_cons_iff in VO as [V1 V2]. pose proof (ystep_sim code boom t l u y a o V C SM V1) as K.
    destruct (ystep t l _ y o) as [y1 r]. destruct (match ynamed code o with Some q => _ | None => _ end) as [a1 r']. destruct K as (-> & S1 & FR).
    specialize (IH y1 a1 V C S1 V2). destruct (yrun t l _ y1 os) as [y2 rs]. destruct (ayrun code _ _ boom a1 os) as [a2 rs']. destruct IH as (-> & S2 & F2).
    assert (FN : ~ In YAborted (r :: rs) -> SyncMemSpec.same_outside (region u) (others (ymem (yw y)) (o :: os)) (ymem (yw y2))).
    { intros NA. assert (F3 := F2 (fun H => NA (or_intror H))). intros x X. rewrite (F3 x X).
      destruct o; cbn [others]; try (apply (others_same (region u)); [|exact X]; exact FR). rewrite FR. reflexivity. }
    destruct r; cbn [yname map]; try (split; [reflexivity|]; split; [exact S2|exact FN]).
    split; [reflexivity|]. split; [exact S1|]. intros NA. destruct NA. left. reflexivity.
Qed.

Lemma map_Some_inj (xs ys : list elem) : map (@Some elem) xs = map (@Some elem) ys -> xs = ys.
Proof. revert ys. induction xs as [|x xs IH]; intros [|y ys] E; cbn in E; try discriminate; [reflexivity|]. injection E as -> E. f_equal. auto. Qed.
Lemma ysim_drops code t l u y a : ysim code t l u y a -> map code (ydrops (yw y)) = adrops a.
Proof.
  intros (s & h0 & R & P & (A & D) & F). pose proof (r_drops _ _ _ _ _ _ R) as K. rewrite D, map_code in K.
  apply map_Some_inj. exact K.
Qed.
Lemma ysim_contents code t l u y a i e : valid_target t -> (lsize l = 0 -> code [] = 0) -> ysim code t l u y a ->
  nth_error (ypool y) i = Some e -> ealive e = true ->
  exists x, nth_error (apool a) i = Some x /\ aalive x = true /\ map code (y_as_slice l (ymem (yw y)) (evec e)) = aitems x /\
    f_capacity t l (evec e) = acap x.
Proof.
  intros V C (s & h0 & R & P & (A & D) & F) N AL.
  destruct (Forall2_nth _ _ _ _ _ (r_pool _ _ _ _ _ _ R) (eq_ind_r (fun P => nth_error P _ = Some e) N P)) as (x & X1 & X2 & _ & X). specialize (X AL).
  exists x. split; [exact X1|]. split; [congruence|].
  assert (G : vgood t l u (wheap (fw s)) (evec e)) by (split; [exact (F _ _ N AL)|eauto]).
  pose proof (as_slice_sim code t l u _ _ _ V C A G) as K. pose proof X as (_ & X3 & _).
  split; [|unfold f_capacity; congruence]. assert (KH : FixedVecSpec.holds l (wheap (fw s)) (evec e) (aitems x)) by (eapply holds_rep; exact X). unfold FixedVecSpec.holds in KH. rewrite KH, map_code in K. symmetry in K.
  apply map_Some_inj. exact K.
Qed.
