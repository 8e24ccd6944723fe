(** * DrainMemProofs: the drain on bytes simulates the drain on elements. *)
From Verif Require Import Base Spec BaseFacts SyncMemModel SyncMemSpec SyncMemProofs UninitModel UninitSpec UninitProofs
  FixedVecModel FixedVecSpec FixedVecProofs FixedVecPool FixedVecIter FixedVecMemModel FixedVecMemSpec FixedVecMemProofs DrainModel DrainSpec DrainProofs DrainMemModel DrainMemSpec.

Definition yd_slots (code : bval -> elem) (r : dans bval) : dans (option elem) := in_slots (yd_name code r).

Lemma ydstep_sim code t l u m h d o : 0 <= lsize l -> (lsize l = 0 -> code [] = 0) -> agree code l u m h -> dgood l u d -> valid_ydop t l o ->
  let '(m', d', r) := ydstep l m d o in
  exists h', dstep l h d (yd_named code o) = (h', d', yd_slots code r) /\ agree code l u m' h' /\ dgood l u d' /\ SyncMemSpec.same_outside (region u) m m'.
Proof.
  intros L C A D V. assert (S : SyncMemSpec.same_outside (region u) m m) by (intros x X; reflexivity).
  pose proof D as (D1 & D2 & D3 & D4 & D5).
  assert (GS : forall k, 0 <= k < d_len d -> gslot l u (delements d + dstart d * lsize l + k * lsize l)).
  { intros k K. unfold d_len in K. replace (delements d + dstart d * lsize l + k * lsize l) with (delements d + (dstart d + k) * lsize l) by lia. apply D4. lia. }
  assert (LR : forall a, Z.of_nat (length (b_read l m a)) = lsize l) by (intros b; apply b_read_length; exact L).
  destruct o as [| | | | | |k e|j k]; cbn [ydstep yd_named dstep].
  - pose proof (next_sim code l u m h d L C A D) as K. destruct (yd_next l m d) as [d' r]. destruct K as (-> & D' & _).
    exists h. split; [destruct r; reflexivity|auto].
  - pose proof (next_back_sim code l u m h d L C A D) as K. destruct (yd_next_back l m d) as [d' r]. destruct K as (-> & D' & _).
    exists h. split; [destruct r; reflexivity|auto].
  - exists h. split; [|auto]. unfold yd_slots. cbn [yd_name in_slots]. do 2 f_equal. unfold d_as_slice, yd_as_slice.
    rewrite (slice_sim code l u m h); auto. rewrite map_map. reflexivity.
  - exists h. auto.
  - exists h. auto.
  - exists h. auto.
  - destruct V as [[K0 _] LE]. unfold yd_replace, d_replace. destruct (Z.ltb_spec k (d_len d)) as [K|K]; [|exists h; auto].
    assert (G := GS k (conj K0 K)). cbn [obind]. eexists. split; [|split; [apply (agree_write code l u m h _ e); auto|split; [exact D|apply (write_inside l u); auto]]].
    rewrite (agree_read code l u m h) by auto. reflexivity.
  - destruct V as [[J0 _] [K0 _]]. unfold yd_swap, d_swap. destruct (Z.ltb_spec j (d_len d)) as [J|J]; [|exists h; auto].
    destruct (Z.ltb_spec k (d_len d)) as [K|K]; [|exists h; auto].
    assert (GJ := GS j (conj J0 J)). assert (GK := GS k (conj K0 K)). cbn [obind].
    rewrite (agree_read code l u m h _ L C A GJ), (agree_read code l u m h _ L C A GK).
    eexists. split; [reflexivity|]. split; [|split; [exact D|]].
    + exact (agree_write code l u _ _ _ _ L (LR _) (agree_write code l u _ _ _ _ L (LR _) A GJ) GK).
    + intros z Z0. rewrite (write_inside l u _ _ _ (LR _) GK z Z0). apply (write_inside l u _ _ _ (LR _) GJ z Z0).
Qed.

Lemma ydrun_sim code t l u : 0 <= lsize l -> (lsize l = 0 -> code [] = 0) -> forall os m h d, agree code l u m h -> dgood l u d -> Forall (valid_ydop t l) os ->
  let '(m', d', rs) := ydrun l m d os in
  exists h', drun l h d (map (yd_named code) os) = (h', d', map (yd_slots code) rs) /\ agree code l u m' h' /\ dgood l u d' /\ SyncMemSpec.same_outside (region u) m m'.
Proof.
  intros L C. induction os as [|o os IH]; intros m h d A D V; cbn [ydrun map drun].
  - exists h. split; [reflexivity|]. split; [exact A|]. split; [exact D|]. intros x X. reflexivity.
  - inversion V as [|? ? V1 V2]; subst. pose proof (ydstep_sim code t l u m h d o L C A D V1) as K. destruct (ydstep l m d o) as [[m1 d1] r].
    destruct K as (h1 & -> & A1 & D' & S1). specialize (IH m1 h1 d1 A1 D' V2). destruct (ydrun l m1 d1 os) as [[m2 d2] rs].
    destruct IH as (h2 & -> & A2 & D2 & S2). exists h2. split; [reflexivity|]. split; [exact A2|]. split; [exact D2|].
    intros x X. rewrite (S2 x X). apply (S1 x X).
Qed.

Lemma in_slots_inj a b : in_slots a = in_slots b -> a = b.
Proof.
  destruct a, b; cbn; intros E; try discriminate; try reflexivity; try congruence.
  - injection E as E. destruct x, x0; cbn in E; congruence.
  - injection E as E. apply map_Some_inj in E. congruence.
Qed.

Lemma map_in_slots_inj xs : forall ys, map in_slots xs = map in_slots ys -> xs = ys.
Proof.
  induction xs as [|x xs IH]; intros [|y ys] E; cbn [map] in E; try discriminate; [reflexivity|].
  assert (E1 : in_slots x = in_slots y) by congruence. assert (E2 : map in_slots xs = map in_slots ys) by congruence.
  rewrite (in_slots_inj _ _ E1), (IH _ E2). reflexivity.
Qed.

Lemma slice_named code t l u m h v xs : valid_target t -> (lsize l = 0 -> code [] = 0) -> agree code l u m h -> vfit l u v -> vec_ok t l h v xs ->
  map code (y_as_slice l m v) = xs.
Proof.
  intros V C A F H. assert (R := ok_rep _ _ _ _ _ H). assert (G : vgood t l u h v) by (split; [exact F|eauto]).
  pose proof (as_slice_sim code t l u m h v V C A G) as K. destruct H as (_ & _ & HH). unfold FixedVecSpec.holds in HH. rewrite HH, map_code in K.
  symmetry in K. apply map_Some_inj. exact K.
Qed.

Lemma vfit_self l v : vfit l (funinit v) v.
Proof. split; [lia|]. split; [lia|]. rewrite Z.sub_diag. apply Z.divide_0_r. Qed.

Definition heap_of (code : bval -> elem) (l : layout) (m : mem) : eheap := fun a => Some (code (b_read l m a)).

Lemma heap_of_agree code l u m : agree code l u m (heap_of code l m).
Proof. intros _ a _. reflexivity. Qed.

Lemma heap_of_ok code t l m v : valid_target t -> (lsize l = 0 -> code [] = 0) -> wf_view t (TSlice l) (funinit v) -> 0 <= flen v <= f_capacity t l v ->
  vec_ok t l (heap_of code l m) v (map code (y_as_slice l m v)).
Proof.
  intros V C W F. split; [exact W|]. split; [exact F|]. unfold FixedVecSpec.holds, f_as_slice, y_as_slice. rewrite <- map_code.
  apply (slice_sim code l (funinit v)); auto; [|apply heap_of_agree|].
  - apply (type_layout_size t). apply W.
  - assert (R0 : vec_ok t l (heap_of code l m) {| funinit := funinit v; flen := 0 |} []).
    { split; [exact W|]. split; [cbn [flen]; unfold f_capacity in *; cbn [funinit]; lia|]. reflexivity. }
    apply ok_rep in R0. destruct (rep_facts _ _ _ _ _ _ V R0) as (F1 & F2 & F3 & F4 & F5 & _). cbn [funinit] in F4, F5.
    intros i I. unfold slot. rewrite Z.mul_0_l, Z.add_0_r. change (f_capacity t l {| funinit := funinit v; flen := 0 |}) with (f_capacity t l v) in F5.
    apply fit_slot; auto using vfit_self; [lia|]. nia.
Qed.
