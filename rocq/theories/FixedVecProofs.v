(** * FixedVecProofs: one vector *)
From Verif Require Import Base Spec BaseFacts SyncProofs UninitModel UninitSpec UninitProofs FixedVecModel FixedVecSpec.

(** ** Slots *)
Definition slots (l : layout) (h : eheap) (a : Z) (xs : list elem) : Prop :=
  forall i x, nth_error xs i = Some x -> h_read l h (a + Z.of_nat i * lsize l) = Some x.

Lemma len_app {A} (xs ys : list A) : len (xs ++ ys) = len xs + len ys.
Proof. unfold len. rewrite app_length. lia. Qed.
Lemma len_nonneg {A} (xs : list A) : 0 <= len xs.
Proof. unfold len. lia. Qed.
Lemma len_nil {A} : len (@nil A) = 0. Proof. reflexivity. Qed.
Lemma len_cons {A} (x : A) xs : len (x :: xs) = 1 + len xs.
Proof. unfold len. cbn [length]. lia. Qed.

Lemma slots_nil l h a : slots l h a [].
Proof. intros i x H. destruct i; discriminate. Qed.

Lemma slots_app l h a xs ys :
  slots l h a (xs ++ ys) <-> slots l h a xs /\ slots l h (a + len xs * lsize l) ys.
Proof.
  unfold slots, len. split.
  - intros H. split; intros i x Hi.
    + apply H. rewrite nth_error_app1; [exact Hi|]. apply nth_error_Some. congruence.
    + specialize (H (length xs + i)%nat x). rewrite nth_error_app2 in H by lia.
      replace (length xs + i - length xs)%nat with i in H by lia. specialize (H Hi). rewrite <- H. f_equal. rewrite Nat2Z.inj_add. ring.
  - intros [H1 H2] i x Hi. destruct (Nat.lt_ge_cases i (length xs)) as [Hlt|Hge].
    + rewrite nth_error_app1 in Hi by exact Hlt. apply H1, Hi.
    + rewrite nth_error_app2 in Hi by exact Hge. specialize (H2 _ _ Hi). rewrite <- H2. f_equal. rewrite Nat2Z.inj_sub by lia. ring.
Qed.

Lemma slots_single l h a x : slots l h a [x] <-> h_read l h a = Some x.
Proof.
  split.
  - intros H. specialize (H 0%nat x eq_refl). cbn in H. rewrite Z.add_0_r in H. exact H.
  - intros H [|i] y E; [|destruct i; discriminate]. cbn in *. rewrite Z.add_0_r. congruence.
Qed.

Lemma slots_cons l h a x xs : slots l h a (x :: xs) <-> h_read l h a = Some x /\ slots l h (a + lsize l) xs.
Proof.
  change (x :: xs) with ([x] ++ xs). rewrite slots_app, slots_single.
  change (len [x]) with 1. rewrite Z.mul_1_l. tauto.
Qed.

Lemma upto_length n : length (upto n) = n.
Proof. induction n as [|n IH]; cbn; [reflexivity|]. rewrite app_length, IH. cbn. lia. Qed.

Lemma read_slots_eq l h a xs : read_slots l h a (len xs) = map Some xs <-> slots l h a xs.
Proof.
  unfold read_slots, len. rewrite Nat2Z.id. induction xs as [|x xs IH] using rev_ind.
  - cbn. split; [intros _; apply slots_nil|reflexivity].
  - rewrite app_length. cbn [length]. rewrite Nat.add_1_r. cbn [upto]. rewrite !map_app. cbn [map].
    rewrite slots_app, slots_single. unfold len. split.
    + intros H. apply app_inj_tail in H as [H1 H2]. split; [apply IH, H1|exact H2].
    + intros [H1 H2]. rewrite (proj2 IH H1), H2. reflexivity.
Qed.

(** ** Frame *)

Lemma same_outside_refl b h : same_outside b h h.
Proof. intros a _. reflexivity. Qed.
Lemma same_outside_trans b h1 h2 h3 : same_outside b h1 h2 -> same_outside b h2 h3 -> same_outside b h1 h3.
Proof. intros H1 H2 a Ha. rewrite H2, H1 by exact Ha. reflexivity. Qed.

Lemma slots_frame l b h h' a xs :
  0 <= lsize l -> same_outside b h h' -> disjoint b (MkBlock a (len xs * lsize l)) -> slots l h a xs -> slots l h' a xs.
Proof.
  intros Hs Hf Hd H i x Hi. rewrite <- (H i x Hi). unfold h_read. destruct (Z.eqb_spec (lsize l) 0); [reflexivity|].
  apply Hf. intros Hin. apply (Hd (a + Z.of_nat i * lsize l)). split; [exact Hin|].
  assert (Z.of_nat i < len xs) by (unfold len; assert (i < length xs)%nat by (apply nth_error_Some; congruence); lia).
  unfold in_block. cbn. nia.
Qed.

Lemma slots_write l h a xs e :
  0 <= lsize l -> (lsize l = 0 -> e = 0) ->
  slots l h a xs -> slots l (h_write l h (a + len xs * lsize l) e) a (xs ++ [e]).
Proof.
  intros Hs He H. apply slots_app. split.
  - intros i x Hi. rewrite <- (H i x Hi). unfold h_read, h_write. destruct (Z.eqb_spec (lsize l) 0); [reflexivity|].
    destruct (Z.eqb_spec (a + Z.of_nat i * lsize l) (a + len xs * lsize l)) as [E|]; [|reflexivity].
    assert (Z.of_nat i < len xs) by (unfold len; assert (i < length xs)%nat by (apply nth_error_Some; congruence); lia). nia.
  - apply slots_single. unfold h_read, h_write. destruct (Z.eqb_spec (lsize l) 0) as [E|]; [rewrite He by exact E; reflexivity|].
    rewrite Z.eqb_refl. reflexivity.
Qed.

Lemma write_frame l b h a e : 0 <= lsize l -> (0 < lsize l -> in_block b a) -> same_outside b h (h_write l h a e).
Proof.
  intros Hs Hin x Hx. unfold h_write. destruct (Z.eqb_spec (lsize l) 0); [reflexivity|].
  destruct (Z.eqb_spec x a) as [->|]; [|reflexivity]. exfalso. apply Hx, Hin. lia.
Qed.

(** ** Vectors *)
Definition vec_rep (t : target) (l : layout) (h : eheap) (v : fvec) (cap : Z) (xs : list elem) : Prop :=
  wf_view t (TSlice l) (funinit v) /\ cap = v_capacity t l (funinit v) /\ flen v = len xs /\ len xs <= cap /\
  slots l h (uptr (funinit v)) xs /\ (lsize l = 0 -> Forall (fun e => e = 0) xs).

Lemma rep_facts t l h v cap xs : valid_target t -> vec_rep t l h v cap xs ->
  0 <= lsize l /\ 0 <= cap <= usize_max t /\ len xs * lsize l <= ulen (funinit v) /\ 0 <= ulen (funinit v) /\
  cap * lsize l <= ulen (funinit v) /\
  (0 < lsize l -> ulen (funinit v) < (cap + 1) * lsize l) /\ (lsize l = 0 -> cap = usize_max t).
Proof.
  intros Ht (Hw & Hc & Hl & Hlc & Hs & Hz). pose proof Hw as [(R1 & R2 & R3) [Hty Hal]]. cbn in R1, R2, R3.
  pose proof (type_layout_size t l Hty) as Hsz. pose proof (addr_space_pos t Ht). pose proof (isize_lt_usize t Ht).
  pose proof (len_nonneg xs).
  destruct (Z.eq_dec (lsize l) 0) as [E|E].
  - assert (cap = usize_max t) by (subst cap; unfold v_capacity; rewrite E; reflexivity).
    rewrite E. unfold usize_max in *. repeat split; lia.
  - destruct (capacity_whole t l (funinit v) Hw ltac:(lia)) as (W1 & W2). rewrite <- Hc in *.
    unfold usize_max in *. repeat split; try lia; nia.
Qed.

Lemma holds_rep t l h v cap xs : vec_rep t l h v cap xs -> holds l h v xs.
Proof.
  intros (_ & _ & Hl & _ & Hs & _). unfold holds, f_as_slice, slot. rewrite Hl. apply read_slots_eq.
  rewrite Z.mul_0_l, Z.add_0_r. exact Hs.
Qed.

Lemma rep_frame t l h h' v cap xs b :
  vec_rep t l h v cap xs -> same_outside b h h' -> disjoint b (MkBlock (uptr (funinit v)) (flen v * lsize l)) ->
  vec_rep t l h' v cap xs.
Proof.
  intros (Hw & Hc & Hl & Hlc & Hs & Hz) Hf Hd. repeat (split; [assumption|]). split; [|exact Hz].
  rewrite Hl in Hd. apply (slots_frame l b h h'); auto. apply (type_layout_size t). apply Hw.
Qed.

Lemma new_rep t l h u : valid_target t -> wf_view t (TSlice l) u -> vec_rep t l h (f_new u) (v_capacity t l u) [].
Proof.
  intros Ht Hw. split; [exact Hw|]. split; [reflexivity|]. split; [reflexivity|]. split.
  - rewrite len_nil. unfold v_capacity. pose proof (addr_space_pos t Ht). destruct (Z.eqb_spec (lsize l) 0); [unfold usize_max; lia|].
    pose proof Hw as [(_ & R2 & _) [Hty _]]. cbn in R2. pose proof (type_layout_size t l Hty). apply Z.div_pos; lia.
  - split; [apply slots_nil|]. intros _. constructor.
Qed.

Lemma head_tail_spec t l h v cap xs : valid_target t -> vec_rep t l h v cap xs ->
  exists all tail, f_head_tail t l v = Ret (all, tail) /\ cut (funinit v) (len xs * lsize l) all tail /\
    wf_view t (TSlice l) all /\ wf_view t (TSlice l) tail.
Proof.
  intros Ht Hr. destruct (rep_facts t l h v cap xs Ht Hr) as (F1 & F2 & F3 & F4 & F5 & F6 & F7).
  destruct Hr as (Hw & Hc & Hl & Hlc & Hs & Hz). pose proof (len_nonneg xs).
  unfold f_head_tail. rewrite Hl, (v_split_at_spec t l (funinit v) (len xs) Ht Hw ltac:(unfold is_usize; lia)).
  destruct (Z.leb_spec (len xs * lsize l) (ulen (funinit v))); [|lia]. cbn [obind].
  do 2 eexists. split; [reflexivity|].
  destruct (wf_cut_slice t l (funinit v) (len xs) Hw ltac:(lia) ltac:(lia)) as [W1 W2].
  split; [apply at_view_cut; nia|]. split; [exact W1|exact W2].
Qed.

(** ** Mutation through [as_mut_slice] *)
Lemma slots_upd l h a xs k y e : 0 <= lsize l -> (lsize l = 0 -> e = 0) -> slots l h a xs -> nth_error xs k = Some y ->
  slots l (h_write l h (a + Z.of_nat k * lsize l) e) a (upd_nth k e xs).
Proof.
  intros Hs He H Hk i x Hi. unfold h_read, h_write. specialize (H i). unfold h_read in H.
  destruct (Nat.eq_dec k i) as [<-|N].
  - rewrite (upd_nth_nth_eq _ _ _ _ Hk) in Hi. injection Hi as <-.
    destruct (Z.eqb_spec (lsize l) 0) as [E|E]; [rewrite He by exact E; reflexivity|]. rewrite Z.eqb_refl. reflexivity.
  - rewrite upd_nth_nth_ne in Hi by exact N. rewrite <- (H x Hi).
    destruct (Z.eqb_spec (lsize l) 0) as [E|E]; [reflexivity|].
    destruct (Z.eqb_spec (a + Z.of_nat i * lsize l) (a + Z.of_nat k * lsize l)); [nia|reflexivity].
Qed.

Lemma upd_nth_length {A} i (x : A) l : length (upd_nth i x l) = length l.
Proof. revert i. induction l as [|a l IH]; intros [|i]; cbn; auto. Qed.

Lemma upd_nth_len {A} k (x : A) xs : len (upd_nth k x xs) = len xs.
Proof. unfold len. rewrite upd_nth_length. reflexivity. Qed.

Lemma rep_upd t l h v cap xs k y e : valid_target t -> vec_rep t l h v cap xs -> nth_error xs k = Some y -> (lsize l = 0 -> e = 0) ->
  h_read l h (slot l v (Z.of_nat k)) = Some y /\
  vec_rep t l (h_write l h (slot l v (Z.of_nat k)) e) v cap (upd_nth k e xs) /\
  same_outside (region (funinit v)) h (h_write l h (slot l v (Z.of_nat k)) e).
Proof.
  intros Ht Hr Hk He. destruct (rep_facts t l h v cap xs Ht Hr) as (F1 & F2 & F3 & F4 & F5 & F6 & F7).
  pose proof Hr as (Hw & Hc & Hl & Hlc & Hs & Hz). unfold slot.
  assert (Z.of_nat k < len xs) by (unfold len; assert (k < length xs)%nat by (apply nth_error_Some; congruence); lia).
  split; [apply Hs, Hk|]. split.
  - split; [exact Hw|]. split; [exact Hc|]. rewrite upd_nth_len. split; [exact Hl|]. split; [exact Hlc|].
    split; [eapply slots_upd; eauto|]. intros E. specialize (Hz E). rewrite Forall_forall in *. intros z Hin.
    destruct (upd_nth_In _ _ _ _ Hin) as [->|Hin']; auto.
  - apply write_frame; [exact F1|]. intros Hp. unfold in_block. cbn. nia.
Qed.

Lemma replace_spec t l h v cap xs k e : valid_target t -> vec_rep t l h v cap xs -> 0 <= k -> (lsize l = 0 -> e = 0) ->
  match nth_error xs (Z.to_nat k) with
  | Some old => exists h', f_replace l h v k e = Ret (h', Some old) /\
      vec_rep t l h' v cap (upd_nth (Z.to_nat k) e xs) /\ same_outside (region (funinit v)) h h'
  | None => f_replace l h v k e = Panic PN_index
  end.
Proof.
  intros Ht Hr Hk0 He. pose proof Hr as (_ & _ & Hl & _). unfold f_replace. rewrite Hl.
  destruct (nth_error xs (Z.to_nat k)) as [old|] eqn:Hk.
  - assert (k < len xs) by (unfold len; assert (Z.to_nat k < length xs)%nat by (apply nth_error_Some; congruence); lia).
    destruct (Z.ltb_spec k (len xs)); [|lia]. cbv iota.
    destruct (rep_upd t l h v cap xs _ old e Ht Hr Hk He) as (K1 & K2 & K3). rewrite Z2Nat.id in * by lia.
    rewrite K1. eauto.
  - apply nth_error_None in Hk. unfold len. destruct (Z.ltb_spec k (Z.of_nat (length xs))); [lia|]. reflexivity.
Qed.

Lemma swap_spec t l h v cap xs j k : valid_target t -> vec_rep t l h v cap xs -> 0 <= j -> 0 <= k ->
  match nth_error xs (Z.to_nat j), nth_error xs (Z.to_nat k) with
  | Some y, Some z => exists h', f_swap l h v j k = Ret h' /\
      vec_rep t l h' v cap (upd_nth (Z.to_nat k) y (upd_nth (Z.to_nat j) z xs)) /\ same_outside (region (funinit v)) h h'
  | _, _ => f_swap l h v j k = Panic PN_index
  end.
Proof.
  intros Ht Hr Hj0 Hk0. pose proof Hr as (_ & _ & Hl & _ & _ & Hz). unfold f_swap. rewrite Hl.
  destruct (nth_error xs (Z.to_nat j)) as [y|] eqn:Hj; cycle 1.
  { apply nth_error_None in Hj. unfold len. destruct (Z.ltb_spec j (Z.of_nat (length xs))); [lia|]. reflexivity. }
  assert (j < len xs) by (unfold len; assert (Z.to_nat j < length xs)%nat by (apply nth_error_Some; congruence); lia).
  destruct (Z.ltb_spec j (len xs)); [|lia]. cbv iota.
  destruct (nth_error xs (Z.to_nat k)) as [z|] eqn:Hk; cycle 1.
  { apply nth_error_None in Hk. unfold len. destruct (Z.ltb_spec k (Z.of_nat (length xs))); [lia|]. reflexivity. }
  assert (k < len xs) by (unfold len; assert (Z.to_nat k < length xs)%nat by (apply nth_error_Some; congruence); lia).
  destruct (Z.ltb_spec k (len xs)); [|lia]. cbv iota.
  assert (Zy : lsize l = 0 -> y = 0) by (intros E; specialize (Hz E); rewrite Forall_forall in Hz; apply Hz; eapply nth_error_In; eauto).
  assert (Zz : lsize l = 0 -> z = 0) by (intros E; specialize (Hz E); rewrite Forall_forall in Hz; apply Hz; eapply nth_error_In; eauto).
  destruct (rep_upd t l h v cap xs _ y z Ht Hr Hj Zz) as (K1 & K2 & K3).
  destruct (rep_upd t l h v cap xs _ z y Ht Hr Hk Zy) as (K1' & _).
  assert (exists w, nth_error (upd_nth (Z.to_nat j) z xs) (Z.to_nat k) = Some w) as [w Hw].
  { destruct (Nat.eq_dec (Z.to_nat j) (Z.to_nat k)) as [E|N]; [rewrite <- E, (upd_nth_nth_eq _ _ _ _ Hj); eauto|rewrite upd_nth_nth_ne by exact N; eauto]. }
  destruct (rep_upd t l _ v cap _ _ w y Ht K2 Hw Zy) as (_ & K5 & K6).
  rewrite !Z2Nat.id in * by lia. rewrite K1, K1'. change (h_put l h (slot l v j) (Some z)) with (h_write l h (slot l v j) z).
  eexists. split; [reflexivity|]. split; [exact K5|]. eapply same_outside_trans; [exact K3|exact K6].
Qed.

Lemma push_spec t l h v cap xs e :
  valid_target t -> vec_rep t l h v cap xs -> (lsize l = 0 -> e = 0) ->
  if len xs <? cap
  then exists h' v', f_push t l h v e = Ret (h', v', None) /\ vec_rep t l h' v' cap (xs ++ [e]) /\
       funinit v' = funinit v /\ same_outside (region (funinit v)) h h'
  else f_push t l h v e = Ret (h, v, Some e).
Proof.
  intros Ht Hr He. destruct (rep_facts t l h v cap xs Ht Hr) as (F1 & F2 & F3 & F4 & F5 & F6 & F7).
  destruct (head_tail_spec t l h v cap xs Ht Hr) as (all & tail & EH & (_ & Hcut & _) & _ & Wt).
  injection Hcut as Hc1 Hc2.
  pose proof Hr as (Hw & Hc & Hl & Hlc & Hs & Hz). pose proof (len_nonneg xs).
  unfold f_push. rewrite EH. cbn [obind snd].
  destruct (v_split_first_spec t l tail Ht Wt) as [S1 S2].
  destruct (Z.ltb_spec (len xs) cap) as [Hlt|Hge].
  - destruct (Z.eqb_spec (flen v) (usize_max t)); [lia|].
    assert (Hfit : lsize l <= ulen tail) by (rewrite Hc2; nia).
    destruct (S1 Hfit) as (a & b & E & (Ha & _ & _) & _). injection Ha as Ha1 Ha2.
    rewrite E. cbn [obind snd]. do 2 eexists. split; [reflexivity|]. rewrite Ha1, Hc1. split; [|split; [reflexivity|]].
    + split; [exact Hw|]. split; [exact Hc|]. split; [cbn [flen]; rewrite len_app, Hl; reflexivity|].
      split; [rewrite len_app; cbn; lia|]. cbn [funinit]. split; [apply slots_write; auto|].
      intros E0. apply Forall_app. split; [apply Hz, E0|]. constructor; [apply He, E0|constructor].
    + apply write_frame; [exact F1|]. intros Hp. unfold in_block. cbn. nia.
  - destruct (Z.eqb_spec (flen v) (usize_max t)) as [E|NE]; [reflexivity|].
    assert (0 < lsize l). { destruct (Z.eq_dec (lsize l) 0) as [E0|]; [|lia]. rewrite (F7 E0) in *. lia. }
    assert (cap = len xs) by lia. rewrite S2 by (rewrite Hc2; nia). reflexivity.
Qed.

Lemma last_app_single {A} (xs : list A) x d : last (xs ++ [x]) d = x.
Proof. apply last_last. Qed.

Lemma pop_spec t l h v cap xs :
  valid_target t -> vec_rep t l h v cap xs ->
  match xs with
  | [] => f_pop t l h v = Ret (v, None)
  | y :: _ => exists v', f_pop t l h v = Ret (v', Some (Some (last xs y))) /\
       vec_rep t l h v' cap (removelast xs) /\ funinit v' = funinit v
  end.
Proof.
  intros Ht Hr. destruct (rep_facts t l h v cap xs Ht Hr) as (F1 & F2 & F3 & F4 & F5 & F6 & F7).
  destruct (head_tail_spec t l h v cap xs Ht Hr) as (all & tail & EH & (Hcut & _ & _) & Wa & _).
  injection Hcut as Hc1 Hc2. pose proof Hr as (Hw & Hc & Hl & Hlc & Hs & Hz).
  unfold f_pop. rewrite EH.
  destruct xs as [|y ys]. { rewrite Hl. reflexivity. }
  pose proof (len_nonneg ys). pose proof (len_cons y ys) as Hlen. set (xs := y :: ys) in *.
  destruct (Z.eqb_spec (flen v) 0); [lia|]. cbn [obind fst].
  destruct (v_split_last_spec t l all Ht Wa) as [S1 _].
  destruct S1 as (a & b & n1 & E & Hwh & Hn0 & (_ & Ha & _) & _).
  { rewrite Hc2. nia. }
  rewrite E. cbn [obind snd unwrap]. injection Ha as Ha1 _.
  destruct (@exists_last _ xs) as (zs & z & Ezs); [discriminate|].
  assert (Hlz : len xs = len zs + 1) by (rewrite Ezs, len_app; reflexivity).
  pose proof Hs as Hs'. rewrite Ezs in Hs'. apply slots_app in Hs' as [Hs1 Hs2]. apply slots_single in Hs2.
  assert (Hp : uptr a = uptr (funinit v) + len zs * lsize l).
  { rewrite Ha1, Hc1. destruct (Z.eq_dec (lsize l) 0) as [E0|NE]; [rewrite E0; lia|].
    destruct (Hwh ltac:(lia)) as (W1 & W2). rewrite Hc2 in W2.
    assert (n1 + 1 <= len xs) by nia. assert (len xs < n1 + 2) by nia. replace n1 with (len zs) by lia. reflexivity. }
  rewrite Hp, Hs2. eexists. split.
  - rewrite Ezs at 1. rewrite last_app_single. reflexivity.
  - split; [|reflexivity]. assert (Er : removelast xs = zs) by (rewrite Ezs; apply removelast_last). rewrite Er.
    split; [exact Hw|]. split; [exact Hc|]. split; [cbn; lia|]. split; [lia|]. split; [exact Hs1|].
    intros E0. specialize (Hz E0). rewrite Ezs in Hz. apply Forall_app in Hz. apply Hz.
Qed.

(** ** truncate *)

Lemma dropped_nil w : dropped w [] = w.
Proof. destruct w. unfold dropped. cbn. rewrite app_nil_r. reflexivity. Qed.
Lemma dropped_cons w x d : dropped (log_drop w (Some x)) d = dropped w (x :: d).
Proof. unfold dropped, log_drop. cbn. rewrite <- app_assoc. reflexivity. Qed.
Lemma dropped_app w d1 d2 : dropped (dropped w d1) d2 = dropped w (d1 ++ d2).
Proof. unfold dropped. cbn. rewrite map_app, app_assoc. reflexivity. Qed.

Lemma skipn_app_eq {A} n (xs ys : list A) : (n <= length xs)%nat -> skipn n (xs ++ ys) = skipn n xs ++ ys.
Proof. intros H. rewrite skipn_app. replace (n - length xs)%nat with 0%nat by lia. reflexivity. Qed.
Lemma firstn_app_eq {A} n (xs ys : list A) : (n <= length xs)%nat -> firstn n (xs ++ ys) = firstn n xs.
Proof. intros H. rewrite firstn_app. replace (n - length xs)%nat with 0%nat by lia. apply app_nil_r. Qed.

Lemma truncate_loop_spec boom l w a xs n :
  (n <= length xs)%nat -> slots l (wheap w) a xs ->
  truncate_loop boom l w n (a + len xs * lsize l) (len xs) =
  let '(d, p) := drop_seq boom (rev (skipn (length xs - n) xs)) in (dropped w d, len xs - len d, p).
Proof.
  revert w xs. induction n as [|n IH]; intros w xs Hn Hs.
  - rewrite Nat.sub_0_r, skipn_all. cbn [rev drop_seq truncate_loop]. rewrite dropped_nil, len_nil, Z.sub_0_r. reflexivity.
  - destruct (@exists_last _ xs) as (ys & y & ->). { intros ->. cbn in Hn. lia. }
    rewrite app_length in *. cbn [length] in *. apply slots_app in Hs as [Hs1 Hs2]. apply slots_single in Hs2.
    cbn [truncate_loop]. rewrite len_app. replace (len [y]) with 1 by reflexivity.
    replace (a + (len ys + 1) * lsize l - lsize l) with (a + len ys * lsize l) by lia. rewrite Hs2. cbn [booms].
    replace (length ys + 1 - S n)%nat with (length ys - n)%nat by lia.
    rewrite skipn_app_eq by lia. rewrite rev_app_distr. cbn [rev app drop_seq]. destruct (boom y).
    + unfold dropped, log_drop. cbn. f_equal.
    + replace (len ys + 1 - 1) with (len ys) by lia. rewrite IH; [|lia|exact Hs1].
      destruct (drop_seq boom (rev (skipn (length ys - n) ys))) as [d p]. rewrite dropped_cons, len_cons. f_equal. f_equal. lia.
Qed.

Lemma drop_seq_prefix boom xs : exists ys, xs = fst (drop_seq boom xs) ++ ys.
Proof.
  induction xs as [|x xs [ys IH]]; cbn; [exists []; reflexivity|]. destruct (boom x).
  - exists xs. reflexivity.
  - destruct (drop_seq boom xs) as [d p]. cbn in *. exists ys. congruence.
Qed.

Lemma drop_seq_all boom xs : snd (drop_seq boom xs) = false -> fst (drop_seq boom xs) = xs.
Proof.
  induction xs as [|x xs IH]; cbn; [reflexivity|]. destruct (boom x); [discriminate|].
  destruct (drop_seq boom xs) as [d p]. cbn in *. intros E. rewrite IH by exact E. reflexivity.
Qed.

Lemma len_take {A} n (xs : list A) : 0 <= n <= len xs -> len (take n xs) = n.
Proof. unfold len, take. intros H. rewrite firstn_length. lia. Qed.
Lemma len_skip {A} n (xs : list A) : 0 <= n <= len xs -> len (skip n xs) = len xs - n.
Proof. unfold len, skip. intros H. rewrite skipn_length. lia. Qed.
Lemma take_skip {A} n (xs : list A) : take n xs ++ skip n xs = xs.
Proof. apply firstn_skipn. Qed.
Lemma take_all {A} n (xs : list A) : len xs <= n -> take n xs = xs.
Proof. unfold len, take. intros H. apply firstn_all2. lia. Qed.
Lemma skip_all {A} n (xs : list A) : len xs <= n -> skip n xs = [].
Proof. unfold len, skip. intros H. apply skipn_all2. lia. Qed.
Lemma take_neg {A} n (xs : list A) : n <= 0 -> take n xs = [].
Proof. unfold take. intros H. replace (Z.to_nat n) with 0%nat by lia. reflexivity. Qed.
Lemma skip_neg {A} n (xs : list A) : n <= 0 -> skip n xs = xs.
Proof. unfold skip. intros H. replace (Z.to_nat n) with 0%nat by lia. reflexivity. Qed.

Lemma rep_take t l h v cap xs n : vec_rep t l h v cap xs -> 0 <= n <= len xs ->
  vec_rep t l h {| funinit := funinit v; flen := n |} cap (take n xs).
Proof.
  intros (Hw & Hc & Hl & Hlc & Hs & Hz) Hn. split; [exact Hw|]. split; [exact Hc|]. cbn [flen funinit].
  split; [rewrite len_take; lia|]. split; [rewrite len_take; lia|]. split.
  - rewrite <- (take_skip n xs) in Hs. apply slots_app in Hs. apply Hs.
  - intros E. specialize (Hz E). rewrite <- (take_skip n xs) in Hz. apply Forall_app in Hz. apply Hz.
Qed.

Lemma truncate_spec t boom l w v cap xs n :
  vec_rep t l (wheap w) v cap xs -> 0 <= n ->
  let '(d, p) := drop_seq boom (rev (skip n xs)) in
  exists v', f_truncate boom l w v n = (dropped w d, v', p) /\
    vec_rep t l (wheap w) v' cap (take (len xs - len d) xs) /\ funinit v' = funinit v.
Proof.
  intros Hr Hn. pose proof Hr as (Hw & Hc & Hl & Hlc & Hs & Hz). unfold f_truncate, slot. rewrite Hl.
  assert (Hk : (Z.to_nat (len xs - n) <= length xs)%nat) by (unfold len; lia).
  rewrite (truncate_loop_spec boom l w (uptr (funinit v)) xs _ Hk Hs).
  assert (Es : skipn (length xs - Z.to_nat (len xs - n)) xs = skip n xs).
  { unfold skip, len. destruct (Z.le_gt_cases n (Z.of_nat (length xs))).
    - f_equal. lia.
    - rewrite !skipn_all2 by lia. reflexivity. }
  rewrite Es. destruct (drop_seq_prefix boom (rev (skip n xs))) as [ys Hys].
  destruct (drop_seq boom (rev (skip n xs))) as [d p]. cbn [fst] in Hys.
  eexists. split; [reflexivity|]. split; [|reflexivity]. apply rep_take; [exact Hr|].
  apply (f_equal (@length elem)) in Hys. rewrite rev_length, app_length in Hys. unfold skip in Hys.
  rewrite skipn_length in Hys. unfold len. lia.
Qed.

(** ** fill *)
Lemma fill_list_spec t l b : forall items h v cap xs,
  valid_target t -> vec_rep t l h v cap xs -> (lsize l = 0 -> Forall (fun e => e = 0) items) ->
  exists h' v', fill_loop (list_next b) l h v (Z.to_nat (cap - len xs)) items =
     (h', v', skip (cap - len xs) items, b && (len items <? cap - len xs)) /\
  vec_rep t l h' v' cap (xs ++ take (cap - len xs) items) /\ funinit v' = funinit v /\
  same_outside (region (funinit v)) h h'.
Proof.
  induction items as [|e items IH]; intros h v cap xs Ht Hr Hz.
  - pose proof Hr as (_ & _ & _ & Hlc & _). destruct (Z.to_nat (cap - len xs)) as [|n] eqn:En; cbn [fill_loop list_next].
    + exists h, v. split; [|split; [|split; [reflexivity|apply same_outside_refl]]].
      * rewrite skip_neg by lia. rewrite len_nil. destruct (Z.ltb_spec 0 (cap - len xs)); [lia|]. rewrite andb_false_r. reflexivity.
      * rewrite take_neg by lia. rewrite app_nil_r. exact Hr.
    + exists h, v. split; [|split; [|split; [reflexivity|apply same_outside_refl]]].
      * rewrite len_nil. destruct (Z.ltb_spec 0 (cap - len xs)); [|lia]. unfold skip. rewrite skipn_nil.
        destruct b; reflexivity.
      * unfold take. rewrite firstn_nil, app_nil_r. exact Hr.
  - pose proof Hr as (_ & _ & Hl & Hlc & _). destruct (Z.to_nat (cap - len xs)) as [|n] eqn:En; cbn [fill_loop list_next].
    + exists h, v. split; [|split; [|split; [reflexivity|apply same_outside_refl]]].
      * rewrite skip_neg by lia. destruct (Z.ltb_spec (len (e :: items)) (cap - len xs)); [rewrite len_cons in *; pose proof (len_nonneg items); lia|].
        rewrite andb_false_r. reflexivity.
      * rewrite take_neg by lia. rewrite app_nil_r. exact Hr.
    + destruct (rep_facts t l h v cap xs Ht Hr) as (F1 & F2 & F3 & F4 & F5 & F6 & F7).
      assert (He : lsize l = 0 -> e = 0) by (intros E; specialize (Hz E); inversion Hz; assumption).
      assert (Hr1 : vec_rep t l (h_write l h (slot l v (flen v)) e) {| funinit := funinit v; flen := flen v + 1 |} cap (xs ++ [e])).
      { destruct Hr as (Hw & Hc & _ & _ & Hs & Hz0). split; [exact Hw|]. split; [exact Hc|].
        split; [cbn [flen]; rewrite len_app, Hl; reflexivity|]. split; [rewrite len_app; cbn; lia|]. cbn [funinit].
        unfold slot. rewrite Hl. split; [apply slots_write; auto|].
        intros E. apply Forall_app. split; [auto|]. constructor; [auto|constructor]. }
      destruct (IH _ _ cap (xs ++ [e]) Ht Hr1) as (h' & v' & E & Hr' & Hu & Hf).
      { intros E. specialize (Hz E). inversion Hz; assumption. }
      replace (Z.to_nat (cap - len (xs ++ [e]))) with n in E by (rewrite len_app; change (len [e]) with 1; lia).
      exists h', v'. rewrite E. split; [|split; [|split; [exact Hu|]]].
      * unfold skip. rewrite En. cbn [skipn]. rewrite len_app. change (len [e]) with 1.
        replace (Z.to_nat (cap - (len xs + 1))) with n by lia. f_equal. f_equal. rewrite len_cons.
        destruct (Z.ltb_spec (len items) (cap - (len xs + 1))), (Z.ltb_spec (1 + len items) (cap - len xs)); auto; lia.
      * rewrite len_app in Hr'. change (len [e]) with 1 in Hr'. unfold take in *. rewrite En. cbn [firstn].
        replace (Z.to_nat (cap - (len xs + 1))) with n in Hr' by lia. rewrite <- app_assoc in Hr'. exact Hr'.
      * eapply same_outside_trans; [|exact Hf]. apply write_frame; [exact F1|]. intros Hp. cbn [funinit].
        unfold slot, in_block, region. cbn [start size]. rewrite Hl. pose proof (len_nonneg xs). nia.
Qed.

Lemma f_fill_unfold {S} (next : S -> inext S) t l h v s cap xs : valid_target t -> vec_rep t l h v cap xs ->
  f_fill next t l h v s = Ret (fill_loop next l h v (Z.to_nat (cap - len xs)) s).
Proof.
  intros Ht (Hw & Hc & Hl & Hlc & _). unfold f_fill, op_sub, f_capacity. rewrite <- Hc, Hl.
  destruct (Z.leb_spec (len xs) cap); [reflexivity|lia].
Qed.

(** ** drain *)
Definition drain_rep (l : layout) (h : eheap) (d : drain) (ys : list elem) : Prop :=
  slots l h (delements d + dstart d * lsize l) ys /\ dend d = dstart d + len ys.

Lemma next_spec l h d ys : drain_rep l h d ys ->
  match ys with
  | [] => d_next l h d = (d, None)
  | y :: ys' => exists d', d_next l h d = (d', Some (Some y)) /\ drain_rep l h d' ys' /\
      dtail d' = dtail d /\ dtail_len d' = dtail_len d /\ delements d' = delements d
  end.
Proof.
  intros [Hs He]. unfold d_next, d_is_empty. destruct ys as [|y ys'].
  - rewrite len_nil in He. destruct (Z.eqb_spec (dstart d) (dend d)); [reflexivity|lia].
  - rewrite len_cons in He. pose proof (len_nonneg ys'). destruct (Z.eqb_spec (dstart d) (dend d)); [lia|].
    apply slots_cons in Hs as [Hs1 Hs2]. rewrite Hs1. eexists. split; [reflexivity|]. cbn. split; [|auto].
    split; cbn; [|lia]. replace (delements d + (dstart d + 1) * lsize l) with (delements d + dstart d * lsize l + lsize l) by lia. exact Hs2.
Qed.

Lemma next_back_spec l h d ys : drain_rep l h d ys ->
  match ys with
  | [] => d_next_back l h d = (d, None)
  | y :: _ => exists d', d_next_back l h d = (d', Some (Some (last ys y))) /\ drain_rep l h d' (removelast ys) /\
      dtail d' = dtail d /\ dtail_len d' = dtail_len d /\ delements d' = delements d
  end.
Proof.
  intros [Hs He]. unfold d_next_back, d_is_empty. destruct ys as [|y ys'].
  - rewrite len_nil in He. destruct (Z.eqb_spec (dstart d) (dend d)); [reflexivity|lia].
  - pose proof (len_cons y ys'). pose proof (len_nonneg ys'). set (ys := y :: ys') in *.
    destruct (Z.eqb_spec (dstart d) (dend d)); [lia|].
    destruct (@exists_last _ ys) as (zs & z & Ez); [discriminate|].
    pose proof Hs as Hs'. rewrite Ez in Hs'. apply slots_app in Hs' as [Hs1 Hs2]. apply slots_single in Hs2.
    assert (len ys = len zs + 1) by (rewrite Ez, len_app; reflexivity).
    replace (delements d + (dend d - 1) * lsize l) with (delements d + dstart d * lsize l + len zs * lsize l) by nia.
    rewrite Hs2. eexists. split.
    + rewrite Ez at 1. rewrite last_app_single. reflexivity.
    + split; [|auto]. replace (removelast ys) with zs by (rewrite Ez; symmetry; apply removelast_last).
      split; cbn; [exact Hs1|lia].
Qed.

Lemma consume_spec l h fronts : forall d ys, drain_rep l h d ys ->
  let '(xs, rest) := take_ends ys fronts in
  exists d', d_consume l h d fronts = (d', map (option_map Some) xs) /\ drain_rep l h d' rest /\
    dtail d' = dtail d /\ dtail_len d' = dtail_len d /\ delements d' = delements d.
Proof.
  induction fronts as [|b fs IH]; intros d ys Hd; cbn [take_ends d_consume].
  - exists d. auto.
  - pose proof (next_spec l h d ys Hd) as Hn. pose proof (next_back_spec l h d ys Hd) as Hb.
    destruct ys as [|y ys'].
    + assert (E : (if b then d_next l h d else d_next_back l h d) = (d, None)) by (destruct b; assumption).
      rewrite E. specialize (IH d [] Hd). destruct (take_ends [] fs) as [xs rest].
      destruct IH as (d' & E' & IH). rewrite E'. exists d'. auto.
    + assert (exists d1, (if b then d_next l h d else d_next_back l h d) = (d1, option_map Some (fst (if b then (Some y, ys') else (Some (last (y :: ys') y), removelast (y :: ys'))))) /\
        drain_rep l h d1 (snd (if b then (Some y, ys') else (Some (last (y :: ys') y), removelast (y :: ys')))) /\
        dtail d1 = dtail d /\ dtail_len d1 = dtail_len d /\ delements d1 = delements d) as (d1 & E & Hd1 & T1 & T2 & T3).
      { destruct b; [destruct Hn as (d1 & Hx)|destruct Hb as (d1 & Hx)]; exists d1; exact Hx. }
      destruct (if b then (Some y, ys') else (Some (last (y :: ys') y), removelast (y :: ys'))) as [x xs'] eqn:Ex.
      rewrite E. cbn [fst snd] in *. specialize (IH d1 xs' Hd1). destruct (take_ends xs' fs) as [xs rest].
      destruct IH as (d' & E' & Hr & U1 & U2 & U3). rewrite E'. exists d'. cbn [map]. split; [reflexivity|].
      split; [exact Hr|]. repeat split; congruence.
Qed.

Lemma take_ends_rest ys fronts : exists p q, ys = p ++ snd (take_ends ys fronts) ++ q.
Proof.
  revert ys. induction fronts as [|b fs IH]; intros ys; cbn [take_ends].
  - exists [], []. cbn. rewrite app_nil_r. reflexivity.
  - destruct ys as [|y ys'].
    + destruct (IH []) as (p & q & E). destruct (take_ends [] fs). cbn in *. exists p, q. exact E.
    + destruct b.
      * destruct (IH ys') as (p & q & E). destruct (take_ends ys' fs). cbn in *. exists (y :: p), q. cbn. congruence.
      * destruct (@exists_last _ (y :: ys')) as (zs & z & Ez); [discriminate|]. rewrite Ez, removelast_last.
        destruct (IH zs) as (p & q & E). destruct (take_ends zs fs). cbn in *. exists p, (q ++ [z]).
        rewrite E at 1. rewrite !app_assoc. reflexivity.
Qed.

Lemma drop_loop_spec boom l : forall ys w d, drain_rep l (wheap w) d ys ->
  let '(dd, p) := drop_seq boom ys in
  exists d', d_drop_loop boom l w d (length ys) = (dropped w dd, d', p) /\
    dtail d' = dtail d /\ dtail_len d' = dtail_len d /\ delements d' = delements d.
Proof.
  induction ys as [|y ys IH]; intros w d Hd; cbn [drop_seq length d_drop_loop].
  - exists d. rewrite dropped_nil. auto.
  - destruct (next_spec l (wheap w) d _ Hd) as (d1 & E & Hd1 & T1 & T2 & T3). rewrite E. cbn [booms]. destruct (boom y).
    + exists d1. split; [|auto]. unfold dropped, log_drop. reflexivity.
    + specialize (IH (log_drop w (Some y)) d1 Hd1). destruct (drop_seq boom ys) as [dd p].
      destruct IH as (d' & E' & U1 & U2 & U3). exists d'. rewrite E', dropped_cons. repeat split; congruence.
Qed.

Lemma copy_spec l h src dst (xs pre : list elem) :
  0 <= lsize l -> src = dst + len pre * lsize l -> (lsize l = 0 -> Forall (fun e => e = 0) xs) ->
  slots l h src xs -> slots l (h_copy l h src dst (len xs)) dst xs.
Proof.
  intros Hs Hsrc Hz H i x Hi. unfold h_copy, h_read. destruct (Z.eqb_spec (lsize l) 0) as [E|NE].
  - specialize (Hz E). rewrite Forall_forall in Hz. f_equal. symmetry. apply Hz. eapply nth_error_In, Hi.
  - assert (Z.of_nat i < len xs) by (unfold len; assert (i < length xs)%nat by (apply nth_error_Some; congruence); lia).
    replace (dst + Z.of_nat i * lsize l - dst) with (Z.of_nat i * lsize l) by lia.
    rewrite Z.mod_mul by lia.
    destruct (Z.leb_spec dst (dst + Z.of_nat i * lsize l)); [|nia].
    destruct (Z.ltb_spec (dst + Z.of_nat i * lsize l) (dst + len xs * lsize l)); [|nia]. cbn [andb Z.eqb].
    specialize (H i x Hi). unfold h_read in H. destruct (Z.eqb_spec (lsize l) 0); [lia|]. exact H.
Qed.

Lemma copy_frame l h src dst n b : 0 <= lsize l -> 0 <= n ->
  (0 < n * lsize l -> inside (MkBlock dst (n * lsize l)) b) -> same_outside b h (h_copy l h src dst n).
Proof.
  intros Hs Hn Hin x Hx. unfold h_copy. destruct (Z.eqb_spec (lsize l) 0); [reflexivity|].
  destruct (Z.leb_spec dst x), (Z.ltb_spec x (dst + n * lsize l)); cbn [andb]; try reflexivity.
  exfalso. apply Hx, Hin; [lia|]. unfold in_block. cbn. lia.
Qed.

Definition drain_bounds (t : target) (v : fvec) (lo hi : bound) : Prop :=
  valid_bound t true lo /\ valid_bound t false hi.

Lemma drain_start_spec t l v lo hi :
  valid_target t -> 0 <= flen v <= usize_max t -> valid_bound t true lo -> valid_bound t false hi ->
  let s := range_start lo in let e := range_end hi (flen v) in
  (s <= e /\ e <= flen v -> f_drain t l v lo hi =
     Ret ({| funinit := funinit v; flen := s |},
          {| dstart := 0; dend := e - s; dtail := e - s; dtail_len := flen v - e; delements := slot l v s |})) /\
  (~ (s <= e /\ e <= flen v) -> exists m, f_drain t l v lo hi = Panic m).
Proof.
  intros Ht Hv Hlo Hhi s e. unfold f_drain.
  assert (Hs : (match lo with Included n => Ret n | Excluded n => op_add t PN_bound n 1 | Unbounded => Ret 0 end = Ret s) \/
               (s = usize_max t + 1 /\ match lo with Included n => Ret n | Excluded n => op_add t PN_bound n 1 | Unbounded => Ret 0 end = Panic PN_bound)).
  { destruct lo as [n|n|]; cbn in *; auto. unfold op_add. destruct (Z.leb_spec (n + 1) (usize_max t)); [auto|].
    right. destruct Hlo as [[? ?] [?|[-> |?]]]; [discriminate| |lia]. split; [lia|reflexivity]. }
  assert (He : (match hi with Included n => op_add t PN_bound n 1 | Excluded n => Ret n | Unbounded => Ret (flen v) end = Ret e) \/
               (e = usize_max t + 1 /\ match hi with Included n => op_add t PN_bound n 1 | Excluded n => Ret n | Unbounded => Ret (flen v) end = Panic PN_bound)).
  { destruct hi as [n|n|]; cbn in *; auto. unfold op_add. destruct (Z.leb_spec (n + 1) (usize_max t)); [auto|].
    right. destruct Hhi as [[? ?] [?|[-> |?]]]; [discriminate| |lia]. split; [lia|reflexivity]. }
  destruct Hs as [-> |[Hs1 ->]]; cbn [obind].
  - destruct He as [-> |[He1 ->]]; cbn [obind].
    + destruct (Z.leb_spec s e), (Z.leb_spec e (flen v)); split; intros H1; try lia; try reflexivity; eexists; reflexivity.
    + split; [intros; lia|]. intros _. eexists. reflexivity.
  - split; [intros; lia|]. intros _. eexists. reflexivity.
Qed.

Lemma range_start_nonneg t lo : valid_bound t true lo -> 0 <= range_start lo.
Proof. destruct lo as [n|n|]; cbn; unfold is_usize; lia. Qed.

Lemma take_take {A} n m (xs : list A) : n <= m -> take n (take m xs) = take n xs.
Proof. unfold take. intros H. rewrite firstn_firstn. f_equal. lia. Qed.
Lemma skip_skip {A} n m (xs : list A) : 0 <= n -> 0 <= m -> skip n (skip m xs) = skip (m + n) xs.
Proof.
  unfold skip. intros Hn Hm. replace (Z.to_nat (m + n)) with (Z.to_nat m + Z.to_nat n)%nat by lia.
  generalize (Z.to_nat m) as a. intros a. revert xs. induction a as [|a IH]; intros xs; cbn; [reflexivity|].
  destruct xs; [apply skipn_nil|apply IH].
Qed.

(** The three-way decomposition of the list by a range *)
Lemma range_split {A} s e (xs : list A) : 0 <= s <= e -> e <= len xs ->
  xs = take s xs ++ take (e - s) (skip s xs) ++ skip e xs.
Proof.
  intros H1 H2. rewrite <- (take_skip s xs) at 1. f_equal. rewrite <- (take_skip (e - s) (skip s xs)) at 1. f_equal.
  rewrite skip_skip by lia. f_equal. lia.
Qed.

Lemma drain_spec t boom l w v cap xs lo hi fronts :
  valid_target t -> vec_rep t l (wheap w) v cap xs -> valid_bound t true lo -> valid_bound t false hi ->
  let s := range_start lo in let e := range_end hi (len xs) in
  (~ (s <= e <= len xs) -> exists m, f_drain t l v lo hi = Panic m) /\
  (s <= e <= len xs -> exists v1 d, f_drain t l v lo hi = Ret (v1, d) /\ funinit v1 = funinit v /\
     vec_rep t l (wheap w) v1 cap (take s xs) /\
     drain_rep l (wheap w) d (take (e - s) (skip s xs)) /\
     let '(answers, rest) := take_ends (take (e - s) (skip s xs)) fronts in
     exists d', d_consume l (wheap w) d fronts = (d', map (option_map Some) answers) /\
       drain_rep l (wheap w) d' rest /\
       let '(dd, p) := drop_seq boom rest in
       exists w' v', d_drop boom l w v1 d' = (w', v', p) /\ funinit v' = funinit v /\
         wdrops w' = wdrops w ++ map Some dd /\ same_outside (region (funinit v)) (wheap w) (wheap w') /\
         vec_rep t l (wheap w') v' cap (if p then take s xs else take s xs ++ skip e xs)).
Proof.
  intros Ht Hr Hlo Hhi s e. destruct (rep_facts t l (wheap w) v cap xs Ht Hr) as (F1 & F2 & F3 & F4 & F5 & F6 & F7).
  pose proof Hr as (Hw & Hc & Hl & Hlc & Hs & Hz). pose proof (len_nonneg xs).
  destruct (drain_start_spec t l v lo hi Ht ltac:(lia) Hlo Hhi) as [D1 D2]. rewrite Hl in D1, D2. fold s e in D1, D2.
  pose proof (range_start_nonneg t lo Hlo) as Hs0. fold s in Hs0.
  split; [intros Hn; apply D2; lia|]. intros Hse.
  rewrite (D1 Hse). do 2 eexists. split; [reflexivity|]. split; [reflexivity|].
  assert (Hr1 : vec_rep t l (wheap w) {| funinit := funinit v; flen := s |} cap (take s xs)) by (apply rep_take; [exact Hr|lia]).
  split; [exact Hr1|].
  pose proof (range_split s e xs ltac:(lia) ltac:(lia)) as Hsplit.
  set (A := take s xs) in *. set (B := take (e - s) (skip s xs)) in *. set (C := skip e xs) in *.
  assert (LA : len A = s) by (apply len_take; lia).
  assert (LB : len B = e - s) by (apply len_take; rewrite len_skip; lia).
  assert (LC : len C = len xs - e) by (apply len_skip; lia).
  rewrite Hsplit in Hs. apply slots_app in Hs as [SA SBC]. apply slots_app in SBC as [SB SC].
  set (d := {| dstart := 0; dend := e - s; dtail := e - s; dtail_len := len xs - e; delements := slot l v s |}).
  assert (Hd : drain_rep l (wheap w) d B).
  { split; cbn; [|lia]. unfold slot. rewrite Z.add_0_r, <- LA. exact SB. }
  split; [exact Hd|].
  pose proof (consume_spec l (wheap w) fronts d B Hd) as Hcons.
  destruct (take_ends B fronts) as [answers rest] eqn:Ete. destruct Hcons as (d' & Ed' & Hd' & T1 & T2 & T3).
  exists d'. split; [exact Ed'|]. split; [exact Hd'|].
  pose proof (drop_loop_spec boom l rest w d' Hd') as Hdl. destruct (drop_seq boom rest) as [dd p].
  destruct Hdl as (d2 & Ed2 & U1 & U2 & U3). unfold d_drop.
  assert (Efuel : Z.to_nat (d_len d') = length rest).
  { unfold d_len. destruct Hd' as [_ He']. unfold len in He'. lia. }
  rewrite Efuel, Ed2. destruct p.
  - do 2 eexists. split; [reflexivity|]. split; [reflexivity|]. split; [reflexivity|].
    split; [apply same_outside_refl|]. exact Hr1.
  - rewrite U2, T2, U1, T1, U3, T3. cbn [dtail_len dtail delements d].
    destruct (Z.eqb_spec (len xs - e) 0) as [Ez|Enz].
    + do 2 eexists. split; [reflexivity|]. split; [reflexivity|]. split; [reflexivity|].
      split; [apply same_outside_refl|]. assert (C = []) as ->.
      { destruct C; [reflexivity|]. rewrite len_cons in LC. pose proof (len_nonneg C). lia. }
      rewrite app_nil_r. exact Hr1.
    + do 2 eexists. split; [reflexivity|]. split; [reflexivity|]. split; [reflexivity|].
      cbn [wheap dropped].
      assert (Hfr : same_outside (region (funinit v)) (wheap w) (h_copy l (wheap w) (slot l v s + (e - s) * lsize l) (slot l v s) (len xs - e))).
      { apply copy_frame; [exact F1|lia|]. intros Hp. apply inside_intro; cbn; unfold slot; nia. }
      assert (Hfr2 : same_outside (MkBlock (slot l v s) ((len xs - e) * lsize l)) (wheap w) (h_copy l (wheap w) (slot l v s + (e - s) * lsize l) (slot l v s) (len xs - e))).
      { apply copy_frame; [exact F1|lia|]. intros Hp x Hx. exact Hx. }
      split; [exact Hfr|].
      split; [exact Hw|]. split; [exact Hc|]. cbn [flen funinit].
      split; [rewrite len_app; lia|]. split; [rewrite len_app; lia|]. split.
      * apply slots_app. split.
        -- eapply slots_frame; [exact F1|exact Hfr2| |exact SA]. apply disjoint_intro. cbn. unfold slot. rewrite LA. lia.
        -- rewrite LA, <- LC. apply (copy_spec l (wheap w) _ _ C B); auto.
           ++ rewrite LB. reflexivity.
           ++ intros E0. specialize (Hz E0). rewrite Hsplit in Hz. apply Forall_app in Hz as [_ Hz]. apply Forall_app in Hz. apply Hz.
           ++ rewrite LA, LB in SC. exact SC.
      * intros E0. specialize (Hz E0). rewrite Hsplit in Hz. apply Forall_app in Hz as [Z1 Hz]. apply Forall_app in Hz as [Z2 Z3].
        apply Forall_app. auto.
Qed.

(** ** splitting *)
Lemma split_common t l h v cap xs n :
  valid_target t -> vec_rep t l h v cap xs -> is_usize t n -> n <= cap ->
  exists a b, v_split_at t l (funinit v) n = Ret (a, Some b) /\ cut (funinit v) (n * lsize l) a b /\
    vec_rep t l h {| funinit := funinit v; flen := flen v - saturating_sub (flen v) n |} cap (take n xs) /\
    vec_rep t l h {| funinit := a; flen := flen v - saturating_sub (flen v) n |} (if lsize l =? 0 then usize_max t else n) (take n xs) /\
    vec_rep t l h {| funinit := b; flen := saturating_sub (flen v) n |} (if lsize l =? 0 then usize_max t else cap - n) (skip n xs).
Proof.
  intros Ht Hr Hn Hle. destruct (rep_facts t l h v cap xs Ht Hr) as (F1 & F2 & F3 & F4 & F5 & F6 & F7).
  pose proof Hr as (Hw & Hc & Hl & Hlc & Hs & Hz). pose proof (len_nonneg xs). pose proof Hn as [Hn0 _].
  assert (Hfit : n * lsize l <= ulen (funinit v)) by nia.
  rewrite (v_split_at_spec t l (funinit v) n Ht Hw Hn). destruct (Z.leb_spec (n * lsize l) (ulen (funinit v))); [|lia].
  do 2 eexists. split; [reflexivity|]. split; [apply at_view_cut; nia|].
  destruct (wf_cut_slice t l (funinit v) n Hw Hn0 Hfit) as [W1 W2].
  assert (Efl : flen v - saturating_sub (flen v) n = len (take n xs) /\ saturating_sub (flen v) n = len (skip n xs) /\ len (take n xs) <= n).
  { rewrite Hl. unfold saturating_sub. destruct (Z.leb_spec n (len xs)).
    - rewrite len_take, len_skip by lia. lia.
    - rewrite take_all, skip_all by lia. change (len (@nil elem)) with 0. lia. }
  destruct Efl as (E1 & E2 & E3). rewrite E1, E2.
  pose proof (len_nonneg (skip n xs)). pose proof (len_nonneg (take n xs)).
  assert (Elen : len (take n xs) + len (skip n xs) = len xs) by (rewrite <- len_app, take_skip; reflexivity).
  rewrite <- (take_skip n xs) in Hs. apply slots_app in Hs as [S1 S2].
  assert (Z1 : lsize l = 0 -> Forall (fun e => e = 0) (take n xs) /\ Forall (fun e => e = 0) (skip n xs)).
  { intros E. specialize (Hz E). rewrite <- (take_skip n xs) in Hz. apply Forall_app in Hz. exact Hz. }
  split; [|split].
  - split; [exact Hw|]. split; [exact Hc|]. split; [reflexivity|]. cbn [funinit]. split; [lia|]. split; [exact S1|]. intros E; apply (Z1 E).
  - split; [exact W1|]. cbn [funinit flen]. unfold v_capacity. cbn [at_view fst ulen uptr].
    destruct (Z.eqb_spec (lsize l) 0) as [E|E].
    + split; [reflexivity|]. split; [reflexivity|]. split; [pose proof (F7 E); lia|]. split; [exact S1|]. apply Z1.
    + split; [rewrite Z.div_mul by lia; reflexivity|]. split; [reflexivity|]. split; [lia|]. split; [exact S1|]. apply Z1.
  - split; [exact W2|]. cbn [funinit flen]. unfold v_capacity. cbn [at_view snd ulen uptr from_memory].
    assert (S2' : slots l h (uptr (funinit v) + n * lsize l) (skip n xs)).
    { destruct (Z.le_gt_cases n (len xs)); [rewrite len_take in S2 by lia; exact S2|].
      rewrite skip_all by lia. apply slots_nil. }
    destruct (Z.eqb_spec (lsize l) 0) as [E|E].
    + split; [reflexivity|]. split; [reflexivity|]. split; [pose proof (F7 E); lia|]. split; [exact S2'|]. apply Z1.
    + split; [|split; [reflexivity|split; [|split; [exact S2'|apply Z1]]]].
      * replace (ulen (funinit v) - n * lsize l) with (ulen (funinit v) + (- n) * lsize l) by lia. rewrite Z.div_add by lia.
        rewrite Hc. unfold v_capacity. destruct (Z.eqb_spec (lsize l) 0); [lia|]. lia.
      * unfold saturating_sub in E2. rewrite Hl in E2. destruct (Z.leb_spec n (len xs)); lia.
Qed.

Lemma shrink_spec t l h v cap xs : valid_target t -> vec_rep t l h v cap xs ->
  exists v' b, f_shrink_to_fit t l v = Ret (v', b) /\ vec_rep t l h v' cap xs /\
    cut (funinit v) (if lsize l =? 0 then 0 else cap * lsize l) (funinit v') b.
Proof.
  intros Ht Hr. pose proof Hr as (Hw & Hc & Hl & Hlc & Hs & Hz).
  destruct (v_shrink_spec t l (funinit v) Ht Hw) as (a & b & E & Hcut & Wa & Wb).
  unfold f_shrink_to_fit. rewrite E. cbn [obind fst snd]. do 2 eexists. split; [reflexivity|]. rewrite <- Hc in Hcut.
  split; [|exact Hcut]. destruct Hcut as (Ha & _ & _). injection Ha as Ha1 Ha2.
  split; [exact Wa|]. cbn [funinit flen]. split.
  - rewrite Hc. unfold v_capacity. destruct (Z.eqb_spec (lsize l) 0); [reflexivity|].
    rewrite Ha2. rewrite Z.div_mul by lia. rewrite Hc. unfold v_capacity. destruct (Z.eqb_spec (lsize l) 0); [lia|reflexivity].
  - split; [exact Hl|]. split; [exact Hlc|]. rewrite Ha1. auto.
Qed.

(** ** dropping the vector *)
Lemma drop_slice_unwinding boom xs : forall w,
  drop_slice boom w (map Some xs) true =
  let '(d, p) := drop_seq boom xs in (dropped w d, if p then DAbort else DPanic).
Proof.
  induction xs as [|x xs IH]; intros w; cbn [map drop_slice drop_seq booms].
  - rewrite dropped_nil. reflexivity.
  - destruct (boom x); [unfold dropped, log_drop; reflexivity|]. rewrite IH. destruct (drop_seq boom xs) as [d p].
    rewrite dropped_cons. reflexivity.
Qed.

Lemma drop_slice_spec boom xs : forall w,
  drop_slice boom w (map Some xs) false =
  match drop_seq boom xs with
  | (d, false) => (dropped w d, DOk)
  | (d, true) => let '(d', p) := drop_seq boom (skip (len d) xs) in (dropped w (d ++ d'), if p then DAbort else DPanic)
  end.
Proof.
  induction xs as [|x xs IH]; intros w; cbn [map drop_slice drop_seq booms].
  - rewrite dropped_nil. reflexivity.
  - destruct (boom x).
    + rewrite drop_slice_unwinding. change (skip (len [x]) (x :: xs)) with xs.
      destruct (drop_seq boom xs) as [d p]. rewrite dropped_cons. reflexivity.
    + rewrite IH. destruct (drop_seq boom xs) as [d [|]].
      * rewrite len_cons. replace (skip (1 + len d) (x :: xs)) with (skip (len d) xs).
        -- destruct (drop_seq boom (skip (len d) xs)) as [d' p]. rewrite dropped_cons. reflexivity.
        -- unfold skip, len. replace (Z.to_nat (1 + Z.of_nat (length d))) with (S (length d)) by lia. cbn. f_equal. lia.
      * rewrite dropped_cons. reflexivity.
Qed.
