(** * UninitProofs *)
From Verif Require Import Base Spec BaseFacts SyncProofs UninitModel UninitSpec.

Lemma align_offset1_zero p a : 0 < a -> align_offset1 p a = 0 <-> aligned p a.
Proof.
  intros Ha. unfold align_offset1, aligned. rewrite Z.mod_divide by lia.
  rewrite Z.divide_opp_r. tauto.
Qed.

Lemma v_fits_iff v l : 0 < lalign l -> v_fits v l = true <-> aligned (uptr v) (lalign l) /\ lsize l <= ulen v.
Proof.
  intros Ha. unfold v_fits. rewrite andb_true_iff, Z.eqb_eq, Z.leb_le, align_offset1_zero by exact Ha. tauto.
Qed.

Lemma type_layout_align t l : type_layout t l -> 0 < lalign l.
Proof. intros [H _]. apply (valid_layout_align t l H). Qed.

Lemma v_cast_spec v l :
  0 < lalign l ->
  (aligned (uptr v) (lalign l) /\ lsize l <= ulen v -> v_cast v l = Some {| uptr := uptr v; ulen := ulen v; umeta := 0 |}) /\
  (~ (aligned (uptr v) (lalign l) /\ lsize l <= ulen v) -> v_cast v l = None).
Proof.
  intros Ha. pose proof (v_fits_iff v l Ha) as H. unfold v_cast. destruct (v_fits v l); cbn [negb].
  - split; [reflexivity|]. intros Hn. exfalso. apply Hn, H. reflexivity.
  - split; [|reflexivity]. intros Hy. apply H in Hy. discriminate.
Qed.

Lemma v_cast_slice_spec t v l :
  0 < lalign l -> 0 <= ulen v ->
  (aligned (uptr v) (lalign l) -> v_cast_slice t v l = Some {| uptr := uptr v; ulen := ulen v; umeta := v_capacity t l v |}) /\
  (~ aligned (uptr v) (lalign l) -> v_cast_slice t v l = None).
Proof.
  intros Ha Hl. pose proof (v_fits_iff v {| lsize := 0; lalign := lalign l |} Ha) as H. cbn [lsize lalign] in H.
  unfold v_cast_slice. destruct (v_fits v _); cbn [negb].
  - split; [reflexivity|]. intros Hn. exfalso. apply Hn, H. reflexivity.
  - split; [|reflexivity]. intros Hy. assert (false = true); [|discriminate]. apply H. split; [exact Hy|lia].
Qed.

Lemma capacity_whole t l v :
  wf_view t (TSlice l) v -> 0 < lsize l -> whole_elements (lsize l) (ulen v) (v_capacity t l v).
Proof.
  intros [(R1 & R2 & R3) _] Hs. cbn in R2. unfold v_capacity. destruct (Z.eqb_spec (lsize l) 0); [lia|].
  pose proof (Z.div_mod (ulen v) (lsize l) ltac:(lia)). pose proof (Z.mod_pos_bound (ulen v) (lsize l) Hs).
  pose proof (Z.div_pos (ulen v) (lsize l) ltac:(lia) Hs). unfold whole_elements. nia.
Qed.

Definition at_view (t : target) (l : layout) (v : uview) (bytes : Z) : uview * uview :=
  ({| uptr := uptr v; ulen := bytes; umeta := umeta v |},
   let o := from_memory (uptr v + bytes) (ulen v - bytes) in
   {| uptr := uptr o; ulen := ulen o; umeta := v_capacity t l o |}).

Lemma v_split_at_spec t l v n :
  valid_target t -> wf_view t (TSlice l) v -> is_usize t n ->
  v_split_at t l v n =
    if n * lsize l <=? ulen v
    then Ret (fst (at_view t l v (n * lsize l)), Some (snd (at_view t l v (n * lsize l))))
    else Ret (v, None).
Proof.
  intros Ht [(R1 & R2 & R3) [Hl Hal]] [Hn0 Hn1]. cbn in R1, R2, R3.
  pose proof (isize_lt_usize t Ht) as Hi. pose proof (type_layout_align t l Hl) as Ha.
  unfold v_split_at, checked_mul. destruct (Z.leb_spec (n * lsize l) (ulen v)) as [Hle|Hgt].
  - destruct (Z.leb_spec (n * lsize l) (usize_max t)); [|unfold usize_max in *; lia].
    destruct (Z.ltb_spec (ulen v) (n * lsize l)); [lia|].
    destruct Hl as [(V1 & _) Hdiv].
    destruct (v_cast_slice_spec t (from_memory (uptr v + n * lsize l) (ulen v - n * lsize l)) l Ha) as [C1 _].
    { cbn. lia. }
    rewrite C1; [reflexivity|]. cbn. unfold aligned. apply Z.divide_add_r; [exact Hal|].
    apply Z.divide_mul_r. exact Hdiv.
  - destruct (Z.leb_spec (n * lsize l) (usize_max t)); [|reflexivity].
    destruct (Z.ltb_spec (ulen v) (n * lsize l)); [reflexivity|lia].
Qed.

Lemma at_view_cut t l v k : 0 <= k <= ulen v -> cut v k (fst (at_view t l v k)) (snd (at_view t l v k)).
Proof. intros H. unfold cut, region, at_view. cbn. auto. Qed.

Lemma wf_cut_slice t l v n :
  wf_view t (TSlice l) v -> 0 <= n -> n * lsize l <= ulen v ->
  wf_view t (TSlice l) (fst (at_view t l v (n * lsize l))) /\
  wf_view t (TSlice l) (snd (at_view t l v (n * lsize l))).
Proof.
  intros [(R1 & R2 & R3) [Hl Hal]] Hn Hle. cbn in R1, R2, R3.
  assert (0 <= lsize l) by (destruct Hl as [(V1 & _) _]; exact V1).
  split; (split; [unfold valid_region, region, at_view; cbn; nia|]); (split; [exact Hl|]); cbn; [exact Hal|].
  unfold aligned. apply Z.divide_add_r; [exact Hal|]. apply Z.divide_mul_r. apply Hl.
Qed.

Lemma v_split_first_spec t l v :
  valid_target t -> wf_view t (TSlice l) v ->
  (lsize l <= ulen v -> exists a b, v_split_first t l v = Ret (b, Some a) /\ cut v (lsize l) a b /\
     wf_view t (TSized l) a /\ wf_view t (TSlice l) b) /\
  (ulen v < lsize l -> v_split_first t l v = Ret (v, None)).
Proof.
  intros Ht Hw. pose proof (isize_lt_usize t Ht) as Hi.
  assert (H1 : is_usize t 1).
  { unfold is_usize, usize_max, addr_space. destruct (proj1 Ht) as [E|[E|E]]; rewrite E; vm_compute; split; congruence. }
  unfold v_split_first. rewrite (v_split_at_spec t l v 1 Ht Hw H1), Z.mul_1_l.
  pose proof Hw as [(R1 & R2 & R3) [Hl Hal]]. cbn in R1, R2, R3.
  assert (0 <= lsize l) by (destruct Hl as [(V1 & _) _]; exact V1).
  pose proof (type_layout_align t l Hl) as Ha.
  split; intros H2.
  - destruct (Z.leb_spec (lsize l) (ulen v)); [|lia]. cbn [obind].
    destruct (v_cast_spec (decast (fst (at_view t l v (lsize l)))) l Ha) as [C1 _].
    rewrite C1 by (cbn; split; [exact Hal|lia]). cbn [unwrap obind].
    do 2 eexists. split; [reflexivity|].
    pose proof (wf_cut_slice t l v 1 Hw ltac:(lia) ltac:(lia)) as [W1 W2]. rewrite Z.mul_1_l in W1, W2.
    split; [|split; [|exact W2]].
    + apply (at_view_cut t l v (lsize l) ltac:(lia)).
    + split; [unfold valid_region, region; cbn; lia|]. cbn. split; [exact Hl|]. split; [exact Hal|lia].
  - destruct (Z.leb_spec (lsize l) (ulen v)); [lia|]. reflexivity.
Qed.

Lemma wrapping_sub_pred t n : valid_target t -> 0 <= n <= usize_max t ->
  wrapping_sub t n 1 = if n =? 0 then usize_max t else n - 1.
Proof.
  intros Ht Hn. unfold wrapping_sub, wrap. pose proof (addr_space_pos t Ht) as Hp. unfold usize_max in *.
  destruct (Z.eqb_spec n 0) as [->|Hne].
  - symmetry. apply (Z.mod_unique _ _ (-1)); lia.
  - apply Z.mod_small. lia.
Qed.

Lemma v_split_last_spec t l v :
  valid_target t -> wf_view t (TSlice l) v ->
  (lsize l <= ulen v -> exists a b n, v_split_last t l v = Ret (b, Some a) /\
     (0 < lsize l -> whole_elements (lsize l) (ulen v) (n + 1)) /\ 0 <= n /\
     cut v (n * lsize l) b a /\ wf_view t (TSized l) a /\ wf_view t (TSlice l) b) /\
  (ulen v < lsize l -> v_split_last t l v = Ret (v, None)).
Proof.
  intros Ht Hw. pose proof (isize_lt_usize t Ht) as Hi. pose proof (addr_space_pos t Ht) as Hap.
  pose proof Hw as [(R1 & R2 & R3) [Hl Hal]]. cbn in R1, R2, R3.
  assert (Hs0 : 0 <= lsize l) by (destruct Hl as [(V1 & _) _]; exact V1).
  pose proof (type_layout_align t l Hl) as Ha.
  assert (Hum : 1 <= usize_max t) by (unfold usize_max, addr_space; destruct (proj1 Ht) as [E|[E|E]]; rewrite E; vm_compute; congruence).
  assert (Hcap : 0 <= v_capacity t l v <= usize_max t).
  { unfold v_capacity. destruct (Z.eqb_spec (lsize l) 0); [lia|].
    pose proof (Z.div_pos (ulen v) (lsize l) ltac:(lia) ltac:(lia)).
    pose proof (Z.div_le_upper_bound (ulen v) (lsize l) (ulen v) ltac:(lia) ltac:(nia)). unfold usize_max in *. lia. }
  unfold v_split_last. rewrite (wrapping_sub_pred t _ Ht Hcap).
  split; intros H.
  - assert (Hc1 : 1 <= v_capacity t l v).
    { unfold v_capacity. destruct (Z.eqb_spec (lsize l) 0); [lia|].
      apply Z.div_le_lower_bound; lia. }
    destruct (Z.eqb_spec (v_capacity t l v) 0); [lia|].
    assert (Hle : (v_capacity t l v - 1) * lsize l + lsize l <= ulen v).
    { unfold v_capacity. destruct (Z.eqb_spec (lsize l) 0) as [->|Hz]; [lia|].
      pose proof (Z.mul_div_le (ulen v) (lsize l) ltac:(lia)). nia. }
    rewrite (v_split_at_spec t l v _ Ht Hw) by (unfold is_usize; lia).
    destruct (Z.leb_spec ((v_capacity t l v - 1) * lsize l) (ulen v)); [|lia]. cbn [obind].
    pose proof (wf_cut_slice t l v (v_capacity t l v - 1) Hw ltac:(lia) ltac:(lia)) as [W1 W2].
    set (k := (v_capacity t l v - 1) * lsize l) in *.
    destruct (v_cast_spec (decast (snd (at_view t l v k))) l Ha) as [C1 _].
    rewrite C1 by (split; [apply W2|cbn; lia]). cbn [unwrap obind].
    do 2 eexists. exists (v_capacity t l v - 1). split; [reflexivity|].
    split; [intros Hp; replace (v_capacity t l v - 1 + 1) with (v_capacity t l v) by lia; apply capacity_whole; assumption|].
    split; [lia|]. split; [|split; [|exact W1]].
    + pose proof (at_view_cut t l v k ltac:(subst k; nia)) as (X1 & X2 & X3). split; [exact X1|]. split; [exact X2|exact X3].
    + split; [apply W2|]. split; [exact Hl|]. split; [apply W2|cbn; lia].
  - assert (Hc0 : v_capacity t l v = 0).
    { unfold v_capacity. destruct (Z.eqb_spec (lsize l) 0); [lia|]. apply Z.div_small. lia. }
    rewrite Hc0. cbn [Z.eqb]. rewrite (v_split_at_spec t l v _ Ht Hw) by (unfold is_usize; lia).
    destruct (Z.leb_spec (usize_max t * lsize l) (ulen v)); [|reflexivity].
    unfold usize_max in *. nia.
Qed.

Lemma v_shrink_spec t l v :
  valid_target t -> wf_view t (TSlice l) v ->
  exists a b, v_shrink_to_fit t l v = Ret (a, b) /\
    cut v (if lsize l =? 0 then 0 else v_capacity t l v * lsize l) a b /\
    wf_view t (TSlice l) a /\ wf_view t TRaw b.
Proof.
  intros Ht Hw. pose proof Hw as [(R1 & R2 & R3) [Hl Hal]]. cbn in R1, R2, R3.
  pose proof (isize_lt_usize t Ht) as Hi. pose proof (addr_space_pos t Ht) as Hap.
  assert (Hs0 : 0 <= lsize l) by (destruct Hl as [(V1 & _) _]; exact V1).
  assert (Hk : 0 <= v_capacity t l v <= usize_max t /\ v_capacity t l v * lsize l <= ulen v).
  { unfold v_capacity. destruct (Z.eqb_spec (lsize l) 0) as [->|Hz]; [unfold usize_max; lia|].
    pose proof (Z.div_pos (ulen v) (lsize l) ltac:(lia) ltac:(lia)).
    pose proof (Z.div_le_upper_bound (ulen v) (lsize l) (ulen v) ltac:(lia) ltac:(nia)).
    pose proof (Z.mul_div_le (ulen v) (lsize l) ltac:(lia)). unfold usize_max in *. nia. }
  unfold v_shrink_to_fit. rewrite (v_split_at_spec t l v _ Ht Hw) by (unfold is_usize; lia).
  destruct (Z.leb_spec (v_capacity t l v * lsize l) (ulen v)); [|lia]. cbn [obind].
  do 2 eexists. split; [reflexivity|].
  pose proof (wf_cut_slice t l v (v_capacity t l v) Hw ltac:(lia) ltac:(lia)) as [W1 W2].
  assert (Ek : (if lsize l =? 0 then 0 else v_capacity t l v * lsize l) = v_capacity t l v * lsize l).
  { destruct (Z.eqb_spec (lsize l) 0) as [->|]; lia. }
  rewrite Ek. split; [|split; [exact W1|split; [apply W2|exact I]]].
  pose proof (at_view_cut t l v (v_capacity t l v * lsize l) ltac:(nia)) as (X1 & X2 & X3).
  split; [exact X1|]. split; [exact X2|exact X3].
Qed.

Lemma v_split_layout_spec t v l :
  valid_target t -> wf_view t TRaw v -> 0 < lalign l -> 0 <= lsize l ->
  (aligned (uptr v) (lalign l) /\ lsize l <= ulen v ->
   v_split_layout t v l = Ret ({| uptr := uptr v; ulen := 0; umeta := umeta v |}, Some (from_memory (uptr v) (ulen v)))) /\
  (~ (aligned (uptr v) (lalign l) /\ lsize l <= ulen v) -> v_split_layout t v l = Ret (v, None)).
Proof.
  intros Ht [(R1 & R2 & R3) _] Ha Hs. cbn in R1, R2, R3. pose proof (isize_lt_usize t Ht) as Hi.
  unfold v_split_layout, align_offset0.
  destruct (Z.eqb_spec (uptr v mod lalign l) 0) as [Hz|Hz].
  - assert (Hal : aligned (uptr v) (lalign l)) by (apply Z.mod_divide; [lia|exact Hz]).
    assert (Hc : checked_sub (ulen v) 0 = Some (ulen v)).
    { unfold checked_sub. destruct (Z.leb_spec 0 (ulen v)); [|lia]. f_equal. lia. }
    rewrite Hc. unfold checked_sub. destruct (Z.leb_spec (lsize l) (ulen v)) as [Hle|Hgt].
    + split; [intros _|intros Hn; exfalso; apply Hn; auto].
      unfold v_split_at_byte. cbn [lsize unit_layout].
      destruct (Z.ltb_spec (ulen v) 0); [lia|]. cbn [orb Z.ltb Z.compare].
      replace (uptr v + 0 * 0) with (uptr v) by lia. rewrite Z.sub_0_r.
      assert (v_fits (from_memory (uptr v) (ulen v)) l = true) as ->; [|reflexivity].
      apply v_fits_iff; [exact Ha|]. cbn. auto.
    + split; [intros [_ H1]; lia|reflexivity].
  - assert (Hal : ~ aligned (uptr v) (lalign l)) by (intros H1; apply Hz; apply Z.mod_divide; [lia|exact H1]).
    assert (Hc : checked_sub (ulen v) (usize_max t) = None).
    { unfold checked_sub. destruct (Z.leb_spec (usize_max t) (ulen v)); [unfold usize_max in *; lia|reflexivity]. }
    rewrite Hc.
    split; [tauto|reflexivity].
Qed.

Lemma v_split_at_byte_spec l v k :
  v_split_at_byte l v k =
  if (lsize l <=? k) && (k <=? ulen v)
  then ({| uptr := uptr v; ulen := k; umeta := umeta v |}, Some (from_memory (uptr v + k * lsize l) (ulen v - k)))
  else (v, None).
Proof.
  unfold v_split_at_byte. destruct (Z.ltb_spec (ulen v) k), (Z.ltb_spec k (lsize l)), (Z.leb_spec (lsize l) k), (Z.leb_spec k (ulen v)); cbn; try lia; reflexivity.
Qed.

(** ** Histories over several regions *)

Definition regions (P : pool) : list block := map (fun x => region (snd x)) P.

Definition pinv (t : target) (b0 : block) (P : pool) : Prop :=
  Forall (fun x => wf_view t (fst x) (snd x) /\ inside (region (snd x)) b0) P /\
  pairwise disjoint (regions P).

Lemma upd_nth_In {A} i (x y : A) l : In y (upd_nth i x l) -> y = x \/ In y l.
Proof.
  revert i. induction l as [|a l IH]; intros [|i]; cbn; try tauto.
  - intros [->|H]; auto.
  - intros [->|H]; auto. destruct (IH i H); auto.
Qed.

Lemma upd_nth_nth_eq {A} i (x y : A) l : nth_error l i = Some y -> nth_error (upd_nth i x l) i = Some x.
Proof. revert i. induction l as [|a l IH]; intros [|i]; cbn; try discriminate; auto. Qed.

Lemma upd_nth_nth_ne {A} i j (x : A) l : i <> j -> nth_error (upd_nth i x l) j = nth_error l j.
Proof.
  revert i j. induction l as [|a l IH]; intros [|i] [|j] H; cbn; try reflexivity; try congruence.
  apply IH. congruence.
Qed.

Lemma regions_nth P i : nth_error (regions P) i = option_map (fun x => region (snd x)) (nth_error P i).
Proof. unfold regions. apply nth_error_map. Qed.

Lemma pinv_upd t b0 P i ty v ty' v' :
  pinv t b0 P -> nth_error P i = Some (ty, v) -> wf_view t ty' v' -> inside (region v') (region v) ->
  pinv t b0 (upd_nth i (ty', v') P).
Proof.
  intros [H1 H2] Hi Hw Hin.
  assert (Hv : inside (region v) b0).
  { rewrite Forall_forall in H1. apply (H1 (ty, v)). eapply nth_error_In, Hi. }
  split.
  - rewrite Forall_forall in *. intros y Hy. destruct (upd_nth_In _ _ _ _ Hy) as [->|Hy']; [|auto].
    cbn. split; [exact Hw|]. intros x Hx. apply Hv, Hin, Hx.
  - intros j k x y Hjk Hj Hk. rewrite regions_nth in Hj, Hk.
    assert (Hother : forall j x, i <> j ->
       option_map (fun x => region (snd x)) (nth_error (upd_nth i (ty', v') P) j) = Some x ->
       disjoint (region v') x).
    { clear - H2 Hi Hin. intros j x Hij Hj. rewrite upd_nth_nth_ne in Hj by exact Hij.
      eapply disjoint_inside; [exact Hin|]. apply (H2 i j (region v) x Hij).
      - rewrite regions_nth, Hi. reflexivity.
      - rewrite regions_nth. exact Hj. }
    destruct (Nat.eq_dec i j) as [->|Hij].
    + rewrite (upd_nth_nth_eq _ _ _ _ Hi) in Hj. injection Hj as <-.
      apply (Hother k); assumption.
    + destruct (Nat.eq_dec i k) as [->|Hik].
      * rewrite (upd_nth_nth_eq _ _ _ _ Hi) in Hk. injection Hk as <-.
        apply disjoint_sym, (Hother j); assumption.
      * rewrite upd_nth_nth_ne in Hj, Hk by assumption.
        apply (H2 j k); [exact Hjk| |]; rewrite regions_nth; assumption.
Qed.

Lemma pinv_two t b0 P i ty v tya a tyb b :
  pinv t b0 P -> nth_error P i = Some (ty, v) -> wf_view t tya a -> inside (region a) (region v) ->
  (forall y, b = Some y -> wf_view t tyb y /\ inside (region y) (region v) /\ disjoint (region a) (region y)) ->
  pinv t b0 (two P i tya a tyb b).
Proof.
  intros HP Hi Hwa Hia Hb. pose proof (pinv_upd _ _ _ _ _ _ _ _ HP Hi Hwa Hia) as HU.
  unfold two. destruct b as [y|]; [|exact HU]. destruct (Hb y eq_refl) as (Hwy & Hiy & Hd).
  destruct HU as [U1 U2]. destruct HP as [H1 H2]. split.
  - apply Forall_app. split; [exact U1|]. constructor; [|constructor]. cbn. split; [exact Hwy|].
    rewrite Forall_forall in H1. intros x Hx. apply (H1 (ty, v)); [eapply nth_error_In, Hi|]. apply Hiy, Hx.
  - unfold regions. rewrite map_app. apply pairwise_app.
    + apply disjoint_sym.
    + exact U2.
    + apply pairwise_cons; [apply disjoint_sym|constructor|apply pairwise_nil].
    + cbn. intros x z Hx [<-|[]]. apply in_map_iff in Hx as ([ty' w] & <- & Hin). cbn.
      apply In_nth_error in Hin as [j Hj]. destruct (Nat.eq_dec i j) as [->|Hij].
      * rewrite (upd_nth_nth_eq _ _ _ _ Hi) in Hj. injection Hj as <- <-. exact Hd.
      * rewrite upd_nth_nth_ne in Hj by exact Hij.
        apply disjoint_sym. eapply disjoint_inside; [exact Hiy|].
        apply (H2 i j (region v) (region w) Hij); rewrite regions_nth; [rewrite Hi|rewrite Hj]; reflexivity.
Qed.

Lemma cut_pair v k a b : cut v k a b ->
  inside (region a) (region v) /\ inside (region b) (region v) /\ disjoint (region a) (region b).
Proof.
  intros (Ha & Hb & Hk). rewrite Ha, Hb. split; [|split].
  - apply inside_intro; cbn; lia.
  - apply inside_intro; cbn; lia.
  - apply disjoint_intro; cbn; lia.
Qed.

Lemma inside_refl a : inside a a. Proof. intros x H. exact H. Qed.

Lemma pinv_two_none t b0 P i ty v tyb : pinv t b0 P -> nth_error P i = Some (ty, v) ->
  pinv t b0 (two P i ty v tyb None).
Proof.
  intros HP Hi. apply (pinv_two t b0 P i ty v); [exact HP|exact Hi| |apply inside_refl|discriminate].
  destruct HP as [H1 _]. rewrite Forall_forall in H1. apply (H1 (ty, v)). eapply nth_error_In, Hi.
Qed.

Lemma pinv_two_cut t b0 P i ty v tya a tyb b k :
  pinv t b0 P -> nth_error P i = Some (ty, v) -> wf_view t tya a -> wf_view t tyb b ->
  cut v k a b \/ cut v k b a -> pinv t b0 (two P i tya a tyb (Some b)).
Proof.
  intros HP Hi Ha Hb Hc.
  assert (inside (region a) (region v) /\ inside (region b) (region v) /\ disjoint (region a) (region b)) as (X1 & X2 & X3).
  { destruct Hc as [Hc|Hc]; apply cut_pair in Hc as (Y1 & Y2 & Y3); auto using disjoint_sym. }
  apply (pinv_two t b0 P i ty v); auto. intros y [= <-]. auto.
Qed.

Lemma raw_of_wf t ty v : wf_view t ty v -> wf_view t TRaw (decast v).
Proof. intros [H _]. split; [exact H|exact I]. Qed.

Lemma type_layout_size t l : type_layout t l -> 0 <= lsize l.
Proof. intros [(H & _) _]. exact H. Qed.

Lemma pstep_inv t b0 P o :
  valid_target t -> pinv t b0 P -> valid_uop t o -> ~ byte_split_bad P o ->
  exists P', pstep t P o = Ret P' /\ pinv t b0 P'.
Proof.
  intros Ht HP Hv Hg.
  assert (Hwf : forall i ty v, nth_error P i = Some (ty, v) -> wf_view t ty v).
  { intros i ty v Hi. destruct HP as [H1 _]. rewrite Forall_forall in H1. apply (H1 (ty, v)). eapply nth_error_In, Hi. }
  destruct o as [i n|i|i|i|i l|i l|i l|i l|i l|i n|i|i]; cbn [pstep valid_uop] in *;
    destruct (nth_error P i) as [[ty v]|] eqn:Hi; try (exists P; split; [reflexivity|exact HP]);
    pose proof (Hwf _ _ _ Hi) as Hw.
  - (* split_at *)
    destruct ty as [| |l]; try (exists P; split; [reflexivity|exact HP]).
    rewrite (v_split_at_spec t l v n Ht Hw Hv). destruct (Z.leb_spec (n * lsize l) (ulen v)) as [Hle|Hgt]; cbn [obind].
    + eexists. split; [reflexivity|]. cbn [fst snd]. destruct Hv as [Hv _].
      destruct (wf_cut_slice t l v n Hw Hv Hle) as [W1 W2].
      pose proof (type_layout_size t l (proj1 (proj2 Hw))).
      apply (pinv_two_cut t b0 P i (TSlice l) v _ _ _ _ (n * lsize l)); auto.
      left. apply at_view_cut. nia.
    + eexists. split; [reflexivity|]. apply pinv_two_none; assumption.
  - destruct ty as [| |l]; try (exists P; split; [reflexivity|exact HP]).
    destruct (v_split_first_spec t l v Ht Hw) as [F1 F2].
    destruct (Z.le_gt_cases (lsize l) (ulen v)) as [Hle|Hgt].
    + destruct (F1 Hle) as (a & b & -> & Hc & Wa & Wb). cbn [obind fst snd]. eexists. split; [reflexivity|].
      apply (pinv_two_cut t b0 P i (TSlice l) v _ _ _ _ (lsize l)); auto.
    + rewrite (F2 Hgt). cbn [obind]. eexists. split; [reflexivity|]. apply pinv_two_none; assumption.
  - destruct ty as [| |l]; try (exists P; split; [reflexivity|exact HP]).
    destruct (v_split_last_spec t l v Ht Hw) as [F1 F2].
    destruct (Z.le_gt_cases (lsize l) (ulen v)) as [Hle|Hgt].
    + destruct (F1 Hle) as (a & b & n & -> & _ & _ & Hc & Wa & Wb). cbn [obind fst snd]. eexists. split; [reflexivity|].
      apply (pinv_two_cut t b0 P i (TSlice l) v _ _ _ _ (n * lsize l)); auto.
    + rewrite (F2 Hgt). cbn [obind]. eexists. split; [reflexivity|]. apply pinv_two_none; assumption.
  - destruct ty as [| |l]; try (exists P; split; [reflexivity|exact HP]).
    destruct (v_shrink_spec t l v Ht Hw) as (a & b & -> & Hc & Wa & Wb). cbn [obind fst snd]. eexists. split; [reflexivity|].
    eapply (pinv_two_cut t b0 P i (TSlice l) v); eauto.
  - destruct ty as [| |l']; try (exists P; split; [reflexivity|exact HP]).
    destruct (v_split_layout_spec t v l Ht Hw (valid_layout_align t l Hv) (proj1 Hv)) as [F1 F2].
    destruct (Znumtheory.Zdivide_dec (lalign l) (uptr v)) as [Ha|Ha], (Z.le_gt_cases (lsize l) (ulen v)) as [Hle|Hgt].
    1: { rewrite F1 by (split; assumption). cbn [obind fst snd]. eexists. split; [reflexivity|].
         pose proof Hw as [(R1 & R2 & R3) _]. cbn in R1, R2, R3.
         apply (pinv_two_cut t b0 P i TRaw v _ _ _ _ 0); [exact HP|exact Hi|..].
         - split; [unfold valid_region; cbn; lia|exact I].
         - split; [unfold valid_region; cbn; lia|exact I].
         - left. unfold cut, region. cbn. rewrite Z.add_0_r, Z.sub_0_r. split; [reflexivity|]. split; [reflexivity|lia]. }
    all: rewrite F2 by (unfold aligned; intros [? ?]; first [contradiction|lia]); cbn [obind]; eexists; split; [reflexivity|];
      apply pinv_two_none; assumption.
  - destruct ty as [| |l']; try (exists P; split; [reflexivity|exact HP]).
    unfold v_split_cast. pose proof (type_layout_align t l Hv) as Hal.
    destruct (v_split_layout_spec t v l Ht Hw Hal (type_layout_size t l Hv)) as [F1 F2].
    destruct (Znumtheory.Zdivide_dec (lalign l) (uptr v)) as [Ha|Ha], (Z.le_gt_cases (lsize l) (ulen v)) as [Hle|Hgt].
    1: { rewrite F1 by (split; assumption). cbn [obind fst snd].
         destruct (v_cast_spec (from_memory (uptr v) (ulen v)) l Hal) as [C1 _].
         rewrite C1 by (cbn; split; assumption). cbn [unwrap obind fst snd]. eexists. split; [reflexivity|].
         pose proof Hw as [(R1 & R2 & R3) _]. cbn in R1, R2, R3.
         apply (pinv_two_cut t b0 P i TRaw v _ _ _ _ 0); [exact HP|exact Hi|..].
         - split; [unfold valid_region; cbn; lia|exact I].
         - split; [unfold valid_region; cbn; lia|]. split; [exact Hv|]. split; [exact Ha|cbn; lia].
         - left. unfold cut, region. cbn. rewrite Z.add_0_r, Z.sub_0_r. split; [reflexivity|]. split; [reflexivity|lia]. }
    all: rewrite F2 by (unfold aligned; intros [? ?]; first [contradiction|lia]); cbn [obind]; eexists; split; [reflexivity|];
      apply pinv_two_none; assumption.
  - destruct ty as [| |l']; try (exists P; split; [reflexivity|exact HP]).
    unfold v_split_slice. pose proof (type_layout_align t l Hv) as Hal.
    pose proof Hw as [(R1 & R2 & R3) _]. cbn in R1, R2, R3.
    destruct (v_split_layout_spec t v {| lsize := 0; lalign := lalign l |} Ht Hw Hal ltac:(cbn; lia)) as [F1 F2].
    cbn [lsize lalign] in F1, F2.
    destruct (Znumtheory.Zdivide_dec (lalign l) (uptr v)) as [Ha|Ha].
    + rewrite F1 by (split; [assumption|lia]). cbn [obind fst snd].
      destruct (v_cast_slice_spec t (from_memory (uptr v) (ulen v)) l Hal ltac:(cbn; lia)) as [C1 _].
      rewrite C1 by (cbn; assumption). cbn [unwrap obind fst snd]. eexists. split; [reflexivity|].
      apply (pinv_two_cut t b0 P i TRaw v _ _ _ _ 0); [exact HP|exact Hi|..].
      * split; [unfold valid_region; cbn; lia|exact I].
      * split; [unfold valid_region; cbn; lia|]. split; [exact Hv|]. exact Ha.
      * left. unfold cut, region. cbn. rewrite Z.add_0_r, Z.sub_0_r. split; [reflexivity|]. split; [reflexivity|lia].
    + rewrite F2 by (unfold aligned; intros [? ?]; contradiction). cbn [obind]; eexists; split; [reflexivity|].
      apply pinv_two_none; assumption.
  - pose proof (type_layout_align t l Hv) as Hal. destruct (v_cast_spec v l Hal) as [C1 C2].
    assert (forall ty', exists P', Ret (match v_cast v l with Some c => upd_nth i (TSized l, c) P | None => P end) = Ret P' /\ (ty' = ty -> pinv t b0 P')) as K.
    { intros ty'. eexists. split; [reflexivity|]. intros _.
      destruct (Znumtheory.Zdivide_dec (lalign l) (uptr v)) as [Ha|Ha], (Z.le_gt_cases (lsize l) (ulen v)) as [Hle|Hgt].
      1: { rewrite C1 by (split; assumption). apply (pinv_upd t b0 P i ty v); auto; [|apply inside_refl].
           split; [apply Hw|]. cbn. auto. }
      all: rewrite C2 by (unfold aligned; intros [? ?]; first [contradiction|lia]); exact HP. }
    destruct ty as [|l'|l']; try (exists P; split; [reflexivity|exact HP]).
    + destruct (K TRaw) as (P' & E & HP'). exists P'. auto.
    + destruct (K (TSized l')) as (P' & E & HP'). exists P'. auto.
  - pose proof (type_layout_align t l Hv) as Hal.
    assert (Hlen : 0 <= ulen v) by (destruct Hw as [(_ & R2 & _) _]; cbn in R2; lia).
    destruct (v_cast_slice_spec t v l Hal Hlen) as [C1 C2].
    assert (forall ty', exists P', Ret (match v_cast_slice t v l with Some c => upd_nth i (TSlice l, c) P | None => P end) = Ret P' /\ (ty' = ty -> pinv t b0 P')) as K.
    { intros ty'. eexists. split; [reflexivity|]. intros _.
      destruct (Znumtheory.Zdivide_dec (lalign l) (uptr v)) as [Ha|Ha].
      - rewrite C1 by assumption. apply (pinv_upd t b0 P i ty v); auto; [|apply inside_refl].
        split; [apply Hw|]. cbn. auto.
      - rewrite C2 by assumption. exact HP. }
    destruct ty as [|l'|l']; try (exists P; split; [reflexivity|exact HP]).
    + destruct (K TRaw) as (P' & E & HP'). exists P'. auto.
    + destruct (K (TSized l')) as (P' & E & HP'). exists P'. auto.
  - destruct (sized_layout ty) as [l|] eqn:Hsl; [|exists P; split; [reflexivity|exact HP]].
    eexists. split; [reflexivity|]. rewrite v_split_at_byte_spec.
    assert (Hbad : lsize l = 1 \/ n = 0).
    { destruct (Z.eq_dec (lsize l) 1); [auto|]. destruct (Z.eq_dec n 0); [auto|]. exfalso. apply Hg. cbn.
      exists ty, v, l. auto. }
    pose proof Hw as [(R1 & R2 & R3) Hty]. cbn in R1, R2, R3. destruct Hv as [Hv1 Hv2].
    destruct (Z.leb_spec (lsize l) n), (Z.leb_spec n (ulen v)); cbn [andb fst snd];
      try (apply pinv_two_none; assumption).
    assert (Hoff : n * lsize l = n) by (destruct Hbad as [-> | ->]; lia). rewrite Hoff.
    apply (pinv_two_cut t b0 P i ty v _ _ _ _ n); [exact HP|exact Hi|..].
    + split; [unfold valid_region; cbn; lia|]. destruct ty as [|l'|l']; cbn in *; try congruence; auto.
      injection Hsl as ->. destruct Hty as (T1 & T2 & _). auto.
    + split; [unfold valid_region; cbn; lia|exact I].
    + left. unfold cut, region. cbn. split; [reflexivity|]. split; [reflexivity|lia].
  - destruct (sized_layout ty) as [l|] eqn:Hsl; [|exists P; split; [reflexivity|exact HP]].
    assert (Hbad : lsize l = 1 \/ lsize l = 0).
    { destruct (Z.eq_dec (lsize l) 1); [auto|]. destruct (Z.eq_dec (lsize l) 0); [auto|]. exfalso. apply Hg. cbn.
      exists ty, v, l. auto. }
    pose proof Hw as [(R1 & R2 & R3) Hty]. cbn in R1, R2, R3.
    assert (Hsz : lsize l <= ulen v).
    { destruct ty as [|l'|l']; cbn in *; try congruence; injection Hsl as <-; [cbn; lia|apply Hty]. }
    unfold v_split_to_fit. rewrite v_split_at_byte_spec.
    destruct (Z.leb_spec (lsize l) (lsize l)), (Z.leb_spec (lsize l) (ulen v)); try lia. cbn [andb obind fst snd].
    eexists. split; [reflexivity|].
    assert (Hoff : lsize l * lsize l = lsize l) by (destruct Hbad as [-> | ->]; lia). rewrite Hoff.
    apply (pinv_two_cut t b0 P i ty v _ _ _ _ (lsize l)); [exact HP|exact Hi|..].
    + split; [unfold valid_region; cbn; lia|]. destruct ty as [|l'|l']; cbn in *; try congruence; auto.
      injection Hsl as ->. destruct Hty as (T1 & T2 & _). split; [exact T1|]. split; [exact T2|lia].
    + split; [unfold valid_region; cbn; lia|exact I].
    + left. unfold cut, region. cbn. split; [reflexivity|]. split; [reflexivity|lia].
  - eexists. split; [reflexivity|]. apply (pinv_upd t b0 P i ty v); auto; [|apply inside_refl].
    apply (raw_of_wf t ty v Hw).
Qed.

Lemma prun_inv t b0 P os :
  valid_target t -> pinv t b0 P -> good_ops t P os -> exists P', prun t P os = Ret P' /\ pinv t b0 P'.
Proof.
  intros Ht. revert P. induction os as [|o os IH]; intros P HP Hg; cbn [prun].
  - exists P. auto.
  - inversion Hg as [|P1 o1 os1 G1 G2 G3]; subst.
    destruct (pstep_inv t b0 P o Ht HP G1 G2) as (P' & E & HP'). rewrite E. cbn [obind]. apply IH; auto.
Qed.
