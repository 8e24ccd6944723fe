(** * Lemmas about Base and Spec. *)
From Verif Require Import Base Spec.

Lemma pow2_pos a : is_pow2 a -> 0 < a.
Proof. intros (k & Hk & ->). apply Z.pow_pos_nonneg; lia. Qed.

Lemma pow2_divide a b : is_pow2 a -> is_pow2 b -> a <= b -> (a | b).
Proof.
  intros (k & Hk & ->) (j & Hj & ->) Hle.
  assert (k <= j) as Hkj by (apply (Z.pow_le_mono_r_iff 2); lia).
  exists (2 ^ (j - k)). rewrite <- Z.pow_add_r by lia. f_equal; lia.
Qed.

Lemma is_pow2b_iff a : is_pow2b a = true <-> is_pow2 a.
Proof.
  unfold is_pow2b, is_pow2. split.
  - intros H. apply andb_true_iff in H as [H1 H2]. exists (Z.log2 a). split.
    + apply Z.log2_nonneg.
    + lia.
  - intros (k & Hk & ->). apply andb_true_iff. split.
    + apply Z.ltb_lt. apply Z.pow_pos_nonneg; lia.
    + rewrite Z.log2_pow2 by lia. apply Z.eqb_refl.
Qed.

Lemma addr_space_pos t : valid_target t -> 0 < addr_space t.
Proof. intros ([H|[H|H]] & _); unfold addr_space; rewrite H; cbv; reflexivity. Qed.

Lemma isize_lt_usize t : valid_target t -> 2 * (isize_max t + 1) = addr_space t /\ 0 < isize_max t.
Proof.
  intros ([H|[H|H]] & _); unfold isize_max, addr_space; rewrite H; cbv; split; reflexivity.
Qed.

(** ** align_up *)
Lemma align_up_ge x a : 0 < a -> x <= align_up x a < x + a.
Proof. intros Ha. unfold align_up. pose proof (Z.mod_pos_bound (- x) a Ha). lia. Qed.

Lemma align_up_aligned x a : 0 < a -> (a | align_up x a).
Proof.
  intros Ha. unfold align_up. exists (- ((- x) / a)).
  assert (a <> 0) as Hn by lia. pose proof (Z.div_mod (- x) a Hn) as H.
  generalize dependent ((- x) mod a). generalize ((- x) / a). intros q r H. nia.
Qed.

Lemma align_up_least x a q : 0 < a -> x <= q -> (a | q) -> align_up x a <= q.
Proof.
  intros Ha Hx [k ->].
  destruct (align_up_aligned x a Ha) as [j Hj].
  pose proof (align_up_ge x a Ha). rewrite Hj in *.
  apply Z.mul_le_mono_nonneg_r; [lia|].
  apply Z.lt_succ_r. apply (Z.mul_lt_mono_pos_r a); [exact Ha|]. lia.
Qed.

Lemma align_up_mono x y a : 0 < a -> x <= y -> align_up x a <= align_up y a.
Proof.
  intros Ha Hxy. apply align_up_least; [exact Ha| |apply align_up_aligned; exact Ha].
  pose proof (align_up_ge y a Ha). lia.
Qed.

Lemma align_up_id x a : 0 < a -> (a | x) -> align_up x a = x.
Proof.
  intros Ha Hd. pose proof (align_up_ge x a Ha).
  pose proof (align_up_least x a x Ha (Z.le_refl _) Hd). lia.
Qed.

Lemma align_up_id_inv x a : 0 < a -> align_up x a = x -> (a | x).
Proof. intros Ha <-. apply align_up_aligned; exact Ha. Qed.

Lemma align_up_first x a : 0 < a -> first_aligned x a (align_up x a).
Proof.
  intros Ha. split; [apply align_up_ge; exact Ha|]. split; [apply align_up_aligned; exact Ha|].
  intros q Hq Hd. apply align_up_least; assumption.
Qed.

Lemma first_aligned_unique x a p q : first_aligned x a p -> first_aligned x a q -> p = q.
Proof.
  intros (Hp1 & Hp2 & Hp3) (Hq1 & Hq2 & Hq3).
  pose proof (Hp3 q Hq1 Hq2). pose proof (Hq3 p Hp1 Hp2). lia.
Qed.

Lemma align_up_shift x a k : 0 < a -> (a | k) -> align_up (x + k) a = align_up x a + k.
Proof.
  intros Ha [j ->]. unfold align_up.
  replace (- (x + j * a)) with (- x + (- j) * a) by ring.
  rewrite Z.mod_add by lia. ring.
Qed.

(** ** Intervals *)
Lemma disjoint_intro a b :
  start a + size a <= start b \/ start b + size b <= start a -> disjoint a b.
Proof. unfold disjoint, in_block. intros H x [H1 H2]. lia. Qed.

Lemma disjoint_elim a b : 0 < size a -> 0 < size b -> disjoint a b ->
  start a + size a <= start b \/ start b + size b <= start a.
Proof.
  unfold disjoint, in_block. intros Ha Hb H.
  specialize (H (Z.max (start a) (start b))). lia.
Qed.

Lemma disjoint_sym a b : disjoint a b -> disjoint b a.
Proof. unfold disjoint. intros H x [H1 H2]. apply (H x); split; assumption. Qed.

Lemma inside_intro a b :
  start b <= start a -> start a + size a <= start b + size b -> inside a b.
Proof. unfold inside, in_block. intros H1 H2 x Hx. lia. Qed.

Lemma inside_elim a b : 0 < size a -> inside a b ->
  start b <= start a /\ start a + size a <= start b + size b.
Proof.
  unfold inside, in_block. intros Ha H. split.
  - specialize (H (start a)). lia.
  - specialize (H (start a + size a - 1)). lia.
Qed.

Lemma disjoint_inside a a' b : inside a' a -> disjoint a b -> disjoint a' b.
Proof. intros Hi Hd x [H1 H2]. apply (Hd x). split; [apply Hi|]; assumption. Qed.

(** ** pairwise *)
Lemma pairwise_nil {A} (R : A -> A -> Prop) : pairwise R [].
Proof. intros i j x y _ H. destruct i; discriminate. Qed.

Lemma pairwise_cons {A} (R : A -> A -> Prop) x l :
  (forall a b, R a b -> R b a) ->
  Forall (R x) l -> pairwise R l -> pairwise R (x :: l).
Proof.
  intros Hs Hx Hl i j a b Hij Hi Hj. rewrite Forall_forall in Hx.
  destruct i as [|i], j as [|j]; cbn in Hi, Hj.
  - congruence.
  - injection Hi as <-. apply Hx. eapply nth_error_In; eassumption.
  - injection Hj as <-. apply Hs. apply Hx. eapply nth_error_In; eassumption.
  - apply (Hl i j); auto.
Qed.

Lemma pairwise_cons_inv {A} (R : A -> A -> Prop) x l :
  pairwise R (x :: l) -> Forall (R x) l /\ pairwise R l.
Proof.
  intros H. split.
  - apply Forall_forall. intros y Hy. apply In_nth_error in Hy as [n Hn].
    apply (H 0%nat (S n)); auto.
  - intros i j a b Hij Hi Hj. apply (H (S i) (S j)); auto.
Qed.

Lemma pairwise_app {A} (R : A -> A -> Prop) l1 l2 :
  (forall a b, R a b -> R b a) ->
  pairwise R l1 -> pairwise R l2 -> (forall x y, In x l1 -> In y l2 -> R x y) ->
  pairwise R (l1 ++ l2).
Proof.
  intros Hs H1 H2 H12. induction l1 as [|x l1 IH]; cbn [app]; [exact H2|].
  apply pairwise_cons_inv in H1 as [Hx H1].
  apply pairwise_cons; [exact Hs| |].
  - apply Forall_app; split; [exact Hx|]. apply Forall_forall. intros y Hy.
    apply H12; [left; reflexivity|exact Hy].
  - apply IH; [exact H1|]. intros a b Ha Hb. apply H12; [right; exact Ha|exact Hb].
Qed.

(** ** fits *)
Lemma fits_in_iff b used l : 0 < lalign l ->
  fits_in b used l <-> align_up (start b + used) (lalign l) + lsize l <= start b + size b.
Proof.
  intros Ha. split.
  - intros (a & H1 & H2 & H3). pose proof (align_up_least _ _ _ Ha H1 H2). lia.
  - intros H. exists (align_up (start b + used) (lalign l)). split; [|split].
    + apply align_up_ge; exact Ha.
    + apply align_up_aligned; exact Ha.
    + exact H.
Qed.

Lemma fits_in_antimono b u u' l : u <= u' -> fits_in b u' l -> fits_in b u l.
Proof. intros Hu (a & H1 & H2 & H3). exists a. repeat split; try assumption. lia. Qed.
