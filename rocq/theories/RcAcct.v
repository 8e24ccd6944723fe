(** * RcAcct: every value given to the container comes out exactly once. *)
From Coq Require Import Permutation.
From Verif Require Import Base Spec BaseFacts UninitModel UninitSpec UninitProofs RcModel RcSpec RcProofs RcRefine.

Definition own (a : nat) (k : stoken) : bool :=
  match sk k with SStrong b => counts k && Nat.eqb a b | SRaw b => Nat.eqb a b | _ => false end.

Lemma existsb_cnt f l : existsb f l = (0 <? cnt f l).
Proof.
  induction l as [|x l IH]; [reflexivity|]. cbn [existsb]. rewrite cnt_cons, IH. pose proof (cnt_nonneg f l).
  destruct (f x); cbn [orb b2z]; lia.
Qed.

Lemma owned_cnt p a : owned p a = (0 <? cnt (own a) (stoks p)).
Proof. unfold owned. rewrite existsb_cnt. reflexivity. Qed.

Record sinv (p : sstate) : Prop := {
  s_dom : forall i x a, nth_error (stoks p) i = Some x -> hall (sk x) = Some a -> (a < length (sallocs p))%nat;
  s_raw : forall i x a j y, nth_error (stoks p) i = Some x -> sk x = SRaw a -> j <> i -> nth_error (stoks p) j = Some y ->
            hall (sk y) = Some a -> counts y = false /\ sk y <> SRaw a }.

Definition balanced (p : sstate) : Prop :=
  Permutation (puts (slog p)) (drops (slog p) ++ tooks (slog p) ++ alive_values p).

(** ** Lists *)

Lemma perm_filter {B} (f g : nat -> bool) (h : nat -> B) l a : NoDup l -> In a l -> f a = true ->
  (forall b, g b = f b && negb (Nat.eqb a b)) -> Permutation (map h (filter f l)) (h a :: map h (filter g l)).
Proof.
  intros ND I F G. induction l as [|x l IH]; [destruct I|]. inversion ND as [|? ? NX ND']; subst. cbn [filter].
  destruct (Nat.eq_dec x a) as [-> | D].
  - rewrite F, G, F, Nat.eqb_refl. cbn [andb negb map]. constructor.
    assert (filter g l = filter f l) as ->; [|reflexivity].
    apply filter_ext_in. intros b Ib. rewrite G. destruct (Nat.eqb_spec a b) as [<- | E]; [contradiction|]. apply andb_true_r.
  - destruct I as [I|I]; [congruence|]. specialize (IH ND' I). rewrite G, (proj2 (Nat.eqb_neq a x)) by congruence. cbn [negb]. rewrite andb_true_r.
    destruct (f x); cbn [map]; [|exact IH]. rewrite perm_swap. apply Permutation_cons; [reflexivity|exact IH].
Qed.

Lemma alive_same p p' : length (sallocs p') = length (sallocs p) ->
  (forall a, (a < length (sallocs p))%nat -> owned p' a = owned p a) ->
  (forall a, (a < length (sallocs p))%nat -> aval (alloc_of p' a) = aval (alloc_of p a)) ->
  alive_values p' = alive_values p.
Proof.
  intros L O A. unfold alive_values. rewrite L.
  assert (filter (owned p') (seq 0 (length (sallocs p))) = filter (owned p) (seq 0 (length (sallocs p)))) as ->.
  { apply filter_ext_in. intros a I. apply in_seq in I. apply O. lia. }
  apply map_ext_in. intros a I. apply filter_In in I. destruct I as (I & _). apply in_seq in I. apply A. lia.
Qed.

Lemma alive_remove p p' a : length (sallocs p') = length (sallocs p) -> (a < length (sallocs p))%nat -> owned p a = true ->
  (forall b, owned p' b = owned p b && negb (Nat.eqb a b)) ->
  (forall b, (b < length (sallocs p))%nat -> aval (alloc_of p' b) = aval (alloc_of p b)) ->
  Permutation (alive_values p) (aval (alloc_of p a) :: alive_values p').
Proof.
  intros L D O E A. unfold alive_values at 1. rewrite (perm_filter (owned p) (owned p') _ _ a); auto using seq_NoDup; [|apply in_seq; lia].
  constructor. unfold alive_values. rewrite L.
  match goal with |- Permutation ?x ?y => assert (x = y) as ->; [|reflexivity] end.
  apply map_ext_in. intros b I. apply filter_In in I. destruct I as (I & _). apply in_seq in I. symmetry. apply A. lia.
Qed.

Lemma alive_value p p' a v : length (sallocs p') = length (sallocs p) -> (a < length (sallocs p))%nat -> owned p a = true ->
  (forall b, owned p' b = owned p b) ->
  (forall b, b <> a -> aval (alloc_of p' b) = aval (alloc_of p b)) -> aval (alloc_of p' a) = v ->
  Permutation (v :: alive_values p) (aval (alloc_of p a) :: alive_values p').
Proof.
  intros L D O E A V. unfold alive_values. rewrite L.
  pose proof (perm_filter (owned p) (fun b => owned p b && negb (Nat.eqb a b)) (fun b => aval (alloc_of p b)) (seq 0 (length (sallocs p))) a) as P1.
  pose proof (perm_filter (owned p') (fun b => owned p' b && negb (Nat.eqb a b)) (fun b => aval (alloc_of p' b)) (seq 0 (length (sallocs p))) a) as P2.
  cbn beta in P1, P2. rewrite E in P2.
  rewrite P1, P2; auto using seq_NoDup; try (apply in_seq; lia). rewrite V, perm_swap.
  apply Permutation_cons; [reflexivity|]. apply Permutation_cons; [reflexivity|].
  match goal with |- Permutation ?x ?y => assert (x = y) as ->; [|reflexivity] end.
  assert (filter (fun b => owned p' b && negb (Nat.eqb a b)) (seq 0 (length (sallocs p))) = filter (fun b => owned p b && negb (Nat.eqb a b)) (seq 0 (length (sallocs p)))) as ->
    by (apply filter_ext; intros b; rewrite E; reflexivity).
  apply map_ext_in. intros b I. apply filter_In in I. destruct I as (_ & I). apply andb_true_iff in I. destruct I as (_ & I).
  symmetry. apply A. intros ->. rewrite Nat.eqb_refl in I. discriminate.
Qed.

Lemma puts_app a b : puts (a ++ b) = puts a ++ puts b. Proof. apply flat_map_app. Qed.
Lemma drops_app a b : drops (a ++ b) = drops a ++ drops b. Proof. apply flat_map_app. Qed.
Lemma tooks_app a b : tooks (a ++ b) = tooks a ++ tooks b. Proof. apply flat_map_app. Qed.

(** ** Balance of the steps *)

Lemma bal_same p p' : balanced p -> slog p' = slog p -> alive_values p' = alive_values p -> balanced p'.
Proof. unfold balanced. intros B -> ->. exact B. Qed.

Lemma bal_drop p p' v : balanced p -> slog p' = slog p ++ [Dropped v] -> Permutation (alive_values p) (v :: alive_values p') -> balanced p'.
Proof.
  unfold balanced. intros B -> A. rewrite puts_app, drops_app, tooks_app. cbn [puts drops tooks flat_map app]. rewrite !app_nil_r.
  rewrite B, A, <- !app_assoc. apply Permutation_app_head. cbn [app]. symmetry. apply (Permutation_middle (tooks (slog p)) (alive_values p') v).
Qed.

Lemma bal_took p p' v : balanced p -> slog p' = slog p ++ [Took v] -> Permutation (alive_values p) (v :: alive_values p') -> balanced p'.
Proof.
  unfold balanced. intros B -> A. rewrite puts_app, drops_app, tooks_app. cbn [puts drops tooks flat_map app]. rewrite !app_nil_r.
  rewrite B, A, <- !app_assoc. reflexivity.
Qed.

Lemma bal_replace p p' v w : balanced p -> slog p' = slog p ++ [Put w; Took v] -> Permutation (w :: alive_values p) (v :: alive_values p') -> balanced p'.
Proof.
  unfold balanced. intros B -> A. rewrite puts_app, drops_app, tooks_app. cbn [puts drops tooks flat_map app]. rewrite !app_nil_r.
  rewrite <- !app_assoc. cbn [app]. rewrite <- A, B.
  rewrite <- !app_assoc. apply Permutation_app_head. apply Permutation_app_head.
  symmetry. apply Permutation_cons_append.
Qed.

Lemma bal_put p p' v : balanced p -> slog p' = slog p ++ [Put v] -> Permutation (v :: alive_values p) (alive_values p') -> balanced p'.
Proof.
  unfold balanced. intros B -> A. rewrite puts_app, drops_app, tooks_app. cbn [puts drops tooks flat_map app]. rewrite !app_nil_r.
  rewrite <- A, B, <- !app_assoc. apply Permutation_app_head. apply Permutation_app_head. symmetry. apply Permutation_cons_append.
Qed.

Lemma bal_lost p p' v : balanced p -> slog p' = slog p ++ [Put v; Dropped v] -> alive_values p' = alive_values p -> balanced p'.
Proof.
  unfold balanced. intros B -> ->. rewrite puts_app, drops_app, tooks_app. cbn [puts drops tooks flat_map app]. rewrite !app_nil_r.
  rewrite B, <- !app_assoc. apply Permutation_app_head. cbn [app].
  rewrite app_assoc. symmetry. apply Permutation_cons_append.
Qed.

(** Ownership counts *)
Lemma own_other a b x : hall (sk x) = Some a \/ hall (sk x) = None -> a <> b -> own b x = false.
Proof.
  intros [E|E] D; unfold own; destruct (sk x); cbn in E; try discriminate; auto; injection E as ->;
    rewrite (proj2 (Nat.eqb_neq b a)) by congruence; rewrite ?andb_false_r; reflexivity.
Qed.

Lemma raw_none p i x a : sinv p -> nth_error (stoks p) i = Some x -> counts x = true -> hall (sk x) = Some a -> sk x <> SRaw a ->
  cnt (own a) (stoks p) = cnt (is_strong a) (stoks p).
Proof.
  intros SI N C Ha NR.
  assert (Q : forall k, In k (stoks p) -> own a k = is_strong a k).
  { intros k I. apply In_nth_error in I. destruct I as (j & M). unfold own, is_strong. destruct (sk k) eqn:K; rewrite ?andb_false_r; auto.
    destruct (Nat.eqb_spec a a0) as [<- | D]; [|reflexivity]. exfalso.
    assert (i <> j) by (intros ->; rewrite N in M; injection M as ->; congruence).
    destruct (s_raw p SI j k a i x M K H N Ha). congruence. }
  unfold cnt, count. rewrite (filter_ext_in _ _ _ Q). reflexivity.
Qed.

Lemma raw_one p i x a : sinv p -> nth_error (stoks p) i = Some x -> sk x = SRaw a -> cnt (own a) (stoks p) = 1.
Proof.
  intros SI N K.
  assert (Q : cnt (own a) (upd_nth i (MkST (SMem (MkView 0 0 0)) Gone) (stoks p)) = 0).
  { pose proof (cnt_nonneg (own a) (upd_nth i (MkST (SMem (MkView 0 0 0)) Gone) (stoks p))).
    match goal with |- ?z = 0 => destruct (Z.eq_dec z 0) as [E|E]; [exact E|] end. exfalso.
    destruct (cnt_pos (own a) (upd_nth i (MkST (SMem (MkView 0 0 0)) Gone) (stoks p))) as (j & y & M & O); [lia|].
    destruct (Nat.eq_dec j i) as [-> | D].
    - rewrite (upd_nth_nth_eq _ _ _ _ N) in M. injection M as <-. discriminate.
    - rewrite upd_nth_nth_ne in M by congruence. unfold own in O.
      destruct (sk y) eqn:Y; try discriminate.
      + apply andb_true_iff in O. destruct O as (C & O). apply Nat.eqb_eq in O. subst a0.
        destruct (s_raw p SI i x a j y N K D M); [rewrite Y; reflexivity|congruence].
      + apply Nat.eqb_eq in O. subst a0. destruct (s_raw p SI i x a j y N K D M); [rewrite Y; reflexivity|congruence]. }
  rewrite (cnt_upd _ _ _ _ _ N) in Q. unfold own in Q at 2 3. rewrite K, Nat.eqb_refl in Q. cbn [sk b2z] in Q. lia.
Qed.

Lemma s_set_owned p i x k st b : nth_error (stoks p) i = Some x ->
  owned (s_set p i k st) b = (0 <? cnt (own b) (stoks p) - b2z (own b x) + b2z (own b (MkST k st))).
Proof. intros N. rewrite owned_cnt. unfold s_set; cbn [stoks]. rewrite (cnt_upd _ _ _ _ _ N). reflexivity. Qed.

Lemma s_add_owned p k b : owned (s_add p k) b = (0 <? cnt (own b) (stoks p) + b2z (own b (MkST k Live))).
Proof. rewrite owned_cnt. unfold s_add; cbn [stoks]. rewrite cnt_app, cnt_one. reflexivity. Qed.

Lemma stok_nth p i k : stok p i = Some k -> nth_error (stoks p) i = Some (MkST k Live).
Proof. unfold stok. destruct (nth_error (stoks p) i) as [[k' st]|]; [|discriminate]. destruct st; try discriminate. cbn. congruence. Qed.

Lemma sinv_set p i k k' st SA : sinv p -> nth_error (stoks p) i = Some (MkST k Live) ->
  (length (sallocs p) <= length SA)%nat ->
  (forall a, hall k' = Some a -> (a < length SA)%nat) ->
  (forall a, hall k' = Some a -> hall k = Some a \/ (length (sallocs p) <= a)%nat) ->
  (forall a, k' = SRaw a -> k = SRaw a \/ (hall k = Some a /\ cnt (is_strong a) (stoks p) + cnt (is_weak a) (stoks p) = 1 /\ k <> SRaw a)) ->
  forall d l, sinv (MkS (upd_nth i (MkST k' st) (stoks p)) SA d l).
Proof.
  intros SI N L D1 D2 RW d l. constructor; cbn [stoks sallocs].
  - intros j x a M Ha. destruct (Nat.eq_dec j i) as [-> | E].
    + rewrite (upd_nth_nth_eq _ _ _ _ N) in M. injection M as <-. auto.
    + rewrite upd_nth_nth_ne in M by congruence. pose proof (s_dom p SI j x a M Ha). lia.
  - intros j x a m y M K E M' Ha.
    destruct (Nat.eq_dec j i) as [-> | Ej].
    + rewrite (upd_nth_nth_eq _ _ _ _ N) in M. injection M as <-. cbn [sk] in K. subst k'.
      rewrite upd_nth_nth_ne in M' by congruence.
      destruct (RW a eq_refl) as [-> |(Hk & C1 & NR)].
      * exact (s_raw p SI i (MkST (SRaw a) Live) a m y N eq_refl E M' Ha).
      * split.
        -- destruct (counts y) eqn:Cy; [|reflexivity]. exfalso.
           assert (RZ : cnt (is_raw a) (stoks p) = 0).
           { pose proof (cnt_nonneg (is_raw a) (stoks p)). match goal with |- ?z = 0 => destruct (Z.eq_dec z 0) as [Z0|Z0]; [exact Z0|] end. exfalso.
             destruct (cnt_pos (is_raw a) (stoks p)) as (q & z & Nq & Fq); [lia|]. unfold is_raw in Fq. apply andb_true_iff in Fq. destruct Fq as (Cq & Fq).
             destruct (sk z) eqn:Kz; try discriminate. apply Nat.eqb_eq in Fq. subst a0.
             destruct (Nat.eq_dec q i) as [-> | Dq]; [rewrite N in Nq; injection Nq as <-; cbn in Kz; congruence|].
             destruct (s_raw p SI q z a i (MkST k Live) Nq Kz (not_eq_sym Dq) N Hk). discriminate. }
           apply (sole_handle (stoks p) a i (MkST k Live)) with (j := m) (y := y); auto; [lia|split; auto].
        -- intros Ky. destruct (s_raw p SI m y a i (MkST k Live) M' Ky (not_eq_sym E) N Hk). discriminate.
    + rewrite upd_nth_nth_ne in M by congruence.
      destruct (Nat.eq_dec m i) as [-> | Em].
      * rewrite (upd_nth_nth_eq _ _ _ _ N) in M'. injection M' as <-. cbn [sk] in Ha. exfalso.
        pose proof (s_dom p SI j x a M) as DA. rewrite K in DA. specialize (DA eq_refl).
        destruct (D2 a Ha) as [Hk|G]; [|lia].
        destruct (s_raw p SI j x a i (MkST k Live) M K (not_eq_sym Ej) N Hk). discriminate.
      * rewrite upd_nth_nth_ne in M' by congruence. exact (s_raw p SI j x a m y M K E M' Ha).
Qed.

Lemma sinv_add p i k k' a : sinv p -> nth_error (stoks p) i = Some (MkST k Live) -> hall k = Some a -> k <> SRaw a ->
  hall k' = Some a -> k' <> SRaw a -> sinv (s_add p k').
Proof.
  intros SI N Hk NR Hk' NR'. unfold s_add. constructor; cbn [stoks sallocs].
  - intros j x b M Hb. destruct (lt_dec j (length (stoks p))) as [Lj|Lj].
    + rewrite nth_error_app1 in M by lia. exact (s_dom p SI j x b M Hb).
    + rewrite nth_error_app2 in M by lia. destruct (j - length (stoks p))%nat as [|[|q]]; cbn in M; try discriminate.
      injection M as <-. cbn [sk] in Hb. apply (s_dom p SI i (MkST k Live) b N). cbn [sk]. congruence.
  - intros j x b m y M K E M' Hb.
    destruct (lt_dec j (length (stoks p))) as [Lj|Lj].
    + rewrite nth_error_app1 in M by lia.
      destruct (lt_dec m (length (stoks p))) as [Lm|Lm].
      * rewrite nth_error_app1 in M' by lia. exact (s_raw p SI j x b m y M K E M' Hb).
      * rewrite nth_error_app2 in M' by lia. destruct (m - length (stoks p))%nat as [|[|q]]; cbn in M'; try discriminate.
        injection M' as <-. cbn [sk] in Hb. exfalso. assert (b = a) by congruence. subst b.
        destruct (Nat.eq_dec j i) as [-> | Dj]; [rewrite N in M; injection M as <-; cbn in K; congruence|].
        destruct (s_raw p SI j x a i (MkST k Live) M K (not_eq_sym Dj) N Hk). discriminate.
    + rewrite nth_error_app2 in M by lia. destruct (j - length (stoks p))%nat as [|[|q]]; cbn in M; try discriminate.
      injection M as <-. cbn [sk] in K. exfalso. subst k'. cbn in Hk'. congruence.
Qed.

Lemma sinv_vals p SA d l : sinv p -> length SA = length (sallocs p) -> sinv (MkS (stoks p) SA d l).
Proof. intros SI L. constructor; cbn [stoks sallocs]; [|apply (s_raw p SI)]. rewrite L. apply (s_dom p SI). Qed.

Lemma s_val_facts p a v : (a < length (sallocs p))%nat ->
  length (sallocs (s_val p a v)) = length (sallocs p) /\ stoks (s_val p a v) = stoks p /\ slog (s_val p a v) = slog p /\
  aval (alloc_of (s_val p a v) a) = v /\ (forall b, b <> a -> alloc_of (s_val p a v) b = alloc_of p b).
Proof.
  intros L. unfold s_val. destruct (nth_error (sallocs p) a) as [x|] eqn:N; [|apply nth_error_None in N; lia].
  cbn [stoks sallocs slog]. unfold alloc_of; cbn [sallocs].
  assert (LU : forall l, length (upd_nth a (MkSA v (areg x)) l) = length l).
  { intros l. clear. revert a. induction l as [|y l IH]; intros [|a]; cbn; auto. }
  split; [apply LU|]. split; [reflexivity|]. split; [reflexivity|]. split.
  - erewrite nth_error_nth; [|eapply upd_nth_nth_eq; exact N]. reflexivity.
  - intros b D. destruct (nth_error (sallocs p) b) as [y|] eqn:Nb.
    + rewrite (nth_error_nth _ _ _ Nb). apply nth_error_nth. rewrite upd_nth_nth_ne by congruence. exact Nb.
    + apply nth_error_None in Nb. rewrite !nth_overflow; rewrite ?LU; auto.
Qed.

Lemma sstep_bal t p o : sinv p -> balanced p -> sinv (fst (sstep t p o)) /\ balanced (fst (sstep t p o)).
Proof.
  intros SI B.
  assert (SELF : sinv p /\ balanced p) by auto.
  assert (CGS : forall a k, own a (MkST k Gone) = match k with SRaw b => Nat.eqb a b | _ => false end) by (intros a [| | |]; reflexivity).
  destruct o; cbn [sstep]; try exact SELF.
  - (* new *) destruct (stok p i) as [[u|a|a|a]|] eqn:K; try exact SELF. apply stok_nth in K. destruct (holds u (rc_layout t l)).
    + cbn [fst]. split.
      * unfold s_log; cbn [stoks sallocs sdropping slog]. eapply sinv_set; eauto; rewrite ?app_length; cbn [length hall]; try lia.
        -- intros a E. injection E as <-. lia.
        -- intros a E. injection E as <-. right. lia.
        -- discriminate.
      * apply (bal_put p _ v B); [reflexivity|]. unfold alive_values, s_log; cbn [stoks sallocs]. rewrite app_length. cbn [length].
        rewrite Nat.add_1_r, seq_S, filter_app, map_app, Nat.add_0_l. cbn [filter].
        assert (OW : forall a, owned (MkS (upd_nth i (MkST (SStrong (length (sallocs p))) Live) (stoks p)) (sallocs p ++ [MkSA v u]) (sdropping p) (slog p ++ [Put v])) a =
                    (0 <? cnt (own a) (stoks p) + b2z (Nat.eqb a (length (sallocs p))))).
        { intros a. rewrite owned_cnt. cbn [stoks]. rewrite (cnt_upd _ _ _ _ _ K). unfold own at 2 3. cbn [sk counts sst andb b2z]. f_equal. lia. }
        rewrite OW, Nat.eqb_refl. pose proof (cnt_nonneg (own (length (sallocs p))) (stoks p)). cbn [b2z].
        assert ((0 <? cnt (own (length (sallocs p))) (stoks p) + 1) = true) as -> by lia. cbn [map].
        unfold alloc_of at 3. cbn [sallocs]. rewrite app_nth2, Nat.sub_diag by lia. cbn [nth aval].
        match goal with |- Permutation (v :: ?x) (?y ++ [v]) => assert (y = x) as -> end; [|apply Permutation_cons_append].
        match goal with |- map _ (filter ?f ?q) = map _ (filter ?g ?q) => assert (filter f q = filter g q) as -> end.
        { apply filter_ext_in. intros a I. apply in_seq in I. rewrite OW, (proj2 (Nat.eqb_neq _ _)) by lia. cbn [b2z]. rewrite Z.add_0_r, owned_cnt. reflexivity. }
        apply map_ext_in. intros a I. apply filter_In in I. destruct I as (I & _). apply in_seq in I. unfold alloc_of; cbn [sallocs].
        rewrite app_nth1 by lia. reflexivity.
    + cbn [fst]. split.
      * unfold s_log, s_set; cbn [stoks sallocs sdropping slog]. eapply sinv_set; eauto; cbn [hall]; try discriminate; try lia.
      * apply (bal_lost p _ v B); [reflexivity|]. apply alive_same; try reflexivity.
        intros a _. change (owned (s_set p i (SMem u) Gone) a = owned p a). rewrite (s_set_owned _ _ _ _ _ _ K), owned_cnt.
        unfold own at 2 3. cbn [sk b2z]. f_equal. lia.
  - (* clone *) destruct (stok p i) as [[u|a|a|a]|] eqn:K; try exact SELF; apply stok_nth in K.
    + destruct (_ <? _); [|exact SELF]. cbn [fst]. split; [apply (sinv_add p i _ _ a SI K); try reflexivity; discriminate|].
      apply (bal_same p); auto. apply alive_same; auto. intros b Lb. rewrite s_add_owned, owned_cnt.
      pose proof (cnt_nonneg (own b) (stoks p)). destruct (Nat.eq_dec a b) as [<- | D].
      * pose proof (cnt_ge1 (own a) (stoks p) i _ K) as G. unfold own in G at 1. cbn [sk counts sst andb] in G. rewrite Nat.eqb_refl in G. specialize (G eq_refl).
        destruct (own a _); cbn [b2z]; lia.
      * rewrite (own_other a b); [cbn [b2z]; f_equal; lia|left; reflexivity|exact D].
    + destruct (_ <? _); [|exact SELF]. cbn [fst]. split; [apply (sinv_add p i _ _ a SI K); try reflexivity; discriminate|].
      apply (bal_same p); auto. apply alive_same; auto. intros b Lb. rewrite s_add_owned, owned_cnt. cbn [b2z own sk]. f_equal. lia.
  - (* downgrade *) destruct (stok p i) as [[u|a|a|a]|] eqn:K; try exact SELF; apply stok_nth in K.
    destruct (_ <? _); [|exact SELF]. cbn [fst]. split; [apply (sinv_add p i _ _ a SI K); try reflexivity; discriminate|].
    apply (bal_same p); auto. apply alive_same; auto. intros b Lb. rewrite s_add_owned, owned_cnt. cbn [b2z own sk]. f_equal. lia.
  - (* upgrade *) destruct (stok p i) as [[u|a|a|a]|] eqn:K; try exact SELF; apply stok_nth in K.
    destruct (Z.eqb_spec (strongs p a) 0) as [E|E]; [exact SELF|]. destruct (_ <? _); [|exact SELF]. cbn [fst]. split; [apply (sinv_add p i _ _ a SI K); try reflexivity; discriminate|].
    apply (bal_same p); auto. apply alive_same; auto. intros b Lb. rewrite s_add_owned, owned_cnt.
    pose proof (cnt_nonneg (own b) (stoks p)). destruct (Nat.eq_dec a b) as [<- | D].
    * rewrite (raw_none p i (MkST (SWeak a) Live) a SI K eq_refl eq_refl) by discriminate.
      change (strongs p a) with (cnt (is_strong a) (stoks p)) in E. pose proof (cnt_nonneg (is_strong a) (stoks p)).
      destruct (own a _); cbn [b2z]; lia.
    * rewrite (own_other a b); [cbn [b2z]; f_equal; lia|left; reflexivity|exact D].
  - (* drop *) destruct (stok p i) as [[u|a|a|a]|] eqn:K; try exact SELF; apply stok_nth in K.
    + cbn [fst]. split; [eapply sinv_set; eauto; cbn [hall]; try discriminate; lia|].
      apply (bal_same p); auto. apply alive_same; auto. intros b _. rewrite (s_set_owned _ _ _ _ _ _ K), owned_cnt. cbn [b2z own sk]. f_equal. lia.
    + pose proof (s_dom p SI i _ a K eq_refl) as DA.
      pose proof (raw_none p i (MkST (SStrong a) Live) a SI K eq_refl eq_refl ltac:(discriminate)) as RN.
      change (strongs p a) with (cnt (is_strong a) (stoks p)).
      assert (OWN : forall b, owned (s_set p i (SStrong a) Gone) b = (0 <? cnt (own b) (stoks p) - b2z (Nat.eqb b a))).
      { intros b. rewrite (s_set_owned _ _ _ _ _ _ K). unfold own at 2 3. cbn [sk counts sst andb b2z]. f_equal. lia. }
      destruct (Z.eqb_spec (cnt (is_strong a) (stoks p)) 1) as [E|E]; cbn [fst].
      * split; [unfold s_log, s_set; cbn [stoks sallocs sdropping slog]; eapply sinv_set; eauto; cbn [hall]; try discriminate; try lia; intros ? [= <-]; exact DA|].
        eapply (bal_drop p _ (aval (alloc_of p a))); [exact B|reflexivity|].
        apply alive_remove; auto.
        -- rewrite owned_cnt, RN. lia.
        -- intros b. change (owned (s_set p i (SStrong a) Gone) b = owned p b && negb (Nat.eqb a b)). rewrite OWN, owned_cnt, (Nat.eqb_sym b a).
           destruct (Nat.eqb_spec a b) as [<- | D]; cbn [b2z negb]; [rewrite RN; lia|rewrite andb_true_r; f_equal; lia].
      * split; [unfold s_set; eapply sinv_set; eauto; cbn [hall]; try discriminate; try lia; intros ? [= <-]; exact DA|].
        apply (bal_same p); auto. apply alive_same; auto. intros b _. rewrite OWN, owned_cnt.
        destruct (Nat.eqb_spec b a) as [-> | D]; cbn [b2z]; [|f_equal; lia]. rewrite RN.
        pose proof (cnt_ge1 (is_strong a) (stoks p) i _ K) as G. unfold is_strong in G at 1. cbn [sk counts sst andb] in G. rewrite Nat.eqb_refl in G. specialize (G eq_refl). lia.
    + pose proof (s_dom p SI i _ a K eq_refl) as DA. cbn [fst]. split; [eapply sinv_set; eauto; cbn [hall]; try discriminate; try lia; intros ? [= <-]; exact DA|].
      apply (bal_same p); auto. apply alive_same; auto. intros b _. rewrite (s_set_owned _ _ _ _ _ _ K), owned_cnt. cbn [b2z own sk]. f_equal. lia.
    + pose proof (s_dom p SI i _ a K eq_refl) as DA. cbn [fst]. split; [eapply sinv_set; eauto; cbn [hall]; try lia; intros ? [= <-]; exact DA|].
      apply (bal_same p); auto. apply alive_same; auto. intros b _. rewrite (s_set_owned _ _ _ _ _ _ K), owned_cnt. unfold own at 2 3; cbn [sk]. f_equal. lia.
  - (* done *) destruct (sdropping p) as [|d ds]; [exact SELF|]. cbn [fst]. split; [apply sinv_vals; auto|exact B].
  - (* forget *) destruct (stok p i) as [k|] eqn:K; try exact SELF; apply stok_nth in K. cbn [fst]. split.
    + unfold s_set. eapply sinv_set; eauto; try lia. intros a E. apply (s_dom p SI i _ a K E).
    + apply (bal_same p); auto. apply alive_same; auto. intros b _. rewrite (s_set_owned _ _ _ _ _ _ K), owned_cnt.
      assert (own b (MkST k Forgot) = own b (MkST k Live)) as -> by (destruct k; reflexivity). f_equal. lia.
  - (* deref *) destruct (stok p i) as [[u|a|a|a]|]; exact SELF.
  - (* get_mut *) destruct (stok p i) as [[u|a|a|a]|] eqn:K; try exact SELF; apply stok_nth in K.
    destruct (_ && _) eqn:U; [|exact SELF]. destruct w as [v|]; [|exact SELF]. cbn [fst].
    pose proof (s_dom p SI i _ a K eq_refl) as DA. destruct (s_val_facts p a v DA) as (F1 & F2 & F3 & F4 & F5). split.
    + unfold s_log. rewrite F2. apply sinv_vals; auto.
    + eapply (bal_replace p _ (aval (alloc_of p a)) v B); [unfold s_log; cbn [slog]; rewrite F3; reflexivity|].
      apply alive_value; auto.
      * rewrite owned_cnt, (raw_none p i (MkST (SStrong a) Live) a SI K eq_refl eq_refl) by discriminate.
        change (strongs p a) with (cnt (is_strong a) (stoks p)) in U. lia.
      * intros b. rewrite !owned_cnt. unfold s_log; cbn [stoks]. rewrite F2. reflexivity.
      * intros b D. change (alloc_of (s_log (s_val p a v) [Put v; Took (aval (alloc_of p a))]) b) with (alloc_of (s_val p a v) b). rewrite F5; auto.
  - (* into_raw *) destruct (stok p i) as [[u|a|a|a]|] eqn:K; try exact SELF; apply stok_nth in K.
    destruct (_ && _) eqn:U; [|exact SELF]. cbn [fst]. pose proof (s_dom p SI i _ a K eq_refl) as DA.
    change (strongs p a) with (cnt (is_strong a) (stoks p)) in U. change (weaks p a) with (cnt (is_weak a) (stoks p)) in U. split.
    + unfold s_set. eapply sinv_set; eauto; cbn [hall]; try lia; [intros ? [= <-]; exact DA|].
      intros b [= <-]. right. split; [reflexivity|]. split; [lia|discriminate].
    + apply (bal_same p); auto. apply alive_same; auto. intros b _. rewrite (s_set_owned _ _ _ _ _ _ K), owned_cnt. unfold own at 2 3; cbn [sk counts sst andb]. f_equal. lia.
  - (* from_raw *) destruct (stok p i) as [[u|a|a|a]|] eqn:K; try exact SELF; apply stok_nth in K.
    cbn [fst]. pose proof (s_dom p SI i _ a K eq_refl) as DA. split.
    + unfold s_set. eapply sinv_set; eauto; cbn [hall]; try lia; try discriminate. intros ? [= <-]; exact DA.
    + apply (bal_same p); auto. apply alive_same; auto. intros b _. rewrite (s_set_owned _ _ _ _ _ _ K), owned_cnt. unfold own at 2 3; cbn [sk counts sst andb]. f_equal. lia.
  - (* raw replace *) destruct (stok p i) as [[u|a|a|a]|] eqn:K; try exact SELF; apply stok_nth in K. cbn [fst].
    pose proof (s_dom p SI i _ a K eq_refl) as DA. destruct (s_val_facts p a w DA) as (F1 & F2 & F3 & F4 & F5). split.
    + unfold s_log. rewrite F2. apply sinv_vals; auto.
    + eapply (bal_replace p _ (aval (alloc_of p a)) w B); [unfold s_log; cbn [slog]; rewrite F3; reflexivity|].
      apply alive_value; auto.
      * rewrite owned_cnt, (raw_one p i (MkST (SRaw a) Live) a SI K eq_refl). reflexivity.
      * intros b. rewrite !owned_cnt. unfold s_log; cbn [stoks]. rewrite F2. reflexivity.
      * intros b D. change (alloc_of (s_log (s_val p a w) [Put w; Took (aval (alloc_of p a))]) b) with (alloc_of (s_val p a w) b). rewrite F5; auto.
  - (* raw take *) destruct (stok p i) as [[u|a|a|a]|] eqn:K; try exact SELF; apply stok_nth in K. cbn [fst].
    pose proof (s_dom p SI i _ a K eq_refl) as DA. pose proof (raw_one p i (MkST (SRaw a) Live) a SI K eq_refl) as R1. split.
    + unfold s_log, s_set; cbn [stoks sallocs sdropping slog]. eapply sinv_set; eauto; cbn [hall]; try lia; discriminate.
    + eapply (bal_took p _ (aval (alloc_of p a))); [exact B|reflexivity|]. apply alive_remove; auto.
      * rewrite owned_cnt, R1. reflexivity.
      * intros b. change (owned (s_set p i (SMem (areg (alloc_of p a))) Live) b = owned p b && negb (Nat.eqb a b)). rewrite (s_set_owned _ _ _ _ _ _ K), owned_cnt.
        unfold own at 2 3; cbn [sk counts sst andb b2z]. rewrite (Nat.eqb_sym b a).
        destruct (Nat.eqb_spec a b) as [<- | D]; cbn [b2z negb]; [rewrite R1; reflexivity|rewrite andb_true_r; f_equal; lia].
  - (* try_unwrap *) destruct (stok p i) as [[u|a|a|a]|] eqn:K; try exact SELF; apply stok_nth in K.
    change (strongs p a) with (cnt (is_strong a) (stoks p)).
    destruct (Z.eqb_spec (cnt (is_strong a) (stoks p)) 1) as [E|E]; [|exact SELF]. cbn [fst].
    pose proof (s_dom p SI i _ a K eq_refl) as DA. pose proof (raw_none p i (MkST (SStrong a) Live) a SI K eq_refl eq_refl ltac:(discriminate)) as RN. split.
    + unfold s_log, s_set; cbn [stoks sallocs sdropping slog]. eapply sinv_set; eauto; cbn [hall]; try lia; try discriminate. intros ? [= <-]; exact DA.
    + eapply (bal_took p _ (aval (alloc_of p a))); [exact B|reflexivity|]. apply alive_remove; auto.
      * rewrite owned_cnt, RN. lia.
      * intros b. change (owned (s_set p i (SWeak a) Live) b = owned p b && negb (Nat.eqb a b)). rewrite (s_set_owned _ _ _ _ _ _ K), owned_cnt.
        unfold own at 2 3; cbn [sk counts sst andb b2z]. rewrite (Nat.eqb_sym b a).
        destruct (Nat.eqb_spec a b) as [<- | D]; cbn [b2z negb]; [rewrite RN; lia|rewrite andb_true_r; f_equal; lia].
  - (* weak try_unwrap *) destruct (stok p i) as [[u|a|a|a]|] eqn:K; try exact SELF; apply stok_nth in K.
    destruct (_ && _); [|exact SELF]. cbn [fst]. split.
    + unfold s_set. eapply sinv_set; eauto; cbn [hall]; try lia; discriminate.
    + apply (bal_same p); auto. apply alive_same; auto. intros b _. rewrite (s_set_owned _ _ _ _ _ _ K), owned_cnt. unfold own at 2 3; cbn [sk b2z]. f_equal. lia.
  - destruct (stok p i) as [[u|a|a|a]|]; exact SELF.
  - destruct (stok p i) as [[u|a|a|a]|]; exact SELF.
  - destruct (stok p i) as [[u|a|a|a]|]; try exact SELF; destruct (stok p j) as [[u'|c|c|c]|]; exact SELF.
Qed.

Lemma srun_bal t os : forall p, sinv p -> balanced p -> balanced (fst (srun t p os)).
Proof.
  induction os as [|o os IH]; intros p SI B; [exact B|]. cbn [srun].
  destruct (sstep_bal t p o SI B) as (S1 & B1). destruct (sstep t p o) as [p1 a1]. cbn [fst] in *.
  specialize (IH p1 S1 B1). destruct (srun t p1 os). exact IH.
Qed.

Lemma sinit_bal us : sinv (sinit us) /\ balanced (sinit us).
Proof.
  split; [|unfold balanced, alive_values, sinit; cbn; constructor]. constructor; unfold sinit; cbn [stoks sallocs].
  - intros i x a N Ha. rewrite nth_error_map in N. destruct (nth_error us i); cbn in N; [|discriminate]. injection N as <-. discriminate.
  - intros i x a j y N K. rewrite nth_error_map in N. destruct (nth_error us i); cbn in N; [|discriminate]. injection N as <-. discriminate.
Qed.
