(** * RcMore: destructors that run, very long histories, the memory of a box. *)
From Verif Require Import Base Spec BaseFacts SyncProofs UninitModel UninitSpec UninitProofs RcModel RcSpec RcProofs RcRefine RcAcct.

(** ** Values whose destructor runs *)

Definition sr (a : nat) (x : stoken) : Prop := counts x = true /\ (sk x = SStrong a \/ sk x = SRaw a).

Definition dinv (p : sstate) : Prop := forall a, In a (sdropping p) ->
  (forall i x, nth_error (stoks p) i = Some x -> ~ sr a x) /\
  (forall i x, nth_error (stoks p) i = Some x -> counts x = true -> hall (sk x) <> Some a ->
     disjoint (region (kview (sallocs p) (sk x))) (region (areg (al (sallocs p) a)))).

(** Where a counting token of the new state comes from. *)
Definition comes (p : sstate) (SA' : list salloc) (x' : stoken) : Prop :=
  exists i x, nth_error (stoks p) i = Some x /\ counts x = true /\ kview SA' (sk x') = kview (sallocs p) (sk x) /\
    (hall (sk x') = hall (sk x) \/ hall (sk x) = None \/ exists b, hall (sk x) = Some b /\ ~ In b (sdropping p)) /\
    (forall a, In a (sdropping p) -> sr a x' -> sr a x).

Lemma dinv_comes p p' : dinv p -> (forall a, In a (sdropping p') -> In a (sdropping p)) ->
  (forall a, In a (sdropping p) -> areg (al (sallocs p') a) = areg (al (sallocs p) a)) ->
  (forall j x', nth_error (stoks p') j = Some x' -> counts x' = true -> comes p (sallocs p') x') -> dinv p'.
Proof.
  intros D S RG C a I. apply S in I. destruct (D a I) as (D1 & D2). split.
  - intros j x' N Q. destruct (C j x' N (proj1 Q)) as (i & x & M & Cx & _ & _ & SR). exact (D1 i x M (SR a I Q)).
  - intros j x' N Cx' Ha. destruct (C j x' N Cx') as (i & x & M & Cx & KV & H3 & _). rewrite KV, RG by exact I.
    apply (D2 i x M Cx). destruct H3 as [E|[E|(b & E & NB)]]; [congruence|rewrite E; discriminate|].
    rewrite E. intros [= ->]. contradiction.
Qed.

Lemma comes_self t s p i x SA' : rel t s p -> same_regs (sallocs p) SA' -> nth_error (stoks p) i = Some x -> counts x = true -> comes p SA' x.
Proof.
  intros R RG N C. exists i, x. split; [exact N|]. split; [exact C|]. split; [|split; auto].
  destruct R as (K & _). destruct (F2_nth _ _ _ _ _ (c_toks _ _ _ _ _ K) N) as (k & _ & (_ & _ & _ & _ & S5)).
  destruct RG as (_ & RG). destruct (sk x); cbn [kview hall] in *; auto; apply RG; apply S5.
Qed.

Lemma dinv_set t s p i k k' st d l : rel t s p -> dinv p -> nth_error (stoks p) i = Some (MkST k Live) ->
  (forall a, In a d -> In a (sdropping p)) ->
  (st <> Gone -> comes p (sallocs p) (MkST k' st)) ->
  dinv (MkS (upd_nth i (MkST k' st) (stoks p)) (sallocs p) d l).
Proof.
  intros R D N S C. eapply dinv_comes; eauto; cbn [sdropping sallocs stoks]; auto.
  intros j x' M Cx. destruct (Nat.eq_dec j i) as [-> | E].
  - rewrite (upd_nth_nth_eq _ _ _ _ N) in M. injection M as <-. apply C. intros ->. discriminate.
  - rewrite upd_nth_nth_ne in M by congruence. eapply comes_self; eauto. apply same_regs_refl.
Qed.

Lemma dinv_add t s p k' : rel t s p -> dinv p -> comes p (sallocs p) (MkST k' Live) -> dinv (s_add p k').
Proof.
  intros R D C. unfold s_add. eapply dinv_comes; eauto; cbn [sdropping sallocs stoks]; auto.
  intros j x' M Cx. destruct (lt_dec j (length (stoks p))) as [L|L].
  - rewrite nth_error_app1 in M by lia. eapply comes_self; eauto. apply same_regs_refl.
  - rewrite nth_error_app2 in M by lia. destruct (j - length (stoks p))%nat as [|[|q]]; cbn in M; try discriminate. injection M as <-. exact C.
Qed.

Lemma comes_kind p i k k' st a : nth_error (stoks p) i = Some (MkST k Live) -> hall k = Some a -> hall k' = Some a ->
  (In a (sdropping p) -> sr a (MkST k' st) -> sr a (MkST k Live)) -> comes p (sallocs p) (MkST k' st).
Proof.
  intros N H H' SR. exists i, (MkST k Live). split; [exact N|]. split; [reflexivity|]. cbn [sk]. split.
  - rewrite (kview_handle _ _ _ H), (kview_handle _ _ _ H'). reflexivity.
  - split; [left; congruence|]. intros b I Q. assert (b = a).
    { destruct Q as (_ & [Q|Q]); cbn [sk] in Q; subst k'; cbn in H'; congruence. }
    subst b. auto.
Qed.

Lemma dinv_value t s p i k a v es : rel t s p -> dinv p -> nth_error (stoks p) i = Some (MkST k Live) -> hall k = Some a ->
  dinv (s_log (s_val p a v) es).
Proof.
  intros R D N Ha.
  assert (L : (a < length (sallocs p))%nat).
  { destruct R as (K & _). destruct (F2_nth _ _ _ _ _ (c_toks _ _ _ _ _ K) N) as (tk & _ & (_ & _ & _ & _ & T5)). cbn [sk] in T5. rewrite Ha in T5. apply T5. }
  destruct (s_val_facts p a v L) as (F1 & F2 & F3 & F4 & F5).
  assert (RG : forall c, areg (al (sallocs (s_val p a v)) c) = areg (al (sallocs p) c)).
  { intros c. destruct (Nat.eq_dec c a) as [-> | E]; [|exact (f_equal areg (F5 c E))].
    unfold s_val. destruct (nth_error (sallocs p) a) as [x|] eqn:NA; [|reflexivity]. cbn [sallocs]. unfold al.
    rewrite (nth_error_nth _ _ _ NA). erewrite nth_error_nth; [|eapply upd_nth_nth_eq; exact NA]. reflexivity. }
  eapply dinv_comes; eauto; unfold s_log; cbn [sdropping sallocs stoks]; auto.
  - unfold s_val. destruct (nth_error (sallocs p) a); auto.
  - intros j x' M Cx. rewrite F2 in M. eapply comes_self; eauto. split; [lia|]. intros; apply RG.
Qed.

Lemma dinv_step t s p o : valid_target t -> rel t s p -> dinv p ->
  (forall i k, o = RWeakTryUnwrap i -> nth_error (rtoks s) i = Some k -> ~ In (tview k) (rdropping s)) ->
  dinv (fst (sstep t p o)).
Proof.
  intros V R D CALM. destruct o; cbn [sstep]; try exact D.
  - (* new *) destruct (stok p i) as [[u|a|a|a]|] eqn:K; try exact D. apply stok_nth in K. destruct (holds u (rc_layout t l)); cbn [fst].
    + unfold s_log; cbn [stoks sallocs sdropping slog].
      assert (RG : same_regs (sallocs p) (sallocs p ++ [MkSA v u])).
      { split; [rewrite app_length; lia|]. intros a L. unfold al. rewrite app_nth1 by lia. reflexivity. }
      assert (IN : forall a, In a (sdropping p) -> (a < length (sallocs p))%nat).
      { intros a I. destruct R as (_ & _ & _ & F). rewrite Forall_forall in F. auto. }
      eapply dinv_comes; eauto; cbn [sdropping sallocs stoks]; auto.
      * intros a I. apply RG. auto.
      * intros j x' M Cx. destruct (Nat.eq_dec j i) as [-> | E].
        -- rewrite (upd_nth_nth_eq _ _ _ _ K) in M. injection M as <-. exists i, (MkST (SMem u) Live). split; [exact K|]. split; [reflexivity|].
           cbn [sk kview hall]. split; [unfold al; rewrite app_nth2, Nat.sub_diag by lia; reflexivity|]. split; [auto|].
           intros a I (_ & [Q|Q]); cbn [sk] in Q; [|discriminate]. injection Q as <-. apply IN in I. lia.
        -- rewrite upd_nth_nth_ne in M by congruence. eapply comes_self; eauto.
    + unfold s_log, s_set; cbn [stoks sallocs sdropping slog]. eapply dinv_set; eauto. congruence.
  - (* clone *) destruct (stok p i) as [[u|a|a|a]|] eqn:K; try exact D; apply stok_nth in K; destruct (_ <? _); try exact D; cbn [fst].
    + eapply dinv_add; eauto. eapply comes_kind; eauto; reflexivity.
    + eapply dinv_add; eauto. eapply comes_kind; eauto; reflexivity.
  - (* downgrade *) destruct (stok p i) as [[u|a|a|a]|] eqn:K; try exact D; apply stok_nth in K; destruct (_ <? _); try exact D; cbn [fst].
    eapply dinv_add; eauto. eapply comes_kind; eauto; try reflexivity. intros _ (_ & [Q|Q]); discriminate.
  - (* upgrade *) destruct (stok p i) as [[u|a|a|a]|] eqn:K; try exact D; apply stok_nth in K.
    destruct (Z.eqb_spec (strongs p a) 0) as [E|E]; [exact D|]. destruct (_ <? _); [|exact D]. cbn [fst].
    eapply dinv_add; eauto. eapply comes_kind; eauto; try reflexivity. intros I _. exfalso.
    change (strongs p a) with (cnt (is_strong a) (stoks p)) in E. pose proof (cnt_nonneg (is_strong a) (stoks p)).
    destruct (cnt_pos (is_strong a) (stoks p)) as (j & x & M & F); [lia|]. destruct (D a I) as (D1 & _).
    apply (D1 j x M). unfold is_strong in F. apply andb_true_iff in F. destruct F as (C & F). split; [exact C|]. left.
    destruct (sk x); try discriminate. apply Nat.eqb_eq in F. congruence.
  - (* drop *) destruct (stok p i) as [[u|a|a|a]|] eqn:K; try exact D; apply stok_nth in K.
    + cbn [fst]. unfold s_set. eapply dinv_set; eauto. congruence.
    + pose proof (dinv_set t s p i (SStrong a) (SStrong a) Gone (sdropping p) (slog p) R D K (fun _ H => H) (fun H => False_ind _ (H eq_refl))) as D1.
      destruct (Z.eqb_spec (strongs p a) 1) as [E|E]; cbn [fst]; [|exact D1].
      unfold s_log, s_set; cbn [stoks sallocs sdropping slog]. intros b [<- | I]; [|exact (D1 b I)]. cbn [stoks sallocs].
      change (strongs p a) with (cnt (is_strong a) (stoks p)) in E.
      destruct R as (K' & _). pose proof (c_box _ _ _ _ _ K' a) as BX. unfold box_ok in BX. cbn zeta in BX.
      pose proof (cnt_nonneg (is_weak a) (stoks p)). pose proof (cnt_nonneg (is_raw a) (stoks p)).
      destruct BX as (bx & _ & _ & _ & _ & BR); [lia|]. split.
      * intros j x N (C & Q). destruct (Nat.eq_dec j i) as [-> | Dj].
        { rewrite (upd_nth_nth_eq _ _ _ _ K) in N. injection N as <-. discriminate. }
        rewrite upd_nth_nth_ne in N by congruence. destruct Q as [Q|Q].
        -- pose proof (cnt_ge2 (is_strong a) (stoks p) i j _ x (not_eq_sym Dj) K N) as G2. unfold is_strong in G2 at 1 2.
           cbn [counts sst sk andb] in G2. rewrite C, Q, Nat.eqb_refl in G2. specialize (G2 eq_refl eq_refl). lia.
        -- pose proof (cnt_ge1 (is_raw a) (stoks p) j x N) as G1. unfold is_raw in G1 at 1. rewrite C, Q, Nat.eqb_refl in G1. specialize (G1 eq_refl). lia.
      * intros j x N C Ha. destruct (Nat.eq_dec j i) as [-> | Dj].
        { rewrite (upd_nth_nth_eq _ _ _ _ K) in N. injection N as <-. discriminate. }
        rewrite upd_nth_nth_ne in N by congruence.
        destruct (c_apart _ _ _ _ _ K' j i x _ Dj N K C eq_refl) as [(c & A1 & A2)|A]; [|exact A].
        cbn in A2. exfalso. apply Ha. congruence.
    + cbn [fst]. unfold s_set. eapply dinv_set; eauto. congruence.
    + cbn [fst]. unfold s_set. eapply dinv_set; eauto. congruence.
  - (* done *) destruct (sdropping p) as [|d ds] eqn:E; [exact D|]. cbn [fst]. intros a I. cbn [sdropping] in I. apply (D a). rewrite E. right. exact I.
  - (* forget *) destruct (stok p i) as [k|] eqn:K; try exact D; apply stok_nth in K. cbn [fst]. unfold s_set. eapply dinv_set; eauto.
    intros _. exists i, (MkST k Live). repeat (split; auto).
  - destruct (stok p i) as [[u|a|a|a]|]; exact D.
  - (* get_mut *) destruct (stok p i) as [[u|a|a|a]|] eqn:K; try exact D; apply stok_nth in K.
    destruct (_ && _) eqn:U; [|exact D]. destruct w as [v|]; [|exact D]. cbn [fst].
    eapply dinv_value; eauto.
  - (* into_raw *) destruct (stok p i) as [[u|a|a|a]|] eqn:K; try exact D; apply stok_nth in K.
    destruct (_ && _) eqn:U; [|exact D]. cbn [fst]. unfold s_set. eapply dinv_set; eauto. intros _. eapply comes_kind; eauto; try reflexivity.
    intros _ _. split; [reflexivity|left; reflexivity].
  - (* from_raw *) destruct (stok p i) as [[u|a|a|a]|] eqn:K; try exact D; apply stok_nth in K.
    cbn [fst]. unfold s_set. eapply dinv_set; eauto. intros _. eapply comes_kind; eauto; try reflexivity.
    intros _ _. split; [reflexivity|right; reflexivity].
  - (* raw replace *) destruct (stok p i) as [[u|a|a|a]|] eqn:K; try exact D; apply stok_nth in K. cbn [fst]. eapply dinv_value; eauto.
  - (* raw take *) destruct (stok p i) as [[u|a|a|a]|] eqn:K; try exact D; apply stok_nth in K. cbn [fst].
    unfold s_log, s_set; cbn [stoks sallocs sdropping slog]. eapply dinv_set; eauto. intros _.
    exists i, (MkST (SRaw a) Live). split; [exact K|]. split; [reflexivity|]. split; [reflexivity|]. cbn [sk hall]. split.
    + right. right. exists a. split; [reflexivity|]. intros I. destruct (D a I) as (D1 & _). apply (D1 i _ K). split; [reflexivity|right; reflexivity].
    + intros b _ (_ & [Q|Q]); discriminate.
  - (* try_unwrap *) destruct (stok p i) as [[u|a|a|a]|] eqn:K; try exact D; apply stok_nth in K. destruct (_ =? _); [|exact D]. cbn [fst].
    unfold s_log, s_set; cbn [stoks sallocs sdropping slog]. eapply dinv_set; eauto. intros _. eapply comes_kind; eauto; try reflexivity.
    intros _ (_ & [Q|Q]); discriminate.
  - (* weak try_unwrap *) destruct (stok p i) as [[u|a|a|a]|] eqn:K; try exact D. pose proof (tok_stok t s p i R) as T. rewrite K in T.
    destruct T as (tk & _ & NT & NS & TR). destruct (_ && _); [|exact D]. cbn [fst]. unfold s_set.
    pose proof (CALM i tk eq_refl NT) as NI. pose proof R as (_ & _ & RD & _).
    eapply dinv_set; eauto. intros _.
    exists i, (MkST (SWeak a) Live). split; [exact NS|]. split; [reflexivity|]. split; [reflexivity|]. cbn [sk hall]. split.
    + right. right. exists a. split; [reflexivity|]. intros I. apply NI. rewrite RD. destruct TR as (_ & _ & TV & _). rewrite TV. cbn [sk kview].
      apply (in_map (fun a => areg (al (sallocs p) a))). exact I.
    + intros b _ (_ & [Q|Q]); discriminate.
  - destruct (stok p i) as [[u|a|a|a]|]; exact D.
  - destruct (stok p i) as [[u|a|a|a]|]; exact D.
  - destruct (stok p i) as [[u|a|a|a]|]; try exact D; destruct (stok p j) as [[u'|c|c|c]|]; exact D.
Qed.

Lemma calm_run t os : valid_target t -> forall s p, rel t s p -> dinv p -> Forall (rop_ok t) os ->
  Z.of_nat (length (rtoks s) + length os) < usize_max t -> calm t s os ->
  dinv (fst (srun t p os)).
Proof.
  intros V. induction os as [|o os IH]; intros s p R D F B C; [exact D|].
  inversion F as [|? ? F1 F2]; subst. inversion C as [|? ? ? C1 C2]; subst.
  assert (LT : Z.of_nat (length (rtoks s)) < usize_max t) by (cbn [length] in B; lia).
  assert (UP : forall i, o = RUpgrade i -> snd (rstep t s o) <> APanic) by (intros ? ->; eapply upgrade_fine; eauto).
  destruct (step_rel t s p o V R F1 (or_intror LT) UP) as (R1 & _).
  pose proof (rstep_len t s o) as LN. pose proof (dinv_step t s p o V R D C1) as D1. cbn [srun].
  destruct (sstep t p o) as [p1 a1]. cbn [fst] in *. cbn [length] in B.
  specialize (IH _ p1 R1 D1 F2). assert (B1 : Z.of_nat (length (rtoks (fst (rstep t s o))) + length os) < usize_max t) by lia.
  specialize (IH B1 C2). destruct (srun t p1 os). exact IH.
Qed.

Lemma calm_disjoint t us os u k : valid_target t -> memories t us -> Forall (rop_ok t) os -> short t us os -> calm t (rinit us) os ->
  In u (rdropping (fst (rrun t (rinit us) os))) -> In k (rtoks (fst (rrun t (rinit us) os))) -> tstat k = Live -> tkind k <> KWeak ->
  disjoint (region u) (region (tview k)).
Proof.
  intros V M F S C Iu Ik Lk NW. destruct (refine_short t us os V M F S) as (R & _).
  assert (D : dinv (fst (srun t (sinit us) os))).
  { apply (calm_run t os V (rinit us)); auto.
    - apply init_rel; exact M.
    - intros a [].
    - cbn. rewrite map_length. exact S. }
  destruct R as (K & _ & RD & _). rewrite RD in Iu. apply in_map_iff in Iu. destruct Iu as (a & <- & Ia).
  destruct (D a Ia) as (D1 & D2).
  apply In_nth_error in Ik. destruct Ik as (j & N). 
  assert (exists x, nth_error (stoks (fst (srun t (sinit us) os))) j = Some x /\ tok_rel t (sallocs (fst (srun t (sinit us) os))) k x) as (x & NX & (T1 & T2 & T3 & _)).
  { clear - K N. destruct K as [F _ _]. revert j N. induction F; intros [|j] N; try discriminate; cbn in *; eauto. injection N as ->. eauto. }
  assert (CX : counts x = true) by (unfold counts; rewrite <- T1, Lk; reflexivity).
  apply disjoint_sym. rewrite T3. apply (D2 j x NX CX). intros Ha.
  destruct (sk x) eqn:Kx; cbn in Ha, T2; try discriminate; try congruence; injection Ha as ->;
    apply (D1 j x NX); split; auto.
Qed.

(** Regions of live tokens: same allocation, or disjoint. *)
Lemma rel_apart t s p i j k k' : rel t s p -> i <> j -> nth_error (rtoks s) i = Some k -> nth_error (rtoks s) j = Some k' -> tstat k <> Gone -> tstat k' <> Gone ->
  disjoint (region (tview k)) (region (tview k')) \/
  (tview k = tview k' /\ (tkind k = KStrong \/ tkind k = KWeak) /\ (tkind k' = KStrong \/ tkind k' = KWeak)).
Proof.
  intros R D N N' L L'. destruct R as (K & _).
  assert (G : forall i k, nth_error (rtoks s) i = Some k -> exists x, nth_error (stoks p) i = Some x /\ tok_rel t (sallocs p) k x).
  { clear - K. intros i k N. destruct K as [F _ _]. revert i N. induction F; intros [|i] N; try discriminate; cbn in *; eauto. injection N as ->. eauto. }
  destruct (G i k N) as (x & NX & (T1 & T2 & T3 & _)). destruct (G j k' N') as (y & NY & (U1 & U2 & U3 & _)).
  assert (CX : counts x = true) by (unfold counts; rewrite <- T1; destruct (tstat k); congruence).
  assert (CY : counts y = true) by (unfold counts; rewrite <- U1; destruct (tstat k'); congruence).
  destruct (c_apart _ _ _ _ _ K i j x y D NX NY CX CY) as [(a & A1 & A2)|A]; [right|left; rewrite T3, U3; exact A].
  split; [rewrite T3, U3, (kview_handle _ _ _ A1), (kview_handle _ _ _ A2); reflexivity|].
  assert (B : (1 <= cnt (is_strong a) (stoks p) + cnt (is_weak a) (stoks p) + cnt (is_raw a) (stoks p))) by (eapply handle_used; [exact NX|split; auto]).
  pose proof (c_box _ _ _ _ _ K a) as BX. unfold box_ok in BX. cbn zeta in BX. destruct BX as (b & _ & _ & _ & _ & BR); [lia|].
  assert (NR : forall i x j y, i <> j -> nth_error (stoks p) i = Some x -> nth_error (stoks p) j = Some y -> counts x = true -> counts y = true ->
     hall (sk x) = Some a -> hall (sk y) = Some a -> sk x <> SRaw a).
  { intros i0 x0 j0 y0 D0 N0 M0 C0 Cy0 A0 B0 E0.
    pose proof (cnt_ge1 (is_raw a) (stoks p) i0 x0 N0) as G1. unfold is_raw in G1 at 1. rewrite C0, E0, Nat.eqb_refl in G1. specialize (G1 eq_refl).
    destruct BR as (R1 & R2 & R3); [lia|].
    apply (sole_handle (stoks p) a i0 x0) with (j := j0) (y := y0); auto; [lia|split; auto]. }
  rewrite T2, U2. split.
  - pose proof (NR i x j y D NX NY CX CY A1 A2). destruct (sk x); cbn in A1 |- *; try discriminate; auto. congruence.
  - pose proof (NR j y i x (not_eq_sym D) NY NX CY CX A2 A1). destruct (sk y); cbn in A2 |- *; try discriminate; auto. congruence.
Qed.

Lemma live_apart t us os i j k k' : valid_target t -> memories t us -> Forall (rop_ok t) os -> short t us os ->
  let s := fst (rrun t (rinit us) os) in
  i <> j -> nth_error (rtoks s) i = Some k -> nth_error (rtoks s) j = Some k' -> tstat k <> Gone -> tstat k' <> Gone ->
  disjoint (region (tview k)) (region (tview k')) \/
  (tview k = tview k' /\ (tkind k = KStrong \/ tkind k = KWeak) /\ (tkind k' = KStrong \/ tkind k' = KWeak)).
Proof. intros V M F S s. destruct (refine_short t us os V M F S) as (R & _). exact (rel_apart t s _ i j k k' R). Qed.

(** ** Very long histories *)

(** The client's own state after cloning handle 0 again and again. *)
Lemma clones t k v w h d lg T n c : nth_error T 0 = Some k -> tkind k = KStrong -> tstat k = Live ->
  h (uptr (tview k)) = Some (MkBox v c w) ->
  (forall m, 0 <= m < Z.of_nat n -> exists x, op_add t PN_rc (wrap t (c + m)) 1 = Ret x) -> valid_target t -> 0 <= c <= usize_max t ->
  exists h', fst (rrun t (MkR T h d lg) (repeat (RClone 0) n)) = MkR (T ++ repeat k n) h' d lg /\
    h' (uptr (tview k)) = Some (MkBox v (wrap t (c + Z.of_nat n)) w).
Proof.
  intros N0 KS KL H OK V. pose proof (addr_space_pos t V) as AP. revert T h c N0 H OK.
  induction n as [|n IH]; intros T h c N0 H OK C.
  - exists h. cbn [repeat rrun fst]. rewrite app_nil_r. split; [reflexivity|]. rewrite H. do 2 f_equal. unfold wrap. rewrite Z.mod_small; unfold usize_max in *; lia.
  - assert (W0 : wrap t (c + 0) = c) by (unfold wrap; rewrite Z.mod_small; unfold usize_max in *; lia).
    destruct (OK 0 ltac:(lia)) as (x & Hx). rewrite W0 in Hx.
    assert (XW : x = wrap t (c + 1) /\ 0 <= x <= usize_max t).
    { revert Hx. rewrite op_add1. destruct (Z.ltb_spec c (usize_max t)).
      - intros [= <-]. split; [|lia]. unfold wrap. rewrite Z.mod_small; unfold usize_max in *; lia.
      - destruct (debug t); [discriminate|]. intros [= <-]. split; [reflexivity|]. unfold wrap, usize_max. pose proof (Z.mod_pos_bound (c + 1) (addr_space t) AP). lia. }
    destruct XW as (XW & XB). cbn [repeat rrun rstep]. unfold tok at 1. cbn [rtoks]. rewrite N0, KL. cbn iota beta. rewrite KS.
    unfold at_box. cbn [rheap]. rewrite H. unfold inc_strong. cbn [bstrong bval bweak]. rewrite Hx. cbn [obind]. unfold add_tok, set_box. cbn [rtoks rheap rdropping rlog].
    destruct (IH (T ++ [k]) (hset h (uptr (tview k)) (Some (MkBox v x w))) x) as (h' & E1 & E2).
    + destruct T; [discriminate|exact N0].
    + apply hset_same.
    + intros m Hm. destruct (OK (m + 1) ltac:(lia)) as (y & Hy). exists y. rewrite <- Hy. f_equal. rewrite XW. unfold wrap.
      rewrite Zplus_mod_idemp_l. f_equal. lia.
    + exact XB.
    + exists h'. destruct (rrun t (MkR (T ++ [k]) (hset h (uptr (tview k)) (Some (MkBox v x w))) d lg) (repeat (RClone 0) n)) as [s2 r2].
      cbn [fst] in *. split.
      * rewrite E1, <- app_assoc. reflexivity.
      * rewrite E2. do 2 f_equal. rewrite XW. unfold wrap. rewrite Zplus_mod_idemp_l. f_equal. lia.
Qed.

Lemma rrun_app t os os' : forall s, rrun t s (os ++ os') =
  (fst (rrun t (fst (rrun t s os)) os'), snd (rrun t s os) ++ snd (rrun t (fst (rrun t s os)) os')).
Proof.
  induction os as [|o os IH]; intros s; cbn [app rrun]; [cbn [fst snd app]; destruct (rrun t s os'); reflexivity|].
  destruct (rstep t s o) as [s1 a]. rewrite IH. destruct (rrun t s1 os). cbn [fst snd].
  destruct (rrun t r os'). reflexivity.
Qed.

Lemma upd_len {A} i (x : A) l : length (upd_nth i x l) = length l.
Proof. revert i. induction l as [|y l IH]; intros [|i]; cbn; auto. Qed.

Lemma drops_run t k v w d lg : forall n m T h c,
  (forall j, (m <= j < m + n)%nat -> nth_error T j = Some k) -> tkind k = KStrong -> tstat k = Live ->
  h (uptr (tview k)) = Some (MkBox v c w) -> Z.of_nat n < c ->
  exists T' h', fst (rrun t (MkR T h d lg) (map RDrop (seq m n))) = MkR T' h' d lg /\
    (forall j, (j < m \/ m + n <= j)%nat -> nth_error T' j = nth_error T j) /\
    h' (uptr (tview k)) = Some (MkBox v (c - Z.of_nat n) w).
Proof.
  induction n as [|n IH]; intros m T h c NT KS KL H L.
  - exists T, h. cbn. rewrite Z.sub_0_r. auto.
  - cbn [seq map rrun rstep]. unfold tok at 1. cbn [rtoks]. rewrite (NT m) by lia. rewrite KL. cbn iota beta. rewrite KS.
    unfold at_box. cbn [rheap]. rewrite H. unfold rc_drop, dec_strong. cbn [bstrong bval bweak]. rewrite op_sub1 by lia. cbn [obind bstrong bval bweak].
    assert ((c - 1 =? 0) = false) as -> by lia. unfold set_box, set_tok. cbn [rtoks rheap rdropping rlog].
    destruct (IH (S m) (upd_nth m (restat k Gone) T) (hset h (uptr (tview k)) (Some (MkBox v (c - 1) w))) (c - 1)) as (T' & h' & E1 & E2 & E3); auto.
    + intros j Hj. rewrite upd_nth_nth_ne by lia. apply NT. lia.
    + apply hset_same.
    + lia.
    + exists T', h'. match goal with |- context [rrun t ?s ?o] => destruct (rrun t s o) as [s2 r2] end. cbn [fst] in *. split; [exact E1|]. split.
      * intros j Hj. rewrite E2 by lia. apply upd_nth_nth_ne. lia.
      * rewrite E3. do 2 f_equal. lia.
Qed.

Definition strong_tok (l : layout) (u : uview) : token := {| tkind := KStrong; tview := u; tlay := l; tstat := Live |}.

Lemma new_run t u v l : holds u (rc_layout t l) = true -> 0 < lalign (rc_layout t l) -> umeta u = 0 ->
  exists h, rrun t (rinit [u]) [RNew 0 v l] = (MkR [strong_tok l u] h [] [Put v], [ADone]) /\ h (uptr u) = Some (MkBox v 1 1).
Proof.
  intros Ho P M. rewrite (holds_fits u _ P) in Ho. unfold rinit. cbn [rrun rstep map]. unfold tok. cbn [rtoks nth_error tstat].
  unfold rc_new, v_cast. cbn [tkind tview]. rewrite Ho. cbn [negb unwrap obind]. unfold logs, set_box, set_tok; cbn [rtoks rheap rdropping rlog upd_nth app uptr].
  assert (MkView (uptr u) (ulen u) 0 = u) as -> by (destruct u; cbn in *; congruence).
  eexists. split; [reflexivity|]. apply hset_same.
Qed.

(** Unchecked arithmetic: 2^bits clones wrap the counter to zero. *)
Lemma release_wrap t u v l : valid_target t -> debug t = false -> type_layout t l -> holds u (rc_layout t l) = true -> umeta u = 0 ->
  let os := [RNew 0 v l] ++ repeat (RClone 0) (Z.to_nat (addr_space t)) ++ [RDrop (Z.to_nat (addr_space t))] in
  let s := fst (rrun t (rinit [u]) os) in
  rlog s = [Put v; Dropped v] /\ nth_error (rtoks s) 0 = Some (strong_tok l u).
Proof.
  intros V DB TL HO M os. destruct (rc_layout_facts t l V TL) as (_ & _ & _ & P & _).
  pose proof (addr_space_pos t V) as AP.
  assert (A1 : 1 <= usize_max t). { unfold usize_max, addr_space in *. destruct V as ([-> | [-> | ->]] & _); vm_compute; discriminate. }
  destruct (new_run t u v l HO P M) as (h & E0 & H0).
  set (n := Z.to_nat (addr_space t)) in *.
  destruct (clones t (strong_tok l u) v 1 h [] [Put v] [strong_tok l u] n 1) as (h' & E1 & H1); auto.
  { intros m Hm. rewrite op_add1. destruct (_ <? _); [eauto|]. rewrite DB. eauto. }
  { lia. }
  cbn zeta. unfold os. rewrite !rrun_app, E0. cbn [fst snd]. rewrite E1. cbn [fst rrun rstep].
  assert (TN : nth_error ([strong_tok l u] ++ repeat (strong_tok l u) n) n = Some (strong_tok l u)).
  { destruct n as [|n'] eqn:En; [reflexivity|]. cbn [app nth_error]. rewrite nth_error_repeat; [reflexivity|lia]. }
  unfold tok. cbn [rtoks]. rewrite TN. cbn [tstat strong_tok tkind]. unfold at_box. cbn [rheap tview strong_tok]. cbn [tview strong_tok] in H1. rewrite H1.
  assert (W : wrap t (1 + Z.of_nat n) = 1).
  { unfold n. rewrite Z2Nat.id by lia. unfold wrap. rewrite <- Zplus_mod_idemp_r, Z_mod_same_full, Z.add_0_r. apply Z.mod_small. unfold usize_max in A1. lia. }
  rewrite W. unfold rc_drop, dec_strong, dec_weak. cbn [bstrong bweak bval]. rewrite op_sub1 by lia. cbn [obind bstrong bweak bval Z.sub Z.opp Z.add Z.eqb Z.pos_sub].
  rewrite op_sub1 by lia. cbn [obind bval]. unfold logs, set_box, set_tok; cbn [fst rtoks rheap rdropping rlog app].
  split; [reflexivity|]. destruct n as [|n'] eqn:En; [unfold n in En; lia|]. reflexivity.
Qed.

(** Checked arithmetic: an [upgrade] that panics takes a count away. *)
Lemma debug_upgrade t u v l : valid_target t -> debug t = true -> type_layout t l -> holds u (rc_layout t l) = true -> umeta u = 0 ->
  let n := (Z.to_nat (usize_max t) - 1)%nat in
  let os := [RNew 0 v l; RDowngrade 0] ++ repeat (RClone 0) n ++ [RUpgrade 1] ++ map RDrop (seq 2 (n - 1)) ++ [RDrop (S n)] in
  let s := fst (rrun t (rinit [u]) os) in
  rlog s = [Put v; Dropped v] /\ nth_error (rtoks s) 0 = Some (strong_tok l u).
Proof.
  intros V DB TL HO M n os. destruct (rc_layout_facts t l V TL) as (_ & _ & _ & P & _).
  pose proof (addr_space_pos t V) as AP.
  assert (A3 : 3 <= usize_max t). { unfold usize_max, addr_space in *. destruct V as ([-> | [-> | ->]] & _); vm_compute; discriminate. }
  assert (NN : Z.of_nat n = usize_max t - 1) by (unfold n; lia).
  destruct (new_run t u v l HO P M) as (h & E0 & H0).
  set (kw := {| tkind := KWeak; tview := u; tlay := l; tstat := Live |}).
  assert (E0' : exists h1, fst (rrun t (rinit [u]) [RNew 0 v l; RDowngrade 0]) = MkR [strong_tok l u; kw] h1 [] [Put v] /\ h1 (uptr u) = Some (MkBox v 1 2)).
  { change [RNew 0 v l; RDowngrade 0] with ([RNew 0 v l] ++ [RDowngrade 0]). rewrite rrun_app, E0. cbn [fst rrun rstep]. unfold tok. cbn [rtoks nth_error tstat strong_tok tkind].
    unfold at_box. cbn [rheap tview strong_tok]. rewrite H0. unfold inc_weak. cbn [bweak]. rewrite op_add1. assert ((1 <? usize_max t) = true) as -> by lia.
    cbn [obind fst]. unfold add_tok, set_box, retok; cbn [rtoks rheap rdropping rlog app tlay tview strong_tok]. eexists. split; [reflexivity|]. apply hset_same. }
  destruct E0' as (h1 & E1 & H1).
  destruct (clones t (strong_tok l u) v 2 h1 [] [Put v] [strong_tok l u; kw] n 1) as (h2 & E2 & H2); auto.
  { intros m Hm. rewrite op_add1. assert (wrap t (1 + m) = 1 + m) as -> by (unfold wrap; rewrite Z.mod_small; unfold usize_max in *; lia).
    assert ((1 + m <? usize_max t) = true) as -> by lia. eauto. }
  { lia. }
  assert (W : wrap t (1 + Z.of_nat n) = usize_max t) by (unfold wrap; rewrite Z.mod_small; unfold usize_max in *; lia).
  rewrite W in H2. cbn [tview strong_tok] in H2.
  set (T2 := [strong_tok l u; kw] ++ repeat (strong_tok l u) n) in *.
  assert (E3 : exists h3, fst (rrun t (MkR T2 h2 [] [Put v]) [RUpgrade 1]) = MkR T2 h3 [] [Put v] /\ h3 (uptr u) = Some (MkBox v (usize_max t - 1) 2)).
  { cbn [fst rrun rstep]. unfold tok. cbn [rtoks]. unfold T2 at 1. cbn [app nth_error tstat kw tkind].
    unfold at_box. cbn [rheap tview kw]. rewrite H2. unfold weak_upgrade, inc_strong. cbn [bstrong]. rewrite op_add1.
    assert ((usize_max t =? 0) = false) as -> by lia. assert ((usize_max t <? usize_max t) = false) as -> by lia. rewrite DB. cbn [obind].
    unfold rc_drop, dec_strong. cbn [bstrong]. rewrite op_sub1 by lia. cbn [obind bstrong bweak bval]. assert ((usize_max t - 1 =? 0) = false) as -> by lia.
    cbn [fst]. unfold set_box; cbn [rtoks rheap rdropping rlog]. eexists. split; [reflexivity|]. apply hset_same. }
  destruct E3 as (h3 & E3 & H3).
  destruct (drops_run t (strong_tok l u) v 2 [] [Put v] (n - 1) 2 T2 h3 (usize_max t - 1)) as (T4 & h4 & E4 & N4 & H4); auto; [|lia|].
  { intros j Hj. unfold T2. rewrite nth_error_app2 by (cbn; lia). cbn [length]. apply nth_error_repeat. lia. }
  cbn zeta. unfold os. rewrite !rrun_app. cbn [fst]. rewrite E1. cbn [fst]. rewrite E2. fold T2. rewrite E3. cbn [fst]. rewrite E4. cbn [fst rrun rstep].
  assert (TN : nth_error T4 (S n) = Some (strong_tok l u)).
  { rewrite N4 by lia. unfold T2. rewrite nth_error_app2 by (cbn; lia). cbn [length]. apply nth_error_repeat. lia. }
  unfold tok. cbn [rtoks]. rewrite TN. cbn [tstat strong_tok tkind]. unfold at_box. cbn [rheap tview strong_tok]. cbn [tview strong_tok] in H4. rewrite H4.
  replace (usize_max t - 1 - Z.of_nat (n - 1)) with 1 by lia.
  unfold rc_drop, dec_strong, dec_weak. cbn [bstrong bweak bval]. rewrite op_sub1 by lia. cbn [obind bstrong bweak bval]. cbn [Z.sub Z.opp Z.add Z.eqb Z.pos_sub].
  rewrite op_sub1 by lia. cbn [obind bval]. unfold logs, set_box, set_tok; cbn [fst rtoks rheap rdropping rlog app].
  split; [reflexivity|]. rewrite upd_nth_nth_ne by lia. rewrite N4 by lia. reflexivity.
Qed.

(** ** The memory of a box *)

Lemma rc_fields t l p : valid_target t -> type_layout t l -> aligned p (lalign (rc_layout t l)) ->
  reprC p 0 [l; usize_layout t; usize_layout t]
    [MkBlock p (lsize l); MkBlock (p + rc_strong_off t l) (word_bytes t); MkBlock (p + rc_weak_off t l) (word_bytes t)].
Proof.
  intros V TL A. destruct (rc_layout_facts t l V TL) as (F1 & F2 & F3 & F4 & F5 & F6 & F7 & F8).
  pose proof (usize_align_pos t V) as U.
  assert (AU : aligned p (usize_align t)).
  { unfold aligned in *. eapply Z.divide_trans; [|exact A]. unfold rc_layout; cbn [lalign]. unfold rc_align.
    destruct TL as ((_ & P1 & _) & _), V as (_ & P2 & _).
    destruct (Z.max_spec (lalign l) (usize_align t)) as [[H ->]|[H ->]]; [apply Z.divide_refl|apply pow2_divide; auto]. }
  assert (G : forall x, first_aligned (p + x) (usize_align t) (p + align_up x (usize_align t))).
  { intros x. repeat split.
    - pose proof (align_up_ge x _ U). lia.
    - unfold aligned in *. apply Z.divide_add_r; [exact AU|]. apply align_up_aligned. exact U.
    - intros q Q D. assert (align_up x (usize_align t) <= q - p); [|lia]. apply align_up_least; [exact U|lia|].
      apply Z.divide_sub_r; assumption. }
  econstructor.
  - rewrite Z.add_0_r. repeat split; [lia|unfold aligned in *; eapply Z.divide_trans; eauto|auto].
  - cbn [usize_layout lsize lalign]. replace (p + lsize l - p) with (lsize l) by lia.
    apply (reprC_cons p (lsize l) (usize_layout t)).
    + apply G.
    + cbn [usize_layout lsize lalign]. replace (p + rc_strong_off t l + word_bytes t - p) with (rc_strong_off t l + word_bytes t) by lia.
      apply (reprC_cons p _ (usize_layout t)); [apply G|constructor].
Qed.

(** ** Counting handles by address *)

Lemma peers_cnt t s p i k a : valid_target t -> rel t s p -> nth_error (stoks p) i = Some (MkST k Live) -> hall k = Some a ->
  forall tk, tview tk = areg (al (sallocs p) a) ->
  peers s KStrong tk = cnt (is_strong a) (stoks p) /\ peers s KWeak tk = cnt (is_weak a) (stoks p).
Proof.
  intros V R N Ha tk W. destruct R as (K & _).
  assert (H : forall x y j, nth_error (rtoks s) j = Some x -> nth_error (stoks p) j = Some y -> tok_rel t (sallocs p) x y ->
     (match tstat x with Gone => false | _ => true end && kind_eqb (tkind x) KStrong && (uptr (tview x) =? uptr (tview tk))) = is_strong a y /\
     (match tstat x with Gone => false | _ => true end && kind_eqb (tkind x) KWeak && (uptr (tview x) =? uptr (tview tk))) = is_weak a y).
  { intros x y j Nx Ny (T1 & T2 & T3 & T4 & T5). rewrite T1, T2, T3, W. unfold is_strong, is_weak.
    change (match sst y with Gone => false | _ => true end) with (counts y).
    destruct (counts y) eqn:C; [|auto]. cbn [andb].
    destruct (sk y) as [u|b|b|b] eqn:Ky; cbn [kkind kind_eqb kview andb]; auto; split; auto;
      (destruct (Nat.eqb_spec a b) as [<- | D]; [apply Z.eqb_refl|apply Z.eqb_neq; apply not_eq_sym;
       eapply (addr_inj t _ _ _ _ i _ a j y b V K N); [split; auto|exact Ny|split; [exact C|rewrite Ky; reflexivity]|exact D]]). }
  unfold peers, cnt, count. clear N. destruct K as [F _ _].
  assert (G : forall T ST, Forall2 (tok_rel t (sallocs p)) T ST -> (forall x y j, nth_error T j = Some x -> nth_error ST j = Some y -> tok_rel t (sallocs p) x y ->
     (match tstat x with Gone => false | _ => true end && kind_eqb (tkind x) KStrong && (uptr (tview x) =? uptr (tview tk))) = is_strong a y /\
     (match tstat x with Gone => false | _ => true end && kind_eqb (tkind x) KWeak && (uptr (tview x) =? uptr (tview tk))) = is_weak a y) ->
     length (filter (fun x => match tstat x with Gone => false | _ => true end && kind_eqb (tkind x) KStrong && (uptr (tview x) =? uptr (tview tk))) T) = length (filter (is_strong a) ST) /\
     length (filter (fun x => match tstat x with Gone => false | _ => true end && kind_eqb (tkind x) KWeak && (uptr (tview x) =? uptr (tview tk))) T) = length (filter (is_weak a) ST)).
  { intros T ST F2. induction F2 as [|x y T ST r F2 IH]; intros Q; [auto|].
    destruct (Q x y 0%nat eq_refl eq_refl r) as (Q1 & Q2). destruct IH as (I1 & I2); [intros x' y' j; exact (Q x' y' (S j))|].
    cbn [filter]. rewrite Q1, Q2. destruct (is_strong a y), (is_weak a y); cbn [length]; lia. }
  destruct (G _ _ F H) as (G1 & G2). rewrite G1, G2. auto.
Qed.

Lemma reach_rel t us os s : valid_target t -> rc_reach t us os s -> rel t s (fst (srun t (sinit us) os)) /\ Z.of_nat (length (rtoks s)) <= usize_max t - 1.
Proof.
  intros V (M & F & S & ->). destruct (refine_short t us os V M F S) as (R & _). split; [exact R|].
  assert (L : forall os s, (length (rtoks (fst (rrun t s os))) <= length (rtoks s) + length os)%nat).
  { clear. induction os as [|o os IH]; intros s; cbn [rrun length]; [cbn; lia|]. pose proof (rstep_len t s o). destruct (rstep t s o) as [s1 a]. cbn [fst] in *.
    specialize (IH s1). destruct (rrun t s1 os). cbn [fst] in *. lia. }
  specialize (L os (rinit us)). unfold short in S. cbn in L. rewrite map_length in L. lia.
Qed.

(** The spec token of a live model token *)
Lemma live_stok t s p i k : rel t s p -> tok s i = Some k -> exists kd, stok p i = Some kd /\ kkind kd = tkind k /\
  nth_error (stoks p) i = Some (MkST kd Live) /\ tok_rel t (sallocs p) k (MkST kd Live).
Proof.
  intros R T. pose proof (tok_stok t s p i R) as Q. destruct (stok p i) as [kd|]; [|congruence].
  destruct Q as (tk & T' & _ & NS & TR). rewrite T in T'. injection T' as <-. exists kd. destruct TR as (A & B & C). cbn [sk] in B. auto.
  split; [reflexivity|]. split; [congruence|]. split; [exact NS|]. split; auto.
Qed.

(** The box behind a handle, in terms of the client's handles. *)
Lemma box_facts t us os s i k : valid_target t -> rc_reach t us os s -> tok s i = Some k -> tkind k <> KMem ->
  exists b, rheap s (uptr (tview k)) = Some b /\
    (tkind k <> KRaw -> bstrong b = peers s KStrong k /\ bweak b = peers s KWeak k + (if 0 <? peers s KStrong k then 1 else 0)) /\
    (tkind k = KRaw -> bstrong b = 1 /\ bweak b = 1) /\
    (tkind k = KStrong -> 1 <= peers s KStrong k) /\ (tkind k = KWeak -> 1 <= peers s KWeak k) /\
    0 <= peers s KStrong k < usize_max t /\ 0 <= peers s KWeak k < usize_max t /\
    type_layout t (tlay k) /\ v_fits (tview k) (rc_layout t (tlay k)) = true /\ umeta (tview k) = 0 /\
    valid_region t (region (tview k)).
Proof.
  intros V H T NM. destruct (reach_rel t us os s V H) as (R & L). set (p := fst (srun t (sinit us) os)) in *.
  destruct (live_stok t s p i k R T) as (kd & SK & KK & NS & TR).
  assert (exists a, hall kd = Some a) as (a & Ha) by (destruct kd; cbn in KK |- *; eauto; congruence).
  destruct (handle_box t s p i kd a k R NS Ha TR) as (W & b & HB & B1 & B2 & B3 & B4).
  destruct (peers_cnt t s p i kd a V R NS Ha k W) as (P1 & P2). rewrite P1, P2.
  pose proof TR as (_ & _ & _ & T4 & T5). cbn [sk] in T5. rewrite Ha in T5. destruct T5 as (_ & T5 & T6).
  destruct (T4 eq_refl) as (T7 & T8).
  pose proof (rel_len t s p R) as LEN. cbn zeta in B1, B2, B3, B4.
  exists b. split; [exact HB|]. rewrite <- KK.
  pose proof (cnt_le (is_strong a) (stoks p)) as L1. pose proof (cnt_le (is_weak a) (stoks p)) as L2.
  destruct kd as [u|c|c|c]; try discriminate; cbn in Ha; injection Ha as ->; countfacts p a NS; cbn [kkind].
  3: { destruct B4 as (C1 & C2 & C3); [lia|]. rewrite C1, C2, C3 in *. cbn in B1, B2.
       repeat match goal with |- _ /\ _ => split end; intros; try assumption; try congruence; try lia. }
  all: assert (CR : cnt (is_raw a) (stoks p) = 0) by lia; rewrite CR, Z.add_0_r in *;
    repeat match goal with |- _ /\ _ => split end; intros; try assumption; try congruence; try lia.
Qed.

Lemma upd_nth_twice {A} i (x y : A) l : upd_nth i x (upd_nth i y l) = upd_nth i x l.
Proof. revert i. induction l as [|z l IH]; intros [|i]; cbn; auto. f_equal. auto. Qed.
