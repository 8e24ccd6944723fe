(** * RcRefine: every history of the code answers like the reference. *)
From Verif Require Import Base Spec BaseFacts SyncProofs UninitModel UninitSpec UninitProofs RcModel RcSpec RcProofs.

Definition rel (t : target) (s : rstate) (p : sstate) : Prop :=
  core t (rtoks s) (rheap s) (stoks p) (sallocs p) /\ rlog s = slog p /\
  rdropping s = map (fun a => areg (al (sallocs p) a)) (sdropping p) /\
  Forall (fun a => (a < length (sallocs p))%nat) (sdropping p).

Lemma rel_len t s p : rel t s p -> length (rtoks s) = length (stoks p).
Proof. intros (K & _). destruct K as [F _ _]. induction F; cbn [length]; lia. Qed.

Lemma tok_stok t s p i : rel t s p ->
  match stok p i with
  | Some k => exists tk, tok s i = Some tk /\ nth_error (rtoks s) i = Some tk /\ nth_error (stoks p) i = Some (MkST k Live) /\
                tok_rel t (sallocs p) tk (MkST k Live)
  | None => tok s i = None
  end.
Proof.
  intros R. pose proof (rel_len t s p R) as L. destruct R as (K & _). unfold stok, tok.
  destruct (nth_error (stoks p) i) as [x|] eqn:N.
  - destruct (F2_nth _ _ _ _ _ (c_toks _ _ _ _ _ K) N) as (k & M & TR). rewrite M.
    destruct TR as (S1 & REST). rewrite S1. destruct x as [kd st]. cbn [sst sk] in *.
    destruct st; auto. exists k. split; [reflexivity|]. split; [reflexivity|]. split; [reflexivity|]. split; assumption.
  - assert (nth_error (rtoks s) i = None) as ->; [|reflexivity]. apply nth_error_None. apply nth_error_None in N. lia.
Qed.

(** The box of a live handle *)
Lemma handle_box t s p i k a tk : rel t s p -> nth_error (stoks p) i = Some (MkST k Live) -> hall k = Some a ->
  tok_rel t (sallocs p) tk (MkST k Live) ->
  tview tk = areg (al (sallocs p) a) /\
  exists b, rheap s (uptr (tview tk)) = Some b /\
    let cs := cnt (is_strong a) (stoks p) in let cw := cnt (is_weak a) (stoks p) in let cr := cnt (is_raw a) (stoks p) in
    bstrong b = cs + cr /\ bweak b = cw + (if 0 <? cs + cr then 1 else 0) /\
    (0 < cs + cr -> bval b = aval (al (sallocs p) a)) /\ (0 < cr -> cr = 1 /\ cs = 0 /\ cw = 0).
Proof.
  intros (K & _) N Ha (S1 & S2 & S3 & S4 & S5). cbn [sk] in *.
  rewrite (kview_handle _ _ _ Ha) in S3. split; [exact S3|].
  pose proof (c_box _ _ _ _ _ K a) as B. unfold box_ok in B. cbn zeta in *. rewrite S3. apply B.
  pose proof (handle_used (stoks p) a i (MkST k Live) N). unfold handle_of in H. cbn [counts sst sk] in H.
  specialize (H (conj eq_refl Ha)). lia.
Qed.

Lemma live_counts a k : is_strong a (MkST k Live) = match k with SStrong b => Nat.eqb a b | _ => false end /\
  is_weak a (MkST k Live) = match k with SWeak b => Nat.eqb a b | _ => false end /\
  is_raw a (MkST k Live) = match k with SRaw b => Nat.eqb a b | _ => false end.
Proof. repeat split. Qed.

Lemma op_add1 t m x : op_add t m x 1 = if x <? usize_max t then Ret (x + 1) else if debug t then Panic m else Ret (wrap t (x + 1)).
Proof. unfold op_add. assert ((x + 1 <=? usize_max t) = (x <? usize_max t)) as -> by lia. reflexivity. Qed.

Lemma op_sub1 t m x : 1 <= x -> op_sub t m x 1 = Ret (x - 1).
Proof. intros P. unfold op_sub. assert ((1 <=? x) = true) as -> by lia. reflexivity. Qed.

Lemma hset_same h p b : hset h p b p = b.
Proof. unfold hset. rewrite Z.eqb_refl. reflexivity. Qed.
Lemma hset_other h p b q : q <> p -> hset h p b q = h q.
Proof. unfold hset. intros D. assert ((q =? p) = false) as -> by lia. reflexivity. Qed.

Lemma upd_nth_self {A} i (x : A) l : nth_error l i = Some x -> upd_nth i x l = l.
Proof. revert i. induction l as [|y l IH]; intros [|i] N; try discriminate; cbn in *; [congruence|f_equal; auto]. Qed.

(** Relation preserved when only the core changes. *)
Lemma rel_core t s p T H ST SA : rel t s p -> core t T H ST SA -> same_regs (sallocs p) SA ->
  rel t (MkR T H (rdropping s) (rlog s)) (MkS ST SA (sdropping p) (slog p)).
Proof.
  intros (K & L & D & F) C (G1 & G2). unfold rel; cbn [rtoks rheap rlog rdropping stoks sallocs slog sdropping].
  split; [exact C|]. split; [exact L|]. split.
  - rewrite D. apply map_ext_in. intros a I. rewrite Forall_forall in F. symmetry. apply G2. apply F. exact I.
  - eapply Forall_impl; [|exact F]. cbn beta. intros. lia.
Qed.

Lemma same_regs_refl SA : same_regs SA SA. Proof. split; auto. Qed.

Lemma rel_log t s p es : rel t s p -> rel t (logs s es) (s_log p es).
Proof. intros (K & L & D & F). unfold rel, logs, s_log; cbn. repeat split; try apply K; auto. congruence. Qed.

Lemma rel_eta_s t s p : rel t s p <-> rel t (MkR (rtoks s) (rheap s) (rdropping s) (rlog s)) (MkS (stoks p) (sallocs p) (sdropping p) (slog p)).
Proof. destruct s, p. reflexivity. Qed.

Ltac fresh_handle R i :=
  let T := fresh "T" in pose proof (tok_stok _ _ _ i R) as T;
  destruct (stok _ i) as [[u|a|a|a]|]; [| | | |rewrite T];
  try (destruct T as (tk & TT & NT & NS & TR); rewrite TT).

(** counts after setting token [i] *)
Lemma set_counts p i k k' st a : nth_error (stoks p) i = Some (MkST k Live) ->
  cnt (is_strong a) (upd_nth i (MkST k' st) (stoks p)) = cnt (is_strong a) (stoks p) - b2z (is_strong a (MkST k Live)) + b2z (is_strong a (MkST k' st)) /\
  cnt (is_weak a) (upd_nth i (MkST k' st) (stoks p)) = cnt (is_weak a) (stoks p) - b2z (is_weak a (MkST k Live)) + b2z (is_weak a (MkST k' st)) /\
  cnt (is_raw a) (upd_nth i (MkST k' st) (stoks p)) = cnt (is_raw a) (stoks p) - b2z (is_raw a (MkST k Live)) + b2z (is_raw a (MkST k' st)).
Proof. intros N. rewrite !(cnt_upd _ _ _ _ _ N). auto. Qed.

Definition room (t : target) (s : rstate) : Prop := debug t = true \/ Z.of_nat (length (rtoks s)) < usize_max t.

Definition agree (t : target) (r : rstate * answer) (q : sstate * answer) : Prop := rel t (fst r) (fst q) /\ snd r = snd q.

Lemma tok_rel_stat t SA tk k st : tok_rel t SA tk (MkST k Live) -> tok_rel t SA (restat tk st) (MkST k st).
Proof.
  intros (S1 & S2 & S3 & S4 & S5). unfold tok_rel, restat; cbn [tstat tkind tview tlay sst sk] in *.
  split; [reflexivity|]. split; [exact S2|]. split; [exact S3|]. split; [|exact S5].
  intros _. apply S4. reflexivity.
Qed.

Lemma tok_rel_kind t SA tk k k' a : tok_rel t SA tk (MkST k Live) -> hall k = Some a -> hall k' = Some a ->
  tok_rel t SA (retok tk (kkind k') (tview tk)) (MkST k' Live).
Proof.
  intros (S1 & S2 & S3 & S4 & S5) E E'. unfold tok_rel, retok; cbn [tstat tkind tview tlay sst sk] in *.
  split; [reflexivity|]. split; [reflexivity|]. split.
  - rewrite S3, (kview_handle _ _ _ E), (kview_handle _ _ _ E'). reflexivity.
  - split; [intros _; apply S4; reflexivity|]. rewrite E in S5. rewrite E'. exact S5.
Qed.

(** A live handle of [a] changes to [k'] of [a] (or its status changes), and the box to [b']. *)
Lemma rel_set t s p i k a tk k' st tk' b' : valid_target t -> rel t s p ->
  nth_error (stoks p) i = Some (MkST k Live) -> hall k = Some a -> tok_rel t (sallocs p) tk (MkST k Live) ->
  hall k' = Some a -> tok_rel t (sallocs p) tk' (MkST k' st) ->
  (let cs := cnt (is_strong a) (stoks p) - b2z (is_strong a (MkST k Live)) + b2z (is_strong a (MkST k' st)) in
   let cw := cnt (is_weak a) (stoks p) - b2z (is_weak a (MkST k Live)) + b2z (is_weak a (MkST k' st)) in
   let cr := cnt (is_raw a) (stoks p) - b2z (is_raw a (MkST k Live)) + b2z (is_raw a (MkST k' st)) in
   0 < cs + cw + cr ->
   bstrong b' = cs + cr /\ bweak b' = cw + (if 0 <? cs + cr then 1 else 0) /\
   (0 < cs + cr -> bval b' = aval (al (sallocs p) a)) /\ (0 < cr -> cr = 1 /\ cs = 0 /\ cw = 0)) ->
  rel t (set_box (set_tok s i tk') (uptr (tview tk)) (Some b')) (s_set p i k' st).
Proof.
  intros V R N Ha TR Ha' TR' B. destruct (handle_box t s p i k a tk R N Ha TR) as (W & _).
  unfold set_box, set_tok, s_set; cbn [rtoks rheap rdropping rlog]. rewrite W.
  apply rel_core; [exact R| |apply same_regs_refl].
  destruct R as (K & _). eapply core_set; eauto.
  - split; [reflexivity|exact Ha].
  - intros q D. apply hset_other. exact D.
  - unfold box_ok. cbn zeta. destruct (set_counts p i k k' st a N) as (E1 & E2 & E3). rewrite E1, E2, E3.
    intros U. exists b'. rewrite hset_same. split; [reflexivity|]. apply B. exact U.
Qed.

Lemma rel_set_same t s p i k a tk st : valid_target t -> rel t s p ->
  nth_error (stoks p) i = Some (MkST k Live) -> hall k = Some a -> tok_rel t (sallocs p) tk (MkST k Live) ->
  forall k' tk', hall k' = Some a -> tok_rel t (sallocs p) tk' (MkST k' st) ->
  (forall b, rheap s (uptr (tview tk)) = Some b ->
   let cs := cnt (is_strong a) (stoks p) - b2z (is_strong a (MkST k Live)) + b2z (is_strong a (MkST k' st)) in
   let cw := cnt (is_weak a) (stoks p) - b2z (is_weak a (MkST k Live)) + b2z (is_weak a (MkST k' st)) in
   let cr := cnt (is_raw a) (stoks p) - b2z (is_raw a (MkST k Live)) + b2z (is_raw a (MkST k' st)) in
   0 < cs + cw + cr ->
   bstrong b = cs + cr /\ bweak b = cw + (if 0 <? cs + cr then 1 else 0) /\
   (0 < cs + cr -> bval b = aval (al (sallocs p) a)) /\ (0 < cr -> cr = 1 /\ cs = 0 /\ cw = 0)) ->
  rel t (set_tok s i tk') (s_set p i k' st).
Proof.
  intros V R N Ha TR k' tk' Ha' TR' B. destruct (handle_box t s p i k a tk R N Ha TR) as (W & b & HB & _).
  unfold set_tok, s_set; cbn [rtoks rheap rdropping rlog].
  apply rel_core; [exact R| |apply same_regs_refl].
  destruct R as (K & _). eapply core_set; eauto.
  - split; [reflexivity|exact Ha].
  - unfold box_ok. cbn zeta. destruct (set_counts p i k k' st a N) as (E1 & E2 & E3). rewrite E1, E2, E3.
    intros U. exists b. rewrite <- W. split; [exact HB|]. apply (B b HB). exact U.
Qed.

(** A live handle of [a] begets [k'] of [a]. *)
Lemma rel_add t s p i k a tk k' tk' b' : valid_target t -> rel t s p ->
  nth_error (stoks p) i = Some (MkST k Live) -> hall k = Some a -> tok_rel t (sallocs p) tk (MkST k Live) ->
  hall k' = Some a -> tok_rel t (sallocs p) tk' (MkST k' Live) ->
  (let cs := cnt (is_strong a) (stoks p) + b2z (is_strong a (MkST k' Live)) in
   let cw := cnt (is_weak a) (stoks p) + b2z (is_weak a (MkST k' Live)) in
   let cr := cnt (is_raw a) (stoks p) + b2z (is_raw a (MkST k' Live)) in
   bstrong b' = cs + cr /\ bweak b' = cw + (if 0 <? cs + cr then 1 else 0) /\
   (0 < cs + cr -> bval b' = aval (al (sallocs p) a)) /\ (0 < cr -> cr = 1 /\ cs = 0 /\ cw = 0)) ->
  rel t (add_tok (set_box s (uptr (tview tk)) (Some b')) tk') (s_add p k').
Proof.
  intros V R N Ha TR Ha' TR' B. destruct (handle_box t s p i k a tk R N Ha TR) as (W & _).
  unfold set_box, add_tok, s_add; cbn [rtoks rheap rdropping rlog]. rewrite W.
  apply rel_core; [exact R| |apply same_regs_refl].
  destruct R as (K & _). eapply core_add; eauto.
  - split; [reflexivity|exact Ha].
  - intros q D. apply hset_other. exact D.
  - unfold box_ok. cbn zeta. rewrite !cnt_app, !cnt_one.
    intros U. exists b'. rewrite hset_same. split; [reflexivity|]. apply B.
Qed.

Lemma rel_box_same t s p i k a tk b : rel t s p ->
  nth_error (stoks p) i = Some (MkST k Live) -> hall k = Some a -> tok_rel t (sallocs p) tk (MkST k Live) ->
  rheap s (uptr (tview tk)) = Some b -> rel t (set_box s (uptr (tview tk)) (Some b)) p.
Proof.
  intros R N Ha TR HB. destruct R as (K & L & D & F). unfold rel, set_box; cbn [rtoks rheap rdropping rlog].
  split; [|auto]. destruct K as [K1 K2 K3]. constructor; auto. intros c U. specialize (K3 c U).
  destruct (Z.eq_dec (uptr (areg (al (sallocs p) c))) (uptr (tview tk))) as [E|E].
  - rewrite E, hset_same in *. rewrite HB in K3. exact K3.
  - rewrite hset_other by exact E. exact K3.
Qed.

(** The last handle of [a] becomes memory. *)
Lemma rel_release t s p i k a tk : valid_target t -> rel t s p ->
  nth_error (stoks p) i = Some (MkST k Live) -> hall k = Some a -> tok_rel t (sallocs p) tk (MkST k Live) ->
  cnt (is_strong a) (stoks p) + cnt (is_weak a) (stoks p) + cnt (is_raw a) (stoks p) = 1 ->
  rel t (set_box (set_tok s i (retok tk KMem (from_memory (uptr (tview tk)) (ulen (tview tk))))) (uptr (tview tk)) None)
        (s_set p i (SMem (areg (al (sallocs p) a))) Live).
Proof.
  intros V R N Ha TR S1. destruct (handle_box t s p i k a tk R N Ha TR) as (W & _).
  unfold set_box, set_tok, s_set; cbn [rtoks rheap rdropping rlog].
  apply rel_core; [exact R| |apply same_regs_refl].
  destruct R as (K & _). eapply core_release; eauto.
  - split; [reflexivity|exact Ha].
  - destruct TR as (T1 & T2 & T3 & T4 & T5). destruct (T4 eq_refl) as (VR & M0).
    unfold tok_rel, retok, from_memory; cbn [tstat tkind tview tlay sst sk hall kkind kview uptr ulen umeta region] in *.
    split; [reflexivity|]. split; [reflexivity|]. split.
    { rewrite W in M0 |- *. destruct (areg (al (sallocs p) a)); cbn in *; congruence. }
    split; [|exact I]. intros _. split; [exact VR|reflexivity].
  - intros q D. apply hset_other. rewrite W. exact D.
Qed.

(** A handle's allocation gets a new value; the counters stay. *)
Lemma rel_value t s p i k a tk b v : valid_target t -> rel t s p ->
  nth_error (stoks p) i = Some (MkST k Live) -> hall k = Some a -> tok_rel t (sallocs p) tk (MkST k Live) ->
  rheap s (uptr (tview tk)) = Some b ->
  rel t (set_box s (uptr (tview tk)) (Some (MkBox v (bstrong b) (bweak b)))) (s_val p a v).
Proof.
  intros V R N Ha TR HB. destruct (handle_box t s p i k a tk R N Ha TR) as (W & b1 & HB1 & B1 & B2 & B3 & B4).
  rewrite HB in HB1. injection HB1 as <-.
  assert (L : (a < length (sallocs p))%nat). { destruct TR as (_ & _ & _ & _ & T5). cbn [sk] in T5. rewrite Ha in T5. apply T5. }
  unfold s_val. destruct (nth_error (sallocs p) a) as [x|] eqn:NA; [|apply nth_error_None in NA; lia].
  assert (AX : al (sallocs p) a = x) by (unfold al; apply nth_error_nth; exact NA).
  assert (LU : length (upd_nth a (MkSA v (areg x)) (sallocs p)) = length (sallocs p)).
  { clear. generalize (sallocs p) as l. intros l. revert a. induction l as [|y l IH]; intros [|a]; cbn; auto. }
  assert (AU : forall c, al (upd_nth a (MkSA v (areg x)) (sallocs p)) c = if Nat.eqb c a then MkSA v (areg x) else al (sallocs p) c).
  { intros c. unfold al. destruct (Nat.eqb_spec c a) as [-> | D].
    - apply nth_error_nth. eapply upd_nth_nth_eq. exact NA.
    - destruct (nth_error (sallocs p) c) as [y|] eqn:NC.
      + rewrite (nth_error_nth _ _ _ NC). apply nth_error_nth. rewrite upd_nth_nth_ne by congruence. exact NC.
      + apply nth_error_None in NC. rewrite !nth_overflow by lia. reflexivity. }
  assert (RG : same_regs (sallocs p) (upd_nth a (MkSA v (areg x)) (sallocs p))).
  { split; [lia|]. intros c Lc. rewrite AU. destruct (Nat.eqb_spec c a) as [-> | D]; [rewrite AX; reflexivity|reflexivity]. }
  unfold set_box. apply rel_core; [exact R| |exact RG]. destruct R as (K & _).
  eapply (core_value t _ (rheap s) _ (sallocs p) _ a); eauto.
  - exists i, (MkST k Live). split; [exact N|split; [reflexivity|exact Ha]].
  - intros c D _. rewrite AU. rewrite (proj2 (Nat.eqb_neq c a)) by exact D. reflexivity.
  - intros q D. apply hset_other. rewrite W. exact D.
  - unfold box_ok. cbn zeta. intros U. rewrite AU, Nat.eqb_refl. cbn [areg aval].
    exists (MkBox v (bstrong b) (bweak b)). rewrite W, AX, hset_same. cbn [bstrong bweak bval]. cbn zeta in *. auto.
Qed.

Lemma rel_drop_start t s p a x : rel t s p -> (a < length (sallocs p))%nat -> x = areg (al (sallocs p) a) ->
  rel t (MkR (rtoks s) (rheap s) (x :: rdropping s) (rlog s)) (MkS (stoks p) (sallocs p) (a :: sdropping p) (slog p)).
Proof.
  intros (K & L & D & F) A ->. unfold rel; cbn [rtoks rheap rlog rdropping stoks sallocs slog sdropping map].
  split; [exact K|]. split; [exact L|]. split; [rewrite D; reflexivity|]. constructor; auto.
Qed.

Lemma count_all p a : strongs p a = cnt (is_strong a) (stoks p) /\ weaks p a = cnt (is_weak a) (stoks p).
Proof. split; reflexivity. Qed.

Ltac cc := cbn [fst snd].
Ltac invalid := split; cc; [assumption|reflexivity].

Ltac getbox R NS TR :=
  let W := fresh "W" in let b := fresh "b" in let HB := fresh "HB" in
  destruct (handle_box _ _ _ _ _ _ _ R NS eq_refl TR) as (W & b & HB & B1 & B2 & B3 & B4);
  unfold at_box; rewrite HB; cbn zeta in B1, B2, B3, B4.

Ltac countfacts p a NS :=
  pose proof (cnt_nonneg (is_strong a) (stoks p)); pose proof (cnt_nonneg (is_weak a) (stoks p)); pose proof (cnt_nonneg (is_raw a) (stoks p));
  pose proof (cnt_le (is_strong a) (stoks p)); pose proof (cnt_le (is_weak a) (stoks p));
  let G := fresh "G" in
  first [ pose proof (cnt_ge1 (is_strong a) (stoks p) _ _ NS) as G; unfold is_strong at 1 in G; cbn [counts sst sk andb] in G; rewrite Nat.eqb_refl in G; specialize (G eq_refl)
        | pose proof (cnt_ge1 (is_weak a) (stoks p) _ _ NS) as G; unfold is_weak at 1 in G; cbn [counts sst sk andb] in G; rewrite Nat.eqb_refl in G; specialize (G eq_refl)
        | pose proof (cnt_ge1 (is_raw a) (stoks p) _ _ NS) as G; unfold is_raw at 1 in G; cbn [counts sst sk andb] in G; rewrite Nat.eqb_refl in G; specialize (G eq_refl) ].

Ltac kcount := unfold is_strong at 2, is_weak at 2, is_raw at 2.

Lemma ccs a b : is_strong a (MkST (SStrong b) Live) = Nat.eqb a b /\ is_strong a (MkST (SWeak b) Live) = false /\ is_strong a (MkST (SRaw b) Live) = false.
Proof. auto. Qed.
Lemma ccw a b : is_weak a (MkST (SStrong b) Live) = false /\ is_weak a (MkST (SWeak b) Live) = Nat.eqb a b /\ is_weak a (MkST (SRaw b) Live) = false.
Proof. auto. Qed.
Lemma ccr a b : is_raw a (MkST (SStrong b) Live) = false /\ is_raw a (MkST (SWeak b) Live) = false /\ is_raw a (MkST (SRaw b) Live) = Nat.eqb a b.
Proof. auto. Qed.
Lemma cgone a k : is_strong a (MkST k Gone) = false /\ is_weak a (MkST k Gone) = false /\ is_raw a (MkST k Gone) = false.
Proof. auto. Qed.
Lemma cforgot a k : is_strong a (MkST k Forgot) = is_strong a (MkST k Live) /\ is_weak a (MkST k Forgot) = is_weak a (MkST k Live) /\ is_raw a (MkST k Forgot) = is_raw a (MkST k Live).
Proof. auto. Qed.

Ltac simpl_counts :=
  repeat match goal with
  | |- context [is_strong ?a (MkST ?k Gone)] => rewrite (proj1 (cgone a k))
  | |- context [is_weak ?a (MkST ?k Gone)] => rewrite (proj1 (proj2 (cgone a k)))
  | |- context [is_raw ?a (MkST ?k Gone)] => rewrite (proj2 (proj2 (cgone a k)))
  | |- context [is_strong ?a (MkST ?k Forgot)] => rewrite (proj1 (cforgot a k))
  | |- context [is_weak ?a (MkST ?k Forgot)] => rewrite (proj1 (proj2 (cforgot a k)))
  | |- context [is_raw ?a (MkST ?k Forgot)] => rewrite (proj2 (proj2 (cforgot a k)))
  | |- context [is_strong ?a (MkST (SStrong ?b) Live)] => rewrite (proj1 (ccs a b))
  | |- context [is_strong ?a (MkST (SWeak ?b) Live)] => rewrite (proj1 (proj2 (ccs a b)))
  | |- context [is_strong ?a (MkST (SRaw ?b) Live)] => rewrite (proj2 (proj2 (ccs a b)))
  | |- context [is_weak ?a (MkST (SStrong ?b) Live)] => rewrite (proj1 (ccw a b))
  | |- context [is_weak ?a (MkST (SWeak ?b) Live)] => rewrite (proj1 (proj2 (ccw a b)))
  | |- context [is_weak ?a (MkST (SRaw ?b) Live)] => rewrite (proj2 (proj2 (ccw a b)))
  | |- context [is_raw ?a (MkST (SStrong ?b) Live)] => rewrite (proj1 (ccr a b))
  | |- context [is_raw ?a (MkST (SWeak ?b) Live)] => rewrite (proj1 (proj2 (ccr a b)))
  | |- context [is_raw ?a (MkST (SRaw ?b) Live)] => rewrite (proj2 (proj2 (ccr a b)))
  end; rewrite ?Nat.eqb_refl; cbn [b2z].

Ltac arith := cbn zeta; simpl_counts; cbn [bstrong bweak bval] in *; intros;
  repeat match goal with |- context [if 0 <? ?x then _ else _] => destruct (Z.ltb_spec 0 x) | H : context [if 0 <? ?x then _ else _] |- _ => destruct (Z.ltb_spec 0 x) end;
  repeat split; intros; try lia; try (match goal with H : _ -> bval _ = _ |- _ => apply H; lia end); auto.

Lemma tok_rel_new t SA l u v tk st : valid_target t -> type_layout t l -> v_fits u (rc_layout t l) = true ->
  tok_rel t SA tk (MkST (SMem u) st) -> counts (MkST (SMem u) st) = true ->
  tok_rel t (SA ++ [MkSA v u]) {| tkind := KStrong; tview := MkView (uptr u) (ulen u) 0; tlay := l; tstat := Live |} (MkST (SStrong (length SA)) Live).
Proof.
  intros V TL F (S1 & S2 & S3 & S4 & S5) C. destruct (S4 C) as (VR & M0). cbn [sk kview] in *. subst u.
  unfold tok_rel; cbn [tstat tkind tview tlay sst sk hall kkind kview].
  unfold al. rewrite app_nth2, Nat.sub_diag by lia. cbn [nth areg].
  assert (E : MkView (uptr (tview tk)) (ulen (tview tk)) 0 = tview tk). { destruct (tview tk); cbn in *; congruence. }
  rewrite E. split; [reflexivity|]. split; [reflexivity|]. split; [reflexivity|]. split; [auto|].
  split; [rewrite app_length; cbn; lia|]. auto.
Qed.

Ltac notk := match goal with TR : tok_rel _ _ _ _ |- _ => destruct TR as (_ & TK & _); rewrite TK; cbn [kkind sk]; invalid end.
Ltac strong :=
  match goal with R : rel _ _ ?p, NS : nth_error _ _ = Some (MkST (SStrong ?a) Live), TR : tok_rel _ _ _ _ |- _ =>
    pose proof TR as (TS & TK & _); cbn [kkind sk] in TK, TS; rewrite TK; getbox R NS TR; countfacts p a NS;
    destruct (count_all p a) as (E1 & E2);
    assert (CR : cnt (is_raw a) (stoks p) = 0) by lia; rewrite CR, Z.add_0_r in * end.
Ltac forgotten :=
  match goal with R : rel _ _ ?p, NS : nth_error _ _ = Some (MkST _ Live), TR : tok_rel _ _ _ _ |- _ =>
    let HB := fresh "HB" in let HB1 := fresh "HB" in let b := fresh "b" in let b1 := fresh "b" in
    intros b HB; destruct (handle_box _ _ _ _ _ _ _ R NS eq_refl TR) as (W & b1 & HB1 & B1 & B2 & B3 & B4);
    rewrite HB in HB1; injection HB1 as <-; cbn zeta in *; simpl_counts; rewrite ?Z.sub_0_r, ?Z.add_0_r, ?Z.sub_add; auto end.
Ltac unique E1 E2 B1 B2 :=
  match type of B1 with bstrong ?b = cnt (is_strong ?a) ?l =>
    let U := fresh "U" in
    assert (U : is_unique b = ((cnt (is_strong a) l =? 1) && (cnt (is_weak a) l =? 0)));
    [ unfold is_unique; rewrite B1, B2; destruct (0 <? cnt (is_strong a) l) eqn:?; lia | rewrite E1, E2, U; clear U ] end.

Lemma weak_sum l a : cnt (is_weak a) l + (if 0 <? cnt (is_strong a) l then 1 else 0) <= Z.of_nat (length l).
Proof.
  assert (T : cnt (is_strong a) l + cnt (is_weak a) l <= Z.of_nat (length l)).
  { induction l as [|k l IH]; [unfold cnt; cbn; lia|]. rewrite !cnt_cons. cbn [length]. unfold is_strong at 1, is_weak at 1.
    destruct (counts k), (sk k); cbn [andb b2z]; try destruct (Nat.eqb a a0); cbn [b2z]; lia. }
  pose proof (cnt_nonneg (is_strong a) l). destruct (Z.ltb_spec 0 (cnt (is_strong a) l)); lia.
Qed.

Lemma step_rel t s p o : valid_target t -> rel t s p -> rop_ok t o -> room t s ->
  (forall i, o = RUpgrade i -> snd (rstep t s o) <> APanic) ->
  agree t (rstep t s o) (sstep t p o).
Proof.
  intros V R OK RM UP. pose proof (rel_len t s p R) as LEN.
  destruct o; cbn [rop_ok] in OK; unfold agree; cbn [rstep sstep].
  - (* new *) fresh_handle R i; [|destruct TR as (_ & TK & _); rewrite TK; cbn [kkind sk]; invalid..|invalid].
    pose proof TR as (_ & TK & TV & _). cbn [kkind kview sk] in TK, TV. rewrite TK.
    destruct OK as (TL & VL). destruct (rc_layout_facts t l V TL) as (_ & _ & _ & P & _ & _ & Z & _).
    rewrite (holds_fits u _ P). unfold rc_new. rewrite TV. unfold v_cast.
    destruct (v_fits u (rc_layout t l)) eqn:F; cbv iota; cbn [negb unwrap obind].
    + split; cc; [|reflexivity]. apply rel_log. unfold set_box, set_tok; cbn [rtoks rheap rdropping rlog uptr].
      apply rel_core; [exact R| |].
      * destruct R as (K & _). eapply core_new; eauto.
        -- eapply tok_rel_new; eauto.
        -- apply v_fits_iff in F; [lia|exact P].
        -- intros q D. apply hset_other. exact D.
        -- apply hset_same.
      * split; [rewrite app_length; lia|]. intros a L. unfold al. rewrite app_nth1 by lia. reflexivity.
    + split; cc; [|reflexivity]. apply rel_log. unfold set_tok, s_set. apply rel_core; [exact R| |apply same_regs_refl].
      destruct R as (K & _). eapply core_mem; eauto; try reflexivity. apply tok_rel_stat. exact TR.
  - (* clone *)
    fresh_handle R i; [destruct TR as (_ & TK & _); rewrite TK; cbn [kkind sk]; invalid| | |destruct TR as (_ & TK & _); rewrite TK; cbn [kkind sk]; invalid|invalid].
    + pose proof TR as (TS & TK & _). cbn [kkind sk] in TK, TS. rewrite TK. getbox R NS TR. countfacts p a NS.
      destruct (count_all p a) as (E1 & E2). rewrite E1. unfold inc_strong. rewrite op_add1, B1.
      assert (CR : cnt (is_raw a) (stoks p) = 0) by lia. rewrite CR, Z.add_0_r in *.
      destruct (Z.ltb_spec (cnt (is_strong a) (stoks p)) (usize_max t)) as [L|L]; cbn [obind].
      * split; cc; [|rewrite LEN; reflexivity]. eapply rel_add; [exact V|exact R|exact NS|reflexivity|exact TR|reflexivity|exact TR|]. arith.
      * destruct RM as [RM|RM]; [rewrite RM; cbn [obind]; invalid|lia].
    + pose proof TR as (TS & TK & _). cbn [kkind sk] in TK, TS. rewrite TK. getbox R NS TR. countfacts p a NS.
      destruct (count_all p a) as (E1 & E2). unfold weak_pointers. rewrite E1, E2. unfold inc_weak. rewrite op_add1, B2.
      assert (CR : cnt (is_raw a) (stoks p) = 0) by lia. rewrite CR, Z.add_0_r in *.
      pose proof (weak_sum (stoks p) a) as SUM.
      match goal with |- context [?x <? usize_max t] => destruct (Z.ltb_spec x (usize_max t)) as [L|L] end; cbn [obind].
      * split; cc; [|rewrite LEN; reflexivity]. eapply rel_add; [exact V|exact R|exact NS|reflexivity|exact TR|reflexivity|exact TR|]. arith.
      * destruct RM as [RM|RM]; [rewrite RM; cbn [obind]; invalid|lia].
  - (* downgrade *)
    fresh_handle R i; [notk|strong| notk|notk|invalid].
    unfold weak_pointers. rewrite E1, E2. unfold inc_weak. rewrite op_add1, B2.
    pose proof (weak_sum (stoks p) a) as SUM.
    match goal with |- context [?x <? usize_max t] => destruct (Z.ltb_spec x (usize_max t)) as [L|L] end; cbn [obind].
    + split; cc; [|rewrite LEN; reflexivity]. eapply rel_add; [exact V|exact R|exact NS|reflexivity|exact TR|reflexivity|exact (tok_rel_kind t _ tk _ (SWeak a) a TR eq_refl eq_refl)|]. arith.
    + destruct RM as [RM|RM]; [rewrite RM; cbn [obind]; invalid|lia].
  - (* upgrade *)
    specialize (UP i eq_refl). cbn [rstep] in UP.
    fresh_handle R i; [notk|notk|rewrite TT in UP|notk|invalid].
    pose proof TR as (TS & TK & _). cbn [kkind sk] in TK, TS. rewrite TK in *. unfold at_box in UP. getbox R NS TR. rewrite HB in UP. countfacts p a NS.
    destruct (count_all p a) as (E1 & E2). rewrite E1. assert (CR : cnt (is_raw a) (stoks p) = 0) by lia. rewrite CR, Z.add_0_r in *.
    unfold weak_upgrade, inc_strong in *. rewrite op_add1, B1 in *.
    destruct (Z.eqb_spec (cnt (is_strong a) (stoks p)) 0) as [Z0|Z0].
    + split; cc; [|reflexivity]. eapply rel_box_same; [exact R|exact NS|reflexivity|exact TR|exact HB].
    + destruct (Z.ltb_spec (cnt (is_strong a) (stoks p)) (usize_max t)) as [L|L]; cbn [obind] in *.
      * split; cc; [|rewrite LEN; reflexivity]. eapply rel_add; [exact V|exact R|exact NS|reflexivity|exact TR|reflexivity|exact (tok_rel_kind t _ tk _ (SStrong a) a TR eq_refl eq_refl)|]. arith.
      * destruct RM as [RM|RM]; [|lia]. rewrite RM in *. cbn [obind snd] in UP. congruence.
  - (* drop *)
    fresh_handle R i; [| | | |invalid].
    + pose proof TR as (_ & TK & _). cbn [kkind sk] in TK. rewrite TK. split; cc; [|reflexivity].
      unfold set_tok, s_set. apply rel_core; [exact R| |apply same_regs_refl].
      destruct R as (K & _). eapply core_mem; eauto; try reflexivity. apply tok_rel_stat. exact TR.
    + strong. unfold rc_drop, dec_strong. rewrite B1, op_sub1 by lia. cbn [obind bstrong].
      assert ((cnt (is_strong a) (stoks p) - 1 =? 0) = (cnt (is_strong a) (stoks p) =? 1)) as -> by lia.
      rewrite E1. destruct (Z.eqb_spec (cnt (is_strong a) (stoks p)) 1) as [Z1|Z1].
      * unfold dec_weak. cbn [bweak]. destruct (Z.ltb_spec 0 (cnt (is_strong a) (stoks p))) as [Z2|Z2]; [|lia].
        rewrite op_sub1 by lia. cbn [obind bval]. split; cc; [|reflexivity].
        assert (bval b = aval (alloc_of p a)) as <- by (apply B3; lia).
        apply rel_drop_start.
        -- apply rel_log. eapply rel_set; [exact V|exact R|exact NS|reflexivity|exact TR|reflexivity|apply tok_rel_stat; exact TR|]. arith.
        -- destruct TR as (_ & _ & _ & _ & T5). apply T5.
        -- exact W.
      * split; cc; [|reflexivity]. eapply rel_set; [exact V|exact R|exact NS|reflexivity|exact TR|reflexivity|apply tok_rel_stat; exact TR|]. arith.
    + pose proof TR as (TS & TK & _). cbn [kkind sk] in TK, TS. rewrite TK. getbox R NS TR. countfacts p a NS.
      assert (CR : cnt (is_raw a) (stoks p) = 0) by lia. rewrite CR, Z.add_0_r in *.
      unfold dec_weak. rewrite op_sub1; [|rewrite B2; destruct (0 <? _); lia]. cbn [obind]. split; cc; [|reflexivity].
      eapply rel_set; [exact V|exact R|exact NS|reflexivity|exact TR|reflexivity|apply tok_rel_stat; exact TR|]. arith.
    + pose proof TR as (TS & TK & _). cbn [kkind sk] in TK, TS. rewrite TK. countfacts p a NS.
      split; cc; [|reflexivity]. eapply rel_set_same; [exact V|exact R|exact NS|reflexivity|exact TR|reflexivity|apply tok_rel_stat; exact TR|].
      intros b HB. destruct (handle_box _ _ _ _ _ _ _ R NS eq_refl TR) as (W & b1 & HB1 & B1 & B2 & B3 & B4).
      rewrite HB in HB1. injection HB1 as <-. cbn zeta in *. arith.
  - (* destructor done *)
    destruct R as (K & L & D & F). destruct (sdropping p) as [|a d] eqn:SD; cbn [map] in D; rewrite D; cc.
    + split; [|reflexivity]. unfold rel. rewrite SD. cbn [map]. auto.
    + split; [|reflexivity]. inversion F; subst. unfold rel; cbn [rtoks rheap rlog rdropping stoks sallocs slog sdropping]. auto.
  - (* forget *)
    fresh_handle R i; [| | | |invalid]; (split; cc; [|reflexivity]).
    + unfold set_tok, s_set. apply rel_core; [exact R| |apply same_regs_refl].
      destruct R as (K & _). eapply core_mem; eauto; try reflexivity. apply tok_rel_stat. exact TR.
    + eapply rel_set_same; [exact V|exact R|exact NS|reflexivity|exact TR|reflexivity|apply tok_rel_stat; exact TR|]. forgotten.
    + eapply rel_set_same; [exact V|exact R|exact NS|reflexivity|exact TR|reflexivity|apply tok_rel_stat; exact TR|]. forgotten.
    + eapply rel_set_same; [exact V|exact R|exact NS|reflexivity|exact TR|reflexivity|apply tok_rel_stat; exact TR|]. forgotten.
  - (* deref *)
    fresh_handle R i; [notk|strong|notk|notk|invalid].
    split; cc; [exact R|]. f_equal. apply B3. lia.
  - (* get_mut *)
    fresh_handle R i; [notk|strong|notk|notk|invalid].
    assert (BV : bval b = aval (alloc_of p a)) by (apply B3; lia).
    unique E1 E2 B1 B2. destruct ((_ =? 1) && (_ =? 0)); [|invalid].
    destruct w as [v|]; cc; rewrite BV; (split; [|reflexivity]); [|exact R].
    cc. apply rel_log. eapply rel_value; [exact V|exact R|exact NS|reflexivity|exact TR|exact HB].
  - (* into_raw *)
    fresh_handle R i; [notk|strong|notk|notk|invalid].
    unfold rc_into_raw. unique E1 E2 B1 B2. destruct ((cnt (is_strong a) (stoks p) =? 1) && (cnt (is_weak a) (stoks p) =? 0)) eqn:Q; cbn [negb]; [|invalid].
    pose proof TR as (_ & _ & _ & T4 & (_ & TL & F)). destruct (T4 eq_refl) as (_ & M0).
    unfold v_cast. assert (v_fits (from_memory (uptr (tview tk)) (ulen (tview tk))) (tlay tk) = true) as ->
      by (apply (v_fits_sub t (tlay tk) (tview tk)) in F; auto).
    cbn [negb unwrap obind from_memory uptr ulen]. split; cc; [|reflexivity].
    assert (MkView (uptr (tview tk)) (ulen (tview tk)) 0 = tview tk) as -> by (destruct (tview tk); cbn in *; congruence).
    eapply rel_set_same; [exact V|exact R|exact NS|reflexivity|exact TR|reflexivity|exact (tok_rel_kind t _ tk _ (SRaw a) a TR eq_refl eq_refl)|].
    intros b' HB'. rewrite HB in HB'. injection HB' as <-. arith.
  - (* from_raw *)
    fresh_handle R i; [notk|notk|notk| |invalid].
    pose proof TR as (TS & TK & _ & T4 & (_ & TL & F)). destruct (T4 eq_refl) as (_ & M0). cbn [kkind sk] in TK. rewrite TK. countfacts p a NS.
    unfold rc_from_raw, v_cast. rewrite F, orb_true_r. cbv iota. cbn [negb unwrap obind]. split; cc; [|reflexivity].
    assert (MkView (uptr (tview tk)) (ulen (tview tk)) 0 = tview tk) as -> by (destruct (tview tk); cbn in *; congruence).
    eapply rel_set_same; [exact V|exact R|exact NS|reflexivity|exact TR|reflexivity|exact (tok_rel_kind t _ tk _ (SStrong a) a TR eq_refl eq_refl)|].
    intros b HB. destruct (handle_box _ _ _ _ _ _ _ R NS eq_refl TR) as (W & b1 & HB1 & B1 & B2 & B3 & B4).
    rewrite HB in HB1. injection HB1 as <-. cbn zeta in *. arith.
  - (* raw replace *)
    fresh_handle R i; [notk|notk|notk| |invalid].
    pose proof TR as (TS & TK & _). cbn [kkind sk] in TK. rewrite TK. getbox R NS TR. countfacts p a NS.
    assert (BV : bval b = aval (alloc_of p a)) by (apply B3; lia). rewrite BV. split; cc; [|reflexivity].
    apply rel_log. eapply rel_value; [exact V|exact R|exact NS|reflexivity|exact TR|exact HB].
  - (* raw take *)
    fresh_handle R i; [notk|notk|notk| |invalid].
    pose proof TR as (TS & TK & _). cbn [kkind sk] in TK. rewrite TK. getbox R NS TR. countfacts p a NS.
    assert (BV : bval b = aval (alloc_of p a)) by (apply B3; lia). rewrite BV. split; cc; [|reflexivity].
    apply rel_log. change (decast (tview tk)) with (from_memory (uptr (tview tk)) (ulen (tview tk))).
    eapply rel_release; [exact V|exact R|exact NS|reflexivity|exact TR|lia].
  - (* try_unwrap *)
    fresh_handle R i; [notk|strong|notk|notk|invalid].
    unfold rc_try_unwrap. rewrite B1, E1. destruct (Z.eqb_spec (cnt (is_strong a) (stoks p)) 1) as [Z1|Z1]; cbn [negb]; [|invalid].
    unfold dec_strong. rewrite op_sub1 by lia. cbn [obind bval].
    assert (BV : bval b = aval (alloc_of p a)) by (apply B3; lia). rewrite <- BV. split; cc; [|reflexivity].
    apply rel_log. eapply rel_set; [exact V|exact R|exact NS|reflexivity|exact TR|reflexivity|exact (tok_rel_kind t _ tk _ (SWeak a) a TR eq_refl eq_refl)|]. arith.
  - (* weak try_unwrap *)
    fresh_handle R i; [notk|notk| |notk|invalid].
    pose proof TR as (TS & TK & _). cbn [kkind sk] in TK, TS. rewrite TK. getbox R NS TR. countfacts p a NS.
    destruct (count_all p a) as (E1 & E2). rewrite E1, E2. assert (CR : cnt (is_raw a) (stoks p) = 0) by lia. rewrite CR, Z.add_0_r in *.
    unfold weak_try_unwrap, is_unique_to_rc_memory. rewrite B1, B2.
    destruct (Z.eqb_spec (cnt (is_strong a) (stoks p)) 0) as [Z0|Z0]; cbn [andb negb]; [|invalid].
    rewrite Z0. cbn [Z.ltb Z.compare]. rewrite Z.add_0_r.
    destruct (Z.eqb_spec (cnt (is_weak a) (stoks p)) 1) as [Z1|Z1]; cbn [negb]; [|invalid].
    unfold dec_weak. rewrite op_sub1; [|rewrite B2, Z0; cbn; lia]. cbn [obind]. split; cc; [|reflexivity].
    eapply rel_release; [exact V|exact R|exact NS|reflexivity|exact TR|lia].
  - (* strong_count *)
    fresh_handle R i; [notk|strong| |notk|invalid].
    + split; cc; [exact R|]. rewrite B1. reflexivity.
    + pose proof TR as (TS & TK & _). cbn [kkind sk] in TK, TS. rewrite TK. getbox R NS TR. countfacts p a NS.
      split; cc; [exact R|]. rewrite B1. replace (cnt (is_raw a) (stoks p)) with 0 by lia. rewrite Z.add_0_r. reflexivity.
  - (* weak_count *)
    fresh_handle R i; [notk|strong| |notk|invalid].
    + split; cc; [exact R|]. rewrite B2. reflexivity.
    + pose proof TR as (TS & TK & _). cbn [kkind sk] in TK, TS. rewrite TK. getbox R NS TR. countfacts p a NS.
      split; cc; [exact R|]. rewrite B2. replace (cnt (is_raw a) (stoks p)) with 0 by lia. rewrite Z.add_0_r. reflexivity.
  - (* ptr_eq *)
    pose proof (tok_stok _ _ _ i R) as T1. pose proof (tok_stok _ _ _ j R) as T2.
    destruct (stok p i) as [ki|]; [|rewrite T1; invalid].
    destruct T1 as (tk & TT & NT & NS & TR). rewrite TT.
    destruct (stok p j) as [kj|]; [|rewrite T2; destruct ki; invalid].
    destruct T2 as (tk' & TT' & NT' & NS' & TR'). rewrite TT'.
    pose proof TR as (_ & TK & _). pose proof TR' as (_ & TK' & _). cbn [sk] in TK, TK'. rewrite TK, TK'.
    destruct ki as [u|a|a|a], kj as [u'|c|c|c]; cbn [kkind]; try invalid.
    split; cc; [exact R|]. f_equal.
    destruct (handle_box _ _ _ _ _ _ _ R NS eq_refl TR) as (W & _). destruct (handle_box _ _ _ _ _ _ _ R NS' eq_refl TR') as (W' & _).
    rewrite W, W'. destruct (Nat.eqb_spec a c) as [-> | D]; [apply Z.eqb_refl|].
    apply Z.eqb_neq. destruct R as (K & _). eapply (addr_inj t _ _ _ _ i _ a j _ c V K NS); eauto; split; reflexivity.
Qed.

(** ** Histories *)

Lemma upgrade_fine t s p i : valid_target t -> rel t s p -> Z.of_nat (length (rtoks s)) < usize_max t ->
  snd (rstep t s (RUpgrade i)) <> APanic.
Proof.
  intros V R L. pose proof (rel_len t s p R) as LEN. cbn [rstep]. fresh_handle R i;
    [destruct TR as (_ & TK & _); rewrite TK; cbn; discriminate|destruct TR as (_ & TK & _); rewrite TK; cbn; discriminate| |
     destruct TR as (_ & TK & _); rewrite TK; cbn; discriminate|cbn; discriminate].
  pose proof TR as (TS & TK & _). cbn [kkind sk] in TK, TS. rewrite TK. getbox R NS TR. countfacts p a NS.
  unfold weak_upgrade, inc_strong. rewrite op_add1. destruct (Z.eqb_spec (bstrong b) 0); [cbn; discriminate|].
  assert ((bstrong b <? usize_max t) = true) as -> by lia. cbn. discriminate.
Qed.

Lemma rstep_len t s o : (length (rtoks (fst (rstep t s o))) <= S (length (rtoks s)))%nat.
Proof.
  assert (U : forall i k, length (upd_nth i k (rtoks s)) = length (rtoks s)).
  { intros i k. generalize (rtoks s) as l. intros l. revert i. induction l as [|y l IH]; intros [|i]; cbn; auto. }
  destruct o; cbn [rstep]; unfold at_box;
    repeat match goal with
    | |- context [match ?x with _ => _ end] => destruct x
    | |- context [let (_, _) := ?x in _] => destruct x
    end; cbn [fst rtoks logs set_box set_tok add_tok]; rewrite ?app_length, ?U; cbn [length]; lia.
Qed.

Lemma run_rel t os : valid_target t -> forall s p, rel t s p -> Forall (rop_ok t) os ->
  (debug t = true \/ Z.of_nat (length (rtoks s) + length os) < usize_max t) -> upgrades_return t s os ->
  rel t (fst (rrun t s os)) (fst (srun t p os)) /\ snd (rrun t s os) = snd (srun t p os).
Proof.
  intros V. induction os as [|o os IH]; intros s p R F B U; [split; [exact R|reflexivity]|].
  inversion F as [|? ? F1 F2]; subst.
  assert (RM : room t s) by (destruct B as [B|B]; [left; exact B|right; cbn [length] in B; lia]).
  assert (UP : forall i, o = RUpgrade i -> snd (rstep t s o) <> APanic).
  { intros i -> E. apply (U O i eq_refl). cbn [rrun]. destruct (rstep t s (RUpgrade i)) as [s1 a1], (rrun t s1 os). cbn in *. congruence. }
  destruct (step_rel t s p o V R F1 RM UP) as (R1 & A1). cbn [rrun srun].
  pose proof (rstep_len t s o) as LN.
  assert (U1 : upgrades_return t (fst (rstep t s o)) os).
  { intros n i N E. apply (U (S n) i N). cbn [rrun]. destruct (rstep t s o) as [s1 a1]. cbn [fst] in *. destruct (rrun t s1 os) as [s2 r2]. cbn [snd nth_error] in *. exact E. }
  destruct (rstep t s o) as [s1 a1], (sstep t p o) as [p1 a2]. cbn [fst snd] in *.
  destruct (IH s1 p1 R1 F2) as (R2 & A2); [destruct B as [B|B]; [left; exact B|right; cbn [length] in B; lia]|exact U1|].
  destruct (rrun t s1 os), (srun t p1 os). cbn [fst snd] in *. split; [exact R2|congruence].
Qed.

Lemma init_rel t us : memories t us -> rel t (rinit us) (sinit us).
Proof.
  intros (F & P). unfold rel, rinit, sinit; cbn [rtoks rheap rlog rdropping stoks sallocs slog sdropping map].
  split; [|auto]. constructor.
  - clear P. induction us as [|u us IH]; cbn [map]; constructor; inversion F; subst; auto.
    unfold tok_rel; cbn. repeat split; auto; apply H1.
  - intros i j x y D N M _ _. right. rewrite nth_error_map in N, M.
    destruct (nth_error us i) as [u|] eqn:Ni; [|discriminate]. destruct (nth_error us j) as [w|] eqn:Nj; [|discriminate].
    cbn in N, M. injection N as <-. injection M as <-. cbn [sk kview].
    apply (P i j); auto; rewrite nth_error_map; [rewrite Ni|rewrite Nj]; reflexivity.
  - intros a. unfold box_ok. cbn zeta. intros U. destruct (used_handle _ a U) as (i & x & N & (_ & Hx)).
    rewrite nth_error_map in N. destruct (nth_error us i); [|discriminate]. cbn in N. injection N as <-. discriminate.
Qed.

Lemma short_upgrades t us os : valid_target t -> memories t us -> Forall (rop_ok t) os -> short t us os ->
  upgrades_return t (rinit us) os.
Proof.
  intros V M F S. unfold short in S.
  assert (L : length (rtoks (rinit us)) = length us) by (cbn; apply map_length). rewrite <- L in S. clear L.
  pose proof (init_rel t us M) as R. revert R S. generalize (rinit us) (sinit us).
  induction os as [|o os IH]; intros s p R S n i N; [destruct n; discriminate|].
  inversion F as [|? ? F1 F2]; subst.
  assert (LT : Z.of_nat (length (rtoks s)) < usize_max t) by (cbn [length] in S; lia).
  assert (UP : forall i, o = RUpgrade i -> snd (rstep t s o) <> APanic) by (intros ? ->; eapply upgrade_fine; eauto).
  destruct (step_rel t s p o V R F1 (or_intror LT) UP) as (R1 & _).
  pose proof (rstep_len t s o) as LN. cbn [rrun].
  specialize (IH F2 (fst (rstep t s o)) _ R1). 
  destruct (rstep t s o) as [s1 a1] eqn:E. cbn [fst snd] in *. destruct n as [|n]; cbn [nth_error] in N.
  - destruct (rrun t s1 os). cbn [snd nth_error]. injection N as ->. specialize (UP i eq_refl). congruence.
  - cbn [length] in S. assert (S1 : Z.of_nat (length (rtoks s1) + length os) < usize_max t) by lia.
    specialize (IH S1 n i N). destruct (rrun t s1 os). cbn [snd nth_error] in *. exact IH.
Qed.

Theorem refine_short t us os : valid_target t -> memories t us -> Forall (rop_ok t) os -> short t us os ->
  rel t (fst (rrun t (rinit us) os)) (fst (srun t (sinit us) os)) /\ snd (rrun t (rinit us) os) = snd (srun t (sinit us) os).
Proof.
  intros V M F S. apply run_rel; auto.
  - apply init_rel; exact M.
  - right. unfold short in S. cbn. rewrite map_length. exact S.
  - apply short_upgrades; auto.
Qed.
