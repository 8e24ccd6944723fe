(** * Proofs about levels as stamps. *)
From Verif Require Import Base Spec BaseFacts SyncModel SyncSpec SyncProofs ConcModel ConcSpec ConcProofs.
From Verif Require Import RelaxedModel RelaxedSpec RelaxedProofs PlanProofs PlanSpec StampSpec.

Lemma grants_app h1 h2 : grants (h1 ++ h2) = grants h1 ++ grants h2.
Proof. induction h1 as [|e h IH]; cbn [app grants]; [reflexivity|]. destruct (granted e); rewrite IH; reflexivity. Qed.

Lemma stacked_snoc st u gs v g w :
  stacked st u gs v -> stacked st v [g] w -> stacked st u (gs ++ [g]) w.
Proof. induction 1; intros Hg; cbn [app]; [exact Hg|]. econstructor; eauto. Qed.

(** no raccess reports the level it was told to expect as a mismatch *)
Lemma mismatch_differs t st m c guess k v m' k' o lv :
  raccess t st m c guess k v = Some (m', k', Done c (RFail (Mismatch o))) -> named_level c = Some lv -> o <> lv.
Proof.
  destruct c as [l|l lv0|l|l lv0| |]; cbn [named_level]; intros H [= <-].
  - cbn [raccess] in H. destruct (prepare t st l lv0) as [[|e new aa]|msg] eqn:P; try discriminate.
    assert (e = lv0) as ->.
    { unfold prepare in P. repeat match type of P with context [if ?b then _ else _] => destruct b; cbn in P; try discriminate end.
      repeat match type of P with context [unwrap ?a ?b] => destruct b; cbn in P; try discriminate end.
      repeat match type of P with context [if ?b then _ else _] => destruct b; cbn in P; try discriminate end.
      all: repeat match type of P with context [unwrap ?a ?b] => destruct b; cbn in P; try discriminate end.
      all: repeat match type of P with context [if ?b then _ else _] => destruct b; cbn in P; try discriminate end.
      all: congruence. }
    unfold relaxed_cas in H. destruct (Z.eqb_spec v lv0) as [E|E].
    + destruct (Nat.eqb _ _); [|discriminate]. destruct (finish st new aa); discriminate.
    + injection H as _ _ H. congruence.
  - cbn [raccess] in H. destruct (lsize l =? 0).
    + cbn [for_zst alevel] in H. destruct (Z.eqb_spec v lv0) as [E|E]; cbn [negb] in H; [discriminate|]. injection H as _ _ H. congruence.
    + destruct (prepare t st l lv0) as [[|e new aa]|msg] eqn:P; try discriminate.
      assert (e = lv0) as ->.
      { unfold prepare in P. repeat match type of P with context [if ?b then _ else _] => destruct b; cbn in P; try discriminate end.
        repeat match type of P with context [unwrap ?a ?b] => destruct b; cbn in P; try discriminate end.
        repeat match type of P with context [if ?b then _ else _] => destruct b; cbn in P; try discriminate end.
        all: repeat match type of P with context [unwrap ?a ?b] => destruct b; cbn in P; try discriminate end.
        all: repeat match type of P with context [if ?b then _ else _] => destruct b; cbn in P; try discriminate end.
        all: congruence. }
      unfold relaxed_cas in H. destruct (Z.eqb_spec v lv0) as [E|E].
      * destruct (Nat.eqb _ _); [|discriminate]. destruct (finish st new aa); discriminate.
      * injection H as _ _ H. congruence.
Qed.

Record sinv (st : block) (s : rsys) : Prop := {
  si_mo : mo s = 0 :: map (fun g => alevel (g_alloc g)) (grants (rhistory s));
  si_stack : stacked st 0 (grants (rhistory s)) (latest s);
  si_done : forall i c r, rthreads s i = Done c r -> In (ELin i c r) (rhistory s);
  si_ret : forall i c r, In (ERet i c r) (rhistory s) -> In (ELin i c r) (rhistory s);
  si_lin : forall i c r lv, In (ELin i c r) (rhistory s) -> event_level (c, r) = Some lv -> In lv (mo s);
  si_mis : forall i c o lv, In (ELin i c (RFail (Mismatch o))) (rhistory s) -> named_level c = Some lv -> o <> lv }.

Lemma sinv_init st : sinv st rinit.
Proof. split; cbn; try discriminate; try tauto; constructor. Qed.

Lemma sinv_quiet st s s' e :
  sinv st s -> mo s' = mo s -> rhist s' = e :: rhist s -> granted e = None ->
  (forall i c r, rthreads s' i = Done c r -> In (ELin i c r) (rhistory s')) ->
  (forall i c r, e = ERet i c r -> In (ELin i c r) (rhistory s)) ->
  (forall i c r lv, e = ELin i c r -> event_level (c, r) = Some lv -> In lv (mo s)) ->
  (forall i c o lv, e = ELin i c (RFail (Mismatch o)) -> named_level c = Some lv -> o <> lv) ->
  sinv st s'.
Proof.
  intros [S1 S2 S3 S4 S5 S6] E1 E2 E3 E4 E5 E6 E7.
  assert (EH : rhistory s' = rhistory s ++ [e]) by (unfold rhistory; rewrite E2; reflexivity).
  assert (EG : grants (rhistory s') = grants (rhistory s)).
  { rewrite EH, grants_app. cbn [grants]. rewrite E3. apply app_nil_r. }
  split.
  - rewrite E1, EG. exact S1.
  - rewrite EG. unfold latest. rewrite E1. exact S2.
  - exact E4.
  - intros i c r. rewrite EH, !in_app_iff. intros [Hin|[He|[]]]; left; [apply S4; exact Hin|]. apply E5. exact He.
  - intros i c r lv. rewrite EH, in_app_iff, E1. intros [Hin|[He|[]]]; [eauto|]. eapply E6; exact He.
  - intros i c o lv. rewrite EH, in_app_iff. intros [Hin|[He|[]]]; [eauto|]. eapply E7; exact He.
Qed.

Lemma sinv_step t st s a :
  valid_target t -> valid_region t st -> valid_raction t a -> rinv t st s -> sinv st s -> sinv st (rstep t st s a).
Proof.
  intros Ht Hst Ha Hinv Hs. pose proof Hs as [S1 S2 S3 S4 S5 S6]. destruct a as [i c|i k|i]; cbn [rstep].
  - destruct (rthreads s i) as [|c0 g0|c0 r0] eqn:Hi; [|exact Hs|exact Hs].
    eapply (sinv_quiet st s); try reflexivity; [exact Hs| | | |]; try discriminate.
    intros j c1 r1. cbn [rthreads]. unfold upd. destruct (Nat.eqb_spec j i); [discriminate|]. intros Hj.
    unfold rhistory. cbn [rhist rev]. apply in_or_app. left. apply S3. exact Hj.
  - destruct (rthreads s i) as [|c g|c0 r0] eqn:Hi; [exact Hs| |exact Hs].
    destruct (nth_error (mo s) k) as [v|] eqn:Hk; [|exact Hs].
    destruct (Nat.leb_spec (views s i) k) as [Hview|_]; [|exact Hs].
    destruct (raccess t st (mo s) c g k v) as [[[m' k'] ts]|] eqn:Hacc; [|exact Hs].
    destruct Hinv as [I1 I2 I3 I4 I5 _ _ _ _ _ _ _ _ _].
    destruct (I5 i c g Hi) as (Hvc & Hres & kg & Hkg & Hkgv).
    pose proof (increasing_mono (mo s) 0 kg 0 g I1 ltac:(lia) I2 Hkg) as Hg0.
    pose proof (increasing_le_last (mo s) kg g I1 Hkg) as Hg1.
    pose proof (increasing_le_last (mo s) 0 0 I1 I2) as Hl0.
    pose proof (raccess_cases t st (mo s) c g k v _ Ht Hst Hvc Hres I1 Hk (conj Hg0 Hg1) I3 Hacc) as Hcase.
    inversion Hcase as [l Hcl Hpos HSk Hv Hf Hsp Heq1|Hloop Hne Heq1|r Hr1 Hr2 Hr3 Hr4 Hr5 Hr6 Heq1]; subst m' k' ts.
    + pose proof (call_layout_valid t c l Hvc Hcl) as Hvl.
      set (cur' := consumed (bumped (at_level st (last (mo s) 0)) l)) in *.
      set (a := placed (at_level st (last (mo s) 0)) l) in *.
      set (s' := MkRsys _ _ _ _).
      assert (EH : rhistory s' = rhistory s ++ [ELin i c (RBlock a)]) by reflexivity.
      assert (GR : granted (ELin i c (RBlock a)) = Some (MkGrant i c l a)).
      { cbn [granted]. rewrite Hcl. destruct (Z.eqb_spec (lsize l) 0); [lia|reflexivity]. }
      assert (EG : grants (rhistory s') = grants (rhistory s) ++ [MkGrant i c l a]).
      { rewrite EH, grants_app. cbn [grants]. rewrite GR. reflexivity. }
      assert (AL : alevel a = cur') by reflexivity.
      split.
      * cbn [mo s']. rewrite EG, map_app. rewrite app_comm_cons, <- S1. reflexivity.
      * rewrite EG. eapply stacked_snoc; [exact S2|]. replace (latest s') with (alevel a) by (unfold latest, s'; cbn [mo]; rewrite last_last; reflexivity).
        constructor; cbn [g_call g_layout g_alloc]; auto.
        -- intros lv Hlv. change (latest s) with (last (mo s) 0).
           destruct c as [l0|l0 lv0|l0|l0 lv0| |]; cbn [named_level] in Hlv; try discriminate; injection Hlv as ->;
             cbn [call_layout] in Hcl; injection Hcl as ->; cbn [spec_step] in Hsp;
             (destruct (Z.eqb_spec (lsize l) 0); [lia|]); cbn [storage consumed at_level] in Hsp;
             (destruct (size st <? lv); [discriminate|]); (destruct (fitsb st lv l); [|discriminate]);
             (destruct (Z.eqb_spec (last (mo s) 0) lv); [lia|discriminate]).
        -- apply align_up_first. eapply valid_layout_align; eassumption.
        -- constructor.
      * intros j c1 r1. cbn [rthreads s']. unfold upd. rewrite EH, in_app_iff. destruct (Nat.eqb_spec j i) as [->|Hj].
        -- intros [= <- <-]. right. left. reflexivity.
        -- intros Hd. left. apply S3. exact Hd.
      * intros j c1 r1. rewrite EH, !in_app_iff. intros [Hin|[[=]|[]]]. left. apply S4. exact Hin.
      * intros j c1 r1 lv. rewrite EH, in_app_iff. cbn [mo s']. rewrite in_app_iff. intros [Hin|[[= <- <- <-]|[]]] Hlv.
        -- left. eapply S5; eassumption.
        -- right. left. unfold event_level in Hlv. cbn [snd] in Hlv. injection Hlv as <-. reflexivity.
      * intros j c1 o lv. rewrite EH, in_app_iff. intros [Hin|[[=]|[]]]. eapply S6; eassumption.
    + split; cbn [mo rhist]; unfold rhistory, latest in *; cbn [mo rhist]; try assumption.
      intros j c1 r1. cbn [rthreads]. unfold upd. destruct (Nat.eqb_spec j i); [discriminate|]. apply S3.
    + eapply (sinv_quiet st s); try reflexivity; [exact Hs| | | | |].
      * cbn [granted]. destruct r as [a| | | | |]; try reflexivity. unfold event_block in Hr2.
        destruct (call_layout c) as [l|]; [|reflexivity]. specialize (Hr2 _ eq_refl). cbn [size] in Hr2. rewrite Hr2. reflexivity.
      * intros j c1 r1. cbn [rthreads]. unfold upd, rhistory. cbn [rhist rev]. rewrite in_app_iff. destruct (Nat.eqb_spec j i) as [->|Hj].
        -- intros [= <- <-]. right. left. reflexivity.
        -- intros Hd. left. apply S3. exact Hd.
      * discriminate.
      * intros j c1 r1 lv [= <- <- <-] Hlv. rewrite (Hr1 lv Hlv). eapply nth_error_In; exact Hk.
      * intros j c1 o lv [= <- <- ->] Hlv. eapply mismatch_differs; eassumption.
  - destruct (rthreads s i) as [|c0 g0|c r] eqn:Hi; [exact Hs|exact Hs|].
    eapply (sinv_quiet st s); try reflexivity; [exact Hs| | | |]; try discriminate.
    + intros j c1 r1. cbn [rthreads]. unfold upd, rhistory. cbn [rhist rev]. rewrite in_app_iff.
      destruct (Nat.eqb_spec j i); [discriminate|]. intros Hd. left. apply S3. exact Hd.
    + intros j c1 r1 [= <- <- <-]. apply S3. exact Hi.
Qed.

Lemma sinv_run t st sched : valid_target t -> valid_region t st -> Forall (valid_raction t) sched ->
  rinv t st (rrun t st rinit sched) /\ sinv st (rrun t st rinit sched).
Proof.
  intros Ht Hst Hs.
  assert (G : forall s, rinv t st s -> sinv st s -> rinv t st (rrun t st s sched) /\ sinv st (rrun t st s sched)).
  { induction Hs as [|a sched Ha Hs IH]; intros s R S0; [split; assumption|]. cbn [rrun fold_left]. apply IH.
    - apply rinv_step; assumption.
    - eapply sinv_step; eassumption. }
  apply G; [apply rinv_init; exact Hst|apply sinv_init].
Qed.

(** ** Consequences *)
Lemma stacked_bound st u gs v : stacked st u gs v -> u <= v /\ Forall (fun g => u < alevel (g_alloc g) <= v /\ start st + u <= ptr (g_alloc g)) gs.
Proof.
  induction 1 as [u|u g gs v H1 H2 H3 H4 H5 H6 (IH1 & IH2)]; [split; [lia|constructor]|].
  destruct H4 as (P1 & _). split; [lia|]. constructor; [split; lia|].
  eapply Forall_impl; [|exact IH2]. cbn beta. intros g' (A & B). lia.
Qed.

Lemma stacked_inv st u g gs v : stacked st u (g :: gs) v ->
  (forall lv, named_level (g_call g) = Some lv -> lv = u) /\ first_aligned (start st + u) (lalign (g_layout g)) (ptr (g_alloc g)) /\
  alevel (g_alloc g) = ptr (g_alloc g) + lsize (g_layout g) - start st /\ 0 < lsize (g_layout g) /\ stacked st (alevel (g_alloc g)) gs v.
Proof. intros H. inversion H; subst. auto. Qed.

Lemma stacked_app st gs1 gs2 : forall u v, stacked st u (gs1 ++ gs2) v -> exists w, stacked st u gs1 w /\ stacked st w gs2 v.
Proof.
  induction gs1 as [|g gs IH]; cbn [app]; intros u v H.
  - exists u. split; [constructor|exact H].
  - inversion H as [|u0 g1 gs1 v1 K1 K2 K3 K4 K5 K6]; subst. destruct (IH _ _ K6) as (w & W1 & W2). exists w. split; [econstructor; eauto|exact W2].
Qed.

(** two grants of which the first is at the named level *)
Lemma stacked_apart st u gs v g g' lv : stacked st u gs v -> In g gs -> In g' gs -> named_level (g_call g) = Some lv ->
  g = g' \/ alevel (g_alloc g') <= lv \/ (alevel (g_alloc g) < alevel (g_alloc g') /\ start st + alevel (g_alloc g) <= ptr (g_alloc g')).
Proof.
  intros St H1 H2 Hn. destruct (in_split _ _ H1) as (l1 & l2 & ->). destruct (stacked_app _ _ _ _ _ St) as (w & W1 & W2).
  destruct (stacked_inv _ _ _ _ _ W2) as (K1 & K2 & K3 & K4 & K5). rewrite (K1 lv Hn) in *. apply in_app_or in H2. destruct H2 as [H2|[H2|H2]]; [|auto|].
  - right; left. destruct (stacked_bound _ _ _ _ W1) as (_ & B). rewrite Forall_forall in B. specialize (B _ H2). lia.
  - right; right. destruct (stacked_bound _ _ _ _ K5) as (_ & B). rewrite Forall_forall in B. specialize (B _ H2). lia.
Qed.

Lemma stacked_level_once st u gs v n m g g' lv : stacked st u gs v -> nth_error gs n = Some g -> nth_error gs m = Some g' ->
  named_level (g_call g) = Some lv -> named_level (g_call g') = Some lv -> n = m.
Proof.
  assert (G : forall n m g g', (n < m)%nat -> stacked st u gs v -> nth_error gs n = Some g -> nth_error gs m = Some g' ->
    named_level (g_call g) = Some lv -> named_level (g_call g') = Some lv -> False).
  { clear n m g g'. intros n m g g' L St H1 H2 N1 N2. destruct (nth_error_split _ _ H1) as (l1 & l2 & -> & Ln).
    destruct (stacked_app _ _ _ _ _ St) as (w & W1 & W2). destruct (stacked_inv _ _ _ _ _ W2) as (K1 & K2 & K3 & K4 & K5). rewrite <- (K1 lv N1) in *.
    rewrite nth_error_app2 in H2 by lia. destruct (m - length l1)%nat as [|k] eqn:E; [lia|]. cbn [nth_error] in H2.
    destruct (nth_error_split _ _ H2) as (l3 & l4 & -> & _).
    destruct (stacked_app _ _ _ _ _ K5) as (w2 & V1 & V2). destruct (stacked_inv _ _ _ _ _ V2) as (J1 & _). rewrite <- (J1 lv N2) in *.
    destruct (stacked_bound _ _ _ _ V1) as (B & _). destruct K2 as (P & _). lia. }
  intros St H1 H2 N1 N2. destruct (Nat.lt_trichotomy n m) as [L|[->|L]]; [|reflexivity|]; exfalso; eauto.
Qed.

Lemma stacked_reprC st u gs v : stacked st u gs v -> reprC (start st) u (map g_layout gs) (map grant_block gs).
Proof.
  induction 1; cbn [map]; [constructor|]. unfold grant_block at 1. econstructor; [exact H2|]. rewrite <- H3. exact IHstacked.
Qed.

(** ** The claims *)
Lemma stamp_chain t st sched : valid_target t -> valid_region t st -> Forall (valid_raction t) sched ->
  let h := rhistory (rrun t st rinit sched) in
  stacked st 0 (grants h) (latest (rrun t st rinit sched)) /\
  reprC (start st) 0 (map g_layout (grants h)) (map grant_block (grants h)).
Proof.
  intros Ht Hst Hs. destruct (sinv_run t st sched Ht Hst Hs) as (R & Q). cbv zeta. split; [apply Q|].
  eapply stacked_reprC. apply Q.
Qed.

Lemma ret_grant st s i c a l : sinv st s -> In (ERet i c (RBlock a)) (rhistory s) -> call_layout c = Some l -> lsize l <> 0 ->
  In (MkGrant i c l a) (grants (rhistory s)).
Proof.
  intros Q Hin Hl Hz. apply (si_ret st s Q) in Hin. destruct (in_split _ _ Hin) as (h1 & h2 & ->). rewrite grants_app.
  apply in_or_app. right. cbn [grants granted]. rewrite Hl. destruct (Z.eqb_spec (lsize l) 0); [congruence|]. left. reflexivity.
Qed.

Lemma stamp_exclusive t st sched i j c c' l l' a a' lv : valid_target t -> valid_region t st -> Forall (valid_raction t) sched ->
  let h := rhistory (rrun t st rinit sched) in
  In (ERet i c (RBlock a)) h -> call_layout c = Some l -> lsize l <> 0 -> named_level c = Some lv ->
  In (ERet j c' (RBlock a')) h -> call_layout c' = Some l' -> lsize l' <> 0 ->
  first_aligned (start st + lv) (lalign l) (ptr a) /\ alevel a = ptr a + lsize l - start st /\
  ((i = j /\ c = c' /\ a = a') \/ ptr a' + lsize l' <= start st + lv \/ ptr a + lsize l <= ptr a').
Proof.
  intros Ht Hst Hs h H1 L1 Z1 N1 H2 L2 Z2. destruct (sinv_run t st sched Ht Hst Hs) as (R & Q).
  pose proof (ret_grant _ _ _ _ _ _ Q H1 L1 Z1) as G1. pose proof (ret_grant _ _ _ _ _ _ Q H2 L2 Z2) as G2. pose proof (si_stack _ _ Q) as St.
  assert (EA : forall g, In g (grants (rhistory (rrun t st rinit sched))) -> alevel (g_alloc g) = ptr (g_alloc g) + lsize (g_layout g) - start st).
  { intros g Hg. destruct (in_split _ _ Hg) as (l1 & l2 & E). rewrite E in St. destruct (stacked_app _ _ _ _ _ St) as (w & _ & W2). apply (stacked_inv _ _ _ _ _ W2). }
  pose proof (EA _ G1) as E1. pose proof (EA _ G2) as E2. cbn in E1, E2. split; [|split; [exact E1|]].
  - destruct (in_split _ _ G1) as (l1 & l2 & E). rewrite E in St. destruct (stacked_app _ _ _ _ _ St) as (w & _ & W2).
    destruct (stacked_inv _ _ _ _ _ W2) as (K1 & K2 & _). cbn [g_call g_layout g_alloc] in K1, K2. rewrite (K1 _ N1). exact K2.
  - destruct (stacked_apart _ _ _ _ _ _ lv St G1 G2 N1) as [E|[E|E]]; cbn in E; [left; injection E; auto|right; left; lia|right; right; lia].
Qed.

Lemma stamp_one_winner t st sched n m g g' lv : valid_target t -> valid_region t st -> Forall (valid_raction t) sched ->
  let gs := grants (rhistory (rrun t st rinit sched)) in
  nth_error gs n = Some g -> nth_error gs m = Some g' -> named_level (g_call g) = Some lv -> named_level (g_call g') = Some lv -> n = m.
Proof.
  intros Ht Hst Hs gs. destruct (sinv_run t st sched Ht Hst Hs) as (R & Q). eapply stacked_level_once. apply Q.
Qed.

Lemma stamp_mismatch t st sched i c lv o : valid_target t -> valid_region t st -> Forall (valid_raction t) sched ->
  let h := rhistory (rrun t st rinit sched) in
  In (ERet i c (RFail (Mismatch o))) h -> named_level c = Some lv ->
  o <> lv /\ level_of_grant o (grants h) /\ (learned_before i lv c (RFail (Mismatch o)) h -> lv < o).
Proof.
  intros Ht Hst Hs h H1 N1. destruct (sinv_run t st sched Ht Hst Hs) as (R & Q). pose proof (si_ret _ _ Q _ _ _ H1) as L1.
  pose proof (si_mis _ _ Q _ _ _ _ L1 N1) as NE. split; [exact NE|]. split.
  - pose proof (si_lin _ _ Q _ _ _ o L1 eq_refl) as M. rewrite (si_mo _ _ Q) in M. destruct M as [<-|M]; [left; reflexivity|].
    apply in_map_iff in M. destruct M as (g & E & Hg). right. exists g. auto.
  - intros (h1 & h2 & E & Hin). destruct (ri_levels _ _ _ R i) as (ND & _). change (rhistory (rrun t st rinit sched)) with h in ND.
    rewrite E, thread_levels_app in ND. cbn [thread_levels] in ND. rewrite Nat.eqb_refl in ND. cbn [event_level snd] in ND.
    destruct (In_nth_error _ _ Hin) as (n & Hn).
    assert (lv <= o); [|lia]. apply (ND n (length (thread_levels i h1))).
    + apply nth_error_Some. congruence.
    + rewrite nth_error_app1; [exact Hn|]. apply nth_error_Some. congruence.
    + rewrite nth_error_app2, Nat.sub_diag by lia. reflexivity.
Qed.

(** and so for the code as it is *)
Lemma stamp_sc t st sched : Forall (valid_action t) sched -> exists l, Forall (valid_raction t) l /\
  rhistory (rrun t st rinit l) = history (sys_run t st sys_init sched) /\ latest (rrun t st rinit l) = counter (sys_run t st sys_init sched).
Proof.
  intros V. destruct (embeds_run t st sched _ _ embeds_init) as (l & _ & A & B). exists l. split; [auto|].
  split; [unfold rhistory, history; rewrite (em_hist _ _ B); reflexivity|apply (em_cnt _ _ B)].
Qed.

(** ** Real time *)
Lemma follows_to_split i h1 : forall p h2 q, follows_to i p (h1 ++ h2) q -> exists m, follows_to i p h1 m /\ follows_to i m h2 q.
Proof.
  induction h1 as [|e h IH]; cbn [app]; intros p h2 q F; [exists p; split; [constructor|exact F]|].
  inversion F as [|p0 e0 h0 q0 He Hf|c h0 q0 Hf|c r h0 q0 Hf|c r h0 q0 Hf]; subst; destruct (IH _ _ _ Hf) as (m & M1 & M2); exists m; (split; [|exact M2]).
  - apply ft_other; assumption.
  - apply ft_inv; assumption.
  - apply ft_lin; assumption.
  - apply ft_ret; assumption.
Qed.

Lemma follows_decides i c r h3 : forall p h4 q, follows_to i p (h3 ++ ERet i c r :: h4) q ->
  (forall c'' r'', ~ In (ERet i c'' r'') h3) -> p = PDecided c r \/ (exists c0, p = PInvoked c0 /\ In (ELin i c r) h3) \/ p = PIdle.
Proof.
  induction h3 as [|e h IH]; cbn [app]; intros p h4 q F N.
  - inversion F; subst; auto. cbn in *. congruence.
  - assert (N' : forall c'' r'', ~ In (ERet i c'' r'') h) by (intros c'' r'' X; apply (N c'' r''); right; exact X).
    inversion F as [|p0 e0 h0 q0 He Hf|c1 h0 q0 Hf|c1 r1 h0 q0 Hf|c1 r1 h0 q0 Hf]; subst; [| right; right; reflexivity| |].
    + destruct (IH _ _ _ Hf N') as [-> |[(c0 & -> & X)| ->]]; auto. right; left. exists c0. split; [reflexivity|right; exact X].
    + right; left. exists c1. split; [reflexivity|]. destruct (IH _ _ _ Hf N') as [E|[(c0 & E & X)|E]]; try discriminate. injection E as -> ->. left. reflexivity.
    + exfalso. apply (N c1 r1). left. reflexivity.
Qed.

Lemma levels_app h1 h2 : levels (h1 ++ h2) = levels h1 ++ levels h2.
Proof. induction h1 as [|e h IH]; cbn [app levels]; [reflexivity|]. destruct (event_level e); rewrite IH; reflexivity. Qed.

Lemma in_levels i c r lv h : In (ELin i c r) h -> event_level (c, r) = Some lv -> In lv (levels (lin_order h)).
Proof.
  intros Hin E. apply lin_order_in in Hin. destruct (in_split _ _ Hin) as (a & b & ->). rewrite levels_app. apply in_or_app. right.
  cbn [levels]. rewrite E. left. reflexivity.
Qed.

Lemma lin_no_reset t st sched : valid_target t -> valid_region t st -> Forall (valid_action t) sched ->
  no_reset (map fst (lin_order (history (sys_run t st sys_init sched)))).
Proof.
  intros Ht Hst Hs.
  assert (G : forall s, inv t st s -> no_reset (map fst (lin_order (history s))) -> no_reset (map fst (lin_order (history (sys_run t st s sched))))).
  { induction Hs as [|a sched Ha Hs IH]; intros s I0 N0; [exact N0|]. cbn [sys_run fold_left]. apply IH; [apply inv_step; assumption|].
    destruct a as [i c|i|i]; cbn [sys_step].
    - destruct (threads s i); [|exact N0|exact N0]. unfold history. cbn [hist rev]. rewrite lin_order_app. cbn [lin_order]. rewrite app_nil_r. exact N0.
    - destruct (threads s i) as [|c g|] eqn:Hi; [exact N0| |exact N0]. destruct (inv_running _ _ _ I0 _ _ _ Hi) as (_ & Hr & _).
      destruct (access t st (counter s) c g) as [cur' ts] eqn:Hacc.
      assert (C : forall c' r, ts = Done c' r -> c' = c).
      { intros c' r ->. clear - Hacc. destruct c as [l|l lv|l|l lv| |]; cbn [access] in Hacc; unfold access_alloc, access_alloc_at in Hacc.
        all: repeat match type of Hacc with context [if ?b =? 0 then _ else _] => destruct (b =? 0) end.
        all: repeat match type of Hacc with context [prepare ?a ?b ?c ?d] => destruct (prepare a b c d) as [[|? ? ?]|?] end.
        all: repeat match type of Hacc with context [compare_exchange ?a ?b ?c] => destruct (compare_exchange a b c) as [? [?|]] end.
        all: congruence. }
      unfold history. cbn [hist]. destruct ts as [|c' g'|c' r']; [exact N0|exact N0|]. cbn [rev]. rewrite lin_order_app. cbn [lin_order].
      rewrite map_app. apply Forall_app. split; [exact N0|]. constructor; [|constructor]. cbn [fst]. rewrite (C _ _ eq_refl). exact Hr.
    - destruct (threads s i); [exact N0|exact N0|]. unfold history. cbn [hist rev]. rewrite lin_order_app. cbn [lin_order]. rewrite app_nil_r. exact N0. }
  apply G; [apply inv_init; exact Hst|constructor].
Qed.

Lemma stamp_real_time t st sched a i c r b : valid_target t -> valid_region t st -> Forall (valid_action t) sched ->
  precedes (history (sys_run t st sys_init sched)) a i c r -> event_level (c, r) = Some b -> a <= b.
Proof.
  intros Ht Hst Hs (h1 & j & c' & r' & h2 & h3 & h4 & E & N & Ea) Eb.
  pose proof (inv_run t st sys_init sched Ht Hst Hs (inv_init t st Hst)) as Hinv. pose proof (lin_no_reset t st sched Ht Hst Hs) as NR.
  pose proof (inv_phase _ _ _ Hinv j) as Fj. pose proof (inv_phase _ _ _ Hinv i) as Fi. rewrite E in Fj, Fi.
  assert (Lj : In (ELin j c' r') h1).
  { destruct (follows_to_split _ _ _ _ _ Fj) as (m & M1 & M2). inversion M2 as [|p0 e0 h0 q0 He Hf|c1 h0 q0 Hf|c1 r1 h0 q0 Hf|c1 r1 h0 q0 Hf]; subst.
    - cbn in He. congruence.
    - assert (M3 : follows_to j PIdle (h1 ++ [ERet j c' r']) PIdle) by (eapply follows_to_app; [exact M1|]; repeat constructor).
      destruct (follows_ret_lin _ _ _ _ c' r' M3) as [X|X]; [apply in_or_app; right; left; reflexivity|discriminate|].
      apply in_app_or in X. destruct X as [X|[X|[]]]; [exact X|discriminate]. }
  assert (Li : In (ELin i c r) h3).
  { change (h1 ++ ERet j c' r' :: h2 ++ EInv i c :: h3 ++ ERet i c r :: h4) with (h1 ++ (ERet j c' r' :: h2) ++ EInv i c :: h3 ++ ERet i c r :: h4) in Fi.
    rewrite app_assoc in Fi. destruct (follows_to_split _ _ _ _ _ Fi) as (m & M1 & M2).
    inversion M2 as [|p0 e0 h0 q0 He Hf|c1 h0 q0 Hf|c1 r1 h0 q0 Hf|c1 r1 h0 q0 Hf]; subst; [cbn in He; congruence|].
    destruct (follows_decides _ _ _ _ _ _ _ Hf N) as [X|[(c0 & X & Y)|X]]; [discriminate|exact Y|discriminate]. }
  pose proof (inv_legal _ _ _ Hinv) as RL.
  assert (Hok : ok t (fresh st)) by (apply ok_fresh; exact Hst).
  pose proof (levels_sorted t (fresh st) _ Ht Hok (inv_valid _ _ _ Hinv) NR) as SO. rewrite RL in SO. cbn [snd] in SO.
  pose proof (in_levels _ _ _ _ _ Lj Ea) as Ja. pose proof (in_levels _ _ _ _ _ Li Eb) as Jb.
  rewrite E in SO. change (h1 ++ ERet j c' r' :: h2 ++ EInv i c :: h3 ++ ERet i c r :: h4) with (h1 ++ (ERet j c' r' :: h2) ++ (EInv i c :: h3) ++ ERet i c r :: h4) in SO.
  rewrite !lin_order_app, !levels_app in SO.
  destruct (In_nth_error _ _ Ja) as (na & Na). destruct (In_nth_error _ _ Jb) as (nb & Nb). set (L1 := levels (lin_order h1)) in *.
  set (L2 := levels (lin_order (ERet j c' r' :: h2))) in *. change (lin_order (EInv i c :: h3)) with (lin_order h3) in SO.
  assert (na < length L1)%nat by (apply nth_error_Some; congruence). assert (nb < length (levels (lin_order h3)))%nat by (apply nth_error_Some; congruence).
  apply (SO na (length L1 + length L2 + nb)%nat); [lia| |].
  - rewrite nth_error_app1 by lia. exact Na.
  - rewrite nth_error_app2 by lia. rewrite nth_error_app2 by lia. rewrite nth_error_app1 by lia.
    replace (length L1 + length L2 + nb - length L1 - length L2)%nat with nb by lia. exact Nb.
Qed.
