(** * TRcPolite: programs that use references as the borrow checker allows have no undefined behaviour under Tree Borrows. *)
From Verif Require Import Base Spec BaseFacts SyncModel SyncSpec RcModel RcProofs RcMemProofs BorrowModel BorrowSpec BorrowProofs BorrowState UBorrowModel EBorrowSlot RBorrowModel RBorrowSpec RBorrowBytes RBorrowOps RBorrowCalls RBorrowWorld RBorrowStep RBorrowPolite
  TBorrowModel EBorrowModel TreeModel TreeSpec TreeState TreeWorld TExitModel TExitSpec TExitState TExitOps TRcModel TRcSpec TRcOps TRcWorld TRcStep.

Section Mode.
Variables (t : target).
Hypothesis V : valid_target t.
Notation refs x := (q_refs x).
Notation val x := (in_block (q_val x)).

(** What the references that the client may use are like *)
Definition shared_ok (x : qbox) (q : qmode) (s : forest) : Prop := forall n, In n (shared_of q) -> ref_like (refs x) n s.
Definition mode_ok (x : qbox) (q : qmode) (s : forest) : Prop := match q with MShared _ => shared_ok x q s | MExcl n => wr s n (val x) end.

Lemma like_step x n B s s' : wf s -> step B s s' -> (forall y, val x y -> ~ B y) -> qtype_ok t (q_ty x) -> ref_like (refs x) n s -> ref_like (refs x) n s'.
Proof.
  intros W K D OK [L R]. pose proof (s_fresh _ _ _ K). split; [lia|]. intros y kd m Y I. rewrite (s_line _ _ _ K) in I by exact L. rewrite (s_out _ _ _ K); [eauto| |].
  - apply D. unfold kind_at in Y. destruct (find _ (refs x)) as [[kd0 b]|] eqn:E; [|discriminate]. apply find_some in E. destruct E as [E1 E2]. apply inb_iff in E2. apply (refs_val t x OK kd0 b y E1 E2).
  - eapply wf_line; eauto.
Qed.
Lemma like_see x n s s' : wf s -> qtype_ok t (q_ty x) -> see t x s s' -> ref_like (refs x) n s -> ref_like (refs x) n s'.
Proof.
  intros W OK [K Kp] [L R]. pose proof (s_fresh _ _ _ K). split; [lia|]. intros y kd m Y I. rewrite (s_line _ _ _ K) in I by exact L. destruct (R y kd m Y I) as [->|P]; [left; reflexivity|right].
  assert (Lm : (m < fresh_tag s)%nat) by (eapply wf_line; eauto).
  assert (Vy : val x y). { unfold kind_at in Y. destruct (find _ (refs x)) as [[kd0 b]|] eqn:E; [|discriminate]. apply find_some in E. destruct E as [E1 E2]. apply inb_iff in E2. apply (refs_val t x OK kd0 b y E1 E2). }
  destruct kd; cbn [ofk] in *; [apply (s_cell _ _ _ K); assumption|apply Kp; assumption|apply (s_cell _ _ _ K); assumption].
Qed.
Lemma mode_step x q B s s' : wf s -> step B s s' -> (forall y, val x y -> ~ B y) -> qtype_ok t (q_ty x) -> mode_ok x q s -> mode_ok x q s'.
Proof.
  intros W K D OK M. destruct q as [ns|n]; cbn [mode_ok] in *; [intros n I; eapply like_step; eauto|eapply step_wr; eauto].
Qed.
Lemma mode_touch x q s s' : wf s -> touch t x s s' -> qtype_ok t (q_ty x) -> mode_ok x q s -> mode_ok x q s'.
Proof. intros W K OK M. eapply mode_step; eauto. intros y Y C. apply (cnts_all t x V OK) in C. tauto. Qed.
Lemma shared_see x q s s' : wf s -> see t x s s' -> qtype_ok t (q_ty x) -> mode_ok x q s -> mode_ok x (MShared (shared_of q)) s'.
Proof. intros W K OK M n I. cbn [shared_of] in I. destruct q as [ns|n0]; cbn [shared_of] in I; [|destruct I]. eapply like_see; eauto. Qed.

(** *** An access of the client *)
Lemma like_rd x n b s : wf s -> qtype_ok t (q_ty x) -> BorrowSpec.within (q_val x) b -> ref_like (refs x) n s -> rdable s n (in_block b).
Proof.
  intros W OK Wi [L R]. split; [exact L|]. intros y z Y I. destruct (kind_val t (fun _ => None) x y OK) as (kd & K); [destruct Wi; unfold in_block in *; lia|].
  destruct (R y kd z K I) as [->|P]; [rewrite wf_root by exact W; discriminate|rewrite P; destruct kd; discriminate].
Qed.
Lemma act_some x q a s l : wf s -> (forall n, In n l -> (n < fresh_tag s)%nat) -> qtype_ok t (q_ty x) -> nact_ok (MkO (q_val x) l) a = true -> gallowed q x a -> mode_ok x q s ->
  exists r, tree_act (fresh_tag s) a (nodes s) = Some r /\ mode_ok x q (MkS r (next_of a s)).
Proof.
  intros W T OK A G M. apply nact_ok_iff in A. destruct q as [ns|n]; destruct a as [p b|p b|p mu parts]; cbn [gallowed] in G; try contradiction; unfold next_of; cbn [tree_act makes_tag nclient_access oblk otags] in *.
  - destruct A as [I Wi]. destruct (rd_can p b s (like_rd x p b s W OK Wi (M p G))) as [r E]. exists r. split; [exact E|].
    assert (K : see t x s (MkS r (fresh_tag s))).
    { split.
      - eapply step_more; [|apply (access_step false p b s r W (T _ I) E)]. intros y Y. apply (val_all t x V OK). destruct Wi; unfold in_block in *; lia.
      - intros y z _ _ P. eapply access_frozen; [exact E|exact P]. }
    exact (shared_see x (MShared ns) _ _ W K OK M).
  - destruct A as [I Wi]. destruct G as [G (c & Ic & Sub)].
    assert (KC : forall y, in_block b y -> kind_at (refs x) y = Some RCell) by (intros y Y; apply (kind_has (fun _ => None) _ RCell c y); [apply (refs_apart t x OK)|exact Ic|apply Sub; exact Y]).
    assert (Wr : wr s p (in_block b)).
    { split; [apply (T _ I)|]. intros y z Y Z. destruct (proj2 (M p G) y RCell z (KC y Y) Z) as [-> | P]; [left; apply wf_root; exact W|right; right; exact P]. }
    destruct (access_can true p b s Wr) as [r E]. exists r. split; [exact E|]. pose proof (access_step true p b s r W (T _ I) E) as K.
    intros n In0. destruct (M n In0) as [L R]. split; [exact L|]. cbn [nodes fresh_tag] in *. intros y kd z Y Z. rewrite (access_line _ _ _ _ _ E) in Z.
    destruct (R y kd z Y Z) as [->|P]; [left; reflexivity|right]. assert (Lz : (z < fresh_tag s)%nat) by (eapply wf_line; eauto).
    destruct (inb b y) eqn:B.
    + apply inb_iff in B. rewrite (KC y B) in Y. injection Y as <-. cbn [ofk] in *. apply (s_cell _ _ _ K y z Lz). exact P.
    + rewrite (access_out _ _ _ _ _ _ E); [exact P|]. rewrite <- inb_iff. congruence.
  - destruct A as [I Wi]. subst p. cbn [mode_ok] in M. destruct (access_can false n b s) as [r E]; [destruct M as [L Q]; split; [exact L|]; intros y z Y; apply Q; destruct Wi; unfold in_block in *; lia|].
    exists r. split; [exact E|]. apply (down_wr n _ s _ _ W (access_down false n b s r W (T _ I) E) M).
  - destruct A as [I Wi]. subst p. cbn [mode_ok] in M. destruct (access_can true n b s) as [r E]; [destruct M as [L Q]; split; [exact L|]; intros y z Y; apply Q; destruct Wi; unfold in_block in *; lia|].
    exists r. split; [exact E|]. apply (down_wr n _ s _ _ W (access_down true n b s r W (T _ I) E) M).
Qed.

(** *** A call *)
Definition pinv (w : gworld) (ms : nat -> qmode) : Prop := forall m k c, nth_error (gmems w) m = Some k -> m_box k = Some c -> mode_ok (box_at k (c_ty c)) (ms m) (gforest w).
Lemma effect_step x kd o r s s' : wf s -> qtype_ok t (q_ty x) -> effect t x kd o r s s' -> step (in_block (q_all t x)) s s'.
Proof.
  intros W OK E. destruct kd; cbn [effect] in E.
  - destruct r; try apply E. destruct o; try contradiction; apply E.
  - assert (K : see t x s s') by (destruct o; try exact (touch_see t x V OK _ _ E); destruct r; try exact (touch_see t x V OK _ _ E); exact E). apply K.
  - subst. apply step_refl. exact W.
  - subst. apply step_refl. exact W.
Qed.
Lemma mode_other w ms o r h m kd m' : ghandle_of o = Some h -> nth_error (ghandles w) h = Some (m, kd) -> m' <> m -> gmode_after w ms o r m' = ms m'.
Proof.
  intros H E N. apply Nat.eqb_neq in N. destruct o; try discriminate; injection H as ->; unfold gmode_after; cbn [ghandle_of]; rewrite E; destruct kd; try reflexivity; destruct r; try reflexivity; rewrite N; reflexivity.
Qed.
Lemma shared_weaken x q s : mode_ok x q s -> mode_ok x (MShared (shared_of q)) s.
Proof. destruct q; intros M; [exact M|intros j []]. Qed.
Lemma effect_mode w ms o r h m kd x s' : ghandle_of o = Some h -> nth_error (ghandles w) h = Some (m, kd) -> wf (gforest w) -> qtype_ok t (q_ty x) ->
  effect t x kd o r (gforest w) s' -> mode_ok x (ms m) (gforest w) -> mode_ok x (gmode_after w ms o r m) s'.
Proof.
  intros H E W OK Ef M. destruct kd.
  - assert (SEE : see t x (gforest w) s' -> mode_ok x (MShared (shared_of (ms m))) s') by (intros K; exact (shared_see x (ms m) _ _ W K OK M)).
    destruct o; try discriminate; injection H as ->; unfold gmode_after; cbn [ghandle_of]; rewrite E; destruct r; cbn [effect] in Ef; try contradiction; rewrite Nat.eqb_refl; try (apply SEE; exact Ef); try apply Ef.
    destruct Ef as [K R]. intros n' [<-|I]; [exact R|]. apply (SEE K). exact I.
  - assert (SEE : see t x (gforest w) s' -> mode_ok x (MShared (shared_of (ms m))) s') by (intros K; exact (shared_see x (ms m) _ _ W K OK M)).
    destruct o; try discriminate; injection H as ->; unfold gmode_after; cbn [ghandle_of]; rewrite E; destruct r; cbn [effect] in Ef; try rewrite Nat.eqb_refl; try (apply SEE; exact Ef); apply (mode_touch x _ _ _ W Ef OK M).
  - cbn [effect] in Ef. subst s'. destruct o; try discriminate; injection H as ->; unfold gmode_after; cbn [ghandle_of]; rewrite E; exact M.
  - cbn [effect] in Ef. subst s'. destruct o; try discriminate; injection H as ->; unfold gmode_after; cbn [ghandle_of]; rewrite E; exact M.
Qed.
Lemma mode_invalid w ms o m x : ghandle_of o <> None -> mode_ok x (ms m) (gforest w) -> mode_ok x (gmode_after w ms o QInvalid m) (gforest w).
Proof.
  intros H M. destruct o; cbn [ghandle_of] in H; try congruence; unfold gmode_after; cbn [ghandle_of];
    (destruct (nth_error (ghandles w) h) as [[m0 kd]|]; [|exact M]; destruct kd; try exact M; destruct (Nat.eqb_spec m m0) as [->|]; [apply shared_weaken; exact M|exact M]).
Qed.

(** the values are apart *)
Lemma other_val w m m' k k' ty c' : ginv t w -> nth_error (gmems w) m = Some k -> rc_fits t (m_blk k) (q_lay ty) = true -> qtype_ok t ty ->
  nth_error (gmems w) m' = Some k' -> m_box k' = Some c' -> m' <> m -> forall y, val (box_at k' (c_ty c')) y -> ~ in_block (q_all t (box_at k ty)) y.
Proof.
  intros H E F T E' B' N y Y Z. destruct (v_box _ _ _ _ _ (i_minv _ _ H) m' k' c' E' B') as (T' & F' & _). apply N. symmetry.
  eapply (v_sep _ _ _ _ _ (i_minv _ _ H) m m' k k' y E E').
  - eapply (in_mem t (fun _ => Some 0%nat)); [exact T|exact F|exact Z].
  - eapply (in_mem t (fun _ => Some 0%nat)); [exact T'|exact F'|]. apply (val_all t (box_at k' (c_ty c')) V T'). exact Y.
Qed.
Lemma all_ok w m k c : ginv t w -> nth_error (gmems w) m = Some k -> m_box k = Some c -> qtype_ok t (c_ty c) /\ rc_fits t (m_blk k) (q_lay (c_ty c)) = true /\ forall l, tags_of (c_val c) = Some l -> forall n, In n l -> (n < fresh_tag (gforest w))%nat.
Proof.
  intros H E B. destruct (v_box _ _ _ _ _ (i_minv _ _ H) m k c E B) as (T & F & _ & _ & _ & TG). split; [exact T|]. split; [exact F|]. intros l El n I. specialize (TG l El n I). apply in_seq in TG. lia.
Qed.

Lemma polite_step w ms o : ginv t w -> gdinv w -> gop_ok t o -> pinv w ms -> gpolite_op w ms o ->
  snd (gstep t w o) <> QUB /\ pinv (fst (gstep t w o)) (gmode_after w ms o (snd (gstep t w o))).
Proof.
  intros H D OK P PO. pose proof (i_wf _ _ H) as W. destruct (gstep_ok t V w o H D OK) as (H1 & D1 & U & Ef).
  assert (NU : snd (gstep t w o) <> QUB).
  { intros X. destruct (U X) as (m & a & ->). clear U Ef H1 D1. revert X. unfold gstep. cbn [ghandle_of].
    destruct (nth_error (gmems w) m) as [k|] eqn:Ek; [|discriminate]. destruct (m_box k) as [c|] eqn:Ec; [|discriminate]. destruct (tags_of (c_val c)) as [l|] eqn:El; [|discriminate].
    destruct (nact_ok _ a) eqn:A; [|discriminate]. destruct (all_ok w m k c H Ek Ec) as (T & F & TG).
    destruct (act_some (box_at k (c_ty c)) (ms m) a (gforest w) l W (TG l El) T A (PO k c Ek Ec) (P m k c Ek Ec)) as (r & -> & _). cbn [snd]. destruct (makes_tag a); discriminate. }
  split; [exact NU|]. revert Ef NU. generalize (snd (gstep t w o)). generalize (fst (gstep t w o)). intros w' r Ef NU m' k' c' E' B'. unfold op_effect in Ef.
  destruct (ghandle_of o) as [h|] eqn:Ho.
  - destruct Ef as [[(m & kd & k & c & Eh & Ek & Ec & Ef) SV]|[-> ->]]; [|apply mode_invalid; [congruence|eauto]].
    destruct (SV m' k' c' E' B') as (k2 & c2 & E2 & B2 & _ & ->). destruct (all_ok w m k c H Ek Ec) as (T & F & _). destruct (all_ok w m' k2 c2 H E2 B2) as (T2 & F2 & _).
    destruct (Nat.eq_dec m' m) as [->|N].
    + rewrite Ek in E2. injection E2 as <-. rewrite Ec in B2. injection B2 as <-. eapply effect_mode; eauto.
    + rewrite (mode_other w ms o r h m kd m' Ho Eh N). eapply mode_step; [exact W|exact (effect_step (box_at k (c_ty c)) _ _ _ _ _ W T Ef)| |exact T2|eauto]. exact (other_val w m m' k k2 (c_ty c) c2 H Ek F T E2 B2 N).
  - destruct o; try discriminate.
    + destruct Ef as [[-> R]|(k & c & -> & Ek & Ec & F & K & Em & Ty)].
      * assert (X : gmode_after w ms (GNew m ty) r = ms) by (destruct R as [-> | ->]; reflexivity). rewrite X. eauto.
      * cbn [gmode_after]. rewrite Em in E'. destruct (set_box _ _ _ _ _ _ Ek E') as (k0 & E0 & _ & _ & [(-> & _ & _)|(N & ->)]); [rewrite Nat.eqb_refl; intros n []|].
        rewrite (proj2 (Nat.eqb_neq m' m) N). destruct (all_ok w m' k0 c' H E0 B') as (T2 & _ & _). eapply mode_step; [exact W|exact K| |exact T2|eauto]. exact (other_val w m m' k k0 ty c' H Ek F OK E0 B' N).
    + destruct Ef as [-> SV]. destruct (SV m' k' c' E' B') as (k2 & c2 & E2 & B2 & _ & ->). apply (P m' k2 c2 E2 B2).
    + destruct Ef as [Ef SV]. destruct (SV m' k' c' E' B') as (k2 & c2 & E2 & B2 & _ & ->). cbn [gmode_after ghandle_of].
      destruct Ef as [[R ->]|(k & c & l & tr & Ek & Ec & El & A & Et & -> & K)]; [apply (P m' k2 c2 E2 B2)|].
      destruct (all_ok w m k c H Ek Ec) as (T & F & TG). destruct (all_ok w m' k2 c2 H E2 B2) as (T2 & F2 & _). destruct (Nat.eq_dec m' m) as [->|N].
      * rewrite Ek in E2. injection E2 as <-. rewrite Ec in B2. injection B2 as <-.
        destruct (act_some (box_at k (c_ty c)) (ms m) a (gforest w) l W (TG l El) T A (PO k c Ek Ec) (P m k c Ek Ec)) as (r0 & E0 & M0). rewrite Et in E0. injection E0 as <-. exact M0.
      * eapply mode_step; [exact W|exact K| |exact T2|eauto]. intros y Y X. apply (other_val w m m' k k2 (c_ty c) c2 H Ek F T E2 B2 N y Y). apply (val_all t (box_at k (c_ty c)) V T). exact X.
Qed.

Lemma polite_run os : Forall (gop_ok t) os -> forall w ms, ginv t w -> gdinv w -> pinv w ms -> gpolite t w ms os ->
  Forall (fun e => snd e <> QUB) (snd (grun t w os)).
Proof.
  induction 1 as [|o os O F IH]; intros w ms H D P PO; cbn [grun]; [constructor|]. destruct PO as [P1 P2]. destruct (polite_step w ms o H D O P P1) as (N & P'). destruct (gstep_ok t V w o H D O) as (H1 & D1 & _).
  destruct (gstep t w o) as [w1 r]. cbn [fst snd] in *. specialize (IH w1 _ H1 D1 P' P2). destruct (grun t w1 os) as [w2 hh]. cbn [fst snd] in *. constructor; assumption.
Qed.
End Mode.
