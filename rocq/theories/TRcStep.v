(** * TRcStep: one step of a program that uses Rcs under Tree Borrows, and which references stay usable. *)
From Verif Require Import Base Spec BaseFacts SyncModel SyncSpec RcModel RcProofs RcMemProofs BorrowModel BorrowSpec BorrowProofs BorrowState UBorrowModel EBorrowSlot RBorrowModel RBorrowSpec RBorrowBytes RBorrowOps RBorrowCalls RBorrowWorld RBorrowStep RBorrowPolite
  TBorrowModel EBorrowModel TreeModel TreeSpec TreeState TreeWorld TExitModel TExitSpec TExitState TExitOps TRcModel TRcSpec TRcOps TRcWorld.

(** *** An access of the client *)
Definition next_of (a : nact) (s : forest) : nat := if makes_tag a then S (fresh_tag s) else fresh_tag s.
Lemma act_step o a s r : wf s -> (forall n, In n (otags o) -> (n < fresh_tag s)%nat) -> nact_ok o a = true -> tree_act (fresh_tag s) a (nodes s) = Some r ->
  step (in_block (oblk o)) s (MkS r (next_of a s)).
Proof.
  intros W T A E. apply nact_ok_iff in A. assert (K : forall b x, BorrowSpec.within (oblk o) b -> in_block b x -> in_block (oblk o) x) by (intros b x [W1 W2] [Y1 Y2]; split; lia).
  unfold next_of. destruct a as [p b|p b|p m parts]; cbn [tree_act nclient_access makes_tag] in *.
  - destruct A as [I Wi]. eapply step_more; [|apply (access_step false p b s r W (T _ I) E)]. intros x X. eapply K; eauto.
  - destruct A as [I Wi]. eapply step_more; [|apply (access_step true p b s r W (T _ I) E)]. intros x X. eapply K; eauto.
  - destruct A as (I & F & _). apply (retag_step p m parts (in_block (oblk o)) s r W (T _ I)); [|exact E]. intros c b x Ib _ X. rewrite Forall_forall in F. eapply K; [apply (F _ Ib)|exact X].
Qed.

Lemma refs_val t x : qtype_ok t (q_ty x) -> forall kd b y, In (kd, b) (q_refs x) -> in_block b y -> in_block (q_val x) y.
Proof. intros OK kd b y I Y. apply (refs_in t x OK) in I. unfold in_block in *. lia. Qed.
Section World.
Variable (t : target).
Hypothesis V : valid_target t.
Notation tags s := (seq 0 (fresh_tag s)).


(** ** The values that are dropped *)
Definition gdinv (w : gworld) : Prop := forall m, In (m, true) (gdrops w) -> exists k c, nth_error (gmems w) m = Some k /\ m_box k = Some c /\ strong_of (ghandles w) m = 0%nat.
Lemma gdinv_upd w s' m k c b hs' dr' : gdinv w -> nth_error (gmems w) m = Some k -> m_box k = Some c -> counts_other (ghandles w) hs' m ->
  (b <> None -> strong_of (ghandles w) m = 0%nat -> strong_of hs' m = 0%nat) ->
  (forall m', In (m', true) dr' -> In (m', true) (gdrops w) /\ (m' = m -> b <> None) \/ m' = m /\ b <> None /\ strong_of hs' m = 0%nat) ->
  gdinv (MkGW s' (set_nth (gmems w) m (put_box k b)) hs' dr').
Proof.
  intros D E B CO Z I m' I'. cbn [gdrops gmems ghandles] in *. destruct (I m' I') as [[I0 N0]|(-> & N0 & S0)].
  - destruct (D m' I0) as (k0 & c0 & E0 & B0 & S0). destruct (Nat.eq_dec m' m) as [-> | N].
    + specialize (N0 eq_refl). rewrite (set_nth_nth _ m _ k E). destruct b as [cb|]; [|congruence]. eexists. exists cb. split; [reflexivity|]. split; [reflexivity|]. auto.
    + rewrite (set_nth_ne _ m m' _ N). exists k0, c0. split; [exact E0|]. split; [exact B0|]. destruct (CO m' N) as [-> _]. exact S0.
  - rewrite (set_nth_nth _ m _ k E). destruct b as [cb|]; [|congruence]. eexists. exists cb. split; [reflexivity|]. split; [reflexivity|exact S0].
Qed.
Lemma gdinv_put w s' m k c c' kx hs' : gdinv w -> nth_error (gmems w) m = Some k -> m_box k = Some c -> kx = put_box k (Some c') -> counts_other (ghandles w) hs' m ->
  (strong_of (ghandles w) m = 0%nat -> strong_of hs' m = 0%nat) -> gdinv (gput w m kx s' hs').
Proof. intros D E B -> CO Z. unfold gput. eapply gdinv_upd; eauto. intros m' I. left. split; [exact I|]. intros _. discriminate. Qed.
Lemma gdetach_in m l m' : In (m', true) (gdetach m l) -> In (m', true) l /\ m' <> m.
Proof.
  unfold gdetach. intros H. apply in_map_iff in H. destruct H as ([a h] & E & I). cbn [fst snd] in E. destruct (Nat.eqb_spec a m) as [X|X].
  - discriminate.
  - injection E as -> ->. auto.
Qed.
Lemma g_drop_some x st s d s' : g_drop t x st s = Some (Some d, s') -> st = 1%nat.
Proof.
  unfold g_drop, fbind. destruct (g_set_strong t x s) as [[a1 s1]|]; [|discriminate]. destruct (g_strong_count t x s1) as [[a2 s2]|]; [|discriminate].
  destruct (Nat.eqb_spec st 1) as [E|E]; [auto|]. discriminate.
Qed.
Lemma gcall_dinv w h m kd k c o : ginv t w -> nth_error (ghandles w) h = Some (m, kd) -> nth_error (gmems w) m = Some k -> m_box k = Some c ->
  gdinv w -> gdinv (fst (gcall t w h m kd k c o)).
Proof.
  intros H Eh Ek Ec D. destruct (v_box _ _ _ _ _ (i_minv _ _ H) m k c Ek Ec) as (TY & FT & ST & WK & LV & TG).
  assert (LIVE : kd = HStrong \/ kd = HRaw -> (1 <= strong_of (ghandles w) m)%nat) by (intros [-> | ->]; eapply count_has; eauto).
  destruct o; destruct kd; cbn [gcall fst]; try exact D; try specialize (LIVE (or_introl eq_refl)); try specialize (LIVE (or_intror eq_refl));
    repeat match goal with |- context [match ?f with Some _ => _ | None => (w, QUB) end] => destruct f as [[? ?]|] eqn:? end; cbn [fst]; try exact D;
    try (eapply gdinv_put; [exact D|exact Ek|exact Ec|first [reflexivity | apply put_same; exact Ec]|first [apply other_app|eapply other_set; exact Eh|apply other_same]|cnt]).
  - destruct (Nat.eqb_spec (c_strong c) 0) as [Z|Z]; cbn [fst]; (eapply gdinv_put; [exact D|exact Ek|exact Ec|first [reflexivity | apply put_same; exact Ec]|first [apply other_app|apply other_same]|]); [auto|cnt].
  - destruct o; cbn [fst].
    + match goal with Q : g_drop _ _ _ _ = Some (Some _, _) |- _ => apply g_drop_some in Q; rename Q into S1 end.
      eapply gdinv_upd; [exact D|exact Ek|exact Ec|eapply other_set; exact Eh|intros _; cnt|]. intros m' [[= <-]|I]; [right|left; split; [exact I|discriminate]]. split; [reflexivity|]. split; [discriminate|]. cnt.
    + eapply gdinv_put; [exact D|exact Ek|exact Ec|reflexivity|eapply other_set; exact Eh|cnt].
  - match goal with |- context [match ?d with Some _ => _ | None => _ end] => destruct d end; cbn [fst]; (eapply gdinv_put; [exact D|exact Ek|exact Ec|first [reflexivity | apply put_same; exact Ec]|apply other_same|auto]).
  - destruct (Nat.eqb (c_strong c) 1); cbn [fst]; (eapply gdinv_put; [exact D|exact Ek|exact Ec|first [reflexivity | apply put_same; exact Ec]|first [eapply other_set; exact Eh|apply other_same]|cnt]).
  - destruct (Nat.eqb (c_strong c) 1 && Nat.eqb (c_weak c) 1); cbn [fst]; (eapply gdinv_put; [exact D|exact Ek|exact Ec|first [reflexivity | apply put_same; exact Ec]|first [eapply other_set; exact Eh|apply other_same]|cnt]).
  - destruct (Nat.eqb (c_strong c) 0 && Nat.eqb (c_weak c) 1); cbn [fst].
    + eapply gdinv_upd; [exact D|exact Ek|exact Ec|eapply other_set; exact Eh|congruence|]. intros m' I. apply gdetach_in in I. left. tauto.
    + eapply gdinv_put; [exact D|exact Ek|exact Ec|apply put_same; exact Ec|apply other_same|auto].
Qed.

(** What a step does to the tree *)
Definition act_effect (w : gworld) (m : nat) (a : nact) (r : qanswer) (s' : forest) : Prop :=
  (r = QUB \/ r = QInvalid) /\ s' = gforest w \/
  exists k c l tr, nth_error (gmems w) m = Some k /\ m_box k = Some c /\ tags_of (c_val c) = Some l /\ nact_ok (MkO (q_val (box_at k (c_ty c))) l) a = true /\
    tree_act (fresh_tag (gforest w)) a (nodes (gforest w)) = Some tr /\ s' = MkS tr (next_of a (gforest w)) /\ step (in_block (q_val (box_at k (c_ty c)))) (gforest w) s'.
Definition op_effect (w w' : gworld) (o : gop) (r : qanswer) : Prop :=
  match ghandle_of o with
  | Some h => (exists m kd k c, nth_error (ghandles w) h = Some (m, kd) /\ nth_error (gmems w) m = Some k /\ m_box k = Some c /\
                 effect t (box_at k (c_ty c)) kd o r (gforest w) (gforest w')) /\ same_values (gmems w) (gmems w') \/ r = QInvalid /\ w' = w
  | None =>
      match o with
      | GNew m ty => w' = w /\ (r = QNo \/ r = QInvalid) \/ exists k c, r = QDone /\ nth_error (gmems w) m = Some k /\ m_box k = None /\ rc_fits t (m_blk k) (q_lay ty) = true /\
          step (in_block (q_all t (box_at k ty))) (gforest w) (gforest w') /\ gmems w' = set_nth (gmems w) m (put_box k (Some c)) /\ c_ty c = ty
      | GAct m a => act_effect w m a r (gforest w') /\ same_values (gmems w) (gmems w')
      | _ => gforest w' = gforest w /\ same_values (gmems w) (gmems w')
      end
  end.
Definition good (w : gworld) (o : gop) (p : gworld * qanswer) : Prop :=
  ginv t (fst p) /\ gdinv (fst p) /\ (snd p = QUB -> exists m a, o = GAct m a) /\ op_effect w (fst p) o (snd p).

Lemma gstep_ok w o : ginv t w -> gdinv w -> gop_ok t o -> good w o (gstep t w o).
Proof.
  intros H D OK. pose proof (i_wf _ _ H) as W.
  assert (HO : forall h, ghandle_of o = Some h -> good w o (gstep t w o)).
  { intros h E. unfold gstep, good, op_effect. rewrite E.
    assert (INV : good w o (w, QInvalid)).
    { unfold good, op_effect. rewrite E. split; [exact H|]. split; [exact D|]. split; [discriminate|]. right. split; reflexivity. }
    unfold good, op_effect in INV. rewrite E in INV.
    destruct (nth_error (ghandles w) h) as [[m kd]|] eqn:Eh; [|exact INV]. destruct (nth_error (gmems w) m) as [k|] eqn:Ek; [|exact INV]. destruct (m_box k) as [c|] eqn:Ec; [|exact INV].
    destruct (gcall_ok t V w h m kd k c o H Eh Ek Ec) as (G1 & G2 & G3 & G4). split; [exact G1|]. split; [eapply gcall_dinv; eauto|]. split; [intros X; contradiction|]. left. split; [|exact G4]. exists m, kd, k, c. auto. }
  destruct (ghandle_of o) as [h|] eqn:E; [eauto|]. clear HO.
  assert (INV : forall r, r = QInvalid \/ (exists m ty, o = GNew m ty) /\ r = QNo -> good w o (w, r)).
  { intros r R. unfold good, op_effect. rewrite E. split; [exact H|]. split; [exact D|]. split; [destruct R as [-> | [_ ->]]; discriminate|].
    destruct o; try discriminate; cbn [fst snd]; [left; split; [reflexivity|destruct R as [R | [_ R]]; auto]|split; [reflexivity|apply same_values_refl]|split; [left|apply same_values_refl]].
    destruct R as [-> | [(m0 & ty & R) _]]; [auto|discriminate]. }
  destruct o; try discriminate; unfold gstep; cbn [ghandle_of].
  - (* new *)
    destruct (nth_error (gmems w) m) as [k|] eqn:Ek; [|apply INV; auto]. destruct (m_box k) as [c|] eqn:Ec; [apply INV; auto|].
    destruct (rc_fits t (m_blk k) (q_lay ty)) eqn:F; [|apply INV; right; split; [eauto|reflexivity]].
    cbn [gop_ok] in OK. set (x := box_at k ty). assert (BX : qtype_ok t (q_ty x)) by exact OK. assert (B0 : q_base x = 0%nat) by exact (i_base _ _ H m k Ek).
    destruct (op_some _ _ _ (op_new t x B0 _ W)) as (a & s' & -> & K). unfold good, op_effect. cbn [fst snd ghandle_of gput gforest gmems]. split; [|split; [|split; [discriminate|right]]].
    + destruct (v_free _ _ _ _ _ (i_minv _ _ H) m k Ek Ec) as [Z1 Z2]. eapply ginv_put; [exact H|exact Ek|exact K|apply other_app|]. cbn [box_after]. unfold box_ok. cbn [c_ty c_strong c_weak c_val tags_of].
      split; [exact OK|]. split; [exact F|]. split; [cnt|]. split; [cnt|]. split; [eauto|]. intros l [= <-] z [].
    + intros m' I. cbn [gdrops gmems ghandles] in *. destruct (D m' I) as (k0 & c0 & E0 & Bx & S0). assert (N : m' <> m) by (intros ->; congruence).
      exists k0, c0. unfold gput; cbn [gmems ghandles]. rewrite (set_nth_ne _ m m' _ N). split; [exact E0|]. split; [exact Bx|]. destruct (other_app (ghandles w) m HStrong m' N) as [-> _]. exact S0.
    + exists k. eexists. split; [reflexivity|]. split; [exact Ek|]. split; [exact Ec|]. split; [exact F|]. split; [exact K|]. split; reflexivity.
  - (* a destructor returns *)
    destruct (gdrops w) as [|[m here] ds] eqn:Ed; [apply INV; auto|].
    assert (DS : forall s ms, (forall m' k c', nth_error (gmems w) m' = Some k -> m_box k = Some c' -> exists k2 c2, nth_error ms m' = Some k2 /\ m_box k2 = Some c2) -> gdinv (MkGW s ms (ghandles w) ds)).
    { intros s ms X m' I. cbn [gdrops gmems ghandles] in *. destruct (D m') as (k0 & c0 & E0 & B0 & S0); [rewrite Ed; right; exact I|]. destruct (X m' k0 c0 E0 B0) as (k2 & c2 & E2 & B2). exists k2, c2. auto. }
    assert (Id : good w GRet (MkGW (gforest w) (gmems w) (ghandles w) ds, QDone)).
    { unfold good, op_effect. cbn [fst snd ghandle_of gforest gmems]. split; [destruct H; split; assumption|]. split; [apply DS; eauto|]. split; [discriminate|]. split; [reflexivity|apply same_values_refl]. }
    destruct (nth_error (gmems w) m) as [k|] eqn:Ek; [|exact Id]. destruct (m_box k) as [c|] eqn:Ec; [|exact Id]. destruct here; [|exact Id]. clear Id.
    destruct (v_box _ _ _ _ _ (i_minv _ _ H) m k c Ek Ec) as (TY & FT & ST & WK & LV & TG).
    destruct (D m) as (k1 & c1 & E1 & B1 & S1); [rewrite Ed; left; reflexivity|].
    unfold good, op_effect. cbn [fst snd ghandle_of gforest gmems]. split; [|split; [|split; [discriminate|split; [reflexivity|]]]].
    + eapply ginv_put; [exact H|exact Ek|apply (step_refl (fun _ => False)); exact W|apply other_same|]. cbn [box_after]. unfold box_ok. cbn [c_ty c_strong c_weak c_val].
      refine (conj TY (conj FT (conj ST (conj WK (conj _ _))))); [lia|discriminate].
    + apply DS. intros m' k' c' Em Bm. destruct (Nat.eq_dec m' m) as [-> | N].
      * rewrite (set_nth_nth _ m _ k Ek). eexists. eexists. split; reflexivity.
      * rewrite (set_nth_ne _ m m' _ N). eauto.
    + eapply (same_values_set _ m k c); [exact Ek|exact Ec|reflexivity].
  - (* an access *)
    destruct (nth_error (gmems w) m) as [k|] eqn:Ek; [|apply INV; auto]. destruct (m_box k) as [c|] eqn:Ec; [|apply INV; auto].
    destruct (tags_of (c_val c)) as [l|] eqn:El; [|apply INV; auto]. set (x := box_at k (c_ty c)).
    destruct (nact_ok (MkO (q_val x) l) a) eqn:A; [|apply INV; auto].
    destruct (tree_act (fresh_tag (gforest w)) a (nodes (gforest w))) as [tr|] eqn:Et.
    + destruct (v_box _ _ _ _ _ (i_minv _ _ H) m k c Ek Ec) as (TY & FT & ST & WK & LV & TG).
      pose proof (act_step (MkO (q_val x) l) a (gforest w) tr W) as K. cbn [oblk otags] in K.
      specialize (K ltac:(intros n I; specialize (TG l El n I); apply in_seq in TG; lia) A Et).
      unfold good, op_effect, act_effect. cbn [fst snd ghandle_of gput gforest gmems]. split; [|split; [|split; [|split]]].
      * eapply ginv_put; [exact H|exact Ek|exact K|apply other_same|]. cbn [box_after]. unfold box_ok. cbn [c_ty c_strong c_weak c_val]. refine (conj TY (conj FT (conj ST (conj WK (conj _ _))))).
        -- intros X. destruct (LV X) as (l0 & E0). rewrite E0. destruct (makes_tag a); cbn [add_tag]; eexists; reflexivity.
        -- intros l0 E0 z Z. apply in_seq. cbn [fresh_tag]. unfold next_of.
           assert (Y : In z l \/ makes_tag a = true /\ z = fresh_tag (gforest w)).
           { destruct (makes_tag a), (c_val c); cbn [add_tag tags_of] in *; try discriminate; injection E0 as <-; injection El as <-; auto; destruct Z as [<-|Z]; auto. }
           destruct Y as [Y|[-> ->]]; [|lia]. specialize (TG l El z Y). apply in_seq in TG. destruct (makes_tag a); lia.
      * eapply gdinv_put; [exact D|exact Ek|exact Ec|reflexivity|apply other_same|auto].
      * intros _. exists m, a. reflexivity.
      * right. exists k, c, l, tr. split; [exact Ek|]. split; [exact Ec|]. split; [exact El|]. split; [exact A|]. split; [exact Et|]. split; [reflexivity|exact K].
      * eapply (same_values_set _ m k c); [exact Ek|exact Ec|reflexivity].
    + unfold good, op_effect, act_effect. cbn [fst snd ghandle_of]. split; [exact H|]. split; [exact D|]. split; [intros _; exists m, a; reflexivity|]. split; [left; split; [left; reflexivity|reflexivity]|apply same_values_refl].
Qed.

Lemma grun_ok os : Forall (gop_ok t) os -> forall w, ginv t w -> gdinv w -> ginv t (fst (grun t w os)) /\ gdinv (fst (grun t w os)) /\
  forall o r, In (o, r) (snd (grun t w os)) -> r = QUB -> exists m a, o = GAct m a.
Proof.
  induction 1 as [|o os O F IH]; intros w H D; cbn [grun]; [split; [exact H|split; [exact D|intros ? ? []]]|].
  destruct (gstep_ok w o H D O) as (H1 & D1 & U & _). destruct (gstep t w o) as [w1 r]. cbn [fst snd] in *. destruct (IH w1 H1 D1) as (H2 & D2 & I2).
  destruct (grun t w1 os) as [w2 hh]. cbn [fst snd] in *. split; [exact H2|]. split; [exact D2|]. intros o' r' [[= <- <-]|I] R; [auto|eauto].
Qed.
End World.
