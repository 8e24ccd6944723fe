(** * TRcWorld: programs that use Rcs under Tree Borrows: what every step keeps. *)
From Verif Require Import Base Spec BaseFacts SyncModel SyncSpec RcModel RcProofs RcMemProofs BorrowModel BorrowSpec BorrowProofs BorrowState UBorrowModel EBorrowSlot RBorrowModel RBorrowSpec RBorrowBytes RBorrowOps RBorrowCalls RBorrowWorld RBorrowStep RBorrowPolite
  TBorrowModel EBorrowModel TreeModel TreeSpec TreeState TreeWorld TExitModel TExitSpec TExitState TExitOps TRcModel TRcSpec TRcOps.

Ltac cnt :=
  unfold weak_of, strong_of in *;
  repeat match goal with
  | E : nth_error ?hs ?h = Some (?m, ?kd) |- context [count_of _ (set_nth ?hs ?h (?m, ?kd')) ?m] =>
      let A := fresh in let B := fresh in
      pose proof (count_set is_strong m kd kd' m hs h E) as A; pose proof (count_set is_weak m kd kd' m hs h E) as B;
      rewrite Nat.eqb_refl in A, B; cbn [andb is_strong is_weak b2n] in A, B;
      revert A B; generalize (count_of is_strong (set_nth hs h (m, kd')) m), (count_of is_weak (set_nth hs h (m, kd')) m); intros
  | |- context [count_of _ (?hs ++ [(?m, ?kd)]) ?m] => rewrite !count_app, !Nat.eqb_refl; cbn [andb is_strong is_weak b2n]
  end;
  repeat match goal with |- context [Nat.eqb ?a 0] => destruct (Nat.eqb_spec a 0) | Q : context [Nat.eqb ?a 0] |- _ => destruct (Nat.eqb_spec a 0) end;
  lia.

Section World.
Variable (t : target).
Hypothesis V : valid_target t.
Notation tags s := (seq 0 (fresh_tag s)).

Record ginv (w : gworld) : Prop := {
  i_wf : wf (gforest w);
  i_base : forall m k, nth_error (gmems w) m = Some k -> m_base k = 0%nat;
  i_minv : minv t (fun _ => Some 0%nat) (tags (gforest w)) (ghandles w) (gmems w) }.

(** What a call of a handle of kind [kd] does to the tree *)
Definition effect (x : qbox) (kd : hkind) (o : gop) (r : qanswer) (s s' : forest) : Prop :=
  match kd with
  | HStrong =>
      match r with
      | QTag n => match o with GDeref _ => see t x s s' /\ ref_like (q_refs x) n s' | GGetMut _ | GDrop _ => excl t x s n s' | _ => False end
      | _ => see t x s s'
      end
  | HWeak => match o, r with GUpgrade _, QDone => see t x s s' | _, _ => touch t x s s' end
  | _ => s' = s
  end.

(** The memories stay, and the values in them, too. *)
Definition same_values (ms ms' : list qmem) : Prop := forall m k' c', nth_error ms' m = Some k' -> m_box k' = Some c' ->
  exists k c, nth_error ms m = Some k /\ m_box k = Some c /\ m_blk k' = m_blk k /\ box_at k' (c_ty c') = box_at k (c_ty c).
Lemma same_values_refl ms : same_values ms ms.
Proof. intros m k c E B. exists k, c. auto. Qed.
Lemma same_values_set ms m k c b : nth_error ms m = Some k -> m_box k = Some c -> match b with Some c' => c_ty c' = c_ty c | None => True end -> same_values ms (set_nth ms m (put_box k b)).
Proof.
  intros E B T j k' c' Ej Bj. destruct (set_box _ _ _ _ _ _ E Ej) as (k0 & E0 & E1 & E2 & [(-> & -> & ->)|(N & ->)]).
  - cbn [put_box m_box] in Bj. subst b. exists k, c. rewrite T. auto.
  - exists k0, c'. auto.
Qed.

Lemma ginv_put w m k b s' hs' dr B : ginv w -> nth_error (gmems w) m = Some k -> step B (gforest w) s' -> counts_other (ghandles w) hs' m ->
  box_after t (tags s') hs' m k b -> ginv (MkGW s' (set_nth (gmems w) m (put_box k b)) hs' dr).
Proof.
  intros [W Bs M] E K CO BA. split; cbn [gforest gmems ghandles].
  - apply (s_wf _ _ _ K).
  - intros j k' Ej. destruct (set_box _ _ _ _ _ _ E Ej) as (k0 & E0 & E1 & E2 & _). rewrite E2. eapply Bs; eauto.
  - eapply minv_set; [exact M|exact E| |exact CO|exact BA]. intros n I. apply in_seq in I. apply in_seq. pose proof (s_fresh _ _ _ K). lia.
Qed.

(** one call *)
Definition call_ok (w : gworld) (m : nat) (k : qmem) (x : qbox) (kd : hkind) (o : gop) (r : gworld * qanswer) : Prop :=
  ginv (fst r) /\ snd r <> QUB /\ effect x kd o (snd r) (gforest w) (gforest (fst r)) /\ same_values (gmems w) (gmems (fst r)).

Lemma gcall_ok w h m kd k c o : ginv w -> nth_error (ghandles w) h = Some (m, kd) -> nth_error (gmems w) m = Some k -> m_box k = Some c ->
  call_ok w m k (box_at k (c_ty c)) kd o (gcall t w h m kd k c o).
Proof.
  intros H Eh Ek Ec. pose proof (i_wf _ H) as W. destruct (v_box _ _ _ _ _ (i_minv _ H) m k c Ek Ec) as (TY & FT & ST & WK & LV & TG).
  set (x := box_at k (c_ty c)). assert (BX : qtype_ok t (q_ty x)) by exact TY. assert (B0 : q_base x = 0%nat) by exact (i_base _ H m k Ek).
  assert (LIVE : kd = HStrong \/ kd = HRaw -> (1 <= strong_of (ghandles w) m)%nat) by (intros [-> | ->]; eapply count_has; eauto).
  assert (INV : call_ok w m k x kd o (w, QInvalid)).
  { split; [exact H|]. split; [discriminate|]. split; [|apply same_values_refl]. cbn [fst snd]. destruct kd; cbn [effect]; try reflexivity; [apply see_refl; exact W|destruct o; apply step_refl; exact W]. }
  (* the box is put back *)
  assert (FIN : forall s' hs' st wk v r B, step B (gforest w) s' -> counts_other (ghandles w) hs' m -> r <> QUB -> effect x kd o r (gforest w) s' ->
    st = strong_of hs' m -> wk = weak_of hs' m -> ((0 < strong_of hs' m)%nat -> exists l, v = QLive l) -> (forall l, tags_of v = Some l -> incl l (tags s')) ->
    forall dr, call_ok w m k x kd o (MkGW s' (set_nth (gmems w) m (put_box k (Some (MkQC (c_ty c) st wk v)))) hs' dr, r)).
  { intros s' hs' st wk v r B K CO Nr Ef -> -> Lv Tg dr. split; [|split; [exact Nr|split; [exact Ef|]]]; cbn [fst gmems].
    - eapply ginv_put; eauto. cbn [box_after]. unfold box_ok. cbn [c_ty c_strong c_weak c_val]. auto 10.
    - eapply same_values_set; eauto. }
  assert (TG' : forall B s', step B (gforest w) s' -> forall l, tags_of (c_val c) = Some l -> incl l (tags s')).
  { intros B s' K l E n I. specialize (TG l E n I). apply in_seq in TG. apply in_seq. pose proof (s_fresh _ _ _ K). lia. }
  assert (SAME : forall s' r B, step B (gforest w) s' -> r <> QUB -> effect x kd o r (gforest w) s' -> call_ok w m k x kd o (gput w m k s' (ghandles w), r)).
  { intros s' r B K Nr Ef. unfold gput. rewrite (put_same k c Ec) at 2. destruct c as [ty st wk v]. apply (FIN s' (ghandles w) st wk v r B); auto; [apply other_same|eauto]. }
  destruct o; destruct kd; cbn [gcall]; try exact INV; fold x.

  - destruct (op_some _ _ _ (op_set_strong t x V BX B0 _ W)) as (a & s' & -> & K). specialize (LIVE (or_introl eq_refl)).
    apply (FIN s' _ _ _ _ QDone _ (proj1 K)); [apply other_app|discriminate|exact K|cnt|cnt|intros _; apply LV; lia|eapply TG'; apply K].
  - destruct (op_some _ _ _ (op_gw_set t x B0 _ W)) as (a & s' & -> & K).
    apply (FIN s' _ _ _ _ QDone _ K); [apply other_app|discriminate|exact K|cnt|cnt|intros X; apply LV; revert X; cnt|eapply TG'; apply K].
  - destruct (op_some _ _ _ (op_set_weak t x V BX B0 _ W)) as (a & s' & -> & K). specialize (LIVE (or_introl eq_refl)).
    apply (FIN s' _ _ _ _ QDone _ (proj1 K)); [apply other_app|discriminate|exact K|cnt|cnt|intros X; apply LV; lia|eapply TG'; apply K].
  - destruct (op_some _ _ _ (op_gw_upgrade t x V BX B0 (c_strong c) _ W)) as (a & s' & -> & K). destruct (Nat.eqb (c_strong c) 0) eqn:Z0.
    + apply (SAME s' QNo _ K); [discriminate|exact K].
    + apply Nat.eqb_neq in Z0. apply (FIN s' _ _ _ _ QDone _ (proj1 K)); [apply other_app|discriminate|exact K|cnt|cnt|intros _; apply LV; lia|eapply TG'; apply K].
  - destruct (op_some _ _ _ (op_strong t x V BX B0 _ W)) as (a & s' & -> & K). apply (SAME s' _ _ (proj1 K)); [discriminate|exact K].
  - destruct (op_some _ _ _ (op_gw_count t x B0 (q_strong t x) _ (or_introl eq_refl) W)) as (a & s' & -> & K). apply (SAME s' _ _ K); [discriminate|exact K].
  - destruct (op_some _ _ _ (op_weak t x V BX B0 _ W)) as (a & s' & -> & K). apply (SAME s' _ _ (proj1 K)); [discriminate|exact K].
  - destruct (op_some _ _ _ (op_gw_count t x B0 (q_weak t x) _ (or_intror eq_refl) W)) as (a & s' & -> & K). apply (SAME s' _ _ K); [discriminate|exact K].
  - (* drop of an Rc *)
    specialize (LIVE (or_introl eq_refl)). destruct (LV LIVE) as (l & EL).
    destruct (op_some _ _ _ (op_drop t x V BX B0 (c_strong c) _ W)) as (a & s' & -> & K). destruct (Nat.eqb (c_strong c) 1) eqn:S1.
    + apply Nat.eqb_eq in S1. destruct K as (n & -> & K). rewrite EL. cbn [tags_of]. destruct K as (K1 & K2 & K3).
      apply (FIN s' _ _ _ _ (QTag n) _ K1); [eapply other_set; eauto|discriminate|exact (conj K1 (conj K2 K3))|cnt|cnt|intros X; exfalso; revert X; cnt|].
      intros l' [= <-] z [<-|Z]; [apply in_seq; pose proof (proj1 K3); lia|]. apply (TG' _ _ K1 l); [rewrite EL; reflexivity|exact Z].
    + apply Nat.eqb_neq in S1. destruct K as (-> & K). apply (FIN s' _ _ _ _ QDone _ (proj1 K)); [eapply other_set; eauto|discriminate|exact K|cnt|cnt|intros _; apply LV; exact LIVE|eapply TG'; apply K].
  - destruct (op_some _ _ _ (op_gw_set t x B0 _ W)) as (a & s' & -> & K). pose proof (count_has is_weak m HWeak _ _ Eh eq_refl) as Hw.
    apply (FIN s' _ _ _ _ QDone _ K); [eapply other_set; eauto|discriminate|exact K|cnt|cnt|intros X; apply LV; revert X; cnt|eapply TG'; apply K].
  - (* deref *)
    specialize (LIVE (or_introl eq_refl)). destruct (LV LIVE) as (l & EL). destruct (op_some _ _ _ (op_deref t x V BX B0 _ W)) as (n & s' & -> & K & Ln & R). rewrite EL. cbn [add_tag].
    apply (FIN s' _ _ _ _ (QTag n) _ (proj1 K)); [apply other_same|discriminate|exact (conj K R)|exact ST|exact WK|intros _; eexists; reflexivity|].
    intros l' [= <-] z [<-|Z]; [apply in_seq; pose proof (proj1 R); lia|]. apply (TG' _ _ (proj1 K) l); [rewrite EL; reflexivity|exact Z].
  - (* get_mut *)
    specialize (LIVE (or_introl eq_refl)). destruct (LV LIVE) as (l & EL). destruct (op_some _ _ _ (op_get_mut t x V BX B0 (c_strong c) (c_weak c) _ W)) as (a & s' & -> & K).
    destruct (Nat.eqb (c_strong c) 1 && Nat.eqb (c_weak c) 1).
    + destruct K as (n & -> & K1 & K2 & K3). rewrite EL. cbn [add_tag].
      apply (FIN s' _ _ _ _ (QTag n) _ K1); [apply other_same|discriminate|exact (conj K1 (conj K2 K3))|exact ST|exact WK|intros _; eexists; reflexivity|].
      intros l' [= <-] z [<-|Z]; [apply in_seq; pose proof (proj1 K3); lia|]. apply (TG' _ _ K1 l); [rewrite EL; reflexivity|exact Z].
    + destruct K as (-> & K). apply (SAME s' QNo _ (proj1 K)); [discriminate|exact K].
  - (* try_unwrap *)
    destruct (op_some _ _ _ (op_try_unwrap t x V BX B0 (c_strong c) _ W)) as (a & s' & -> & K). specialize (LIVE (or_introl eq_refl)). destruct (Nat.eqb (c_strong c) 1) eqn:S1.
    + apply Nat.eqb_eq in S1. apply (FIN s' _ _ _ _ QDone _ (proj1 K)); [eapply other_set; eauto|discriminate|exact K|cnt|cnt|intros X; exfalso; revert X; cnt|discriminate].
    + apply (SAME s' QNo _ (proj1 K)); [discriminate|exact K].
  - (* into_raw *)
    destruct (op_some _ _ _ (op_is_unique t x V BX B0 (c_strong c) _ W)) as (a & s' & -> & K). specialize (LIVE (or_introl eq_refl)). destruct (Nat.eqb (c_strong c) 1 && Nat.eqb (c_weak c) 1).
    + unfold gput. rewrite (put_same k c Ec) at 2. destruct c as [ty st wk v]. cbn [c_strong c_weak c_val c_ty] in *. apply (FIN s' _ st wk v QDone _ (proj1 K)); [eapply other_set; eauto|discriminate|exact K|cnt|cnt|intros _; apply LV; exact LIVE|eapply TG'; apply K].
    + apply (SAME s' QNo _ (proj1 K)); [discriminate|exact K].
  - (* from_raw *)
    specialize (LIVE (or_intror eq_refl)). pose proof (step_refl (fun _ => False) _ W) as K. unfold gput. rewrite (put_same k c Ec) at 2. destruct c as [ty st wk v]. cbn [c_strong c_weak c_val c_ty] in *.
    apply (FIN (gforest w) _ st wk v QDone _ K); [eapply other_set; eauto|discriminate|reflexivity|cnt|cnt|intros _; apply LV; exact LIVE|eapply TG'; apply K].
  - (* Weak::try_unwrap *)
    destruct (op_some _ _ _ (op_gw_try t x B0 (c_strong c) (c_weak c) _ W)) as (a & s' & -> & K). destruct (Nat.eqb (c_strong c) 0 && Nat.eqb (c_weak c) 1) eqn:Q.
    + apply andb_true_iff in Q. destruct Q as [Q1 Q2]. apply Nat.eqb_eq in Q1. apply Nat.eqb_eq in Q2. split; [|split; [discriminate|split; [exact K|]]]; cbn [fst gmems].
      * eapply ginv_put; [exact H|exact Ek|exact K|eapply other_set; eauto|]. split; cnt.
      * apply (same_values_set _ m k c None); auto.
    + apply (SAME s' QNo _ K); [discriminate|exact K].
Qed.
End World.
