(** * TRcLocal: under Tree Borrows, Rc and Weak look at the bytes of their memories only. *)
From Verif Require Import Base Spec BaseFacts SyncModel SyncSpec RcModel RcProofs RcMemProofs BorrowModel BorrowSpec BorrowProofs BorrowState BorrowLocal UBorrowModel EBorrowSlot RBorrowModel RBorrowSpec RBorrowBytes RBorrowOps RBorrowCalls RBorrowWorld RBorrowStep
  TBorrowModel EBorrowModel TreeModel TreeSpec TreeState TreeAct TreeLocal TExitModel TExitState TExitLocal TRcModel TRcSpec TRcOps TRcWorld TRcStep.

Section Cells.
Variable P : Z -> Prop.
Lemma fp_uc_get b p : covers P b -> flooks P (f_uc_get b p).
Proof. intros C. unfold f_uc_get. fl; apply fl_one, C. Qed.
Lemma fp_cell_get b p : covers P b -> flooks P (f_cell_get b p).
Proof. intros C. unfold f_cell_get. fl; [apply fl_one, C|apply fp_uc_get, C|apply fl_access, C]. Qed.
Lemma fp_cell_set b p : covers P b -> flooks P (f_cell_set b p).
Proof. intros C. unfold f_cell_set. fl; [apply fl_one, C|apply fp_uc_get, C|apply fl_one, C|apply fl_one, C|apply fl_access, C|apply fl_access, C]. Qed.
End Cells.

Section Box.
Variables (t : target) (x : qbox) (P : Z -> Prop).
Hypotheses (V : valid_target t) (OK : qtype_ok t (q_ty x)) (C : covers P (q_all t x)).

Lemma cv_s : covers P (q_strong t x). Proof. intros y Y. apply C. apply (strong_all t x V OK). exact Y. Qed.
Lemma cv_w : covers P (q_weak t x). Proof. intros y Y. apply C. apply (weak_all t x V OK). exact Y. Qed.
Lemma cv_v : covers P (q_val x). Proof. intros y Y. apply C. apply (val_all t x V OK). exact Y. Qed.
Lemma cv_refs : Forall (fun q : rkind * block => covers P (snd q)) (q_refs x).
Proof. apply Forall_forall. intros [kd b] I y Y. apply C. apply (val_all t x V OK). apply (refs_val t x OK kd b y I Y). Qed.
Lemma cv_parts : Forall (fun q : rkind * block => covers P (snd q)) (q_refs x ++ [(RCell, q_strong t x); (RCell, q_weak t x)]).
Proof. apply Forall_app. split; [apply cv_refs|]. apply Forall_cons; [apply cv_s|]. apply Forall_cons; [apply cv_w|apply Forall_nil]. Qed.

Lemma fr_new : flooks P (g_new t x).
Proof. unfold g_new. fl; [apply fl_access, C|apply fl_one, C|apply fl_ret]. Qed.
Lemma fr_inner : flooks P (g_inner t x).
Proof. unfold g_inner. fl; apply fl_retag, cv_parts. Qed.
Lemma fr_strong : flooks P (g_strong_count t x).
Proof. unfold g_strong_count. fl; [apply fr_inner|apply fp_cell_get, cv_s]. Qed.
Lemma fr_weak : flooks P (g_weak_count t x).
Proof. unfold g_weak_count. fl; [apply fr_inner|apply fp_cell_get, cv_w]. Qed.
Lemma fr_set_strong : flooks P (g_set_strong t x).
Proof. unfold g_set_strong. fl; [apply fr_strong|apply fr_inner|apply fp_cell_set, cv_s]. Qed.
Lemma fr_set_weak : flooks P (g_set_weak t x).
Proof. unfold g_set_weak. fl; [apply fr_weak|apply fr_inner|apply fp_cell_set, cv_w]. Qed.
Lemma fr_is_unique st : flooks P (g_is_unique t x st).
Proof. unfold g_is_unique. fl; [apply fr_strong|]. destruct (Nat.eqb st 1); [apply fr_weak|apply fl_ret]. Qed.
Lemma fr_deref : flooks P (g_deref t x).
Proof. unfold g_deref. fl; [apply fr_inner|apply fl_retag, cv_refs]. Qed.
Lemma fr_get_mut st wk : flooks P (g_get_mut t x st wk).
Proof. unfold g_get_mut. fl; [apply fr_is_unique|]. destruct (Nat.eqb st 1 && Nat.eqb wk 1); [fl; [apply fl_one, cv_v|]|]; apply fl_ret. Qed.
Lemma fr_drop st : flooks P (g_drop t x st).
Proof. unfold g_drop. fl; [apply fr_set_strong|apply fr_strong|]. destruct (Nat.eqb st 1); [fl; [apply fr_set_weak|apply fl_one, cv_v|]|]; apply fl_ret. Qed.
Lemma fr_try_unwrap st : flooks P (g_try_unwrap t x st).
Proof. unfold g_try_unwrap. fl; [apply fr_strong|]. destruct (Nat.eqb st 1); [fl; [apply fr_set_strong|apply fl_access, cv_v]|apply fl_ret]. Qed.
Lemma fr_w_cell b : covers P b -> flooks P (gw_cell x b).
Proof. intros B. unfold gw_cell. fl; apply fl_one, B. Qed.
Lemma fr_w_count b : covers P b -> flooks P (gw_count x b).
Proof. intros B. unfold gw_count. fl; [apply fr_w_cell, B|apply fp_cell_get, B]. Qed.
Lemma fr_w_set : flooks P (gw_set t x).
Proof. unfold gw_set. fl; [apply fr_w_count, cv_w|apply fr_w_cell, cv_w|apply fp_cell_set, cv_w]. Qed.
Lemma fr_w_upgrade st : flooks P (gw_upgrade t x st).
Proof. unfold gw_upgrade. fl; [apply fr_w_count, cv_s|]. destruct (Nat.eqb st 0); [apply fl_ret|apply fr_set_strong]. Qed.
Lemma fr_w_try st wk : flooks P (gw_try_unwrap t x st wk).
Proof.
  unfold gw_try_unwrap. fl; [apply fr_w_count, cv_s|]. destruct (Nat.eqb st 0); [|apply fl_ret]. fl; [apply fr_w_count, cv_w|]. destruct (Nat.eqb wk 1); [apply fr_w_set|apply fl_ret].
Qed.
End Box.

Section World.
Variables (t : target) (P : Z -> Prop).
Hypothesis V : valid_target t.
Definition with_gf (w : gworld) (s : forest) : gworld := MkGW s (gmems w) (ghandles w) (gdrops w).
Definition same_gstep (r r2 : gworld * qanswer) : Prop := exists s', r2 = (with_gf (fst r) s', snd r) /\ same_forest P (gforest (fst r)) s'.

Lemma gstep_local w s o : ginv t w -> gop_ok t o -> (forall m k, nth_error (gmems w) m = Some k -> covers P (m_blk k)) ->
  same_forest P (gforest w) s -> same_gstep (gstep t w o) (gstep t (with_gf w s) o).
Proof.
  intros H OK CV G. destruct w as [fo ms hs dr]. unfold with_gf in *. cbn [gforest gmems ghandles gdrops] in *.
  assert (Stay : forall a, same_gstep (MkGW fo ms hs dr, a) (MkGW s ms hs dr, a)) by (intros a; exists s; auto).
  assert (AN : forall A (f : F A) (g : A -> forest -> gworld * qanswer) , flooks P f -> (forall a s1 s2, same_forest P s1 s2 -> same_gstep (g a s1) (g a s2)) ->
    same_gstep (match f fo with Some (a, s1) => g a s1 | None => (MkGW fo ms hs dr, QUB) end) (match f s with Some (a, s1) => g a s1 | None => (MkGW s ms hs dr, QUB) end)).
  { intros A f g L K. destruct (fl_cases _ _ _ _ L G) as [(a & s1 & s2 & E1 & E2 & X)|[E1 E2]]; rewrite E1, E2; [apply K; exact X|apply Stay]. }
  unfold gstep. destruct (ghandle_of o) as [h|] eqn:Ho; cbn [ghandles gmems gdrops gforest].
  - destruct (nth_error hs h) as [[m kd]|]; [|apply Stay]. destruct (nth_error ms m) as [k|] eqn:Ek; [|apply Stay]. destruct (m_box k) as [c|] eqn:Ec; [|apply Stay].
    destruct (v_box _ _ _ _ _ (i_minv _ _ H) m k c Ek Ec) as (TY & FT & _).
    assert (C : covers P (q_all t (box_at k (c_ty c)))) by (intros y Y; apply (CV m k Ek); eapply (in_mem t (fun _ => Some 0%nat)); eauto).
    assert (BX : qtype_ok t (q_ty (box_at k (c_ty c)))) by exact TY.
    destruct o; destruct kd; try discriminate; cbn [gcall]; try apply Stay; unfold gput; cbn [gforest gmems ghandles gdrops].
    all: try (apply AN; [first [exact (fr_set_strong t _ P V BX C)|exact (fr_w_set t _ P V BX C)|exact (fr_set_weak t _ P V BX C)|exact (fr_w_upgrade t _ P V BX C _)|exact (fr_strong t _ P V BX C)
        |exact (fr_w_count _ P _ (cv_s t _ P V BX C))|exact (fr_weak t _ P V BX C)|exact (fr_w_count _ P _ (cv_w t _ P V BX C))|exact (fr_drop t _ P V BX C _)|exact (fr_deref t _ P V BX C)
        |exact (fr_get_mut t _ P V BX C _ _)|exact (fr_try_unwrap t _ P V BX C _)|exact (fr_is_unique t _ P V BX C _)|exact (fr_w_try t _ P V BX C _ _)]|]).
    all: try (intros a s1 s2 X; cbn beta; repeat match goal with |- context [if ?b then _ else _] => destruct b | |- context [match ?b with Some _ => _ | None => _ end] => is_var b; destruct b end; exists s2; (split; [reflexivity|exact X])).
    exists s. split; [reflexivity|exact G].
  - destruct o; try discriminate; cbn [gop_ok] in OK.
    + destruct (nth_error ms m) as [k|] eqn:Ek; [|apply Stay]. destruct (m_box k); [apply Stay|]. destruct (rc_fits t (m_blk k) (q_lay ty)) eqn:F; [|apply Stay].
      apply AN; [|intros a s1 s2 X; exists s2; split; [reflexivity|exact X]]. apply fr_new. intros y Y. apply (CV m k Ek). eapply (in_mem t (fun _ => Some 0%nat)); eauto.
    + destruct dr as [|[m here] ds]; [apply Stay|]. exists s. split; [reflexivity|exact G].
    + destruct (nth_error ms m) as [k|] eqn:Ek; [|apply Stay]. destruct (m_box k) as [c|] eqn:Ec; [|apply Stay]. destruct (tags_of (c_val c)) as [l|]; [|apply Stay].
      destruct (nact_ok (MkO (q_val (box_at k (c_ty c))) l) a) eqn:A; [|apply Stay]. destruct (v_box _ _ _ _ _ (i_minv _ _ H) m k c Ek Ec) as (TY & FT & _).
      destruct G as [N G]. rewrite <- N.
      assert (Cv : covers P (oblk (MkO (q_val (box_at k (c_ty c))) l))) by (intros y Y; apply (CV m k Ek); eapply (in_mem t (fun _ => Some 0%nat)); [exact TY|exact FT|]; apply (val_all t (box_at k (c_ty c)) V TY); exact Y).
      pose proof (act_looks P _ (fresh_tag fo) a _ _ Cv A G) as X.
      destruct (tree_act _ a (nodes fo)) as [r|], (tree_act _ a (nodes s)) as [y|]; try contradiction; [|exists s; split; [reflexivity|split; assumption]].
      eexists. split; [reflexivity|]. split; [reflexivity|exact X].
Qed.

(** The memories stay where they are. *)
Lemma blk_set k' : forall ms m k, nth_error ms m = Some k -> m_blk k' = m_blk k -> map m_blk (set_nth ms m k') = map m_blk ms.
Proof.
  induction ms as [|a ms IH]; intros [|m] k E B; cbn in *; try discriminate; [injection E as ->; rewrite B; reflexivity|]. rewrite (IH m k E B). reflexivity.
Qed.
Lemma gstep_blks w o : map m_blk (gmems (fst (gstep t w o))) = map m_blk (gmems w).
Proof.
  unfold gstep. destruct (ghandle_of o) as [h|].
  - destruct (nth_error (ghandles w) h) as [[m kd]|]; [|reflexivity]. destruct (nth_error (gmems w) m) as [k|] eqn:Ek; [|reflexivity]. destruct (m_box k) as [c|]; [|reflexivity].
    destruct o; destruct kd; cbn [gcall]; try reflexivity;
      repeat match goal with |- context [match ?f with Some _ => _ | None => (w, QUB) end] => destruct f as [[? ?]|] end; cbn [fst]; try reflexivity;
      repeat match goal with |- context [if ?b then _ else _] => destruct b end;
      repeat match goal with |- context [match ?b with Some _ => _ | None => _ end] => is_var b; destruct b end; cbn [fst gput gmems]; try reflexivity; (eapply blk_set; [exact Ek|reflexivity]).
  - destruct o; try reflexivity.
    + destruct (nth_error (gmems w) m) as [k|] eqn:Ek; [|reflexivity]. destruct (m_box k); [reflexivity|]. destruct (rc_fits _ _ _); [|reflexivity].
      destruct (g_new _ _ _) as [[? ?]|]; [|reflexivity]. cbn [fst gput gmems]. eapply blk_set; [exact Ek|reflexivity].
    + destruct (gdrops w) as [|[m here] ds]; [reflexivity|]. cbn [fst gmems]. destruct (nth_error (gmems w) m) as [k|] eqn:Ek; [|reflexivity]. destruct (m_box k); [|reflexivity]. destruct here; [|reflexivity].
      eapply blk_set; [exact Ek|reflexivity].
    + destruct (nth_error (gmems w) m) as [k|] eqn:Ek; [|reflexivity]. destruct (m_box k); [|reflexivity]. destruct (tags_of _); [|reflexivity]. destruct (nact_ok _ _); [|reflexivity].
      destruct (tree_act _ _ _); [|reflexivity]. cbn [fst gput gmems]. eapply blk_set; [exact Ek|reflexivity].
Qed.

(** A program of which the memories are all there is *)
Definition gwide (bs : list block) : gworld := MkGW (MkS (MkTree (fun n => if Nat.eqb n 0 then [0%nat] else []) (fun _ _ => PActive)) 1) (map (fun b => MkQM b 0 None) bs) [] [].

Lemma grun_local os : Forall (gop_ok t) os -> forall w s, ginv t w -> gdinv w -> (forall b, In b (map m_blk (gmems w)) -> covers P b) -> same_forest P (gforest w) s ->
  exists s', grun t (with_gf w s) os = (with_gf (fst (grun t w os)) s', snd (grun t w os)) /\ same_forest P (gforest (fst (grun t w os))) s'.
Proof.
  induction 1 as [|o os O F IH]; intros w s H D CV G; cbn [grun]; [exists s; auto|].
  destruct (gstep_ok t V w o H D O) as (H1 & D1 & _). pose proof (gstep_blks w o) as BL.
  destruct (gstep_local w s o H O) as (s1 & E1 & G1); [|exact G|].
  { intros m k E. apply CV. apply in_map. eapply nth_error_In; eauto. }
  rewrite E1. destruct (gstep t w o) as [w1 r]. cbn [fst snd] in *. rewrite <- BL in CV. destruct (IH w1 s1 H1 D1 CV G1) as (s2 & E2 & G2). rewrite E2.
  destruct (grun t w1 os) as [w2 h]. cbn [fst snd] in *. exists s2. auto.
Qed.
Lemma gpolite_local os : Forall (gop_ok t) os -> forall w s ms, ginv t w -> gdinv w -> (forall b, In b (map m_blk (gmems w)) -> covers P b) -> same_forest P (gforest w) s ->
  gpolite t (with_gf w s) ms os -> gpolite t w ms os.
Proof.
  induction 1 as [|o os O F IH]; intros w s ms H D CV G PO; [exact Logic.I|]. cbn [gpolite] in *. destruct PO as [P1 P2]. split; [exact P1|].
  destruct (gstep_ok t V w o H D O) as (H1 & D1 & _). pose proof (gstep_blks w o) as BL.
  destruct (gstep_local w s o H O) as (s1 & E1 & G1); [|exact G|].
  { intros m k E. apply CV. apply in_map. eapply nth_error_In; eauto. }
  rewrite E1 in P2. destruct (gstep t w o) as [w1 r]. cbn [fst snd] in *. rewrite <- BL in CV. exact (IH w1 s1 _ H1 D1 CV G1 P2).
Qed.
End World.

Section New.
Variables (t : target) (bs : list block).
Hypotheses (V : valid_target t) (Dj : pairwise disjoint bs).
Lemma gwide_mem m k : nth_error (gmems (gwide bs)) m = Some k -> exists b, nth_error bs m = Some b /\ k = MkQM b 0 None.
Proof. cbn [gwide gmems]. rewrite nth_error_map. destruct (nth_error bs m) as [b|]; [|discriminate]. intros [= <-]. exists b. auto. Qed.
Lemma gwide_inv : ginv t (gwide bs).
Proof.
  split.
  - split; cbn [gwide gforest fresh_tag nodes line perms].
    + lia.
    + auto.
    + intros n L. lia.
    + intros c q [].
    + intros o [].
  - intros m k E. destruct (gwide_mem m k E) as (b & _ & ->). reflexivity.
  - split.
    + intros m k y E _. destruct (gwide_mem m k E) as (b & _ & ->). reflexivity.
    + intros m m' k k' y E E' Y Y'. destruct (gwide_mem m k E) as (b & B & ->). destruct (gwide_mem m' k' E') as (b' & B' & ->). cbn [m_blk] in *.
      destruct (Nat.eq_dec m m') as [->|N]; [reflexivity|]. destruct (Dj m m' b b' N B B' y). auto.
    + intros m k E. destruct (gwide_mem m k E) as (b & _ & ->). left. reflexivity.
    + intros m k c E B. destruct (gwide_mem m k E) as (b & _ & ->). discriminate.
    + intros m k E _. split; reflexivity.
Qed.
Lemma gwide_dinv : gdinv (gwide bs).
Proof. intros m []. Qed.
Definition in_mems (y : Z) : Prop := exists b, In b bs /\ in_block b y.
Lemma gwide_covers b : In b (map m_blk (gmems (gwide bs))) -> covers in_mems b.
Proof. intros I y Y. exists b. split; [|exact Y]. cbn [gwide gmems] in I. rewrite map_map in I. apply in_map_iff in I. destruct I as (b0 & <- & I). exact I. Qed.
Lemma gnew_same : same_forest in_mems (gforest (gwide bs)) (gforest (gnew bs)).
Proof.
  split; [reflexivity|]. split; [reflexivity|]. intros y (b & I & Y). cbn [gnew gwide gforest nodes perms].
  assert (E : existsb (fun b => inb b y) bs = true) by (apply existsb_exists; exists b; split; [exact I|apply inb_iff, Y]). rewrite E. reflexivity.
Qed.
Lemma gnew_polite os ms : Forall (gop_ok t) os -> gpolite t (gnew bs) ms os -> gpolite t (gwide bs) ms os.
Proof. intros F. exact (gpolite_local t in_mems V os F (gwide bs) (gforest (gnew bs)) ms gwide_inv gwide_dinv gwide_covers gnew_same). Qed.
Lemma grun_blks os : forall w, map m_blk (gmems (fst (grun t w os))) = map m_blk (gmems w).
Proof.
  induction os as [|o os IH]; intros w; cbn [grun]; [reflexivity|]. pose proof (gstep_blks t w o) as B. destruct (gstep t w o) as [w1 r]. cbn [fst] in B. specialize (IH w1). destruct (grun t w1 os). cbn [fst] in *. congruence.
Qed.
(** every handle is of one of the memories *)
Definition of_mem (n : nat) (h : nat * hkind) : Prop := (fst h < n)%nat.
Lemma of_set n x : forall hs h, Forall (of_mem n) hs -> of_mem n x -> Forall (of_mem n) (set_nth hs h x).
Proof. induction hs as [|y hs IH]; intros [|h] F Fx; cbn; try constructor; try assumption; inversion F; subst; auto. Qed.
Lemma gstep_of n w o : length (gmems w) = n -> Forall (of_mem n) (ghandles w) -> Forall (of_mem n) (ghandles (fst (gstep t w o))).
Proof.
  intros L F. unfold gstep. destruct (ghandle_of o) as [h|].
  - destruct (nth_error (ghandles w) h) as [[m kd]|]; [|exact F]. destruct (nth_error (gmems w) m) as [k|] eqn:Ek; [|exact F]. destruct (m_box k) as [c|]; [|exact F].
    assert (M : (m < n)%nat) by (rewrite <- L; apply nth_error_Some; congruence).
    assert (A : forall kd', Forall (of_mem n) (ghandles w ++ [(m, kd')])) by (intros kd'; apply Forall_app; split; [exact F|constructor; [exact M|constructor]]).
    assert (B : forall kd', Forall (of_mem n) (set_nth (ghandles w) h (m, kd'))) by (intros kd'; apply of_set; [exact F|exact M]).
    destruct o; destruct kd; cbn [gcall]; try exact F;
      repeat match goal with |- context [match ?f with Some _ => _ | None => (w, QUB) end] => destruct f as [[? ?]|] end; cbn [fst]; try exact F;
      repeat match goal with |- context [if ?b then _ else _] => destruct b end;
      repeat match goal with |- context [match ?b with Some _ => _ | None => _ end] => is_var b; destruct b end; cbn [fst gput ghandles]; try exact F; try apply A; apply B.
  - destruct o; try exact F.
    + destruct (nth_error (gmems w) m) as [k|] eqn:Ek; [|exact F]. destruct (m_box k); [exact F|]. destruct (rc_fits _ _ _); [|exact F].
      destruct (g_new _ _ _) as [[? ?]|]; [|exact F]. cbn [fst gput ghandles]. apply Forall_app. split; [exact F|]. constructor; [|constructor]. unfold of_mem. cbn [fst]. rewrite <- L. apply nth_error_Some. congruence.
    + destruct (gdrops w) as [|[m here] ds]; exact F.
    + destruct (nth_error (gmems w) m) as [k|]; [|exact F]. destruct (m_box k); [|exact F]. destruct (tags_of _); [|exact F]. destruct (nact_ok _ _); [|exact F].
      destruct (tree_act _ _ _); exact F.
Qed.
Lemma grun_of n os : forall w, length (gmems w) = n -> Forall (of_mem n) (ghandles w) -> Forall (of_mem n) (ghandles (fst (grun t w os))).
Proof.
  induction os as [|o os IH]; intros w L F; cbn [grun]; [exact F|]. pose proof (gstep_of n w o L F) as F1. pose proof (f_equal (@length _) (gstep_blks t w o)) as B. rewrite !map_length in B.
  destruct (gstep t w o) as [w1 r]. cbn [fst] in *. specialize (IH w1 ltac:(congruence) F1). destruct (grun t w1 os). exact IH.
Qed.
Lemma gnew_run os : Forall (gop_ok t) os -> exists s, grun t (gnew bs) os = (with_gf (fst (grun t (gwide bs) os)) s, snd (grun t (gwide bs) os)) /\ same_forest in_mems (gforest (fst (grun t (gwide bs) os))) s.
Proof.
  intros F. destruct (grun_local t in_mems V os F (gwide bs) (gforest (gnew bs)) gwide_inv gwide_dinv gwide_covers gnew_same) as (s & E & G). exists s. split; [exact E|exact G].
Qed.
End New.
