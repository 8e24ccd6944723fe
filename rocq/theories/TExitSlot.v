(** * TExitSlot: slots of an ExitStack, and its pop_all, on the tree of all tags. *)
From Verif Require Import Base Spec BaseFacts SyncModel SyncSpec UnsyncModel ExitModel ConcModel BorrowModel BorrowSpec BorrowProofs BorrowState TBorrowModel
  UBorrowModel EBorrowModel TreeModel TreeSpec TreeState TExitModel TExitSpec TExitState TExitOps.

(** An empty slot: the pointer of its allocation *)
Definition open_ok (s : forest) (p : nat) (b : block) (unpin : bool) : Prop :=
  exists up, line (nodes s) p = p :: up /\ wr s p (in_block b) /\
    if unpin then exists z, In z up /\ z <> 0%nat /\ forall x, perms (nodes s) x z <> PCell else qt s p (in_block b).

Lemma open_step B s s' p b unpin : wf s -> step B s s' -> (forall x, in_block b x -> ~ B x) -> open_ok s p b unpin -> open_ok s' p b unpin.
Proof.
  intros W K D (up & L & Wr & U). pose proof (proj1 Wr) as Lt. exists up. split; [rewrite (s_line _ _ _ K) by exact Lt; exact L|]. split; [eapply step_wr; eauto|].
  destruct unpin; [|eapply step_qt; eauto]. destruct U as (z & Z1 & Z2 & Z3). exists z. split; [exact Z1|]. split; [exact Z2|]. intros x E. apply (s_cell _ _ _ K) in E; [exact (Z3 x E)|].
  eapply wf_line; eauto. rewrite L. right. exact Z1.
Qed.

Lemma wf_pos s : wf s -> (1 <= fresh_tag s)%nat.
Proof. intros W. apply (t_next _ _ _ W). Qed.

Lemma any_wr s p b : wr s p (in_any [b]) <-> wr s p (in_block b).
Proof. split; apply wr_less; intros x; apply in_any_one. Qed.

Lemma op_leak_box_from unpin im b base s : wf s -> qt s base (in_block b) ->
  op (f_leak_box_from unpin im b base) s (fun p s' => down base (in_block b) s s' /\ ((fresh_tag s <= p)%nat /\ open_ok s' p b unpin)).
Proof.
  intros W Q. pose proof (qt_wr _ _ _ Q) as Wr. pose proof (proj1 Wr) as L. unfold f_leak_box_from, f_one. destruct unpin; cbn [mut_kind].
  - apply (via_unique im base [b]); auto; [discriminate|apply any_wr; exact Wr|intros x; apply in_any_one|]. intros r1 s1 D1 K1 P1 _. pose proof (down_wf _ _ _ _ D1) as W1.
    assert (Wr1 : wr s1 r1 (in_any [b])) by (eapply (kid_wr base (in_any [b]) s); eauto; [intros x; rewrite P1; apply wp_res|apply any_wr; exact Wr]).
    apply (via_unique im r1 [b]); auto; [discriminate|intros x; apply in_any_one|]. intros r2 s2 D2 K2 P2 _. pose proof (down_wf _ _ _ _ D2) as W2.
    assert (Wr2 : wr s2 r2 (in_any [b])) by (eapply (kid_wr r1 (in_any [b]) s1); eauto; intros x; rewrite P2; apply wp_res).
    eapply op_weaken; [|apply (op_cell true r2 [b] s2 W2 (proj1 Wr2)); discriminate]. intros p s3 (D3 & K3 & P3). split; [apply down_none; exact D3|].
    pose proof (k_old _ _ _ _ K3). pose proof (k_old _ _ _ _ K2). pose proof (k_old _ _ _ _ K1). split; [lia|].
    exists (line (nodes s2) r2). split; [apply (k_line _ _ _ _ K3)|]. split; [apply any_wr; eapply (kid_wr r2 _ s2); eauto; intros x; rewrite P3; apply wp_cell|].
    exists r2. split; [rewrite (k_line _ _ _ _ K2); left; reflexivity|]. split; [pose proof (wf_pos _ W1); lia|]. intros x E. apply (s_cell _ _ _ (proj1 D3)) in E; [|lia]. rewrite P2 in E. discriminate.
  - apply via; [apply (chain_one im base [b]); auto; discriminate|]. intros r1 s1 C1. ch C1. apply via; [apply (chain_one im r1 [b]); auto; discriminate|]. intros r2 s2 C2. ch C2.
    eapply op_weaken; [|apply (chain_one true r2 [b]); auto; discriminate]. intros p s3 C3. split; [apply down_none; apply (c_down _ _ _ _ C3)|].
    pose proof (c_new _ _ _ _ C1). pose proof (c_new _ _ _ _ C2). pose proof (c_new _ _ _ _ C3). split; [lia|].
    assert (Qp : qt s3 p (in_block b)) by (eapply chain_qt; eauto; eapply chain_qt; eauto; eapply chain_qt; eauto).
    destruct (c_head _ _ _ _ C3) as [up Up]. exists up. split; [exact Up|]. split; [apply qt_wr; exact Qp|exact Qp].
Qed.

(** A write makes the pointer and all that it comes from active. *)
Definition active (s : forest) (x : Z) (y : nat) : Prop := perms (nodes s) x y = PActive \/ perms (nodes s) x y = PCell.
Lemma op_write p b s : wf s -> wr s p (in_block b) -> op (f_access true p b) s (fun _ s' => down p (in_block b) s s' /\ forall x y, in_block b x -> In y (line (nodes s) p) -> active s' x y).
Proof.
  intros W Wr. unfold op, f_access. destruct (access_can true p b s Wr) as [r E]. rewrite E. split; [apply access_down with (w := true); auto; apply Wr|].
  intros x y X Y. cbn [nodes]. pose proof (access_after _ _ _ _ _ _ _ E X Y) as C. unfold active. cbn [nodes]. destruct (perms (nodes s) x y); cbn in C; try discriminate; injection C as <-; auto.
Qed.

Definition written (s : forest) (p : nat) (b : block) (unpin : bool) : Prop :=
  exists up, line (nodes s) p = p :: up /\ (p < fresh_tag s)%nat /\
    if unpin then (forall x y, in_block b x -> In y (p :: up) -> active s x y) /\ exists z, In z up /\ z <> 0%nat /\ forall x, perms (nodes s) x z <> PCell else qt s p (in_block b).

Lemma op_leak_box_write unpin im b p s : wf s -> open_ok s p b unpin -> op (f_leak_box_write unpin im b p) s (fun _ s' => down p (in_block b) s s' /\ written s' p b unpin).
Proof.
  intros W O. pose proof O as (up & L & Wr & U). pose proof (proj1 Wr) as Lt.
  apply (op_weaken _ _ (fun _ s' => down p (in_block b) s s' /\ (forall x y, in_block b x -> In y (line (nodes s) p) -> active s' x y))).
  { intros [] s' [D A]. split; [exact D|]. pose proof (s_fresh _ _ _ (proj1 D)). exists up. rewrite (s_line _ _ _ (proj1 D)) by exact Lt. split; [exact L|]. split; [lia|]. rewrite L in A. destruct unpin; [|eapply step_qt; eauto; apply D].
    split; [exact A|]. destruct U as (z & Z1 & Z2 & Z3). exists z. split; [exact Z1|]. split; [exact Z2|]. intros x E. apply (s_cell _ _ _ (proj1 D)) in E; [exact (Z3 x E)|].
    eapply wf_line; eauto. rewrite L. right. exact Z1. }
  unfold f_leak_box_write, f_one. destruct unpin; cbn [mut_kind].
  - apply (via_unique im p [b]); auto; [discriminate|apply any_wr; exact Wr|intros x; apply in_any_one|]. intros r1 s1 D1 K1 P1 _. pose proof (down_wf _ _ _ _ D1) as W1.
    assert (Wr1 : wr s1 r1 (in_any [b])) by (eapply (kid_wr p (in_any [b]) s); eauto; [intros x; rewrite P1; apply wp_res|apply any_wr; exact Wr]).
    apply (via_unique im r1 [b]); auto; [discriminate|intros x; apply in_any_one|]. intros r2 s2 D2 K2 P2 _. pose proof (down_wf _ _ _ _ D2) as W2.
    assert (Wr2 : wr s2 r2 (in_any [b])) by (eapply (kid_wr r1 (in_any [b]) s1); eauto; intros x; rewrite P2; apply wp_res).
    apply via; [apply (chain_one true r2 [b]); auto; [apply Wr2|discriminate]|]. intros raw s3 C3. ch C3.
    eapply op_weaken; [|apply op_write; [auto|apply any_wr; eapply chain_wr; eauto]]. intros [] s4 [D4 A4]. split; [exact D4|]. intros x y X Y. apply A4; [exact X|].
    assert (Ly : (y < fresh_tag s)%nat) by (eapply wf_line; eauto). pose proof (s_fresh _ _ _ (proj1 D1)). pose proof (s_fresh _ _ _ (proj1 D2)).
    apply (c_in _ _ _ _ C3); [lia|]. rewrite (k_line _ _ _ _ K2). right. rewrite (k_line _ _ _ _ K1). right. exact Y.
  - apply via; [apply (chain_one im p [b]); auto; discriminate|]. intros r1 s1 C1. ch C1. apply via; [apply (chain_one im r1 [b]); auto; discriminate|]. intros r2 s2 C2. ch C2.
    apply via; [apply (chain_one true r2 [b]); auto; discriminate|]. intros raw s3 C3. ch C3. pose proof (chain_trans _ _ _ _ _ _ (chain_trans _ _ _ _ _ _ C1 C2) C3) as C.
    eapply op_weaken; [|apply op_write; [auto|apply (chain_wr _ _ _ _ _ C); exact Wr]]. intros [] s4 [D4 A4]. split; [exact D4|]. intros x y X Y. apply A4; [exact X|].
    apply (c_in _ _ _ _ C); [eapply wf_line; eauto|exact Y].
Qed.

(** ** slot *)
Section Stack.
Variables (t : target) (hd st tp : block).
Let pl := MkPlaces hd st tp.
Definition mem3 (x : Z) : Prop := in_block hd x \/ in_block st x \/ in_block tp x.

Lemma mem3_2 s n : qt s n mem3 -> qt s n (fun x => in_block hd x \/ in_block st x).
Proof. apply qt_less. unfold mem3. tauto. Qed.

Definition slot_post (u : ubump) (l : layout) (unpin im : bool) (s : forest) (x : ubump * response * option zslot) (s' : forest) : Prop :=
  fst x = ustep t u (UBumpBox (pin_layout t l)) /\
  match snd (fst x) with
  | RBlock a => let b := MkBlock (ptr a) (lsize (pin_layout t l)) in
      step (fun x => in_block hd x \/ in_block b x) s s' /\ exists p top, snd x = Some (place_zslot t l unpin im (ptr a) p top) /\ (fresh_tag s <= p < fresh_tag s')%nat /\
        open_ok s' p b unpin /\ qt s' top (in_block tp)
  | _ => step (in_block hd) s s' /\ snd x = None
  end.

Lemma op_slot u l unpin im p s : disjoint hd st -> udata u = st -> wf s -> qt s p mem3 ->
  (forall a, snd (ustep t u (UBumpBox (pin_layout t l))) = RBlock a -> inside (MkBlock (ptr a) (lsize (pin_layout t l))) st) ->
  op (f_slot t pl u l unpin im p) s (slot_post u l unpin im s).
Proof.
  intros Dj Eu W Q In'. pose proof (proj1 Q) as L. unfold f_slot. cbn [p_hd p_st p_tp pl]. rewrite Eu.
  apply op_bind. eapply op_weaken; [|apply (op_stack pl); auto]. intros self s1 C1. ch C1. apply op_bind. eapply op_weaken; [|apply (op_stack pl); auto]. intros this s2 C2. ch C2.
  pose proof (chain_trans _ _ _ _ _ _ C1 C2) as C02. pose proof (chain_qt _ _ _ _ _ C02 Q) as Q2.
  apply op_bind. eapply op_weaken; [|apply op_self; auto]. intros m s3 C3. ch C3. apply op_bind. eapply op_weaken; [|apply (op_deref_ref hd st); auto]. intros m' s4 C4. ch C4.
  pose proof (chain_trans _ _ _ _ _ _ C3 C4) as C24. pose proof (chain_qt _ _ _ _ _ C24 (mem3_2 _ _ Q2)) as Q4.
  apply op_bind. eapply op_weaken; [|apply (op_bump_box t hd st); auto]. intros [[u' r] base] s5 (D5 & M1 & M2 & _). cbn [fst snd] in *.
  pose proof (down_wf _ _ _ _ D5) as W5.
  assert (St : step (in_block hd) s s5).
  { eapply step_trans; [eapply step_more; [|apply (c_down _ _ _ _ (chain_trans _ _ _ _ _ _ C02 C24))]; intros x []|]. apply D5. }
  assert (Us : ustep t u (UBumpBox (pin_layout t l)) = (u', of_result r)) by (cbn [ustep]; rewrite <- M1; reflexivity).
  rewrite Us in In'. cbn [snd] in In'.
  assert (Other : forall r', (forall a, r' <> RBlock a) -> of_result r = r' -> op (fret (u', r', @None zslot)) s5 (slot_post u l unpin im s)).
  { intros r' N E. apply op_ret. unfold slot_post. cbn [fst snd]. rewrite Us, E. split; [reflexivity|]. destruct r'; try (split; [exact St|reflexivity]). exfalso. eapply N; reflexivity. }
  destruct (of_result r) as [a| |f|lv| |m0] eqn:Er; try (apply Other; [discriminate|reflexivity]). specialize (In' a eq_refl). set (b := MkBlock (ptr a) (lsize (pin_layout t l))) in *.
  apply op_bind. eapply op_weaken; [|apply (op_leak_box_from unpin im b base s5 W5)]. 2:{ eapply qt_less; [|exact M2]. intros x X. right. apply In'. exact X. }
  intros pp s6 (D6 & Lp & O6). pose proof (down_wf _ _ _ _ D6) as W6.
  assert (S26 : step (fun x => in_block hd x \/ in_block b x) s2 s6).
  { eapply step_trans; [eapply step_more; [|apply (c_down _ _ _ _ C24)]; intros x []|]. eapply step_trans; [eapply step_more; [|apply D5]; auto|]. eapply step_more; [|apply D6]. auto. }
  assert (Q6 : qt s6 this mem3) by (eapply step_qt; [|exact S26|exact Q2]; assumption).
  apply op_bind. eapply op_weaken; [|apply op_one; [exact W6|apply Q6]]. intros top s7 C7. apply op_ret. unfold slot_post. cbn [fst snd]. rewrite Us. split; [reflexivity|]. fold b.
  pose proof (s_fresh _ _ _ St). pose proof O6 as (up & L6 & Wr6 & _). pose proof (s_fresh _ _ _ (proj1 (c_down _ _ _ _ C7))). split.
  - eapply step_trans; [eapply step_more; [|exact St]; auto|]. eapply step_trans; [eapply step_more; [|apply D6]; auto|]. eapply step_more; [|apply (c_down _ _ _ _ C7)]. intros x [].
  - exists pp, top. split; [reflexivity|]. split; [split; [lia|pose proof (proj1 Wr6); lia]|]. split; [eapply open_step; [exact W6|apply (c_down _ _ _ _ C7)| |exact O6]; intros x _ []|].
    eapply chain_qt; [exact C7|]. eapply qt_less; [|exact Q6]. right. right. assumption.
Qed.
End Stack.
