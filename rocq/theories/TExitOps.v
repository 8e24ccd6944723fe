(** * TExitOps: what the functions of TExitModel do to the tree of all tags. *)
From Verif Require Import Base Spec BaseFacts SyncModel SyncSpec UnsyncModel ExitModel ConcModel BorrowModel BorrowSpec BorrowProofs BorrowState TBorrowModel
  UBorrowModel EBorrowModel TreeModel TreeSpec TreeState TExitModel TExitSpec TExitState.

(** A pointer that was made from [p] by shared references to UnsafeCells and raw pointers only *)
Record chain (p : nat) (s : forest) (n : nat) (s' : forest) : Prop := {
  c_wf : wf s;
  c_par : (p < fresh_tag s)%nat;
  c_down : down p (fun _ => False) s s';
  c_new : (fresh_tag s <= n < fresh_tag s')%nat;
  c_head : exists up, line (nodes s') n = n :: up;
  c_in : forall y, (y < fresh_tag s)%nat -> In y (line (nodes s') n) <-> In y (line (nodes s) p);
  c_else : forall y, In y (line (nodes s') n) -> (y < fresh_tag s)%nat \/ (forall x, perms (nodes s') x y = PCell) }.

Lemma chain_wf p s n s' : chain p s n s' -> wf s'.
Proof. intros C. eapply down_wf. apply (c_down _ _ _ _ C). Qed.

Lemma chain_one im p bs s : wf s -> (p < fresh_tag s)%nat -> bs <> [] -> op (f_retag im p (map (pair RCell) bs)) s (chain p s).
Proof.
  intros W L N. eapply op_weaken; [|apply op_cell; eauto]. intros n s' (D & [k1 k2] & P). split; auto; [eauto| |].
  - intros y Y. rewrite k2. split; [|right; assumption]. intros [<-|K]; [lia|exact K].
  - intros y Y. rewrite k2 in Y. destruct Y as [<-|Y]; [right; exact P|left; eapply wf_line; eauto].
Qed.

Lemma chain_trans p s n s1 m s2 : chain p s n s1 -> chain n s1 m s2 -> chain p s m s2.
Proof.
  intros [a0 a1 a2 a3 a4 a5 a6] [b0 b1 b2 b3 b4 b5 b6]. pose proof (s_fresh _ _ _ (proj1 a2)) as F. split; auto.
  - eapply down_trans; [exact a0|exact a1|exact a5|exact a2|exact b2].
  - lia.
  - intros y Y. rewrite b5 by lia. apply a5. exact Y.
  - intros y Y. destruct (b6 y Y) as [L|P]; [|right; exact P]. apply b5 in Y; [|exact L]. destruct (a6 y Y) as [L'|P]; [left; exact L'|right].
    intros x. apply (s_cell _ _ _ (proj1 b2) x y L). apply P.
Qed.

Lemma chain_bind p s (m : F nat) (k : nat -> F nat) : op m s (chain p s) -> (forall n s', chain p s n s' -> op (k n) s' (chain n s')) -> op (n <~ m ~; k n) s (chain p s).
Proof. intros M H. apply op_bind. eapply op_weaken; [|exact M]. intros n s' C. eapply op_weaken; [|apply H; exact C]. intros a s'' C'. eapply chain_trans; eauto. Qed.

Lemma chain_wr p s n s' X : chain p s n s' -> wr s p X -> wr s' n X.
Proof.
  intros [a0 a1 (St & D & _) a3 a4 a5 a6] [L Q]. split; [lia|]. intros x y Hx Y. destruct (a6 y Y) as [Ly|P]; [|rewrite P; apply wp_cell].
  apply a5 in Y; [|exact Ly]. apply D; [exact Y|]. apply Q; assumption.
Qed.
Lemma chain_qt p s n s' X : chain p s n s' -> qt s p X -> qt s' n X.
Proof.
  intros [a0 a1 (St & D & _) a3 a4 a5 a6] [L Q]. split; [lia|]. intros x y Hx Y. destruct (a6 y Y) as [Ly|P]; [|left; apply P].
  apply a5 in Y; [|exact Ly]. apply (step_quiet _ _ _ _ _ St Ly). apply Q; assumption.
Qed.
Lemma chain_down p s n s' B s'' : chain p s n s' -> down n B s' s'' -> down p B s s''.
Proof. intros [a0 a1 a2 a3 a4 a5 a6] D. eapply down_trans; eauto. apply down_none. exact a2. Qed.

Lemma via {A} p s (m : F nat) (k : nat -> F A) B (Phi : A -> forest -> Prop) : op m s (chain p s) ->
  (forall n s', chain p s n s' -> op (k n) s' (fun a s'' => down n B s' s'' /\ Phi a s'')) -> op (n <~ m ~; k n) s (fun a s'' => down p B s s'' /\ Phi a s'').
Proof.
  intros M H. apply op_bind. eapply op_weaken; [|exact M]. intros n s' C. eapply op_weaken; [|apply H; exact C]. intros a s'' [D X]. split; [|exact X]. eapply chain_down; eauto.
Qed.
(** the same without a result *)
Lemma via0 {A} p s (m : F nat) (k : nat -> F A) B : op m s (chain p s) ->
  (forall n s', chain p s n s' -> op (k n) s' (fun _ s'' => down n B s' s'')) -> op (n <~ m ~; k n) s (fun _ s'' => down p B s s'').
Proof. intros M H. apply op_bind. eapply op_weaken; [|exact M]. intros n s' C. eapply op_weaken; [|apply H; exact C]. intros a s'' D. eapply chain_down; eauto. Qed.
Lemma seq0 {A C} p s (m : F A) (k : A -> F C) B (Phi : C -> forest -> Prop) : wf s -> (p < fresh_tag s)%nat ->
  op m s (fun _ s' => down p B s s') -> (forall a s', down p B s s' -> op (k a) s' (fun c s'' => down p B s' s'' /\ Phi c s'')) ->
  op (a <~ m ~; k a) s (fun c s'' => down p B s s'' /\ Phi c s'').
Proof.
  intros W L M H. apply op_bind. eapply op_weaken; [|exact M]. intros a s' D. cbn beta in D. eapply op_weaken; [|apply (H a s' D)]. intros c s'' [D' Y]. split; [|exact Y]. eapply down_seq; eauto.
Qed.
Lemma no_result {A} (m : F A) s (Q : forest -> Prop) : op m s (fun _ s' => Q s' /\ True) -> op m s (fun _ s' => Q s').
Proof. apply op_weaken. tauto. Qed.

Lemma op_one p b im s : wf s -> (p < fresh_tag s)%nat -> op (f_one im RCell b p) s (chain p s).
Proof. intros W L. apply (chain_one im p [b]); auto. discriminate. Qed.
Lemma op_self hd st p s : wf s -> (p < fresh_tag s)%nat -> op (f_self hd st p) s (chain p s).
Proof. intros W L. apply (chain_one true p [hd; st]); auto. discriminate. Qed.
Lemma op_stack pl p s : wf s -> (p < fresh_tag s)%nat -> op (f_stack_ref pl RCell p) s (chain p s).
Proof. intros W L. apply (chain_one true p [p_hd pl; p_st pl; p_tp pl]); auto. discriminate. Qed.

Ltac ch C := pose proof (chain_wf _ _ _ _ C); pose proof (proj2 (c_new _ _ _ _ C)).

Lemma op_uc_get b p s : wf s -> (p < fresh_tag s)%nat -> op (f_uc_get b p) s (chain p s).
Proof. intros W L. unfold f_uc_get. apply chain_bind; [apply op_one; auto|]. intros n s' C. ch C. apply op_one; auto. Qed.

Lemma op_cell_get b p s : wf s -> wr s p (in_block b) -> op (f_cell_get b p) s (fun _ s' => down p (in_block b) s s').
Proof.
  intros W Wr. pose proof (proj1 Wr) as L. unfold f_cell_get. apply via0; [apply op_one; auto|]. intros n s' C. ch C. apply via0; [apply op_uc_get; auto|]. intros m s'' C'. ch C'.
  apply op_access; auto. eapply chain_wr; eauto. eapply chain_wr; eauto.
Qed.

Lemma in_any_one b x : in_any [b] x <-> in_block b x.
Proof. split; [intros (c & [<-|[]] & X); exact X|intros X; exists b; split; [left; reflexivity|exact X]]. Qed.

Lemma op_cell_set b p s : wf s -> wr s p (in_block b) -> op (f_cell_set b p) s (fun _ s' => down p (in_block b) s s').
Proof.
  intros W Wr. pose proof (proj1 Wr) as L. unfold f_cell_set. apply via0; [apply op_one; auto|]. intros n s' C. ch C. apply via0; [apply op_uc_get; auto|]. intros m s'' C'. ch C'.
  assert (Wm : wr s'' m (in_any [b])) by (apply (wr_less s'' m (in_block b)); [intros x X; apply in_any_one; exact X|]; exact (chain_wr _ _ _ _ _ C' (chain_wr _ _ _ _ _ C Wr))).
  apply no_result. apply (via_unique false m [b]); auto; [discriminate|intros x; apply in_any_one|]. intros r s3 D3 K3 P3 _. pose proof (down_wf _ _ _ _ D3) as W3.
  assert (Wr3 : wr s3 r (in_any [b])) by (eapply (kid_wr m (in_any [b]) s''); eauto; intros x; rewrite P3; apply wp_res).
  apply (via_unique false r [b]); auto; [discriminate|intros x; apply in_any_one|]. intros d s4 D4 K4 P4 _. pose proof (down_wf _ _ _ _ D4) as W4.
  assert (Wr4 : wr s4 d (in_block b)) by (apply (wr_less s4 d (in_any [b])); [intros x X; apply in_any_one; exact X|]; eapply (kid_wr r (in_any [b]) s3); eauto; intros x; rewrite P4; apply wp_res).
  apply seq0; auto; [apply Wr4|apply op_access; auto|]. intros [] s5 D5. eapply op_weaken; [|apply op_access; [eapply down_wf; eauto|eapply down_wr; [|exact D5|exact Wr4]; auto]]. cbn beta. auto.
Qed.

Section Mem.
Variables (t : target) (hd st : block).
Let mem2 (x : Z) : Prop := in_block hd x \/ in_block st x.

Lemma two_hd s n : qt s n mem2 -> wr s n (in_block hd).
Proof. intros Q. apply qt_wr. eapply qt_less; [|exact Q]. left. assumption. Qed.
Lemma chain_two p s n s' : chain p s n s' -> qt s p mem2 -> qt s' n mem2.
Proof. apply chain_qt. Qed.

Lemma op_capacity u p s : udata u = st -> wf s -> (p < fresh_tag s)%nat -> op (f_capacity hd u p) s (fun _ s' => down p (in_block hd) s s').
Proof.
  intros <- W L. unfold f_capacity. apply via0; [apply op_self; auto|]. intros n s' C. ch C. apply via0; [apply op_uc_get; auto|]. intros m s'' C'. ch C'. apply op_ret. apply down_refl. assumption.
Qed.
Lemma op_level u p s : udata u = st -> wf s -> qt s p mem2 -> op (f_level hd u p) s (fun lv s' => down p (in_block hd) s s' /\ lv = u_level u).
Proof.
  intros Eu W Q. pose proof (proj1 Q) as L. unfold f_level. rewrite Eu. apply via; [apply op_self; auto|]. intros n s' C. ch C. apply seq0; auto.
  - apply op_cell_get; auto. apply two_hd. eapply chain_two; eauto.
  - intros [] s'' D. apply op_ret. split; [|reflexivity]. apply down_refl. eapply down_wf; eauto.
Qed.
Lemma op_bump u p ok s : udata u = st -> wf s -> qt s p mem2 -> op (f_bump t hd u p ok) s (fun _ s' => down p (in_block hd) s s').
Proof.
  intros Eu W Q. pose proof (proj1 Q) as L. unfold f_bump. rewrite Eu. apply no_result. apply via; [apply op_self; auto|]. intros n s' C. ch C. pose proof (chain_two _ _ _ _ C Q) as Qn.
  apply seq0; auto.
  { destruct (debug t); [apply op_capacity; auto|apply op_ret; apply down_refl; auto]. }
  intros [] s2 D2. pose proof (down_wf _ _ _ _ D2) as W2. assert (Q2 : qt s2 n mem2) by (eapply step_qt; [|apply D2|exact Qn]; auto). apply seq0; auto; [apply Q2|apply op_cell_get; [auto|apply two_hd; auto]|].
  intros [] s3 D3. pose proof (down_wf _ _ _ _ D3) as W3. assert (Q3 : qt s3 n mem2) by (eapply step_qt; [|apply D3|exact Q2]; auto).
  destruct ok; [|apply op_ret; split; [apply down_refl; auto|exact Logic.I]]. eapply op_weaken; [|apply op_cell_set; [auto|apply two_hd; auto]]. cbn beta. auto.
Qed.

(** the state and answer, and the pointer of the block: it is new (since tag [lo]) *)
Definition made (lo : nat) (x y : ubump * outcome result) (base : nat) (s' : forest) : Prop := x = y /\ qt s' base mem2 /\ (lo <= base)%nat.
Lemma made_less lo lo' x y base s' : (lo' <= lo)%nat -> made lo x y base s' -> made lo' x y base s'.
Proof. intros L (a & b & c). split; [exact a|]. split; [exact b|lia]. Qed.

Lemma op_try_alloc_at u l expect p s : udata u = st -> wf s -> qt s p mem2 ->
  op (f_try_alloc_at t hd u l expect p) s (fun x s' => down p (in_block hd) s s' /\ made (fresh_tag s) (fst x) (u_try_alloc_at t u l expect) (snd x) s').
Proof.
  intros Eu W Q. pose proof (proj1 Q) as L. unfold f_try_alloc_at. rewrite Eu. apply via; [apply op_self; auto|]. intros n s1 C1. ch C1. pose proof (chain_two _ _ _ _ C1 Q) as Q1.
  apply seq0; auto; [eapply op_weaken; [|apply op_one; auto; apply Q1]; intros x s' C; apply down_none; apply (c_down _ _ _ _ C)|]. intros _ s2 D2. pose proof (down_wf _ _ _ _ D2) as W2. assert (Q2 : qt s2 n mem2) by (eapply step_qt; [|apply D2|exact Q1]; auto).
  set (X := op (d <~ _ ~; _) _ _).
  assert (B : op (d <~ f_one true RCell st n ~; d <~ f_one true RCell st d ~; f_uc_get st d) s2 (chain n s2)).
  { apply chain_bind; [apply op_one; auto; apply Q2|]. intros a sa Ca. ch Ca. apply chain_bind; [apply op_one; auto|]. intros b sb Cb. ch Cb. apply op_uc_get; auto. }
  subst X. unfold op, fbind in *. destruct (f_one true RCell st n s2) as [[a sa]|]; [|exact B]. destruct (f_one true RCell st a sa) as [[b sb]|]; [|exact B]. destruct (f_uc_get st b sb) as [[base s3]|]; [|exact B].
  ch B. pose proof (proj1 (c_new _ _ _ _ B)) as Lb. pose proof (s_fresh _ _ _ (proj1 D2)) as F2. pose proof (s_fresh _ _ _ (proj1 (c_down _ _ _ _ C1))) as F1. assert (Lo : (fresh_tag s <= base)%nat) by lia. pose proof (chain_two _ _ _ _ B Q2) as Q3. assert (D3 : down n (in_block hd) s2 s3) by (apply down_none; apply (c_down _ _ _ _ B)). assert (Qn : qt s3 n mem2) by (eapply step_qt; [|apply D3|exact Q2]; auto).
  destruct (u_try_alloc_at t u l expect) as [u' r]. 
  assert (Fin : forall ok, match fbind (f_bump t hd u n ok) (fun _ => fret (u', r, base)) s3 with
      Some (a0, s') => down n (in_block hd) s2 s' /\ made (fresh_tag s) (fst a0) (u', r) (snd a0) s' | None => False end).
  { intros ok. unfold fbind. pose proof (op_bump u n ok s3 Eu H1 Qn) as Z0. unfold op in Z0. destruct (f_bump t hd u n ok s3) as [[[] s4]|]; [|exact Z0]. unfold fret. cbn [fst snd]. split; [|split; [reflexivity|split; [|exact Lo]]].
    - eapply down_seq; [exact W2|apply Q2|exact D3|exact Z0].
    - eapply step_qt; [|apply Z0|exact Q3]; auto. }
  assert (Non : match fret (u', r, base) s3 with Some (a0, s') => down n (in_block hd) s2 s' /\ made (fresh_tag s) (fst a0) (u', r) (snd a0) s' | None => False end).
  { unfold fret. cbn [fst snd]. split; [exact D3|]. split; [reflexivity|]. split; [exact Q3|exact Lo]. }
  unfold fbind in Fin. destruct r as [[?|[|?]]|?]; [apply Fin|exact Non|apply Fin|exact Non].
Qed.

Lemma op_bump_box u l p s : udata u = st -> wf s -> qt s p mem2 ->
  op (f_bump_box t hd u l p) s (fun x s' => down p (in_block hd) s s' /\ made (fresh_tag s) (fst x) (u_bump_box t u l) (snd x) s').
Proof.
  intros Eu W Q. pose proof (proj1 Q) as L. unfold f_bump_box. rewrite Eu. apply via; [apply op_self; auto|]. intros n s1 C1. ch C1. pose proof (chain_two _ _ _ _ C1 Q) as Q1.
  apply via_seq with (Psi := fun lv _ => lv = u_level u); auto; [apply op_level; auto|]. intros lv s2 D2 ->. pose proof (down_wf _ _ _ _ D2) as W2. assert (Q2 : qt s2 n mem2) by (eapply step_qt; [|apply D2|exact Q1]; auto).
  unfold f_alloc_at. rewrite Eu. apply via; [apply op_self; auto; apply Q2|]. intros m s3 C3. ch C3.
  pose proof (s_fresh _ _ _ (proj1 D2)) as F2. pose proof (s_fresh _ _ _ (proj1 (c_down _ _ _ _ C1))) as F1. pose proof (s_fresh _ _ _ (proj1 (c_down _ _ _ _ C3))) as F3.
  eapply op_weaken; [|apply op_try_alloc_at; auto; eapply chain_two; eauto]. intros x s4 [D4 M]. split; [exact D4|]. eapply made_less; [|exact M]. lia.
Qed.

Lemma op_deref_ref u p s : udata u = st -> wf s -> (p < fresh_tag s)%nat -> op (f_deref_ref hd u p) s (chain p s).
Proof. intros <- W L. unfold f_deref_ref. apply chain_bind; [apply op_self; auto|]. intros n s' C. ch C. apply op_self; auto. Qed.

(** [reset], of a reference that the program does not use again *)
Lemma wr_any2 s n : wr s n mem2 -> wr s n (in_any [hd; st]).
Proof. apply wr_less. intros x (b & [<-|[<-|[]]] & X); [left|right]; exact X. Qed.
Lemma any2_wr s n : wr s n (in_any [hd; st]) -> wr s n mem2.
Proof. apply wr_less. intros x [X|X]; [exists hd|exists st]; (split; [|exact X]); [left|right; left]; reflexivity. Qed.

Lemma op_mut (unpin : bool) p s : wf s -> wr s p mem2 -> op (f_retag true p [(mut_kind unpin, hd); (mut_kind unpin, st)]) s (fun n s' => wf s' /\ wr s' n mem2 /\ (fresh_tag s <= fresh_tag s')%nat).
Proof.
  intros W Wr. destruct unpin; cbn [mut_kind].
  - eapply op_weaken; [|apply (op_unique true p [hd; st]); [auto|discriminate|apply wr_any2; exact Wr]]. intros n s' (D & K & P & _). split; [eapply down_wf; eauto|]. split; [|apply (s_fresh _ _ _ (proj1 D))].
    eapply (kid_wr p (in_any [hd; st]) s); eauto. intros x. rewrite P. apply wp_res.
  - eapply op_weaken; [|apply (chain_one true p [hd; st]); [auto|apply Wr|discriminate]]. intros n s' C. split; [eapply chain_wf; eauto|]. split; [eapply chain_wr; eauto|apply (s_fresh _ _ _ (proj1 (c_down _ _ _ _ C)))].
Qed.

Lemma op_finish pl u unpin p s : p_hd pl = hd -> udata u = st -> wf s -> wr s p mem2 -> op (f_finish pl unpin u p) s (fun u' s' => u' = u_reset u /\ wf s' /\ (fresh_tag s <= fresh_tag s')%nat).
Proof.
  intros Eh Eu W Wr. unfold f_finish. rewrite Eh, Eu. apply op_bind. eapply op_weaken; [|apply op_mut; eauto]. intros n1 s1 (W1 & Wr1 & F1).
  unfold f_deref_mut. rewrite Eu.
  set (X := op (_ <~ _ ~; _) _ _). enough (X) by assumption. unfold X. clear X.
  apply op_bind. unfold op at 1. pose proof (op_mut unpin n1 s1 W1 Wr1) as H2. unfold op in H2. unfold fbind. destruct (f_retag true n1 _ s1) as [[n2 s2]|]; [|exact H2]. destruct H2 as (W2 & Wr2 & F2).
  pose proof (op_mut true n2 s2 W2 Wr2) as H3. cbn [mut_kind] in H3. unfold op in H3. destruct (f_retag true n2 _ s2) as [[n3 s3]|]; [|exact H3]. destruct H3 as (W3 & Wr3 & F3).
  unfold f_reset. rewrite Eu. apply op_bind. eapply op_weaken; [|apply (op_mut true n3 s3 W3 Wr3)]. intros n4 s4 (W4 & Wr4 & F4). apply op_bind.
  eapply op_weaken; [|apply (op_cell_set hd n4 s4 W4)]. { intros [] s5 D5. apply op_ret. cbn beta in D5. pose proof (s_fresh _ _ _ (proj1 D5)). split; [reflexivity|]. split; [eapply down_wf; eauto|lia]. }
  eapply wr_less; [|exact Wr4]. left. assumption.
Qed.
End Mem.
