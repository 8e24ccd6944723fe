(** * KBorrowDrop: freeing links is defined, for every list of links. *)
From Verif Require Import Base Spec BaseFacts SyncModel UnsyncModel ChainModel ChainProofs BorrowModel BorrowSpec BorrowProofs UBorrowModel EBorrowSlot KBorrowModel KBorrowLink.

(** ** What is freed (without tags) *)
Lemma cell_set_same {A} i (x : option A) l : cell (ChainModel.set_nth i x l) i = if (i <? length l)%nat then x else None.
Proof.
  unfold cell. destruct (Nat.ltb_spec i (length l)) as [H|H]; [rewrite nth_set_nth_eq by exact H; destruct x; reflexivity|].
  replace (nth_error (ChainModel.set_nth i x l) i) with (@None (option A)); [reflexivity|]. symmetry. apply nth_error_None. rewrite ChainProofs.set_nth_length. exact H.
Qed.
Lemma cell_set_other {A} i j (x : option A) l : i <> j -> cell (ChainModel.set_nth i x l) j = cell l j.
Proof. intros H. unfold cell. rewrite nth_set_nth_ne by exact H. reflexivity. Qed.
Lemma cell_lt {A} (l : list (option A)) i k : cell l i = Some k -> (i < length l)%nat.
Proof. intros H. apply cell_iff in H. eapply nth_lt; eauto. Qed.
Lemma cell_put s p k k0 : cell (store s) p = Some k0 -> cell (store (put s p k)) p = Some k.
Proof. intros H. cbn [put store]. rewrite cell_set_same. apply cell_lt in H. rewrite (proj2 (Nat.ltb_lt _ _) H). reflexivity. Qed.
Lemma cell_put_other s p k q : p <> q -> cell (store (put s p k)) q = cell (store s) q.
Proof. apply cell_set_other. Qed.

Lemma dealloc_inv t s p s' : dealloc_link t s p = Some s' ->
  (exists k, cell (store s) p = Some k) /\ cell (store s') p = None /\ forall q, q <> p -> cell (store s') q = cell (store s) q.
Proof.
  unfold dealloc_link. destruct (cell (store s) p) as [k|] eqn:E; [|discriminate]. intros [= <-]. cbn [store]. split; [eauto|]. split.
  - rewrite cell_set_same. destruct (p <? _)%nat; reflexivity.
  - intros q Q. apply cell_set_other. auto.
Qed.

Definition shrinks (s s' : world) : Prop := forall q k, cell (store s') q = Some k -> cell (store s) q = Some k.

Lemma drop_shrinks t n :
  (forall s p s', drop_box t n s p = Some s' -> shrinks s s' /\ cell (store s') p = None) /\
  (forall s c s', drop_tail t n s c = Some s' -> shrinks s s' /\ forall q, c = Some q -> cell (store s') q = None).
Proof.
  induction n as [|n [IB IT]]; [split; discriminate|]. split.
  - intros s p s'. cbn [drop_box]. destruct (cell (store s) p) as [k|] eqn:E; [|discriminate].
    destruct (drop_tail t n _ _) as [s1|] eqn:E1; [|discriminate]. intros D. apply IT in E1. destruct E1 as [S1 _]. apply dealloc_inv in D. destruct D as (_ & D1 & D2).
    split; [|exact D1]. intros q k' Q. destruct (Nat.eq_dec q p) as [-> | N]; [congruence|]. rewrite D2 in Q by exact N. apply S1 in Q. rewrite cell_put_other in Q by auto. exact Q.
  - intros s c s'. cbn [drop_tail]. destruct c as [q|]; [|intros [= <-]; split; [intros ? ? X; exact X|discriminate]].
    destruct (cell (store s) q) as [k|] eqn:E; [|discriminate]. destruct (drop_box t n _ _) as [s1|] eqn:E1; [|discriminate]. intros E2.
    apply IB in E1. destruct E1 as [S1 D1]. apply IT in E2. destruct E2 as [S2 _]. split.
    + intros r k' Q. apply S2 in Q. destruct (Nat.eq_dec r q) as [-> | N]; [congruence|]. apply S1 in Q. rewrite cell_put_other in Q by auto. exact Q.
    + intros r [= <-]. destruct (cell (store s') q) as [k'|] eqn:X; [|reflexivity]. apply S2 in X. congruence.
Qed.

(** ** The same with tags *)
Lemma k_on_run {A} p (m : M A) ss x a x' : nth_error ss p = Some x -> m x = Some (a, x') -> k_on p m ss = Some (a, BorrowModel.set_nth ss p x').
Proof. intros E R. unfold k_on. rewrite E, R. reflexivity. Qed.
Lemma ss_here (ss : list bstate) p x y : nth_error ss p = Some x -> nth_error (BorrowModel.set_nth ss p y) p = Some y.
Proof. apply set_nth_nth. Qed.
Lemma ss_there (ss : list bstate) p q y : q <> p -> nth_error (BorrowModel.set_nth ss p y) q = nth_error ss q.
Proof. intros N. apply set_nth_ne. auto. Qed.

Section Drop.
Variables (t : target) (B : list nat) (N : nat).

Definition free_at (s : world) (ss : list bstate) (q : nat) : Prop := forall k, cell (store s) q = Some k -> exists x, nth_error ss q = Some x /\ can_free t k B N x.
Definition box_at (P : target -> link -> (Z -> stack) -> nat -> bstate -> Prop) (s : world) (ss : list bstate) (q b : nat) : Prop :=
  forall k, cell (store s) q = Some k -> next_inside t k /\ exists x T, nth_error ss q = Some x /\ P t k T b x.

Lemma free_same s s' ss ss' q : (forall k, cell (store s') q = Some k -> exists k0, cell (store s) q = Some k0 /\ lbump k0 = lbump k) ->
  nth_error ss' q = nth_error ss q -> free_at s ss q -> free_at s' ss' q.
Proof.
  intros C E F k K. destruct (C k K) as (k0 & K0 & L). destruct (F k0 K0) as (x & X & Y). exists x. rewrite E. split; [exact X|].
  unfold can_free, next_inside, lk_all, lk_next in *. rewrite <- L. exact Y.
Qed.

Lemma k_from_raw_ok C s ss nx : calls_ok B N C -> (forall q, nx = Some q -> free_at s ss q /\ exists k, cell (store s) q = Some k) ->
  exists cur ss', k_from_raw C t s nx ss = Some (cur, ss') /\ option_map fst cur = nx /\ (forall q b, cur = Some (q, b) -> box_at on_top s ss' q b) /\
    forall r, Some r <> nx -> nth_error ss' r = nth_error ss r.
Proof.
  intros K F. destruct nx as [q|]; cbn [k_from_raw].
  2:{ exists None, ss. split; [reflexivity|]. split; [reflexivity|]. split; [discriminate|reflexivity]. }
  destruct (F q eq_refl) as [F1 (k & E)]. rewrite E. destruct (F1 k E) as (x & X & Y). destruct (from_raw t k B N C x Y K) as (b & x' & T & R & O).
  unfold kbind. rewrite (k_on_run q _ ss x b x' X R). eexists _, _. split; [reflexivity|]. split; [reflexivity|]. split.
  - intros r b0 [= <- <-] k' K'. rewrite E in K'. injection K' as <-. split; [apply Y|]. exists x', T. split; [eapply ss_here; eauto|exact O].
  - intros r Hr. apply ss_there. congruence.
Qed.

Lemma k_drop_ok n :
  (forall C c s p b s' ss, calls_ok B N C -> (N <= c)%nat -> (forall d, In d C -> (d < c)%nat) -> drop_box t n s p = Some s' -> box_at boxed s ss p b ->
     (forall q, q <> p -> cell (store s') q = None -> free_at s ss q) ->
     exists ss', k_drop_box t n C c s p b ss = Some (s', ss') /\ forall q k, cell (store s') q = Some k -> nth_error ss' q = nth_error ss q) /\
  (forall C c s cur s' ss, calls_ok B N C -> (N <= c)%nat -> (forall d, In d C -> (d < c)%nat) -> drop_tail t n s (option_map fst cur) = Some s' -> (forall q b, cur = Some (q, b) -> box_at on_top s ss q b) ->
     (forall q, Some q <> option_map fst cur -> cell (store s') q = None -> free_at s ss q) ->
     exists ss', k_drop_tail t n C c s cur ss = Some (s', ss') /\ forall q k, cell (store s') q = Some k -> nth_error ss' q = nth_error ss q).
Proof.
  induction n as [|n [IB IT]]; [split; intros; discriminate|]. destruct (drop_shrinks t n) as [SB ST]. split.
  - intros C c s p b s' ss HC Hc HD. cbn [drop_box k_drop_box]. destruct (cell (store s) p) as [k|] eqn:E; [|discriminate].
    set (s1 := put s p (with_next k None)). destruct (drop_tail t n s1 (lnext k)) as [s2|] eqn:E2; [|discriminate]. intros D Bx F.
    destruct (ST _ _ _ E2) as [S2 D2]. destruct (dealloc_inv _ _ _ _ D) as ((kp & Lp) & Dp & Dq).
    destruct (Bx k E) as (NI & x & T & X & Y). destruct (box_drop t k T NI b x C c Y) as (d & x1 & x2 & R1 & R2 & Dy).
    unfold kbind at 1. rewrite (k_on_run p _ ss x d x1 X R1). unfold kbind at 1. rewrite (k_on_run p _ _ x1 tt x2 (ss_here ss p x x1 X) R2).
    set (ss2 := BorrowModel.set_nth (BorrowModel.set_nth ss p x1) p x2).
    assert (Same : forall q, q <> p -> nth_error ss2 q = nth_error ss q) by (intros q Q; unfold ss2; rewrite !ss_there by exact Q; reflexivity).
    assert (Here : nth_error ss2 p = Some x2) by (unfold ss2; eapply ss_here, ss_here; eauto).
    assert (HC' : calls_ok B N (c :: C)) by (intros e [<-|I]; [right; exact Hc|apply HC; exact I]).
    assert (Fr : forall q, cell (store s2) q = None -> free_at s1 ss2 q).
    { intros q Q. assert (q <> p) by (intros ->; congruence). apply (free_same s s1 ss ss2); [|apply Same; assumption|].
      - intros k' K'. unfold s1 in K'. rewrite cell_put_other in K' by auto. eauto.
      - apply F; [assumption|]. rewrite Dq by assumption. exact Q. }
    destruct (k_from_raw_ok (c :: C) s1 ss2 (lnext k) HC') as (cur & ss3 & R3 & Ec & Bc & K3).
    { intros q Q. split; [apply Fr; auto|]. destruct n as [|n']; [discriminate|]. rewrite Q in E2. cbn [drop_tail] in E2. destruct (cell (store s1) q); [eauto|discriminate]. }
    unfold kbind at 1. rewrite R3.
    assert (Np : Some p <> lnext k) by (intros Q; symmetry in Q; apply D2 in Q; congruence).
    rewrite <- Ec in E2. destruct (IT (c :: C) (S c) s1 cur s2 ss3) as (ss4 & R4 & K4); auto.
    { intros d' [<-|I]; [lia|]. specialize (HD d' I). lia. }
    { intros q Q Q'. apply (free_same s1 s1 ss2 ss3); [eauto|apply K3; congruence|]. apply Fr. exact Q'. }
    unfold kbind at 1. rewrite R4.
    assert (X4 : nth_error ss4 p = Some x2) by (rewrite (K4 p kp Lp), K3 by exact Np; exact Here).
    destruct (box_dealloc t k T NI b x2 C c Dy) as (x5 & R5). { intros I. specialize (HD c I). lia. }
    unfold kbind. rewrite (k_on_run p _ ss4 x2 tt x5 X4 R5), D. eexists. split; [reflexivity|]. intros q k' Q.
    assert (q <> p) by (intros ->; congruence). rewrite ss_there by assumption. rewrite Dq in Q by assumption. rewrite (K4 q k' Q), K3; [apply Same; assumption|].
    intros W. symmetry in W. rewrite (D2 q W) in Q. discriminate.
  - intros C c s cur s' ss HC Hc HD. cbn [k_drop_tail]. destruct cur as [[q b]|]; cbn [option_map fst].
    2:{ cbn [drop_tail]. intros [= <-] _ _. exists ss. split; reflexivity. }
    intros E0 Bx F. cbn [drop_tail] in E0. destruct (cell (store s) q) as [k|] eqn:E; [|discriminate].
    set (s1 := put s q (with_next k None)) in *. destruct (drop_box t n s1 q) as [s2|] eqn:E2; [|discriminate].
    destruct (SB _ _ _ E2) as [S1 D1]. destruct (ST _ _ _ E0) as [S2 D2].
    destruct (Bx q b eq_refl k E) as (NI & x & T & X & Y). destruct (box_take_next t k T NI b x C Y) as (x1 & R1 & Y1).
    unfold kbind at 1. rewrite (k_on_run q _ ss x tt x1 X R1). set (ss1 := BorrowModel.set_nth ss q x1).
    assert (Fr : forall r, r <> q -> cell (store s') r = None -> free_at s1 ss1 r).
    { intros r Q Q'. apply (free_same s s1 ss ss1); [|apply ss_there; exact Q|].
      - intros k' K'. unfold s1 in K'. rewrite cell_put_other in K' by auto. eauto.
      - apply F; [congruence|exact Q']. }
    assert (Nx : forall r, lnext k = Some r -> cell (store s') r = None /\ exists k', cell (store s2) r = Some k').
    { intros r Q. split; [apply D2; exact Q|]. destruct n as [|n']; [discriminate|]. rewrite Q in E0. cbn [drop_tail] in E0. destruct (cell (store s2) r); [eauto|discriminate]. }
    destruct (k_from_raw_ok C s1 ss1 (lnext k) HC) as (cur & ss2 & R2 & Ec & Bc & K2).
    { intros r Q. destruct (Nx r Q) as (Q1 & k' & Q2). split; [|exists k'; apply S1; exact Q2]. apply Fr; [|exact Q1]. intros ->. congruence. }
    unfold kbind at 1. rewrite R2.
    assert (Nq : Some q <> lnext k). { intros Q. symmetry in Q. destruct (Nx q Q) as (_ & k' & Q'). congruence. }
    destruct (IB C c s1 q b s2 ss2) as (ss3 & R3 & K3); auto.
    { intros k' K'. unfold s1 in K'. rewrite (cell_put s q _ k E) in K'. injection K' as <-. split; [exact NI|]. exists x1, T. split; [rewrite K2 by exact Nq; eapply ss_here; eauto|exact Y1]. }
    { intros r Q Q'. assert (Nr : Some r <> lnext k) by (intros W; symmetry in W; destruct (Nx r W) as (_ & k' & W'); congruence).
      apply (free_same s1 s1 ss1 ss2); [eauto|apply K2; exact Nr|]. apply Fr; [exact Q|]. destruct (cell (store s') r) as [k'|] eqn:W; [|reflexivity]. apply S2 in W. congruence. }
    unfold kbind at 1. rewrite R3. rewrite <- Ec in E0.
    destruct (IT C c s2 cur s' ss3) as (ss4 & R4 & K4); auto.
    { intros r b' Q k' K'. apply S1 in K' as K1. destruct (Bc r b' Q k' K1) as (G1 & y & T' & G2 & G3). split; [exact G1|]. exists y, T'. split; [|exact G3]. rewrite (K3 r k' K'). exact G2. }
    { intros r Q Q'. intros k' K'. rewrite Ec in Q. apply S1 in K' as K1. assert (r <> q) by (intros ->; congruence). destruct (Fr r H Q' k' K1) as (y & G1 & G2).
      exists y. split; [|exact G2]. rewrite (K3 r k' K'), K2 by exact Q. exact G1. }
    rewrite R4. eexists. split; [reflexivity|]. intros r k' Q. rewrite (K4 r k' Q). apply S2 in Q as Q1. rewrite (K3 r k' Q1). rewrite K2.
    + assert (r <> q) by (intros ->; congruence). apply ss_there. assumption.
    + intros W. symmetry in W. destruct (Nx r W) as (W' & _). congruence.
Qed.

Variables (C : list nat) (c : nat).
Hypothesis HC : calls_ok B N C.
Hypothesis Hc : (N <= c)%nat.
Hypothesis HD : forall d, In d C -> (d < c)%nat.

Lemma k_chain_loop_ok n : forall s cur s' ss, drop_chain_loop t n s cur = Some s' -> (forall q, cell (store s') q = None -> free_at s ss q) ->
  shrinks s s' /\ exists ss', k_drop_chain_loop t n C c s cur ss = Some (s', ss') /\ forall q k, cell (store s') q = Some k -> nth_error ss' q = nth_error ss q.
Proof.
  induction n as [|n IH]; [discriminate|]. intros s cur s' ss. cbn [drop_chain_loop k_drop_chain_loop]. destruct cur as [p|].
  2:{ intros [= <-] _. split; [intros ? ? X; exact X|]. exists ss. split; reflexivity. }
  destruct (cell (store s) p) as [k|] eqn:E; [|discriminate]. set (s1 := put s p (with_next k None)).
  destruct (drop_box t n s1 p) as [s2|] eqn:E2; [|discriminate]. intros E3 F. destruct (proj1 (drop_shrinks t n) _ _ _ E2) as [S1 D1].
  assert (Sh : shrinks s2 s').
  { clear - E3. revert s2 E3. generalize (lnext k). induction n as [|n IH]; [discriminate|]. intros cur s. cbn [drop_chain_loop]. destruct cur as [p|]; [|intros [= <-] q k' X; exact X].
    destruct (cell (store s) p) as [k0|] eqn:E; [|discriminate]. destruct (drop_box t n _ _) as [s1|] eqn:E1; [|discriminate]. intros E2. apply IH in E2. intros q k' X. apply E2 in X.
    destruct (proj1 (drop_shrinks t n) _ _ _ E1) as [S D]. destruct (Nat.eq_dec q p) as [-> | Nq]; [congruence|]. apply S in X. rewrite cell_put_other in X by auto. exact X. }
  assert (Dp : cell (store s') p = None) by (destruct (cell (store s') p) as [k'|] eqn:W; [apply Sh in W; congruence|reflexivity]).
  destruct (F p Dp k E) as (x & X & Y). destruct (from_raw t k B N C x Y HC) as (b & x1 & T & R1 & O1).
  unfold kbind at 1. rewrite (k_on_run p _ ss x b x1 X R1). destruct (box_take t k T b x1 C O1) as (x2 & R2 & O2).
  unfold kbind at 1. rewrite (k_on_run p _ _ x1 tt x2 (ss_here ss p x x1 X) R2). set (ss2 := BorrowModel.set_nth (BorrowModel.set_nth ss p x1) p x2).
  assert (Same : forall q, q <> p -> nth_error ss2 q = nth_error ss q) by (intros q Q; unfold ss2; rewrite !ss_there by exact Q; reflexivity).
  destruct (proj1 (k_drop_ok n) C c s1 p b s2 ss2 HC Hc HD E2) as (ss3 & R3 & K3).
  { intros k' K'. unfold s1 in K'. rewrite (cell_put s p _ k E) in K'. injection K' as <-. split; [apply Y|]. exists x2, T. split; [unfold ss2; eapply ss_here, ss_here; eauto|exact O2]. }
  { intros q Q Q'. apply (free_same s s1 ss ss2); [|apply Same; exact Q|].
    - intros k' K'. unfold s1 in K'. rewrite cell_put_other in K' by auto. eauto.
    - apply F. destruct (cell (store s') q) as [k'|] eqn:W; [|reflexivity]. apply Sh in W. congruence. }
  unfold kbind at 1. rewrite R3. destruct (IH s2 (lnext k) s' ss3 E3) as (_ & ss4 & R4 & K4).
  { intros q Q k' K'. apply S1 in K' as K1. assert (Nq : q <> p) by (intros ->; congruence). unfold s1 in K1. rewrite cell_put_other in K1 by auto. destruct (F q Q k' K1) as (y & G1 & G2).
    exists y. split; [|exact G2]. rewrite (K3 q k' K'), Same by exact Nq. exact G1. }
  assert (Live : forall q k', cell (store s') q = Some k' -> q <> p) by (intros q k' Q ->; congruence).
  split.
  - intros q k' Q. pose proof (Live q k' Q). apply Sh, S1 in Q. unfold s1 in Q. rewrite cell_put_other in Q by auto. exact Q.
  - exists ss4. split; [exact R4|]. intros q k' Q. rewrite (K4 q k' Q), (K3 q k' (Sh q k' Q)). apply Same. exact (Live q k' Q).
Qed.

Lemma k_drop_chain_ok s i s' ss : drop_chain t s i = Some s' -> (forall q, cell (store s') q = None -> free_at s ss q) ->
  shrinks s s' /\ exists ss', k_drop_chain t C c s i ss = Some (s', ss') /\ forall q k, cell (store s') q = Some k -> nth_error ss' q = nth_error ss q.
Proof.
  unfold drop_chain, k_drop_chain. destruct (cell (chains s) i) as [r|]; [|discriminate]. intros E F. exact (k_chain_loop_ok _ _ _ _ _ E F).
Qed.

Lemma k_set_next_ok s p nx s' ss k x x' : set_next t s p nx = Some s' -> cell (store s) p = Some k -> nth_error ss p = Some x -> lk_set_next C t k x = Some (tt, x') ->
  (exists k', cell (store s') p = Some k') -> (forall q, cell (store s') q = None -> free_at s ss q) ->
  exists ss', k_set_next t C c s p nx ss = Some (s', ss') /\ nth_error ss' p = Some x' /\ (forall q k, q <> p -> cell (store s') q = Some k -> nth_error ss' q = nth_error ss q) /\
    shrinks (put s p (with_next k nx)) s'.
Proof.
  unfold set_next, k_set_next. intros E0 E X R (kp & Kp) F. rewrite E in *. unfold kbind at 1. rewrite (k_on_run p _ ss x tt x' X R). set (ss1 := BorrowModel.set_nth ss p x').
  set (s1 := put s p (with_next k nx)) in *.
  destruct (lnext k) as [q|] eqn:Q.
  2:{ injection E0 as <-. cbn [k_from_raw]. unfold kbind, kret. exists ss1. split; [reflexivity|]. split; [eapply ss_here; eauto|]. split; [intros q k' Nq _; apply ss_there; exact Nq|intros ? ? W; exact W]. }
  destruct (proj1 (drop_shrinks t (enough s)) _ _ _ E0) as [S1 D1].
  assert (Fr : forall r, cell (store s') r = None -> free_at s1 ss1 r).
  { intros r Q'. assert (r <> p) by (intros ->; congruence). apply (free_same s s1 ss ss1); [|apply ss_there; assumption|apply F; exact Q'].
    intros k' K'. unfold s1 in K'. rewrite cell_put_other in K' by auto. eauto. }
  destruct (k_from_raw_ok C s1 ss1 (Some q) HC) as (cur & ss2 & R2 & Ec & Bc & K2).
  { intros r [= <-]. split; [apply Fr; exact D1|]. unfold enough in E0. rewrite Nat.add_comm in E0. cbn [Nat.add] in E0. cbn [drop_box] in E0. destruct (cell (store s1) q); [eauto|discriminate]. }
  unfold kbind at 1. rewrite R2. destruct cur as [[q' b]|]; [|discriminate]. cbn in Ec. injection Ec as ->.
  destruct (proj1 (k_drop_ok (enough s)) C c s1 q b s' ss2 HC Hc HD E0) as (ss3 & R3 & K3).
  { intros k' K'. destruct (Bc q b eq_refl k' K') as (G1 & y & T & G2 & G3). split; [exact G1|]. exists y, T. split; [exact G2|]. apply top_boxed. exact G3. }
  { intros r Nr Q'. apply (free_same s1 s1 ss1 ss2); [eauto|apply K2; congruence|]. apply Fr. exact Q'. }
  exists ss3. split; [exact R3|]. assert (Nqp : q <> p) by (intros ->; congruence). split; [|split; [|exact S1]].
  - rewrite (K3 p kp Kp), K2 by congruence. eapply ss_here; eauto.
  - intros r k' Nr K'. assert (r <> q) by (intros ->; congruence). rewrite (K3 r k' K'), K2 by congruence. apply ss_there. exact Nr.
Qed.
End Drop.
