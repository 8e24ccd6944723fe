(** * UBorrowLocal: the unsync Bump looks at the bytes of its allocation only. *)
From Verif Require Import Base Spec BaseFacts SyncModel SyncSpec SyncProofs UnsyncModel UnsyncSpec UnsyncProofs BorrowModel BorrowSpec BorrowProofs BorrowState BorrowWorld BorrowLocal
  UBorrowModel UBorrowSpec UBorrowSub UBorrowCells UBorrowCalls UBorrowReset UBorrowWorld.

Section Unsync.
Variables (P : Z -> Prop) (calls : list nat).

Lemma looks_ref k b p : covers P b -> looks P (one calls k b p).
Proof. apply looks_one. Qed.
Lemma looks_two k1 k2 b1 b2 p : covers P b1 -> covers P b2 -> looks P (m_retag calls p [(k1, b1); (k2, b2)]).
Proof. intros B1 B2. apply looks_retag. repeat (apply Forall_cons; [assumption|]). apply Forall_nil. Qed.
Lemma looks_uc_get b p : covers P b -> looks P (uc_get calls b p).
Proof. intros B. apply looks_bind; [|intros]; apply looks_ref, B. Qed.
Lemma looks_cell_get b p : covers P b -> looks P (cell_get calls b p).
Proof. intros B. apply looks_bind; [apply looks_ref, B|intros]. apply looks_bind; [apply looks_uc_get, B|intros]. apply looks_read, B. Qed.
Lemma looks_cell_set b p : covers P b -> looks P (cell_set calls b p).
Proof.
  intros B. apply looks_bind; [apply looks_ref, B|intros]. apply looks_bind; [apply looks_uc_get, B|intros]. apply looks_bind; [apply looks_ref, B|intros].
  apply looks_bind; [apply looks_ref, B|intros]. apply looks_bind; [apply looks_read, B|intros]. apply looks_write, B.
Qed.

Section Mem.
Variables (t : target) (hd : block) (u : ubump).
Hypothesis (Hh : covers P hd) (Hs : covers P (udata u)).

Lemma looks_me self : looks P (self_ref calls hd (udata u) self).
Proof. apply looks_self; assumption. Qed.
Lemma looks_mb_level self : looks P (mb_level calls hd u self).
Proof. apply looks_bind; [apply looks_me|intros]. apply looks_bind; [apply looks_cell_get, Hh|intros; apply looks_ret]. Qed.
Lemma looks_mb_bump self b : looks P (mb_bump calls t hd u self b).
Proof.
  apply looks_bind; [apply looks_me|intros]. apply looks_bind.
  { destruct (debug t); [|apply looks_ret]. apply looks_bind; [apply looks_me|intros]. apply looks_bind; [apply looks_uc_get, Hs|intros; apply looks_ret]. }
  intros. apply looks_bind; [apply looks_cell_get, Hh|intros]. destruct b; [apply looks_cell_set, Hh|apply looks_ret].
Qed.
Lemma looks_mb_try_at l e self : looks P (mb_try_alloc_at calls t hd u l e self).
Proof.
  unfold mb_try_alloc_at. apply looks_bind; [apply looks_me|intros]. apply looks_bind; [apply looks_ref, Hs|intros]. apply looks_bind; [apply looks_ref, Hs|intros].
  apply looks_bind; [apply looks_ref, Hs|intros]. apply looks_bind; [apply looks_uc_get, Hs|intros]. destruct (u_try_alloc_at t u l e) as [u' [[az|[|o]]|m]]; try apply looks_ret;
  (apply looks_bind; [apply looks_mb_bump|intros; apply looks_ret]).
Qed.
Lemma looks_mb_try l self : looks P (mb_try_alloc calls t hd u l self).
Proof.
  unfold mb_try_alloc. apply looks_bind; [apply looks_me|intros]. apply looks_bind; [apply looks_cell_get, Hh|intros]. apply looks_bind; [apply looks_mb_try_at|].
  intros [[? ?] ?]. apply looks_ret.
Qed.
Lemma looks_mb_alloc l self : looks P (mb_alloc calls t hd u l self).
Proof. apply looks_bind; [apply looks_me|intros; apply looks_mb_try]. Qed.
Lemma looks_mb_alloc_at l lv self : looks P (mb_alloc_at calls t hd u l lv self).
Proof. apply looks_bind; [apply looks_me|intros; apply looks_mb_try_at]. Qed.
Lemma looks_mb_box l self : looks P (mb_bump_box calls t hd u l self).
Proof. apply looks_bind; [apply looks_me|intros]. apply looks_bind; [apply looks_mb_level|intros; apply looks_mb_alloc_at]. Qed.
Lemma looks_mb_array l n self : looks P (mb_bump_array calls t hd u l n self).
Proof.
  unfold mb_bump_array. apply looks_bind; [apply looks_me|intros]. destruct (layout_array t l n); [|apply looks_ret]. apply looks_bind; [apply looks_mb_alloc|intros [[? ?] ?]; apply looks_ret].
Qed.
Lemma looks_mb_method c self : looks P (mb_method calls t hd u c self).
Proof.
  destruct c as [[l|l lv|l|l lv| |]|l|l n]; cbn [mb_method]; try apply looks_ret;
  (apply looks_bind; [first [apply looks_mb_alloc|apply looks_mb_alloc_at|apply looks_mb_level|apply looks_mb_box|apply looks_mb_array]|]);
  first [intros [[? ?] ?]; apply looks_ret|intros; apply looks_ret].
Qed.
Lemma looks_deref self : looks P (bump_deref_ref calls hd u self).
Proof. apply looks_bind; [apply looks_me|intros; apply looks_me]. Qed.
Lemma looks_deref_mut p self : looks P (bump_deref_mut calls hd p u self).
Proof. apply looks_bind; [|intros]; apply looks_two; assumption. Qed.
Lemma looks_mb_reset self : looks P (mb_reset calls hd u self).
Proof. apply looks_bind; [apply looks_two; assumption|intros]. apply looks_bind; [apply looks_cell_set, Hh|intros; apply looks_ret]. Qed.
End Mem.

Lemma looks_box_from p b base : covers P b -> looks P (leak_box_from calls p b base).
Proof. intros B. apply looks_bind; [apply looks_ref, B|intros]. apply looks_bind; [apply looks_ref, B|intros]. apply looks_ref, B. Qed.
Lemma looks_xuse us b base : covers P b -> looks P (xuse_block calls us b base).
Proof.
  intros B. destruct us; cbn [xuse_block]; [apply looks_ret| | |apply looks_box_from, B]; (apply looks_bind; [apply looks_write, B|intros]); [apply looks_ref, B|apply looks_ret].
Qed.
End Unsync.

Lemma mbind_some {A B} (f : M A) (g : A -> M B) s r : mbind f g s = Some r -> exists a z, f s = Some (a, z) /\ g a z = Some r.
Proof. unfold mbind. destruct (f s) as [[a z]|]; [eauto|discriminate]. Qed.

Lemma bump_box_answer calls t hd u l self s u' r base z : mb_method calls t hd u (UBumpBox l) self s = Some ((u', r, base), z) -> (u', r) = ustep t u (UBumpBox l).
Proof.
  intros X. cbn [mb_method] in X. apply mbind_some in X. destruct X as ([[u1 r1] base1] & z1 & X & Y). cbn [mret] in Y. injection Y as <- <- _ _.
  apply mbind_some in X. destruct X as (a2 & z2 & _ & X). apply mbind_some in X. destruct X as (lv & z3 & L & X).
  apply mbind_some in L. destruct L as (a4 & z4 & _ & L). apply mbind_some in L. destruct L as (a5 & z5 & _ & L). cbn [mret] in L. injection L as <- _.
  apply mbind_some in X. destruct X as (a6 & z6 & _ & X).
  unfold mb_try_alloc_at in X. do 5 (apply mbind_some in X; destruct X as (? & ? & _ & X)). cbn [ustep]. unfold u_bump_box.
  destruct (u_try_alloc_at t u l (u_level u)) as [u0 [[a|[|o]]|m]]; try (cbn [mret] in X; injection X as <- <- _ _; reflexivity);
  apply mbind_some in X; destruct X as (? & ? & _ & X); cbn [mret] in X; injection X as <- <- _ _; reflexivity.
Qed.

Lemma both_xcall P busy t hd kind u c us self s1 s2 : covers P hd -> covers P (udata u) -> same_in P s1 s2 ->
  (forall s' a base, (exists z, (x <- match kind with XVar _ => bump_deref_ref busy hd u self | XPtr => mret self end ;; mb_method busy t hd u c x) s1 = Some ((s', RBlock a, base), z)) ->
     covers P (MkBlock (ptr a) (lsize (uasked t c)))) ->
  both P (x_call busy t hd kind u c us self s1) (x_call busy t hd kind u c us self s2).
Proof.
  intros Hh Hs G B. assert (E : forall z, x_call busy t hd kind u c us self z = ((x <- (x <- match kind with XVar _ => bump_deref_ref busy hd u self | XPtr => mret self end ;; mb_method busy t hd u c x) ;;
    let '(s', r, base) := x in match r with RBlock a => tag <- xuse_block busy us (MkBlock (ptr a) (lsize (uasked t c))) base ;; mret (s', r, Some tag) | _ => mret (s', r, None) end) z)).
  { intros z. unfold x_call, mbind. destruct kind; cbn [mret]; [destruct (bump_deref_ref busy hd u self z) as [[? ?]|]; reflexivity|reflexivity]. }
  rewrite !E. apply both_bind.
  - apply looks_bind; [destruct kind; [apply looks_deref; assumption|apply looks_ret]|intros; apply looks_mb_method; assumption|exact G].
  - intros [[s' r] base] X. destruct r; try apply looks_ret. specialize (B s' a base X).
    apply looks_bind; [apply looks_xuse, B|intros; apply looks_ret].
Qed.

Lemma looks_x_reset P hd kind u : covers P hd -> covers P (udata u) -> looks P (x_reset hd kind u).
Proof.
  intros Hh Hs. unfold x_reset. apply looks_bind; [|intros; apply looks_mb_reset; assumption].
  destruct kind; [apply looks_bind; [apply looks_two; assumption|intros; apply looks_deref_mut; assumption]|apply looks_two; assumption].
Qed.

Definition with_xsb (w : xworld) (s : bstate) : xworld := MkXW (xbump w) s (xshares w) (xobjs w) (xbusy w) (xcalls w).

Lemma xstep_local t hd st kind w i Fs o s : valid_target t -> disjoint hd st -> xinv t hd st kind w i Fs -> xop_ok t o -> same_in (mem_of hd st) (xsb w) s ->
  exists s', xstep t hd kind (with_xsb w s) o = (with_xsb (fst (xstep t hd kind w o)) s', snd (xstep t hd kind w o)) /\ same_in (mem_of hd st) (xsb (fst (xstep t hd kind w o))) s'.
Proof.
  intros Ht Dj I Oo G. pose proof (xuses t hd st kind w i Fs Dj I) as Us. pose proof I as [a1 a2 a3 a4 a5 a6 a7 a8 a9 a10 a11 a12].
  assert (Hh : covers (mem_of hd st) hd) by (intros y Y; left; exact Y). assert (Hs : covers (mem_of hd st) (udata (xbump w))) by (rewrite a2; intros y Y; right; exact Y).
  assert (OB : Forall (fun o => covers (mem_of hd st) (oblk o)) (xobjs w)).
  { rewrite <- a5. apply Forall_map. pose proof (subs_blk _ _ _ a4) as Eb. apply Forall_forall. intros o1 O1 y Y. right. cbn [oblk] in Y. apply (in_map iblk) in O1. rewrite <- Eb in O1.
    apply in_map_iff in O1. destruct O1 as (F & EF & FI). rewrite <- EF in Y. exact (proj1 (a6 F y FI Y)). }
  destruct w as [ub sb sh ob bu ca]. unfold with_xsb. cbn [xbump xsb xshares xobjs xbusy xcalls] in *.
  assert (SH : forall self, exists s',
    match self_ref bu hd (udata ub) self s with Some (n, b) => (MkXW ub b (sh ++ [n]) ob bu ca, BDone) | None => (MkXW ub s sh ob bu ca, BUB) end =
    (let r := match self_ref bu hd (udata ub) self sb with Some (n, b) => (MkXW ub b (sh ++ [n]) ob bu ca, BDone) | None => (MkXW ub sb sh ob bu ca, BUB) end in (with_xsb (fst r) s', snd r)) /\
    same_in (mem_of hd st) (xsb (fst match self_ref bu hd (udata ub) self sb with Some (n, b) => (MkXW ub b (sh ++ [n]) ob bu ca, BDone) | None => (MkXW ub sb sh ob bu ca, BUB) end)) s').
  { intros self. pose proof (looks_self _ bu hd Hh (udata ub) self Hs sb s G) as B. unfold both in B.
    destruct (self_ref bu hd (udata ub) self sb) as [[n b]|], (self_ref bu hd (udata ub) self s) as [[n' b']|]; try contradiction.
    - destruct B as [<- B]. exists b'. split; [reflexivity|exact B].
    - exists s. split; [reflexivity|exact G]. }
  destruct o as [[k|]|k c u| |k a| |c]; cbn [xstep xbump xsb xshares xobjs xbusy xcalls].
  - destruct (nth_error sh k) as [self|]; [apply SH|]. exists s. split; [reflexivity|exact G].
  - apply SH.
  - destruct (nth_error sh k) as [self|] eqn:E; [|exists s; split; [reflexivity|exact G]]. destruct (use_ok c u) eqn:UO; [|exists s; split; [reflexivity|exact G]].
    destruct (xcall_runs bu t hd st (kind_own kind) kind Fs (frees hd st (uindex ub)) _ sb ub c u self Dj (fun x X => or_introl X) a7 Us a2 (use_not_reset c u UO) a3 (xshares_over kind hd st sh self (nth_error_In _ _ E))) as (tag & s1 & R1 & _).
    { intros a0 A0. destruct (ustep_place t ub c a0 Ht a1 Oo A0) as (l & _ & -> & P1 & _ & P2 & _). rewrite a2 in *. split; [exact P1|]. split; [intros x X; right; split; [apply P1, X|apply (P2 x X)]|].
      apply Forall_forall. intros o0 O0 x [X1 X2]. pose proof (P2 x X1). destruct (a6 o0 x O0 X2). lia. }
    assert (B : both (mem_of hd st) (x_call bu t hd kind ub c u self sb) (x_call bu t hd kind ub c u self s)).
    { apply both_xcall; [exact Hh|exact Hs|exact G|]. intros s' a0 base (z & Z0).
      assert (A0 : snd (ustep t ub c) = RBlock a0).
      { unfold x_call in R1. unfold mbind in R1, Z0. set (m0 := match kind with XVar _ => bump_deref_ref bu hd ub self | XPtr => mret self end) in *. destruct (m0 sb) as [[self' s2]|]; [|discriminate]. rewrite Z0 in R1. cbn beta in R1.
        destruct (xuse_block _ _ _ _ _) as [[? ?]|]; [|discriminate]. injection R1 as R1 _ _. rewrite <- R1. reflexivity. }
      destruct (ustep_place t ub c a0 Ht a1 Oo A0) as (l & _ & -> & P1 & _). intros y Y. right. rewrite <- a2. apply P1, Y. }
    rewrite R1 in B. unfold both in B. destruct (x_call bu t hd kind ub c u self s) as [[r2 s2]|] eqn:R2; [|contradiction]. destruct B as [<- B].
    exists s2. rewrite R1. destruct (ustep t ub c) as [sl' r]. split; [reflexivity|exact B].
  - destruct bu; [|exists s; split; [reflexivity|exact G]].
    pose proof (looks_x_reset _ hd kind ub Hh Hs sb s G) as B. unfold both in B.
    destruct (x_reset hd kind ub sb) as [[n b]|], (x_reset hd kind ub s) as [[n' b']|]; try contradiction.
    + destruct B as [<- B]. exists b'. split; [reflexivity|exact B].
    + exists s. split; [reflexivity|exact G].
  - destruct (nth_error ob k) as [o0|] eqn:E; [|exists s; split; [reflexivity|exact G]]. destruct (act_ok o0 a) eqn:A0; [|exists s; split; [reflexivity|exact G]].
    assert (S0 : covers (mem_of hd st) (oblk o0)) by (rewrite Forall_forall in OB; apply OB, (nth_error_In _ _ E)).
    pose proof (looks_act _ o0 bu a S0 A0 sb s G) as B. unfold both in B.
    destruct (do_act bu a sb) as [[n b]|], (do_act bu a s) as [[n' b']|]; try contradiction.
    + destruct B as [<- B]. exists b'. split; [reflexivity|exact B].
    + exists s. split; [reflexivity|exact G].
  - exists s. split; [reflexivity|exact G].
  - exists s. split; [reflexivity|exact G].
Qed.

Lemma xrun_local t hd st kind os : valid_target t -> disjoint hd st -> Forall (xop_ok t) os -> forall w i Fs s, xinv t hd st kind w i Fs -> same_in (mem_of hd st) (xsb w) s ->
  exists s', xrun t hd kind (with_xsb w s) os = (with_xsb (fst (xrun t hd kind w os)) s', snd (xrun t hd kind w os)).
Proof.
  intros Ht Dj. induction 1 as [|o os O F IH]; intros w i Fs s I G; cbn [xrun]; [exists s; auto|].
  destruct (xstep_inv t hd st kind w i Fs o Ht Dj I O) as (i' & Fs' & _ & I'). destruct (xstep_local t hd st kind w i Fs o s Ht Dj I O G) as (s' & E & G').
  rewrite E. destruct (xstep t hd kind w o) as [w1 r]. cbn [fst snd] in *. destruct (IH w1 i' Fs' s' I' G') as (s2 & E2). rewrite E2.
  destruct (xrun t hd kind w1 os) as [w3 h3]. cbn [fst snd] in *. exists s2. reflexivity.
Qed.

Lemma allocated_same hd st it : same_in (mem_of hd st) (MkB (fun _ => [it]) 1) (MkB (allocated [hd; st] it) 1).
Proof.
  split; [reflexivity|]. intros y Y. cbn [stk]. unfold allocated.
  assert (E : existsb (fun b => inb b y) [hd; st] = true).
  { apply existsb_exists. destruct Y as [Y|Y]; [exists hd|exists st]; (split; [cbn; auto|apply inb_iff, Y]). }
  rewrite E. reflexivity.
Qed.

Lemma xnew_run t hd st kind os : valid_target t -> valid_region t st -> disjoint hd st -> Forall (xop_ok t) os ->
  exists s, xrun t hd kind (xnew hd st kind) os = (with_xsb (fst (xrun t hd kind (xwide st kind) os)) s, snd (xrun t hd kind (xwide st kind) os)).
Proof.
  intros Ht V Dj F. exact (xrun_local t hd st kind os Ht Dj F (xwide st kind) _ _ _ (xnew_inv t hd st kind V) (allocated_same hd st _)).
Qed.
