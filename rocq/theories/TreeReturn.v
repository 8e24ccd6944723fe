(** * TreeReturn: under Tree Borrows, calls end. *)
From Verif Require Import Base Spec BaseFacts SyncModel SyncSpec SyncProofs ConcModel ConcSpec ConcProofs BorrowModel BorrowSpec BorrowProofs BorrowState BorrowWorld BorrowLocal
  TBorrowModel TBorrowWp TBorrowFuel TBorrowStep TBorrowWorld TBorrowLocal TreeModel TreeSpec TreeState TreeAct TreeStep TreeWorld TreeLocal.

Definition nis_step (i : nat) (o : nop) : bool := match o with NStep j => Nat.eqb j i | _ => false end.
Lemma nsteps_cons i o os : nsteps i (o :: os) = (if nis_step i o then 1 else 0) + nsteps i os.
Proof. unfold nsteps, nis_step. cbn [filter]. destruct o as [f| |k a|j k c u im|j]; try lia. destruct (Nat.eqb j i); cbn [length]; lia. Qed.
Lemma nis_step_dec i o : (o = NStep i /\ nis_step i o = true) \/ (o <> NStep i /\ nis_step i o = false).
Proof.
  destruct o as [f| |k a|j k c u im|j]; [right; split; [discriminate|reflexivity]..|]. cbn [nis_step]. destruct (Nat.eqb_spec j i) as [->|N]; [left; auto|right; split; [congruence|reflexivity]].
Qed.

Section World.
Variables (t : target) (hd st : block).
Hypothesis (Ht : valid_target t) (Dj : disjoint hd st).

Lemma nstep_call w i r : nlookup i (nthreads w) = Some r ->
  match snd (ntstep t hd w (NStep i)) with
  | NReturn c _ _ => c = ncall r
  | NMore => forall r', nlookup i (nthreads (fst (ntstep t hd w (NStep i)))) = Some r' -> ncall r' = ncall r
  | _ => True
  end.
Proof.
  intros E. cbn [ntstep]. rewrite E. destruct (nstep _ _ _ _ _) as [[[lv p] b]|]; [|exact Logic.I].
  destruct (settle _ _ _ _ _ p) as [[g s|y tag]|? ? ?|? ?|? ? ? ?|? ? ?]; cbn [fst snd ngot nthreads]; try reflexivity; intros r'; rewrite nlookup_cons_same; intros [= <-]; reflexivity.
Qed.

Lemma ncalls_end own i os : forall w j q r n N, nrel t hd st own w j q -> Forall (nop_ok t) os -> nlookup i (nthreads w) = Some r -> within n (nprog r) ->
  0 <= rest st (threads q i) -> Z.of_nat n + 8 * rest st (threads q i) <= N -> N < nsteps i os ->
  exists x tag, In (NStep i, NReturn (ncall r) x tag) (snd (nrun t hd w os)).
Proof.
  induction os as [|o os IH]; intros w j q r n N R F El Wn R0 Le Lt; cbn [nrun].
  - exfalso. unfold nsteps in Lt. cbn in Lt. lia.
  - inversion F as [|? ? F1 F2]; subst. destruct (ntstep_inv t hd st Ht Dj own w j q o R F1) as (j1 & q1 & S1 & R1 & K & _). destruct (K i r El) as [K1 K2]. clear K.
    rewrite nsteps_cons in Lt. pose proof (nstep_call w i r El) as Sc.
    destruct (nis_step_dec i o) as [[-> Eo]|[No Eo]]; rewrite Eo in Lt; [|clear Sc];
    destruct (ntstep t hd w _) as [w1 r1]; cbn [fst snd] in *; pose proof (IH w1 j1 q1) as IH1; destruct (nrun t hd w1 os) as [w2 h]; cbn [fst snd] in *.
    + clear K1. destruct r1 as [|m| |c x tag| |]; try (exfalso; inversion S1; fail).
      * destruct (K2 eq_refl eq_refl) as (r' & El' & Kn). destruct (Kn n Wn) as (n' & Wn' & R0' & Le').
        destruct (IH1 r' n' (N - 1) R1 F2 El' Wn' R0') as (x & tag & In_); [lia|lia|]. exists x, tag. right. rewrite <- (Sc r' El'). exact In_.
      * exists x, tag. left. rewrite Sc. reflexivity.
      * exfalso. inversion S1. destruct R as (oc & s0 & cs & I). pose proof (n_thr _ _ _ _ _ _ _ _ _ _ I i) as V. rewrite El in V. destruct V as [V _]. congruence.
    + destruct (K1 No) as [El' Eq']. rewrite <- Eq' in R0, Le. destruct (IH1 r n N R1 F2 El' Wn R0 Le) as (x & tag & In_); [lia|]. exists x, tag. right. exact In_.
Qed.

Lemma ninvoked own w j q i k c u im : nrel t hd st own w j q -> nop_ok t (NInvoke i k c u im) -> snd (ntstep t hd w (NInvoke i k c u im)) = NMore ->
  exists j' q' r n, nrel t hd st own (fst (ntstep t hd w (NInvoke i k c u im))) j' q' /\ nlookup i (nthreads (fst (ntstep t hd w (NInvoke i k c u im)))) = Some r /\
    ncall r = c /\ within n (nprog r) /\ 0 <= rest st (threads q' i) /\ Z.of_nat n + 8 * rest st (threads q' i) <= 8 * size st + 11.
Proof.
  intros (oc & s0 & cs & I) Ok. cbn [ntstep]. pose proof (n_thr _ _ _ _ _ _ _ _ _ _ I i) as V. destruct (nlookup i (nthreads w)) as [r|] eqn:El; [discriminate|].
  destruct V as [Ei _]. destruct (nth_error (nshares w) k) as [self|] eqn:Ek; [|discriminate].
  assert (Cr : c = CReset \/ c <> CReset) by (destruct c; [right|right|right|right|right|left]; congruence). destruct Cr as [->|Nr]; [discriminate|]. intros _.
  assert (Es : storage (nslab w) = st) by (rewrite (n_slab _ _ _ _ _ _ _ _ _ _ I); reflexivity).
  set (w' := MkNW (nslab w) (nstate w) (nowned w) (nshares w) (nobjs w) ((i, MkNR c u im (p_call t hd st c u self)) :: nthreads w)) in *.
  assert (E0 : match c with CReset => (w, NInvalid) | _ => (MkNW (nslab w) (nstate w) (nowned w) (nshares w) (nobjs w) ((i, MkNR c u im (p_call t hd (storage (nslab w)) c u self)) :: nthreads w), NMore) end
    = (w', NMore)) by (subst w'; rewrite Es; destruct c; congruence).
  rewrite E0. cbn [fst]. pose proof (ninvoke_inv t hd st Ht Dj own w j q oc s0 cs i k c u im self I El Ek Nr Ok) as I2.
  destruct (one_invoke t st q i c Ei) as (_ & C2 & _). eexists _, _, _, 11%nat. split; [eexists _, _, _; exact I2|]. split; [apply nlookup_cons_same|].
  split; [reflexivity|]. split; [apply within_call|]. rewrite C2. cbn [rest]. destruct (n_region _ _ _ _ _ _ _ _ _ _ I) as (_ & L & _). lia.
Qed.
End World.
