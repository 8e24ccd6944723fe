(** * TUnsTop: the unsync Bump and MemBump under Tree Borrows: runs, the calls, and whose fault undefined behaviour is. *)
From Verif Require UBorrowWorld BorrowWorld.
From Verif Require Import Base Spec BaseFacts SyncModel SyncSpec SyncProofs UnsyncModel UnsyncSpec UnsyncProofs ConcModel BorrowModel BorrowSpec BorrowProofs BorrowState TBorrowModel
  UBorrowModel EBorrowModel TreeModel TreeSpec TreeState TreeAct TreeWorld TExitModel TExitState TExitOps TUnsModel TUnsSpec TUnsVal TUnsWorld.

(** As if all memory were allocated *)
Definition txwide (st : block) : txworld := MkTX (u_fresh st) (MkS (MkTree (fun n => if Nat.eqb n 0 then [0%nat] else []) (fun _ _ => PActive)) 1) [] [].

Lemma txwide_inv t hd st : valid_region t st -> txinv t hd st (txwide st) txideal_new.
Proof.
  intros V. split; cbn [txwide txideal_new txbump txforest txshares txobjs ti_objs ti_used ti_shares]; auto.
  - apply uok_fresh. exact V.
  - split; cbn [nodes fresh_tag line perms Nat.eqb].
    + lia.
    + auto.
    + intros n L. lia.
    + intros c q [].
    + intros o [].
  - intros o x [].
  - apply pairwise_nil.
  - intros n [].
Qed.

Section Run.
Variables (t : target) (hd st : block) (kind : xkind).
Hypothesis (Ht : valid_target t) (Dj : disjoint hd st).

Lemma txrun_inv os : Forall (txop_ok t) os -> forall w i, txinv t hd st w i -> exists i', txiruns t st i (snd (txrun t hd kind w os)) i' /\ txinv t hd st (fst (txrun t hd kind w os)) i'.
Proof.
  intros F. induction F as [|o os Fo F IH]; intros w i I; cbn [txrun].
  - exists i. split; [constructor|exact I].
  - destruct (txstep_inv t hd st kind Ht Dj w i o I Fo) as (i1 & S1 & I1). destruct (txstep t hd kind w o) as [w1 r]. cbn [fst snd] in *.
    destruct (IH w1 i1 I1) as (i2 & S2 & I2). destruct (txrun t hd kind w1 os) as [w2 h]. cbn [fst snd] in *. exists i2. split; [econstructor; eauto|exact I2].
Qed.

(** ** The calls are those of the model without tags *)
Lemma txstep_calls w i o : txinv t hd st w i -> txop_ok t o ->
  urun t (txbump w) (map fst (txcalls_of [(o, snd (txstep t hd kind w o))])) = (txbump (fst (txstep t hd kind w o)), txcalls_of [(o, snd (txstep t hd kind w o))]).
Proof.
  intros I Oo. destruct o as [[k|]|k c u| |k a]; cbn [txstep].
  - destruct (nth_error (txshares w) k); [|reflexivity]. destruct (f_self _ _ _ _) as [[? ?]|]; reflexivity.
  - destruct (f_self _ _ _ _) as [[? ?]|]; reflexivity.
  - destruct (nth_error (txshares w) k) as [self|] eqn:E; [|reflexivity]. destruct (tuse_ok c u) eqn:Eu; [|reflexivity].
    destruct (op_some _ _ _ (call_runs t hd st kind Ht w i c u self k I Oo (tuse_not_reset c u Eu) E)) as ([[u' r] tag] & s & E1 & Y & _). rewrite E1. cbn [fst snd txbump txcalls_of map urun] in *.
    rewrite <- Y. reflexivity.
  - destruct (op_some _ _ _ (op_owner_reset hd st kind (txbump w) (txforest w) (e_st _ _ _ _ _ I) (e_wf _ _ _ _ _ I))) as (u' & s & E1 & -> & _). rewrite E1. reflexivity.
  - destruct (nth_error (txobjs w) k); [|reflexivity]. destruct (nact_ok _ _); [|reflexivity]. cbn zeta. destruct (tree_act _ _ _); [|reflexivity]. cbn [snd fst]. destruct (makes_tag a); reflexivity.
Qed.

Lemma txcalls_app h1 h2 : txcalls_of (h1 ++ h2) = txcalls_of h1 ++ txcalls_of h2.
Proof. induction h1 as [|[o r] h IH]; [reflexivity|]. cbn [app]. destruct o, r; cbn [txcalls_of]; rewrite ?IH; reflexivity. Qed.

Lemma txrun_calls os : Forall (txop_ok t) os -> forall w i, txinv t hd st w i ->
  urun t (txbump w) (map fst (txcalls_of (snd (txrun t hd kind w os)))) = (txbump (fst (txrun t hd kind w os)), txcalls_of (snd (txrun t hd kind w os))).
Proof.
  intros F. induction F as [|o os Fo F IH]; intros w i I; cbn [txrun]; [reflexivity|].
  destruct (txstep_inv t hd st kind Ht Dj w i o I Fo) as (i1 & _ & I1). pose proof (txstep_calls w i o I Fo) as C.
  destruct (txstep t hd kind w o) as [w1 r]. cbn [fst snd] in *. specialize (IH w1 i1 I1). destruct (txrun t hd kind w1 os) as [w2 h]. cbn [fst snd] in *.
  change ((o, r) :: h) with ([(o, r)] ++ h). rewrite txcalls_app, map_app. rewrite UBorrowWorld.urun_app. unfold uevent in *. rewrite C. cbn [fst snd]. rewrite IH. reflexivity.
Qed.
End Run.

(** ** Undefined behaviour comes only from the client *)
Lemma txiruns_ub t st h : forall i i', txiruns t st i h i' -> forall o, In (o, TXUB) h -> exists k a, o = TXAct k a.
Proof.
  intros i i' R. induction R as [|i o r i1 h i2 St R IH]; intros q Q; [destruct Q|]. destruct Q as [E|Q]; [|auto].
  injection E as -> ->. inversion St; subst; eauto.
Qed.

Lemma txiruns_plain t st h : forall i i', txiruns t st i h i' -> Forall nsimple (ti_objs i) -> Forall (fun p => txplain (fst p)) h -> forall o, ~ In (o, TXUB) h.
Proof.
  induction h as [|[o r] h IH]; intros i i' R Si Pl o' I; [destruct I|]. inversion R as [|? ? ? s2 ? ? S R']; subst. inversion Pl as [|? ? P1 P2]; subst. cbn [fst] in P1.
  assert (K : Forall nsimple (ti_objs s2) /\ r <> TXUB).
  { rewrite Forall_forall in Si. inversion S; subst; cbn [ti_objs] in *; try (split; [apply Forall_forall; assumption|discriminate]); try (split; [constructor|discriminate]).
    - split; [|discriminate]. apply Forall_app. split; [apply Forall_forall; exact Si|]. constructor; [|constructor]. exists n. cbn [new_alloc ntags ntree line perms]. rewrite Nat.eqb_refl.
      split; [reflexivity|]. split; [reflexivity|]. intros x. destruct u as [|[|] im| |p im]; cbn [txuse_perm]; eauto.
    - destruct (nsimple_act o0 a n (Si o0 (nth_error_In _ _ H)) H0) as (r' & E2 & S2); [destruct a; auto|].
      split; [|destruct (makes_tag a); discriminate]. apply Forall_forall. intros y Y. apply BorrowWorld.set_nth_in in Y. destruct Y as [->|Y]; [|auto]. congruence.
    - destruct (nsimple_act o0 a n (Si o0 (nth_error_In _ _ H)) H0) as (r' & E2 & S2); [destruct a; auto|]. congruence. }
  destruct K as [K1 K2]. destruct I as [[= <- ->]|I]; [congruence|]. eapply IH; eauto.
Qed.

Lemma txrun_fst t hd kind os : forall w, map fst (snd (txrun t hd kind w os)) = os.
Proof.
  induction os as [|o os IH]; intros w; cbn [txrun]; [reflexivity|]. destruct (txstep t hd kind w o) as [w1 r]. specialize (IH w1).
  destruct (txrun t hd kind w1 os) as [w2 h]. cbn [fst snd map] in *. congruence.
Qed.
