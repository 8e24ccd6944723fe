(** * PropsTRc: C109: Rc and Weak under the second proposal for the aliasing rules (Tree Borrows). *)
From Verif Require Import Base Spec BaseFacts SyncModel SyncSpec RcModel RcProofs RcMemProofs BorrowModel BorrowSpec BorrowProofs BorrowState BorrowLocal UBorrowModel EBorrowSlot RBorrowModel RBorrowSpec RBorrowBytes RBorrowOps RBorrowCalls RBorrowWorld PropsRBorrow
  TBorrowModel EBorrowModel TreeModel TreeSpec TreeState TreeWorld TreeLocal TExitModel TExitSpec TExitState TExitOps TRcModel TRcSpec TRcOps TRcWorld TRcStep TRcPolite TRcLocal.

(** Whatever the client does, in any order, with any number of Rcs, Weaks, references and destructors: no call of the library is undefined
    behaviour; only an access of the client can be. *)
Theorem C109_library_never_ub t bs os : valid_target t -> pairwise disjoint bs -> Forall (gop_ok t) os ->
  forall o, In (o, QUB) (snd (grun t (gnew bs) os)) -> exists m a, o = GAct m a.
Proof.
  intros V D F o. destruct (gnew_run t bs V D os F) as (s & -> & _). cbn [snd]. intros I.
  destruct (grun_ok t V os F _ (gwide_inv t bs D) (gwide_dinv bs)) as (_ & _ & U). exact (U o QUB I eq_refl).
Qed.

(** No program that uses references as the borrow checker allows has undefined behaviour; also in a destructor, or after the memory of the
    value was taken by a Weak meanwhile and another Rc was put in it. *)
Theorem C109_polite_never_ub t bs os : valid_target t -> pairwise disjoint bs -> Forall (gop_ok t) os -> gpolite t (gnew bs) (fun _ => MShared []) os ->
  Forall (fun e => snd e <> QUB) (snd (grun t (gnew bs) os)).
Proof.
  intros V D F P. apply (gnew_polite t bs V D os _ F) in P. destruct (gnew_run t bs V D os F) as (s & -> & _). cbn [snd].
  refine (polite_run t V os F _ _ (gwide_inv t bs D) (gwide_dinv bs) _ P). intros m k c E B. destruct (gwide_mem bs m k E) as (b & _ & ->). discriminate.
Qed.

(** The counts are those of the handles: an Rc (or its raw pointer) is a strong one, and all of these together count as a Weak. *)
Theorem C109_counts t bs os h m kd : valid_target t -> pairwise disjoint bs -> Forall (gop_ok t) os ->
  let w := fst (grun t (gnew bs) os) in nth_error (ghandles w) h = Some (m, kd) -> kd = HStrong \/ kd = HWeak ->
  snd (gstep t w (GStrong h)) = QNum (strong_of (ghandles w) m) /\ snd (gstep t w (GWeak h)) = QNum (weak_of (ghandles w) m) /\
  (kd = HWeak -> snd (gstep t w (GUpgrade h)) = if Nat.eqb (strong_of (ghandles w) m) 0 then QNo else QDone).
Proof.
  intros V D F. cbn zeta. destruct (gnew_run t bs V D os F) as (s & -> & G). cbn [fst]. destruct (grun_ok t V os F _ (gwide_inv t bs D) (gwide_dinv bs)) as (H & DI & _).
  assert (BL : map m_blk (gmems (fst (grun t (gwide bs) os))) = map m_blk (gmems (gwide bs))) by (apply grun_blks).
  pose proof (grun_of t (length bs) os (gwide bs) (map_length _ _) (Forall_nil _)) as OM.
  revert H DI G BL OM. generalize (fst (grun t (gwide bs) os)). intros w H DI G BL OM Eh K.
  assert (LO : forall o, gop_ok t o -> snd (gstep t (with_gf w s) o) = snd (gstep t w o)).
  { intros o O. destruct (gstep_local t (in_mems bs) V w s o H O) as (s' & -> & _); [|exact G|reflexivity].
    intros j k E. apply (gwide_covers bs). rewrite <- BL. apply in_map. eapply nth_error_In; eauto. }
  rewrite !LO by exact Logic.I. cbn [with_gf ghandles] in *.
  assert (NU : forall o, gop_ok t o -> (forall j a, o <> GAct j a) -> snd (gstep t w o) <> QUB).
  { intros o O N X. destruct (gstep_ok t V w o H DI O) as (_ & _ & U & _). destruct (U X) as (j & a & ->). eapply N; reflexivity. }
  pose proof (NU (GStrong h) Logic.I ltac:(discriminate)) as N1. pose proof (NU (GWeak h) Logic.I ltac:(discriminate)) as N2. pose proof (NU (GUpgrade h) Logic.I ltac:(discriminate)) as N3.
  unfold gstep in *. cbn [ghandle_of] in *. rewrite Eh in *.
  destruct (nth_error (gmems w) m) as [k|] eqn:Ek; [destruct (m_box k) as [c|] eqn:Ec|].
  - destruct (v_box _ _ _ _ _ (i_minv _ _ H) m k c Ek Ec) as (_ & _ & <- & <- & _).
    destruct K as [-> | ->]; cbn [gcall] in *.
    + destruct (g_strong_count _ _ _) as [[? ?]|]; [|cbn in N1; congruence]. destruct (g_weak_count _ _ _) as [[? ?]|]; [|cbn in N2; congruence]. repeat split; discriminate.
    + destruct (gw_count _ (q_strong _ _) _) as [[? ?]|]; [|cbn in N1; congruence]. destruct (gw_count _ (q_weak _ _) _) as [[? ?]|]; [|cbn in N2; congruence].
      destruct (gw_upgrade _ _ _ _) as [[? ?]|]; [|cbn in N3; congruence]. split; [reflexivity|]. split; [reflexivity|]. intros _. destruct (Nat.eqb (c_strong c) 0); reflexivity.
  - exfalso. destruct (v_free _ _ _ _ _ (i_minv _ _ H) m k Ek Ec) as [Z1 Z2]. unfold weak_of, strong_of in *. destruct K as [-> | ->].
    + pose proof (count_has is_strong m _ _ _ Eh eq_refl). lia.
    + pose proof (count_has is_weak m _ _ _ Eh eq_refl). lia.
  - exfalso. apply nth_error_In in Eh. rewrite Forall_forall in OM. apply OM in Eh. unfold of_mem in Eh. cbn [fst] in Eh. apply nth_error_None in Ek.
    apply (f_equal (@length _)) in BL. cbn [gwide gmems] in BL. rewrite !map_length in BL. lia.
Qed.

(** [get_mut] gives a reference exactly if the handle is the only one, [drop] runs the destructor and [try_unwrap] gives the value exactly if it is
    the last strong one, and [into_raw] succeeds exactly if it is the only one. *)
Lemma reachable t bs os : valid_target t -> pairwise disjoint bs -> Forall (gop_ok t) os -> exists w s, fst (grun t (gnew bs) os) = with_gf w s /\ ginv t w /\ gdinv w /\
  (forall o, gop_ok t o -> snd (gstep t (with_gf w s) o) = snd (gstep t w o)) /\
  forall h m kd, nth_error (ghandles w) h = Some (m, kd) -> kd <> HGone -> exists k c, nth_error (gmems w) m = Some k /\ m_box k = Some c.
Proof.
  intros V D F. destruct (gnew_run t bs V D os F) as (s & -> & G). cbn [fst]. destruct (grun_ok t V os F _ (gwide_inv t bs D) (gwide_dinv bs)) as (H & DI & _).
  assert (BL : map m_blk (gmems (fst (grun t (gwide bs) os))) = map m_blk (gmems (gwide bs))) by (apply grun_blks).
  pose proof (grun_of t (length bs) os (gwide bs) (map_length _ _) (Forall_nil _)) as OM.
  revert H DI G BL OM. generalize (fst (grun t (gwide bs) os)). intros w H DI G BL OM. exists w, s. split; [reflexivity|]. split; [exact H|]. split; [exact DI|]. split.
  - intros o O. destruct (gstep_local t (in_mems bs) V w s o H O) as (s' & -> & _); [|exact G|reflexivity].
    intros j k E. apply (gwide_covers bs). rewrite <- BL. apply in_map. eapply nth_error_In; eauto.
  - intros h m kd Eh K. destruct (nth_error (gmems w) m) as [k|] eqn:Ek.
    + destruct (m_box k) as [c|] eqn:Ec; [eauto|]. exfalso. destruct (v_free _ _ _ _ _ (i_minv _ _ H) m k Ek Ec) as [Z1 Z2]. unfold weak_of, strong_of in *. destruct kd; try congruence.
      * pose proof (count_has is_strong m _ _ _ Eh eq_refl). lia.
      * pose proof (count_has is_weak m _ _ _ Eh eq_refl). lia.
      * pose proof (count_has is_strong m _ _ _ Eh eq_refl). lia.
    + exfalso. apply nth_error_In in Eh. rewrite Forall_forall in OM. apply OM in Eh. unfold of_mem in Eh. cbn [fst] in Eh. apply nth_error_None in Ek.
      apply (f_equal (@length _)) in BL. cbn [gwide gmems] in BL. rewrite !map_length in BL. lia.
Qed.
Theorem C109_uniqueness t bs os h m : valid_target t -> pairwise disjoint bs -> Forall (gop_ok t) os ->
  let w := fst (grun t (gnew bs) os) in nth_error (ghandles w) h = Some (m, HStrong) ->
  ((exists n, snd (gstep t w (GGetMut h)) = QTag n) <-> strong_of (ghandles w) m = 1%nat /\ weak_of (ghandles w) m = 1%nat) /\
  ((exists n, snd (gstep t w (GDrop h)) = QTag n) <-> strong_of (ghandles w) m = 1%nat) /\
  (snd (gstep t w (GTryUnwrap h)) = QDone <-> strong_of (ghandles w) m = 1%nat) /\
  (snd (gstep t w (GIntoRaw h)) = QDone <-> strong_of (ghandles w) m = 1%nat /\ weak_of (ghandles w) m = 1%nat).
Proof.
  intros V D F. cbn zeta. destruct (reachable t bs os V D F) as (w & s & -> & H & DI & LO & BX). intros Eh. rewrite !LO by exact Logic.I. cbn [with_gf ghandles] in *.
  destruct (BX h m HStrong Eh ltac:(discriminate)) as (k & c & Ek & Ec). destruct (v_box _ _ _ _ _ (i_minv _ _ H) m k c Ek Ec) as (TY & _ & <- & <- & _).
  set (x := box_at k (c_ty c)). assert (OK : qtype_ok t (q_ty x)) by exact TY. assert (B0 : q_base x = 0%nat) by exact (i_base _ _ H m k Ek). pose proof (i_wf _ _ H) as W.
  destruct (op_some _ _ _ (op_get_mut t x V OK B0 (c_strong c) (c_weak c) _ W)) as (a1 & s1 & E1 & K1). destruct (op_some _ _ _ (op_drop t x V OK B0 (c_strong c) _ W)) as (a2 & s2 & E2 & K2).
  destruct (op_some _ _ _ (op_try_unwrap t x V OK B0 (c_strong c) _ W)) as (a3 & s3 & E3 & _). destruct (op_some _ _ _ (op_is_unique t x V OK B0 (c_strong c) _ W)) as (a4 & s4 & E4 & _).
  unfold gstep. cbn [ghandle_of]. rewrite Eh, Ek, Ec. cbn [gcall]. fold x. rewrite E1, E2, E3, E4. clear E1 E2 E3 E4.
  destruct (Nat.eqb_spec (c_strong c) 1) as [S1|S1]; destruct (Nat.eqb_spec (c_weak c) 1) as [W1|W1]; cbn [andb] in *.
  - destruct K1 as (n1 & -> & _), K2 as (n2 & -> & _). cbn [snd]. repeat split; eauto.
  - destruct K1 as (-> & _), K2 as (n2 & -> & _). cbn [snd]. repeat split; eauto; try (intros [? ?]; try discriminate; congruence); try discriminate; try congruence.
    all: match goal with Q : exists _, _ |- _ => destruct Q; discriminate end.
  - destruct K1 as (-> & _), K2 as (-> & _). cbn [snd]. repeat split; eauto; try (intros [? ?]; try discriminate; congruence); try discriminate; try congruence.
    all: match goal with Q : exists _, _ |- _ => destruct Q; discriminate end.
  - destruct K1 as (-> & _), K2 as (-> & _). cbn [snd]. repeat split; eauto; try (intros [? ?]; try discriminate; congruence); try discriminate; try congruence.
    all: match goal with Q : exists _, _ |- _ => destruct Q; discriminate end.
Qed.

(** These calls of a Weak change no permission at any byte of any value (also in a destructor). *)
Theorem C109_weak_never_touches t bs os h m o : valid_target t -> pairwise disjoint bs -> Forall (gop_ok t) os ->
  let w := fst (grun t (gnew bs) os) in nth_error (ghandles w) h = Some (m, HWeak) -> In o [GClone h; GStrong h; GWeak h; GDrop h; GTake h] ->
  let w' := fst (gstep t w o) in
  forall m' k c y n, nth_error (gmems w) m' = Some k -> m_box k = Some c -> in_block (q_val (box_at k (c_ty c))) y -> (n < fresh_tag (gforest w))%nat ->
    perms (nodes (gforest w')) y n = perms (nodes (gforest w)) y n /\ line (nodes (gforest w')) n = line (nodes (gforest w)) n.
Proof.
  intros V D F. cbn zeta. destruct (gnew_run t bs V D os F) as (s & -> & G). cbn [fst]. destruct (grun_ok t V os F _ (gwide_inv t bs D) (gwide_dinv bs)) as (H & DI & _).
  assert (BL : map m_blk (gmems (fst (grun t (gwide bs) os))) = map m_blk (gmems (gwide bs))) by (apply grun_blks).
  revert H DI G BL. generalize (fst (grun t (gwide bs) os)). intros w H DI G BL Eh I m' k' c' y n E' B' Y L. cbn [with_gf ghandles gforest gmems] in *.
  assert (CV : forall j k, nth_error (gmems w) j = Some k -> covers (in_mems bs) (m_blk k)) by (intros j k E; apply (gwide_covers bs); rewrite <- BL; apply in_map; eapply nth_error_In; eauto).
  assert (O : gop_ok t o /\ ghandle_of o = Some h /\ forall h', o <> GUpgrade h') by (cbn in I; destruct I as [<- | [<- | [<- | [<- | [<- | []]]]]]; repeat split; try discriminate).
  destruct O as (O & Ho & NG). destruct (gstep_local t (in_mems bs) V w s o H O CV G) as (s' & Es & G'). rewrite Es. cbn [fst with_gf gforest].
  destruct (gstep_ok t V w o H DI O) as (_ & _ & _ & Ef). unfold op_effect in Ef. rewrite Ho in Ef.
  destruct (all_ok t w m' k' c' H E' B') as (T' & F' & _).
  assert (Py : in_mems bs y) by (apply (CV m' k' E'); eapply (in_mem t (fun _ => Some 0%nat)); [exact T'|exact F'|apply (val_all t (box_at k' (c_ty c')) V T'); exact Y]).
  assert (K : perms (nodes (gforest (fst (gstep t w o)))) y n = perms (nodes (gforest w)) y n /\ line (nodes (gforest (fst (gstep t w o)))) n = line (nodes (gforest w)) n).
  { destruct Ef as [[(m1 & kd & k & c & E1 & Ek & Ec & Ef) _]|[_ ->]]; [|auto]. rewrite Eh in E1. injection E1 as <- <-.
    assert (T : touch t (box_at k (c_ty c)) (gforest w) (gforest (fst (gstep t w o)))) by (destruct o; try exact Ef; exfalso; eapply NG; reflexivity).
    destruct G as [N _]. rewrite <- N in L. destruct (all_ok t w m k c H Ek Ec) as (Tm & Fm & _).
    split; [apply (s_out _ _ _ T); [|exact L]|apply (s_line _ _ _ T); exact L]. intros Cn. apply (cnts_all t (box_at k (c_ty c)) V Tm) in Cn. destruct Cn as [C1 C2].
    destruct (Nat.eq_dec m' m) as [->|Nm].
    - rewrite Ek in E'. injection E' as <-. rewrite Ec in B'. injection B' as <-. contradiction.
    - exact (other_val t V w m m' k k' (c_ty c) c' H Ek Fm Tm E' B' Nm y Y C1). }
  destruct G as (_ & G1 & G2). destruct G' as (_ & G3 & G4). rewrite <- (G2 y Py), <- (G4 y Py), <- G1, <- G3. exact K.
Qed.

(** ** Examples *)
(** Two values, one with a Cell: clones, shared references of which one writes to the cell, [get_mut], and at last a destructor, in which the memory is used again *)
Definition ex_gops (a b c d e : nat) : list gop :=
  [GNew 0 ex_int; GNew 1 ex_cell; GClone 0; GDeref 1; GDeref 1; GAct 1 (NWrite a (MkBlock 4160 4)); GClone 1; GAct 1 (NRead b (MkBlock 4160 8)); GAct 1 (NWrite a (MkBlock 4160 4));
   GDrop 3; GGetMut 0; GDrop 0; GDowngrade 2; GGetMut 2; GStrong 4; GDrop 4; GGetMut 2; GAct 0 (NWrite c (MkBlock 4096 8)); GAct 0 (NRead c (MkBlock 4100 4)); GDowngrade 2;
   GDrop 2; GAct 0 (NWrite d (MkBlock 4096 8)); GUpgrade 5; GWeak 5; GTake 5; GNew 0 ex_cell; GRet; GDrop 1; GAct 1 (NWrite e (MkBlock 4160 8)); GRet].
Example ex_gops_ok a b c d e : Forall (gop_ok (x64 false)) (ex_gops a b c d e).
Proof. repeat apply Forall_cons; try apply Forall_nil; try exact Logic.I; try exact ex_int_ok; exact ex_cell_ok. Qed.
Example ex_gops_run : map snd (snd (grun (x64 false) (gnew ex_bs) (ex_gops 17 20 121 163 226))) =
  [QDone; QDone; QDone; QTag 17; QTag 20; QDone; QDone; QDone; QDone; QDone; QNo; QDone; QDone; QNo; QNum 1; QDone; QTag 121; QDone; QDone; QDone;
   QTag 163; QDone; QNo; QNum 1; QDone; QDone; QDone; QTag 226; QDone; QDone].
Proof. vm_compute. reflexivity. Qed.
(** A check for the condition of [C109_polite_never_ub] *)
Definition gallowedb (q : qmode) (x : qbox) (a : nact) : bool :=
  match q, a with
  | MShared ns, NRead n _ => existsb (Nat.eqb n) ns
  | MShared ns, NWrite n b => existsb (Nat.eqb n) ns &&
      existsb (fun p => match fst p with RCell => (start (snd p) <=? start b) && (start b + size b <=? start (snd p) + size (snd p)) | _ => false end) (q_refs x)
  | MExcl n, NRead n' _ | MExcl n, NWrite n' _ => Nat.eqb n n'
  | _, NRetag _ _ _ => false
  end.
Definition gpolite_opb (w : gworld) (ms : nat -> qmode) (o : gop) : bool :=
  match o with
  | GAct m a => match nth_error (gmems w) m with Some k => match m_box k with Some c => gallowedb (ms m) (box_at k (c_ty c)) a | None => true end | None => true end
  | _ => true
  end.
Fixpoint gpoliteb (t : target) (w : gworld) (ms : nat -> qmode) (os : list gop) : bool :=
  match os with
  | [] => true
  | o :: os => gpolite_opb w ms o && let (w1, r) := gstep t w o in gpoliteb t w1 (gmode_after w ms o r) os
  end.
Lemma gpoliteb_ok t os : forall w ms, gpoliteb t w ms os = true -> gpolite t w ms os.
Proof.
  induction os as [|o os IH]; intros w ms; cbn [gpoliteb gpolite]; [auto|]. intros E. apply andb_true_iff in E. destruct E as [E1 E2]. split.
  - destruct o; try exact Logic.I; cbn [gpolite_op gpolite_opb] in *.
    intros k c K C. rewrite K, C in E1. destruct (ms m) as [ns|n], a; cbn [gallowed gallowedb] in *; try discriminate.
    + apply has_in. exact E1.
    + apply andb_true_iff in E1. destruct E1 as [E1 E3]. split; [apply has_in; exact E1|]. apply existsb_exists in E3. destruct E3 as ([[] c1] & I & X); try discriminate.
      cbn [snd fst] in X. exists c1. split; [exact I|]. intros z Z0. unfold in_block in *. lia.
    + apply Nat.eqb_eq. exact E1.
    + apply Nat.eqb_eq. exact E1.
  - destruct (gstep t w o) as [w1 r]. cbn [fst snd]. apply IH. exact E2.
Qed.
Example ex_gops_polite : gpolite (x64 false) (gnew ex_bs) (fun _ => MShared []) (ex_gops 17 20 121 163 226).
Proof. apply gpoliteb_ok. vm_compute. reflexivity. Qed.
(** A unique reference that is used after a shared one was made and its first write (the borrow checker does not allow it) is undefined behaviour. *)
Example ex_grude : map snd (snd (grun (x64 false) (gnew ex_bs) [GNew 0 ex_int; GGetMut 0; GAct 0 (NWrite 12 (MkBlock 4096 8)); GDeref 0; GAct 0 (NWrite 12 (MkBlock 4096 8))])) =
  [QDone; QTag 12; QDone; QTag 15; QUB].
Proof. vm_compute. reflexivity. Qed.
(** Under Tree Borrows (function arguments are not protected in this model) a new Rc in the memory of a value whose destructor runs is fine;
    the destructor's reference is not usable any more. *)
Example ex_greuse : map snd (snd (grun (x64 false) (gnew ex_bs) [GNew 0 ex_int; GDowngrade 0; GDrop 0; GAct 0 (NWrite 43 (MkBlock 4096 8)); GTake 1; GNew 0 ex_cell; GAct 0 (NRead 43 (MkBlock 4096 8))])) =
  [QDone; QDone; QTag 43; QDone; QDone; QDone; QInvalid].
Proof. vm_compute. reflexivity. Qed.
(** Inside of a destructor: a Weak has all its calls, and [upgrade] says no. *)
Example ex_gweak_in_destructor : let w := fst (grun (x64 false) (gnew ex_bs) [GNew 0 ex_int; GDowngrade 0; GDrop 0]) in nth_error (ghandles w) 1 = Some (0%nat, HWeak) /\ gdrops w = [(0%nat, true)] /\
  map (fun o => snd (gstep (x64 false) w o)) [GClone 1; GStrong 1; GWeak 1; GUpgrade 1; GDrop 1; GTake 1] = [QDone; QNum 0; QNum 1; QNo; QDone; QDone].
Proof. vm_compute. auto. Qed.

Print Assumptions C109_library_never_ub.
Print Assumptions C109_polite_never_ub.
Print Assumptions C109_counts.
Print Assumptions C109_uniqueness.
Print Assumptions C109_weak_never_touches.
