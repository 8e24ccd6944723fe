(** * PropsUBorrow: the unsync Bump and MemBump follow the aliasing rules (Stacked Borrows), and their blocks are independent allocations. *)
From Verif Require Import Base Spec BaseFacts SyncModel SyncSpec SyncProofs UnsyncModel UnsyncSpec BorrowModel BorrowSpec BorrowProofs UBorrowModel UBorrowSpec UBorrowWorld UBorrowLocal PropsSync PropsBorrow.

(** Whatever a program does with an unsync Bump (a variable, of a type that is Unpin or not, or a MemBump in a LeakBox), all of its
    answers are those of a program whose blocks are separate allocations: each access of the client is undefined behaviour exactly if it
    would be with a separate allocation. *)
Theorem C100_blocks_are_separate t hd st kind os : valid_target t -> bump_place t hd st -> Forall (xop_ok t) os ->
  exists i, xiruns t st xideal_new (snd (xrun t hd kind (xnew hd st kind) os)) i.
Proof.
  intros Ht (V & D & _) F. destruct (xnew_run t hd st kind os Ht V D F) as (s & ->). cbn [snd]. destruct (xrun_inv t hd st kind os Ht D F _ _ _ (xnew_inv t hd st kind V)) as (i & Fs & R & _). eauto.
Qed.

(** The library itself has no undefined behaviour: not in any call, and not when a reference is made or on reset. *)
Theorem C100_library_never_ub t hd st kind os : valid_target t -> bump_place t hd st -> Forall (xop_ok t) os ->
  forall o, In (o, BUB) (snd (xrun t hd kind (xnew hd st kind) os)) -> exists k a, o = XAct k a.
Proof.
  intros Ht P F. destruct (C100_blocks_are_separate t hd st kind os Ht P F) as (i & R). exact (xiruns_ub t st _ _ _ R).
Qed.

(** Programs that read and write through the pointers they got, in any order and interleaved with calls, have no undefined behaviour. *)
Theorem C100_plain_programs_never_ub t hd st kind os : valid_target t -> bump_place t hd st -> Forall (xop_ok t) os -> Forall xplain os ->
  forall o, ~ In (o, BUB) (snd (xrun t hd kind (xnew hd st kind) os)).
Proof.
  intros Ht P F Pl. destruct (C100_blocks_are_separate t hd st kind os Ht P F) as (i & R). apply (xiruns_plain t st _ _ _ R); [constructor|].
  rewrite <- (xrun_fst t hd kind os (xnew hd st kind)) in Pl. rewrite Forall_map in Pl. exact Pl.
Qed.

(** The calls behave as in the model without tags. *)
Theorem C100_calls_unchanged t hd st kind os : valid_target t -> bump_place t hd st -> Forall (xop_ok t) os ->
  let h := snd (xrun t hd kind (xnew hd st kind) os) in
  urun t (u_fresh st) (map fst (ucalls_of h)) = (xbump (fst (xrun t hd kind (xnew hd st kind) os)), ucalls_of h).
Proof.
  intros Ht (V & D & _) F. destruct (xnew_run t hd st kind os Ht V D F) as (s & ->). cbn [fst snd with_xsb xbump]. exact (xrun_calls t hd st kind os Ht D F _ _ _ (xnew_inv t hd st kind V)).
Qed.

(** ** The hypotheses can be met *)
Definition ex_xops (a b c d : nat) : list xop :=
  [XShare None; XCall 0 (UBumpBox ex_u64) (XBox true); XCall 0 (UCall (CGet ex_u16)) (XLeak true); XCall 0 (UCall (CAlloc ex_u16)) XRaw;
   XAct 0 (CWrite a (MkBlock 4104 8)); XAct 1 (CRead b (MkBlock 4112 2)); XAct 2 (CWrite c (MkBlock 4114 2)); XAct 0 (CRead a (MkBlock 4104 4));
   XAct 1 (CRetag b [(RUnique, MkBlock 4112 2)] None); XShare (Some 0%nat); XCall 1 (UCall CLevel) XRaw; XCall 1 (UBumpArray ex_u16 2) (XBox false);
   XAct 1 (CWrite d (MkBlock 4112 2)); XAct 1 (CWrite b (MkBlock 4112 2)); XAct 1 (CWrite d (MkBlock 4112 2)); XReset; XAct 0 (CRead a (MkBlock 4104 8)); XShare None;
   XCall 0 (UBumpBox ex_u64) (XBox true)].

Example ex_xops_ok a b c d : Forall (xop_ok (x64 false)) (ex_xops a b c d).
Proof.
  destruct ex_layouts_ok as (A & B & _).
  unfold ex_xops. repeat apply Forall_cons; try apply Forall_nil; cbn [xop_ok valid_ucall valid_call]; auto; try apply B.
  split; [exact B|]. unfold is_usize. cbn. lia.
Qed.

(** A LeakBox, a reference and a raw pointer are used in turn; the reborrow of the reference is used after its parent, which is the client's fault. *)
Example ex_xops_run : map snd (snd (xrun (x64 false) ex_hd (XVar true) (xnew ex_hd ex_st (XVar true)) (ex_xops 27 50 63 73))) =
  [BDone; BResponse (RBlock (MkAlloc 4104 13)) (Some 27%nat); BResponse (RBlock (MkAlloc 4112 15)) (Some 50%nat); BResponse (RBlock (MkAlloc 4114 17)) (Some 63%nat);
   BDone; BDone; BDone; BDone; BTag 73; BDone; BResponse (RLevel 17) None; BResponse (RBlock (MkAlloc 4116 21)) (Some 106%nat);
   BDone; BDone; BUB; BDone; BInvalid; BDone; BResponse (RBlock (MkAlloc 4104 13)) (Some 142%nat)].
Proof. vm_compute. reflexivity. Qed.

Example ex_xops_ptr : map snd (snd (xrun (x64 false) ex_hd XPtr (xnew ex_hd ex_st XPtr) (ex_xops 25 46 57 67))) =
  [BDone; BResponse (RBlock (MkAlloc 4104 13)) (Some 25%nat); BResponse (RBlock (MkAlloc 4112 15)) (Some 46%nat); BResponse (RBlock (MkAlloc 4114 17)) (Some 57%nat);
   BDone; BDone; BDone; BDone; BTag 67; BDone; BResponse (RLevel 17) None; BResponse (RBlock (MkAlloc 4116 21)) (Some 96%nat);
   BDone; BDone; BUB; BDone; BInvalid; BDone; BResponse (RBlock (MkAlloc 4104 13)) (Some 128%nat)].
Proof. vm_compute. reflexivity. Qed.

Example ex_xideal : exists i, xiruns (x64 false) ex_st xideal_new (snd (xrun (x64 false) ex_hd (XVar false) (xnew ex_hd ex_st (XVar false)) (ex_xops 27 50 63 73))) i.
Proof. apply C100_blocks_are_separate; [exact ex_target_ok|exact ex_place_ok|apply ex_xops_ok]. Qed.

(** Which calls and accesses are steps of a client: through a reference that the client has, of a method that takes a shared reference, with
    a result that is used as what it is; and accesses through a pointer that the client has to the object, to a part of the object. *)
Theorem C100_client_steps t hd kind w : (forall i c u,
    snd (xstep t hd kind w (XCall i c u)) <> BInvalid <-> (i < length (xshares w))%nat /\ possible_use c u) /\
  (forall k a, snd (xstep t hd kind w (XAct k a)) <> BInvalid <-> exists o, nth_error (xobjs w) k = Some o /\ client_access o a).
Proof.
  split.
  - intros i c u. assert (U : use_ok c u = true <-> possible_use c u)
      by (unfold possible_use; destruct c as [[]| |], u; cbn; split; try discriminate; try tauto; try (intros _; split; [discriminate|tauto]); intros [N H]; try (now destruct N); tauto).
    cbn [xstep]. destruct (nth_error (xshares w) i) as [self|] eqn:E.
    + assert (L : (i < length (xshares w))%nat) by (apply nth_error_Some; congruence). destruct (use_ok c u) eqn:K.
      * split; [intros _; split; [exact L|now apply U]|intros _]. destruct (x_call _ _ _ _ _ _ _ _ _) as [[[[s' r] tag] b]|]; discriminate.
      * split; [intros X; now destruct X|intros [_ X]; apply U in X; discriminate].
    + apply nth_error_None in E. split; [intros X; now destruct X|intros [X _]; lia].
  - intros k a. cbn [xstep]. destruct (nth_error (xobjs w) k) as [o|]; [|split; [intros X; now destruct X|intros (o & E & _); discriminate]].
    pose proof (act_ok_iff o a) as A. destruct (act_ok o a) eqn:E.
    + split; [intros _; exists o; split; [reflexivity|now apply A]|intros _].
      destruct (do_act (xbusy w) a (xsb w)) as [[n b]|]; [destruct n|]; discriminate.
    + split; [intros X; now destruct X|intros (o' & [= <-] & C); apply A in C; discriminate].
Qed.
Example ex_possible_use p l : possible_use (UBumpBox l) (XBox p) /\ ~ possible_use (UBumpBox l) XRaw /\ possible_use (UCall CLevel) XRaw /\ ~ possible_use (UCall (CAlloc l)) (XBox p).
Proof. unfold possible_use. cbn. repeat split; try discriminate; tauto. Qed.

Print Assumptions C100_blocks_are_separate.
Print Assumptions C100_library_never_ub.
Print Assumptions C100_plain_programs_never_ub.
Print Assumptions C100_calls_unchanged.
Print Assumptions C100_client_steps.
