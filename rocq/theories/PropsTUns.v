(** * PropsTUns: the unsync Bump and MemBump under the second proposal for the aliasing rules (Tree Borrows). *)
From Verif Require TreeWorld.
From Verif Require Import Base Spec BaseFacts SyncModel SyncSpec SyncProofs UnsyncModel UnsyncSpec BorrowModel BorrowSpec UBorrowModel UBorrowSpec
  TreeModel TreeSpec TExitModel TUnsModel TUnsSpec TUnsWorld TUnsTop TUnsLocal PropsSync PropsBorrow.

(** Whatever a program does with an unsync Bump (a variable, of a type that is Unpin or not, or a MemBump in a LeakBox), all of its
    answers are those of a program whose blocks are separate allocations: each access of the client is undefined behaviour exactly if it
    would be with a separate allocation. *)
Theorem C108_blocks_are_separate t hd st kind os : valid_target t -> bump_place t hd st -> Forall (txop_ok t) os ->
  exists i, txiruns t st txideal_new (snd (txrun t hd kind (txnew hd st) os)) i.
Proof.
  intros Ht (V & D & _) F. destruct (txnew_run t hd st kind Ht D os V F) as (s & ->). cbn [snd]. destruct (txrun_inv t hd st kind Ht D os F _ _ (txwide_inv t hd st V)) as (i & R & _). eauto.
Qed.

(** The library itself has no undefined behaviour: not in any call, and not when a reference is made or on reset. *)
Theorem C108_library_never_ub t hd st kind os : valid_target t -> bump_place t hd st -> Forall (txop_ok t) os ->
  forall o, In (o, TXUB) (snd (txrun t hd kind (txnew hd st) os)) -> exists k a, o = TXAct k a.
Proof.
  intros Ht P F. destruct (C108_blocks_are_separate t hd st kind os Ht P F) as (i & R). exact (txiruns_ub t st _ _ _ R).
Qed.

(** Programs that read and write through the pointers they got, in any order and interleaved with calls, have no undefined behaviour. *)
Theorem C108_plain_programs_never_ub t hd st kind os : valid_target t -> bump_place t hd st -> Forall (txop_ok t) os -> Forall txplain os ->
  forall o, ~ In (o, TXUB) (snd (txrun t hd kind (txnew hd st) os)).
Proof.
  intros Ht P F Pl. destruct (C108_blocks_are_separate t hd st kind os Ht P F) as (i & R). apply (txiruns_plain t st _ _ _ R); [constructor|].
  rewrite <- (txrun_fst t hd kind os (txnew hd st)) in Pl. rewrite Forall_map in Pl. exact Pl.
Qed.

(** The calls behave as in the model without tags. *)
Theorem C108_calls_unchanged t hd st kind os : valid_target t -> bump_place t hd st -> Forall (txop_ok t) os ->
  let h := snd (txrun t hd kind (txnew hd st) os) in
  urun t (u_fresh st) (map fst (txcalls_of h)) = (txbump (fst (txrun t hd kind (txnew hd st) os)), txcalls_of h).
Proof.
  intros Ht (V & D & _) F. destruct (txnew_run t hd st kind Ht D os V F) as (s & ->). cbn [fst snd with_txf txbump]. exact (txrun_calls t hd st kind Ht D os F _ _ (txwide_inv t hd st V)).
Qed.

(** ** The hypotheses can be met *)
Definition ex_txops (a b c d : nat) : list txop :=
  [TXShare None; TXCall 0 (UBumpBox ex_u64) (TXBox true false); TXCall 0 (UCall (CGet ex_u16)) (TXLeak true false); TXCall 0 (UCall (CAlloc ex_u16)) TXRaw;
   TXAct 0 (NWrite a (MkBlock 4104 8)); TXAct 1 (NRead b (MkBlock 4112 2)); TXAct 2 (NWrite c (MkBlock 4114 2)); TXAct 0 (NRead a (MkBlock 4104 4));
   TXAct 1 (NRetag b true [(false, MkBlock 4112 2)]); TXShare (Some 0%nat); TXCall 1 (UCall CLevel) TXRaw; TXCall 1 (UBumpArray ex_u16 2) (TXBox false true);
   TXAct 1 (NWrite d (MkBlock 4112 2)); TXAct 1 (NWrite b (MkBlock 4112 2)); TXAct 1 (NRead d (MkBlock 4112 2)); TXReset; TXAct 0 (NRead a (MkBlock 4104 8)); TXShare None;
   TXCall 0 (UBumpBox ex_u64) (TXBox true false)].

Example ex_txops_ok a b c d : Forall (txop_ok (x64 false)) (ex_txops a b c d).
Proof.
  destruct ex_layouts_ok as (A & B & _).
  unfold ex_txops. repeat apply Forall_cons; try apply Forall_nil; cbn [txop_ok valid_ucall valid_call]; auto; try apply B.
  split; [exact B|]. unfold is_usize. cbn. lia.
Qed.

(** A LeakBox, a reference and a raw pointer are used in turn; the reborrow of the reference is used after its parent, which is the client's fault. *)
Example ex_txops_run : map snd (snd (txrun (x64 false) ex_hd (XVar true) (txnew ex_hd ex_st) (ex_txops 27 50 63 73))) =
  [TXDone; TXResponse (RBlock (MkAlloc 4104 13)) (Some 27%nat); TXResponse (RBlock (MkAlloc 4112 15)) (Some 50%nat); TXResponse (RBlock (MkAlloc 4114 17)) (Some 63%nat);
   TXDone; TXDone; TXDone; TXDone; TXTag 73; TXDone; TXResponse (RLevel 17) None; TXResponse (RBlock (MkAlloc 4116 21)) (Some 106%nat);
   TXDone; TXDone; TXUB; TXDone; TXInvalid; TXDone; TXResponse (RBlock (MkAlloc 4104 13)) (Some 142%nat)].
Proof. vm_compute. reflexivity. Qed.

Example ex_txops_ptr : map snd (snd (txrun (x64 false) ex_hd XPtr (txnew ex_hd ex_st) (ex_txops 25 46 57 67))) =
  [TXDone; TXResponse (RBlock (MkAlloc 4104 13)) (Some 25%nat); TXResponse (RBlock (MkAlloc 4112 15)) (Some 46%nat); TXResponse (RBlock (MkAlloc 4114 17)) (Some 57%nat);
   TXDone; TXDone; TXDone; TXDone; TXTag 67; TXDone; TXResponse (RLevel 17) None; TXResponse (RBlock (MkAlloc 4116 21)) (Some 96%nat);
   TXDone; TXDone; TXUB; TXDone; TXInvalid; TXDone; TXResponse (RBlock (MkAlloc 4104 13)) (Some 128%nat)].
Proof. vm_compute. reflexivity. Qed.

Example ex_txideal : exists i, txiruns (x64 false) ex_st txideal_new (snd (txrun (x64 false) ex_hd (XVar false) (txnew ex_hd ex_st) (ex_txops 27 50 63 73))) i.
Proof. apply C108_blocks_are_separate; [exact ex_target_ok|exact ex_place_ok|apply ex_txops_ok]. Qed.

(** Programs without reborrows: the first eight steps. *)
Example ex_txplain : Forall txplain (firstn 8 (ex_txops 27 50 63 73)) /\ Forall (txop_ok (x64 false)) (firstn 8 (ex_txops 27 50 63 73)).
Proof.
  split; [|pose proof (ex_txops_ok 27 50 63 73) as X; rewrite <- (firstn_skipn 8) in X; apply Forall_app in X; apply X]. cbn [firstn ex_txops]. repeat apply Forall_cons; try apply Forall_nil; exact Logic.I.
Qed.

(** Which calls and accesses are steps of a client: through a reference that the client has, of a method that takes a shared reference, with
    a result that is used as what it is; and accesses through a pointer that the client has to the object, to a part of the object. *)
Theorem C108_client_steps t hd kind w : (forall i c u,
    snd (txstep t hd kind w (TXCall i c u)) <> TXInvalid <-> (i < length (txshares w))%nat /\ tpossible_use c u) /\
  (forall k a, snd (txstep t hd kind w (TXAct k a)) <> TXInvalid <-> exists o, nth_error (txobjs w) k = Some o /\ nclient_access o a).
Proof.
  split.
  - intros i c u. assert (U : tuse_ok c u = true <-> tpossible_use c u)
      by (unfold tpossible_use; destruct c as [[]| |], u; cbn; split; try discriminate; try tauto; try (intros _; split; [discriminate|tauto]); intros [N H]; try (now destruct N); tauto).
    cbn [txstep]. destruct (nth_error (txshares w) i) as [self|] eqn:E.
    + assert (L : (i < length (txshares w))%nat) by (apply nth_error_Some; congruence). destruct (tuse_ok c u) eqn:K.
      * split; [intros _; split; [exact L|now apply U]|intros _]. destruct (f_call _ _ _ _ _ _ _ _) as [[[[s' r] tag] b]|]; discriminate.
      * split; [intros X; now destruct X|intros [_ X]; apply U in X; discriminate].
    + apply nth_error_None in E. split; [intros X; now destruct X|intros [X _]; lia].
  - intros k a. cbn [txstep]. destruct (nth_error (txobjs w) k) as [o|]; [|split; [intros X; now destruct X|intros (o & E & _); discriminate]].
    pose proof (TreeWorld.nact_ok_iff o a) as A. destruct (nact_ok o a) eqn:E.
    + split; [intros _; exists o; split; [reflexivity|now apply A]|intros _]. cbn zeta.
      destruct (tree_act _ a _) as [r|]; [|discriminate]. cbn [snd]. destruct (makes_tag a); discriminate.
    + split; [intros X; now destruct X|intros (o' & [= <-] & C); apply A in C; discriminate].
Qed.
Example ex_tpossible_use p im l : tpossible_use (UBumpBox l) (TXBox p im) /\ ~ tpossible_use (UBumpBox l) TXRaw /\ tpossible_use (UCall CLevel) TXRaw /\ ~ tpossible_use (UCall (CAlloc l)) (TXBox p im).
Proof. unfold tpossible_use. cbn. repeat split; try discriminate; tauto. Qed.

Print Assumptions C108_blocks_are_separate.
Print Assumptions C108_library_never_ub.
Print Assumptions C108_plain_programs_never_ub.
Print Assumptions C108_calls_unchanged.
Print Assumptions C108_client_steps.
