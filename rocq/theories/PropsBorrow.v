(** * PropsBorrow: static-alloc's Bump follows the aliasing rules (Stacked Borrows), and its blocks are independent allocations. *)
From Verif Require Import Base Spec BaseFacts SyncModel SyncSpec SyncProofs BorrowModel BorrowSpec BorrowProofs BorrowState BorrowWorld BorrowLocal PropsSync.

(** Whatever a program does with a Bump (a variable or a static), all of its answers are those of a program whose blocks are separate
    allocations: each access of the client is undefined behaviour exactly if it would be with a separate allocation. *)
Theorem C99_blocks_are_separate t hd st own os : valid_target t -> bump_place t hd st -> Forall (bop_ok t) os ->
  exists i, iruns t st (ideal_new own) (snd (brun t hd (bnew hd st own) os)) i.
Proof.
  intros Ht (V & D & _) F. destruct (bnew_run t hd st own os Ht V D F) as (s & ->). cbn [snd]. destruct (brun_inv t hd st own os Ht D F _ _ (bnew_inv t hd st own V)) as (i & R & _). eauto.
Qed.

(** The library itself has no undefined behaviour: not in any call, and not when a reference is made or on reset. *)
Theorem C99_library_never_ub t hd st own os : valid_target t -> bump_place t hd st -> Forall (bop_ok t) os ->
  forall o, In (o, BUB) (snd (brun t hd (bnew hd st own) os)) -> exists k a, o = BAct k a.
Proof.
  intros Ht P F. destruct (C99_blocks_are_separate t hd st own os Ht P F) as (i & R). exact (iruns_ub t st _ _ _ R).
Qed.

(** Programs that read and write through the pointers they got, in any order and interleaved with calls, have no undefined behaviour. *)
Theorem C99_plain_programs_never_ub t hd st own os : valid_target t -> bump_place t hd st -> Forall (bop_ok t) os -> Forall plain os ->
  forall o, ~ In (o, BUB) (snd (brun t hd (bnew hd st own) os)).
Proof.
  intros Ht P F Pl. destruct (C99_blocks_are_separate t hd st own os Ht P F) as (i & R). apply (iruns_plain t st _ _ _ R); [constructor|].
  rewrite <- (brun_fst t hd os (bnew hd st own)) in Pl. rewrite Forall_map in Pl. exact Pl.
Qed.

(** The calls behave as in the model without tags. *)
Theorem C99_calls_unchanged t hd st own os : valid_target t -> bump_place t hd st -> Forall (bop_ok t) os ->
  let h := snd (brun t hd (bnew hd st own) os) in
  run t (fresh st) (map fst (calls_of h)) = (wslab (fst (brun t hd (bnew hd st own) os)), calls_of h).
Proof.
  intros Ht (V & D & _) F. destruct (bnew_run t hd st own os Ht V D F) as (s & ->). cbn [fst snd with_sb wslab]. exact (brun_calls t hd st own os Ht D F _ _ (bnew_inv t hd st own V)).
Qed.

(** ** The hypotheses can be met *)
Definition ex_hd : block := MkBlock 4224 8.

Example ex_place_ok : bump_place (x64 false) ex_hd ex_st.
Proof. split; [exact ex_region_ok|]. split; [|reflexivity]. intros x [A B]. unfold in_block in *. cbn in *. lia. Qed.

(** Two references from [leak] and a raw pointer, used in turn; a reborrow that is used after its parent, which is the client's fault. *)
Definition ex_bops : list bop :=
  [BShare None; BCall 0 (CGet ex_u64) ULeak; BCall 0 (CGet ex_u16) ULeak; BCall 0 (CAlloc ex_u16) URaw;
   BAct 0 (CWrite 10 (MkBlock 4104 8)); BAct 1 (CRead 24 (MkBlock 4112 2)); BAct 0 (CRead 10 (MkBlock 4104 4));
   BAct 0 (CRetag 10 [(RUnique, MkBlock 4104 8)] None); BShare (Some 0%nat); BCall 1 CLevel URaw;
   BAct 0 (CWrite 37 (MkBlock 4104 8)); BAct 0 (CWrite 10 (MkBlock 4104 8)); BAct 0 (CWrite 37 (MkBlock 4104 8)); BReset; BAct 0 (CRead 10 (MkBlock 4104 8))].

Example ex_bops_ok : Forall (bop_ok (x64 false)) ex_bops.
Proof.
  destruct ex_layouts_ok as (A & B & _).
  unfold ex_bops. repeat apply Forall_cons; try apply Forall_nil; cbn [bop_ok valid_call]; auto. apply B.
Qed.

Example ex_bops_run : map snd (snd (brun (x64 false) ex_hd (bnew ex_hd ex_st true) ex_bops)) =
  [BDone; BResponse (RBlock (MkAlloc 4104 13)) (Some 10%nat); BResponse (RBlock (MkAlloc 4112 15)) (Some 24%nat); BResponse (RBlock (MkAlloc 4114 17)) (Some 34%nat);
   BDone; BDone; BDone; BTag 37; BDone; BResponse (RLevel 17) None; BDone; BDone; BUB; BDone; BInvalid].
Proof. vm_compute. reflexivity. Qed.

Example ex_ideal : exists i, iruns (x64 false) ex_st (ideal_new true) (snd (brun (x64 false) ex_hd (bnew ex_hd ex_st true) ex_bops)) i.
Proof. apply C99_blocks_are_separate; [exact ex_target_ok|exact ex_place_ok|exact ex_bops_ok]. Qed.

(** Which accesses are steps of a client: exactly those through a pointer that the client has to the object, to a part of the object. *)
Theorem C99_client_accesses t hd w k a :
  snd (bstep t hd w (BAct k a)) <> BInvalid <-> exists o, nth_error (wobjs w) k = Some o /\ client_access o a.
Proof.
  cbn [bstep]. destruct (nth_error (wobjs w) k) as [o|]; [|split; [intros X; now destruct X|intros (o & E & _); discriminate]].
  pose proof (act_ok_iff o a) as A. destruct (act_ok o a) eqn:E.
  - split; [intros _; exists o; split; [reflexivity|now apply A]|intros _].
    destruct (do_act (wbusy w) a (wsb w)) as [[n b]|]; [destruct n|]; discriminate.
  - split; [intros X; now destruct X|intros (o' & [= <-] & C); apply A in C; discriminate].
Qed.
Example ex_client_access : client_access (MkO (MkBlock 4104 8) [3; 1]%nat) (CRetag 3 [(RUnique, MkBlock 4104 4); (RCell, MkBlock 4108 4)] None) /\
  ~ client_access (MkO (MkBlock 4104 8) [3; 1]%nat) (CRead 2 (MkBlock 4104 8)) /\ ~ client_access (MkO (MkBlock 4104 8) [3; 1]%nat) (CWrite 3 (MkBlock 4104 9)).
Proof.
  split; [|split].
  - cbn [client_access otags oblk]. split; [cbn; auto|]. split; repeat constructor; cbn; lia.
  - intros [[E|[E|[]]] _]; discriminate.
  - intros [_ [_ E]]. cbn in E. lia.
Qed.

Print Assumptions C99_blocks_are_separate.
Print Assumptions C99_library_never_ub.
Print Assumptions C99_plain_programs_never_ub.
Print Assumptions C99_calls_unchanged.
Print Assumptions C99_client_accesses.
