(** * PropsTree: threads that share a Bump follow the aliasing rules of Tree Borrows, in any order of their steps. *)
From Verif Require Import Base Spec BaseFacts SyncModel SyncSpec SyncProofs ConcModel ConcSpec ConcProofs BorrowModel BorrowSpec TBorrowModel TreeModel TreeSpec TreeWorld TreeLocal TreeReturn PropsSync PropsBorrow.

(** Whatever threads do with a Bump, and however the scheduler orders their steps: all answers are those of a program whose blocks are
    separate allocations, each with a tree of its own. *)
Theorem C106_blocks_are_separate t hd st own os : valid_target t -> bump_place t hd st -> Forall (nop_ok t) os ->
  exists j, niruns st (nideal_new own) (snd (nrun t hd (nnew hd st own) os)) j.
Proof.
  intros Ht (V & D & _) F. rewrite (nnew_run t hd st Ht D own os V F). destruct (nrun_inv t hd st Ht D own os _ _ _ (nnew_inv t hd st own V) F) as (j & q & R & _). eauto.
Qed.

(** The library itself has no undefined behaviour, in any step of any call of any thread, in [reset] and in new references. *)
Theorem C106_library_never_ub t hd st own os : valid_target t -> bump_place t hd st -> Forall (nop_ok t) os ->
  forall o, In (o, NUB) (snd (nrun t hd (nnew hd st own) os)) -> exists k a, o = NAct k a.
Proof.
  intros Ht P F. destruct (C106_blocks_are_separate t hd st own os Ht P F) as (j & R). exact (niruns_ub st _ _ _ R).
Qed.

(** Threads that read and write through the pointers they got, while other threads allocate, have no undefined behaviour. *)
Theorem C106_plain_programs_never_ub t hd st own os : valid_target t -> bump_place t hd st -> Forall (nop_ok t) os -> Forall nplain os ->
  forall o, ~ In (o, NUB) (snd (nrun t hd (nnew hd st own) os)).
Proof.
  intros Ht P F Pl. destruct (C106_blocks_are_separate t hd st own os Ht P F) as (j & R). apply (niruns_plain st _ _ _ R); [constructor|].
  rewrite <- (nrun_fst t hd os (nnew hd st own)) in Pl. rewrite Forall_map in Pl. exact Pl.
Qed.

(** The calls of the threads are linearizable. *)
Theorem C106_linearizable t hd st own os : valid_target t -> bump_place t hd st -> Forall (nop_ok t) os -> ~ In NReset os ->
  linearizable t st (nseen (snd (nrun t hd (nnew hd st own) os))).
Proof.
  intros Ht (V & D & _) F N. rewrite (nnew_run t hd st Ht D own os V F). destruct (nrun_inv t hd st Ht D own os _ _ _ (nnew_inv t hd st own V) F) as (j & q & _ & _ & H).
  destruct (H N) as (sched & Va & -> & E). cbn [history sys_init hist rev filter app] in E. rewrite <- E. apply conc_linearizable; auto.
Qed.

(** Every call returns, whatever the other threads do: after at most [8 * size + 12] of its own steps. *)
Theorem C106_calls_return t hd st own pre i k c u im mid : valid_target t -> bump_place t hd st -> Forall (nop_ok t) (pre ++ NInvoke i k c u im :: mid) ->
  let w := fst (nrun t hd (nnew hd st own) pre) in
  snd (ntstep t hd w (NInvoke i k c u im)) = NMore ->
  8 * size st + 12 <= nsteps i mid ->
  exists x tag, In (NStep i, NReturn c x tag) (snd (nrun t hd (fst (ntstep t hd w (NInvoke i k c u im))) mid)).
Proof.
  intros Ht (V & D & _) F w0 E L. apply Forall_app in F. destruct F as [F1 F2]. inversion F2 as [|? ? F3 F4]; subst.
  destruct (nnew_all t hd st Ht D own pre V F1) as (s & R0 & G & A). unfold w0 in *. clear w0. rewrite R0 in *. cbn [fst] in *.
  destruct (nrun_inv t hd st Ht D own pre _ _ _ (nnew_inv t hd st own V) F1) as (j & q & _ & R & _). set (w := fst (nrun t hd (nwide hd st own) pre)) in *.
  destruct (ntstep_local t hd st Ht own w j q (NInvoke i k c u im) s R A G) as (s1 & E1 & G1). rewrite E1 in *. cbn [fst snd] in *.
  destruct (ninvoked t hd st Ht D own w j q i k c u im R F3 E) as (j' & q' & r & n & R' & El & <- & Wn & R1 & Le).
  destruct (nrun_local t hd st Ht D own mid F4 _ j' q' s1 R' (nfields_kept t hd st own w j q _ R A) G1) as (s2 & E2 & _). rewrite E2. cbn [snd].
  destruct (ncalls_end t hd st Ht D own i mid _ j' q' r n (8 * size st + 11) R' F4 El Wn R1 Le) as (x & tag & In_); [lia|]. eauto.
Qed.

(** ** The hypotheses can be met *)

(** Two threads step in turn: both call [leak] of a u64, and the exchange of thread 2 fails and is repeated.  Then both write to their values. *)
Definition ex_nops : list nop :=
  [NInvoke 1 0 (CGet ex_u64) ULeak false; NInvoke 2 0 (CGet ex_u64) ULeak false] ++
  flat_map (fun _ => [NStep 1; NStep 2]) (seq 0 11) ++
  [NAct 0 (NWrite 19 (MkBlock 4104 8))] ++ map (fun _ => NStep 2) (seq 0 6) ++
  [NAct 0 (NRead 19 (MkBlock 4104 8)); NInvoke 1 0 (CAllocAt ex_u16 21) URaw false; NAct 1 (NWrite 24 (MkBlock 4112 8))] ++ map (fun _ => NStep 1) (seq 0 7) ++
  [NAct 2 (NWrite 28 (MkBlock 4120 2)); NAct 0 (NWrite 19 (MkBlock 4104 8))].

Example ex_nops_ok : Forall (nop_ok (x64 false)) ex_nops /\ Forall nplain ex_nops /\ ~ In NReset ex_nops.
Proof.
  destruct ex_layouts_ok as (A & B & _). split; [|split].
  - unfold ex_nops. cbn [seq flat_map map app]. repeat apply Forall_cons; try apply Forall_nil; cbn [nop_ok valid_call]; auto.
    split; [apply B|]. unfold is_usize, usize_max, addr_space. cbn. lia.
  - unfold ex_nops. cbn [seq flat_map map app]. repeat apply Forall_cons; try apply Forall_nil; exact Logic.I.
  - unfold ex_nops. cbn [seq flat_map map app]. intros H. repeat (destruct H as [H|H]; [discriminate|]). exact H.
Qed.

Definition not_nmore (p : nop * nanswer) : bool := match snd p with NMore => false | _ => true end.

Example ex_nops_run : filter not_nmore (snd (nrun (x64 false) ex_hd (nnew ex_hd ex_st false) ex_nops)) =
  [(NStep 1, NReturn (CGet ex_u64) (RBlock (MkAlloc 4104 13)) (Some 19%nat));
   (NAct 0 (NWrite 19 (MkBlock 4104 8)), NDone);
   (NStep 2, NReturn (CGet ex_u64) (RBlock (MkAlloc 4112 21)) (Some 24%nat));
   (NAct 0 (NRead 19 (MkBlock 4104 8)), NDone);
   (NAct 1 (NWrite 24 (MkBlock 4112 8)), NDone);
   (NStep 1, NReturn (CAllocAt ex_u16 21) (RBlock (MkAlloc 4120 23)) (Some 28%nat));
   (NAct 2 (NWrite 28 (MkBlock 4120 2)), NDone); (NAct 0 (NWrite 19 (MkBlock 4104 8)), NDone)].
Proof. vm_compute. reflexivity. Qed.

Example ex_nops_seen : nseen (snd (nrun (x64 false) ex_hd (nnew ex_hd ex_st false) ex_nops)) =
  [EInv 1 (CGet ex_u64); EInv 2 (CGet ex_u64); ERet 1 (CGet ex_u64) (RBlock (MkAlloc 4104 13)); ERet 2 (CGet ex_u64) (RBlock (MkAlloc 4112 21));
   EInv 1 (CAllocAt ex_u16 21); ERet 1 (CAllocAt ex_u16 21) (RBlock (MkAlloc 4120 23))].
Proof. vm_compute. reflexivity. Qed.

(** References made from the client's own: two mutable ones to the same value may both be read, but a write through one of them ends the
    other -- undefined behaviour of the client, and the theorem says it is that of the client alone; a shared one may not be written
    through.  The rules of Stacked Borrows would allow none of the reads through the first one. *)
Definition ex_nops_bad : list nop := ex_nops ++
  [NAct 0 (NRetag 19 true [(false, MkBlock 4104 8)]); NAct 0 (NRetag 19 true [(false, MkBlock 4104 8)]);
   NAct 0 (NRead 31 (MkBlock 4104 8)); NAct 0 (NRead 32 (MkBlock 4104 8)); NAct 0 (NRead 31 (MkBlock 4104 4)); NAct 0 (NWrite 32 (MkBlock 4104 4));
   NAct 0 (NRead 31 (MkBlock 4108 4)); NAct 0 (NRead 31 (MkBlock 4104 4)); NAct 0 (NRetag 19 false [(false, MkBlock 4104 8)]); NAct 0 (NWrite 33 (MkBlock 4104 1));
   NAct 0 (NWrite 19 (MkBlock 4104 8)); NAct 0 (NRead 33 (MkBlock 4104 1)); NAct 1 (NWrite 24 (MkBlock 4112 8))].

Example ex_nops_bad_run : map snd (skipn (length ex_nops) (snd (nrun (x64 false) ex_hd (nnew ex_hd ex_st false) ex_nops_bad))) =
  [NTag 31; NTag 32; NDone; NDone; NDone; NDone; NDone; NUB; NTag 33; NUB; NDone; NUB; NDone].
Proof. vm_compute. reflexivity. Qed.

(** A variable: no reset while a thread is in a call; after it, the references and blocks are gone. *)
Definition ex_nops_reset : list nop :=
  [NShare None; NInvoke 7 0 CLevel URaw false; NReset; NStep 7; NStep 7; NStep 7; NReset; NInvoke 7 0 CLevel URaw false;
   NShare None; NShare (Some 0%nat); NInvoke 7 1 (CAlloc ex_u16) UBoxed false] ++ map (fun _ => NStep 7) (seq 0 10) ++ [NReset; NShare None; NInvoke 8 0 (CGet ex_u64) ULeak true] ++ map (fun _ => NStep 8) (seq 0 12).

Example ex_nops_reset_ok : Forall (nop_ok (x64 false)) ex_nops_reset.
Proof.
  destruct ex_layouts_ok as (A & B & _). unfold ex_nops_reset. cbn [seq flat_map map app]. repeat apply Forall_cons; try apply Forall_nil; try exact Logic.I; first [exact A|apply B].
Qed.

Example ex_nops_reset_run : map snd (filter not_nmore (snd (nrun (x64 false) ex_hd (nnew ex_hd ex_st true) ex_nops_reset))) =
  [NDone; NInvalid; NReturn CLevel (RLevel 0) None; NDone; NInvalid; NDone; NDone; NReturn (CAlloc ex_u16) (RBlock (MkAlloc 4100 3)) (Some 14%nat);
   NDone; NDone; NReturn (CGet ex_u64) (RBlock (MkAlloc 4104 13)) (Some 29%nat); NInvalid].
Proof. vm_compute. reflexivity. Qed.

(** The hypotheses of [C106_calls_return] for thread 2 of [ex_nops]: its call begins after that of thread 1, and the two step in turn. *)
Example ex_nreturns :
  let pre := [NInvoke 1 0 (CGet ex_u64) ULeak false] in
  let mid := flat_map (fun _ => [NStep 1; NStep 2]) (seq 0 268) in
  Forall (nop_ok (x64 false)) (pre ++ NInvoke 2 0 (CGet ex_u64) ULeak false :: mid) /\
  snd (ntstep (x64 false) ex_hd (fst (nrun (x64 false) ex_hd (nnew ex_hd ex_st false) pre)) (NInvoke 2 0 (CGet ex_u64) ULeak false)) = NMore /\
  8 * size ex_st + 12 <= nsteps 2 mid.
Proof.
  destruct ex_layouts_ok as (A & _). cbv zeta. split; [|split].
  - apply Forall_app. split; [apply Forall_cons; [exact A|constructor]|]. apply Forall_cons; [exact A|]. apply Forall_forall. intros o H.
    apply in_flat_map in H. destruct H as (_ & _ & [<- | [<- | []]]); exact Logic.I.
  - vm_compute. reflexivity.
  - vm_compute. discriminate.
Qed.

(** Which accesses are steps of a client: exactly those through a pointer that the client has to the object, to a part of the object. *)
Theorem C106_client_accesses t hd w k a :
  snd (ntstep t hd w (NAct k a)) <> NInvalid <-> exists o, nth_error (nobjs w) k = Some o /\ nclient_access o a.
Proof.
  cbn [ntstep]. destruct (nth_error (nobjs w) k) as [o|]; [|split; [intros X; now destruct X|intros (o & E & _); discriminate]].
  pose proof (nact_ok_iff o a) as A. destruct (nact_ok o a) eqn:E.
  - split; [intros _; exists o; split; [reflexivity|now apply A]|intros _].
    destruct (tree_act _ a _) as [r|]; [destruct a|]; discriminate.
  - split; [intros X; now destruct X|intros (o' & [= <-] & C); apply A in C; discriminate].
Qed.

Print Assumptions C106_blocks_are_separate.
Print Assumptions C106_library_never_ub.
Print Assumptions C106_plain_programs_never_ub.
Print Assumptions C106_linearizable.
Print Assumptions C106_calls_return.
Print Assumptions C106_client_accesses.
