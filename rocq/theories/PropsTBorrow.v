(** * PropsTBorrow: threads that share a Bump follow the aliasing rules (Stacked Borrows), in any order of their steps. *)
From Verif Require Import Base Spec BaseFacts SyncModel SyncSpec SyncProofs ConcModel ConcSpec ConcProofs BorrowModel BorrowSpec BorrowProofs BorrowState BorrowWorld TBorrowModel TBorrowSpec TBorrowWp TBorrowStep TBorrowWorld BorrowLocal TBorrowLocal PropsSync PropsBorrow.

(** Whatever threads do with a Bump, and however the scheduler orders their steps: all answers are those of a program whose blocks are
    separate allocations. *)
Theorem C105_blocks_are_separate t hd st own os : valid_target t -> bump_place t hd st -> Forall (top_ok t) os ->
  exists j, jruns t st (jdeal_new own) (snd (trun t hd (tnew hd st own) os)) j.
Proof.
  intros Ht (V & D & _) F. destruct (tnew_run t hd st Ht D own os V F) as (s & -> & _). cbn [snd]. destruct (trun_inv t hd st Ht D own os _ _ _ (tnew_inv t hd st own V) F) as (j & q & R & _). eauto.
Qed.

(** The library itself has no undefined behaviour, in any step of any call of any thread. *)
Theorem C105_library_never_ub t hd st own os : valid_target t -> bump_place t hd st -> Forall (top_ok t) os ->
  forall o r, In (o, r) (snd (trun t hd (tnew hd st own) os)) -> is_ub r = true -> exists k a, o = TPlain (BAct k a).
Proof.
  intros Ht P F. destruct (C105_blocks_are_separate t hd st own os Ht P F) as (j & R). exact (jruns_ub t st _ _ _ R).
Qed.

(** Threads that read and write through the pointers they got, while other threads allocate, have no undefined behaviour. *)
Theorem C105_plain_programs_never_ub t hd st own os : valid_target t -> bump_place t hd st -> Forall (top_ok t) os -> Forall tplain os ->
  forall o r, In (o, r) (snd (trun t hd (tnew hd st own) os)) -> is_ub r = false.
Proof.
  intros Ht P F Pl. destruct (C105_blocks_are_separate t hd st own os Ht P F) as (j & R). apply (jruns_plain t st _ _ _ R); [constructor|].
  rewrite <- (trun_fst t hd os (tnew hd st own)) in Pl. rewrite Forall_map in Pl. exact Pl.
Qed.

(** The calls of the threads are linearizable, with all of the steps that make references and write values in between. *)
Theorem C105_linearizable t hd st own os : valid_target t -> bump_place t hd st -> Forall (top_ok t) os -> Forall no_reset os ->
  linearizable t st (seen (snd (trun t hd (tnew hd st own) os))).
Proof.
  intros Ht (V & D & _) F N. destruct (tnew_run t hd st Ht D own os V F) as (s & -> & _). cbn [snd]. destruct (trun_inv t hd st Ht D own os _ _ _ (tnew_inv t hd st own V) F) as (j & q & _ & _ & H).
  destruct (H N) as (sched & Va & -> & E). cbn [history sys_init hist rev filter app] in E. rewrite <- E. apply conc_linearizable; auto.
Qed.

(** Every call returns, whatever the other threads do: after at most [8 * size + 12] of its own steps. *)
Theorem C105_calls_return t hd st own pre i k c u mid : valid_target t -> bump_place t hd st -> Forall (top_ok t) (pre ++ TInvoke i k c u :: mid) ->
  let w := fst (trun t hd (tnew hd st own) pre) in
  snd (tstep t hd w (TInvoke i k c u)) = TMore ->
  8 * size st + 12 <= steps i mid ->
  exists x tag, In (TStep i, TReturn c x tag) (snd (trun t hd (fst (tstep t hd w (TInvoke i k c u))) mid)).
Proof.
  intros Ht (V & D & _) F w0 E L. apply Forall_app in F. destruct F as [F1 F2]. inversion F2 as [|? ? F3 F4]; subst.
  destruct (tnew_run t hd st Ht D own pre V F1) as (s & R0 & G & A). unfold w0 in *. clear w0. rewrite R0 in *. cbn [fst] in *.
  destruct (trun_inv t hd st Ht D own pre _ _ _ (tnew_inv t hd st own V) F1) as (j & q & _ & R & _). set (w := fst (trun t hd (twide st own) pre)) in *.
  destruct (tstep_local t hd st Ht own w j q (TInvoke i k c u) s R A G) as (s1 & E1 & G1). rewrite E1 in *. cbn [fst snd] in *.
  destruct (invoked t hd st Ht D own w j q i k c u R F3 E) as (j' & q' & r & n & R' & El & <- & Wn & R1 & Le).
  destruct (trun_local t hd st Ht D own mid F4 _ j' q' s1 R' (fields_kept t hd st own w j q _ R A) G1) as (s2 & E2 & _). rewrite E2. cbn [snd].
  destruct (calls_end t hd st Ht D own i mid _ j' q' r n (8 * size st + 11) R' F4 El Wn R1 Le) as (x & tag & In_); [lia|]. eauto.
Qed.

(** ** The hypotheses can be met *)

(** Two threads step in turn: both call [leak] of a u64, and the exchange of thread 2 fails and is repeated.  Then both write to their values. *)
Definition ex_tops : list top :=
  [TInvoke 1 0 (CGet ex_u64) ULeak; TInvoke 2 0 (CGet ex_u64) ULeak] ++
  flat_map (fun _ => [TStep 1; TStep 2]) (seq 0 11) ++
  [TPlain (BAct 0 (CWrite 18 (MkBlock 4104 8)))] ++ map (fun _ => TStep 2) (seq 0 6) ++
  [TPlain (BAct 0 (CRead 18 (MkBlock 4104 8))); TInvoke 1 0 (CAllocAt ex_u16 21) URaw; TPlain (BAct 1 (CWrite 23 (MkBlock 4112 8)))] ++ map (fun _ => TStep 1) (seq 0 7) ++
  [TPlain (BAct 2 (CWrite 27 (MkBlock 4120 2))); TPlain (BAct 0 (CWrite 18 (MkBlock 4104 8)))].

Example ex_tops_ok : Forall (top_ok (x64 false)) ex_tops /\ Forall tplain ex_tops /\ Forall no_reset ex_tops.
Proof.
  destruct ex_layouts_ok as (A & B & _). split; [|split].
  - unfold ex_tops. cbn [seq flat_map map app]. repeat apply Forall_cons; try apply Forall_nil; cbn [top_ok valid_call]; auto.
    split; [apply B|]. unfold is_usize, usize_max, addr_space. cbn. lia.
  - unfold ex_tops. cbn [seq flat_map map app]. repeat apply Forall_cons; try apply Forall_nil; exact Logic.I.
  - unfold ex_tops. cbn [seq flat_map map app]. repeat apply Forall_cons; try apply Forall_nil; discriminate.
Qed.

Definition not_more (p : top * tanswer) : bool := match snd p with TMore => false | _ => true end.

Example ex_tops_run : filter not_more (snd (trun (x64 false) ex_hd (tnew ex_hd ex_st false) ex_tops)) =
  [(TStep 1, TReturn (CGet ex_u64) (RBlock (MkAlloc 4104 13)) (Some 18%nat));
   (TPlain (BAct 0 (CWrite 18 (MkBlock 4104 8))), TAnswer BDone);
   (TStep 2, TReturn (CGet ex_u64) (RBlock (MkAlloc 4112 21)) (Some 23%nat));
   (TPlain (BAct 0 (CRead 18 (MkBlock 4104 8))), TAnswer BDone);
   (TPlain (BAct 1 (CWrite 23 (MkBlock 4112 8))), TAnswer BDone);
   (TStep 1, TReturn (CAllocAt ex_u16 21) (RBlock (MkAlloc 4120 23)) (Some 27%nat));
   (TPlain (BAct 2 (CWrite 27 (MkBlock 4120 2))), TAnswer BDone); (TPlain (BAct 0 (CWrite 18 (MkBlock 4104 8))), TAnswer BDone)].
Proof. vm_compute. reflexivity. Qed.

Example ex_tops_seen : seen (snd (trun (x64 false) ex_hd (tnew ex_hd ex_st false) ex_tops)) =
  [EInv 1 (CGet ex_u64); EInv 2 (CGet ex_u64); ERet 1 (CGet ex_u64) (RBlock (MkAlloc 4104 13)); ERet 2 (CGet ex_u64) (RBlock (MkAlloc 4112 21));
   EInv 1 (CAllocAt ex_u16 21); ERet 1 (CAllocAt ex_u16 21) (RBlock (MkAlloc 4120 23))].
Proof. vm_compute. reflexivity. Qed.

(** A thread that uses the reference of another one by a copy of its tag: the second writer makes a new reference, which ends the first
    one's -- undefined behaviour of the client, and the theorem says it is that of the client alone. *)
Definition ex_tops_bad : list top := ex_tops ++
  [TPlain (BAct 0 (CRetag 18 [(RUnique, MkBlock 4104 8)] None)); TPlain (BAct 0 (CWrite 18 (MkBlock 4104 8))); TPlain (BAct 0 (CRead 30 (MkBlock 4104 8)))].

Example ex_tops_bad_run : filter (fun p => is_ub (snd p)) (snd (trun (x64 false) ex_hd (tnew ex_hd ex_st false) ex_tops_bad)) =
  [(TPlain (BAct 0 (CRead 30 (MkBlock 4104 8))), TAnswer BUB)].
Proof. vm_compute. reflexivity. Qed.

(** A variable: no reset while a thread is in a call; after it, the references and blocks are gone. *)
Definition ex_tops_reset : list top :=
  [TPlain (BShare None); TInvoke 7 0 CLevel URaw; TPlain BReset; TStep 7; TStep 7; TStep 7; TPlain BReset; TInvoke 7 0 CLevel URaw;
   TPlain (BShare None); TInvoke 7 0 (CAlloc ex_u16) UBoxed] ++ map (fun _ => TStep 7) (seq 0 10).

Example ex_tops_reset_run : map snd (filter not_more (snd (trun (x64 false) ex_hd (tnew ex_hd ex_st true) ex_tops_reset))) =
  [TAnswer BDone; TInvalid; TReturn CLevel (RLevel 0) None; TAnswer BDone; TInvalid; TAnswer BDone; TReturn (CAlloc ex_u16) (RBlock (MkAlloc 4100 3)) (Some 13%nat)].
Proof. vm_compute. reflexivity. Qed.

(** The hypotheses of [C105_calls_return] for thread 2 of [ex_tops]: its call begins after that of thread 1, and the two step in turn. *)
Example ex_returns :
  let pre := [TInvoke 1 0 (CGet ex_u64) ULeak] in
  let mid := flat_map (fun _ => [TStep 1; TStep 2]) (seq 0 268) in
  Forall (top_ok (x64 false)) (pre ++ TInvoke 2 0 (CGet ex_u64) ULeak :: mid) /\
  snd (tstep (x64 false) ex_hd (fst (trun (x64 false) ex_hd (tnew ex_hd ex_st false) pre)) (TInvoke 2 0 (CGet ex_u64) ULeak)) = TMore /\
  8 * size ex_st + 12 <= steps 2 mid.
Proof.
  destruct ex_layouts_ok as (A & _). cbv zeta. split; [|split].
  - apply Forall_app. split; [apply Forall_cons; [exact A|constructor]|]. apply Forall_cons; [exact A|]. apply Forall_forall. intros o H.
    apply in_flat_map in H. destruct H as (_ & _ & [<- | [<- | []]]); exact Logic.I.
  - vm_compute. reflexivity.
  - vm_compute. discriminate.
Qed.

Print Assumptions C105_blocks_are_separate.
Print Assumptions C105_library_never_ub.
Print Assumptions C105_plain_programs_never_ub.
Print Assumptions C105_linearizable.
Print Assumptions C105_calls_return.
