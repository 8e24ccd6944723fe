(** * Claims about threads that use containers in one shared Bump (C84). *)
From Verif Require Import Base Spec SyncModel SyncSpec SyncProofs PropsSync SyncMemModel SyncMemSpec UninitModel UninitSpec PropsUninit
  RcModel RcSpec RcMemModel RcMemSpec PropsRcMem FixedVecModel FixedVecSpec AllocModel AllocSpec
  FixedVecMemModel FixedVecMemSpec PropsFixedVecMem WorldModel WorldSpec WorldProofs PropsWorld
  ConcModel RelaxedModel RelaxedSpec ThreadsModel ThreadsSpec ThreadsProofs.

(** C84. Threads create boxes, vectors, counted values, slices and plain blocks from one shared Bump, use them, and move them to each other.
    Whatever the schedule (a call may be anywhere in the slab's allocation loop while others allocate from it and use their containers), the
    calls have, in the order in which they return, exactly the results of a sequential program whose objects are independent abstract values
    with no memory at all; the only thing the slab decides is whether there is memory, and where.  The same destructors run in the same
    order. *)
Theorem C84_threads_independent_objects : forall code boom t st m sched,
  valid_target t -> code [] = 0 -> valid_region t st -> Forall (taction_ok t st) sched -> Z.of_nat (length sched) <= usize_max t ->
  let s := trun code (fun b => boom (code b)) t st (tinit m) sched in
  let (a, rs) := awrun code boom t (tgrants s) [] (tops s) in
  rs = map (wname code) (tresults s) /\ Forall2 (same_drops code) (tparts s) a.
Proof.
  intros code boom t st m sched V C0 VR F LN. cbv zeta.
  destruct (trun_ok code boom t st m V C0 VR sched 0 (tinit m) [] (tinv_init code boom t st m VR) F LN) as (a & n & [_ T2 _ _ (N & _ & live & _ & F2 & _) _ _ _ _]).
  rewrite T2. split; [reflexivity|]. eapply Forall2_impl2; [|exact F2]. intros i p q _ R. exact (prel_drops code t N _ p q R).
Qed.
Print Assumptions C84_threads_independent_objects.

(** C84. At any time the containers' memories lie in the slab and do not overlap, so threads never race for a byte; and outside of the slab
    memory is what the threads themselves wrote there. *)
Theorem C84_separate_memories : forall code boom t st m sched,
  valid_target t -> code [] = 0 -> valid_region t st -> Forall (taction_ok t st) sched -> Z.of_nat (length sched) <= usize_max t ->
  let s := trun code (fun b => boom (code b)) t st (tinit m) sched in
  pairwise disjoint (map foot (tparts s)) /\ Forall (fun p => inside (foot p) st) (tparts s) /\
  (forall x, ~ in_block st x -> tmem s x = welse m (tops s) x).
Proof.
  intros code boom t st m sched V C0 VR F LN. cbv zeta.
  destruct (trun_ok code boom t st m V C0 VR sched 0 (tinit m) [] (tinv_init code boom t st m VR) F LN) as (a & n & [_ _ _ _ (N & _ & live & _ & _ & PW & FT) _ _ _ T9]).
  split; [exact PW|]. split; [|exact T9]. apply Forall_forall. intros p Hp. apply In_nth_error in Hp as (i & Hi). intros x X.
  destruct (FT i p x Hi X) as (NN & _). unfold in_block in *. destruct (Z_lt_ge_dec x (start st)), (Z_lt_ge_dec x (start st + size st)); try lia; exfalso; apply NN; lia.
Qed.
Print Assumptions C84_separate_memories.

(** C84. No thread has to wait for another: unless the process was aborted, a thread can always finish the call it is in, and make any call on
    a container it has, by at most four actions of its own, whatever the others have begun and not finished. *)
Theorem C84_threads_never_wait : forall code boom t st m sched i o,
  valid_target t -> code [] = 0 -> valid_region t st -> Forall (taction_ok t st) sched -> Z.of_nat (length sched) < usize_max t ->
  let s := trun code (fun b => boom (code b)) t st (tinit m) sched in
  tdead s = false -> taction_ok t st (TStart i o) ->
  tpend s i = Some o \/ (tpend s i = None /\ forall k, wop_uses o = Some k -> nth_error (towner s) k = Some i) ->
  exists acts, (length acts <= 4)%nat /\ (forall x, In x acts -> x = TStart i o \/ x = TFinish i \/ exists k, x = TAccess i k) /\
    exists e, tlog (trun code (fun b => boom (code b)) t st (tinit m) (sched ++ acts)) = tlog s ++ [e] /\ te_thread e = i /\ te_op e = o.
Proof.
  intros code boom t st m sched i o V C0 VR F LN s AL OK H.
  destruct (trun_inv code boom t st m V C0 VR sched 0 (tinit m) [] (tinv_init code boom t st m VR) F ltac:(cbn; lia)) as (a & T). fold s in T. cbn [Nat.add] in T.
  assert (X : exists acts, (length acts <= 4)%nat /\ (forall x, In x acts -> x = TStart i o \/ x = TFinish i \/ exists k, x = TAccess i k) /\
    exists e, tlog (trun code (fun b => boom (code b)) t st s acts) = tlog s ++ [e] /\ te_thread e = i /\ te_op e = o).
  { destruct H as [P|(P & OW)].
    - destruct (pend_done code boom t st m V VR _ s a i o T AL P) as (ks & LK & E). exists (map (TAccess i) ks ++ [TFinish i]).
      split; [rewrite app_length, map_length; cbn [length]; lia|]. split; [|exact E].
      intros x IN. apply in_app_or in IN as [IN|[<-|[]]]; [|auto]. apply in_map_iff in IN as (k & <- & _). eauto.
    - exact (start_done code boom t st m V C0 VR _ s a i o T AL OK LN P OW). }
  destruct X as (acts & X1 & X2 & e & X3 & X4 & X5). exists acts. split; [exact X1|]. split; [exact X2|]. exists e. unfold trun in *. rewrite fold_left_app. auto.
Qed.
Print Assumptions C84_threads_never_wait.

(** Thread 0 starts to make a vector; thread 1 makes a box and a counted value meanwhile, so that thread 0 has to retry; the last exchange of
    thread 0 succeeds before thread 1 has put its value into its memory.  Thread 0 copies its vector into a slice (for thread 1) while thread 1
    pushes to no avail to thread 0's vector (it does not have it) and changes its box. *)
Definition ex_tsched : list taction :=
  [TStart 0 (WFixedVec ex_u64 2); TStart 1 (WBoxed ex_u32 (u32_bytes 7)); TAccess 1 0; TFinish 1; TAccess 0 1; TStart 1 (WRc ex_u32 (u32_bytes 8)); TAccess 1 1;
   TAccess 1 1; TAccess 0 2; TAccess 0 2; TFinish 0; TStart 0 (WVec 1 (YPush 0 (u64_bytes 11))); TFinish 1; TStart 1 (WVec 1 (YPush 0 (u64_bytes 66)));
   TStart 0 (WVec 1 (YPush 0 (u64_bytes 12))); TStart 0 (WCopySlice 1 0); TAccess 0 3; TAccess 0 3; TStart 1 (WBox 0 (BReplace (u32_bytes 9)));
   TStart 0 (WVec 1 (YPop 0)); TStart 1 (WRcOp 2 (XClone 0)); TFinish 0; TStart 0 (WSliceSet 3 0 (u64_bytes 15)); TSend 0 3 1; TStart 0 (WVec 1 (YPop 0));
   TStart 1 (WSlice 3); TStart 1 (WBox 0 BDeref); TStart 0 (WFixedVec ex_u64 7); TAccess 0 4; TAccess 0 4; TFinish 0; TStart 1 (WRcOp 2 (XStrongCount 0))].
Example C84_nonvacuous :
  Forall (taction_ok (x64 false) ex_world_st) ex_tsched /\
  let s := trun name (fun b => ex_boom_bytes (name b)) (x64 false) ex_world_st (tinit (fun _ => Some 85)) ex_tsched in
  map (fun e => (te_thread e, te_res e)) (tlog s) =
    [(1%nat, WPart 0); (0%nat, WPart 1); (0%nat, WVecAns YOk); (1%nat, WPart 2); (0%nat, WVecAns YOk); (1%nat, WBytes (u32_bytes 7)); (1%nat, WRcAns (ATok 1));
     (0%nat, WPart 3); (0%nat, WOk); (0%nat, WVecAns (YPopped (Some (u64_bytes 12)))); (1%nat, WItems (map u64_bytes [15; 12])); (1%nat, WBytes (u32_bytes 9));
     (0%nat, WNoMem); (1%nat, WRcAns (ANum 2))] /\
  tgrants s = [Some 4100; Some 4128; None; Some 4104; None; None; None; Some 4144; None; None; None; None; None; None] /\ mo (tbase s) = [0; 5; 29; 45; 61].
Proof.
  split.
  - unfold ex_tsched. repeat (apply Forall_cons); [..|apply Forall_nil]; cbn [taction_ok wop_ok]; try exact Logic.I.
    all: repeat match goal with |- _ /\ _ => split end.
    all: try (apply ex_u32_type); try (apply ex_u64_type).
    all: try reflexivity.
    all: vm_compute; congruence.
  - vm_compute. repeat split.
Qed.
(** In the middle of this schedule thread 0 is in a call, and thread 1 is idle and has the box. *)
Example C84_wait_nonvacuous :
  let s := trun name (fun b => ex_boom_bytes (name b)) (x64 false) ex_world_st (tinit (fun _ => Some 85)) (firstn 5 ex_tsched) in
  tdead s = false /\ tpend s 0 = Some (WFixedVec ex_u64 2) /\ tpend s 1 = None /\ towner s = [1%nat].
Proof. vm_compute. repeat split. Qed.
