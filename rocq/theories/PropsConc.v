(** * Claims about concurrent use of one [Bump] (C02, C08, C10, C73). *)
From Verif Require Import Base Spec BaseFacts SyncModel SyncSpec ConcModel ConcSpec ConcProofs.
From Verif Require Import RelaxedModel RelaxedSpec RelaxedProofs PropsSync.

(** Two threads fight for the same slab: thread 1 overtakes thread 0, whose first exchange fails; thread 2
    asks for more than there is. *)
Definition ex_sched : list action :=
  [Invoke 0 (CAlloc ex_u64); Invoke 1 (CAlloc ex_u16); Access 1; Invoke 2 (CGet (MkLayout 64 8)); Access 0;
   Return 1; Invoke 1 (CGet ex_u16); Access 1; Access 1; Access 0; Access 2; Access 0; Return 0; Return 1;
   Return 2].

Example ex_sched_ok : Forall (valid_action (x64 false)) ex_sched.
Proof.
  destruct ex_layouts_ok as (H1 & H2 & H3).
  assert (type_layout (x64 false) (MkLayout 64 8)) as H4.
  { repeat split; try (vm_compute; congruence); [exists 3; split; [lia|reflexivity]|exists 8; reflexivity]. }
  unfold ex_sched.
  repeat (constructor; [first [exact I | split; [|reflexivity]; first [exact H1|exact H2|exact H4|exact (proj1 H1)|exact (proj1 H2)]]|]).
  constructor.
Qed.

(** C02. Whatever the schedule and the number of threads, blocks returned to clients are aligned, in
    bounds, of the requested size, and pairwise disjoint. *)
Theorem C02_concurrent_blocks_good_and_disjoint : forall t st sched,
  valid_target t -> valid_region t st -> Forall (valid_action t) sched ->
  let h := history (sys_run t st sys_init sched) in
  (forall i c a l, In (ERet i c (RBlock a)) h -> call_layout c = Some l -> good_block st l (ptr a)) /\
  pairwise disjoint (returned_blocks h).
Proof. exact conc_blocks_sound. Qed.
Print Assumptions C02_concurrent_blocks_good_and_disjoint.

Example C02_nonvacuous :
  returned_blocks (history (sys_run (x64 false) ex_st sys_init ex_sched)) =
  [MkBlock 4100 2; MkBlock 4104 8; MkBlock 4102 2].
Proof. reflexivity. Qed.

(** C08. A call is decided after at most size + 1 of its own accesses, and after at most two more accesses
    than there are successful allocations (by other threads) while it runs. *)
Theorem C08_alloc_is_wait_free : forall t st pre i c mid,
  valid_target t -> valid_region t st ->
  Forall (valid_action t) (pre ++ Invoke i c :: mid) ->
  returns i mid = 0 ->
  let s0 := sys_run t st sys_init pre in
  let s1 := sys_run t st sys_init (pre ++ Invoke i c :: mid) in
  threads s0 i = Idle ->
  (size st + 1 <= accesses i mid \/
   successes (history s1) - successes (history s0) + 2 <= accesses i mid) ->
  decided (threads s1 i).
Proof. exact conc_wait_free. Qed.
Print Assumptions C08_alloc_is_wait_free.

(** Thread 0 indeed needs three accesses in the example: it is overtaken twice, and both bounds are
    about to be met. *)
Example C08_nonvacuous :
  let mid := firstn 11 (tl ex_sched) in
  threads (sys_run (x64 false) ex_st sys_init (firstn 10 ex_sched)) 0%nat = Running (CAlloc ex_u64) 5 /\
  threads (sys_run (x64 false) ex_st sys_init (Invoke 0 (CAlloc ex_u64) :: mid)) 0%nat =
    Done (CAlloc ex_u64) (RBlock (MkAlloc 4104 13)) /\
  accesses 0 mid = 3 /\
  successes (history (sys_run (x64 false) ex_st sys_init (firstn 10 ex_sched))) = 2.
Proof. repeat split; reflexivity. Qed.

(** C10. Every concurrent history is linearizable with respect to the sequential slab of PropsSync. *)
Theorem C10_bump_is_linearizable : forall t st sched,
  valid_target t -> valid_region t st -> Forall (valid_action t) sched ->
  linearizable t st (filter visible (history (sys_run t st sys_init sched))).
Proof. exact conc_linearizable. Qed.
Print Assumptions C10_bump_is_linearizable.

Example C10_nonvacuous :
  filter visible (history (sys_run (x64 false) ex_st sys_init ex_sched)) =
  [EInv 0 (CAlloc ex_u64); EInv 1 (CAlloc ex_u16); EInv 2 (CGet (MkLayout 64 8));
   ERet 1 (CAlloc ex_u16) (RBlock (MkAlloc 4100 3)); EInv 1 (CGet ex_u16);
   ERet 0 (CAlloc ex_u64) (RBlock (MkAlloc 4104 13));
   ERet 1 (CGet ex_u16) (RBlock (MkAlloc 4102 5)); ERet 2 (CGet (MkLayout 64 8)) RNone].
Proof. reflexivity. Qed.

(** C73. With all accesses weakened to Relaxed: the blocks are still good and pairwise disjoint and every
    thread still sees non-decreasing levels. *)
Theorem C73_relaxed_blocks_good_and_disjoint : forall t st sched,
  valid_target t -> valid_region t st -> Forall (valid_raction t) sched ->
  let h := rhistory (rrun t st rinit sched) in
  (forall i c a l, In (ERet i c (RBlock a)) h -> call_layout c = Some l -> good_block st l (ptr a)) /\
  pairwise disjoint (returned_blocks h) /\
  (forall i, nondecreasing (thread_levels i h)).
Proof. exact relaxed_sound. Qed.
Print Assumptions C73_relaxed_blocks_good_and_disjoint.

(** C73. ... every decision of [alloc] (success, place, failure) is the one of the sequential slab at the
    newest level, stale reads notwithstanding: no spurious failure. *)
Theorem C73_relaxed_decisions_exact : forall t st sched i k c g r,
  valid_target t -> valid_region t st -> Forall (valid_raction t) sched ->
  let s := rrun t st rinit sched in
  rthreads s i = Running c g -> rthreads (rstep t st s (RAccess i k)) i = Done c r ->
  let seq := snd (step t {| storage := st; consumed := latest s |} c) in
  (forall l, c = CAlloc l \/ (c = CGet l /\ 0 < lsize l) -> r = seq) /\
  (forall a, r = RBlock a -> (forall l, call_layout c = Some l -> 0 < lsize l) -> r = seq) /\
  (forall msg, r = RPanic msg -> r = seq) /\
  (r = RFail Exhausted -> r = seq).
Proof. exact relaxed_exact. Qed.
Print Assumptions C73_relaxed_decisions_exact.

(** C73. ... and the loop is still wait-free: reading the newest write is always possible, and after
    size + 1 performed accesses the call is decided whatever stale values it read. *)
Theorem C73_relaxed_nonblocking : forall t st sched i c g,
  valid_target t -> valid_region t st -> Forall (valid_raction t) sched ->
  let s := rrun t st rinit sched in
  rthreads s i = Running c g -> can_access t st s i (length (mo s) - 1) = true.
Proof. exact relaxed_nonblocking. Qed.
Print Assumptions C73_relaxed_nonblocking.

Theorem C73_relaxed_wait_free : forall t st pre i c mid,
  valid_target t -> valid_region t st ->
  Forall (valid_raction t) (pre ++ RInvoke i c :: mid) ->
  rreturns i mid = 0 ->
  let s0 := rrun t st rinit pre in
  rthreads s0 i = Idle ->
  size st + 1 <= performed t st (rstep t st s0 (RInvoke i c)) i mid ->
  decided (rthreads (rrun t st rinit (pre ++ RInvoke i c :: mid)) i).
Proof. exact relaxed_wait_free. Qed.
Print Assumptions C73_relaxed_wait_free.

(** Thread 0 allocates twice; thread 1 then reads the stale level 3 although the counter is 5 already, its
    exchange at the stale level observes another stale value, and only then it succeeds. *)
Definition ex_rsched : list raction :=
  [RInvoke 0 (CAlloc ex_u16); RAccess 0 0; RReturn 0; RInvoke 0 (CAlloc ex_u16); RAccess 0 1;
   RAccess 0 1; RReturn 0; RInvoke 1 CLevel; RAccess 1 0; RReturn 1;
   RInvoke 1 (CAlloc ex_u64); RAccess 1 1; RAccess 1 2; RAccess 1 2; RReturn 1].
Example C73_nonvacuous :
  let s := rrun (x64 false) ex_st rinit ex_rsched in
  mo s = [0; 3; 5; 13] /\
  returned_blocks (rhistory s) = [MkBlock 4100 2; MkBlock 4102 2; MkBlock 4104 8] /\
  thread_levels 1 (rhistory s) = [0; 13] /\ thread_levels 0 (rhistory s) = [3; 5].
Proof. repeat split; reflexivity. Qed.
