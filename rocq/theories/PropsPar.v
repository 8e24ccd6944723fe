(** * PropsPar: a Bump as the allocator of a program with threads (C97). *)
From Verif Require Import Base Spec BaseFacts SyncModel SyncSpec SyncProofs PropsSync SyncMemModel SyncMemSpec HeapSpec
  ConcModel RelaxedModel RelaxedSpec ConcMemModel ConcMemSpec ConcMemProofs ParModel ParSpec ParProofs.

(** C97. Threads allocate (zeroed or not), reallocate and free blocks of one shared Bump through GlobalAlloc, store to and load from their
    blocks, and give them to each other.  Whatever the schedule (other threads run between any two accesses to the counter and between
    any two bytes that alloc_zeroed or realloc write), the calls, in the order in which they return, have the effects and results of the ideal
    heap, where each block is an array of its own: a new block is what was asked for, zeroed if so asked; realloc keeps the address iff the
    block does not grow and always keeps the contents; a refused realloc leaves the block as it was; a load gives what was stored.  A
    request is refused only if there is no room for it (at that time, hence ever after). *)
Theorem C97_concurrent_ideal_heap : forall t st m sched,
  valid_target t -> valid_region t st -> Forall (paraction_ok t) sched ->
  let s := parrun t st (parinit m) sched in
  exists A, par_ideals t (fun l => ~ fits_in st (latest (cbase (pcs s))) l) [] (plog s) A /\
    pairwise disjoint (map pa_block (pa_lives A)) /\
    Forall (fun a => inside (pa_block a) st /\ aligned (pa_addr a) (lalign (pa_lay a)) /\ Z.of_nat (length (pa_data a)) = lsize (pa_lay a)) (pa_lives A).
Proof.
  intros t st m sched V VR F. cbv zeta. destruct (parinv_run t st m V VR sched _ _ F (parinv_init t st m VR)) as (A & I). exists A.
  split; [apply (pv_log _ _ _ _ _ I)|]. destruct (parinv_blocks _ _ _ _ _ I) as (B1 & B2). split; [exact B1|].
  eapply Forall_impl; [|exact B2]. intros a (Q1 & Q2 & _ & _ & Q5). auto.
Qed.
Print Assumptions C97_concurrent_ideal_heap.

(** C97. The program and the allocator together have no data races: also the zeroing of alloc_zeroed and the copying of realloc are ordered
    with all conflicting accesses by program order and the hand-overs of the program alone; and no byte outside of the slab changes. *)
Theorem C97_no_data_races : forall t st m sched,
  valid_target t -> valid_region t st -> Forall (paraction_ok t) sched ->
  let s := parrun t st (parinit m) sched in
  race_free (ctoks (pcs s)) (ctrace (pcs s)) /\ (forall x, ~ in_block st x -> cmem (pcs s) x = m x).
Proof.
  intros t st m sched V VR F. cbv zeta. destruct (parinv_run t st m V VR sched _ _ F (parinv_init t st m VR)) as (A & I). split.
  - apply (conc_race_free t st m). apply (pv_c _ _ _ _ _ I).
  - exact (ci_mem _ _ _ _ (pv_c _ _ _ _ _ I)).
Qed.
Print Assumptions C97_no_data_races.

(** C97. No thread waits for another: at any time a thread can finish the call it is in, and make any call about a block it has, by actions of
    its own, at most as many as the slab has bytes and five more, whatever the others have begun and not finished. *)
Theorem C97_never_waits : forall t st m sched i o,
  valid_target t -> valid_region t st -> Forall (paraction_ok t) sched ->
  let s := parrun t st (parinit m) sched in
  exists A, par_ideals t (fun l => ~ fits_in st (latest (cbase (pcs s))) l) [] (plog s) A /\
  (par_busy (pphase s i) = Some o \/ (pphase s i = PIdle /\ parop_ok t o /\ par_legal A i o) ->
   exists acts, Z.of_nat (length acts) <= size st + 5 /\ (forall a, In a acts -> a = PStart i o \/ a = PWork i \/ exists k, a = PAccess i k) /\
     exists e, plog (parrun t st (parinit m) (sched ++ acts)) = plog s ++ [e] /\ pe_thread e = i /\ pe_op e = o).
Proof.
  intros t st m sched i o V VR F. cbv zeta. destruct (parinv_run t st m V VR sched _ _ F (parinv_init t st m VR)) as (A & I). exists A.
  split; [apply (pv_log _ _ _ _ _ I)|]. intros H.
  assert (X : exists acts, Z.of_nat (length acts) <= size st + 5 /\ (forall a, In a acts -> a = PStart i o \/ mine i a) /\ finishes t st (parrun t st (parinit m) sched) i o acts).
  { destruct H as [B|(PH & OK & LG)]; [|exact (start_done t st m V VR _ A i o I OK PH LG)].
    destruct (busy_done t st m V VR _ A i o I B) as (acts & L & M & FI). exists acts. split; [lia|]. split; [|exact FI]. rewrite Forall_forall in M. auto. }
  destruct X as (acts & L & M & e & FI). exists acts. split; [exact L|]. split; [exact M|]. exists e. unfold parrun in *. rewrite fold_left_app. exact FI.
Qed.
Print Assumptions C97_never_waits.

(** Thread 0 asks for two bytes while thread 1 asks for eight zeroed ones, and has to retry; thread 0 stores to its block and, between the
    zeros that thread 1 writes, grows it (the new block is next to thread 1's), which interleaves with thread 1's use of its own; it gives the
    block to thread 1, which shrinks it in place; a block for which there is no room is refused, and so is growing one. *)
Definition ex_par : list paraction :=
  [PStart 1 (PZeroed (MkLayout 4 4)); PStart 0 (PAlloc ex_u16); PAccess 0 0; PAccess 1 1; PWork 0; PAccess 1 1; PWork 1; PWork 1;
   PStart 0 (PStore 0 0 [Some 5; Some 6]); PStart 0 (PRealloc 0 5); PWork 1; PAccess 0 1; PAccess 0 2; PAccess 0 2; PWork 0; PWork 0; PWork 1; PWork 1; PWork 1;
   PStart 1 (PStore 1 1 [Some 9]); PWork 0; PWork 0; PStart 0 (PStore 2 4 [Some 7]); PStart 1 (PLoad 2); PStart 0 (PLoad 2); PStart 0 (PSend 2 1);
   PStart 1 (PRealloc 2 2); PStart 1 (PLoad 3); PStart 1 (PLoad 1); PStart 0 (PAlloc (MkLayout 20 1)); PAccess 0 3; PWork 0; PAccess 0 3; PWork 0;
   PStart 1 (PRealloc 3 30); PAccess 1 3; PAccess 1 3; PWork 1; PStart 1 (PLoad 3); PStart 1 (PDealloc 3); PStart 1 (PRealloc 1 0)].
Example C97_nonvacuous :
  Forall (paraction_ok (x64 false)) ex_par /\
  let s := parrun (x64 false) ex_st (parinit (fun _ => Some 85)) ex_par in
  map (fun e => (pe_thread e, pe_ans e)) (plog s) =
    [(0%nat, PBlock 4100); (0%nat, PUnit); (1%nat, PBlock 4104); (1%nat, PUnit); (0%nat, PBlock 4108); (0%nat, PUnit);
     (0%nat, PBytes [Some 5; Some 6; Some 85; Some 85; Some 7]); (0%nat, PUnit); (1%nat, PBlock 4108); (1%nat, PBytes [Some 5; Some 6]);
     (1%nat, PBytes [Some 0; Some 9; Some 0; Some 0]); (0%nat, PNull); (1%nat, PNull); (1%nat, PBytes [Some 5; Some 6]); (1%nat, PUnit); (1%nat, PPanicked P_layout_unwrap)] /\
  mo (cbase (pcs s)) = [0; 3; 9; 14].
Proof.
  split.
  - destruct ex_layouts_ok as (H1 & H2 & _). unfold ex_par. repeat (apply Forall_cons); [..|apply Forall_nil]; cbn [paraction_ok parop_ok]; try exact Logic.I; try (apply H1); try (apply H2).
    all: try (vm_compute; split; congruence).
    + split; [cbn; lia|]. split; [exists 2; split; [lia|reflexivity]|]. split; vm_compute; congruence.
    + split; [cbn; lia|]. split; [exists 0; split; [lia|reflexivity]|]. split; vm_compute; congruence.
  - vm_compute. repeat split.
Qed.
(** In the middle of this schedule thread 0 copies and thread 1 writes zeros. *)
Example C97_wait_nonvacuous :
  let s := parrun (x64 false) ex_st (parinit (fun _ => Some 85)) (firstn 16 ex_par) in
  pphase s 0%nat = PCopying (PRealloc 0 5) 2 4108 (MkLayout 5 2) 1 /\ pphase s 1%nat = PZeroing (PZeroed (MkLayout 4 4)) 1 4104 (MkLayout 4 4) 2.
Proof. vm_compute. split; reflexivity. Qed.
