(** * Claims about levels as stamps, among threads (C94). *)
From Verif Require Import Base Spec BaseFacts SyncModel SyncSpec ConcModel ConcSpec RelaxedModel RelaxedSpec StampSpec StampProofs PropsSync.

(** C94. Whatever the threads do, all allocations ever granted (of at least one byte) form one chain: in the order of the decisions they
    are laid out like the members of one repr(C) struct, each call that named a level named the end of its predecessor, and the
    level of the slab is the end of the last. *)
Theorem C94_one_chain : forall t st sched,
  valid_target t -> valid_region t st -> Forall (valid_action t) sched ->
  let s := sys_run t st sys_init sched in
  stacked st 0 (grants (history s)) (counter s) /\
  reprC (start st) 0 (map g_layout (grants (history s))) (map grant_block (grants (history s))).
Proof.
  intros t st sched Ht Hst Hs. cbv zeta. destruct (stamp_sc t st sched Hs) as (l & A & <- & <-). exact (stamp_chain t st l Ht Hst A).
Qed.
Print Assumptions C94_one_chain.

(** C94. At most one call, of any thread, is ever granted an allocation at a given level. *)
Theorem C94_one_winner_per_level : forall t st sched n m g g' lv,
  valid_target t -> valid_region t st -> Forall (valid_action t) sched ->
  let gs := grants (history (sys_run t st sys_init sched)) in
  nth_error gs n = Some g -> nth_error gs m = Some g' ->
  named_level (g_call g) = Some lv -> named_level (g_call g') = Some lv -> n = m.
Proof.
  intros t st sched n m g g' lv Ht Hst Hs. cbv zeta. destruct (stamp_sc t st sched Hs) as (l & A & <- & _).
  exact (stamp_one_winner t st l n m g g' lv Ht Hst A).
Qed.
Print Assumptions C94_one_winner_per_level.

(** C94. An allocation at a level starts at the first fitting address at or after it, and nothing that any thread got, earlier or
    later, lies between: a thread that allocates at the level of its last allocation extends it. *)
Theorem C94_nothing_in_between : forall t st sched i j c c' l l' a a' lv,
  valid_target t -> valid_region t st -> Forall (valid_action t) sched ->
  let h := history (sys_run t st sys_init sched) in
  In (ERet i c (RBlock a)) h -> call_layout c = Some l -> lsize l <> 0 -> named_level c = Some lv ->
  In (ERet j c' (RBlock a')) h -> call_layout c' = Some l' -> lsize l' <> 0 ->
  first_aligned (start st + lv) (lalign l) (ptr a) /\ alevel a = ptr a + lsize l - start st /\
  ((i = j /\ c = c' /\ a = a') \/ ptr a' + lsize l' <= start st + lv \/ ptr a + lsize l <= ptr a').
Proof.
  intros t st sched i j c c' l l' a a' lv Ht Hst Hs. cbv zeta. destruct (stamp_sc t st sched Hs) as (r & A & <- & _).
  exact (stamp_exclusive t st r i j c c' l l' a a' lv Ht Hst A).
Qed.
Print Assumptions C94_nothing_in_between.

(** C94. Levels never decrease in real time: if a call reported level [a] before another call was made, by whatever threads, the
    second reports at least [a]. *)
Theorem C94_levels_in_real_time : forall t st sched a i c r b,
  valid_target t -> valid_region t st -> Forall (valid_action t) sched ->
  precedes (history (sys_run t st sys_init sched)) a i c r -> event_level (c, r) = Some b -> a <= b.
Proof. exact stamp_real_time. Qed.
Print Assumptions C94_levels_in_real_time.

(** C94. A call at a level known from before fails with a mismatch only if some thread was granted an allocation meanwhile: the level
    observed is greater, and the end of an allocation that was granted. *)
Theorem C94_mismatch_means_progress : forall t st sched i c lv o,
  valid_target t -> valid_region t st -> Forall (valid_action t) sched ->
  let h := history (sys_run t st sys_init sched) in
  In (ERet i c (RFail (Mismatch o))) h -> named_level c = Some lv ->
  o <> lv /\ level_of_grant o (grants h) /\ (precedes h lv i c (RFail (Mismatch o)) -> lv < o).
Proof.
  intros t st sched i c lv o Ht Hst Hs. cbv zeta. intros H1 N1. pose proof (stamp_real_time t st sched lv i c (RFail (Mismatch o)) o Ht Hst Hs) as RT.
  destruct (stamp_sc t st sched Hs) as (r & A & E & _). rewrite <- E in *.
  destruct (stamp_mismatch t st r i c lv o Ht Hst A H1 N1) as (B1 & B2 & _). split; [exact B1|]. split; [exact B2|].
  intros P. specialize (RT P eq_refl). lia.
Qed.
Print Assumptions C94_mismatch_means_progress.

(** C94. The same with relaxed accesses, where "known from before" means to the same thread. *)
Theorem C94_relaxed : forall t st sched,
  valid_target t -> valid_region t st -> Forall (valid_raction t) sched ->
  let h := rhistory (rrun t st rinit sched) in
  stacked st 0 (grants h) (latest (rrun t st rinit sched)) /\
  (forall n m g g' lv, nth_error (grants h) n = Some g -> nth_error (grants h) m = Some g' ->
     named_level (g_call g) = Some lv -> named_level (g_call g') = Some lv -> n = m) /\
  (forall i c lv o, In (ERet i c (RFail (Mismatch o))) h -> named_level c = Some lv ->
     o <> lv /\ level_of_grant o (grants h) /\ (learned_before i lv c (RFail (Mismatch o)) h -> lv < o)).
Proof.
  intros t st sched Ht Hst Hs. cbv zeta. split; [apply (stamp_chain t st sched Ht Hst Hs)|]. split.
  - intros n m g g' lv. exact (stamp_one_winner t st sched n m g g' lv Ht Hst Hs).
  - intros i c lv o. exact (stamp_mismatch t st sched i c lv o Ht Hst Hs).
Qed.
Print Assumptions C94_relaxed.

(** Threads 0 and 1 both learn level 3 and both try to extend; thread 1 wins, thread 0 sees 13 and extends that. *)
Definition ex_race : list action :=
  [Invoke 0 (CAlloc ex_u16); Access 0; Return 0; Invoke 1 CLevel; Access 1; Return 1;
   Invoke 0 (CAllocAt ex_u64 3); Invoke 1 (CGetAt ex_u64 3); Access 1; Access 0; Return 0; Return 1;
   Invoke 0 (CAllocAt ex_u16 13); Access 0; Return 0].
Example C94_nonvacuous :
  let h := history (sys_run (x64 false) ex_st sys_init ex_race) in
  map grant_block (grants h) = [MkBlock 4100 2; MkBlock 4104 8; MkBlock 4112 2] /\
  In (ERet 0 (CAllocAt ex_u64 3) (RFail (Mismatch 13))) h /\ In (ERet 0 (CAllocAt ex_u16 13) (RBlock (MkAlloc 4112 15))) h /\
  precedes h 3 0 (CAllocAt ex_u64 3) (RFail (Mismatch 13)).
Proof.
  vm_compute. split; [reflexivity|]. split; [tauto|]. split; [tauto|].
  eexists [_; _], 0%nat, _, _, [_; _; _], [_; _; _], _. split; [reflexivity|]. split; [|reflexivity].
  intros c r [[=]|[[=]|[[=]|[]]]].
Qed.
Example ex_race_ok : Forall (valid_action (x64 false)) ex_race.
Proof.
  destruct ex_layouts_ok as (H1 & H2 & H3). unfold ex_race.
  repeat (constructor; [first [exact I | split; [|reflexivity]; first [exact I | exact (proj1 H2) | split; [first [exact (proj1 H1)|exact H1|exact (proj1 H2)]|vm_compute; split; congruence]]]|]).
  constructor.
Qed.
