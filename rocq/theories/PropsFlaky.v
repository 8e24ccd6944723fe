(** * Claims about platforms where [align_offset] may give up (C91). *)
From Verif Require Import Base Spec BaseFacts SyncModel SyncSpec SyncProofs UnsyncModel UnsyncSpec UnsyncProofs UninitModel ConcModel ConcSpec ConcProofs
  RelaxedModel RelaxedSpec RelaxedProofs FlakyModel FlakySpec FlakyProofs PropsSync PropsConc.

(** C91. Whatever [align_offset] answers within what core promises of it, a call on the [Bump] (or on the single-threaded one) does and says exactly
    what it does when [align_offset] works, or it changes nothing and says that the memory is exhausted. *)
Theorem C91_calls_work_or_refuse : forall t st s c aos,
  valid_target t -> valid_region t st -> reach t st s -> valid_call t c -> (forall k, allowed t (aos k)) ->
  f_step aos t s c = step t s c \/ exists r, refusal c = Some r /\ f_step aos t s c = (s, r).
Proof.
  intros t st s c aos Ht Hst R V A. apply f_step_cases; try assumption. destruct R as (cs & V' & <-).
  exact (proj1 (run_ok t (fresh st) cs Ht (ok_fresh t st Hst) V')).
Qed.
Print Assumptions C91_calls_work_or_refuse.

Theorem C91_unsync_calls_work_or_refuse : forall t d u c ao,
  valid_target t -> valid_region t d -> ureach t d u -> valid_ucall t c -> allowed t ao ->
  f_ustep ao t u c = ustep t u c \/ exists r, urefusal c = Some r /\ f_ustep ao t u c = (u, r).
Proof. intros t d u c ao Ht Hd R V A. apply f_ustep_cases; try assumption. exact (proj1 (ureach_ok t d u Ht Hd R)). Qed.
Print Assumptions C91_unsync_calls_work_or_refuse.

(** C91. ... so every history is one of a platform where it works with some refused calls added, and its blocks are good and disjoint. *)
Theorem C91_sequential : forall t st cs,
  valid_target t -> valid_region t st -> Forall (fun p => valid_call t (fst p) /\ forall k, allowed t (snd p k)) cs ->
  let h := snd (f_run t (fresh st) cs) in
  (exists kept, weeded refusal h kept /\ run t (fresh st) (map fst kept) = (fst (f_run t (fresh st) cs), kept)) /\
  pairwise disjoint (blocks_since_reset [] h) /\
  (forall c a l, In (c, RBlock a) h -> call_layout c = Some l -> good_block st l (ptr a)).
Proof.
  intros t st cs Ht Hst F h. destruct (f_run_weeded t cs Ht (fresh st) (ok_fresh t st Hst) F) as (kept & W & R & V). fold h in W.
  destruct (bump_history_sound t st (map fst kept) Ht Hst V) as (G & D). rewrite R in D, G. cbn [snd] in D, G.
  split; [eauto|]. split.
  - rewrite (weeded_blocks h kept [] W). exact D.
  - intros c a l Hin. apply (G c a l). apply (weeded_in refusal h kept c a); [|exact W|exact Hin]. intros [] a'; cbn; discriminate.
Qed.
Print Assumptions C91_sequential.

Theorem C91_unsync : forall t d cs,
  valid_target t -> valid_region t d -> Forall (fun p => valid_ucall t (fst p) /\ allowed t (snd p)) cs ->
  let h := snd (f_urun t (u_fresh d) cs) in
  (exists kept, weeded urefusal h kept /\ urun t (u_fresh d) (map fst kept) = (fst (f_urun t (u_fresh d) cs), kept)) /\
  pairwise disjoint (ublocks_since_reset [] h) /\
  (forall c a l, In (c, RBlock a) h -> ucall_layout c = Some l -> good_block d l (ptr a)).
Proof.
  intros t d cs Ht Hd F h. destruct (f_urun_weeded t cs Ht (u_fresh d) (uok_fresh t d Hd) F) as (kept & W & R & V). fold h in W.
  destruct (urun_disjoint t (u_fresh d) (map fst kept) [] Ht (uok_fresh t d Hd) V (Forall_nil _) (pairwise_nil disjoint)) as (D & G). rewrite R in D, G. cbn [snd] in D, G.
  split; [eauto|]. split.
  - rewrite (uweeded_blocks h kept [] W). exact D.
  - intros c a l Hin. apply (G c a l). apply (weeded_in urefusal h kept c a); [|exact W|exact Hin]. intros [[]| |] a'; cbn; discriminate.
Qed.
Print Assumptions C91_unsync.

(** C91. ... and so it is for any number of threads, even with all accesses weakened to relaxed ones. *)
Theorem C91_threads : forall t st sched,
  valid_target t -> valid_region t st -> Forall (valid_faction t) sched ->
  let h := rhistory (f_rrun t st rinit sched) in
  (forall i c a l, In (ERet i c (RBlock a)) h -> call_layout c = Some l -> good_block st l (ptr a)) /\
  pairwise disjoint (returned_blocks h) /\
  (forall i, nondecreasing (thread_levels i h)).
Proof.
  intros t st sched Ht Hst Hs. cbv zeta.
  pose proof (rinv_f_run t st sched Ht Hst rinit Hs (rinv_init t st Hst)) as Hinv.
  split; [|split].
  - intros i c a l Hin. apply (ri_ret_good t st _ Hinv i). unfold rhistory in Hin. apply in_rev in Hin. exact Hin.
  - unfold rhistory. rewrite returned_blocks_rev. apply pairwise_rev. apply (ri_ret_pw t st _ Hinv).
  - intros i. apply (ri_levels t st _ Hinv i).
Qed.
Print Assumptions C91_threads.

(** C91. [from_mem] works as usual or refuses without writing; [cast] and [cast_slice] give what they give when [align_offset] works, or the pointer
    back; the splits give what they give when it works, or leave the memory as it is, or panic. *)
Theorem C91_from_mem : forall ao t m b, valid_target t -> allowed t ao -> size b <= isize_max t ->
  f_from_mem ao t m b = from_mem t m b \/ f_from_mem ao t m b = (m, Ret None).
Proof. intros ao t m b Ht A S. apply f_from_mem_cases; try assumption. pose proof (isize_usize t Ht). lia. Qed.
Print Assumptions C91_from_mem.

Theorem C91_casts : forall ao t v l, valid_target t -> valid_layout t l -> allowed t ao ->
  (f_cast ao v l = v_cast v l \/ f_cast ao v l = None) /\ (f_cast_slice ao t v l = v_cast_slice t v l \/ f_cast_slice ao t v l = None).
Proof.
  intros ao t v l Ht Vl A. pose proof (valid_layout_align t l Vl). split; [eapply f_cast_cases|apply f_cast_slice_cases]; eassumption.
Qed.
Print Assumptions C91_casts.

Theorem C91_splits : forall ao0 ao1 ao2 t v l, valid_target t -> valid_layout t l -> allowed0 t ao0 -> allowed t ao1 -> allowed t ao2 -> ulen v <= isize_max t ->
  let agrees (r r' : outcome (uview * option uview)) := r = r' \/ r = Ret (v, None) \/ exists msg, r = Panic msg in
  agrees (f_split_layout ao0 ao1 v l) (v_split_layout t v l) /\
  agrees (f_split_cast ao0 ao1 ao2 v l) (v_split_cast t v l) /\
  agrees (f_split_slice ao0 ao1 ao2 t v l) (v_split_slice t v l).
Proof.
  intros ao0 ao1 ao2 t v l Ht Vl A0 A1 A2 U. pose proof (valid_layout_align t l Vl) as HA. pose proof (isize_usize t Ht) as IU. cbv zeta. split; [|split].
  - apply f_split_layout_cases; try assumption; lia.
  - unfold f_split_cast, v_split_cast. destruct (f_split_layout_cases ao0 ao1 t v l Ht HA A0 A1 ltac:(lia)) as [-> | [-> | (msg & ->)]]; cbn [obind]; eauto.
    destruct (v_split_layout t v l) as [[v' [s|]]|msg]; cbn [obind]; eauto.
    destruct (f_cast_cases ao2 t s l Ht HA A2) as [-> | ->]; [eauto|]. right; right; eexists; reflexivity.
  - unfold f_split_slice, v_split_slice.
    destruct (f_split_layout_cases ao0 ao1 t v {| lsize := 0; lalign := lalign l |} Ht HA A0 A1 ltac:(lia)) as [-> | [-> | (msg & ->)]]; cbn [obind]; eauto.
    destruct (v_split_layout t v {| lsize := 0; lalign := lalign l |}) as [[v' [s|]]|msg]; cbn [obind]; eauto.
    destruct (f_cast_slice_cases ao2 t s l Ht HA A2) as [-> | ->]; [eauto|]. right; right; eexists; reflexivity.
Qed.
Print Assumptions C91_splits.

(** The real [align_offset] is allowed, and so is one that always gives up. *)
Definition ao_works : offset_fn := align_offset1.
Definition ao_gives_up : offset_fn := fun _ _ => usize_max (x64 false).
Example ao_allowed : allowed (x64 false) ao_works /\ allowed (x64 false) ao_gives_up.
Proof.
  split; intros p a HA; [left|right; reflexivity]. exists (align_up p a). split; [|unfold ao_works, align_offset1, align_up; lia].
  apply align_up_first. exact HA.
Qed.

(** The second call gives up at the second turn of its loop, when the [compare_exchange] at level 0 has failed, the others work; the same with
    three threads. *)
Example C91_nonvacuous :
  let works := fun _ : nat => ao_works in
  let second := fun k => match k with O => ao_works | _ => ao_gives_up end in
  f_run (x64 false) (fresh ex_st) [(CAlloc ex_u16, works); (CAlloc ex_u64, second); (CAlloc ex_u16, works); (CAllocAt ex_u64 5, second)] =
    ({| storage := ex_st; consumed := 13 |},
     [(CAlloc ex_u16, RBlock {| ptr := 4100; alevel := 3 |}); (CAlloc ex_u64, RNone);
      (CAlloc ex_u16, RBlock {| ptr := 4102; alevel := 5 |}); (CAllocAt ex_u64 5, RBlock {| ptr := 4104; alevel := 13 |})]) /\
  let s := f_rrun (x64 false) ex_st rinit
    [FInvoke 0 (CAlloc ex_u16); FAccess 0 0 ao_works; FInvoke 1 (CAlloc ex_u64); FAccess 1 0 ao_works; FAccess 1 1 ao_gives_up;
     FInvoke 2 (CAlloc ex_u64); FAccess 2 1 ao_works; FAccess 2 1 ao_works; FReturn 2; FReturn 0; FReturn 1] in
  mo s = [0; 3; 13] /\ returned_blocks (rhistory s) = [MkBlock 4104 8; MkBlock 4100 2].
Proof. repeat split; reflexivity. Qed.
Example C91_casts_nonvacuous :
  f_cast ao_works (from_memory 4104 16) ex_u64 = Some {| uptr := 4104; ulen := 16; umeta := 0 |} /\
  f_cast ao_gives_up (from_memory 4104 16) ex_u64 = None /\
  snd (f_from_mem ao_works (x64 false) (fun _ => None) (MkBlock 4097 40)) = Ret (Some {| faddr := 4104; flen := 24 |}) /\
  snd (f_from_mem ao_gives_up (x64 false) (fun _ => None) (MkBlock 4097 40)) = Ret None.
Proof. repeat split; reflexivity. Qed.
