(** * PropsConcMem: C77, what threads store in blocks of one shared slab. *)
From Verif Require Import Base Spec BaseFacts SyncModel SyncSpec SyncProofs SyncMemModel SyncMemSpec
  ConcModel ConcSpec RelaxedModel RelaxedSpec MemBumpSpec ConcMemModel ConcMemSpec ConcMemProofs PropsSync.

(** C77. Threads that allocate from one shared slab and use (store to, load from, hand over to other threads) only
    blocks that they own never race, whatever the schedule, even if the accesses to the slab's counter were relaxed and
    ordered nothing: any two conflicting accesses are ordered by program order and the hand-overs of blocks alone. *)
Theorem C77_no_data_races : forall t st m sched,
  valid_target t -> valid_region t st -> Forall (valid_caction t) sched ->
  let s := crun t st (cinit m) sched in race_free (ctoks s) (ctrace s).
Proof.
  intros t st m sched Ht Hst Hv. apply (conc_race_free t st m).
  apply cinv_run; try assumption. apply cinv_init. exact Hst.
Qed.
Print Assumptions C77_no_data_races.

(** C77. ... blocks are independent arrays: a load gives exactly what the stores to that block left there, whatever other
    threads allocate and store meanwhile; and no byte outside the slab's storage changes. *)
Theorem C77_values_stay_intact : forall t st m sched,
  valid_target t -> valid_region t st -> Forall (valid_caction t) sched ->
  let s := crun t st (cinit m) sched in
  (exists A, mideal [] (ctrace s) A) /\ same_outside st m (cmem s) /\
  map fst (ctoks s) = returned_blocks (rhistory (cbase s)).
Proof.
  intros t st m sched Ht Hst Hv. cbv zeta. pose proof (cinv_init t st m Hst) as I.
  split; [|split].
  - eexists. apply (crun_ideal t st m [] sched (cinit m) Ht Hst Hv I). constructor.
  - apply (ci_mem t st m). apply cinv_run; assumption.
  - apply (ci_toks t st m). apply cinv_run; assumption.
Qed.
Print Assumptions C77_values_stay_intact.

(** Thread 0 and thread 1 allocate interleaved; 0 stores a value and hands it to 1, which overwrites a part and reads it. *)
Definition ex_csched : list caction :=
  [CBase (RInvoke 0 (CAlloc ex_u16)); CBase (RInvoke 1 (CGet ex_u64)); CBase (RAccess 0 0); CBase (RAccess 1 1);
   CBase (RAccess 1 1); CBase (RReturn 1); CStore 1 0 6 [Some 1; Some 2]; CBase (RReturn 0); CStore 0 1 0 [Some 7; Some 8];
   CStore 0 0 0 [Some 9]; CSend 0 1 1; CStore 0 1 0 [Some 9]; CStore 1 1 1 [Some 6]; CLoad 1 1; CLoad 1 0].
Example C77_nonvacuous :
  Forall (valid_caction (x64 false)) ex_csched /\
  ctrace (crun (x64 false) ex_st (cinit (fun _ => None)) ex_csched) =
  [MGot 1 0; MStore 1 0 6 [Some 1; Some 2]; MGot 0 1; MStore 0 1 0 [Some 7; Some 8]; MSend 0 1 1; MStore 1 1 1 [Some 6];
   MLoad 1 1 [Some 7; Some 6]; MLoad 1 0 [None; None; None; None; None; None; Some 1; Some 2]] /\
  ctoks (crun (x64 false) ex_st (cinit (fun _ => None)) ex_csched) = [(MkBlock 4104 8, 1%nat); (MkBlock 4100 2, 1%nat)] /\
  conflict [(MkBlock 4104 8, 1%nat); (MkBlock 4100 2, 1%nat)] (MStore 0 1 0 [Some 7; Some 8]) (MStore 1 1 1 [Some 6]).
Proof.
  destruct ex_layouts_ok as (H1 & H2 & _).
  split; [|split; [reflexivity|split; [reflexivity|]]].
  - repeat (constructor; [first [exact I|split; [first [apply H1|apply H2]|reflexivity]]|]). constructor.
  - split; [left; reflexivity|]. do 2 eexists. exists 4101. split; [reflexivity|]. split; [reflexivity|].
    unfold in_block. cbn [start size length]. lia.
Qed.
