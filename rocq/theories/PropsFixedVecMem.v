(** * Claims about FixedVec on bytes (C79). *)
From Verif Require Import Base Spec SyncModel SyncSpec PropsSync SyncMemModel SyncMemSpec UninitModel UninitSpec PropsUninit
  RcModel RcMemModel RcMemSpec PropsRcMem FixedVecModel FixedVecSpec PropsFixedVec FixedVecMemModel FixedVecMemSpec FixedVecMemProofs.

(** Example: five u64 in 44 bytes at address 4096; the destructor of 13 panics; others write around the region. *)
Definition u64_bytes (k : Z) : bval := map (fun j => Some (if j =? 0 then k else 0)) [0; 1; 2; 3; 4; 5; 6; 7].
Definition ex_boom_bytes (e : elem) : bool := e =? name (u64_bytes 13).
Definition ex_yops : list yop :=
  [YPush 0 (u64_bytes 11); YPush 0 (u64_bytes 12); YElsewhere 4140 (u64_bytes 255); YPush 0 (u64_bytes 10); YPop 0;
   YFill 0 (map u64_bytes [14; 15; 16; 17]) false; YPush 0 (u64_bytes 18); YElsewhere 4088 (u64_bytes 254);
   YDrain 0 (Included 1) (Excluded 2) [true; false] false; YSlice 0;
   YSplitBorrowed 0 3; YPush 0 (u64_bytes 19); YPop 1; YPush 1 (u64_bytes 20); YDropVec 1;
   YSplitShrink 0 2; YPush 2 (u64_bytes 13); YTruncate 2 1; YClear 2; YExtend 0 (map u64_bytes [21; 22]) false; YSlice 0; YSlice 2;
   YReplace 0 1 (u64_bytes 23); YSwap 0 0 1; YReplace 0 2 (u64_bytes 24); YSlice 0].

(** C79. Elements are their bytes: for every naming of byte strings, every history of calls on vectors over one
    region of memory, interleaved with writes of others elsewhere, answers exactly like bounded lists of values: what is pushed, filled,
    drained, moved by a drain's end, popped, returned and dropped are the bytes that were put in, bit for bit.  At the end
    every living vector's slice is the reference's list. *)
Theorem C79_bytes_reference : forall code boom t l m u os,
  valid_target t -> wf_view t (TSlice l) u -> (lsize l = 0 -> code [] = 0) -> Forall (valid_yop t l (region u)) os ->
  let '(y, rs) := yrun t l (fun b => boom (code b)) (yinit m u) os in
  let '(a, rs') := ayrun code (lsize l =? 0) (usize_max t) boom (ainit (v_capacity t l u)) os in
  map (yname code) rs = rs' /\ map code (ydrops (yw y)) = adrops a /\
  (forall i e, nth_error (ypool y) i = Some e -> ealive e = true ->
     exists x, nth_error (apool a) i = Some x /\ aalive x = true /\
       map code (y_as_slice l (ymem (yw y)) (evec e)) = aitems x /\ f_capacity t l (evec e) = acap x).
Proof.
  intros code boom t l m u os V W C VO. pose proof (yrun_sim code boom t l u os _ _ V C (ysim_init code t l u m V W) VO) as K.
  destruct (yrun t l _ (yinit m u) os) as [y rs]. destruct (ayrun code _ _ boom _ os) as [a rs']. destruct K as (-> & S & _).
  split; [reflexivity|]. split; [exact (ysim_drops code t l u y a S)|]. intros i e N AL. exact (ysim_contents code t l u y a i e V C S N AL).
Qed.
Print Assumptions C79_bytes_reference.

(** C79, frame: the vectors change no byte outside of the region; there, memory is what the others wrote. *)
Theorem C79_frame : forall code boom t l m u os,
  valid_target t -> wf_view t (TSlice l) u -> (lsize l = 0 -> code [] = 0) -> Forall (valid_yop t l (region u)) os ->
  let '(y, rs) := yrun t l (fun b => boom (code b)) (yinit m u) os in
  ~ In YAborted rs -> SyncMemSpec.same_outside (region u) (others m os) (ymem (yw y)).
Proof.
  intros code boom t l m u os V W C VO. pose proof (yrun_sim code boom t l u os _ _ V C (ysim_init code t l u m V W) VO) as K.
  destruct (yrun t l _ (yinit m u) os) as [y rs]. destruct (ayrun code _ _ boom _ os) as [a rs']. apply K.
Qed.
Print Assumptions C79_frame.

Example C79_nonvacuous :
  wf_view (x64 false) (TSlice ex_u64) ex_u /\ Forall (valid_yop (x64 false) ex_u64 (region ex_u)) ex_yops /\
  snd (yrun (x64 false) ex_u64 (fun b => ex_boom_bytes (name b)) (yinit (fun _ => Some 85) ex_u) ex_yops) =
    [YOk; YOk; YOk; YOk; YPopped (Some (u64_bytes 10)); YRest [u64_bytes 17] true; YRejected (u64_bytes 18); YOk;
     YDrained [Some (u64_bytes 12); None] true; YItems (map u64_bytes [11; 14; 15; 16]);
     YPart 1; YNone; YPopped (Some (u64_bytes 16)); YOk; YOk;
     YPart 2; YOk; YPanicked; YOk; YRest [u64_bytes 22] false; YItems (map u64_bytes [11; 14]); YItems [];
     YPopped (Some (u64_bytes 14)); YOk; YPanicked; YItems (map u64_bytes [23; 11])] /\
  ydrops (yw (fst (yrun (x64 false) ex_u64 (fun b => ex_boom_bytes (name b)) (yinit (fun _ => Some 85) ex_u) ex_yops))) =
    map u64_bytes [20; 13; 15; 21].
Proof.
  split; [exact ex_u_ok|]. split.
  - unfold ex_yops. repeat apply Forall_cons; try apply Forall_nil; (split; [cbn; repeat constructor|]);
      try (cbn; unfold is_usize; cbn; lia); try exact Logic.I; try (vm_compute; repeat split; congruence);
      intros x (A & B); unfold in_block in *; cbn in *; lia.
  - split; vm_compute; reflexivity.
Qed.
