(** * Claims about programs with many containers in one allocator (C81). *)
From Verif Require Import Base Spec SyncModel SyncSpec SyncProofs PropsSync SyncMemModel SyncMemSpec UninitModel UninitSpec PropsUninit
  RcModel RcSpec RcMemModel RcMemSpec PropsRcMem FixedVecModel FixedVecSpec PropsFixedVec AllocModel AllocSpec AllocProofs
  FixedVecMemModel FixedVecMemSpec PropsFixedVecMem WorldModel WorldSpec WorldProofs.

(** Example: a Bump of 112 bytes at address 4099, in a memory of 85s. The destructor of the u64 13 panics. *)
Definition ex_world_st : block := MkBlock 4099 112.
Definition ex_wops : list wop :=
  [WBoxed ex_u32 (u32_bytes 7); WFixedVec ex_u64 3; WRc ex_u32 (u32_bytes 8); WBoxed ex_zst []; WRaw ex_u16;
   WVec 1 (YPush 0 (u64_bytes 11)); WVec 1 (YPush 0 (u64_bytes 12)); WWrite 4 0 [Some 255; Some 255]; WElsewhere 4211 (u64_bytes 77);
   WBox 0 (BReplace (u32_bytes 9)); WCopySlice 1 0; WVec 1 (YPush 0 (u64_bytes 13)); WVec 1 (YPush 0 (u64_bytes 14)); WSliceSet 5 1 (u64_bytes 15);
   WRcOp 2 (XClone 0); WRcOp 2 (XStrongCount 0); WRcOp 2 (XGetMut 0 (Some (u32_bytes 1))); WBox 0 BTake; WBox 0 (BPut (u32_bytes 10));
   WFixedVec ex_u64 5; WFixedVec ex_u64 (2 ^ 63); WVec 1 (YTruncate 0 2); WSlice 5; WVec 1 (YSlice 0); WRcOp 2 (XDrop 1); WRcOp 2 (XTryUnwrap 0);
   WRcOp 2 (XWeakTryUnwrap 0); WRcOp 2 (XScribble 0 0 (repeat None 24)); WSliceSet 5 2 (u64_bytes 1); WBox 3 BDeref; WBox 0 BDrop; WVec 1 (YDropVec 0); WSlice 5; WWrite 4 1 [None; None]].

(** C81. A program creates boxes, vectors, counted values, slices and plain blocks from any allocator that honours the contract of LocalAlloc,
    and uses them, interleaved, in one memory; others write elsewhere.  Whatever the values and their names, it gets exactly the
    answers of a program whose objects are independent abstract values with no memory at all; only whether there is memory (and where) is
    the allocator's choice.  The same destructors run in the same order, and the objects' memories never overlap. *)
Theorem C81_independent_objects : forall code boom t A own inv (s : lst A) m live os,
  valid_target t -> code [] = 0 -> honours t A own inv -> exact A -> inv s m live -> Forall (wop_ok t own) os -> Z.of_nat (length os) <= usize_max t ->
  let (w, rs) := wrun code (fun b => boom (code b)) t A (MkWorld s m []) os in
  exists gs, length gs = length os /\
    let (a, rs') := awrun code boom t gs [] os in
    rs' = map (wname code) rs /\ Forall2 (same_drops code) (wparts w) a /\ pairwise disjoint (map foot (wparts w)).
Proof.
  intros code boom t A own inv s m live os V C0 H EX I OK LN.
  pose proof (wrun_sim code boom t A own inv V C0 H EX os 0 (MkWorld s m []) [] (winit_inv code t A own inv s m live I) OK LN) as K.
  destruct (wrun code _ t A (MkWorld s m []) os) as [w rs]. destruct K as (gs & a & N & E & L & (live' & _ & F & PW & _) & _).
  exists gs. split; [exact L|]. rewrite E. split; [reflexivity|]. split; [|exact PW].
  eapply Forall2_impl2; [|exact F]. intros i p q _ R. exact (prel_drops code t N _ p q R).
Qed.
Print Assumptions C81_independent_objects.

(** C81, frame: outside of the allocator's memory, memory is what the others wrote. *)
Theorem C81_frame : forall code boom t A own inv (s : lst A) m live os,
  valid_target t -> code [] = 0 -> honours t A own inv -> exact A -> inv s m live -> Forall (wop_ok t own) os -> Z.of_nat (length os) <= usize_max t ->
  let (w, rs) := wrun code (fun b => boom (code b)) t A (MkWorld s m []) os in
  ~ In (WVecAns YAborted) rs -> forall x, ~ own x -> wmem w x = welse m os x.
Proof.
  intros code boom t A own inv s m live os V C0 H EX I OK LN.
  pose proof (wrun_sim code boom t A own inv V C0 H EX os 0 (MkWorld s m []) [] (winit_inv code t A own inv s m live I) OK LN) as K.
  destruct (wrun code _ t A (MkWorld s m []) os) as [w rs]. destruct K as (gs & a & N & E & L & _ & K). exact K.
Qed.
Print Assumptions C81_frame.

(** C81, on a Bump: nothing is left to choice.  The answers are a function of the calls and of the placement rule alone: in particular, not of
    what was in memory before. *)
Theorem C81_bump_deterministic : forall code boom t st m os,
  valid_target t -> code [] = 0 -> valid_region t st -> Forall (wop_ok t (in_block st)) os -> Z.of_nat (length os) <= usize_max t ->
  map (wname code) (snd (wrun code (fun b => boom (code b)) t (bump_lalloc t) (@MkWorld (bump_lalloc t) (fresh st) m []) os)) =
  snd (bwrun code boom t st 0 [] os).
Proof.
  intros code boom t st m os V C0 VR OK LN.
  assert (I : bump_inv t st (fresh st) m []) by (split; [apply ok_fresh; exact VR|]; split; [reflexivity|constructor]).
  pose proof (bwrun_sim code boom t st os V C0 VR 0 _ [] (winit_inv code t (bump_lalloc t) (in_block st) (bump_inv t st) (fresh st) m [] I) OK LN) as K.
  destruct (wrun code _ t (bump_lalloc t) _ os) as [w rs]. destruct K as (a & E & _). cbn [wst consumed fresh] in E. rewrite E. reflexivity.
Qed.
Print Assumptions C81_bump_deterministic.

Example C81_nonvacuous :
  valid_region (x64 false) ex_world_st /\ Forall (wop_ok (x64 false) (in_block ex_world_st)) ex_wops /\
  snd (wrun name (fun b => ex_boom_bytes (name b)) (x64 false) (bump_lalloc (x64 false))
         (@MkWorld (bump_lalloc (x64 false)) (fresh ex_world_st) (fun _ => Some 85) []) ex_wops) =
    [WPart 0; WPart 1; WPart 2; WPart 3; WPart 4; WVecAns YOk; WVecAns YOk; WOk; WOk;
     WBytes (u32_bytes 7); WPart 5; WVecAns YOk; WVecAns (YRejected (u64_bytes 14)); WOk;
     WRcAns (ATok 1); WRcAns (ANum 2); WRcAns ANone; WBytes (u32_bytes 9); WOk;
     WNoMem; WNoMem; WVecAns YPanicked; WItems (map u64_bytes [11; 15]); WVecAns (YItems (map u64_bytes [11; 12])); WRcAns ADone;
     WRcAns (AVal (name (u32_bytes 8))); WRcAns ADone; WRcAns ADone; WPanic; WBytes []; WBytes (u32_bytes 10); WVecAns YOk;
     WItems (map u64_bytes [11; 15]); WInvalid].
Proof.
  split; [vm_compute; repeat split; congruence|]. split; [|vm_compute; reflexivity].
  unfold ex_wops. repeat (apply Forall_cons); [..|apply Forall_nil]; cbn [wop_ok]; try exact Logic.I.
  all: repeat match goal with |- _ /\ _ => split end.
  all: try (apply ex_u32_type); try (apply ex_u64_type).
  all: try reflexivity.
  - split; [apply ex_layouts_ok|exists 0; reflexivity].
  - apply ex_layouts_ok.
  - intros x X. unfold in_block, ex_world_st in *. cbn in *. lia.
Qed.
