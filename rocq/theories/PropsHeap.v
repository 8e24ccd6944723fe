(** * PropsHeap: a program that takes its memory from a [Bump] cannot tell it from an ideal heap (C86). *)
From Verif Require Import Base Spec BaseFacts SyncModel SyncSpec SyncProofs PropsSync SyncMemModel SyncMemSpec SyncMemProofs PropsSyncMem.
From Verif Require Import HeapSpec HeapProofs.

(** C86: whatever the program calls, all answers, all bytes it reads back and all bytes of the values dropped are those of
    the ideal heap; what others write elsewhere does not matter. *)
Theorem C86_ideal_heap t st m gs :
  valid_target t -> valid_region t st -> Forall (gop_ok st (valid_op t)) gs ->
  let real := grun t (start_client (uninit_slab st m)) gs in
  let ideal := hgrun t st hempty gs in
  Forall2 same_answer (snd real) (snd ideal) /\
  Forall2 (fun d e => fst d = fst e /\ keeps (snd d) (snd e)) (drops (fst real)) (hdropped (fst ideal)).
Proof.
  intros V VR F. cbv zeta. destruct (grun_rel t st gs V _ _ (hrel_start t st m VR) F) as (A & _ & _ & _ & _ & D). split; assumption.
Qed.

(** C86: and others cannot tell that the program runs at all. *)
Theorem C86_others_unaffected t st m gs :
  valid_target t -> valid_region t st -> Forall (gop_ok st (valid_op t)) gs ->
  forall x, ~ in_block st x -> bytes (ms (fst (grun t (start_client (uninit_slab st m)) gs))) x = others m gs x.
Proof. intros V VR F x X. eapply grun_frame; eauto using hrel_start. Qed.

(** C86: so the initial memory has no influence on what the program sees, except through bytes nobody promised. *)
Theorem C86_no_influence t st m m' gs :
  valid_target t -> valid_region t st -> Forall (gop_ok st (valid_op t)) gs ->
  let real := snd (grun t (start_client (uninit_slab st m)) gs) in
  let real' := snd (grun t (start_client (uninit_slab st m')) gs) in
  forall k a, nth_error real k = Some (GAns a) -> nth_error real' k = Some (GAns a).
Proof.
  intros V VR F. cbv zeta. intros k a N.
  pose proof (proj1 (C86_ideal_heap t st m gs V VR F)) as A. pose proof (proj1 (C86_ideal_heap t st m' gs V VR F)) as B.
  destruct (FixedVecPool.Forall2_nth _ _ _ _ _ A N) as (h & NH & Q).
  destruct (nth_error (snd (grun t (start_client (uninit_slab st m')) gs)) k) as [b|] eqn:NB.
  2:{ apply nth_error_None in NB. rewrite (FixedVecPool.Forall2_length _ _ _ B) in NB. assert (k < length (snd (hgrun t st hempty gs)))%nat by (apply nth_error_Some; congruence). lia. }
  destruct (FixedVecPool.Forall2_nth _ _ _ _ _ B NB) as (h' & NH' & P). rewrite NH in NH'. injection NH' as <-.
  destruct h; cbn in Q; try contradiction. destruct b; cbn in P; try contradiction. congruence.
Qed.

(** Satisfiable: a block written, grown into a new place with its contents, shrunk in place; a box; foreign writes around. *)
Definition ex_gops : list gop :=
  [GOther 4000 [Some 7]; GOp (OAlloc ex_u16); GRead 0; GOp (OWrite 0 0 [Some 5; Some 6]); GOp (OLeakBox ex_u16 ex_v2);
   GOp (ORealloc 0 5); GRead 2; GOp (OWrite 1 1 [Some 4]); GOther 4131 [Some 1]; GRead 1; GOp (OBoxDrop 1);
   GOp (ORealloc 2 1); GRead 3; GOp (OZeroed ex_u64); GRead 4; GRead 2; GOp OLevel; GOp (OLeak ex_u64 ex_v1)].

Example ex_gops_ok : Forall (gop_ok ex_st (valid_op (x64 false))) ex_gops.
Proof.
  destruct ex_layouts_ok as (H1 & H2 & _).
  repeat (apply Forall_cons; [cbn [valid_op gop_ok]|]); try apply Forall_nil; try exact I;
    try (split; assumption || reflexivity); try apply H1; try apply H2; try (vm_compute; split; congruence).
  - intros x (A & B). unfold in_block in *. cbn in *. lia.
  - intros x (A & B). unfold in_block in *. cbn in *. lia.
Qed.

Example ex_heap_run :
  snd (hgrun (x64 false) ex_st hempty ex_gops) =
    [HDone; HAns (ABlock 4100); HBytes [None; None]; HAns AUnit; HAns (ABlock 4102); HAns (ABlock 4104);
     HBytes [Some (Some 5); Some (Some 6); None; None; None]; HAns AUnit; HDone; HBytes [Some (Some 9); Some (Some 4)]; HAns AUnit;
     HAns (ABlock 4104); HBytes [Some (Some 5)]; HAns (ABlock 4112); HBytes (repeat (Some (Some 0)) 8); HBad;
     HAns (ALevel 21); HAns (ABlock 4120)] /\
  hdropped (fst (hgrun (x64 false) ex_st hempty ex_gops)) = [(2%nat, [Some (Some 9); Some (Some 4)])] /\
  snd (grun (x64 false) (start_client (uninit_slab ex_st (fun _ => None))) ex_gops) =
    [GDone; GAns (ABlock 4100); GBytes [None; None]; GAns AUnit; GAns (ABlock 4102); GAns (ABlock 4104);
     GBytes [Some 5; Some 6; None; None; None]; GAns AUnit; GDone; GBytes [Some 9; Some 4]; GAns AUnit;
     GAns (ABlock 4104); GBytes [Some 5]; GAns (ABlock 4112); GBytes (repeat (Some 0) 8); GBad; GAns (ALevel 21); GAns (ABlock 4120)].
Proof. vm_compute. repeat split. Qed.

Print Assumptions C86_ideal_heap.
Print Assumptions C86_others_unaffected.
Print Assumptions C86_no_influence.
