(** * PropsExitRef: an ExitStack cannot be told from a list of values (C88). *)
From Verif Require Import Base Spec BaseFacts SyncModel SyncSpec SyncProofs SyncMemModel SyncMemSpec UnsyncModel UnsyncProofs ExitModel ExitSpec ExitProofs PropsSync PropsExit.
From Verif Require Import ExitRefSpec ExitRefProofs.

(** C88: whatever is called, in whatever order and whichever destructors panic, all answers, the values pinned, written and
    dropped with their bytes, and the slots and references held, are those of the ideal stack, which is a list without links
    in memory; what others write elsewhere does not matter; and each live value lies in its slot. *)
Theorem C88_ideal_stack t vt boom base lm m xs :
  valid_target t -> stack_ok t base lm -> Forall (xact_ok t base lm vt) xs ->
  let real := x_run t vt boom (enew base lm m) xs in
  let idl := i_run t base lm vt boom ideal_new (calls xs) in
  snd real = snd idl /\ elog (fst real) = ilog (fst idl) /\ etoks (fst real) = itoks (fst idl) /\ egone (fst real) = igone (fst idl) /\
  Forall (fun e => mem_read (ebytes (fst real)) (en_addr e + value_offset t (vt (en_vt e))) (lsize (vt (en_vt e))) = en_bytes e) (ivals (fst idl)).
Proof.
  intros Ht Hs Ho. cbv zeta.
  destruct (run_rel_ideal t vt boom base lm Ht Hs xs Ho _ _ m (new_rel t vt base lm m Ht Hs) (fun _ _ => eq_refl)) as (A & ([lost I] & _ & B & C & D) & _).
  do 4 (split; [assumption|]). pose proof (ei_entries _ _ _ _ _ _ _ I) as F. eapply Forall_impl; [|exact F]. intros e E. apply E.
Qed.
Print Assumptions C88_ideal_stack.

(** C88: and others cannot tell that the stack is used at all. *)
Theorem C88_others_unaffected t vt boom base lm m xs :
  valid_target t -> stack_ok t base lm -> Forall (xact_ok t base lm vt) xs ->
  forall x, ~ in_block (whole t base lm) x -> ebytes (fst (x_run t vt boom (enew base lm m) xs)) x = others m xs x.
Proof.
  intros Ht Hs Ho. destruct (run_rel_ideal t vt boom base lm Ht Hs xs Ho _ _ m (new_rel t vt base lm m Ht Hs) (fun _ _ => eq_refl)) as (_ & _ & S). exact S.
Qed.
Print Assumptions C88_others_unaffected.

(** C88: after any program, [slot] gives exactly the lowest place that is aligned and behind those given out since the memory
    was last freed, and fails only if no such place lies within the room. *)
Theorem C88_slot_exact t vt boom base lm m xs v :
  valid_target t -> stack_ok t base lm -> Forall (xact_ok t base lm vt) xs -> eop_ok t vt (ESlot v) ->
  let s := fst (x_run t vt boom (enew base lm m) xs) in
  let i := fst (i_run t base lm vt boom ideal_new (calls xs)) in
  let l := pin_layout t (vt v) in let r := room t base lm in
  egone s = false -> debug t = false \/ lalign lm <= usize_align t ->
  (forall a, snd (estep t vt boom s (ESlot v)) = EAPtr a <-> first_aligned (start r + iused i) (lalign l) a /\ a + lsize l <= start r + size r) /\
  (snd (estep t vt boom s (ESlot v)) = EANone <-> ~ fits_in r (iused i) l).
Proof.
  intros Ht Hs Ho V. cbv zeta. intros G U.
  destruct (run_rel_ideal t vt boom base lm Ht Hs xs Ho _ _ m (new_rel t vt base lm m Ht Hs) (fun _ _ => eq_refl)) as (_ & R & _).
  set (s := fst (x_run _ _ _ _ _)) in *. set (i := fst (i_run _ _ _ _ _ _ _)) in *. destruct R as ([lost I] & A & _).
  pose proof V as (V1 & V2 & V3). pose proof (valid_layout_align t _ (proj1 V3)) as AL.
  assert (US : usable_stack t lm = true) by (apply usable_iff, can_deref_iff; exact U).
  unfold estep. rewrite G, (i_slot_spec t vt base lm s _ lost (vt v) Ht Hs I V2 V3), A.
  pose proof (fits_in_iff (room t base lm) (iused i) (pin_layout t (vt v)) AL) as F.
  pose proof (align_up_first (start (room t base lm) + iused i) (lalign (pin_layout t (vt v))) AL) as AF.
  unfold i_slot. rewrite US. cbn [negb]. set (p := align_up _ _) in *. destruct (Z.leb_spec (p + lsize (pin_layout t (vt v))) (start (room t base lm) + size (room t base lm))) as [L|L]; cbn [snd].
  - split; [intros a; split|split].
    + intros [= <-]. auto.
    + intros [(B1 & B2 & B3) _]. f_equal. destruct AF as (C1 & C2 & C3). apply Z.le_antisymm; auto.
    + discriminate.
    + intros N. exfalso. apply N, F. exact L.
  - split; [intros a; split|split]; [discriminate| |intros _ W; apply F in W; fold p in W; lia|reflexivity].
    intros [(B1 & B2 & B3) B4]. destruct AF as (C1 & C2 & C3). specialize (C3 a B1 B2). lia.
Qed.
Print Assumptions C88_slot_exact.

(** C88: the memory the stack was created in has no influence. *)
Theorem C88_initial_memory t vt boom base lm m m' xs :
  valid_target t -> stack_ok t base lm -> Forall (xact_ok t base lm vt) xs ->
  snd (x_run t vt boom (enew base lm m) xs) = snd (x_run t vt boom (enew base lm m') xs) /\
  elog (fst (x_run t vt boom (enew base lm m) xs)) = elog (fst (x_run t vt boom (enew base lm m') xs)).
Proof.
  intros Ht Hs Ho. destruct (C88_ideal_stack t vt boom base lm m xs Ht Hs Ho) as (A & B & _), (C88_ideal_stack t vt boom base lm m' xs Ht Hs Ho) as (A' & B' & _).
  split; congruence.
Qed.
Print Assumptions C88_initial_memory.

(** Satisfiable: slots filled in the opposite order, a write, a slot that does not fit, foreign writes, a panicking destructor,
    [set] and reuse. *)
Definition ex_xacts : list xact :=
  XElsewhere 4000 [Some 7] :: map XCall ex_eops ++
  [XCall (ESlot 1); XElsewhere 4184 [Some 1]; XCall (ESlot 1); XCall EPopAll; XCall (ESlot 1); XCall (ESlot 2); XCall (EPin 0 (ex_bytes 5 8));
   XCall (EPin 1 (ex_bytes 9 4)); XCall (ESet 3 (ex_bytes 1 64)); XCall (ESlot 1); XCall (ESet 3 (ex_bytes 1 64)); XCall (EPeek 0); XCall EDropStack; XCall (ESlot 1)].

Example ex_xacts_ok : Forall (xact_ok (x64 true) 4096 ex_mem ex_vt) ex_xacts.
Proof.
  repeat (apply Forall_cons; [first [exact Logic.I|apply (ex_ops_ok true 1); lia|apply (ex_ops_ok true 2); lia|apply (ex_ops_ok true 3); lia|idtac]|]); try apply Forall_nil;
    intros x [A B]; unfold in_block in *; cbn in *; lia.
Qed.

Example ex_ideal_run :
  snd (i_run (x64 true) 4096 ex_mem ex_vt ex_boom2 ideal_new (calls ex_xacts)) =
    [EAPtr 4104; EAPtr 4128; EAPtr 4144; EAPtr 4120; EADone; EABytes (ex_bytes 7 8); EAPtr 4152; EANone; EADone; EAPtr 4104; EAPtr 4128;
     EAPtr 4120; EAPtr 4144; EAPanic PE_destructor; EAPtr 4152; EAPtr 4120; EABytes (ex_bytes 1 64); EADone; EAInvalid] /\
  ilog (fst (i_run (x64 true) 4096 ex_mem ex_vt ex_boom2 ideal_new (calls ex_xacts))) =
    [EvPin 4128 1 (ex_bytes 5 8); EvPin 4104 1 (ex_bytes 6 8); EvWrite 4128 (ex_bytes 7 8); EvDrop 4104 1 (ex_bytes 6 8); EvDrop 4128 1 (ex_bytes 7 8);
     EvReset; EvPin 4104 1 (ex_bytes 5 8); EvPin 4128 2 (ex_bytes 9 4); EvDrop 4128 2 (ex_bytes 9 4); EvUnwound; EvArg 3 (ex_bytes 1 64); EvReset;
     EvPin 4104 3 (ex_bytes 1 64); EvDrop 4104 3 (ex_bytes 1 64); EvReset].
Proof. vm_compute. auto. Qed.
