(** * C85: owners of values (without_alloc's Box, LeakBox) are independent cells. *)
From Verif Require Import Base Spec BaseFacts SyncModel SyncSpec PropsSync SyncMemModel UninitModel UninitSpec UninitProofs PropsUninit OwnModel OwnSpec OwnProofs PropsOwn
  OwnRefSpec OwnRefProofs FixedVecPool.

Definition ex_acts : list oact :=
  OOther 5000 (ex_b8 1) :: map (fun c => OCall (fst c) (snd c)) (firstn 9 ex_calls) ++
  [OOther 4121 (ex_b8 3); OOther 4080 (ex_b8 4 ++ ex_b8 5)] ++ map (fun c => OCall (fst c) (snd c)) (skipn 9 ex_calls) ++
  [OCall 7 ODeref].
Definition ex_acts2 : list oact :=
  [OCall 0 (OCast ex_u64); OCall 0 (ONew (ex_b8 6)); OCall 1 OToLeakBox; OCall 0 OTake; OOther 4121 (ex_b8 3); OCall 1 (OLWrite (ex_b8 2)); OCall 1 OIntoPin;
   OCall 0 (OCast (MkLayout 32 4)); OCall 0 (ONew (ex_b8 5)); OCall 1 ODeref; OCall 0 (OUnsize 8 [9])].

Example ex_acts_ok : Forall (oact_ok (x64 true) ex_own) ex_acts /\ Forall (oact_ok (x64 true) ex_own) ex_acts2.
Proof.
  split; repeat constructor; try (apply disjoint_intro; cbn; lia); cbn; try lia; try (vm_compute; congruence);
    try (exists 3; vm_compute; split; congruence); try (exists 2; vm_compute; split; congruence);
    try (exists 1; reflexivity); try (exists 8; reflexivity).
Qed.

(** For every program of calls on any number of owners, interleaved with writes of anybody to all other memory: each
    call answers as on a cell that holds its value itself; the same values are put, moved out and dropped, in the same
    order; in the end each owner has the kind and type of its cell, and the memory given to it has the value of the cell. *)
Theorem C85_cells : forall t us m xs, owned_memories t us -> Forall (oact_ok t us) xs ->
  let '(s, answers) := oact_run t (oinit us m) xs in
  let '(cs, log, answers') := cells_run t (cells_init us) [] xs in
  answers = answers' /\ olog s = log /\ length (otoks s) = length cs /\
  forall i k c, nth_error (otoks s) i = Some k -> nth_error cs i = Some c ->
    okd k = ckind c /\ olay k = clay c /\ osized k = csized c /\ uptr (oview k) = caddr c /\
    (with_value (ckind c) = true -> mem_read (omem s) (caddr c) (lsize (clay c)) = cval c).
Proof.
  intros t us m xs O F. destruct (oact_run t (oinit us m) xs) as [s a] eqn:E1.
  destruct (cells_run t (cells_init us) [] xs) as [[cs log] a'] eqn:E2.
  destruct (oact_run_rel t us xs _ _ (cells_rel_init t us m O) F _ _ _ _ _ E1 E2) as (A & B & C & _).
  split; [exact A|]. split; [exact B|]. split; [destruct C as (_ & G & _); exact (Forall2_length _ _ _ G)|].
  intros i k c N NC. destruct (tok_rel_ex t us s cs i k C N) as (c' & C' & (R1 & R2 & R3 & R4 & _) & V).
  assert (c' = c) by congruence. subst c'. repeat (split; [assumption|]). rewrite <- R1, <- R2, <- R4. exact V.
Qed.
Print Assumptions C85_cells.

(** The owners change nothing outside of the memory given to them. *)
Theorem C85_frame : forall t us m xs x, owned_memories t us -> Forall (oact_ok t us) xs ->
  (forall p, In p us -> ~ in_block (region (fst p)) x) ->
  omem (fst (oact_run t (oinit us m) xs)) x = other_writes m xs x.
Proof.
  intros t us m xs x O F X. destruct (oact_run t (oinit us m) xs) as [s a] eqn:E1.
  destruct (cells_run t (cells_init us) [] xs) as [[cs log] a'] eqn:E2.
  destruct (oact_run_rel t us xs _ _ (cells_rel_init t us m O) F _ _ _ _ _ E1 E2) as (_ & _ & _ & M). cbn [fst]. apply M; [|reflexivity].
  intros Q. apply Exists_exists in Q. destruct Q as (p & P & B). exact (X p P B).
Qed.
Print Assumptions C85_frame.

Example C85_nonvacuous :
  owned_memories (x64 true) ex_own /\ Forall (oact_ok (x64 true) ex_own) ex_acts /\ Forall (oact_ok (x64 true) ex_own) ex_acts2 /\
  snd (cells_run (x64 true) (cells_init ex_own) [] ex_acts) =
    [OADone; OADone; OADone; OADone; OABytes (ex_b4 7); OABytes (ex_b4 7); OADone; OADone; OADone; OABytes (ex_b4 8); OADone; OADone;
     OADone; OADone; OADone; OABytes (ex_b8 9); OADone; OABytes (ex_b8 9); OADone; OAPanic; OAInvalid; OAInvalid] /\
  cells_run (x64 true) (cells_init ex_own) [] ex_acts2 =
    ([MkCell OGone (ex_b8 5) ex_u64 true 4096 16; MkCell OPin (ex_b8 2) ex_u64 true 4112 8; MkCell OUninit [] (MkLayout 0 1) true 4120 0],
     [(0, OPut (ex_b8 6)); (0, OTook (ex_b8 6)); (1, OPut (ex_b8 2)); (0, OPut (ex_b8 5)); (0, ODropped (ex_b8 5))]%nat,
     [OADone; OADone; OADone; OABytes (ex_b8 6); OADone; OADone; OADone; OAErr; OADone; OABytes (ex_b8 2); OAPanic]).
Proof. split; [exact ex_own_ok|]. split; [apply ex_acts_ok|]. split; [apply ex_acts_ok|]. vm_compute. auto. Qed.
