(** * PropsVBorrow: C103: Uninit, Box, LeakBox, FixedVec and Drain and the aliasing rules. *)
From Verif Require Import Base Spec BaseFacts SyncModel SyncSpec UninitModel UninitSpec FixedVecModel FixedVecSpec BorrowModel BorrowSpec BorrowProofs UBorrowModel EBorrowSlot RBorrowModel RBorrowSpec PropsRBorrow VBorrowModel VBorrowSpec VBorrowTree VBorrowStep VBorrowLocal VBorrowInit VBorrowRun.

(** No program that uses references as the borrow checker allows has undefined behaviour, for any memories and any calls, if it leaves out the two methods of [vop_ok]. *)
Theorem C103_polite_never_ub t bs os : valid_target t -> memories_ok t bs -> Forall (vop_ok t) os -> vpolite t (vnew bs) (fun _ => MShared []) os ->
  Forall (fun e => snd e <> VUB) (snd (vrun t (vnew bs) os)).
Proof. intros V M O P. exact (p_run t V os (vnew bs) _ (vnew_inv t bs M) (p_new_world t bs M) O P). Qed.

(** Whatever the client did before (also with references that it must not use any more), a call on a region has no effect on the borrows of bytes outside of it, does not depend on
    them, and no other region that can be used has a byte in it. *)
Theorem C103_calls_are_local t bs os o v k : valid_target t -> memories_ok t bs -> Forall (vop_ok t) os -> vop_ok t o ->
  let w := fst (vrun t (vnew bs) os) in view_of o = Some v -> usable_at (vviews w) v = Some k ->
  (forall v' k', usable_at (vviews w) v' = Some k' -> v' <> v -> disjoint (w_blk k') (w_blk k)) /\
  (forall y, ~ in_block (w_blk k) y -> stk (vsb (fst (vstep t w o))) y = stk (vsb w) y) /\
  forall stk', (forall y, in_block (w_blk k) y -> stk' y = stk (vsb w) y) ->
    snd (vstep t (with_stacks w stk') o) = snd (vstep t w o) /\ vviews (fst (vstep t (with_stacks w stk') o)) = vviews (fst (vstep t w o)) /\
    forall y, in_block (w_blk k) y -> stk (vsb (fst (vstep t (with_stacks w stk') o))) y = stk (vsb (fst (vstep t w o))) y.
Proof.
  intros V M O OP w VO U. pose proof (reach_inv t bs os V M O) as IV. split; [|split].
  - intros v' k' U' N y [Y1 Y2]. apply N. exact (usable_sep t _ _ _ _ _ y IV U' U Y1 Y2).
  - exact (proj1 (step_local t w o v k (stk (vsb w)) V IV OP VO U ltac:(reflexivity))).
  - intros stk' A. exact (proj2 (step_local t w o v k stk' V IV OP VO U A)).
Qed.

(** A check for the condition of [C103_polite_never_ub] *)
Definition insideb (b c : block) : bool := (start c <=? start b) && (start b + size b <=? start c + size c).
Lemma insideb_ok b c : insideb b c = true -> inside b c.
Proof. unfold insideb, inside, in_block. intros E y Y. lia. Qed.
Definition vallowedb (q : qmode) (k : vview) (a : cact) : bool :=
  match q, a with
  | MShared ns, CRead n b => existsb (Nat.eqb n) ns && insideb b (live_blk k)
  | MShared ns, CWrite n b => existsb (Nat.eqb n) ns && existsb (fun p => match fst p with RCell => insideb b (snd p) | _ => false end) (live_refs k)
  | MExcl n, CRead n' b | MExcl n, CWrite n' b => Nat.eqb n n' && insideb b (live_blk k)
  | _, CRetag _ _ _ => false
  end.
Fixpoint vpoliteb (t : target) (w : vworld) (ms : nat -> qmode) (os : list vop) : bool :=
  match os with
  | [] => true
  | o :: os => match o with VAct v a => match usable_at (vviews w) v with Some k => vallowedb (ms v) k a | None => true end | _ => true end &&
               let (w1, r) := vstep t w o in vpoliteb t w1 (vmode_after w ms o r) os
  end.
Lemma vpoliteb_ok t os : forall w ms, vpoliteb t w ms os = true -> vpolite t w ms os.
Proof.
  induction os as [|o os IH]; intros w ms; cbn [vpoliteb vpolite]; [auto|]. intros E. apply andb_true_iff in E. destruct E as [E1 E2]. split.
  - destruct o; try exact Logic.I. cbn [vpolite_op]. intros k U. rewrite U in E1. destruct (ms v) as [ns|n], a; cbn [vallowed vallowedb] in *; try discriminate; apply andb_true_iff in E1; destruct E1 as [E1 E3].
    + split; [apply has_in; exact E1|apply insideb_ok; exact E3].
    + split; [apply has_in; exact E1|]. apply existsb_exists in E3. destruct E3 as ([[] c1] & I & X); try discriminate. exists c1. split; [exact I|apply insideb_ok; exact X].
    + split; [apply Nat.eqb_eq; exact E1|apply insideb_ok; exact E3].
    + split; [apply Nat.eqb_eq; exact E1|apply insideb_ok; exact E3].
  - destruct (vstep t w o) as [w1 r]. cbn [fst snd]. apply IH. exact E2.
Qed.
Lemma ex_int_vok : vtype_ok (x64 false) ex_int.
Proof. destruct ex_int_ok as (A & _ & B & C & D). exact (conj A (conj B (conj C D))). Qed.
Lemma ex_cell_vok : vtype_ok (x64 false) ex_cell.
Proof. destruct ex_cell_ok as (A & _ & B & C & D). exact (conj A (conj B (conj C D))). Qed.
Lemma ex_x64 : valid_target (x64 false).
Proof. split; [cbn; auto|split; [exists 3; split; [lia|reflexivity]|exists 1; reflexivity]]. Qed.
Definition ex_vbs : list block := [MkBlock 4096 48; MkBlock 4160 24].
Lemma ex_vbs_ok : memories_ok (x64 false) ex_vbs.
Proof.
  split.
  - repeat constructor; cbn; try lia.
  - intros i j x y N0 X Y z [Z1 Z2]. unfold in_block in *. destruct i as [|[|[]]]; try discriminate; destruct j as [|[|[]]]; try discriminate; try congruence; injection X as <-; injection Y as <-; cbn in *; lia.
Qed.

(** [Uninit<()>::split_at_byte] has two parts that overlap (claim C34): a program that only calls [init] on both of them and uses the reference to the first value, as the
    borrow checker allows, has undefined behaviour. *)
Theorem C103_byte_split_ub : exists t bs n os, valid_target t /\ memories_ok t bs /\ is_usize t n /\ Forall (vop_ok t) os /\
  vpolite t (vnew bs) (fun _ => MShared []) (VByte 0 n :: os) /\ In VUB (map snd (snd (vrun t (vnew bs) (VByte 0 n :: os)))).
Proof.
  exists (x64 false), ex_vbs, 16, [VInit 0 ex_int; VInit 2 ex_int; VAct 0 (CWrite 2 (MkBlock 4096 8))].
  split; [exact ex_x64|]. split; [exact ex_vbs_ok|]. split; [vm_compute; split; congruence|]. split; [repeat apply Forall_cons; try apply Forall_nil; try exact Logic.I; exact ex_int_vok|].
  split; [apply vpoliteb_ok; vm_compute; reflexivity|]. vm_compute. auto.
Qed.
(** After [Uninit<[T]>::split_at] the length of the first part's slice is still that of both (claim C36): its unsafe [as_mut], which the client may call because all elements of the
    first part are initialised, ends a reference to the other part, and to read this one is undefined behaviour. *)
Theorem C103_stale_slice_ub : exists t b ty n d1 d2 x, valid_target t /\ memories_ok t [b] /\ vtype_ok t ty /\ is_usize t n /\ x = MkBlock (start b + n * lsize (q_lay ty)) (lsize (q_lay ty)) /\ inside x b /\
  map snd (snd (vrun t (vnew [b]) [VCastSlice 0 ty; VSplitAt 0 n; VUninitMut 1; VUninitMut 0; VAct 1 (CRead d1 x)])) = [VDone; VDone; VTag d1; VTag d2; VUB].
Proof.
  exists (x64 false), (MkBlock 4096 48), ex_int, 2, 1%nat, 2%nat, (MkBlock 4112 8). split; [exact ex_x64|].
  split; [split; [repeat constructor; cbn; lia|intros i j x y N0 X Y; destruct i as [|[]], j as [|[]]; try discriminate; congruence]|].
  split; [exact ex_int_vok|]. split; [vm_compute; split; congruence|]. split; [reflexivity|]. split; [apply insideb_ok; reflexivity|]. vm_compute. reflexivity.
Qed.

(** ** Examples *)
Definition ex_vops : list vop :=
  [VEnter; VUnaligned 0 ex_cell; VFill 0; VFill 0; VFill 0; VFill 0; VPush 0; VPush 0; VPush 0; VAsSlice 0; VAsSlice 0; VAct 0 (CWrite 4 (MkBlock 4096 4)); VAct 0 (CRead 5 (MkBlock 4096 16));
   VCastSlice 1 ex_int; VSplitAt 1 1; VMemory 1; VMemory 2; VInit 1 ex_int; VBoxed 2 ex_int; VAct 0 (CWrite 4 (MkBlock 4104 4)); VAct 1 (CWrite 6 (MkBlock 4160 8));
   VLend 0 4; VPop 0; VAsMutSlice 3; VAct 3 (CWrite 8 (MkBlock 4128 16)); VPop 3; VDrop 3; VDropElem 3; VAct 3 (CWrite 10 (MkBlock 4128 8)); VAct 1 (CRead 6 (MkBlock 4160 8)); VRet 3; VDropElem 3;
   VDrain 0 (Included 1) (Excluded 3); VAsMutSlice 0; VAct 0 (CWrite 11 (MkBlock 4104 16)); VNext 0; VAsSlice 0; VNextBack 0; VNext 0; VRestore 0; VAsSlice 0; VAct 0 (CRead 13 (MkBlock 4096 16));
   VTruncate 0; VAct 0 (CWrite 14 (MkBlock 4104 8)); VRet 0; VPush 0; VSplit 0 1; VAsMutSlice 4; VDerefMut 2; VAct 2 (CWrite 17 (MkBlock 4168 8)); VAsMutSlice 0; VDeref 2;
   VAct 2 (CRead 19 (MkBlock 4168 8)); VAct 4 (CWrite 16 (MkBlock 4104 8)); VDrop 2; VAct 0 (CWrite 18 (MkBlock 4096 8)); VAct 2 (CWrite 20 (MkBlock 4168 8)); VRet 2; VExit 0].
Example ex_vops_ok : Forall (vop_ok (x64 false)) ex_vops.
Proof. repeat apply Forall_cons; try apply Forall_nil; try exact Logic.I; try exact ex_int_vok; try exact ex_cell_vok; try (vm_compute; split; congruence). split; (split; [vm_compute; split; congruence|left; reflexivity]). Qed.
Example ex_vops_run : map snd (snd (vrun (x64 false) (vnew ex_vbs) ex_vops)) =
  [VNum 0; VDone; VDone; VDone; VDone; VDone; VDone; VDone; VNo; VTag 4; VTag 5; VDone; VDone; VDone; VDone; VDone; VDone; VTag 6; VDone; VDone; VDone; VDone; VInvalid; VTag 8; VDone;
   VDone; VDone; VTag 10; VDone; VDone; VDone; VDone; VDone; VTag 11; VDone; VDone; VTag 12; VDone; VNo; VDone; VTag 13; VDone; VTag 14; VDone; VDone; VDone; VDone; VTag 16; VTag 17;
   VDone; VTag 18; VTag 19; VDone; VDone; VTag 20; VDone; VDone; VDone; VDone].
Proof. vm_compute. reflexivity. Qed.
Example ex_vops_polite : vpolite (x64 false) (vnew ex_vbs) (fun _ => MShared []) ex_vops.
Proof. apply vpoliteb_ok. vm_compute. reflexivity. Qed.
(** Four regions in two memories can be used, while the destructor in region 2 is running as call 3. *)
Example ex_vops_usable : let w := fst (vrun (x64 false) (vnew ex_vbs) (firstn 55 ex_vops)) in vbusy w = [3%nat; 0%nat] /\ map (fun v : nat => option_map w_blk (usable_at (vviews w) v)) [0; 1; 2; 3; 4]%nat =
  [Some (MkBlock 4096 8); Some (MkBlock 4160 8); Some (MkBlock 4168 16); None; Some (MkBlock 4104 40)].
Proof. vm_compute. auto. Qed.
(** A LeakBox<MaybeUninit<T>> and a LeakBox<T> in each of the two memories, used in turn *)
Definition ex_leakops : list vop :=
  [VWrite 0 ex_int; VWrite 1 ex_cell; VDerefMut 0; VDeref 1; VDeref 1; VAct 0 (CWrite 6 (MkBlock 4096 8)); VAct 1 (CWrite 7 (MkBlock 4160 4)); VAct 1 (CRead 8 (MkBlock 4160 8)); VAct 0 (CRead 6 (MkBlock 4100 4));
   VTake 0; VWrite 0 ex_cell; VLeak 0; VDrop 1; VAct 1 (CWrite 12 (MkBlock 4160 8)); VAct 0 (CWrite 11 (MkBlock 4096 8)); VRet 1].
Example ex_leakops_ok : Forall (vop_ok (x64 false)) ex_leakops.
Proof. repeat apply Forall_cons; try apply Forall_nil; try exact Logic.I; try exact ex_int_vok; exact ex_cell_vok. Qed.
Example ex_leakops_run : map snd (snd (vrun (x64 false) (vnew ex_vbs) ex_leakops)) =
  [VDone; VDone; VTag 6; VTag 7; VTag 8; VDone; VDone; VDone; VDone; VDone; VDone; VTag 11; VTag 12; VDone; VDone; VDone].
Proof. vm_compute. reflexivity. Qed.
Example ex_leakops_polite : vpolite (x64 false) (vnew ex_vbs) (fun _ => MShared []) ex_leakops.
Proof. apply vpoliteb_ok. vm_compute. reflexivity. Qed.
(** What the borrow checker does not allow is undefined behaviour: a slice of a vector that is used after [push]; a unique one after [as_slice]; a slice after the end of a Drain moved the tail; a reference
    to the value in a Box when its destructor is running; a unique one after [take] or after [LeakBox::write] in the same memory. *)
Example ex_vrude : map (fun os => last (map snd (snd (vrun (x64 false) (vnew ex_vbs) os))) VDone)
  [[VUnaligned 0 ex_int; VFill 0; VAsMutSlice 0; VPop 0; VPush 0; VAct 0 (CRead 2 (MkBlock 4096 8))];
   [VUnaligned 0 ex_int; VFill 0; VAsMutSlice 0; VAsSlice 0; VAct 0 (CWrite 2 (MkBlock 4096 8))];
   [VUnaligned 0 ex_int; VFill 0; VFill 0; VAsSlice 0; VDrain 0 (Included 0) (Excluded 1); VNext 0; VAct 0 (CRead 2 (MkBlock 4096 8)); VRestore 0; VAct 0 (CRead 2 (MkBlock 4096 8))];
   [VBoxed 0 ex_int; VDeref 0; VDrop 0; VAct 0 (CRead 3 (MkBlock 4096 8))];
   [VBoxed 0 ex_int; VDerefMut 0; VTake 0; VAct 0 (CWrite 3 (MkBlock 4096 8))];
   [VWrite 0 ex_int; VDerefMut 0; VTake 0; VWrite 0 ex_int; VAct 0 (CRead 4 (MkBlock 4096 8))]] = [VUB; VUB; VUB; VUB; VUB; VUB].
Proof. vm_compute. reflexivity. Qed.

(** How calls change the length of a vector: one more element, one less, or the call is refused and nothing changes. *)
Theorem C103_vector_lengths t w v k ty n : usable_at (vviews w) v = Some k -> w_st k = SVec ty n ->
  let has n' w' := exists k', nth_error (vviews w') v = Some k' /\ w_st k' = SVec ty n' /\ w_blk k' = w_blk k in
  let after o n' := (snd (vstep t w o) = VDone -> has n' (fst (vstep t w o))) /\ (snd (vstep t w o) <> VDone -> fst (vstep t w o) = w) in
  after (VPush v) (n + 1) /\ after (VFill v) (n + 1) /\ after (VPop v) (n - 1) /\
  (snd (vstep t w (VFill v)) = VNo <-> f_capacity t (q_lay ty) (MkFvec (w_u k) n) <= n) /\ (n = 0 -> snd (vstep t w (VPop v)) = VNo).
Proof.
  intros U S0. assert (E : nth_error (vviews w) v = Some k) by (unfold usable_at in U; destruct (nth_error (vviews w) v) as [k0|]; [|discriminate]; destruct (_ || _) in U; congruence).
  assert (H : forall s n', exists k', nth_error (vviews (MkVWorld s (set_nth (vviews w) v (MkVW (w_u k) (w_base k) (w_tags k) (w_parent k) (SVec ty n'))) (vbusy w) (vcalls w))) v = Some k' /\
    w_st k' = SVec ty n' /\ w_blk k' = w_blk k).
  { intros s n'. eexists. split; [cbn [vviews]; apply (set_nth_nth _ _ _ k E)|]. split; reflexivity. }
  cbv zeta. unfold vstep. cbn [view_of]. rewrite U. unfold vcall. rewrite S0. split; [|split; [|split; [|split]]].
  - unfold f_push. destruct (flen (w_vec k n) =? usize_max t); [split; [discriminate|reflexivity]|].
    destruct (f_head_tail t (q_lay ty) (w_vec k n)) as [ht|]; cbn [obind]; [|split; [discriminate|reflexivity]].
    destruct (v_split_first t (q_lay ty) (snd ht)) as [r|]; cbn [obind]; [|split; [discriminate|reflexivity]].
    destruct (snd r); [|split; [discriminate|reflexivity]]. destruct (vb_push _ _ _ _ _) as [[]|]; [|split; [discriminate|reflexivity]].
    split; [intros _; apply H|intros X; now destruct X].
  - destruct (n <? _); [|split; [discriminate|reflexivity]]. destruct (vb_fill _ _ _ _ _) as [[]|]; [|split; [discriminate|reflexivity]].
    split; [intros _; apply H|intros X; now destruct X].
  - unfold f_pop. destruct (flen (w_vec k n) =? 0); [split; [discriminate|reflexivity]|].
    destruct (f_head_tail t (q_lay ty) (w_vec k n)) as [ht|]; cbn [obind]; [|split; [discriminate|reflexivity]].
    destruct (v_split_last t (q_lay ty) (fst ht)) as [r|]; cbn [obind]; [|split; [discriminate|reflexivity]].
    destruct (unwrap PN_pop (snd r)); cbn [obind]; [|split; [discriminate|reflexivity]]. destruct (vb_pop _ _ _ _ _) as [[]|]; [|split; [discriminate|reflexivity]].
    split; [intros _; apply H|intros X; now destruct X].
  - unfold w_vec. destruct (Z.ltb_spec n (f_capacity t (q_lay ty) {| funinit := w_u k; flen := n |})).
    + split; [destruct (vb_fill _ _ _ _ _) as [[]|]; discriminate|lia].
    + split; [intros _; assumption|reflexivity].
  - intros ->. reflexivity.
Qed.
Example ex_vec_lengths : map snd (snd (vrun (x64 false) (vnew [MkBlock 4096 16]) [VCastSlice 0 ex_int; VNew 0; VPop 0; VPush 0; VFill 0; VPush 0; VFill 0; VPop 0; VPop 0; VPop 0])) =
  [VDone; VDone; VNo; VDone; VDone; VNo; VNo; VDone; VDone; VNo].
Proof. vm_compute. reflexivity. Qed.

Print Assumptions C103_polite_never_ub.
Print Assumptions C103_calls_are_local.
Print Assumptions C103_byte_split_ub.
Print Assumptions C103_stale_slice_ub.
Print Assumptions C103_vector_lengths.
