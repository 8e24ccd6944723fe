(** * Claims about [Alloca] (C26). *)
From Verif Require Import Base Spec BaseFacts SyncModel SyncSpec SyncProofs PropsSync
  UnsyncModel UnsyncSpec UnsyncProofs AllocaModel AllocaProofs.

(** The stack variable for a buffer of up to 2^17 u64 is somewhere in the address space. *)
Definition stack_ok (t : target) (ua : Z) (stack : layout -> Z) : Prop :=
  forall k, 0 <= k <= 2 ^ 17 ->
    valid_region t (MkBlock (stack (bump_layout t (u64_array ua k))) (lsize (bump_layout t (u64_array ua k)))).

(** C26. On 32 and 64 bit targets where u64 has alignment [ua] (4 or 8, or less): [run] hands the closure a
    slice of [n] elements exactly when elements have a size, [n] is not zero, [n + 1] elements take at most 1 MiB,
    and not (debug build and u64 aligned more than usize).  The slice is aligned, of [n] elements, and
    inside the stack variable of the call, whose buffer is the least power of two, of at least 8 bytes, that holds
    [n + 1] elements (so that less than twice the need is taken from the stack).  In all other cases it panics. *)
Theorem C26_alloca_run : forall t ua stack l n,
  valid_target t -> 4 <= word_bytes t -> is_pow2 ua -> ua <= 8 -> stack_ok t ua stack ->
  type_layout t l -> is_usize t n ->
  (0 < lsize l /\ 1 <= n /\ lsize l * (n + 1) <= 2 ^ 20 /\ (debug t = false \/ ua <= usize_align t) ->
   exists k b, alloca_run t ua stack l n = Ret b /\
     is_pow2 k /\ lsize l * (n + 1) <= 8 * k /\ (8 * k = 8 \/ 8 * k < 2 * (lsize l * (n + 1))) /\
     aligned (start b) (lalign l) /\ size b = lsize l * n /\
     inside b (MkBlock (stack (bump_layout t (u64_array ua k))) (lsize (bump_layout t (u64_array ua k))))) /\
  (~ (0 < lsize l /\ 1 <= n /\ lsize l * (n + 1) <= 2 ^ 20 /\ (debug t = false \/ ua <= usize_align t)) ->
   exists m, alloca_run t ua stack l n = Panic m).
Proof.
  intros t ua stack l n Ht Hw Hua Hua8 Hst Hl Hn. split.
  - intros (H1 & H2 & H3 & H4). apply alloca_run_ok; auto.
    intros k. destruct (Z_le_gt_dec k (2 ^ 17)); [|right; lia].
    destruct (Z_le_gt_dec 0 k); [left; apply Hst; auto|right; lia].
  - intros H. apply alloca_run_panics; auto. destruct Hl as [(V1 & _) _]. destruct Hn as [Hn _].
    destruct (Z.eq_dec (lsize l) 0); [auto|]. destruct (Z.eq_dec n 0); [auto|].
    destruct (Z_le_gt_dec (lsize l * (n + 1)) (2 ^ 20)); [|right; right; left; lia].
    destruct (debug t) eqn:Ed.
    + right; right; right. split; [reflexivity|].
      destruct (Z_le_gt_dec ua (usize_align t)); [|lia]. exfalso. apply H. repeat split; auto; lia.
    + exfalso. apply H. repeat split; auto; lia.
Qed.
Print Assumptions C26_alloca_run.

(** C26, the constructor: it succeeds exactly when [n + 1] elements have a layout; for [n = usize::MAX] a
    debug build panics and a release build accepts (the following [run] then panics, see above). *)
Theorem C26_alloca_new : forall t l n,
  valid_target t -> type_layout t l -> is_usize t n ->
  (n < usize_max t ->
   alloca_new t l n =
   Ret (if lsize l * (n + 1) <=? isize_max t - (isize_max t mod lalign l) then Some n else None)) /\
  (n = usize_max t ->
   alloca_new t l n = if debug t then Panic PA_add else Ret (Some n)).
Proof.
  intros t l n Ht [Hvl [q Hq]] [Hn0 Hn1]. pose proof (valid_layout_align t l Hvl) as Ha. split.
  - intros Hlt. unfold alloca_new. rewrite op_add_ok by lia. cbn [obind]. do 2 f_equal.
    pose proof (Z.div_mod (isize_max t) (lalign l) ltac:(lia)) as Hdm.
    pose proof (Z.mod_pos_bound (isize_max t) (lalign l) Ha) as Hmb.
    assert (Hup : align_up (lsize l * (n + 1)) (lalign l) = lsize l * (n + 1)).
    { apply (align_up_mult _ _ (q * (n + 1))); [exact Ha|nia]. }
    destruct Hvl as (V1 & V2 & V3 & V4).
    destruct (layout_array t l (n + 1)) as [la|] eqn:E; destruct (Z.leb_spec (lsize l * (n + 1)) (isize_max t - isize_max t mod lalign l)); try reflexivity; exfalso.
    + apply (layout_array_spec t l _ la Ht) in E. destruct E as [-> (W1 & W2 & W3 & W4)]. cbn [lsize lalign] in *.
      rewrite Hup in W4.
      assert (lsize l * (n + 1) = lalign l * (q * (n + 1))) by nia.
      assert (q * (n + 1) <= isize_max t / lalign l) by nia. nia.
    + assert (layout_array t l (n + 1) = Some {| lsize := lsize l * (n + 1); lalign := lalign l |}); [|congruence].
      apply (layout_array_spec t l _ _ Ht). split; [reflexivity|]. split; cbn [lsize lalign]; [nia|].
      split; [exact V2|]. split; [exact V3|]. rewrite Hup. lia.
  - intros ->. unfold alloca_new, op_add. destruct (Z.leb_spec (usize_max t + 1) (usize_max t)); [lia|].
    destruct (debug t); [reflexivity|]. cbn [obind]. unfold wrap, usize_max.
    replace (addr_space t - 1 + 1) with (addr_space t) by lia. rewrite Z.mod_same by (pose proof (addr_space_pos t Ht); lia).
    assert (layout_array t l 0 = Some {| lsize := lsize l * 0; lalign := lalign l |}) as ->; [|reflexivity].
    destruct Hvl as (V1 & V2 & V3 & V4). apply (layout_array_spec t l _ _ Ht). split; [reflexivity|].
    split; cbn [lsize lalign]; [lia|]. split; [exact V2|]. split; [exact V3|]. rewrite Z.mul_0_r.
    unfold align_up. rewrite Z.opp_0, Z.mod_0_l by lia. pose proof (pow2_pos _ V2). lia.
Qed.
Print Assumptions C26_alloca_new.

Definition ex_stack (_ : layout) : Z := 8192.
Example C26_stack_ok : stack_ok (x64 true) 8 ex_stack.
Proof.
  intros k Hk. change (2 ^ 17) with 131072 in Hk.
  assert (H : 8 + 8 * k <= lsize (bump_layout (x64 true) (u64_array 8 k)) <= 8 + 8 * k + 8).
  { unfold bump_layout, u64_array. cbn [lsize lalign]. change (bump_offset _ _) with 8. change (Z.max _ _) with 8.
    unfold align_up. pose proof (Z.mod_pos_bound (- (8 + 8 * k)) 8 ltac:(lia)). lia. }
  assert (Hi : isize_max (x64 true) = 9223372036854775807) by reflexivity.
  assert (Ha : addr_space (x64 true) = 18446744073709551616) by reflexivity.
  split; [reflexivity|]. rewrite Hi, Ha. cbn [size start]. unfold ex_stack. lia.
Qed.

Example C26_nonvacuous :
  alloca_run (x64 true) 8 ex_stack ex_u64 5 = Ret (MkBlock 8200 40) /\
  alloca_run (x64 true) 8 (fun _ => 8200) {| lsize := 32; lalign := 32 |} 3 = Ret (MkBlock 8224 96) /\
  alloca_run (x64 true) 8 ex_stack ex_u64 0 = Panic PU_size /\
  alloca_run (x64 true) 8 ex_stack ex_zst 5 = Panic PU_size /\
  alloca_run (x64 true) 8 ex_stack ex_u64 131071 = Ret (MkBlock 8200 1048568) /\
  alloca_run (x64 true) 8 ex_stack ex_u64 131072 = Panic PA_big.
Proof. repeat split. Qed.

(** The expected claim "any Alloca of at most 1 MiB runs" is false: no elements. *)
Theorem C26_alloca_small_enough_refuted : exists t ua l n,
  valid_target t /\ type_layout t l /\ alloca_new t l n = Ret (Some n) /\ lsize l * n <= 64 /\
  forall stack, exists m, alloca_run t ua stack l n = Panic m.
Proof.
  exists (x64 false), 8, ex_u64, 0. split; [exact ex_target_ok|]. split; [apply ex_layouts_ok|].
  split; [reflexivity|]. split; [vm_compute; discriminate|]. intros stack. apply alloca_run_panics; auto.
  - exact ex_target_ok.
  - vm_compute; discriminate.
  - exists 3. split; [lia|reflexivity].
  - lia.
  - apply ex_layouts_ok.
  - vm_compute. split; congruence.
Qed.
Print Assumptions C26_alloca_small_enough_refuted.
