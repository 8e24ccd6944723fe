(** * AllocaProofs *)
From Verif Require Import Base Spec BaseFacts SyncModel SyncSpec SyncProofs UnsyncModel UnsyncSpec UnsyncProofs
  AllocaModel.

Lemma alloca_pick_spec r :
  match alloca_pick r alloca_sizes with
  | Some k => r <= 8 * k <= 2 ^ 20 /\ 1 <= k /\ r <= 2 ^ 20 /\ (8 * k = 8 \/ 8 * k < 2 * r) /\ is_pow2 k
  | None => 2 ^ 20 < r
  end.
Proof.
  let v := eval vm_compute in alloca_sizes in change alloca_sizes with v. cbn [alloca_pick].
  change (2 ^ 20) with 1048576.
  repeat match goal with
  | |- context [?x <=? ?y] => destruct (Z.leb_spec x y)
  end; try lia;
  (split; [lia|]; split; [lia|]; split; [lia|]; split; [lia|];
   match goal with |- is_pow2 ?k => let e := eval vm_compute in (Z.log2 k) in exists e; split; [lia|reflexivity] end).
Qed.

Lemma op_add_ok t m a b : a + b <= usize_max t -> op_add t m a b = Ret (a + b).
Proof. intros H. unfold op_add. destruct (Z.leb_spec (a + b) (usize_max t)); [reflexivity|lia]. Qed.

(** Elements whose array of [n + 1] is a layout *)
Lemma alloca_run_ok t ua stack l n :
  valid_target t -> 4 <= word_bytes t -> is_pow2 ua -> ua <= 8 ->
  type_layout t l -> is_usize t n -> 0 < lsize l -> 1 <= n -> lsize l * (n + 1) <= 2 ^ 20 ->
  (debug t = false \/ ua <= usize_align t) ->
  (forall k, valid_region t (MkBlock (stack (bump_layout t (u64_array ua k)))
                                     (lsize (bump_layout t (u64_array ua k)))) \/ ~ (0 <= k <= 2 ^ 17)) ->
  exists k b, alloca_run t ua stack l n = Ret b /\
    is_pow2 k /\ lsize l * (n + 1) <= 8 * k /\ (8 * k = 8 \/ 8 * k < 2 * (lsize l * (n + 1))) /\
    aligned (start b) (lalign l) /\ size b = lsize l * n /\
    inside b (MkBlock (stack (bump_layout t (u64_array ua k))) (lsize (bump_layout t (u64_array ua k)))).
Proof.
  intros Ht Hw Hua Hua8 Hl Hn Hp Hn1 Hsz Hdbg Hstack.
  assert (Hisz : 2 ^ 30 <= isize_max t).
  { destruct (proj1 Ht) as [E|[E|E]]; unfold isize_max, addr_space; rewrite E in *; try lia; vm_compute; congruence. }
  pose proof (isize_lt_usize t Ht) as Hlt.
  assert (Hnb : n + 1 <= 2 ^ 20) by nia.
  pose proof (valid_layout_align t l (proj1 Hl)) as Ha.
  destruct Hl as [Hvl [q Hq]].
  assert (Hla : layout_array t l (n + 1) = Some {| lsize := lsize l * (n + 1); lalign := lalign l |}).
  { apply (layout_array_spec t l (n + 1) _ Ht). split; [reflexivity|]. destruct Hvl as (V1 & V2 & V3 & V4).
    split; cbn [lsize lalign]; [nia|]. split; [exact V2|]. split; [exact V3|].
    rewrite (align_up_mult _ _ (q * (n + 1))); [|exact Ha|nia]. lia. }
  unfold alloca_run, padded_layout. rewrite op_add_ok by (unfold usize_max in *; lia). cbn [obind].
  rewrite Hla. cbn [obind lsize].
  pose proof (alloca_pick_spec (lsize l * (n + 1))) as Hpick.
  destruct (alloca_pick (lsize l * (n + 1)) alloca_sizes) as [k|]; [|lia].
  destruct Hpick as ([Hk1 Hk2] & Hk3 & _ & Hk4 & Hk5).
  exists k. unfold run_with.
  assert (HtI : type_layout t (u64_array ua k)).
  { split.
    - assert (lsize (u64_array ua k) = 8 * k) by reflexivity. pose proof (pow2_pos _ Hua).
      assert (Hdv : (ua | 8 * k)). { apply Z.divide_mul_l. apply pow2_divide; [exact Hua|exists 3; split; [lia|reflexivity]|lia]. }
      split; cbn [lsize lalign u64_array]; [lia|]. split; [exact Hua|]. split; [lia|]. rewrite align_up_id by assumption. lia.
    - cbn [lsize lalign u64_array]. apply Z.divide_mul_l. apply pow2_divide; [exact Hua|exists 3; split; [lia|reflexivity]|lia]. }
  destruct (deref_exact t (stack (bump_layout t (u64_array ua k))) (u64_array ua k) Ht HtI) as (D1 & _ & _ & D4 & _).
  rewrite (proj2 D1 Hdbg). cbn [obind].
  set (f := {| faddr := stack (bump_layout t (u64_array ua k)); flen := lsize (u64_array ua k) |}) in *.
  assert (Hreg : valid_region t (fat_data t f)).
  { destruct (Hstack k) as [(S1 & S2 & S3)|Hbig]; [|change (2 ^ 17) with 131072 in *; change (2 ^ 20) with 1048576 in *; lia].
    cbn [start size] in *. pose proof (word_pos t Ht). unfold f, fat_data, valid_region. cbn [start size faddr flen u64_array lsize].
    assert (word_bytes t + 8 * k <= lsize (bump_layout t (u64_array ua k))).
    { unfold bump_layout, bump_offset. cbn [lsize lalign u64_array].
      pose proof (align_up_ge (word_bytes t) ua (pow2_pos _ Hua)).
      pose proof (usize_align_pos t Ht).
      pose proof (align_up_ge (align_up (word_bytes t) ua + 8 * k) (Z.max (usize_align t) ua) ltac:(lia)). lia. }
    lia. }
  pose proof (bump_array_exact t (u_fresh (fat_data t f)) l n Ht (uok_fresh t _ Hreg) (conj Hvl (ex_intro _ q Hq)) Hn Hp ltac:(lia)) as [B1 _].
  cbv zeta in B1. cbn [udata u_fresh uindex] in B1. rewrite Z.add_0_r in B1.
  assert (Hva : valid_layout t {| lsize := lsize l * n; lalign := lalign l |}).
  { destruct Hvl as (V1 & V2 & V3 & V4). split; cbn [lsize lalign]; [nia|]. split; [exact V2|]. split; [exact V3|].
    rewrite (align_up_mult _ _ (q * n)); [|exact Ha|nia]. nia. }
  assert (Hfit : fits_in (fat_data t f) 0 {| lsize := lsize l * n; lalign := lalign l |}).
  { exists (align_up (start (fat_data t f)) (lalign l)). cbn [lalign lsize]. rewrite Z.add_0_r.
    split; [apply align_up_ge; exact Ha|]. split; [apply align_up_aligned; exact Ha|].
    assert (align_up (start (fat_data t f)) (lalign l) < start (fat_data t f) + lalign l).
    { unfold align_up. pose proof (Z.mod_pos_bound (- start (fat_data t f)) (lalign l) Ha). lia. }
    assert (lalign l <= lsize l) by (apply Z.divide_pos_le; [exact Hp|exists q; exact Hq]).
    assert (size (fat_data t f) = 8 * k) by reflexivity. nia. }
  destruct (B1 (conj Hva Hfit)) as (p & Hpf & Hst). cbn [ustep] in Hst.
  destruct (u_bump_array t (u_fresh (fat_data t f)) l n) as [u' r].
  destruct r as [[a|e]|e]; cbn in Hst; try discriminate. injection Hst as _ Hr. subst a. cbn [ptr] in *.
  eexists. split; [reflexivity|]. split; [exact Hk5|]. split; [exact Hk1|]. split; [exact Hk4|]. cbn [start size].
  split; [apply Hpf|]. split; [reflexivity|].
  intros x Hx. apply D4. unfold in_block in *. cbn [start size] in Hx.
  destruct Hpf as (P1 & P2 & P3). destruct Hfit as (y & Y1 & Y2 & Y3). cbn [lalign lsize] in *.
  specialize (P3 y ltac:(lia) Y2). lia.
Qed.

Lemma bump_array_empty t u l n :
  valid_target t -> valid_layout t l -> lsize l * n = 0 -> u_bump_array t u l n = (u, Panic PU_size).
Proof.
  intros Ht Hl Hz. unfold u_bump_array.
  assert (layout_array t l n = Some {| lsize := lsize l * n; lalign := lalign l |}) as ->.
  { apply (layout_array_spec t l n _ Ht). split; [reflexivity|]. rewrite Hz.
    destruct Hl as (V1 & V2 & V3 & V4). pose proof (pow2_pos _ V2). split; cbn [lsize lalign]; [lia|].
    split; [exact V2|]. split; [exact V3|]. unfold align_up. rewrite Z.opp_0, Z.mod_0_l by lia.
    pose proof (isize_lt_usize t Ht). lia. }
  rewrite Hz. unfold u_try_alloc, u_try_alloc_at. cbn. reflexivity.
Qed.

Lemma run_with_panics t ua stack l n k :
  valid_target t -> valid_layout t l ->
  (lsize l * n = 0 \/ layout_array t l n = None \/ (debug t = true /\ usize_align t < ua /\ is_pow2 ua /\ ua <= 8 /\ 1 <= k <= 2 ^ 17 /\ 4 <= word_bytes t)) ->
  exists m, run_with t ua stack l n k = Panic m.
Proof.
  intros Ht Hl H. unfold run_with.
  destruct (bump_deref t (stack (bump_layout t (u64_array ua k))) (u64_array ua k)) as [f|m] eqn:E; [|cbn; eauto].
  cbn [obind]. destruct H as [H|[H|(Hd & Hgt & Hua & Hua8 & Hk & Hw)]].
  - rewrite (bump_array_empty t _ l n Ht Hl H). eauto.
  - unfold u_bump_array. rewrite H. eauto.
  - exfalso. pose proof (pow2_pos _ Hua).
    assert (Hdv : (ua | 8 * k)). { apply Z.divide_mul_l. apply pow2_divide; [exact Hua|exists 3; split; [lia|reflexivity]|lia]. }
    assert (2 ^ 30 <= isize_max t).
    { destruct (proj1 Ht) as [E'|[E'|E']]; unfold isize_max, addr_space; rewrite E' in *; try lia; vm_compute; congruence. }
    assert (HtI : type_layout t (u64_array ua k)).
    { split; [|exact Hdv]. split; cbn [lsize lalign u64_array]; [lia|]. split; [exact Hua|].
      change (2 ^ 17) with 131072 in *. change (2 ^ 30) with 1073741824 in *.
      split; [lia|]. rewrite align_up_id by assumption. lia. }
    destruct (deref_exact t (stack (bump_layout t (u64_array ua k))) (u64_array ua k) Ht HtI) as (_ & D2 & _).
    destruct (proj2 D2 (conj Hd Hgt)) as [m Hm]. congruence.
Qed.

Lemma alloca_run_panics t ua stack l n :
  valid_target t -> 4 <= word_bytes t -> is_pow2 ua -> ua <= 8 ->
  type_layout t l -> is_usize t n ->
  (lsize l = 0 \/ n = 0 \/ 2 ^ 20 < lsize l * (n + 1) \/ (debug t = true /\ usize_align t < ua)) ->
  exists m, alloca_run t ua stack l n = Panic m.
Proof.
  intros Ht Hw Hua Hua8 [Hvl Hq] Hn H. unfold alloca_run, padded_layout.
  destruct (op_add t PA_add n 1) as [n1|m] eqn:Eadd; cbn [obind]; [|eauto].
  destruct (layout_array t l n1) as [la|] eqn:Ela; cbn [obind]; [|eauto].
  apply (layout_array_spec t l n1 la Ht) in Ela. destruct Ela as [-> Hva]. cbn [lsize].
  pose proof (alloca_pick_spec (lsize l * n1)) as Hpick.
  destruct (alloca_pick (lsize l * n1) alloca_sizes) as [k|]; [|eauto].
  destruct Hpick as ([Hk1 Hk2] & Hk3 & Hk4 & _).
  apply run_with_panics; [exact Ht|exact Hvl|].
  unfold op_add in Eadd. destruct (Z.leb_spec (n + 1) (usize_max t)).
  - injection Eadd as <-. destruct H as [H|[H|[H|[H H']]]].
    + left. rewrite H. lia.
    + left. rewrite H. lia.
    + lia.
    + right. right. change (2 ^ 20) with 1048576 in *. change (2 ^ 17) with 131072. repeat split; auto; lia.
  - destruct Hn as [Hn0 Hn1]. assert (n = usize_max t) by lia. subst n.
    destruct (Z.eq_dec (lsize l) 0) as [Hz|Hz]; [left; rewrite Hz; lia|]. right. left.
    destruct (layout_array t l (usize_max t)) as [la|] eqn:E; [|reflexivity]. exfalso.
    apply (layout_array_spec t l _ la Ht) in E. destruct E as [-> (W1 & W2 & W3 & W4)]. cbn [lsize lalign] in *.
    pose proof (align_up_ge (lsize l * usize_max t) (lalign l) (pow2_pos _ W2)).
    pose proof (isize_lt_usize t Ht). destruct Hvl as (V1 & _).
    assert (1 * usize_max t <= lsize l * usize_max t) by (apply Z.mul_le_mono_nonneg_r; unfold is_usize, usize_max in *; lia).
    unfold usize_max in *. lia.
Qed.
