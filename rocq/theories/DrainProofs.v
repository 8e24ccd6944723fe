(** * DrainProofs: a drain is the queue of the drained elements. *)
From Coq Require Import Permutation.
From Verif Require Import Base Spec BaseFacts UninitModel UninitSpec UninitProofs FixedVecModel FixedVecSpec FixedVecProofs DrainModel DrainSpec.

(** [v]: the vector before the drain; [F], [G]: what has been taken from the front and the back (still lying in memory). *)
Definition session (t : target) (l : layout) (v : fvec) (cap : Z) (A B C : list elem) (h : eheap) (d : drain) (q : list elem) : Prop :=
  exists F G, vec_rep t l h v cap (A ++ (F ++ q ++ G) ++ C) /\ len (F ++ q ++ G) = len B /\
    dstart d = len F /\ dend d = len F + len q /\ dtail d = len B /\ dtail_len d = len C /\ delements d = slot l v (len A).

Lemma session_rep t l v cap A B C h d q : session t l v cap A B C h d q -> drain_rep l h d q.
Proof.
  intros (F & G & (_ & _ & _ & _ & S & _) & L & D1 & D2 & _ & _ & D5). split; [|lia].
  rewrite D5, D1. unfold slot. rewrite <- Z.add_assoc, <- Z.mul_add_distr_r.
  apply slots_app in S as [_ S]. apply slots_app in S as [S _]. apply slots_app in S as [_ S]. apply slots_app in S as [S _].
  replace (uptr (funinit v) + (len A + len F) * lsize l) with (uptr (funinit v) + len A * lsize l + len F * lsize l) by lia. exact S.
Qed.

Lemma upd_nth_app_r {X} (a b : list X) k x : upd_nth (length a + k) x (a ++ b) = a ++ upd_nth k x b.
Proof. induction a as [|y a IH]; cbn; [reflexivity|]. f_equal. exact IH. Qed.
Lemma upd_nth_app_l {X} (a b : list X) k x : (k < length a)%nat -> upd_nth k x (a ++ b) = upd_nth k x a ++ b.
Proof. revert k. induction a as [|y a IH]; intros [|k] H; cbn in *; try lia; [reflexivity|]. f_equal. apply IH. lia. Qed.

Lemma session_upd t l v cap A B C h d q k y e :
  valid_target t -> session t l v cap A B C h d q -> nth_error q k = Some y -> (lsize l = 0 -> e = 0) ->
  let a := delements d + dstart d * lsize l + Z.of_nat k * lsize l in
  h_read l h a = Some y /\ session t l v cap A B C (h_write l h a e) d (upd_nth k e q) /\
  same_outside (region (funinit v)) h (h_write l h a e).
Proof.
  intros Ht (F & G & R & L & D1 & D2 & D3 & D4 & D5) N E a.
  assert (K : (k < length q)%nat) by (apply nth_error_Some; congruence).
  assert (Ea : a = slot l v (Z.of_nat (length A + (length F + k)))).
  { unfold a. rewrite D5, D1. unfold slot, len. nia. }
  assert (N' : nth_error (A ++ (F ++ q ++ G) ++ C) (length A + (length F + k)) = Some y).
  { rewrite nth_error_app2 by lia. replace (_ + _ - length A)%nat with (length F + k)%nat by lia.
    rewrite <- app_assoc. rewrite nth_error_app2 by lia. replace (_ + _ - length F)%nat with k by lia.
    rewrite nth_error_app1 by (rewrite app_length; lia). rewrite nth_error_app1 by lia. exact N. }
  destruct (rep_upd t l h v cap _ _ y e Ht R N' E) as (H1 & H2 & H3). rewrite Ea. split; [exact H1|]. split; [|exact H3].
  exists F, G. assert (LU : len (upd_nth k e q) = len q) by (unfold len; rewrite upd_nth_length; reflexivity).
  split.
  - rewrite upd_nth_app_r in H2. rewrite <- (app_assoc F) in H2. rewrite upd_nth_app_r in H2.
    rewrite upd_nth_app_l in H2 by (rewrite app_length; lia). rewrite upd_nth_app_l in H2 by exact K. rewrite <- (app_assoc F). exact H2.
  - assert (LU2 : dend d = len F + len (upd_nth k e q)) by (rewrite D2; f_equal; symmetry; exact LU).
    split; [|auto 6]. rewrite <- L, !len_app. do 2 f_equal. exact LU.
Qed.

Lemma put_is_write l h a e : h_put l h a (Some e) = h_write l h a e.
Proof. reflexivity. Qed.

Lemma dstep_spec t l v cap A B C h d q o :
  valid_target t -> session t l v cap A B C h d q -> valid_dop t l o ->
  exists h' d', dstep l h d o = (h', d', in_slots (snd (qstep q o))) /\ session t l v cap A B C h' d' (fst (qstep q o)) /\
    same_outside (region (funinit v)) h h'.
Proof.
  intros Ht S VO. pose proof (session_rep _ _ _ _ _ _ _ _ _ _ S) as R. pose proof S as (F & G & Rv & L & D1 & D2 & D3 & D4 & D5).
  assert (DL : d_len d = len q) by (unfold d_len; lia).
  pose proof (len_nonneg q) as LQ.
  destruct o as [| | | | | |k e|j k]; cbn [dstep qstep].
  - pose proof (next_spec l h d q R) as N. destruct q as [|y q].
    + rewrite N. exists h, d. split; [reflexivity|]. split; [exact S|apply same_outside_refl].
    + unfold d_next, d_is_empty in *. destruct (Z.eqb_spec (dstart d) (dend d)); [rewrite len_cons in D2; pose proof (len_nonneg q); lia|].
      destruct N as (d' & N & _). injection N as N1 N2. rewrite N2. do 2 eexists. split; [reflexivity|]. split; [|apply same_outside_refl].
      exists (F ++ [y]), G. rewrite <- (app_assoc F). cbn [app dstart dend dtail dtail_len delements]. rewrite len_cons in *.
      split; [exact Rv|]. split; [exact L|]. rewrite len_app. change (len [y]) with 1. cbn [fst]. repeat split; lia.
  - pose proof (next_back_spec l h d q R) as N. destruct q as [|y q].
    + rewrite N. exists h, d. split; [reflexivity|]. split; [exact S|apply same_outside_refl].
    + remember (y :: q) as yq eqn:Eq. unfold d_next_back, d_is_empty in *.
      assert (0 < len yq) by (subst yq; rewrite len_cons; pose proof (len_nonneg q); lia).
      destruct (Z.eqb_spec (dstart d) (dend d)); [lia|].
      destruct N as (d' & N & _). injection N as N1 N2. rewrite N2.
      cbn [fst snd in_slots option_map]. do 2 eexists. split; [reflexivity|]. split; [|apply same_outside_refl].
      destruct (@exists_last _ yq) as (zs & z & Ez); [subst; discriminate|]. clear Eq. subst yq. rewrite removelast_last.
      assert (EQ : (zs ++ [z]) ++ G = zs ++ z :: G) by (rewrite <- app_assoc; reflexivity). rewrite EQ in Rv, L.
      assert (LZ : len (zs ++ [z]) = len zs + 1) by (rewrite len_app; reflexivity). rewrite LZ in *.
      exists F, (z :: G). cbn [dstart dend dtail dtail_len delements]. split; [exact Rv|]. split; [exact L|]. repeat split; lia.
  - exists h, d. split; [|split; [exact S|apply same_outside_refl]]. cbn [snd in_slots]. do 2 f_equal.
    unfold d_as_slice. rewrite DL. apply read_slots_eq, R.
  - exists h, d. split; [|split; [exact S|apply same_outside_refl]]. cbn [snd in_slots]. rewrite DL. reflexivity.
  - exists h, d. split; [|split; [exact S|apply same_outside_refl]]. cbn [snd in_slots]. do 2 f_equal. unfold d_is_empty.
    destruct q as [|y q]; [rewrite len_nil in D2; destruct (Z.eqb_spec (dstart d) (dend d)); [reflexivity|lia]|].
    rewrite len_cons in D2. pose proof (len_nonneg q). destruct (Z.eqb_spec (dstart d) (dend d)); [lia|reflexivity].
  - exists h, d. split; [|split; [exact S|apply same_outside_refl]]. cbn [snd in_slots]. unfold d_size_hint.
    destruct (Z.ltb_spec (dstart d) (dend d)); cbn [fst snd]; [replace (dend d - dstart d) with (len q) by lia|replace (len q) with 0 by lia]; reflexivity.
  - destruct VO as ((K0 & _) & VE). unfold d_replace. rewrite DL. destruct (nth_error q (Z.to_nat k)) as [old|] eqn:N.
    + assert (k < len q) by (unfold len; assert (Z.to_nat k < length q)%nat by (apply nth_error_Some; congruence); lia).
      destruct (Z.ltb_spec k (len q)); [|lia]. destruct (session_upd _ _ _ _ _ _ _ _ _ _ _ _ e Ht S N VE) as (H1 & H2 & H3).
      rewrite Z2Nat.id in * by lia. rewrite H1. do 2 eexists. split; [reflexivity|]. auto.
    + apply nth_error_None in N. unfold len in *. destruct (Z.ltb_spec k (Z.of_nat (length q))); [lia|].
      exists h, d. split; [reflexivity|]. split; [exact S|apply same_outside_refl].
  - destruct VO as ((J0 & _) & (K0 & _)). unfold d_swap. rewrite DL. destruct (nth_error q (Z.to_nat j)) as [x|] eqn:NJ; cycle 1.
    { apply nth_error_None in NJ. unfold len in *. destruct (Z.ltb_spec j (Z.of_nat (length q))); [lia|].
      exists h, d. split; [reflexivity|]. split; [exact S|apply same_outside_refl]. }
    assert (j < len q) by (unfold len; assert (Z.to_nat j < length q)%nat by (apply nth_error_Some; congruence); lia).
    destruct (Z.ltb_spec j (len q)); [|lia]. destruct (nth_error q (Z.to_nat k)) as [y|] eqn:NK; cycle 1.
    { apply nth_error_None in NK. unfold len in *. destruct (Z.ltb_spec k (Z.of_nat (length q))); [lia|].
      exists h, d. split; [reflexivity|]. split; [exact S|apply same_outside_refl]. }
    assert (k < len q) by (unfold len; assert (Z.to_nat k < length q)%nat by (apply nth_error_Some; congruence); lia).
    destruct (Z.ltb_spec k (len q)); [|lia]. cbv iota.
    assert (ZQ : lsize l = 0 -> x = 0 /\ y = 0).
    { intros E0. destruct Rv as (_ & _ & _ & _ & _ & Hz). specialize (Hz E0). rewrite Forall_forall in Hz.
      split; apply Hz; apply in_or_app; right; apply in_or_app; left; apply in_or_app; right; apply in_or_app; left; eapply nth_error_In; eassumption. }
    destruct (session_upd _ _ _ _ _ _ _ _ _ _ _ _ y Ht S NJ ltac:(apply ZQ)) as (K1 & K2 & K3).
    destruct (session_upd _ _ _ _ _ _ _ _ _ _ _ _ y Ht S NK ltac:(apply ZQ)) as (K1' & _).
    rewrite Z2Nat.id in * by lia. rewrite K1, K1', !put_is_write.
    assert (NK' : exists y', nth_error (upd_nth (Z.to_nat j) y q) (Z.to_nat k) = Some y').
    { destruct (nth_error (upd_nth (Z.to_nat j) y q) (Z.to_nat k)) eqn:E; [eauto|].
      apply nth_error_None in E. rewrite upd_nth_length in E. unfold len in *. lia. }
    destruct NK' as (y' & NK'). destruct (session_upd _ _ _ _ _ _ _ _ _ _ _ _ x Ht K2 NK' ltac:(apply ZQ)) as (_ & K4 & K5).
    rewrite Z2Nat.id in * by lia. do 2 eexists. split; [reflexivity|]. split; [exact K4|]. intros z Z. rewrite (K5 z Z). apply (K3 z Z).
Qed.

Lemma drun_spec t l v cap A B C os : valid_target t -> forall h d q, session t l v cap A B C h d q -> Forall (valid_dop t l) os ->
  exists h' d', drun l h d os = (h', d', map in_slots (snd (qrun q os))) /\ session t l v cap A B C h' d' (fst (qrun q os)) /\
    same_outside (region (funinit v)) h h'.
Proof.
  intros Ht. induction os as [|o os IH]; intros h d q S V; cbn [drun qrun].
  - exists h, d. split; [reflexivity|]. split; [exact S|apply same_outside_refl].
  - inversion V as [|? ? V1 V2]; subst. destruct (dstep_spec t l v cap A B C h d q o Ht S V1) as (h1 & d1 & E & S1 & F1). rewrite E.
    destruct (qstep q o) as [q1 r]. cbn [fst snd] in *. destruct (IH h1 d1 q1 S1 V2) as (h2 & d2 & E2 & S2 & F2). rewrite E2.
    destruct (qrun q1 os) as [q2 rs]. cbn [fst snd map] in *. exists h2, d2. split; [reflexivity|]. split; [exact S2|].
    intros z Z. rewrite (F2 z Z). apply (F1 z Z).
Qed.

Lemma session_start t l w v cap A B C lo hi : valid_target t -> vec_rep t l (wheap w) v cap (A ++ B ++ C) ->
  valid_bound t true lo -> valid_bound t false hi -> range_start lo = len A -> range_end hi (len (A ++ B ++ C)) = len A + len B ->
  exists d, f_drain t l v lo hi = Ret ({| funinit := funinit v; flen := len A |}, d) /\ session t l v cap A B C (wheap w) d B.
Proof.
  intros Ht R Hlo Hhi HS HE. pose proof (rep_facts t l (wheap w) v cap _ Ht R) as (_ & F2 & _). pose proof R as (_ & _ & Hl & Hc & _).
  pose proof (len_nonneg A). pose proof (len_nonneg B). pose proof (len_nonneg C). pose proof (len_nonneg (A ++ B ++ C)).
  destruct (drain_start_spec t l v lo hi Ht ltac:(lia) Hlo Hhi) as [D1 _]. rewrite Hl, HS, HE in D1. rewrite !len_app in *.
  rewrite D1 by lia. eexists. split; [reflexivity|]. exists [], []. cbn [app]. rewrite app_nil_r. cbn. change (len []) with 0.
  split; [exact R|]. repeat split; lia.
Qed.

Lemma session_forget t l v cap A B C h d q : session t l v cap A B C h d q ->
  vec_rep t l h {| funinit := funinit v; flen := len A |} cap A.
Proof.
  intros (F & G & R & _). pose proof (len_nonneg A) as LA. pose proof (len_nonneg ((F ++ q ++ G) ++ C)).
  pose proof (rep_take _ _ _ _ _ _ (len A) R ltac:(rewrite len_app; lia)) as R'.
  replace (take (len A) (A ++ (F ++ q ++ G) ++ C)) with A in R'; [exact R'|].
  unfold take, len. rewrite Nat2Z.id, firstn_app, Nat.sub_diag, firstn_all. cbn. rewrite app_nil_r. reflexivity.
Qed.

Lemma session_drop t boom l v cap A B C w d q : valid_target t -> session t l v cap A B C (wheap w) d q ->
  let '(dd, p) := drop_seq boom q in
  exists w' v', d_drop boom l w {| funinit := funinit v; flen := len A |} d = (w', v', p) /\ funinit v' = funinit v /\
    wdrops w' = wdrops w ++ map Some dd /\ same_outside (region (funinit v)) (wheap w) (wheap w') /\
    vec_rep t l (wheap w') v' cap (if p then A else A ++ C).
Proof.
  intros Ht S. pose proof (session_rep _ _ _ _ _ _ _ _ _ _ S) as Rd. pose proof (session_forget _ _ _ _ _ _ _ _ _ _ S) as Hr1.
  destruct S as (F & G & Hr & L & D1 & D2 & D3 & D4 & D5).
  pose proof (drop_loop_spec boom l q w d Rd) as Hdl. destruct (drop_seq boom q) as [dd p].
  destruct Hdl as (d2 & Ed2 & U1 & U2 & U3). unfold d_drop.
  assert (Efuel : Z.to_nat (d_len d) = length q) by (unfold d_len, len in *; lia).
  rewrite Efuel, Ed2. destruct (rep_facts t l (wheap w) v cap _ Ht Hr) as (F1 & F2 & F3 & F4 & F5 & F6 & F7).
  pose proof Hr as (Hw & Hc & Hl & Hlc & Hs & Hz). pose proof (len_nonneg A) as LA. pose proof (len_nonneg B) as LB. pose proof (len_nonneg C) as LC.
  remember (F ++ q ++ G) as M eqn:EM. clear EM. rewrite !len_app, L in *. rewrite <- L in *.
  apply slots_app in Hs as [SA SBC]. apply slots_app in SBC as [SB SC].
  destruct p.
  - do 2 eexists. split; [reflexivity|]. split; [reflexivity|]. split; [reflexivity|].
    split; [apply same_outside_refl|]. exact Hr1.
  - rewrite U2, D4, U1, D3, U3, D5.
    destruct (Z.eqb_spec (len C) 0) as [Ez|Enz].
    + do 2 eexists. split; [reflexivity|]. split; [reflexivity|]. split; [reflexivity|].
      split; [apply same_outside_refl|]. assert (C = []) as ->.
      { destruct C; [reflexivity|]. rewrite len_cons in Ez. pose proof (len_nonneg C). lia. }
      rewrite app_nil_r. exact Hr1.
    + do 2 eexists. split; [reflexivity|]. split; [reflexivity|]. split; [reflexivity|].
      cbn [wheap dropped].
      assert (Hfr : same_outside (region (funinit v)) (wheap w) (h_copy l (wheap w) (slot l v (len A) + len M * lsize l) (slot l v (len A)) (len C))).
      { apply copy_frame; [exact F1|lia|]. intros Hp. apply inside_intro; cbn; unfold slot; nia. }
      assert (Hfr2 : same_outside (MkBlock (slot l v (len A)) (len C * lsize l)) (wheap w) (h_copy l (wheap w) (slot l v (len A) + len M * lsize l) (slot l v (len A)) (len C))).
      { apply copy_frame; [exact F1|lia|]. intros Hp x Hx. exact Hx. }
      split; [exact Hfr|].
      split; [exact Hw|]. split; [exact Hc|]. cbn [flen funinit].
      split; [rewrite len_app; lia|]. split; [rewrite len_app; lia|]. split.
      * apply slots_app. split.
        -- eapply slots_frame; [exact F1|exact Hfr2| |exact SA]. apply disjoint_intro. cbn. unfold slot. lia.
        -- apply (copy_spec l (wheap w) _ _ C M); auto.
           intros E0. specialize (Hz E0). apply Forall_app in Hz as [_ Hz]. apply Forall_app in Hz. apply Hz.
      * intros E0. specialize (Hz E0). apply Forall_app in Hz as [Z1 Hz]. apply Forall_app in Hz as [Z2 Z3].
        apply Forall_app. auto.
Qed.

(** ** Every element once *)
Lemma upd_nth_at {X} (q : list X) k x i : nth_error (upd_nth k x q) i = if (i =? k)%nat then option_map (fun _ => x) (nth_error q i) else nth_error q i.
Proof. revert k i. induction q as [|z q IH]; intros [|k] [|i]; cbn; auto. all: try (destruct (_ =? _)%nat; reflexivity). Qed.

Lemma upd_nth_perm {X} (q : list X) k x y : nth_error q k = Some y -> Permutation (y :: upd_nth k x q) (x :: q).
Proof.
  revert k. induction q as [|z q IH]; intros [|k] N; cbn in *; try discriminate.
  - injection N as ->. apply perm_swap.
  - transitivity (z :: y :: upd_nth k x q); [apply perm_swap|]. transitivity (z :: x :: q); [constructor; apply IH, N|apply perm_swap].
Qed.

Lemma qstep_perm q o : Permutation (received (snd (qstep q o)) ++ fst (qstep q o)) (q ++ handed o (snd (qstep q o))).
Proof.
  destruct o as [| | | | | |k e|j k]; cbn [qstep]; try (cbn; rewrite app_nil_r; reflexivity).
  - destruct q; cbn; rewrite ?app_nil_r; reflexivity.
  - destruct q as [|y q]; [reflexivity|]. remember (y :: q) as yq. destruct (@exists_last _ yq) as (zs & z & Ez); [subst; discriminate|].
    clear Heqyq. subst yq. rewrite removelast_last, last_app_single. cbn. rewrite app_nil_r. apply Permutation_cons_append.
  - destruct (nth_error q (Z.to_nat k)) as [old|] eqn:N; cbn; [|rewrite app_nil_r; reflexivity].
    rewrite (upd_nth_perm q _ e old N). apply Permutation_cons_append.
  - destruct (nth_error q (Z.to_nat j)) as [x|] eqn:NJ; [|cbn; rewrite app_nil_r; reflexivity].
    destruct (nth_error q (Z.to_nat k)) as [y|] eqn:NK; cbn; rewrite app_nil_r; [|reflexivity].
    assert (P1 := upd_nth_perm q _ y x NJ).
    assert (N' : nth_error (upd_nth (Z.to_nat j) y q) (Z.to_nat k) = Some y).
    { rewrite upd_nth_at. destruct (Nat.eqb_spec (Z.to_nat k) (Z.to_nat j)) as [E|E]; [rewrite NK; reflexivity|exact NK]. }
    assert (P2 := upd_nth_perm _ _ x y N'). apply (Permutation_cons_inv (a := y)). rewrite P2. exact P1.
Qed.

Lemma qrun_perm os : forall q, let '(q', rs) := qrun q os in Permutation (all_received rs ++ q') (q ++ all_handed os rs).
Proof.
  induction os as [|o os IH]; intros q; cbn [qrun].
  - cbn. rewrite app_nil_r. reflexivity.
  - pose proof (qstep_perm q o) as P. destruct (qstep q o) as [q1 r]. specialize (IH q1). destruct (qrun q1 os) as [q2 rs]. cbn [fst snd] in *.
    unfold all_received, all_handed in *. cbn [map concat combine fst snd]. rewrite <- app_assoc, IH, !app_assoc. apply Permutation_app_tail. exact P.
Qed.
