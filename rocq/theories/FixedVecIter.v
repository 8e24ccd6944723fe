(** * FixedVecIter: fill and extend with arbitrary iterators; vectors in terms of [vec_ok] *)
From Verif Require Import Base Spec BaseFacts SyncProofs UninitModel UninitSpec UninitProofs
  FixedVecModel FixedVecSpec FixedVecProofs FixedVecPool.

Lemma rep_ok t l h v cap xs : valid_target t -> vec_rep t l h v cap xs -> vec_ok t l h v xs /\ f_capacity t l v = cap /\ flen v = len xs.
Proof.
  intros Ht Hr. pose proof (rep_facts _ _ _ _ _ _ Ht Hr) as (_ & F2 & _). pose proof (holds_rep _ _ _ _ _ _ Hr).
  destruct Hr as (H1 & H2 & H3 & H4 & H5 & H6). unfold vec_ok, f_capacity. pose proof (len_nonneg xs).
  split; [|auto]. split; [exact H1|]. split; [lia|assumption].
Qed.

Lemma ok_rep t l h v xs : vec_ok t l h v xs -> vec_rep t l h v (f_capacity t l v) xs.
Proof.
  intros (H1 & H2 & H3).
  assert (Hl : flen v = len xs).
  { unfold holds, f_as_slice, read_slots in H3. apply (f_equal (@length _)) in H3.
    rewrite !map_length, upto_length in H3. unfold len. lia. }
  unfold holds, f_as_slice in H3. rewrite Hl in H3. apply read_slots_eq in H3. unfold slot in H3. rewrite Z.mul_0_l, Z.add_0_r in H3.
  split; [exact H1|]. split; [reflexivity|]. split; [exact Hl|]. split; [lia|]. split; [exact H3|].
  intros Ez. apply Forall_forall. intros x Hx. apply In_nth_error in Hx as [i Hi]. specialize (H3 i x Hi).
  unfold h_read in H3. rewrite Ez in H3. cbn in H3. congruence.
Qed.

Lemma ok_len t l h v xs : vec_ok t l h v xs -> flen v = len xs.
Proof. intros H. apply ok_rep in H. apply H. Qed.

Lemma fill_gen {S} (next : S -> inext S) t l : valid_target t ->
  (lsize l = 0 -> forall s e s', next s = ISome e s' -> e = 0) ->
  forall n s h v cap xs, vec_rep t l h v cap xs -> Z.of_nat n = cap - len xs ->
  exists items s' how h' v', yields next s items s' how /\
    fill_loop next l h v n s = (h', v', s', match how with Panicked => true | _ => false end) /\
    vec_rep t l h' v' cap (xs ++ items) /\ funinit v' = funinit v /\ same_outside (region (funinit v)) h h' /\
    (how = Unasked <-> len items = cap - len xs).
Proof.
  intros Ht Hz. induction n as [|n IH]; intros s h v cap xs Hr Hn; cbn [fill_loop].
  - exists [], s, Unasked, h, v. split; [constructor|]. split; [reflexivity|]. rewrite app_nil_r. split; [exact Hr|].
    split; [reflexivity|]. split; [apply same_outside_refl|]. change (len (@nil elem)) with 0. split; [lia|reflexivity].
  - destruct (next s) as [s1|e s1|s1] eqn:En.
    + exists [], s1, Exhausted, h, v. split; [constructor; exact En|]. split; [reflexivity|]. rewrite app_nil_r. split; [exact Hr|].
      split; [reflexivity|]. split; [apply same_outside_refl|]. change (len (@nil elem)) with 0. split; [discriminate|lia].
    + destruct (rep_facts t l h v cap xs Ht Hr) as (F1 & F2 & F3 & F4 & F5 & F6 & F7).
      pose proof Hr as (Hw & Hc & Hl & Hlc & Hs & Hzz).
      assert (He0 : lsize l = 0 -> e = 0) by (intros E0; eapply Hz; eassumption).
      assert (Hr1 : vec_rep t l (h_write l h (slot l v (flen v)) e) {| funinit := funinit v; flen := flen v + 1 |} cap (xs ++ [e])).
      { split; [exact Hw|]. split; [exact Hc|]. cbn [flen funinit]. rewrite len_app. change (len [e]) with 1.
        split; [lia|]. split; [lia|]. unfold slot. rewrite Hl. split.
        - apply slots_write; auto.
        - intros E0. apply Forall_app. split; [apply Hzz, E0|]. constructor; [apply He0, E0|constructor]. }
      assert (Hf1 : same_outside (region (funinit v)) h (h_write l h (slot l v (flen v)) e)).
      { apply write_frame; [exact F1|]. intros Hp. unfold slot, in_block, region. cbn. rewrite Hl. pose proof (len_nonneg xs). nia. }
      destruct (IH s1 _ _ _ _ Hr1) as (items & s' & how & h' & v' & Y & E & R' & U & Fr & Hh).
      { rewrite len_app. change (len [e]) with 1. lia. }
      exists (e :: items), s', how, h', v'. split; [econstructor; eassumption|]. split; [exact E|].
      split; [rewrite <- app_assoc in R'; exact R'|]. split; [exact U|]. cbn [funinit] in Fr.
      split; [eapply same_outside_trans; eassumption|]. rewrite len_app in Hh. change (len [e]) with 1 in Hh. rewrite Hh, len_cons. split; lia.
    + exists [], s1, Panicked, h, v. split; [constructor; exact En|]. split; [reflexivity|]. rewrite app_nil_r. split; [exact Hr|].
      split; [reflexivity|]. split; [apply same_outside_refl|]. change (len (@nil elem)) with 0. split; [discriminate|lia].
Qed.

Lemma f_fill_gen {S} (next : S -> inext S) t l h v xs s : valid_target t ->
  (lsize l = 0 -> forall s e s', next s = ISome e s' -> e = 0) -> vec_ok t l h v xs ->
  exists items s' how h' v', yields next s items s' how /\
    f_fill next t l h v s = Ret (h', v', s', match how with Panicked => true | _ => false end) /\
    vec_ok t l h' v' (xs ++ items) /\ funinit v' = funinit v /\ same_outside (region (funinit v)) h h' /\
    (how = Unasked <-> len items = f_capacity t l v - len xs).
Proof.
  intros Ht Hz Hok. pose proof (ok_rep _ _ _ _ _ Hok) as Hr. rewrite (f_fill_unfold next t l h v s _ _ Ht Hr).
  assert (Hle : len xs <= f_capacity t l v) by (apply Hr).
  destruct (fill_gen next t l Ht Hz (Z.to_nat (f_capacity t l v - len xs)) s h v _ _ Hr) as (items & s' & how & h' & v' & Y & E & R & H); [lia|].
  exists items, s', how, h', v'. rewrite E. split; [exact Y|]. split; [reflexivity|]. split; [apply (rep_ok _ _ _ _ _ _ Ht R)|exact H].
Qed.

Lemma yields_then {S} (next : S -> inext S) s items s1 : yields next s items s1 Unasked ->
  forall s2 how, yields next s1 [] s2 how -> yields next s items s2 how.
Proof.
  intros Y. remember Unasked as u eqn:Eu. induction Y; intros s2 how2 H2; try discriminate.
  - exact H2.
  - econstructor; [eassumption|]. apply IHY; assumption.
Qed.

Lemma yields_exhausted {S} (next : S -> inext S) s items s1 : yields next s items s1 Exhausted ->
  exists s0, next s0 = INone s1.
Proof. intros Y. remember Exhausted as u eqn:Eu. induction Y; try discriminate; eauto. Qed.
