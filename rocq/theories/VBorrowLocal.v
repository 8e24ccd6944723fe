(** * VBorrowLocal: a call on a region looks at the bytes of this region only. *)
From Verif Require Import Base Spec BaseFacts SyncModel SyncProofs UninitModel UninitSpec UninitProofs FixedVecModel FixedVecSpec FixedVecProofs BorrowModel BorrowProofs BorrowWorld UBorrowModel EBorrowSlot RBorrowModel RBorrowSpec VBorrowModel VBorrowSpec VBorrowTree VBorrowStep.

(** ** One action *)
Definition agree (b : block) (s1 s2 : bstate) : Prop := nexttag s1 = nexttag s2 /\ forall y, in_block b y -> stk s1 y = stk s2 y.
Definition outside (b : block) (s s' : bstate) : Prop := forall y, ~ in_block b y -> stk s' y = stk s y.
Definition local {A} (b : block) (f : M A) : Prop := forall s1 s2, agree b s1 s2 ->
  match f s1, f s2 with
  | Some (a1, s1'), Some (a2, s2') => a1 = a2 /\ agree b s1' s2' /\ outside b s1 s1' /\ outside b s2 s2'
  | None, None => True
  | _, _ => False
  end.

Lemma outside_refl b s : outside b s s.
Proof. intros y _. reflexivity. Qed.
Lemma outside_trans b s1 s2 s3 : outside b s1 s2 -> outside b s2 s3 -> outside b s1 s3.
Proof. intros H1 H2 y Y. rewrite H2, H1; auto. Qed.

Lemma local_ret {A} b (a : A) : local b (mret a).
Proof. intros s1 s2 G. cbn. auto using outside_refl. Qed.
Lemma local_bind {A B} b (f : M A) (g : A -> M B) : local b f -> (forall a, local b (g a)) -> local b (mbind f g).
Proof.
  intros Lf Lg s1 s2 G. unfold mbind. specialize (Lf s1 s2 G). destruct (f s1) as [[a1 u1]|], (f s2) as [[a2 u2]|]; try contradiction; [|exact Logic.I].
  destruct Lf as (<- & G1 & O1 & O2). specialize (Lg a1 u1 u2 G1). destruct (g a1 u1) as [[b1 w1]|], (g a1 u2) as [[b2 w2]|]; try contradiction; [|exact Logic.I].
  destruct Lg as (-> & G2 & O3 & O4). eauto 8 using outside_trans.
Qed.

Definition agree_k (b : block) (k1 k2 : Z -> stack) : Prop := forall y, in_block b y -> k1 y = k2 y.
Lemma block_local b c f k1 k2 : inside c b -> agree_k b k1 k2 ->
  match on_block c f k1, on_block c f k2 with
  | Some a1, Some a2 => agree_k b a1 a2 /\ (forall y, ~ in_block b y -> a1 y = k1 y /\ a2 y = k2 y)
  | None, None => True
  | _, _ => False
  end.
Proof.
  intros IN G. pose proof (on_block_does c f k1) as D1. pose proof (on_block_does c f k2) as D2. destruct (on_block c f k1) as [a1|], (on_block c f k2) as [a2|]; cbn [does] in D1, D2; auto.
  - split.
    + intros y Y. specialize (D1 y). specialize (D2 y). rewrite (G y Y) in D1. destruct (inb c y); congruence.
    + intros y Y. specialize (D1 y). specialize (D2 y). destruct (inb c y) eqn:X; [|auto]. destruct Y. apply IN, inb_iff, X.
  - destruct D2 as (x & f0 & X & F). specialize (D1 x). destruct (inb c x) eqn:XX; [|discriminate]. injection X as <-. rewrite (G x) in D1 by (apply IN, inb_iff, XX). congruence.
  - destruct D1 as (x & f0 & X & F). specialize (D2 x). destruct (inb c x) eqn:XX; [|discriminate]. injection X as <-. rewrite (G x) in F by (apply IN, inb_iff, XX). congruence.
Qed.
Lemma parts_local b calls n new p parts : forall k1 k2, Forall (fun q => inside (snd q) b) parts -> agree_k b k1 k2 ->
  match retag_parts calls n new p parts k1, retag_parts calls n new p parts k2 with
  | Some a1, Some a2 => agree_k b a1 a2 /\ (forall y, ~ in_block b y -> a1 y = k1 y /\ a2 y = k2 y)
  | None, None => True
  | _, _ => False
  end.
Proof.
  induction parts as [|[kd c] parts IH]; intros k1 k2 F G; cbn [retag_parts]; [auto|]. inversion F as [|q l F1 F2]; subst. cbn [snd] in F1.
  pose proof (block_local b c (sb_retag calls kd n new p) k1 k2 F1 G) as X. destruct (on_block c _ k1) as [a1|], (on_block c _ k2) as [a2|]; try contradiction; [|exact Logic.I].
  destruct X as [G1 O1]. specialize (IH a1 a2 F2 G1). destruct (retag_parts _ _ _ _ _ a1) as [b1|], (retag_parts _ _ _ _ _ a2) as [b2|]; try contradiction; [|exact Logic.I].
  destruct IH as [G2 O2]. split; [exact G2|]. intros y Y. destruct (O1 y Y), (O2 y Y). split; congruence.
Qed.
Lemma local_read b calls n c : inside c b -> local b (m_read calls n c).
Proof.
  intros IN s1 s2 [GN G]. unfold m_read. pose proof (block_local b c (sb_read calls n) _ _ IN G) as X.
  destruct (on_block _ _ (stk s1)), (on_block _ _ (stk s2)); try contradiction; [|exact Logic.I]. destruct X as [G1 O1]. split; [reflexivity|]. split; [split; [exact GN|exact G1]|]. split; intros y Y; apply (O1 y Y).
Qed.
Lemma local_write b calls n c : inside c b -> local b (m_write calls n c).
Proof.
  intros IN s1 s2 [GN G]. unfold m_write. pose proof (block_local b c (sb_write calls n) _ _ IN G) as X.
  destruct (on_block _ _ (stk s1)), (on_block _ _ (stk s2)); try contradiction; [|exact Logic.I]. destruct X as [G1 O1]. split; [reflexivity|]. split; [split; [exact GN|exact G1]|]. split; intros y Y; apply (O1 y Y).
Qed.
Lemma local_retag b calls n parts p : Forall (fun q => inside (snd q) b) parts -> local b (m_retag_prot calls n parts p).
Proof.
  intros IN s1 s2 [GN G]. unfold m_retag_prot. rewrite <- GN. pose proof (parts_local b calls n (nexttag s1) p parts _ _ IN G) as X.
  destruct (retag_parts _ _ _ _ _ (stk s1)), (retag_parts _ _ _ _ _ (stk s2)); try contradiction; [|exact Logic.I]. destruct X as [G1 O1]. split; [reflexivity|].
  split; [split; [reflexivity|exact G1]|]. split; intros y Y; apply (O1 y Y).
Qed.
Lemma local_one b calls kd c n p : inside c b -> local b (m_retag_prot calls n [(kd, c)] p).
Proof. intros IN. apply local_retag. constructor; [exact IN|constructor]. Qed.
Lemma local_act b tags calls a : act_ok (MkO b tags) a = true -> local b (do_act calls a).
Proof.
  assert (W : forall c, (start b <=? start c) && (start c + size c <=? start b + size b) = true -> inside c b).
  { intros c X. apply andb_true_iff in X. destruct X as [X1 X2]. apply Z.leb_le in X1, X2. intros y Y. unfold in_block in *. lia. }
  destruct a as [n c|n c|n parts p]; cbn [act_ok do_act oblk]; intros OK.
  - apply andb_true_iff in OK. apply local_bind; [apply local_read, W, OK|intros; apply local_ret].
  - apply andb_true_iff in OK. apply local_bind; [apply local_write, W, OK|intros; apply local_ret].
  - apply andb_true_iff in OK. destruct OK as [OK _]. apply andb_true_iff in OK. destruct OK as [_ OK]. apply local_bind; [apply local_retag|intros; apply local_ret].
    apply Forall_forall. intros q I. rewrite forallb_forall in OK. apply W, (OK q I).
Qed.

(** ** Where elements are *)
Section Places.
Variables (t : target).
Hypothesis V : valid_target t.

Lemma capacity_bytes ty u : wf_view t (TSlice (q_lay ty)) u -> 0 <= lsize (q_lay ty) /\ v_capacity t (q_lay ty) u * lsize (q_lay ty) <= ulen u.
Proof. intros W. pose proof (rep_facts t _ _ _ _ _ V (new_rep t _ h_any _ V W)) as X. cbn [f_new funinit] in X. lia. Qed.
Lemma elems_in ty k i n : wf_view t (TSlice (q_lay ty)) (w_u k) -> 0 <= i -> i + n <= v_capacity t (q_lay ty) (w_u k) ->
  inside (v_elems ty (uptr (w_u k) + i * lsize (q_lay ty)) n) (w_blk k).
Proof.
  intros W I N y Y. destruct (capacity_bytes ty _ W) as [S0 C]. unfold in_block, w_blk, v_elems in *. cbn [start size] in *. split; [nia|].
  assert ((i + n) * lsize (q_lay ty) <= v_capacity t (q_lay ty) (w_u k) * lsize (q_lay ty)) by (apply Z.mul_le_mono_nonneg_r; lia). nia.
Qed.
Lemma elem_in ty k i : wf_view t (TSlice (q_lay ty)) (w_u k) -> 0 <= i < v_capacity t (q_lay ty) (w_u k) -> inside (v_elem ty (uptr (w_u k)) i) (w_blk k).
Proof. intros W I. pose proof (elems_in ty k i 1 W ltac:(lia) ltac:(lia)) as X. unfold v_elems in X. rewrite Z.mul_1_l in X. exact X. Qed.
Lemma elem_one ty a i : v_elem ty a i = v_elem ty (a + i * lsize (q_lay ty)) 0.
Proof. unfold v_elem. rewrite Z.mul_0_l, Z.add_0_r. reflexivity. Qed.
Lemma sized_in ty k : lsize (q_lay ty) <= ulen (w_u k) -> inside (v_elem ty (uptr (w_u k)) 0) (w_blk k).
Proof. intros L y Y. unfold in_block, w_blk, v_elem in *. cbn [start size] in *. rewrite Z.mul_0_l in Y. lia. Qed.

Lemma refs_in ty base a : vtype_ok t ty -> Forall (fun q => inside (snd q) (v_elem ty a 0)) (q_refs (MkQB a ty base)).
Proof.
  intros (_ & P & _). apply Forall_forall. intros q I. unfold q_refs in I. apply in_map_iff in I. destruct I as (p & <- & I). cbn [q_addr snd]. specialize (P p I).
  intros y Y. unfold in_block, v_elem in *. cbn [start size q_addr q_ty] in *. lia.
Qed.
Lemma upto_lt n i : In i (upto n) -> 0 <= i < Z.of_nat n.
Proof. induction n as [|n IH]; cbn [upto]; [intros []|]. rewrite in_app_iff. cbn [In]. intros [H|[<-|[]]]; [apply IH in H|]; lia. Qed.
Lemma slice_in ty base a n b : vtype_ok t ty -> inside (v_elems ty a n) b -> Forall (fun q => inside (snd q) b) (slice_refs ty base a n).
Proof.
  intros T IN. apply Forall_forall. intros q I. unfold slice_refs in I. apply in_flat_map in I. destruct I as (i & I & J). apply upto_lt in I.
  pose proof (refs_in ty base (a + i * lsize (q_lay ty)) T) as X. rewrite Forall_forall in X. specialize (X q J). intros y Y. apply IN. specialize (X y Y).
  pose proof (type_layout_size _ _ (proj1 T)) as SZ. unfold in_block, v_elem, v_elems in *. cbn [start size] in *. rewrite Z.mul_0_l, Z.add_0_r in X. split; [nia|].
  assert ((i + 1) * lsize (q_lay ty) <= n * lsize (q_lay ty)) by (apply Z.mul_le_mono_nonneg_r; lia). lia.
Qed.
End Places.

(** ** A call *)
Record wsim (b : block) (w1 w2 : vworld) (p1 p2 : vworld * vanswer) : Prop := {
  ws_ans : snd p1 = snd p2;
  ws_agree : agree b (vsb (fst p1)) (vsb (fst p2));
  ws_out1 : outside b (vsb w1) (vsb (fst p1));
  ws_out2 : outside b (vsb w2) (vsb (fst p2));
  ws_views : vviews (fst p1) = vviews (fst p2);
  ws_busy : vbusy (fst p1) = vbusy (fst p2);
  ws_calls : vcalls (fst p1) = vcalls (fst p2) }.

Section Call.
Variables (t : target).
Hypothesis V : valid_target t.
Variables (vs : list vview) (B : list nat) (C : nat) (s1 s2 : bstate) (b : block).
Hypothesis G : agree b s1 s2.
Let w1 := MkVWorld s1 vs B C.
Let w2 := MkVWorld s2 vs B C.

Lemma sim_refl r : wsim b w1 w2 (w1, r) (w2, r).
Proof. constructor; cbn; auto using outside_refl. Qed.
Lemma sim_put vs' B' C' r : wsim b w1 w2 (MkVWorld s1 vs' B' C', r) (MkVWorld s2 vs' B' C', r).
Proof. constructor; cbn; auto using outside_refl. Qed.
Lemma sim_go {A} (f : M A) vs' B' C' (r : A -> vanswer) : local b f ->
  wsim b w1 w2 (match f s1 with Some (a, s) => (MkVWorld s (vs' a) B' C', r a) | None => (w1, VUB) end)
               (match f s2 with Some (a, s) => (MkVWorld s (vs' a) B' C', r a) | None => (w2, VUB) end).
Proof.
  intros L. specialize (L s1 s2 G). destruct (f s1) as [[a1 u1]|], (f s2) as [[a2 u2]|]; try contradiction; [|apply sim_refl].
  destruct L as (<- & G1 & O1 & O2). constructor; cbn; auto.
Qed.
End Call.

Section Local.
Variables (t : target).
Hypothesis V : valid_target t.

Lemma local_init b calls ty base a : inside (v_elem ty a 0) b -> local b (vb_init calls ty base a).
Proof. intros IN. apply local_bind; [apply local_write; exact IN|]. intros _. apply local_one. exact IN. Qed.
Lemma local_wr b calls ty base a : inside (v_elem ty a 0) b -> local b (vb_write calls ty base a).
Proof. intros IN. apply local_bind; [apply local_one; exact IN|]. intros m. apply local_bind; [apply local_one; exact IN|]. intros p. apply local_write. exact IN. Qed.
Lemma local_unit {A} b (f : M A) : local b f -> local b (_ <- f ;; mret tt).
Proof. intros L. apply local_bind; [exact L|]. intros. apply local_ret. Qed.

Ltac go := match goal with G : agree _ ?s1 ?s2 |- wsim _ _ _ (match ?f ?s1 with _ => _ end) _ => refine (sim_go _ _ _ _ _ _ G f _ _ _ _ _) end.

Lemma vcall_local vs B C s1 s2 v k o : vinv t vs -> usable_at vs v = Some k -> vop_ok t o -> agree (w_blk k) s1 s2 ->
  wsim (w_blk k) (MkVWorld s1 vs B C) (MkVWorld s2 vs B C) (vcall t (MkVWorld s1 vs B C) v k o) (vcall t (MkVWorld s2 vs B C) v k o).
Proof.
  intros I U OP G. pose proof (proj1 (usable_spec _ _ _) U) as (E & NG & _). pose proof (t_ok _ _ I _ _ E NG) as OK. unfold view_ok in OK.
  unfold vcall. cbn [vsb vviews vbusy vcalls]. destruct o; destruct (w_st k) as [|ty0|ty0|ty0|ty0 c0|ty0 n0|ty0 n0 c0|ty0 n0 d0|ty0 n0 d0 i0 r0|] eqn:ST;
    try (apply sim_refl; assumption); try (apply sim_put; assumption); cbn [vop_ok] in OP; try contradiction; try rename ty0 into ty.
  all: try solve [match goal with |- context [running ?x] => destruct (running x); [match goal with |- context [match ?l with [] => _ | _ :: _ => _ end] => destruct l; [|match goal with |- context [Nat.eqb ?p ?q] => destruct (Nat.eqb p q) end] end|] end; first [apply sim_refl; assumption|apply sim_put; assumption]].
  all: try solve [match goal with |- context [act_ok ?o ?a] => destruct (act_ok o a) eqn:A; [go; exact (local_act _ _ _ _ A)|apply sim_refl; assumption] end].
  - destruct (v_cast_slice _ _ _); [apply sim_put|apply sim_refl]; assumption.
  - destruct (v_split_at _ _ _ _) as [[u1 [u2|]]|]; [apply sim_put|apply sim_refl|apply sim_refl]; assumption.
  - destruct (v_split_at_byte _ _ _) as [u1 [u2|]]; [apply sim_put|apply sim_refl]; assumption.
  - (* init *) destruct (v_cast (w_u k) (q_lay ty)) eqn:F; [|apply sim_refl; assumption]. assert (P : 0 < lalign (q_lay ty)) by (eapply type_layout_align; apply OP).
    unfold v_cast in F. destruct (v_fits (w_u k) (q_lay ty)) eqn:F2; [|discriminate]. apply (v_fits_iff _ _ P) in F2. destruct F2 as [_ F2]. pose proof (sized_in ty k F2) as IN.
    go. apply local_init, IN.
  - (* boxed *) destruct (v_cast (w_u k) (q_lay ty)) eqn:F; [|apply sim_refl; assumption]. assert (P : 0 < lalign (q_lay ty)) by (eapply type_layout_align; apply OP).
    unfold v_cast in F. destruct (v_fits (w_u k) (q_lay ty)) eqn:F2; [|discriminate]. apply (v_fits_iff _ _ P) in F2. destruct F2 as [_ F2]. pose proof (sized_in ty k F2) as IN.
    go. apply local_unit, local_init, IN.
  - (* write *) destruct (v_cast (w_u k) (q_lay ty)) eqn:F; [|apply sim_refl; assumption]. assert (P : 0 < lalign (q_lay ty)) by (eapply type_layout_align; apply OP).
    unfold v_cast in F. destruct (v_fits (w_u k) (q_lay ty)) eqn:F2; [|discriminate]. apply (v_fits_iff _ _ P) in F2. destruct F2 as [_ F2]. pose proof (sized_in ty k F2) as IN.
    go. apply local_wr, IN.
  - (* from_unaligned *) destruct (f_from_unaligned _ _ _); [apply sim_put|apply sim_refl]; assumption.
  - (* deref *) go. apply local_retag. destruct OK as (T & _ & _ & _ & L). pose proof (refs_in t ty (w_base k) (uptr (w_u k)) T) as X.
    eapply Forall_impl; [|exact X]. intros q Q. eapply inside_tr; [exact Q|]. exact (sized_in ty k L).
  - (* deref_mut *) go. destruct OK as (T & _ & _ & _ & L). apply local_one, (sized_in ty k L).
  - (* take *) go. destruct OK as (T & _ & _ & _ & L). apply local_read, (sized_in ty k L).
  - (* leak *) go. destruct OK as (T & _ & _ & _ & L). apply local_one, (sized_in ty k L).
  - (* push *) destruct OK as (T & W & N). destruct (f_push _ _ _ _ _) as [[[h f] [e|]]|] eqn:P; [apply sim_refl; assumption| |apply sim_refl; assumption].
    destruct (push_len t V _ _ _ _ _ T W N P) as [_ L]. go. apply local_unit, local_init. unfold slot. cbn [w_vec funinit flen].
    pose proof (elem_in t V ty k n0 W ltac:(lia)) as X. rewrite elem_one in X. exact X.
  - (* pop *) destruct OK as (T & W & N). destruct (f_pop _ _ _ _) as [[f [e|]]|] eqn:P; [|apply sim_refl; assumption|apply sim_refl; assumption].
    destruct (pop_len t _ _ _ _ _ T W N P) as [_ L]. go. apply local_read. cbn [w_vec funinit flen]. apply (elem_in t V ty k _ W). lia.
  - (* fill *) destruct OK as (T & W & N). destruct (n0 <? _) eqn:L; [|apply sim_refl; assumption]. apply Z.ltb_lt in L. unfold f_capacity in L. cbn [w_vec funinit] in L.
    go. apply local_write. apply (elem_in t V ty k _ W). cbn [w_vec flen]. lia.
  - (* truncate *) destruct OK as (T & W & N). destruct (Z.eqb_spec n0 0) as [Z0|Z0]; [apply sim_refl; assumption|]. go. apply local_one. apply (elem_in t V ty k _ W). cbn [w_vec flen]. lia.
  - (* as_slice *) destruct OK as (T & W & N). go. apply local_retag, (slice_in t); [exact T|]. pose proof (elems_in t V ty k 0 n0 W ltac:(lia) ltac:(lia)) as X. rewrite Z.mul_0_l, Z.add_0_r in X. exact X.
  - destruct OK as (T & W & N1 & N2 & N3 & N4 & N5 & N6). go. apply local_retag, (slice_in t); [exact T|]. rewrite N3. unfold d_len.
    pose proof (elems_in t V ty k (n0 + dstart d0) (dend d0 - dstart d0) W ltac:(lia) ltac:(lia)) as X. rewrite Z.mul_add_distr_r, Z.add_assoc in X. exact X.
  - destruct OK as (T & W & N). go. apply local_one. pose proof (elems_in t V ty k 0 n0 W ltac:(lia) ltac:(lia)) as X. rewrite Z.mul_0_l, Z.add_0_r in X. exact X.
  - destruct OK as (T & W & N1 & N2 & N3 & N4 & N5 & N6). go. apply local_one. rewrite N3. unfold d_len.
    pose proof (elems_in t V ty k (n0 + dstart d0) (dend d0 - dstart d0) W ltac:(lia) ltac:(lia)) as X. rewrite Z.mul_add_distr_r, Z.add_assoc in X. exact X.
  - destruct (f_split_and_shrink _ _ _ _); [apply sim_put|apply sim_refl]; assumption.
  - destruct (f_split_borrowed _ _ _ _); [apply sim_put|apply sim_refl]; assumption.
  - destruct (f_shrink_to_fit _ _ _); [apply sim_put|apply sim_refl]; assumption.
  - destruct (f_drain _ _ _ _ _); [apply sim_put|apply sim_refl]; assumption.
  - (* next *) destruct OK as (T & W & N1 & N2 & N3 & N4 & N5 & N6). unfold d_next, d_is_empty. destruct (Z.eqb_spec (dstart d0) (dend d0)) as [Z0|Z0]; [apply sim_refl; assumption|].
    go. apply local_read. rewrite N3. pose proof (elem_in t V ty k (n0 + dstart d0) W ltac:(lia)) as X. unfold v_elem in *. rewrite Z.mul_add_distr_r, Z.add_assoc in X. exact X.
  - (* next_back *) destruct OK as (T & W & N1 & N2 & N3 & N4 & N5 & N6). unfold d_next_back, d_is_empty. destruct (Z.eqb_spec (dstart d0) (dend d0)) as [Z0|Z0]; [apply sim_refl; assumption|].
    go. apply local_read. rewrite N3. pose proof (elem_in t V ty k (n0 + (dend d0 - 1)) W ltac:(lia)) as X. unfold v_elem in *. rewrite Z.mul_add_distr_r, Z.add_assoc in X. exact X.
  - (* restore *) destruct OK as (T & W & N1 & N2 & N3 & N4 & N5 & N6). destruct (d_is_empty d0); [|apply sim_refl; assumption]. go. unfold vb_restore. destruct (_ =? 0); [apply local_ret|].
    rewrite N3. apply local_bind; [apply local_read|intros _; apply local_write].
    + pose proof (elems_in t V ty k (n0 + dtail d0) (dtail_len d0) W ltac:(lia) ltac:(lia)) as X. rewrite Z.mul_add_distr_r, Z.add_assoc in X. exact X.
    + exact (elems_in t V ty k n0 (dtail_len d0) W ltac:(lia) ltac:(lia)).
  - (* drop of a box *) destruct OK as (T & _ & _ & _ & L). go. apply local_one, (sized_in ty k L).
  - (* drop of a vector *) destruct OK as (T & W & N). go. apply local_one. pose proof (elems_in t V ty k 0 n0 W ltac:(lia) ltac:(lia)) as X. rewrite Z.mul_0_l, Z.add_0_r in X. exact X.
  - (* an element *) destruct OK as (T & W & N1 & N2 & N3). destruct r0 as [c0|]; [apply sim_refl; assumption|]. destruct (i0 <? n0) eqn:L; [|apply sim_put; assumption]. apply Z.ltb_lt in L.
    go. apply local_one. cbn [w_vec funinit]. apply (elem_in t V ty k _ W). lia.
Qed.
End Local.
