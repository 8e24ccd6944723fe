(** * VBorrowStep: the regions after a call. *)
From Verif Require Import Base Spec BaseFacts SyncModel SyncProofs UninitModel UninitSpec UninitProofs FixedVecModel FixedVecSpec FixedVecProofs BorrowModel BorrowWorld UBorrowModel EBorrowSlot RBorrowModel RBorrowSpec VBorrowModel VBorrowSpec VBorrowTree.

Section Step.
Variables (t : target).
Hypothesis V : valid_target t.

(** The same bytes in a new state *)
Lemma ch_st vs v k k' vs' : vs' = set_nth vs v k' -> w_parent k' = w_parent k -> w_base k' = w_base k -> w_u k' = w_u k -> view_ok t k' -> change t v k vs vs'.
Proof.
  intros E P B U O. eapply ch_put; try eassumption. intros _. split; [exact O|]. unfold w_blk. rewrite U. apply inside_self.
Qed.
Lemma ch_gone vs v k k' vs' : vs' = set_nth vs v k' -> w_parent k' = w_parent k -> w_base k' = w_base k -> gone k' = true -> change t v k vs vs'.
Proof. intros E P B G. eapply ch_put; try eassumption. congruence. Qed.

Lemma slice_of_sized l u : wf_view t (TSized l) u -> wf_view t TRaw u.
Proof. intros (R & _). split; [exact R|exact Logic.I]. Qed.

Lemma push_len ty k n h f : vtype_ok t ty -> wf_view t (TSlice (q_lay ty)) (w_u k) -> 0 <= n <= v_capacity t (q_lay ty) (w_u k) ->
  f_push t (q_lay ty) h_any (w_vec k n) 0 = Ret (h, f, None) -> flen f = n + 1 /\ n + 1 <= v_capacity t (q_lay ty) (w_u k).
Proof.
  intros T W N E. pose proof (any_rep t ty (w_u k) n T W N) as R. pose proof (push_spec t (q_lay ty) h_any (w_vec k n) _ _ 0 V R (fun _ => eq_refl)) as P.
  assert (L : @len elem (repeat 0 (Z.to_nat n)) = n) by (unfold len; rewrite repeat_length; lia).
  destruct (_ <? _) eqn:C.
  - destruct P as (h' & v' & P & R' & _). rewrite E in P. injection P as -> ->. destruct R' as (_ & _ & F & L2 & _). rewrite len_app in F, L2. rewrite L in F, L2. unfold len in F, L2. cbn [length] in F, L2. lia.
  - rewrite E in P. discriminate.
Qed.
Lemma pop_len ty k n f x : vtype_ok t ty -> wf_view t (TSlice (q_lay ty)) (w_u k) -> 0 <= n <= v_capacity t (q_lay ty) (w_u k) ->
  f_pop t (q_lay ty) h_any (w_vec k n) = Ret (f, Some x) -> flen f = n - 1 /\ 0 < n.
Proof.
  intros T W N E. unfold f_pop in E. cbn [w_vec flen] in E. destruct (Z.eqb_spec n 0) as [Z0|Z0]; [discriminate|].
  destruct (f_head_tail t (q_lay ty) (w_vec k n)) as [ht|]; [|discriminate]. cbn [obind] in E. destruct (v_split_last t (q_lay ty) (fst ht)) as [r|]; [|discriminate]. cbn [obind] in E.
  destruct (snd r) as [l|]; [|discriminate]. cbn [unwrap obind] in E. injection E as <- _. cbn [flen]. lia.
Qed.
Lemma split_views ty k n at_ : vtype_ok t ty -> wf_view t (TSlice (q_lay ty)) (w_u k) -> 0 <= n <= v_capacity t (q_lay ty) (w_u k) -> is_usize t at_ ->
  at_ <= v_capacity t (q_lay ty) (w_u k) ->
  exists a b n1 n2, v_split_at t (q_lay ty) (w_u k) at_ = Ret (a, Some b) /\ cut (w_u k) (at_ * lsize (q_lay ty)) a b /\
    n2 = saturating_sub n at_ /\ n1 = n - n2 /\ wf_view t (TSlice (q_lay ty)) a /\ wf_view t (TSlice (q_lay ty)) b /\
    0 <= n1 <= v_capacity t (q_lay ty) a /\ 0 <= n1 <= v_capacity t (q_lay ty) (w_u k) /\ 0 <= n2 <= v_capacity t (q_lay ty) b.
Proof.
  intros T W N U C. pose proof (any_rep t ty (w_u k) n T W N) as R.
  destruct (split_common t _ _ _ _ _ at_ V R U C) as (a & b & E & CU & R1 & R2 & R3). cbn [funinit flen] in *.
  apply rep_len in R1, R2, R3. cbn [funinit flen] in *. destruct R1 as (W1 & C1 & N1), R2 as (W2 & C2 & N2), R3 as (W3 & C3 & N3).
  exists a, b, (n - saturating_sub n at_), (saturating_sub n at_). repeat match goal with |- _ /\ _ => split end; auto; lia.
Qed.

Lemma cut_blk k k1 k2 c u1 u2 : cut (w_u k) c u1 u2 -> w_u k1 = u1 -> w_u k2 = u2 ->
  inside (w_blk k1) (w_blk k) /\ inside (w_blk k2) (w_blk k) /\ disjoint (w_blk k1) (w_blk k2).
Proof. intros C <- <-. exact (cut_pair _ _ _ _ C). Qed.

Ltac same := apply ch_same; reflexivity.
Ltac brk H :=
  match type of H with
  | (match ?x with _ => _ end) = _ => destruct x eqn:?; brk H
  | (_, _) = (_, _) => injection H as <- <-; cbn [vviews]
  end.

Lemma act_change w v k a s w' r : nth_error (vviews w) v = Some k -> view_ok t k -> w_st k = s ->
  (if act_ok (MkO (w_blk k) (w_tags k)) a
   then match do_act (vbusy w) a (vsb w) with
        | Some (n, b) => (MkVWorld b (set_nth (vviews w) v (match n with Some n => MkVW (w_u k) (w_base k) (n :: w_tags k) (w_parent k) s | None => k end)) (vbusy w) (vcalls w),
                          match n with Some n => VTag n | None => VDone end)
        | None => (w, VUB)
        end
   else (w, VInvalid)) = (w', r) -> change t v k (vviews w) (vviews w').
Proof.
  intros E OK ST H. destruct (act_ok _ _); [|injection H as <- <-; same]. destruct (do_act _ _ _) as [[n b]|]; [|injection H as <- <-; same]. injection H as <- <-. cbn [vviews].
  eapply ch_st; [reflexivity|destruct n; reflexivity|destruct n; reflexivity|destruct n; reflexivity|]. destruct n; [|exact OK]. unfold view_ok in *. cbn [w_st w_u]. rewrite ST in *. exact OK.
Qed.

Lemma vcall_change w v k o w' r : vinv t (vviews w) -> usable_at (vviews w) v = Some k -> vop_ok t o -> vcall t w v k o = (w', r) ->
  change t v k (vviews w) (vviews w').
Proof.
  intros I U OP H. pose proof (proj1 (usable_spec _ _ _) U) as (E & G & _). pose proof (t_ok _ _ I _ _ E G) as OK. pose proof OK as OK0. unfold view_ok in OK.
  unfold vcall in H. destruct o; destruct (w_st k) as [|ty0|ty0|ty0|ty0 c0|ty0 n0|ty0 n0 c0|ty0 n0 d0|ty0 n0 d0 i0 r0|] eqn:ST;
    try (injection H as <- <-; same); cbn [vop_ok] in OP; try contradiction; try rename ty0 into ty.
  - (* cast_slice *) brk H; try same. pose proof OK as (R & _). assert (P : 0 < lalign (q_lay ty)) by (eapply type_layout_align; apply OP).
    assert (LN : 0 <= ulen (w_u k)) by (destruct R as (_ & R2 & _); cbn in R2; lia).
    destruct (v_cast_slice_spec t (w_u k) (q_lay ty) P LN) as [C1 C2].
    destruct (Znumtheory.Zdivide_dec (lalign (q_lay ty)) (uptr (w_u k))) as [D|D]; [|rewrite (C2 D) in *; discriminate].
    rewrite (C1 D) in *. match goal with X : Some _ = Some _ |- _ => injection X as <- end.
    eapply ch_put; [reflexivity|reflexivity|reflexivity|]. intros _. split; [|apply inside_self]. unfold view_ok. cbn [w_st w_u]. split; [exact OP|]. split; [exact R|]. split; [apply OP|exact D].
  - (* as_memory *) brk H. eapply ch_put; [reflexivity|reflexivity|reflexivity|]. intros _. split; [|apply inside_self]. unfold view_ok. cbn [w_st w_u]. eapply raw_of_wf. apply OK.
  - (* split_at *) brk H; try same. subst. destruct OK as [T W].
    match goal with X : v_split_at _ _ _ _ = _ |- _ => rewrite (v_split_at_spec t _ _ _ V W OP) in X; destruct (n * lsize (q_lay ty) <=? ulen (w_u k)) eqn:LE; [injection X as <- <-|discriminate] end.
    apply Z.leb_le in LE. destruct OP as [N0 N1]. pose proof (type_layout_size _ _ (proj1 T)) as SZ.
    assert (LB : 0 <= n * lsize (q_lay ty) <= ulen (w_u k)) by (split; [apply Z.mul_nonneg_nonneg; lia|exact LE]).
    destruct (wf_cut_slice t _ _ n W N0 LE) as [W1 W2]. pose proof (at_view_cut t (q_lay ty) (w_u k) _ LB) as CU.
    match goal with |- change _ _ _ _ (set_nth _ _ ?a ++ [?b]) => destruct (cut_blk k a b _ _ _ CU eq_refl eq_refl) as (B1 & B2 & B3) end.
    eapply ch_cut; try reflexivity; try assumption; try (split; assumption). left. split; [reflexivity|exact B3].
  - (* split_at_byte *) subst. brk H; try same. rewrite v_split_at_byte_spec in *. cbn [unit_layout lsize] in *.
    destruct ((0 <=? 0) && (0 <=? ulen (w_u k))) eqn:LE; [|discriminate]. match goal with X : (_, _) = (_, _) |- _ => injection X as <- <- end.
    pose proof OK as (R & _). cbn [region start size] in R.
    eapply ch_cut; try reflexivity.
    + unfold view_ok. cbn [w_st w_u]. split; [|exact Logic.I]. unfold region, valid_region in *. cbn [uptr ulen start size] in *. lia.
    + unfold view_ok. cbn [w_st w_u]. split; [|exact Logic.I]. unfold region, valid_region, from_memory in *. cbn [uptr ulen start size] in *. lia.
    + intros y [Y1 Y2]. cbn in Y1, Y2. lia.
    + unfold w_blk, from_memory. cbn [w_u uptr ulen]. rewrite Z.add_0_r, Z.sub_0_r. apply inside_self.
    + left. split; [reflexivity|]. intros y [[Y1 Y2] _]. cbn in Y1, Y2. lia.
  - (* init *) brk H; try same. assert (P : 0 < lalign (q_lay ty)) by (eapply type_layout_align; apply OP).
    destruct (v_cast_spec (w_u k) (q_lay ty) P) as [C1 C2]. destruct (v_fits (w_u k) (q_lay ty)) eqn:F; [|unfold v_cast in *; rewrite F in *; discriminate].
    apply (v_fits_iff _ _ P) in F. eapply ch_st; try reflexivity. unfold view_ok. cbn [w_st w_u]. split; [exact OP|]. split; [apply OK|]. split; [apply OP|exact F].
  - (* boxed *) brk H; try same. assert (P : 0 < lalign (q_lay ty)) by (eapply type_layout_align; apply OP).
    destruct (v_fits (w_u k) (q_lay ty)) eqn:F; [|unfold v_cast in *; rewrite F in *; discriminate].
    apply (v_fits_iff _ _ P) in F. eapply ch_st; try reflexivity. unfold view_ok. cbn [w_st w_u]. split; [exact OP|]. split; [apply OK|]. split; [apply OP|exact F].
  - (* write *) brk H; try same. assert (P : 0 < lalign (q_lay ty)) by (eapply type_layout_align; apply OP).
    destruct (v_fits (w_u k) (q_lay ty)) eqn:F; [|unfold v_cast in *; rewrite F in *; discriminate].
    apply (v_fits_iff _ _ P) in F. eapply ch_st; try reflexivity. unfold view_ok. cbn [w_st w_u]. split; [exact OP|]. split; [apply OK|]. split; [apply OP|exact F].
  - (* new *) brk H. eapply ch_st; try reflexivity. unfold view_ok. cbn [w_st w_u f_new flen]. split; [apply OK|]. split; [apply OK|].
    destruct OK as [T W]. pose proof (rep_facts t _ _ _ _ _ V (new_rep t _ h_any _ V W)) as X. lia.
  - (* from_unaligned *) brk H; try same. match goal with X : f_from_unaligned _ _ _ = Ret ?f |- _ => rename X into FU; rename f into f0 end.
    assert (P : 0 < lalign (q_lay ty)) by (eapply type_layout_align; apply OP). pose proof OK as (R & _).
    assert (LN : 0 <= ulen (w_u k)) by (destruct R as (_ & R2 & _); cbn in R2; lia).
    unfold f_from_unaligned, v_split_slice in FU. assert (WD : wf_view t TRaw (decast (w_u k))) by (split; [exact R|exact Logic.I]).
    destruct (v_split_layout_spec t (decast (w_u k)) (MkLayout 0 (lalign (q_lay ty))) V WD P ltac:(cbn; lia)) as [L1 L2]. cbn [lsize lalign decast uptr ulen] in L1, L2.
    assert (X : wf_view t (TSlice (q_lay ty)) (funinit f0) /\ flen f0 = 0 /\ inside (region (funinit f0)) (region (w_u k))).
    { destruct (Znumtheory.Zdivide_dec (lalign (q_lay ty)) (uptr (w_u k))) as [D|D].
      - rewrite L1 in FU by (split; [exact D|lia]). cbn [obind] in FU. destruct (v_cast_slice_spec t (from_memory (uptr (w_u k)) (ulen (w_u k))) (q_lay ty) P LN) as [S1 _].
        rewrite S1 in FU by exact D. cbn [obind unwrap snd] in FU. injection FU as <-. cbn [f_new funinit flen]. split; [|split; [reflexivity|apply inside_self]].
        split; [exact R|]. split; [apply OP|exact D].
      - rewrite L2 in FU by tauto. cbn [obind snd] in FU. injection FU as <-. cbn [f_new funinit flen]. split; [apply raw_dangling; [exact V|apply OP]|]. split; [reflexivity|].
        intros y [Y1 Y2]. cbn in Y1, Y2. lia. }
    destruct X as (W & F0 & IN). eapply ch_put; [reflexivity|reflexivity|reflexivity|]. intros _. split; [|exact IN]. unfold view_ok. cbn [w_st w_u]. rewrite F0. split; [exact OP|]. split; [exact W|].
    pose proof (rep_facts t _ _ _ _ _ V (new_rep t _ h_any _ V W)) as X. lia.
  - (* deref *) brk H; try same. eapply ch_st; try reflexivity. exact OK.
  - brk H; try same. eapply ch_st; try reflexivity. exact OK.
  - (* take *) brk H; try same. eapply ch_st; try reflexivity. eapply slice_of_sized. apply OK.
  - brk H; try same. eapply ch_st; try reflexivity. eapply slice_of_sized. apply OK.
  - (* leak *) brk H; try same. eapply ch_st; try reflexivity. exact OK.
  - (* push *) brk H; try same. destruct OK as (T & W & N). destruct (push_len _ _ _ _ _ T W N ltac:(eassumption)) as [-> L]. eapply ch_st; try reflexivity. unfold view_ok. cbn [w_st w_u]. split; [exact T|]. split; [exact W|lia].
  - (* pop *) brk H; try same. destruct OK as (T & W & N). subst. destruct (pop_len _ _ _ _ _ T W N ltac:(eassumption)) as [-> L]. eapply ch_st; try reflexivity. unfold view_ok. cbn [w_st w_u]. split; [exact T|]. split; [exact W|lia].
  - (* fill *) brk H; try same. destruct OK as (T & W & N). match goal with X : (_ <? _) = true |- _ => apply Z.ltb_lt in X; unfold f_capacity in X; cbn [w_vec funinit] in X end.
    eapply ch_st; try reflexivity. unfold view_ok. cbn [w_st w_u]. split; [exact T|]. split; [exact W|lia].
  - (* truncate *) brk H; try same. destruct OK as (T & W & N). match goal with X : (_ =? _) = false |- _ => apply Z.eqb_neq in X end.
    eapply ch_st; try reflexivity. unfold view_ok. cbn [w_st w_u]. split; [exact T|]. split; [exact W|lia].
  - brk H; try same. eapply ch_st; try reflexivity. exact OK.
  - brk H; try same. eapply ch_st; try reflexivity. exact OK.
  - brk H; try same. eapply ch_st; try reflexivity. exact OK.
  - brk H; try same. eapply ch_st; try reflexivity. exact OK.
  - brk H; try same. eapply ch_st; try reflexivity. exact OK.
  - (* split_and_shrink_to *) brk H; try same. match goal with X : f_split_and_shrink _ _ _ _ = Ret ?f |- _ => rename X into FS; rename f into f0 end. destruct OK as (T & W & N).
    unfold f_split_and_shrink, f_capacity in FS. cbn [w_vec funinit flen] in FS. destruct (n <=? v_capacity t (q_lay ty) (w_u k)) eqn:LE; [|discriminate]. apply Z.leb_le in LE.
    destruct (split_views ty k n0 n T W N OP LE) as (a & b & n1 & n2 & SE & CU & E2 & E1 & W1 & W2 & N1 & _ & N2). rewrite SE in FS. cbn [obind unwrap snd fst] in FS. injection FS as <-. cbn [fst snd funinit flen].
    match goal with |- change _ _ _ _ (set_nth _ _ ?a ++ [?b]) => destruct (cut_blk k a b _ _ _ CU eq_refl eq_refl) as (B1 & B2 & B3) end.
    rewrite <- E2, <- E1 in *. eapply ch_cut; try reflexivity; try assumption; try (unfold view_ok; cbn [w_st w_u]; auto; fail).
  - (* split_borrowed *) brk H; try same. match goal with X : f_split_borrowed _ _ _ _ = Ret ?f |- _ => rename X into FS; rename f into f0 end. destruct OK as (T & W & N).
    unfold f_split_borrowed, f_capacity in FS. cbn [w_vec funinit flen] in FS. destruct (n <=? v_capacity t (q_lay ty) (w_u k)) eqn:LE; [|discriminate]. apply Z.leb_le in LE.
    destruct (split_views ty k n0 n T W N OP LE) as (a & b & n1 & n2 & SE & CU & E2 & E1 & W1 & W2 & _ & N1 & N2). rewrite SE in FS. cbn [obind unwrap snd fst] in FS. injection FS as <-. cbn [fst snd funinit flen].
    destruct (cut_pair _ _ _ _ CU) as (B1 & B2 & B3). rewrite <- E2, <- E1 in *.
    eapply ch_cut; try reflexivity; try assumption; try (unfold view_ok; cbn [w_st w_u]; auto; fail); [apply inside_self|]. right. split; [reflexivity|]. split; [exact B2|]. cbn [w_st]. eauto.
  - (* shrink_to_fit *) brk H; try same. match goal with X : f_shrink_to_fit _ _ _ = Ret ?f |- _ => rename X into FS; rename f into f0 end. destruct OK as (T & W & N).
    pose proof (any_rep t ty (w_u k) n0 T W N) as R. destruct (shrink_spec t _ _ _ _ _ V R) as (v' & b & SE & R' & CU). unfold w_vec in FS. rewrite SE in FS. injection FS as <-. cbn [fst snd funinit] in *.
    apply rep_len in R'. destruct R' as (W1 & C1 & N1). rewrite C1 in N1.
    destruct (v_shrink_spec t _ _ V W) as (a2 & b2 & SE2 & _ & _ & WB). unfold f_shrink_to_fit in SE. cbn [funinit flen] in SE. rewrite SE2 in SE. cbn [obind fst snd] in SE. injection SE as <- <-.
    match goal with |- change _ _ _ _ (set_nth _ _ ?a ++ [?b]) => destruct (cut_blk k a b _ _ _ CU eq_refl eq_refl) as (B1 & B2 & B3) end.
    eapply ch_cut; try reflexivity; try assumption; try (unfold view_ok; cbn [w_st w_u funinit flen] in *; auto; fail).
  - (* drain *) brk H; try same. match goal with X : f_drain _ _ _ _ _ = Ret ?f |- _ => rename X into FS; rename f into f0 end. destruct OK as (T & W & N).
    pose proof (rep_facts t _ _ _ _ _ V (new_rep t _ h_any _ V W)) as CAP. cbn [f_new funinit] in CAP.
    destruct (drain_start_spec t (q_lay ty) (w_vec k n0) lo hi V ltac:(cbn [w_vec flen]; lia) (proj1 OP) (proj2 OP)) as [D1 D2]. cbn [w_vec flen] in D1, D2.
    pose proof (range_start_nonneg _ _ (proj1 OP)) as R0.
    destruct (Z_le_dec (range_start lo) (range_end hi n0)) as [A1|A1]; [|destruct D2 as [m D2]; [lia|unfold w_vec in FS, D2; congruence]].
    destruct (Z_le_dec (range_end hi n0) n0) as [A2|A2]; [|destruct D2 as [m D2]; [lia|unfold w_vec in FS, D2; congruence]].
    unfold w_vec in FS, D1. rewrite D1 in FS by auto. injection FS as <-. cbn [fst snd flen]. eapply ch_st; try reflexivity. unfold view_ok. cbn [w_st w_u dstart dend dtail dtail_len delements]. unfold slot. cbn [funinit].
    split; [exact T|]. split; [exact W|]. lia.
  - (* next *) brk H; try same. destruct OK as (T & W & N1 & N2 & N3 & N4 & N5 & N6). unfold d_next, d_is_empty in *. destruct (Z.eqb_spec (dstart d0) (dend d0)) as [Z0|Z0]; [discriminate|].
    match goal with X : (_, _) = (_, _) |- _ => injection X as <- _ end. eapply ch_st; try reflexivity. unfold view_ok. cbn [w_st w_u dstart dend dtail dtail_len delements]. split; [exact T|]. split; [exact W|]. lia.
  - (* next_back *) brk H; try same. destruct OK as (T & W & N1 & N2 & N3 & N4 & N5 & N6). unfold d_next_back, d_is_empty in *. destruct (Z.eqb_spec (dstart d0) (dend d0)) as [Z0|Z0]; [discriminate|].
    match goal with X : (_, _) = (_, _) |- _ => injection X as <- _ end. eapply ch_st; try reflexivity. unfold view_ok. cbn [w_st w_u dstart dend dtail dtail_len delements]. split; [exact T|]. split; [exact W|]. lia.
  - (* restore *) brk H; try same. destruct OK as (T & W & N1 & N2 & N3 & N4 & N5 & N6). eapply ch_st; try reflexivity. unfold view_ok. cbn [w_st w_u]. split; [exact T|]. split; [exact W|]. lia.
  - brk H; try same. destruct OK as (T & W & N1 & N2 & N3 & N4 & N5 & N6). eapply ch_st; try reflexivity. unfold view_ok. cbn [w_st w_u]. split; [exact T|]. split; [exact W|]. lia.
  - (* drop of a box *) brk H; try same. eapply ch_st; try reflexivity. exact OK.
  - (* drop of a vector *) brk H; try same. destruct OK as (T & W & N). eapply ch_st; try reflexivity. unfold view_ok. cbn [w_st w_u]. split; [exact T|]. split; [exact W|]. split; [exact N|]. split; [lia|congruence].
  - (* an element *) destruct OK as (T & W & N1 & N2 & N3). brk H; try same.
    + match goal with X : (_ <? _) = true |- _ => apply Z.ltb_lt in X end. eapply ch_st; try reflexivity. unfold view_ok. cbn [w_st w_u]. split; [exact T|]. split; [exact W|]. split; [exact N1|]. split; [lia|]. intros _. lia.
    + eapply ch_gone; reflexivity.
  - brk H; try same; eapply ch_gone; reflexivity.
  - brk H; try same; eapply ch_gone; reflexivity.
  - brk H; try same; eapply ch_gone; reflexivity.
  - brk H; try same; eapply ch_gone; reflexivity.
  - brk H; try same; eapply ch_gone; reflexivity.
  - brk H; try same; eapply ch_gone; reflexivity.
  - brk H; try same. destruct OK as (T & W & N1 & N2). eapply ch_st; try reflexivity. unfold view_ok. cbn [w_st w_u]. split; [exact T|]. split; [exact W|]. lia.
  - brk H; try same; eapply ch_gone; reflexivity.
  - brk H; try same. destruct OK as (T & W & N1 & N2 & N3). eapply ch_st; try reflexivity. unfold view_ok. cbn [w_st w_u]. split; [exact T|]. split; [exact W|]. split; [exact N1|]. split; [exact N2|congruence].
  - brk H; try same; eapply ch_gone; reflexivity.
  - brk H; eapply ch_gone; reflexivity.
  - brk H; eapply ch_gone; reflexivity.
  - brk H; eapply ch_gone; reflexivity.
  - brk H; eapply ch_gone; reflexivity.
  - brk H; eapply ch_gone; reflexivity.
  - eapply act_change; [exact E|exact OK0|exact ST|exact H].
  - eapply act_change; [exact E|exact OK0|exact ST|exact H].
  - eapply act_change; [exact E|exact OK0|exact ST|exact H].
  - eapply act_change; [exact E|exact OK0|exact ST|exact H].
  - eapply act_change; [exact E|exact OK0|exact ST|exact H].
  - eapply act_change; [exact E|exact OK0|exact ST|exact H].
  - eapply act_change; [exact E|exact OK0|exact ST|exact H].
  - eapply act_change; [exact E|exact OK0|exact ST|exact H].
  - eapply act_change; [exact E|exact OK0|exact ST|exact H].
  - eapply act_change; [exact E|exact OK0|exact ST|exact H].
Qed.

Lemma vstep_change w o w' r : vinv t (vviews w) -> vop_ok t o -> vstep t w o = (w', r) ->
  match view_of o with Some v => forall k, usable_at (vviews w) v = Some k -> change t v k (vviews w) (vviews w') | None => True end /\
  match view_of o with Some v => usable_at (vviews w) v = None -> vviews w' = vviews w | None => vviews w' = vviews w end.
Proof.
  intros I OP H. unfold vstep in H. destruct (view_of o) as [v|] eqn:VO.
  - destruct (usable_at (vviews w) v) as [k|] eqn:U.
    + split; [|discriminate]. intros k0 [= <-]. eapply vcall_change; eassumption.
    + split; [discriminate|]. intros _. injection H as <- _. reflexivity.
  - split; [exact Logic.I|]. destruct o; try discriminate; brk H; reflexivity.
Qed.
Lemma vstep_inv w o : vinv t (vviews w) -> vop_ok t o -> vinv t (vviews (fst (vstep t w o))).
Proof.
  intros I OP. destruct (vstep t w o) as [w' r] eqn:H. cbn [fst]. destruct (vstep_change _ _ _ _ I OP H) as [C1 C2].
  destruct (view_of o) as [v|]; [|rewrite C2; exact I]. destruct (usable_at (vviews w) v) as [k|] eqn:U; [|rewrite C2 by reflexivity; exact I].
  eapply change_inv; [exact I|exact U|apply C1; reflexivity].
Qed.
Lemma vrun_inv os : forall w, vinv t (vviews w) -> Forall (vop_ok t) os -> vinv t (vviews (fst (vrun t w os))).
Proof.
  induction os as [|o os IH]; intros w I F; [exact I|]. inversion F as [|o' os' F1 F2]; subst. cbn [vrun]. pose proof (vstep_inv w o I F1) as J.
  destruct (vstep t w o) as [w1 r]. cbn [fst] in J. specialize (IH w1 J F2). destruct (vrun t w1 os) as [w2 h]. exact IH.
Qed.
End Step.
