(** * UnsyncProofs *)
From Verif Require Import Base Spec BaseFacts SyncModel SyncSpec SyncProofs UnsyncModel UnsyncSpec.

Definition slab_of (u : ubump) : slab := {| storage := udata u; consumed := uindex u |}.
Definition of_slab (s : slab) : ubump := {| udata := storage s; uindex := consumed s |}.
Definition uok (t : target) (u : ubump) : Prop := ok t (slab_of u).

Lemma of_slab_of u : of_slab (slab_of u) = u.
Proof. destruct u; reflexivity. Qed.

Lemma debug_ok_true t b : b = true -> debug_ok t b = true.
Proof. intros ->. unfold debug_ok. apply orb_true_r. Qed.

Lemma u_zero t u l e : lsize l = 0 -> u_try_alloc_at t u l e = (u, Panic PU_size).
Proof. intros H. unfold u_try_alloc_at. rewrite H. reflexivity. Qed.

Lemma u_beyond t u l e : 0 < lsize l -> size (udata u) < e -> u_try_alloc_at t u l e = (u, Panic PU_expect).
Proof.
  intros H He. unfold u_try_alloc_at. destruct (Z.ltb_spec 0 (lsize l)); [|lia]. cbn [negb].
  destruct (Z.leb_spec e (size (udata u))); [lia|]. reflexivity.
Qed.

Lemma u_try_alloc_at_spec t u l e :
  valid_target t -> uok t u -> valid_layout t l -> 0 < lsize l -> 0 <= e <= size (udata u) ->
  u_try_alloc_at t u l e =
  if fitsb (udata u) e l then
    if uindex u =? e then (of_slab (bumped (slab_of u) l), Ret (ROk (placed (slab_of u) l)))
    else (u, Ret (RErr (Mismatch (uindex u))))
  else (u, Ret (RErr Exhausted)).
Proof.
  intros Ht [(Hst1 & Hst2 & Hst3) Hc] Hl Hpos He. cbn in Hst1, Hst2, Hst3, Hc. unfold fitsb.
  pose proof (valid_layout_align t l Hl) as Ha.
  pose proof (isize_lt_usize t Ht) as Hsz.
  pose proof (align_up_ge (start (udata u) + e) (lalign l) Ha) as Hup.
  unfold u_try_alloc_at. unfold wrapping_add. rewrite (align_offset_wrapped t l _ Ht Hl).
  assert (Hplace : e = uindex u -> place (slab_of u) l = align_up (start (udata u) + e) (lalign l)).
  { intros ->. reflexivity. }
  set (a := align_up (start (udata u) + e) (lalign l)) in *.
  destruct (Z.ltb_spec 0 (lsize l)) as [_|?]; [|lia].
  destruct (Z.leb_spec e (size (udata u))) as [_|?]; [|lia]. cbn [negb].
  unfold checked_sub at 1. destruct (Z.leb_spec e (size (udata u))) as [_|?]; [|lia].
  unfold checked_sub.
  destruct (Z.leb_spec (a + lsize l) (start (udata u) + size (udata u))) as [Hfit|Hno].
  - destruct (Z.leb_spec (a - (start (udata u) + e)) (size (udata u) - e)) as [_|?]; [|lia]. cbn [some_gt].
    destruct (Z.ltb_spec (size (udata u) - e - (a - (start (udata u) + e))) (lsize l)) as [?|_]; [lia|].
    destruct (Z.ltb_spec (a - (start (udata u) + e)) (size (udata u) - e)) as [_|?]; [|lia]. cbn [negb].
    unfold checked_add at 1. unfold usize_max.
    destruct (Z.leb_spec (e + (a - (start (udata u) + e))) (addr_space t - 1)) as [_|?]; [|lia].
    unfold checked_add, usize_max.
    destruct (Z.leb_spec (e + (a - (start (udata u) + e)) + lsize l) (addr_space t - 1)) as [_|?]; [|lia].
    destruct (Z.leb_spec (e + (a - (start (udata u) + e)) + lsize l) (size (udata u))) as [Hn|?]; [|lia].
    destruct (Z.ltb_spec (e + (a - (start (udata u) + e))) (size (udata u))) as [_|?]; [|lia]. cbn [negb].
    unfold u_bump, u_capacity.
    rewrite debug_ok_true by lia. rewrite debug_ok_true by lia. cbn [negb].
    destruct (Z.eqb_spec (uindex u) e) as [<-|Hne]; cbn [negb].
    + destruct (Z.eqb_spec (start (udata u) + (uindex u + (a - (start (udata u) + uindex u)))) 0) as [?|_]; [lia|].
      unfold of_slab, bumped, placed. rewrite (Hplace eq_refl). cbn. f_equal; [|f_equal; f_equal]; f_equal; lia.
    + reflexivity.
  - destruct (Z.leb_spec (a - (start (udata u) + e)) (size (udata u) - e)) as [?|?]; cbn [some_gt].
    + destruct (Z.ltb_spec (size (udata u) - e - (a - (start (udata u) + e))) (lsize l)) as [_|?]; [reflexivity|lia].
    + reflexivity.
Qed.

Lemma u_try_alloc_spec t u l :
  valid_target t -> uok t u -> valid_layout t l -> 0 < lsize l ->
  u_try_alloc t u l =
  if fitsb (udata u) (uindex u) l then
    (of_slab (bumped (slab_of u) l), Ret (Some (placed (slab_of u) l)))
  else (u, Ret None).
Proof.
  intros Ht Hok Hl Hp. unfold u_try_alloc.
  rewrite (u_try_alloc_at_spec t u l (uindex u) Ht Hok Hl Hp) by apply Hok.
  destruct (fitsb _ _ _); [|reflexivity]. rewrite Z.eqb_refl. reflexivity.
Qed.

(** What each call of the unsync bump does *)
Definition uspec (t : target) (u : ubump) (c : ucall) : ubump * response :=
  match c with
  | UCall (CAlloc l) | UCall (CGet l) =>
      if lsize l =? 0 then (u, RPanic PU_size)
      else if fitsb (udata u) (uindex u) l
           then (of_slab (bumped (slab_of u) l), RBlock (placed (slab_of u) l)) else (u, RNone)
  | UCall (CAllocAt l lv) | UCall (CGetAt l lv) =>
      if lsize l =? 0 then (u, RPanic PU_size)
      else if size (udata u) <? lv then (u, RPanic PU_expect)
      else if fitsb (udata u) lv l then
             if uindex u =? lv then (of_slab (bumped (slab_of u) l), RBlock (placed (slab_of u) l))
             else (u, RFail (Mismatch (uindex u)))
           else (u, RFail Exhausted)
  | UCall CLevel => (u, RLevel (uindex u))
  | UCall CReset => (u_fresh (udata u), RUnit)
  | UBumpBox l =>
      if lsize l =? 0 then (u, RPanic PU_size)
      else if fitsb (udata u) (uindex u) l
           then (of_slab (bumped (slab_of u) l), RBlock (placed (slab_of u) l)) else (u, RFail Exhausted)
  | UBumpArray l n =>
      match layout_array t l n with
      | None => (u, RFail Exhausted)
      | Some la =>
          if lsize la =? 0 then (u, RPanic PU_size)
          else if fitsb (udata u) (uindex u) la
               then (of_slab (bumped (slab_of u) la), RBlock (placed (slab_of u) la)) else (u, RFail Exhausted)
      end
  end.

Lemma from_size_align_spec t n al l :
  from_size_align t n al = Some l <-> l = {| lsize := n; lalign := al |} /\ valid_layout t l.
Proof.
  unfold from_size_align.
  destruct (is_pow2b al && (al <=? isize_max t) && (0 <=? n) && (align_up n al <=? isize_max t)) eqn:E.
  - rewrite !andb_true_iff in E. destruct E as [[[E1 E2] E3] E4]. apply is_pow2b_iff in E1.
    split.
    + intros [= <-]. split; [reflexivity|]. unfold valid_layout. cbn. repeat split; try lia; try assumption.
    + intros [-> _]. reflexivity.
  - split; [discriminate|]. intros [-> (H1 & H2 & H3 & H4)]. cbn in *.
    apply is_pow2b_iff in H2. rewrite H2 in E. lia.
Qed.

Lemma layout_array_spec t l n la :
  valid_target t -> layout_array t l n = Some la <->
  la = {| lsize := lsize l * n; lalign := lalign l |} /\ valid_layout t la.
Proof.
  intros Ht. unfold layout_array, checked_mul.
  destruct (Z.leb_spec (lsize l * n) (usize_max t)) as [H|H].
  - apply from_size_align_spec.
  - split; [discriminate|]. intros [-> (H1 & H2 & H3 & H4)]. cbn in *.
    pose proof (align_up_ge (lsize l * n) (lalign l) (pow2_pos _ H2)).
    pose proof (isize_lt_usize t Ht). unfold usize_max in *. lia.
Qed.

Lemma u_at_resp t u l lv :
  valid_target t -> uok t u -> valid_layout t l -> 0 <= lv ->
  (let (u', r) := u_try_alloc_at t u l lv in (u', of_result r)) = uspec t u (UCall (CAllocAt l lv)).
Proof.
  intros Ht Hok Hl Hlv. cbn [uspec]. assert (0 <= lsize l) by (destruct Hl; lia).
  destruct (Z.eqb_spec (lsize l) 0) as [Hz|Hnz]; [rewrite (u_zero t u l lv Hz); reflexivity|].
  destruct (Z.ltb_spec (size (udata u)) lv).
  - rewrite u_beyond by lia. reflexivity.
  - rewrite (u_try_alloc_at_spec t u l lv Ht Hok Hl) by lia.
    destruct (fitsb _ _ _); [|reflexivity]. destruct (_ =? _); reflexivity.
Qed.

Lemma u_alloc_resp t u l :
  valid_target t -> uok t u -> valid_layout t l ->
  (let (u', r) := u_try_alloc t u l in (u', of_option r)) = uspec t u (UCall (CAlloc l)).
Proof.
  intros Ht Hok Hl. cbn [uspec]. assert (0 <= lsize l) by (destruct Hl; lia).
  destruct (Z.eqb_spec (lsize l) 0) as [Hz|Hnz].
  - unfold u_try_alloc. rewrite (u_zero t u l _ Hz). reflexivity.
  - rewrite (u_try_alloc_spec t u l Ht Hok Hl) by lia. destruct (fitsb _ _ _); reflexivity.
Qed.

Lemma ustep_spec t u c :
  valid_target t -> uok t u -> valid_ucall t c -> ustep t u c = uspec t u c.
Proof.
  intros Ht Hok Hv. destruct c as [[l|l lv|l|l lv| |]|l|l n]; cbn [ustep valid_ucall valid_call] in *.
  - apply u_alloc_resp; assumption.
  - apply u_at_resp; try assumption; [apply Hv|destruct Hv as [_ []]; lia].
  - apply (u_alloc_resp t u l Ht Hok (proj1 Hv)).
  - apply (u_at_resp t u l lv Ht Hok); [apply Hv|destruct Hv as [_ []]; lia].
  - reflexivity.
  - reflexivity.
  - unfold u_bump_box, u_level. rewrite (u_at_resp t u l (uindex u) Ht Hok (proj1 Hv)) by apply Hok.
    cbn [uspec]. destruct (lsize l =? 0); [reflexivity|].
    destruct (Z.ltb_spec (size (udata u)) (uindex u)) as [Hb|_].
    { destruct Hok as [_ Hc]. cbn in Hc. lia. }
    rewrite Z.eqb_refl. destruct (fitsb _ _ _); reflexivity.
  - unfold u_bump_array. cbn [uspec]. destruct (layout_array t l n) as [la|] eqn:E; [|reflexivity].
    apply (layout_array_spec t l n la Ht) in E. destruct E as [_ Hla].
    assert (0 <= lsize la) by (destruct Hla; lia).
    destruct (Z.eqb_spec (lsize la) 0) as [Hz|Hnz].
    + unfold u_try_alloc. rewrite (u_zero t u la _ Hz). reflexivity.
    + rewrite (u_try_alloc_spec t u la Ht Hok Hla) by lia. destruct (fitsb _ _ _); reflexivity.
Qed.

(** ** Same histories as the sync bump *)

Lemma of_slab_bumped u l : slab_of (of_slab (bumped (slab_of u) l)) = bumped (slab_of u) l.
Proof. reflexivity. Qed.

Lemma ustep_sync t u c :
  valid_target t -> uok t u -> valid_call t c -> ~ for_zst_type c ->
  slab_of (fst (ustep t u (UCall c))) = fst (step t (slab_of u) c) /\
  same_response (snd (ustep t u (UCall c))) (snd (step t (slab_of u) c)).
Proof.
  intros Ht Hok Hv Hz. rewrite (ustep_spec t u (UCall c) Ht Hok Hv).
  rewrite (step_spec t (slab_of u) c Ht Hok Hv).
  destruct c as [l|l lv|l|l lv| |]; cbn [uspec spec_step for_zst_type] in *;
    change (storage (slab_of u)) with (udata u) in *; change (consumed (slab_of u)) with (uindex u) in *.
  - destruct (lsize l =? 0); [split; [destruct u|]; reflexivity|]. destruct (fitsb _ _ _); split; reflexivity.
  - destruct (lsize l =? 0); [split; [destruct u|]; reflexivity|].
    destruct (_ <? _); [split; reflexivity|]. destruct (fitsb _ _ _); [|split; reflexivity].
    destruct (_ =? _); split; reflexivity.
  - destruct (Z.eqb_spec (lsize l) 0); [contradiction|]. destruct (fitsb _ _ _); split; reflexivity.
  - destruct (Z.eqb_spec (lsize l) 0); [contradiction|].
    destruct (_ <? _); [split; reflexivity|]. destruct (fitsb _ _ _); [|split; reflexivity].
    destruct (_ =? _); split; reflexivity.
  - split; reflexivity.
  - split; reflexivity.
Qed.

Lemma urun_sync t u cs :
  valid_target t -> uok t u -> Forall (valid_call t) cs -> Forall (fun c => ~ for_zst_type c) cs ->
  slab_of (fst (urun t u (map UCall cs))) = fst (run t (slab_of u) cs) /\
  ucalls_history (snd (urun t u (map UCall cs))) (snd (run t (slab_of u) cs)).
Proof.
  intros Ht. revert u. induction cs as [|c cs IH]; intros u Hok Hv Hz; cbn [map urun run].
  { split; [reflexivity|constructor]. }
  inversion Hv; inversion Hz; subst.
  destruct (ustep_sync t u c Ht Hok ltac:(assumption) ltac:(assumption)) as [K1 K2].
  destruct (step_ok t (slab_of u) c Ht Hok ltac:(assumption)) as [Hok1 _].
  destruct (ustep t u (UCall c)) as [u1 r]. destruct (step t (slab_of u) c) as [s1 r'].
  cbn [fst snd] in *. subst s1.
  destruct (IH u1 Hok1 ltac:(assumption) ltac:(assumption)) as [G1 G2].
  destruct (urun t u1 (map UCall cs)) as [u2 h]. destruct (run t (slab_of u1) cs) as [s2 h'].
  cbn [fst snd] in *. split; [exact G1|]. constructor; [|exact G2]. cbn. auto.
Qed.

Lemma zst_panics t u c :
  valid_target t -> uok t u -> valid_call t c -> for_zst_type c ->
  ustep t u (UCall c) = (u, RPanic PU_size).
Proof.
  intros Ht Hok Hv Hz. rewrite (ustep_spec t u (UCall c) Ht Hok Hv).
  destruct c as [l|l lv|l|l lv| |]; cbn [uspec for_zst_type] in *; try contradiction; rewrite Hz; reflexivity.
Qed.

(** ** All calls: what changes *)

Lemma uspec_cases t u c :
  valid_target t -> uok t u -> valid_ucall t c ->
  let (u', r) := uspec t u c in
  (u' = u /\ (forall a, r <> RBlock a)) \/
  (exists l, ucall_layout c = Some l /\ valid_layout t l /\ 0 < lsize l /\
             fitsb (udata u) (uindex u) l = true /\ is_ureset c = false /\
             u' = of_slab (bumped (slab_of u) l) /\ r = RBlock (placed (slab_of u) l)) \/
  (c = UCall CReset /\ u' = u_fresh (udata u) /\ r = RUnit).
Proof.
  intros Ht Hok Hv. destruct (uspec t u c) as [u' r] eqn:E.
  assert (Hn : forall l, valid_layout t l -> lsize l <> 0 -> 0 < lsize l) by (intros l [H _]; lia).
  destruct c as [[l|l lv|l|l lv| |]|l|l n]; cbn [uspec valid_ucall valid_call] in *.
  - destruct (Z.eqb_spec (lsize l) 0); [injection E as <- <-; left; split; [reflexivity|discriminate]|].
    destruct (fitsb _ _ _) eqn:Ef; injection E as <- <-.
    + right; left. exists l. assert (Hvl : valid_layout t l) by apply Hv.
      split; [reflexivity|]. split; [exact Hvl|]. split; [apply Hn; assumption|]. auto.
    + left; split; [reflexivity|discriminate].
  - destruct (Z.eqb_spec (lsize l) 0); [injection E as <- <-; left; split; [reflexivity|discriminate]|].
    destruct (_ <? _); [injection E as <- <-; left; split; [reflexivity|discriminate]|].
    destruct (fitsb _ _ _) eqn:Ef; [destruct (Z.eqb_spec (uindex u) lv) as [<-|]|]; injection E as <- <-;
      try (left; split; [reflexivity|discriminate]).
    right; left. exists l. assert (Hvl : valid_layout t l) by apply Hv.
      split; [reflexivity|]. split; [exact Hvl|]. split; [apply Hn; assumption|]. auto.
  - destruct (Z.eqb_spec (lsize l) 0); [injection E as <- <-; left; split; [reflexivity|discriminate]|].
    destruct (fitsb _ _ _) eqn:Ef; injection E as <- <-.
    + right; left. exists l. assert (Hvl : valid_layout t l) by apply Hv.
      split; [reflexivity|]. split; [exact Hvl|]. split; [apply Hn; assumption|]. auto.
    + left; split; [reflexivity|discriminate].
  - destruct (Z.eqb_spec (lsize l) 0); [injection E as <- <-; left; split; [reflexivity|discriminate]|].
    destruct (_ <? _); [injection E as <- <-; left; split; [reflexivity|discriminate]|].
    destruct (fitsb _ _ _) eqn:Ef; [destruct (Z.eqb_spec (uindex u) lv) as [<-|]|]; injection E as <- <-;
      try (left; split; [reflexivity|discriminate]).
    right; left. exists l. assert (Hvl : valid_layout t l) by apply Hv.
      split; [reflexivity|]. split; [exact Hvl|]. split; [apply Hn; assumption|]. auto.
  - injection E as <- <-. left; split; [reflexivity|discriminate].
  - injection E as <- <-. right; right. auto.
  - destruct (Z.eqb_spec (lsize l) 0); [injection E as <- <-; left; split; [reflexivity|discriminate]|].
    destruct (fitsb _ _ _) eqn:Ef; injection E as <- <-.
    + right; left. exists l. assert (Hvl : valid_layout t l) by apply Hv.
      split; [reflexivity|]. split; [exact Hvl|]. split; [apply Hn; assumption|]. auto.
    + left; split; [reflexivity|discriminate].
  - destruct (layout_array t l n) as [la|] eqn:Ea; [|injection E as <- <-; left; split; [reflexivity|discriminate]].
    apply (layout_array_spec t l n la Ht) in Ea. destruct Ea as [Hla Hva].
    destruct (Z.eqb_spec (lsize la) 0); [injection E as <- <-; left; split; [reflexivity|discriminate]|].
    destruct (fitsb _ _ _) eqn:Ef; injection E as <- <-.
    + right; left. exists la. cbn [ucall_layout is_ureset]. rewrite <- Hla.
      split; [reflexivity|]. split; [exact Hva|]. split; [apply Hn; assumption|]. auto.
    + left; split; [reflexivity|discriminate].
Qed.

Lemma ustep_ok t u c :
  valid_target t -> uok t u -> valid_ucall t c ->
  uok t (fst (ustep t u c)) /\ udata (fst (ustep t u c)) = udata u.
Proof.
  intros Ht Hok Hv. rewrite (ustep_spec t u c Ht Hok Hv).
  pose proof (uspec_cases t u c Ht Hok Hv) as H. destruct (uspec t u c) as [u' r]. cbn [fst].
  destruct H as [[-> _]|[(l & _ & Hl & Hp & Hf & _ & -> & _)|(_ & -> & _)]].
  - auto.
  - split; [|reflexivity]. unfold uok. rewrite of_slab_bumped. apply (bumped_ok t (slab_of u) l Hok Hl Hp Hf).
  - split; [|reflexivity]. apply (ok_fresh t (udata u)). apply Hok.
Qed.

Lemma urun_ok t u cs :
  valid_target t -> uok t u -> Forall (valid_ucall t) cs ->
  uok t (fst (urun t u cs)) /\ udata (fst (urun t u cs)) = udata u.
Proof.
  intros Ht. revert u. induction cs as [|c cs IH]; intros u Hok Hv; cbn [urun]; [auto|].
  inversion Hv; subst. destruct (ustep_ok t u c Ht Hok ltac:(assumption)) as [K1 K2].
  destruct (ustep t u c) as [u1 r]. cbn [fst] in *. destruct (IH u1 K1 ltac:(assumption)) as [G1 G2].
  destruct (urun t u1 cs). cbn [fst] in *. split; [exact G1|congruence].
Qed.

Lemma uok_fresh t d : valid_region t d -> uok t (u_fresh d).
Proof. apply (ok_fresh t d). Qed.

Lemma ureach_ok t d u : valid_target t -> valid_region t d -> ureach t d u -> uok t u /\ udata u = d.
Proof.
  intros Ht Hd (cs & Hv & <-). apply (urun_ok t (u_fresh d) cs Ht (uok_fresh t d Hd) Hv).
Qed.

Lemma placed_facts t u l :
  uok t u -> valid_layout t l -> 0 < lsize l -> fitsb (udata u) (uindex u) l = true ->
  good_block (udata u) l (place (slab_of u) l) /\ start (udata u) + uindex u <= place (slab_of u) l /\
  place (slab_of u) l + lsize l <= start (udata u) + size (udata u) /\
  0 < start (udata u).
Proof.
  intros [(H0 & H1 & H2) Hc] Hl Hp Hf. cbn in *. unfold fitsb in Hf.
  pose proof (valid_layout_align t l Hl) as Ha.
  pose proof (align_up_ge (start (udata u) + uindex u) (lalign l) Ha) as Hge.
  pose proof (align_up_aligned (start (udata u) + uindex u) (lalign l) Ha) as Hal.
  unfold place. cbn. split; [|lia]. split; [exact Hal|]. split; [|lia].
  apply inside_intro; cbn; lia.
Qed.

Lemma urun_disjoint t u cs acc :
  valid_target t -> uok t u -> Forall (valid_ucall t) cs ->
  Forall (below (slab_of u)) acc -> pairwise disjoint acc ->
  pairwise disjoint (ublocks_since_reset acc (snd (urun t u cs))) /\
  (forall c a l, In (c, RBlock a) (snd (urun t u cs)) -> ucall_layout c = Some l ->
     good_block (udata u) l (ptr a)).
Proof.
  intros Ht. revert u acc. induction cs as [|c cs IH]; intros u acc Hok Hv Hb Hd; cbn [urun].
  { split; [exact Hd|]. intros c a l []. }
  inversion Hv; subst. destruct (ustep_ok t u c Ht Hok ltac:(assumption)) as [Hok1 Hst1].
  pose proof (ustep_spec t u c Ht Hok ltac:(assumption)) as Es.
  pose proof (uspec_cases t u c Ht Hok ltac:(assumption)) as Hc. rewrite <- Es in Hc.
  destruct (ustep t u c) as [u1 r]. cbn [fst] in *.
  destruct Hc as [[-> Hnb]|[(l & Hl1 & Hl & Hp & Hf & Hrs & -> & ->)|(-> & -> & ->)]].
  - destruct (is_ureset c) eqn:Er.
    + specialize (IH u [] Hok ltac:(assumption) ltac:(constructor) ltac:(apply pairwise_nil)).
      destruct (urun t u cs) as [u2 h]. cbn [snd ublocks_since_reset fst]. rewrite Er.
      destruct IH as [I1 I2]. split; [exact I1|].
      intros c0 a l [E|Hin] Hl0; [injection E as <- ->; exfalso; apply (Hnb a); reflexivity|eauto].
    + specialize (IH u acc Hok ltac:(assumption) Hb Hd).
      destruct (urun t u cs) as [u2 h]. cbn [snd ublocks_since_reset fst]. rewrite Er.
      destruct IH as [I1 I2]. split.
      * destruct (uevent_block (c, r)) eqn:Eb; [|exact I1].
        unfold uevent_block in Eb. destruct r; try discriminate. exfalso. eapply Hnb. reflexivity.
      * intros c0 a l [E|Hin] Hl0; [injection E as <- ->; exfalso; apply (Hnb a); reflexivity|eauto].
  - destruct (placed_facts t u l Hok Hl Hp Hf) as (P1 & P2 & P3 & P4).
    assert (Hb' : Forall (below (slab_of (of_slab (bumped (slab_of u) l))))
                   (acc ++ [MkBlock (place (slab_of u) l) (lsize l)])).
    { unfold below in *. 
      assert (Hcons : consumed (slab_of (of_slab (bumped (slab_of u) l))) =
                      place (slab_of u) l + lsize l - start (udata u)) by reflexivity.
      change (storage (slab_of (of_slab (bumped (slab_of u) l)))) with (udata u).
      change (storage (slab_of u)) with (udata u) in Hb. change (consumed (slab_of u)) with (uindex u) in Hb.
      rewrite Hcons. apply Forall_app. split.
      - eapply Forall_impl; [|exact Hb]. intros b [Hb0|Hb0]; [left; exact Hb0|right].
        lia.
      - constructor; [|constructor]. right. cbn [start size]. destruct Hok as [_ Hc0]. cbn in Hc0. lia. }
    assert (Hd' : pairwise disjoint (acc ++ [MkBlock (place (slab_of u) l) (lsize l)])).
    { apply pairwise_app; [intros ? ?; apply disjoint_sym|exact Hd| |].
      { apply pairwise_cons; [intros ? ?; apply disjoint_sym|constructor|apply pairwise_nil]. }
      intros x y Hx [<-|[]]. rewrite Forall_forall in Hb. specialize (Hb x Hx).
      unfold disjoint, in_block. cbn. intros z [Z1 Z2]. destruct Hb as [Hb|Hb]; cbn in Hb; lia. }
    specialize (IH _ _ Hok1 ltac:(assumption) Hb' Hd').
    destruct (urun t (of_slab (bumped (slab_of u) l)) cs) as [u2 h].
    cbn [snd ublocks_since_reset fst uevent_block]. rewrite Hrs, Hl1.
    destruct IH as [I1 I2]. split; [exact I1|].
    intros c0 a l0 [E|Hin] Hl0.
    + injection E as <- <-. rewrite Hl1 in Hl0. injection Hl0 as <-. exact P1.
    + apply (I2 c0 a l0 Hin Hl0).
  - specialize (IH _ [] Hok1 ltac:(assumption) ltac:(constructor) ltac:(apply pairwise_nil)).
    destruct (urun t (u_fresh (udata u)) cs) as [u2 h]. cbn [snd ublocks_since_reset fst is_ureset].
    destruct IH as [I1 I2]. split; [exact I1|]. intros c0 a l [E|Hin] Hl0; [discriminate|eauto].
Qed.

(** ** Exact behaviour *)

Lemma ualloc_exact t u l :
  valid_target t -> uok t u -> valid_layout t l -> 0 < lsize l ->
  (fits_in (udata u) (uindex u) l ->
   exists p, first_aligned (start (udata u) + uindex u) (lalign l) p /\
     ustep t u (UCall (CAlloc l)) =
       ({| udata := udata u; uindex := p + lsize l - start (udata u) |},
        RBlock {| ptr := p; alevel := p + lsize l - start (udata u) |})) /\
  (~ fits_in (udata u) (uindex u) l -> ustep t u (UCall (CAlloc l)) = (u, RNone)).
Proof.
  intros Ht Hok Hl Hp. rewrite (ustep_spec t u (UCall (CAlloc l)) Ht Hok Hl). cbn [uspec].
  destruct (Z.eqb_spec (lsize l) 0); [lia|].
  pose proof (fitsb_iff t (udata u) (uindex u) l Hl) as Hf. destruct (fitsb _ _ _).
  - split; [intros _|intros H; exfalso; apply H, Hf; reflexivity].
    exists (place (slab_of u) l). split; [|reflexivity].
    apply align_up_first. apply (valid_layout_align t l Hl).
  - split; [intros H; apply Hf in H; discriminate|reflexivity].
Qed.

Lemma upanics t u c :
  valid_target t -> uok t u -> valid_ucall t c ->
  snd (ustep t u c) <> RPanic PU_unreachable /\
  ((exists m, snd (ustep t u c) = RPanic m) <->
   match c with
   | UCall (CAlloc l) | UCall (CGet l) | UBumpBox l => lsize l = 0
   | UCall (CAllocAt l lv) | UCall (CGetAt l lv) => lsize l = 0 \/ size (udata u) < lv
   | UCall CLevel | UCall CReset => False
   | UBumpArray l n => lsize l * n = 0
   end).
Proof.
  intros Ht Hok Hv. rewrite (ustep_spec t u c Ht Hok Hv).
  destruct c as [[l|l lv|l|l lv| |]|l|l n]; cbn [uspec].
  - destruct (Z.eqb_spec (lsize l) 0); [|destruct (fitsb _ _ _)]; (split; [cbn; discriminate|]); cbn;
      (split; [intros [m Hm]; try discriminate; auto|intros; try contradiction; eauto]).
  - destruct (Z.eqb_spec (lsize l) 0); [|destruct (Z.ltb_spec (size (udata u)) lv);
      [|destruct (fitsb _ _ _); [destruct (_ =? _)|]]]; (split; [cbn; discriminate|]); cbn;
      (split; [intros [m Hm]; try discriminate; auto|intros; try lia; eauto]).
  - destruct (Z.eqb_spec (lsize l) 0); [|destruct (fitsb _ _ _)]; (split; [cbn; discriminate|]); cbn;
      (split; [intros [m Hm]; try discriminate; auto|intros; try contradiction; eauto]).
  - destruct (Z.eqb_spec (lsize l) 0); [|destruct (Z.ltb_spec (size (udata u)) lv);
      [|destruct (fitsb _ _ _); [destruct (_ =? _)|]]]; (split; [cbn; discriminate|]); cbn;
      (split; [intros [m Hm]; try discriminate; auto|intros; try lia; eauto]).
  - split; [cbn; discriminate|]. cbn. split; [intros [m Hm]; discriminate|contradiction].
  - split; [cbn; discriminate|]. cbn. split; [intros [m Hm]; discriminate|contradiction].
  - destruct (Z.eqb_spec (lsize l) 0); [|destruct (fitsb _ _ _)]; (split; [cbn; discriminate|]); cbn;
      (split; [intros [m Hm]; try discriminate; auto|intros; try contradiction; eauto]).
  - destruct (layout_array t l n) as [la|] eqn:E.
    + apply (layout_array_spec t l n la Ht) in E. destruct E as [-> _]. cbn [lsize].
      destruct (Z.eqb_spec (lsize l * n) 0); [|destruct (fitsb _ _ _)]; (split; [cbn; discriminate|]); cbn;
        (split; [intros [m Hm]; try discriminate; auto|intros; try contradiction; eauto]).
    + split; [cbn; discriminate|]. cbn. split; [intros [m Hm]; discriminate|]. intros Hz. exfalso.
      assert (layout_array t l n = Some {| lsize := lsize l * n; lalign := lalign l |}); [|congruence].
      apply (layout_array_spec t l n _ Ht). split; [reflexivity|]. destruct Hv as [[(L1 & L2 & L3 & L4) _] _].
      unfold valid_layout. cbn. rewrite Hz. pose proof (pow2_pos _ L2).
      split; [lia|]. split; [exact L2|]. split; [exact L3|]. unfold align_up. rewrite Z.opp_0, Z.mod_0_l by lia.
      pose proof (align_up_ge (lsize l) (lalign l) H). lia.
Qed.

Lemma bump_box_exact t u l :
  valid_target t -> uok t u -> type_layout t l ->
  (forall lv, snd (ustep t u (UBumpBox l)) <> RFail (Mismatch lv)) /\
  (0 < lsize l -> fits_in (udata u) (uindex u) l ->
     ustep t u (UBumpBox l) = ustep t u (UCall (CAlloc l))) /\
  (0 < lsize l -> ~ fits_in (udata u) (uindex u) l -> ustep t u (UBumpBox l) = (u, RFail Exhausted)).
Proof.
  intros Ht Hok Hl. rewrite (ustep_spec t u (UBumpBox l) Ht Hok Hl).
  rewrite (ustep_spec t u (UCall (CAlloc l)) Ht Hok (proj1 Hl)). cbn [uspec].
  pose proof (fitsb_iff t (udata u) (uindex u) l (proj1 Hl)) as Hf.
  destruct (Z.eqb_spec (lsize l) 0) as [Hz|Hz].
  { split; [discriminate|]. split; intros; lia. }
  destruct (fitsb _ _ _).
  - split; [discriminate|]. split; [reflexivity|]. intros _ H; exfalso; apply H, Hf; reflexivity.
  - split; [discriminate|]. split; [|reflexivity]. intros _ H. apply Hf in H. discriminate.
Qed.

Lemma bump_array_exact t u l n :
  valid_target t -> uok t u -> type_layout t l -> is_usize t n -> 0 < lsize l -> 0 < n ->
  let la := {| lsize := lsize l * n; lalign := lalign l |} in
  (valid_layout t la /\ fits_in (udata u) (uindex u) la ->
   exists p, first_aligned (start (udata u) + uindex u) (lalign l) p /\
     ustep t u (UBumpArray l n) =
       ({| udata := udata u; uindex := p + lsize l * n - start (udata u) |},
        RBlock {| ptr := p; alevel := p + lsize l * n - start (udata u) |})) /\
  (~ (valid_layout t la /\ fits_in (udata u) (uindex u) la) ->
   ustep t u (UBumpArray l n) = (u, RFail Exhausted)).
Proof.
  intros Ht Hok Hl Hn Hp Hn0. cbv zeta. rewrite (ustep_spec t u (UBumpArray l n) Ht Hok (conj Hl Hn)). cbn [uspec].
  destruct (layout_array t l n) as [la|] eqn:E.
  - apply (layout_array_spec t l n la Ht) in E. destruct E as [-> Hva]. cbn [lsize].
    destruct (Z.eqb_spec (lsize l * n) 0); [nia|].
    pose proof (fitsb_iff t (udata u) (uindex u) _ Hva) as Hf. destruct (fitsb _ _ _).
    + split; [intros _|intros H; exfalso; apply H; split; [exact Hva|apply Hf; reflexivity]].
      eexists. split; [|reflexivity]. apply align_up_first. apply (valid_layout_align t l (proj1 Hl)).
    + split; [intros [_ H]; apply Hf in H; discriminate|reflexivity].
  - split; [|reflexivity]. intros [Hva _]. exfalso.
    assert (layout_array t l n = Some {| lsize := lsize l * n; lalign := lalign l |}); [|congruence].
    apply (layout_array_spec t l n _ Ht). auto.
Qed.

(** ** get_unchecked *)

Lemma get_unchecked_exact t u l lv u' a :
  valid_target t -> uok t u -> type_layout t l -> is_usize t lv ->
  ustep t u (UCall (CGetAt l lv)) = (u', RBlock a) ->
  exists a', u_get_unchecked t u' lv = Ret a' /\ alevel a' = lv /\ ptr a' <= ptr a /\
    (aligned (start (udata u) + lv) (lalign l) -> ptr a' = ptr a) /\
    (~ aligned (start (udata u) + lv) (lalign l) -> ptr a' < ptr a /\ ~ aligned (ptr a') (lalign l)).
Proof.
  intros Ht Hok Hl Hlv E. rewrite (ustep_spec t u (UCall (CGetAt l lv)) Ht Hok (conj Hl Hlv)) in E.
  cbn [uspec] in E. destruct (Z.eqb_spec (lsize l) 0); [discriminate|].
  destruct (Z.ltb_spec (size (udata u)) lv); [discriminate|].
  destruct (fitsb (udata u) lv l) eqn:Ef; [|discriminate].
  destruct (Z.eqb_spec (uindex u) lv) as [<-|]; [|discriminate]. injection E as <- <-.
  assert (Hp : 0 < lsize l) by (destruct Hl as [[]]; lia).
  destruct (placed_facts t u l Hok (proj1 Hl) Hp Ef) as (_ & P2 & P3 & _).
  unfold u_get_unchecked, u_capacity. cbn [udata of_slab bumped storage slab_of].
  rewrite debug_ok_true by (cbn; lia). cbn [negb]. eexists. split; [reflexivity|]. cbn [ptr alevel placed].
  split; [reflexivity|]. split; [lia|].
  pose proof (valid_layout_align t l (proj1 Hl)) as Ha. split.
  - intros Hal. unfold place. cbn. symmetry. apply align_up_id; assumption.
  - intros Hna. split; [|exact Hna].
    pose proof (align_up_aligned (start (udata u) + uindex u) (lalign l) Ha) as Hal.
    assert (place (slab_of u) l <> start (udata u) + uindex u); [|lia].
    intros Heq. apply Hna. rewrite <- Heq. exact Hal.
Qed.

(** ** Memory representation *)

Lemma word_pos t : valid_target t -> 0 < word_bytes t.
Proof. intros ([H|[H|H]] & _); lia. Qed.

Lemma usize_align_pos t : valid_target t -> 0 < usize_align t.
Proof. intros (_ & H & _). apply pow2_pos. exact H. Qed.

Lemma load_zero m p n : (forall k, 0 <= k < Z.of_nat n -> m (p + k) = Some 0) -> load_bytes m p n = Some 0.
Proof.
  revert p. induction n as [|n IH]; intros p H; cbn [load_bytes]; [reflexivity|].
  replace p with (p + 0) at 1 by lia. rewrite (H 0) by lia. rewrite IH; [reflexivity|].
  intros k Hk. replace (p + 1 + k) with (p + (1 + k)) by lia. apply H. lia.
Qed.

Lemma load_nonneg m p n v :
  (forall x b, m x = Some b -> 0 <= b < 256) -> load_bytes m p n = Some v -> 0 <= v.
Proof.
  intros Hm. revert p v. induction n as [|n IH]; intros p v; cbn [load_bytes]; [intros [= <-]; lia|].
  destruct (m p) as [b|] eqn:Eb; [|discriminate]. destruct (load_bytes m (p + 1) n) as [r|] eqn:Er; [|discriminate].
  intros E. assert (v = b + 256 * r) by congruence. pose proof (Hm p b Eb). pose proof (IH _ _ Er). lia.
Qed.

Lemma load_zero_inv m p n :
  (forall x b, m x = Some b -> 0 <= b < 256) -> load_bytes m p n = Some 0 ->
  forall k, 0 <= k < Z.of_nat n -> m (p + k) = Some 0.
Proof.
  intros Hm. revert p. induction n as [|n IH]; intros p; cbn [load_bytes]; [lia|].
  destruct (m p) as [b|] eqn:Eb; [|discriminate]. destruct (load_bytes m (p + 1) n) as [r|] eqn:Er; [|discriminate].
  intros E0. assert (E : b + 256 * r = 0) by congruence. pose proof (Hm p b Eb). pose proof (load_nonneg m _ _ _ Hm Er).
  assert (b = 0 /\ r = 0) as [-> ->] by lia. intros k Hk.
  destruct (Z.eq_dec k 0) as [->|Hk0]; [rewrite Z.add_0_r; exact Eb|].
  replace (p + k) with (p + 1 + (k - 1)) by lia. apply (IH _ Er). lia.
Qed.

Lemma align_up_mult a b k : 0 < b -> a = b * k -> align_up a b = a.
Proof. intros Hb ->. apply align_up_id; [exact Hb|]. exists k. lia. Qed.

Lemma layout_from_size_spec t sz l :
  valid_target t -> 0 <= sz -> layout_from_size t sz = Some l <->
  l = {| lsize := align_up (word_bytes t + sz) (usize_align t); lalign := usize_align t |} /\
  lsize l <= isize_max t.
Proof.
  intros Ht Hsz. pose proof (usize_align_pos t Ht) as Ha. pose proof (word_pos t Ht) as Hw.
  pose proof (isize_lt_usize t Ht) as Hi.
  pose proof (align_up_ge (word_bytes t + sz) (usize_align t) Ha) as Hge.
  assert (Hu1 : forall x, align_up x 1 = x) by (intros x; unfold align_up; rewrite Z.mod_1_r; lia).
  unfold layout_from_size, data_layout.
  destruct (layout_array t {| lsize := 1; lalign := 1 |} sz) as [tail|] eqn:E.
  - apply (layout_array_spec t _ sz tail Ht) in E. destruct E as [-> Hv]. cbn [lsize lalign].
    rewrite Z.mul_1_l. unfold layout_extend, header_layout. cbn [lsize lalign]. rewrite Hu1.
    replace (Z.max (usize_align t) 1) with (usize_align t) by lia.
    unfold checked_add. destruct (Z.leb_spec (word_bytes t + sz) (usize_max t)) as [Hle|Hgt].
    + destruct (from_size_align t (word_bytes t + sz) (usize_align t)) as [l'|] eqn:El.
      * apply from_size_align_spec in El. destruct El as [-> (V1 & V2 & V3 & V4)]. cbn in *.
        split; [intros [= <-]|intros [-> _]]; [|reflexivity]. unfold pad_to_align. cbn. auto.
      * split; [discriminate|]. intros [-> Hle']. exfalso. cbn in Hle'.
        assert (from_size_align t (word_bytes t + sz) (usize_align t) =
                Some {| lsize := word_bytes t + sz; lalign := usize_align t |}); [|congruence].
        apply from_size_align_spec. split; [reflexivity|]. unfold valid_layout. cbn.
        destruct Ht as (H1 & H2 & H3). split; [lia|]. split; [exact H2|]. split; [|lia].
        apply Z.divide_pos_le in H3; [|lia]. lia.
    + split; [discriminate|]. intros [-> Hle']. cbn in Hle'. unfold usize_max in *. lia.
  - split; [discriminate|]. intros [-> Hle]. exfalso. cbn in Hle.
    assert (layout_array t {| lsize := 1; lalign := 1 |} sz = Some {| lsize := 1 * sz; lalign := 1 |}); [|congruence].
    apply (layout_array_spec t _ sz _ Ht). split; [reflexivity|]. unfold valid_layout. cbn [lsize lalign].
    rewrite Hu1, Z.mul_1_l. split; [lia|]. split; [exists 0; split; [lia|reflexivity]|]. lia.
Qed.

Lemma from_aligned_mem_spec t b :
  valid_target t -> 0 <= size b <= isize_max t -> word_bytes t <= size b ->
  let d := size b - word_bytes t in
  from_aligned_mem t b = Ret {| faddr := start b; flen := d - d mod usize_align t |}.
Proof.
  intros Ht Hb Hw. cbv zeta. unfold from_aligned_mem, header_layout. cbn [lsize lalign].
  unfold op_sub. destruct (Z.leb_spec (word_bytes t) (size b)); [|lia]. cbn [obind].
  pose proof (usize_align_pos t Ht) as Ha.
  set (d := size b - word_bytes t). pose proof (Z.mod_pos_bound d (usize_align t) Ha) as Hm.
  assert (Hd : 0 <= d) by lia. pose proof (Z.mod_le d (usize_align t) Hd Ha) as Hmle.
  assert (Hlay : layout_from_size t (d - d mod usize_align t) =
     Some {| lsize := align_up (word_bytes t + (d - d mod usize_align t)) (usize_align t); lalign := usize_align t |}).
  { apply (layout_from_size_spec t _ _ Ht); [lia|]. split; [reflexivity|]. cbn.
    destruct Ht as (_ & _ & [k Hk]). pose proof (Z.div_mod d (usize_align t) ltac:(lia)) as Hdm.
    rewrite (align_up_mult _ _ (k + d / usize_align t)); [lia|exact Ha|]. nia. }
  rewrite Hlay. cbn [lsize]. rewrite debug_ok_true; [reflexivity|]. apply Z.leb_le.
  destruct Ht as (_ & _ & [k Hk]). pose proof (Z.div_mod d (usize_align t) ltac:(lia)) as Hdm.
  rewrite (align_up_mult _ _ (k + d / usize_align t)); [lia|exact Ha|]. nia.
Qed.

Lemma from_mem_exact t m b :
  valid_target t -> valid_region t b ->
  exists p, first_aligned (start b) (usize_align t) p /\
  (p + word_bytes t <= start b + size b ->
   exists f, snd (from_mem t m b) = Ret (Some f) /\
     faddr f = p /\ data_room t p (start b + size b) (flen f) /\
     inside (MkBlock p (word_bytes t)) b /\ inside (fat_data t f) b /\
     disjoint (MkBlock p (word_bytes t)) (fat_data t f) /\
     view t (fst (from_mem t m b)) f = Some (u_fresh (fat_data t f)) /\
     valid_region t (fat_data t f) /\
     (forall x, ~ in_block (MkBlock p (word_bytes t)) x -> fst (from_mem t m b) x = m x)) /\
  (start b + size b < p + word_bytes t -> from_mem t m b = (m, Ret None)).
Proof.
  intros Ht (Hb1 & Hb2 & Hb3). pose proof (usize_align_pos t Ht) as Ha. pose proof (word_pos t Ht) as Hw.
  exists (align_up (start b) (usize_align t)). split; [apply align_up_first; exact Ha|].
  assert (Hoff : align_offset1 (start b) (usize_align t) = align_up (start b) (usize_align t) - start b).
  { unfold align_offset1, align_up. lia. }
  pose proof (align_up_ge (start b) (usize_align t) Ha) as Hge.
  unfold from_mem, header_layout. cbn [lsize lalign]. rewrite Hoff.
  set (p := align_up (start b) (usize_align t)) in *. cbn [size start]. split.
  - intros Hfit. destruct (Z.ltb_spec (size b) (p - start b)); [lia|].
    destruct (Z.ltb_spec (size b - (p - start b)) (word_bytes t)); [lia|].
    unfold from_mem_unchecked. rewrite (from_aligned_mem_spec t _ Ht) by (cbn; lia). cbn [size start fst snd].
    replace (start b + (p - start b)) with p by lia.
    set (d := size b - (p - start b) - word_bytes t). pose proof (Z.mod_pos_bound d (usize_align t) Ha) as Hm.
    assert (Hd : 0 <= d) by lia. pose proof (Z.mod_le d (usize_align t) Hd Ha) as Hmle.
    eexists. split; [reflexivity|]. cbn [faddr flen fat_data]. split; [reflexivity|].
    split; [|split; [|split; [|split; [|split; [|split]]]]].
    + split; [lia|]. split; [|lia]. exists (d / usize_align t).
      pose proof (Z.div_mod d (usize_align t) ltac:(lia)). lia.
    + apply inside_intro; cbn; lia.
    + apply inside_intro; cbn; lia.
    + unfold disjoint, in_block. cbn. intros x [H1 H2]. lia.
    + unfold view, load_usize. cbn [faddr]. rewrite load_zero; [reflexivity|]. intros k Hk.
      unfold mem_fill. destruct (Z.leb_spec p (p + k)), (Z.ltb_spec (p + k) (p + word_bytes t)); cbn; try lia.
      reflexivity.
    + unfold valid_region. cbn. lia.
    + intros x Hx. unfold mem_fill. unfold in_block in Hx. cbn in Hx.
      destruct (Z.leb_spec p x), (Z.ltb_spec x (p + word_bytes t)); cbn; try reflexivity. lia.
  - intros Hno. destruct (Z.ltb_spec (size b) (p - start b)); [reflexivity|].
    destruct (Z.ltb_spec (size b - (p - start b)) (word_bytes t)); [reflexivity|lia].
Qed.

Lemma roundtrip t m b f :
  valid_target t -> valid_region t b -> snd (from_mem t m b) = Ret (Some f) ->
  let mem := into_mem t f in
  start mem = faddr f /\ size mem = word_bytes t + flen f /\ inside mem b /\
  from_mem_unchecked t mem = Ret f.
Proof.
  intros Ht Hb Hf. destruct (from_mem_exact t m b Ht Hb) as (p & Hp & Hyes & Hno).
  pose proof (usize_align_pos t Ht) as Ha. pose proof (word_pos t Ht) as Hw.
  destruct (Z_le_gt_dec (p + word_bytes t) (start b + size b)) as [Hle|Hgt].
  2: { rewrite Hno in Hf by lia. discriminate. }
  destruct (Hyes Hle) as (f' & E & Ef & (R1 & [j R2] & R3 & R4) & _ & Hin & _). rewrite Hf in E. injection E as <-.
  destruct Hb as (Hb1 & Hb2 & Hb3). destruct Hp as (Hp1 & _ & _).
  assert (Hsz : lsize (fat_layout t f) = word_bytes t + flen f).
  { destruct Ht as (_ & _ & [k Hk]). cbn. apply (align_up_mult _ _ (k + j)); [exact Ha|]. nia. }
  cbv zeta. unfold into_mem. cbn [start size]. rewrite Hsz. split; [reflexivity|]. split; [reflexivity|]. split.
  - rewrite Ef. apply inside_intro; cbn; lia.
  - unfold from_mem_unchecked. rewrite (from_aligned_mem_spec t _ Ht) by (cbn; lia). cbn [size start].
    replace (word_bytes t + flen f - word_bytes t) with (flen f) by lia.
    rewrite R2, Z.mod_mul by lia. destruct f as [fa fl]. cbn in *. subst fl. f_equal. f_equal. lia.
Qed.

(** ** Deref of the sized bump *)

Lemma pow2_le_max a b : is_pow2 a -> is_pow2 b -> a <= b -> (a | b).
Proof. intros Ha Hb H. apply pow2_divide; assumption. Qed.

Lemma deref_exact t base l :
  valid_target t -> type_layout t l ->
  let f := {| faddr := base; flen := lsize l |} in
  (bump_deref t base l = Ret f <-> (debug t = false \/ lalign l <= usize_align t)) /\
  ((exists m, bump_deref t base l = Panic m) <-> (debug t = true /\ usize_align t < lalign l)) /\
  (fat_data t f = MkBlock (base + bump_offset t l) (lsize l) <-> (lalign l | word_bytes t)) /\
  inside (fat_data t f) (MkBlock base (lsize (bump_layout t l))) /\
  (~ (lalign l | word_bytes t) -> start (fat_data t f) < base + bump_offset t l).
Proof.
  intros Ht Hl. cbv zeta. pose proof (usize_align_pos t Ht) as Hua. pose proof (word_pos t Ht) as Hw.
  pose proof (valid_layout_align t l (proj1 Hl)) as Ha.
  pose proof (align_up_ge (word_bytes t) (lalign l) Ha) as Hoff. fold (bump_offset t l) in Hoff.
  assert (Hdivoff : bump_offset t l = word_bytes t <-> (lalign l | word_bytes t)).
  { unfold bump_offset. split; [apply align_up_id_inv; exact Ha|apply align_up_id; exact Ha]. }
  assert (Heqb : layout_eqb (bump_layout t l) (fat_layout t {| faddr := base; flen := lsize l |}) =
                 (lalign l <=? usize_align t)).
  { unfold layout_eqb, bump_layout, fat_layout. cbn [lsize lalign flen].
    destruct (Z.leb_spec (lalign l) (usize_align t)) as [Hle|Hgt].
    - replace (Z.max (usize_align t) (lalign l)) with (usize_align t) by lia. rewrite Z.eqb_refl, andb_true_r.
      assert (bump_offset t l = word_bytes t) as ->; [|apply Z.eqb_refl].
      apply Hdivoff. destruct Ht as (_ & H1 & H2). eapply Z.divide_trans; [|exact H2].
      apply pow2_le_max; [apply (proj1 Hl)|exact H1|exact Hle].
    - replace (Z.max (usize_align t) (lalign l)) with (lalign l) by lia.
      destruct (Z.eqb_spec (lalign l) (usize_align t)); [lia|]. apply andb_false_r. }
  split; [|split; [|split; [|split]]].
  - unfold bump_deref, debug_ok. rewrite Heqb. destruct (debug t); cbn.
    + destruct (Z.leb_spec (lalign l) (usize_align t)); (split; [intros H0; try discriminate; auto|intros [H0|H0]; try discriminate; try lia; reflexivity]).
    + split; auto.
  - unfold bump_deref, debug_ok. rewrite Heqb. destruct (debug t); cbn.
    + destruct (Z.leb_spec (lalign l) (usize_align t)); (split; [intros [m H0]; try discriminate; auto|intros [H0 H1]; try lia; eauto]).
    + split; [intros [m H0]; discriminate|intros [H0 _]; discriminate].
  - unfold fat_data. cbn [faddr flen]. rewrite <- Hdivoff. split; [intros [= H]; lia|intros ->; reflexivity].
  - pose proof (align_up_ge (bump_offset t l + lsize l) (Z.max (usize_align t) (lalign l)) ltac:(lia)).
    apply inside_intro; cbn; lia.
  - intros Hn. cbn. assert (bump_offset t l <> word_bytes t) by (rewrite Hdivoff; exact Hn). lia.
Qed.

(** ** MemBump::new *)

Lemma membump_new_exact t cap heap :
  valid_target t -> is_usize t cap ->
  (align_up (word_bytes t + cap) (usize_align t) <= isize_max t ->
   exists l, membump_new t cap heap = Ret ({| faddr := heap l; flen := cap |}, l) /\
     lsize l = align_up (word_bytes t + cap) (usize_align t) /\ lalign l = usize_align t /\
     inside (fat_data t {| faddr := heap l; flen := cap |}) (MkBlock (heap l) (lsize l))) /\
  (isize_max t < align_up (word_bytes t + cap) (usize_align t) -> exists m, membump_new t cap heap = Panic m).
Proof.
  intros Ht Hc. pose proof (usize_align_pos t Ht) as Ha. pose proof (word_pos t Ht) as Hw. destruct Hc as [Hc _].
  pose proof (align_up_ge (word_bytes t + cap) (usize_align t) Ha) as Hge. unfold membump_new.
  pose proof (fun l => layout_from_size_spec t cap l Ht Hc) as Hs.
  destruct (layout_from_size t cap) as [l|]; split; intros H.
  - pose proof (proj1 (Hs l) eq_refl) as [-> _]. eexists. split; [reflexivity|]. cbn. split; [reflexivity|].
    split; [reflexivity|]. apply inside_intro; cbn; lia.
  - pose proof (proj1 (Hs l) eq_refl) as [-> H']. cbn in H'. lia.
  - exfalso. assert (None = Some {| lsize := align_up (word_bytes t + cap) (usize_align t); lalign := usize_align t |}); [|discriminate].
    apply Hs. cbn. auto.
  - eauto.
Qed.

Lemma view_fresh_iff t m f :
  valid_target t -> (forall x b, m x = Some b -> 0 <= b < 256) ->
  view t m f = Some (u_fresh (fat_data t f)) <->
  (forall k, 0 <= k < word_bytes t -> m (faddr f + k) = Some 0).
Proof.
  intros Ht Hm. pose proof (word_pos t Ht) as Hw. unfold view, load_usize. split.
  - destruct (load_bytes m (faddr f) (Z.to_nat (word_bytes t))) as [i|] eqn:E; [|discriminate].
    intros [= ->]. intros k Hk. apply (load_zero_inv m _ _ Hm E). lia.
  - intros H. rewrite load_zero; [reflexivity|]. intros k Hk. apply H. lia.
Qed.
