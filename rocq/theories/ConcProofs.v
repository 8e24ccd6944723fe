(** * Proofs about concurrent use of one [Bump]. *)
From Verif Require Import Base Spec BaseFacts SyncModel SyncSpec SyncProofs ConcModel ConcSpec.

Definition at_level (st : block) (cur : Z) : slab := {| storage := st; consumed := cur |}.

Definition loops (c : call) : Prop :=
  exists l, (c = CAlloc l \/ c = CGet l) /\ 0 < lsize l.

Lemma access_alloc_spec t st cur c l guess :
  valid_target t -> valid_region t st -> valid_layout t l -> 0 < lsize l ->
  0 <= guess <= cur -> cur <= size st ->
  access_alloc t st cur c l guess =
  if fitsb st guess l then
    if cur =? guess then (consumed (bumped (at_level st cur) l), Done c (RBlock (placed (at_level st cur) l)))
    else (cur, Running c cur)
  else (cur, Done c RNone).
Proof.
  intros Ht Hst Hl Hpos Hg Hc. unfold access_alloc.
  rewrite (prepare_spec t st l guess Ht Hst Hl Hpos) by lia. cbv zeta.
  destruct (fitsb st guess l) eqn:Hf; [|reflexivity].
  unfold compare_exchange. destruct (Z.eqb_spec cur guess) as [<-|Hne]; [|reflexivity].
  unfold finish, bumped, placed, place, at_level. cbn [consumed storage].
  pose proof (align_up_ge (start st + cur) (lalign l) (valid_layout_align t l Hl)).
  destruct Hst as (Hst1 & _).
  replace (start st + (align_up (start st + cur) (lalign l) - start st))
    with (align_up (start st + cur) (lalign l)) by lia.
  destruct (Z.eqb_spec (align_up (start st + cur) (lalign l)) 0) as [?|_]; [lia|]. reflexivity.
Qed.

Lemma access_alloc_at_spec t st cur c l lv :
  valid_target t -> valid_region t st -> valid_layout t l -> is_usize t lv ->
  0 <= cur <= size st ->
  access_alloc_at t st cur c l lv =
  let (s', r) := spec_step t (at_level st cur) (CAllocAt l lv) in (consumed s', Done c r).
Proof.
  intros Ht Hst Hl Hlv Hc. unfold access_alloc_at. cbn [spec_step storage consumed at_level].
  destruct (Z.eqb_spec (lsize l) 0) as [Hz|Hnz].
  { unfold prepare. rewrite Hz. reflexivity. }
  assert (0 < lsize l) as Hpos by (destruct Hl; lia).
  destruct (Z.ltb_spec (size st) lv) as [Hb|Hb].
  { unfold prepare. destruct (Z.ltb_spec 0 (lsize l)); [|lia].
    destruct (Z.leb_spec lv (size st)); [lia|]. reflexivity. }
  unfold is_usize in Hlv.
  rewrite (prepare_spec t st l lv Ht Hst Hl Hpos) by lia. cbv zeta.
  destruct (fitsb st lv l) eqn:Hf; [|reflexivity].
  unfold compare_exchange. destruct (Z.eqb_spec cur lv) as [<-|Hne]; [|reflexivity].
  unfold finish, bumped, placed, place, at_level. cbn [consumed storage].
  pose proof (align_up_ge (start st + cur) (lalign l) (valid_layout_align t l Hl)).
  destruct Hst as (Hst1 & _).
  replace (start st + (align_up (start st + cur) (lalign l) - start st))
    with (align_up (start st + cur) (lalign l)) by lia.
  destruct (Z.eqb_spec (align_up (start st + cur) (lalign l)) 0) as [?|_]; [lia|]. reflexivity.
Qed.

(** One access either decides the call, exactly as the sequential specification would at this moment, or
    is a failed exchange which learns the current value. *)
Lemma access_spec t st cur c guess :
  valid_target t -> valid_region t st -> valid_call t c -> is_reset c = false ->
  0 <= guess <= cur -> cur <= size st ->
  (exists s' r, spec_step t (at_level st cur) c = (s', r) /\ storage s' = st /\
                access t st cur c guess = (consumed s', Done c r)) \/
  (loops c /\ cur <> guess /\ access t st cur c guess = (cur, Running c cur)).
Proof.
  intros Ht Hst Hc Hres Hg Hcur.
  destruct c as [l|l lv|l|l lv| |]; cbn [access valid_call] in *; try discriminate.
  - destruct (Z.eqb_spec (lsize l) 0) as [Hz|Hnz].
    + left. cbn [spec_step]. rewrite Hz. cbn [Z.eqb].
      eexists _, _. split; [reflexivity|]. split; [reflexivity|].
      unfold access_alloc, prepare. rewrite Hz. reflexivity.
    + assert (0 < lsize l) as Hpos by (destruct Hc; lia).
      rewrite (access_alloc_spec t st cur (CAlloc l) l guess Ht Hst Hc Hpos Hg Hcur).
      cbn [spec_step]. destruct (Z.eqb_spec (lsize l) 0); [lia|]. cbn [storage consumed at_level].
      destruct (fitsb st guess l) eqn:Hf.
      * destruct (Z.eqb_spec cur guess) as [<-|Hne].
        -- left. rewrite Hf. eexists _, _. split; [reflexivity|]. split; reflexivity.
        -- right. split; [exists l; auto|]. auto.
      * left. destruct (fitsb st cur l) eqn:Hf2.
        { rewrite (fitsb_antimono st guess cur l) in Hf; try discriminate; try assumption; try lia.
          eapply valid_layout_align; eassumption. }
        eexists _, _. split; [reflexivity|]. split; reflexivity.
  - left. destruct Hc as [Hl Hlv]. rewrite (access_alloc_at_spec t st cur _ l lv Ht Hst Hl Hlv) by lia.
    pose proof (spec_step_cases t (at_level st cur) (CAllocAt l lv)) as Hcs.
    destruct (spec_step t (at_level st cur) (CAllocAt l lv)) as [s' r].
    exists s', r. split; [reflexivity|]. split; [|reflexivity].
    destruct Hcs as [[-> _]|[(l' & _ & _ & _ & -> & _)|(_ & -> & _)]]; reflexivity.
  - destruct Hc as [Hc Hdiv]. destruct (Z.eqb_spec (lsize l) 0) as [Hz|Hnz].
    + left. cbn [spec_step]. rewrite Hz. cbn [Z.eqb].
      eexists _, _. split; [reflexivity|]. split; reflexivity.
    + assert (0 < lsize l) as Hpos by (destruct Hc; lia).
      rewrite (access_alloc_spec t st cur (CGet l) l guess Ht Hst Hc Hpos Hg Hcur).
      cbn [spec_step]. destruct (Z.eqb_spec (lsize l) 0); [lia|]. cbn [storage consumed at_level].
      destruct (fitsb st guess l) eqn:Hf.
      * destruct (Z.eqb_spec cur guess) as [<-|Hne].
        -- left. rewrite Hf. eexists _, _. split; [reflexivity|]. split; reflexivity.
        -- right. split; [exists l; auto|]. auto.
      * left. destruct (fitsb st cur l) eqn:Hf2.
        { rewrite (fitsb_antimono st guess cur l) in Hf; try discriminate; try assumption; try lia.
          eapply valid_layout_align; eassumption. }
        eexists _, _. split; [reflexivity|]. split; reflexivity.
  - left. destruct Hc as [[Hl _] Hlv]. cbn [spec_step].
    destruct (Z.eqb_spec (lsize l) 0) as [Hz|Hnz].
    + cbn [consumed at_level for_zst alevel]. destruct (Z.eqb_spec cur lv) as [->|Hne]; cbn [negb].
      * eexists _, _. split; [reflexivity|]. split; reflexivity.
      * eexists _, _. split; [reflexivity|]. split; reflexivity.
    + rewrite (access_alloc_at_spec t st cur _ l lv Ht Hst Hl Hlv) by lia.
      pose proof (spec_step_cases t (at_level st cur) (CAllocAt l lv)) as Hcs. cbn [spec_step] in *.
      destruct (Z.eqb_spec (lsize l) 0) as [?|_]; [lia|].
      match goal with |- exists _ _, ?x = _ /\ _ => destruct x as [s' r] eqn:Hx end.
      exists s', r. split; [reflexivity|]. split; [|reflexivity].
      destruct Hcs as [[-> _]|[(l' & _ & _ & _ & -> & _)|(_ & -> & _)]]; reflexivity.
  - left. cbn [spec_step]. eexists _, _. split; [reflexivity|]. split; reflexivity.
Qed.

(** ** Protocol of a thread with final phase *)
Inductive follows_to (i : nat) : phase -> list hevent -> phase -> Prop :=
| ft_nil p : follows_to i p [] p
| ft_other p e h q : event_thread e <> i -> follows_to i p h q -> follows_to i p (e :: h) q
| ft_inv c h q : follows_to i (PInvoked c) h q -> follows_to i PIdle (EInv i c :: h) q
| ft_lin c r h q : follows_to i (PDecided c r) h q -> follows_to i (PInvoked c) (ELin i c r :: h) q
| ft_ret c r h q : follows_to i PIdle h q -> follows_to i (PDecided c r) (ERet i c r :: h) q.

Lemma follows_to_follows i p h q : follows_to i p h q -> follows i p h.
Proof.
  induction 1 as [p|p e h q He Hf IH|c h q Hf IH|c r' h q Hf IH|c r' h q Hf IH].
  - apply f_nil.
  - apply f_other; auto.
  - apply f_inv; auto.
  - apply f_lin; auto.
  - apply f_ret; auto.
Qed.

Lemma follows_to_app i p h q h' r : follows_to i p h q -> follows_to i q h' r -> follows_to i p (h ++ h') r.
Proof.
  induction 1 as [p|p e h q He Hf IH|c h q Hf IH|c r' h q Hf IH|c r' h q Hf IH]; cbn [app]; intros Hq.
  - exact Hq.
  - apply ft_other; auto.
  - apply ft_inv; auto.
  - apply ft_lin; auto.
  - apply ft_ret; auto.
Qed.

Definition phase_of (ts : tstate) : phase :=
  match ts with Idle => PIdle | Running c _ => PInvoked c | Done c r => PDecided c r end.

Lemma lin_order_app h1 h2 : lin_order (h1 ++ h2) = lin_order h1 ++ lin_order h2.
Proof.
  induction h1 as [|e h1 IH]; cbn [app lin_order]; [reflexivity|].
  destruct e; rewrite ?IH; reflexivity.
Qed.

(** ** The invariant *)
Definition block_below (st : block) (cur : Z) (b : block) : Prop :=
  size b = 0 \/ (start st <= start b /\ start b + size b <= start st + cur).

Record inv (t : target) (st : block) (s : sys) : Prop := {
  inv_counter : 0 <= counter s <= size st;
  inv_running : forall i c g, threads s i = Running c g ->
                valid_call t c /\ is_reset c = false /\ 0 <= g <= counter s;
  inv_legal : run t (fresh st) (map fst (lin_order (history s))) =
              (at_level st (counter s), lin_order (history s));
  inv_valid : Forall (valid_call t) (map fst (lin_order (history s)));
  inv_phase : forall i, follows_to i PIdle (history s) (phase_of (threads s i));
  inv_done : forall i c r b, threads s i = Done c r -> event_block (c, r) = Some b ->
             block_below st (counter s) b;
  inv_ret : Forall (block_below st (counter s)) (returned_blocks (hist s));
  inv_ret_pw : pairwise disjoint (returned_blocks (hist s));
  inv_done_ret : forall i c r b, threads s i = Done c r -> event_block (c, r) = Some b ->
             Forall (disjoint b) (returned_blocks (hist s));
  inv_done_done : forall i j c r b c' r' b', i <> j ->
             threads s i = Done c r -> event_block (c, r) = Some b ->
             threads s j = Done c' r' -> event_block (c', r') = Some b' -> disjoint b b';
}.

Lemma inv_init t st : valid_region t st -> inv t st sys_init.
Proof.
  intros (H1 & H2 & H3). split; cbn.
  - lia.
  - discriminate.
  - reflexivity.
  - constructor.
  - intros i. constructor.
  - discriminate.
  - constructor.
  - apply pairwise_nil.
  - discriminate.
  - discriminate.
Qed.

Lemma upd_same f i x : upd f i x i = x.
Proof. unfold upd. rewrite Nat.eqb_refl. reflexivity. Qed.
Lemma upd_other f i j x : j <> i -> upd f i x j = f j.
Proof. unfold upd. intros H. destruct (Nat.eqb_spec j i); congruence. Qed.

Lemma run_snoc t s cs c :
  run t s (cs ++ [c]) =
  let (s1, h) := run t s cs in let (s2, r) := step t s1 c in (s2, h ++ [(c, r)]).
Proof.
  rewrite run_app. destruct (run t s cs) as [s1 h]. cbn [run]. destruct (step t s1 c) as [s2 r]. reflexivity.
Qed.

Lemma block_below_mono st cur cur' b : cur <= cur' -> block_below st cur b -> block_below st cur' b.
Proof. intros H [Hz|[H1 H2]]; [left; exact Hz|right; lia]. Qed.

(** A freshly decided block is above everything handed out before. *)
Lemma decided_block t st cur c s' r b :
  valid_target t -> valid_region t st -> valid_call t c -> is_reset c = false -> 0 <= cur <= size st ->
  spec_step t (at_level st cur) c = (s', r) ->
  cur <= consumed s' <= size st /\
  (event_block (c, r) = Some b ->
   block_below st (consumed s') b /\
   (forall b', block_below st cur b' -> disjoint b b')).
Proof.
  intros Ht Hst Hc Hres Hcur Hstep.
  pose proof (spec_step_cases t (at_level st cur) c) as Hcs. rewrite Hstep in Hcs.
  destruct Hcs as [[-> Hr]|[(l & Hl & Hnz & Hf & -> & ->)|(-> & _)]]; [| |discriminate].
  - split; [cbn; lia|]. unfold event_block. destruct r as [a| | | | |]; try discriminate.
    destruct (Hr a eq_refl) as (l & Hl & Hz & _). rewrite Hl. intros [= <-]. split.
    + left. exact Hz.
    + intros b' _. apply disjoint_empty. cbn. lia.
  - pose proof (valid_call_layout t c l Hc Hl) as Hv.
    assert (0 < lsize l) as Hpos by (destruct Hv; lia).
    assert (ok t (at_level st cur)) as Hok by (split; [exact Hst|exact Hcur]).
    destruct (bumped_ok t (at_level st cur) l Hok Hv Hpos Hf) as [[_ Hok2] Hinc].
    cbn [storage consumed at_level] in Hok2, Hinc.
    pose proof (align_up_ge (start st + cur) (lalign l) (valid_layout_align t l Hv)) as Hup.
    assert (consumed (bumped (at_level st cur) l) = align_up (start st + cur) (lalign l) + lsize l - start st)
      as Hcb by reflexivity.
    split.
    + cbn [storage bumped at_level] in Hok2. lia.
    + unfold event_block. rewrite Hl. intros [= <-]. unfold placed, place. cbn [ptr storage consumed at_level].
      split.
      * right. cbn [start size]. lia.
      * intros b' [Hz|[H1 H2]].
        -- apply disjoint_sym. apply disjoint_empty. lia.
        -- apply disjoint_intro. cbn [start size]. right. lia.
Qed.

Lemma inv_step t st s a :
  valid_target t -> valid_region t st -> valid_action t a -> inv t st s -> inv t st (sys_step t st s a).
Proof.
  intros Ht Hst Ha Hinv. destruct a as [i c|i|i]; cbn [sys_step].
  - (* Invoke *)
    destruct (threads s i) as [|c0 g0|c0 r0] eqn:Hi; [|exact Hinv|exact Hinv].
    destruct Ha as [Hvc Hres].
    destruct Hinv as [I1 I2 I3 I4 I5 I6 I7 I8 I9 I10].
    assert (forall j c r, upd (threads s) i (Running c 0) j = Done c r -> threads s j = Done c r) as _ by
      (intros j c1 r1; unfold upd; destruct (Nat.eqb_spec j i); congruence).
    assert (forall j c1 r1, upd (threads s) i (Running c 0) j = Done c1 r1 -> threads s j = Done c1 r1) as Hd by
      (intros j c1 r1; unfold upd; destruct (Nat.eqb_spec j i); congruence).
    split; cbn [counter threads hist]; unfold history; cbn [hist rev].
    + exact I1.
    + intros j c1 g1. unfold upd. destruct (Nat.eqb_spec j i) as [->|Hj].
      * intros [= <- <-]. repeat split; auto; lia.
      * apply I2.
    + fold (history s). rewrite lin_order_app. cbn [lin_order]. rewrite app_nil_r. exact I3.
    + fold (history s). rewrite lin_order_app. cbn [lin_order]. rewrite app_nil_r. exact I4.
    + intros j. fold (history s). unfold upd. destruct (Nat.eqb_spec j i) as [->|Hj].
      * eapply follows_to_app; [apply (I5 i)|]. rewrite Hi. cbn [phase_of].
        apply ft_inv. apply ft_nil.
      * eapply follows_to_app; [apply (I5 j)|]. apply ft_other; [cbn; congruence|apply ft_nil].
    + intros j c1 r1 b Hj. apply (I6 j). apply Hd. exact Hj.
    + exact I7.
    + exact I8.
    + intros j c1 r1 b Hj. apply (I9 j c1 r1 b). apply Hd. exact Hj.
    + intros j k c1 r1 b1 c2 r2 b2 Hjk Hj Hb1 Hk. apply (I10 j k c1 r1 b1 c2 r2 b2); auto.
  - (* Access *)
    destruct (threads s i) as [|c g|c0 r0] eqn:Hi; [exact Hinv| |exact Hinv].
    destruct Hinv as [I1 I2 I3 I4 I5 I6 I7 I8 I9 I10].
    destruct (I2 i c g Hi) as (Hvc & Hres & Hg).
    destruct (access_spec t st (counter s) c g Ht Hst Hvc Hres Hg (proj2 I1))
      as [(s' & r & Hstep & Hstor & ->)|(Hloop & Hne & ->)].
    + (* decided *)
      pose proof (fun b => decided_block t st (counter s) c s' r b Ht Hst Hvc Hres I1 Hstep) as Hdb.
      assert (counter s <= consumed s' <= size st) as Hmono.
      { destruct (Hdb (MkBlock 0 0)) as [Hm _]. exact Hm. }
      split; cbn [counter threads hist]; unfold history; cbn [hist rev].
      * lia.
      * intros j c1 g1. unfold upd. destruct (Nat.eqb_spec j i) as [->|Hj]; [discriminate|].
        intros Hr. destruct (I2 j c1 g1 Hr) as (A1 & A2 & A3). repeat split; auto; lia.
      * fold (history s). rewrite lin_order_app. cbn [lin_order]. rewrite map_app. cbn [map fst].
        pose proof (run_snoc t (fresh st) (map fst (lin_order (history s))) c) as Hsn.
        rewrite I3 in Hsn. etransitivity; [exact Hsn|]. clear Hsn.
        rewrite step_spec; [|exact Ht| |exact Hvc].
        -- rewrite Hstep. f_equal. destruct s' as [st' c']. cbn in *. subst st'. reflexivity.
        -- split; [exact Hst|exact I1].
      * fold (history s). rewrite lin_order_app, map_app. apply Forall_app; split; [exact I4|].
        cbn. constructor; [exact Hvc|constructor].
      * intros j. fold (history s). unfold upd. destruct (Nat.eqb_spec j i) as [->|Hj].
        -- eapply follows_to_app; [apply (I5 i)|]. rewrite Hi. cbn [phase_of].
           apply ft_lin. apply ft_nil.
        -- eapply follows_to_app; [apply (I5 j)|]. apply ft_other; [cbn; congruence|apply ft_nil].
      * intros j c1 r1 b. unfold upd. destruct (Nat.eqb_spec j i) as [->|Hj].
        -- intros [= <- <-] Hb. destruct (Hdb b) as [_ Hb']. apply Hb'. exact Hb.
        -- intros Hd Hb. eapply block_below_mono; [|eapply I6; eassumption]. lia.
      * cbn [returned_blocks]. eapply Forall_impl; [|exact I7].
        intros b. apply block_below_mono. lia.
      * exact I8.
      * cbn [returned_blocks]. intros j c1 r1 b. unfold upd. destruct (Nat.eqb_spec j i) as [->|Hj].
        -- intros [= <- <-] Hb. destruct (Hdb b) as [_ Hb']. destruct (Hb' Hb) as [_ Hdis].
           eapply Forall_impl; [|exact I7]. exact Hdis.
        -- apply I9.
      * intros j k c1 r1 b1 c2 r2 b2 Hjk. unfold upd.
        destruct (Nat.eqb_spec j i) as [->|Hj], (Nat.eqb_spec k i) as [->|Hk].
        -- congruence.
        -- intros [= <- <-] Hb1 Hk2 Hb2. destruct (Hdb b1) as [_ Hb']. apply (Hb' Hb1).
           eapply I6; eassumption.
        -- intros Hj2 Hb1 [= <- <-] Hb2. destruct (Hdb b2) as [_ Hb']. apply disjoint_sym. apply (Hb' Hb2).
           eapply I6; eassumption.
        -- apply I10. exact Hjk.
    + (* failed exchange *)
      assert (forall j c1 r1, upd (threads s) i (Running c (counter s)) j = Done c1 r1 -> threads s j = Done c1 r1) as Hd by
        (intros j c1 r1; unfold upd; destruct (Nat.eqb_spec j i); congruence).
      split; cbn [counter threads hist]; unfold history; cbn [hist rev].
      * exact I1.
      * intros j c1 g1. unfold upd. destruct (Nat.eqb_spec j i) as [->|Hj].
        -- intros [= <- <-]. repeat split; auto; lia.
        -- apply I2.
      * exact I3.
      * exact I4.
      * intros j. unfold upd. destruct (Nat.eqb_spec j i) as [->|Hj].
        -- specialize (I5 i). rewrite Hi in I5. exact I5.
        -- apply I5.
      * intros j c1 r1 b Hj. apply (I6 j). apply Hd. exact Hj.
      * exact I7.
      * exact I8.
      * intros j c1 r1 b Hj. apply (I9 j c1 r1 b). apply Hd. exact Hj.
      * intros j k c1 r1 b1 c2 r2 b2 Hjk Hj Hb1 Hk. apply (I10 j k c1 r1 b1 c2 r2 b2); auto.
  - (* Return *)
    destruct (threads s i) as [|c0 g0|c r] eqn:Hi; [exact Hinv|exact Hinv|].
    destruct Hinv as [I1 I2 I3 I4 I5 I6 I7 I8 I9 I10].
    assert (forall j c1 r1, upd (threads s) i Idle j = Done c1 r1 -> threads s j = Done c1 r1 /\ j <> i) as Hd by
      (intros j c1 r1; unfold upd; destruct (Nat.eqb_spec j i); [congruence|auto]).
    split; cbn [counter threads hist]; unfold history; cbn [hist rev].
    + exact I1.
    + intros j c1 g1. unfold upd. destruct (Nat.eqb_spec j i) as [->|Hj]; [discriminate|]. apply I2.
    + fold (history s). rewrite lin_order_app. cbn [lin_order]. rewrite app_nil_r. exact I3.
    + fold (history s). rewrite lin_order_app. cbn [lin_order]. rewrite app_nil_r. exact I4.
    + intros j. fold (history s). unfold upd. destruct (Nat.eqb_spec j i) as [->|Hj].
      * eapply follows_to_app; [apply (I5 i)|]. rewrite Hi. cbn [phase_of].
        apply ft_ret. apply ft_nil.
      * eapply follows_to_app; [apply (I5 j)|]. apply ft_other; [cbn; congruence|apply ft_nil].
    + intros j c1 r1 b Hj. apply (I6 j). apply (Hd _ _ _ Hj).
    + cbn [returned_blocks]. destruct (event_block (c, r)) as [b|] eqn:Hb; [|exact I7].
      constructor; [|exact I7]. eapply I6; eassumption.
    + cbn [returned_blocks]. destruct (event_block (c, r)) as [b|] eqn:Hb; [|exact I8].
      apply pairwise_cons; [apply disjoint_sym| |exact I8]. eapply I9; eassumption.
    + intros j c1 r1 b Hj Hb. destruct (Hd _ _ _ Hj) as [Hj' Hne].
      cbn [returned_blocks]. destruct (event_block (c, r)) as [b'|] eqn:Hb'.
      * constructor; [|eapply I9; eassumption]. eapply (I10 j i); eassumption.
      * eapply I9; eassumption.
    + intros j k c1 r1 b1 c2 r2 b2 Hjk Hj Hb1 Hk. apply (I10 j k c1 r1 b1 c2 r2 b2); auto.
      * apply (Hd _ _ _ Hj).
      * apply (Hd _ _ _ Hk).
Qed.

Lemma inv_run t st s sched :
  valid_target t -> valid_region t st -> Forall (valid_action t) sched -> inv t st s ->
  inv t st (sys_run t st s sched).
Proof.
  intros Ht Hst. revert s. induction sched as [|a sched IH]; intros s Hs Hinv; cbn [sys_run fold_left].
  - exact Hinv.
  - inversion Hs; subst. apply IH; [assumption|]. apply inv_step; assumption.
Qed.

(** ** C10 *)
Lemma conc_linearizable t st sched :
  valid_target t -> valid_region t st -> Forall (valid_action t) sched ->
  linearizable t st (filter visible (history (sys_run t st sys_init sched))).
Proof.
  intros Ht Hst Hs. pose proof (inv_run t st sys_init sched Ht Hst Hs (inv_init t st Hst)) as Hinv.
  exists (history (sys_run t st sys_init sched)). split; [reflexivity|]. split.
  - intros i. eapply follows_to_follows. apply (inv_phase t st _ Hinv).
  - rewrite (inv_legal t st _ Hinv). reflexivity.
Qed.

(** ** C02 *)
Lemma follows_ret_lin i p h q c r :
  follows_to i p h q -> In (ERet i c r) h -> p = PDecided c r \/ In (ELin i c r) h.
Proof.
  induction 1 as [p|p e h q He Hf IH|c' h q Hf IH|c' r' h q Hf IH|c' r' h q Hf IH]; intros Hin.
  - destruct Hin.
  - destruct Hin as [->|Hin]; [cbn in He; congruence|]. destruct (IH Hin) as [->|H']; [left; reflexivity|right; right; exact H'].
  - destruct Hin as [[=]|Hin]. destruct (IH Hin) as [[=]|H']. right; right; exact H'.
  - destruct Hin as [[=]|Hin]. destruct (IH Hin) as [[= <- <-]|H']; [right; left; reflexivity|right; right; exact H'].
  - destruct Hin as [[= <- <-]|Hin]; [left; reflexivity|]. destruct (IH Hin) as [[=]|H']. right; right; exact H'.
Qed.

Lemma lin_order_in i c r h : In (ELin i c r) h -> In (c, r) (lin_order h).
Proof.
  induction h as [|e h IH]; [intros []|]. intros [->|Hin]; cbn [lin_order].
  - left; reflexivity.
  - destruct e; try (right; auto; fail); auto.
Qed.

Lemma pairwise_rev {A} (R : A -> A -> Prop) l : pairwise R l -> pairwise R (rev l).
Proof.
  intros H i j x y Hij Hi Hj.
  assert (forall k z, nth_error (rev l) k = Some z ->
          (k < length l)%nat /\ nth_error l (length l - S k) = Some z) as Hrev.
  { intros k z Hk. assert (k < length (rev l))%nat as Hlt by (apply nth_error_Some; congruence).
    rewrite rev_length in Hlt. split; [exact Hlt|].
    rewrite <- Hk. symmetry.
    destruct l as [|d l']; [cbn in Hlt; lia|].
    rewrite (nth_error_nth' (rev (d :: l')) d) by (rewrite rev_length; exact Hlt).
    rewrite (nth_error_nth' (d :: l') d) by lia.
    f_equal. apply rev_nth. exact Hlt. }
  destruct (Hrev i x Hi) as [Hi1 Hi2]. destruct (Hrev j y Hj) as [Hj1 Hj2].
  eapply (H (length l - S i)%nat (length l - S j)%nat); eauto. lia.
Qed.

Lemma returned_blocks_app h1 h2 : returned_blocks (h1 ++ h2) = returned_blocks h1 ++ returned_blocks h2.
Proof.
  induction h1 as [|e h1 IH]; cbn [app returned_blocks]; [reflexivity|].
  destruct e as [| |i c r]; try exact IH. destruct (event_block (c, r)); cbn [app]; rewrite IH; reflexivity.
Qed.

Lemma returned_blocks_rev h : returned_blocks (rev h) = rev (returned_blocks h).
Proof.
  induction h as [|e h IH]; cbn [rev]; [reflexivity|].
  rewrite returned_blocks_app, IH. destruct e as [| |i c r]; cbn [returned_blocks]; try apply app_nil_r.
  destruct (event_block (c, r)); [reflexivity|apply app_nil_r].
Qed.

Lemma conc_blocks_sound t st sched :
  valid_target t -> valid_region t st -> Forall (valid_action t) sched ->
  let h := history (sys_run t st sys_init sched) in
  (forall i c a l, In (ERet i c (RBlock a)) h -> call_layout c = Some l -> good_block st l (ptr a)) /\
  pairwise disjoint (returned_blocks h).
Proof.
  intros Ht Hst Hs. cbv zeta.
  pose proof (inv_run t st sys_init sched Ht Hst Hs (inv_init t st Hst)) as Hinv.
  set (s := sys_run t st sys_init sched) in *. split.
  - intros i c a l Hin Hl.
    destruct (follows_ret_lin i _ _ _ _ _ (inv_phase t st s Hinv i) Hin) as [[=]|Hlin].
    apply lin_order_in in Hlin.
    eapply (run_blocks_good t (fresh st) (map fst (lin_order (history s))) Ht (ok_fresh t st Hst)).
    + apply (inv_valid t st s Hinv).
    + rewrite (inv_legal t st s Hinv). exact Hlin.
    + exact Hl.
  - unfold history. rewrite returned_blocks_rev. apply pairwise_rev. apply (inv_ret_pw t st s Hinv).
Qed.

(** ** C08 *)
Lemma accesses_cons i a sched :
  accesses i (a :: sched) =
  (match a with Access j => if Nat.eqb j i then 1 else 0 | _ => 0 end) + accesses i sched.
Proof.
  unfold accesses, count. cbn [filter]. destruct a as [j c|j|j]; try reflexivity.
  destruct (Nat.eqb j i); cbn [length]; lia.
Qed.

Lemma returns_cons i a sched :
  returns i (a :: sched) =
  (match a with Return j => if Nat.eqb j i then 1 else 0 | _ => 0 end) + returns i sched.
Proof.
  unfold returns, count. cbn [filter]. destruct a as [j c|j|j]; try reflexivity.
  destruct (Nat.eqb j i); cbn [length]; lia.
Qed.

Lemma accesses_nonneg i sched : 0 <= accesses i sched.
Proof. unfold accesses. lia. Qed.
Lemma returns_nonneg i sched : 0 <= returns i sched.
Proof. unfold returns. lia. Qed.

Lemma successes_cons e h : successes (e :: h) =
  (match e with
   | ELin _ c (RBlock _) => match call_layout c with Some l => if lsize l =? 0 then 0 else 1 | None => 0 end
   | _ => 0 end) + successes h.
Proof.
  unfold successes, count. cbn [filter]. destruct e as [i c|i c r|i c r]; try reflexivity.
  destruct r; try reflexivity. destruct (call_layout c) as [l|]; try reflexivity.
  destruct (lsize l =? 0); cbn [negb length]; lia.
Qed.

(** Progress of one thread: still running after [n] accesses implies bounds on [n]. *)
Definition prog (S0 : Z) (s : sys) (i : nat) (n : Z) : Prop :=
  decided (threads s i) \/
  exists c g, threads s i = Running c g /\
    n <= g /\
    exists Sl, n <= Sl + 1 /\ 0 <= Sl <= successes (hist s) - S0 /\
               (0 < n -> counter s <> g -> Sl < successes (hist s) - S0).

Lemma prog_step t st s i n S0 a :
  valid_target t -> valid_region t st -> valid_action t a -> inv t st s ->
  (forall j, a = Return j -> j <> i) -> 0 <= n ->
  prog S0 s i n ->
  prog S0 (sys_step t st s a) i (n + match a with Access j => if Nat.eqb j i then 1 else 0 | _ => 0 end).
Proof.
  intros Ht Hst Ha Hinv Hret Hn Hp.
  destruct a as [j c|j|j]; cbn [sys_step].
  - rewrite Z.add_0_r. destruct (threads s j) as [|cj gj|cj rj] eqn:Hj; [|exact Hp|exact Hp].
    assert (j <> i) as Hji.
    { intros ->. destruct Hp as [(c' & r' & Hd)|(c' & g' & Hd & _)]; congruence. }
    destruct Hp as [(c' & r' & Hd)|(c' & g' & Hd & Hng & Sl & H1 & H2 & H3)].
    + left. exists c', r'. cbn [threads]. rewrite upd_other by congruence. exact Hd.
    + right. exists c', g'. cbn [threads counter hist]. rewrite upd_other by congruence.
      split; [exact Hd|]. split; [exact Hng|]. exists Sl. rewrite successes_cons. auto.
  - destruct (threads s j) as [|cj gj|cj rj] eqn:Hj.
    + destruct (Nat.eqb_spec j i) as [->|Hji]; [|rewrite Z.add_0_r; exact Hp].
      destruct Hp as [(c' & r' & Hd)|(c' & g' & Hd & _)]; congruence.
    + pose proof (inv_counter t st s Hinv) as I1.
      destruct (inv_running t st s Hinv j cj gj Hj) as (Hvc & Hres & Hg).
      destruct (access_spec t st (counter s) cj gj Ht Hst Hvc Hres Hg (proj2 I1))
        as [(s' & r & Hstep & Hstor & ->)|(Hloop & Hne & ->)].
      * destruct (Nat.eqb_spec j i) as [->|Hji].
        -- left. exists cj, r. cbn [threads]. apply upd_same.
        -- rewrite Z.add_0_r.
           destruct Hp as [(c' & r' & Hd)|(c' & g' & Hd & Hng & Sl & H1 & H2 & H3)].
           ++ left. exists c', r'. cbn [threads]. rewrite upd_other by congruence. exact Hd.
           ++ right. exists c', g'. cbn [threads counter hist]. rewrite upd_other by congruence.
              split; [exact Hd|]. split; [exact Hng|]. exists Sl. rewrite successes_cons.
              pose proof (spec_step_cases t (at_level st (counter s)) cj) as Hcs. rewrite Hstep in Hcs.
              destruct Hcs as [[-> Hr]|[(l & Hl & Hnz & Hf & -> & ->)|(-> & _)]]; [| |discriminate].
              ** cbn [consumed at_level].
                 assert (0 <= match r with
                              | RBlock _ => match call_layout cj with Some l => if lsize l =? 0 then 0 else 1 | None => 0 end
                              | _ => 0 end) as Hnn.
                 { destruct r; try lia. destruct (call_layout cj) as [l|]; [|lia]. destruct (lsize l =? 0); lia. }
                 split; [exact H1|]. split; [lia|]. intros Hp1 Hp2. specialize (H3 Hp1 Hp2). lia.
              ** rewrite Hl. destruct (Z.eqb_spec (lsize l) 0); [congruence|].
                 split; [exact H1|]. split; [lia|]. lia.
      * destruct (Nat.eqb_spec j i) as [->|Hji].
        -- destruct Hp as [(c' & r' & Hd)|(c' & g' & Hd & Hng & Sl & H1 & H2 & H3)]; [congruence|].
           rewrite Hj in Hd. injection Hd as <- <-.
           right. exists cj, (counter s). cbn [threads counter hist]. rewrite upd_same.
           split; [reflexivity|]. split; [lia|].
           exists (successes (hist s) - S0). split; [|split; [lia|congruence]].
           destruct (Z.eq_dec n 0) as [->|Hn0]; [lia|]. specialize (H3 ltac:(lia) Hne). lia.
        -- rewrite Z.add_0_r.
           destruct Hp as [(c' & r' & Hd)|(c' & g' & Hd & Hng & Sl & H1 & H2 & H3)].
           ++ left. exists c', r'. cbn [threads]. rewrite upd_other by congruence. exact Hd.
           ++ right. exists c', g'. cbn [threads counter hist]. rewrite upd_other by congruence.
              split; [exact Hd|]. split; [exact Hng|]. exists Sl. auto.
    + destruct (Nat.eqb_spec j i) as [->|Hji]; [|rewrite Z.add_0_r; exact Hp].
      left. exists cj, rj. exact Hj.
  - rewrite Z.add_0_r. specialize (Hret j eq_refl).
    destruct (threads s j) as [|cj gj|cj rj] eqn:Hj; [exact Hp|exact Hp|].
    destruct Hp as [(c' & r' & Hd)|(c' & g' & Hd & Hng & Sl & H1 & H2 & H3)].
    + left. exists c', r'. cbn [threads]. rewrite upd_other by congruence. exact Hd.
    + right. exists c', g'. cbn [threads counter hist]. rewrite upd_other by congruence.
      split; [exact Hd|]. split; [exact Hng|]. exists Sl. rewrite successes_cons. auto.
Qed.

Lemma prog_run t st s i n S0 sched :
  valid_target t -> valid_region t st -> Forall (valid_action t) sched -> inv t st s ->
  returns i sched = 0 -> 0 <= n -> prog S0 s i n ->
  prog S0 (sys_run t st s sched) i (n + accesses i sched).
Proof.
  intros Ht Hst. revert s n. induction sched as [|a sched IH]; intros s n Hs Hinv Hret Hn Hp; cbn [sys_run fold_left].
  - unfold accesses, count. cbn. rewrite Z.add_0_r. exact Hp.
  - inversion Hs as [|? ? Ha Hs']; subst.
    rewrite returns_cons in Hret. pose proof (returns_nonneg i sched) as Hrn.
    rewrite accesses_cons, Z.add_assoc. apply IH.
    + exact Hs'.
    + apply inv_step; assumption.
    + destruct a as [j c|j|j]; try lia. destruct (Nat.eqb j i); lia.
    + destruct a as [j c|j|j]; try lia. destruct (Nat.eqb j i); lia.
    + apply prog_step; try assumption.
      intros j ->. intros ->. rewrite Nat.eqb_refl in Hret. lia.
Qed.

Lemma sys_run_app t st s a b : sys_run t st s (a ++ b) = sys_run t st (sys_run t st s a) b.
Proof. unfold sys_run. apply fold_left_app. Qed.

Lemma conc_wait_free t st pre i c mid :
  valid_target t -> valid_region t st ->
  Forall (valid_action t) (pre ++ Invoke i c :: mid) ->
  returns i mid = 0 ->
  let s0 := sys_run t st sys_init pre in
  let s1 := sys_run t st sys_init (pre ++ Invoke i c :: mid) in
  threads s0 i = Idle ->
  (size st + 1 <= accesses i mid \/
   successes (history s1) - successes (history s0) + 2 <= accesses i mid) ->
  decided (threads s1 i).
Proof.
  intros Ht Hst Hs Hret. cbv zeta. intros Hidle Hn.
  apply Forall_app in Hs as [Hpre Hmid]. inversion Hmid as [|? ? Hinvk Hmid']; subst.
  pose proof (inv_run t st sys_init pre Ht Hst Hpre (inv_init t st Hst)) as Hinv0.
  rewrite sys_run_app in *. set (s0 := sys_run t st sys_init pre) in *.
  cbn [sys_run fold_left] in *. fold (sys_run t st (sys_step t st s0 (Invoke i c)) mid) in *.
  pose proof (inv_step t st s0 (Invoke i c) Ht Hst Hinvk Hinv0) as Hinv1.
  assert (prog (successes (hist s0)) (sys_step t st s0 (Invoke i c)) i 0) as Hp0.
  { right. cbn [sys_step]. rewrite Hidle. exists c, 0. cbn [threads hist counter]. rewrite upd_same.
    split; [reflexivity|]. split; [lia|]. exists 0. rewrite successes_cons. lia. }
  pose proof (prog_run t st _ i 0 _ mid Ht Hst Hmid' Hinv1 Hret (Z.le_refl 0) Hp0) as Hp.
  pose proof (inv_run t st _ mid Ht Hst Hmid' Hinv1) as Hinv2.
  set (s1 := sys_run t st (sys_step t st s0 (Invoke i c)) mid) in *.
  rewrite Z.add_0_l in Hp.
  destruct Hp as [Hd|(c' & g' & Hd & Hng & Sl & H1 & H2 & H3)]; [exact Hd|exfalso].
  destruct (inv_running t st s1 Hinv2 i c' g' Hd) as (_ & _ & Hg).
  pose proof (inv_counter t st s1 Hinv2) as I1.
  assert (forall h, successes (rev h) = successes h) as Hrev.
  { intros h. unfold successes, count. f_equal. induction h as [|e h IH]; [reflexivity|].
    cbn [rev]. rewrite filter_app, app_length, IH. cbn [filter].
    match goal with |- context [if ?b then _ else _] => destruct b end; cbn [length]; lia. }
  unfold history in Hn. rewrite !Hrev in Hn. lia.
Qed.
