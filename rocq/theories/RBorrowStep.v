(** * RBorrowStep: one step of a program that uses Rcs, compared with the ideal. *)
From Verif Require Import Base Spec BaseFacts SyncModel SyncSpec RcModel RcProofs RcMemProofs BorrowModel BorrowSpec BorrowProofs BorrowState BorrowWorld EBorrowSlot UBorrowModel RBorrowModel RBorrowSpec RBorrowBytes RBorrowOps RBorrowCalls RBorrowWorld.

(** The parts of [drop] and [try_unwrap] *)
Definition drop_pre (B : list nat) (t : target) (x : qbox) : M unit := _ <- rb_set_strong B t x ;; _ <- rb_strong_count B t x ;; rb_set_weak B t x.
Lemma drop_last B t0 x n s : rb_drop B t0 x 1 n s =
  match drop_pre B t0 x s with
  | Some (_, s1) => match m_retag_prot B (q_base x) [(mut_kind (q_unpin (q_ty x)), q_val x)] (Some n) s1 with Some (d, s2) => Some (Some d, s2) | None => None end
  | None => None
  end.
Proof.
  unfold rb_drop, drop_pre, mbind. destruct (rb_set_strong B t0 x s) as [[a1 s1]|]; [|reflexivity]. destruct (rb_strong_count B t0 x s1) as [[a2 s2]|]; [|reflexivity].
  cbn [Nat.eqb]. destruct (rb_set_weak B t0 x s2) as [[a3 s3]|]; [|reflexivity]. unfold mret. reflexivity.
Qed.
Lemma drop_looks t x : valid_target t -> qtype_ok t (q_ty x) -> forall owner c K (cs : Z -> Prop), (forall y, in_block (q_all t x) y -> owner y = Some (q_base x)) ->
  (forall y, in_block (q_strong t x) y \/ in_block (q_weak t x) y -> cs y) -> (forall y, in_block (q_val x) y -> ~ cs y) ->
  forall s, sinv owner K cs s -> looks owner K cs (look_of c (q_base x) (q_refs x)) (drop_pre c t x) s (fun _ _ => True).
Proof.
  intros V0 BO ow c K cs BW BC BN s SB. unfold drop_pre. eapply looks_bind; [apply look_idem|eapply set_strong_looks; eauto|]. intros _ s1 H1 _ _.
  eapply looks_bind; [apply look_idem|eapply strong_looks; eauto|]. intros _ s2 H2 _ _. eapply set_weak_looks; eauto.
Qed.
Lemma drop2_looks t x : valid_target t -> qtype_ok t (q_ty x) -> forall owner c K (cs : Z -> Prop), (forall y, in_block (q_all t x) y -> owner y = Some (q_base x)) ->
  (forall y, in_block (q_strong t x) y \/ in_block (q_weak t x) y -> cs y) -> (forall y, in_block (q_val x) y -> ~ cs y) ->
  forall st n s, st <> 1%nat -> sinv owner K cs s -> looks owner K cs (look_of c (q_base x) (q_refs x)) (rb_drop c t x st n) s (fun r _ => r = None).
Proof.
  intros V0 BO ow c K cs BW BC BN st n s N SB. unfold rb_drop. rewrite (proj2 (Nat.eqb_neq st 1) N). eapply looks_bind; [apply look_idem|eapply set_strong_looks; eauto|]. intros _ s1 H1 _ _.
  eapply looks_after; [eapply strong_looks; eauto|]. intros _ s2 H2 _ _. apply looks_ret; auto.
Qed.
Lemma unwrap_looks t x : valid_target t -> qtype_ok t (q_ty x) -> forall owner c K (cs : Z -> Prop), (forall y, in_block (q_all t x) y -> owner y = Some (q_base x)) ->
  (forall y, in_block (q_strong t x) y \/ in_block (q_weak t x) y -> cs y) -> (forall y, in_block (q_val x) y -> ~ cs y) ->
  forall s, sinv owner K cs s -> looks owner K cs (look_of c (q_base x) (q_refs x)) (_ <- rb_strong_count c t x ;; rb_set_strong c t x) s (fun _ _ => True).
Proof.
  intros V0 BO ow c K cs BW BC BN s SB. eapply looks_bind; [apply look_idem|eapply strong_looks; eauto|]. intros _ s1 H1 _ _. eapply set_strong_looks; eauto.
Qed.

Lemma drop_some B t x st n s d s' : rb_drop B t x st n s = Some (Some d, s') -> st = 1%nat.
Proof.
  unfold rb_drop, mbind. destruct (rb_set_strong B t x s) as [[a1 s1]|]; [|discriminate]. destruct (rb_strong_count B t x s1) as [[a2 s2]|]; [|discriminate].
  destruct (Nat.eqb_spec st 1) as [E|E]; [auto|]. discriminate.
Qed.

Section Step.
Variables (t : target) (owner : Z -> option nat).
Hypothesis V : valid_target t.
Notation qinv := (qinv t owner).

Lemma put_same k c : m_box k = Some c -> k = put_box k (Some c).
Proof. destruct k; cbn. intros ->. reflexivity. Qed.

Lemma upd_put w i m k c b kx s' K' hs' kk ob : qinv w i -> nth_error (qmems w) m = Some k -> m_box k = Some c -> kx = put_box k b ->
  match b with Some c' => c_ty c' = c_ty c | None => True end -> ob = option_map (fun c => (c_ty c, c_val c)) b ->
  incl (j_used i) K' -> sinv owner K' (counters t (qmems w)) s' -> counts_other (qhandles w) hs' m -> box_after t K' hs' m k b -> (forall y, kk y = absf K' s' y) ->
  qinv (put_mem w m kx s' hs') (j_put i m ob kk hs' K').
Proof.
  intros H E B -> T -> IK S CO BA AB. unfold put_mem, j_put. rewrite (v_drops _ _ _ _ H), (v_busy _ _ _ _ H), (v_calls _ _ _ _ H).
  eapply (upd t owner w i m k c b s' K' hs' kk); eauto.
Qed.

Ltac counts :=
  unfold weak_of, strong_of in *;
  repeat match goal with
  | E : nth_error ?hs ?h = Some (?m, ?kd) |- context [count_of _ (set_nth ?hs ?h (?m, ?kd')) ?m] =>
      let A := fresh in let B := fresh in
      pose proof (count_set is_strong m kd kd' m hs h E) as A; pose proof (count_set is_weak m kd kd' m hs h E) as B;
      rewrite Nat.eqb_refl in A, B; cbn [andb is_strong is_weak b2n] in A, B;
      revert A B; generalize (count_of is_strong (set_nth hs h (m, kd')) m), (count_of is_weak (set_nth hs h (m, kd')) m); intros
  | |- context [count_of _ (?hs ++ [(?m, ?kd)]) ?m] => rewrite !count_app, !Nat.eqb_refl; cbn [andb is_strong is_weak b2n]
  end;
  repeat match goal with |- context [Nat.eqb ?a 0] => destruct (Nat.eqb_spec a 0) | Q : context [Nat.eqb ?a 0] |- _ => destruct (Nat.eqb_spec a 0) end;
  lia.

Ltac lk L f :=
  let LR := fresh "LR" in pose proof (look_rel t owner _ _ _ _ _ ltac:(eassumption) ltac:(eassumption) L) as LR;
  match goal with VB : j_busy _ = qbusy _ |- _ => rewrite VB in LR end;
  destruct f as [[? ?]|]; destruct (look _ _ _ _) as [?|]; try contradiction; [|eassumption]; destruct LR as (? & ? & ?).
Ltac nk L :=
  let a := fresh in let s1 := fresh in let E := fresh in
  destruct (none_rel t owner _ _ _ _ ltac:(eassumption) L) as (a & s1 & E & ? & ? & _); rewrite E; clear E.
Ltac fin :=
  match goal with Q : ~ In ?n (j_used ?i) |- exists n i', _ => exists n; eexists; split; [exact Q|] end;
  split; [reflexivity|]; cbn [fst];
  eapply upd_put; [eassumption|eassumption|eassumption|first [reflexivity | apply put_same; eassumption]|reflexivity|reflexivity|apply incl_refl|eassumption
                  |first [apply other_app|eapply other_set; eassumption|apply other_same]| |eassumption].

(** The calls on a handle *)
Lemma qcall_sim w i h m kd k c o : qinv w i -> nth_error (qhandles w) h = Some (m, kd) -> nth_error (qmems w) m = Some k -> m_box k = Some c ->
  exists n i', ~ In n (j_used i) /\ jcall t n i h m kd (box_at k (c_ty c)) (c_val c) o = (i', snd (qcall t w h m kd k c o)) /\ qinv (fst (qcall t w h m kd k c o)) i'.
Proof.
  intros H Eh Ek Ec. pose proof (boxed_of t owner V _ _ _ m k c (v_minv _ _ _ _ H) Ek Ec) as BX. set (x := box_at k (c_ty c)) in *.
  destruct (v_box _ _ _ _ _ (v_minv _ _ _ _ H) m k c Ek Ec) as (TY & FT & ST & WK & LV & TG).
  pose proof (v_sb _ _ _ _ H) as SB. pose proof (s_fresh _ _ _ _ SB) as FR.
  destruct BX as [BO BW BC BN BB].
  assert (AP : apart (q_refs x) = true) by (apply (refs_apart t); exact BO).
  assert (INV : exists n i', ~ In n (j_used i) /\ (i, QInvalid) = (i', QInvalid) /\ qinv w i') by (exists (nexttag (qsb w)), i; auto).
  assert (UB : exists n i', ~ In n (j_used i) /\ (i, QUB) = (i', QUB) /\ qinv w i') by (exists (nexttag (qsb w)), i; auto).
  pose proof (v_handles _ _ _ _ H) as VH. pose proof (v_busy _ _ _ _ H) as VB.
  assert (LIVE : kd = HStrong \/ kd = HRaw -> (1 <= strong_of (qhandles w) m)%nat).
  { intros [-> | ->]; eapply count_has; eauto. }
  (* a box of the same type *)
  assert (BOX : forall K' hs' v, incl (j_used i) K' -> ((0 < strong_of hs' m)%nat -> exists l, v = QLive l) -> (forall l, tags_of v = Some l -> incl l K') ->
    forall st wk, st = strong_of hs' m -> wk = weak_of hs' m -> box_after t K' hs' m k (Some (MkQC (c_ty c) st wk v))).
  { intros K' hs' v IK Lv Tg st wk -> ->. cbn [box_after]. unfold box_ok. cbn [c_ty c_strong c_weak c_val]. auto 10. }
  destruct o; destruct kd; cbn [qcall jcall]; try exact INV; fold x; rewrite ?VH, ?VB, <- ?ST, <- ?WK.

  - lk (set_strong_looks t x V BO owner (qbusy w) (j_used i) _ BW BC BN (qsb w) SB) (rb_set_strong (qbusy w) t x (qsb w)).
    fin. apply BOX; [apply incl_refl|intros _; apply LV; apply LIVE; auto|exact TG|specialize (LIVE (or_introl eq_refl)); counts|specialize (LIVE (or_introl eq_refl)); counts].
  - nk (wk_set_runs t x V BO owner (qbusy w) (j_used i) _ BW BC (qsb w) SB).
    fin. apply BOX; [apply incl_refl|intros X; apply LV; revert X; counts|exact TG|counts|counts].
  - lk (set_weak_looks t x V BO owner (qbusy w) (j_used i) _ BW BC BN (qsb w) SB) (rb_set_weak (qbusy w) t x (qsb w)).
    fin. apply BOX; [apply incl_refl|intros _; apply LV; apply LIVE; auto|exact TG|counts|counts].
  - pose proof (wk_upgrade_runs t x V BO owner (qbusy w) (j_used i) _ BW BC BN (c_strong c) (qsb w) SB) as LU.
    destruct (Nat.eqb (c_strong c) 0) eqn:Z0.
    + nk LU. fin. apply (BOX _ _ _ (incl_refl _) LV TG); [exact ST|exact WK].
    + lk LU (wk_upgrade (qbusy w) t x (c_strong c) (qsb w)). apply Nat.eqb_neq in Z0.
      fin. apply BOX; [apply incl_refl|intros _; apply LV; lia|exact TG|counts|counts].
  - lk (strong_looks t x V BO owner (qbusy w) (j_used i) _ BW BC BN (qsb w) SB) (rb_strong_count (qbusy w) t x (qsb w)).
    fin. apply (BOX _ _ _ (incl_refl _) LV TG); [exact ST|exact WK].
  - nk (wk_count_runs t x V BO owner (qbusy w) (j_used i) _ BW BC (q_strong t x) (qsb w) (or_introl eq_refl) SB).
    fin. apply (BOX _ _ _ (incl_refl _) LV TG); [exact ST|exact WK].
  - lk (weak_looks t x V BO owner (qbusy w) (j_used i) _ BW BC BN (qsb w) SB) (rb_weak_count (qbusy w) t x (qsb w)).
    fin. apply (BOX _ _ _ (incl_refl _) LV TG); [exact ST|exact WK].
  - nk (wk_count_runs t x V BO owner (qbusy w) (j_used i) _ BW BC (q_weak t x) (qsb w) (or_intror eq_refl) SB).
    fin. apply (BOX _ _ _ (incl_refl _) LV TG); [exact ST|exact WK].
  - (* drop of an Rc *)
    assert (L1 : (1 <= strong_of (qhandles w) m)%nat) by (apply LIVE; auto). destruct (LV L1) as (l & EL).
    destruct (Nat.eqb (c_strong c) 1) eqn:S1.
    + apply Nat.eqb_eq in S1. pose proof (drop_looks t x V BO owner (qbusy w) (j_used i) _ BW BC BN (qsb w) SB) as LD.
      rewrite S1. rewrite (drop_last (qbusy w) t x (qcalls w) (qsb w)).
      lk LD (drop_pre (qbusy w) t x (qsb w)).
      match goal with Q1 : sinv _ _ _ ?s1, Q2 : forall y, ?k1 y = absf _ ?s1 y |- _ => rename s1 into s2; rename k1 into kk; rename Q1 into SI; rename Q2 into AB end.
      pose proof (act_rel owner (j_used i) _ s2 (MkO (q_val x) [q_base x]) (CRetag (q_base x) [(mut_kind (q_unpin (q_ty x)), q_val x)] (Some (qcalls w))) kk SI AB (act_ok_mut x _) BB
        (val_owned t x V BO owner BW) BN (qbusy w)) as AR.
      cbn [act_stk] in AR. unfold m_retag_prot. rewrite <- (v_calls _ _ _ _ H) in *.
      pose proof (s_fresh _ _ _ _ SI) as FR2. exists (nexttag s2).
      destruct (retag_parts (qbusy w) (q_base x) (nexttag s2) (Some (j_calls i)) [(mut_kind (q_unpin (q_ty x)), q_val x)] (stk s2)) as [k'|],
        (retag_parts (qbusy w) (q_base x) (nexttag s2) (Some (j_calls i)) [(mut_kind (q_unpin (q_ty x)), q_val x)] kk) as [kk'|]; try contradiction; [|exists i; auto].
      destruct AR as [SI2 AB2]. cbn [tags_after next_after] in SI2, AB2. rewrite EL. cbn [tags_of]. eexists. split; [exact FR2|]. split; [reflexivity|]. cbn [fst].
      rewrite (v_drops _ _ _ _ H). unfold j_put. cbn [j_mems j_handles]. rewrite (v_calls _ _ _ _ H).
      eapply (upd t owner w i m k c (Some (MkQC (c_ty c) (pred 1) (pred (c_weak c)) (QDying (nexttag s2 :: l))))).
      * exact H.
      * exact Ek.
      * exact Ec.
      * reflexivity.
      * intros z Z. right. exact Z.
      * exact SI2.
      * eapply other_set; exact Eh.
      * apply BOX.
        -- intros z Z. right. exact Z.
        -- intros X. exfalso. revert X. counts.
        -- intros l' [= <-]. intros z [<-|Z]; [left; reflexivity|]. right. apply (TG l); [rewrite EL; reflexivity|exact Z].
        -- counts.
        -- counts.
      * exact AB2.
    + apply Nat.eqb_neq in S1. pose proof (drop2_looks t x V BO owner (qbusy w) (j_used i) _ BW BC BN (c_strong c) (qcalls w) (qsb w) S1 SB) as LD.
      pose proof (look_rel t owner w i x _ _ H AP LD) as LR. rewrite VB in LR. unfold looks in LD. 
      destruct (rb_drop (qbusy w) t x (c_strong c) (qcalls w) (qsb w)) as [[a s2]|], (look (qbusy w) (q_base x) (q_refs x) (j_stk i)) as [kk|]; try contradiction; [|exact UB].
      destruct LR as (SI & AB & _). destruct LD as (_ & _ & _ & ->).
      fin. apply BOX; [apply incl_refl|intros _; apply LV; exact L1|exact TG|counts|counts].
  - nk (wk_set_runs t x V BO owner (qbusy w) (j_used i) _ BW BC (qsb w) SB).
    pose proof (count_has is_weak m HWeak _ _ Eh eq_refl) as Hw.
    fin. apply BOX; [apply incl_refl|intros X; apply LV; revert X; counts|exact TG|counts|counts].
  - (* deref *)
    pose proof (deref_sim t x V BO owner (qbusy w) (j_used i) _ BW BN (qsb w) SB) as D. assert (L1 : (1 <= strong_of (qhandles w) m)%nat) by (apply LIVE; auto). destruct (LV L1) as (l & EL).
    pose proof (fun n => retag_does (qbusy w) (q_base x) n None (q_refs x) (j_stk i) AP) as D2.
    assert (KA : forall n y, match find (fun q : rkind * block => inb (snd q) y) (q_refs x) with Some (kd, _) => Some (sb_retag (qbusy w) kd (q_base x) n None) | None => None end = ref_at x (qbusy w) n y).
    { intros n y. unfold ref_at, kind_at. destruct (find _ (q_refs x)) as [[kd b]|]; reflexivity. }
    destruct (rb_deref (qbusy w) t x (qsb w)) as [[r s2]|].
    + destruct D as (Lr & _ & SI & DD). specialize (D2 r). pose proof (does_ext _ (ref_at x (qbusy w) r) _ _ (fun y => eq_sym (KA r y)) D2) as D3.
      pose proof (does_det _ _ _ _ _ (v_abs _ _ _ _ H) DD D3) as AB. destruct (retag_parts _ _ _ _ _ _) as [kk|] eqn:ER; [|contradiction].
      assert (Fr : ~ In r (j_used i)). { intros X. pose proof (s_K _ _ _ _ SB) as F. rewrite Forall_forall in F. specialize (F r X). lia. }
      exists r. rewrite ER. eexists. split; [exact Fr|]. split; [reflexivity|]. cbn [fst].
      eapply upd_put; [exact H|exact Ek|exact Ec|reflexivity|reflexivity|reflexivity| |exact SI|apply other_same| |exact AB].
      * intros z Z. right. exact Z.
      * rewrite EL. apply BOX; [intros z Z; right; exact Z|intros _; eexists; reflexivity| |exact ST|exact WK].
        intros l' [= <-]. intros z [<-|Z]; [left; reflexivity|]. right. apply (TG l); [rewrite EL; reflexivity|exact Z].
    + exists (nexttag (qsb w)). specialize (D2 (nexttag (qsb w))). pose proof (does_ext _ (ref_at x (qbusy w) _) _ _ (fun y => eq_sym (KA _ y)) D2) as D3.
      pose proof (does_det _ _ _ _ _ (v_abs _ _ _ _ H) (D (nexttag (qsb w))) D3) as AB. destruct (retag_parts _ _ _ _ _ _) as [kk|]; [contradiction|].
      exists i. auto.
  - (* get_mut *)
    assert (L1 : (1 <= strong_of (qhandles w) m)%nat) by (apply LIVE; auto). destruct (LV L1) as (l & EL).
    unfold rb_get_mut, mbind.
    lk (unique_looks t x V BO owner (qbusy w) (j_used i) _ BW BC BN (c_strong c) (qsb w) SB) (rb_is_unique (qbusy w) t x (c_strong c) (qsb w)).
    destruct (Nat.eqb (c_strong c) 1 && Nat.eqb (c_weak c) 1).
    + match goal with Q1 : sinv _ _ _ ?s1, Q2 : forall y, ?k1 y = absf _ ?s1 y |- _ => rename s1 into s2; rename k1 into kk; rename Q1 into SI; rename Q2 into AB end.
      pose proof (act_rel owner (j_used i) _ s2 (MkO (q_val x) [q_base x]) (CRetag (q_base x) [(mut_kind (q_unpin (q_ty x)), q_val x)] None) kk SI AB (act_ok_mut x _) BB
        (val_owned t x V BO owner BW) BN (qbusy w)) as AR.
      cbn [act_stk] in AR. unfold one, m_retag, m_retag_prot, mret.
      pose proof (s_fresh _ _ _ _ SI) as FR2. exists (nexttag s2).
      destruct (retag_parts (qbusy w) (q_base x) (nexttag s2) None [(mut_kind (q_unpin (q_ty x)), q_val x)] (stk s2)) as [k'|],
        (retag_parts (qbusy w) (q_base x) (nexttag s2) None [(mut_kind (q_unpin (q_ty x)), q_val x)] kk) as [kk'|]; try contradiction; [|exists i; auto].
      destruct AR as [SI2 AB2]. cbn [tags_after next_after] in SI2, AB2. eexists. split; [exact FR2|]. split; [reflexivity|]. cbn [fst].
      eapply upd_put; [exact H|exact Ek|exact Ec|reflexivity|reflexivity|reflexivity| |exact SI2|apply other_same| |exact AB2].
      * intros z Z. right. exact Z.
      * rewrite EL. apply BOX; [intros z Z; right; exact Z|intros _; eexists; reflexivity| |exact ST|exact WK].
        intros l' [= <-]. intros z [<-|Z]; [left; reflexivity|]. right. apply (TG l); [rewrite EL; reflexivity|exact Z].
    + unfold mret. fin. apply (BOX _ _ _ (incl_refl _) LV TG); [exact ST|exact WK].
  - (* try_unwrap *)
    unfold rb_try_unwrap. destruct (Nat.eqb (c_strong c) 1) eqn:S1.
    + apply Nat.eqb_eq in S1. unfold mbind.
      pose proof (unwrap_looks t x V BO owner (qbusy w) (j_used i) _ BW BC BN (qsb w) SB) as LD. unfold mbind in LD.
      pose proof (look_rel t owner w i x _ _ H AP LD) as LR. rewrite VB in LR. clear LD.
      destruct (rb_strong_count (qbusy w) t x (qsb w)) as [[a1 s1]|]; [|destruct (look (qbusy w) (q_base x) (q_refs x) (j_stk i)); [contradiction|exact UB]].
      destruct (rb_set_strong (qbusy w) t x s1) as [[a2 s2]|]; destruct (look (qbusy w) (q_base x) (q_refs x) (j_stk i)) as [kk|]; try contradiction; [|exact UB].
      destruct LR as (SI & AB & _).
      pose proof (act_rel owner (j_used i) _ s2 (MkO (q_val x) [q_base x]) (CRead (q_base x) (q_val x)) kk SI AB (act_ok_read x) BB (val_owned t x V BO owner BW) BN (qbusy w)) as AR.
      cbn [act_stk] in AR. unfold m_read. destruct (on_block (q_val x) (sb_read (qbusy w) (q_base x)) (stk s2)) as [k'|], (on_block (q_val x) (sb_read (qbusy w) (q_base x)) kk) as [kk'|]; try contradiction; [|exact UB].
      destruct AR as [SI2 AB2]. cbn [tags_after next_after] in SI2, AB2.
      fin. apply BOX; [apply incl_refl|intros X; exfalso; revert X; counts|discriminate|counts|counts].
    + unfold mbind. lk (strong_looks t x V BO owner (qbusy w) (j_used i) _ BW BC BN (qsb w) SB) (rb_strong_count (qbusy w) t x (qsb w)).
      unfold mret. fin. apply (BOX _ _ _ (incl_refl _) LV TG); [exact ST|exact WK].
  - (* into_raw *)
    lk (unique_looks t x V BO owner (qbusy w) (j_used i) _ BW BC BN (c_strong c) (qsb w) SB) (rb_is_unique (qbusy w) t x (c_strong c) (qsb w)).
    destruct (Nat.eqb (c_strong c) 1 && Nat.eqb (c_weak c) 1).
    + fin. unfold box_after. destruct c as [ty st wk v]. apply (BOX _ _ v (incl_refl _)); [intros _; apply LV; apply LIVE; auto|exact TG|cbn in *; counts|cbn in *; counts].
    + fin. apply (BOX _ _ _ (incl_refl _) LV TG); [exact ST|exact WK].
  - (* from_raw *)
    pose proof (v_abs _ _ _ _ H) as AB0.
    fin. unfold box_after. destruct c as [ty st wk v]. apply (BOX _ _ v (incl_refl _)); [intros _; apply LV; apply LIVE; auto|exact TG|cbn in *; counts|cbn in *; counts].
  - (* Weak::try_unwrap *)
    nk (wk_try_runs t x V BO owner (qbusy w) (j_used i) _ BW BC (c_strong c) (c_weak c) (qsb w) SB).
    destruct (Nat.eqb (c_strong c) 0 && Nat.eqb (c_weak c) 1) eqn:Q.
    + apply andb_true_iff in Q. destruct Q as [Q1 Q2]. apply Nat.eqb_eq in Q1. apply Nat.eqb_eq in Q2.
      exists (nexttag (qsb w)). eexists. split; [exact FR|]. split; [reflexivity|]. cbn [fst]. unfold j_put. cbn [j_stk j_mems j_handles].
      rewrite (v_drops _ _ _ _ H), (v_calls _ _ _ _ H). rewrite ?VB.
      eapply (upd t owner w i m k c None); [exact H|exact Ek|exact Ec|exact I|apply incl_refl|eassumption|eapply other_set; exact Eh| |eassumption].
      split; counts.
    + fin. apply (BOX _ _ _ (incl_refl _) LV TG); [exact ST|exact WK].
Qed.

(** ** The destructors that run *)
Definition dinv (w : qworld) : Prop := forall n m, In (n, m, true) (qdrops w) ->
  exists k c, nth_error (qmems w) m = Some k /\ m_box k = Some c /\ strong_of (qhandles w) m = 0%nat.

Lemma dinv_upd w s' m k c b hs' dr bu ca : dinv w -> nth_error (qmems w) m = Some k -> m_box k = Some c -> counts_other (qhandles w) hs' m ->
  (strong_of (qhandles w) m = 0%nat -> strong_of hs' m = 0%nat) ->
  match b with
  | Some _ => forall n m', In (n, m', true) dr -> In (n, m', true) (qdrops w) \/ (m' = m /\ strong_of hs' m = 0%nat)
  | None => forall n m', In (n, m', true) dr -> In (n, m', true) (qdrops w) /\ m' <> m
  end -> dinv (MkQW s' (set_nth (qmems w) m (put_box k b)) hs' dr bu ca).
Proof.
  intros D E B CO Z HB n m' I. cbn [qdrops qmems qhandles] in I |- *. assert (X : (In (n, m', true) (qdrops w) \/ (m' = m /\ strong_of hs' m = 0%nat)) /\ (m' = m -> b <> None)).
  { destruct b; [split; [eauto|discriminate]|]. destruct (HB n m' I) as [A N]. split; [auto|contradiction]. }
  destruct X as [X Y]. destruct (Nat.eq_dec m' m) as [-> | N].
  - rewrite (set_nth_nth _ m (put_box k b) k E). destruct b as [c'|]; [|exfalso; apply (Y eq_refl); reflexivity]. exists (put_box k (Some c')), c'. split; [reflexivity|]. split; [reflexivity|].
    destruct X as [X|[_ X]]; [|exact X]. apply Z. destruct (D n m X) as (k1 & c1 & _ & _ & S1). exact S1.
  - rewrite (set_nth_ne _ m m' (put_box k b) N). destruct X as [X|[X _]]; [|contradiction]. destruct (D n m' X) as (k0 & c0 & E0 & B0 & S0). exists k0, c0. split; [exact E0|]. split; [exact B0|].
    destruct (CO m' N) as [-> _]. exact S0.
Qed.
Lemma dinv_put w s' m k c c' kx hs' : dinv w -> nth_error (qmems w) m = Some k -> m_box k = Some c -> kx = put_box k (Some c') -> counts_other (qhandles w) hs' m ->
  (strong_of (qhandles w) m = 0%nat -> strong_of hs' m = 0%nat) -> dinv (put_mem w m kx s' hs').
Proof. intros D E B -> CO Z. unfold put_mem. eapply dinv_upd; eauto. Qed.
Lemma detach_in m l n m' : In (n, m', true) (detach m l) -> In (n, m', true) l /\ m' <> m.
Proof.
  unfold detach. intros H. apply in_map_iff in H. destruct H as ([[a b] h] & E & I). cbn [fst snd] in E. destruct (Nat.eqb_spec b m) as [X|X].
  - injection E as -> -> E2. discriminate.
  - injection E as -> -> ->. auto.
Qed.

Lemma qcall_dinv w i h m kd k c o : qinv w i -> nth_error (qhandles w) h = Some (m, kd) -> nth_error (qmems w) m = Some k -> m_box k = Some c ->
  dinv w -> dinv (fst (qcall t w h m kd k c o)).
Proof.
  intros H Eh Ek Ec D. destruct (v_box _ _ _ _ _ (v_minv _ _ _ _ H) m k c Ek Ec) as (TY & FT & ST & WK & LV & TG).
  assert (LIVE : kd = HStrong \/ kd = HRaw -> (1 <= strong_of (qhandles w) m)%nat) by (intros [-> | ->]; eapply count_has; eauto).
  destruct o; destruct kd; cbn [qcall fst]; try exact D; try specialize (LIVE (or_introl eq_refl)); try specialize (LIVE (or_intror eq_refl));
    repeat match goal with |- context [match ?f with Some _ => _ | None => (w, QUB) end] => destruct f as [[? ?]|] eqn:? end; cbn [fst]; try exact D;
    try (eapply dinv_put; [exact D|exact Ek|exact Ec|first [reflexivity | apply put_same; exact Ec]|first [apply other_app|eapply other_set; exact Eh|apply other_same]|counts]).
  - destruct (Nat.eqb_spec (c_strong c) 0) as [Z|Z]; cbn [fst]; (eapply dinv_put; [exact D|exact Ek|exact Ec|first [reflexivity | apply put_same; exact Ec]|first [apply other_app|apply other_same]|]); [auto|counts].
  - (* drop *)
    destruct o; cbn [fst].
    + match goal with Q : rb_drop _ _ _ _ _ _ = Some (Some _, _) |- _ => apply drop_some in Q; rename Q into S1 end.
      eapply dinv_upd; [exact D|exact Ek|exact Ec|eapply other_set; exact Eh|counts|]. intros n' m' [[= <- <-]|I]; [|auto]. right. split; [reflexivity|]. counts.
    + eapply dinv_put; [exact D|exact Ek|exact Ec|reflexivity|eapply other_set; exact Eh|counts].
  - match goal with |- context [match ?d with Some _ => _ | None => _ end] => destruct d end; cbn [fst]; (eapply dinv_put; [exact D|exact Ek|exact Ec|first [reflexivity | apply put_same; exact Ec]|apply other_same|auto]).
  - destruct (Nat.eqb (c_strong c) 1); cbn [fst]; (eapply dinv_put; [exact D|exact Ek|exact Ec|first [reflexivity | apply put_same; exact Ec]|first [eapply other_set; exact Eh|apply other_same]|counts]).
  - destruct (Nat.eqb (c_strong c) 1 && Nat.eqb (c_weak c) 1); cbn [fst]; (eapply dinv_put; [exact D|exact Ek|exact Ec|first [reflexivity | apply put_same; exact Ec]|first [eapply other_set; exact Eh|apply other_same]|counts]).
  - destruct (Nat.eqb (c_strong c) 0 && Nat.eqb (c_weak c) 1); cbn [fst].
    + eapply dinv_upd; [exact D|exact Ek|exact Ec|eapply other_set; exact Eh|counts|]. apply detach_in.
    + eapply dinv_put; [exact D|exact Ek|exact Ec|apply put_same; exact Ec|apply other_same|auto].
Qed.

(** ** One step *)
Lemma put_set w m k b s hs : put_mem w m (put_box k b) s hs = MkQW s (set_nth (qmems w) m (put_box k b)) hs (qdrops w) (qbusy w) (qcalls w).
Proof. reflexivity. Qed.

Lemma free_not_counter K hs ms m k ty y : minv t owner K hs ms -> nth_error ms m = Some k -> m_box k = None -> qtype_ok t ty -> rc_fits t (m_blk k) (q_lay ty) = true ->
  in_block (q_all t (box_at k ty)) y -> ~ counters t ms y.
Proof.
  intros H E B T F Y (m' & k' & c' & E' & B' & Y'). destruct (v_box _ _ _ _ _ H m' k' c' E' B') as (T' & F' & _).
  assert (A : in_block (q_all t (box_at k' (c_ty c'))) y) by (destruct Y' as [Y'|Y']; [apply (strong_all t (box_at k' (c_ty c')) V T') in Y'|apply (weak_all t (box_at k' (c_ty c')) V T') in Y']; tauto).
  pose proof (v_sep _ _ _ _ _ H m m' k k' y E E' (in_mem t owner _ _ _ T F Y) (in_mem t owner _ _ _ T' F' A)) as <-. rewrite E in E'. injection E' as <-. congruence.
Qed.

Lemma qstep_sim w i o : qinv w i -> dinv w -> qop_ok t o ->
  exists n i', ~ In n (j_used i) /\ jstep t n i o = (i', snd (qstep t w o)) /\ qinv (fst (qstep t w o)) i' /\ dinv (fst (qstep t w o)).
Proof.
  intros H D OKo. pose proof (v_sb _ _ _ _ H) as SB. pose proof (s_fresh _ _ _ _ SB) as FR. pose proof (v_minv _ _ _ _ H) as MI.
  assert (INV : exists n i', ~ In n (j_used i) /\ (i, QInvalid) = (i', QInvalid) /\ qinv w i' /\ dinv w) by (exists (nexttag (qsb w)), i; auto).
  unfold qstep, jstep. destruct (handle_of o) as [h|] eqn:Ho.
  - rewrite (v_handles _ _ _ _ H), (v_mems _ _ _ _ H). destruct (nth_error (qhandles w) h) as [[m kd]|] eqn:Eh; [|exact INV].
    rewrite nth_error_map. destruct (nth_error (qmems w) m) as [k|] eqn:Ek; [|exact INV]. cbn [option_map jm]. destruct (m_box k) as [c|] eqn:Ec; [|exact INV]. cbn [option_map].
    destruct (qcall_sim w i h m kd k c o H Eh Ek Ec) as (n & i' & A & B & C). exists n, i'. split; [exact A|]. split; [exact B|]. split; [exact C|].
    eapply qcall_dinv; eauto.
  - destruct o; try discriminate; clear Ho.
    + (* new *)
      rewrite (v_mems _ _ _ _ H), nth_error_map. destruct (nth_error (qmems w) m) as [k|] eqn:Ek; [|exact INV]. cbn [option_map jm]. destruct (m_box k) as [c|] eqn:Ec; [exact INV|]. cbn [option_map].
      destruct (rc_fits t (m_blk k) (q_lay ty)) eqn:F; [|exists (nexttag (qsb w)), i; auto]. cbn [qop_ok] in OKo.
      change (MkQB (start (m_blk k)) ty (m_base k)) with (box_at k ty). set (x := box_at k ty).
      assert (OW : forall y, in_block (q_all t x) y -> owner y = Some (q_base x)) by (intros y Y; eapply v_own; [exact MI|exact Ek|eapply in_mem; eauto]).
      assert (NC : forall y, in_block (q_all t x) y -> ~ counters t (qmems w) y) by (intros y; eapply free_not_counter; eauto).
      pose proof (new_sim owner (qbusy w) t x (j_used i) _ (qsb w) OW (v_base _ _ _ _ _ MI m k Ek) NC SB) as NS.
      pose proof (on_block_does (q_all t x) (sb_write (j_busy i) (q_base x)) (j_stk i)) as DI. rewrite (v_busy _ _ _ _ H) in *.
      destruct (v_free _ _ _ _ _ MI m k Ek Ec) as [Z1 Z2].
      exists (nexttag (qsb w)). change (q_base x) with (m_base k) in DI.
      destruct (rb_new (qbusy w) t x (qsb w)) as [[a s1]|].
      * destruct NS as (_ & SI & DR). pose proof (does_det _ _ _ _ _ (v_abs _ _ _ _ H) DR DI) as AB. destruct (on_block (q_all t x) (sb_write (qbusy w) (m_base k)) (j_stk i)) as [kk|]; [|contradiction].
        eexists. split; [exact FR|]. split; [reflexivity|]. cbn [fst]. split.
        -- unfold j_put, put_mem. rewrite (v_handles _ _ _ _ H), (v_drops _ _ _ _ H), (v_busy _ _ _ _ H), (v_calls _ _ _ _ H). constructor; cbn [j_used qmems qsb j_stk j_mems j_handles j_drops j_busy j_calls qhandles qdrops qbusy qcalls]; auto.
           ++ eapply sinv_cs; [|exact SI]. intros y (j & k' & c' & E1 & E2 & Y). destruct (set_box _ _ _ _ _ _ Ek E1) as (k0 & E0 & _ & _ & [(-> & -> & ->)|(N & ->)]); [|left; exists j, k0, c'; auto].
              cbn [put_box m_box] in E2. injection E2 as <-. right. cbn [c_ty] in Y. destruct Y as [Y|Y]; [apply (strong_all t x V OKo) in Y|apply (weak_all t x V OKo) in Y]; tauto.
           ++ rewrite (v_mems _ _ _ _ H). symmetry. apply (jm_set (qmems w) m k (Some (MkQC ty 1 1 (QLive [])))). exact Ek.
           ++ eapply minv_set; [exact MI|exact Ek|apply incl_refl|apply other_app|]. cbn [box_after]. unfold box_ok. cbn [c_ty c_strong c_weak c_val].
              refine (conj OKo (conj F (conj _ (conj _ (conj _ _))))).
              ** counts.
              ** counts.
              ** intros _. eexists; reflexivity.
              ** intros l [= <-]. intros z [].
        -- intros n' m' I. unfold put_mem in *. cbn [qdrops qmems qhandles] in *. destruct (D n' m' I) as (k0 & c0 & E0 & B0 & S0). assert (N : m' <> m) by (intros ->; congruence).
           exists k0, c0. rewrite (set_nth_ne _ m m' _ N). split; [exact E0|]. split; [exact B0|]. destruct (other_app (qhandles w) m HStrong m' N) as [-> _]. exact S0.
      * pose proof (does_det _ _ _ _ _ (v_abs _ _ _ _ H) NS DI) as AB. destruct (on_block (q_all t x) (sb_write (qbusy w) (m_base k)) (j_stk i)) as [kk|]; [contradiction|].
        exists i. auto.
    + (* a destructor returns *)
      rewrite (v_drops _ _ _ _ H), (v_busy _ _ _ _ H). destruct (qdrops w) as [|[[c m] here] ds] eqn:Ed; [exact INV|]. destruct (qbusy w) as [|b bs] eqn:Eb; [exact INV|].
      destruct (Nat.eqb b c); [|exact INV]. exists (nexttag (qsb w)). eexists. split; [exact FR|]. split; [reflexivity|]. cbn [fst].
      rewrite (v_mems _ _ _ _ H), nth_error_map, (v_handles _ _ _ _ H), (v_calls _ _ _ _ H). 
      assert (DS : forall s ms, (forall m' k c', nth_error (qmems w) m' = Some k -> m_box k = Some c' -> exists k2 c2, nth_error ms m' = Some k2 /\ m_box k2 = Some c2) -> dinv (MkQW s ms (qhandles w) ds bs (qcalls w))).
      { intros s ms X n' m' I. cbn [qdrops qmems qhandles] in *. destruct (D n' m') as (k0 & c0 & E0 & B0 & S0); [rewrite Ed; right; exact I|]. destruct (X m' k0 c0 E0 B0) as (k2 & c2 & E2 & B2). exists k2, c2. auto. }
      assert (Q0 : qinv (MkQW (qsb w) (qmems w) (qhandles w) ds bs (qcalls w)) (MkQI (j_stk i) (map jm (qmems w)) (qhandles w) ds bs (qcalls w) (j_used i)) /\ dinv (MkQW (qsb w) (qmems w) (qhandles w) ds bs (qcalls w))).
      { split; [|apply DS; eauto]. constructor; cbn [j_used qmems qsb j_stk j_mems j_handles j_drops j_busy j_calls qhandles qdrops qbusy qcalls]; auto. apply (v_abs _ _ _ _ H). }
      destruct (nth_error (qmems w) m) as [k|] eqn:Ek; cbn [option_map]; [|rewrite (v_mems _ _ _ _ H); exact Q0].
      unfold jm at 1. cbn [option_map]. destruct (m_box k) as [cc|] eqn:Ec; cbn [option_map]; [|rewrite (v_mems _ _ _ _ H); exact Q0].
      destruct here; [|rewrite (v_mems _ _ _ _ H); exact Q0]. unfold j_put. cbn [j_mems].
      destruct (D c m) as (k1 & c1 & E1 & B1 & S1); [rewrite Ed; left; reflexivity|].
      destruct (v_box _ _ _ _ _ MI m k cc Ek Ec) as (TY & FT & ST & WK & LV & TG).
      split.
      * eapply (upd t owner w i m k cc (Some (MkQC (c_ty cc) (c_strong cc) (c_weak cc) QOver))); [exact H|exact Ek|exact Ec|reflexivity|apply incl_refl|exact SB|apply other_same| |apply (v_abs _ _ _ _ H)].
        cbn [box_after]. unfold box_ok. cbn [c_ty c_strong c_weak c_val]. refine (conj TY (conj FT (conj ST (conj WK (conj _ _))))); [lia|discriminate].
      * apply DS. intros m' k' c' Em Bm. destruct (Nat.eq_dec m' m) as [-> | N].
        -- rewrite (set_nth_nth _ m _ k Ek). eexists. eexists. split; reflexivity.
        -- rewrite (set_nth_ne _ m m' _ N). eauto.
    + (* an access *)
      rewrite (v_mems _ _ _ _ H), nth_error_map. destruct (nth_error (qmems w) m) as [k|] eqn:Ek; [|exact INV]. cbn [option_map jm]. destruct (m_box k) as [c|] eqn:Ec; [|exact INV]. cbn [option_map].
      destruct (tags_of (c_val c)) as [l|] eqn:El; [|exact INV]. change (MkQB (start (m_blk k)) (c_ty c) (m_base k)) with (box_at k (c_ty c)). set (x := box_at k (c_ty c)).
      destruct (act_ok (MkO (q_val x) l) a) eqn:A; [|exact INV].
      destruct (v_box _ _ _ _ _ MI m k c Ek Ec) as (TY & FT & ST & WK & LV & TG). pose proof (boxed_of t owner V _ _ _ m k c MI Ek Ec) as [BO BW BC BN BB]. fold x in BO, BW, BC, BN, BB.
      assert (IT : In (act_tag a) (j_used i)) by (apply (TG l El); apply (act_has _ _ A)).
      pose proof (act_rel owner (j_used i) _ (qsb w) (MkO (q_val x) l) a (j_stk i) SB (v_abs _ _ _ _ H) A IT (val_owned t x V BO owner BW) BN (qbusy w)) as AR.
      rewrite do_act_stk. exists (nexttag (qsb w)). rewrite ideal_act_stk, (v_busy _ _ _ _ H). cbn [istk iblk itags].
      destruct (act_stk (qbusy w) a (nexttag (qsb w)) (stk (qsb w))) as [k'|], (act_stk (qbusy w) a (nexttag (qsb w)) (j_stk i)) as [kk|]; try contradiction; [|exists i; auto].
      destruct AR as [SI AB]. cbn [fst].
      assert (U : used_after a (nexttag (qsb w)) (j_used i) = tags_after a (nexttag (qsb w)) (j_used i)) by (destruct a; reflexivity).
      exists (j_put i m (Some (c_ty c, match a with CRetag _ _ _ => add_tag (c_val c) (Some (nexttag (qsb w))) | _ => c_val c end)) kk (j_handles i) (used_after a (nexttag (qsb w)) (j_used i))).
      split; [exact FR|]. split; [destruct a; reflexivity|]. rewrite U. rewrite (v_handles _ _ _ _ H).
      assert (IK : incl (j_used i) (tags_after a (nexttag (qsb w)) (j_used i))) by (destruct a; cbn [tags_after]; [apply incl_refl|apply incl_refl|intros z Z; right; exact Z]).
      set (v' := add_tag (c_val c) (ans_after a (nexttag (qsb w)))).
      split.
      * eapply (upd_put w i m k c (Some (MkQC (c_ty c) (c_strong c) (c_weak c) v'))); [exact H|exact Ek|exact Ec|reflexivity|reflexivity| |exact IK|exact SI|apply other_same| |exact AB].
        -- unfold v'. destruct a; cbn [ans_after option_map c_ty c_val]; unfold add_tag; destruct (c_val c); reflexivity.
        -- cbn [box_after]. unfold box_ok. cbn [c_ty c_strong c_weak c_val]. refine (conj TY (conj FT (conj ST (conj WK (conj _ _))))).
           ++ intros X. destruct (LV X) as (l0 & E0). unfold v'. rewrite E0. destruct a; cbn [ans_after add_tag]; eexists; reflexivity.
           ++ unfold v'. intros l0 E0. assert (X : forall z, In z l0 -> In z l \/ (ans_after a (nexttag (qsb w)) = Some z)).
              { destruct a; cbn [ans_after] in *; destruct (c_val c); cbn [add_tag tags_of] in *; try discriminate; injection E0 as <-; injection El as <-; intros z Z; auto; destruct Z as [<-|Z]; auto. }
              intros z Z. destruct (X z Z) as [Y|Y]; [apply IK; apply (TG l El z Y)|]. destruct a; try discriminate. cbn [ans_after] in Y. injection Y as <-. left. reflexivity.
      * eapply dinv_put; [exact D|exact Ek|exact Ec|reflexivity|apply other_same|auto].
    + (* a function starts *)
      exists (nexttag (qsb w)). eexists. split; [exact FR|]. rewrite (v_calls _ _ _ _ H). split; [reflexivity|]. cbn [fst]. split; [|exact D].
      destruct H as [h1 h2 h3 h4 h5 h6 h7 h8]. constructor; cbn; auto. rewrite h7. reflexivity.
    + rewrite (v_drops _ _ _ _ H). destruct (existsb _ (qdrops w)); [exact INV|]. exists (nexttag (qsb w)). eexists. split; [exact FR|]. split; [reflexivity|]. cbn [fst]. split; [|exact D].
      destruct H as [h1 h2 h3 h4 h5 h6 h7 h8]. constructor; cbn; auto. rewrite h7. reflexivity.
Qed.

Lemma qrun_sim os : Forall (qop_ok t) os -> forall w i, qinv w i -> dinv w -> exists i', jruns t i (snd (qrun t w os)) i' /\ qinv (fst (qrun t w os)) i' /\ dinv (fst (qrun t w os)).
Proof.
  induction 1 as [|o os O F IH]; intros w i H D; cbn [qrun]; [exists i; split; [constructor|auto]|].
  destruct (qstep_sim w i o H D O) as (n & i1 & N & E & H1 & D1). destruct (qstep t w o) as [w1 r]. cbn [fst snd] in *.
  destruct (IH w1 i1 H1 D1) as (i2 & R2 & H2 & D2). destruct (qrun t w1 os) as [w2 hh]. cbn [fst snd] in *. exists i2. split; [econstructor; eauto|auto].
Qed.
End Step.
