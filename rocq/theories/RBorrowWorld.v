(** * RBorrowWorld: programs that use Rcs, compared with the ideal. *)
From Verif Require Import Base Spec BaseFacts SyncModel SyncSpec RcModel RcProofs RcMemProofs BorrowModel BorrowSpec BorrowProofs BorrowState BorrowWorld EBorrowSlot UBorrowModel RBorrowModel RBorrowSpec RBorrowBytes RBorrowOps RBorrowCalls.

(** ** Handles *)
Definition b2n (b : bool) : nat := if b then 1 else 0.
Lemma count_app p hs m kd m' : count_of p (hs ++ [(m, kd)]) m' = (count_of p hs m' + b2n (Nat.eqb m m' && p kd))%nat.
Proof.
  unfold count_of. rewrite filter_app, app_length. cbn [filter fst snd]. destruct (Nat.eqb m m' && p kd); reflexivity.
Qed.
Lemma count_set p m kd kd' m' : forall hs h, nth_error hs h = Some (m, kd) ->
  (count_of p (set_nth hs h (m, kd')) m' + b2n (Nat.eqb m m' && p kd) = count_of p hs m' + b2n (Nat.eqb m m' && p kd'))%nat.
Proof.
  unfold count_of. induction hs as [|x hs IH]; intros [|h] E; try discriminate.
  - cbn in E. injection E as ->. cbn [set_nth filter fst snd]. destruct (Nat.eqb m m' && p kd), (Nat.eqb m m' && p kd'); cbn [length b2n]; lia.
  - cbn [set_nth filter]. specialize (IH h E). destruct (Nat.eqb (fst x) m' && p (snd x)); cbn [length]; lia.
Qed.
Lemma count_has p m kd : forall hs h, nth_error hs h = Some (m, kd) -> p kd = true -> (1 <= count_of p hs m)%nat.
Proof.
  unfold count_of. induction hs as [|x hs IH]; intros [|h] E P; try discriminate.
  - cbn in E. injection E as ->. cbn [filter fst snd]. rewrite Nat.eqb_refl, P. cbn. lia.
  - cbn [filter]. specialize (IH h E P). destruct (Nat.eqb (fst x) m && p (snd x)); cbn [length]; lia.
Qed.
Definition counts_other (hs hs' : list (nat * hkind)) (m : nat) : Prop := forall m', m' <> m -> strong_of hs' m' = strong_of hs m' /\ weak_of hs' m' = weak_of hs m'.
Lemma other_same hs m : counts_other hs hs m.
Proof. intros m' _. auto. Qed.
Lemma other_app hs m kd : counts_other hs (hs ++ [(m, kd)]) m.
Proof.
  intros m' N. unfold weak_of, strong_of. rewrite !count_app. rewrite (proj2 (Nat.eqb_neq m m')) by auto. cbn [andb b2n]. rewrite !Nat.add_0_r. auto.
Qed.
Lemma other_set hs h m kd kd' : nth_error hs h = Some (m, kd) -> counts_other hs (set_nth hs h (m, kd')) m.
Proof.
  intros E m' N. unfold weak_of, strong_of. pose proof (count_set is_strong m kd kd' m' hs h E) as A. pose proof (count_set is_weak m kd kd' m' hs h E) as B.
  rewrite (proj2 (Nat.eqb_neq m m')) in A, B by auto. cbn [andb b2n] in A, B. rewrite !Nat.add_0_r in A, B. rewrite A, B. auto.
Qed.

Section World.
Variables (t : target) (owner : Z -> option nat).
Hypothesis V : valid_target t.

Definition counters (ms : list qmem) (y : Z) : Prop :=
  exists m k c, nth_error ms m = Some k /\ m_box k = Some c /\ (in_block (q_strong t (box_at k (c_ty c))) y \/ in_block (q_weak t (box_at k (c_ty c))) y).
Definition jm (k : qmem) : jmem := MkJM (m_blk k) (m_base k) (option_map (fun c => (c_ty c, c_val c)) (m_box k)).

(** A box with these handles *)
Definition box_ok (K : list nat) (hs : list (nat * hkind)) (m : nat) (k : qmem) (c : qcontents) : Prop :=
  qtype_ok t (c_ty c) /\ rc_fits t (m_blk k) (q_lay (c_ty c)) = true /\ c_strong c = strong_of hs m /\ c_weak c = weak_of hs m /\
  ((0 < strong_of hs m)%nat -> exists l, c_val c = QLive l) /\ (forall l, tags_of (c_val c) = Some l -> incl l K).

Record minv (K : list nat) (hs : list (nat * hkind)) (ms : list qmem) : Prop := {
  v_own : forall m k y, nth_error ms m = Some k -> in_block (m_blk k) y -> owner y = Some (m_base k);
  v_sep : forall m m' k k' y, nth_error ms m = Some k -> nth_error ms m' = Some k' -> in_block (m_blk k) y -> in_block (m_blk k') y -> m = m';
  v_base : forall m k, nth_error ms m = Some k -> In (m_base k) K;
  v_box : forall m k c, nth_error ms m = Some k -> m_box k = Some c -> box_ok K hs m k c;
  v_free : forall m k, nth_error ms m = Some k -> m_box k = None -> strong_of hs m = 0%nat /\ weak_of hs m = 0%nat }.

Record qinv (w : qworld) (i : qideal) : Prop := {
  v_sb : sinv owner (j_used i) (counters (qmems w)) (qsb w);
  v_abs : forall y, j_stk i y = absf (j_used i) (qsb w) y;
  v_mems : j_mems i = map jm (qmems w);
  v_minv : minv (j_used i) (qhandles w) (qmems w);
  v_handles : j_handles i = qhandles w;
  v_drops : j_drops i = qdrops w;
  v_busy : j_busy i = qbusy w;
  v_calls : j_calls i = qcalls w }.

Lemma set_box ms m k b j k' : nth_error ms m = Some k -> nth_error (set_nth ms m (put_box k b)) j = Some k' ->
  exists k0, nth_error ms j = Some k0 /\ m_blk k' = m_blk k0 /\ m_base k' = m_base k0 /\ (j = m /\ k0 = k /\ k' = put_box k b \/ j <> m /\ k' = k0).
Proof.
  intros E. destruct (Nat.eq_dec j m) as [-> | N].
  - rewrite (set_nth_nth ms m (put_box k b) k E). intros [= <-]. exists k. split; [exact E|]. split; [reflexivity|]. split; [reflexivity|]. left. auto.
  - rewrite (set_nth_ne ms m j (put_box k b) N). intros E'. exists k'. split; [exact E'|]. split; [reflexivity|]. split; [reflexivity|]. right. auto.
Qed.

Definition box_after (K : list nat) (hs : list (nat * hkind)) (m : nat) (k : qmem) (b : option qcontents) : Prop :=
  match b with Some c => box_ok K hs m k c | None => strong_of hs m = 0%nat /\ weak_of hs m = 0%nat end.

Lemma minv_set K K' hs hs' ms m k b : minv K hs ms -> nth_error ms m = Some k -> incl K K' -> counts_other hs hs' m -> box_after K' hs' m k b ->
  minv K' hs' (set_nth ms m (put_box k b)).
Proof.
  intros H E IK CO B. constructor.
  - intros j k' y Ej Y. destruct (set_box _ _ _ _ _ _ E Ej) as (k0 & E0 & E1 & E2 & _). rewrite E1 in Y. rewrite E2. eapply v_own; eauto.
  - intros j j' k1 k2 y E1 E2 Y1 Y2. destruct (set_box _ _ _ _ _ _ E E1) as (k3 & E3 & E4 & _). destruct (set_box _ _ _ _ _ _ E E2) as (k5 & E5 & E6 & _).
    rewrite E4 in Y1. rewrite E6 in Y2. eapply v_sep; eauto.
  - intros j k' Ej. destruct (set_box _ _ _ _ _ _ E Ej) as (k0 & E0 & E1 & E2 & _). rewrite E2. apply IK. eapply v_base; eauto.
  - intros j k' c Ej Bj. destruct (set_box _ _ _ _ _ _ E Ej) as (k0 & E0 & E1 & E2 & [(-> & -> & ->)|(N & ->)]).
    + cbn [put_box m_box] in Bj. subst b. exact B.
    + pose proof (v_box _ _ _ H j k0 c E0 Bj) as (A1 & A2 & A3 & A4 & A5 & A6). destruct (CO j N) as [C1 C2]. unfold box_ok. rewrite C1, C2. refine (conj A1 (conj A2 (conj A3 (conj A4 (conj A5 _))))).
      intros l L. eapply incl_tran; eauto.
  - intros j k' Ej Bj. destruct (set_box _ _ _ _ _ _ E Ej) as (k0 & E0 & E1 & E2 & [(-> & -> & ->)|(N & ->)]).
    + cbn [put_box m_box] in Bj. subst b. exact B.
    + destruct (CO j N) as [C1 C2]. rewrite C1, C2. eapply v_free; eauto.
Qed.

Lemma jm_set ms m k b : nth_error ms m = Some k -> map jm (set_nth ms m (put_box k b)) =
  match nth_error (map jm ms) m with Some x => set_nth (map jm ms) m (MkJM (jm_blk x) (jm_base x) (option_map (fun c => (c_ty c, c_val c)) b)) | None => map jm ms end.
Proof. intros E. rewrite nth_error_map, E. cbn [option_map jm jm_blk jm_base]. rewrite set_nth_map2. reflexivity. Qed.

Lemma counters_set ms m k c b : nth_error ms m = Some k -> m_box k = Some c -> match b with Some c' => c_ty c' = c_ty c | None => True end ->
  forall y, counters (set_nth ms m (put_box k b)) y -> counters ms y.
Proof.
  intros E B T y (j & k' & c' & E1 & E2 & Y). destruct (set_box _ _ _ _ _ _ E E1) as (k0 & E0 & _ & _ & [(-> & -> & ->)|(N & ->)]); [|exists j, k0, c'; auto].
  cbn [put_box m_box] in E2. subst b. exists m, k, c. split; [exact E|]. split; [exact B|]. rewrite <- T. exact Y.
Qed.
Lemma sinv_cs K (cs cs' : Z -> Prop) s : (forall y, cs' y -> cs y) -> sinv owner K cs s -> sinv owner K cs' s.
Proof. intros I [A B C D]. constructor; auto. Qed.

(** The update of one box *)
Lemma upd w i m k c b s' K' hs' kk dr bu ca : qinv w i -> nth_error (qmems w) m = Some k -> m_box k = Some c ->
  match b with Some c' => c_ty c' = c_ty c | None => True end ->
  incl (j_used i) K' -> sinv owner K' (counters (qmems w)) s' -> counts_other (qhandles w) hs' m -> box_after K' hs' m k b -> (forall y, kk y = absf K' s' y) ->
  qinv (MkQW s' (set_nth (qmems w) m (put_box k b)) hs' dr bu ca)
       (MkQI kk (match nth_error (j_mems i) m with Some x => set_nth (j_mems i) m (MkJM (jm_blk x) (jm_base x) (option_map (fun c => (c_ty c, c_val c)) b)) | None => j_mems i end) hs' dr bu ca K').
Proof.
  intros H E B T IK S CO BA AB. constructor; cbn; auto.
  - eapply sinv_cs; [|exact S]. eapply counters_set; eauto.
  - rewrite (v_mems _ _ H). symmetry. apply jm_set. exact E.
  - eapply minv_set; eauto. apply (v_minv _ _ H).
Qed.

(** A box of the world *)
Lemma in_mem k ty y : qtype_ok t ty -> rc_fits t (m_blk k) (q_lay ty) = true -> in_block (q_all t (box_at k ty)) y -> in_block (m_blk k) y.
Proof.
  intros T F Y. unfold rc_fits in F. apply andb_true_iff in F. destruct F as [F _]. apply Z.leb_le in F. unfold in_block, q_all, box_at in *. cbn [start size q_addr q_ty] in *. lia.
Qed.

Record boxed (K : list nat) (ms : list qmem) (x : qbox) : Prop := {
  b_ok : qtype_ok t (q_ty x);
  b_own : forall y, in_block (q_all t x) y -> owner y = Some (q_base x);
  b_cs : forall y, in_block (q_strong t x) y \/ in_block (q_weak t x) y -> counters ms y;
  b_nc : forall y, in_block (q_val x) y -> ~ counters ms y;
  b_base : In (q_base x) K }.

Lemma boxed_of K hs ms m k c : minv K hs ms -> nth_error ms m = Some k -> m_box k = Some c -> boxed K ms (box_at k (c_ty c)).
Proof.
  intros H E B. destruct (v_box _ _ _ H m k c E B) as (T & F & _). constructor; cbn [box_at q_ty q_base].
  - exact T.
  - intros y Y. eapply v_own; [exact H|exact E|]. eapply in_mem; eauto.
  - intros y Y. exists m, k, c. auto.
  - intros y Y (m' & k' & c' & E' & B' & Y'). destruct (v_box _ _ _ H m' k' c' E' B') as (T' & F' & _).
    assert (A : in_block (q_all t (box_at k' (c_ty c'))) y) by (destruct Y' as [Y'|Y']; [apply (strong_all t (box_at k' (c_ty c')) V T') in Y'|apply (weak_all t (box_at k' (c_ty c')) V T') in Y']; tauto).
    assert (A0 : in_block (q_all t (box_at k (c_ty c))) y) by (apply (val_all t (box_at k (c_ty c)) V T); exact Y).
    pose proof (v_sep _ _ _ H m m' k k' y E E' (in_mem _ _ _ T F A0) (in_mem _ _ _ T' F' A)) as <-. rewrite E in E'. injection E' as <-. rewrite B in B'. injection B' as <-.
    destruct Y' as [Y'|Y']; [apply (strong_all t (box_at k (c_ty c)) V T) in Y'|apply (weak_all t (box_at k (c_ty c)) V T) in Y']; tauto.
  - eapply v_base; eauto.
Qed.

(** The ideal looks, too. *)
Lemma look_rel {A} w i x (f : M A) P : qinv w i -> apart (q_refs x) = true -> looks owner (j_used i) (counters (qmems w)) (look_of (qbusy w) (q_base x) (q_refs x)) f (qsb w) P ->
  match f (qsb w), look (j_busy i) (q_base x) (q_refs x) (j_stk i) with
  | Some (a, s1), Some k1 => sinv owner (j_used i) (counters (qmems w)) s1 /\ (forall y, k1 y = absf (j_used i) s1 y) /\ (nexttag (qsb w) <= nexttag s1)%nat
  | None, None => True
  | _, _ => False
  end.
Proof.
  intros H Ap L. rewrite (v_busy _ _ H). pose proof (look_does (qbusy w) (q_base x) (q_refs x) (j_stk i) Ap) as D. unfold looks in L.
  destruct (f (qsb w)) as [[a s1]|].
  - destruct L as (L1 & L2 & L3 & _). pose proof (does_det _ _ _ _ _ (v_abs _ _ H) L3 D) as X. destruct (look _ _ _ _); [auto|exact X].
  - pose proof (does_det _ _ _ _ _ (v_abs _ _ H) L D) as X. destruct (look _ _ _ _); exact X.
Qed.
Lemma none_rel {A} w i (f : M A) P : qinv w i -> looks owner (j_used i) (counters (qmems w)) none_at f (qsb w) P ->
  exists a s1, f (qsb w) = Some (a, s1) /\ sinv owner (j_used i) (counters (qmems w)) s1 /\ (forall y, j_stk i y = absf (j_used i) s1 y) /\ P a s1.
Proof.
  intros H L. unfold looks in L. destruct (f (qsb w)) as [[a s1]|]; [|destruct L as (y & g & E & _); discriminate]. destruct L as (L1 & L2 & L3 & L4). exists a, s1.
  split; [reflexivity|]. split; [exact L1|]. split; [|exact L4]. intros y. rewrite (v_abs _ _ H y). symmetry. apply L3.
Qed.

(** An access of the client, and of the ideal *)
Lemma act_rel K cs s o a kk : sinv owner K cs s -> (forall y, kk y = absf K s y) -> act_ok o a = true -> In (act_tag a) K -> act_owned owner (oblk o) -> (forall y, in_block (oblk o) y -> ~ cs y) ->
  forall B, match act_stk B a (nexttag s) (stk s), act_stk B a (nexttag s) kk with
  | Some k', Some kk' => let s' := MkB k' (next_after a (nexttag s)) in let K' := tags_after a (nexttag s) K in sinv owner K' cs s' /\ (forall y, kk' y = absf K' s' y)
  | None, None => True
  | _, _ => False
  end.
Proof.
  intros H AB A T O NC B. pose proof (act_sim owner B K cs s o a H A T O NC) as S. pose proof (act_does B o a (nexttag s) kk A) as D.
  destruct (act_stk B a (nexttag s) (stk s)) as [k'|].
  - destruct S as [S1 S2]. pose proof (does_det _ _ _ _ _ AB S2 D) as X. destruct (act_stk B a (nexttag s) kk); [auto|exact X].
  - pose proof (does_det _ _ _ _ _ AB S D) as X. destruct (act_stk B a (nexttag s) kk); exact X.
Qed.
End World.
