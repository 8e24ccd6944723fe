(** * ThreadsProofs *)
From Verif Require Import Base Spec BaseFacts SyncModel SyncSpec SyncProofs SyncMemModel SyncMemSpec UninitModel UninitSpec OwnModel RcModel RcMemModel FixedVecModel
  AllocModel AllocSpec AllocProofs UnsyncModel FixedVecMemModel WorldModel WorldSpec WorldProofs
  ConcModel ConcSpec ConcProofs RelaxedModel RelaxedSpec RelaxedProofs ConcMemModel ConcMemProofs ThreadsModel ThreadsSpec.

Lemma layout_eqb_iff a b : layout_eqb a b = true <-> a = b.
Proof.
  unfold layout_eqb. destruct a as [a1 a2], b as [b1 b2]. cbn [lsize lalign]. rewrite andb_true_iff, !Z.eqb_eq. split; [intros (-> & ->); reflexivity|].
  intros E. injection E as -> ->. split; reflexivity.
Qed.

(** ** The two helper allocators honour the contract *)
Lemma asked_honours t own : honours t asked own (fun _ _ _ => True).
Proof.
  split.
  - intros. exact Logic.I.
  - intros s m live l _ _ _. cbn [l_alloc asked]. exists (Some l), m, None. split; [reflexivity|]. split; [reflexivity|]. exact Logic.I.
  - intros s m before a after _. exists s, m. split; [reflexivity|]. split; [reflexivity|]. exact Logic.I.
Qed.
Lemma asked_exact : exact asked.
Proof. intros s m l s' m' p l' E. cbn in E. discriminate. Qed.

(** [B]: the blocks that the slab has given out so far *)
Definition ans_inv (t : target) (st : block) (B : list block) (s : option (layout * outcome (option Z))) (m : mem) (live : list (Z * layout)) : Prop :=
  Forall (fun a => In (ablock a) B) live /\
  match s with
  | None => True
  | Some (l, Ret None) => True
  | Some (l, Ret (Some p)) => valid_layout t l /\ good_block st l p /\ In (MkBlock p (lsize l)) B /\
      Forall (fun a => disjoint (MkBlock p (lsize l)) (ablock a)) live
  | Some (l, Panic _) => False
  end.

Lemma good_region t st l p : valid_target t -> valid_region t st -> valid_layout t l -> 0 < lsize l -> good_block st l p -> valid_region t (MkBlock p (lsize l)).
Proof.
  intros V (R1 & R2 & R3) VL P (_ & I & _).
  pose proof (I p ltac:(unfold in_block; cbn [start size]; lia)) as I1. pose proof (I (p + lsize l - 1) ltac:(unfold in_block; cbn [start size]; lia)) as I2.
  unfold in_block, valid_region in *. cbn [start size]. lia.
Qed.

Lemma answered_honours t st B : valid_target t -> valid_region t st -> honours t answered (in_block st) (ans_inv t st B).
Proof.
  intros V VR. split.
  - intros s m live m' I _. exact I.
  - intros s m live l (F & I) VL P. cbn [l_alloc answered]. destruct s as [[l' r]|].
    + destruct r as [[p|]|e]; [| |contradiction].
      * destruct (layout_eqb l l') eqn:E.
        -- apply layout_eqb_iff in E as <-. destruct I as (I0 & I1 & I2 & I3). exists None, m, (Some (p, l)). split; [reflexivity|]. split; [reflexivity|].
           split; [lia|]. split; [apply I1|]. split; [exact VL|]. split; [eapply good_region; eauto|]. split.
           ++ intros x K. split; [apply I1; exact K|]. intros [N|(a & Ia & K2)]; [apply N, I1; exact K|]. rewrite Forall_forall in I3. exact (I3 a Ia x (conj K K2)).
           ++ split; [|exact Logic.I]. constructor; [exact I2|exact F].
        -- exists None, m, None. split; [reflexivity|]. split; [reflexivity|]. split; [exact F|exact Logic.I].
      * exists None, m, None. split; [destruct (layout_eqb l l'); reflexivity|]. split; [reflexivity|]. split; [exact F|exact Logic.I].
    + exists None, m, None. split; [reflexivity|]. split; [reflexivity|]. split; [exact F|exact Logic.I].
  - intros s m before a after (F & I). exists s, m. split; [reflexivity|]. split; [reflexivity|]. split.
    + apply Forall_app in F as (F1 & F2). inversion F2; subst. apply Forall_app. split; assumption.
    + destruct s as [[l [[p|]|e]]|]; auto. destruct I as (I0 & I1 & I2 & I3). split; [exact I0|]. split; [exact I1|]. split; [exact I2|].
      apply Forall_app in I3 as (F1 & F2). inversion F2; subst. apply Forall_app. split; assumption.
Qed.
Lemma answered_exact : exact answered.
Proof.
  intros s m l s' m' p l' E. cbn [l_alloc answered] in E. destruct s as [[l0 [[q|]|e]]|]; try discriminate; destruct (layout_eqb l l0); try discriminate.
  congruence.
Qed.

(** What a call asks for is what it abstractly asks for. *)
Lemma need_request code boom t st B N (w : world answered) a o : valid_target t -> code [] = 0 ->
  winv code t answered (in_block st) (ans_inv t st B) N w a -> wop_ok t (in_block st) o -> Z.of_nat N < usize_max t ->
  need code (fun b => boom (code b)) t (wmem w) (wparts w) o = request t a o.
Proof.
  intros V C0 (live & _ & F & PW & FT) OK LN. unfold need.
  assert (W : winv code t asked (in_block st) (fun _ _ _ => True) N (@MkWorld asked None (wmem w) (wparts w)) a).
  { exists live. cbn [wst wmem wparts]. split; [exact Logic.I|]. split; [exact F|]. split; [exact PW|exact FT]. }
  pose proof (wstep_sim code boom t asked _ _ V C0 (asked_honours t (in_block st)) asked_exact N _ a o W OK LN) as S. unfold WorldProofs.step_ok in S.
  destruct (wstep code _ t asked _ o) as [w' r]. destruct (awstep code boom t _ a o) as [a' r']. destruct S as (_ & _ & E & _). cbn [fst]. rewrite E.
  unfold after. destruct (request t a o); reflexivity.
Qed.

(** ** Other threads do not change what a thread will ask for *)
Lemma upd_nth_other {X} k j (x : X) l : k <> j -> nth_error (upd_nth k x l) j = nth_error l j.
Proof. revert k j. induction l as [|y l IH]; intros [|k] [|j] N; cbn; try congruence. apply IH. congruence. Qed.
Lemma upd_nth_len {X} k (x : X) l : length (upd_nth k x l) = length l.
Proof. revert k. induction l as [|y l IH]; intros [|k]; cbn; congruence. Qed.

Lemma awstep_keeps code boom t g a o a' r k p : awstep code boom t g a o = (a', r) -> nth_error a k = Some p -> wop_uses o <> Some k -> nth_error a' k = Some p.
Proof.
  intros E K U.
  assert (AP : forall q, nth_error (a ++ [q]) k = Some p). { intros q. rewrite nth_error_app1; [exact K|]. apply nth_error_Some. congruence. }
  destruct o; cbn [awstep wop_uses wop_part] in E, U; unfold aadd_part in E;
    repeat match type of E with
    | context [match ?x with _ => _ end] => match x with context [match _ with _ => _ end] => fail 1 | _ => destruct x end
    | (if ?x then _ else _) = _ => destruct x
    end; try (injection E as <- <-; first [exact K|apply AP]).
  all: injection E as <- <-; rewrite upd_nth_other; [exact K|congruence].
Qed.

Lemma awstep_length code boom t g a o a' r : awstep code boom t g a o = (a', r) -> (length a <= length a')%nat.
Proof.
  intros E. destruct o; cbn [awstep wop_part] in E; unfold aadd_part in E;
    repeat match type of E with
    | context [match ?x with _ => _ end] => match x with context [match _ with _ => _ end] => fail 1 | _ => destruct x end
    end; injection E as <- <-; rewrite ?app_length, ?upd_nth_len; lia.
Qed.

Lemma request_uses t a o l : request t a o = Some l -> match wop_uses o with Some k => exists p, nth_error a k = Some p | None => True end.
Proof.
  destruct o; cbn [request wop_uses]; try discriminate; auto. unfold aslice_of. destruct (nth_error a k); [eauto|discriminate].
Qed.
Lemma request_same t a a' o : (forall k, wop_uses o = Some k -> nth_error a' k = nth_error a k) -> request t a' o = request t a o.
Proof. intros H. destruct o; cbn [request]; try reflexivity. unfold aslice_of. rewrite (H k eq_refl). reflexivity. Qed.

(** ** Histories of the abstract program *)
Definition not_aborted (r : ares) : Prop := r <> RVecAns FAborted.
Lemma awrun_snoc code boom t g o : forall gs os parts a rs a' r, length gs = length os -> awrun code boom t gs parts os = (a, rs) -> Forall not_aborted rs ->
  awstep code boom t g a o = (a', r) -> awrun code boom t (gs ++ [g]) parts (os ++ [o]) = (a', rs ++ [r]).
Proof.
  induction gs as [|g0 gs IH]; intros [|o0 os] parts a rs a' r L E F S; try discriminate.
  - cbn in E. injection E as <- <-. cbn [app awrun hd tl]. rewrite S. destruct r as [| | | |q| | | |]; try reflexivity. destruct q; reflexivity.
  - cbn [app awrun hd tl] in *. destruct (awstep code boom t g0 parts o0) as [p1 r0].
    destruct (awrun code boom t gs p1 os) as [p2 rs0] eqn:E2.
    assert (NA : not_aborted r0).
    { destruct r0 as [| | | |q| | | |]; try discriminate. intros Q. injection Q as ->. injection E as <- <-. inversion F as [|? ? Q _]. apply Q. reflexivity. }
    assert (E' : (p2, r0 :: rs0) = (a, rs)). { destruct r0 as [| | | |q| | | |]; try exact E. destruct q; try exact E. exfalso. apply NA. reflexivity. }
    injection E' as -> <-. inversion F; subst. rewrite (IH os p1 a rs0 a' r ltac:(cbn in L; lia) E2 ltac:(assumption) S).
    destruct r0 as [| | | |q| | | |]; try reflexivity. destruct q; try reflexivity. exfalso. apply NA. reflexivity.
Qed.

(** ** The invariant *)
Definition entered (t : target) (st : block) (b : rsys) : Prop := exists bs, Forall (valid_raction t) bs /\ b = rrun t st rinit bs.

(** The state of a thread in the slab: asking for [l] *)
Definition asking (b : rsys) (i : nat) (l : layout) : Prop :=
  (exists g, rthreads b i = Running (CAlloc l) g) \/ (exists r, rthreads b i = Done (CAlloc l) r /\ (r = RNone \/ exists a, r = RBlock a)).

Record tinv (code : bval -> elem) (boom : elem -> bool) (t : target) (st : block) (m0 : mem) (n : nat) (s : tsys) (a : list apart) : Prop := {
  ti_base : entered t st (tbase s);
  ti_run : awrun code boom t (tgrants s) [] (tops s) = (a, map (wname code) (tresults s));
  ti_len : (length (tlog s) <= n)%nat;
  ti_alive : tdead s = false -> Forall not_aborted (map (wname code) (tresults s));
  ti_world : exists N, (N <= n)%nat /\
    winv code t answered (in_block st) (ans_inv t st (returned_blocks (rhist (tbase s)))) N (@MkWorld answered None (tmem s) (tparts s)) a;
  ti_owner : length (towner s) = length (tparts s);
  ti_idle : forall i, tpend s i = None -> rthreads (tbase s) i = Idle;
  ti_pend : forall i o, tpend s i = Some o -> wop_ok t (in_block st) o /\ exists l, request t a o = Some l /\ asking (tbase s) i l /\
    forall k, wop_uses o = Some k -> nth_error (towner s) k = Some i;
  ti_else : forall x, ~ in_block st x -> tmem s x = welse m0 (tops s) x }.

Lemma entered_step t st b a : valid_raction t a -> entered t st b -> entered t st (rstep t st b a).
Proof.
  intros Va (bs & F & ->). exists (bs ++ [a]). split; [apply Forall_app; split; [exact F|constructor; [exact Va|constructor]]|].
  unfold rrun. rewrite fold_left_app. reflexivity.
Qed.
Lemma entered_rinv t st b : valid_target t -> valid_region t st -> entered t st b -> rinv t st b.
Proof. intros V R (bs & F & ->). apply rinv_run; try assumption. apply rinv_init. exact R. Qed.

(** steps of the slab for one thread leave the others where they are *)
Lemma rstep_other t st b a i : (match a with RInvoke j _ | RAccess j _ | RReturn j => j end) <> i -> rthreads (rstep t st b a) i = rthreads b i.
Proof.
  intros N. destruct a as [j c|j k|j]; cbn [rstep].
  - destruct (rthreads b j); cbn [rthreads]; [apply upd_other; congruence|reflexivity|reflexivity].
  - destruct (rthreads b j) as [|c g|c r]; try reflexivity. destruct (nth_error (mo b) k); [|reflexivity]. destruct (Nat.leb _ _); [|reflexivity].
    destruct (raccess t st (mo b) c g k z) as [[[m' k'] ts]|]; [|reflexivity]. cbn [rthreads]. apply upd_other. congruence.
  - destruct (rthreads b j); cbn [rthreads]; [reflexivity|reflexivity|apply upd_other; congruence].
Qed.

Lemma access_asking t st b i k l : valid_target t -> valid_region t st -> valid_layout t l -> 0 < lsize l -> entered t st b -> asking b i l ->
  asking (rstep t st b (RAccess i k)) i l.
Proof.
  intros V VR VL P En A. pose proof (entered_rinv t st b V VR En) as RI. destruct A as [(g & E)|(r & E & R)].
  2:{ right. exists r. split; [|exact R]. cbn [rstep]. rewrite E. exact E. }
  destruct (rthreads (rstep t st b (RAccess i k)) i) as [|c' g'|c' r'] eqn:E'.
  - exfalso. cbn [rstep] in E'. rewrite E in E'. destruct (nth_error (mo b) k); [|congruence]. destruct (Nat.leb _ _); [|congruence].
    destruct (raccess t st (mo b) (CAlloc l) g k z) as [[[m' k'] ts]|] eqn:Q; [|congruence]. cbn [rthreads] in E'. rewrite upd_same in E'. subst ts.
    cbn [raccess] in Q. destruct (prepare t st l g) as [[|e new al]|e]; try congruence. destruct (relaxed_cas (mo b) k z e new); congruence.
  - assert (c' = CAlloc l) as ->; [|left; exists g'; exact E'].
    cbn [rstep] in E'. rewrite E in E'. destruct (nth_error (mo b) k); [|congruence]. destruct (Nat.leb _ _); [|congruence].
    destruct (raccess t st (mo b) (CAlloc l) g k z) as [[[m' k'] ts]|] eqn:Q; [|congruence]. cbn [rthreads] in E'. rewrite upd_same in E'. subst ts.
    cbn [raccess] in Q. destruct (prepare t st l g) as [[|e new al]|e]; try congruence. destruct (relaxed_cas (mo b) k z e new); congruence.
  - assert (c' = CAlloc l) as ->.
    { cbn [rstep] in E'. rewrite E in E'. destruct (nth_error (mo b) k); [|congruence]. destruct (Nat.leb _ _); [|congruence].
      destruct (raccess t st (mo b) (CAlloc l) g k z) as [[[m' k'] ts]|] eqn:Q; [|congruence]. cbn [rthreads] in E'. rewrite upd_same in E'. subst ts.
      cbn [raccess] in Q. destruct (prepare t st l g) as [[|e new al]|e]; try congruence. destruct (relaxed_cas (mo b) k z e new); congruence. }
    right. exists r'. split; [exact E'|]. destruct En as (bs & F & ->).
    destruct (relaxed_exact t st bs i k (CAlloc l) g r' V VR F E E') as (R & _). rewrite (R l (or_introl eq_refl)).
    set (b := rrun t st rinit bs) in *.
    pose proof (increasing_le_last (mo b) 0 0 (ri_mo t st b RI) (ri_zero t st b RI)) as L0. pose proof (ri_last t st b RI) as L1.
    rewrite (step_spec t {| storage := st; consumed := latest b |} (CAlloc l) V); [|split; [exact VR|cbn; unfold latest; lia]|exact VL].
    cbn [spec_step]. destruct (Z.eqb_spec (lsize l) 0); [lia|]. cbn [storage consumed]. destruct (fitsb _ _ _); cbn [snd]; eauto.
Qed.

(** ** Steps *)
Lemma winv_length code t (A : lalloc) own inv N (w : world A) a : winv code t A own inv N w a -> length (wparts w) = length a.
Proof. intros (live & _ & F & _). induction F; cbn; congruence. Qed.

Lemma winv_state code t st B B' N m parts a ans : (forall b, In b B -> In b B') ->
  (forall live, Forall (fun b => In (ablock b) B) live -> ans_inv t st B' ans m live) ->
  winv code t answered (in_block st) (ans_inv t st B) N (@MkWorld answered None m parts) a ->
  winv code t answered (in_block st) (ans_inv t st B') N (@MkWorld answered ans m parts) a.
Proof.
  intros HB HA (live & (I & _) & R). exists live. cbn [wst wmem wparts] in *. split; [exact (HA live I)|exact R].
Qed.
Lemma winv_later code t A own inv N N' (w : world A) a : (N <= N')%nat -> winv code t A own inv N w a -> winv code t A own inv N' w a.
Proof. intros L W. induction L as [|N' _ IH]; [exact W|]. apply winv_mono. exact IH. Qed.

Lemma welse_snoc o : forall os m, welse m (os ++ [o]) = welse (welse m os) [o].
Proof. induction os as [|o' os IH]; intros m; [reflexivity|]. cbn [app]. rewrite (welse_cons o'), IH, (welse_cons o' os). reflexivity. Qed.

Section Steps.
  Context (code : bval -> elem) (boom : elem -> bool) (t : target) (st : block) (m0 : mem).
  Context (V : valid_target t) (C0 : code [] = 0) (VR : valid_region t st).

  Lemma tfinish_ok n s a base i o ans :
    tinv code boom t st m0 n s a -> tdead s = false -> Z.of_nat n < usize_max t -> wop_ok t (in_block st) o ->
    (forall k, wop_uses o = Some k -> nth_error (towner s) k = Some i) ->
    entered t st base -> rthreads base i = Idle -> (forall j, j <> i -> rthreads base j = rthreads (tbase s) j) ->
    (forall b, In b (returned_blocks (rhist (tbase s))) -> In b (returned_blocks (rhist base))) ->
    (forall live, Forall (fun b => In (ablock b) (returned_blocks (rhist (tbase s)))) live -> ans_inv t st (returned_blocks (rhist base)) ans (tmem s) live) ->
    match ans with None => request t a o = None | Some (l, _) => request t a o = Some l end ->
    exists a', tinv code boom t st m0 (S n) (tfinish code (fun b => boom (code b)) t s base i o ans) a'.
  Proof using V C0 VR.
    intros T AL LN OK OW En IDL OTH HB HA RQ. destruct T as [T1 T2 T3 T4 (N & LNN & W) T6 T7 T8 T9].
    set (B := returned_blocks (rhist base)) in *.
    assert (W1 : winv code t answered (in_block st) (ans_inv t st B) n (@MkWorld answered ans (tmem s) (tparts s)) a).
    { eapply winv_later; [exact LNN|]. eapply winv_state; [exact HB|exact HA|exact W]. }
    pose proof (wstep_sim code boom t answered _ _ V C0 (answered_honours t st B V VR) answered_exact n _ a o W1 OK LN) as S. unfold WorldProofs.step_ok in S.
    unfold tfinish. destruct (wstep code (fun b => boom (code b)) t answered _ o) as [w' r]. cbn [wst wmem] in S.
    assert (G : grant answered ans (tmem s) (request t a o) = match ans with Some (_, Ret (Some p)) => Some p | _ => None end).
    { destruct ans as [[l [[p|]|e]]|]; rewrite RQ; cbn [grant l_alloc answered]; try reflexivity; destruct (layout_eqb l l) eqn:Q; try reflexivity.
      exfalso. assert (X : layout_eqb l l = true) by (apply layout_eqb_iff; reflexivity). congruence. }
    assert (AF : after answered ans (tmem s) (request t a o) = None).
    { destruct ans as [[l [[p|]|e]]|]; rewrite RQ; reflexivity. }
    rewrite G, AF in S. set (g := match ans with Some (_, Ret (Some p)) => Some p | _ => None end) in *.
    destruct (awstep code boom t g a o) as [a' r'] eqn:ES. destruct S as (-> & W2 & E2 & FR).
    pose proof (awstep_length _ _ _ _ _ _ _ _ ES) as LA. pose proof (winv_length _ _ _ _ _ _ _ _ W1) as L1. pose proof (winv_length _ _ _ _ _ _ _ _ W2) as L2.
    cbn [wparts] in L1. exists a'. split; cbn [tbase tmem tparts towner tpend tlog tdead].
    - exact En.
    - unfold tgrants, tops, tresults in *. cbn [tlog]. rewrite !map_app. cbn [map te_grant te_op te_res].
      apply (awrun_snoc code boom t g o _ _ [] a _ a' _); [rewrite !map_length; reflexivity|exact T2|apply T4; exact AL|exact ES].
    - rewrite app_length. cbn [length]. lia.
    - intros AB. unfold tresults. cbn [tlog]. rewrite !map_app. apply Forall_app. split; [apply T4; exact AL|]. cbn [map te_res]. constructor; [|constructor].
      intros Q. apply wname_abort in Q. subst r. discriminate.
    - exists (S n). split; [lia|]. destruct w' as [w1 w2 w3]. cbn [wst wmem wparts] in *. subst w1. exact W2.
    - rewrite app_length, repeat_length. lia.
    - intros j. unfold upd_pend. destruct (Nat.eqb_spec j i) as [->|NJ]; [intros _; exact IDL|]. intros P. rewrite OTH by exact NJ. apply T7. exact P.
    - intros j oj. unfold upd_pend. destruct (Nat.eqb_spec j i) as [->|NJ]; [discriminate|]. intros P. destruct (T8 j oj P) as (OKj & l & RQj & ASj & OWj).
      split; [exact OKj|]. exists l. split; [|split].
      + rewrite <- RQj. apply request_same. intros k Uk. pose proof (request_uses t a oj l RQj) as X. rewrite Uk in X. destruct X as (p & Hp). rewrite Hp.
        eapply awstep_keeps; [exact ES|exact Hp|]. intros Uo. apply OW in Uo. rewrite (OWj k Uk) in Uo. congruence.
      + destruct ASj as [(g' & E)|(r0 & E & R0)]; [left; exists g'|right; exists r0]; rewrite OTH by exact NJ; auto.
      + intros k Uk. rewrite nth_error_app1; [apply OWj; exact Uk|]. apply nth_error_Some. rewrite (OWj k Uk). discriminate.
    - intros x X. rewrite FR by exact X. unfold tops. cbn [tlog]. rewrite map_app. cbn [map te_op]. rewrite welse_snoc. apply welse_ext.
      apply T9. exact X.
  Qed.

  Lemma tinv_init : tinv code boom t st m0 0 (tinit m0) [].
  Proof using VR.
    split; cbn; try reflexivity; try discriminate.
    - exists []. split; [constructor|reflexivity].
    - constructor.
    - exists 0%nat. split; [lia|]. exists []. cbn [wst wmem wparts]. split; [split; [constructor|exact Logic.I]|]. split; [constructor|]. split.
      + intros i j x y _ H. destruct i; discriminate.
      + intros i p x H. destruct i; discriminate.
  Qed.

  Lemma tinv_later n n' s a : (n <= n')%nat -> tinv code boom t st m0 n s a -> tinv code boom t st m0 n' s a.
  Proof using Type. intros L [T1 T2 T3 T4 (N & LNN & W) T6 T7 T8 T9]. split; try assumption; [lia|]. exists N. split; [lia|exact W]. Qed.

  Lemma tstep_ok n s a ac : tinv code boom t st m0 n s a -> taction_ok t st ac -> Z.of_nat n < usize_max t ->
    exists a', tinv code boom t st m0 (S n) (tstep code (fun b => boom (code b)) t st s ac) a'.
  Proof using V C0 VR.
    intros T OK LN. unfold tstep. destruct (tdead s) eqn:AL; [exists a; apply (tinv_later n); [lia|exact T]|].
    assert (SAME : exists a', tinv code boom t st m0 (S n) s a') by (exists a; apply (tinv_later n); [lia|exact T]).
    pose proof (entered_rinv t st _ V VR (ti_base _ _ _ _ _ _ _ _ T)) as RI.
    destruct ac as [i o|i k|i|i k j]; cbn [taction_ok] in OK.
    - destruct (tpend s i) eqn:P; [exact SAME|]. destruct (has_part s i o) eqn:HP; [|exact SAME].
      assert (OW : forall k, wop_uses o = Some k -> nth_error (towner s) k = Some i).
      { intros k U. unfold has_part in HP. rewrite U in HP. destruct (nth_error (towner s) k) as [j|]; [|discriminate]. apply Nat.eqb_eq in HP. congruence. }
      pose proof (ti_world _ _ _ _ _ _ _ _ T) as (N & LNN & W).
      pose proof (need_request code boom t st _ N (@MkWorld answered None (tmem s) (tparts s)) a o V C0 W OK ltac:(lia)) as NR.
      cbn [wmem wparts] in NR. rewrite NR. clear NR.
      destruct (request t a o) as [l|] eqn:RQ.
      + destruct (request_valid t _ a o l V OK RQ) as (VL & P0). exists a. destruct T as [T1 T2 T3 T4 T5 T6 T7 T8 T9].
        assert (IDL := T7 i P).
        split; cbn [tbase tmem tparts towner tpend tlog tdead]; try assumption.
        * apply entered_step; [split; [exact VL|reflexivity]|exact T1].
        * unfold tops in *. cbn [tlog]. lia.
        * intros _. apply T4. exact AL.
        * exists N. split; [lia|]. cbn [rstep]. rewrite IDL. cbn [rhist returned_blocks]. exact W.
        * intros j. unfold upd_pend. destruct (Nat.eqb_spec j i) as [->|NJ]; [discriminate|]. intros Pj. rewrite rstep_other by congruence. apply T7. exact Pj.
        * intros j oj. unfold upd_pend. destruct (Nat.eqb_spec j i) as [->|NJ].
          -- intros Q. injection Q as <-. split; [exact OK|]. exists l. split; [exact RQ|]. split; [|exact OW]. left. exists 0. cbn [rstep]. rewrite IDL. cbn [rthreads]. apply upd_same.
          -- intros Pj. destruct (T8 j oj Pj) as (OKj & l' & RQj & ASj & OWj). split; [exact OKj|]. exists l'. split; [exact RQj|]. split; [|exact OWj].
             destruct ASj as [(g' & E)|(r0 & E & R0)]; [left; exists g'|right; exists r0]; rewrite rstep_other by congruence; auto.
      + apply (tfinish_ok n s a (tbase s) i o None); try assumption; try reflexivity; auto.
        * apply (ti_base _ _ _ _ _ _ _ _ T).
        * apply (ti_idle _ _ _ _ _ _ _ _ T). exact P.
        * intros live F. split; [exact F|exact Logic.I].
    - exists a. destruct T as [T1 T2 T3 T4 T5 T6 T7 T8 T9]. split; cbn [tbase tmem tparts towner tpend tlog tdead]; try assumption.
      + apply entered_step; [exact Logic.I|exact T1].
      + lia.
      + intros _. apply T4. exact AL.
      + destruct T5 as (N & LNN & W). exists N. split; [lia|].
        assert (E : forall b, In b (returned_blocks (rhist (tbase s))) -> In b (returned_blocks (rhist (rstep t st (tbase s) (RAccess i k))))).
        { intros b Hb. cbn [rstep]. destruct (rthreads (tbase s) i) as [|c g|c r]; try exact Hb. destruct (nth_error (mo (tbase s)) k); [|exact Hb].
          destruct (Nat.leb _ _); [|exact Hb]. destruct (raccess _ _ _ _ _ _ _) as [[[m' k'] ts]|]; [|exact Hb]. cbn [rhist]. destruct ts; exact Hb. }
        eapply winv_state; [exact E| |exact W]. intros live F. split; [|exact Logic.I]. eapply Forall_impl; [|exact F]. intros b Hb. apply E. exact Hb.
      + intros j Pj. destruct (Nat.eq_dec i j) as [<-|NJ]; [|rewrite rstep_other by congruence; apply T7; exact Pj].
        cbn [rstep]. rewrite (T7 i Pj). apply T7. exact Pj.
      + intros j oj Pj. destruct (T8 j oj Pj) as (OKj & l' & RQj & ASj & OWj). split; [exact OKj|]. exists l'. split; [exact RQj|]. split; [|exact OWj].
        destruct (Nat.eq_dec i j) as [<-|NJ].
        * destruct (request_valid t _ a oj l' V OKj RQj) as (VL & P0). apply access_asking; assumption.
        * destruct ASj as [(g' & E)|(r0 & E & R0)]; [left; exists g'|right; exists r0]; rewrite rstep_other by congruence; auto.
    - destruct (tpend s i) as [o|] eqn:P; [|exact SAME].
      destruct (ti_pend _ _ _ _ _ _ _ _ T i o P) as (OKo & l & RQ & ASK & OW).
      destruct ASK as [(g & E)|(r & E & R)]; rewrite E; [exact SAME|].
      destruct (request_valid t _ a o l V OKo RQ) as (VL & P0).
      assert (HR : rhist (rstep t st (tbase s) (RReturn i)) = ERet i (CAlloc l) r :: rhist (tbase s)) by (cbn [rstep]; rewrite E; reflexivity).
      apply (tfinish_ok n s a (rstep t st (tbase s) (RReturn i)) i o (Some (l, response_of r))); try assumption.
      + apply entered_step; [exact Logic.I|apply (ti_base _ _ _ _ _ _ _ _ T)].
      + cbn [rstep]. rewrite E. cbn [rthreads]. apply upd_same.
      + intros j NJ. apply rstep_other. congruence.
      + intros b Hb. rewrite HR. cbn [returned_blocks]. destruct (event_block (CAlloc l, r)); [right|]; exact Hb.
      + intros live F. rewrite HR. cbn [returned_blocks]. destruct R as [->|(al & ->)]; cbn [response_of event_block call_layout].
        * split; [exact F|exact Logic.I].
        * split; [eapply Forall_impl; [|exact F]; intros b Hb; right; exact Hb|]. split; [exact VL|]. split.
          -- apply (ri_done_good t st _ RI i (CAlloc l) al l E eq_refl).
          -- split; [left; reflexivity|]. pose proof (ri_done_ret t st _ RI i (CAlloc l) (RBlock al) (MkBlock (ptr al) (lsize l)) E eq_refl) as D.
             rewrite Forall_forall in D, F |- *. intros b Hb. apply D. apply F. exact Hb.
    - destruct (tpend s i) as [o|] eqn:P; [exact SAME|]. destruct (nth_error (towner s) k) as [i'|] eqn:K; [|exact SAME].
      destruct (Nat.eqb_spec i' i) as [->|]; [|exact SAME]. exists a. destruct T as [T1 T2 T3 T4 (N & LNN & W) T6 T7 T8 T9].
      split; cbn [tbase tmem tparts towner tpend tlog tdead]; try assumption.
      + lia.
      + intros _. apply T4. exact AL.
      + exists N. split; [lia|exact W].
      + rewrite upd_nth_len. exact T6.
      + intros j0 oj Pj. destruct (T8 j0 oj Pj) as (OKj & l' & RQj & ASj & OWj). split; [exact OKj|]. exists l'. split; [exact RQj|]. split; [exact ASj|].
        intros k0 Uk. rewrite upd_nth_other; [apply OWj; exact Uk|]. intros ->. rewrite (OWj k0 Uk) in K. congruence.
  Qed.

  Lemma trun_inv sched : forall n s a, tinv code boom t st m0 n s a -> Forall (taction_ok t st) sched -> Z.of_nat (n + length sched) <= usize_max t ->
    exists a', tinv code boom t st m0 (n + length sched) (trun code (fun b => boom (code b)) t st s sched) a'.
  Proof using V C0 VR.
    induction sched as [|ac sched IH]; intros n s a T F LN; [exists a; rewrite Nat.add_0_r; exact T|]. inversion F; subst. cbn [length] in *. cbn [trun fold_left].
    destruct (tstep_ok n s a ac T ltac:(assumption) ltac:(lia)) as (a1 & T1). destruct (IH (S n) _ a1 T1 ltac:(assumption) ltac:(lia)) as (a2 & T2).
    exists a2. replace (n + S (length sched))%nat with (S n + length sched)%nat by lia. exact T2.
  Qed.
  Lemma trun_ok sched : forall n s a, tinv code boom t st m0 n s a -> Forall (taction_ok t st) sched -> Z.of_nat (n + length sched) <= usize_max t ->
    exists a' n', tinv code boom t st m0 n' (trun code (fun b => boom (code b)) t st s sched) a'.
  Proof using V C0 VR. intros n s a T F LN. destruct (trun_inv sched n s a T F LN) as (a' & T'). eauto. Qed.

  (** A thread that runs alone gets its answer from the slab after at most two accesses. *)
  Lemma newest b : rinv t st b -> exists v, nth_error (mo b) (length (mo b) - 1) = Some v.
  Proof using Type. clear V C0 VR code boom m0. intros RI. pose proof (ri_view t st b RI 0%nat). destruct (nth_error (mo b) (length (mo b) - 1)) eqn:E; [eauto|]. apply nth_error_None in E. lia. Qed.

  Lemma prepare_expect l g e new al : prepare t st l g = Ret (ACas e new al) -> e = g.
  Proof using Type.
    clear V C0 VR code boom m0. unfold prepare, obind, unwrap. intros E.
    repeat match type of E with
    | context [match ?x with _ => _ end] => match x with context [match _ with _ => _ end] => fail 1 | _ => destruct x; try discriminate E end
    end; congruence.
  Qed.

  Lemma solo_access b i l g : rinv t st b -> rthreads b i = Running (CAlloc l) g ->
    let b1 := rstep t st b (RAccess i (length (mo b) - 1)) in
    (exists r, rthreads b1 i = Done (CAlloc l) r) \/
    (mo b1 = mo b /\ exists v, nth_error (mo b) (length (mo b) - 1) = Some v /\ rthreads b1 i = Running (CAlloc l) v /\ v <> g).
  Proof using Type.
    clear V C0 VR code boom m0. intros RI E. destruct (newest b RI) as (v & N). pose proof (ri_view t st b RI i) as VI. cbn [rstep]. rewrite E, N.
    destruct (Nat.leb_spec (views b i) (length (mo b) - 1)) as [_|Q]; [|lia]. cbn [raccess].
    destruct (prepare t st l g) as [[|e new al]|e] eqn:P.
    - left. cbn [rthreads]. rewrite upd_same. eauto.
    - assert (e = g) as -> by (apply (prepare_expect _ _ _ _ _ P)).
      unfold relaxed_cas. destruct (Z.eqb_spec v g) as [->|D].
      + destruct (Nat.eqb_spec (S (length (mo b) - 1)) (length (mo b))) as [_|Q]; [|lia]. left. cbn [rthreads]. rewrite upd_same. eauto.
      + right. cbn [mo rthreads]. rewrite upd_same. eauto.
    - left. cbn [rthreads]. rewrite upd_same. eauto.
  Qed.

  Lemma solo_done b i l g : entered t st b -> rthreads b i = Running (CAlloc l) g ->
    exists ks r, (length ks <= 2)%nat /\ rthreads (fold_left (rstep t st) (map (RAccess i) ks) b) i = Done (CAlloc l) r.
  Proof using V VR.
    clear C0 code boom m0. intros En E. pose proof (entered_rinv t st b V VR En) as RI. destruct (solo_access b i l g RI E) as [(r & D)|(M & v & N & R & _)].
    - exists [(length (mo b) - 1)%nat], r. split; [cbn; lia|exact D].
    - assert (En1 : entered t st (rstep t st b (RAccess i (length (mo b) - 1)))) by (apply entered_step; [exact Logic.I|exact En]).
      destruct (solo_access _ i l v (entered_rinv t st _ V VR En1) R) as [(r & D)|(_ & v2 & N2 & _ & NE)].
      + rewrite M in D. exists [(length (mo b) - 1)%nat; (length (mo b) - 1)%nat], r. split; [cbn; lia|exact D].
      + rewrite M in N2. congruence.
  Qed.

  Lemma accesses_only s i ks : tdead s = false -> let s' := trun code (fun b => boom (code b)) t st s (map (TAccess i) ks) in
    s' = MkT (fold_left (rstep t st) (map (RAccess i) ks) (tbase s)) (tmem s) (tparts s) (towner s) (tpend s) (tlog s) false.
  Proof using Type.
    revert s. induction ks as [|k ks IH]; intros s AL; cbn [map trun fold_left].
    - destruct s. cbn in AL. subst. reflexivity.
    - unfold trun in IH. unfold tstep at 2. rewrite AL. rewrite IH by reflexivity. reflexivity.
  Qed.

  Lemma pend_done n s a i o : tinv code boom t st m0 n s a -> tdead s = false -> tpend s i = Some o ->
    exists ks, (length ks <= 2)%nat /\ exists e, tlog (trun code (fun b => boom (code b)) t st s (map (TAccess i) ks ++ [TFinish i])) = tlog s ++ [e] /\ te_thread e = i /\ te_op e = o.
  Proof using V VR.
    intros T AL P. destruct (ti_pend _ _ _ _ _ _ _ _ T i o P) as (_ & l & _ & ASK & _).
    assert (X : exists ks r, (length ks <= 2)%nat /\ rthreads (fold_left (rstep t st) (map (RAccess i) ks) (tbase s)) i = Done (CAlloc l) r).
    { destruct ASK as [(g & E)|(r & E & _)]; [apply (solo_done _ i l g (ti_base _ _ _ _ _ _ _ _ T) E)|]. exists [], r. split; [cbn; lia|exact E]. }
    destruct X as (ks & r & LK & D). exists ks. split; [exact LK|]. unfold trun. rewrite fold_left_app.
    change (fold_left (tstep code (fun b => boom (code b)) t st) (map (TAccess i) ks) s) with (trun code (fun b => boom (code b)) t st s (map (TAccess i) ks)).
    rewrite accesses_only by exact AL. cbn [fold_left tstep tdead tpend tbase]. rewrite P, D. unfold tfinish. destruct (wstep code _ t answered _ o) as [w' r0]. cbn [tlog].
    eexists. split; [reflexivity|]. split; reflexivity.
  Qed.

  Lemma start_done n s a i o : tinv code boom t st m0 n s a -> tdead s = false -> wop_ok t (in_block st) o -> Z.of_nat n < usize_max t ->
    tpend s i = None -> (forall k, wop_uses o = Some k -> nth_error (towner s) k = Some i) ->
    exists acts, (length acts <= 4)%nat /\ (forall x, In x acts -> x = TStart i o \/ x = TFinish i \/ exists k, x = TAccess i k) /\
      exists e, tlog (trun code (fun b => boom (code b)) t st s acts) = tlog s ++ [e] /\ te_thread e = i /\ te_op e = o.
  Proof using V C0 VR.
    intros T AL OK LN P OW.
    assert (HP : has_part s i o = true).
    { unfold has_part. destruct (wop_uses o) as [k|]; [|reflexivity]. rewrite (OW k eq_refl). apply Nat.eqb_refl. }
    destruct (tstep_ok n s a (TStart i o) T OK LN) as (a1 & T1).
    remember (tstep code (fun b => boom (code b)) t st s (TStart i o)) as s1 eqn:E1.
    pose proof E1 as E2. unfold tstep in E2. rewrite AL, P, HP in E2. destruct (need code (fun b => boom (code b)) t (tmem s) (tparts s) o) as [l|] eqn:ND.
    - assert (AL1 : tdead s1 = false) by (rewrite E2; reflexivity). assert (P1 : tpend s1 i = Some o) by (rewrite E2; cbn [tpend]; unfold upd_pend; rewrite Nat.eqb_refl; reflexivity).
      assert (L1 : tlog s1 = tlog s) by (rewrite E2; reflexivity).
      destruct (pend_done _ s1 a1 i o T1 AL1 P1) as (ks & LK & e & F1 & F2 & F3).
      exists (TStart i o :: map (TAccess i) ks ++ [TFinish i]). split; [cbn [length]; rewrite app_length, map_length; cbn [length]; lia|]. split.
      + intros x [<-|IN]; [auto|]. apply in_app_or in IN as [IN|[<-|[]]]; [|auto]. apply in_map_iff in IN as (k & <- & _). eauto.
      + exists e. unfold trun. cbn [fold_left]. rewrite <- E1. unfold trun in F1. rewrite F1, L1. auto.
    - exists [TStart i o]. split; [cbn; lia|]. split; [intros x [<-|[]]; auto|]. unfold trun. cbn [fold_left]. rewrite <- E1, E2. unfold tfinish.
      destruct (wstep code _ t answered _ o) as [w' r0]. cbn [tlog]. eexists. split; [reflexivity|]. split; reflexivity.
  Qed.
End Steps.
