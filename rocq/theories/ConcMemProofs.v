(** * ConcMemProofs *)
From Verif Require Import Base Spec BaseFacts SyncModel SyncSpec SyncProofs SyncMemModel SyncMemSpec SyncMemProofs
  ConcModel ConcSpec ConcProofs RelaxedModel RelaxedSpec RelaxedProofs MemBumpSpec MemBumpProofs ConcMemModel ConcMemSpec.

Lemma hb_lt tr p q : hb tr p q -> (p < q)%nat.
Proof. induction 1; lia. Qed.

Lemma hb_weaken tr tr' p q : hb tr p q -> hb (tr ++ tr') p q.
Proof.
  assert (N : forall k e, nth_error tr k = Some e -> nth_error (tr ++ tr') k = Some e).
  { intros k e H. rewrite nth_error_app1; [exact H|]. apply nth_error_Some. congruence. }
  induction 1; [eapply hb_program|eapply hb_send|eapply hb_trans]; eauto.
Qed.

Lemma nth_error_app_mid {A} (l : list A) x : nth_error (l ++ [x]) (length l) = Some x.
Proof. rewrite nth_error_app2 by lia. rewrite Nat.sub_diag. reflexivity. Qed.

(** the event involves block k *)
Definition uses (e : mevent) (k : nat) : Prop :=
  match e with MGot _ k' | MStore _ k' _ _ | MLoad _ k' _ | MSend _ k' _ => k' = k end.

(** the past uses of block [k] at [p] are known to its owner [o] *)
Definition known (tr : list mevent) (p k o : nat) : Prop :=
  (exists e, nth_error tr p = Some e /\ actor e = o) \/
  (exists q i, nth_error tr q = Some (MSend i k o) /\ (p = q \/ hb tr p q)).

Lemma known_weaken tr tr' p k o : known tr p k o -> known (tr ++ tr') p k o.
Proof.
  assert (N : forall k e, nth_error tr k = Some e -> nth_error (tr ++ tr') k = Some e).
  { intros k0 e H. rewrite nth_error_app1; [exact H|]. apply nth_error_Some. congruence. }
  intros [(e & H1 & H2)|(q & i & H1 & H2)]; [left; eauto|right]. exists q, i. split; [auto|].
  destruct H2 as [->|H2]; [left; reflexivity|right; apply hb_weaken; exact H2].
Qed.

Lemma known_hb tr p k o e : known tr p k o -> actor e = o -> hb (tr ++ [e]) p (length tr).
Proof.
  intros [(e0 & H1 & H2)|(q & i & H1 & H2)] He.
  - assert (Hp : (p < length tr)%nat) by (apply nth_error_Some; congruence).
    eapply hb_program; [exact Hp|rewrite nth_error_app1 by exact Hp; exact H1|apply nth_error_app_mid|congruence].
  - assert (Hq : (q < length tr)%nat) by (apply nth_error_Some; congruence).
    assert (S : hb (tr ++ [e]) q (length tr)).
    { eapply hb_send; [exact Hq|rewrite nth_error_app1 by exact Hq; exact H1|apply nth_error_app_mid|exact He]. }
    destruct H2 as [->|H2]; [exact S|]. eapply hb_trans; [apply hb_weaken; exact H2|exact S].
Qed.

Definition ccontents (s : csys) : list (list (option Z)) :=
  map (fun b => mem_read (cmem s) (start b) (size b)) (map fst (ctoks s)).

Record cinv (t : target) (st : block) (m0 : mem) (s : csys) : Prop := {
  ci_base : rinv t st (cbase s);
  ci_toks : map fst (ctoks s) = returned_blocks (rhistory (cbase s));
  ci_mem : same_outside st m0 (cmem s);
  ci_known : forall p e k, nth_error (ctrace s) p = Some e -> uses e k ->
      exists b o, nth_error (ctoks s) k = Some (b, o) /\ known (ctrace s) p k o;
  ci_order : forall p q e e' k, (p < q)%nat -> nth_error (ctrace s) p = Some e -> nth_error (ctrace s) q = Some e' ->
      uses e k -> uses e' k -> hb (ctrace s) p q;
  ci_off : forall p i k off bs, nth_error (ctrace s) p = Some (MStore i k off bs) ->
      exists b o, nth_error (ctoks s) k = Some (b, o) /\ 0 <= off /\ off + Z.of_nat (length bs) <= size b;
  ci_sub : forall k b o, nth_error (ctoks s) k = Some (b, o) -> inside b st
}.

Lemma toks_disjoint t st m0 s j k b b' o o' :
  cinv t st m0 s -> j <> k -> nth_error (ctoks s) j = Some (b, o) -> nth_error (ctoks s) k = Some (b', o') -> disjoint b b'.
Proof.
  intros I N Hj Hk. pose proof (ri_ret_pw t st _ (ci_base t st m0 s I)) as P. apply pairwise_rev in P.
  rewrite <- returned_blocks_rev in P. change (rev (rhist (cbase s))) with (rhistory (cbase s)) in P.
  rewrite <- (ci_toks t st m0 s I) in P. apply (P j k b b' N); rewrite nth_error_map; [rewrite Hj|rewrite Hk]; reflexivity.
Qed.

Lemma returned_step t st s a :
  returned_blocks (rhistory (rstep t st s a)) =
  returned_blocks (rhistory s) ++ match got s a with Some (_, b) => [b] | None => [] end.
Proof.
  unfold rhistory. destruct a as [i c|i k|i]; cbn [rstep got].
  - destruct (rthreads s i); cbn [rhist rev]; rewrite ?returned_blocks_app; reflexivity || (symmetry; apply app_nil_r).
  - destruct (rthreads s i) as [|c g|]; try (symmetry; apply app_nil_r).
    destruct (nth_error (mo s) k); [|symmetry; apply app_nil_r]. destruct (Nat.leb (views s i) k); [|symmetry; apply app_nil_r].
    destruct (raccess t st (mo s) c g k z) as [[[m' k'] ts]|]; [|symmetry; apply app_nil_r].
    cbn [rhist]. destruct ts; try (symmetry; apply app_nil_r). cbn [rev]. rewrite returned_blocks_app. reflexivity.
  - destruct (rthreads s i) as [| |c r]; try (symmetry; apply app_nil_r). cbn [rhist rev]. rewrite returned_blocks_app.
    f_equal. cbn [returned_blocks]. destruct (event_block (c, r)); reflexivity.
Qed.

Lemma got_inside t st s a i b : rinv t st s -> got s a = Some (i, b) -> inside b st.
Proof.
  intros I. destruct a as [j c|j k|j]; try discriminate. cbn [got].
  destruct (rthreads s j) as [| |c r] eqn:E; try discriminate. destruct (event_block (c, r)) as [b0|] eqn:Eb; [|discriminate].
  intros [= <- <-]. unfold event_block in Eb. destruct r as [a| | | | |]; try discriminate.
  destruct (call_layout c) as [l|] eqn:El; [|discriminate]. injection Eb as <-.
  apply (ri_done_good t st s I j c a l E El).
Qed.

Lemma may_use_inv s i k b : may_use s i k = Some b -> nth_error (ctoks s) k = Some (b, i).
Proof.
  unfold may_use. destruct (rthreads (cbase s) i); try discriminate. destruct (nth_error (ctoks s) k) as [[b0 o]|]; [|discriminate].
  destruct (Nat.eqb_spec o i); [|discriminate]. intros [= <-]. subst. reflexivity.
Qed.

(** extending the trace with an event of the owner of [k] *)
Lemma snoc_nth {A} (l : list A) x p e : nth_error (l ++ [x]) p = Some e -> nth_error l p = Some e \/ (p = length l /\ e = x).
Proof.
  intros H. destruct (Nat.lt_ge_cases p (length l)) as [L|L].
  - left. rewrite nth_error_app1 in H by exact L. exact H.
  - right. assert (p < length (l ++ [x]))%nat by (apply nth_error_Some; congruence). rewrite app_length in *. cbn in *.
    assert (p = length l) by lia. subst. rewrite nth_error_app_mid in H. injection H as <-. auto.
Qed.

Lemma order_snoc t st m0 s k b o ev toks' :
  cinv t st m0 s -> nth_error (ctoks s) k = Some (b, o) -> actor ev = o -> uses ev k ->
  (forall j, j <> k -> nth_error toks' j = nth_error (ctoks s) j) ->
  (exists b' o', nth_error toks' k = Some (b', o') /\ (o' = o \/ exists i, ev = MSend i k o')) ->
  (forall p e k', nth_error (ctrace s ++ [ev]) p = Some e -> uses e k' ->
      exists b o, nth_error toks' k' = Some (b, o) /\ known (ctrace s ++ [ev]) p k' o) /\
  (forall p q e e' k', (p < q)%nat -> nth_error (ctrace s ++ [ev]) p = Some e -> nth_error (ctrace s ++ [ev]) q = Some e' ->
      uses e k' -> uses e' k' -> hb (ctrace s ++ [ev]) p q).
Proof.
  intros I Hk Ha Hu Ho (b' & o' & Hk' & Hcase).
  assert (U : forall e k1 k2, uses e k1 -> uses e k2 -> k1 = k2) by (intros [] ? ?; cbn; congruence).
  assert (HB : forall p e, nth_error (ctrace s) p = Some e -> uses e k -> hb (ctrace s ++ [ev]) p (length (ctrace s))).
  { intros p e Hp He. destruct (ci_known t st m0 s I p e k Hp He) as (b1 & o1 & K1 & K2). rewrite Hk in K1. injection K1 as <- <-.
    apply (known_hb _ p k o ev K2 Ha). }
  split.
  - intros p e k' Hp He. apply snoc_nth in Hp. destruct (Nat.eq_dec k' k) as [->|N].
    + exists b', o'. split; [exact Hk'|]. destruct Hp as [Hp|[-> ->]].
      * destruct Hcase as [->|[i ->]].
        -- destruct (ci_known t st m0 s I p e k Hp He) as (b1 & o1 & K1 & K2). rewrite Hk in K1. injection K1 as <- <-.
           apply known_weaken. exact K2.
        -- right. exists (length (ctrace s)), i. split; [apply nth_error_app_mid|]. right. apply (HB p e Hp He).
      * destruct Hcase as [->|[i ->]].
        -- left. exists ev. split; [apply nth_error_app_mid|exact Ha].
        -- right. exists (length (ctrace s)), i. split; [apply nth_error_app_mid|left; reflexivity].
    + destruct Hp as [Hp|[-> ->]]; [|destruct N; apply (U ev k' k He Hu)].
      destruct (ci_known t st m0 s I p e k' Hp He) as (b1 & o1 & K1 & K2). exists b1, o1. rewrite (Ho k' N).
      split; [exact K1|apply known_weaken; exact K2].
  - intros p q e e' k' Hpq Hp Hq He He'. apply snoc_nth in Hp. apply snoc_nth in Hq.
    destruct Hq as [Hq|[-> ->]].
    + destruct Hp as [Hp|[-> ->]].
      * apply hb_weaken. apply (ci_order t st m0 s I p q e e' k' Hpq Hp Hq He He').
      * assert (q < length (ctrace s))%nat by (apply nth_error_Some; congruence). lia.
    + destruct Hp as [Hp|[-> ->]]; [|lia]. assert (k' = k) by (apply (U ev); assumption). subst k'. apply (HB p e Hp He).
Qed.

Lemma nth_error_upd {A} (l : list A) k j x : nth_error (SyncMemModel.upd l k x) j =
  if Nat.eqb j k then match nth_error l k with Some _ => Some x | None => None end else nth_error l j.
Proof.
  destruct (Nat.eqb_spec j k) as [->|N].
  - destruct (nth_error l k) eqn:E; [eapply nth_error_upd_same; exact E|].
    apply nth_error_None in E. apply nth_error_None. rewrite upd_length. exact E.
  - apply nth_error_upd_other. auto.
Qed.

Lemma map_upd_same {A B} (f : A -> B) (l : list A) k x y : nth_error l k = Some y -> f x = f y -> map f (SyncMemModel.upd l k x) = map f l.
Proof.
  revert k. induction l as [|z l IH]; intros k H E; destruct k; cbn in *; try discriminate.
  - injection H as <-. congruence.
  - f_equal. apply IH; assumption.
Qed.

Lemma cinv_step t st m0 s a :
  valid_target t -> valid_region t st -> valid_caction t a -> cinv t st m0 s -> cinv t st m0 (cstep t st s a).
Proof.
  intros Ht Hst Hv I. destruct a as [a|i k off bs|i k|i k j]; cbn [cstep].
  - pose proof (returned_step t st (cbase s) a) as R.
    assert (I' : rinv t st (rstep t st (cbase s) a)) by (apply rinv_step; try assumption; apply I).
    destruct (got (cbase s) a) as [[i b]|] eqn:G.
    + split; cbn [cbase cmem ctoks ctrace].
      * exact I'.
      * rewrite map_app, R. cbn [map fst]. f_equal. apply I.
      * apply I.
      * intros p e k Hp He. apply snoc_nth in Hp. destruct Hp as [Hp|[-> ->]].
        -- destruct (ci_known t st m0 s I p e k Hp He) as (b1 & o1 & K1 & K2). exists b1, o1.
           split; [|apply known_weaken; exact K2]. rewrite nth_error_app1; [exact K1|]. apply nth_error_Some. congruence.
        -- cbn in He. subst k. exists b, i. split; [apply nth_error_app_mid|]. left. eexists. split; [apply nth_error_app_mid|reflexivity].
      * intros p q e e' k Hpq Hp Hq He He'. apply snoc_nth in Hp. apply snoc_nth in Hq.
        destruct Hq as [Hq|[-> ->]].
        -- destruct Hp as [Hp|[-> ->]].
           ++ apply hb_weaken. apply (ci_order t st m0 s I p q e e' k Hpq Hp Hq He He').
           ++ assert (q < length (ctrace s))%nat by (apply nth_error_Some; congruence). lia.
        -- destruct Hp as [Hp|[-> ->]]; [|lia]. cbn in He'. subst k.
           destruct (ci_known t st m0 s I p e _ Hp He) as (b1 & o1 & K1 & _).
           assert (length (ctoks s) < length (ctoks s))%nat by (apply nth_error_Some; congruence). lia.
      * intros p j k off bs Hp. apply snoc_nth in Hp. destruct Hp as [Hp|[_ [=]]].
        destruct (ci_off t st m0 s I p j k off bs Hp) as (b1 & o1 & K1 & K2). exists b1, o1. split; [|exact K2].
        rewrite nth_error_app1; [exact K1|]. apply nth_error_Some. congruence.
      * intros k b1 o Hk. apply snoc_nth in Hk. destruct Hk as [Hk|[-> [= -> ->]]]; [apply (ci_sub t st m0 s I k b1 o Hk)|].
        apply (got_inside t st (cbase s) a i b (ci_base t st m0 s I) G).
    + split; cbn [cbase cmem ctoks ctrace]; try apply I.
      * exact I'.
      * rewrite R, app_nil_r. apply I.
  - destruct (may_use s i k) as [b|] eqn:E; [|exact I]. apply may_use_inv in E.
    destruct (Z.leb_spec 0 off) as [L1|L1]; cbn [andb]; [|exact I].
    destruct (Z.leb_spec (off + Z.of_nat (length bs)) (size b)) as [L2|L2]; [|exact I].
    destruct (order_snoc t st m0 s k b i (MStore i k off bs) (ctoks s) I E eq_refl eq_refl ltac:(auto) ltac:(exists b, i; auto)) as [O1 O2].
    split; cbn [cbase cmem ctoks ctrace]; try apply I.
    + intros x Hx. rewrite <- (ci_mem t st m0 s I x Hx). apply (mem_write_outside _ _ _ (Z.of_nat (length bs))); [lia|].
      intros Hin. apply Hx. apply (ci_sub t st m0 s I k b i E). unfold in_block in *. cbn [start size] in *. lia.
    + exact O1.
    + exact O2.
    + intros p i' k' off' bs' Hp. apply snoc_nth in Hp. destruct Hp as [Hp|[_ [= -> -> -> ->]]].
      * apply (ci_off t st m0 s I p i' k' off' bs' Hp).
      * exists b, i. auto.
  - destruct (may_use s i k) as [b|] eqn:E; [|exact I]. apply may_use_inv in E.
    destruct (order_snoc t st m0 s k b i (MLoad i k (mem_read (cmem s) (start b) (size b))) (ctoks s) I E eq_refl eq_refl ltac:(auto) ltac:(exists b, i; auto)) as [O1 O2].
    split; cbn [cbase cmem ctoks ctrace]; try apply I; try assumption.
    intros p i' k' off' bs' Hp. apply snoc_nth in Hp. destruct Hp as [Hp|[_ [=]]]. apply (ci_off t st m0 s I p i' k' off' bs' Hp).
  - destruct (may_use s i k) as [b|] eqn:E; [|exact I]. apply may_use_inv in E.
    destruct (order_snoc t st m0 s k b i (MSend i k j) (SyncMemModel.upd (ctoks s) k (b, j)) I E eq_refl eq_refl) as [O1 O2].
    { intros j' N. apply nth_error_upd_other. auto. }
    { exists b, j. split; [eapply nth_error_upd_same; exact E|]. right. exists i. reflexivity. }
    assert (F : forall k' b' o', nth_error (SyncMemModel.upd (ctoks s) k (b, j)) k' = Some (b', o') -> exists o, nth_error (ctoks s) k' = Some (b', o)).
    { intros k' b' o'. rewrite nth_error_upd. destruct (Nat.eqb_spec k' k) as [->|N]; [rewrite E; intros [= <- <-]; eauto|eauto]. }
    split; cbn [cbase cmem ctoks ctrace]; try apply I; try assumption.
    + rewrite (map_upd_same fst (ctoks s) k (b, j) (b, i) E eq_refl). apply I.
    + intros p i' k' off' bs' Hp. apply snoc_nth in Hp. destruct Hp as [Hp|[_ [=]]].
      destruct (ci_off t st m0 s I p i' k' off' bs' Hp) as (b1 & o1 & K1 & K2).
      rewrite nth_error_upd. destruct (Nat.eqb_spec k' k) as [->|N]; [|exists b1, o1; auto].
      rewrite E. rewrite E in K1. injection K1 as <- <-. exists b, j. auto.
    + intros k' b' o' Hk. destruct (F k' b' o' Hk) as [o Ho]. apply (ci_sub t st m0 s I k' b' o Ho).
Qed.

Lemma cinv_init t st m : valid_region t st -> cinv t st m (cinit m).
Proof.
  intros Hst. split; cbn; try (intros; match goal with H : nth_error [] ?p = Some _ |- _ => destruct p; discriminate H end).
  - apply rinv_init. exact Hst.
  - reflexivity.
  - intros x _. reflexivity.
Qed.

Lemma cinv_run t st m0 sched : forall s,
  valid_target t -> valid_region t st -> Forall (valid_caction t) sched -> cinv t st m0 s -> cinv t st m0 (crun t st s sched).
Proof.
  induction sched as [|a sched IH]; intros s Ht Hst Hv I; [exact I|]. inversion Hv; subst. unfold crun. cbn [fold_left].
  apply IH; try assumption. apply cinv_step; assumption.
Qed.

Lemma touched_uses t st m0 s p e b :
  cinv t st m0 s -> nth_error (ctrace s) p = Some e -> touched (ctoks s) e = Some b ->
  exists k b1 o, uses e k /\ nth_error (ctoks s) k = Some (b1, o) /\ inside b b1.
Proof.
  intros I Hp. destruct e as [i k|i k off bs|i k bs|i k j]; cbn [touched]; try discriminate.
  - destruct (ci_off t st m0 s I p i k off bs Hp) as (b1 & o & K1 & K2 & K3). rewrite K1. intros [= <-].
    exists k, b1, o. split; [reflexivity|]. split; [exact K1|]. apply inside_intro; cbn [start size]; lia.
  - destruct (nth_error (ctoks s) k) as [[b1 o]|] eqn:K; [|discriminate]. intros [= <-]. exists k, b1, o.
    split; [reflexivity|]. split; [exact K|]. intros x Hx. exact Hx.
Qed.

Lemma conc_race_free t st m0 s : cinv t st m0 s -> race_free (ctoks s) (ctrace s).
Proof.
  intros I p q e e' Hpq Hp Hq (_ & b & b' & x & T1 & T2 & X1 & X2).
  destruct (touched_uses t st m0 s p e b I Hp T1) as (k & c & o & U & K & N).
  destruct (touched_uses t st m0 s q e' b' I Hq T2) as (k' & c' & o' & U' & K' & N').
  destruct (Nat.eq_dec k k') as [->|Hne].
  - apply (ci_order t st m0 s I p q e e' k' Hpq Hp Hq U U').
  - exfalso. apply (toks_disjoint t st m0 s k k' c c' o o' I Hne K K' x). split; [apply N|apply N']; assumption.
Qed.

(** contents *)
Lemma mideal_snoc A tr A' ev A'' : mideal A tr A' -> mideal A' [ev] A'' -> mideal A (tr ++ [ev]) A''.
Proof. induction 1; intros Hev; cbn [app]; [exact Hev|econstructor 2|econstructor 3|econstructor 4|econstructor 5]; eauto. Qed.

Lemma cstep_ideal t st m0 s a A0 :
  valid_target t -> valid_region t st -> valid_caction t a -> cinv t st m0 s ->
  mideal A0 (ctrace s) (ccontents s) -> mideal A0 (ctrace (cstep t st s a)) (ccontents (cstep t st s a)).
Proof.
  intros Ht Hst Hv I H. destruct a as [a|i k off bs|i k|i k j]; cbn [cstep].
  - destruct (got (cbase s) a) as [[i b]|] eqn:G; [|exact H].
    cbn [ctrace]. apply (mideal_snoc _ _ _ _ _ H). unfold ccontents. cbn [ctoks cmem].
    apply (mideal_got _ _ _ (mem_read (cmem s) (start b) (size b))); [rewrite !map_length; reflexivity|].
    rewrite !map_app. constructor.
  - destruct (may_use s i k) as [b|] eqn:E; [|exact H]. apply may_use_inv in E.
    destruct (Z.leb_spec 0 off) as [L1|L1]; cbn [andb]; [|exact H].
    destruct (Z.leb_spec (off + Z.of_nat (length bs)) (size b)) as [L2|L2]; [|exact H].
    cbn [ctrace]. apply (mideal_snoc _ _ _ _ _ H).
    apply (mideal_store _ _ _ _ _ (mem_read (cmem s) (start b) (size b))).
    + unfold ccontents. rewrite !nth_error_map, E. reflexivity.
    + exact L1.
    + rewrite mem_read_length by lia. exact L2.
    + rewrite <- (read_spliced (cmem s) (start b) (size b) off bs L1 L2). unfold ccontents. cbn [ctoks cmem].
      rewrite <- (map_upd_read (cmem s) (mem_write (cmem s) (start b + off) bs) (map fst (ctoks s)) k b _
                    ltac:(rewrite nth_error_map, E; reflexivity) eq_refl); [constructor|].
      intros j c Hj Hc. apply mem_read_same. intros x Hx. apply (mem_write_outside _ _ _ (Z.of_nat (length bs))); [lia|].
      intros Hin. rewrite nth_error_map in Hc. destruct (nth_error (ctoks s) j) as [[c' o]|] eqn:Ej; [|discriminate].
      injection Hc as <-. cbn [fst] in *. apply (toks_disjoint t st m0 s j k c' b o i I Hj Ej E x). unfold in_block in *. cbn [start size] in *. lia.
  - destruct (may_use s i k) as [b|] eqn:E; [|exact H]. apply may_use_inv in E. cbn [ctrace].
    apply (mideal_snoc _ _ _ _ _ H). apply mideal_load; [|constructor]. unfold ccontents. rewrite !nth_error_map, E. reflexivity.
  - destruct (may_use s i k) as [b|] eqn:E; [|exact H]. apply may_use_inv in E. cbn [ctrace].
    apply (mideal_snoc _ _ _ _ _ H). apply mideal_send. unfold ccontents. cbn [ctoks cmem].
    rewrite (map_upd_same fst (ctoks s) k (b, j) (b, i) E eq_refl). constructor.
Qed.

Lemma crun_ideal t st m0 A0 sched : forall s,
  valid_target t -> valid_region t st -> Forall (valid_caction t) sched -> cinv t st m0 s ->
  mideal A0 (ctrace s) (ccontents s) -> mideal A0 (ctrace (crun t st s sched)) (ccontents (crun t st s sched)).
Proof.
  induction sched as [|a sched IH]; intros s Ht Hst Hv I H; [exact H|]. inversion Hv; subst. unfold crun. cbn [fold_left].
  apply IH; try assumption; [apply cinv_step|eapply cstep_ideal]; eassumption.
Qed.
