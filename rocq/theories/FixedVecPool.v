(** * FixedVecPool: several vectors, refinement of bounded lists *)
From Verif Require Import Base Spec BaseFacts SyncProofs UninitModel UninitSpec UninitProofs
  FixedVecModel FixedVecSpec FixedVecProofs.

Definition reg (v : fvec) : block := region (funinit v).
Definition tail_blk (l : layout) (v : fvec) : block :=
  MkBlock (uptr (funinit v) + flen v * lsize l) (ulen (funinit v) - flen v * lsize l).

(** ** Borrow trees *)
Inductive anc (par : nat -> option nat) (i : nat) : nat -> Prop :=
| anc_par j : par j = Some i -> anc par i j
| anc_step j k : par j = Some k -> anc par i k -> anc par i j.

Definition par (P : list fentry) (j : nat) : option nat :=
  match nth_error P j with Some e => eparent e | None => None end.

Lemma anc_ext p p' i j : (forall k, p k = p' k) -> anc p i j -> anc p' i j.
Proof.
  intros H. induction 1 as [j E|j k E _ IH].
  - apply anc_par. rewrite <- H. exact E.
  - eapply anc_step; [rewrite <- H; exact E|exact IH].
Qed.

Record geo (l : layout) (P : list fentry) : Prop := {
  g_parent : forall j e k, nth_error P j = Some e -> ealive e = true -> eparent e = Some k ->
    exists f, nth_error P k = Some f /\ ealive f = true /\ inside (reg (evec e)) (tail_blk l (evec f));
  g_disj : forall i j e f, i <> j -> nth_error P i = Some e -> nth_error P j = Some f ->
    ealive e = true -> ealive f = true -> ~ anc (par P) i j -> ~ anc (par P) j i -> disjoint (reg (evec e)) (reg (evec f));
  g_down : forall j k, par P j = Some k -> (k < j)%nat
}.

Lemma anc_lt l P i j : geo l P -> anc (par P) i j -> (i < j)%nat.
Proof.
  intros G. induction 1 as [j E|j k E _ IH]; apply (g_down l P G) in E; lia.
Qed.

Definition wf_all (t : target) (l : layout) (P : list fentry) : Prop :=
  forall j e, nth_error P j = Some e -> ealive e = true -> 0 <= flen (evec e) * lsize l <= ulen (funinit (evec e)).

Lemma tail_inside l v : 0 <= flen v * lsize l -> inside (tail_blk l v) (reg v).
Proof. intros H. apply inside_intro; cbn; lia. Qed.

Lemma elems_inside l v : flen v * lsize l <= ulen (funinit v) ->
  inside (MkBlock (uptr (funinit v)) (flen v * lsize l)) (reg v).
Proof. intros H. apply inside_intro; cbn; lia. Qed.

Lemma elems_tail_disjoint l v : disjoint (tail_blk l v) (MkBlock (uptr (funinit v)) (flen v * lsize l)).
Proof. apply disjoint_intro. cbn. lia. Qed.

Lemma inside_trans a b c : inside a b -> inside b c -> inside a c.
Proof. intros H1 H2 x Hx. auto. Qed.

Lemma anc_inside t l P i j e : geo l P -> wf_all t l P ->
  anc (par P) i j -> nth_error P j = Some e -> ealive e = true ->
  exists f, nth_error P i = Some f /\ ealive f = true /\ inside (reg (evec e)) (tail_blk l (evec f)).
Proof.
  intros G W H. revert e. induction H as [j E|j k E _ IH]; intros e He Ha; unfold par in E; rewrite He in E.
  - eapply (g_parent l P G); eassumption.
  - destruct (g_parent l P G j e k He Ha E) as (f & Hf & Hfa & Hin).
    destruct (IH f Hf Hfa) as (f' & Hf' & Hfa' & Hin'). exists f'. split; [exact Hf'|]. split; [exact Hfa'|].
    eapply inside_trans; [exact Hin|]. eapply inside_trans; [|exact Hin']. apply tail_inside. apply (W k f Hf Hfa).
Qed.

Lemma usable_inv P i : usable P i = true ->
  exists e, nth_error P i = Some e /\ ealive e = true /\
    forall j f, nth_error P j = Some f -> ealive f = true -> eparent f <> Some i.
Proof.
  unfold usable. destruct (nth_error P i) as [e|]; [|discriminate]. intros H. apply andb_true_iff in H as [H1 H2].
  exists e. split; [reflexivity|]. split; [exact H1|]. intros j f Hj Ha Hp.
  apply negb_true_iff in H2. assert (existsb (is_child i) P = true); [|congruence].
  apply existsb_exists. exists f. split; [eapply nth_error_In, Hj|]. unfold is_child. rewrite Ha, Hp, Nat.eqb_refl. reflexivity.
Qed.

Lemma usable_no_desc l P i : geo l P -> usable P i = true ->
  forall j f, nth_error P j = Some f -> ealive f = true -> ~ anc (par P) i j.
Proof.
  intros G U j f Hj Ha H. destruct (usable_inv P i U) as (e & _ & _ & Hno). revert f Hj Ha.
  induction H as [j E|j k E _ IH]; intros f Hj Ha; unfold par in E; rewrite Hj in E.
  - apply (Hno j f Hj Ha E).
  - destruct (g_parent l P G j f k Hj Ha E) as (g & Hg & Hga & _). apply (IH g Hg Hga).
Qed.

(** What another living vector has to do with a usable one. *)
Lemma usable_other t l P i e j f : geo l P -> wf_all t l P -> usable P i = true ->
  nth_error P i = Some e -> nth_error P j = Some f -> ealive f = true -> i <> j ->
  disjoint (reg (evec e)) (MkBlock (uptr (funinit (evec f))) (flen (evec f) * lsize l)).
Proof.
  intros G W U He Hf Hfa Hij. destruct (usable_inv P i U) as (e' & He' & Ha & _).
  assert (e' = e) by congruence. subst e'.
  assert (Hdec : anc (par P) j i \/ ~ anc (par P) j i).
  { clear - G. revert j. induction i as [i IH] using lt_wf_ind. intros j. destruct (par P i) as [k|] eqn:E.
    - destruct (Nat.eq_dec k j) as [->|Hkj]; [left; apply anc_par, E|].
      destruct (IH k (g_down l P G i k E) j) as [H|H]; [left; eapply anc_step; eassumption|].
      right. intros H1. inversion H1 as [j1 E1|j1 k1 E1 H2]; subst; congruence.
    - right. intros H1. inversion H1 as [j1 E1|j1 k1 E1 H2]; subst; congruence. }
  destruct Hdec as [Hanc|Hn].
  - destruct (anc_inside t l P j i e G W Hanc He Ha) as (f' & Hf' & _ & Hin).
    assert (f' = f) by congruence. subst f'.
    eapply disjoint_inside; [exact Hin|]. apply elems_tail_disjoint.
  - assert (Hd : disjoint (reg (evec e)) (reg (evec f))).
    { apply (g_disj l P G i j); auto. eapply usable_no_desc; eassumption. }
    apply disjoint_sym. eapply disjoint_inside; [|apply disjoint_sym, Hd]. apply elems_inside. apply (W j f Hf Hfa).
Qed.

(** ** Relation to the lists *)
Definition erel (t : target) (l : layout) (h : eheap) (e : fentry) (x : avec) : Prop :=
  ealive e = aalive x /\ eparent e = aparent x /\
  (ealive e = true -> vec_rep t l h (evec e) (acap x) (aitems x)).

Record rel (t : target) (l : layout) (B : block) (h0 : eheap) (s : fstate) (a : astate) : Prop := {
  r_pool : Forall2 (erel t l (wheap (fw s))) (fpool s) (apool a);
  r_drops : wdrops (fw s) = map Some (adrops a);
  r_geo : geo l (fpool s);
  r_in : forall j e, nth_error (fpool s) j = Some e -> ealive e = true -> inside (reg (evec e)) B;
  r_frame : same_outside B h0 (wheap (fw s))
}.

Lemma Forall2_length {A B} (R : A -> B -> Prop) xs ys : Forall2 R xs ys -> length xs = length ys.
Proof. induction 1; cbn; congruence. Qed.

Lemma Forall2_nth {A B} (R : A -> B -> Prop) xs ys i x : Forall2 R xs ys -> nth_error xs i = Some x ->
  exists y, nth_error ys i = Some y /\ R x y.
Proof.
  intros H. revert i. induction H as [|a b xs ys Hab _ IH]; intros [|i] E; cbn in *; try discriminate.
  - injection E as <-. eauto.
  - apply IH, E.
Qed.

Lemma Forall2_nth_iff {A B} (R : A -> B -> Prop) xs ys : length xs = length ys ->
  (forall i x y, nth_error xs i = Some x -> nth_error ys i = Some y -> R x y) -> Forall2 R xs ys.
Proof.
  revert ys. induction xs as [|x xs IH]; intros [|y ys] Hl H; cbn in *; try discriminate; constructor.
  - apply (H 0%nat); reflexivity.
  - apply IH; [lia|]. intros i. apply (H (S i)).
Qed.

Lemma rel_wf t l B h0 s a : valid_target t -> rel t l B h0 s a -> wf_all t l (fpool s).
Proof.
  intros Ht R j e He Ha. destruct (Forall2_nth _ _ _ _ _ (r_pool _ _ _ _ _ _ R) He) as (x & _ & _ & _ & Hr).
  specialize (Hr Ha). destruct (rep_facts _ _ _ _ _ _ Ht Hr) as (F1 & F2 & F3 & _). destruct Hr as (_ & _ & Hl & _).
  rewrite Hl. pose proof (len_nonneg (aitems x)). nia.
Qed.

Lemma existsb_F2 {A B} (R : A -> B -> Prop) (f : A -> bool) (g : B -> bool) xs ys :
  Forall2 R xs ys -> (forall x y, R x y -> f x = g y) -> existsb f xs = existsb g ys.
Proof. intros H Hfg. induction H as [|x y xs ys Hxy _ IH]; cbn; [reflexivity|]. rewrite IH, (Hfg _ _ Hxy). reflexivity. Qed.

Lemma rel_usable t l B h0 s a i : rel t l B h0 s a -> usable (fpool s) i = ausable (apool a) i.
Proof.
  intros R. pose proof (r_pool _ _ _ _ _ _ R) as F. unfold usable, ausable.
  destruct (nth_error (fpool s) i) as [e|] eqn:E.
  - destruct (Forall2_nth _ _ _ _ _ F E) as (x & -> & H1 & H2 & _). rewrite H1. f_equal. f_equal.
    eapply existsb_F2; [exact F|]. intros e' x' (G1 & G2 & _). unfold is_child, achild. rewrite G1, G2. reflexivity.
  - apply nth_error_None in E. rewrite (Forall2_length _ _ _ F) in E. apply nth_error_None in E. rewrite E. reflexivity.
Qed.

Lemma par_upd P i e v b : nth_error P i = Some e ->
  forall k, par (upd_nth i {| evec := v; ealive := b; eparent := eparent e |} P) k = par P k.
Proof.
  intros He k. unfold par. destruct (Nat.eq_dec i k) as [->|Hn].
  - rewrite (upd_nth_nth_eq _ _ _ _ He), He. reflexivity.
  - rewrite upd_nth_nth_ne by exact Hn. reflexivity.
Qed.

Lemma geo_upd l P i e v b : geo l P -> usable P i = true -> nth_error P i = Some e ->
  (b = true -> inside (reg v) (reg (evec e))) ->
  geo l (upd_nth i {| evec := v; ealive := b; eparent := eparent e |} P).
Proof.
  intros G U He Hin. pose proof (par_upd P i e v b He) as Hpar.
  destruct (usable_inv P i U) as (e' & He' & Ha & Hno). assert (e' = e) by congruence. subst e'.
  set (P' := upd_nth i {| evec := v; ealive := b; eparent := eparent e |} P) in *.
  assert (Hget : forall j g, nth_error P' j = Some g -> ealive g = true ->
      (j = i /\ b = true /\ evec g = v /\ eparent g = eparent e) \/ (j <> i /\ nth_error P j = Some g)).
  { intros j g Hj Hg. destruct (Nat.eq_dec i j) as [->|Hn].
    - unfold P' in Hj. rewrite (upd_nth_nth_eq _ _ _ _ He) in Hj. injection Hj as <-. cbn in *. auto.
    - unfold P' in Hj. rewrite upd_nth_nth_ne in Hj by exact Hn. auto. }
  constructor.
  - intros j g k Hj Hg Hk. destruct (Hget j g Hj Hg) as [(-> & Hb & Hv & Hp)|(Hn & Hj')].
    + rewrite Hp in Hk. destruct (g_parent l P G i e k He Ha Hk) as (f & Hf & Hfa & Hfi).
      assert (k <> i).
      { assert (k < i)%nat; [|lia]. apply (g_down l P G). unfold par. rewrite He. exact Hk. }
      exists f. unfold P'. rewrite upd_nth_nth_ne by congruence. split; [exact Hf|]. split; [exact Hfa|].
      rewrite Hv. eapply inside_trans; [apply Hin, Hb|exact Hfi].
    + destruct (g_parent l P G j g k Hj' Hg Hk) as (f & Hf & Hfa & Hfi).
      assert (k <> i). { intros ->. apply (Hno j g Hj' Hg Hk). }
      exists f. unfold P'. rewrite upd_nth_nth_ne by congruence. auto.
  - intros j k g f Hjk Hj Hk Hg Hf A1 A2.
    assert (B1 : ~ anc (par P) j k) by (intros H; apply A1; eapply anc_ext; [intros; symmetry; apply Hpar|exact H]).
    assert (B2 : ~ anc (par P) k j) by (intros H; apply A2; eapply anc_ext; [intros; symmetry; apply Hpar|exact H]).
    destruct (Hget j g Hj Hg) as [(-> & Hb & Hv & Hp)|(Hn & Hj')], (Hget k f Hk Hf) as [(-> & Hb' & Hv' & Hp')|(Hn' & Hk')];
      try congruence.
    + rewrite Hv. eapply disjoint_inside; [apply Hin, Hb|]. apply (g_disj l P G i k); auto.
    + rewrite Hv'. apply disjoint_sym. eapply disjoint_inside; [apply Hin, Hb'|]. apply disjoint_sym. apply (g_disj l P G j i); auto.
    + apply (g_disj l P G j k); auto.
  - intros j k Hk. rewrite Hpar in Hk. apply (g_down l P G j k Hk).
Qed.

Lemma rel_upd t l B h0 s a i e x w v b cap xs d z :
  valid_target t -> rel t l B h0 s a -> usable (fpool s) i = true ->
  nth_error (fpool s) i = Some e -> nth_error (apool a) i = Some x ->
  same_outside (reg (evec e)) (wheap (fw s)) (wheap w) -> wdrops w = wdrops (fw s) ++ map Some d ->
  (b = true -> vec_rep t l (wheap w) v cap xs /\ inside (reg v) (reg (evec e))) ->
  rel t l B h0 {| fw := w; fpool := upd_nth i {| evec := v; ealive := b; eparent := eparent e |} (fpool s) |}
      (aset a i x cap xs b d z).
Proof.
  intros Ht R U He Hx Hf Hd Hv. pose proof (rel_wf t l B h0 s a Ht R) as W. pose proof R as [F D G I FR].
  destruct (Forall2_nth _ _ _ _ _ F He) as (x' & Hx' & E1 & E2 & E3). assert (x' = x) by congruence. subst x'.
  constructor; cbn [fw fpool apool adrops aset].
  - apply Forall2_nth_iff; [rewrite !upd_nth_length; apply (Forall2_length _ _ _ F)|].
    intros j g y Hj Hy. destruct (Nat.eq_dec i j) as [->|Hn].
    + rewrite (upd_nth_nth_eq _ _ _ _ He) in Hj. rewrite (upd_nth_nth_eq _ _ _ _ Hx) in Hy.
      injection Hj as <-. injection Hy as <-. split; [reflexivity|]. split; [exact E2|]. cbn. intros Hb. apply (Hv Hb).
    + rewrite upd_nth_nth_ne in Hj by exact Hn; rewrite upd_nth_nth_ne in Hy by exact Hn.
      destruct (Forall2_nth _ _ _ _ _ F Hj) as (y' & Hy' & G1 & G2 & G3). assert (y' = y) by congruence. subst y'.
      split; [exact G1|]. split; [exact G2|]. intros Hg. eapply rep_frame; [apply G3, Hg|exact Hf|].
      eapply usable_other; eassumption.
  - rewrite Hd, D, map_app. reflexivity.
  - apply geo_upd; auto. intros Hb. apply (Hv Hb).
  - assert (Ha : ealive e = true) by (destruct (usable_inv _ _ U) as (e' & He' & Ha' & _); congruence).
    intros j g Hj Hg. destruct (Nat.eq_dec i j) as [->|Hn].
    + rewrite (upd_nth_nth_eq _ _ _ _ He) in Hj. injection Hj as <-. cbn in *.
      eapply inside_trans; [apply (Hv Hg)|]. apply (I j e He Ha).
    + rewrite upd_nth_nth_ne in Hj by exact Hn. apply (I j g Hj Hg).
  - assert (Ha : ealive e = true) by (destruct (usable_inv _ _ U) as (e' & He' & Ha' & _); congruence).
    eapply same_outside_trans; [exact FR|]. intros b0 Hb. apply Hf. intros H. apply Hb. apply (I i e He Ha b0 H).
Qed.

(** Adding a vector *)
Lemma par_app P f k : par (P ++ [f]) k = if Nat.eqb k (length P) then eparent f else par P k.
Proof.
  unfold par. destruct (Nat.eqb_spec k (length P)) as [->|Hn].
  - rewrite nth_error_app2 by lia. rewrite Nat.sub_diag. reflexivity.
  - destruct (Nat.lt_ge_cases k (length P)).
    + rewrite nth_error_app1 by assumption. reflexivity.
    + rewrite nth_error_app2 by lia. assert (nth_error P k = None) as -> by (apply nth_error_None; lia).
      destruct (k - length P)%nat as [|m] eqn:E; [lia|]. cbn. destruct m; reflexivity.
Qed.

Lemma anc_app_old l P f i j : geo l P -> (j < length P)%nat -> anc (par P) i j <-> anc (par (P ++ [f])) i j.
Proof.
  intros G Hj. split; intros H; revert Hj.
  - induction H as [j E|j k E _ IH]; intros Hj.
    + apply anc_par. rewrite par_app. destruct (Nat.eqb_spec j (length P)); [lia|exact E].
    + eapply anc_step.
      * rewrite par_app. destruct (Nat.eqb_spec j (length P)); [lia|exact E].
      * apply IH. pose proof (g_down l P G _ _ E). lia.
  - induction H as [j E|j k E _ IH]; intros Hj; rewrite par_app in E; destruct (Nat.eqb_spec j (length P)); try lia.
    + apply anc_par, E.
    + eapply anc_step; [exact E|]. apply IH. pose proof (g_down l P G _ _ E). lia.
Qed.

Lemma rel_add t l B h0 s a f y :
  rel t l B h0 s a -> erel t l (wheap (fw s)) f y -> ealive f = true ->
  (forall k, eparent f = Some k -> exists e, nth_error (fpool s) k = Some e /\ ealive e = true /\
     inside (reg (evec f)) (tail_blk l (evec e))) ->
  inside (reg (evec f)) B ->
  (forall j e, nth_error (fpool s) j = Some e -> ealive e = true -> eparent f <> Some j ->
     (forall k, eparent f = Some k -> ~ anc (par (fpool s)) j k) -> disjoint (reg (evec e)) (reg (evec f))) ->
  rel t l B h0 {| fw := fw s; fpool := fpool s ++ [f] |} (aadd a y).
Proof.
  intros [F D G I FR] Hfy Hfa Hp HinB Hd. set (P := fpool s) in *. set (n := length P).
  assert (Hget : forall j g, nth_error (P ++ [f]) j = Some g -> (j = n /\ g = f) \/ ((j < n)%nat /\ nth_error P j = Some g)).
  { intros j g Hj. destruct (Nat.lt_ge_cases j n).
    - rewrite nth_error_app1 in Hj by assumption. auto.
    - rewrite nth_error_app2 in Hj by assumption. destruct (j - length P)%nat as [|m] eqn:E.
      + injection Hj as <-. left. split; [unfold n in *; lia|reflexivity].
      + cbn in Hj. destruct m; discriminate. }
  constructor; cbn [fw fpool apool adrops aadd]; fold P.
  - apply Forall2_app; [exact F|]. constructor; [exact Hfy|constructor].
  - exact D.
  - constructor.
    + intros j g k Hj Hg Hk. destruct (Hget j g Hj) as [[-> ->]|[Hn Hj']].
      * destruct (Hp k Hk) as (e & He & Hea & Hin). exists e. split; [|auto].
        rewrite nth_error_app1; [exact He|]. apply nth_error_Some. congruence.
      * destruct (g_parent l P G j g k Hj' Hg Hk) as (e & He & Hea & Hin). exists e. split; [|auto].
        rewrite nth_error_app1; [exact He|]. apply nth_error_Some. congruence.
    + assert (K : forall j e, (j < n)%nat -> nth_error P j = Some e -> ealive e = true -> ~ anc (par (P ++ [f])) j n -> disjoint (reg (evec e)) (reg (evec f))).
      { intros j e Hj He Hea Hn. apply (Hd j e He Hea).
        - intros Hpj. apply Hn. apply anc_par. rewrite par_app. unfold n. rewrite Nat.eqb_refl. exact Hpj.
        - intros k Hk Hanc. apply Hn. eapply anc_step; [rewrite par_app; unfold n; rewrite Nat.eqb_refl; exact Hk|].
          apply (anc_app_old l P f j k G); [|exact Hanc]. destruct (Hp k Hk) as (e' & He' & _). apply nth_error_Some. unfold P in *. congruence. }
      intros i j e g Hij Hi Hj Hea Hga A1 A2. destruct (Hget i e Hi) as [[-> ->]|[Hni Hi']], (Hget j g Hj) as [[-> ->]|[Hnj Hj']].
      * congruence.
      * apply disjoint_sym. apply (K j g); auto.
      * apply (K i e); auto.
      * apply (g_disj l P G i j); auto; intros H; [apply A1|apply A2]; apply (anc_app_old l P f _ _ G); auto.
    + intros j k Hk. rewrite par_app in Hk. destruct (Nat.eqb_spec j (length P)) as [->|Hn].
      * destruct (Hp k Hk) as (e & He & _). apply nth_error_Some. unfold P in *. congruence.
      * apply (g_down l P G j k Hk).
  - intros j g Hj Hg. destruct (Hget j g Hj) as [[-> ->]|[_ Hj']]; [exact HinB|apply (I j g Hj' Hg)].
  - exact FR.
Qed.

(** ** One step *)
Lemma upd_nth_id {A} i (x : A) l : nth_error l i = Some x -> upd_nth i x l = l.
Proof. revert i. induction l as [|a l IH]; intros [|i] H; cbn in *; try discriminate; [congruence|]. rewrite IH by exact H. reflexivity. Qed.

Lemma aset_id a i x : nth_error (apool a) i = Some x -> aalive x = true ->
  aset a i x (acap x) (aitems x) true [] [] = a.
Proof.
  intros Hx Ha. unfold aset. rewrite !app_nil_r.
  replace {| acap := acap x; aitems := aitems x; aalive := true; aparent := aparent x |} with x by (destruct x; cbn in *; congruence).
  rewrite upd_nth_id by exact Hx. destruct a; reflexivity.
Qed.

Lemma inside_of_eq u v : funinit u = funinit v -> inside (reg u) (reg v).
Proof. intros H. unfold reg. rewrite H. apply inside_refl. Qed.

Lemma with_heap_drops w h : wdrops (with_heap w h) = wdrops w ++ map Some [].
Proof. cbn. rewrite app_nil_r. reflexivity. Qed.

Lemma extend_list_spec t l b (items : list elem) h v cap xs : valid_target t -> vec_rep t l h v cap xs ->
  (lsize l = 0 -> Forall (fun e => e = 0) items) ->
  exists h' v',
    f_extend (list_next b) t l h v items =
      Ret (match skip (cap - len xs) items with
           | [] => (h', v', [], if b then XPanic else XOk)
           | e :: rest => (h', v', rest, XFull e)
           end) /\
    vec_rep t l h' v' cap (xs ++ take (cap - len xs) items) /\ funinit v' = funinit v /\
    same_outside (reg v) h h'.
Proof.
  intros Ht Hr Hz. unfold f_extend. rewrite (f_fill_unfold _ t l h v items _ _ Ht Hr).
  destruct (fill_list_spec t l b items h v _ _ Ht Hr Hz) as (h' & v' & E & Hr' & Hu & Hf).
  exists h', v'. split; [|auto].
  assert (E' : @fill_loop (list elem) (list_next b) l h v (Z.to_nat (cap - len xs)) items =
     (h', v', @skip elem (cap - len xs) items, b && (@len elem items <? cap - @len elem xs))) by exact E.
  unfold obind. rewrite E'. clear E E'.
  destruct (@skip elem (cap - len xs) items) as [|e rest] eqn:Esk.
  - destruct b; cbn [andb list_next]; [|reflexivity].
    destruct (len items <? cap - len xs); reflexivity.
  - assert ((len items <? cap - len xs) = false) as ->.
    { destruct (Z.ltb_spec (len items) (cap - len xs)); [|reflexivity]. rewrite skip_all in Esk by lia. discriminate. }
    rewrite andb_false_r. reflexivity.
Qed.

Lemma step_rel t l B h0 boom s a o :
  valid_target t -> rel t l B h0 s a -> valid_fop t l o ->
  let '(s', r) := fstep t l boom s o in
  let '(a', r') := astep (lsize l =? 0) (usize_max t) boom a o in
  r = some_answer r' /\ rel t l B h0 s' a'.
Proof.
  intros Ht R [Hel Hop]. unfold fstep, astep. rewrite <- (rel_usable t l B h0 s a _ R).
  destruct (usable (fpool s) (op_index o)) eqn:U; [|split; [reflexivity|exact R]].
  destruct (usable_inv _ _ U) as (e & He & Ha & Hno). rewrite He.
  destruct (Forall2_nth _ _ _ _ _ (r_pool _ _ _ _ _ _ R) He) as (x & Hx & E1 & E2 & E3). rewrite Hx.
  specialize (E3 Ha). assert (Hxa : aalive x = true) by congruence.
  pose proof (aset_id a _ x Hx Hxa) as Hid.
  assert (Rupd : forall w v cap xs d z,
    same_outside (reg (evec e)) (wheap (fw s)) (wheap w) -> wdrops w = wdrops (fw s) ++ map Some d ->
    vec_rep t l (wheap w) v cap xs -> inside (reg v) (reg (evec e)) ->
    rel t l B h0 (put s w (op_index o) e v) (aset a (op_index o) x cap xs true d z)).
  { intros w v cap xs d z H1 H2 H3 H4. unfold put. rewrite Ha. apply rel_upd; auto. }
  assert (Rkill : forall w v d z,
    same_outside (reg (evec e)) (wheap (fw s)) (wheap w) -> wdrops w = wdrops (fw s) ++ map Some d ->
    rel t l B h0 {| fw := w; fpool := upd_nth (op_index o) {| evec := v; ealive := false; eparent := eparent e |} (fpool s) |}
        (aset a (op_index o) x (acap x) [] false d z)).
  { intros w v d z H1 H2. apply rel_upd; auto. discriminate. }
  pose proof (same_outside_refl (reg (evec e)) (wheap (fw s))) as Hsame.
  assert (Hnil : wdrops (fw s) = wdrops (fw s) ++ map Some []) by (cbn; rewrite app_nil_r; reflexivity).
  set (h := wheap (fw s)) in *. set (v := evec e) in *.
  destruct (rep_facts t l h v _ _ Ht E3) as (F1 & F2 & F3 & F4 & F5 & F6 & F7).
  pose proof E3 as (Hw & Hcap & Hlen & Hlc & Hslots & Hz).
  destruct o as [i q|i|i n|i|i items b|i items b|i lo hi fronts forget|i|i n|i n|i|i|i|i k q|i j k]; cbn [op_index fdo ado] in *;
    fold h v.
  - (* push *)
    assert (He0 : lsize l = 0 -> q = 0) by (intros Ez; specialize (Hel Ez); inversion Hel; assumption).
    pose proof (push_spec t l h v _ _ q Ht E3 He0) as Hp. destruct (len (aitems x) <? acap x).
    + destruct Hp as (h' & v' & -> & Hr & Hu & Hf). split; [reflexivity|]. apply Rupd; auto using inside_of_eq, inside_refl.
    + rewrite Hp. split; [reflexivity|]. rewrite <- Hid. apply Rupd; auto using inside_of_eq, inside_refl.
  - (* pop *)
    pose proof (pop_spec t l h v _ _ Ht E3) as Hp. destruct (aitems x) as [|y ys] eqn:Ei.
    + rewrite Hp. split; [reflexivity|]. rewrite <- Hid. rewrite <- Ei in *. apply Rupd; auto using inside_of_eq, inside_refl.
    + destruct Hp as (v' & -> & Hr & Hu). split; [reflexivity|]. apply Rupd; auto using inside_of_eq, inside_refl.
  - (* truncate *)
    pose proof (truncate_spec t boom l (fw s) v _ _ n E3 (proj1 Hop)) as Hp.
    destruct (drop_seq boom (rev (skip n (aitems x)))) as [d p]. destruct Hp as (v' & -> & Hr & Hu).
    split; [destruct p; reflexivity|]. apply Rupd; auto using inside_of_eq, inside_refl.
  - (* clear *)
    pose proof (truncate_spec t boom l (fw s) v _ _ 0 E3 ltac:(lia)) as Hp. rewrite skip_neg in Hp by lia.
    unfold f_clear. destruct (drop_seq boom (rev (aitems x))) as [d p]. destruct Hp as (v' & -> & Hr & Hu).
    split; [destruct p; reflexivity|]. apply Rupd; auto using inside_of_eq, inside_refl.
  - (* fill *)
    rewrite (f_fill_unfold _ t l h v items _ _ Ht E3).
    destruct (fill_list_spec t l b items h v _ _ Ht E3 Hel) as (h' & v' & -> & Hr & Hu & Hf).
    split; [reflexivity|]. apply Rupd; auto using inside_of_eq, inside_refl.
  - (* extend *)
    pose proof (extend_list_spec t l b items h v _ _ Ht E3 Hel) as (h' & v' & Hx' & Hr & Hu & Hf). rewrite Hx'. clear Hx'.
    assert (Hput : forall d z, rel t l B h0 (put s (dropped (with_heap (fw s) h') d) i e v')
        (aset a i x (acap x) (aitems x ++ take (acap x - len (aitems x)) items) true d z)).
    { intros d z. apply Rupd; auto using inside_of_eq, inside_refl. }
    pose proof (Hput [] []) as Hput0. rewrite dropped_nil in Hput0.
    destruct (skip (acap x - len (aitems x)) items) as [|q rest] eqn:Esk.
    + destruct b; (split; [reflexivity|exact Hput0]).
    + pose proof (Hput [q] []) as Hput1.
      replace (dropped (with_heap (fw s) h') [q]) with (log_drop (with_heap (fw s) h') (Some q)) in Hput1 by reflexivity.
      destruct (boom q); (split; [reflexivity|exact Hput1]).
  - (* drain *)
    destruct Hop as [Hlo Hhi].
    destruct (drain_spec t boom l (fw s) v _ _ lo hi fronts Ht E3 Hlo Hhi) as [D1 D2].
    destruct ((range_start lo <=? range_end hi (len (aitems x))) && (range_end hi (len (aitems x)) <=? len (aitems x))) eqn:Eb.
    + apply andb_true_iff in Eb as [B1 B2]. apply Z.leb_le in B1, B2.
      destruct (D2 (conj B1 B2)) as (v1 & d & -> & Hu1 & Hr1 & Hd & Hrest). clear D1 D2. cbv zeta in Hrest.
      destruct (take_ends _ fronts) as [answers rest]. destruct Hrest as (d' & Ec & Hd' & Hrest). unfold h. rewrite Ec.
      destruct forget.
      * split; [reflexivity|]. apply Rupd; auto using inside_of_eq, inside_refl.
      * destruct (drop_seq boom rest) as [dd p]. destruct Hrest as (w' & v' & -> & Hu & Hdr & Hf & Hr).
        destruct p; (split; [reflexivity|]); apply Rupd; auto using inside_of_eq, inside_refl.
    + apply andb_false_iff in Eb. destruct D1 as [m ->].
      { intros [B1 B2]. apply Z.leb_le in B1, B2. destruct Eb; congruence. }
      split; [reflexivity|exact R].
  - (* shrink *)
    destruct (shrink_spec t l h v _ _ Ht E3) as (v' & b & -> & Hr & Hc). split; [reflexivity|]. rewrite <- Hid.
    apply Rupd; auto. apply (cut_pair _ _ _ _ Hc).
  - (* split_borrowed *)
    unfold f_split_borrowed, f_capacity. rewrite <- Hcap. destruct (Z.leb_spec n (acap x)) as [Hle|Hgt]; [|split; [reflexivity|exact R]].
    destruct (split_common t l h v _ _ n Ht E3 Hop Hle) as (ua & ub & -> & Hc & R1 & R2 & R3). cbn [obind snd unwrap].
    split. { cbn. rewrite upd_nth_length. rewrite (Forall2_length _ _ _ (r_pool _ _ _ _ _ _ R)). reflexivity. }
    set (v1 := {| funinit := funinit v; flen := flen v - saturating_sub (flen v) n |}) in *.
    set (v2 := {| funinit := ub; flen := saturating_sub (flen v) n |}) in *.
    assert (Rp : rel t l B h0 (put s (fw s) i e v1) (aset a i x (acap x) (take n (aitems x)) true [] [])).
    { apply Rupd; auto. apply inside_of_eq. reflexivity. }
    destruct (cut_pair _ _ _ _ Hc) as (I1 & I2 & I3).
    apply (rel_add t l B h0 _ _ {| evec := v2; ealive := true; eparent := Some i |}) with (1 := Rp); cbn [ealive eparent evec].
    + split; [reflexivity|]. split; [reflexivity|]. intros _. exact R3.
    + reflexivity.
    + intros k [= <-]. exists {| evec := v1; ealive := ealive e; eparent := eparent e |}. cbn [put fpool].
      split; [apply (upd_nth_nth_eq _ _ _ _ He)|]. split; [exact Ha|]. cbn [evec].
      destruct Hc as (_ & Hb & Hk). change (reg v2) with (region ub). rewrite Hb. apply inside_intro; cbn [start size tail_blk v1 funinit flen].
      * assert (flen v - saturating_sub (flen v) n <= n).
        { unfold saturating_sub. destruct (Z.leb_spec n (flen v)); lia. }
        nia.
      * lia.
    + eapply inside_trans; [exact I2|]. apply (r_in _ _ _ _ _ _ R i e He Ha).
    + intros j g Hj Hg Hne Hnanc. assert (Hij : i <> j) by congruence.
      cbn [put fpool] in Hj. rewrite upd_nth_nth_ne in Hj by exact Hij.
      apply disjoint_sym. eapply disjoint_inside; [exact I2|].
      apply (g_disj l (fpool s) (r_geo _ _ _ _ _ _ R) i j e g); auto.
      * eapply usable_no_desc; eauto. apply (r_geo _ _ _ _ _ _ R).
      * specialize (Hnanc i eq_refl). intros H. apply Hnanc. eapply anc_ext; [|exact H]. intros k. symmetry.
        cbn [put fpool]. apply par_upd. exact He.
  - (* split_and_shrink *)
    unfold f_split_and_shrink, f_capacity. rewrite <- Hcap. destruct (Z.leb_spec n (acap x)) as [Hle|Hgt]; [|split; [reflexivity|exact R]].
    destruct (split_common t l h v _ _ n Ht E3 Hop Hle) as (ua & ub & -> & Hc & R1 & R2 & R3). cbn [obind snd fst unwrap].
    split. { cbn. rewrite upd_nth_length. rewrite (Forall2_length _ _ _ (r_pool _ _ _ _ _ _ R)). reflexivity. }
    set (v1 := {| funinit := ua; flen := flen v - saturating_sub (flen v) n |}) in *.
    set (v2 := {| funinit := ub; flen := saturating_sub (flen v) n |}) in *.
    destruct (cut_pair _ _ _ _ Hc) as (I1 & I2 & I3).
    assert (Rp : rel t l B h0 (put s (fw s) i e v1) (aset a i x (if lsize l =? 0 then usize_max t else n) (take n (aitems x)) true [] [])).
    { apply Rupd; auto. }
    assert (Hother : forall j g, i <> j -> nth_error (fpool s) j = Some g -> ealive g = true -> ~ anc (par (fpool s)) j i ->
       disjoint (reg (evec e)) (reg (evec g))).
    { intros j g Hij Hj Hg Hn. apply (g_disj l (fpool s) (r_geo _ _ _ _ _ _ R) i j e g); auto.
      eapply usable_no_desc; eauto. apply (r_geo _ _ _ _ _ _ R). }
    rewrite <- E2.
    apply (rel_add t l B h0 _ _ {| evec := v2; ealive := true; eparent := eparent e |}) with (1 := Rp); cbn [ealive eparent evec].
    + split; [reflexivity|]. split; [reflexivity|]. intros _. exact R3.
    + reflexivity.
    + intros k Hk. destruct (g_parent l (fpool s) (r_geo _ _ _ _ _ _ R) i e k He Ha Hk) as (f & Hf & Hfa & Hin).
      assert (Hki : i <> k).
      { assert (k < i)%nat; [|lia]. apply (g_down l (fpool s) (r_geo _ _ _ _ _ _ R)). unfold par. rewrite He. exact Hk. }
      exists f. cbn [put fpool]. rewrite upd_nth_nth_ne by exact Hki. split; [exact Hf|]. split; [exact Hfa|].
      eapply inside_trans; [|exact Hin]. exact I2.
    + eapply inside_trans; [exact I2|]. apply (r_in _ _ _ _ _ _ R i e He Ha).
    + intros j g Hj Hg Hne Hnanc. cbn [put fpool] in Hj. destruct (Nat.eq_dec i j) as [<-|Hij].
      * rewrite (upd_nth_nth_eq _ _ _ _ He) in Hj. injection Hj as <-. cbn [evec]. exact I3.
      * rewrite upd_nth_nth_ne in Hj by exact Hij.
        apply disjoint_sym. eapply disjoint_inside; [exact I2|]. apply (Hother j g Hij Hj Hg).
        intros H. inversion H as [j1 E0|j1 k E0 H2]; subst; unfold par in E0; rewrite He in E0; [congruence|].
        apply (Hnanc k E0). eapply anc_ext; [|exact H2]. intros k'. symmetry. cbn [put fpool]. apply par_upd. exact He.
  - (* drop *)
    unfold f_drop. pose proof (holds_rep t l h v _ _ E3) as Hh. unfold holds in Hh. unfold h in Hh. rewrite Hh.
    rewrite drop_slice_spec. destruct (drop_seq boom (aitems x)) as [d [|]].
    + destruct (drop_seq boom (skip (len d) (aitems x))) as [d' [|]]; (split; [reflexivity|]); apply Rkill; auto.
    + split; [reflexivity|]. apply Rkill; auto.
  - (* forget *)
    split; [reflexivity|]. apply Rkill; auto.
  - (* as_slice *)
    split; [|exact R]. cbn. f_equal. apply (holds_rep t l h v _ _ E3).
  - (* replace *)
    assert (He0 : lsize l = 0 -> q = 0) by (intros Ez; specialize (Hel Ez); inversion Hel; assumption).
    pose proof (replace_spec t l h v _ _ k q Ht E3 (proj1 Hop) He0) as Hp. destruct (nth_error (aitems x) (Z.to_nat k)) as [old|].
    + destruct Hp as (h' & -> & Hr & Hf). split; [reflexivity|]. apply Rupd; auto using inside_of_eq, inside_refl.
    + rewrite Hp. split; [reflexivity|exact R].
  - (* swap *)
    pose proof (swap_spec t l h v _ _ j k Ht E3 (proj1 (proj1 Hop)) (proj1 (proj2 Hop))) as Hp.
    destruct (nth_error (aitems x) (Z.to_nat j)) as [y|]; [destruct (nth_error (aitems x) (Z.to_nat k)) as [z|]|].
    + destruct Hp as (h' & -> & Hr & Hf). split; [reflexivity|]. apply Rupd; auto using inside_of_eq, inside_refl.
    + rewrite Hp. split; [reflexivity|exact R].
    + rewrite Hp. split; [reflexivity|exact R].
Qed.

Lemma init_rel t l h u : valid_target t -> wf_view t (TSlice l) u -> rel t l (region u) h (finit h u) (ainit (v_capacity t l u)).
Proof.
  intros Ht Hw. constructor; cbn.
  - constructor; [|constructor]. split; [reflexivity|]. split; [reflexivity|]. intros _. apply new_rep; assumption.
  - reflexivity.
  - constructor.
    + intros [|[|j]] e k H Ha Hk; cbn in *; try discriminate. injection H as <-. discriminate.
    + intros [|[|i]] [|[|j]] e f Hij Hi Hj; cbn in *; try discriminate; congruence.
    + intros [|[|j]] k H; cbn in *; discriminate.
  - intros [|[|j]] e H _; cbn in *; try discriminate. injection H as <-. apply inside_refl.
  - apply same_outside_refl.
Qed.

Lemma run_rel t l B h0 boom os : forall s a,
  valid_target t -> rel t l B h0 s a -> Forall (valid_fop t l) os ->
  let '(s', rs) := frun t l boom s os in
  let '(a', rs') := arun (lsize l =? 0) (usize_max t) boom a os in
  rs = map some_answer rs' /\ rel t l B h0 s' a'.
Proof.
  induction os as [|o os IH]; intros s a Ht R Hv; cbn [frun arun].
  - split; [reflexivity|exact R].
  - apply Forall_cons_iff in Hv as [Hv1 Hv2]. pose proof (step_rel t l B h0 boom s a o Ht R Hv1) as Hs.
    destruct (fstep t l boom s o) as [s1 r]. destruct (astep _ _ boom a o) as [a1 r']. destruct Hs as [-> R1].
    specialize (IH s1 a1 Ht R1 Hv2). destruct (frun t l boom s1 os) as [s2 rs], (arun _ _ boom a1 os) as [a2 rs'].
    destruct IH as [-> R2]. destruct r'; cbn [some_answer]; (split; [reflexivity|]); assumption.
Qed.
