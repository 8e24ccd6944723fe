(** * NestProofs: dropping nested containers runs the client's destructors on the leaves *)
From Verif Require Import Base Spec BaseFacts UninitModel UninitSpec SyncMemModel FixedVecModel FixedVecSpec FixedVecProofs FixedVecMemModel
  MemBumpProofs FixedVecMemProofs ReentModel ReentSpec ReentProofs NestModel NestSpec.

Definition flat {C} (leaf : dtor C) (unw : bool) (ls : list (option Z * bval)) (w : rworld C) (pan : bool) : rworld C * dres :=
  n_parts (fun p u w => invoke leaf u (fst p) (snd p) w) unw ls w pan.

Lemma parts_app {C A} (one : A -> bool -> rworld C -> rworld C * dres) unw l1 l2 : forall w pan,
  n_parts one unw (l1 ++ l2) w pan =
  match n_parts one unw l1 w pan with
  | (w', DOk) => n_parts one unw l2 w' false
  | (w', DPanic) => n_parts one unw l2 w' true
  | (w', DAbort) => (w', DAbort)
  end.
Proof.
  induction l1 as [|x l1 IH]; intros w pan; cbn [n_parts app].
  - destruct pan; reflexivity.
  - destruct (one x (unw || pan) w) as [w' []]; auto.
Qed.

Lemma invoke_unw {C} (leaf : dtor C) p x w : snd (invoke leaf true p x w) <> DPanic.
Proof. unfold invoke. destruct (leaf true p x w) as [w' []]; cbn; discriminate. Qed.
Lemma flat_unw {C} (leaf : dtor C) ls : forall w, snd (flat leaf true ls w false) <> DPanic.
Proof.
  unfold flat. induction ls as [|[p x] ls IH]; intros w; cbn [n_parts fst snd]; [discriminate|]. cbn [orb].
  pose proof (invoke_unw leaf p x w) as N. destruct (invoke leaf true p x w) as [w' []]; cbn in N; try congruence; auto.
Qed.
Lemma flat_pan {C} (leaf : dtor C) unw ls : forall w, flat leaf unw ls w true = let '(w', r) := flat leaf true ls w false in (w', match r with DOk => DPanic | _ => r end).
Proof.
  unfold flat. induction ls as [|[p x] ls IH]; intros w; cbn [n_parts fst snd]; [reflexivity|]. rewrite orb_true_r. cbn [orb].
  pose proof (invoke_unw leaf p x w) as N. destruct (invoke leaf true p x w) as [w' []]; cbn in N; try congruence; auto.
Qed.

(** One thing dropped like the leaves [l1], then the rest like [l2] *)
Lemma step_flat {C} (leaf : dtor C) unw l1 l2 (R R1 : rworld C * dres) (rest : rworld C -> bool -> rworld C * dres) w pan :
  R1 = flat leaf (unw || pan) l1 w false ->
  R = match R1 with
      | (w', DOk) => rest w' pan
      | (w', DPanic) => rest w' true
      | (w', DAbort) => (w', DAbort)
      end ->
  (forall pan', rest (fst R1) pan' = flat leaf unw l2 (fst R1) pan') ->
  R = flat leaf unw (l1 ++ l2) w pan.
Proof.
  intros E1 -> HR. unfold flat at 1. rewrite parts_app. fold (flat leaf unw l1 w pan).
  destruct pan.
  - rewrite orb_true_r in E1. rewrite flat_pan, <- E1. pose proof (flat_unw leaf l1 w) as N. rewrite <- E1 in N. destruct R1 as [w' []]; cbn in *; try congruence; apply HR.
  - rewrite orb_false_r in E1. rewrite <- E1. destruct R1 as [w' []]; cbn in *; try congruence; apply HR.
Qed.

Lemma invoke_false {C} (leaf : dtor C) p x w : invoke leaf false p x w = leaf false p x w.
Proof. unfold invoke. destruct (leaf false p x w) as [w' []]; reflexivity. Qed.
Lemma flat_all {C} (leaf : dtor C) unw ls : forall w, flat leaf unw ls w false = let '(w', k, r) := drop_all leaf unw ls w in (w', r).
Proof.
  assert (U : forall ls w, flat leaf true ls w false = let '(w', k, r) := drop_each leaf true ls w in (w', r)).
  { clear ls. unfold flat. induction ls as [|[p x] ls IH]; intros w; cbn [n_parts fst snd drop_each]; [reflexivity|]. cbn [orb]. unfold invoke.
    destruct (leaf true p x w) as [w' []]; cbn [raise]; try reflexivity. rewrite IH. destruct (drop_each leaf true ls w') as [[w2 k] r]. reflexivity. }
  intros w. destruct unw; [rewrite drop_all_unw; apply U|]. revert w.
  induction ls as [|[p x] ls IH]; intros w; [reflexivity|]. unfold flat, drop_all in *. cbn [n_parts fst snd drop_each orb]. rewrite invoke_false.
  destruct (leaf false p x w) as [w1 []] eqn:E.
  - rewrite IH. pose proof (each_count leaf false ls w1) as CN. destruct (drop_each leaf false ls w1) as [[w2 k2] []]; try reflexivity.
    replace (skip (k2 + 1) ((p, x) :: ls)) with (skip k2 ls).
    2:{ unfold skip. replace (Z.to_nat (k2 + 1)) with (S (Z.to_nat k2)) by lia. reflexivity. }
    destruct (drop_each leaf true (skip k2 ls) w2) as [[w3 k3] []]; reflexivity.
  - change (n_parts (fun p u w => invoke leaf u (fst p) (snd p) w) false ls w1 true) with (flat leaf false ls w1 true). rewrite flat_pan. unfold flat. rewrite U.
    change (skip 1 ((p, x) :: ls)) with ls. destruct (drop_each leaf true ls w1) as [[w2 k2] []]; reflexivity.
  - reflexivity.
Qed.

Scheme owns_mut := Minimality for owns Sort Prop
with owns_parts_mut := Minimality for owns_parts Sort Prop
with owns_elems_mut := Minimality for owns_elems Sort Prop.
Combined Scheme owns_ind3 from owns_mut, owns_parts_mut, owns_elems_mut.

Lemma within_app F G y : within (F ++ G) y <-> within F y \/ within G y.
Proof. unfold within. setoid_rewrite in_app_iff. split; [intros (b & [?|?] & ?)|intros [(b & ? & ?)|(b & ? & ?)]]; eauto. Qed.
Lemma within_cons b F y : within (b :: F) y <-> in_block b y \/ within F y.
Proof. unfold within. cbn. split; [intros (c & [<-|?] & ?); eauto|intros [?|(c & ? & ?)]; eauto]. Qed.
Lemma within_nil y : ~ within [] y.
Proof. intros (b & [] & _). Qed.
Lemma within_incl F G y : incl F G -> within F y -> within G y.
Proof. intros I (b & B & H). exists b. auto. Qed.
Lemma pairwise_app_inv l1 l2 : pairwise disjoint (l1 ++ l2) -> pairwise disjoint l1 /\ pairwise disjoint l2 /\ forall y, within l1 y -> within l2 y -> False.
Proof.
  induction l1 as [|b l1 IH]; cbn [app]; intros H.
  - split; [apply pairwise_nil|]. split; [exact H|]. intros y Y _. exact (within_nil y Y).
  - apply pairwise_cons_inv in H as [Hb H]. destruct (IH H) as (I1 & I2 & I3). apply Forall_app in Hb as [B1 B2].
    split; [apply pairwise_cons; auto; intros a c N x [X1 X2]; exact (N x (conj X2 X1))|]. split; [exact I2|].
    intros y Y1 Y2. apply within_cons in Y1 as [Y1|Y1]; [|eauto]. destruct Y2 as (c & C1 & C2). rewrite Forall_forall in B2. exact (B2 c C1 y (conj Y1 C2)).
Qed.
Lemma pairwise_cons_not b F : pairwise disjoint (b :: F) -> pairwise disjoint F /\ forall y, in_block b y -> within F y -> False.
Proof.
  intros H. apply pairwise_cons_inv in H as [B H]. split; [exact H|]. intros y Y (c & C1 & C2). rewrite Forall_forall in B. exact (B c C1 y (conj Y C2)).
Qed.

Section Drop.
  Variables (C : Type) (t : target) (D : types) (m : mem) (leaf : dtor C) (I : rworld C -> Prop) (F : list block).
  Hypothesis V : valid_target t.
  Hypothesis K : keeps I leaf F.

  Definition own (T : nat) (p : option Z) (y : Z) : Prop := exists a, p = Some a /\ in_block (MkBlock a (lsize (ty_lay D T))) y.
  Definition frame (w w' : rworld C) (S : Z -> Prop) : Prop := I w' /\ forall y, within F y -> ~ S y -> rmem w' y = rmem w y.

  Lemma frame_trans w1 w2 w3 (S1 S2 S : Z -> Prop) : (forall y, S1 y -> S y) -> (forall y, S2 y -> S y) -> frame w1 w2 S1 -> frame w2 w3 S2 -> frame w1 w3 S.
  Proof. intros A B (_ & F1) (I2 & F2). split; [exact I2|]. intros y Y N. rewrite F2, F1; auto. Qed.
  Lemma frame_weaken w1 w2 (S1 S : Z -> Prop) : (forall y, S1 y -> S y) -> frame w1 w2 S1 -> frame w1 w2 S.
  Proof. intros A (I1 & F1). split; [exact I1|]. intros y Y N. apply F1; auto. Qed.

  Lemma invoke_frame u p x w : I w -> frame w (fst (invoke leaf u p x w)) (fun y => exists a, p = Some a /\ in_block (MkBlock a (Z.of_nat (length x))) y).
  Proof.
    intros IW. destruct (K u p x w IW) as (K1 & K2). unfold invoke. destruct (leaf u p x w) as [w' r]. cbn [fst] in *. split; [exact K1|].
    intros y Y N. apply K2; [exact Y|]. intros a P B. apply N. eauto.
  Qed.

  (** frames of the leaves in order *)
  Lemma flat_frame unw ls : forall w pan, I w ->
    frame w (fst (flat leaf unw ls w pan)) (fun y => exists p x a, In (p, x) ls /\ p = Some a /\ in_block (MkBlock a (Z.of_nat (length x))) y).
  Proof.
    unfold flat. induction ls as [|[p x] ls IH]; intros w pan IW; cbn [n_parts fst snd].
    - split; [exact IW|]. auto.
    - pose proof (invoke_frame (unw || pan) p x w IW) as FR. destruct (invoke leaf (unw || pan) p x w) as [w1 r1]. cbn [fst] in FR.
      assert (G : forall pan', frame w (fst (n_parts (fun p u w => invoke leaf u (fst p) (snd p) w) unw ls w1 pan')) (fun y => exists p0 x0 a, In (p0, x0) ((p, x) :: ls) /\ p0 = Some a /\ in_block (MkBlock a (Z.of_nat (length x0))) y)).
      { intros pan'. eapply frame_trans; [| |exact FR|apply IH; apply FR].
        - cbn beta. intros y (a & P & B). exists p, x, a. split; [left; reflexivity|]. auto.
        - cbn beta. intros y (p0 & x0 & a & P & Q & B). exists p0, x0, a. split; [right; exact P|]. auto. }
      destruct r1; auto. cbn [fst]. eapply frame_weaken; [|exact FR]. cbn beta. intros y (a & P & B). exists p, x, a. split; [left; reflexivity|]. auto.
  Qed.

  (** the leaves lie in the value or in what it owns *)
  Definition leaves_in (ls : list (option Z * bval)) (S : Z -> Prop) : Prop :=
    forall p x a y, In (p, x) ls -> p = Some a -> in_block (MkBlock a (Z.of_nat (length x))) y -> S y.

  Lemma leaves_app l1 l2 (S1 S2 S : Z -> Prop) : (forall y, S1 y -> S y) -> (forall y, S2 y -> S y) -> leaves_in l1 S1 -> leaves_in l2 S2 -> leaves_in (l1 ++ l2) S.
  Proof. intros A B L1 L2 p x a y IN P Y. apply in_app_or in IN as [IN|IN]; eauto. Qed.

  Definition slots_of (T : nat) (a : Z) (n : nat) (y : Z) : Prop := a <= y < a + Z.of_nat n * lsize (ty_lay D T).

  Lemma leaves_inside :
    (forall T p x fp ls, owns t D m T p x fp ls -> leaves_in ls (fun y => own T p y \/ within fp y)) /\
    (forall T p ps fp ls, owns_parts t D m T p ps fp ls -> leaves_in ls (fun y => own T p y \/ within fp y)) /\
    (forall T a n fp ls, owns_elems t D m T a n fp ls -> 0 <= lsize (ty_lay D T) -> leaves_in ls (fun y => slots_of T a n y \/ within fp y)).
  Proof.
    apply owns_ind3.
    - auto.
    - intros T p q x a y [].
    - intros T p off y ps fp ls O1 O2 _ IH q x a z [IN|IN] P Z0; [|eauto]. injection IN as <- <-. left. destruct p as [b|]; [|discriminate]. cbn in P. injection P as <-.
      exists b. split; [reflexivity|]. unfold in_block in *. cbn in *. lia.
    - intros T p T' a ps fp1 ls1 fp2 ls2 S0 _ IH1 _ IH2. eapply leaves_app; [| |exact IH1|exact IH2]; cbn beta; intros y [Y|Y].
      + right. apply within_cons. left. destruct Y as (b & [= <-] & Y). exact Y.
      + right. apply within_cons. right. apply within_app. auto.
      + auto.
      + right. apply within_cons. right. apply within_app. auto.
    - intros T p T' v ps fp1 ls1 fp2 ls2 W _ IH1 _ IH2. destruct (vec_facts t _ v V W) as (L0 & F0 & FU & U0 & _).
      eapply leaves_app; [| |exact (IH1 L0)|exact IH2]; cbn beta; intros y [Y|Y].
      + right. apply within_cons. left. unfold slots_of in Y. unfold in_block. cbn. lia.
      + right. apply within_cons. right. apply within_app. auto.
      + auto.
      + right. apply within_cons. right. apply within_app. auto.
    - intros T a _ p x b y [].
    - intros T a n fp1 ls1 fp2 ls2 _ IH1 _ IH2 L0. eapply leaves_app; [| |exact IH1|exact (IH2 L0)]; cbn beta; intros y [Y|Y].
      + left. destruct Y as (b & [= <-] & Y). unfold slots_of. unfold in_block in Y. cbn in Y. nia.
      + right. apply within_app. auto.
      + left. unfold slots_of in *. nia.
      + right. apply within_app. auto.
  Qed.

  Lemma flat_within unw ls (S : Z -> Prop) w pan : I w -> leaves_in ls S -> frame w (fst (flat leaf unw ls w pan)) S.
  Proof. intros IW L. eapply frame_weaken; [|apply flat_frame; exact IW]. cbn beta. intros y (p & x & a & IN & P & B). eauto. Qed.

  Definition drops_like (T : nat) (p : option Z) (x : bval) (fp : list block) (ls : list (option Z * bval)) : Prop :=
    incl fp F -> pairwise disjoint fp -> (forall y, own T p y -> within fp y -> False) ->
    exists n0, forall fuel, (n0 <= fuel)%nat -> forall unw w, I w -> (forall y, within fp y -> rmem w y = m y) ->
      n_drop D leaf fuel T unw p x w = flat leaf unw ls w false.

  Definition glue (f : nat) (at_ : option Z) (p : part) (u : bool) (w : rworld C) : rworld C * dres :=
    match p with
    | PLeaf off y => invoke leaf u (option_map (fun a => a + off) at_) y w
    | PBox T' a => r_box_drop (n_drop D leaf f T') u (ty_lay D T') w a
    | PVec T' v => r_drop (n_drop D leaf f T') u (ty_lay D T') w v
    end.
  Definition parts_like (T : nat) (p : option Z) (ps : list part) (fp : list block) (ls : list (option Z * bval)) : Prop :=
    incl fp F -> pairwise disjoint fp -> (forall y, own T p y -> within fp y -> False) ->
    exists n0, forall fuel, (n0 <= fuel)%nat -> forall unw w pan, I w -> (forall y, within fp y -> rmem w y = m y) ->
      n_parts (glue fuel p) unw ps w pan = flat leaf unw ls w pan.
  Definition elems_like (T : nat) (a : Z) (n : nat) (fp : list block) (ls : list (option Z * bval)) : Prop :=
    0 <= lsize (ty_lay D T) -> (forall y, slots_of T a n y -> within F y) ->
    incl fp F -> pairwise disjoint fp -> (forall y, slots_of T a n y -> within fp y -> False) ->
    exists n0, forall fuel, (n0 <= fuel)%nat -> forall unw w pan, I w ->
      (forall y, slots_of T a n y -> rmem w y = m y) -> (forall y, within fp y -> rmem w y = m y) ->
      r_drop_slice (n_drop D leaf fuel T) unw (ty_lay D T) w a n pan = flat leaf unw ls w pan.

  Lemma invoke_flat T f u p x w ls : n_drop D leaf f T u p x w = flat leaf u ls w false ->
    invoke (n_drop D leaf f T) u p x w = flat leaf u ls w false.
  Proof.
    intros E. unfold invoke. rewrite E. pose proof (flat_unw leaf ls w) as N. destruct u.
    - destruct (flat leaf true ls w false) as [w' []]; cbn in *; congruence.
    - destruct (flat leaf false ls w false) as [w' []]; reflexivity.
  Qed.

  Lemma drops_all :
    (forall T p x fp ls, owns t D m T p x fp ls -> drops_like T p x fp ls) /\
    (forall T p ps fp ls, owns_parts t D m T p ps fp ls -> parts_like T p ps fp ls) /\
    (forall T a n fp ls, owns_elems t D m T a n fp ls -> elems_like T a n fp ls).
  Proof.
    destruct leaves_inside as (LV & LP & LE).
    apply owns_ind3.
    - (* value *)
      intros T p x fp ls _ IH HI HP HO. destruct (IH HI HP HO) as (n0 & H). exists (S n0). intros fuel N unw w IW M.
      destruct fuel as [|f]; [lia|]. cbn [n_drop]. exact (H f ltac:(lia) unw w false IW M).
    - (* no part *)
      intros T p _ _ _. exists 0%nat. intros fuel _ unw w pan IW _. reflexivity.
    - (* leaf *)
      intros T p off y ps fp ls O1 O2 OP IH HI HP HO. destruct (IH HI HP HO) as (n0 & H). exists n0. intros fuel N unw w pan IW M.
      change ((option_map (fun a => a + off) p, y) :: ls) with ([(option_map (fun a => a + off) p, y)] ++ ls).
      cbn [n_parts glue]. pose proof (invoke_frame (unw || pan) (option_map (fun a => a + off) p) y w IW) as FR.
      eapply (step_flat leaf unw [(option_map (fun a => a + off) p, y)] ls _ (invoke leaf (unw || pan) (option_map (fun a => a + off) p) y w) (fun w pan => n_parts (glue fuel p) unw ps w pan)).
      + unfold flat. cbn [n_parts fst snd]. rewrite orb_false_r. pose proof (invoke_unw leaf (option_map (fun a => a + off) p) y w).
        destruct (unw || pan); destruct (invoke leaf _ _ y w) as [w1 []]; cbn in *; congruence.
      + reflexivity.
      + cbn beta. intros pan'. apply H; [exact N|apply FR|]. intros z Z0. rewrite (proj2 FR); [apply M, Z0|apply (within_incl fp); auto|].
        intros (a & P & B). apply (HO z); [|exact Z0]. destruct p as [b|]; [|discriminate]. cbn in P. injection P as <-. exists b. split; [reflexivity|].
        unfold in_block in *. cbn in *. lia.
    - (* box *)
      intros T p T' a ps fp1 ls1 fp2 ls2 S0 OV IH1 OP IH2 HI HP HO.
      apply pairwise_cons_not in HP as [HP HB]. apply pairwise_app_inv in HP as (HP1 & HP2 & HP12).
      assert (I1 : incl fp1 F) by (intros b B; apply HI; right; apply in_or_app; auto).
      assert (I2 : incl fp2 F) by (intros b B; apply HI; right; apply in_or_app; auto).
      destruct (IH1 I1 HP1) as (n1 & H1).
      { intros y (b & [= <-] & Y) Y2. apply (HB y); [exact Y|]. apply within_app. auto. }
      destruct (IH2 I2 HP2) as (n2 & H2).
      { intros y Y Y2. apply (HO y Y). apply within_cons. right. apply within_app. auto. }
      exists (Nat.max n1 n2). intros fuel N unw w pan IW M. cbn [n_parts glue].
      assert (MB : b_read (ty_lay D T') (rmem w) a = b_read (ty_lay D T') m a).
      { apply read_ext. intros y Y. apply M. apply within_cons. left. unfold in_block. cbn. lia. }
      assert (E1 : r_box_drop (n_drop D leaf fuel T') (unw || pan) (ty_lay D T') w a = flat leaf (unw || pan) ls1 w false).
      { unfold r_box_drop, drop_in_place. rewrite MB. apply invoke_flat. apply H1; [lia|exact IW|]. intros y Y. apply M. apply within_cons. right. apply within_app. auto. }
      eapply (step_flat leaf unw ls1 ls2 _ _ (fun w pan => n_parts (glue fuel p) unw ps w pan)); [exact E1|reflexivity|].
      cbn beta. intros pan'. rewrite E1. pose proof (flat_within (unw || pan) ls1 _ w false IW (LV _ _ _ _ _ OV)) as FR.
      apply H2; [lia|apply FR|]. intros y Y. rewrite (proj2 FR); [apply M; apply within_cons; right; apply within_app; auto|apply (within_incl fp2); auto|].
      intros [(b & [= <-] & B)|B]; [apply (HB y B); apply within_app; auto|exact (HP12 y B Y)].
    - (* vector *)
      intros T p T' v ps fp1 ls1 fp2 ls2 W OE IH1 OP IH2 HI HP HO. destruct (vec_facts t _ v V W) as (L0 & F0 & FU & U0 & _).
      apply pairwise_cons_not in HP as [HP HB]. apply pairwise_app_inv in HP as (HP1 & HP2 & HP12).
      assert (I1 : incl fp1 F) by (intros b B; apply HI; right; apply in_or_app; auto).
      assert (I2 : incl fp2 F) by (intros b B; apply HI; right; apply in_or_app; auto).
      assert (SI : forall y, slots_of T' (uptr (funinit v)) (Z.to_nat (flen v)) y -> in_block (region (funinit v)) y).
      { intros y Y. unfold slots_of in Y. unfold in_block. cbn. lia. }
      destruct (IH1 L0) as (n1 & H1); auto.
      { intros y Y. exists (region (funinit v)). split; [apply HI; left; reflexivity|auto]. }
      { intros y Y Y2. apply (HB y); [auto|]. apply within_app. auto. }
      destruct (IH2 I2 HP2) as (n2 & H2).
      { intros y Y Y2. apply (HO y Y). apply within_cons. right. apply within_app. auto. }
      exists (Nat.max n1 n2). intros fuel N unw w pan IW M. cbn [n_parts glue].
      assert (E1 : r_drop (n_drop D leaf fuel T') (unw || pan) (ty_lay D T') w v = flat leaf (unw || pan) ls1 w false).
      { unfold r_drop. replace (slot (ty_lay D T') v 0) with (uptr (funinit v)) by (unfold slot; lia). apply H1; [lia|exact IW| |].
        - intros y Y. apply M. apply within_cons. auto.
        - intros y Y. apply M. apply within_cons. right. apply within_app. auto. }
      eapply (step_flat leaf unw ls1 ls2 _ _ (fun w pan => n_parts (glue fuel p) unw ps w pan)); [exact E1|reflexivity|].
      cbn beta. intros pan'. rewrite E1. pose proof (flat_within (unw || pan) ls1 _ w false IW (LE _ _ _ _ _ OE L0)) as FR.
      apply H2; [lia|apply FR|]. intros y Y. rewrite (proj2 FR); [apply M; apply within_cons; right; apply within_app; auto|apply (within_incl fp2); auto|].
      intros [B|B]; [apply (HB y (SI y B)); apply within_app; auto|exact (HP12 y B Y)].
    - (* no element *)
      intros T a _ _ _ _ _. exists 0%nat. intros fuel _ unw w pan IW _ _. reflexivity.
    - (* element *)
      intros T a n fp1 ls1 fp2 ls2 OV IH1 OE IH2 L0 HS HI HP HO.
      apply pairwise_app_inv in HP as (HP1 & HP2 & HP12).
      assert (I1 : incl fp1 F) by (intros b B; apply HI; apply in_or_app; auto).
      assert (I2 : incl fp2 F) by (intros b B; apply HI; apply in_or_app; auto).
      assert (OS : forall y, own T (Some a) y -> slots_of T a (S n) y).
      { intros y (b & [= <-] & Y). unfold slots_of. unfold in_block in Y. cbn in Y. nia. }
      assert (SS : forall y, slots_of T (a + lsize (ty_lay D T)) n y -> slots_of T a (S n) y) by (intros y Y; unfold slots_of in *; nia).
      destruct (IH1 I1 HP1) as (n1 & H1).
      { intros y Y Y2. apply (HO y (OS y Y)). apply within_app. auto. }
      destruct (IH2 L0) as (n2 & H2); auto.
      { intros y Y Y2. apply (HO y (SS y Y)). apply within_app. auto. }
      exists (Nat.max n1 n2). intros fuel N unw w pan IW MS M. cbn [r_drop_slice].
      assert (MB : b_read (ty_lay D T) (rmem w) a = b_read (ty_lay D T) m a).
      { apply read_ext. intros y Y. apply MS, OS. exists a. split; [reflexivity|]. unfold in_block. cbn. lia. }
      assert (E1 : drop_in_place (n_drop D leaf fuel T) (unw || pan) (ty_lay D T) a w = flat leaf (unw || pan) ls1 w false).
      { unfold drop_in_place. rewrite MB. apply invoke_flat. apply H1; [lia|exact IW|]. intros y Y. apply M. apply within_app. auto. }
      eapply (step_flat leaf unw ls1 ls2 _ _ (fun w pan => r_drop_slice (n_drop D leaf fuel T) unw (ty_lay D T) w (a + lsize (ty_lay D T)) n pan)); [exact E1|reflexivity|].
      cbn beta. intros pan'. rewrite E1. pose proof (flat_within (unw || pan) ls1 _ w false IW (LV _ _ _ _ _ OV)) as FR.
      apply H2; [lia|apply FR| |]; intros y Y.
      + rewrite (proj2 FR); [apply MS; auto|apply HS; auto|]. intros [(b & [= <-] & B)|B].
        * unfold slots_of in Y. unfold in_block in B. cbn in B. lia.
        * apply (HO y (SS y Y)). apply within_app. auto.
      + rewrite (proj2 FR); [apply M; apply within_app; auto|apply (within_incl fp2); auto|].
        intros [B|B]; [apply (HO y (OS y B)); apply within_app; auto|exact (HP12 y B Y)].
  Qed.
End Drop.

(** What is owned depends on the owned memory alone. *)
Lemma owns_ext t D m m' : valid_target t ->
  (forall T p x fp ls, owns t D m T p x fp ls -> (forall y, within fp y -> m' y = m y) -> owns t D m' T p x fp ls) /\
  (forall T p ps fp ls, owns_parts t D m T p ps fp ls -> (forall y, within fp y -> m' y = m y) -> owns_parts t D m' T p ps fp ls) /\
  (forall T a n fp ls, owns_elems t D m T a n fp ls -> 0 <= lsize (ty_lay D T) ->
     (forall y, slots_of D T a n y -> m' y = m y) -> (forall y, within fp y -> m' y = m y) -> owns_elems t D m' T a n fp ls).
Proof.
  intros V. apply owns_ind3.
  - intros T p x fp ls _ IH E. constructor. auto.
  - intros. constructor.
  - intros T p off y ps fp ls O1 O2 _ IH E. constructor; auto.
  - intros T p T' a ps fp1 ls1 fp2 ls2 S0 _ IH1 _ IH2 E. constructor; auto.
    + replace (b_read (ty_lay D T') m' a) with (b_read (ty_lay D T') m a).
      * apply IH1. intros y Y. apply E. apply within_cons. right. apply within_app. auto.
      * symmetry. apply read_ext. intros y Y. apply E. apply within_cons. left. unfold in_block. cbn. lia.
    + apply IH2. intros y Y. apply E. apply within_cons. right. apply within_app. auto.
  - intros T p T' v ps fp1 ls1 fp2 ls2 W _ IH1 _ IH2 E. destruct (vec_facts t _ v V W) as (L0 & F0 & FU & U0 & _). constructor; auto.
    + apply IH1; auto; intros y Y; apply E; apply within_cons.
      * left. unfold slots_of in Y. unfold in_block. cbn. lia.
      * right. apply within_app. auto.
    + apply IH2. intros y Y. apply E. apply within_cons. right. apply within_app. auto.
  - intros. constructor.
  - intros T a n fp1 ls1 fp2 ls2 _ IH1 _ IH2 L0 ES E. constructor.
    + replace (b_read (ty_lay D T) m' a) with (b_read (ty_lay D T) m a).
      * apply IH1. intros y Y. apply E. apply within_app. auto.
      * symmetry. apply read_ext. intros y Y. apply ES. unfold slots_of. nia.
    + apply IH2; auto.
      * intros y Y. apply ES. unfold slots_of in *. nia.
      * intros y Y. apply E. apply within_app. auto.
Qed.

Lemma groups_app t D m T v g1 g2 : flen v = len (g1 ++ g2) -> elems_own t D m T v (g1 ++ g2) ->
  elems_own t D m T {| funinit := funinit v; flen := len g1 |} g1.
Proof.
  intros FL (E1 & E2). split; [reflexivity|]. intros i g N. cbn [funinit]. apply E2. rewrite nth_error_app1; [exact N|]. apply nth_error_Some. congruence.
Qed.

Lemma drops_alone {C} t D m (leaf : dtor C) I T p x fp ls F :
  valid_target t -> keeps I leaf F -> owns t D m T p x fp ls -> incl fp F -> pairwise disjoint fp -> (forall y, own D T p y -> within fp y -> False) ->
  exists n0, forall fuel, (n0 <= fuel)%nat -> forall unw w, I w -> (forall y, within fp y -> rmem w y = m y) ->
    n_drop D leaf fuel T unw p x w = flat leaf unw ls w false.
Proof. intros V K O. apply (drops_all C t D m leaf I F V K). exact O. Qed.

Section Trunc.
  Variables (C : Type) (t : target) (D : types) (m : mem) (leaf : dtor C) (I : rworld C -> Prop) (F : list block) (T : nat) (base : Z).
  Hypothesis V : valid_target t.
  Hypothesis K : keeps I leaf F.
  Hypothesis L0 : 0 <= lsize (ty_lay D T).
  Notation l := (ty_lay D T).
  Notation at_ i := (base + Z.of_nat i * lsize l).
  Notation group := (list block * list (option Z * bval))%type.

  Definition gowns (gs : list group) : Prop := forall i g, nth_error gs i = Some g -> owns t D m T (Some (at_ i)) (b_read l m (at_ i)) (fst g) (snd g).
  Definition gfp (gs : list group) : list block := concat (map fst gs).

  Lemma gfp_in gs i g y : nth_error gs i = Some g -> within (fst g) y -> within (gfp gs) y.
  Proof. intros N (b & B & Y). exists b. split; [|exact Y]. apply in_concat. exists (fst g). split; [|exact B]. apply in_map, (nth_error_In gs i N). Qed.

  Lemma gfp_app g1 g2 : gfp (g1 ++ g2) = gfp g1 ++ gfp g2.
  Proof. unfold gfp. rewrite map_app, concat_app. reflexivity. Qed.

  (** enough fuel for all *)
  Lemma enough_all gs : gowns gs -> incl (gfp gs) F -> pairwise disjoint (gfp gs) ->
    (forall y, base <= y < at_ (length gs) -> within (gfp gs) y -> False) ->
    exists n0, forall fuel, (n0 <= fuel)%nat -> forall i g, nth_error gs i = Some g -> forall unw w, I w -> (forall y, within (fst g) y -> rmem w y = m y) ->
      n_drop D leaf fuel T unw (Some (at_ i)) (b_read l m (at_ i)) w = flat leaf unw (snd g) w false.
  Proof.
    induction gs as [|g gs IH] using rev_ind; intros G HI HP HO.
    - exists 0%nat. intros fuel _ i g N. destruct i; discriminate.
    - rewrite gfp_app in *. apply pairwise_app_inv in HP as (P1 & P2 & P12).
      assert (E1 : gfp [g] = fst g) by (unfold gfp; cbn; apply app_nil_r). rewrite E1 in *.
      destruct IH as (n1 & H1); auto.
      { intros i g0 N. apply G. rewrite nth_error_app1; [exact N|]. apply nth_error_Some. congruence. }
      { intros b B. apply HI, in_or_app. auto. }
      { intros y Y Y2. apply (HO y); [|apply within_app; auto]. rewrite app_length. cbn [length]. nia. }
      pose proof (G (length gs) g ltac:(rewrite nth_error_app2, Nat.sub_diag by lia; reflexivity)) as O.
      destruct (drops_alone t D m leaf I T _ _ _ _ F V K O) as (n2 & H2); auto.
      { intros b B. apply HI, in_or_app. auto. }
      { intros y (b & [= <-] & Y) Y2. apply (HO y); [|apply within_app; auto]. rewrite app_length. cbn [length]. unfold in_block in Y. cbn in Y. nia. }
      exists (Nat.max n1 n2). intros fuel N i g0 Ni. destruct (Nat.lt_ge_cases i (length gs)) as [Q|Q].
      + rewrite nth_error_app1 in Ni by exact Q. apply H1; [lia|exact Ni].
      + rewrite nth_error_app2 in Ni by exact Q. assert (i = length gs) by (destruct (i - length gs)%nat as [|q] eqn:QQ; [lia|destruct q; discriminate]). subst i.
        rewrite Nat.sub_diag in Ni. injection Ni as <-. apply H2. lia.
  Qed.

  Lemma n_trunc_loop fuel unw ks ds : gowns (ks ++ ds) -> incl (gfp (ks ++ ds)) F -> pairwise disjoint (gfp (ks ++ ds)) ->
    (forall y, base <= y < at_ (length (ks ++ ds)) -> within (gfp (ks ++ ds)) y -> False) ->
    (forall y, base <= y < at_ (length (ks ++ ds)) -> within F y) ->
    (forall i g, nth_error (ks ++ ds) i = Some g -> forall unw w, I w -> (forall y, within (fst g) y -> rmem w y = m y) ->
      n_drop D leaf fuel T unw (Some (at_ i)) (b_read l m (at_ i)) w = flat leaf unw (snd g) w false) ->
    forall w, I w -> (forall y, base <= y < at_ (length (ks ++ ds)) -> rmem w y = m y) -> (forall y, within (gfp (ks ++ ds)) y -> rmem w y = m y) ->
    exists w' k r kept, drop_groups leaf unw (rev (map snd ds)) w = (w', k, r) /\
      r_truncate_loop (n_drop D leaf fuel T) unw l w (length ds) (at_ (length (ks ++ ds))) (len (ks ++ ds)) = (w', len (ks ++ ds) - k, r) /\
      kept = take (len (ks ++ ds) - k) (ks ++ ds) /\ 0 <= k <= len ds /\ (r = DOk -> k = len ds) /\ I w' /\
      (forall y, base <= y < at_ (length kept) -> rmem w' y = m y) /\ (forall y, within (gfp kept) y -> rmem w' y = m y).
  Proof.
    induction ds as [|g ds IH] using rev_ind; intros G HI HP HO HS HD w IW MS M.
    - exists w, 0, DOk, (ks ++ []). cbn [rev map drop_groups length r_truncate_loop]. rewrite Z.sub_0_r. split; [reflexivity|]. split; [reflexivity|].
      split; [symmetry; apply take_all; lia|]. unfold len. cbn. auto 8 with zarith.
    - rewrite app_assoc in *. set (all := ks ++ ds) in *.
      rewrite map_app, rev_app_distr. cbn [map rev app drop_groups]. rewrite app_length. cbn [length].
      replace (length ds + 1)%nat with (S (length ds)) by lia. cbn [r_truncate_loop].
      assert (LA : length (all ++ [g]) = S (length all)) by (rewrite app_length; cbn; lia).
      assert (LZ : len (all ++ [g]) = len all + 1) by (unfold len; lia). rewrite LA, LZ in *.
      replace (at_ (S (length all)) - lsize l) with (at_ (length all)) by nia.
      replace (len all + 1 - 1) with (Z.of_nat (length all)) by (unfold len; lia).
      pose proof (HD (length all) g ltac:(rewrite nth_error_app2, Nat.sub_diag by lia; reflexivity)) as Hg.
      pose proof (G (length all) g ltac:(rewrite nth_error_app2, Nat.sub_diag by lia; reflexivity)) as Og.
      rewrite gfp_app in HI, HP, HO, M. assert (E1 : gfp [g] = fst g) by (unfold gfp; cbn; apply app_nil_r). rewrite E1 in *.
      apply pairwise_app_inv in HP as (P1 & P2 & P12).
      assert (MB : b_read l (rmem w) (at_ (length all)) = b_read l m (at_ (length all))) by (apply read_ext; intros y Y; apply MS; nia).
      assert (ED : drop_in_place (n_drop D leaf fuel T) unw l (at_ (length all)) w = flat leaf unw (snd g) w false).
      { unfold drop_in_place. rewrite MB. apply (invoke_flat C D leaf T fuel). apply Hg; [exact IW|]. intros y Y. apply M, within_app. auto. }
      rewrite ED, flat_all.
      destruct (leaves_inside t D m V) as (LV & _ & _).
      pose proof (flat_within C leaf I F K unw (snd g) _ w false IW (LV _ _ _ _ _ Og)) as FR. rewrite flat_all in FR.
      assert (BACK : forall kept, (exists q, all = kept ++ q) -> forall w1, frame C I F w w1 (fun y => own D T (Some (at_ (length all))) y \/ within (fst g) y) ->
        (forall y, base <= y < at_ (length kept) -> rmem w1 y = m y) /\ (forall y, within (gfp kept) y -> rmem w1 y = m y)).
      { intros kept (q & Eq) w1 (_ & FR1).
        assert (LQ : (length kept <= length all)%nat) by (rewrite Eq, app_length; lia).
        assert (AL : at_ (length kept) <= at_ (length all)) by nia.
        split; intros y Y.
        - rewrite FR1; [apply MS; nia|apply HS; nia|]. intros [(b & [= <-] & B)|B]; [unfold in_block in B; cbn in B; lia|].
          apply (HO y); [nia|apply within_app; auto].
        - assert (YA : within (gfp all) y) by (rewrite Eq, gfp_app; apply within_app; auto).
          rewrite FR1; [apply M, within_app; auto|apply (within_incl (gfp all)); auto; intros b B; apply HI, in_or_app; auto|].
          intros [(b & [= <-] & B)|B]; [apply (HO y); [unfold in_block in B; cbn in B; nia|apply within_app; auto]|exact (P12 y YA B)]. }
      assert (BALL : forall w1, frame C I F w w1 (fun y => own D T (Some (at_ (length all))) y \/ within (fst g) y) ->
        (forall y, base <= y < at_ (length all) -> rmem w1 y = m y) /\ (forall y, within (gfp all) y -> rmem w1 y = m y)).
      { apply BACK. exists []. rewrite app_nil_r. reflexivity. }
      destruct (drop_all leaf unw (snd g) w) as [[w1 kk] r1] eqn:E2. cbn [fst] in FR. destruct r1.
      + destruct (BALL w1 FR) as (B1 & B2).
        destruct IH with (w := w1) as (w' & k & r & kept & J1 & J2 & J3 & J4 & J5 & J6 & J7 & J8); auto.
        * intros i g0 N. apply G. rewrite nth_error_app1; [exact N|]. apply nth_error_Some. congruence.
        * intros b B. apply HI, in_or_app. auto.
        * intros y Y Y2. apply (HO y); [nia|apply within_app; auto].
        * intros y Y. apply HS. nia.
        * intros i g0 N. apply HD. rewrite nth_error_app1; [exact N|]. apply nth_error_Some. congruence.
        * apply FR.
        * rewrite J1. change (Z.of_nat (length all)) with (len all) in *. rewrite J2. exists w', (k + 1), r, kept. split; [reflexivity|]. split; [f_equal; f_equal; lia|].
          split. { rewrite J3. replace (len all + 1 - (k + 1)) with (len all - k) by lia. unfold take. rewrite firstn_app. unfold len.
                   replace (Z.to_nat (Z.of_nat (length all) - k) - length all)%nat with 0%nat by lia. rewrite firstn_O, app_nil_r. reflexivity. }
          assert (LD : len (ds ++ [g]) = len ds + 1) by (unfold len; rewrite app_length; cbn; lia). rewrite LD. split; [lia|]. split; [intros Q; specialize (J5 Q); lia|]. auto.
      + exists w1, 1, DPanic, all. change (Z.of_nat (length all)) with (len all). split; [reflexivity|]. split; [f_equal; f_equal; lia|].
        assert (LD : len (ds ++ [g]) = len ds + 1) by (unfold len; rewrite app_length; cbn; lia). pose proof (len_nonneg ds).
        split. { replace (len all + 1 - 1) with (len all) by lia. unfold take, len. rewrite Nat2Z.id, firstn_app, Nat.sub_diag, firstn_all, firstn_O, app_nil_r. reflexivity. }
        rewrite LD. split; [lia|]. split; [discriminate|]. split; [apply FR|]. exact (BALL w1 FR).
      + exists w1, 1, DAbort, all. change (Z.of_nat (length all)) with (len all). split; [reflexivity|]. split; [f_equal; f_equal; lia|].
        assert (LD : len (ds ++ [g]) = len ds + 1) by (unfold len; rewrite app_length; cbn; lia). pose proof (len_nonneg ds).
        split. { replace (len all + 1 - 1) with (len all) by lia. unfold take, len. rewrite Nat2Z.id, firstn_app, Nat.sub_diag, firstn_all, firstn_O, app_nil_r. reflexivity. }
        rewrite LD. split; [lia|]. split; [discriminate|]. split; [apply FR|]. exact (BALL w1 FR).
  Qed.
End Trunc.

Lemma separate_own D T p fp : separate D T p fp -> pairwise disjoint fp /\ forall y, own D T p y -> within fp y -> False.
Proof.
  intros S0. apply pairwise_app_inv in S0 as (_ & P2 & P12). split; [exact P2|]. intros y (a & -> & Y). apply P12. exists (MkBlock a (lsize (ty_lay D T))).
  split; [left; reflexivity|exact Y].
Qed.

Lemma nest_drop {C} t D (leaf : dtor C) I T p x fp ls w :
  valid_target t -> owns t D (rmem w) T p x fp ls -> separate D T p fp -> keeps I leaf fp -> I w ->
  exists n0, forall fuel, (n0 <= fuel)%nat -> forall unw, exists w' k r,
    n_drop D leaf fuel T unw p x w = (w', r) /\ drop_all leaf unw ls w = (w', k, r) /\ (r <> DAbort -> k = len ls).
Proof.
  intros V O S0 K IW. destruct (separate_own _ _ _ _ S0) as (HP & HO).
  destruct (drops_alone t D (rmem w) leaf I T p x fp ls fp V K O (incl_refl _) HP HO) as (n0 & H).
  exists n0. intros fuel N unw. rewrite (H fuel N unw w IW ltac:(reflexivity)), flat_all. pose proof (all_count leaf unw ls w) as CN.
  destruct (drop_all leaf unw ls w) as [[w' k] r]. exists w', k, r. split; [reflexivity|]. split; [reflexivity|]. apply CN.
Qed.

Lemma nest_vec_drop {C} t D (leaf : dtor C) I T v fp ls w :
  valid_target t -> vec_wf t (ty_lay D T) v -> owns_elems t D (rmem w) T (uptr (funinit v)) (Z.to_nat (flen v)) fp ls ->
  pairwise disjoint (region (funinit v) :: fp) -> keeps I leaf (region (funinit v) :: fp) -> I w ->
  exists n0, forall fuel, (n0 <= fuel)%nat -> forall unw, exists w' k r,
    r_drop (n_drop D leaf fuel T) unw (ty_lay D T) w v = (w', r) /\ drop_all leaf unw ls w = (w', k, r) /\ (r <> DAbort -> k = len ls).
Proof.
  intros V W O P K IW. destruct (vec_facts t _ v V W) as (L0 & F0 & FU & U0 & _). destruct (pairwise_cons_not _ _ P) as (P1 & P2).
  assert (SI : forall y, slots_of D T (uptr (funinit v)) (Z.to_nat (flen v)) y -> in_block (region (funinit v)) y).
  { intros y Y. unfold slots_of in Y. unfold in_block. cbn. lia. }
  destruct (drops_all C t D (rmem w) leaf I _ V K) as (_ & _ & H). destruct (H _ _ _ _ _ O L0) as (n0 & H0).
  - intros y Y. apply within_cons. auto.
  - intros b B. right. exact B.
  - exact P1.
  - intros y Y. apply P2; auto.
  - exists n0. intros fuel N unw. unfold r_drop. replace (slot (ty_lay D T) v 0) with (uptr (funinit v)) by (unfold slot; lia).
    rewrite (H0 fuel N unw w false IW ltac:(reflexivity) ltac:(reflexivity)), flat_all. pose proof (all_count leaf unw ls w) as CN.
    destruct (drop_all leaf unw ls w) as [[w' k] r]. exists w', k, r. split; [reflexivity|]. split; [reflexivity|]. apply CN.
Qed.

(** Moving a value *)
Lemma move_parts t D m T p ps fp ls : owns_parts t D m T p ps fp ls -> forall p', exists ls', owns_parts t D m T p' ps fp ls' /\ map snd ls' = map snd ls.
Proof.
  revert T p ps fp ls.
  assert (H : (forall T p x fp ls, owns t D m T p x fp ls -> forall p', exists ls', owns t D m T p' x fp ls' /\ map snd ls' = map snd ls) /\
    (forall T p ps fp ls, owns_parts t D m T p ps fp ls -> forall p', exists ls', owns_parts t D m T p' ps fp ls' /\ map snd ls' = map snd ls) /\
    (forall T a n fp ls, owns_elems t D m T a n fp ls -> True)).
  { apply owns_ind3; auto.
    - intros T p x fp ls _ IH p'. destruct (IH p') as (ls' & E & M). exists ls'. split; [constructor; exact E|exact M].
    - intros T p p'. exists []. split; [constructor|reflexivity].
    - intros T p off y ps fp ls O1 O2 _ IH p'. destruct (IH p') as (ls' & E & M). eexists. split; [constructor; eauto|]. cbn. f_equal. exact M.
    - intros T p T' a ps fp1 ls1 fp2 ls2 S0 O1 _ _ IH2 p'. destruct (IH2 p') as (ls' & E & M). exists (ls1 ++ ls'). split; [constructor; auto|]. rewrite !map_app. f_equal. exact M.
    - intros T p T' v ps fp1 ls1 fp2 ls2 W O1 _ _ IH2 p'. destruct (IH2 p') as (ls' & E & M). exists (ls1 ++ ls'). split; [constructor; auto|]. rewrite !map_app. f_equal. exact M. }
  apply H.
Qed.
Lemma nest_move t D m T p x fp ls p' : owns t D m T p x fp ls -> exists ls', owns t D m T p' x fp ls' /\ map snd ls' = map snd ls.
Proof. intros O. inversion O; subst. destruct (move_parts _ _ _ _ _ _ _ _ H p') as (ls' & E & M). exists ls'. split; [constructor; exact E|exact M]. Qed.

Lemma nest_truncate {C} t D (leaf : dtor C) I T v gs w n :
  valid_target t -> vec_wf t (ty_lay D T) v -> 0 <= n -> elems_own t D (rmem w) T v gs ->
  pairwise disjoint (region (funinit v) :: concat (map fst gs)) -> keeps I leaf (region (funinit v) :: concat (map fst gs)) -> I w ->
  let xs := y_as_slice (ty_lay D T) (rmem w) v in
  exists n0, forall fuel, (n0 <= fuel)%nat -> forall unw, exists w' v' k r,
    r_truncate (n_drop D leaf fuel T) unw (ty_lay D T) w v n = (w', v', r) /\
    drop_groups leaf unw (rev (skip n (map snd gs))) w = (w', k, r) /\
    funinit v' = funinit v /\ vec_wf t (ty_lay D T) v' /\ y_as_slice (ty_lay D T) (rmem w') v' = take (len xs - k) xs /\
    elems_own t D (rmem w') T v' (take (len xs - k) gs) /\ 0 <= k <= Z.max 0 (len xs - n) /\ (r = DOk -> k = Z.max 0 (len xs - n)).
Proof.
  intros V W N0 (G1 & G2) P K IW xs. destruct (vec_facts t _ v V W) as (L0 & F0 & FU & U0 & _). destruct (pairwise_cons_not _ _ P) as (P1 & P2).
  set (l := ty_lay D T) in *. set (base := uptr (funinit v)) in *.
  assert (LX : len xs = len gs) by (unfold xs, y_as_slice; rewrite slice_length; lia).
  assert (SI : forall y, base <= y < base + Z.of_nat (length gs) * lsize l -> in_block (region (funinit v)) y).
  { intros y Y. unfold len in G1. unfold in_block. cbn. fold base. nia. }
  assert (GO : gowns t D (rmem w) T base gs) by exact G2.
  assert (HI : incl (gfp gs) (region (funinit v) :: concat (map fst gs))) by (intros b B; right; exact B).
  assert (HO : forall y, base <= y < base + Z.of_nat (length gs) * lsize l -> within (gfp gs) y -> False) by (intros y Y; apply P2; auto).
  destruct (enough_all C t D (rmem w) leaf I _ T base V K L0 gs GO HI P1 HO) as (n0 & HD).
  exists n0. intros fuel N unw. assert (SPL : take n gs ++ skip n gs = gs) by apply take_skip.
  pose proof (n_trunc_loop C t D (rmem w) leaf I _ T base V K L0 fuel unw (take n gs) (skip n gs)) as H. rewrite SPL in H.
  destruct (H GO HI P1 HO) with (w := w) as (w' & k & r & kept & J1 & J2 & J3 & J4 & J5 & J6 & J7 & J8); auto.
  { intros y Y. apply within_cons. left. auto. }
  clear H. fold l in J2. unfold r_truncate.
  assert (LS : len (skip n gs) = Z.max 0 (len gs - n)) by (unfold len, skip; rewrite skipn_length; lia).
  replace (Z.to_nat (flen v - n)) with (length (skip n gs)) by (rewrite <- G1; unfold len in *; lia).
  replace (slot l v (flen v)) with (base + Z.of_nat (length gs) * lsize l) by (unfold slot; rewrite <- G1; reflexivity).
  rewrite <- G1, J2.
  exists w', {| funinit := funinit v; flen := len gs - k |}, k, r. split; [reflexivity|]. split; [unfold skip in *; rewrite skipn_map; exact J1|].
  assert (LK : len kept = len gs - k) by (rewrite J3, len_take; lia).
  split; [reflexivity|]. split; [destruct W as (W1 & W2); split; [exact W1|]; cbn [flen]; unfold f_capacity in *; cbn [funinit]; lia|].
  rewrite LX. split; [|split; [|rewrite <- LS; auto]].
  - unfold xs, y_as_slice. cbn [funinit flen]. rewrite slice_take by lia. apply slice_same; [lia|lia|]. intros y Y. apply J7. fold base l in Y. fold l. unfold len in LK at 1. rewrite LK. replace (slot l v 0) with base in Y by (unfold slot, base; lia). exact Y.
  - rewrite <- J3. split; [exact LK|]. cbn [funinit]. fold base l. intros i g Ni.
    assert (IL : (i < length kept)%nat) by (apply nth_error_Some; congruence).
    assert (Ng : nth_error gs i = Some g).
    { rewrite J3 in Ni. rewrite <- (take_skip (len gs - k) gs), nth_error_app1; [exact Ni|]. rewrite <- J3. exact IL. }
    replace (b_read l (rmem w') (base + Z.of_nat i * lsize l)) with (b_read l (rmem w) (base + Z.of_nat i * lsize l)).
    2:{ symmetry. apply read_ext. intros y Y. apply J7. fold l. nia. }
    apply (owns_ext t D (rmem w) (rmem w') V); [apply G2; exact Ng|]. intros y Y. apply J8. exact (gfp_in kept i g y Ni Y).
Qed.

(** ** Drain *)
Lemma each_ext t D m m' T xs gs : valid_target t -> each_owns t D m T xs gs -> (forall y, within (gfp gs) y -> m' y = m y) -> each_owns t D m' T xs gs.
Proof.
  intros V H. induction H as [|x g xs gs O H IH]; intros E; constructor.
  - apply (owns_ext t D m m' V); [exact O|]. intros y Y. apply E. unfold gfp. cbn [map concat]. apply within_app. auto.
  - apply IH. intros y Y. apply E. unfold gfp. cbn [map concat]. apply within_app. auto.
Qed.

Lemma each_enough {C} t D m (leaf : dtor C) I T F xs gs : valid_target t -> keeps I leaf F -> each_owns t D m T xs gs -> incl (gfp gs) F -> pairwise disjoint (gfp gs) ->
  exists n0, forall fuel, (n0 <= fuel)%nat -> Forall2 (fun x g => forall unw w, I w -> (forall y, within (fst g) y -> rmem w y = m y) ->
    n_drop D leaf fuel T unw None x w = flat leaf unw (snd g) w false) xs gs.
Proof.
  intros V K H. induction H as [|x g xs gs O H IH]; intros HI HP.
  - exists 0%nat. intros fuel _. constructor.
  - change (gfp (g :: gs)) with (fst g ++ gfp gs) in *. apply pairwise_app_inv in HP as (P1 & P2 & P12).
    destruct IH as (n1 & H1); auto. { intros b B. apply HI, in_or_app. auto. }
    destruct (drops_alone t D m leaf I T _ _ _ _ F V K O) as (n2 & H2); auto.
    { intros b B. apply HI, in_or_app. auto. }
    { intros y (b & Q & _). discriminate. }
    exists (Nat.max n1 n2). intros fuel N. constructor; [apply H2; lia|apply H1; lia].
Qed.

Lemma drops_frame {C} t D m (leaf : dtor C) I T F p x fp ls unw w : valid_target t -> keeps I leaf F -> owns t D m T p x fp ls -> I w ->
  frame C I F w (fst (flat leaf unw ls w false)) (fun y => own D T p y \/ within fp y).
Proof. intros V K O IW. apply flat_within; auto. destruct (leaves_inside t D m V) as (LV & _). exact (LV _ _ _ _ _ O). Qed.

Lemma n_drain_loop {C} t D (leaf : dtor C) I T F m v1 L U fuel unw : valid_target t -> keeps I leaf F -> 0 <= lsize (ty_lay D T) -> In U F ->
  (forall y, uptr (funinit v1) <= y < L -> in_block U y) -> 0 <= flen v1 ->
  forall n d gs w, I w -> drain_at (ty_lay D T) v1 d -> Z.of_nat n = d_len d -> delements d + dend d * lsize (ty_lay D T) <= L ->
  each_owns t D m T (yd_as_slice (ty_lay D T) m d) gs ->
  Forall2 (fun x g => forall unw w, I w -> (forall y, within (fst g) y -> rmem w y = m y) -> n_drop D leaf fuel T unw None x w = flat leaf unw (snd g) w false)
    (yd_as_slice (ty_lay D T) m d) gs ->
  incl (gfp gs) F -> pairwise disjoint (U :: gfp gs) ->
  (forall y, in_block U y -> rmem w y = m y) -> (forall y, within (gfp gs) y -> rmem w y = m y) ->
  exists w' d' k r, drop_groups leaf unw (map snd gs) w = (w', k, r) /\
    r_drain_loop (n_drop D leaf fuel T) unw (ty_lay D T) w d n = (w', d', r) /\ drain_at (ty_lay D T) v1 d' /\ dtail d' = dtail d /\ dtail_len d' = dtail_len d /\
    I w' /\ (forall y, within F y -> ~ within (gfp gs) y -> rmem w' y = rmem w y).
Proof.
  intros V K L0 UF HU F0. set (l := ty_lay D T) in *. induction n as [|n IH]; intros d gs w IW A N HL O HD HI HP MU M.
  - unfold yd_as_slice in O. rewrite slice_seq, <- N in O. cbn in O. inversion O; subst. exists w, d, 0, DOk. cbn. auto 10.
  - pose proof A as (A1 & A2 & A3 & A4 & A5). unfold d_len in N.
    set (x := delements d + dstart d * lsize l).
    assert (ES : yd_as_slice l m d = b_read l m x :: yd_as_slice l m {| dstart := dstart d + 1; dend := dend d; dtail := dtail d; dtail_len := dtail_len d; delements := delements d |}).
    { unfold yd_as_slice, d_len. cbn [dstart dend delements]. replace (dend d - dstart d) with (1 + (dend d - (dstart d + 1))) by lia.
      rewrite slice_app by lia. rewrite (slice_seq l m _ 1). change (Z.to_nat 1) with 1%nat. cbn [seq map app]. change (Z.of_nat 0) with 0. rewrite Z.mul_0_l, Z.add_0_r. fold x. f_equal. replace (x + 1 * lsize l) with (delements d + (dstart d + 1) * lsize l) by (unfold x; lia). reflexivity. }
    set (d1 := {| dstart := dstart d + 1; dend := dend d; dtail := dtail d; dtail_len := dtail_len d; delements := delements d |}) in *.
    assert (X1 : x + lsize l <= L).
    { unfold x. assert ((dstart d + 1) * lsize l <= dend d * lsize l) by (apply Z.mul_le_mono_nonneg_r; lia). lia. }
    assert (X0 : uptr (funinit v1) <= x) by (unfold x; rewrite A1; nia).
    assert (ER : b_read l (rmem w) x = b_read l m x) by (apply read_ext; intros y Y; apply MU, HU; lia).
    rewrite ES in *. destruct gs as [|g gs]; [inversion O|]. inversion O as [|? ? ? ? O1 O2]; subst. inversion HD as [|? ? ? ? HD1 HD2]; subst.
    change (gfp (g :: gs)) with (fst g ++ gfp gs) in *. destruct (pairwise_cons_not _ _ HP) as (HP1 & HPU). apply pairwise_app_inv in HP1 as (P1 & P2 & P12).
    cbn [map drop_groups r_drain_loop]. unfold yd_next, d_is_empty. destruct (Z.eqb_spec (dstart d) (dend d)) as [E|_]; [lia|]. fold x d1. rewrite ER.
    assert (D1 : drain_at l v1 d1) by (unfold drain_at, d1; cbn [dstart dend dtail dtail_len delements]; repeat split; auto; lia).
    rewrite (invoke_flat C D leaf T fuel unw None (b_read l m x) w (snd g)).
    2:{ apply HD1; [exact IW|]. intros y Y. apply M, within_app. auto. }
    pose proof (drops_frame t D m leaf I T F None _ _ _ unw w V K O1 IW) as FR. rewrite flat_all in *.
    assert (FR2 : forall w1, frame C I F w w1 (fun y => own D T None y \/ within (fst g) y) -> forall y, within F y -> ~ within (fst g) y -> rmem w1 y = rmem w y).
    { intros w1 (_ & Q) y Y NY. apply Q; [exact Y|]. intros [(b & B & _)|B]; [discriminate|contradiction]. }
    destruct (drop_all leaf unw (snd g) w) as [[w1 kk] r1]. cbn [fst] in FR. specialize (FR2 w1 FR). destruct FR as (I1 & _). destruct r1.
    + destruct (IH d1 gs w1 I1 D1) as (w' & d' & k & r & J1 & J2 & J3 & J4 & J5 & J6 & J7); auto.
      * unfold d_len, d1. cbn [dstart dend]. lia.
      * intros b B. apply HI, in_or_app. auto.
      * apply pairwise_cons; auto.
        { intros a c Q z (Q1 & Q2). exact (Q z (conj Q2 Q1)). }
        { apply Forall_forall. intros b B z (Z1 & Z2). apply (HPU z Z1). apply within_app. right. exists b. auto. }
      * intros y Y. rewrite FR2; [apply MU, Y|exists U; auto|]. intros Q. apply (HPU y Y). apply within_app. auto.
      * intros y Y. rewrite FR2; [apply M, within_app; auto|apply (within_incl (gfp gs)); auto; intros b B; apply HI, in_or_app; auto|]. intros Q. exact (P12 y Q Y).
      * rewrite J1. exists w', d', (k + 1), r. split; [reflexivity|]. split; [exact J2|]. split; [exact J3|]. split; [exact J4|]. split; [exact J5|]. split; [exact J6|].
        intros y Y Q. rewrite within_app in Q. rewrite J7, FR2; auto.
    + exists w1, d1, 1, DPanic. split; [reflexivity|]. split; [reflexivity|]. split; [exact D1|]. split; [reflexivity|]. split; [reflexivity|]. split; [exact I1|].
      intros y Y Q. rewrite within_app in Q. apply FR2; auto.
    + exists w1, d1, 1, DAbort. split; [reflexivity|]. split; [reflexivity|]. split; [exact D1|]. split; [reflexivity|]. split; [reflexivity|]. split; [exact I1|].
      intros y Y Q. rewrite within_app in Q. apply FR2; auto.
Qed.

Lemma nest_drain {C} t D (leaf : dtor C) (I : rworld C -> Prop) T v lo hi v1 d fronts d' ans fs rs ts (w : rworld C) :
  let l := ty_lay D T in
  valid_target t -> vec_wf t l v -> valid_bound t true lo -> valid_bound t false hi -> I w ->
  f_drain t l v lo hi = Ret (v1, d) -> yd_consume l (rmem w) d fronts = (d', ans) ->
  let xs := y_as_slice l (rmem w) v in
  each_owns t D (rmem w) T (take (range_start lo) xs) fs -> each_owns t D (rmem w) T (yd_as_slice l (rmem w) d') rs ->
  each_owns t D (rmem w) T (skip (range_end hi (len xs)) xs) ts ->
  pairwise disjoint (region (funinit v) :: concat (map fst (fs ++ rs ++ ts))) -> keeps I leaf (region (funinit v) :: concat (map fst (fs ++ rs ++ ts))) ->
  exists n0, forall fuel, (n0 <= fuel)%nat -> forall unw, exists w' v' w2 k r,
    r_drain_drop (n_drop D leaf fuel T) unw l w v1 d' = (w', v', r) /\
    drop_groups leaf unw (map snd rs) w = (w2, k, r) /\ same_but (region (funinit v)) w2 w' /\
    funinit v' = funinit v /\ vec_wf t l v' /\
    y_as_slice l (rmem w') v' = take (range_start lo) xs ++ match r with DOk => skip (range_end hi (len xs)) xs | _ => [] end /\
    each_owns t D (rmem w') T (y_as_slice l (rmem w') v') (fs ++ match r with DOk => ts | _ => [] end).
Proof.
  intros l V W Vl Vh IW ED EC xs Of Or Ot P K. set (F := region (funinit v) :: concat (map fst (fs ++ rs ++ ts))) in *.
  change (pairwise disjoint (region (funinit v) :: gfp (fs ++ rs ++ ts))) in P. rewrite !gfp_app in P. destruct (pairwise_cons_not _ _ P) as (P0 & PU). pose proof P0 as P0'.
  apply pairwise_app_inv in P0 as (Pf & Prt & PF). apply pairwise_app_inv in Prt as (Pr & Pt & PRT).
  assert (IF : forall gs, (forall b, In b (gfp gs) -> In b (gfp (fs ++ rs ++ ts))) -> incl (gfp gs) F) by (intros gs Q b B; right; auto).
  assert (IFf : incl (gfp fs) F) by (apply IF; intros b B; rewrite !gfp_app; auto using in_or_app).
  assert (IFr : incl (gfp rs) F) by (apply IF; intros b B; rewrite !gfp_app; auto using in_or_app).
  assert (IFt : incl (gfp ts) F) by (apply IF; intros b B; rewrite !gfp_app; auto using in_or_app).
  destruct (each_enough t D (rmem w) leaf I T F _ rs V K Or IFr Pr) as (n0 & HD). exists n0. intros fuel N unw. specialize (HD fuel N).
  destruct (vec_facts t l v V W) as (L0 & F0 & FU & U0 & _).
  destruct (drain_at_start t l v lo hi v1 d F0 Vl Vh V ED) as (A & Ev & Ef & B1 & B2 & T1 & T2).
  destruct (drain_at_consume l (rmem w) v1 fronts d d' ans A EC) as (A' & T3 & T4).
  set (s := range_start lo) in *. assert (LX : len xs = flen v) by (apply slice_length; exact F0). rewrite LX in *. set (e := range_end hi (flen v)) in *.
  pose proof A' as (A1 & A2 & A3 & A4 & A5).
  assert (HU : forall y, uptr (funinit v1) <= y < uptr (funinit v) + flen v * lsize l -> in_block (region (funinit v)) y).
  { intros y Y. rewrite Ev in Y. unfold in_block. cbn. lia. }
  assert (HT : delements d' + dtail d' * lsize l = uptr (funinit v) + e * lsize l) by (rewrite A1, T3, T1, Ef, Ev; lia).
  assert (HE : uptr (funinit v) + e * lsize l <= uptr (funinit v) + flen v * lsize l) by nia.
  destruct (n_drain_loop t D leaf I T F (rmem w) v1 (uptr (funinit v) + flen v * lsize l) (region (funinit v)) fuel unw V K L0) with (n := Z.to_nat (d_len d')) (d := d') (gs := rs) (w := w)
    as (w1 & d2 & k & r & E1 & E2 & A'' & T5 & T6 & I1 & M1); auto.
  { left. reflexivity. }
  { lia. }
  { unfold d_len. lia. }
  { fold l. assert (dend d' * lsize l <= dtail d' * lsize l) by (apply Z.mul_le_mono_nonneg_r; lia). lia. }
  { apply pairwise_cons; auto.
    { intros a c Q z (Q1 & Q2). exact (Q z (conj Q2 Q1)). }
    { apply Forall_forall. intros b B z (Z1 & Z2). apply (PU z Z1). rewrite !within_app. right. left. exists b. auto. } }
  fold l in E2, A''. unfold r_drain_drop. rewrite E2. pose proof A'' as (A1'' & _).
  assert (MU : forall y, in_block (region (funinit v)) y -> rmem w1 y = rmem w y).
  { intros y Y. apply M1; [exists (region (funinit v)); split; [left; reflexivity|exact Y]|]. intros Q. apply (PU y Y). rewrite !within_app. auto. }
  assert (Mf : forall y, within (gfp fs) y -> rmem w1 y = rmem w y).
  { intros y Y. apply M1; [apply (within_incl (gfp fs)); auto|]. intros Q. apply (PF y Y). rewrite within_app. auto. }
  assert (Mt : forall y, within (gfp ts) y -> rmem w1 y = rmem w y).
  { intros y Y. apply M1; [apply (within_incl (gfp ts)); auto|]. intros Q. exact (PRT y Q Y). }
  assert (FR : forall m', (forall y, in_block (region (funinit v)) y -> m' y = rmem w y) -> b_slice l m' (uptr (funinit v)) s = take s xs).
  { intros m' M'. unfold xs, y_as_slice, slot. rewrite Z.mul_0_l, Z.add_0_r, slice_take by lia. apply slice_same; [exact L0|lia|]. intros y Y. apply M', HU. rewrite Ev. nia. }
  assert (WF : forall n, 0 <= n <= flen v -> vec_wf t l {| funinit := funinit v1; flen := n |}).
  { intros n Nn. destruct W as (W1 & W2). split; cbn [funinit flen]; [rewrite Ev; exact W1|]. unfold f_capacity in *. cbn [funinit]. rewrite Ev. lia. }
  assert (V1 : y_as_slice l (rmem w1) v1 = take s xs).
  { unfold y_as_slice, slot. rewrite Z.mul_0_l, Z.add_0_r, Ef, Ev. apply FR, MU. }
  assert (W1 : vec_wf t l v1) by (specialize (WF (flen v1) ltac:(lia)); destruct v1; exact WF).
  assert (O1 : each_owns t D (rmem w1) T (y_as_slice l (rmem w1) v1) fs) by (rewrite V1; apply (each_ext t D (rmem w)); auto).
  destruct r.
  - destruct (Z.eqb_spec (dtail_len d2) 0) as [Z0|Z0].
    + assert (E0 : e = flen v) by lia. exists w1, v1, w1, k, DOk. split; [reflexivity|]. split; [exact E1|]. split; [split; auto|]. split; [exact Ev|]. split; [exact W1|].
      rewrite E0, skip_all in Ot by lia. inversion Ot; subst ts. rewrite V1 in *. rewrite E0, skip_all by lia. rewrite !app_nil_r. split; [reflexivity|exact O1].
    + eexists _, _, w1, k, DOk. split; [reflexivity|]. split; [exact E1|].
      assert (SRC : delements d2 + dtail d2 * lsize l = uptr (funinit v) + e * lsize l) by (rewrite A1'', T5, <- HT, A1; lia).
      assert (DST : delements d2 = uptr (funinit v) + s * lsize l) by (rewrite A1'', Ef, Ev; lia).
      assert (TL : dtail_len d2 = flen v - e) by lia. rewrite SRC, DST, TL.
      assert (IC : s * lsize l + (flen v - e) * lsize l <= flen v * lsize l) by nia.
      assert (SB : same_but (region (funinit v)) w1 {| rcl := rcl w1; rmem := mem_copy (rmem w1) (uptr (funinit v) + e * lsize l) (uptr (funinit v) + s * lsize l) ((flen v - e) * lsize l) |}).
      { split; [reflexivity|]. cbn [rmem]. intros y Y. unfold mem_copy. destruct (Z.leb_spec (uptr (funinit v) + s * lsize l) y), (Z.ltb_spec y (uptr (funinit v) + s * lsize l + (flen v - e) * lsize l)); cbn [andb]; try reflexivity.
               exfalso. apply Y. apply HU. rewrite Ev. nia. }
      split; [exact SB|]. cbn [funinit]. split; [exact Ev|]. split; [apply WF; lia|].
      assert (ALL : y_as_slice l (mem_copy (rmem w1) (uptr (funinit v) + e * lsize l) (uptr (funinit v) + s * lsize l) ((flen v - e) * lsize l)) {| funinit := funinit v1; flen := flen v1 + (flen v - e) |} = take s xs ++ skip e xs).
      { unfold y_as_slice, slot. cbn [funinit flen]. rewrite Z.mul_0_l, Z.add_0_r, Ef, Ev, slice_app by lia. f_equal.
        * rewrite <- (FR (rmem w1) MU). apply slice_same; [exact L0|lia|]. intros y Y. unfold mem_copy. destruct (Z.leb_spec (uptr (funinit v) + s * lsize l) y); [lia|]. reflexivity.
        * rewrite slice_copied by exact L0. unfold xs, y_as_slice, slot. rewrite Z.mul_0_l, Z.add_0_r, slice_skip by lia.
          apply slice_same; [exact L0|lia|]. intros y Y. apply MU, HU. rewrite Ev. nia. }
      cbn [rmem]. rewrite ALL. split; [reflexivity|]. destruct SB as (_ & SB). cbn [rmem] in SB. apply Forall2_app.
      * apply (each_ext t D (rmem w)); auto. intros y Y. rewrite SB; auto. intros Q. apply (PU y Q). rewrite !within_app. auto.
      * apply (each_ext t D (rmem w)); auto. intros y Y. rewrite SB; auto. intros Q. apply (PU y Q). rewrite !within_app. auto.
  - exists w1, v1, w1, k, DPanic. rewrite !app_nil_r. split; [reflexivity|]. split; [exact E1|]. split; [split; auto|]. auto.
  - exists w1, v1, w1, k, DAbort. rewrite !app_nil_r. split; [reflexivity|]. split; [exact E1|]. split; [split; auto|]. auto.
Qed.
