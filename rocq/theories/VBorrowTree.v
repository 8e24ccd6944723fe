(** * VBorrowTree: regions that are in use at the same time do not overlap. *)
From Verif Require Import Base Spec BaseFacts SyncModel SyncProofs UninitModel UninitSpec UninitProofs FixedVecModel FixedVecSpec FixedVecProofs BorrowModel BorrowWorld UBorrowModel EBorrowSlot RBorrowModel RBorrowSpec VBorrowModel VBorrowSpec.

(** ** One region *)
Definition view_ok (t : target) (k : vview) : Prop :=
  let u := w_u k in
  match w_st k with
  | SRaw => wf_view t TRaw u
  | SSlice ty => vtype_ok t ty /\ wf_view t (TSlice (q_lay ty)) u
  | SRef ty | SBox ty | SBoxDying ty _ => vtype_ok t ty /\ wf_view t (TSized (q_lay ty)) u
  | SVec ty n => vtype_ok t ty /\ wf_view t (TSlice (q_lay ty)) u /\ 0 <= n <= v_capacity t (q_lay ty) u
  | STrunc ty n _ => vtype_ok t ty /\ wf_view t (TSlice (q_lay ty)) u /\ 0 <= n /\ n + 1 <= v_capacity t (q_lay ty) u
  | SDrain ty n d => vtype_ok t ty /\ wf_view t (TSlice (q_lay ty)) u /\ 0 <= n /\ n + dtail d + dtail_len d <= v_capacity t (q_lay ty) u /\
      delements d = uptr u + n * lsize (q_lay ty) /\ 0 <= dstart d <= dend d /\ dend d <= dtail d /\ 0 <= dtail_len d
  | SDropping ty n _ i r => vtype_ok t ty /\ wf_view t (TSlice (q_lay ty)) u /\ 0 <= n <= v_capacity t (q_lay ty) u /\ 0 <= i <= n /\ (r <> None -> 0 < i)
  | SGone => True
  end.

Definition par (vs : list vview) (i : nat) : option nat := match nth_error vs i with Some k => w_parent k | None => None end.
Inductive anc (vs : list vview) (i : nat) : nat -> Prop :=
| anc_one j : par vs j = Some i -> anc vs i j
| anc_up j m : anc vs i m -> par vs j = Some m -> anc vs i j.

Record vinv (t : target) (vs : list vview) : Prop := {
  t_ok : forall i k, nth_error vs i = Some k -> gone k = false -> view_ok t k;
  t_par : forall i k p, nth_error vs i = Some k -> gone k = false -> w_parent k = Some p ->
    exists kp ty n, nth_error vs p = Some kp /\ w_st kp = SVec ty n /\ inside (w_blk k) (w_blk kp) /\ w_base kp = w_base k;
  t_ov : forall i j ki kj y, nth_error vs i = Some ki -> nth_error vs j = Some kj -> gone ki = false -> gone kj = false -> i <> j ->
    in_block (w_blk ki) y -> in_block (w_blk kj) y -> anc vs i j \/ anc vs j i }.

Lemma usable_spec vs v k : usable_at vs v = Some k <-> nth_error vs v = Some k /\ gone k = false /\ forall j kj, nth_error vs j = Some kj -> borrows v kj = false.
Proof.
  unfold usable_at. split.
  - destruct (nth_error vs v) as [k0|]; [|discriminate]. destruct (gone k0) eqn:G; [discriminate|]. cbn [orb]. destruct (existsb (borrows v) vs) eqn:X; [discriminate|].
    intros [= <-]. split; [reflexivity|]. split; [exact G|]. intros j kj E. destruct (borrows v kj) eqn:Y; [|reflexivity].
    assert (existsb (borrows v) vs = true); [|congruence]. apply existsb_exists. exists kj. split; [eapply nth_error_In; eassumption|exact Y].
  - intros (-> & -> & H). cbn [orb]. destruct (existsb (borrows v) vs) eqn:X; [|reflexivity]. apply existsb_exists in X. destruct X as (kj & I & Y).
    apply In_nth_error in I. destruct I as [j E]. rewrite (H j kj E) in Y. discriminate.
Qed.
Lemma borrows_iff v k : borrows v k = true <-> gone k = false /\ w_parent k = Some v.
Proof.
  unfold borrows. rewrite andb_true_iff, negb_true_iff. split; intros [G P]; (split; [exact G|]).
  - destruct (w_parent k) as [p|]; [|discriminate]. apply Nat.eqb_eq in P. congruence.
  - rewrite P. apply Nat.eqb_refl.
Qed.

Lemma no_anc t vs v j k kj : vinv t vs -> usable_at vs v = Some k -> nth_error vs j = Some kj -> gone kj = false -> ~ anc vs v j.
Proof.
  intros I U E G A. apply usable_spec in U. destruct U as (_ & _ & U). revert kj E G. induction A as [j P|j m A IH P]; intros kj E G.
  - unfold par in P. rewrite E in P. pose proof (U j kj E) as X. rewrite (proj2 (borrows_iff v kj)) in X; [discriminate|auto].
  - unfold par in P. rewrite E in P. destruct (t_par _ _ I _ _ _ E G P) as (kp & ty & n & E2 & S2 & _). apply (IH kp E2). unfold gone. rewrite S2. reflexivity.
Qed.
(** Two regions that can be used at the same time have no byte in common. *)
Lemma usable_sep t vs i j ki kj y : vinv t vs -> usable_at vs i = Some ki -> usable_at vs j = Some kj -> in_block (w_blk ki) y -> in_block (w_blk kj) y -> i = j.
Proof.
  intros I U1 U2 Y1 Y2. destruct (Nat.eq_dec i j) as [E|N]; [exact E|exfalso].
  pose proof (proj1 (usable_spec _ _ _) U1) as (E1 & G1 & _). pose proof (proj1 (usable_spec _ _ _) U2) as (E2 & G2 & _).
  destruct (t_ov _ _ I _ _ _ _ _ E1 E2 G1 G2 N Y1 Y2) as [A|A]; [exact (no_anc _ _ _ _ _ _ I U1 E2 G2 A)|exact (no_anc _ _ _ _ _ _ I U2 E1 G1 A)].
Qed.

Lemma anc_mono vs vs' i j : (forall m p, par vs m = Some p -> par vs' m = Some p) -> anc vs i j -> anc vs' i j.
Proof. intros H A. induction A as [j P|j m A IH P]; [apply anc_one; auto|eapply anc_up; eauto]. Qed.

Lemma par_put vs v k k' m : nth_error vs v = Some k -> w_parent k' = w_parent k -> par (set_nth vs v k') m = par vs m.
Proof.
  intros E P. unfold par. destruct (Nat.eq_dec m v) as [-> | N].
  - rewrite (set_nth_nth _ _ _ _ E), E. exact P.
  - rewrite set_nth_ne by auto. reflexivity.
Qed.

Lemma inside_tr a b c : inside a b -> inside b c -> inside a c.
Proof. intros H1 H2 x X. apply H2, H1, X. Qed.

Lemma inv_put t vs v k k' : vinv t vs -> usable_at vs v = Some k -> w_parent k' = w_parent k -> w_base k' = w_base k ->
  (gone k' = false -> view_ok t k' /\ inside (w_blk k') (w_blk k)) -> vinv t (set_nth vs v k').
Proof.
  intros I U P Bs OK. pose proof (proj1 (usable_spec _ _ _) U) as (E & G & C).
  assert (PN : forall i ki, nth_error (set_nth vs v k') i = Some ki -> i = v /\ ki = k' \/ i <> v /\ nth_error vs i = Some ki).
  { intros i ki X. destruct (Nat.eq_dec i v) as [-> | N]; [left|right]; [rewrite (set_nth_nth _ _ _ _ E) in X; split; congruence|rewrite set_nth_ne in X by auto; auto]. }
  assert (PP : forall i ki p, nth_error (set_nth vs v k') i = Some ki -> gone ki = false -> w_parent ki = Some p -> p <> v).
  { intros i ki p X GI Q ->. destruct (PN _ _ X) as [[-> ->]|[N X2]].
    - rewrite P in Q. pose proof (C v k E) as Y. rewrite (proj2 (borrows_iff v k)) in Y; [discriminate|auto].
    - pose proof (C i ki X2) as Y. rewrite (proj2 (borrows_iff v ki)) in Y; [discriminate|auto]. }
  constructor.
  - intros i ki X GI. destruct (PN _ _ X) as [[-> ->]|[N X2]]; [apply OK; exact GI|exact (t_ok _ _ I _ _ X2 GI)].
  - intros i ki p X GI Q. pose proof (PP _ _ _ X GI Q) as NP. rewrite set_nth_ne by auto. destruct (PN _ _ X) as [[-> ->]|[N X2]].
    + rewrite P in Q. destruct (t_par _ _ I _ _ _ E G Q) as (kp & ty & n & A & S2 & IN & B2). exists kp, ty, n. split; [exact A|]. split; [exact S2|]. split; [|congruence].
      eapply inside_tr; [apply OK, GI|exact IN].
    + exact (t_par _ _ I _ _ _ X2 GI Q).
  - intros i j ki kj y X1 X2 G1 G2 N Y1 Y2.
    assert (MO : forall a b, anc vs a b -> anc (set_nth vs v k') a b) by (intros a b; apply anc_mono; intros m p; rewrite (par_put _ _ _ _ _ E P); auto).
    destruct (PN _ _ X1) as [[-> ->]|[N1 X1']]; destruct (PN _ _ X2) as [[-> ->]|[N2 X2']]; try contradiction.
    + destruct (t_ov _ _ I v j k kj y E X2' G G2 N (proj2 (OK G1) y Y1) Y2); auto.
    + destruct (t_ov _ _ I i v ki k y X1' E G1 G N Y1 (proj2 (OK G2) y Y2)); auto.
    + destruct (t_ov _ _ I i j ki kj y X1' X2' G1 G2 N Y1 Y2); auto.
Qed.

Lemma inv_cut t vs v k k1 k2 : vinv t vs -> usable_at vs v = Some k -> w_parent k1 = w_parent k -> w_base k1 = w_base k -> w_base k2 = w_base k ->
  gone k1 = false -> gone k2 = false -> view_ok t k1 -> view_ok t k2 -> inside (w_blk k1) (w_blk k) -> inside (w_blk k2) (w_blk k) ->
  (w_parent k2 = w_parent k /\ disjoint (w_blk k1) (w_blk k2)) \/ (w_parent k2 = Some v /\ inside (w_blk k2) (w_blk k1) /\ exists ty n, w_st k1 = SVec ty n) ->
  vinv t (set_nth vs v k1 ++ [k2]).
Proof.
  intros I U P1 B1 B2 G1 G2 O1 O2 I1 I2 D. pose proof (proj1 (usable_spec _ _ _) U) as (E & G & C).
  assert (LV : (v < length vs)%nat) by (apply nth_error_Some; congruence).
  pose proof (inv_put t vs v k k1 I U P1 B1 (fun _ => conj O1 I1)) as J. set (vs1 := set_nth vs v k1) in *.
  assert (L1 : length vs1 = length vs) by apply set_nth_length.
  assert (E1 : nth_error vs1 v = Some k1) by exact (set_nth_nth _ _ _ _ E).
  assert (NV : forall i ki, nth_error vs1 i = Some ki -> (i < length vs)%nat) by (intros i ki X; rewrite <- L1; apply nth_error_Some; congruence).
  assert (PN : forall i ki, nth_error (vs1 ++ [k2]) i = Some ki -> i = length vs /\ ki = k2 \/ (i < length vs)%nat /\ nth_error vs1 i = Some ki).
  { intros i ki X. destruct (Nat.lt_ge_cases i (length vs1)) as [L|L].
    - rewrite nth_error_app1 in X by exact L. right. split; [lia|exact X].
    - rewrite nth_error_app2 in X by exact L. left. assert (i - length vs1 = 0)%nat as Z0 by (destruct (i - length vs1)%nat as [|q]; [reflexivity|destruct q; discriminate]).
      rewrite Z0 in X. injection X as <-. split; [lia|reflexivity]. }
  assert (A1 : forall i, (i < length vs)%nat -> nth_error (vs1 ++ [k2]) i = nth_error vs1 i) by (intros i L; apply nth_error_app1; lia).
  assert (MO : forall a b, anc vs1 a b -> anc (vs1 ++ [k2]) a b).
  { intros a b. apply anc_mono. intros m p. unfold par. destruct (nth_error vs1 m) as [km|] eqn:X; [|discriminate]. rewrite A1, X by (eapply NV; exact X). auto. }
  assert (PN2 : par (vs1 ++ [k2]) (length vs) = w_parent k2).
  { unfold par. rewrite nth_error_app2 by lia. rewrite L1, Nat.sub_diag. reflexivity. }
  assert (PV : par vs1 v = w_parent k) by (unfold par; rewrite E1; exact P1).
  (* the new region and an old one *)
  assert (OV : forall j kj y, nth_error vs1 j = Some kj -> gone kj = false -> in_block (w_blk k2) y -> in_block (w_blk kj) y -> anc (vs1 ++ [k2]) j (length vs)).
  { intros j kj y X GJ Y2 Y. destruct (Nat.eq_dec j v) as [-> | N].
    - rewrite E1 in X. injection X as <-. destruct D as [[_ D]|[D _]]; [destruct (D y); auto|]. apply anc_one. rewrite PN2. exact D.
    - assert (X0 : nth_error vs j = Some kj) by (unfold vs1 in X; rewrite set_nth_ne in X by auto; exact X).
      destruct (t_ov _ _ I j v kj k y X0 E GJ G N Y (I2 y Y2)) as [A|A]; [|exfalso; exact (no_anc _ _ _ _ _ _ I U X0 GJ A)].
      assert (A' : anc vs1 j v) by (revert A; apply anc_mono; intros m p; unfold vs1; rewrite (par_put _ _ _ _ _ E P1); auto).
      destruct D as [[D _]|[D _]].
      + inversion A' as [j' Q|j' m A2 Q]; subst; rewrite PV in Q; rewrite <- D in Q.
        * apply anc_one. rewrite PN2. exact Q.
        * eapply anc_up; [apply MO; exact A2|]. rewrite PN2. exact Q.
      + eapply anc_up; [apply MO; exact A'|]. rewrite PN2. exact D. }
  constructor.
  - intros i ki X GI. destruct (PN _ _ X) as [[-> ->]|[L X2]]; [exact O2|exact (t_ok _ _ J _ _ X2 GI)].
  - intros i ki p X GI Q. destruct (PN _ _ X) as [[-> ->]|[L X2]].
    + destruct D as [[D _]|(D & IN & ty & n & S1)].
      * rewrite D in Q. destruct (t_par _ _ I _ _ _ E G Q) as (kp & ty & n & A & S2 & IN & BB).
        assert (NP : p <> v). { intros ->. pose proof (C v k E) as Y. rewrite (proj2 (borrows_iff v k)) in Y; [discriminate|auto]. }
        exists kp, ty, n. assert (X3 : nth_error vs1 p = Some kp) by (unfold vs1; rewrite set_nth_ne by auto; exact A). rewrite A1 by (eapply NV; exact X3).
        split; [exact X3|]. split; [exact S2|]. split; [eapply inside_tr; [exact I2|exact IN]|congruence].
      * rewrite D in Q. injection Q as <-. exists k1, ty, n. rewrite A1 by exact LV. split; [exact E1|]. split; [exact S1|]. split; [exact IN|congruence].
    + destruct (t_par _ _ J _ _ _ X2 GI Q) as (kp & ty & n & A & S2 & IN & BB). exists kp, ty, n. rewrite A1 by (eapply NV; exact A). auto.
  - intros i j ki kj y X1 X2 GI GJ N Y1 Y2. destruct (PN _ _ X1) as [[-> ->]|[L3 X1']]; destruct (PN _ _ X2) as [[-> ->]|[L4 X2']]; try contradiction.
    + right. eapply OV; eassumption.
    + left. eapply OV; eassumption.
    + destruct (t_ov _ _ J _ _ _ _ _ X1' X2' GI GJ N Y1 Y2); auto.
Qed.

(** ** What a call does to the regions *)
Inductive change (t : target) (v : nat) (k : vview) (vs vs' : list vview) : Prop :=
| ch_same : vs' = vs -> change t v k vs vs'
| ch_put k' : vs' = set_nth vs v k' -> w_parent k' = w_parent k -> w_base k' = w_base k -> (gone k' = false -> view_ok t k' /\ inside (w_blk k') (w_blk k)) -> change t v k vs vs'
| ch_cut k1 k2 : vs' = set_nth vs v k1 ++ [k2] -> w_parent k1 = w_parent k -> w_base k1 = w_base k -> w_base k2 = w_base k -> gone k1 = false -> gone k2 = false ->
    view_ok t k1 -> view_ok t k2 -> inside (w_blk k1) (w_blk k) -> inside (w_blk k2) (w_blk k) ->
    (w_parent k2 = w_parent k /\ disjoint (w_blk k1) (w_blk k2)) \/ (w_parent k2 = Some v /\ inside (w_blk k2) (w_blk k1) /\ exists ty n, w_st k1 = SVec ty n) -> change t v k vs vs'.

Lemma inside_self a : inside a a.
Proof. intros x X. exact X. Qed.
Lemma change_inv t v k vs vs' : vinv t vs -> usable_at vs v = Some k -> change t v k vs vs' -> vinv t vs'.
Proof.
  intros I U [-> |k' -> P B OK|k1 k2 -> P B1 B2 G1 G2 O1 O2 I1 I2 D]; [exact I|eapply inv_put; eassumption|eapply inv_cut; eassumption].
Qed.

(** FixedVecModel with a memory that does not matter *)
Lemma any_rep t ty u n : vtype_ok t ty -> wf_view t (TSlice (q_lay ty)) u -> 0 <= n <= v_capacity t (q_lay ty) u ->
  vec_rep t (q_lay ty) h_any (MkFvec u n) (v_capacity t (q_lay ty) u) (repeat 0 (Z.to_nat n)).
Proof.
  intros O W N. assert (L : @len elem (repeat 0 (Z.to_nat n)) = n) by (unfold len; rewrite repeat_length; lia).
  unfold vec_rep. cbn [funinit flen]. rewrite L. refine (conj W (conj eq_refl (conj eq_refl (conj (proj2 N) (conj _ _))))).
  - intros i x X. apply nth_error_In, repeat_spec in X. subst x. unfold h_read, h_any. destruct (_ =? 0); reflexivity.
  - intros _. apply Forall_forall. intros x X. apply repeat_spec in X. exact X.
Qed.
Lemma rep_len t l h v cap xs : vec_rep t l h v cap xs -> wf_view t (TSlice l) (funinit v) /\ cap = v_capacity t l (funinit v) /\ 0 <= flen v <= cap.
Proof. intros (W & C & F & L & _). rewrite F. pose proof (len_nonneg xs). refine (conj W (conj C _)). lia. Qed.

Lemma raw_dangling t l : valid_target t -> type_layout t l -> wf_view t (TSlice l) (v_empty l).
Proof.
  intros V T. pose proof (type_layout_align t l T) as A. destruct T as ((S0 & P2 & AM & AU) & D).
  unfold wf_view, region, v_empty, valid_region. cbn [uptr ulen start size]. split; [|split; [refine (conj (conj S0 (conj P2 (conj AM AU))) D)|exists 1; lia]].
  split; [exact A|]. unfold isize_max, addr_space in *. assert (0 < 2 ^ (8 * word_bytes t - 1)). { apply Z.pow_pos_nonneg; [lia|]. destruct V as (X & _). destruct X as [-> | [-> | ->]]; lia. }
  rewrite Z.add_0_r. split; [lia|].
  assert (2 ^ (8 * word_bytes t) = 2 * 2 ^ (8 * word_bytes t - 1)). { rewrite <- Z.pow_succ_r; [f_equal; lia|]. destruct V as (X & _). destruct X as [-> | [-> | ->]]; lia. }
  lia.
Qed.
