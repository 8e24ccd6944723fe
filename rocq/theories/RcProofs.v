(** * RcProofs: the counters of the code always equal the counts of the reference. *)
From Verif Require Import Base Spec BaseFacts SyncProofs UninitModel UninitSpec UninitProofs RcModel RcSpec.

(** ** Layout of the box *)

Lemma usize_align_pos t : valid_target t -> 0 < usize_align t.
Proof. intros (_ & P & _). apply pow2_pos. exact P. Qed.

Lemma word_pos t : valid_target t -> 0 < word_bytes t.
Proof. intros ([-> | [-> | ->]] & _); lia. Qed.

Lemma align_up_ge x a : 0 < a -> x <= align_up x a.
Proof. intros P. unfold align_up. pose proof (Z.mod_pos_bound (-x) a P). lia. Qed.

Lemma rc_layout_facts t l : valid_target t -> type_layout t l ->
  lsize l <= rc_strong_off t l /\ rc_strong_off t l + word_bytes t <= rc_weak_off t l /\
  rc_weak_off t l + word_bytes t <= lsize (rc_layout t l) /\ 0 < lalign (rc_layout t l) /\
  lalign l <= lalign (rc_layout t l) /\ (lalign l | lalign (rc_layout t l)) /\ 0 < lsize (rc_layout t l) /\
  lsize l <= lsize (rc_layout t l).
Proof.
  intros T TL. pose proof (usize_align_pos t T) as U. pose proof (word_pos t T) as W.
  pose proof (type_layout_align t l TL) as LA.
  pose proof (type_layout_size t l TL) as LS.
  unfold rc_layout, rc_weak_off; cbn [lsize lalign].
  pose proof (align_up_ge (lsize l) (usize_align t) U) as A1. fold (rc_strong_off t l) in A1.
  pose proof (align_up_ge (rc_strong_off t l + word_bytes t) (usize_align t) U) as A2.
  assert (RA : 0 < rc_align t l) by (unfold rc_align; lia).
  pose proof (align_up_ge (align_up (rc_strong_off t l + word_bytes t) (usize_align t) + word_bytes t) (rc_align t l) RA) as A3.
  repeat split; try lia.
  - unfold rc_align. lia.
  - unfold rc_align. destruct TL as ((_ & P & _) & _), T as (_ & P2 & _).
    destruct (Z.max_spec (lalign l) (usize_align t)) as [[H ->]|[H ->]].
    + apply pow2_divide; auto; lia.
    + apply Z.divide_refl.
Qed.

Lemma v_fits_sub t l u : valid_target t -> type_layout t l ->
  v_fits u (rc_layout t l) = true -> v_fits u l = true.
Proof.
  intros T TL F. destruct (rc_layout_facts t l T TL) as (_ & _ & _ & P & _ & D & _ & S).
  apply v_fits_iff in F; [|exact P]. apply v_fits_iff; [apply (type_layout_align t l TL)|].
  destruct F as [A B]. split; [|lia]. unfold aligned in *. eapply Z.divide_trans; eauto.
Qed.

Lemma holds_fits u l : 0 < lalign l -> holds u l = v_fits u l.
Proof.
  intros P. apply eq_true_iff_eq. rewrite v_fits_iff by exact P. unfold holds, aligned.
  rewrite andb_true_iff, Z.eqb_eq, Z.leb_le, Z.mod_divide by lia. tauto.
Qed.

(** ** Counting *)

Definition cnt (f : stoken -> bool) (l : list stoken) : Z := Z.of_nat (count f l).
Definition b2z (b : bool) : Z := if b then 1 else 0.

Lemma cnt_cons f x l : cnt f (x :: l) = b2z (f x) + cnt f l.
Proof. unfold cnt, count. cbn [filter]. destruct (f x); cbn [length b2z]; lia. Qed.

Lemma cnt_app f l l' : cnt f (l ++ l') = cnt f l + cnt f l'.
Proof. unfold cnt, count. rewrite filter_app, app_length. lia. Qed.

Lemma cnt_one f x : cnt f [x] = b2z (f x).
Proof. rewrite cnt_cons. unfold cnt, count. cbn [filter length]. lia. Qed.

Lemma cnt_nonneg f l : 0 <= cnt f l. Proof. unfold cnt. lia. Qed.

Lemma cnt_le f l : cnt f l <= Z.of_nat (length l).
Proof. induction l as [|x l IH]; [unfold cnt; cbn; lia|]. rewrite cnt_cons. cbn [length]. destruct (f x); cbn [b2z]; lia. Qed.

Lemma cnt_upd f i x y l : nth_error l i = Some x -> cnt f (upd_nth i y l) = cnt f l - b2z (f x) + b2z (f y).
Proof.
  revert i. induction l as [|z l IH]; intros [|i] H; try discriminate; cbn [upd_nth nth_error] in *.
  - injection H as ->. rewrite !cnt_cons. lia.
  - rewrite !cnt_cons, (IH i H). lia.
Qed.

Lemma cnt_pos f l : 0 < cnt f l -> exists i x, nth_error l i = Some x /\ f x = true.
Proof.
  induction l as [|z l IH]; [unfold cnt; cbn; lia|]. rewrite cnt_cons. intros H.
  destruct (f z) eqn:E. { exists O, z. auto. }
  destruct IH as (i & x & N & F); [cbn [b2z] in H; lia|]. exists (S i), x. auto.
Qed.

Lemma cnt_ge1 f l i x : nth_error l i = Some x -> f x = true -> 1 <= cnt f l.
Proof.
  revert i. induction l as [|z l IH]; intros [|i] N F; try discriminate; cbn [nth_error] in N; rewrite cnt_cons.
  - injection N as ->. rewrite F. cbn [b2z]. pose proof (cnt_nonneg f l). lia.
  - pose proof (IH i N F). destruct (f z); cbn [b2z]; lia.
Qed.

Lemma cnt_ge2 f l i j x y : i <> j -> nth_error l i = Some x -> nth_error l j = Some y -> f x = true -> f y = true -> 2 <= cnt f l.
Proof.
  revert i j. induction l as [|z l IH]; intros [|i] [|j] E N M F G; try discriminate; try congruence;
    cbn [nth_error] in N, M; rewrite cnt_cons.
  - injection N as ->. rewrite F. cbn [b2z]. pose proof (cnt_ge1 f l j y M G). lia.
  - injection M as ->. rewrite G. cbn [b2z]. pose proof (cnt_ge1 f l i x N F). lia.
  - assert (i <> j) as E' by congruence. pose proof (IH i j E' N M F G). destruct (f z); cbn [b2z]; lia.
Qed.

(** ** The relation *)

Definition hall (k : skind) : option nat :=
  match k with SMem _ => None | SStrong a | SWeak a | SRaw a => Some a end.
Definition al (SA : list salloc) (a : nat) : salloc := nth a SA (MkSA 0 (MkView 0 0 0)).
Definition kview (SA : list salloc) (k : skind) : uview :=
  match k with SMem u => u | SStrong a | SWeak a | SRaw a => areg (al SA a) end.
Definition kkind (k : skind) : kind :=
  match k with SMem _ => KMem | SStrong _ => KStrong | SWeak _ => KWeak | SRaw _ => KRaw end.

Definition is_raw (a : nat) (k : stoken) : bool :=
  counts k && match sk k with SRaw b => Nat.eqb a b | _ => false end.

Definition tok_rel (t : target) (SA : list salloc) (k : token) (x : stoken) : Prop :=
  tstat k = sst x /\ tkind k = kkind (sk x) /\ tview k = kview SA (sk x) /\
  (counts x = true -> valid_region t (region (tview k)) /\ umeta (tview k) = 0) /\
  match hall (sk x) with
  | None => True
  | Some a => (a < length SA)%nat /\ type_layout t (tlay k) /\ v_fits (tview k) (rc_layout t (tlay k)) = true
  end.

Definition apart (SA : list salloc) (x y : stoken) : Prop :=
  (exists a, hall (sk x) = Some a /\ hall (sk y) = Some a) \/
  disjoint (region (kview SA (sk x))) (region (kview SA (sk y))).

Definition box_ok (ST : list stoken) (SA : list salloc) (H : Z -> option rcbox) (a : nat) : Prop :=
  let cs := cnt (is_strong a) ST in let cw := cnt (is_weak a) ST in let cr := cnt (is_raw a) ST in
  0 < cs + cw + cr ->
  exists b, H (uptr (areg (al SA a))) = Some b /\ bstrong b = cs + cr /\
    bweak b = cw + (if 0 <? cs + cr then 1 else 0) /\
    (0 < cs + cr -> bval b = aval (al SA a)) /\
    (0 < cr -> cr = 1 /\ cs = 0 /\ cw = 0).

Record core (t : target) (T : list token) (H : Z -> option rcbox) (ST : list stoken) (SA : list salloc) : Prop := {
  c_toks : Forall2 (tok_rel t SA) T ST;
  c_apart : forall i j x y, i <> j -> nth_error ST i = Some x -> nth_error ST j = Some y ->
              counts x = true -> counts y = true -> apart SA x y;
  c_box : forall a, box_ok ST SA H a }.

Lemma F2_nth {A B} (R : A -> B -> Prop) xs ys i y : Forall2 R xs ys -> nth_error ys i = Some y ->
  exists x, nth_error xs i = Some x /\ R x y.
Proof.
  intros F. revert i. induction F as [|a b xs ys r F IH]; intros [|i] N; try discriminate; cbn [nth_error] in *.
  - injection N as ->. eauto.
  - eauto.
Qed.

Lemma F2_upd {A B} (R : A -> B -> Prop) xs ys i x y : Forall2 R xs ys -> R x y -> Forall2 R (upd_nth i x xs) (upd_nth i y ys).
Proof.
  intros F r. revert i. induction F as [|a b xs ys r' F IH]; intros [|i]; cbn [upd_nth]; constructor; auto.
Qed.

Lemma F2_impl {A B} (R R' : A -> B -> Prop) xs ys : (forall x y, R x y -> R' x y) -> Forall2 R xs ys -> Forall2 R' xs ys.
Proof. intros I F. induction F; constructor; auto. Qed.

(** A counting token of a handle of [a]. *)
Definition handle_of (a : nat) (x : stoken) : Prop := counts x = true /\ hall (sk x) = Some a.

Lemma used_handle ST a : 0 < cnt (is_strong a) ST + cnt (is_weak a) ST + cnt (is_raw a) ST ->
  exists i x, nth_error ST i = Some x /\ handle_of a x.
Proof.
  intros H. pose proof (cnt_nonneg (is_strong a) ST). pose proof (cnt_nonneg (is_weak a) ST). pose proof (cnt_nonneg (is_raw a) ST).
  assert (0 < cnt (is_strong a) ST \/ 0 < cnt (is_weak a) ST \/ 0 < cnt (is_raw a) ST) as [P|[P|P]] by lia;
    apply cnt_pos in P; destruct P as (i & x & N & F); exists i, x; split; auto;
    apply andb_true_iff in F; destruct F as [C F]; split; auto; destruct (sk x); try discriminate;
    apply Nat.eqb_eq in F; subst; reflexivity.
Qed.

Lemma handle_used ST a i x : nth_error ST i = Some x -> handle_of a x ->
  1 <= cnt (is_strong a) ST + cnt (is_weak a) ST + cnt (is_raw a) ST.
Proof.
  intros N (C & Hh). pose proof (cnt_nonneg (is_strong a) ST). pose proof (cnt_nonneg (is_weak a) ST). pose proof (cnt_nonneg (is_raw a) ST).
  destruct (sk x) eqn:K; cbn in Hh; try discriminate; injection Hh as ->.
  - pose proof (cnt_ge1 (is_strong a) ST i x N). unfold is_strong in H2 at 1. rewrite C, K, Nat.eqb_refl in H2. specialize (H2 eq_refl). lia.
  - pose proof (cnt_ge1 (is_weak a) ST i x N). unfold is_weak in H2 at 1. rewrite C, K, Nat.eqb_refl in H2. specialize (H2 eq_refl). lia.
  - pose proof (cnt_ge1 (is_raw a) ST i x N). unfold is_raw in H2 at 1. rewrite C, K, Nat.eqb_refl in H2. specialize (H2 eq_refl). lia.
Qed.

(** An allocation with exactly one counting handle in total. *)
Lemma sole_handle ST a i x : cnt (is_strong a) ST + cnt (is_weak a) ST + cnt (is_raw a) ST = 1 ->
  nth_error ST i = Some x -> handle_of a x ->
  forall j y, j <> i -> nth_error ST j = Some y -> counts y = true -> hall (sk y) <> Some a.
Proof.
  intros S N Hx j y J M C E.
  assert (B : forall f, cnt (fun k => f k) ST = cnt f ST) by reflexivity.
  assert (T : cnt (fun k => counts k && match hall (sk k) with Some b => Nat.eqb a b | None => false end) ST =
              cnt (is_strong a) ST + cnt (is_weak a) ST + cnt (is_raw a) ST).
  { clear. induction ST as [|k ST IH]; [reflexivity|]. rewrite !cnt_cons, IH. unfold is_strong, is_weak, is_raw.
    destruct (counts k), (sk k); cbn [andb hall b2z]; try destruct (Nat.eqb a a0); cbn [b2z]; lia. }
  destruct Hx as (Cx & Ax).
  pose proof (cnt_ge2 (fun k => counts k && match hall (sk k) with Some b => Nat.eqb a b | None => false end) ST j i y x J M N) as G.
  cbn beta in G. rewrite C, E, Cx, Ax, Nat.eqb_refl in G. specialize (G eq_refl eq_refl). lia.
Qed.

Lemma handle_nonempty t T H ST SA i x a : valid_target t -> core t T H ST SA -> nth_error ST i = Some x -> handle_of a x ->
  0 < ulen (areg (al SA a)).
Proof.
  intros V K N (C & Ha). destruct (F2_nth _ _ _ _ _ (c_toks _ _ _ _ _ K) N) as (k & _ & (S1 & S2 & S3 & S4 & S5)).
  rewrite Ha in S5. destruct S5 as (_ & TL & F).
  destruct (rc_layout_facts t (tlay k) V TL) as (_ & _ & _ & P & _ & _ & Z & _).
  apply v_fits_iff in F; [|exact P]. assert (tview k = areg (al SA a)) as <-; [|lia].
  rewrite S3. destruct (sk x); cbn in Ha |- *; try discriminate; injection Ha as ->; reflexivity.
Qed.

Lemma kview_handle SA k a : hall k = Some a -> kview SA k = areg (al SA a).
Proof. destruct k; cbn; intros E; try discriminate; injection E as ->; reflexivity. Qed.

Lemma addr_inj t T H ST SA i x a j y b : valid_target t -> core t T H ST SA ->
  nth_error ST i = Some x -> handle_of a x -> nth_error ST j = Some y -> handle_of b y -> a <> b ->
  uptr (areg (al SA a)) <> uptr (areg (al SA b)).
Proof.
  intros V K N Hx M Hy D E.
  assert (i <> j). { intros ->. rewrite N in M. injection M as ->. destruct Hx as (_ & A), Hy as (_ & B). congruence. }
  pose proof (handle_nonempty _ _ _ _ _ _ _ _ V K N Hx) as P. pose proof (handle_nonempty _ _ _ _ _ _ _ _ V K M Hy) as Q.
  destruct (c_apart _ _ _ _ _ K i j x y) as [(c & A & B)|Dj]; auto; try (destruct Hx, Hy; assumption).
  { destruct Hx as (_ & A'), Hy as (_ & B'). congruence. }
  rewrite (kview_handle _ _ _ (proj2 Hx)), (kview_handle _ _ _ (proj2 Hy)) in Dj.
  apply (Dj (uptr (areg (al SA a)))). unfold in_block, region; cbn [start size]. lia.
Qed.

Lemma is_strong_eq a x : is_strong a x = counts x && match sk x with SStrong b => Nat.eqb a b | _ => false end. Proof. reflexivity. Qed.

(** Counts of other allocations do not see a handle of [a]. *)
Lemma other_counts a b x : hall (sk x) = Some a \/ hall (sk x) = None \/ counts x = false -> a <> b ->
  is_strong b x = false /\ is_weak b x = false /\ is_raw b x = false.
Proof.
  intros [E|[E|E]] D; unfold is_strong, is_weak, is_raw; rewrite ?E;
    destruct (sk x); cbn in E |- *; rewrite ?andb_false_r; auto; try discriminate;
    injection E as ->; rewrite (proj2 (Nat.eqb_neq b a)) by congruence; rewrite ?andb_false_r; auto.
Qed.

(** *** Core steps *)

(** L1: a handle of [a] is changed in place, staying with [a] or going away. *)
Lemma core_set t T H ST SA i x a x' k' H' : valid_target t -> core t T H ST SA ->
  nth_error ST i = Some x -> handle_of a x ->
  hall (sk x') = Some a -> tok_rel t SA k' x' ->
  (forall p, p <> uptr (areg (al SA a)) -> H' p = H p) ->
  box_ok (upd_nth i x' ST) SA H' a ->
  core t (upd_nth i k' T) H' (upd_nth i x' ST) SA.
Proof.
  intros V K N Hx E TR HH B. constructor.
  - apply F2_upd; [apply (c_toks _ _ _ _ _ K)|exact TR].
  - intros m n y z D M1 M2 C1 C2.
    destruct (Nat.eq_dec m i) as [-> | Dm]; destruct (Nat.eq_dec n i) as [-> | Dn]; try congruence.
    + rewrite (upd_nth_nth_eq _ _ _ _ N) in M1. injection M1 as <-. rewrite upd_nth_nth_ne in M2 by congruence.
      pose proof (c_apart _ _ _ _ _ K i n x z D N M2 (proj1 Hx) C2) as [(c & A1 & A2)|A].
      * left. exists c. destruct Hx as (_ & Hx). split; congruence.
      * right. rewrite (kview_handle _ _ _ E), <- (kview_handle SA _ _ (proj2 Hx)). exact A.
    + rewrite (upd_nth_nth_eq _ _ _ _ N) in M2. injection M2 as <-. rewrite upd_nth_nth_ne in M1 by congruence.
      pose proof (c_apart _ _ _ _ _ K m i y x D M1 N C1 (proj1 Hx)) as [(c & A1 & A2)|A].
      * left. exists c. destruct Hx as (_ & Hx). split; congruence.
      * right. rewrite (kview_handle _ _ _ E), <- (kview_handle SA _ _ (proj2 Hx)). exact A.
    + rewrite upd_nth_nth_ne in M1, M2 by congruence. apply (c_apart _ _ _ _ _ K m n); auto.
  - intros b. destruct (Nat.eq_dec a b) as [<- | D]; [exact B|].
    pose proof (c_box _ _ _ _ _ K b) as Bb. unfold box_ok in *. cbn zeta in *.
    destruct (other_counts a b x (or_introl (proj2 Hx)) D) as (O1 & O2 & O3).
    destruct (other_counts a b x' (or_introl E) D) as (P1 & P2 & P3).
    rewrite !(cnt_upd _ _ _ _ _ N), O1, O2, O3, P1, P2, P3. cbn [b2z]. rewrite !Z.sub_0_r, !Z.add_0_r.
    intros U. specialize (Bb U). rewrite HH; [exact Bb|].
    destruct (used_handle ST b U) as (j & y & M & Hy).
    intros Eq. exact (addr_inj t T H ST SA i x a j y b V K N Hx M Hy D (eq_sym Eq)).
Qed.

(** L2: a new handle of [a] is appended. *)
Lemma core_add t T H ST SA i x a x' k' H' : valid_target t -> core t T H ST SA ->
  nth_error ST i = Some x -> handle_of a x ->
  hall (sk x') = Some a -> tok_rel t SA k' x' ->
  (forall p, p <> uptr (areg (al SA a)) -> H' p = H p) ->
  box_ok (ST ++ [x']) SA H' a ->
  core t (T ++ [k']) H' (ST ++ [x']) SA.
Proof.
  intros V K N Hx E TR HH B. constructor.
  - apply Forall2_app; [apply (c_toks _ _ _ _ _ K)|constructor; [exact TR|constructor]].
  - assert (Q : forall n z, nth_error ST n = Some z -> counts z = true -> apart SA x' z).
    { intros n z M C. destruct (Nat.eq_dec n i) as [-> | Dn].
      - rewrite N in M. injection M as ->. left. exists a. split; [exact E|apply (proj2 Hx)].
      - pose proof (c_apart _ _ _ _ _ K i n x z (not_eq_sym Dn) N M (proj1 Hx) C) as [(c & A1 & A2)|A].
        + left. exists c. destruct Hx as (_ & Hx). split; congruence.
        + right. rewrite (kview_handle _ _ _ E), <- (kview_handle SA _ _ (proj2 Hx)). exact A. }
    assert (sym : forall y z, apart SA y z -> apart SA z y).
    { intros y z [(c & A1 & A2)|A]; [left; eauto|right; apply disjoint_sym; exact A]. }
    intros m n y z D M1 M2 C1 C2.
    destruct (lt_dec m (length ST)) as [Lm|Lm]; destruct (lt_dec n (length ST)) as [Ln|Ln].
    + rewrite nth_error_app1 in M1, M2 by lia. apply (c_apart _ _ _ _ _ K m n); auto.
    + rewrite nth_error_app1 in M1 by lia. rewrite nth_error_app2 in M2 by lia.
      destruct (n - length ST)%nat as [|q]; cbn in M2; [|destruct q; discriminate]. injection M2 as <-.
      apply sym. eapply Q; eauto.
    + rewrite nth_error_app1 in M2 by lia. rewrite nth_error_app2 in M1 by lia.
      destruct (m - length ST)%nat as [|q]; cbn in M1; [|destruct q; discriminate]. injection M1 as <-.
      eapply Q; eauto.
    + rewrite nth_error_app2 in M1, M2 by lia. exfalso.
      assert (m - length ST = 0)%nat by (destruct (m - length ST)%nat as [|[|q]]; cbn in M1; try discriminate; reflexivity).
      assert (n - length ST = 0)%nat by (destruct (n - length ST)%nat as [|[|q]]; cbn in M2; try discriminate; reflexivity).
      lia.
  - intros b. destruct (Nat.eq_dec a b) as [<- | D]; [exact B|].
    pose proof (c_box _ _ _ _ _ K b) as Bb. unfold box_ok in *. cbn zeta in *.
    destruct (other_counts a b x' (or_introl E) D) as (P1 & P2 & P3).
    rewrite !cnt_app, !cnt_one, P1, P2, P3. cbn [b2z]. rewrite !Z.add_0_r.
    intros U. specialize (Bb U). rewrite HH; [exact Bb|].
    destruct (used_handle ST b U) as (j & y & M & Hy).
    intros Eq. exact (addr_inj t T H ST SA i x a j y b V K N Hx M Hy D (eq_sym Eq)).
Qed.

(** L3: the only handle of [a] turns into memory. *)
Lemma core_release t T H ST SA i x a x' k' H' : valid_target t -> core t T H ST SA ->
  nth_error ST i = Some x -> handle_of a x ->
  cnt (is_strong a) ST + cnt (is_weak a) ST + cnt (is_raw a) ST = 1 ->
  sk x' = SMem (areg (al SA a)) -> tok_rel t SA k' x' ->
  (forall p, p <> uptr (areg (al SA a)) -> H' p = H p) ->
  core t (upd_nth i k' T) H' (upd_nth i x' ST) SA.
Proof.
  intros V K N Hx S1 E TR HH.
  pose proof (sole_handle ST a i x S1 N Hx) as SO.
  assert (Q : forall n z, n <> i -> nth_error ST n = Some z -> counts z = true -> disjoint (region (kview SA (sk x'))) (region (kview SA (sk z)))).
  { intros n z Dn M C. rewrite E. cbn [kview].
    pose proof (c_apart _ _ _ _ _ K i n x z (not_eq_sym Dn) N M (proj1 Hx) C) as [(c & A1 & A2)|A].
    - exfalso. apply (SO n z Dn M C). destruct Hx as (_ & Hx). congruence.
    - rewrite <- (kview_handle SA _ _ (proj2 Hx)). exact A. }
  constructor.
  - apply F2_upd; [apply (c_toks _ _ _ _ _ K)|exact TR].
  - intros m n y z D M1 M2 C1 C2.
    destruct (Nat.eq_dec m i) as [-> | Dm]; destruct (Nat.eq_dec n i) as [-> | Dn]; try congruence.
    + rewrite (upd_nth_nth_eq _ _ _ _ N) in M1. injection M1 as <-. rewrite upd_nth_nth_ne in M2 by congruence. right. eauto.
    + rewrite (upd_nth_nth_eq _ _ _ _ N) in M2. injection M2 as <-. rewrite upd_nth_nth_ne in M1 by congruence.
      right. apply disjoint_sym. eauto.
    + rewrite upd_nth_nth_ne in M1, M2 by congruence. apply (c_apart _ _ _ _ _ K m n); auto.
  - intros b. unfold box_ok. cbn zeta. intros U.
    destruct (used_handle _ b U) as (j & y & M & Hy).
    assert (j <> i). { intros ->. rewrite (upd_nth_nth_eq _ _ _ _ N) in M. injection M as <-. destruct Hy as (_ & Hy). rewrite E in Hy. discriminate. }
    rewrite upd_nth_nth_ne in M by congruence.
    assert (D : a <> b). { intros <-. apply (SO j y); auto; [apply (proj1 Hy)|apply (proj2 Hy)]. }
    pose proof (c_box _ _ _ _ _ K b) as Bb. unfold box_ok in Bb. cbn zeta in Bb.
    destruct (other_counts a b x (or_introl (proj2 Hx)) D) as (O1 & O2 & O3).
    destruct (other_counts a b x') as (P1 & P2 & P3); [right; left; rewrite E; reflexivity|exact D|].
    rewrite !(cnt_upd _ _ _ _ _ N), O1, O2, O3, P1, P2, P3 in *. cbn [b2z] in *. rewrite !Z.sub_0_r, !Z.add_0_r in *.
    specialize (Bb U). rewrite HH; [exact Bb|].
    intros Eq. exact (addr_inj t T H ST SA i x a j y b V K N Hx M Hy D (eq_sym Eq)).
Qed.

(** L4: memory that stays memory or goes away. *)
Lemma core_mem t T H ST SA i x u x' k' : valid_target t -> core t T H ST SA ->
  nth_error ST i = Some x -> counts x = true -> sk x = SMem u -> sk x' = SMem u -> tok_rel t SA k' x' ->
  core t (upd_nth i k' T) H (upd_nth i x' ST) SA.
Proof.
  intros V K N Cx E E' TR. constructor.
  - apply F2_upd; [apply (c_toks _ _ _ _ _ K)|exact TR].
  - intros m n y z D M1 M2 C1 C2.
    destruct (Nat.eq_dec m i) as [-> | Dm]; destruct (Nat.eq_dec n i) as [-> | Dn]; try congruence.
    + rewrite (upd_nth_nth_eq _ _ _ _ N) in M1. injection M1 as <-. rewrite upd_nth_nth_ne in M2 by congruence.
      pose proof (c_apart _ _ _ _ _ K i n x z D N M2 Cx C2) as A. unfold apart in *. rewrite E in A. rewrite E'. exact A.
    + rewrite (upd_nth_nth_eq _ _ _ _ N) in M2. injection M2 as <-. rewrite upd_nth_nth_ne in M1 by congruence.
      pose proof (c_apart _ _ _ _ _ K m i y x D M1 N C1 Cx) as A. unfold apart in *. rewrite E in A. rewrite E'. exact A.
    + rewrite upd_nth_nth_ne in M1, M2 by congruence. apply (c_apart _ _ _ _ _ K m n); auto.
  - intros b. pose proof (c_box _ _ _ _ _ K b) as Bb. unfold box_ok in *. cbn zeta in *.
    destruct (other_counts (S b) b x) as (O1 & O2 & O3); [right; left; rewrite E; reflexivity|lia|].
    destruct (other_counts (S b) b x') as (P1 & P2 & P3); [right; left; rewrite E'; reflexivity|lia|].
    rewrite !(cnt_upd _ _ _ _ _ N), O1, O2, O3, P1, P2, P3 in *. cbn [b2z] in *. rewrite !Z.sub_0_r, !Z.add_0_r in *. exact Bb.
Qed.

(** Growing the list of allocations or changing values *)
Definition same_regs (SA SA' : list salloc) : Prop :=
  (length SA <= length SA')%nat /\ forall a, (a < length SA)%nat -> areg (al SA' a) = areg (al SA a).

Lemma tok_rel_regs t SA SA' k x : same_regs SA SA' -> tok_rel t SA k x -> tok_rel t SA' k x.
Proof.
  intros (L & R) (S1 & S2 & S3 & S4 & S5). split; [exact S1|]. split; [exact S2|]. split.
  - rewrite S3. destruct (sk x); cbn [kview hall] in *; auto; symmetry; apply R; apply S5.
  - split; [exact S4|]. destruct (hall (sk x)); auto. destruct S5 as (A & B). split; [lia|exact B].
Qed.

Lemma apart_regs t SA SA' k k' x y : same_regs SA SA' -> tok_rel t SA k x -> tok_rel t SA k' y -> apart SA x y -> apart SA' x y.
Proof.
  intros (L & R) (_ & _ & _ & _ & S5) (_ & _ & _ & _ & S6) [A|A]; [left; exact A|right].
  assert (kview SA' (sk x) = kview SA (sk x)) as ->.
  { destruct (sk x); cbn [kview hall] in *; auto; apply R; apply S5. }
  assert (kview SA' (sk y) = kview SA (sk y)) as ->; [|exact A].
  destruct (sk y); cbn [kview hall] in *; auto; apply R; apply S6.
Qed.

(** L5: the value of [a] is replaced. *)
Lemma core_value t T H ST SA SA' a H' : valid_target t -> core t T H ST SA -> same_regs SA SA' ->
  (exists i x, nth_error ST i = Some x /\ handle_of a x) ->
  (forall b, b <> a -> (b < length SA)%nat -> al SA' b = al SA b) ->
  (forall p, p <> uptr (areg (al SA a)) -> H' p = H p) ->
  box_ok ST SA' H' a -> core t T H' ST SA'.
Proof.
  intros V K RG (i & x & N & Hx) V' HH B. constructor.
  - eapply F2_impl; [|apply (c_toks _ _ _ _ _ K)]. intros k y. apply tok_rel_regs. exact RG.
  - intros m n y z D M1 M2 C1 C2.
    destruct (F2_nth _ _ _ _ _ (c_toks _ _ _ _ _ K) M1) as (k1 & _ & R1).
    destruct (F2_nth _ _ _ _ _ (c_toks _ _ _ _ _ K) M2) as (k2 & _ & R2).
    eapply apart_regs; eauto. apply (c_apart _ _ _ _ _ K m n); auto.
  - intros b. destruct (Nat.eq_dec b a) as [-> | D]; [exact B|].
    pose proof (c_box _ _ _ _ _ K b) as Bb. unfold box_ok in *. cbn zeta in *. intros U.
    destruct (used_handle _ b U) as (j & y & M & Hy).
    assert (L : (b < length SA)%nat).
    { destruct (F2_nth _ _ _ _ _ (c_toks _ _ _ _ _ K) M) as (k1 & _ & (_ & _ & _ & _ & R1)).
      rewrite (proj2 Hy) in R1. apply R1. }
    rewrite V' by auto. specialize (Bb U). rewrite HH; [exact Bb|].
    intros Eq. exact (addr_inj t T H ST SA j y b i x a V K M Hy N Hx D Eq).
Qed.

(** L6: memory becomes a new allocation. *)
Lemma core_new t T H ST SA i x u x' k' H' v : valid_target t -> core t T H ST SA ->
  nth_error ST i = Some x -> counts x = true -> sk x = SMem u ->
  x' = MkST (SStrong (length SA)) Live -> tok_rel t (SA ++ [MkSA v u]) k' x' ->
  0 < ulen u ->
  (forall p, p <> uptr u -> H' p = H p) ->
  H' (uptr u) = Some (MkBox v 1 1) ->
  core t (upd_nth i k' T) H' (upd_nth i x' ST) (SA ++ [MkSA v u]).
Proof.
  intros V K N Cx E E' TR NE HH HU. set (SA' := SA ++ [MkSA v u]).
  assert (RG : same_regs SA SA').
  { split; [unfold SA'; rewrite app_length; lia|]. intros a L. unfold al, SA'. rewrite app_nth1 by lia. reflexivity. }
  assert (AL : al SA' (length SA) = MkSA v u). { unfold al, SA'. rewrite app_nth2 by lia. rewrite Nat.sub_diag. reflexivity. }
  assert (OLD : forall j y, nth_error ST j = Some y -> forall b, hall (sk y) = Some b -> (b < length SA)%nat).
  { intros j y M b Hb. destruct (F2_nth _ _ _ _ _ (c_toks _ _ _ _ _ K) M) as (k1 & _ & (_ & _ & _ & _ & R1)).
    rewrite Hb in R1. apply R1. }
  assert (AP : forall n z, n <> i -> nth_error ST n = Some z -> counts z = true -> disjoint (region u) (region (kview SA' (sk z)))).
  { intros n z D M C. destruct (F2_nth _ _ _ _ _ (c_toks _ _ _ _ _ K) M) as (k1 & _ & R1).
    destruct (F2_nth _ _ _ _ _ (c_toks _ _ _ _ _ K) N) as (k2 & _ & R2).
    pose proof (c_apart _ _ _ _ _ K i n x z (not_eq_sym D) N M Cx C) as A.
    apply (apart_regs t SA SA' k2 k1 x z RG R2 R1) in A. destruct A as [(c & A1 & _)|A]; [rewrite E in A1; discriminate|].
    rewrite E in A. exact A. }
  constructor.
  - apply F2_upd; [|exact TR]. eapply F2_impl; [|apply (c_toks _ _ _ _ _ K)]. intros k y. apply tok_rel_regs. exact RG.
  - intros m n y z D M1 M2 C1 C2.
    destruct (Nat.eq_dec m i) as [-> | Dm]; destruct (Nat.eq_dec n i) as [-> | Dn]; try congruence.
    + rewrite (upd_nth_nth_eq _ _ _ _ N) in M1. injection M1 as <-. rewrite upd_nth_nth_ne in M2 by congruence.
      right. rewrite E'. cbn [sk kview]. rewrite AL. cbn [areg]. eauto.
    + rewrite (upd_nth_nth_eq _ _ _ _ N) in M2. injection M2 as <-. rewrite upd_nth_nth_ne in M1 by congruence.
      right. rewrite E'. cbn [sk kview]. rewrite AL. cbn [areg]. apply disjoint_sym. eauto.
    + rewrite upd_nth_nth_ne in M1, M2 by congruence.
      destruct (F2_nth _ _ _ _ _ (c_toks _ _ _ _ _ K) M1) as (k1 & _ & R1).
      destruct (F2_nth _ _ _ _ _ (c_toks _ _ _ _ _ K) M2) as (k2 & _ & R2).
      eapply apart_regs; eauto. apply (c_apart _ _ _ _ _ K m n); auto.
  - intros b. unfold box_ok. cbn zeta. intros U.
    destruct (other_counts (S b) b x) as (O1 & O2 & O3); [right; left; rewrite E; reflexivity|lia|].
    destruct (Nat.eq_dec b (length SA)) as [-> | D].
    + assert (Z0 : cnt (is_strong (length SA)) ST + cnt (is_weak (length SA)) ST + cnt (is_raw (length SA)) ST = 0).
      { pose proof (cnt_nonneg (is_strong (length SA)) ST). pose proof (cnt_nonneg (is_weak (length SA)) ST). pose proof (cnt_nonneg (is_raw (length SA)) ST).
        destruct (Z.eq_dec (cnt (is_strong (length SA)) ST + cnt (is_weak (length SA)) ST + cnt (is_raw (length SA)) ST) 0) as [Z|Z]; [exact Z|].
        destruct (used_handle ST (length SA)) as (j & y & M & Hy); [lia|]. pose proof (OLD j y M _ (proj2 Hy)). lia. }
      pose proof (cnt_nonneg (is_strong (length SA)) ST). pose proof (cnt_nonneg (is_weak (length SA)) ST). pose proof (cnt_nonneg (is_raw (length SA)) ST).
      rewrite AL. cbn [areg aval]. exists (MkBox v 1 1). cbn [bstrong bweak bval].
      assert (Q1 : is_strong (length SA) x' = true) by (rewrite E'; unfold is_strong; cbn [sk counts sst andb]; apply Nat.eqb_refl).
      assert (Q2 : is_weak (length SA) x' = false) by (rewrite E'; reflexivity).
      assert (Q3 : is_raw (length SA) x' = false) by (rewrite E'; reflexivity).
      rewrite !(cnt_upd _ _ _ _ _ N), O1, O2, O3, Q1, Q2, Q3. cbn [b2z].
      replace (cnt (is_strong (length SA)) ST) with 0 by lia. replace (cnt (is_weak (length SA)) ST) with 0 by lia.
      replace (cnt (is_raw (length SA)) ST) with 0 by lia.
      split; [exact HU|]. split; [reflexivity|]. split; [reflexivity|]. split; [auto|lia].
    + destruct (other_counts (length SA) b x') as (P1 & P2 & P3); [left; rewrite E'; reflexivity|congruence|].
      pose proof (c_box _ _ _ _ _ K b) as Bb. unfold box_ok in Bb. cbn zeta in Bb.
      rewrite !(cnt_upd _ _ _ _ _ N), O1, O2, O3, P1, P2, P3 in *. cbn [b2z] in *. rewrite !Z.sub_0_r, !Z.add_0_r in *.
      destruct (used_handle _ b U) as (j & y & M & Hy).
      assert (L : (b < length SA)%nat) by (apply (OLD j y M); apply (proj2 Hy)).
      assert (al SA' b = al SA b) as ->. { unfold al, SA'. rewrite app_nth1 by lia. reflexivity. }
      specialize (Bb U). rewrite HH; [exact Bb|].
      assert (j <> i). { intros ->. rewrite N in M. injection M as ->. destruct Hy as (_ & Hy). rewrite E in Hy. discriminate. }
      pose proof (AP j y H0 M (proj1 Hy)) as DJ. rewrite (kview_handle _ _ _ (proj2 Hy)) in DJ.
      assert (areg (al SA' b) = areg (al SA b)) as RB by (apply RG; lia). rewrite RB in DJ.
      pose proof (handle_nonempty _ _ _ _ _ _ _ _ V K M Hy) as P.
      intros Eq. apply (DJ (uptr u)). unfold in_block, region; cbn [start size]. lia.
Qed.
