(** * VBorrowPolite: programs that use references as the borrow checker allows have no undefined behaviour. *)
From Verif Require Import Base Spec BaseFacts SyncModel SyncProofs UninitModel UninitSpec UninitProofs FixedVecModel FixedVecSpec FixedVecProofs BorrowModel BorrowProofs BorrowWorld UBorrowModel EBorrowSlot RBorrowModel RBorrowSpec RBorrowBytes RBorrowOps RBorrowCalls RBorrowPolite VBorrowModel VBorrowSpec VBorrowTree VBorrowStep VBorrowLocal VBorrowInit VBorrowByte.

(** ** The invariant *)
Definition shareable (k : vview) : Prop := match w_st k with SBox _ | SVec _ _ | SDrain _ _ _ => True | _ => False end.
(** The elements that are still to be dropped *)
Definition rest_at (B : list nat) (k : vview) (stk : Z -> stack) : Prop :=
  match w_st k with
  | SDropping ty n d i _ => forall y, in_block (v_elems ty (uptr (w_u k) + i * lsize (q_lay ty)) (n - i)) y -> excl B d (stk y)
  | _ => True
  end.
Definition mode_at (B : list nat) (k : vview) (q : qmode) (stk : Z -> stack) : Prop :=
  match q with
  | MShared ns => forall n, In n ns -> shareable k /\ forall y kd, kind_at (live_refs k) y = Some kd -> sharing (w_base k) n kd (stk y)
  | MExcl n => forall y, in_block (live_blk k) y -> excl B n (stk y)
  end.
Record pinv (w : vworld) (ms : nat -> qmode) : Prop := {
  p_nodup : NoDup (vbusy w);
  p_lt : Forall (fun c => (c < vcalls w)%nat) (vbusy w);
  p_bok : forall i k, nth_error (vviews w) i = Some k -> gone k = false -> all_bok (w_blk k) (w_base k) (vsb w);
  p_items : forall y it c, In it (stk (vsb w) y) -> iprot it = Some c -> (c < vcalls w)%nat /\
    (In c (vbusy w) -> exists i k, nth_error (vviews w) i = Some k /\ running k = Some c /\ in_block (w_blk k) y);
  p_mode : forall i k, nth_error (vviews w) i = Some k -> gone k = false -> mode_at (vbusy w) k (ms i) (stk (vsb w));
  p_rest : forall i k, nth_error (vviews w) i = Some k -> gone k = false -> rest_at (vbusy w) k (stk (vsb w));
  p_lent : forall j k p, nth_error (vviews w) j = Some k -> gone k = false -> w_parent k = Some p -> ms p = MShared [];
  p_new : forall i, (length (vviews w) <= i)%nat -> ms i = MShared [] }.

Lemma running_gone k c : running k = Some c -> gone k = false.
Proof. unfold running, gone. destruct (w_st k); congruence. Qed.

Section Polite.
Variables (t : target).
Hypothesis V : valid_target t.

(** ** Places *)
Lemma live_in k : view_ok t k -> gone k = false -> inside (live_blk k) (w_blk k).
Proof.
  unfold view_ok, live_blk, gone. intros OK G. assert (Z0 : forall a b, inside (MkBlock a 0) b) by (intros a b y [Y1 Y2]; cbn in Y1, Y2; lia).
  destruct (w_st k) as [|ty|ty|ty|ty c|ty n|ty n c|ty n d|ty n d i r|]; try discriminate; try apply Z0.
  - apply sized_in. apply OK.
  - apply sized_in. apply OK.
  - apply sized_in. apply OK.
  - destruct OK as (T & W & N). pose proof (elems_in t V ty k 0 n W ltac:(lia) ltac:(lia)) as X. rewrite Z.mul_0_l, Z.add_0_r in X. exact X.
  - destruct OK as (T & W & N). apply (elem_in t V ty k n W). lia.
  - destruct OK as (T & W & N1 & N2 & N3 & N4 & N5 & N6). rewrite N3. unfold d_len.
    pose proof (elems_in t V ty k (n + dstart d) (dend d - dstart d) W ltac:(lia) ltac:(lia)) as X. rewrite Z.mul_add_distr_r, Z.add_assoc in X. exact X.
  - destruct r as [c|]; [|apply Z0]. destruct OK as (T & W & N1 & N2 & N3). specialize (N3 ltac:(discriminate)). apply (elem_in t V ty k (i - 1) W). lia.
Qed.
Lemma refs_apart ty base a : vtype_ok t ty -> apart (q_refs (MkQB a ty base)) = true.
Proof.
  intros (_ & _ & A & _). unfold q_refs. cbn [q_ty q_addr]. induction (q_parts ty) as [|p l IH]; [reflexivity|]. cbn [map apart] in *. apply andb_true_iff in A. destruct A as [A1 A2].
  apply andb_true_iff. split; [|apply IH; exact A2]. apply forallb_forall. intros q Q. apply in_map_iff in Q. destruct Q as (p' & <- & I). rewrite forallb_forall in A1.
  specialize (A1 (RShared, snd p') (in_map (fun p => (RShared, snd p)) l p' I)). cbn [snd start size] in *. apply Z.leb_le in A1. apply Z.leb_le. lia.
Qed.
Lemma refs_bounds ty base a q : vtype_ok t ty -> In q (q_refs (MkQB a ty base)) -> a <= start (snd q) /\ start (snd q) + size (snd q) <= a + lsize (q_lay ty) /\ fst q <> RUnique.
Proof.
  intros (_ & P & _) I. unfold q_refs in I. apply in_map_iff in I. destruct I as (p & <- & I). specialize (P p I). cbn [fst snd start size q_addr]. split; [lia|]. split; [lia|]. destruct (fst p); discriminate.
Qed.
Lemma slice_apart ty base a n : vtype_ok t ty -> apart (slice_refs ty base a n) = true.
Proof.
  intros T. unfold slice_refs. pose proof (type_layout_size _ _ (proj1 T)) as SZ. induction (Z.to_nat n) as [|m IH]; [reflexivity|]. cbn [upto]. rewrite flat_map_app. cbn [flat_map]. rewrite app_nil_r.
  apply apart_app; [exact IH|apply refs_apart; exact T|]. intros p q P Q. apply in_flat_map in P. destruct P as (i & I & P). apply upto_lt in I.
  apply (refs_bounds _ _ _ _ T) in P. apply (refs_bounds _ _ _ _ T) in Q.
  assert ((i + 1) * lsize (q_lay ty) <= Z.of_nat m * lsize (q_lay ty)) by (apply Z.mul_le_mono_nonneg_r; lia). lia.
Qed.
Lemma slice_kinds ty base a n q : vtype_ok t ty -> In q (slice_refs ty base a n) -> fst q <> RUnique.
Proof. intros T I. unfold slice_refs in I. apply in_flat_map in I. destruct I as (i & _ & I). apply (refs_bounds _ _ _ _ T) in I. apply I. Qed.
Lemma refs_cover ty base a y : vtype_ok t ty -> in_block (v_elem ty a 0) y -> exists q, In q (q_refs (MkQB a ty base)) /\ in_block (snd q) y.
Proof.
  intros (_ & _ & _ & CV) Y. unfold in_block, v_elem in Y. cbn [start size] in Y. rewrite Z.mul_0_l, Z.add_0_r in Y. destruct (CV (y - a) ltac:(lia)) as (p & I & X).
  exists (if fst p then RCell else RShared, MkBlock (a + start (snd p)) (size (snd p))). split; [apply in_map_iff; exists p; auto|]. unfold in_block in *. cbn [snd start size]. lia.
Qed.
Lemma upto_has n i : 0 <= i < Z.of_nat n -> In i (upto n).
Proof. induction n as [|n IH]; [lia|]. intros L. cbn [upto]. apply in_app_iff. destruct (Z.eq_dec i (Z.of_nat n)) as [-> | N]; [right; left; reflexivity|left; apply IH; lia]. Qed.
Lemma slice_cover ty base a n y : vtype_ok t ty -> in_block (v_elems ty a n) y -> exists q, In q (slice_refs ty base a n) /\ in_block (snd q) y.
Proof.
  intros T Y. pose proof (type_layout_size _ _ (proj1 T)) as SZ. unfold in_block, v_elems in Y. cbn [start size] in Y.
  assert (P : 0 < lsize (q_lay ty)). { destruct (Z.eq_dec (lsize (q_lay ty)) 0) as [Z0|Z0]; [rewrite Z0, Z.mul_0_r in Y; lia|lia]. } set (i := (y - a) / lsize (q_lay ty)). pose proof (Z.div_mod (y - a) (lsize (q_lay ty)) ltac:(lia)) as DM. pose proof (Z.mod_pos_bound (y - a) _ P) as MB. fold i in DM.
  assert (I0 : 0 <= i) by (apply Z.div_pos; lia). assert (I1 : i < n). { apply Z.nle_gt. intros X. assert (n * lsize (q_lay ty) <= i * lsize (q_lay ty)) by (apply Z.mul_le_mono_nonneg_r; lia). lia. }
  destruct (refs_cover ty base (a + i * lsize (q_lay ty)) y T) as (q & Q & X); [unfold in_block, v_elem; cbn [start size]; nia|].
  exists q. split; [|exact X]. unfold slice_refs. apply in_flat_map. exists i. split; [apply upto_has; lia|exact Q].
Qed.
Lemma live_refs_ok k : view_ok t k -> apart (live_refs k) = true /\ (forall q, In q (live_refs k) -> fst q <> RUnique) /\ Forall (fun q => inside (snd q) (live_blk k)) (live_refs k).
Proof.
  unfold view_ok, live_refs, live_blk. intros OK.
  destruct (w_st k) as [|ty|ty|ty|ty c|ty n|ty n c|ty n d|ty n d i r|]; try (split; [reflexivity|]; split; [intros q []|constructor]).
  - destruct OK as (T & _). split; [apply refs_apart; exact T|]. split; [intros q Q; apply (refs_bounds _ _ _ _ T Q)|]. apply (refs_in t), T.
  - destruct OK as (T & _). split; [apply slice_apart; exact T|]. split; [intros q; apply slice_kinds; exact T|]. apply (slice_in t); [exact T|apply inside_self].
  - destruct OK as (T & _). split; [apply slice_apart; exact T|]. split; [intros q; apply slice_kinds; exact T|]. apply (slice_in t); [exact T|apply inside_self].
Qed.
Lemma live_kind k y : view_ok t k -> shareable k -> in_block (live_blk k) y -> exists kd, kind_at (live_refs k) y = Some kd /\ kd <> RUnique.
Proof.
  intros OK S0 Y. destruct (live_refs_ok k OK) as (A & NU & _).
  assert (X : exists q, In q (live_refs k) /\ in_block (snd q) y).
  { unfold view_ok in OK. unfold live_refs, live_blk, shareable in *. destruct (w_st k); try contradiction; [apply refs_cover|apply slice_cover|apply slice_cover]; try exact Y; apply OK. }
  destruct X as ([kd c] & I & Yc). exists kd. split; [exact (kind_has (fun _ => None) _ _ _ _ A I Yc)|exact (NU _ I)].
Qed.
Lemma rest_in k : view_ok t k -> match w_st k with SDropping ty n d i _ => inside (v_elems ty (uptr (w_u k) + i * lsize (q_lay ty)) (n - i)) (w_blk k) | _ => True end.
Proof.
  unfold view_ok. destruct (w_st k) as [|ty|ty|ty|ty c|ty n|ty n c|ty n d|ty n d i r|]; auto. intros (T & W & N1 & N2 & N3). apply (elems_in t V ty k i (n - i) W); lia.
Qed.

(** ** Other regions *)
Lemma mode_busy B B' k q stk : view_ok t k -> gone k = false -> (forall y i c, in_block (w_blk k) y -> In i (stk y) -> iprot i = Some c -> In c B' -> In c B) -> mode_at B k q stk -> mode_at B' k q stk.
Proof. intros OK G H. destruct q as [ns|n]; cbn [mode_at]; [auto|]. intros M y Y. apply (excl_busy B); [|exact (M y Y)]. intros i c. apply H. exact (live_in k OK G y Y). Qed.
Lemma rest_busy B B' k stk : view_ok t k -> (forall y i c, in_block (w_blk k) y -> In i (stk y) -> iprot i = Some c -> In c B' -> In c B) -> rest_at B k stk -> rest_at B' k stk.
Proof.
  intros OK H. pose proof (rest_in k OK) as R. unfold rest_at. destruct (w_st k); auto. intros M y Y. apply (excl_busy B); [|exact (M y Y)]. intros j c. apply H. exact (R y Y).
Qed.
Lemma mode_stk B k q s s' : view_ok t k -> gone k = false -> (forall y, in_block (w_blk k) y -> s' y = s y) -> mode_at B k q s -> mode_at B k q s'.
Proof.
  intros OK G H. pose proof (live_in k OK G) as L. destruct (live_refs_ok k OK) as (_ & _ & LR). destruct q as [ns|n]; cbn [mode_at]; intros M.
  - intros n I. destruct (M n I) as [S0 M1]. split; [exact S0|]. intros y kd K. rewrite H; [exact (M1 y kd K)|]. destruct (kind_part _ _ _ K) as (c & IC & Y). rewrite Forall_forall in LR. apply L, (LR _ IC), Y.
  - intros y Y. rewrite H; [exact (M y Y)|apply L, Y].
Qed.
Lemma rest_stk B k s s' : view_ok t k -> (forall y, in_block (w_blk k) y -> s' y = s y) -> rest_at B k s -> rest_at B k s'.
Proof.
  intros OK H. pose proof (rest_in k OK) as R. unfold rest_at. destruct (w_st k); auto. intros M y Y. rewrite H; [exact (M y Y)|apply R, Y].
Qed.

(** A region that overlaps with one that can be used has lent it. *)
Lemma anc_child vs i v k : vinv t vs -> nth_error vs v = Some k -> gone k = false -> anc vs i v -> exists j kj, nth_error vs j = Some kj /\ gone kj = false /\ w_parent kj = Some i.
Proof.
  intros I E G A. revert k E G. induction A as [v P|v m A IH P]; intros k E G; unfold par in P; rewrite E in P; [eauto|].
  destruct (t_par _ _ I _ _ _ E G P) as (kp & ty & n & Ep & Sp & _). apply (IH kp Ep). unfold gone. rewrite Sp. reflexivity.
Qed.
Lemma others w ms v k i ki : vinv t (vviews w) -> pinv w ms -> usable_at (vviews w) v = Some k -> nth_error (vviews w) i = Some ki -> gone ki = false -> i <> v ->
  disjoint (w_blk ki) (w_blk k) \/ ms i = MShared [] /\ exists ty n, w_st ki = SVec ty n.
Proof.
  intros I P U E G N. pose proof (proj1 (usable_spec _ _ _) U) as (Ev & Gv & C).
  destruct (existsb (borrows i) (vviews w)) eqn:X.
  - right. apply existsb_exists in X. destruct X as (kj & IJ & BJ). apply borrows_iff in BJ. destruct BJ as [GJ PJ]. apply In_nth_error in IJ. destruct IJ as [j EJ].
    split; [exact (p_lent _ _ P _ _ _ EJ GJ PJ)|]. destruct (t_par _ _ I _ _ _ EJ GJ PJ) as (kp & ty & n & Ep & Sp & _). rewrite E in Ep. injection Ep as <-. eauto.
  - left. assert (U2 : usable_at (vviews w) i = Some ki) by (unfold usable_at; rewrite E, G, X; reflexivity).
    intros y [Y1 Y2]. apply N. exact (usable_sep _ _ _ _ _ _ _ I U2 U Y1 Y2).
Qed.
Lemma base_same w ms i j ki kj y : pinv w ms -> nth_error (vviews w) i = Some ki -> nth_error (vviews w) j = Some kj -> gone ki = false -> gone kj = false ->
  in_block (w_blk ki) y -> in_block (w_blk kj) y -> w_base ki = w_base kj.
Proof.
  intros P E1 E2 G1 G2 Y1 Y2. pose proof (proj2 (p_bok _ _ P _ _ E1 G1) y Y1) as [A _]. pose proof (proj2 (p_bok _ _ P _ _ E2 G2) y Y2) as [B _]. exact (ends_same _ _ _ A B).
Qed.
(** No destructor is running in a region that can be used, but its own. *)
Lemma quiet_at w ms v k y : vinv t (vviews w) -> pinv w ms -> usable_at (vviews w) v = Some k -> running k = None -> in_block (w_blk k) y -> quiet (vbusy w) (stk (vsb w) y).
Proof.
  intros I P U R Y. apply Forall_forall. intros it IT c E B. destruct (proj2 (p_items _ _ P _ _ _ IT E) B) as (i & ki & Ei & Ri & Yi). pose proof (running_gone _ _ Ri) as Gi.
  destruct (Nat.eq_dec i v) as [-> | N].
  - pose proof (proj1 (usable_spec _ _ _) U) as (Ev & _). rewrite Ev in Ei. injection Ei as <-. congruence.
  - destruct (others w ms v k i ki I P U Ei Gi N) as [D|(_ & ty & n & S0)]; [exact (D y (conj Yi Y))|]. unfold running in Ri. rewrite S0 in Ri. discriminate.
Qed.

(** ** Steps *)
Lemma p_put w ms v k k' s' B' C' ms' p : vinv t (vviews w) -> pinv w ms -> usable_at (vviews w) v = Some k ->
  w_base k' = w_base k -> w_parent k' = w_parent k -> (gone k' = false -> view_ok t k' /\ inside (w_blk k') (w_blk k)) ->
  steps (w_blk k) (w_base k) p (vsb w) s' -> (vcalls w <= C')%nat -> NoDup B' -> Forall (fun c => (c < C')%nat) B' -> (forall c, In c B' -> In c (vbusy w) \/ (vcalls w <= c)%nat) ->
  (forall c, p = Some c -> (c < C')%nat /\ running k' = Some c) -> (forall c, running k = Some c -> In c B' -> running k' = Some c) -> (forall c, running k' = Some c -> w_u k' = w_u k) ->
  (gone k' = false -> mode_at B' k' (ms' v) (stk s') /\ rest_at B' k' (stk s')) -> (forall i, i <> v -> ms' i = ms i) ->
  pinv (MkVWorld s' (set_nth (vviews w) v k') B' C') ms'.
Proof.
  intros I P U PB PP OK ST LC ND LT BU NP RK RU MD MS. pose proof (proj1 (usable_spec _ _ _) U) as (E & G & C).
  assert (PN : forall i ki, nth_error (set_nth (vviews w) v k') i = Some ki -> i = v /\ ki = k' \/ i <> v /\ nth_error (vviews w) i = Some ki).
  { intros i ki X. destruct (Nat.eq_dec i v) as [-> | N]; [left|right]; [rewrite (set_nth_nth _ _ _ _ E) in X; split; congruence|rewrite set_nth_ne in X by auto; auto]. }
  assert (OLD : forall y it c, In it (stk (vsb w) y) -> iprot it = Some c -> In c B' -> In c (vbusy w)).
  { intros y it c IT Ec X. destruct (BU c X) as [|L]; [assumption|]. pose proof (proj1 (p_items _ _ P _ _ _ IT Ec)). lia. }
  assert (UN : forall i ki y, i <> v -> nth_error (vviews w) i = Some ki -> gone ki = false -> disjoint (w_blk ki) (w_blk k) -> in_block (w_blk ki) y -> stk s' y = stk (vsb w) y).
  { intros i ki y N X GI D Y. apply (st_out _ _ _ _ _ ST). intros Z0. exact (D y (conj Y Z0)). }
  constructor; cbn [vbusy vcalls vviews vsb].
  - exact ND.
  - exact LT.
  - intros i ki X GI. destruct (PN _ _ X) as [[-> ->]|[N X2]].
    + rewrite PB. destruct (st_bok _ _ _ _ _ ST) as [K1 K2]. split; [exact K1|]. intros y Y. apply K2, (proj2 (OK GI)), Y.
    + destruct (p_bok _ _ P _ _ X2 GI) as [K1 K2]. pose proof (st_next _ _ _ _ _ ST) as LN. split; [lia|]. intros y Y. destruct (inb (w_blk k) y) eqn:Z0.
      * apply inb_iff in Z0. rewrite (base_same w ms i v ki k y P X2 E GI G Y Z0). apply (st_bok _ _ _ _ _ ST), Z0.
      * rewrite (st_out _ _ _ _ _ ST) by (rewrite <- inb_iff; congruence). eapply bok_more; [exact LN|exact (K2 y Y)].
  - intros y it c IT Ec.
    assert (D : (exists j, In j (stk (vsb w) y) /\ iprot j = Some c) \/ p = Some c /\ in_block (w_blk k) y).
    { destruct (inb (w_blk k) y) eqn:Z0.
      - apply inb_iff in Z0. destruct (st_prots _ _ _ _ _ ST y Z0 it c IT Ec); auto.
      - rewrite (st_out _ _ _ _ _ ST) in IT by (rewrite <- inb_iff; congruence). left. eauto. }
    destruct D as [(j & J1 & J2)|[-> Y]].
    + destruct (p_items _ _ P _ _ _ J1 J2) as [L A]. split; [lia|]. intros X. destruct (A (OLD _ _ _ J1 J2 X)) as (i & ki & Ei & Ri & Yi). destruct (Nat.eq_dec i v) as [-> | N].
      * rewrite E in Ei. injection Ei as <-. pose proof (RK c Ri X) as R2. exists v, k'. split; [exact (set_nth_nth _ _ _ _ E)|]. split; [exact R2|]. unfold w_blk in *. rewrite (RU c R2). exact Yi.
      * exists i, ki. rewrite set_nth_ne by auto. auto.
    + destruct (NP c eq_refl) as [L R2]. split; [exact L|]. intros _. exists v, k'. split; [exact (set_nth_nth _ _ _ _ E)|]. split; [exact R2|]. unfold w_blk in *. rewrite (RU c R2). exact Y.
  - intros i ki X GI. destruct (PN _ _ X) as [[-> ->]|[N X2]]; [apply MD, GI|]. rewrite (MS i N). pose proof (p_mode _ _ P _ _ X2 GI) as M. pose proof (t_ok _ _ I _ _ X2 GI) as OKi.
    destruct (others w ms v k i ki I P U X2 GI N) as [D|[Q _]]; [|rewrite Q; intros n []].
    apply (mode_busy (vbusy w)); [exact OKi|exact GI| |apply (mode_stk _ _ _ (stk (vsb w))); [exact OKi|exact GI| |exact M]].
    + intros y it c Y IT Ec. rewrite (UN i ki y N X2 GI D Y) in IT. exact (OLD y it c IT Ec).
    + intros y Y. exact (UN i ki y N X2 GI D Y).
  - intros i ki X GI. destruct (PN _ _ X) as [[-> ->]|[N X2]]; [apply MD, GI|]. pose proof (p_rest _ _ P _ _ X2 GI) as M. pose proof (t_ok _ _ I _ _ X2 GI) as OKi.
    destruct (others w ms v k i ki I P U X2 GI N) as [D|(_ & ty & n & S0)]; [|unfold rest_at; rewrite S0; exact Logic.I].
    apply (rest_busy (vbusy w)); [exact OKi| |apply (rest_stk _ _ (stk (vsb w))); [exact OKi| |exact M]].
    + intros y it c Y IT Ec. rewrite (UN i ki y N X2 GI D Y) in IT. exact (OLD y it c IT Ec).
    + intros y Y. exact (UN i ki y N X2 GI D Y).
  - intros j kj q X GJ Q.
    assert (X2 : exists j2 kj2, nth_error (vviews w) j2 = Some kj2 /\ gone kj2 = false /\ w_parent kj2 = Some q).
    { destruct (PN _ _ X) as [[-> ->]|[N X2]]; [exists v, k; rewrite <- PP; auto|eauto]. }
    destruct X2 as (j2 & kj2 & X2 & G2 & Q2). rewrite MS; [exact (p_lent _ _ P _ _ _ X2 G2 Q2)|]. intros ->. pose proof (C j2 kj2 X2) as Y. rewrite (proj2 (borrows_iff v kj2)) in Y; [discriminate|auto].
  - intros i L. rewrite set_nth_length in L. rewrite MS; [exact (p_new _ _ P i L)|]. intros ->. assert (v < length (vviews w))%nat by (apply nth_error_Some; congruence). lia.
Qed.
Definition end_refs (ms : nat -> qmode) (v : nat) : nat -> qmode := fun v' => if Nat.eqb v' v then MShared [] else ms v'.
Lemma p_weak w ms v : pinv w ms -> pinv w (end_refs ms v).
Proof.
  intros [P1 P2 P3 P4 P5 P6 P7 P8]. unfold end_refs. constructor; auto.
  - intros i k E G. destruct (Nat.eqb i v); [intros n []|exact (P5 i k E G)].
  - intros j k q E G Q. destruct (Nat.eqb q v); [reflexivity|exact (P7 _ _ _ E G Q)].
  - intros i L. destruct (Nat.eqb i v); [reflexivity|exact (P8 i L)].
Qed.
End Polite.
