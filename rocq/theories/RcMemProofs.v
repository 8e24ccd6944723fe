(** * RcMemProofs: the byte-level Rc behaves like the one with boxes. *)
From Verif Require Import Base Spec BaseFacts SyncProofs UninitModel UninitSpec UninitProofs SyncMemModel SyncMemSpec SyncMemProofs
  UnsyncModel ExitModel ExitProofs RcModel RcSpec RcProofs RcRefine RcMore RcMemModel RcMemSpec.

(** ** One box *)
Definition box_in (code : list (option Z) -> rvalue) (t : target) (l : layout) (p : Z) (m : mem) (b : rcbox) : Prop :=
  code (get_value l p m) = bval b /\ get_strong t l p m = Some (bstrong b) /\ get_weak t l p m = Some (bweak b) /\
  is_usize t (bstrong b) /\ is_usize t (bweak b).

Lemma offs t l : valid_target t -> type_layout t l ->
  0 <= lsize l <= rc_strong_off t l /\ rc_strong_off t l + word_bytes t <= rc_weak_off t l /\
  rc_weak_off t l + word_bytes t <= lsize (rc_layout t l) /\ 0 < word_bytes t.
Proof.
  intros V TL. pose proof (usize_align_pos t V) as U. pose proof (word_pos t V) as W. pose proof (rc_layout_facts t l V TL) as F.
  assert (0 < rc_align t l) by (unfold rc_align; lia).
  pose proof (align_up_ge (lsize l) _ U). pose proof (align_up_ge (rc_strong_off t l + word_bytes t) _ U).
  pose proof (align_up_ge (rc_weak_off t l + word_bytes t) (rc_align t l)). unfold rc_layout; cbn [lsize]. 
  destruct TL as ((P & _) & _). unfold rc_strong_off, rc_weak_off in *. lia.
Qed.

Definition box_block (t : target) (l : layout) (p : Z) : block := MkBlock p (lsize (rc_layout t l)).

Lemma box_same code t l p m m' b : valid_target t -> type_layout t l ->
  (forall x, p <= x < p + lsize (rc_layout t l) -> m' x = m x) -> box_in code t l p m b -> box_in code t l p m' b.
Proof.
  intros V TL S (A & B & C & D). destruct (offs t l V TL) as (O1 & O2 & O3 & O4). unfold box_in, get_value, get_strong, get_weak, strong_at, weak_at in *.
  rewrite (load_usize_same t m m'), (load_usize_same t m m'); try (intros; apply S; lia); auto.
  rewrite (mem_read_same m m'); auto. intros x Hx. apply S. lia.
Qed.

Lemma store_out t m p x y : valid_target t -> ~ (p <= y < p + word_bytes t) -> store_usize t m p x y = m y.
Proof. intros V H. apply (store_outside t m p x V). unfold in_block. cbn [start size]. exact H. Qed.

Lemma write_out m p bs y : ~ (p <= y < p + Z.of_nat (length bs)) -> mem_write m p bs y = m y.
Proof. intros H. apply (mem_write_outside m p bs (Z.of_nat (length bs))); [lia|]. unfold in_block. cbn [start size]. exact H. Qed.

Lemma box_set_strong code t l p m b x : valid_target t -> type_layout t l -> is_usize t x -> box_in code t l p m b ->
  box_in code t l p (store_usize t m (strong_at t l p) x) {| bval := bval b; bstrong := x; bweak := bweak b |}.
Proof.
  intros V TL U (A & B & C & D1 & D2). destruct (offs t l V TL) as (O1 & O2 & O3 & O4). unfold box_in, get_value, get_strong, get_weak, strong_at, weak_at in *.
  cbn [bval bstrong bweak]. split; [|split; [apply store_load; assumption|split; [|split; assumption]]].
  - rewrite (mem_read_same m); [exact A|]. intros y Y. apply store_out; [exact V|lia].
  - rewrite (load_usize_same t m); [exact C|exact V|]. intros y Y. apply store_out; [exact V|lia].
Qed.

Lemma box_set_weak code t l p m b x : valid_target t -> type_layout t l -> is_usize t x -> box_in code t l p m b ->
  box_in code t l p (store_usize t m (weak_at t l p) x) {| bval := bval b; bstrong := bstrong b; bweak := x |}.
Proof.
  intros V TL U (A & B & C & D1 & D2). destruct (offs t l V TL) as (O1 & O2 & O3 & O4). unfold box_in, get_value, get_strong, get_weak, strong_at, weak_at in *.
  cbn [bval bstrong bweak]. split; [|split; [|split; [apply store_load; assumption|split; assumption]]].
  - rewrite (mem_read_same m); [exact A|]. intros y Y. apply store_out; [exact V|lia].
  - rewrite (load_usize_same t m); [exact B|exact V|]. intros y Y. apply store_out; [exact V|lia].
Qed.

Lemma box_set_value code t l p m b bs : valid_target t -> type_layout t l -> Z.of_nat (length bs) = lsize l -> box_in code t l p m b ->
  box_in code t l p (mem_write m p bs) {| bval := code bs; bstrong := bstrong b; bweak := bweak b |}.
Proof.
  intros V TL L (A & B & C & D1 & D2). destruct (offs t l V TL) as (O1 & O2 & O3 & O4). unfold box_in, get_value, get_strong, get_weak, strong_at, weak_at in *.
  cbn [bval bstrong bweak]. split; [|split; [|split; [|split; assumption]]].
  - rewrite <- L. rewrite (reads_mem_read _ _ bs (mem_write_reads m p bs)). reflexivity.
  - rewrite (load_usize_same t m); [exact B|exact V|]. intros y Y. apply write_out; lia.
  - rewrite (load_usize_same t m); [exact C|exact V|]. intros y Y. apply write_out; lia.
Qed.

Lemma one_usize t : valid_target t -> is_usize t 1.
Proof. intros V. pose proof (word_pos t V). unfold is_usize, usize_max, addr_space in *. assert (2 ^ 8 <= 2 ^ (8 * word_bytes t)) by (apply Z.pow_le_mono_r; lia). lia. Qed.

Lemma box_new code t l p m bs : valid_target t -> type_layout t l -> Z.of_nat (length bs) = lsize l ->
  box_in code t l p (write_box t l p bs m) {| bval := code bs; bstrong := 1; bweak := 1 |}.
Proof.
  intros V TL L. destruct (offs t l V TL) as (O1 & O2 & O3 & O4). unfold write_box. pose proof (one_usize t V) as ONE.
  unfold box_in, get_value, get_strong, get_weak in *. cbn [bval bstrong bweak]. split; [|split; [|split; [apply store_load; assumption|split; assumption]]].
  - rewrite (mem_read_same (mem_write (mem_fill m p (lsize (rc_layout t l)) None) p bs)).
    + rewrite <- L. rewrite (reads_mem_read _ _ bs (mem_write_reads _ p bs)). reflexivity.
    + intros y Y. unfold strong_at, weak_at. rewrite !store_out; [reflexivity|exact V|lia|exact V|lia].
  - rewrite (load_usize_same t (store_usize t (mem_write (mem_fill m p (lsize (rc_layout t l)) None) p bs) (strong_at t l p) 1)); [apply store_load; assumption|exact V|].
    intros y Y. apply store_out; [exact V|]. unfold strong_at, weak_at in *. lia.
Qed.

Lemma write_box_out t l p m bs : valid_target t -> type_layout t l -> Z.of_nat (length bs) = lsize l ->
  forall y, ~ (p <= y < p + lsize (rc_layout t l)) -> write_box t l p bs m y = m y.
Proof.
  intros V TL L y Y. destruct (offs t l V TL) as (O1 & O2 & O3 & O4). unfold write_box, strong_at, weak_at. rewrite !store_out by (auto; lia).
  rewrite write_out by lia. unfold mem_fill. destruct (Z.leb_spec p y), (Z.ltb_spec y (p + lsize (rc_layout t l))); cbn; try reflexivity. lia.
Qed.

(** ** The functions on one box *)
Definition in_step code t l p m (f : outcome rcbox) (r : option (outcome mem)) : Prop :=
  match f, r with
  | Ret b', Some (Ret m') => box_in code t l p m' b' /\ (forall y, ~ (p <= y < p + lsize (rc_layout t l)) -> m' y = m y)
  | Panic e, Some (Panic e') => e = e'
  | _, _ => False
  end.

Lemma op_add_usize t e x y : is_usize t x -> op_add t e x 1 = Ret y -> is_usize t y.
Proof.
  unfold is_usize, op_add. intros X. destruct (Z.leb_spec (x + 1) (usize_max t)); [intros [= <-]; lia|].
  destruct (debug t); [discriminate|]. intros [= <-]. unfold wrap, usize_max in *. pose proof (Z.mod_pos_bound (x + 1) (addr_space t) ltac:(lia)). lia.
Qed.
Lemma op_sub_usize t e x y : is_usize t x -> op_sub t e x 1 = Ret y -> is_usize t y.
Proof.
  unfold is_usize, op_sub. intros X. destruct (Z.leb_spec 1 x); [intros [= <-]; lia|].
  destruct (debug t); [discriminate|]. intros [= <-]. unfold wrap, usize_max in *. pose proof (Z.mod_pos_bound (x - 1) (addr_space t) ltac:(lia)). lia.
Qed.

Ltac outside V TL := let y := fresh in let Y := fresh in intros y Y; destruct (offs _ _ V TL) as (? & ? & ? & ?); apply store_out; [exact V|unfold strong_at, weak_at; lia].

Lemma in_inc_strong code t l p m b : valid_target t -> type_layout t l -> box_in code t l p m b ->
  in_step code t l p m (inc_strong t b) (cell_inc t (strong_at t l p) m).
Proof.
  intros V TL B. pose proof B as (_ & B1 & _ & B3 & _). unfold cell_inc, inc_strong. unfold get_strong in B1. rewrite B1.
  destruct (op_add t PN_rc (bstrong b) 1) as [x|e] eqn:E; unfold in_step; cbn [obind]; [|reflexivity]. split; [|outside V TL].
  apply box_set_strong; auto. eapply op_add_usize; eauto.
Qed.
Lemma in_inc_weak code t l p m b : valid_target t -> type_layout t l -> box_in code t l p m b ->
  in_step code t l p m (inc_weak t b) (cell_inc t (weak_at t l p) m).
Proof.
  intros V TL B. pose proof B as (_ & _ & B1 & _ & B3). unfold cell_inc, inc_weak. unfold get_weak in B1. rewrite B1.
  destruct (op_add t PN_rc (bweak b) 1) as [x|e] eqn:E; unfold in_step; cbn [obind]; [|reflexivity]. split; [|outside V TL].
  apply box_set_weak; auto. eapply op_add_usize; eauto.
Qed.
Lemma in_dec_strong code t l p m b : valid_target t -> type_layout t l -> box_in code t l p m b ->
  in_step code t l p m (dec_strong t b) (cell_dec t (strong_at t l p) m).
Proof.
  intros V TL B. pose proof B as (_ & B1 & _ & B3 & _). unfold cell_dec, dec_strong. unfold get_strong in B1. rewrite B1.
  destruct (op_sub t PN_rc (bstrong b) 1) as [x|e] eqn:E; unfold in_step; cbn [obind]; [|reflexivity]. split; [|outside V TL].
  apply box_set_strong; auto. eapply op_sub_usize; eauto.
Qed.
Lemma in_dec_weak code t l p m b : valid_target t -> type_layout t l -> box_in code t l p m b ->
  in_step code t l p m (dec_weak t b) (cell_dec t (weak_at t l p) m).
Proof.
  intros V TL B. pose proof B as (_ & _ & B1 & _ & B3). unfold cell_dec, dec_weak. unfold get_weak in B1. rewrite B1.
  destruct (op_sub t PN_rc (bweak b) 1) as [x|e] eqn:E; unfold in_step; cbn [obind]; [|reflexivity]. split; [|outside V TL].
  apply box_set_weak; auto. eapply op_sub_usize; eauto.
Qed.

Definition in_step2 code t l p m (f : rcbox * outcome bool) (r : option (mem * outcome bool)) : Prop :=
  match r with
  | Some (m', o) => o = snd f /\ box_in code t l p m' (fst f) /\ (forall y, ~ (p <= y < p + lsize (rc_layout t l)) -> m' y = m y)
  | None => False
  end.

Lemma in_rc_drop code t l p m b : valid_target t -> type_layout t l -> box_in code t l p m b ->
  in_step2 code t l p m (rc_drop t b) (x_rc_drop t l p m).
Proof.
  intros V TL B. pose proof (in_dec_strong code t l p m b V TL B) as S. unfold rc_drop, x_rc_drop. unfold in_step in S.
  destruct (dec_strong t b) as [b1|e], (cell_dec t (strong_at t l p) m) as [[m1|e']|]; try contradiction.
  2: { subst. cbn. auto. }
  destruct S as (B1 & F1). pose proof B1 as (_ & G & _). rewrite G. destruct (bstrong b1 =? 0).
  - pose proof (in_dec_weak code t l p m1 b1 V TL B1) as S2. unfold in_step in S2.
    destruct (dec_weak t b1) as [b2|e], (cell_dec t (weak_at t l p) m1) as [[m2|e']|]; try contradiction.
    + destruct S2 as (B2 & F2). cbn. split; [reflexivity|]. split; [exact B2|]. intros y Y. rewrite F2, F1; auto.
    + subst. cbn. auto.
  - cbn. auto.
Qed.

Lemma in_upgrade code t l p m b : valid_target t -> type_layout t l -> box_in code t l p m b ->
  in_step2 code t l p m (weak_upgrade t b) (x_upgrade t l p m).
Proof.
  intros V TL B. pose proof B as (_ & G & _). unfold weak_upgrade, x_upgrade. rewrite G. destruct (bstrong b =? 0); [cbn; auto|].
  pose proof (in_inc_strong code t l p m b V TL B) as S. unfold in_step in S.
  destruct (inc_strong t b) as [b1|e], (cell_inc t (strong_at t l p) m) as [[m1|e']|]; try contradiction.
  - destruct S. cbn. auto.
  - subst. pose proof (in_rc_drop code t l p m b V TL B) as S2. unfold in_step2 in S2. destruct (x_rc_drop t l p m) as [[m1 o]|]; [|contradiction].
    destruct S2 as (_ & B2 & F2). cbn. auto.
Qed.

Lemma in_unique code t l p m b : box_in code t l p m b -> x_is_unique t l p m = Some (is_unique b).
Proof. intros (_ & B & C & _). unfold x_is_unique, is_unique. rewrite B, C. destruct (bstrong b =? 1); reflexivity. Qed.
Lemma in_unique_mem code t l p m b : box_in code t l p m b -> x_is_unique_to_memory t l p m = Some (is_unique_to_rc_memory b).
Proof. intros (_ & B & C & _). unfold x_is_unique_to_memory, is_unique_to_rc_memory. rewrite B, C. destruct (bstrong b =? 0); reflexivity. Qed.

(** ** The simulation *)
Definition handle (k : token) : Prop := tstat k <> Gone /\ tkind k <> KMem.

Definition boxes (code : list (option Z) -> rvalue) (t : target) (T : list token) (H : Z -> option rcbox) (m : mem) : Prop :=
  (forall i k, nth_error T i = Some k -> handle k -> exists b, H (addr k) = Some b /\ box_in code t (tlay k) (addr k) m b) /\
  (forall i j k k', nth_error T i = Some k -> nth_error T j = Some k' -> handle k -> handle k' -> addr k = addr k' -> tlay k = tlay k').

Definition xrel code t (x : xstate) (s : rstate) : Prop :=
  xtoks x = rtoks s /\ xdropping x = rdropping s /\ xlog x = rlog s /\ boxes code t (rtoks s) (rheap s) (xmem x).

(** What [rel] knows about a token *)
Lemma rel_handle t s p i k : rel t s p -> nth_error (rtoks s) i = Some k -> handle k ->
  type_layout t (tlay k) /\ v_fits (tview k) (rc_layout t (tlay k)) = true /\ (exists b, rheap s (addr k) = Some b) /\ umeta (tview k) = 0.
Proof.
  intros (K & _) N (H1 & H2).
  assert (exists x, nth_error (stoks p) i = Some x /\ tok_rel t (sallocs p) k x) as (x & NX & (T1 & T2 & T3 & T4 & T5)).
  { destruct K as [F _ _]. revert i N. induction F; intros [|i] N; try discriminate; cbn in *; eauto. injection N as ->. eauto. }
  assert (CX : counts x = true) by (unfold counts; rewrite <- T1; destruct (tstat k); congruence).
  destruct (hall (sk x)) as [a|] eqn:Ha; [|destruct (sk x); cbn in *; congruence]. destruct T5 as (_ & T5 & T6).
  split; [exact T5|]. split; [exact T6|]. split; [|apply T4; exact CX]. pose proof (c_box _ _ _ _ _ K a) as B. unfold box_ok in B. cbn zeta in B.
  pose proof (handle_used (stoks p) a i x NX (conj CX Ha)). destruct B as (b & B & _); [lia|].
  exists b. unfold addr. rewrite T3, (kview_handle _ _ _ Ha). exact B.
Qed.

Lemma fits_in_region t l u : valid_target t -> type_layout t l -> v_fits u (rc_layout t l) = true -> lsize (rc_layout t l) <= ulen u.
Proof. intros V TL F. destruct (rc_layout_facts t l V TL) as (_ & _ & _ & P & _). apply v_fits_iff in F; [lia|exact P]. Qed.

Definition comes_from (T T' : list token) : Prop :=
  forall j k', nth_error T' j = Some k' -> handle k' -> exists j0 k0, nth_error T j0 = Some k0 /\ handle k0 /\ addr k' = addr k0 /\ tlay k' = tlay k0.

(** A step that writes only into the box of token [i]. *)
Lemma boxes_step code t s p i k T' H' m m' d' l' p' :
  valid_target t -> rel t s p -> nth_error (rtoks s) i = Some k -> handle k ->
  boxes code t (rtoks s) (rheap s) m ->
  (forall y, ~ (addr k <= y < addr k + lsize (rc_layout t (tlay k))) -> m' y = m y) ->
  (forall q, q <> addr k -> H' q = rheap s q) ->
  (forall b, H' (addr k) = Some b -> box_in code t (tlay k) (addr k) m' b) ->
  comes_from (rtoks s) T' -> rel t (MkR T' H' d' l') p' ->
  boxes code t T' H' m'.
Proof.
  intros V R N HK (B1 & B2) FR HO HB CF R'. split.
  - intros j k' Nj Hk'. destruct (rel_handle t _ p' j k' R' Nj Hk') as (_ & _ & (b & Hb) & _). cbn [rheap] in Hb. exists b. split; [exact Hb|].
    destruct (CF j k' Nj Hk') as (j0 & k0 & N0 & H0 & A0 & L0). rewrite A0, L0 in *.
    destruct (Z.eq_dec (addr k0) (addr k)) as [E|E].
    + rewrite E in *. rewrite (B2 j0 i k0 k N0 N H0 HK E). apply HB. exact Hb.
    + destruct (B1 j0 k0 N0 H0) as (b0 & Q & BI). rewrite HO in Hb by exact E. rewrite Hb in Q. injection Q as ->.
      destruct (rel_handle t s p j0 k0 R N0 H0) as (TL0 & F0 & _). destruct (rel_handle t s p i k R N HK) as (TL & F & _).
      eapply box_same; [exact V|exact TL0| |exact BI]. intros y Y. apply FR. intros Y2.
      destruct (Nat.eq_dec j0 i) as [->|D]; [rewrite N in N0; injection N0 as ->; congruence|].
      destruct H0 as (G0 & _), HK as (G & _).
      destruct (rel_apart t s p j0 i k0 k R D N0 N G0 G) as [DJ|(EQ & _)].
      * pose proof (fits_in_region t _ _ V TL0 F0). pose proof (fits_in_region t _ _ V TL F). apply (DJ y). split; unfold in_block, region; cbn [start size]; unfold addr in *; lia.
      * unfold addr in E. rewrite EQ in E. congruence.
  - intros j1 j2 k1 k2 N1 N2 H1 H2 E. destruct (CF j1 k1 N1 H1) as (i1 & o1 & M1 & G1 & A1 & L1).
    destruct (CF j2 k2 N2 H2) as (i2 & o2 & M2 & G2 & A2 & L2). rewrite L1, L2. apply (B2 i1 i2 o1 o2 M1 M2 G1 G2). congruence.
Qed.

(** A step that writes nothing, or only into unused memory. *)
Lemma boxes_same code t s p T' H' m m' d' l' p' :
  valid_target t -> rel t s p -> boxes code t (rtoks s) (rheap s) m ->
  (forall i k, nth_error (rtoks s) i = Some k -> handle k -> forall y, addr k <= y < addr k + lsize (rc_layout t (tlay k)) -> m' y = m y) ->
  comes_from (rtoks s) T' -> rel t (MkR T' H' d' l') p' -> (forall q, H' q = rheap s q \/ H' q = None) ->
  boxes code t T' H' m'.
Proof.
  intros V R (B1 & B2) FR CF R' HH. split.
  - intros j k' Nj Hk'. destruct (rel_handle t _ p' j k' R' Nj Hk') as (_ & _ & (b & Hb) & _). cbn [rheap] in Hb. exists b. split; [exact Hb|].
    destruct (CF j k' Nj Hk') as (j0 & k0 & N0 & H0 & A0 & L0). rewrite A0, L0 in *. destruct (B1 j0 k0 N0 H0) as (b0 & Q & BI).
    assert (b0 = b) as <- by (destruct (HH (addr k0)) as [E|E]; congruence).
    destruct (rel_handle t s p j0 k0 R N0 H0) as (TL0 & _). eapply box_same; [exact V|exact TL0| |exact BI]. exact (FR j0 k0 N0 H0).
  - intros j1 j2 k1 k2 N1 N2 H1 H2 E. destruct (CF j1 k1 N1 H1) as (i1 & o1 & M1 & G1 & A1 & L1).
    destruct (CF j2 k2 N2 H2) as (i2 & o2 & M2 & G2 & A2 & L2). rewrite L1, L2. apply (B2 i1 i2 o1 o2 M1 M2 G1 G2). congruence.
Qed.

Lemma comes_refl T : comes_from T T.
Proof. intros j k N H. exists j, k. auto. Qed.

Lemma upd_nth_cases {A} i (x : A) l j y : nth_error (upd_nth i x l) j = Some y -> (j = i /\ y = x) \/ (j <> i /\ nth_error l j = Some y).
Proof.
  revert i j. induction l as [|z l IH]; intros [|i] [|j] H; cbn in *; try discriminate; auto.
  - left. split; congruence.
  - destruct (IH i j H) as [(-> & ->)|(D & N)]; auto.
Qed.

Lemma comes_set T i k k' : nth_error T i = Some k -> (handle k' -> handle k /\ addr k' = addr k /\ tlay k' = tlay k) -> comes_from T (upd_nth i k' T).
Proof.
  intros N C j x Nj H. destruct (upd_nth_cases i k' T j x Nj) as [(-> & ->)|(D & M)]; [|exists j, x; auto].
  destruct (C H) as (C1 & C2 & C3). exists i, k. auto.
Qed.

Lemma comes_app T i k k' : nth_error T i = Some k -> handle k -> addr k' = addr k -> tlay k' = tlay k -> comes_from T (T ++ [k']).
Proof.
  intros N Hk A L j x Nj H. destruct (Nat.lt_ge_cases j (length T)) as [G|G].
  - rewrite nth_error_app1 in Nj by exact G. exists j, x. auto.
  - rewrite nth_error_app2 in Nj by exact G. destruct (j - length T)%nat as [|n]; [|destruct n; discriminate]. cbn in Nj. injection Nj as <-. exists i, k. auto.
Qed.

Lemma tok_nth s i k : tok s i = Some k -> nth_error (rtoks s) i = Some k /\ tstat k = Live.
Proof. unfold tok. destruct (nth_error (rtoks s) i) as [x|]; [|discriminate]. destruct (tstat x) eqn:E; try discriminate. intros [= <-]. auto. Qed.

Definition sim code t (x' : xstate * answer) (s' : rstate * answer) : Prop := xrel code t (fst x') (fst s') /\ snd x' = snd s'.

Ltac same X := split; [exact X|reflexivity].
Ltac livetok s i X := unfold with_tok; change (xtok _ i) with (tok s i); let k := fresh "k" in let TK := fresh "TK" in
  destruct (tok s i) as [k|] eqn:TK; [|intros _; same X].
Ltac getb R X :=
  match goal with
  | TK : tok ?s ?i = Some ?k, KD : tkind ?k = _ |- _ =>
      let N := fresh "N" in let LV := fresh "LV" in let HK := fresh "HK" in let b := fresh "b" in let Hb := fresh "Hb" in let BI := fresh "BI" in
      let TL := fresh "TL" in let FT := fresh "FT" in
      destruct (tok_nth s i k TK) as (N & LV); assert (HK : handle k) by (split; congruence);
      destruct X as (_ & _ & _ & BX); cbn [xmem] in BX; destruct (proj1 BX i k N HK) as (b & Hb & BI);
      destruct (rel_handle _ s _ i k R N HK) as (TL & FT & _);
      unfold at_box; change (uptr (tview k)) with (addr k) in *; rewrite ?Hb
  end.
Ltac relate := split; [split; [reflexivity|split; [reflexivity|split; [reflexivity|]]]|reflexivity].
Ltac setbox := intros q Q; first [apply hset_other; exact Q | unfold set_box; cbn [rheap]; apply hset_other; exact Q].

Ltac boxat := let b0 := fresh in unfold set_box; cbn [rheap set_tok add_tok logs fst]; rewrite hset_same; intros b0 [= <-].

Lemma sim_step code t xm s p o r p' : valid_target t -> rel t s p ->
  let x := MkX (rtoks s) xm (rdropping s) (rlog s) in
  xrel code t x s -> xop_ok t o -> op_typed (rtoks s) o -> named code o = Some r ->
  rel t (fst (rstep t s r)) p' -> sim code t (xstep code t x o) (rstep t s r).
Proof.
  intros V R x X OK TY NM. unfold sim. subst x. destruct o; cbn [named] in NM; try discriminate; injection NM as <-; cbn [xstep rstep]; cbn [xop_ok] in OK.
  - (* new *)
    livetok s i X. destruct (tkind k) eqn:KD; try (intros _; same X).
    destruct OK as (LB & TL & VL). unfold rc_new, v_cast. destruct (v_fits (tview k) (rc_layout t l)) eqn:FT; cbn [negb unwrap obind].
    + intros R'. relate. cbn [fst xmem xlogs xput xset set_box set_tok logs rtoks rheap rdropping rlog uptr] in *.
      destruct (tok_nth s i k TK) as (N & LV). destruct X as (_ & _ & _ & (B1 & B2)). cbn [xmem] in *. change (uptr (tview k)) with (addr k) in *.
      set (nk := {| tkind := KStrong; tview := MkView (addr k) (ulen (tview k)) 0; tlay := l; tstat := Live |}) in *.
      assert (FAR : forall j0 k0, j0 <> i -> nth_error (rtoks s) j0 = Some k0 -> handle k0 -> addr k0 <> addr k /\ 
                forall y, addr k0 <= y < addr k0 + lsize (rc_layout t (tlay k0)) -> ~ (addr k <= y < addr k + lsize (rc_layout t l))).
      { intros j0 k0 D N0 H0. destruct (rel_handle t s p j0 k0 R N0 H0) as (TL0 & F0 & _).
        pose proof (fits_in_region t _ _ V TL0 F0). pose proof (fits_in_region t _ _ V TL FT).
        destruct (offs t l V TL) as (O1 & O2 & O3 & O4). destruct (offs t _ V TL0) as (P1 & P2 & P3 & P4).
        destruct (rel_apart t s p j0 i k0 k R D N0 N (proj1 H0)) as [DJ|(_ & _ & [Q|Q])]; try congruence.
        split.
        - intros E. apply (DJ (addr k)). split; unfold in_block, region; cbn [start size]; unfold addr in *; lia.
        - intros y Y Y2. apply (DJ y). split; unfold in_block, region; cbn [start size]; unfold addr in *; lia. }
      assert (ONE : forall j k', nth_error (upd_nth i nk (rtoks s)) j = Some k' -> handle k' -> (j = i /\ k' = nk) \/ (j <> i /\ nth_error (rtoks s) j = Some k')).
      { intros j k' Nj _. apply upd_nth_cases. exact Nj. }
      split.
      * intros j k' Nj Hk'. destruct (ONE j k' Nj Hk') as [(-> & ->)|(D & N0)].
        -- exists {| bval := code bs; bstrong := 1; bweak := 1 |}. split; [apply hset_same|]. apply box_new; assumption.
        -- destruct (FAR j k' D N0 Hk') as (E & Y). destruct (B1 j k' N0 Hk') as (b & Hb & BI). exists b. rewrite hset_other by exact E.
           split; [exact Hb|]. destruct (rel_handle t s p j k' R N0 Hk') as (TL0 & _). eapply box_same; [exact V|exact TL0| |exact BI].
           intros y Hy. apply write_box_out; auto.
      * intros j1 j2 k1 k2 N1 N2 H1 H2 E. destruct (ONE _ _ N1 H1) as [(-> & ->)|(D1 & M1)]; destruct (ONE _ _ N2 H2) as [(-> & ->)|(D2 & M2)].
        -- reflexivity.
        -- exfalso. apply (proj1 (FAR j2 k2 D2 M2 H2)). symmetry. exact E.
        -- exfalso. apply (proj1 (FAR j1 k1 D1 M1 H1)). exact E.
        -- exact (B2 j1 j2 k1 k2 M1 M2 H1 H2 E).
    + intros R'. relate. destruct X as (_ & _ & _ & BX). cbn [xmem] in BX. destruct (tok_nth s i k TK) as (N & LV).
      eapply boxes_same; [exact V|exact R|exact BX|reflexivity| |exact R'|left; reflexivity].
      eapply comes_set; [exact N|]. intros (Q & _). cbn in Q. congruence.
  - (* get_mut *)
    livetok s i X. destruct (tkind k) eqn:KD; try (intros _; same X). pose proof X as X0. getb R X. cbn [xmem].
    rewrite (in_unique _ _ _ _ _ _ BI). destruct (is_unique b); [|intros _; same X0].
    destruct BI as (BV & BI). rewrite BV. destruct w as [w|]; cbn [option_map]; [|intros _; same X0].
    intros R'. relate. specialize (TY i w k (or_introl eq_refl) N).
    refine (boxes_step code t s p i k _ _ xm _ _ _ p' V R N HK BX _ _ _ _ R').
    + intros y Y. apply write_out. destruct (offs t _ V TL). lia.
    + setbox.
    + boxat. apply box_set_value; auto. split; [exact BV|exact BI].
    + apply comes_refl.
  - (* raw replace *)
    livetok s i X. destruct (tkind k) eqn:KD; try (intros _; same X). getb R X. cbn [xmem].
    destruct BI as (BV & BI). rewrite BV. intros R'. relate. specialize (TY i w k (or_intror eq_refl) N).
    refine (boxes_step code t s p i k _ _ xm _ _ _ p' V R N HK BX _ _ _ _ R').
    + intros y Y. apply write_out. destruct (offs t _ V TL). lia.
    + setbox.
    + boxat. apply box_set_value; auto. split; [exact BV|exact BI].
    + apply comes_refl.
  - (* clone *)
    livetok s i X. destruct (tkind k) eqn:KD; try (intros _; same X); pose proof X as X0; getb R X; cbn [xmem].
    + pose proof (in_inc_strong code t _ _ _ _ V TL BI) as ST. unfold in_step in ST. 
      destruct (inc_strong t b) as [b'|e], (cell_inc t (strong_at t (tlay k) (addr k)) xm) as [[m'|e']|]; try contradiction; [|intros _; same X0].
      destruct ST as (ST & FR). intros R'. relate.
      refine (boxes_step code t s p i k _ _ xm _ _ _ p' V R N HK BX FR _ _ _ R'); [setbox|boxat; exact ST|eapply comes_app; eauto].
    + pose proof (in_inc_weak code t _ _ _ _ V TL BI) as ST. unfold in_step in ST. 
      destruct (inc_weak t b) as [b'|e], (cell_inc t (weak_at t (tlay k) (addr k)) xm) as [[m'|e']|]; try contradiction; [|intros _; same X0].
      destruct ST as (ST & FR). intros R'. relate.
      refine (boxes_step code t s p i k _ _ xm _ _ _ p' V R N HK BX FR _ _ _ R'); [setbox|boxat; exact ST|eapply comes_app; eauto].
  - (* downgrade *)
    livetok s i X. destruct (tkind k) eqn:KD; try (intros _; same X); pose proof X as X0; getb R X; cbn [xmem].
    pose proof (in_inc_weak code t _ _ _ _ V TL BI) as ST. unfold in_step in ST. 
    destruct (inc_weak t b) as [b'|e], (cell_inc t (weak_at t (tlay k) (addr k)) xm) as [[m'|e']|]; try contradiction; [|intros _; same X0].
    destruct ST as (ST & FR). intros R'. relate.
    refine (boxes_step code t s p i k _ _ xm _ _ _ p' V R N HK BX FR _ _ _ R'); [setbox|boxat; exact ST|eapply comes_app; eauto].
  - (* upgrade *)
    livetok s i X. destruct (tkind k) eqn:KD; try (intros _; same X); getb R X; cbn [xmem].
    pose proof (in_upgrade code t _ _ _ _ V TL BI) as ST. unfold in_step2 in ST. 
    destruct (x_upgrade t (tlay k) (addr k) xm) as [[m' o]|]; [|contradiction]. destruct (weak_upgrade t b) as [b' o']. cbn [fst snd] in ST.
    destruct ST as (-> & ST & FR). destruct o' as [[|]|e]; intros R'; relate;
      (refine (boxes_step code t s p i k _ _ xm _ _ _ p' V R N HK BX FR _ _ _ R'); [setbox|boxat; exact ST|first [apply comes_refl|eapply comes_app; eauto]]).
  - (* drop *)
    livetok s i X. destruct (tkind k) eqn:KD.
    + intros R'. relate. destruct X as (_ & _ & _ & BX). cbn [xmem] in BX. destruct (tok_nth s i k TK) as (N & LV).
      eapply boxes_same; [exact V|exact R|exact BX|reflexivity| |exact R'|left; reflexivity].
      eapply comes_set; [exact N|]. intros (Q & _). cbn in Q. congruence.
    + getb R X; cbn [xmem]. pose proof (in_rc_drop code t _ _ _ _ V TL BI) as ST. unfold in_step2 in ST. 
      destruct (x_rc_drop t (tlay k) (addr k) xm) as [[m' o]|]; [|contradiction]. destruct (rc_drop t b) as [b' o']. cbn [fst snd] in ST.
      destruct ST as (-> & ST & FR). pose proof ST as (BV & _). rewrite BV. destruct o' as [[|]|e]; intros R'; relate;
      (refine (boxes_step code t s p i k _ _ xm _ _ _ p' V R N HK BX FR _ _ _ R'); [setbox|boxat; exact ST|
        eapply comes_set; [exact N|intros (Q & _); cbn in Q; congruence]]).
    + getb R X; cbn [xmem]. pose proof (in_dec_weak code t _ _ _ _ V TL BI) as ST. unfold in_step in ST. 
      destruct (dec_weak t b) as [b'|e], (cell_dec t (weak_at t (tlay k) (addr k)) xm) as [[m'|e']|]; try contradiction.
      * destruct ST as (ST & FR). intros R'. relate.
        refine (boxes_step code t s p i k _ _ xm _ _ _ p' V R N HK BX FR _ _ _ R'); [setbox|boxat; exact ST|
          eapply comes_set; [exact N|intros (Q & _); cbn in Q; congruence]].
      * intros R'. relate. eapply boxes_same; [exact V|exact R|exact BX|reflexivity| |exact R'|left; reflexivity].
        eapply comes_set; [exact N|]. intros (Q & _). cbn in Q. congruence.
    + intros R'. relate. destruct X as (_ & _ & _ & BX). cbn [xmem] in BX. destruct (tok_nth s i k TK) as (N & LV).
      eapply boxes_same; [exact V|exact R|exact BX|reflexivity| |exact R'|left; reflexivity].
      eapply comes_set; [exact N|]. intros (Q & _). cbn in Q. congruence.
  - (* done *)
    cbn [xdropping]. destruct (rdropping s) as [|d0 d1] eqn:D; intros R'; [split; [|reflexivity]; cbn [fst]; rewrite <- ?D in *; exact X|].
    relate. destruct X as (_ & _ & _ & BX). cbn [xmem] in BX. exact BX.
  - (* forget *)
    livetok s i X. intros R'. relate. destruct X as (_ & _ & _ & BX). cbn [xmem] in BX. destruct (tok_nth s i k TK) as (N & LV).
    eapply boxes_same; [exact V|exact R|exact BX|reflexivity| |exact R'|left; reflexivity].
    eapply comes_set; [exact N|]. intros (Q & Q2). cbn in Q, Q2. split; [split; [congruence|exact Q2]|auto].
  - (* deref *)
    livetok s i X. destruct (tkind k) eqn:KD; try (intros _; same X); pose proof X as X0; getb R X; cbn [xmem].
    destruct BI as (BV & _).  rewrite BV. intros _. same X0.
  - (* into_raw *)
    livetok s i X. destruct (tkind k) eqn:KD; try (intros _; same X); pose proof X as X0; getb R X; cbn [xmem].
    rewrite (in_unique _ _ _ _ _ _ BI). unfold rc_into_raw. change (uptr (tview k)) with (addr k). destruct (is_unique b); cbn [negb]; [|intros _; same X0].
    destruct (v_cast (from_memory (addr k) (ulen (tview k))) (tlay k)) as [u|] eqn:VC; cbn [unwrap obind]; intros R'; relate;
      (eapply boxes_same; [exact V|exact R|exact BX|reflexivity| |exact R'|left; reflexivity]);
      (eapply comes_set; [exact N|]; intros (Q & Q2); cbn in Q, Q2; split; [exact HK|]); split; try reflexivity.
    unfold v_cast in VC. destruct (negb _); [discriminate|]. injection VC as <-. reflexivity.
  - (* from_raw *)
    livetok s i X. destruct (tkind k) eqn:KD; try (intros _; same X). destruct (tok_nth s i k TK) as (N & LV).
    destruct X as (_ & _ & _ & BX). cbn [xmem] in BX. destruct (rc_from_raw t (tlay k) (tview k)) as [u|e] eqn:FR; intros R'; relate;
      (eapply boxes_same; [exact V|exact R|exact BX|reflexivity| |exact R'|left; reflexivity]);
      (eapply comes_set; [exact N|]; intros (Q & Q2); cbn in Q, Q2); [|congruence].
    split; [split; congruence|]. split; [|reflexivity]. unfold rc_from_raw, v_cast in FR.
    destruct (negb (debug t) || v_fits (tview k) (rc_layout t (tlay k))); [|discriminate].
    destruct (negb _); [discriminate|]. injection FR as <-. reflexivity.
  - (* raw take *)
    livetok s i X. destruct (tkind k) eqn:KD; try (intros _; same X); getb R X; cbn [xmem].
    destruct BI as (BV & _).  rewrite BV. intros R'. relate.
    eapply boxes_same; [exact V|exact R|exact BX|reflexivity| |exact R'|].
    + eapply comes_set; [exact N|]. intros (_ & Q). cbn in Q. congruence.
    + intros q. cbn [rheap set_box set_tok logs fst]. unfold hset. destruct (q =? addr k); auto.
  - (* try_unwrap *)
    livetok s i X. destruct (tkind k) eqn:KD; try (intros _; same X); pose proof X as X0; getb R X; cbn [xmem].
    pose proof BI as (_ & BS & _).  rewrite BS. unfold rc_try_unwrap. destruct (bstrong b =? 1); cbn [negb]; [|intros _; same X0].
    pose proof (in_dec_strong code t _ _ _ _ V TL BI) as ST. unfold in_step in ST. 
    destruct (dec_strong t b) as [b'|e], (cell_dec t (strong_at t (tlay k) (addr k)) xm) as [[m'|e']|]; try contradiction; cbn [obind]; [|intros _; same X0].
    destruct ST as (ST & FR). pose proof ST as (BV & _). rewrite BV. intros R'. relate.
    refine (boxes_step code t s p i k _ _ xm _ _ _ p' V R N HK BX FR _ _ _ R'); [setbox|boxat; exact ST|].
    eapply comes_set; [exact N|]. intros _. split; [exact HK|]. split; reflexivity.
  - (* weak try_unwrap *)
    livetok s i X. destruct (tkind k) eqn:KD; try (intros _; same X); pose proof X as X0; getb R X; cbn [xmem].
    rewrite (in_unique_mem _ _ _ _ _ _ BI). unfold weak_try_unwrap. destruct (is_unique_to_rc_memory b); cbn [negb]; [|intros _; same X0].
    pose proof (in_dec_weak code t _ _ _ _ V TL BI) as ST. unfold in_step in ST. 
    destruct (dec_weak t b) as [b'|e], (cell_dec t (weak_at t (tlay k) (addr k)) xm) as [[m'|e']|]; try contradiction; cbn [obind]; intros R'; relate.
    + destruct ST as (ST & FR). refine (boxes_step code t s p i k _ _ xm _ _ _ p' V R N HK BX FR _ _ _ R'); [setbox| |].
      * unfold set_box; cbn [rheap set_tok]; rewrite hset_same. discriminate.
      * eapply comes_set; [exact N|]. intros (_ & Q). cbn in Q. congruence.
    + eapply boxes_same; [exact V|exact R|exact BX|reflexivity| |exact R'|left; reflexivity].
      eapply comes_set; [exact N|]. intros (Q & _). cbn in Q. congruence.
  - (* strong_count *)
    livetok s i X. destruct (tkind k) eqn:KD; try (intros _; same X); pose proof X as X0; getb R X; cbn [xmem];
    pose proof BI as (_ & BS & _);  rewrite BS; intros _; same X0.
  - (* weak_count *)
    livetok s i X. destruct (tkind k) eqn:KD; try (intros _; same X); pose proof X as X0; getb R X; cbn [xmem];
    pose proof BI as (_ & _ & BS & _);  rewrite BS; intros _; same X0.
  - (* ptr_eq *)
    change (xtok _ i) with (tok s i). change (xtok _ j) with (tok s j).
    destruct (tok s i) as [k|], (tok s j) as [k'|]; intros _; try (same X). destruct (tkind k); try (same X). destruct (tkind k'); same X.
Qed.

Lemma xrel_eta code t x s : xrel code t x s -> x = MkX (rtoks s) (xmem x) (rdropping s) (rlog s).
Proof. intros (A & B & C & _). destruct x as [T m d l]. cbn in *. congruence. Qed.

Lemma scribble_rel code t x s p i off bs : valid_target t -> rel t s p -> xrel code t x s ->
  xrel code t (fst (xstep code t x (XScribble i off bs))) s /\ snd (xstep code t x (XScribble i off bs)) = snd (sxstep code t p (XScribble i off bs)).
Proof.
  intros V R X. pose proof (tok_stok t s p i R) as Q. cbn [xstep sxstep]. unfold with_tok.
  assert (xtok x i = tok s i) as -> by (unfold xtok, tok; destruct X as (-> & _); reflexivity).
  destruct (stok p i) as [kd|]; [|rewrite Q; split; [exact X|reflexivity]].
  destruct Q as (k & TK & N & NS & TR). rewrite TK. pose proof TR as (TS & TKD & TV & _). cbn [sk sst] in *. rewrite TKD.
  destruct kd as [u|a|a|a]; cbn [kkind kview] in *; try (split; [exact X|reflexivity]).
  rewrite TV. destruct (Z.leb_spec 0 off) as [O|O], (Z.leb_spec (off + Z.of_nat (length bs)) (ulen u)) as [P|P]; cbn [andb];
    split; try reflexivity; try exact X.
  destruct X as (X1 & X2 & X3 & BX). split; [exact X1|split; [exact X2|split; [exact X3|]]]. cbn [fst xmem xput].
  refine (boxes_same code t s p (rtoks s) (rheap s) (xmem x) _ (rdropping s) (rlog s) p V R BX _ _ _ _).
  - intros j k' Nj Hk y Y. apply write_out. intros Y2.
    destruct (rel_handle t s p j k' R Nj Hk) as (TL & F & _). pose proof (fits_in_region t _ _ V TL F).
    assert (D : i <> j) by (intros ->; rewrite N in Nj; injection Nj as ->; destruct Hk; congruence).
    destruct (rel_apart t s p i j k k' R D N Nj ltac:(congruence) (proj1 Hk)) as [DJ|(_ & [Q|Q] & _)]; try congruence.
    apply (DJ y). split; unfold in_block, region; cbn [start size]; unfold addr in *; rewrite ?TV in *; lia.
  - apply comes_refl.
  - destruct s. exact R.
  - auto.
Qed.

(** ** Where a step writes *)
Definition views_of (T : list token) (us : list uview) : Prop :=
  forall i k, nth_error T i = Some k -> exists u, In u us /\ uptr (tview k) = uptr u /\ ulen (tview k) = ulen u.

Lemma views_set T us i k k' : views_of T us -> nth_error T i = Some k -> uptr (tview k') = uptr (tview k) -> ulen (tview k') = ulen (tview k) ->
  views_of (upd_nth i k' T) us.
Proof.
  intros H N A B j x Nj. destruct (upd_nth_cases i k' T j x Nj) as [(-> & ->)|(_ & M)]; [|exact (H j x M)].
  destruct (H i k N) as (u & U1 & U2 & U3). exists u. split; [exact U1|]. split; congruence.
Qed.
Lemma views_app T us i k k' : views_of T us -> nth_error T i = Some k -> uptr (tview k') = uptr (tview k) -> ulen (tview k') = ulen (tview k) ->
  views_of (T ++ [k']) us.
Proof.
  intros H N A B j x Nj. destruct (Nat.lt_ge_cases j (length T)) as [G|G].
  - rewrite nth_error_app1 in Nj by exact G. exact (H j x Nj).
  - rewrite nth_error_app2 in Nj by exact G. destruct (j - length T)%nat as [|n]; [|destruct n; discriminate]. cbn in Nj. injection Nj as <-.
    destruct (H i k N) as (u & U1 & U2 & U3). exists u. split; [exact U1|]. split; congruence.
Qed.

Lemma rstep_views t s o us : views_of (rtoks s) us -> views_of (rtoks (fst (rstep t s o))) us.
Proof.
  intros H. assert (TN : forall i k, tok s i = Some k -> nth_error (rtoks s) i = Some k) by (intros i k E; apply tok_nth; exact E).
  destruct o; cbn [rstep];
    repeat match goal with |- context [tok s ?i] => let E := fresh "TK" in destruct (tok s i) eqn:E; [apply TN in E|] end;
    try exact H; unfold at_box, rc_new, rc_into_raw, rc_from_raw, weak_try_unwrap, v_cast;
    repeat match goal with
    | |- context [match tkind ?k with _ => _ end] => destruct (tkind k)
    | |- context [match rheap s ?a with _ => _ end] => destruct (rheap s a)
    | |- context [dec_weak ?a ?b] => destruct (dec_weak a b); cbn [obind]
    | |- context [if ?b then _ else _] => destruct b; cbn [unwrap obind negb]
    | |- context [match ?x with _ => _ end] => destruct x; cbn [unwrap obind]
    end; cbn [fst rtoks logs set_box set_tok add_tok]; try exact H;
    first [eapply views_set; [exact H|eassumption|reflexivity|reflexivity] | eapply views_app; [exact H|eassumption|reflexivity|reflexivity]].
Qed.

(** A step changes memory only in the region of a token. *)
Lemma xstep_writes code t xm s p o : valid_target t -> rel t s p ->
  let x := MkX (rtoks s) xm (rdropping s) (rlog s) in
  xrel code t x s -> xop_ok t o -> op_typed (rtoks s) o ->
  forall y, xmem (fst (xstep code t x o)) y <> xm y -> exists i k, nth_error (rtoks s) i = Some k /\ in_block (region (tview k)) y.
Proof.
  intros V R x X OK TY y W. subst x.
  assert (IN : forall i k a, tok s i = Some k -> handle k -> addr k <= a < addr k + lsize (rc_layout t (tlay k)) -> nth_error (rtoks s) i = Some k /\ in_block (region (tview k)) a).
  { intros i k a TK HK A. destruct (tok_nth s i k TK) as (N & LV). split; [exact N|]. destruct (rel_handle t s p i k R N HK) as (TL & F & _).
    pose proof (fits_in_region t _ _ V TL F). unfold in_block, region; cbn [start size]. unfold addr in *. lia. }
  assert (BXI : forall i k, tok s i = Some k -> handle k -> exists b, box_in code t (tlay k) (addr k) xm b /\ type_layout t (tlay k)).
  { intros i k TK HK. destruct (tok_nth s i k TK) as (N & LV). destruct X as (_ & _ & _ & BX). destruct (proj1 BX i k N HK) as (b & _ & BI).
    destruct (rel_handle t s p i k R N HK) as (TL & _). exists b. auto. }
  assert (FR : forall i k m', tok s i = Some k -> handle k -> m' y <> xm y ->
     (forall a, ~ (addr k <= a < addr k + lsize (rc_layout t (tlay k))) -> m' a = xm a) -> exists i k, nth_error (rtoks s) i = Some k /\ in_block (region (tview k)) y).
  { intros i k m' TK HK NE F. exists i, k. apply IN; auto. destruct (Z_lt_le_dec y (addr k)); [exfalso; apply NE, F; lia|].
    destruct (Z_lt_le_dec y (addr k + lsize (rc_layout t (tlay k)))); [lia|exfalso; apply NE, F; lia]. }
  assert (HL : forall i k, tok s i = Some k -> tkind k <> KMem -> handle k).
  { intros i k TK NK. destruct (tok_nth s i k TK) as (_ & LV). split; congruence. }
  assert (CI : forall i k c m', tok s i = Some k -> tkind k <> KMem -> (c = strong_at t (tlay k) (addr k) \/ c = weak_at t (tlay k) (addr k)) ->
     cell_inc t c xm = Some (Ret m') \/ cell_dec t c xm = Some (Ret m') -> m' y <> xm y -> exists i k, nth_error (rtoks s) i = Some k /\ in_block (region (tview k)) y).
  { intros i k c m' TK NK HC HM NE. pose proof (HL i k TK NK) as HK. destruct (BXI i k TK HK) as (b & BI & TL). apply (FR i k m' TK HK NE).
    intros a A. destruct (offs t _ V TL) as (O1 & O2 & O3 & O4).
    assert (exists v, m' = store_usize t xm c v) as (v & ->).
    { unfold cell_inc, cell_dec in HM. destruct HM as [HM|HM]; (destruct (load_usize t xm c); [|discriminate]); injection HM as HM;
        match type of HM with obind ?e _ = _ => destruct e; [|discriminate] end; injection HM as <-; eauto. }
    apply store_out; [exact V|]. unfold strong_at, weak_at in HC. destruct HC as [-> | ->]; lia. }
  revert W. destruct o; cbn [xstep]; unfold with_tok;
    try (change (xtok {| xtoks := rtoks s; xmem := xm; xdropping := rdropping s; xlog := rlog s |} i) with (tok s i); destruct (tok s i) as [k|] eqn:TK; [|cbn; congruence]).
  - destruct (tkind k) eqn:KD; try (cbn; congruence). cbn [xop_ok] in OK. destruct OK as (LB & TL & _). unfold v_cast.
    destruct (v_fits (tview k) (rc_layout t l)) eqn:F; cbn [negb fst xmem xlogs xput xset uptr]; [|congruence].
    intros NE. exists i, k. split; [apply tok_nth; exact TK|]. pose proof (fits_in_region t _ _ V TL F). unfold in_block, region. cbn [start size].
    destruct (Z_lt_le_dec y (uptr (tview k))) as [A|A]; [exfalso; apply NE; apply write_box_out; auto; lia|].
    destruct (Z_lt_le_dec y (uptr (tview k) + lsize (rc_layout t l))) as [B|B]; [lia|exfalso; apply NE; apply write_box_out; auto; lia].
  - destruct (tkind k) eqn:KD; try (cbn; congruence). destruct (x_is_unique _ _ _ _) as [[|]|]; try (cbn; congruence).
    destruct w as [w|]; [|cbn; congruence]. cbn [fst xmem xlogs xput]. intros NE.
    assert (HK : handle k) by (apply (HL i k TK); congruence). apply (FR i k _ TK HK NE). intros a A. destruct (BXI i k TK HK) as (b & _ & TL).
    destruct (offs t _ V TL). apply write_out. rewrite (TY i w k (or_introl eq_refl) (proj1 (tok_nth s i k TK))). lia.
  - destruct (tkind k) eqn:KD; try (cbn; congruence). cbn [fst xmem xlogs xput]. intros NE.
    assert (HK : handle k) by (apply (HL i k TK); congruence). apply (FR i k _ TK HK NE). intros a A. destruct (BXI i k TK HK) as (b & _ & TL).
    destruct (offs t _ V TL). apply write_out. rewrite (TY i w k (or_intror eq_refl) (proj1 (tok_nth s i k TK))). lia.
  - destruct (tkind k) eqn:KD; try (cbn; congruence); cbn [xmem]; destruct (cell_inc _ _ _) as [[m'|]|] eqn:E; try (cbn; congruence); cbn [fst xmem xadd xput];
      (eapply (CI i k); [exact TK|congruence| |left; exact E]; auto).
  - destruct (tkind k) eqn:KD; try (cbn; congruence); cbn [xmem]; destruct (cell_inc _ _ _) as [[m'|]|] eqn:E; try (cbn; congruence); cbn [fst xmem xadd xput];
      (eapply (CI i k); [exact TK|congruence| |left; exact E]; auto).
  - destruct (tkind k) eqn:KD; try (cbn; congruence). assert (HK : handle k) by (apply (HL i k TK); congruence). destruct (BXI i k TK HK) as (b & BI & TL).
    pose proof (in_upgrade code t _ _ _ _ V TL BI) as ST. unfold in_step2 in ST. cbn [xmem]. destruct (x_upgrade t (tlay k) (addr k) xm) as [[m' o]|]; [|contradiction].
    destruct ST as (_ & _ & ST). destruct o as [[|]|]; cbn [fst xmem xadd xput]; intros NE; apply (FR i k m' TK HK NE ST).
  - destruct (tkind k) eqn:KD; try (cbn; congruence).
    + assert (HK : handle k) by (apply (HL i k TK); congruence). destruct (BXI i k TK HK) as (b & BI & TL).
      pose proof (in_rc_drop code t _ _ _ _ V TL BI) as ST. unfold in_step2 in ST. cbn [xmem]. destruct (x_rc_drop t (tlay k) (addr k) xm) as [[m' o]|]; [|contradiction].
      destruct ST as (_ & _ & ST). destruct o as [[|]|]; cbn [fst xmem xadd xput xlogs xset]; intros NE; apply (FR i k m' TK HK NE ST).
    + cbn [xmem]; destruct (cell_dec _ _ _) as [[m'|]|] eqn:E; try (cbn; congruence); cbn [fst xmem xadd xput xset];
      (eapply (CI i k); [exact TK|congruence| |right; exact E]; auto).
  - cbn [xdropping]. destruct (rdropping s); cbn; congruence.
  - cbn; congruence.
  - destruct (tkind k); cbn; congruence.
  - destruct (tkind k); try (cbn; congruence). destruct (x_is_unique _ _ _ _) as [[|]|]; try (cbn; congruence). destruct (v_cast _ _); cbn; congruence.
  - destruct (tkind k); try (cbn; congruence). destruct (rc_from_raw _ _ _); cbn; congruence.
  - destruct (tkind k); cbn; congruence.
  - destruct (tkind k) eqn:KD; try (cbn; congruence). cbn [xmem]. destruct (get_strong _ _ _ _) as [n|]; [|cbn; congruence]. destruct (negb (n =? 1)); [cbn; congruence|].
    destruct (cell_dec _ _ _) as [[m'|]|] eqn:E; try (cbn; congruence); cbn [fst xmem xadd xput xset xlogs];
      (eapply (CI i k); [exact TK|congruence| |right; exact E]; auto).
  - destruct (tkind k) eqn:KD; try (cbn; congruence). cbn [xmem]. destruct (x_is_unique_to_memory _ _ _ _) as [[|]|]; try (cbn; congruence).
    destruct (cell_dec _ _ _) as [[m'|]|] eqn:E; try (cbn; congruence); cbn [fst xmem xadd xput xset xlogs];
      (eapply (CI i k); [exact TK|congruence| |right; exact E]; auto).
  - destruct (tkind k); try (cbn; congruence); destruct (get_strong _ _ _ _); cbn; congruence.
  - destruct (tkind k); try (cbn; congruence); destruct (get_weak _ _ _ _); cbn; congruence.
  - destruct (xtok _ j); [|cbn; congruence]. destruct (tkind k), (tkind t0); cbn; congruence.
  - destruct (tkind k) eqn:KD; try (cbn; congruence).
    destruct (Z.leb_spec 0 off), (Z.leb_spec (off + Z.of_nat (length bs)) (ulen (tview k))); cbn [andb fst xmem xput]; try congruence.
    intros NE. exists i, k. split; [apply tok_nth; exact TK|]. unfold in_block, region, addr in *; cbn [start size].
    destruct (Z_lt_le_dec y (uptr (tview k) + off)) as [A|A]; [exfalso; apply NE; apply write_out; lia|].
    destruct (Z_lt_le_dec y (uptr (tview k) + off + Z.of_nat (length bs))) as [B|B]; [lia|exfalso; apply NE; apply write_out; lia].
Qed.

(** ** Histories *)
Lemma named_ok code t o r : xop_ok t o -> named code o = Some r -> rop_ok t r.
Proof. destruct o; cbn; intros OK [= <-]; cbn; auto. destruct OK as (_ & A & B). auto. Qed.

Lemma xstep_all code t x s p o us : valid_target t -> rel t s p -> xrel code t x s -> xop_ok t o -> op_typed (xtoks x) o ->
  views_of (rtoks s) us -> Z.of_nat (length (rtoks s)) < usize_max t ->
  exists s', rel t s' (fst (sxstep code t p o)) /\ xrel code t (fst (xstep code t x o)) s' /\ snd (xstep code t x o) = snd (sxstep code t p o) /\
    views_of (rtoks s') us /\ (length (rtoks s') <= S (length (rtoks s)))%nat /\
    forall y, (forall u, In u us -> ~ in_block (region u) y) -> xmem (fst (xstep code t x o)) y = xmem x y.
Proof.
  intros V R X OK TY VW LT. destruct x as [T m d l]. pose proof X as (ET & ED & EL & _). cbn [xtoks xdropping xlog xmem] in *. subst T d l.
  assert (W : forall y, (forall u, In u us -> ~ in_block (region u) y) -> xmem (fst (xstep code t (MkX (rtoks s) m (rdropping s) (rlog s)) o)) y = m y).
  { intros y Y. pose proof (xstep_writes code t m s p o V R X OK TY y) as WR. cbv zeta in WR.
    destruct (xmem (fst (xstep code t (MkX (rtoks s) m (rdropping s) (rlog s)) o)) y) as [a|] eqn:E1, (m y) as [b|] eqn:E2; try reflexivity.
    all: try (destruct (Z.eq_dec a b) as [->|NE]; [reflexivity|]).
    all: destruct WR as (i & k & N & IB); [congruence|];
      destruct (VW i k N) as (u & U & U1 & U2); exfalso; apply (Y u U); unfold in_block, region in *; cbn [start size] in *; rewrite <- U1, <- U2; exact IB. }
  destruct (named code o) as [r|] eqn:NM.
  - assert (SX : sxstep code t p o = sstep t p r) by (destruct o; cbn [named] in NM; try discriminate; injection NM as <-; reflexivity).
    assert (UP : forall i, r = RUpgrade i -> snd (rstep t s r) <> APanic) by (intros i ->; eapply upgrade_fine; eauto).
    destruct (step_rel t s p r V R (named_ok _ _ _ _ OK NM) (or_intror LT) UP) as (R1 & A1).
    rewrite SX. exists (fst (rstep t s r)). split; [exact R1|].
    assert (SM : sim code t (xstep code t (MkX (rtoks s) m (rdropping s) (rlog s)) o) (rstep t s r)).
    { eapply sim_step; eauto. }
    destruct SM as (S1 & S2). split; [exact S1|]. split; [congruence|]. split; [apply rstep_views; exact VW|]. split; [apply rstep_len|exact W].
  - destruct o; try discriminate. destruct (scribble_rel code t _ s p i off bs V R X) as (S1 & S2). exists s.
    assert (fst (sxstep code t p (XScribble i off bs)) = p) as -> by (cbn [sxstep]; destruct (stok p i) as [[]|]; reflexivity).
    split; [exact R|]. split; [exact S1|]. split; [exact S2|]. split; [exact VW|]. split; [lia|exact W].
Qed.

Lemma xrun_all code t us os : valid_target t -> forall x s p, rel t s p -> xrel code t x s -> Forall (xop_ok t) os -> typed code t x os ->
  views_of (rtoks s) us -> Z.of_nat (length (rtoks s) + length os) < usize_max t ->
  exists s', rel t s' (fst (sxrun code t p os)) /\ xrel code t (fst (xrun code t x os)) s' /\ snd (xrun code t x os) = snd (sxrun code t p os) /\
    Z.of_nat (length (rtoks s')) < usize_max t /\
    forall y, (forall u, In u us -> ~ in_block (region u) y) -> xmem (fst (xrun code t x os)) y = xmem x y.
Proof.
  intros V. induction os as [|o os IH]; intros x s p R X F TY VW LT.
  - exists s. cbn [xrun sxrun fst snd]. cbn [length] in LT. repeat split; auto; try apply R; try apply X. lia.
  - inversion F as [|? ? F1 F2]; subst. inversion TY as [|? ? ? T1 T2]; subst.
    destruct (xstep_all code t x s p o us V R X F1 T1 VW) as (s1 & R1 & X1 & A1 & VW1 & L1 & W1); [cbn [length] in LT; lia|].
    destruct (IH _ s1 _ R1 X1 F2 T2 VW1) as (s' & R2 & X2 & A2 & L2 & W2); [cbn [length] in LT; lia|].
    cbn [xrun sxrun]. destruct (xstep code t x o) as [x1 a1], (sxstep code t p o) as [p1 a2]. cbn [fst snd] in *.
    destruct (xrun code t x1 os) as [x2 r2], (sxrun code t p1 os) as [p2 r2']. cbn [fst snd] in *.
    exists s'. split; [exact R2|]. split; [exact X2|]. split; [congruence|]. split; [exact L2|]. intros y Y. rewrite W2, W1; auto.
Qed.

Lemma xinit_rel code t us m : memories t us -> rel t (rinit us) (sinit us) /\ xrel code t (xinit us m) (rinit us) /\ views_of (rtoks (rinit us)) us.
Proof.
  intros M. split; [apply init_rel; exact M|].
  assert (A : forall i k, nth_error (rtoks (rinit us)) i = Some k -> exists u, In u us /\ k = {| tkind := KMem; tview := u; tlay := {| lsize := 0; lalign := 1 |}; tstat := Live |}).
  { intros i k N. cbn [rinit rtoks] in N. apply nth_error_In in N. apply in_map_iff in N. destruct N as (u & <- & U). eauto. }
  split.
  - split; [reflexivity|split; [reflexivity|split; [reflexivity|split]]].
    + intros i k N (_ & Q). destruct (A i k N) as (u & _ & ->). cbn in Q. congruence.
    + intros i j k k' N _ (_ & Q). destruct (A i k N) as (u & _ & ->). cbn in Q. congruence.
  - intros i k N. destruct (A i k N) as (u & U & ->). exists u. auto.
Qed.

Lemma xhistory_all code t us m os : valid_target t -> xhistory code t us m os ->
  exists s', rel t s' (fst (sxrun code t (sinit us) os)) /\ xrel code t (fst (xrun code t (xinit us m) os)) s' /\
    snd (xrun code t (xinit us m) os) = snd (sxrun code t (sinit us) os) /\
    Z.of_nat (length (rtoks s')) < usize_max t /\
    forall y, (forall u, In u us -> ~ in_block (region u) y) -> xmem (fst (xrun code t (xinit us m) os)) y = m y.
Proof.
  intros V (M & F & S & TY). destruct (xinit_rel code t us m M) as (R & X & VW).
  apply (xrun_all code t us os V (xinit us m) (rinit us) (sinit us) R X F TY VW). unfold xshort in S. cbn [rinit rtoks]. rewrite map_length. exact S.
Qed.

(** The counters in memory *)
Lemma counters code t us m os i k : valid_target t -> xhistory code t us m os ->
  let x := fst (xrun code t (xinit us m) os) in xtok x i = Some k -> tkind k = KStrong \/ tkind k = KWeak ->
  load_usize t (xmem x) (uptr (tview k) + rc_strong_off t (tlay k)) = Some (handles x KStrong (uptr (tview k))) /\
  load_usize t (xmem x) (uptr (tview k) + rc_weak_off t (tlay k)) =
    Some (handles x KWeak (uptr (tview k)) + if 0 <? handles x KStrong (uptr (tview k)) then 1 else 0).
Proof.
  intros V H x TK KD. destruct (xhistory_all code t us m os V H) as (s & R & X & _ & L & _). fold x in X. set (p := fst (sxrun code t (sinit us) os)) in *.
  pose proof X as (E & _ & _ & BX). assert (TK' : tok s i = Some k) by (unfold xtok in TK; unfold tok; rewrite <- E; exact TK).
  assert (HE : forall kd, handles x kd (uptr (tview k)) = peers s kd k) by (intros kd; unfold handles, peers; rewrite E; reflexivity).
  rewrite !HE. destruct (tok_nth s i k TK') as (N & LV). assert (HK : handle k) by (split; destruct KD; congruence).
  destruct (proj1 BX i k N HK) as (b & Hb & (_ & B1 & B2 & _)).
  destruct (live_stok t s p i k R TK') as (kd & SK & KK & NS & TR).
  assert (exists a, hall kd = Some a /\ (kd = SStrong a \/ kd = SWeak a)) as (a & Ha & KD').
  { rewrite <- KK in KD. destruct kd; cbn in KD |- *; destruct KD; try discriminate; eauto. }
  destruct (handle_box t s p i kd a k R NS Ha TR) as (W & b' & HB & C1 & C2 & C3 & C4). unfold addr in *. rewrite HB in Hb. injection Hb as ->.
  destruct (peers_cnt t s p i kd a V R NS Ha k W) as (P1 & P2). rewrite P1, P2. cbn zeta in *.
  assert (CR : cnt (is_raw a) (stoks p) = 0).
  { pose proof (cnt_nonneg (is_raw a) (stoks p)). destruct (Z.eq_dec (cnt (is_raw a) (stoks p)) 0); [assumption|]. destruct C4 as (_ & D1 & D2); [lia|].
    exfalso. destruct KD' as [-> | ->].
    - pose proof (cnt_ge1 (is_strong a) (stoks p) i _ NS). destruct (ccs a a) as (Q & _). rewrite Nat.eqb_refl in Q. specialize (H1 Q). lia.
    - pose proof (cnt_ge1 (is_weak a) (stoks p) i _ NS). destruct (ccw a a) as (_ & Q & _). rewrite Nat.eqb_refl in Q. specialize (H1 Q). lia. }
  rewrite CR, Z.add_0_r in *. unfold get_strong, get_weak, strong_at, weak_at in *. rewrite B1, B2, C1, C2. auto.
Qed.
