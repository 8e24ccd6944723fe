(** * ArenaProofs: allocators inside allocators. *)
From Verif Require Import Base Spec BaseFacts SyncModel SyncSpec SyncProofs SyncMemModel SyncMemSpec SyncMemProofs
  UnsyncModel UnsyncSpec UnsyncProofs ExitModel ExitProofs MemBumpModel MemBumpSpec MemBumpProofs ArenaModel ArenaSpec.

(** ** Lists *)
Lemma f2_left {A B} (R : A -> B -> Prop) l l' : Forall2 R l l' -> forall k x, nth_error l k = Some x -> exists y, nth_error l' k = Some y /\ R x y.
Proof. induction 1 as [|x y l l' H H2 IH]; intros k z E; [destruct k; discriminate|]. destruct k as [|k]; cbn in *; [injection E as <-; eauto|]. apply IH; exact E. Qed.
Lemma f2_right {A B} (R : A -> B -> Prop) l l' : Forall2 R l l' -> forall k y, nth_error l' k = Some y -> exists x, nth_error l k = Some x /\ R x y.
Proof. induction 1 as [|x y l l' H H2 IH]; intros k z E; [destruct k; discriminate|]. destruct k as [|k]; cbn in *; [injection E as <-; eauto|]. apply IH; exact E. Qed.
Lemma f2_upd {A B} (R : A -> B -> Prop) l l' : Forall2 R l l' -> forall k x y, R x y -> Forall2 R (upd l k x) (upd l' k y).
Proof. induction 1 as [|x y l l' H H2 IH]; intros k a b E; [destruct k; constructor|]. destruct k as [|k]; cbn; constructor; auto. Qed.

Lemma f2_length {A B} (R : A -> B -> Prop) l l' : Forall2 R l l' -> length l = length l'.
Proof. induction 1; cbn; congruence. Qed.
Lemma upd_id {A} (l : list A) k x : nth_error l k = Some x -> upd l k x = l.
Proof. revert k. induction l as [|y l IH]; intros [|k] E; cbn in *; try discriminate; [congruence|f_equal; auto]. Qed.

Lemma nth_upd {A} (l : list A) i x j y : nth_error (upd l i x) j = Some y -> (j = i /\ y = x /\ (i < length l)%nat) \/ (j <> i /\ nth_error l j = Some y).
Proof.
  destruct (Nat.eq_dec j i) as [->|N].
  - intros H. left. assert (L : (i < length (upd l i x))%nat) by (apply nth_error_Some; congruence). rewrite upd_length in L.
    split; [reflexivity|]. destruct (nth_error l i) as [z|] eqn:E; [|apply nth_error_None in E; lia].
    rewrite (nth_error_upd_same l i x z E) in H. injection H as <-. auto.
  - rewrite nth_error_upd_other by congruence. auto.
Qed.

(** ** Geometry of the ideal allocators *)
Definition headerI (t : target) (a : iarena) : block := MkBlock (start (udata (iu a)) - word_bytes t) (word_bytes t).
Definition wholeI (t : target) (a : iarena) : block := MkBlock (start (udata (iu a)) - word_bytes t) (word_bytes t + size (udata (iu a))).

Definition fine (t : target) (a : iarena) : Prop :=
  uok t (iu a) /\ Forall (fun c => bblock_ok (iu a) (cblock c)) (icells a) /\ pairwise disjoint (map cblock (icells a)).

Record geom (t : target) (R : block) (w : list iarena) : Prop := {
  g_order : forall j a i k, nth_error w j = Some a -> iparent a = Some (i, k) -> (i < j)%nat;
  g_root : forall j a, nth_error w j = Some a -> iparent a = None -> j = 0%nat /\ inside (wholeI t a) R;
  g_fine : forall j a, usable w j -> nth_error w j = Some a -> fine t a;
  g_in : forall j a i k p c, usable w j -> nth_error w j = Some a -> iparent a = Some (i, k) ->
         nth_error w i = Some p -> nth_error (icells p) k = Some c -> inside (wholeI t a) (cblock c) }.

Lemma inside_trans a b c : inside a b -> inside b c -> inside a c.
Proof. intros H1 H2 x Hx. apply H2, H1, Hx. Qed.
Lemma disjoint_mono a b a' b' : inside a' a -> inside b' b -> disjoint a b -> disjoint a' b'.
Proof. intros H1 H2 D x [X Y]. apply (D x). split; auto. Qed.

Lemma usable_parent w j a i k : usable w j -> nth_error w j = Some a -> iparent a = Some (i, k) ->
  exists p c, usable w i /\ nth_error w i = Some p /\ nth_error (icells p) k = Some c /\ clent c = Some j.
Proof.
  intros U E P. inversion U as [j0 a0 E0 P0|j0 a0 i0 k0 p c E0 P0 U0 E1 E2 L]; subst.
  - congruence.
  - assert (a0 = a) as -> by congruence. rewrite P in P0. injection P0 as <- <-. eauto 8.
Qed.

Lemma cell_in_whole t a c k : valid_target t -> fine t a -> nth_error (icells a) k = Some c -> inside (cblock c) (wholeI t a).
Proof.
  intros Ht (U & F & _) E. rewrite Forall_forall in F. destruct (F c (nth_error_In _ _ E)) as (B1 & B2 & B3). destruct U as [_ U]. cbn in U.
  pose proof (word_pos t Ht). apply inside_intro; unfold wholeI; cbn [start size]; lia.
Qed.
Lemma header_in_whole t a : valid_target t -> fine t a -> inside (headerI t a) (wholeI t a).
Proof.
  intros Ht ([_ U] & _). cbn in U. pose proof (word_pos t Ht). apply inside_intro; unfold wholeI, headerI; cbn [start size]; lia.
Qed.
Lemma header_cell t a c k : fine t a -> nth_error (icells a) k = Some c -> disjoint (headerI t a) (cblock c).
Proof.
  intros (_ & F & _) E. rewrite Forall_forall in F. destruct (F c (nth_error_In _ _ E)) as (B1 & B2 & B3).
  intros x [X Y]. unfold headerI, in_block in *. cbn [start size] in *. lia.
Qed.
Lemma cell_cell a t c c' k k' : fine t a -> nth_error (icells a) k = Some c -> nth_error (icells a) k' = Some c' -> k <> k' -> disjoint (cblock c) (cblock c').
Proof.
  intros (_ & _ & P) E E' N. apply (P k k'); [exact N| |]; rewrite nth_error_map; [rewrite E|rewrite E']; reflexivity.
Qed.

(** two allocators: the later one lies in a block lent by the earlier, or they are apart *)
Lemma nested_or_apart t R w : valid_target t -> geom t R w -> forall j i a b, (i < j)%nat -> usable w i -> usable w j ->
  nth_error w i = Some a -> nth_error w j = Some b ->
  (exists k c x, nth_error (icells a) k = Some c /\ clent c = Some x /\ (x <= j)%nat /\ inside (wholeI t b) (cblock c)) \/
  disjoint (wholeI t a) (wholeI t b).
Proof.
  intros Ht [G1 G2 G3 G4]. induction j as [j IH] using lt_wf_ind. intros i a b L Ui Uj Ea Eb.
  destruct (iparent b) as [[pi pk]|] eqn:Pb; [|destruct (G2 _ _ Eb Pb); lia].
  destruct (usable_parent _ _ _ _ _ Uj Eb Pb) as (p & c & Up & Ep & Ec & Lc). pose proof (G4 _ _ _ _ _ _ Uj Eb Pb Ep Ec) as IN.
  pose proof (G1 _ _ _ _ Eb Pb) as Lp.
  destruct (Nat.lt_trichotomy i pi) as [L1|[<-|L1]].
  - destruct (IH pi Lp i a p L1 Ui Up Ea Ep) as [(k & c1 & x & K1 & K2 & K3 & K4)|D].
    + left. exists k, c1, x. split; [exact K1|]. split; [exact K2|]. split; [lia|].
      eapply inside_trans; [exact IN|]. eapply inside_trans; [|exact K4]. eapply cell_in_whole; [exact Ht|apply (G3 _ _ Up Ep)|exact Ec].
    + right. eapply disjoint_mono; [| |exact D]; [intros y Hy; exact Hy|]. eapply inside_trans; [exact IN|].
      eapply cell_in_whole; [exact Ht|apply (G3 _ _ Up Ep)|exact Ec].
  - assert (a = p) as -> by congruence. left. exists pk, c, j. auto.
  - destruct (IH i L pi p a L1 Up Ui Ep Ea) as [(k & c1 & x & K1 & K2 & K3 & K4)|D].
    + right. assert (k <> pk) by (intros ->; rewrite Ec in K1; injection K1 as <-; rewrite Lc in K2; injection K2 as <-; lia).
      eapply disjoint_mono; [exact K4|exact IN|]. eapply cell_cell; [apply (G3 _ _ Up Ep)|exact K1|exact Ec|assumption].
    + right. apply disjoint_sym. eapply disjoint_mono; [| |exact D]; [|intros y Hy; exact Hy]. eapply inside_trans; [exact IN|].
      eapply cell_in_whole; [exact Ht|apply (G3 _ _ Up Ep)|exact Ec].
Qed.

Lemma owned_cases t w j b : owned t w j b -> usable w j /\ exists a, nth_error w j = Some a /\
  (b = headerI t a \/ exists k c, nth_error (icells a) k = Some c /\ clent c = None /\ b = cblock c).
Proof. intros H. exact H. Qed.

Lemma owned_whole t R w j b a : valid_target t -> geom t R w -> owned t w j b -> nth_error w j = Some a -> inside b (wholeI t a).
Proof.
  intros Ht G (U & a' & E & H) Ea. assert (a' = a) as -> by congruence. pose proof (g_fine _ _ _ G _ _ U E) as F.
  destruct H as [->|(k & c & K1 & K2 & ->)]; [apply header_in_whole|eapply cell_in_whole]; eauto.
Qed.

Lemma owned_lent t R w j b a k c x : valid_target t -> geom t R w -> owned t w j b -> nth_error w j = Some a -> nth_error (icells a) k = Some c ->
  clent c = Some x -> disjoint b (cblock c).
Proof.
  intros Ht G (U & a' & E & H) Ea Ec L. assert (a' = a) as -> by congruence. pose proof (g_fine _ _ _ G _ _ U E) as F.
  destruct H as [->|(k1 & c1 & K1 & K2 & ->)]; [eapply header_cell; eauto|]. eapply cell_cell; eauto. intros ->. congruence.
Qed.

Lemma owned_apart t R w j b j' b' : valid_target t -> geom t R w -> owned t w j b -> owned t w j' b' -> (j = j' /\ b = b') \/ disjoint b b'.
Proof.
  intros Ht G O O'.
  assert (LT : forall j b j' b', (j < j')%nat -> owned t w j b -> owned t w j' b' -> disjoint b b').
  { clear j b j' b' O O'. intros j b j' b' L O O'. pose proof O as (U & a & E & _). pose proof O' as (U' & a' & E' & _).
    destruct (nested_or_apart t R w Ht G j' j a a' L U U' E E') as [(k & c & x & K1 & K2 & K3 & K4)|D].
    - eapply disjoint_mono; [intros y Hy; exact Hy| |eapply owned_lent; eauto]. eapply inside_trans; [|exact K4]. eapply owned_whole; eauto.
    - eapply disjoint_mono; [| |exact D]; eapply owned_whole; eauto. }
  destruct (Nat.lt_trichotomy j j') as [L|[<-|L]]; [right; eauto| |right; apply disjoint_sym; eauto].
  pose proof O as (U & a & E & H). pose proof O' as (_ & a' & E' & H'). assert (a' = a) as -> by congruence. pose proof (g_fine _ _ _ G _ _ U E) as F.
  destruct H as [->|(k & c & K1 & K2 & ->)]; destruct H' as [->|(k' & c' & K1' & K2' & ->)].
  - left. auto.
  - right. eapply header_cell; eauto.
  - right. apply disjoint_sym. eapply header_cell; eauto.
  - destruct (Nat.eq_dec k k') as [->|N]; [left; split; [reflexivity|congruence]|]. right. eapply cell_cell; eauto.
Qed.

Lemma usable_inside t R w : valid_target t -> geom t R w -> forall j a, usable w j -> nth_error w j = Some a -> inside (wholeI t a) R.
Proof.
  intros Ht G. induction j as [j IH] using lt_wf_ind. intros a U E. destruct (iparent a) as [[i k]|] eqn:P; [|apply (g_root _ _ _ G _ _ E P)].
  destruct (usable_parent _ _ _ _ _ U E P) as (p & c & Up & Ep & Ec & Lc). pose proof (g_order _ _ _ G _ _ _ _ E P).
  eapply inside_trans; [exact (g_in _ _ _ G _ _ _ _ _ _ U E P Ep Ec)|].
  eapply inside_trans; [exact (cell_in_whole t p c k Ht (g_fine _ _ _ G _ _ Up Ep) Ec)|]. exact (IH i H p Up Ep).
Qed.

(** ** Changing one allocator *)
Definition sublent (n : nat) (cs cs' : list cell) : Prop :=
  forall k c' x, nth_error cs' k = Some c' -> clent c' = Some x -> (x < n)%nat ->
  exists c, nth_error cs k = Some c /\ clent c = Some x /\ cblock c = cblock c'.

Lemma sublent_refl n cs : sublent n cs cs.
Proof. intros k c x E L _. eauto. Qed.

Lemma usable_lt w j : usable w j -> (j < length w)%nat.
Proof. intros U. inversion U; subst; apply nth_error_Some; congruence. Qed.

Lemma usable_upd t R w j a a' : geom t R w -> nth_error w j = Some a -> iparent a' = iparent a -> sublent (length w) (icells a) (icells a') ->
  forall i, usable (upd w j a') i -> usable w i.
Proof.
  intros G E P S. induction 1 as [i b Eb Pb|i b p k pa c Eb Pb U IH Ep Ec Lc].
  - destruct (nth_upd _ _ _ _ _ Eb) as [(-> & -> & _)|(N & Eb')]; [apply (us_root _ j a); congruence|apply (us_root _ i b); assumption].
  - assert (Li : (i < length w)%nat) by (rewrite <- (upd_length w j a'); apply nth_error_Some; congruence).
    assert (Q : exists b0, nth_error w i = Some b0 /\ iparent b0 = Some (p, k)).
    { destruct (nth_upd _ _ _ _ _ Eb) as [(-> & -> & _)|(N & Eb')]; [exists a; split; [exact E|congruence]|eauto]. }
    destruct Q as (b0 & Eb0 & Pb0).
    destruct (nth_upd _ _ _ _ _ Ep) as [(-> & -> & _)|(N & Ep')].
    + destruct (S _ _ _ Ec Lc Li) as (c0 & C1 & C2 & C3). eapply us_child; eauto.
    + eapply us_child; eauto.
Qed.

Lemma geom_upd t R w j a a' : geom t R w -> nth_error w j = Some a -> udata (iu a') = udata (iu a) -> iparent a' = iparent a ->
  sublent (length w) (icells a) (icells a') -> (usable w j -> fine t a') -> geom t R (upd w j a').
Proof.
  intros G E D P S F. pose proof (usable_upd t R w j a a' G E P S) as UU. pose proof G as [G1 G2 G3 G4].
  assert (W : wholeI t a' = wholeI t a) by (unfold wholeI; rewrite D; reflexivity).
  split.
  - intros i b p k Eb Pb. destruct (nth_upd _ _ _ _ _ Eb) as [(-> & -> & _)|(N & Eb')]; [|eauto]. rewrite P in Pb. eauto.
  - intros i b Eb Pb. destruct (nth_upd _ _ _ _ _ Eb) as [(-> & -> & _)|(N & Eb')]; [|eauto]. rewrite W. apply (G2 j a); congruence.
  - intros i b U Eb. destruct (nth_upd _ _ _ _ _ Eb) as [(-> & -> & _)|(N & Eb')]; [apply F, UU, U|]. apply (G3 i); auto.
  - intros i b p k pa c U Eb Pb Ep Ec.
    destruct (usable_parent _ _ _ _ _ U Eb Pb) as (pa0 & c0 & _ & Ep0 & Ec0 & Lc). rewrite Ep in Ep0. injection Ep0 as <-. rewrite Ec in Ec0. injection Ec0 as <-.
    assert (Li : (i < length w)%nat) by (rewrite <- (upd_length w j a'); apply usable_lt; exact U).
    assert (Q : exists b0, nth_error w i = Some b0 /\ iparent b0 = Some (p, k) /\ wholeI t b = wholeI t b0).
    { destruct (nth_upd _ _ _ _ _ Eb) as [(-> & -> & _)|(N & Eb')]; [exists a; split; [exact E|split; [congruence|exact W]]|exists b; auto]. }
    destruct Q as (b0 & Eb0 & Pb0 & ->).
    destruct (nth_upd _ _ _ _ _ Ep) as [(-> & -> & _)|(N & Ep')].
    + destruct (S _ _ _ Ec Lc Li) as (c0 & C1 & C2 & C3). rewrite <- C3. apply (G4 i b0 j k a c0); auto.
    + apply (G4 i b0 p k pa c); auto.
Qed.

Lemma usable_app w a0 i : usable (w ++ [a0]) i -> (forall j a p k, nth_error (w ++ [a0]) j = Some a -> iparent a = Some (p, k) -> (p < j)%nat) -> (i < length w)%nat -> usable w i.
Proof.
  intros U O. induction U as [i b Eb Pb|i b p k pa c Eb Pb U IH Ep Ec Lc]; intros L.
  - rewrite nth_error_app1 in Eb by lia. apply (us_root _ i b); assumption.
  - pose proof (O _ _ _ _ Eb Pb). rewrite nth_error_app1 in Eb, Ep by lia. eapply us_child; eauto. apply IH. lia.
Qed.

Lemma nth_app1 {A} (l : list A) x k y : nth_error (l ++ [x]) k = Some y -> nth_error l k = Some y \/ (k = length l /\ y = x).
Proof.
  intros H. destruct (Nat.lt_ge_cases k (length l)) as [L|L]; [rewrite nth_error_app1 in H by lia; auto|].
  rewrite nth_error_app2 in H by lia. destruct (k - length l)%nat as [|n] eqn:E; [|cbn in H; destruct n; discriminate].
  cbn in H. injection H as <-. right. split; [lia|reflexivity].
Qed.

Lemma geom_app t R w a0 j p k c : geom t R w -> nth_error w j = Some p -> nth_error (icells p) k = Some c -> iparent a0 = Some (j, k) ->
  inside (wholeI t a0) (cblock c) -> fine t a0 -> geom t R (w ++ [a0]).
Proof.
  intros [G1 G2 G3 G4] Ep Ec P0 I0 F0.
  assert (Lj : (j < length w)%nat) by (apply nth_error_Some; congruence).
  assert (O : forall j a p k, nth_error (w ++ [a0]) j = Some a -> iparent a = Some (p, k) -> (p < j)%nat).
  { intros i a q l Ei Pi. destruct (nth_app1 _ _ _ _ Ei) as [E|(-> & ->)]; [eauto|]. rewrite P0 in Pi. injection Pi as <- <-. exact Lj. }
  split.
  - exact O.
  - intros i a Ei Pi. destruct (nth_app1 _ _ _ _ Ei) as [E|(-> & ->)]; [eauto|congruence].
  - intros i a U Ei. destruct (nth_app1 _ _ _ _ Ei) as [E|(-> & ->)]; [|exact F0].
    apply (G3 i); [|exact E]. apply (usable_app _ a0); [exact U|exact O|]. apply nth_error_Some. congruence.
  - intros i a q l pa ca U Ei Pi Eq El. destruct (nth_app1 _ _ _ _ Ei) as [E|(-> & ->)].
    + assert (Li : (i < length w)%nat) by (apply nth_error_Some; congruence). pose proof (O _ _ _ _ Ei Pi). rewrite nth_error_app1 in Eq by lia.
      apply (G4 i a q l pa ca); auto. apply (usable_app _ a0); auto.
    + rewrite P0 in Pi. injection Pi as <- <-. rewrite nth_error_app1 in Eq by lia. rewrite Ep in Eq. injection Eq as <-. rewrite Ec in El. injection El as <-. exact I0.
Qed.

(** ** The structure of the model's allocators *)
Definition crel (x : block * option nat) (c : cell) : Prop := fst x = cblock c /\ snd x = clent c.
Definition srel (a : arena) (i : iarena) : Prop := aparent a = iparent i /\ Forall2 crel (ablocks a) (icells i).

Lemma alive_usable w v : Forall2 srel w v -> (forall j a i k, nth_error v j = Some a -> iparent a = Some (i, k) -> (i < j)%nat) ->
  forall n j, (j < n)%nat -> alive n w j = true <-> usable v j.
Proof.
  intros S O. induction n as [|n IH]; intros j L; [lia|]. cbn [alive]. split.
  - destruct (nth_error w j) as [a|] eqn:Ea; [|discriminate]. destruct (f2_left _ _ _ S _ _ Ea) as (b & Eb & P & C).
    destruct (aparent a) as [[i k]|] eqn:Pa; [|intros _; apply (us_root _ j b); congruence].
    destruct (nth_error w i) as [p|] eqn:Ep; [|discriminate]. destruct (f2_left _ _ _ S _ _ Ep) as (q & Eq & _ & Cq).
    destruct (nth_error (ablocks p) k) as [[bk lk]|] eqn:Ek; [|discriminate]. destruct (f2_left _ _ _ Cq _ _ Ek) as (c & Ec & _ & Lc). cbn in Lc.
    destruct lk as [x|]; [|discriminate]. intros H. apply andb_prop in H. destruct H as (H1 & H2). apply Nat.eqb_eq in H1. subst x.
    pose proof (O _ _ _ _ Eb (eq_sym P)). eapply us_child; eauto. apply IH; [lia|exact H2].
  - intros U. inversion U as [j0 b Eb Pb|j0 b i k q c Eb Pb U0 Eq Ec Lc]; subst.
    + destruct (f2_right _ _ _ S _ _ Eb) as (a & -> & P & _). rewrite P, Pb. reflexivity.
    + destruct (f2_right _ _ _ S _ _ Eb) as (a & -> & P & _). rewrite P, Pb. destruct (f2_right _ _ _ S _ _ Eq) as (p & -> & _ & Cq).
      destruct (f2_right _ _ _ Cq _ _ Ec) as ([bk lk] & -> & _ & L2). cbn in L2. rewrite L2, Lc, Nat.eqb_refl. cbn [andb].
      pose proof (O _ _ _ _ Eb Pb). apply IH; [lia|exact U0].
Qed.

Lemma arena_at_some w v j : Forall2 srel w v -> (forall j a i k, nth_error v j = Some a -> iparent a = Some (i, k) -> (i < j)%nat) ->
  forall a, arena_at w j = Some a <-> (usable v j /\ nth_error w j = Some a).
Proof.
  intros S O a. unfold arena_at. split.
  - destruct (alive (length w) w j) eqn:A; [|discriminate]. intros E. split; [|exact E].
    apply (alive_usable w v S O (length w)); [apply nth_error_Some; congruence|exact A].
  - intros (U & E). assert (L : (j < length w)%nat) by (apply nth_error_Some; congruence).
    rewrite (proj2 (alive_usable w v S O (length w) j L) U). exact E.
Qed.

(** ** Memory *)
Record arel (t : target) (R : block) (s : astate) (v : list iarena) : Prop := {
  ar_geom : geom t R v;
  ar_struct : Forall2 srel (arenas s) v;
  ar_view : forall j a i, usable v j -> nth_error (arenas s) j = Some a -> nth_error v j = Some i ->
    udata (iu i) = fat_data t (afat a) /\ view t (amem s) (afat a) = Some (iu i);
  ar_bytes : forall j i k c, usable v j -> nth_error v j = Some i -> nth_error (icells i) k = Some c -> clent c = None ->
    cbytes c = mem_read (amem s) (start (cblock c)) (size (cblock c)) }.

Lemma header_same t m m' f : valid_target t -> same_on (MkBlock (faddr f) (word_bytes t)) m m' -> view t m' f = view t m f.
Proof. intros Ht S. unfold view. rewrite (load_usize_same t m m' (faddr f) Ht); [reflexivity|]. exact S. Qed.

(** allocator [j] was changed together with memory that it owns *)
Lemma arel_upd t R s v j a i X m' a' i' : valid_target t -> arel t R s v -> usable v j -> nth_error (arenas s) j = Some a -> nth_error v j = Some i ->
  owned t v j X -> same_outside X (amem s) m' ->
  udata (iu i') = udata (iu i) -> iparent i' = iparent i -> sublent (length v) (icells i) (icells i') -> fine t i' -> srel a' i' -> afat a' = afat a ->
  view t m' (afat a) = Some (iu i') ->
  (forall k c, nth_error (icells i') k = Some c -> clent c = None -> cbytes c = mem_read m' (start (cblock c)) (size (cblock c))) ->
  arel t R (MkAS m' (upd (arenas s) j a')) (upd v j i').
Proof.
  intros Ht [A1 A2 A3 A4] U Ea Ei OX SX D P S F SR AF V B. pose proof (usable_upd t R v j i i' A1 Ei P S) as UU. split; cbn [amem arenas].
  - eapply geom_upd; eauto.
  - apply f2_upd; assumption.
  - intros j1 a1 i1 U1 E1 E2. destruct (nth_upd _ _ _ _ _ E1) as [(-> & -> & _)|(N & E1')].
    + rewrite (nth_error_upd_same v j i' i Ei) in E2. injection E2 as <-. rewrite AF. split; [rewrite D; apply (A3 j a i U Ea Ei)|exact V].
    + rewrite nth_error_upd_other in E2 by congruence. destruct (A3 j1 a1 i1 (UU _ U1) E1' E2) as (Q1 & Q2). split; [exact Q1|].
      rewrite <- Q2. apply header_same; [exact Ht|]. intros x Hx. apply SX. intros HX.
      assert (OH : owned t v j1 (headerI t i1)) by (split; [apply UU; exact U1|]; exists i1; split; [exact E2|left; reflexivity]).
      destruct (owned_apart t R v _ _ _ _ Ht A1 OX OH) as [(-> & _)|DD]; [congruence|]. apply (DD x). split; [exact HX|].
      unfold headerI. rewrite Q1. unfold fat_data. cbn [start]. replace (faddr (afat a1) + word_bytes t - word_bytes t) with (faddr (afat a1)) by lia. exact Hx.
  - intros j1 i1 k c U1 E1 Ec Lc. destruct (nth_upd _ _ _ _ _ E1) as [(-> & -> & _)|(N & E1')]; [eauto|].
    rewrite (A4 j1 i1 k c (UU _ U1) E1' Ec Lc). symmetry. apply mem_read_same. intros x Hx. apply SX. intros HX.
    assert (OH : owned t v j1 (cblock c)) by (split; [apply UU; exact U1|]; exists i1; split; [exact E1'|right; exists k, c; auto]).
    destruct (owned_apart t R v _ _ _ _ Ht A1 OX OH) as [(-> & _)|DD]; [congruence|]. apply (DD x). split; [exact HX|exact Hx].
Qed.

Lemma arel_app t R s v f0 i0 j p k c : valid_target t -> arel t R s v -> nth_error v j = Some p -> nth_error (icells p) k = Some c ->
  iparent i0 = Some (j, k) -> icells i0 = [] -> inside (wholeI t i0) (cblock c) -> uok t (iu i0) -> udata (iu i0) = fat_data t f0 ->
  view t (amem s) f0 = Some (iu i0) ->
  arel t R (MkAS (amem s) (arenas s ++ [MkArena f0 [] (Some (j, k))])) (v ++ [i0]).
Proof.
  intros Ht [A1 A2 A3 A4] Ep Ec P0 C0 I0 U0 D0 V0.
  assert (F0 : fine t i0) by (unfold fine; rewrite C0; cbn; split; [exact U0|split; [constructor|apply pairwise_nil]]).
  pose proof (geom_app t R v i0 j p k c A1 Ep Ec P0 I0 F0) as G. pose proof (g_order _ _ _ G) as O. pose proof (f2_length _ _ _ A2) as LN. split; cbn [amem arenas].
  - exact G.
  - apply Forall2_app; [exact A2|]. constructor; [|constructor]. split; cbn; [congruence|rewrite C0; constructor].
  - intros j1 a1 i1 U1 E1 E2. destruct (nth_app1 _ _ _ _ E1) as [E1'|(-> & ->)].
    + assert (j1 < length v)%nat by (rewrite <- LN; apply nth_error_Some; congruence). rewrite nth_error_app1 in E2 by lia.
      apply (A3 j1); auto. apply (usable_app _ i0); auto.
    + rewrite LN, nth_error_app2, Nat.sub_diag in E2 by lia. cbn in E2. injection E2 as <-. auto.
  - intros j1 i1 k1 c1 U1 E1 Ec1 L1. destruct (nth_app1 _ _ _ _ E1) as [E1'|(-> & ->)]; [|rewrite C0 in Ec1; destruct k1; discriminate].
    apply (A4 j1 i1 k1 c1); auto. apply (usable_app _ i0); auto. apply nth_error_Some. congruence.
Qed.

Lemma arel_binv t R s v j a i : arel t R s v -> usable v j -> nth_error (arenas s) j = Some a -> nth_error v j = Some i ->
  binv t (afat a) (as_bstate s a) (iu i) /\ map fst (ablocks a) = map cblock (icells i).
Proof.
  intros [A1 A2 A3 A4] U Ea Ei. destruct (A3 _ _ _ U Ea Ei) as (D & V). destruct (g_fine _ _ _ A1 _ _ U Ei) as (F1 & F2 & F3).
  assert (E : map fst (ablocks a) = map cblock (icells i)).
  { destruct (f2_left _ _ _ A2 _ _ Ea) as (i' & Ei' & _ & C). assert (i' = i) as -> by congruence. clear - C. induction C as [|x c l l' (H & _) _ IH]; cbn; [reflexivity|congruence]. }
  split; [|exact E]. unfold binv, as_bstate. cbn [bfat bmem bblocks]. rewrite E. split; [reflexivity|]. split; [exact V|]. split; [exact F1|]. split; [exact D|].
  split; [|exact F3]. apply Forall_forall. intros b Hb. apply in_map_iff in Hb. destruct Hb as (c & <- & Hc). rewrite Forall_forall in F2. auto.
Qed.

Lemma look t R s v j : arel t R s v ->
  (exists a i, arena_at (arenas s) j = Some a /\ usable v j /\ nth_error (arenas s) j = Some a /\ nth_error v j = Some i /\ srel a i) \/
  (arena_at (arenas s) j = None /\ ~ usable v j).
Proof.
  intros [A1 A2 A3 A4]. pose proof (arena_at_some _ _ j A2 (g_order _ _ _ A1)) as H.
  destruct (arena_at (arenas s) j) as [a|] eqn:E.
  - destruct (proj1 (H a) eq_refl) as (U & Ea). destruct (f2_left _ _ _ A2 _ _ Ea) as (i & Ei & S). left. exists a, i. auto.
  - right. split; [reflexivity|]. intros U. pose proof (usable_lt _ _ U) as L. rewrite <- (f2_length _ _ _ A2) in L.
    destruct (nth_error (arenas s) j) as [a|] eqn:Ea; [|apply nth_error_None in Ea; lia]. discriminate (proj2 (H a) (conj U eq_refl)).
Qed.

Lemma look_cell a i k : srel a i ->
  (exists c, nth_error (ablocks a) k = Some (cblock c, clent c) /\ nth_error (icells i) k = Some c) \/
  (nth_error (ablocks a) k = None /\ nth_error (icells i) k = None).
Proof.
  intros (_ & S). destruct (nth_error (ablocks a) k) as [[b l]|] eqn:E.
  - destruct (f2_left _ _ _ S _ _ E) as (c & Ec & C1 & C2). cbn in *. subst. left. eauto.
  - right. split; [reflexivity|]. destruct (nth_error (icells i) k) as [c|] eqn:Ec; [|reflexivity].
    destruct (f2_right _ _ _ S _ _ Ec) as (x & Ex & _). congruence.
Qed.

Lemma fine_cells t i i' : fine t i -> iu i' = iu i -> map cblock (icells i') = map cblock (icells i) -> fine t i'.
Proof.
  intros (F1 & F2 & F3) E M. unfold fine. rewrite E, M. split; [exact F1|]. split; [|exact F3].
  apply Forall_map with (f := cblock) (P := bblock_ok (iu i)). rewrite M. apply Forall_map. exact F2.
Qed.

Lemma map_upd {A B} (f : A -> B) l k x : map f (upd l k x) = upd (map f l) k (f x).
Proof. revert k. induction l as [|y l IH]; intros [|k]; cbn; try reflexivity. f_equal. apply IH. Qed.

Lemma blocks_upd (cs : list cell) k c c' : nth_error cs k = Some c -> cblock c' = cblock c -> map cblock (upd cs k c') = map cblock cs.
Proof. intros E H. rewrite map_upd. apply upd_id. rewrite nth_error_map, E. cbn. congruence. Qed.

Lemma sublent_upd n cs k c : (clent c = None \/ clent c = Some n) -> sublent n cs (upd cs k c).
Proof.
  intros L k1 c1 x E Lx Lt. destruct (nth_upd _ _ _ _ _ E) as [(-> & -> & _)|(N & E')]; [destruct L as [L|L]; rewrite L in Lx; [discriminate|injection Lx as ->; lia]|eauto].
Qed.

Lemma cell_region t i k c : valid_target t -> fine t i -> nth_error (icells i) k = Some c -> valid_region t (cblock c).
Proof.
  intros Ht ((UR & U4) & F & _) E. rewrite Forall_forall in F. destruct (F c (nth_error_In _ _ E)) as (B1 & B2 & B3). destruct UR as (U1 & U2 & U3). cbn in U1, U2, U3, U4.
  unfold valid_region. lia.
Qed.

Lemma inside_same R X m m' : inside X R -> same_outside X m m' -> same_outside R m m'.
Proof. intros H S x Hx. apply S. intros HX. apply Hx, H, HX. Qed.

Lemma write_same m b off bs : 0 <= off -> off + Z.of_nat (length bs) <= size b -> same_outside b m (mem_write m (start b + off) bs).
Proof.
  intros H1 H2 x Hx. apply (mem_write_outside _ _ _ (Z.of_nat (length bs))); [lia|]. intros Hin. apply Hx. unfold in_block in *. cbn [start size] in *. lia.
Qed.

Lemma asame t R v j i X : valid_target t -> geom t R v -> usable v j -> nth_error v j = Some i -> owned t v j X -> inside X R.
Proof.
  intros Ht G U E O. eapply inside_trans; [exact (owned_whole t R v j X i Ht G O E)|]. exact (usable_inside t R v Ht G j i U E).
Qed.

Lemma fat_header t a i : udata (iu i) = fat_data t (afat a) -> headerI t i = header_of t (afat a).
Proof. intros D. unfold headerI, header_of. rewrite D. unfold fat_data. cbn [start]. f_equal. lia. Qed.

Lemma owned_header t v j i : usable v j -> nth_error v j = Some i -> owned t v j (headerI t i).
Proof. intros U E. split; [exact U|]. exists i. split; [exact E|]. left. reflexivity. Qed.
Lemma owned_cell t v j i k c : usable v j -> nth_error v j = Some i -> nth_error (icells i) k = Some c -> clent c = None -> owned t v j (cblock c).
Proof. intros U E Ec L. split; [exact U|]. exists i. split; [exact E|]. right. eauto. Qed.

(** the other cells of an allocator are not touched by a store to [X] that it owns *)
Lemma cells_kept t R s v j i k c X m' : valid_target t -> arel t R s v -> usable v j -> nth_error v j = Some i -> nth_error (icells i) k = Some c ->
  clent c = None -> disjoint X (cblock c) -> same_outside X (amem s) m' -> cbytes c = mem_read m' (start (cblock c)) (size (cblock c)).
Proof.
  intros Ht A U E Ec L D S. rewrite (ar_bytes _ _ _ _ A j i k c U E Ec L). symmetry. apply mem_read_same. intros x Hx. apply S. intros HX.
  apply (D x). split; [exact HX|exact Hx].
Qed.

Lemma crel_app l cs b bs : Forall2 crel l cs -> Forall2 crel (l ++ [(b, None)]) (cs ++ [MkCell b bs None]).
Proof. intros H. apply Forall2_app; [exact H|]. constructor; [split; reflexivity|constructor]. Qed.

Lemma step_call t R s v j c : valid_target t -> arel t R s v -> valid_ucall t c ->
  exists v', istep t v (ACall j c) (snd (astep t s (ACall j c))) v' /\ arel t R (fst (astep t s (ACall j c))) v' /\
    same_outside R (amem s) (amem (fst (astep t s (ACall j c)))).
Proof.
  intros Ht A Hc. cbn [astep]. destruct (look t R s v j A) as [(a & i & -> & U & Ea & Ei & SR)|(-> & NU)].
  2:{ exists v. cbn [fst snd]. split; [apply is_invalid; exact NU|]. split; [exact A|intros x _; reflexivity]. }
  destruct (arel_binv t R s v j a i A U Ea Ei) as (B & EM). pose proof SR as (SP & SC).
  destruct (bcall_step t (afat a) (as_bstate s a) (iu i) c Ht B Hc) as (s' & u' & r & E1 & E2 & B' & M & BB).
  unfold a_call. rewrite E1. cbn [fst snd of_banswer]. unfold as_bstate in M, BB. cbn [bmem bblocks] in M, BB.
  set (cs' := if is_ureset c then [] else match uevent_block (c, r) with Some b => icells i ++ [MkCell b (mem_read (bmem s') (start b) (size b)) None] | None => icells i end).
  assert (EB : bblocks s' = map cblock cs').
  { rewrite BB, EM. unfold cs'. destruct (is_ureset c); [reflexivity|]. destruct (uevent_block (c, r)); [rewrite map_app|]; reflexivity. }
  destruct B' as (Q1 & Q2 & Q3 & Q4 & Q5 & Q6). rewrite EB in Q5, Q6.
  destruct (ar_view _ _ _ _ A j a i U Ea Ei) as (D & V).
  pose proof (g_fine _ _ _ (ar_geom _ _ _ _ A) _ _ U Ei) as F.
  exists (upd v j (MkIA u' cs' (iparent i))). split; [|split].
  - eapply is_call; [exact U|exact Ei|exact E2|]. unfold cs'. destruct (is_ureset c) eqn:Er; [apply ca_reset; exact Er|].
    destruct (uevent_block (c, r)) as [b|] eqn:Eb; [|apply ca_same; assumption]. apply ca_new; [exact Er|exact Eb|]. apply mem_read_length.
    assert (IB : In b (map cblock cs')) by (unfold cs'; rewrite ?Er, ?Eb, map_app; apply in_or_app; right; left; reflexivity).
    rewrite Forall_forall in Q5. destruct (Q5 b IB) as (? & _). lia.
  - apply (arel_upd t R s v j a i (headerI t i)); cbn [iu icells iparent afat]; auto.
    + apply owned_header; assumption.
    + rewrite (fat_header t a i D). exact M.
    + congruence.
    + unfold cs'. destruct (is_ureset c); [intros k c1 x E; destruct k; discriminate|]. destruct (uevent_block (c, r)) as [b|]; [|apply sublent_refl].
      intros k c1 x E L _. destruct (nth_app1 _ _ _ _ E) as [E'|(-> & ->)]; [eauto|discriminate].
    + split; [exact Q3|]. cbn [icells iu]. split; [|exact Q6]. apply Forall_map. exact Q5.
    + split; cbn [aparent iparent ablocks icells]; [exact SP|]. rewrite BB. unfold cs'. destruct (is_ureset c); [constructor|].
      destruct (uevent_block (c, r)) as [b|].
      * rewrite skipn_app, map_length, Nat.sub_diag, skipn_all2 by (rewrite map_length; lia). cbn [skipn app map]. apply crel_app. exact SC.
      * rewrite skipn_all2 by (rewrite map_length; lia). cbn [map]. rewrite app_nil_r. exact SC.
    + intros k c1 E L.
      assert (OLD : forall k c1, nth_error (icells i) k = Some c1 -> clent c1 = None -> cbytes c1 = mem_read (bmem s') (start (cblock c1)) (size (cblock c1))).
      { intros k0 c0 E0 L0. apply (cells_kept t R s v j i k0 c0 (headerI t i) (bmem s') Ht A U Ei E0 L0). - eapply header_cell; eauto. - rewrite (fat_header t a i D). exact M. }
      unfold cs' in E. destruct (is_ureset c); [destruct k; discriminate|]. destruct (uevent_block (c, r)) as [b|]; [|eauto].
      destruct (nth_app1 _ _ _ _ E) as [E'|(-> & ->)]; [eauto|reflexivity].
  - cbn [amem]. apply (inside_same R (headerI t i)); [|rewrite (fat_header t a i D); exact M].
    apply (asame t R v j i); auto; [apply (ar_geom _ _ _ _ A)|apply owned_header; assumption].
Qed.

Lemma step_write t R s v j k off bs : valid_target t -> arel t R s v ->
  exists v', istep t v (AWrite j k off bs) (snd (astep t s (AWrite j k off bs))) v' /\ arel t R (fst (astep t s (AWrite j k off bs))) v' /\
    same_outside R (amem s) (amem (fst (astep t s (AWrite j k off bs)))).
Proof.
  intros Ht A.
  assert (BAD : ~ permitted v (AWrite j k off bs) -> exists v', istep t v (AWrite j k off bs) (snd (s, AInvalid)) v' /\ arel t R (fst (s, AInvalid)) v' /\ same_outside R (amem s) (amem (fst (s, AInvalid)))).
  { intros N. exists v. cbn [fst snd]. split; [apply is_invalid; exact N|]. split; [exact A|intros x _; reflexivity]. }
  cbn [astep]. destruct (look t R s v j A) as [(a & i & -> & U & Ea & Ei & SR)|(-> & NU)]; [|apply BAD; intros (? & ? & ? & _); contradiction].
  destruct (look_cell a i k SR) as [(c & Eb & Ec)|(Eb & Ec)]; rewrite Eb.
  2:{ apply BAD. intros (i1 & c1 & _ & X1 & X2 & _). congruence. }
  destruct (clent c) as [x|] eqn:Lc; [apply BAD; intros (i1 & c1 & _ & X1 & X2 & X3 & _); congruence|].
  cbn [bstep as_bstate bblocks bmem]. rewrite nth_error_map, Eb. cbn [option_map fst].
  destruct (Z.leb_spec 0 off) as [H1|H1]; cbn [andb].
  2:{ cbn [as_bstate of_banswer fst snd bmem]. destruct s as [ms ws]. apply BAD. intros (i1 & c1 & _ & X1 & X2 & X3 & X4 & _). lia. }
  destruct (Z.leb_spec (off + Z.of_nat (length bs)) (size (cblock c))) as [H2|H2].
  2:{ cbn [as_bstate of_banswer fst snd bmem]. destruct s as [ms ws]. apply BAD. intros (i1 & c1 & _ & X1 & X2 & X3 & X4 & X5).
      assert (i1 = i) as -> by congruence. assert (c1 = c) as -> by congruence. lia. }
  cbn [bmem fst snd of_banswer amem].
  pose proof (g_fine _ _ _ (ar_geom _ _ _ _ A) _ _ U Ei) as F. pose proof SR as (SP & SC).
  pose proof (owned_cell t v j i k c U Ei Ec Lc) as OC. pose proof (write_same (amem s) (cblock c) off bs H1 H2) as SO.
  destruct (ar_view _ _ _ _ A j a i U Ea Ei) as (D & V).
  exists (upd v j (MkIA (iu i) (upd (icells i) k (MkCell (cblock c) (splice (cbytes c) (Z.to_nat off) bs) None)) (iparent i))). split; [|split].
  - eapply is_write; eauto.
  - rewrite <- (upd_id (arenas s) j a Ea). apply (arel_upd t R s v j a i (cblock c)); cbn [iu icells iparent]; auto.
    + apply sublent_upd. left. reflexivity.
    + apply (fine_cells t i); cbn [iu icells]; auto. apply (blocks_upd _ _ c); [exact Ec|reflexivity].
    + split; cbn [iparent icells]; [exact SP|]. rewrite <- (upd_id (ablocks a) k _ Eb). apply f2_upd; [exact SC|]. split; reflexivity.
    + destruct F as (F1 & F2 & F3). rewrite Forall_forall in F2. apply (view_write t (amem s) (afat a) (iu i)); auto. apply F2. eapply nth_error_In. exact Ec.
    + intros k1 c1 E L. destruct (nth_upd _ _ _ _ _ E) as [(-> & -> & _)|(N & E')].
      * cbn [cbytes cblock]. rewrite read_spliced by assumption. rewrite (ar_bytes _ _ _ _ A j i k c U Ei Ec Lc). reflexivity.
      * eapply cells_kept; eauto. eapply cell_cell; eauto.
  - apply (inside_same R (cblock c)); [|exact SO]. apply (asame t R v j i); auto. apply (ar_geom _ _ _ _ A).
Qed.

Lemma step_read t R s v j k : valid_target t -> arel t R s v ->
  exists v', istep t v (ARead j k) (snd (astep t s (ARead j k))) v' /\ arel t R (fst (astep t s (ARead j k))) v' /\
    same_outside R (amem s) (amem (fst (astep t s (ARead j k)))).
Proof.
  intros Ht A.
  assert (BAD : ~ permitted v (ARead j k) -> exists v', istep t v (ARead j k) (snd (s, AInvalid)) v' /\ arel t R (fst (s, AInvalid)) v' /\ same_outside R (amem s) (amem (fst (s, AInvalid)))).
  { intros N. exists v. cbn [fst snd]. split; [apply is_invalid; exact N|]. split; [exact A|intros x _; reflexivity]. }
  cbn [astep]. destruct (look t R s v j A) as [(a & i & -> & U & Ea & Ei & SR)|(-> & NU)]; [|apply BAD; intros (? & ? & ? & _); contradiction].
  destruct (look_cell a i k SR) as [(c & Eb & Ec)|(Eb & Ec)]; rewrite Eb.
  2:{ apply BAD. intros (i1 & c1 & _ & X1 & X2 & _). congruence. }
  destruct (clent c) as [x|] eqn:Lc; [apply BAD; intros (i1 & c1 & _ & X1 & X2 & X3); congruence|].
  cbn [bstep as_bstate bblocks bmem]. rewrite nth_error_map, Eb. cbn [option_map fst snd of_banswer].
  exists v. split; [|split; [exact A|intros x _; reflexivity]].
  rewrite <- (ar_bytes _ _ _ _ A j i k c U Ei Ec Lc). eapply is_read; eauto.
Qed.

Lemma step_nest t R s v j k : valid_target t -> arel t R s v ->
  exists v', istep t v (ANest j k) (snd (astep t s (ANest j k))) v' /\ arel t R (fst (astep t s (ANest j k))) v' /\
    same_outside R (amem s) (amem (fst (astep t s (ANest j k)))).
Proof.
  intros Ht A.
  assert (BAD : ~ permitted v (ANest j k) -> exists v', istep t v (ANest j k) (snd (s, AInvalid)) v' /\ arel t R (fst (s, AInvalid)) v' /\ same_outside R (amem s) (amem (fst (s, AInvalid)))).
  { intros N. exists v. cbn [fst snd]. split; [apply is_invalid; exact N|]. split; [exact A|intros x _; reflexivity]. }
  cbn [astep]. destruct (look t R s v j A) as [(a & i & -> & U & Ea & Ei & SR)|(-> & NU)]; [|apply BAD; intros (? & ? & ? & _); contradiction].
  destruct (look_cell a i k SR) as [(c & Eb & Ec)|(Eb & Ec)]; rewrite Eb.
  2:{ apply BAD. intros (i1 & c1 & _ & X1 & X2 & _). congruence. }
  destruct (clent c) as [x|] eqn:Lc; [apply BAD; intros (i1 & c1 & _ & X1 & X2 & X3); congruence|].
  pose proof (g_fine _ _ _ (ar_geom _ _ _ _ A) _ _ U Ei) as F. pose proof SR as (SP & SC).
  pose proof (owned_cell t v j i k c U Ei Ec Lc) as OC. pose proof (cell_region t i k c Ht F Ec) as VR.
  destruct (ar_view _ _ _ _ A j a i U Ea Ei) as (D & V).
  destruct (from_mem_exact t (amem s) (cblock c) Ht VR) as (p & Hp & K1 & K2). unfold a_nest.
  destruct (Z_le_gt_dec (p + word_bytes t) (start (cblock c) + size (cblock c))) as [H|H].
  - destruct (K1 H) as (f & F1 & F2 & F3 & _). destruct (from_mem_start t (amem s) (cblock c) f Ht VR F1) as (B0 & _ & L0 & W0 & S0 & VR0).
    destruct (from_mem t (amem s) (cblock c)) as [m' r]. cbn [fst snd] in *. subst r. cbn [fst snd amem].
    destruct B0 as (_ & V0 & U0 & _). cbn [bmem] in V0.
    rewrite (f2_length _ _ _ (ar_struct _ _ _ _ A)).
    eexists. split; [eapply is_nest; eauto|split].
    + exists p. split; [exact Hp|]. unfold fat_data. cbn [start size]. rewrite F2. split; [reflexivity|exact F3].
    + set (i' := MkIA (iu i) (upd (icells i) k (MkCell (cblock c) [] (Some (length v)))) (iparent i)).
      assert (A' : arel t R (MkAS m' (upd (arenas s) j (MkArena (afat a) (upd (ablocks a) k (cblock c, Some (length v))) (aparent a)))) (upd v j i')).
      { apply (arel_upd t R s v j a i (cblock c)); unfold i'; cbn [iu icells iparent afat]; auto.
        - apply sublent_upd. right. reflexivity.
        - apply (fine_cells t i); cbn [iu icells]; auto. apply (blocks_upd _ _ c); [exact Ec|reflexivity].
        - split; cbn [iparent icells aparent ablocks]; [exact SP|]. apply f2_upd; [exact SC|]. split; reflexivity.
        - rewrite <- V. apply header_same; [exact Ht|]. intros x Hx. apply S0. intros HX.
          apply (header_cell t i c k F Ec x). rewrite (fat_header t a i D). split; [exact Hx|exact HX].
        - intros k1 c1 E L. destruct (nth_upd _ _ _ _ _ E) as [(-> & -> & _)|(N & E')]; [discriminate|].
          eapply cells_kept; eauto. eapply cell_cell; eauto. }
      apply (arel_app t R (MkAS m' (upd (arenas s) j (MkArena (afat a) (upd (ablocks a) k (cblock c, Some (length v))) (aparent a)))) (upd v j i') f
               (MkIA (u_fresh (fat_data t f)) [] (Some (j, k))) j i' k (MkCell (cblock c) [] (Some (length v)))); cbn [iparent icells iu cblock amem]; auto.
      * apply (nth_error_upd_same v j i' i Ei).
      * unfold i'. cbn [icells]. apply (nth_error_upd_same _ k _ c Ec).
      * unfold wholeI. cbn [iu udata u_fresh]. unfold fat_data. cbn [start size]. unfold whole in W0. replace (faddr f + word_bytes t - word_bytes t) with (faddr f) by lia. exact W0.
    + apply (inside_same R (cblock c)); [|exact S0]. apply (asame t R v j i); auto. apply (ar_geom _ _ _ _ A).
  - rewrite K2 by lia. cbn [fst snd amem]. destruct s as [ms ws]. exists v. split; [|split; [exact A|intros x _; reflexivity]].
    eapply is_no_room; eauto. intros d (p' & Hp' & Q1 & Q2 & Q3 & Q4 & Q5). rewrite (first_aligned_unique _ _ _ _ Hp' Hp) in *. lia.
Qed.

Lemma step_end t R s v j : valid_target t -> arel t R s v ->
  exists v', istep t v (AEnd j) (snd (astep t s (AEnd j))) v' /\ arel t R (fst (astep t s (AEnd j))) v' /\
    same_outside R (amem s) (amem (fst (astep t s (AEnd j)))).
Proof.
  intros Ht A.
  assert (BAD : ~ permitted v (AEnd j) -> exists v', istep t v (AEnd j) (snd (s, AInvalid)) v' /\ arel t R (fst (s, AInvalid)) v' /\ same_outside R (amem s) (amem (fst (s, AInvalid)))).
  { intros N. exists v. cbn [fst snd]. split; [apply is_invalid; exact N|]. split; [exact A|intros x _; reflexivity]. }
  cbn [astep]. destruct (look t R s v j A) as [(a & i & -> & U & Ea & Ei & SR)|(-> & NU)]; [|apply BAD; intros (? & ? & ? & ? & _); contradiction].
  pose proof SR as (SP & _). destruct (aparent a) as [[ip k]|] eqn:Pa.
  2:{ apply BAD. intros (i1 & q1 & q2 & _ & X1 & X2). congruence. }
  destruct (usable_parent _ _ _ _ _ U Ei (eq_sym SP)) as (p & c & Up & Ep & Ec & Lc).
  destruct (f2_right _ _ _ (ar_struct _ _ _ _ A) _ _ Ep) as (pa & Epa & SRp). rewrite Epa. pose proof SRp as (SPp & SCp).
  destruct (look_cell pa p k SRp) as [(c' & Eb & Ec')|(_ & Ec')]; [|congruence]. assert (c' = c) as -> by congruence. rewrite Eb. cbn [fst snd amem].
  pose proof (g_fine _ _ _ (ar_geom _ _ _ _ A) _ _ Up Ep) as F. destruct (ar_view _ _ _ _ A ip pa p Up Epa Ep) as (D & V).
  exists (upd v ip (MkIA (iu p) (upd (icells p) k (MkCell (cblock c) (mem_read (amem s) (start (cblock c)) (size (cblock c))) None)) (iparent p))).
  split; [|split; [|intros x _; reflexivity]].
  - eapply is_end; eauto. apply mem_read_length. destruct (cell_region t p k c Ht F Ec) as (_ & ? & _). lia.
  - apply (arel_upd t R s v ip pa p (headerI t p)); cbn [iu icells iparent afat]; auto.
    + apply owned_header; assumption.
    + intros x _; reflexivity.
    + apply sublent_upd. left. reflexivity.
    + apply (fine_cells t p); cbn [iu icells]; auto. apply (blocks_upd _ _ c); [exact Ec|reflexivity].
    + split; cbn [iparent icells aparent ablocks]; [exact SPp|]. apply f2_upd; [exact SCp|]. split; reflexivity.
    + intros k1 c1 E L. destruct (nth_upd _ _ _ _ _ E) as [(-> & -> & _)|(N & E')]; [reflexivity|].
      exact (ar_bytes _ _ _ _ A ip p k1 c1 Up Ep E' L).
Qed.

Lemma astep_sim t R s v o : valid_target t -> arel t R s v -> valid_aop t o ->
  exists v', istep t v o (snd (astep t s o)) v' /\ arel t R (fst (astep t s o)) v' /\ same_outside R (amem s) (amem (fst (astep t s o))).
Proof.
  intros Ht A Hv. destruct o as [j c|j k off bs|j k|j k|j]; [apply step_call|apply step_write|apply step_read|apply step_nest|apply step_end]; auto.
Qed.

Lemma arun_sim t R os : valid_target t -> forall s v, arel t R s v -> Forall (valid_aop t) os ->
  exists v', iruns t v (snd (arun t s os)) v' /\ arel t R (fst (arun t s os)) v' /\ same_outside R (amem s) (amem (fst (arun t s os))).
Proof.
  intros Ht. induction os as [|o os IH]; intros s v A Hv; cbn [arun].
  { exists v. split; [constructor|]. split; [exact A|intros x _; reflexivity]. }
  inversion Hv as [|? ? Ho Hos]; subst. destruct (astep_sim t R s v o Ht A Ho) as (v1 & S1 & A1 & M1).
  destruct (astep t s o) as [s1 r]. cbn [fst snd] in *. destruct (IH s1 v1 A1 Hos) as (v2 & S2 & A2 & M2).
  destruct (arun t s1 os) as [s2 h]. cbn [fst snd] in *. exists v2. split; [econstructor; eauto|]. split; [exact A2|].
  intros x Hx. rewrite (M2 x Hx). apply M1. exact Hx.
Qed.

Lemma a_start_rel t m R f : valid_target t -> valid_region t R -> snd (from_mem t m R) = Ret (Some f) ->
  arel t R (a_start (fst (from_mem t m R)) f) [MkIA (u_fresh (fat_data t f)) [] None] /\ same_outside R m (fst (from_mem t m R)).
Proof.
  intros Ht HR E. destruct (from_mem_start t m R f Ht HR E) as ((_ & V0 & U0 & _) & _ & L0 & W0 & S0 & VR0). split; [|exact S0].
  set (i0 := MkIA (u_fresh (fat_data t f)) [] None).
  assert (ONE : forall j (x : iarena), nth_error [i0] j = Some x -> j = 0%nat /\ x = i0) by (intros [|[|j]] x H; cbn in H; try discriminate; injection H as <-; auto).
  split; cbn [a_start amem arenas].
  - split.
    + intros j a i k H. destruct (ONE _ _ H) as (-> & ->). discriminate.
    + intros j a H _. destruct (ONE _ _ H) as (-> & ->). split; [reflexivity|]. unfold wholeI, i0. cbn [iu udata u_fresh]. unfold fat_data. cbn [start size].
      replace (faddr f + word_bytes t - word_bytes t) with (faddr f) by lia. exact W0.
    + intros j a _ H. destruct (ONE _ _ H) as (-> & ->). split; [exact U0|]. split; [constructor|apply pairwise_nil].
    + intros j a i k p c _ H. destruct (ONE _ _ H) as (-> & ->). discriminate.
  - constructor; [|constructor]. split; [reflexivity|constructor].
  - intros j a i _ H1 H. destruct (ONE _ _ H) as (-> & ->). cbn in H1. injection H1 as <-. split; [reflexivity|exact V0].
  - intros j i k c _ H Hc. destruct (ONE _ _ H) as (-> & ->). destruct k; discriminate.
Qed.
