(** * GraphProofs *)
From Verif Require Import Base Spec BaseFacts SyncMemModel SyncMemProofs RcModel RcSpec RcRefine RcAcct GraphModel GraphSpec.
From Coq Require Import List Permutation.

(** ** Lists *)
Lemma gf2_left {A B} (R : A -> B -> Prop) l l' : Forall2 R l l' -> forall k x, nth_error l k = Some x -> exists y, nth_error l' k = Some y /\ R x y.
Proof. induction 1 as [|x y l l' H H2 IH]; intros k z E; [destruct k; discriminate|]. destruct k as [|k]; cbn in *; [injection E as <-; eauto|]. apply IH; exact E. Qed.
Lemma gf2_right {A B} (R : A -> B -> Prop) l l' : Forall2 R l l' -> forall k y, nth_error l' k = Some y -> exists x, nth_error l k = Some x /\ R x y.
Proof. induction 1 as [|x y l l' H H2 IH]; intros k z E; [destruct k; discriminate|]. destruct k as [|k]; cbn in *; [injection E as <-; eauto|]. apply IH; exact E. Qed.
Lemma gf2_upd {A B} (R : A -> B -> Prop) l l' : Forall2 R l l' -> forall k x y, R x y -> Forall2 R (upd l k x) (upd l' k y).
Proof. induction 1 as [|x y l l' H H2 IH]; intros k a b E; [destruct k; constructor|]. destruct k as [|k]; cbn; constructor; auto. Qed.
Lemma gf2_length {A B} (R : A -> B -> Prop) l l' : Forall2 R l l' -> length l = length l'.
Proof. induction 1; cbn; congruence. Qed.
Lemma gupd_id {A} (l : list A) k x : nth_error l k = Some x -> upd l k x = l.
Proof. revert k. induction l as [|y l IH]; intros [|k] E; cbn in *; try discriminate; [congruence|f_equal; auto]. Qed.
Lemma gnth_upd {A} (l : list A) i x j y : nth_error (upd l i x) j = Some y -> (j = i /\ y = x) \/ (j <> i /\ nth_error l j = Some y).
Proof.
  destruct (Nat.eq_dec j i) as [->|N].
  - intros H. left. split; [reflexivity|]. assert (L : (i < length (upd l i x))%nat) by (apply nth_error_Some; congruence). rewrite upd_length in L.
    destruct (nth_error l i) as [z|] eqn:E; [|apply nth_error_None in E; lia]. rewrite (nth_error_upd_same l i x z E) in H. congruence.
  - rewrite nth_error_upd_other by congruence. auto.
Qed.
Lemma gnth_app1 {A} (l : list A) x k y : nth_error (l ++ [x]) k = Some y -> ((k < length l)%nat /\ nth_error l k = Some y) \/ (k = length l /\ y = x).
Proof.
  intros H. destruct (Nat.lt_ge_cases k (length l)) as [L|L]; [rewrite nth_error_app1 in H by lia; auto|].
  rewrite nth_error_app2 in H by lia. destruct (k - length l)%nat as [|n] eqn:E; [|cbn in H; destruct n; discriminate].
  cbn in H. injection H as <-. right. split; [lia|reflexivity].
Qed.

(** ** Counting handles *)
Definition cnt (l : list hnd) (h : hnd) : nat := count_occ hnd_dec l h.

Lemma cnt_app a b h : cnt (a ++ b) h = (cnt a h + cnt b h)%nat.
Proof. apply count_occ_app. Qed.
Lemma cnt_cons x l h : cnt (x :: l) h = ((if hnd_dec x h then 1 else 0) + cnt l h)%nat.
Proof. unfold cnt. cbn. destruct (hnd_dec x h); reflexivity. Qed.
Lemma cnt_nil h : cnt [] h = 0%nat. Proof. reflexivity. Qed.
Lemma cnt_in l h : In h l <-> (0 < cnt l h)%nat.
Proof. unfold cnt. rewrite (count_occ_In hnd_dec). lia. Qed.
Lemma cnt_length l h : (cnt l h <= length l)%nat.
Proof. apply count_occ_bound. Qed.

Lemma cnt_upd {A} (f : A -> list hnd) l n y y' h : nth_error l n = Some y ->
  (cnt (flat_map f (upd l n y')) h + cnt (f y) h = cnt (flat_map f l) h + cnt (f y') h)%nat.
Proof.
  revert n. induction l as [|z l IH]; intros [|n] E; cbn in E; try discriminate; cbn [upd flat_map]; rewrite !cnt_app.
  - injection E as ->. lia.
  - specialize (IH n E). lia.
Qed.
Lemma len_upd {A} (f : A -> list hnd) l n y y' : nth_error l n = Some y ->
  (length (flat_map f (upd l n y')) + length (f y) = length (flat_map f l) + length (f y'))%nat.
Proof.
  revert n. induction l as [|z l IH]; intros [|n] E; cbn in E; try discriminate; cbn [upd flat_map]; rewrite !app_length.
  - injection E as ->. lia.
  - specialize (IH n E). lia.
Qed.

Lemma flat_snoc {A} (f : A -> list hnd) l x : flat_map f (l ++ [x]) = flat_map f l ++ f x.
Proof. rewrite flat_map_app. cbn. rewrite app_nil_r. reflexivity. Qed.

Lemma held_flat ks : flat_map slot_handles (map SHeld ks) = ks.
Proof. induction ks; cbn; congruence. Qed.

(** ** The relation *)
Definition nrel (x : gnode) (y : inode) : Prop := bval (gbox x) = ival y /\ gkids x = node_handles y.
Definition one_if {A} (o : option A) : Z := match o with Some _ => 1 | None => 0 end.

Record grel (s : gstate) (w : igraph) (pend : list hnd) : Prop := {
  r_slots : gslots s = islots w;
  r_log : glog s = ilog w;
  r_nodes : Forall2 nrel (gnodes s) (inodes w);
  r_cnt : forall n x y, nth_error (gnodes s) n = Some x -> nth_error (inodes w) n = Some y ->
    bstrong (gbox x) = Z.of_nat (cnt (handles w ++ pend) (HS n)) /\
    bweak (gbox x) = Z.of_nat (cnt (handles w ++ pend) (HW n)) + one_if (ikids y);
  r_alive : forall n y, nth_error (inodes w) n = Some y -> (ikids y <> None <-> (0 < cnt (handles w ++ pend) (HS n))%nat);
  r_dom : forall n, (length (inodes w) <= n)%nat -> cnt (handles w ++ pend) (HS n) = 0%nat /\ cnt (handles w ++ pend) (HW n) = 0%nat }.

Lemma grel_node s w pend n x y b ks' y' slots' log' pend' :
  grel s w pend -> nth_error (gnodes s) n = Some x -> nth_error (inodes w) n = Some y ->
  let s' := MkG (upd (gnodes s) n (MkNode b ks')) slots' log' in
  let w' := MkIG (upd (inodes w) n y') slots' log' in
  bval b = ival y' -> ks' = node_handles y' ->
  (forall m, m <> n -> cnt (handles w' ++ pend') (HS m) = cnt (handles w ++ pend) (HS m) /\ cnt (handles w' ++ pend') (HW m) = cnt (handles w ++ pend) (HW m)) ->
  bstrong b = Z.of_nat (cnt (handles w' ++ pend') (HS n)) ->
  bweak b = Z.of_nat (cnt (handles w' ++ pend') (HW n)) + one_if (ikids y') ->
  (ikids y' <> None <-> (0 < cnt (handles w' ++ pend') (HS n))%nat) ->
  grel s' w' pend'.
Proof.
  intros [R1 R2 R3 R4 R5 R6] Ex Ey s' w' B K O S W L.
  assert (Ln : (n < length (inodes w))%nat) by (apply nth_error_Some; congruence).
  subst s' w'. split; cbn [gslots glog gnodes inodes islots ilog]; auto.
  - apply gf2_upd; [exact R3|]. split; assumption.
  - intros m x1 y1 E1 E2. destruct (gnth_upd _ _ _ _ _ E1) as [(-> & ->)|(N & E1')].
    + rewrite (nth_error_upd_same _ n y' y Ey) in E2. injection E2 as <-. cbn [gbox]. split; [exact S|exact W].
    + rewrite nth_error_upd_other in E2 by congruence. destruct (O m N) as (-> & ->). exact (R4 m x1 y1 E1' E2).
  - intros m y1 E. destruct (gnth_upd _ _ _ _ _ E) as [(-> & ->)|(N & E')]; [exact L|]. destruct (O m N) as (-> & _). exact (R5 m y1 E').
  - intros m Hm. rewrite upd_length in Hm. destruct (O m ltac:(lia)) as (-> & ->). apply R6. exact Hm.
Qed.

Lemma grel_same s w pend slots' log' pend' :
  grel s w pend -> (forall h, cnt (handles (MkIG (inodes w) slots' log') ++ pend') h = cnt (handles w ++ pend) h) ->
  grel (MkG (gnodes s) slots' log') (MkIG (inodes w) slots' log') pend'.
Proof.
  intros [R1 R2 R3 R4 R5 R6] C. split; cbn [gslots glog gnodes inodes islots ilog]; auto.
  - intros n x y E1 E2. rewrite !C. auto.
  - intros n y E. rewrite C. auto.
  - intros n H. rewrite !C. auto.
Qed.

(** [upd] of a node by itself *)
Lemma ig_id w n y : nth_error (inodes w) n = Some y -> MkIG (upd (inodes w) n y) (islots w) (ilog w) = w.
Proof. intros E. rewrite gupd_id by exact E. destruct w; reflexivity. Qed.

Lemma hs_node s w pend n : grel s w pend -> (0 < cnt (handles w ++ pend) (HS n))%nat ->
  exists x v ks, nth_error (gnodes s) n = Some x /\ nth_error (inodes w) n = Some (MkI v (Some ks)) /\ bval (gbox x) = v /\ gkids x = ks /\
    bstrong (gbox x) = Z.of_nat (cnt (handles w ++ pend) (HS n)) /\ bweak (gbox x) = Z.of_nat (cnt (handles w ++ pend) (HW n)) + 1.
Proof.
  intros G H. pose proof G as [R1 R2 R3 R4 R5 R6].
  destruct (nth_error (inodes w) n) as [y|] eqn:Ey; [|apply nth_error_None in Ey; destruct (R6 n Ey); lia].
  destruct (gf2_right _ _ _ R3 _ _ Ey) as (x & Ex & N1 & N2). destruct (R4 n x y Ex Ey) as (C1 & C2). pose proof (proj2 (R5 n y Ey) H) as A.
  destruct y as [v [ks|]]; cbn in *; [|congruence]. exists x, v, ks. auto 8.
Qed.
Lemma hw_node s w pend n : grel s w pend -> (0 < cnt (handles w ++ pend) (HW n))%nat ->
  exists x y, nth_error (gnodes s) n = Some x /\ nth_error (inodes w) n = Some y /\ nrel x y /\
    bstrong (gbox x) = Z.of_nat (cnt (handles w ++ pend) (HS n)) /\ bweak (gbox x) = Z.of_nat (cnt (handles w ++ pend) (HW n)) + one_if (ikids y).
Proof.
  intros G H. pose proof G as [R1 R2 R3 R4 R5 R6].
  destruct (nth_error (inodes w) n) as [y|] eqn:Ey; [|apply nth_error_None in Ey; destruct (R6 n Ey); lia].
  destruct (gf2_right _ _ _ R3 _ _ Ey) as (x & Ex & N). destruct (R4 n x y Ex Ey) as (C1 & C2). exists x, y. auto.
Qed.

(** ** Drop *)
Definition is_alive (y : inode) : bool := match ikids y with Some _ => true | None => false end.
Definition nalive (w : igraph) : nat := length (filter is_alive (inodes w)).

Lemma nalive_kill l n v ks : nth_error l n = Some (MkI v (Some ks)) -> length (filter is_alive l) = S (length (filter is_alive (upd l n (MkI v None)))).
Proof.
  revert n. induction l as [|z l IH]; intros [|n] E; cbn in E; try discriminate; cbn [upd filter].
  - injection E as ->. cbn. reflexivity.
  - destruct (is_alive z); cbn [length]; rewrite (IH n E); reflexivity.
Qed.
Lemma nalive_le w : (nalive w <= length (inodes w))%nat.
Proof. unfold nalive. induction (inodes w) as [|z l IH]; cbn; [lia|]. destruct (is_alive z); cbn; lia. Qed.

Definition is_panic (r : gres) : bool := match r with GPanic => true | _ => false end.

(** what the drop of [hs] before [rest] does: [u] unwinding before, [q] afterwards *)
Definition dropped_to (boom : rvalue -> bool) (s1 : gstate) (w : igraph) (hs rest : list hnd) (u : bool) (r : gres) (q : bool) : Prop :=
  exists w1, r <> GUb /\ glog s1 = ilog w1 /\
    (r = GAbort -> settles boom w (hs ++ rest) u w1 GAbort) /\
    (r <> GAbort -> grel s1 w1 rest /\ (nalive w1 <= nalive w)%nat /\
       forall w' r', settles boom w1 rest q w' r' -> settles boom w (hs ++ rest) u w' r').

Lemma fields_spec t boom f :
  (forall h u s w rest, grel s w (h :: rest) -> (nalive w < f)%nat ->
     dropped_to boom (fst (g_drop t boom f h u s)) w [h] rest u (snd (g_drop t boom f h u s)) (u || is_panic (snd (g_drop t boom f h u s)))) ->
  forall hs u p s w rest, grel s w (hs ++ rest) -> (nalive w < f)%nat ->
  dropped_to boom (fst (g_fields (g_drop t boom f) u hs s p)) w hs rest (u || p) (snd (g_fields (g_drop t boom f) u hs s p))
     (u || is_panic (snd (g_fields (g_drop t boom f) u hs s p))).
Proof.
  intros ONE. induction hs as [|h hs IH]; intros u p s w rest G L; cbn [g_fields].
  - exists w. cbn [fst snd]. split; [destruct p; discriminate|]. split; [apply (r_log _ _ _ G)|]. split; [destruct p; discriminate|].
    intros _. split; [exact G|]. split; [lia|]. intros w' r'. destruct p; cbn; auto.
  - pose proof (ONE h (u || p) s w (hs ++ rest) G L) as (w1 & D1 & D2 & D3 & D4).
    destruct (g_drop t boom f h (u || p) s) as [s1 r1]. cbn [fst snd] in *.
    destruct r1; cbn [is_panic] in D4.
    + destruct (D4 ltac:(discriminate)) as (G1 & L1 & K1). rewrite orb_false_r in K1.
      destruct (IH u p s1 w1 rest G1 ltac:(lia)) as (w2 & E1 & E2 & E3 & E4). exists w2. split; [exact E1|]. split; [exact E2|].
      split; [intros A; apply K1, E3, A|]. intros A. destruct (E4 A) as (G2 & L2 & K2). split; [exact G2|]. split; [lia|]. intros w' r' S. apply K1, K2, S.
    + destruct (D4 ltac:(discriminate)) as (G1 & L1 & K1). rewrite orb_true_r in K1.
      destruct (IH u true s1 w1 rest G1 ltac:(lia)) as (w2 & E1 & E2 & E3 & E4). rewrite orb_true_r in E3, E4. exists w2. split; [exact E1|]. split; [exact E2|].
      split; [intros A; apply K1, E3, A|]. intros A. destruct (E4 A) as (G2 & L2 & K2). split; [exact G2|]. split; [lia|]. intros w' r' S. apply K1, K2, S.
    + exists w1. cbn [fst snd]. split; [discriminate|]. split; [exact D2|]. split; [intros _; apply D3; reflexivity|congruence].
    + congruence.
Qed.

Lemma hs_ne n m : n <> m -> HS n <> HS m. Proof. congruence. Qed.

Ltac cn := repeat (rewrite cnt_app in * || rewrite cnt_cons in * || rewrite cnt_nil in *).
Ltac dec := repeat match goal with
  | |- context [hnd_dec ?a ?b] => destruct (hnd_dec a b); try congruence
  | H : context [hnd_dec ?a ?b] |- _ => destruct (hnd_dec a b); try congruence end.

Lemma drop_spec t boom : valid_target t -> forall f h u s w rest, grel s w (h :: rest) -> (nalive w < f)%nat ->
     dropped_to boom (fst (g_drop t boom f h u s)) w [h] rest u (snd (g_drop t boom f h u s)) (u || is_panic (snd (g_drop t boom f h u s))).
Proof.
  intros Ht. induction f as [|f IH]; intros h u s w rest G L; [lia|]. cbn [g_drop]. destruct h as [n|n].
  - assert (C : (0 < cnt (handles w ++ HS n :: rest) (HS n))%nat) by (cn; dec; lia).
    destruct (hs_node _ _ _ _ G C) as (x & v & ks & Ex & Ey & B1 & B2 & B3 & B4). rewrite Ex.
    unfold rc_drop, dec_strong. rewrite op_sub1 by lia. cbn [obind bstrong].
    destruct (Z.eqb_spec (bstrong (gbox x) - 1) 0) as [Q|Q].
    + unfold dec_weak. cbn [bweak]. rewrite op_sub1 by lia. cbn [obind bstrong bweak bval]. rewrite B1.
      set (s1 := g_logs (g_set s n (MkNode (MkBox v (bstrong (gbox x) - 1) (bweak (gbox x) - 1)) [])) [Dropped v]).
      assert (NI : ~ In (HS n) (handles w ++ rest)) by (rewrite cnt_in; cn; dec; lia).
      assert (HK : forall h, cnt (handles (kill w n v) ++ ks ++ rest) h = cnt (handles w ++ rest) h).
      { intros h. unfold handles, kill. cbn [inodes islots]. cn. pose proof (cnt_upd node_handles (inodes w) n _ (MkI v None) h Ey) as Q1. cbn [node_handles ikids] in Q1. cn. lia. }
      assert (G1 : grel s1 (kill w n v) (ks ++ rest)).
      { unfold s1, g_logs, g_set, kill. cbn [gnodes gslots glog]. rewrite (r_slots _ _ _ G), (r_log _ _ _ G).
        apply (grel_node s w (HS n :: rest) n x (MkI v (Some ks))); auto.
        - intros m N. fold (kill w n v). rewrite !HK. cn. dec. lia.
        - cbn [bstrong]. fold (kill w n v). rewrite HK. cn. dec. lia.
        - cbn [bweak ikids one_if]. fold (kill w n v). rewrite HK. cn. dec. lia.
        - cbn [ikids]. fold (kill w n v). rewrite HK. rewrite <- cnt_in. split; [congruence|tauto]. }
      assert (L1 : (nalive (kill w n v) < f)%nat) by (unfold nalive, kill in *; cbn [inodes]; rewrite (nalive_kill _ _ _ _ Ey) in L; lia).
      rewrite B2. destruct (boom v) eqn:Bv.
      * destruct u.
        -- exists (kill w n v). cbn [fst snd]. split; [discriminate|]. split; [apply (r_log _ _ _ G1)|]. split; [|congruence]. intros _. eapply se_abort; eauto.
        -- destruct (fields_spec t boom f IH ks false true s1 (kill w n v) rest G1 L1) as (w1 & D1 & D2 & D3 & D4).
           exists w1. split; [exact D1|]. split; [exact D2|]. cbn [app].
           assert (ST : forall w' r', settles boom (kill w n v) (ks ++ rest) true w' r' -> settles boom w (HS n :: rest) false w' r').
           { intros w' r' S. eapply se_last; eauto. rewrite Bv. exact S. }
           split; [intros A; apply ST, D3, A|]. intros A. destruct (D4 A) as (G2 & L2 & K2). split; [exact G2|]. split; [unfold nalive, kill in *; cbn [inodes] in *; rewrite (nalive_kill _ _ _ _ Ey); lia|].
           intros w' r' S. apply ST, K2, S.
      * destruct (fields_spec t boom f IH ks u false s1 (kill w n v) rest G1 L1) as (w1 & D1 & D2 & D3 & D4).
        exists w1. split; [exact D1|]. split; [exact D2|]. cbn [app]. rewrite orb_false_r in *.
        assert (ST : forall w' r', settles boom (kill w n v) (ks ++ rest) u w' r' -> settles boom w (HS n :: rest) u w' r').
        { intros w' r' S. eapply se_last; eauto; [congruence|]. rewrite Bv, orb_false_r. exact S. }
        split; [intros A; apply ST, D3, A|]. intros A. destruct (D4 A) as (G2 & L2 & K2). split; [exact G2|]. split; [unfold nalive, kill in *; cbn [inodes] in *; rewrite (nalive_kill _ _ _ _ Ey); lia|].
        intros w' r' S. apply ST, K2, S.
    + exists w. cbn [fst snd is_panic]. rewrite orb_false_r. split; [discriminate|]. split; [apply (r_log _ _ _ G)|]. split; [discriminate|]. intros _. split; [|split; [lia|]].
      * unfold g_box, g_set. rewrite (r_slots _ _ _ G), (r_log _ _ _ G). rewrite <- (ig_id w n _ Ey) at 3.
        apply (grel_node s w (HS n :: rest) n x (MkI v (Some ks))); auto; rewrite (ig_id w n _ Ey).
        -- intros m N. cn. dec. lia.
        -- cbn [bstrong]. cn. dec. lia.
        -- cbn [bweak ikids one_if]. cn. dec. lia.
        -- cbn [ikids]. cn. split; [|congruence]. intros _. dec. lia.
      * intros w' r' S. apply se_shared; [|exact S]. rewrite cnt_in. cn. dec. lia.
  - assert (C : (0 < cnt (handles w ++ HW n :: rest) (HW n))%nat) by (cn; dec; lia).
    destruct (hw_node _ _ _ _ G C) as (x & y & Ex & Ey & (B1 & B2) & B3 & B4). rewrite Ex.
    assert (0 <= one_if (ikids y)) by (destruct (ikids y); cbn; lia).
    unfold dec_weak. rewrite op_sub1 by lia. cbn [obind]. exists w. cbn [fst snd is_panic]. rewrite orb_false_r.
    split; [discriminate|]. split; [apply (r_log _ _ _ G)|]. split; [discriminate|]. intros _. split; [|split; [lia|]].
    + unfold g_box, g_set. rewrite (r_slots _ _ _ G), (r_log _ _ _ G). rewrite <- (ig_id w n _ Ey) at 3.
      apply (grel_node s w (HW n :: rest) n x y); auto; rewrite (ig_id w n _ Ey).
      * intros m N. cn. dec. lia.
      * cbn [bstrong]. cn. dec. lia.
      * cbn [bweak]. cn. dec. lia.
      * pose proof (r_alive _ _ _ G n y Ey) as A. rewrite A. cn. dec. lia.
    + intros w' r' S. apply se_weak. exact S.
Qed.

Lemma settles_len boom w hs p w' r : settles boom w hs p w' r -> (length (handles w') <= length (handles w ++ hs))%nat.
Proof.
  induction 1 as [w p|w n hs p w' r S IH|w n hs p w' r I S IH|w n hs p v ks w' r I E B S IH|w n hs v ks I E B]; rewrite ?app_length in *; cbn [length] in *; try lia.
  - pose proof (len_upd node_handles (inodes w) n _ (MkI v None) E) as Q. cbn [node_handles ikids length] in Q.
    unfold handles, kill in *. cbn [inodes islots] in *. rewrite !app_length in *. lia.
  - pose proof (len_upd node_handles (inodes w) n _ (MkI v None) E) as Q. cbn [node_handles ikids length] in Q.
    unfold handles, kill in *. cbn [inodes islots] in *. rewrite !app_length in *. lia.
Qed.

(** ** One operation *)
Lemma g_held_some s w pend i h : grel s w pend -> g_held s i = Some h <-> held w i h.
Proof.
  intros G. unfold g_held, held. rewrite (r_slots _ _ _ G). destruct (nth_error (islots w) i) as [[h'| |h']|]; split; intros E; try discriminate; congruence.
Qed.
Lemma g_held_none s w pend i : grel s w pend -> g_held s i = None -> forall h, ~ held w i h.
Proof. intros G E h H. apply (g_held_some s w pend i h G) in H. congruence. Qed.

Lemma held_cnt w i h : held w i h -> (0 < cnt (handles w) h)%nat.
Proof.
  intros H. apply cnt_in. apply in_or_app. left. apply in_flat_map. exists (SHeld h). split; [eapply nth_error_In; exact H|left; reflexivity].
Qed.
Lemma kid_cnt w n v ks h : nth_error (inodes w) n = Some (MkI v (Some ks)) -> In h ks -> (0 < cnt (handles w) h)%nat.
Proof.
  intros E H. apply cnt_in. apply in_or_app. right. apply in_flat_map. eexists. split; [eapply nth_error_In; exact E|exact H].
Qed.

Definition sim (t : target) (boom : rvalue -> bool) (w : igraph) (o : gop) (p : gstate * ganswer) : Prop :=
  exists w', istep boom w o (snd p) w' /\ glog (fst p) = ilog w' /\
    (snd p <> GAborted -> grel (fst p) w' [] /\ (length (handles w') <= S (length (handles w)))%nat).

Lemma sim_invalid t boom s w o : grel s w [] -> ~ gpermitted w o -> sim t boom w o (s, GA AInvalid).
Proof. intros G N. exists w. cbn [fst snd]. split; [apply i_invalid; exact N|]. split; [apply (r_log _ _ _ G)|]. intros _. split; [exact G|lia]. Qed.
Lemma sim_same t boom s w o a : grel s w [] -> istep boom w o (GA a) w -> sim t boom w o (s, GA a).
Proof. intros G N. exists w. cbn [fst snd]. split; [exact N|]. split; [apply (r_log _ _ _ G)|]. intros _. split; [exact G|lia]. Qed.

Lemma add_cnt w h h' : cnt (handles (and_slot w h)) h' = (cnt (handles w) h' + if hnd_dec h h' then 1 else 0)%nat.
Proof. unfold handles, and_slot. cbn [inodes islots]. rewrite flat_snoc. cn. cbn [slot_handles]. cn. lia. Qed.
Lemma add_len w h : length (handles (and_slot w h)) = S (length (handles w)).
Proof. unfold handles, and_slot. cbn [inodes islots]. rewrite flat_snoc, !app_length. cbn. lia. Qed.

(** a new handle, with the counter of the box incremented *)
Lemma grel_add s w n x y b h : grel s w [] -> nth_error (gnodes s) n = Some x -> nth_error (inodes w) n = Some y -> bval b = bval (gbox x) ->
  (h = HS n /\ bstrong b = bstrong (gbox x) + 1 /\ bweak b = bweak (gbox x) /\ ikids y <> None \/
   h = HW n /\ bstrong b = bstrong (gbox x) /\ bweak b = bweak (gbox x) + 1) ->
  grel (g_add (g_box s n x b) h) (and_slot w h) [].
Proof.
  intros G Ex Ey B H. pose proof (gf2_left _ _ _ (r_nodes _ _ _ G) _ _ Ex) as (y' & Ey' & N1 & N2). assert (y' = y) as -> by congruence. clear Ey'.
  destruct (r_cnt _ _ _ G n x y Ex Ey) as (C1 & C2). pose proof (r_alive _ _ _ G n y Ey) as A. rewrite app_nil_r in C1, C2, A.
  unfold g_add, g_box, g_set. cbn [gnodes gslots glog]. rewrite (r_slots _ _ _ G), (r_log _ _ _ G).
  assert (W : and_slot w h = MkIG (upd (inodes w) n y) (islots w ++ [SHeld h]) (ilog w)) by (rewrite gupd_id by exact Ey; reflexivity). rewrite W.
  apply (grel_node s w [] n x y); auto; try congruence; rewrite <- W, ?app_nil_r.
  - intros m N. rewrite ?app_nil_r, !add_cnt. destruct H as [(-> & _)|(-> & _)]; dec; lia.
  - rewrite add_cnt. destruct H as [(-> & H1 & _)|(-> & H1 & _)]; dec; lia.
  - rewrite add_cnt. destruct H as [(-> & H1 & H2 & _)|(-> & H1 & H2)]; dec; lia.
  - rewrite add_cnt. destruct H as [(-> & H1 & H2 & H3)|(-> & H1 & H2)]; dec; [split; [lia|auto]|]. rewrite A. lia.
Qed.

Lemma clone_spec t s w h : grel s w [] -> (0 < cnt (handles w) h)%nat -> Z.of_nat (length (handles w)) + 2 <= usize_max t ->
  exists s', g_clone t s h = (s', ATok (length (islots w))) /\ glog s' = ilog w /\ grel s' (and_slot w h) [].
Proof.
  intros G C F. pose proof (cnt_length (handles w)) as CL. unfold g_clone. destruct h as [n|n].
  - destruct (hs_node s w [] n G) as (x & v & ks & Ex & Ey & B1 & B2 & B3 & B4); [rewrite app_nil_r; exact C|]. rewrite app_nil_r in *. rewrite Ex.
    unfold inc_strong. rewrite op_add1. destruct (Z.ltb_spec (bstrong (gbox x)) (usize_max t)) as [Q|Q]; [|specialize (CL (HS n)); lia].
    cbn [obind]. eexists. split; [rewrite (r_slots _ _ _ G); reflexivity|]. split; [apply (r_log _ _ _ G)|].
    eapply grel_add; eauto. left. cbn. repeat split; discriminate.
  - destruct (hw_node s w [] n G) as (x & y & Ex & Ey & N & B3 & B4); [rewrite app_nil_r; exact C|]. rewrite app_nil_r in *. rewrite Ex.
    unfold inc_weak. rewrite op_add1. destruct (Z.ltb_spec (bweak (gbox x)) (usize_max t)) as [Q|Q]; [|specialize (CL (HW n)); assert (one_if (ikids y) <= 1) by (destruct (ikids y); cbn; lia); lia].
    cbn [obind]. eexists. split; [rewrite (r_slots _ _ _ G); reflexivity|]. split; [apply (r_log _ _ _ G)|].
    eapply grel_add; eauto.
Qed.

Lemma cnt_slot w i x x' h : nth_error (islots w) i = Some x ->
  (cnt (handles (with_slot w i x')) h + cnt (slot_handles x) h = cnt (handles w) h + cnt (slot_handles x') h)%nat.
Proof. intros E. unfold handles, with_slot. cbn [inodes islots]. cn. pose proof (cnt_upd slot_handles (islots w) i x x' h E). lia. Qed.
Lemma len_slot w i x x' : nth_error (islots w) i = Some x ->
  (length (handles (with_slot w i x')) + length (slot_handles x) = length (handles w) + length (slot_handles x'))%nat.
Proof. intros E. unfold handles, with_slot. cbn [inodes islots]. rewrite !app_length. pose proof (len_upd slot_handles (islots w) i x x' E). lia. Qed.
Lemma cnt_kids w n y v ks h : nth_error (inodes w) n = Some y ->
  (cnt (handles (with_kids w n v ks)) h + cnt (node_handles y) h = cnt (handles w) h + cnt (node_handles (MkI v ks)) h)%nat.
Proof. intros E. unfold handles, with_kids. cbn [inodes islots]. cn. pose proof (cnt_upd node_handles (inodes w) n y (MkI v ks) h E). lia. Qed.
Lemma len_kids w n y v ks : nth_error (inodes w) n = Some y ->
  (length (handles (with_kids w n v ks)) + length (node_handles y) = length (handles w) + length (node_handles (MkI v ks)))%nat.
Proof. intros E. unfold handles, with_kids. cbn [inodes islots]. rewrite !app_length. pose proof (len_upd node_handles (inodes w) n y (MkI v ks) E). lia. Qed.

Lemma alive_iff w n v ks : nth_error (inodes w) n = Some (MkI v ks) -> (alive w n <-> ks <> None).
Proof.
  intros E. unfold alive. split.
  - intros (v' & k' & E'). congruence.
  - intros H. destruct ks as [ks|]; [eauto|congruence].
Qed.

Lemma gstep_sim t boom s w o : valid_target t -> grel s w [] -> Z.of_nat (length (handles w)) + 2 <= usize_max t -> sim t boom w o (gstep t boom s o).
Proof.
  intros Ht G F. pose proof (cnt_length (handles w)) as CL.
  destruct o as [v|i|i k|i|i|i|i|i j|i k|i|i|i|i]; cbn [gstep].
  - (* new *)
    eexists. cbn [fst snd]. rewrite (r_slots _ _ _ G), (r_log _ _ _ G), (gf2_length _ _ _ (r_nodes _ _ _ G)). split; [apply i_new|]. split; [reflexivity|]. intros _.
    set (w' := MkIG (inodes w ++ [MkI v (Some [])]) (islots w ++ [SHeld (HS (length (inodes w)))]) (ilog w ++ [Put v])).
    assert (C : forall h, cnt (handles w') h = (cnt (handles w) h + if hnd_dec (HS (length (inodes w))) h then 1 else 0)%nat).
    { intros h. unfold w', handles. cbn [inodes islots]. rewrite !flat_snoc. cn. cbn [slot_handles node_handles ikids]. cn. lia. }
    pose proof G as [R1 R2 R3 R4 R5 R6]. rewrite app_nil_r in *. pose proof (gf2_length _ _ _ R3) as LN.
    split.
    + split; unfold w'; cbn [gslots glog gnodes inodes islots ilog]; auto; fold w'; rewrite ?app_nil_r.
      * apply Forall2_app; [exact R3|]. constructor; [split; reflexivity|constructor].
      * intros n x y E1 E2. rewrite !C. destruct (gnth_app1 _ _ _ _ E2) as [(L & E2')|(-> & ->)].
        -- rewrite nth_error_app1 in E1 by lia. destruct (R4 n x y E1 E2') as (Q1 & Q2). rewrite Q1, Q2. split; dec; try lia. assert (n = length (inodes w)) by congruence. lia.
        -- rewrite <- LN, nth_error_app2, Nat.sub_diag in E1 by lia. cbn in E1. injection E1 as <-. destruct (R6 (length (inodes w)) ltac:(lia)) as (-> & ->). cbn [gbox bstrong bweak ikids one_if]. split; dec; lia.
      * intros n y E. rewrite C. destruct (gnth_app1 _ _ _ _ E) as [(L & E')|(-> & ->)].
        -- rewrite (R5 n y E'). dec; [assert (n = length (inodes w)) by congruence|]; lia.
        -- cbn [ikids]. dec. split; [lia|discriminate].
      * intros n L. rewrite app_length in L. cbn in L. rewrite !C. destruct (R6 n ltac:(lia)) as (-> & ->). split; dec; try lia. assert (n = length (inodes w)) by congruence. lia.
    + unfold w', handles. cbn [inodes islots]. rewrite !flat_snoc, !app_length. cbn. lia.
  - (* clone *)
    destruct (g_held s i) as [h|] eqn:E; [|apply sim_invalid; [exact G|]; intros (h & H); exact (g_held_none _ _ _ _ G E h H)].
    apply (g_held_some s w [] i h G) in E. destruct (clone_spec t s w h G (held_cnt _ _ _ E) F) as (s' & -> & L & G').
    exists (and_slot w h). cbn [fst snd]. split; [apply (i_clone _ _ i); exact E|]. split; [exact L|]. intros _. split; [exact G'|rewrite add_len; lia].
  - (* get *)
    destruct (g_held s i) as [[n|n]|] eqn:E.
    2:{ apply sim_invalid; [exact G|]. apply (g_held_some s w [] i _ G) in E. intros (n' & v & ks & h & H & _). unfold held in *. congruence. }
    2:{ apply sim_invalid; [exact G|]. intros (n' & v & ks & h & H & _). exact (g_held_none _ _ _ _ G E _ H). }
    apply (g_held_some s w [] i _ G) in E. pose proof (held_cnt _ _ _ E) as HC.
    destruct (hs_node s w [] n G) as (x & v & ks & Ex & Ey & B1 & B2 & B3 & B4); [rewrite app_nil_r; exact HC|]. rewrite Ex, B2.
    destruct (nth_error ks k) as [h|] eqn:Ek.
    + destruct (clone_spec t s w h G (kid_cnt _ _ _ _ _ Ey (nth_error_In _ _ Ek)) F) as (s' & -> & L & G').
      exists (and_slot w h). cbn [fst snd]. split; [eapply i_get; eauto|]. split; [exact L|]. intros _. split; [exact G'|rewrite add_len; lia].
    + apply sim_invalid; [exact G|]. intros (n' & v' & ks' & h & H1 & H2 & H3). unfold held in *. assert (n' = n) as -> by congruence. congruence.
  - (* downgrade *)
    destruct (g_held s i) as [[n|n]|] eqn:E.
    2:{ apply sim_invalid; [exact G|]. apply (g_held_some s w [] i _ G) in E. intros (n' & H). unfold held in *. congruence. }
    2:{ apply sim_invalid; [exact G|]. intros (n' & H). exact (g_held_none _ _ _ _ G E _ H). }
    apply (g_held_some s w [] i _ G) in E. pose proof (held_cnt _ _ _ E) as HC.
    destruct (hs_node s w [] n G) as (x & v & ks & Ex & Ey & B1 & B2 & B3 & B4); [rewrite app_nil_r; exact HC|]. rewrite Ex. rewrite app_nil_r in *.
    unfold inc_weak. rewrite op_add1. destruct (Z.ltb_spec (bweak (gbox x)) (usize_max t)) as [Q|Q]; [|specialize (CL (HW n)); lia]. cbn [obind].
    exists (and_slot w (HW n)). cbn [fst snd]. split; [rewrite (r_slots _ _ _ G); apply (i_down _ _ i); exact E|]. split; [apply (r_log _ _ _ G)|].
    intros _. split; [|rewrite add_len; lia]. eapply grel_add; eauto.
  - (* upgrade *)
    destruct (g_held s i) as [[n|n]|] eqn:E.
    1:{ apply sim_invalid; [exact G|]. apply (g_held_some s w [] i _ G) in E. intros (n' & H). unfold held in *. congruence. }
    2:{ apply sim_invalid; [exact G|]. intros (n' & H). exact (g_held_none _ _ _ _ G E _ H). }
    apply (g_held_some s w [] i _ G) in E. pose proof (held_cnt _ _ _ E) as HC.
    destruct (hw_node s w [] n G) as (x & y & Ex & Ey & N & B3 & B4); [rewrite app_nil_r; exact HC|]. rewrite Ex. rewrite app_nil_r in *.
    pose proof (r_alive _ _ _ G n y Ey) as A. rewrite app_nil_r in A. destruct y as [v ks]. cbn [ikids] in *. pose proof (alive_iff w n v ks Ey) as AI.
    unfold weak_upgrade. destruct (Z.eqb_spec (bstrong (gbox x)) 0) as [Q|Q].
    + apply sim_same; [|eapply i_up_dead; [exact E|]; rewrite AI, A; lia].
      unfold g_box, g_set. rewrite gupd_id by (rewrite Ex; destruct x; reflexivity). destruct s; exact G.
    + unfold inc_strong. rewrite op_add1. destruct (Z.ltb_spec (bstrong (gbox x)) (usize_max t)) as [Q1|Q1]; [|specialize (CL (HS n)); lia]. cbn [obind].
      exists (and_slot w (HS n)). cbn [fst snd]. split; [rewrite (r_slots _ _ _ G); apply (i_up _ _ i); [exact E|rewrite AI, A; lia]|]. split; [apply (r_log _ _ _ G)|].
      intros _. split; [|rewrite add_len; lia]. eapply grel_add; eauto. left. cbn [bstrong bweak ikids]. split; [reflexivity|]. split; [reflexivity|]. split; [reflexivity|]. rewrite A. lia.
  - (* drop *)
    destruct (g_held s i) as [h|] eqn:E; [|apply sim_invalid; [exact G|]; intros (h & H); exact (g_held_none _ _ _ _ G E h H)].
    apply (g_held_some s w [] i h G) in E.
    assert (G1 : grel (g_slot s i SGone) (with_slot w i SGone) [h]).
    { unfold g_slot, with_slot. rewrite (r_slots _ _ _ G), (r_log _ _ _ G). apply (grel_same s w []); [exact G|]. intros h'. fold (with_slot w i SGone).
      pose proof (cnt_slot w i _ SGone h' E) as Q. cbn [slot_handles] in Q. cn. lia. }
    assert (L1 : (nalive (with_slot w i SGone) < S (length (gnodes s)))%nat) by (pose proof (nalive_le (with_slot w i SGone)); cbn [inodes with_slot] in *; rewrite (gf2_length _ _ _ (r_nodes _ _ _ G)); lia).
    destruct (drop_spec t boom Ht _ h false _ _ [] G1 L1) as (w1 & D1 & D2 & D3 & D4).
    set (d := g_drop t boom (S (length (gnodes s))) h false (g_slot s i SGone)) in *. clearbody d. destruct d as [s1 r]. cbn [fst snd app] in *.
    pose proof (len_slot w i _ SGone E) as LS. cbn [slot_handles length] in LS.
    assert (OK : r <> GAbort -> forall r', r' = (if is_panic r then GPanic else GOk) -> istep boom w (GDrop i) (of_gres r') w1 /\ grel s1 w1 [] /\ (length (handles w1) <= S (length (handles w)))%nat).
    { intros A r' ->. destruct (D4 A) as (G2 & _ & K2). pose proof (K2 w1 _ (se_nil boom w1 (is_panic r))) as S1. split; [eapply i_drop; eauto|]. split; [exact G2|].
      pose proof (settles_len _ _ _ _ _ _ S1) as LL. rewrite app_length in LL. cbn [length] in LL. lia. }
    destruct r; cbn [is_panic] in *.
    + destruct (OK ltac:(discriminate) _ eq_refl) as (I1 & G2 & LL). exists w1. cbn [fst snd]. split; [exact I1|]. split; [exact D2|]. auto.
    + destruct (OK ltac:(discriminate) _ eq_refl) as (I1 & G2 & LL). exists w1. cbn [fst snd]. split; [exact I1|]. split; [exact D2|]. auto.
    + exists w1. cbn [fst snd]. split; [|split; [exact D2|congruence]]. apply (i_drop boom w i h w1 GAbort); [exact E|]. apply D3. reflexivity.
    + congruence.
  - (* forget *)
    destruct (g_held s i) as [h|] eqn:E; [|apply sim_invalid; [exact G|]; intros (h & H); exact (g_held_none _ _ _ _ G E h H)].
    apply (g_held_some s w [] i h G) in E. exists (with_slot w i (SForgot h)). cbn [fst snd]. split; [apply i_forget; exact E|]. split; [apply (r_log _ _ _ G)|]. intros _. split.
    + unfold g_slot. rewrite (r_slots _ _ _ G), (r_log _ _ _ G). apply (grel_same s w []); [exact G|]. intros h'. fold (with_slot w i (SForgot h)). rewrite !app_nil_r.
      pose proof (cnt_slot w i _ (SForgot h) h' E) as Q. cbn [slot_handles] in Q. lia.
    + pose proof (len_slot w i _ (SForgot h) E) as Q. cbn [slot_handles] in Q. lia.
  - (* put *)
    assert (BAD : (forall n h, held w i (HS n) -> held w j h -> i = j) -> ~ gpermitted w (GPut i j)) by (intros H (n & h & H1 & H2 & H3); exact (H3 (H n h H1 H2))).
    destruct (g_held s i) as [[n|n]|] eqn:E.
    2:{ apply sim_invalid; [exact G|]. apply BAD. intros n' h H. apply (g_held_some s w [] i _ G) in E. unfold held in *. congruence. }
    2:{ apply sim_invalid; [exact G|]. apply BAD. intros n' h H. destruct (g_held_none _ _ _ _ G E _ H). }
    destruct (g_held s j) as [h|] eqn:Ej; [|apply sim_invalid; [exact G|]; apply BAD; intros n' h _ H; destruct (g_held_none _ _ _ _ G Ej _ H)].
    destruct (Nat.eqb_spec i j) as [->|NE]; [apply sim_invalid; [exact G|]; apply BAD; reflexivity|].
    apply (g_held_some s w [] i _ G) in E. apply (g_held_some s w [] j _ G) in Ej. pose proof (held_cnt _ _ _ E) as HC.
    destruct (hs_node s w [] n G) as (x & v & ks & Ex & Ey & B1 & B2 & B3 & B4); [rewrite app_nil_r; exact HC|]. rewrite Ex. rewrite app_nil_r in *.
    set (w' := with_slot (with_kids w n v (Some (ks ++ [h]))) j SGone).
    assert (C : forall h', cnt (handles w') h' = cnt (handles w) h').
    { intros h'. pose proof (cnt_kids w n _ v (Some (ks ++ [h])) h' Ey) as Q1. pose proof (cnt_slot (with_kids w n v (Some (ks ++ [h]))) j _ SGone h' Ej) as Q2.
      cbn [slot_handles node_handles ikids] in Q1, Q2. unfold w'. cn. lia. }
    exists w'. cbn [fst snd]. split; [eapply i_put; eauto|]. split; [apply (r_log _ _ _ G)|]. intros _. split.
    + unfold g_slot, g_set, w', with_slot, with_kids. cbn [gnodes gslots glog inodes islots ilog]. rewrite (r_slots _ _ _ G), (r_log _ _ _ G).
      change (MkIG (upd (inodes w) n (MkI v (Some (ks ++ [h])))) (upd (islots w) j SGone) (ilog w)) with w'.
      apply (grel_node s w [] n x (MkI v (Some ks)) (gbox x) (gkids x ++ [h]) (MkI v (Some (ks ++ [h])))); auto; fold (with_kids w n v (Some (ks ++ [h])));
        change (MkIG (upd (inodes w) n (MkI v (Some (ks ++ [h])))) (upd (islots w) j SGone) (ilog w)) with w'; rewrite ?app_nil_r, ?C; auto.
      * cbn [node_handles ikids]. congruence.
      * cbn [ikids]. split; [lia|discriminate].
    + pose proof (len_kids w n _ v (Some (ks ++ [h])) Ey) as Q1. pose proof (len_slot (with_kids w n v (Some (ks ++ [h]))) j _ SGone Ej) as Q2.
      cbn [slot_handles node_handles ikids length] in Q1, Q2. rewrite app_length in Q1. cbn [length] in Q1. unfold w'. lia.
  - (* take *)
    destruct (g_held s i) as [[n|n]|] eqn:E.
    2:{ apply sim_invalid; [exact G|]. apply (g_held_some s w [] i _ G) in E. intros (n' & v & ks & h & H & _). unfold held in *. congruence. }
    2:{ apply sim_invalid; [exact G|]. intros (n' & v & ks & h & H & _). exact (g_held_none _ _ _ _ G E _ H). }
    apply (g_held_some s w [] i _ G) in E. pose proof (held_cnt _ _ _ E) as HC.
    destruct (hs_node s w [] n G) as (x & v & ks & Ex & Ey & B1 & B2 & B3 & B4); [rewrite app_nil_r; exact HC|]. rewrite Ex, B2. rewrite app_nil_r in *.
    destruct (nth_error ks k) as [h|] eqn:Ek.
    2:{ apply sim_invalid; [exact G|]. intros (n' & v' & ks' & h & H1 & H2 & H3). unfold held in *. assert (n' = n) as -> by congruence. congruence. }
    destruct (nth_error_split ks k Ek) as (k1 & k2 & -> & Lk).
    assert (FK : firstn k (k1 ++ h :: k2) = k1) by (rewrite <- Lk, firstn_app, firstn_all, Nat.sub_diag; cbn; apply app_nil_r).
    assert (SK : skipn (S k) (k1 ++ h :: k2) = k2).
    { rewrite <- Lk. rewrite skipn_app, skipn_all2 by lia. replace (S (length k1) - length k1)%nat with 1%nat by lia. reflexivity. }
    rewrite FK, SK.
    set (w' := and_slot (with_kids w n v (Some (k1 ++ k2))) h).
    assert (C : forall h', cnt (handles w') h' = cnt (handles w) h').
    { intros h'. unfold w'. rewrite add_cnt. pose proof (cnt_kids w n _ v (Some (k1 ++ k2)) h' Ey) as Q1. cbn [node_handles ikids] in Q1. cn. lia. }
    exists w'. cbn [fst snd]. split; [rewrite (r_slots _ _ _ G); eapply i_take; eauto|]. split; [apply (r_log _ _ _ G)|]. intros _. split.
    + unfold g_add, g_set. cbn [gnodes gslots glog]. rewrite (r_slots _ _ _ G), (r_log _ _ _ G).
      assert (W : w' = MkIG (upd (inodes w) n (MkI v (Some (k1 ++ k2)))) (islots w ++ [SHeld h]) (ilog w)) by reflexivity. rewrite W.
      apply (grel_node s w [] n x (MkI v (Some (k1 ++ h :: k2))) (gbox x) (k1 ++ k2) (MkI v (Some (k1 ++ k2)))); auto; rewrite <- W, ?app_nil_r, ?C; auto.
      * cbn [ikids]. split; [lia|discriminate].
    + pose proof (len_kids w n _ v (Some (k1 ++ k2)) Ey) as Q1. cbn [node_handles ikids] in Q1. unfold w'. rewrite add_len. rewrite !app_length in Q1. cbn [length] in Q1. lia.
  - (* unwrap *)
    destruct (g_held s i) as [[n|n]|] eqn:E.
    2:{ apply sim_invalid; [exact G|]. apply (g_held_some s w [] i _ G) in E. intros (n' & H). unfold held in *. congruence. }
    2:{ apply sim_invalid; [exact G|]. intros (n' & H). exact (g_held_none _ _ _ _ G E _ H). }
    apply (g_held_some s w [] i _ G) in E. pose proof (held_cnt _ _ _ E) as HC.
    destruct (hs_node s w [] n G) as (x & v & ks & Ex & Ey & B1 & B2 & B3 & B4); [rewrite app_nil_r; exact HC|]. rewrite Ex. rewrite app_nil_r in *.
    unfold rc_try_unwrap. destruct (Z.eqb_spec (bstrong (gbox x)) 1) as [Q|Q]; cbn [negb].
    2:{ apply sim_same; [exact G|]. eapply i_unwrap_no; [exact E|]. unfold number. fold (cnt (handles w) (HS n)). lia. }
    unfold dec_strong. rewrite op_sub1 by lia. cbn [obind bval]. rewrite B1, B2.
    set (w' := MkIG (upd (inodes w) n (MkI v None)) (upd (islots w) i (SHeld (HW n)) ++ map SHeld ks) (ilog w ++ [Took v])).
    assert (C : forall h', (cnt (handles w') h' + (if hnd_dec (HS n) h' then 1 else 0) = cnt (handles w) h' + if hnd_dec (HW n) h' then 1 else 0)%nat).
    { intros h'. unfold w', handles. cbn [inodes islots]. rewrite flat_map_app, held_flat. cn. pose proof (cnt_upd node_handles (inodes w) n _ (MkI v None) h' Ey) as Q1.
      pose proof (cnt_upd slot_handles (islots w) i _ (SHeld (HW n)) h' E) as Q2. cbn [slot_handles node_handles ikids] in Q1, Q2. cn. lia. }
    exists w'. cbn [fst snd]. split; [eapply i_unwrap; eauto; unfold number; fold (cnt (handles w) (HS n)); lia|].
    cbn [glog]. rewrite (r_log _ _ _ G). split; [reflexivity|]. intros _. split.
    + rewrite (r_slots _ _ _ G). unfold w'. apply (grel_node s w [] n x (MkI v (Some ks))); auto; fold w'; rewrite ?app_nil_r.
      * intros m N. rewrite ?app_nil_r. pose proof (C (HS m)). pose proof (C (HW m)). dec. lia.
      * cbn [bstrong]. pose proof (C (HS n)). dec. lia.
      * cbn [bweak ikids one_if]. pose proof (C (HW n)). dec. lia.
      * cbn [ikids]. pose proof (C (HS n)). dec. split; [congruence|lia].
    + unfold w', handles. cbn [inodes islots]. rewrite flat_map_app, held_flat, !app_length. pose proof (len_upd node_handles (inodes w) n _ (MkI v None) Ey) as Q1.
      pose proof (len_upd slot_handles (islots w) i _ (SHeld (HW n)) E) as Q2. cbn [slot_handles node_handles ikids length] in Q1, Q2. lia.
  - (* read *)
    destruct (g_held s i) as [[n|n]|] eqn:E.
    2:{ apply sim_invalid; [exact G|]. apply (g_held_some s w [] i _ G) in E. intros (n' & H). unfold held in *. congruence. }
    2:{ apply sim_invalid; [exact G|]. intros (n' & H). exact (g_held_none _ _ _ _ G E _ H). }
    apply (g_held_some s w [] i _ G) in E. pose proof (held_cnt _ _ _ E) as HC.
    destruct (hs_node s w [] n G) as (x & v & ks & Ex & Ey & B1 & B2 & B3 & B4); [rewrite app_nil_r; exact HC|]. rewrite Ex.
    apply sim_same; [exact G|]. rewrite B1. eapply i_read; eauto.
  - (* strong_count *)
    destruct (g_held s i) as [h|] eqn:E; [|apply sim_invalid; [exact G|]; intros (h & H); exact (g_held_none _ _ _ _ G E h H)].
    apply (g_held_some s w [] i h G) in E. pose proof (held_cnt _ _ _ E) as HC. destruct h as [n|n].
    + destruct (hs_node s w [] n G) as (x & v & ks & Ex & Ey & B1 & B2 & B3 & B4); [rewrite app_nil_r; exact HC|]. rewrite Ex. rewrite app_nil_r in *.
      apply sim_same; [exact G|]. rewrite B3. eapply i_strong; eauto.
    + destruct (hw_node s w [] n G) as (x & y & Ex & Ey & N & B3 & B4); [rewrite app_nil_r; exact HC|]. rewrite Ex. rewrite app_nil_r in *.
      apply sim_same; [exact G|]. rewrite B3. eapply i_strong; eauto.
  - (* weak_count *)
    destruct (g_held s i) as [h|] eqn:E; [|apply sim_invalid; [exact G|]; intros (h & H); exact (g_held_none _ _ _ _ G E h H)].
    apply (g_held_some s w [] i h G) in E. pose proof (held_cnt _ _ _ E) as HC. destruct h as [n|n].
    + destruct (hs_node s w [] n G) as (x & v & ks & Ex & Ey & B1 & B2 & B3 & B4); [rewrite app_nil_r; exact HC|]. rewrite Ex. rewrite app_nil_r in *.
      apply sim_same; [exact G|]. rewrite B4. eapply i_weak; eauto. apply (alive_iff w n v (Some ks) Ey). discriminate.
    + destruct (hw_node s w [] n G) as (x & y & Ex & Ey & N & B3 & B4); [rewrite app_nil_r; exact HC|]. rewrite Ex. rewrite app_nil_r in *.
      apply sim_same; [exact G|]. rewrite B4. destruct y as [v ks]. pose proof (alive_iff w n v ks Ey) as AI. destruct ks as [ks|]; cbn [ikids one_if].
      * eapply i_weak; eauto. apply AI. discriminate.
      * rewrite Z.add_0_r. eapply i_weak_dead; eauto. rewrite AI. congruence.
Qed.

Lemma g_init_rel : grel g_init i_init [].
Proof.
  split; cbn; auto.
  - intros n x y H. destruct n; discriminate.
  - intros n y H. destruct n; discriminate.
Qed.

Lemma grun_sim t boom os : valid_target t -> forall s w, grel s w [] -> Z.of_nat (length (handles w) + length os) + 2 <= usize_max t ->
  exists w', iruns boom w (snd (grun t boom s os)) w' /\ glog (fst (grun t boom s os)) = ilog w' /\
    ((forall o, ~ In (o, GAborted) (snd (grun t boom s os))) -> grel (fst (grun t boom s os)) w' []).
Proof.
  intros Ht. induction os as [|o os IH]; intros s w G F; cbn [grun].
  { exists w. split; [constructor|]. split; [apply (r_log _ _ _ G)|]. intros _. exact G. }
  cbn [length] in F. destruct (gstep_sim t boom s w o Ht G ltac:(lia)) as (w1 & I1 & L1 & K1).
  destruct (gstep t boom s o) as [s1 a]. cbn [fst snd] in *. destruct a as [a|].
  - destruct (K1 ltac:(discriminate)) as (G1 & LL). destruct (IH s1 w1 G1 ltac:(lia)) as (w2 & I2 & L2 & K2).
    destruct (grun t boom s1 os) as [s2 h]. cbn [fst snd] in *. exists w2. split; [econstructor; eauto|]. split; [exact L2|].
    intros N. apply K2. intros o' H. apply (N o'). right. exact H.
  - exists w1. cbn [fst snd]. split; [apply ir_abort; exact I1|]. split; [exact L1|]. intros N. destruct (N o). left. reflexivity.
Qed.

(** ** What follows about the graph *)
Definition sound (w : igraph) : Prop := forall n, alive w n <-> In (HS n) (handles w).

Lemma grel_sound s w : grel s w [] -> sound w.
Proof.
  intros G n. pose proof G as [_ _ _ _ R5 R6]. rewrite cnt_in. rewrite app_nil_r in *. split.
  - intros (v & ks & E). apply (R5 n _ E). discriminate.
  - intros H. destruct (nth_error (inodes w) n) as [[v [ks|]]|] eqn:E.
    + exists v, ks. exact E.
    + pose proof (proj2 (R5 n _ E) H) as Q. cbn in Q. congruence.
    + apply nth_error_None in E. destruct (R6 n E). lia.
Qed.

Lemma in_handles w h : In h (handles w) <->
  (exists i x, nth_error (islots w) i = Some x /\ In h (slot_handles x)) \/
  (exists n v ks, nth_error (inodes w) n = Some (MkI v (Some ks)) /\ In h ks).
Proof.
  unfold handles. rewrite in_app_iff, !in_flat_map. split.
  - intros [(x & H1 & H2)|(y & H1 & H2)]; apply In_nth_error in H1; destruct H1 as (i & H1).
    + left. eauto.
    + right. destruct y as [v [ks|]]; cbn in H2; [|contradiction]. eauto.
  - intros [(i & x & H1 & H2)|(n & v & ks & H1 & H2)]; [left|right].
    + exists x. split; [eapply nth_error_In; exact H1|exact H2].
    + eexists. split; [eapply nth_error_In; exact H1|exact H2].
Qed.

Lemma reachable_alive w : sound w -> forall n, reachable w n -> alive w n.
Proof.
  intros S n H. apply S, in_handles. destruct H as [i x n E I|n v ks m R E I]; [left|right]; eauto.
Qed.

Lemma alive_reachable w : sound w -> acyclic w -> forall n, alive w n -> reachable w n.
Proof.
  intros S (rank & A). intros n. remember (rank n) as k eqn:Ek. revert n Ek. induction k as [k IH] using lt_wf_ind. intros n -> H.
  apply S, in_handles in H. destruct H as [(i & x & E & I)|(m & v & ks & E & I)]; [eapply re_root; eauto|].
  eapply re_kid; [|exact E|exact I]. apply (IH (rank m)); [eapply A; eauto|reflexivity|]. exists v, ks. exact E.
Qed.

(** accounting of values *)
Definition bal (w : igraph) : Prop := Permutation (puts (ilog w)) (drops (ilog w) ++ tooks (ilog w) ++ living w).

Lemma living_kill l n v ks : nth_error l n = Some (MkI v (Some ks)) ->
  Permutation (flat_map (fun y => match ikids y with Some _ => [ival y] | None => [] end) l)
    (v :: flat_map (fun y => match ikids y with Some _ => [ival y] | None => [] end) (upd l n (MkI v None))).
Proof.
  revert n. induction l as [|z l IH]; intros [|n] E; cbn in E; try discriminate; cbn [upd flat_map].
  - injection E as ->. cbn. apply Permutation_refl.
  - rewrite (IH n E). symmetry. apply Permutation_middle.
Qed.
Lemma living_kids l n v ks ks' : nth_error l n = Some (MkI v (Some ks)) ->
  flat_map (fun y => match ikids y with Some _ => [ival y] | None => [] end) (upd l n (MkI v (Some ks'))) =
  flat_map (fun y => match ikids y with Some _ => [ival y] | None => [] end) l.
Proof.
  revert n. induction l as [|z l IH]; intros [|n] E; cbn in E; try discriminate; cbn [upd flat_map].
  - injection E as ->. reflexivity.
  - rewrite (IH n E). reflexivity.
Qed.

Lemma tooks_app_ a b : tooks (a ++ b) = tooks a ++ tooks b. Proof. apply flat_map_app. Qed.

Lemma bal_kill w n v ks : bal w -> nth_error (inodes w) n = Some (MkI v (Some ks)) -> bal (kill w n v).
Proof.
  unfold bal, kill, living. cbn [ilog inodes]. intros B E. rewrite puts_app, drops_app, tooks_app_. cbn [puts drops tooks flat_map app]. rewrite !app_nil_r.
  rewrite B. rewrite (living_kill _ _ _ _ E). rewrite <- !app_assoc. apply Permutation_app_head. cbn [app]. symmetry. apply Permutation_middle.
Qed.

Lemma settles_bal boom w hs p w' r : settles boom w hs p w' r -> bal w -> bal w'.
Proof. induction 1; intros B; auto; [apply IHsettles|]; eapply bal_kill; eauto. Qed.

Lemma istep_bal boom w o a w' : istep boom w o a w' -> bal w -> bal w'.
Proof.
  intros S B. destruct S; auto.
  - unfold bal, living in *. cbn [ilog inodes]. rewrite puts_app, drops_app, tooks_app_, flat_map_app. cbn. rewrite !app_nil_r.
    rewrite B. rewrite <- !app_assoc. apply Permutation_refl.
  - eapply settles_bal; eauto.
  - unfold bal, living, with_slot, with_kids in *. cbn [ilog inodes]. rewrite (living_kids _ _ _ _ _ H2). exact B.
  - unfold bal, living, and_slot, with_kids in *. cbn [ilog inodes]. rewrite (living_kids _ _ _ _ _ H0). exact B.
  - unfold bal, living in *. cbn [ilog inodes]. rewrite puts_app, drops_app, tooks_app_. cbn. rewrite !app_nil_r. rewrite B. rewrite (living_kill _ _ _ _ H0).
    rewrite <- !app_assoc. apply Permutation_refl.
Qed.

Lemma iruns_bal boom w h w' : iruns boom w h w' -> bal w -> bal w'.
Proof. induction 1; intros B; auto; [apply IHiruns|]; eapply istep_bal; eauto. Qed.

(** ** The specification fixes answers and results *)
Lemma settles_det boom w hs p w1 r1 : settles boom w hs p w1 r1 -> forall w2 r2, settles boom w hs p w2 r2 -> w1 = w2 /\ r1 = r2.
Proof.
  induction 1 as [w p|w n hs p w' r Q IH|w n hs p w' r I Q IH|w n hs p v ks w' r I E B Q IH|w n hs v ks I E B]; intros w2 r2 H2; inversion H2; subst; auto; try contradiction; try congruence.
  - match goal with H : nth_error _ _ = Some (MkI ?v' (Some ?k')) |- _ => assert (v' = v /\ k' = ks) as (-> & ->) by (split; congruence) end. apply IH. assumption.
  - match goal with H : nth_error _ _ = Some (MkI ?v' (Some ?k')) |- _ => assert (v' = v) as -> by congruence end. specialize (B ltac:(assumption)). discriminate.
  - match goal with H : nth_error _ _ = Some (MkI ?v' (Some ?k')), H' : boom ?v' = true -> _ |- _ => assert (v' = v) as -> by congruence; specialize (H' B); discriminate end.
  - match goal with H : nth_error _ _ = Some (MkI ?v' (Some ?k')) |- _ => assert (v' = v) as -> by congruence end. auto.
Qed.

Lemma istep_permitted boom w o a w' : istep boom w o a w' -> gpermitted w o \/ (a = GA AInvalid /\ w' = w).
Proof. intros H. destruct H; cbn [gpermitted]; eauto 10. left. exists n, v, (ks1 ++ h :: ks2), h. subst k. rewrite nth_error_app2, Nat.sub_diag by lia. auto. Qed.

Lemma app_eq_len {A} (a b c d : list A) : a ++ b = c ++ d -> length a = length c -> a = c /\ b = d.
Proof.
  revert c. induction a as [|x a IH]; intros [|y c] E L; cbn in *; try discriminate; auto. injection E as -> E. destruct (IH c E ltac:(lia)) as (-> & ->). auto.
Qed.

Lemma istep_det boom w o a1 w1 a2 w2 : istep boom w o a1 w1 -> istep boom w o a2 w2 -> a1 = a2 /\ w1 = w2.
Proof.
  intros H1 H2. destruct (istep_permitted _ _ _ _ _ H1) as [P|(-> & ->)].
  2:{ destruct (istep_permitted _ _ _ _ _ H2) as [P|(-> & ->)]; [|auto]. inversion H1; subst; [destruct r; discriminate|contradiction]. }
  Ltac same := repeat match goal with
    | A : held ?w ?i ?h, B : held ?w ?i ?h' |- _ => assert (h = h') by (unfold held in A, B; congruence); clear B
    | A : HS ?n = HS ?m |- _ => injection A as A
    | A : HW ?n = HW ?m |- _ => injection A as A
    | A : nth_error ?l ?n = Some ?y, B : nth_error ?l ?n = Some ?y' |- _ => assert (y = y') by congruence; clear B
    | A : MkI _ _ = MkI _ _ |- _ => injection A; clear A; intros
    | A : ?n = ?m |- _ => subst n
    end.
  destruct H1; inversion H2; subst; try contradiction; same; auto; try contradiction; try discriminate; try congruence.
  - match goal with A : settles _ _ _ _ ?a ?r, B : settles _ _ _ _ ?a' ?r' |- _ => destruct (settles_det _ _ _ _ _ _ A _ _ B) as (<- & <-); auto end.
  - match goal with A : ?l1 ++ ?x1 :: ?m1 = ?l2 ++ ?x2 :: ?m2 |- _ => destruct (app_eq_len _ _ _ _ A) as (<- & Q); [lia|injection Q as <- <-; auto] end.
  - repeat match goal with A : _ \/ _ |- _ => destruct A end; subst; same; try discriminate; auto.
  - repeat match goal with A : _ \/ _ |- _ => destruct A end; subst; same; try discriminate; auto.
  - repeat match goal with A : _ \/ _ |- _ => destruct A end; subst; same; try discriminate; contradiction.
  - repeat match goal with A : _ \/ _ |- _ => destruct A end; subst; same; try discriminate; contradiction.
  - repeat match goal with A : _ \/ _ |- _ => destruct A end; subst; same; try discriminate; auto.
Qed.

Lemma iruns_det boom w h w1 : iruns boom w h w1 -> forall w2, iruns boom w h w2 -> w1 = w2.
Proof.
  induction 1 as [w|w o a w' h w1 Q1 Q2 IH|w o w1 Q1]; intros w2 H2; inversion H2; subst; auto.
  - apply IH. match goal with A : istep _ _ _ _ ?x, B : iruns _ ?x _ _ |- _ => destruct (istep_det _ _ _ _ _ _ _ Q1 A) as (_ & <-); exact B end.
  - match goal with A : istep _ _ _ GAborted ?x |- _ => destruct (istep_det _ _ _ _ _ _ _ Q1 A) as (_ & <-); reflexivity end.
Qed.
