(** * TExitTop: the last reference to each value, under Tree Borrows; and what an Unpin memory does to values. *)
From Verif Require EBorrowWorld BorrowWorld UBorrowCells UBorrowWorld TreeWorld.
From Verif Require Import Base Spec BaseFacts SyncModel SyncSpec UnsyncModel UnsyncSpec UnsyncProofs ExitModel ExitProofs ConcModel BorrowModel BorrowSpec BorrowProofs BorrowState TBorrowModel
  UBorrowModel EBorrowModel EBorrowSlot TreeModel TreeSpec TreeState TreeAct TExitModel TExitSpec TExitState TExitOps TExitSlot TExitVal TExitStart TExitWorld.

(** ** Trees *)
Lemma child_read p q : child false p = Some q -> q = p.
Proof. destruct p; cbn; congruence. Qed.
Lemma access_same p b s r x y : tree_access false p b s = Some r -> In y (line s p) -> perms r x y = perms s x y.
Proof.
  intros E Y. destruct (inb b x) eqn:B.
  - apply inb_iff in B. pose proof (access_after _ _ _ _ _ _ _ E B Y) as C. apply child_read in C. exact C.
  - rewrite (access_out _ _ _ _ _ _ E); [reflexivity|]. rewrite <- inb_iff. congruence.
Qed.
Lemma reads_same p m parts : forall s r x y, tree_reads p m parts s = Some r -> In y (line s p) -> perms r x y = perms s x y /\ line r = line s.
Proof.
  induction parts as [|[c b] parts IH]; intros s r x y E Y; cbn [tree_reads] in E; [injection E as <-; auto|]. destruct (negb m && c); [eauto|].
  destruct (tree_access false p b s) as [r1|] eqn:E1; [|discriminate]. pose proof (access_line _ _ _ _ _ E1) as L. destruct (IH r1 r x y E) as [P Lr]; [rewrite L; exact Y|].
  rewrite P, Lr, L. split; [|reflexivity]. eapply access_same; eauto.
Qed.

(** ** The last reference *)
Definition top_ok (w : Prop) (v : izslot) : Prop := match iz_status v with
  | IZPinned o _ => exists n T, ntags o = n :: T /\ forall x y, in_block (nblk o) x -> In y (line (ntree o) n) ->
      perms (ntree o) x y <> PDisabled /\ (w -> wp_ok (perms (ntree o) x y)) /\ (iz_unpin v = false -> perms (ntree o) x y = PCell)
  | _ => True
  end.
Lemma top_less (w w' : Prop) v : (w' -> w) -> top_ok w v -> top_ok w' v.
Proof. unfold top_ok. destruct (iz_status v) as [|o base|]; auto. intros I (n & T & E & H). exists n, T. split; [exact E|]. intros x y X Y. destruct (H x y X Y) as (A & B & C). auto. Qed.

Section Top.
Variables (t : target) (st : block) (unpin : bool).

(** Writes are allowed, too. *)
Definition wok (i : zideal) (v : izslot) : Prop := i_drop i = None \/ unpin && iz_unpin v = false.
Definition tops (i : zideal) (js : list izslot) : Prop := Forall (fun v => top_ok (wok i v) v) js.

Lemma ref_top (w : Prop) o base unp im d o' v : ref_from o base unp im d o' -> d <> base -> line (ntree o) base = [base] ->
  (forall x, in_block (nblk o) x -> perms (ntree o) x base <> PDisabled /\ (w -> wp_ok (perms (ntree o) x base)) /\ (unp = false -> perms (ntree o) x base = PCell)) ->
  iz_unpin v = unp -> top_ok w (iz_with v (IZPinned o' base)).
Proof.
  intros (r & E & ->) Nd Lb P U. unfold top_ok. cbn [iz_with iz_status iz_unpin nblk ntree ntags]. exists d, (ntags o). split; [reflexivity|]. intros x y X Y. rewrite U.
  unfold tree_retag in E. destruct (tree_reads base unp _ (ntree o)) as [r0|] eqn:E0; [|discriminate]. injection E as <-. cbn [line perms] in *. rewrite Nat.eqb_refl in Y.
  destruct (reads_same _ _ _ _ _ x base E0) as [Pb Lr]; [rewrite Lb; left; reflexivity|]. rewrite Lr, Lb in Y. destruct Y as [<-|[<-|[]]].
  - rewrite Nat.eqb_refl. unfold cell_at. cbn [find snd fst]. rewrite (proj2 (inb_iff (nblk o) x) X). unfold initial, wp_ok. destruct unp; cbn; (split; [discriminate|split; [eauto|congruence]]).
  - replace (Nat.eqb base d) with false by (symmetry; apply Nat.eqb_neq; congruence). rewrite Pb. auto.
Qed.

Lemma set_forall {A} (P : A -> Prop) l k x : Forall P l -> P x -> Forall P (set_nth l k x).
Proof. intros F X. apply Forall_forall. intros y Y. apply BorrowWorld.set_nth_in in Y. destruct Y as [->|Y]; [exact X|]. rewrite Forall_forall in F. auto. Qed.

(** all pointers to a value come from that of the stack *)
Definition rooted (used : list nat) (v : izslot) : Prop := match iz_status v with
  | IZPinned o base => line (ntree o) base = [base] /\ In base used /\ forall y, In y (ntags o) -> In base (line (ntree o) y)
  | _ => True
  end.

Lemma slots_rooted tp ex used s ys js : slots_ok tp ex used s ys js -> Forall (rooted used) js.
Proof.
  intros H. apply Forall_forall. intros v Iv. apply In_nth_error in Iv. destruct Iv as [k Ek]. destruct (slot_of _ _ _ _ _ _ _ _ H Ek) as ([z x] & _ & [_ _ _ _ _ _ _ _ _ q]). cbn [fst snd] in q.
  unfold rooted. destruct (iz_status v) as [|o base|]; auto. destruct x; cbn [status_ok] in q; try contradiction. destruct q as (-> & b2 & b3 & b4 & b5 & b6 & up & b7).
  split; [apply (v_ibase _ _ _ _ _ _ b7)|]. split; [apply b5; left; reflexivity|]. intros y Y. pose proof (v_linked _ _ _ _ _ _ b7 y (or_intror Y)) as K. apply (k_in _ _ _ _ _ _ _ K); [left; reflexivity|]. apply (k_up _ _ _ _ _ _ _ K). left. reflexivity.
Qed.

Lemma popped_rooted used v : rooted used v -> rooted used (popped unpin v).
Proof. unfold popped, iz_read, iz_end, rooted. destruct unpin, (iz_status v) as [|o base|] eqn:E; cbn [iz_with iz_status]; rewrite ?E; cbn [iz_with iz_status]; auto. Qed.
Lemma popped_top v : top_ok True v -> top_ok (unpin && iz_unpin v = false) (popped unpin v).
Proof.
  unfold popped, iz_read, iz_end, top_ok. destruct (iz_status v) as [|o base|] eqn:E; destruct unpin; cbn [iz_with iz_status]; rewrite ?E; cbn [iz_with iz_status iz_unpin read_elsewhere ntags ntree nblk line perms andb]; auto.
  - intros (n & T & Et & H). exists n, T. split; [exact Et|]. intros x y X Y. destruct (H x y X Y) as (A & B & C). split; [|split].
    + destruct (perms (ntree o) x y) as [[|]| | | |]; cbn; congruence.
    + intros U. rewrite (C U). unfold wp_ok. auto.
    + intros U. rewrite (C U). reflexivity.
  - intros (n & T & Et & H). exists n, T. split; [exact Et|]. intros x y X Y. destruct (H x y X Y) as (A & B & C). auto.
Qed.
Lemma popped_unp v : iz_unpin (popped unpin v) = iz_unpin v.
Proof. unfold popped, iz_read, iz_end. destruct unpin, (iz_status v) as [|o base|] eqn:E; cbn [iz_with iz_status]; rewrite ?E; reflexivity. Qed.

Lemma go_top i js chain r i' : izgo i js chain r i' -> Forall (rooted (i_used i)) js -> Forall (fun v => top_ok (unpin && iz_unpin v = false) v) js -> tops i' (i_slots i').
Proof.
  intros G R F. unfold tops. inversion G as [|k ch v o base d o' E1 E2 E3 E4]; subst; cbn [i_reset i_slots]; [constructor|]. apply set_forall.
  - eapply Forall_impl; [|exact F]. intros v' H. eapply top_less; [|exact H]. unfold wok. cbn [i_drop]. intros [X|X]; [discriminate|exact X].
  - rewrite Forall_forall in F, R. pose proof (nth_error_In _ _ E1) as Iv. pose proof (F v Iv) as V. pose proof (R v Iv) as W. unfold top_ok in V. unfold rooted in W. rewrite E2 in V, W. destruct V as (n & T & Et & V). destruct W as (W1 & W2 & W3).
    eapply top_less; [|eapply (ref_top (unpin && iz_unpin v = false) o base (iz_unpin v)); [exact E3| |exact W1| |reflexivity]].
    + unfold wok. cbn [i_drop iz_with iz_unpin]. intros [X|X]; [discriminate|exact X].
    + intros ->. apply E4. exact W2.
    + intros x X. apply V; [exact X|]. apply W3. rewrite Et. left. reflexivity.
Qed.

Lemma step_top hd tp ex w i o r i' : zinv t hd st tp ex w i -> tops i (i_slots i) -> zlatest unpin w o -> zistep t st unpin i o r i' -> r <> ZUB /\ tops i' (i_slots i').
Proof.
  intros I F La St. pose proof (slots_rooted _ _ _ _ _ _ (y_slots _ _ _ _ _ _ _ I)) as R.
  assert (Ac : forall k a v ob base, o = ZAct k a -> nth_error (i_slots i) k = Some v -> iz_status v = IZPinned ob base -> nact_ok (MkO (nblk ob) (ntags ob)) a = true ->
    exists n T b, ntags ob = n :: T /\ (a = NRead n b \/ a = NWrite n b /\ wok i v) /\ (forall x, in_block b x -> in_block (nblk ob) x)).
  { intros k a v ob base -> E1 E2 E3. cbn [zlatest] in La. destruct La as (z & n & tags & b & La & Ea). destruct (slot_of _ _ _ _ _ _ _ _ (y_slots _ _ _ _ _ _ _ I) E1) as (p & E4 & [_ q2 _ _ _ _ _ _ _ q]).
    rewrite La in E4. injection E4 as <-. cbn [fst snd] in q, q2. rewrite E2 in q. cbn [status_ok] in q. destruct q as (_ & _ & Et & _).
    exists n, tags, b. split; [exact Et|]. split.
    - destruct Ea as [Ea|[Ea W]]; [left; exact Ea|right]. split; [exact Ea|]. unfold wok. rewrite (y_drop _ _ _ _ _ _ _ I), <- q2. destruct W as [-> |W]; [left; reflexivity|right; exact W].
    - assert (W : BorrowSpec.within (nblk ob) b) by (apply TreeWorld.nact_ok_iff in E3; destruct Ea as [-> |[-> _]]; cbn [nclient_access oblk] in E3; apply E3). destruct W. intros x X. unfold in_block in *. lia. }
  assert (Same : forall j, i_drop j = i_drop i -> forall js, tops i js -> tops j js) by (intros j E js; unfold tops, wok; rewrite E; auto).
  inversion St; subst; try (split; [discriminate|]); cbn [i_slots]; auto.
  - apply Same; auto. apply Forall_app. split; [exact F|]. constructor; [exact Logic.I|constructor].
  - apply Same; auto. apply set_forall; [exact F|]. match goal with M : ref_from _ _ _ _ _ _ |- _ => eapply ref_top; [exact M|assumption| | |reflexivity] end; cbn [pinned_value nblk ntree line perms]; [rewrite Nat.eqb_refl; reflexivity|].
    intros x X. unfold wp_ok. destruct (iz_unpin v); (split; [discriminate|split; [auto|congruence]]).
  - match goal with G : izgo _ _ _ _ _ |- _ => split; [eapply izgo_ub; exact G|apply (go_top _ _ _ _ _ G)] end.
    + rewrite Forall_map. eapply Forall_impl; [|exact R]. apply popped_rooted.
    + rewrite Forall_map. eapply Forall_impl; [|exact F]. intros v V. change (iz_end (if unpin then iz_read v else v)) with (popped unpin v). rewrite popped_unp. apply popped_top. eapply top_less; [|exact V]. intros _. left. assumption.
  - match goal with G : izgo _ _ _ _ _ |- _ => split; [eapply izgo_ub; exact G|apply (go_top _ _ _ _ _ G)] end; [exact R|]. eapply Forall_impl; [|exact F]. intros v V. eapply top_less; [|exact V]. intros U. right. exact U.
  - unfold tops. rewrite Forall_map. apply Forall_forall. intros v _. exact Logic.I.
  - match goal with H1 : nth_error _ k = Some v, H2 : iz_status v = _, H3 : nact_ok _ _ = true, H4 : tree_act _ _ _ = Some _ |- _ => destruct (Ac k a v _ base eq_refl H1 H2 H3) as (m & T & b & Et & Ea & Wb); rename H4 into Ei; rename H1 into E1; rename H2 into E2 end.
    split; [destruct a; discriminate|]. apply Same; auto. apply set_forall; [exact F|]. unfold tops in F. rewrite Forall_forall in F. pose proof (F v (nth_error_In _ _ E1)) as V. unfold top_ok in *. rewrite E2 in V. cbn [iz_with iz_status iz_unpin nblk ntree ntags].
    destruct V as (m' & T' & Et' & V). assert (m' = m) by congruence. subst m'. exists m, T. assert (Es : tags_after n a (ntags o0) = ntags o0) by (destruct Ea as [-> |[-> _]]; reflexivity). rewrite Es. split; [exact Et|]. intros x y X Y.
    destruct Ea as [-> |[-> W]]; cbn [tree_act] in Ei; rewrite (access_line _ _ _ _ _ Ei) in Y; destruct (V x y X Y) as (A & B & C).
    + rewrite (access_same _ _ _ _ _ _ Ei Y). auto.
    + destruct (inb b x) eqn:Bx.
      * apply inb_iff in Bx. pose proof (access_after _ _ _ _ _ _ _ Ei Bx Y) as Ch. split; [|split].
        -- destruct (perms (ntree o0) x y); cbn in Ch; congruence.
        -- intros U. destruct (child_wp true _ (B U)) as (q & C' & Q). congruence.
        -- intros U. apply (child_cell true _ _ Ch). auto.
      * rewrite (access_out _ _ _ _ _ _ Ei); [auto|]. rewrite <- inb_iff. congruence.
  - exfalso. match goal with H1 : nth_error _ k = Some v, H2 : iz_status v = _, H3 : nact_ok _ _ = true, H4 : tree_act _ _ _ = None |- _ => destruct (Ac k a v _ base eq_refl H1 H2 H3) as (m & T & b & Et & Ea & Wb); rename H4 into Ei; rename H1 into E1; rename H2 into E2 end.
    unfold tops in F. rewrite Forall_forall in F. pose proof (F v (nth_error_In _ _ E1)) as V. unfold top_ok in V. rewrite E2 in V. destruct V as (m' & T' & Et' & V). assert (m' = m) by congruence. subst m'.
    destruct Ea as [-> |[-> W]]; cbn [tree_act] in Ei.
    + destruct (access_some false m b (ntree o0)) as [r0 Er]; [|congruence]. intros x X. apply forallb_forall. intros y Y. destruct (V x y (Wb x X) Y) as (A & _). destruct (perms (ntree o0) x y); try reflexivity. congruence.
    + destruct (access_some true m b (ntree o0)) as [r0 Er]; [|congruence]. intros x X. apply forallb_forall. intros y Y. destruct (V x y (Wb x X) Y) as (_ & B & _). destruct (child_wp true _ (B W)) as (q & -> & _). reflexivity.
Qed.

(** ** An Unpin memory: values are frozen while destructors run *)
Definition frozen (v : izslot) : Prop := match iz_status v with IZPinned o base => iz_unpin v = true -> forall x, in_block (nblk o) x -> perms (ntree o) x base = PFrozen | _ => True end.
Definition stuck (i : zideal) : Prop := i_drop i <> None -> unpin = true -> Forall frozen (i_slots i).

Lemma go_stuck i js chain r i' : izgo i js chain r i' -> Forall (rooted (i_used i)) js -> (unpin = true -> Forall frozen js) -> stuck i'.
Proof.
  intros G R F. unfold stuck. inversion G as [|k ch v o base d o' E1 E2 E3 E4]; subst; cbn [i_reset i_slots i_drop]; [congruence|]. intros _ U. specialize (F U). apply set_forall; [exact F|].
  rewrite Forall_forall in F, R. pose proof (nth_error_In _ _ E1) as Iv. pose proof (F v Iv) as V. pose proof (R v Iv) as W. unfold frozen in *. unfold rooted in W. rewrite E2 in V, W. destruct W as (W1 & W2 & W3). cbn [iz_with iz_status iz_unpin].
  intros Uv x X. destruct E3 as (r & E3 & ->). cbn [nblk ntree] in *. unfold tree_retag in E3. destruct (tree_reads base _ _ (ntree o)) as [r0|] eqn:E0; [|discriminate]. injection E3 as <-. cbn [perms].
  replace (Nat.eqb base d) with false by (symmetry; apply Nat.eqb_neq; intros ->; contradiction). destruct (reads_same _ _ _ _ _ x base E0) as [-> _]; [rewrite W1; left; reflexivity|auto].
Qed.

Lemma step_stuck hd tp ex w i o r i' : zinv t hd st tp ex w i -> stuck i -> zistep t st unpin i o r i' -> stuck i'.
Proof.
  intros I F St. pose proof (slots_rooted _ _ _ _ _ _ (y_slots _ _ _ _ _ _ _ I)) as R. pose proof (y_used _ _ _ _ _ _ _ I) as Lu.
  inversion St; subst; auto; try solve [unfold stuck; cbn [i_drop]; congruence].
  - match goal with G : izgo _ _ _ _ _ |- _ => apply (go_stuck _ _ _ _ _ G) end.
    + rewrite Forall_map. eapply Forall_impl; [|exact R]. apply popped_rooted.
    + intros U. rewrite Forall_map. apply Forall_forall. intros v Iv. apply In_nth_error in Iv. destruct Iv as [k Ek]. destruct (slot_of _ _ _ _ _ _ _ _ (y_slots _ _ _ _ _ _ _ I) Ek) as ([z x0] & _ & [_ q2 _ _ _ _ _ _ _ q]). cbn [fst snd] in q, q2.
      rewrite U. unfold frozen, iz_read, iz_end. destruct (iz_status v) as [|ob base|] eqn:E; cbn [iz_with iz_status]; rewrite ?E; cbn [iz_with iz_status iz_unpin]; auto.
      intros Uv x X. cbn [read_elsewhere nblk ntree perms] in *. destruct x0; cbn [status_ok] in q; try contradiction. destruct q as (-> & b2 & b3 & b4 & b5 & b6 & up & b7). pose proof (v_byte _ _ _ _ _ _ b7 x X) as B. unfold byte_ok in B.
      destruct (perms (ntree ob) x (zptr z)) as [[|]| | | |]; try contradiction; try reflexivity. destruct B as [B _]. congruence.
  - match goal with G : izgo _ _ _ _ _, E : i_drop _ = Some _ |- _ => apply (go_stuck _ _ _ _ _ G R); intros U; apply F; [rewrite E; discriminate|exact U] end.
  - unfold stuck. cbn [i_drop i_slots]. intros Nd U. specialize (F Nd U). apply set_forall; [exact F|].
    match goal with H1 : nth_error _ k = Some v, H2 : iz_status v = _, H3 : nact_ok _ _ = true, H4 : tree_act _ _ _ = Some _ |- _ => rename H1 into E1; rename H2 into E2; rename H3 into A; rename H4 into Ei end.
    rewrite Forall_forall in F, R. pose proof (nth_error_In _ _ E1) as Iv. pose proof (F v Iv) as V. pose proof (R v Iv) as W. unfold frozen in *. unfold rooted in W. rewrite E2 in V, W. destruct W as (W1 & W2 & W3). cbn [iz_with iz_status iz_unpin nblk ntree].
    intros Uv x X. apply TreeWorld.nact_ok_iff in A. destruct a as [m b|m b|m u parts]; cbn [tree_act nclient_access oblk otags] in *.
    + rewrite (access_same _ _ _ _ _ _ Ei); [auto|]. apply W3. apply A.
    + assert (Y : In base (line (ntree o0) m)) by (apply W3; apply A). destruct (inb b x) eqn:B.
      * apply inb_iff in B. pose proof (access_after _ _ _ _ _ _ _ Ei B Y) as C. rewrite (V Uv x X) in C. discriminate.
      * rewrite (access_out _ _ _ _ _ _ Ei); [auto|]. rewrite <- inb_iff. congruence.
    + assert (Y : In base (line (ntree o0) m)) by (apply W3; apply A). unfold tree_retag in Ei. destruct (tree_reads m u parts (ntree o0)) as [r9|] eqn:E0; [|discriminate]. injection Ei as <-. cbn [perms].
      replace (Nat.eqb base n) with false by (symmetry; apply Nat.eqb_neq; intros ->; contradiction). destruct (reads_same _ _ _ _ _ x base E0 Y) as [-> _]. auto.
Qed.
End Top.

Lemma zrun_top t hd st tp unpin os : valid_target t -> disjoint hd st -> disjoint st tp -> Forall (zop_ok t) os -> forall ex w i, zinv t hd st tp ex w i -> tops unpin i (i_slots i) ->
  all_zlatest t (MkPlaces hd st tp) unpin w os -> forall o, ~ In (o, ZUB) (snd (zrun t (MkPlaces hd st tp) unpin w os)).
Proof.
  intros Ht D1 D3 F. induction F as [|o os Fo F IH]; intros ex w i I T L q; cbn [zrun all_zlatest] in *; [intros []|]. destruct L as [L1 L2].
  destruct (zstep_inv t hd st tp unpin Ht D1 D3 ex w i o I Fo) as (i1 & e1 & S1 & I1). destruct (step_top t st unpin hd tp ex w i o _ i1 I T L1 S1) as [N T1].
  destruct (zstep t (MkPlaces hd st tp) unpin w o) as [w1 r]. cbn [fst snd] in *. specialize (IH e1 w1 i1 I1 T1 L2 q). destruct (zrun t (MkPlaces hd st tp) unpin w1 os) as [w2 h]. cbn [snd] in *.
  intros [E|K]; [|exact (IH K)]. injection E as -> ->. congruence.
Qed.

Lemma zrun_stuck t hd st tp unpin os : valid_target t -> disjoint hd st -> disjoint st tp -> Forall (zop_ok t) os -> forall ex w i, zinv t hd st tp ex w i -> stuck unpin i ->
  exists ex' i', zinv t hd st tp ex' (fst (zrun t (MkPlaces hd st tp) unpin w os)) i' /\ stuck unpin i'.
Proof.
  intros Ht D1 D3 F. induction F as [|o os Fo F IH]; intros ex w i I T; cbn [zrun]; [exists ex, i; auto|].
  destruct (zstep_inv t hd st tp unpin Ht D1 D3 ex w i o I Fo) as (i1 & e1 & S1 & I1). pose proof (step_stuck t st unpin hd tp ex w i o _ i1 I T S1) as T1.
  destruct (zstep t (MkPlaces hd st tp) unpin w o) as [w1 r]. cbn [fst snd] in *. specialize (IH e1 w1 i1 I1 T1). destruct (zrun t (MkPlaces hd st tp) unpin w1 os) as [w2 h]. exact IH.
Qed.

(** a write in a destructor *)
Lemma stuck_write t hd st tp ex w i k z tags n b : zinv t hd st tp ex w i -> stuck true i -> zdrop w <> None -> nth_error (zslots w) k = Some (z, SPinned tags) -> zunpin z = true ->
  0 < size b -> nact_ok (MkO (zval z) tags) (NWrite n b) = true -> forall pl, snd (zstep t pl true w (ZAct k (NWrite n b))) = ZUB.
Proof.
  intros I F Nd Ek Uz Sb A pl. cbn [zstep]. rewrite Ek, A. pose proof I as [a1 a2 a3 a4 a5 a6 a7 a8 a9 a10 a11 a12 a13].
  destruct (slot_at _ _ _ _ _ _ _ _ a5 Ek) as (v & Ev & [q1 q2 q3 q4 q5 q6 q7 q8 q9 q10]). cbn [fst snd] in *. destruct (iz_status v) as [|o base|] eqn:Es; cbn [status_ok] in q10; try contradiction. destruct q10 as (-> & b2 & b3 & b4 & b5 & b6 & up & b7).
  assert (Fv : frozen v). { assert (Di : i_drop i <> None) by (rewrite a11; destruct (zdrop w); [discriminate|congruence]). specialize (F Di eq_refl). rewrite Forall_forall in F. apply F. eapply nth_error_In; eauto. }
  unfold frozen in Fv. rewrite Es in Fv. rewrite q2 in Uz. specialize (Fv Uz). rewrite <- b2, <- b3 in A. pose proof (v_act ex (zunpin z) (zforest w) o (zptr z) up _ a3 b7 a12 A) as C.
  assert (E : tree_act (fresh_tag (zforest w)) (NWrite n b) (ntree o) = None).
  { cbn [tree_act] in *. destruct (tree_access true n b (ntree o)) as [r|] eqn:E; [|reflexivity]. exfalso. apply TreeWorld.nact_ok_iff in A. cbn [nclient_access oblk otags] in A. destruct A as [An Ab].
    assert (Y : In (zptr z) (line (ntree o) n)).
    { pose proof (v_linked _ _ _ _ _ _ b7 n (or_intror An)) as K. apply (k_in _ _ _ _ _ _ _ K); [left; reflexivity|]. apply (k_up _ _ _ _ _ _ _ K). left. reflexivity. }
    assert (X : in_block b (start b)) by (unfold in_block; lia). pose proof (access_after _ _ _ _ _ _ _ E X Y) as Ch. rewrite Fv in Ch; [discriminate|]. destruct Ab. unfold in_block in *. lia. }
  rewrite E in C. destruct (tree_act (fresh_tag (zforest w)) (NWrite n b) (nodes (zforest w))); [contradiction|]. destruct (zdrop w); reflexivity.
Qed.
