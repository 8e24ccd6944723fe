(** * TExitLocal: under Tree Borrows, exit-stack looks at the bytes of the ExitStack only. *)
From Verif Require UBorrowWorld.
From Verif Require Import Base Spec BaseFacts SyncModel SyncSpec UnsyncModel UnsyncSpec UnsyncProofs ExitModel ConcModel BorrowModel BorrowSpec BorrowProofs BorrowState BorrowLocal TBorrowModel
  UBorrowModel EBorrowModel EBorrowSlot TreeModel TreeSpec TreeState TreeAct TreeLocal TExitModel TExitSpec TExitState TExitOps TExitSlot TExitVal TExitStart TExitWorld TExitTop.

Definition fboth {A} (P : Z -> Prop) (r1 r2 : option (A * forest)) : Prop :=
  match r1, r2 with
  | Some (a1, s1), Some (a2, s2) => a1 = a2 /\ same_forest P s1 s2
  | None, None => True
  | _, _ => False
  end.
Definition flooks {A} (P : Z -> Prop) (f : F A) : Prop := forall s1 s2, same_forest P s1 s2 -> fboth P (f s1) (f s2).

Lemma fl_cases {A} P (f : F A) s1 s2 : flooks P f -> same_forest P s1 s2 ->
  (exists x r1 r2, f s1 = Some (x, r1) /\ f s2 = Some (x, r2) /\ same_forest P r1 r2) \/ f s1 = None /\ f s2 = None.
Proof.
  intros L G. specialize (L s1 s2 G). unfold fboth in L. destruct (f s1) as [[x r1]|], (f s2) as [[y r2]|]; try contradiction; [left|right; auto].
  destruct L as [<- L]. exists x, r1, r2. auto.
Qed.

Lemma fl_ret {A} P (a : A) : flooks P (fret a).
Proof. intros s1 s2 G. cbn. auto. Qed.
Lemma fboth_bind {A B} P (f : F A) (g : A -> F B) s1 s2 : fboth P (f s1) (f s2) -> (forall a, (exists z, f s1 = Some (a, z)) -> flooks P (g a)) -> fboth P (fbind f g s1) (fbind f g s2).
Proof.
  intros Lf Lg. unfold fbind. destruct (f s1) as [[a1 u1]|] eqn:E, (f s2) as [[a2 u2]|]; try contradiction; [|exact Logic.I].
  destruct Lf as (<- & G1). exact (Lg a1 (ex_intro _ _ eq_refl) u1 u2 G1).
Qed.
Lemma fl_bind {A B} P (f : F A) (g : A -> F B) : flooks P f -> (forall a, flooks P (g a)) -> flooks P (fbind f g).
Proof. intros Lf Lg s1 s2 G. apply fboth_bind; [apply Lf, G|intros a _; apply Lg]. Qed.

Lemma fl_retag P im p parts : Forall (fun q : rkind * block => covers P (snd q)) parts -> flooks P (f_retag im p parts).
Proof.
  intros C s1 s2 [N G]. unfold f_retag. rewrite <- N.
  assert (K : Forall (fun q : bool * block => covers P (snd q)) (as_cells im parts)) by (unfold as_cells; apply Forall_map; exact C).
  pose proof (retag_looks P (fresh_tag s1) p (as_mutable parts) _ _ _ K G) as X. destruct (tree_retag _ _ _ _ (nodes s1)), (tree_retag _ _ _ _ (nodes s2)); try contradiction; [|exact Logic.I].
  split; [reflexivity|]. split; [reflexivity|exact X].
Qed.
Lemma fl_access P w p b : covers P b -> flooks P (f_access w p b).
Proof.
  intros C s1 s2 [N G]. unfold f_access. pose proof (access_looks P w p b _ _ C G) as X. destruct (tree_access _ _ _ (nodes s1)), (tree_access _ _ _ (nodes s2)); try contradiction; [|exact Logic.I].
  split; [reflexivity|]. split; [exact N|exact X].
Qed.
Lemma fl_one P im k b p : covers P b -> flooks P (f_one im k b p).
Proof. intros C. apply fl_retag. apply Forall_cons; [exact C|apply Forall_nil]. Qed.

Ltac fl := repeat match goal with |- flooks _ (fbind _ _) => apply fl_bind; [|intros] end.

Section Local.
Variables (t : target) (hd st tp : block).
Let pl := MkPlaces hd st tp.
Definition zmem (y : Z) : Prop := in_block hd y \/ in_block st y \/ in_block tp y.
Local Notation P := zmem.
Lemma c_hd : covers P hd. Proof. intros y Y. left. exact Y. Qed.
Lemma c_st : covers P st. Proof. intros y Y. right. left. exact Y. Qed.
Lemma c_tp : covers P tp. Proof. intros y Y. right. right. exact Y. Qed.
Hint Resolve c_hd c_st c_tp : core.

Lemma fl_uc_get b p : covers P b -> flooks P (f_uc_get b p).
Proof. intros C. unfold f_uc_get. fl; apply fl_one, C. Qed.
Lemma fl_cell_get b p : covers P b -> flooks P (f_cell_get b p).
Proof. intros C. unfold f_cell_get. fl; [apply fl_one, C|apply fl_uc_get, C|apply fl_access, C]. Qed.
Lemma fl_cell_set b p : covers P b -> flooks P (f_cell_set b p).
Proof. intros C. unfold f_cell_set. fl; [apply fl_one, C|apply fl_uc_get, C|apply fl_one, C|apply fl_one, C|apply fl_access, C|apply fl_access, C]. Qed.
Lemma fl_two im k p : flooks P (f_retag im p [(k, hd); (k, st)]).
Proof. apply fl_retag. apply Forall_cons; [exact c_hd|]. apply Forall_cons; [exact c_st|apply Forall_nil]. Qed.
Lemma fl_self p : flooks P (f_self hd st p).
Proof. apply fl_two. Qed.
Lemma fl_stack k p : flooks P (f_stack_ref pl k p).
Proof. apply fl_retag. apply Forall_cons; [exact c_hd|]. apply Forall_cons; [exact c_st|]. apply Forall_cons; [exact c_tp|apply Forall_nil]. Qed.

Lemma fl_try u l e p : udata u = st -> flooks P (f_try_alloc_at t hd u l e p).
Proof.
  intros U. assert (Cu : covers P (udata u)) by (rewrite U; exact c_st).
  assert (B : forall b p, flooks P (f_bump t hd u p b)).
  { intros b q. unfold f_bump, f_capacity. rewrite U. fl; [apply fl_self| |apply fl_cell_get, c_hd|].
    - destruct (debug t); [|apply fl_ret]. fl; [apply fl_self|apply fl_uc_get, c_st|apply fl_ret].
    - destruct b; [apply fl_cell_set, c_hd|apply fl_ret]. }
  unfold f_try_alloc_at. rewrite U. fl; [apply fl_self|apply fl_one, c_st|apply fl_one, c_st|apply fl_one, c_st|apply fl_uc_get, c_st|].
  destruct (u_try_alloc_at t u l e) as [u9 [[o|[|lv]]|m]]; try apply fl_ret; fl; try apply B; apply fl_ret.
Qed.
Lemma fl_bump_box u l p : udata u = st -> flooks P (f_bump_box t hd u l p).
Proof.
  intros U. unfold f_bump_box, f_level, f_alloc_at. rewrite U. fl; [apply fl_self|apply fl_self|apply fl_cell_get, c_hd|apply fl_ret|apply fl_self|apply fl_try, U].
Qed.
Lemma try_answer u l e p s u' r b z : f_try_alloc_at t hd u l e p s = Some ((u', r, b), z) -> (u', r) = u_try_alloc_at t u l e.
Proof.
  unfold f_try_alloc_at, fbind. repeat match goal with |- match ?m with _ => _ end = _ -> _ => destruct m as [[? ?]|]; [|discriminate] end.
  destruct (u_try_alloc_at t u l e) as [u9 [[o|[|lv]]|m]]; cbn [fret]; try (intros [= <- <- <- <-]; reflexivity);
    (destruct (f_bump _ _ _ _ _ _) as [[? ?]|]; [|discriminate]; intros [= <- <- <- <-]; reflexivity).
Qed.
Lemma level_answer u p s lv z : f_level hd u p s = Some (lv, z) -> lv = u_level u.
Proof.
  unfold f_level, fbind. repeat match goal with |- match ?m with _ => _ end = _ -> _ => destruct m as [[? ?]|]; [|discriminate] end. intros [= <- _]. reflexivity.
Qed.
Lemma box_answer u l p s u' r b z : f_bump_box t hd u l p s = Some ((u', r, b), z) -> (u', r) = u_bump_box t u l.
Proof.
  unfold f_bump_box, f_alloc_at, fbind, u_bump_box. destruct (f_self _ _ _ _) as [[n s1]|]; [|discriminate]. destruct (f_level _ _ _ _) as [[lv s2]|] eqn:E; [|discriminate]. apply level_answer in E. subst lv.
  destruct (f_self _ _ _ _) as [[n' s3]|]; [|discriminate]. apply try_answer.
Qed.

Lemma fl_slot u l un im p : valid_target t -> uok t u -> udata u = st -> type_layout t (pin_layout t l) -> flooks P (f_slot t pl u l un im p).
Proof.
  intros V U Us Tl. unfold f_slot. cbn [p_hd p_tp pl]. rewrite Us. unfold f_deref_ref, f_leak_box_from. rewrite Us. do 2 (apply fl_bind; [apply fl_stack|intros]). apply fl_bind; [apply fl_self|intros]. apply fl_bind; [fl; apply fl_self|intros].
  intros s1 s2 G. apply fboth_bind; [apply fl_bump_box; [exact Us|exact G]|]. intros [[u' r] base] (z & Z). apply box_answer in Z.
  destruct (of_result r) as [a'| | | | |] eqn:Er; try apply fl_ret.
  assert (R : snd (ustep t u (UBumpBox (pin_layout t l))) = RBlock a') by (cbn [ustep]; rewrite <- Z; exact Er).
  destruct (UBorrowWorld.ustep_place t u (UBumpBox (pin_layout t l)) a' V U Tl R) as (l' & El & _ & In1 & _). cbn [ucall_layout] in El. injection El as <-.
  assert (Cb : covers P (MkBlock (ptr a') (lsize (pin_layout t l)))) by (intros y Y; apply c_st; rewrite <- Us; apply In1, Y).
  fl; [apply fl_one, Cb..|apply fl_one, c_tp|apply fl_ret].
Qed.
Lemma fl_pin z : covers P (zblk z) -> covers P (zval z) -> flooks P (f_pin pl z).
Proof.
  intros B V. unfold f_pin, f_leak_box_write. fl; [apply fl_cell_get, c_tp|apply fl_one, B|apply fl_one, B|apply fl_one, B|apply fl_access, B|apply fl_cell_set, c_tp|apply fl_one, V].
Qed.
Lemma fl_take unpin : flooks P (f_take pl unpin).
Proof. unfold f_take. fl; [apply fl_stack|apply fl_stack|apply fl_cell_set, c_tp|apply fl_ret]. Qed.
Lemma fl_start z : covers P (zblk z) -> covers P (zval z) -> flooks P (f_start z).
Proof. intros B V. unfold f_start. fl; [apply fl_one, B|apply fl_one, V|apply fl_one, V|apply fl_one, V|apply fl_ret]. Qed.
Lemma fl_finish unpin u p : udata u = st -> flooks P (f_finish pl unpin u p).
Proof.
  intros U. unfold f_finish, f_deref_mut, f_reset. cbn [p_hd pl]. rewrite U. fl; match goal with |- flooks _ (f_retag _ _ _) => apply fl_two | |- flooks _ (f_cell_set _ _) => apply fl_cell_set, c_hd | |- flooks _ (fret _) => apply fl_ret end.
Qed.

(** ** Programs *)
Variable (unpin : bool).
Definition with_zf (w : zworld) (s : forest) : zworld := MkZW (zbump w) s (zshares w) (zslots w) (zchain w) (zdrop w).
Definition zslots_in (l : list (zslot * sstatus)) : Prop := forall k z x, nth_error l k = Some (z, x) -> covers P (zblk z) /\ covers P (zval z) /\ covers P (zlink z).
Definition same_zstep (r r2 : zworld * zanswer) : Prop := exists s', r2 = (with_zf (fst r) s', snd r) /\ same_forest P (zforest (fst r)) s'.

Lemma zslots_in_end l : zslots_in l -> zslots_in (zend_open l).
Proof.
  intros S0 k s x E. unfold zend_open in E. rewrite nth_error_map in E. destruct (nth_error l k) as [[s' x']|] eqn:El; [|discriminate]. cbn in E. injection E as <- _. exact (S0 k s' x' El).
Qed.

Lemma zgo_local w s self slots chain b1 b2 : udata (zbump w) = st -> zslots_in slots -> same_forest P (zforest w) s -> same_forest P b1 b2 ->
  same_zstep (z_go pl unpin w self b1 slots chain) (z_go pl unpin (with_zf w s) self b2 slots chain).
Proof.
  intros Us S0 G B. destruct chain as [|k chain]; cbn [z_go with_zf zbump].
  - pose proof (fl_finish unpin (zbump w) self Us b1 b2 B) as X. unfold fboth in X. destruct (f_finish pl unpin (zbump w) self b1) as [[u c1]|], (f_finish pl unpin (zbump w) self b2) as [[u2 c2]|]; try contradiction.
    + destruct X as [<- X]. exists c2. auto.
    + exists s. auto.
  - destruct (nth_error slots k) as [[r [|tags|]]|] eqn:E; try solve [exists s; auto]. destruct (S0 k r _ E) as (C1 & C2 & _).
    pose proof (fl_start r C1 C2 b1 b2 B) as X. unfold fboth in X. destruct (f_start r b1) as [[[sl d] c1]|], (f_start r b2) as [[[sl2 d2] c2]|]; try contradiction.
    + destruct X as [X0 X]. assert (sl2 = sl /\ d2 = d) as [-> ->] by (split; [exact (eq_sym (f_equal fst X0))|exact (eq_sym (f_equal snd X0))]). exists c2. auto.
    + exists s. auto.
Qed.

Lemma zstep_local w s o : valid_target t -> uok t (zbump w) -> udata (zbump w) = st -> zslots_in (zslots w) -> zop_ok t o -> same_forest P (zforest w) s ->
  same_zstep (zstep t pl unpin w o) (zstep t pl unpin (with_zf w s) o).
Proof.
  intros V U Us S0 Oo G. destruct w as [bu fo sh sl ch dr]. unfold with_zf. cbn [zbump zforest zshares zslots zchain zdrop] in *.
  assert (Stay : forall a, same_zstep (MkZW bu fo sh sl ch dr, a) (MkZW bu s sh sl ch dr, a)) by (intros a; exists s; auto).
  assert (SH : forall self, same_zstep (zshare pl (MkZW bu fo sh sl ch dr) self) (zshare pl (MkZW bu s sh sl ch dr) self)).
  { intros self. unfold zshare. cbn [zbump zforest zshares zslots zchain zdrop]. pose proof (fl_stack RCell self fo s G) as X. unfold fboth in X.
    destruct (f_stack_ref pl RCell self fo) as [[n b]|], (f_stack_ref pl RCell self s) as [[n2 b2]|]; try contradiction; [|apply Stay]. destruct X as [<- X]. exists b2. auto. }
  destruct o as [[k|]|k l p im|k| | | |k a]; cbn [zstep zbump zforest zshares zslots zchain zdrop].
  - destruct dr as [d|]; [apply Stay|]. destruct (nth_error sh k); [apply SH|apply Stay].
  - destruct dr as [d|]; [apply Stay|apply SH].
  - destruct dr as [d|]; [apply Stay|]. destruct (nth_error sh k) as [self|]; [|apply Stay].
    destruct (fl_cases _ _ _ _ (fl_slot bu l p im self V U Us (proj2 Oo)) G) as [([[u r] q] & b & b2 & E1 & E2 & X)|[E1 E2]]; rewrite E1, E2; [|apply Stay]. exists b2. split; [reflexivity|exact X].
  - destruct dr as [d|]; [apply Stay|]. destruct (nth_error sl k) as [[r [|tags|]]|] eqn:E; try apply Stay. destruct (S0 k r _ E) as (C1 & C2 & _).
    pose proof (fl_pin r C1 C2 fo s G) as X. unfold fboth in X. destruct (f_pin pl r fo) as [[v b]|], (f_pin pl r s) as [[v2 b2]|]; try contradiction; [|apply Stay].
    destruct X as [<- X]. exists b2. auto.
  - destruct dr as [d|]; [apply Stay|]. pose proof (fl_take unpin fo s G) as X. unfold fboth in X.
    destruct (f_take pl unpin fo) as [[self b]|], (f_take pl unpin s) as [[self2 b2]|]; try contradiction; [|apply Stay]. destruct X as [<- X].
    exact (zgo_local (MkZW bu fo sh sl ch None) s self (zend_open sl) ch b b2 Us (zslots_in_end _ S0) G X).
  - destruct dr as [[[[k slot] chain] self]|]; [|apply Stay]. destruct (nth_error sl k) as [[r x]|] eqn:E; [|apply Stay].
    destruct (S0 k r _ E) as (_ & _ & C3). assert (L : flooks P (f_link r slot)) by (apply fl_access, C3). specialize (L fo s G). unfold fboth in L.
    destruct (f_link r slot fo) as [[u b]|], (f_link r slot s) as [[u2 b2]|]; try contradiction; [|apply Stay]. destruct L as [_ X].
    exact (zgo_local (MkZW bu fo sh sl ch (Some (k, slot, chain, self))) s self sl chain b b2 Us S0 G X).
  - destruct dr as [[[[k slot] chain] self]|]; [|apply Stay]. exists s. auto.
  - assert (A : forall dr', same_zstep
      match nth_error sl k with
      | Some (z, SPinned tags) => if nact_ok (MkO (zval z) tags) a then
          let n := fresh_tag fo in match tree_act n a (nodes fo) with
          | Some r => (MkZW bu (MkS r (if makes_tag a then S n else n)) sh (set_nth sl k (z, SPinned (tags_after n a tags))) ch dr', if makes_tag a then ZTag n else ZDone)
          | None => (MkZW bu fo sh sl ch dr, ZUB) end else (MkZW bu fo sh sl ch dr, ZInvalid)
      | _ => (MkZW bu fo sh sl ch dr, ZInvalid) end
      match nth_error sl k with
      | Some (z, SPinned tags) => if nact_ok (MkO (zval z) tags) a then
          let n := fresh_tag s in match tree_act n a (nodes s) with
          | Some r => (MkZW bu (MkS r (if makes_tag a then S n else n)) sh (set_nth sl k (z, SPinned (tags_after n a tags))) ch dr', if makes_tag a then ZTag n else ZDone)
          | None => (MkZW bu s sh sl ch dr, ZUB) end else (MkZW bu s sh sl ch dr, ZInvalid)
      | _ => (MkZW bu s sh sl ch dr, ZInvalid) end).
    { intros dr'. destruct (nth_error sl k) as [[r [|tags|]]|] eqn:E; try apply Stay. destruct (S0 k r _ E) as (_ & C2 & _). destruct (nact_ok (MkO (zval r) tags) a) eqn:A; [|apply Stay].
      destruct G as [N G]. cbn zeta. rewrite <- N. pose proof (act_looks P (MkO (zval r) tags) (fresh_tag fo) a _ _ C2 A G) as X.
      destruct (tree_act _ a (nodes fo)) as [x|], (tree_act _ a (nodes s)) as [y|]; try contradiction; [|exists s; split; [reflexivity|split; assumption]].
      exists (MkS y (if makes_tag a then S (fresh_tag fo) else fresh_tag fo)). split; [reflexivity|]. split; [reflexivity|exact X]. }
    destruct dr; exact (A _).
Qed.

Lemma zinv_slots ex w i : zinv t hd st tp ex w i -> zslots_in (zslots w).
Proof.
  intros I k s x E. pose proof (y_slots _ _ _ _ _ _ _ I) as Sl. destruct (slot_at _ _ _ _ _ _ _ _ Sl E) as (v & Ev & Q). cbn [fst snd] in *.
  assert (C : covers P (zblk s)).
  { intros y Y. apply c_st. pose proof (y_blocks _ _ _ _ _ _ _ I) as Bl. eapply (blk_in st tp); [exact Sl|exact Bl|exact E|exact Y]. }
  split; [exact C|]. split; intros y Y; apply C; [apply (q_val _ _ _ _ _ _ Q)|apply (q_link _ _ _ _ _ _ Q)]; exact Y.
Qed.
End Local.

Section Run.
Variables (t : target) (hd st tp : block) (unpin : bool).
Hypothesis (V : valid_target t) (d1 : disjoint hd st) (d3 : disjoint st tp).
Let pl := MkPlaces hd st tp.

Lemma zstep_local_inv ex w i s o : zinv t hd st tp ex w i -> zop_ok t o -> same_forest (zmem hd st tp) (zforest w) s ->
  same_zstep hd st tp (zstep t pl unpin w o) (zstep t pl unpin (with_zf w s) o).
Proof. intros I O G. apply zstep_local; auto; [apply I|apply I|eapply zinv_slots; eauto]. Qed.

Lemma zrun_local os : Forall (zop_ok t) os -> forall ex w i s, zinv t hd st tp ex w i -> same_forest (zmem hd st tp) (zforest w) s ->
  same_zstep hd st tp (fst (zrun t pl unpin w os), ZDone) (fst (zrun t pl unpin (with_zf w s) os), ZDone) /\ snd (zrun t pl unpin (with_zf w s) os) = snd (zrun t pl unpin w os) /\
  (all_zlatest t pl unpin (with_zf w s) os <-> all_zlatest t pl unpin w os).
Proof.
  intros F. induction F as [|o os Fo F IH]; intros ex w i s I G; cbn [zrun all_zlatest].
  - split; [exists s; auto|]. split; [reflexivity|tauto].
  - destruct (zstep_inv t hd st tp unpin V d1 d3 ex w i o I Fo) as (i1 & e1 & _ & I1). destruct (zstep_local_inv ex w i s o I Fo G) as (s1 & E & G1). rewrite E.
    fold pl in I1. destruct (zstep t pl unpin w o) as [w1 r]. cbn [fst snd] in *. destruct (IH e1 w1 i1 s1 I1 G1) as (X1 & X2 & X3).
    destruct (zrun t pl unpin w1 os) as [w2 h], (zrun t pl unpin (with_zf w1 s1) os) as [w3 h3]. cbn [fst snd] in *. split; [exact X1|]. split; [congruence|]. rewrite X3.
    assert (L : zlatest unpin (with_zf w s) o <-> zlatest unpin w o) by (destruct o; reflexivity). tauto.
Qed.

Lemma znew_same : same_forest (zmem hd st tp) (zforest (zwide st)) (zforest (znew pl)).
Proof.
  split; [reflexivity|]. split; [reflexivity|]. intros y Y. cbn [zwide znew zforest nodes perms pl p_hd p_st p_tp].
  assert (E : existsb (fun b => inb b y) [hd; st; tp] = true).
  { apply existsb_exists. destruct Y as [Y|[Y|Y]]; [exists hd|exists st|exists tp]; (split; [cbn; auto|apply inb_iff, Y]). }
  rewrite E. reflexivity.
Qed.

Lemma znew_run os : valid_region t st -> Forall (zop_ok t) os ->
  (exists s, fst (zrun t pl unpin (znew pl) os) = with_zf (fst (zrun t pl unpin (zwide st) os)) s /\ same_forest (zmem hd st tp) (zforest (fst (zrun t pl unpin (zwide st) os))) s) /\
  snd (zrun t pl unpin (znew pl) os) = snd (zrun t pl unpin (zwide st) os) /\ (all_zlatest t pl unpin (znew pl) os <-> all_zlatest t pl unpin (zwide st) os).
Proof.
  intros Vs F. destruct (zrun_local os F _ (zwide st) _ _ (znew_inv t hd st tp Vs) znew_same) as ((s & E & G) & X & Y). cbn [fst snd] in *. split; [|auto].
  exists s. split; [|exact G]. injection E as E. exact E.
Qed.
End Run.
