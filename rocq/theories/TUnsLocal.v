(** * TUnsLocal: under Tree Borrows, the unsync Bump and MemBump look at the bytes of the Bump only. *)
From Verif Require UBorrowWorld.
From Verif Require Import Base Spec BaseFacts SyncModel SyncSpec UnsyncModel UnsyncSpec UnsyncProofs ConcModel BorrowModel BorrowSpec BorrowProofs BorrowState BorrowLocal TBorrowModel
  UBorrowModel EBorrowModel TreeModel TreeSpec TreeState TreeAct TreeLocal TExitModel TExitState TExitOps TExitLocal TUnsModel TUnsSpec TUnsVal TUnsWorld TUnsTop.

Section Local.
Variables (t : target) (hd st : block).
Local Notation P := (zmem hd st hd).

Lemma in_hd : covers P hd. Proof. apply c_hd. Qed.
Lemma in_st : covers P st. Proof. apply c_st. Qed.

Lemma fl_try_alloc u l p : udata u = st -> flooks P (f_try_alloc t hd u l p).
Proof.
  intros U. unfold f_try_alloc. rewrite U. fl; [apply fl_self|apply fl_cell_get, in_hd|apply fl_try, U|]. destruct a1 as [[u' r] b]. apply fl_ret.
Qed.
Lemma fl_alloc u l p : udata u = st -> flooks P (f_alloc t hd u l p).
Proof. intros U. unfold f_alloc. fl; [rewrite U; apply fl_self|apply fl_try_alloc, U]. Qed.
Lemma fl_alloc_at u l lv p : udata u = st -> flooks P (f_alloc_at t hd u l lv p).
Proof. intros U. unfold f_alloc_at. fl; [rewrite U; apply fl_self|apply fl_try, U]. Qed.
Lemma fl_level u p : udata u = st -> flooks P (f_level hd u p).
Proof. intros U. unfold f_level. fl; [rewrite U; apply fl_self|apply fl_cell_get, in_hd|apply fl_ret]. Qed.
Lemma fl_array u l n p : udata u = st -> flooks P (f_bump_array t hd u l n p).
Proof.
  intros U. unfold f_bump_array. fl; [rewrite U; apply fl_self|]. destruct (layout_array t l n); [|apply fl_ret]. fl; [apply fl_alloc, U|]. destruct a0 as [[u' r] b]. apply fl_ret.
Qed.
Lemma fl_method u c p : udata u = st -> flooks P (f_method t hd u c p).
Proof.
  intros U. assert (K : forall (x : ubump * outcome (option allocation) * nat), flooks P (let '(u', r, base) := x in fret (u', of_option r, base))) by (intros [[? ?] ?]; apply fl_ret).
  assert (K' : forall (x : ubump * outcome result * nat), flooks P (let '(u', r, base) := x in fret (u', of_result r, base))) by (intros [[? ?] ?]; apply fl_ret).
  destruct c as [[l|l lv|l|l lv| |]|l|l n]; cbn [f_method].
  - apply fl_bind; [apply fl_alloc, U|exact K].
  - apply fl_bind; [apply fl_alloc_at, U|exact K'].
  - apply fl_bind; [apply fl_alloc, U|exact K].
  - apply fl_bind; [apply fl_alloc_at, U|exact K'].
  - apply fl_bind; [apply fl_level, U|intros; apply fl_ret].
  - apply fl_ret.
  - apply fl_bind; [apply fl_bump_box, U|exact K'].
  - apply fl_bind; [apply fl_array, U|exact K'].
Qed.

(** the answers of the calls *)
Lemma try_alloc_answer u l p s u' r b z : f_try_alloc t hd u l p s = Some ((u', r, b), z) -> (u', r) = u_try_alloc t u l.
Proof.
  unfold f_try_alloc, fbind, u_try_alloc. destruct (f_self _ _ _ _) as [[n s1]|]; [|discriminate]. destruct (f_cell_get _ _ _) as [[[] s2]|]; [|discriminate].
  destruct (f_try_alloc_at _ _ _ _ _ _ _) as [[[[u2 r2] b2] s3]|] eqn:E; [|discriminate]. apply try_answer in E. rewrite <- E. intros [= <- <- <- <-]. destruct r2 as [[a|[|ob]]|m]; reflexivity.
Qed.
Lemma alloc_answer u l p s u' r b z : f_alloc t hd u l p s = Some ((u', r, b), z) -> (u', r) = u_try_alloc t u l.
Proof. unfold f_alloc, fbind. destruct (f_self _ _ _ _) as [[n s1]|]; [|discriminate]. apply try_alloc_answer. Qed.
Lemma alloc_at_answer u l lv p s u' r b z : f_alloc_at t hd u l lv p s = Some ((u', r, b), z) -> (u', r) = u_try_alloc_at t u l lv.
Proof. unfold f_alloc_at, fbind. destruct (f_self _ _ _ _) as [[n s1]|]; [|discriminate]. apply try_answer. Qed.
Lemma array_answer u l n p s u' r b z : f_bump_array t hd u l n p s = Some ((u', r, b), z) -> (u', r) = u_bump_array t u l n.
Proof.
  unfold f_bump_array, fbind, u_bump_array. destruct (f_self _ _ _ _) as [[m s1]|]; [|discriminate]. destruct (layout_array t l n) as [la|]; [|intros [= <- <- _ _]; reflexivity].
  destruct (f_alloc _ _ _ _ _ _) as [[[[u2 r2] b2] s3]|] eqn:E; [|discriminate]. apply alloc_answer in E. rewrite <- E. intros [= <- <- <- <-]. destruct r2 as [[a|]|e]; reflexivity.
Qed.
Lemma method_answer u c p s u' r b z : c <> UCall CReset -> f_method t hd u c p s = Some ((u', r, b), z) -> (u', r) = ustep t u c.
Proof.
  intros Nr. destruct c as [[l|l lv|l|l lv| |]|l|l n]; cbn [f_method ustep]; try congruence; unfold fbind.
  1,3: destruct (f_alloc _ _ _ _ _ _) as [[[[u2 r2] b2] s3]|] eqn:E; [|discriminate]; apply alloc_answer in E; rewrite <- E; intros [= <- <- <- <-]; reflexivity.
  1,2: destruct (f_alloc_at _ _ _ _ _ _ _) as [[[[u2 r2] b2] s3]|] eqn:E; [|discriminate]; apply alloc_at_answer in E; rewrite <- E; intros [= <- <- <- <-]; reflexivity.
  - destruct (f_level _ _ _ _) as [[lv s1]|] eqn:E; [|discriminate]. apply level_answer in E. subst lv. intros [= <- <- <- <-]. reflexivity.
  - destruct (f_bump_box _ _ _ _ _ _) as [[[[u2 r2] b2] s3]|] eqn:E; [|discriminate]. apply box_answer in E. rewrite <- E. intros [= <- <- <- <-]. reflexivity.
  - destruct (f_bump_array _ _ _ _ _ _ _) as [[[[u2 r2] b2] s3]|] eqn:E; [|discriminate]. apply array_answer in E. rewrite <- E. intros [= <- <- <- <-]. reflexivity.
Qed.

Lemma fl_use u b p : covers P b -> flooks P (f_use u b p).
Proof. intros C. destruct u as [|un im| |un im]; cbn [f_use]; unfold f_alloc_leak, f_alloc_boxed, f_leak_box_from; fl; try apply fl_access; try apply fl_one; try apply fl_ret; exact C. Qed.

Lemma fl_call kind u c us p : valid_target t -> uok t u -> udata u = st -> valid_ucall t c -> c <> UCall CReset -> flooks P (f_call t hd kind u c us p).
Proof.
  intros V U Us Vc Nr. unfold f_call. apply fl_bind; [destruct kind; [unfold f_deref_ref; rewrite Us; fl; apply fl_self|apply fl_ret]|intros self].
  intros s1 s2 G. apply fboth_bind; [apply fl_method; [exact Us|exact G]|]. intros [[u' r] base] (z & Z). apply method_answer in Z; [|exact Nr].
  destruct r as [a| | | | |]; try apply fl_ret.
  assert (R : snd (ustep t u c) = RBlock a) by (rewrite <- Z; reflexivity).
  destruct (UBorrowWorld.ustep_place t u c a V U Vc R) as (l & _ & El & In1 & _). rewrite El. fl; [|apply fl_ret]. apply fl_use. intros y Y. apply in_st. rewrite <- Us. apply In1, Y.
Qed.
Lemma fl_owner_reset kind u : udata u = st -> flooks P (f_owner_reset hd kind u).
Proof.
  intros U. unfold f_owner_reset, f_deref_mut, f_reset. rewrite U. apply fl_bind; [destruct kind; fl; apply fl_two|intros]. fl; [apply fl_two|apply fl_cell_set, in_hd|apply fl_ret].
Qed.

(** ** Programs *)
Variable (kind : xkind).
Definition with_txf (w : txworld) (s : forest) : txworld := MkTX (txbump w) s (txshares w) (txobjs w).
Definition same_txstep (r r2 : txworld * txanswer) : Prop := exists s', r2 = (with_txf (fst r) s', snd r) /\ same_forest P (txforest (fst r)) s'.

Lemma txstep_local w s o : valid_target t -> uok t (txbump w) -> udata (txbump w) = st -> (forall k ob, nth_error (txobjs w) k = Some ob -> covers P (oblk ob)) -> txop_ok t o ->
  same_forest P (txforest w) s -> same_txstep (txstep t hd kind w o) (txstep t hd kind (with_txf w s) o).
Proof.
  intros V U Us S0 Oo G. destruct w as [bu fo sh ob]. unfold with_txf. cbn [txbump txforest txshares txobjs] in *.
  assert (Stay : forall a, same_txstep (MkTX bu fo sh ob, a) (MkTX bu s sh ob, a)) by (intros a; exists s; auto).
  assert (SH : forall self, same_txstep
    (match f_self hd (udata bu) self fo with Some (n, s) => (MkTX bu s (sh ++ [n]) ob, TXDone) | None => (MkTX bu fo sh ob, TXUB) end)
    (match f_self hd (udata bu) self s with Some (n, s) => (MkTX bu s (sh ++ [n]) ob, TXDone) | None => (MkTX bu s sh ob, TXUB) end)).
  { intros self. rewrite Us. destruct (fl_cases _ _ _ _ (fl_self hd st hd self) G) as [(n & b & b2 & E1 & E2 & X)|[E1 E2]]; rewrite E1, E2; [|apply Stay]. exists b2. auto. }
  destruct o as [[k|]|k c u| |k a]; cbn [txstep txbump txforest txshares txobjs].
  - destruct (nth_error sh k); [apply SH|apply Stay].
  - apply SH.
  - destruct (nth_error sh k) as [self|]; [|apply Stay]. destruct (tuse_ok c u) eqn:Eu; [|apply Stay].
    destruct (fl_cases _ _ _ _ (fl_call kind bu c u self V U Us Oo (tuse_not_reset c u Eu)) G) as [([[u' r] tag] & b & b2 & E1 & E2 & X)|[E1 E2]]; rewrite E1, E2; [|apply Stay]. exists b2. split; [reflexivity|exact X].
  - destruct (fl_cases _ _ _ _ (fl_owner_reset kind bu Us) G) as [(u' & b & b2 & E1 & E2 & X)|[E1 E2]]; rewrite E1, E2; [|apply Stay]. exists b2. auto.
  - destruct (nth_error ob k) as [o|] eqn:E; [|apply Stay]. destruct (nact_ok o a) eqn:A; [|apply Stay].
    destruct G as [N G]. cbn zeta. rewrite <- N. pose proof (act_looks P o (fresh_tag fo) a _ _ (S0 k o E) A G) as X.
    destruct (tree_act _ a (nodes fo)) as [x|], (tree_act _ a (nodes s)) as [y|]; try contradiction; [|exists s; split; [reflexivity|split; assumption]].
    exists (MkS y (if makes_tag a then S (fresh_tag fo) else fresh_tag fo)). split; [reflexivity|]. split; [reflexivity|exact X].
Qed.

Hypothesis (V : valid_target t) (Dj : disjoint hd st).

Lemma txstep_local_inv w i s o : txinv t hd st w i -> txop_ok t o -> same_forest P (txforest w) s -> same_txstep (txstep t hd kind w o) (txstep t hd kind (with_txf w s) o).
Proof.
  intros I O G. apply txstep_local; auto; [apply I|apply I|]. intros k ob E y Y. apply in_st. rewrite <- (e_objs _ _ _ _ _ I), nth_error_map in E.
  destruct (nth_error (ti_objs i) k) as [o'|] eqn:E'; [|discriminate]. cbn in E. injection E as <-. apply (e_below _ _ _ _ _ I o' y (nth_error_In _ _ E') Y).
Qed.

Lemma txrun_local os : Forall (txop_ok t) os -> forall w i s, txinv t hd st w i -> same_forest P (txforest w) s ->
  exists s', txrun t hd kind (with_txf w s) os = (with_txf (fst (txrun t hd kind w os)) s', snd (txrun t hd kind w os)) /\ same_forest P (txforest (fst (txrun t hd kind w os))) s'.
Proof.
  intros F. induction F as [|o os Fo F IH]; intros w i s I G; cbn [txrun].
  - exists s. auto.
  - destruct (txstep_inv t hd st kind V Dj w i o I Fo) as (i1 & _ & I1). destruct (txstep_local_inv w i s o I Fo G) as (s1 & E & G1). rewrite E.
    destruct (txstep t hd kind w o) as [w1 r]. cbn [fst snd] in *. destruct (IH w1 i1 s1 I1 G1) as (s2 & E2 & G2). rewrite E2.
    destruct (txrun t hd kind w1 os) as [w2 h]. cbn [fst snd] in *. exists s2. auto.
Qed.

Lemma txnew_same : same_forest P (txforest (txwide st)) (txforest (txnew hd st)).
Proof.
  split; [reflexivity|]. split; [reflexivity|]. intros y Y. cbn [txwide txnew txforest nodes perms].
  assert (E : existsb (fun b => inb b y) [hd; st] = true).
  { apply existsb_exists. destruct Y as [Y|[Y|Y]]; [exists hd|exists st|exists hd]; (split; [cbn; auto|apply inb_iff, Y]). }
  rewrite E. reflexivity.
Qed.

Lemma txnew_run os : valid_region t st -> Forall (txop_ok t) os ->
  exists s, txrun t hd kind (txnew hd st) os = (with_txf (fst (txrun t hd kind (txwide st) os)) s, snd (txrun t hd kind (txwide st) os)).
Proof.
  intros Vs F. destruct (txrun_local os F (txwide st) _ _ (txwide_inv t hd st Vs) txnew_same) as (s & E & _). exists s. exact E.
Qed.
End Local.
