(** * RBorrowOps: what the methods of Rc and Weak do to the stacks of the client. *)
From Verif Require Import Base Spec BaseFacts SyncModel SyncSpec RcModel RcProofs RcMemProofs BorrowModel BorrowSpec BorrowProofs BorrowState BorrowWorld UBorrowModel RBorrowModel RBorrowSpec RBorrowBytes.

(** ** Pointwise *)
Definition none_at (y : Z) : option (stack -> option stack) := None.
Definition kind_at (parts : list (rkind * block)) (y : Z) : option rkind := option_map fst (find (fun q => inb (snd q) y) parts).
Definition look_of (c : list nat) (base : nat) (parts : list (rkind * block)) (y : Z) : option (stack -> option stack) :=
  match kind_at parts y with Some RShared => Some (sb_read c base) | _ => None end.

Lemma does_det F k k' r r' : (forall y, k' y = k y) -> does F k r -> does F k' r' ->
  match r, r' with Some a, Some b => forall y, b y = a y | None, None => True | _, _ => False end.
Proof.
  intros E. destruct r as [a|], r' as [b|]; cbn [does]; auto.
  - intros H1 H2 y. specialize (H1 y). specialize (H2 y). rewrite E in H2. destruct (F y); congruence.
  - intros H1 (y & f & X & Y). specialize (H1 y). rewrite X in H1. rewrite E in Y. congruence.
  - intros (y & f & X & Y) H2. specialize (H2 y). rewrite X in H2. rewrite E in H2. congruence.
Qed.
Lemma does_ext F F' k r : (forall y, F' y = F y) -> does F k r -> does F' k r.
Proof.
  intros E. destruct r; cbn [does]; [intros H y; rewrite E; apply H|intros (y & f & X); exists y, f; rewrite E; exact X].
Qed.
Lemma does_pre F k k' r : (forall y, k' y = k y) -> does F k r -> does F k' r.
Proof.
  intros E. destruct r; cbn [does]; [intros H y; rewrite E; apply H|intros (y & f & X); exists y, f; rewrite E; exact X].
Qed.
Lemma does_post F k a b : (forall y, b y = a y) -> does F k (Some a) -> does F k (Some b).
Proof. intros E H y. rewrite E. apply H. Qed.
Definition idem (F : Z -> option (stack -> option stack)) : Prop := forall y f i i', F y = Some f -> f i = Some i' -> f i' = Some i'.
Lemma does_twice F k k1 r : idem F -> does F k (Some k1) -> does F k1 r -> does F k r.
Proof.
  intros I H1. destruct r as [k2|]; cbn [does] in *.
  - intros H2 y. specialize (H1 y). specialize (H2 y). destruct (F y) as [f|] eqn:E; [|congruence]. rewrite (I y f _ _ E H1) in H2. congruence.
  - intros (y & f & E & X). specialize (H1 y). rewrite E in H1. rewrite (I y f _ _ E H1) in X. discriminate.
Qed.

Lemma granting_disable w t a g b x : granting w t x = Some (a, g, b) -> granting w t (map disable a ++ g :: b) = Some (map disable a, g, b).
Proof.
  revert a. induction x as [|i x IH]; intros a; [discriminate|]. cbn [granting]. destruct (Nat.eqb (itag i) t && grants w (iperm i)) eqn:E.
  - intros [= <- <- <-]. cbn [map app granting]. rewrite E. reflexivity.
  - destruct (granting w t x) as [[[a' g'] b']|]; [|discriminate]. intros [= <- <- <-]. cbn [map app granting]. rewrite (IH a' eq_refl). rewrite tag_disable.
    assert (X : Nat.eqb (itag i) t && grants w (iperm (disable i)) = false).
    { unfold disable, BorrowModel.is_unique. destruct (iperm i) eqn:P; cbn [iperm]; rewrite ?P; auto. rewrite andb_comm. destruct w; reflexivity. }
    rewrite X. reflexivity.
Qed.
Lemma disable_idem l : map disable (map disable l) = map disable l.
Proof. rewrite map_map. apply map_ext. intros i. unfold disable, BorrowModel.is_unique. destruct (iperm i) eqn:E; cbn [iperm]; rewrite ?E; reflexivity. Qed.
Lemma read_idem c t st st' : sb_read c t st = Some st' -> sb_read c t st' = Some st'.
Proof.
  unfold sb_read. destruct (granting false t st) as [[[a g] b]|] eqn:E; [|discriminate]. destruct (existsb _ a); [discriminate|]. intros [= <-].
  rewrite (granting_disable _ _ _ _ _ _ E), disable_idem.
  assert (X : existsb (fun i => BorrowModel.is_unique i && protected c i) (map disable a) = false).
  { apply not_true_is_false. intros X. apply existsb_exists in X. destruct X as (i & I & U). apply in_map_iff in I. destruct I as (j & <- & _).
    unfold disable, BorrowModel.is_unique in U. destruct (iperm j) eqn:P; cbn in U; rewrite ?P in U; discriminate. }
  rewrite X. reflexivity.
Qed.
Lemma look_idem c base parts : idem (look_of c base parts).
Proof. intros y f i i'. unfold look_of. destruct (kind_at parts y) as [[]|]; try discriminate. intros [= <-]. apply read_idem. Qed.
Lemma none_idem : idem none_at.
Proof. intros y f i i'. discriminate. Qed.

Lemma look_does c base parts : forall k, apart parts = true -> does (look_of c base parts) k (look c base parts k).
Proof.
  induction parts as [|[kd b] parts IH]; intros k P; cbn [look]; [intros y; reflexivity|].
  assert (P2 : apart parts = true) by (cbn [apart] in P; apply andb_true_iff in P; apply P).
  assert (Skip : kd <> RShared -> does (look_of c base ((kd, b) :: parts)) k (look c base parts k)).
  { intros Nk. eapply does_ext; [|apply IH; exact P2]. intros y. unfold look_of, kind_at. cbn [find snd]. destruct (inb b y) eqn:I; [|reflexivity].
    rewrite (apart_not kd b parts y P I). cbn [option_map fst]. destruct kd; [reflexivity|congruence|reflexivity]. }
  destruct kd; [apply Skip; discriminate| |apply Skip; discriminate]. clear Skip.
  pose proof (on_block_does b (sb_read c base) k) as D. destruct (on_block b _ k) as [k1|]; cbn [does] in D.
  - specialize (IH k1 P2). destruct (look c base parts k1) as [k2|]; cbn [does] in IH |- *.
    + intros y. specialize (D y). specialize (IH y). unfold look_of, kind_at in *. cbn [find snd]. destruct (inb b y) eqn:I.
      * rewrite (apart_not RShared b parts y P I) in IH. cbn [option_map fst] in *. congruence.
      * rewrite D in IH. exact IH.
    + destruct IH as (y & f & E & X). exists y, f. specialize (D y). unfold look_of, kind_at in *. cbn [find snd]. destruct (inb b y) eqn:I.
      * rewrite (apart_not RShared b parts y P I) in E. discriminate.
      * rewrite D in X. auto.
  - destruct D as (y & f & E & X). exists y, f. unfold look_of, kind_at. cbn [find snd]. destruct (inb b y); [|discriminate]. cbn. auto.
Qed.

(** ** The state *)
Section Ops.
Variables (owner : Z -> option nat) (c : list nat).

(** [cs]: the bytes of counters *)
Record sinv (K : list nat) (cs : Z -> Prop) (s : bstate) : Prop := {
  s_bytes : forall y, match owner y with Some b => W (nexttag s) K b (stk s y) | None => stk s y = [] end;
  s_base : forall y b, owner y = Some b -> In b K;
  s_K : Forall (fun n => (n < nexttag s)%nat) K;
  s_cnt : forall y, cs y -> cnt K (stk s y) }.
Definition absf (K : list nat) (s : bstate) (y : Z) : stack := abs K (stk s y).

Lemma s_W K cs s y b : sinv K cs s -> owner y = Some b -> W (nexttag s) K b (stk s y) /\ (b < nexttag s)%nat /\ In b K.
Proof.
  intros H E. pose proof (s_bytes _ _ _ H y) as X. rewrite E in X. pose proof (s_base _ _ _ H y b E) as B. split; [exact X|]. split; [|exact B].
  pose proof (s_K _ _ _ H) as F. rewrite Forall_forall in F. auto.
Qed.
Lemma s_fresh K cs s : sinv K cs s -> ~ In (nexttag s) K.
Proof. intros H I. pose proof (s_K _ _ _ H) as F. rewrite Forall_forall in F. specialize (F _ I). lia. Qed.

(** A computation of the library *)
Definition looks {A} (K : list nat) (cs : Z -> Prop) (G : Z -> option (stack -> option stack)) (f : M A) (s : bstate) (P : A -> bstate -> Prop) : Prop :=
  match f s with
  | Some (a, s') => sinv K cs s' /\ (nexttag s <= nexttag s')%nat /\ does G (absf K s) (Some (absf K s')) /\ P a s'
  | None => does G (absf K s) None
  end.

Lemma looks_ret {A} K cs (a : A) s (P : A -> bstate -> Prop) : sinv K cs s -> P a s -> looks K cs none_at (mret a) s P.
Proof. intros H X. unfold looks, mret. split; [exact H|]. split; [lia|]. split; [intros y; reflexivity|exact X]. Qed.
Lemma looks_bind {A B} K cs G (f : M A) (g : A -> M B) s P Q : idem G -> looks K cs G f s P ->
  (forall a s', sinv K cs s' -> (nexttag s <= nexttag s')%nat -> P a s' -> looks K cs G (g a) s' Q) -> looks K cs G (mbind f g) s Q.
Proof.
  intros I H F. unfold looks, mbind in *. destruct (f s) as [[a s1]|]; [|exact H]. destruct H as (H1 & L & D & X). specialize (F a s1 H1 L X).
  destruct (g a s1) as [[b s2]|].
  - destruct F as (H2 & L2 & D2 & Y). split; [exact H2|]. split; [lia|]. split; [|exact Y]. eapply does_twice; eauto.
  - eapply does_twice; eauto.
Qed.
Lemma looks_weaken {A} K cs G (f : M A) s P : looks K cs none_at f s P -> idem G -> (forall y f i, G y = Some f -> absf K s y = i -> f i = Some i) -> looks K cs G f s P.
Proof.
  intros H I X. unfold looks in *. destruct (f s) as [[a s1]|]; [|destruct H as (y & f' & E & _); discriminate]. destruct H as (H1 & L & D & Y). split; [exact H1|]. split; [exact L|]. split; [|exact Y].
  intros y. specialize (D y). cbn in D. destruct (G y) as [g|] eqn:E; [|exact D]. rewrite D. eapply X; [exact E|reflexivity].
Qed.
(** A quiet computation after one that looks, and before *)
Lemma looks_after {A B} K cs G (f : M A) (g : A -> M B) s P Q : looks K cs G f s P ->
  (forall a s', sinv K cs s' -> (nexttag s <= nexttag s')%nat -> P a s' -> looks K cs none_at (g a) s' Q) -> looks K cs G (mbind f g) s Q.
Proof.
  intros H F. unfold looks, mbind in *. destruct (f s) as [[a s1]|]; [|exact H]. destruct H as (H1 & L & D & X). specialize (F a s1 H1 L X).
  destruct (g a s1) as [[b s2]|]; [|destruct F as (y & f' & E & _); discriminate].
  destruct F as (H2 & L2 & D2 & Y). split; [exact H2|]. split; [lia|]. split; [|exact Y]. eapply does_post; [|exact D]. exact D2.
Qed.
Lemma looks_before {A B} K cs G (f : M A) (g : A -> M B) s P Q : looks K cs none_at f s P ->
  (forall a s', sinv K cs s' -> (nexttag s <= nexttag s')%nat -> P a s' -> looks K cs G (g a) s' Q) -> looks K cs G (mbind f g) s Q.
Proof.
  intros H F. unfold looks, mbind in *. destruct (f s) as [[a s1]|]; [|destruct H as (y & f' & E & _); discriminate]. destruct H as (H1 & L & D & X). specialize (F a s1 H1 L X).
  assert (D' : forall y, absf K s1 y = absf K s y) by exact D.
  destruct (g a s1) as [[b s2]|]; [|eapply does_pre; [|exact F]; intros; symmetry; auto].
  destruct F as (H2 & L2 & D2 & Y). split; [exact H2|]. split; [lia|]. split; [|exact Y]. eapply does_pre; [|exact D2]. intros; symmetry; auto.
Qed.
Lemma looks_post {A} K cs G (f : M A) s (P Q : A -> bstate -> Prop) : looks K cs G f s P -> (forall a s', P a s' -> Q a s') -> looks K cs G f s Q.
Proof. unfold looks. intros H F. destruct (f s) as [[a s1]|]; [|exact H]. intuition auto. Qed.

(** The stacks before and after, byte by byte *)
Lemma lift K K' cs n' s F G r : sinv K cs s -> does F (stk s) r -> (nexttag s <= n')%nat -> (K' = K \/ (K' = nexttag s :: K /\ n' = S (nexttag s))) ->
  (forall y, F y = None -> G y = None) -> (forall y, cs y -> G y = None) ->
  (forall y f, F y = Some f -> exists b, owner y = Some b /\
     match f (stk s y) with
     | Some st' => W n' K' b st' /\ match G y with Some g => g (abs K (stk s y)) = Some (abs K' st') | None => abs K' st' = abs K (stk s y) end
     | None => exists g, G y = Some g /\ g (abs K (stk s y)) = None
     end) ->
  match r with
  | Some k' => sinv K' cs (MkB k' n') /\ does G (absf K s) (Some (absf K' (MkB k' n')))
  | None => does G (absf K s) None
  end.
Proof.
  intros H D L EK HN HC HF.
  assert (Same : forall y, owner y = None \/ (exists b, owner y = Some b /\ W n' K' b (stk s y)) ).
  { intros y. destruct (owner y) as [b|] eqn:E; [right; exists b; split; [reflexivity|]|auto]. destruct (s_W _ _ _ y b H E) as (X & _). destruct EK as [-> | [-> ->]]; [eapply W_more; eauto|apply W_new; exact X]. }
  assert (Keep : forall y, abs K' (stk s y) = abs K (stk s y)).
  { intros y. destruct EK as [-> | [-> ->]]; [reflexivity|]. apply filter_new. destruct (owner y) as [b|] eqn:E; [eapply W_lt; apply (s_W _ _ _ y b H E)|].
    pose proof (s_bytes _ _ _ H y) as X. rewrite E in X. rewrite X. constructor. }
  destruct r as [k'|]; cbn [does] in D.
  - assert (P : forall y, match owner y with Some b => W n' K' b (k' y) | None => k' y = [] end /\
        match G y with Some g => g (abs K (stk s y)) = Some (abs K' (k' y)) | None => abs K' (k' y) = abs K (stk s y) end).
    { intros y. specialize (D y). destruct (F y) as [f|] eqn:E.
      - destruct (HF y f E) as (b & Ob & X). rewrite Ob. rewrite D in X. exact X.
      - rewrite (HN y E). rewrite D. split; [|apply Keep]. destruct (Same y) as [Eo | (b & -> & X)]; [|exact X]. pose proof (s_bytes _ _ _ H y) as Y. rewrite Eo in *. exact Y. }
    split; [constructor; cbn [stk nexttag]|].
    + intros y. apply P.
    + intros y b E. pose proof (s_base _ _ _ H y b E) as B. destruct EK as [-> | [-> _]]; [exact B|right; exact B].
    + pose proof (s_K _ _ _ H) as F2. destruct EK as [-> | [-> ->]]; [|constructor; [lia|]]; (eapply Forall_impl; [|exact F2]; cbv beta; lia).
    + intros y Cy. destruct (P y) as [_ X]. rewrite (HC y Cy) in X. eapply cnt_same; [symmetry; exact X|]. apply (s_cnt _ _ _ H y Cy).
    + intros y. apply P.
  - destruct D as (y & f & E & X). destruct (HF y f E) as (b & _ & Y). rewrite X in Y. destruct Y as (g & Eg & Yg). exists y, g. auto.
Qed.

(** *** References of the library *)
Definition refd (parts : list (rkind * block)) (base r : nat) (s : bstate) : Prop :=
  forall y kd, kind_at parts y = Some kd -> match kd with RShared => on_top r (stk s y) | RCell => rw base r (stk s y) | RUnique => top_u r (stk s y) end.
Definition owned (parts : list (rkind * block)) (base : nat) : Prop := forall y kd, kind_at parts y = Some kd -> owner y = Some base.

Lemma retag_looks K cs G parts t s (Q : nat -> stack -> rkind -> Prop) : sinv K cs s -> apart parts = true ->
  (forall y, kind_at parts y = None -> G y = None) -> (forall y, cs y -> G y = None) ->
  (forall y kd, kind_at parts y = Some kd -> exists b, owner y = Some b /\
     match sb_retag c kd t (nexttag s) None (stk s y) with
     | Some st' => W (S (nexttag s)) K b st' /\ match G y with Some g => g (abs K (stk s y)) = Some (abs K st') | None => abs K st' = abs K (stk s y) end /\ Q (nexttag s) st' kd
     | None => exists g, G y = Some g /\ g (abs K (stk s y)) = None
     end) ->
  looks K cs G (m_retag c t parts) s (fun r s' => forall y kd, kind_at parts y = Some kd -> Q r (stk s' y) kd).
Proof.
  intros H A HN HC HF. unfold looks, m_retag, m_retag_prot. pose proof (retag_does c t (nexttag s) None parts (stk s) A) as D.
  assert (L := lift K K cs (S (nexttag s)) s _ G _ H D (Nat.le_succ_diag_r _) (or_introl eq_refl)).
  assert (KA : forall y, kind_at parts y = match find (fun q : rkind * block => inb (snd q) y) parts with Some (kd, _) => Some kd | None => None end).
  { intros y. unfold kind_at. destruct (find _ parts) as [[kd b]|]; reflexivity. }
  destruct (retag_parts c t (nexttag s) None parts (stk s)) as [k'|].
  - destruct L as [L1 L2].
    + intros y E. apply HN. rewrite KA. destruct (find _ parts) as [[kd b]|]; [discriminate|reflexivity].
    + exact HC.
    + intros y f E. specialize (HF y). rewrite KA in HF. destruct (find _ parts) as [[kd b]|]; [|discriminate]. injection E as <-. destruct (HF kd eq_refl) as (b' & Ob & X). exists b'. split; [exact Ob|].
      destruct (sb_retag c kd t (nexttag s) None (stk s y)); tauto.
    + split; [exact L1|]. cbn [nexttag]. split; [lia|]. split; [exact L2|]. intros y kd E. destruct (HF y kd E) as (b & _ & X). cbn [does] in D. specialize (D y). rewrite KA in E.
      destruct (find _ parts) as [[kd' b']|]; [|discriminate]. injection E as ->. rewrite D in X. cbn [stk]. tauto.
  - apply L.
    + intros y E. apply HN. rewrite KA. destruct (find _ parts) as [[kd b]|]; [discriminate|reflexivity].
    + exact HC.
    + intros y f E. specialize (HF y). rewrite KA in HF. destruct (find _ parts) as [[kd b]|]; [|discriminate]. injection E as <-. destruct (HF kd eq_refl) as (b' & Ob & X). exists b'. split; [exact Ob|].
      destruct (sb_retag c kd t (nexttag s) None (stk s y)); tauto.
Qed.

Lemma lib_base K cs parts base s : sinv K cs s -> apart parts = true -> owned parts base -> (forall y, kind_at parts y <> Some RUnique) ->
  (forall y, cs y -> kind_at parts y <> Some RShared) ->
  looks K cs (look_of c base parts) (m_retag c base parts) s (fun r s' => refd parts base r s').
Proof.
  intros H A O NU NC. pose proof (s_fresh _ _ _ H) as Fr.
  eapply looks_post; [apply (retag_looks K cs (look_of c base parts) parts base s (fun r st' kd => match kd with RShared => on_top r st' | RCell => rw base r st' | RUnique => top_u r st' end) H A)|].
  - intros y E. unfold look_of. rewrite E. reflexivity.
  - intros y Cy. unfold look_of. specialize (NC y Cy). destruct (kind_at parts y) as [[]|]; congruence.
  - intros y kd E. exists base. pose proof (O y kd E) as Ob. split; [exact Ob|]. destruct (s_W _ _ _ y base H Ob) as (X & Lb & Ib). unfold look_of. rewrite E. destruct kd.
    + exfalso. apply (NU y E).
    + pose proof (look_retag c _ K base (stk s y) (nexttag s) X Ib Lb (Nat.le_refl _) Fr) as Y. destruct (sb_retag c RShared base (nexttag s) None (stk s y)); [tauto|eauto].
    + destruct (cell_base c _ K base (stk s y) (nexttag s) X Lb (Nat.le_refl _) Fr) as (st' & -> & Y). tauto.
  - intros r s' X y kd E. specialize (X y kd E). exact X.
Qed.

Lemma lib_from K cs parts base r s : sinv K cs s -> apart parts = true -> owned parts base -> refd parts base r s ->
  looks K cs none_at (m_retag c r parts) s (fun r s' => refd parts base r s').
Proof.
  intros H A O RR. pose proof (s_fresh _ _ _ H) as Fr.
  eapply looks_post; [apply (retag_looks K cs none_at parts r s (fun r st' kd => match kd with RShared => on_top r st' | RCell => rw base r st' | RUnique => top_u r st' end) H A)|].
  - reflexivity.
  - reflexivity.
  - intros y kd E. exists base. pose proof (O y kd E) as Ob. split; [exact Ob|]. destruct (s_W _ _ _ y base H Ob) as (X & Lb & Ib). specialize (RR y kd E). cbn [none_at]. destruct kd.
    + destruct (topu_retag c _ K base (stk s y) r (nexttag s) X RR Lb (Nat.le_refl _) Fr) as (st' & -> & Y). tauto.
    + destruct (top_retag c _ K base (stk s y) r (nexttag s) X RR Lb (Nat.le_refl _) Fr) as (st' & -> & Y). tauto.
    + destruct (cell_from c _ K base (stk s y) r (nexttag s) X RR Lb (Nat.le_refl _) Fr) as (st' & -> & Y). tauto.
  - intros r' s' X y kd E. specialize (X y kd E). exact X.
Qed.

(** *** Counters *)
Lemma kind_one k b y : kind_at [(k, b)] y = if inb b y then Some k else None.
Proof. unfold kind_at. cbn [find snd]. destruct (inb b y); reflexivity. Qed.
Lemma owned_kind k k' b base : owned [(k, b)] base -> owned [(k', b)] base.
Proof. intros O y kd. rewrite kind_one. intros E. apply (O y k). rewrite kind_one. destruct (inb b y); [reflexivity|discriminate]. Qed.

Lemma run_from K cs k b base r s : sinv K cs s -> owned [(k, b)] base -> refd [(k, b)] base r s ->
  looks K cs none_at (one c k b r) s (fun r s' => refd [(k, b)] base r s').
Proof. intros H O RR. apply lib_from; auto. Qed.
Lemma run_uc K cs b base r s : sinv K cs s -> owned [(RCell, b)] base -> refd [(RCell, b)] base r s ->
  looks K cs none_at (uc_get c b r) s (fun r s' => refd [(RCell, b)] base r s').
Proof. intros H O RR. unfold uc_get. eapply looks_after; [eapply run_from; eauto|]. intros a s' H1 _ R1. eapply run_from; eauto. Qed.

Lemma block_looks K cs f b base s : sinv K cs s -> owned [(RCell, b)] base ->
  (forall y, in_block b y -> exists st', f (stk s y) = Some st' /\ W (nexttag s) K base st' /\ abs K st' = abs K (stk s y)) ->
  looks K cs none_at (fun s => match on_block b f (stk s) with Some k => Some (tt, MkB k (nexttag s)) | None => None end) s (fun _ _ => True).
Proof.
  intros H O HF. unfold looks. pose proof (on_block_does b f (stk s)) as D. assert (L := lift K K cs (nexttag s) s _ none_at _ H D (Nat.le_refl _) (or_introl eq_refl)).
  assert (X : forall y g, (if inb b y then Some f else None) = Some g -> exists b0, owner y = Some b0 /\
     match g (stk s y) with Some st' => W (nexttag s) K b0 st' /\ abs K st' = abs K (stk s y) | None => exists g0, none_at y = Some g0 /\ g0 (abs K (stk s y)) = None end).
  { intros y g E. destruct (inb b y) eqn:I; [|discriminate]. injection E as <-. exists base. split; [apply (O y RCell); rewrite kind_one, I; reflexivity|].
    apply inb_iff in I. destruct (HF y I) as (st' & -> & Y). exact Y. }
  destruct (on_block b f (stk s)) as [k'|].
  - destruct L as [L1 L2]; [reflexivity|reflexivity|exact X|]. split; [exact L1|]. split; [cbn; lia|]. auto.
  - apply L; [reflexivity|reflexivity|exact X].
Qed.

Lemma run_get K cs b base r s : sinv K cs s -> owned [(RCell, b)] base -> (forall y, in_block b y -> cs y) -> refd [(RCell, b)] base r s ->
  looks K cs none_at (cell_get c b r) s (fun _ _ => True).
Proof.
  intros H O C RR. unfold cell_get. eapply looks_after; [eapply run_from; eauto|]. intros a s1 H1 _ R1.
  eapply looks_after; [eapply run_uc; eauto|]. intros q s2 H2 _ R2. unfold m_read. eapply block_looks; eauto.
  intros y Y. assert (Ob : owner y = Some base) by (apply (O y RCell); rewrite kind_one, (proj2 (inb_iff b y) Y); reflexivity).
  assert (Rq : rw base q (stk s2 y)) by (apply (R2 y RCell); rewrite kind_one, (proj2 (inb_iff b y) Y); reflexivity).
  destruct (s_W _ _ _ y base H2 Ob) as (X & Lb & Ib). apply (cnt_read c _ K base (stk s2 y) q X (s_cnt _ _ _ H2 y (C y Y)) Rq).
Qed.

Lemma run_set K cs b base r s : sinv K cs s -> owned [(RCell, b)] base -> (forall y, in_block b y -> cs y) -> refd [(RCell, b)] base r s ->
  looks K cs none_at (cell_set c b r) s (fun _ _ => True).
Proof.
  intros H O C RR. unfold cell_set. eapply looks_after; [eapply run_from; eauto|]. intros a s1 H1 _ R1.
  eapply looks_after; [eapply run_uc; eauto|]. intros q s2 H2 _ R2.
  assert (U : looks K cs none_at (one c RUnique b q) s2 (fun r s' => refd [(RUnique, b)] base r s')).
  { pose proof (s_fresh _ _ _ H2) as Fr. unfold one.
    eapply looks_post; [apply (retag_looks K cs none_at [(RUnique, b)] q s2 (fun r st' kd => top_u r st') H2 eq_refl)|].
    - reflexivity.
    - reflexivity.
    - intros y kd. rewrite kind_one. destruct (inb b y) eqn:I; [|discriminate]. intros [= <-].
      assert (Ob : owner y = Some base) by (apply (O y RCell); rewrite kind_one, I; reflexivity). exists base. split; [exact Ob|].
      assert (Rq : rw base q (stk s2 y)) by (apply (R2 y RCell); rewrite kind_one, I; reflexivity). apply inb_iff in I.
      destruct (s_W _ _ _ y base H2 Ob) as (X & Lb & Ib). destruct (cnt_unique c _ K base (stk s2 y) q (nexttag s2) X (s_cnt _ _ _ H2 y (C y I)) Rq Lb (Nat.le_refl _) Fr) as (st' & -> & Y). cbn [none_at]. tauto.
    - intros r' s' X y kd E. specialize (X y kd E). rewrite kind_one in E. destruct (inb b y); [|discriminate]. injection E as <-. exact X. }
  eapply looks_after; [exact U|]. intros u s3 H3 _ R3.
  eapply looks_after; [eapply run_from; eauto; eapply owned_kind; eauto|]. intros d s4 H4 _ R4.
  assert (T : forall s', sinv K cs s' -> refd [(RUnique, b)] base d s' -> forall y, in_block b y -> W (nexttag s') K base (stk s' y) /\ top_u d (stk s' y)).
  { intros s' H' R' y Y. assert (Ob : owner y = Some base) by (apply (O y RCell); rewrite kind_one, (proj2 (inb_iff b y) Y); reflexivity).
    split; [apply (s_W _ _ _ y base H' Ob)|]. apply (R' y RUnique). rewrite kind_one, (proj2 (inb_iff b y) Y). reflexivity. }
  eapply looks_after with (P := fun _ s' => refd [(RUnique, b)] base d s').
  - assert (L := block_looks K cs (sb_read c d) b base s4 H4 O). unfold m_read. unfold looks in *. pose proof (on_block_spec b (sb_read c d) (stk s4)) as Sp. destruct (on_block b (sb_read c d) (stk s4)) as [k'|].
    + destruct L as (L1 & L2 & L3 & _); [|split; [exact L1|split; [exact L2|split; [exact L3|]]]].
      * intros y Y. destruct (T s4 H4 R4 y Y) as [X1 X2]. exists (stk s4 y). rewrite (topu_read c d _ X2). auto.
      * intros y kd E. pose proof (R4 y kd E) as Q. rewrite kind_one in E. destruct (inb b y) eqn:I; [|discriminate]. injection E as <-. apply inb_iff in I. destruct (Sp k' eq_refl y) as [S1 _].
        specialize (S1 I). rewrite (topu_read c d _ Q) in S1. cbn [stk]. congruence.
    + apply L. intros y Y. destruct (T s4 H4 R4 y Y) as [X1 X2]. exists (stk s4 y). rewrite (topu_read c d _ X2). auto.
  - intros _ s5 H5 _ R5. unfold m_write. eapply block_looks; eauto. intros y Y. destruct (T s5 H5 R5 y Y) as [X1 X2]. exists (stk s5 y). rewrite (topu_write c d _ X2). auto.
Qed.

Lemma run_base K cs b base s : sinv K cs s -> owned [(RCell, b)] base -> looks K cs none_at (one c RCell b base) s (fun r s' => refd [(RCell, b)] base r s').
Proof.
  intros H O. unfold one. assert (L := lib_base K cs [(RCell, b)] base s H eq_refl O).
  assert (X : forall y, look_of c base [(RCell, b)] y = none_at y) by (intros y; unfold look_of; rewrite kind_one; destruct (inb b y); reflexivity).
  unfold looks in *. destruct (m_retag c base [(RCell, b)] s) as [[r s']|].
  - destruct L as (L1 & L2 & L3 & L4); [intros y; rewrite kind_one; destruct (inb b y); discriminate|intros y _; rewrite kind_one; destruct (inb b y); discriminate|].
    split; [exact L1|]. split; [exact L2|]. split; [|exact L4]. eapply does_ext; [|exact L3]. intros; symmetry; auto.
  - eapply does_ext; [|apply L; intros; rewrite kind_one; destruct (inb b y); discriminate]. intros; symmetry; auto.
Qed.
End Ops.
