(** * TreeStep: one step of a thread, on the tree of all tags. *)
From Verif Require Import Base Spec BaseFacts SyncModel SyncSpec SyncProofs ConcModel ConcSpec ConcProofs BorrowModel BorrowSpec BorrowProofs BorrowState
  TBorrowModel TBorrowWp TBorrowFuel TBorrowStep TreeModel TreeSpec TreeState TreeAct.

(** ** Programs use only tags that they have *)
Fixpoint scoped {A} (Q : list nat -> A -> Prop) (K : list nat) (p : TBorrowModel.prog A) {struct p} : Prop :=
  match p with
  | Fin a => Q K a
  | Tag s parts k => In s K /\ forall n, scoped Q (n :: K) (k n)
  | Load s k => In s K /\ forall v, scoped Q K (k v)
  | Cas s e new k => In s K /\ forall v, scoped Q K (k v)
  | Put s b k => In s K /\ scoped Q K k
  end.

Lemma scoped_bind {A B} (Q : list nat -> A -> Prop) (R : list nat -> B -> Prop) (p : TBorrowModel.prog A) (f : A -> TBorrowModel.prog B) : forall K,
  scoped Q K p -> (forall K' a, Q K' a -> scoped R K' (f a)) -> scoped R K (pbind p f).
Proof.
  induction p as [a|s parts k IH|s k IH|s e new k IH|s b k IH]; intros K H F; cbn [scoped pbind] in *; [auto| | | |]; destruct H as [H1 H2]; (split; [exact H1|]); auto.
Qed.

Definition has (K : list nat) : list nat -> nat -> Prop := fun K' n => incl K K' /\ In n K'.
Definition out_has (K : list nat) (x : out) : Prop :=
  match x with Again _ s => In s K | Final _ (Some n) => In n K | Final _ None => True end.

Section Scoped.
Variables (t : target) (hd st : block) (c : call) (u : buse).

Lemma scoped_tag K s parts : In s K -> scoped (has K) K (Tag s parts Fin).
Proof. intros I. cbn [scoped]. split; [exact I|]. intros n. split; [apply incl_tl, incl_refl|left; reflexivity]. Qed.

Lemma scoped_self K s : In s K -> scoped (has K) K (p_self hd st s).
Proof. apply scoped_tag. Qed.

Lemma has_trans K K' K'' n : incl K K' -> has K' K'' n -> has K K'' n.
Proof. intros I [J N]. split; [eapply incl_tran; eauto|exact N]. Qed.

Lemma scoped_weaken {A} (Q R : list nat -> A -> Prop) (p : TBorrowModel.prog A) : forall K, scoped Q K p -> (forall K' a, Q K' a -> R K' a) -> scoped R K p.
Proof.
  induction p as [a|s parts k IH|s k IH|s e new k IH|s b k IH]; intros K H F; cbn [scoped] in *; [auto| | | |]; destruct H as [H1 H2]; (split; [exact H1|]); auto.
Qed.

Lemma scoped_storage K s : In s K -> scoped (has K) K (p_storage_get st s).
Proof.
  intros I. unfold p_storage_get. eapply scoped_bind; [apply scoped_tag; exact I|]. intros K' r [I' R]. eapply scoped_weaken; [apply scoped_tag; exact R|]. intros K'' n. apply has_trans. exact I'.
Qed.

Lemma scoped_bump K s e new : In s K -> scoped (fun K' _ => incl K K') K (p_bump hd st s e new).
Proof.
  intros I. unfold p_bump. eapply scoped_bind; [apply scoped_self; exact I|]. intros K' r [I' R]. eapply scoped_bind; [apply scoped_tag; exact R|].
  intros K'' k [I'' R']. cbn [scoped]. split; [exact R'|]. intros _. eapply incl_tran; eauto.
Qed.

Lemma scoped_try_alloc_at K l e s : In s K -> scoped (fun K' x => incl K K' /\ In (snd x) K') K (p_try_alloc_at t hd st l e s).
Proof.
  intros I. unfold p_try_alloc_at. eapply scoped_bind; [apply scoped_self; exact I|]. intros K1 s1 [I1 R1].
  eapply scoped_bind; [apply scoped_storage; exact R1|]. intros K2 b [I2 R2].
  assert (I12 : incl K K2) by (eapply incl_tran; eauto).
  destruct (prepare t st l e) as [[|e' new at_aligned]|m]; [cbn; auto| |cbn; auto].
  eapply scoped_bind; [apply scoped_bump; apply I2; exact R1|]. intros K3 [v|] I3; cbn [scoped snd]; (split; [exact (incl_tran I12 I3)|apply I3; exact R2]).
Qed.

Lemma scoped_level K s : In s K -> scoped (fun K' _ => incl K K') K (p_level hd st s).
Proof.
  intros I. unfold p_level. eapply scoped_bind; [apply scoped_self; exact I|]. intros K' r [I' R]. eapply scoped_bind; [apply scoped_tag; exact R|].
  intros K'' k [I'' R']. cbn [scoped]. split; [exact R'|]. intros _. eapply incl_tran; eauto.
Qed.

Lemma scoped_done K r base : In base K -> scoped out_has K (p_done c u r base).
Proof.
  intros I. unfold p_done. destruct r as [a| |f|lv| |m]; try exact Logic.I. unfold p_use. destruct u; cbn [pbind scoped out_has].
  - exact I.
  - split; [exact I|]. split; [exact I|]. intros n. left. reflexivity.
  - split; [exact I|exact I].
Qed.

Lemma scoped_iter K l g s : In s K -> scoped out_has K (p_iter t hd st c u l g s).
Proof.
  intros I. unfold p_iter. eapply scoped_bind; [apply scoped_try_alloc_at; exact I|]. intros K' [[[a|[|v]]|m] b] [I' R]; cbn [snd] in R; try (apply scoped_done; exact R).
  cbn [scoped out_has]. apply I'. exact I.
Qed.

Lemma scoped_try_alloc K l s : In s K -> scoped out_has K (p_try_alloc t hd st c u l s).
Proof. intros I. unfold p_try_alloc. eapply scoped_bind; [apply scoped_self; exact I|]. intros K' r [_ R]. apply scoped_iter. exact R. Qed.

Lemma scoped_method K s : In s K -> scoped out_has K (p_method t hd st c u s).
Proof.
  intros I. unfold p_method. destruct c as [l|l lv|l|l lv| |] eqn:Ec; try rewrite <- Ec.
  - eapply scoped_bind; [apply scoped_self; exact I|]. intros K' r [_ R]. apply scoped_try_alloc. exact R.
  - eapply scoped_bind; [apply scoped_self; exact I|]. intros K' r [_ R]. eapply scoped_bind; [apply scoped_try_alloc_at; exact R|].
    intros K'' x [_ R']. apply scoped_done. exact R'.
  - eapply scoped_bind; [apply scoped_self; exact I|]. intros K' r [_ R]. destruct (lsize l =? 0); [|apply scoped_try_alloc; exact R].
    eapply scoped_bind; [apply scoped_self; exact R|]. intros K'' r' [_ R']. eapply scoped_bind; [apply scoped_level; exact R'|]. intros K3 lv I3. apply scoped_done. apply I3. exact R'.
  - eapply scoped_bind; [apply scoped_self; exact I|]. intros K' r [_ R]. destruct (lsize l =? 0).
    + eapply scoped_bind; [apply scoped_self; exact R|]. intros K'' r' [_ R']. eapply scoped_bind; [apply scoped_level; exact R'|]. intros K3 cur I3.
      destruct (negb (cur =? lv)); apply scoped_done; apply I3; exact R'.
    + eapply scoped_bind; [apply scoped_try_alloc_at; exact R|]. intros K'' x [_ R']. apply scoped_done. exact R'.
  - eapply scoped_bind; [apply scoped_level; exact I|]. intros K3 lv I3. apply scoped_done. apply I3. exact I.
  - exact Logic.I.
Qed.

Lemma scoped_call s : scoped out_has [s] (p_call t hd st c u s).
Proof.
  unfold p_call, p_use_self. assert (I : In s [s]) by (left; reflexivity). destruct u eqn:Eu; rewrite <- Eu; cbn [pbind].
  - apply scoped_method. exact I.
  - eapply scoped_bind; [apply scoped_self; exact I|]. intros K r [_ R]. apply scoped_method. exact R.
  - eapply scoped_bind; [apply scoped_self; exact I|]. intros K r [_ R]. apply scoped_method. exact R.
Qed.

Lemma scoped_settle K p : scoped out_has K p -> scoped out_has K (settle t hd st c u p).
Proof. intros H. destruct p as [[g s|x tag]|? ? ?|? ?|? ? ? ?|? ? ?]; cbn [settle]; auto. apply scoped_iter. exact H. Qed.
End Scoped.

(** ** Reading the kinds of references *)
Lemma cells_mutable bs : as_mutable (map (pair RCell) bs) = false.
Proof. induction bs as [|b bs IH]; cbn; auto. Qed.
Lemma cells_cells im bs : as_cells im (map (pair RCell) bs) = map (pair true) bs.
Proof. unfold as_cells. rewrite map_map. reflexivity. Qed.

Lemma nstep_ok im t hd st c u self0 cs objs s lv p oc ts :
  disjoint hd st -> wpo t hd st c u self0 p oc ts -> scoped out_has (self0 :: tags oc) p -> tholds cs objs s -> incl (all hd st self0 oc) cs -> 0 <= lv <= size st ->
  (forall o, In o objs -> disjoint hd (nblk o)) ->
  (forall a, ts = Done c (RBlock a) -> inside (blk c a) st /\ forall o, In o objs -> disjoint (blk c a) (nblk o)) ->
  exists lv' p' s', nstep im hd lv p s = Some (lv', p', s') /\ (fresh_tag s <= fresh_tag s')%nat /\
    ((exists ts' cs' oc', moved t st c lv ts lv' ts' /\ tholds cs' objs s' /\ wpo t hd st c u self0 p' oc' ts' /\ scoped out_has (self0 :: tags oc') p' /\
       ((cs' = cs /\ oc' = oc) \/ exists bs, cs' = (fresh_tag s, bs) :: cs /\ oc' = (fresh_tag s, bs) :: oc) /\
       (is_cas p = true -> exists g, ts = Running c g /\ access t st lv c g = (lv', ts'))) \/
     (exists a, lv' = lv /\ ts = Done c (RBlock a) /\ u = ULeak /\ p' = Fin (Final (RBlock a) (Some (fresh_tag s))) /\ fresh_tag s' = S (fresh_tag s) /\
       tholds cs (objs ++ [new_alloc (blk c a) (fresh_tag s) (PReserved im)]) s')).
Proof.
  intros Dj W Sc H I Lv Fh B. pose proof (t_next _ _ _ H) as Np.
  assert (Oall : forall n bs, over (all hd st self0 oc) n bs -> over cs n bs) by (intros n bs; apply over_more; exact I).
  assert (Lt : forall n, In n (self0 :: tags oc) -> (n < fresh_tag s)%nat).
  { intros n [<-|N].
    - apply (t_caps _ _ _ H self0 [hd; st]). apply I. left. reflexivity.
    - unfold tags in N. apply in_map_iff in N. destruct N as ([m bs] & E & N). cbn in E. subst m. apply (t_caps _ _ _ H n bs). apply I. right. exact N. }
  destruct p as [x|n parts k|n k|n e new k|n b k]; cbn [nstep].
  - exists lv, (Fin x), s. split; [reflexivity|]. split; [lia|]. left. exists ts, cs, oc. split; [left; auto|]. split; [exact H|]. split; [exact W|]. split; [exact Sc|]. split; [left; auto|discriminate].
  - destruct Sc as [In_n Sc]. destruct W as [(a & Et & Ep & Eu & O & Ek)|(bs & -> & D & O & W)].
    + destruct (B a Et) as (In_ & Db). subst parts.
      assert (Ob : over cs n [blk c a]).
      { intros b x [<-|[]] X. apply (Oall n [st] O st); [left; reflexivity|]. apply In_. exact X. }
      destruct (leak_tree cs objs s n (blk c a) im H (Lt n In_n) Ob Db) as (r & E1 & H1).
      cbn [as_mutable existsb fst orb as_cells map snd]. rewrite E1. eexists lv, _, _. split; [reflexivity|]. cbn [fresh_tag]. split; [lia|]. right. exists a. rewrite Ek. do 5 (split; [first [reflexivity|assumption]|]). exact H1.
    + rewrite cells_mutable, cells_cells. destruct (cell_retag cs objs s n bs H (Lt n In_n)) as (r & E1 & H1).
      { apply Oall. exact O. }
      rewrite E1. eexists lv, _, _. split; [reflexivity|]. cbn [fresh_tag]. split; [lia|]. left.
      exists ts, ((fresh_tag s, bs) :: cs), ((fresh_tag s, bs) :: oc). split; [left; auto|]. split; [exact H1|]. split; [apply W; exact Np|]. split; [|split; [right; eauto|discriminate]].
      cbn [tags map fst]. specialize (Sc (fresh_tag s)). clear -Sc. revert Sc.
      assert (G : forall A (Q : list nat -> A -> Prop) (p : TBorrowModel.prog A) K K', (forall y, In y K -> In y K') -> (forall L L' a, (forall y, In y L -> In y L') -> Q L a -> Q L' a) -> scoped Q K p -> scoped Q K' p).
      { intros A Q p. induction p as [a|s1 parts k1 IH|s1 k1 IH|s1 e new k1 IH|s1 b k1 IH]; intros K K' J M Sc; cbn [scoped] in *; [eauto| | | |]; destruct Sc as [S1 S2]; (split; [auto|]).
        - intros m. eapply IH; [| exact M | apply S2]. intros y [<-|Y]; [left; reflexivity|right; auto].
        - intros m. eapply IH; [exact J|exact M|apply S2].
        - intros m. eapply IH; [exact J|exact M|apply S2].
        - eapply IH; [exact J|exact M|apply S2]. }
      apply G.
      * intros y [<-|[<-|Y]]; [right; left; reflexivity|left; reflexivity|right; right; exact Y].
      * intros L L' [g s1|r0 [m|]] J Q; cbn [out_has] in *; auto.
  - destruct Sc as [In_n Sc]. destruct W as (O & g & Et & W). destruct (W lv Lv) as (ts' & Ea & W').
    destruct (lib_tree_access false cs objs s n hd H (Oall n [hd] O) Fh (Lt n In_n)) as (r & E1 & H1). rewrite E1.
    eexists lv, _, _. split; [reflexivity|]. cbn [fresh_tag]. split; [lia|]. left. exists ts', cs, oc. split; [right; eauto|]. split; [exact H1|]. split; [exact W'|]. split; [apply Sc|]. split; [left; auto|discriminate].
  - destruct Sc as [In_n Sc]. destruct W as (O & g & Et & W). destruct (W lv Lv) as (ts' & Ea & W').
    destruct (compare_exchange lv e new) as [lv' v]; cbn [fst snd] in *.
    destruct (lib_tree_access (match v with None => true | Some _ => false end) cs objs s n hd H (Oall n [hd] O) Fh (Lt n In_n)) as (r & E1 & H1). rewrite E1.
    eexists lv', _, _. split; [reflexivity|]. cbn [fresh_tag]. split; [lia|]. left. exists ts', cs, oc. split; [right; eauto|]. split; [exact H1|]. split; [exact W'|]. split; [apply Sc|]. split; [left; auto|eauto].
  - destruct Sc as [In_n Sc]. destruct W as (O & (a & Et & ->) & W). destruct (B a Et) as (In_ & Db).
    assert (Ob : over cs n [blk c a]).
    { intros b x [<-|[]] X. apply (Oall n [st] O st); [left; reflexivity|]. apply In_. exact X. }
    destruct (lib_tree_access true cs objs s n (blk c a) H Ob Db (Lt n In_n)) as (r & E1 & H1). rewrite E1.
    eexists lv, _, _. split; [reflexivity|]. cbn [fresh_tag]. split; [lia|]. left. exists ts, cs, oc. split; [left; auto|]. split; [exact H1|]. split; [exact W|]. split; [apply Sc|]. split; [left; auto|discriminate].
Qed.

(** the steps that are left *)
Lemma nstep_fuel im hd lv p s lv' p' s' n : nstep im hd lv p s = Some (lv', p', s') -> within n p -> (forall x, p <> Fin x) ->
  (exists n', n = S n' /\ within n' p') \/ (is_cas p = true /\ lv' = lv /\ exists x, p' = Fin (Again lv x)).
Proof.
  intros E W N. destruct p as [x|t parts k|t k|t e new k|t b k]; [exfalso; eapply N; reflexivity| | | |]; destruct n as [|n]; try (destruct W; fail); cbn [nstep] in E.
  - destruct (tree_retag _ _ _ _ _) as [r|]; [|discriminate]. injection E as <- <- <-. left. exists n. split; [reflexivity|apply W].
  - destruct (tree_access _ _ _ _) as [r|]; [|discriminate]. injection E as <- <- <-. left. exists n. split; [reflexivity|apply W].
  - destruct W as [W1 W2]. unfold compare_exchange in E. destruct (Z.eqb_spec lv e) as [Ee|Ee].
    + destruct (tree_access _ _ _ _) as [r|]; [|discriminate]. injection E as <- <- <-. left. exists n. split; [reflexivity|apply W1].
    + destruct (tree_access _ _ _ _) as [r|]; [|discriminate]. injection E as <- <- <-. destruct W2 as [W2|[x W2]].
      * left. exists n. split; [reflexivity|apply W2].
      * right. split; [reflexivity|]. split; [reflexivity|]. exists x. apply W2.
  - destruct (tree_access _ _ _ _) as [r|]; [|discriminate]. injection E as <- <- <-. left. exists n. split; [reflexivity|apply W].
Qed.

(** ** reset *)
Definition strong (s : tree) (x : Z) (l : list nat) : Prop := forall y, In y l -> perms s x y = PActive \/ exists im, perms s x y = PReserved im.

Lemma strong_access w t s x : strong s x (line s t) -> allowed w (line s t) (perms s x) = true.
Proof. intros S1. apply forallb_forall. intros y Y. destruct (S1 y Y) as [->|[im ->]]; destruct w; reflexivity. Qed.

Lemma strong_after w t b s s' x : tree_access w t b s = Some s' -> strong s x (line s t) -> strong s' x (line s t).
Proof.
  intros E S1 y Y. destruct (inb b x) eqn:B.
  - apply inb_iff in B. destruct (access_in _ _ _ _ _ _ E B) as [_ ->]. unfold after. rewrite (proj2 (among_iff _ _) Y).
    destruct (S1 y Y) as [->|[im ->]]; destruct w; cbn [child]; eauto.
  - rewrite (access_out _ _ _ _ _ _ E); [apply S1; exact Y|]. rewrite <- inb_iff. congruence.
Qed.

Lemma strong_reads t parts : forall s n, tholds [] [] (MkS s n) -> (t < n)%nat -> (forall x, strong s x (line s t)) ->
  exists s', tree_reads t true parts s = Some s' /\ line s' = line s /\ tholds [] [] (MkS s' n) /\ (forall x, strong s' x (line s t)).
Proof.
  induction parts as [|[c b] parts IH]; intros s n H L S1; cbn [tree_reads negb andb]; [eauto|].
  destruct (access_some false t b s) as [s1 E]; [intros x X; apply strong_access; auto|]. rewrite E.
  pose proof (access_line _ _ _ _ _ E) as El. destruct (access_keeps false [] [] (MkS s n) t b s1 H L E) as (K1 & K2 & K3).
  destruct (IH s1 n) as (s2 & E2 & El2 & H2 & S2); [|exact L|intros x; rewrite El; eapply strong_after; eauto|].
  - split; cbn [nodes fresh_tag] in *; auto; [apply (t_next _ _ _ H)|intros o []].
  - exists s2. rewrite El in El2, S2. auto.
Qed.

Lemma strong_retag t parts s n : tholds [] [] (MkS s n) -> (t < n)%nat -> (forall x, strong s x (line s t)) ->
  exists s', tree_retag n t true parts s = Some s' /\ tholds [] [] (MkS s' (S n)) /\ (forall x, strong s' x (line s' n)).
Proof.
  intros H L S1. destruct (strong_reads t parts s n H L S1) as (s1 & E & El & H1 & S2). unfold tree_retag. rewrite E. eexists. split; [reflexivity|]. split.
  - exact (grow_holds [] [] _ t (fun x => initial true (cell_at parts x)) H1 L).
  - intros x y Y. cbn [line perms] in *. rewrite Nat.eqb_refl in Y. destruct Y as [<-|Y]; [rewrite Nat.eqb_refl; right; eexists; reflexivity|].
    pose proof (below_line [] [] _ t y H1 L Y) as K. cbn [fresh_tag] in K. rewrite eqb_old by exact K. rewrite El in Y. exact (S2 x y Y).
Qed.

Lemma reset_tree hd st cs objs s : tholds cs objs s -> exists s', n_reset hd st 0 s = Some s' /\ (fresh_tag s <= fresh_tag s')%nat /\ tholds [] [] s'.
Proof.
  intros H0. pose proof (t_next _ _ _ H0) as N1.
  assert (H : tholds [] [] (MkS (nodes s) (fresh_tag s))).
  { destruct H0 as [a b c _ _]. split; auto; [intros ? ? []|intros ? []]. }
  unfold n_reset.
  destruct (strong_retag 0 [(true, hd); (true, st)] (nodes s) (fresh_tag s) H) as (s1 & E1 & H1 & S1); [lia| |].
  { intros x y Y. rewrite (proj1 (t_root _ _ _ H0)) in Y. destruct Y as [<-|[]]. left. apply (t_root _ _ _ H0). }
  rewrite E1. destruct (strong_retag (fresh_tag s) [(true, hd)] s1 (S (fresh_tag s)) H1) as (s2 & E2 & H2 & S2); [lia|exact S1|].
  rewrite E2. destruct (strong_retag (S (fresh_tag s)) [(false, hd)] s2 (S (S (fresh_tag s))) H2) as (s3 & E3 & H3 & S3); [lia|exact S2|].
  rewrite E3. destruct (access_some true (S (S (fresh_tag s))) hd s3) as [s4 E4]; [intros x X; apply strong_access; auto|].
  rewrite E4. eexists. split; [reflexivity|]. cbn [fresh_tag]. split; [lia|].
  destruct (access_keeps true [] [] _ (S (S (fresh_tag s))) hd s4 H3 (Nat.lt_succ_diag_r _) E4) as (K1 & K2 & K3). split; cbn [nodes fresh_tag] in *; auto; try lia; intros o [].
Qed.
