(** * TBorrowLocal: threads look at the bytes of the Bump only. *)
From Verif Require Import Base Spec BaseFacts SyncModel SyncSpec SyncProofs ConcModel ConcSpec ConcProofs BorrowModel BorrowSpec BorrowProofs BorrowState BorrowWorld BorrowLocal TBorrowModel TBorrowSpec TBorrowWp TBorrowFuel TBorrowStep TBorrowWorld.

(** References are made to fields of the Bump, or are unique. *)
Fixpoint fields {A} (hd st : block) (p : prog A) : Prop :=
  match p with
  | Fin _ => True
  | Tag _ parts k => Forall (fun q => fst q = RUnique \/ snd q = hd \/ snd q = st) parts /\ forall n, fields hd st (k n)
  | Load _ k => forall v, fields hd st (k v)
  | Cas _ _ _ k => forall v, fields hd st (k v)
  | Put _ _ k => fields hd st k
  end.

Section Fields.
Variables (t : target) (hd st : block) (c : call) (u : buse).
Local Notation fields := (fields hd st).

Lemma fields_bind {A B} (p : prog A) (f : A -> prog B) : fields p -> (forall a, fields (f a)) -> fields (pbind p f).
Proof.
  intros F K. induction p as [a|n parts k IH|n k IH|n e nw k IH|n b k IH]; cbn [TBorrowLocal.fields pbind] in *; auto. destruct F as [F1 F2]. split; [exact F1|]. intros m. apply IH, F2.
Qed.
Ltac fp := repeat (apply Forall_cons; [cbn; auto|]); apply Forall_nil.
Lemma fields_self self : fields (p_self hd st self).
Proof. cbn. split; [fp|auto]. Qed.
Lemma fields_storage self : fields (p_storage_get st self).
Proof. cbn. split; [fp|]. intros n. split; [fp|auto]. Qed.
Lemma fields_hd {A} self (k : nat -> prog A) : (forall n, fields (k n)) -> fields (pbind (Tag self [(RCell, hd)] Fin) k).
Proof. intros K. cbn. split; [fp|exact K]. Qed.
Lemma fields_at l e self : fields (p_try_alloc_at t hd st l e self).
Proof.
  unfold p_try_alloc_at. apply fields_bind; [apply fields_self|intros r]. apply fields_bind; [apply fields_storage|intros b].
  destruct (prepare t st l e) as [[|e0 n a]|]; try exact Logic.I. unfold p_bump. apply fields_bind.
  - apply fields_bind; [apply fields_self|intros s]. apply fields_hd. intros k. cbn. auto.
  - intros [o|]; exact Logic.I.
Qed.
Lemma fields_level self : fields (p_level hd st self).
Proof. unfold p_level. apply fields_bind; [apply fields_self|intros r]. apply fields_hd. intros k. cbn. auto. Qed.
Lemma fields_done r base : fields (p_done c u r base).
Proof.
  destruct r; try exact Logic.I. unfold p_done. apply fields_bind; [|intros; exact Logic.I]. destruct u; cbn; try exact Logic.I. split; [fp|auto].
Qed.
Lemma fields_iter l g self : fields (p_iter t hd st c u l g self).
Proof. unfold p_iter. apply fields_bind; [apply fields_at|]. intros [[[a|[|o]]|m] b]; try apply fields_done. exact Logic.I. Qed.
Lemma fields_try l self : fields (p_try_alloc t hd st c u l self).
Proof. unfold p_try_alloc. apply fields_bind; [apply fields_self|intros; apply fields_iter]. Qed.
End Fields.

Lemma fields_call t hd st c u self : fields hd st (p_call t hd st c u self).
Proof.
  unfold p_call. apply fields_bind; [unfold p_use_self; destruct u; [exact Logic.I|apply fields_self|apply fields_self]|]. intros s. unfold p_method. destruct c as [l|l lv|l|l lv| |].
  - apply fields_bind; [apply fields_self|intros; apply fields_try].
  - apply fields_bind; [apply fields_self|intros]. apply fields_bind; [apply fields_at|intros; apply fields_done].
  - apply fields_bind; [apply fields_self|intros r]. destruct (lsize l =? 0); [|apply fields_try]. apply fields_bind; [apply fields_self|intros]. apply fields_bind; [apply fields_level|intros; apply fields_done].
  - apply fields_bind; [apply fields_self|intros r]. destruct (lsize l =? 0).
    + apply fields_bind; [apply fields_self|intros]. apply fields_bind; [apply fields_level|intros cur]. destruct (negb (cur =? lv)); apply fields_done.
    + apply fields_bind; [apply fields_at|intros; apply fields_done].
  - apply fields_bind; [apply fields_level|intros; apply fields_done].
  - exact Logic.I.
Qed.
Section Fields.
Variables (t : target) (hd st : block) (c : call) (u : buse).
Local Notation fields := (fields hd st).

Lemma fields_settle p : fields p -> fields (settle t hd st c u p).
Proof. intros F. destruct p as [[g s|r tag]| | | |]; try exact F. apply (fields_iter t hd st c u). Qed.
Lemma fields_step {A} busy lv (p : prog A) s lv' p' s' : fields p -> pstep busy hd lv p s = Some ((lv', p'), s') -> fields p'.
Proof.
  destruct p as [a|n parts k|n k|n e nw k|n b k]; cbn [TBorrowLocal.fields pstep]; unfold mbind, mret; intros F.
  - intros [= <- <- <-]. exact Logic.I.
  - destruct (m_retag _ _ _ _) as [[x z]|]; [|discriminate]. intros [= <- <- <-]. apply F.
  - destruct (m_read _ _ _ _) as [[x z]|]; [|discriminate]. intros [= <- <- <-]. apply F.
  - destruct (compare_exchange lv e nw) as [l [v|]]; [destruct (m_read _ _ _ _) as [[x z]|]|destruct (m_write _ _ _ _) as [[x z]|]]; try discriminate; intros [= <- <- <-]; apply F.
  - destruct (m_write _ _ _ _) as [[x z]|]; [|discriminate]. intros [= <- <- <-]. exact F.
Qed.

Lemma pstep_looks self0 busy lv p oc ts : wpo t hd st c u self0 p oc ts -> fields p -> (forall a, ts = Done c (RBlock a) -> inside (blk c a) st) ->
  looks (mem_of hd st) (pstep busy hd lv p).
Proof.
  intros W F B. assert (Hh : covers (mem_of hd st) hd) by (intros y Y; left; exact Y). assert (Hs : covers (mem_of hd st) st) by (intros y Y; right; exact Y).
  assert (Hb : forall a, ts = Done c (RBlock a) -> covers (mem_of hd st) (blk c a)) by (intros a E y Y; right; apply (B a E), Y).
  unfold wpo in W. destruct p as [a|n parts k|n k|n e nw k|n b k]; cbn [TBorrowLocal.fields pstep wp] in *.
  - apply looks_ret.
  - apply looks_bind; [|intros; apply looks_ret]. apply looks_retag. destruct W as [(a & E & -> & _)|(bs & -> & _)].
    + apply Forall_cons; [apply Hb, E|apply Forall_nil].
    + destruct F as [F _]. rewrite Forall_forall in *. intros q Q. destruct (F q Q) as [E|[E|E]]; [|rewrite E; exact Hh|rewrite E; exact Hs].
      apply in_map_iff in Q. destruct Q as (b & <- & _). discriminate.
  - apply looks_bind; [apply looks_read, Hh|intros; apply looks_ret].
  - destruct (compare_exchange lv e nw) as [l [v|]]; (apply looks_bind; [|intros; apply looks_ret]); [apply looks_read|apply looks_write]; exact Hh.
  - destruct W as (_ & (a & E & ->) & _). apply looks_bind; [apply looks_write, Hb, E|intros; apply looks_ret].
Qed.
End Fields.

(** ** Programs *)
Section World.
Variables (t : target) (hd st : block).
Hypothesis (Ht : valid_target t) (Dj : disjoint hd st).

Definition with_tsb (w : tworld) (s : bstate) : tworld := MkT (with_sb (tw w) s) (tthreads w).
Definition all_fields (w : tworld) : Prop := forall i r, lookup i (tthreads w) = Some r -> fields hd st (rprog r).

Lemma fields_kept own w j q o : rel_to t hd st own w j q -> all_fields w -> all_fields (fst (tstep t hd w o)).
Proof.
  intros (oc & s0 & cs & I) A. assert (Es : storage (wslab (tw w)) = st) by (rewrite (v_slab _ _ _ _ _ _ _ _ _ _ I); reflexivity). destruct o as [o|i k c u|i].
  - assert (E : tthreads (fst (tstep t hd w (TPlain o))) = tthreads w \/ tthreads (fst (tstep t hd w (TPlain o))) = []).
    { destruct o; cbn [tstep]; try (left; destruct (bstep _ _ _ _); reflexivity). left; reflexivity. destruct (tthreads w) eqn:E; [right; destruct (bstep _ _ _ _); reflexivity|left; exact E]. }
    intros i r L. destruct E as [E|E]; rewrite E in L; [exact (A i r L)|discriminate].
  - cbn [tstep]. destruct (lookup i (tthreads w)) as [r|] eqn:L; [exact A|]. destruct (nth_error _ k) as [self|]; [|exact A].
    assert (X : all_fields (MkT (tw w) ((i, MkRun c u (p_call t hd (storage (wslab (tw w))) c u self)) :: tthreads w))).
    { intros m r. cbn [tthreads]. destruct (Nat.eq_dec m i) as [->|N]; [rewrite lookup_cons_same; intros [= <-]; cbn [rprog]; rewrite Es; apply fields_call|rewrite lookup_cons_other by exact N; apply A]. }
    destruct c; try exact X. exact A.
  - cbn [tstep]. destruct (lookup i (tthreads w)) as [r|] eqn:L; [|exact A]. destruct (pstep _ _ _ _ _) as [[[lv p] b]|] eqn:P; [|exact A].
    pose proof (fields_step hd st _ _ _ _ _ _ _ (A i r L) P) as F. apply (fields_settle t hd st (rcall r) (ruse r)) in F. rewrite Es.
    assert (X : all_fields (MkT (got (tw w) lv b (rcall r) RNone None) ((i, MkRun (rcall r) (ruse r) (settle t hd st (rcall r) (ruse r) p)) :: TBorrowModel.remove i (tthreads w)))).
    { intros m x. cbn [tthreads]. destruct (Nat.eq_dec m i) as [->|N]; [rewrite lookup_cons_same; intros [= <-]; exact F|rewrite lookup_cons_other, lookup_remove_other by exact N; apply A]. }
    destruct (settle t hd st (rcall r) (ruse r) p) as [[g s|y tag]|? ? ?|? ?|? ? ? ?|? ? ?]; try exact X.
    intros m x. cbn [fst tthreads]. destruct (Nat.eq_dec m i) as [->|N]; [rewrite lookup_remove_same; discriminate|rewrite lookup_remove_other by exact N; apply A].
Qed.

Lemma tstep_local own w j q o s : rel_to t hd st own w j q -> all_fields w -> same_in (mem_of hd st) (wsb (tw w)) s ->
  exists s', tstep t hd (with_tsb w s) o = (with_tsb (fst (tstep t hd w o)) s', snd (tstep t hd w o)) /\ same_in (mem_of hd st) (wsb (tw (fst (tstep t hd w o)))) s'.
Proof.
  intros (oc & s0 & cs & I) A G. pose proof I as [a1 a2 a3 a4 a5 a6 a7 a8 a9 a10 a11 a12 b1 b2 b3 b4 b5 b6 b8 b7]. assert (Es : storage (wslab (tw w)) = st) by (rewrite a3; reflexivity).
  assert (OB : Forall (fun o => covers (mem_of hd st) (oblk o)) (wobjs (tw w))).
  { rewrite <- a7. apply Forall_map, Forall_forall. intros o1 O1 y Y. right. exact (objs_in t hd st own w j q oc s0 cs o1 y I O1 Y). }
  destruct o as [o|i k c u|i].
  - assert (NC : (exists k c u, o = BCall k c u) \/ forall k c u, o <> BCall k c u) by (destruct o; [right; discriminate|left; eauto|right; discriminate..]).
    destruct NC as [(k & c & u & ->)|NC]; [exists s; split; [reflexivity|exact G]|].
    destruct (plain_local t hd st (tw w) o s NC Es OB G) as (s' & E & G').
    assert (X : exists s', (let (w', r) := bstep t hd (with_sb (tw w) s) o in (MkT w' (tthreads w), TAnswer r)) =
      (let y := (let (w', r) := bstep t hd (tw w) o in (MkT w' (tthreads w), TAnswer r)) in (with_tsb (fst y) s', snd y)) /\
      same_in (mem_of hd st) (wsb (tw (fst (let (w', r) := bstep t hd (tw w) o in (MkT w' (tthreads w), TAnswer r))))) s').
    { exists s'. rewrite E. destruct (bstep t hd (tw w) o) as [w' r]. split; [reflexivity|exact G']. }
    destruct o; try exact X; cbn [tstep with_tsb tw tthreads]; [destruct (NC i c u eq_refl)|]. destruct (tthreads w) eqn:L; [|exists s; split; [unfold with_tsb; cbn [fst]; rewrite L; reflexivity|exact G]]. exact X.
  - exists s. unfold with_tsb, with_sb. cbn [tstep tw tthreads wshares wslab]. destruct (lookup i (tthreads w)); [split; [reflexivity|exact G]|]. destruct (nth_error _ k); [|split; [reflexivity|exact G]]. destruct c; (split; [reflexivity|exact G]).
  - cbn [tstep with_tsb with_sb tw tthreads wshares wslab wbusy wsb]. destruct (lookup i (tthreads w)) as [r|] eqn:L; [|exists s; split; [reflexivity|exact G]].
    pose proof (b7 i) as V. rewrite L in V. destruct V as (_ & _ & W).
    assert (B : looks (mem_of hd st) (pstep (wbusy (tw w)) hd (consumed (wslab (tw w))) (rprog r))).
    { eapply pstep_looks; [exact W|exact (A i r L)|]. intros a E. exact (proj1 (proj2 (proj2 (done_block t hd st Ht q (iobjs (jseq j)) i (rcall r) a a1 a2 a8 E)))). }
    specialize (B _ _ G). unfold both in B. destruct (pstep _ _ _ _ (wsb (tw w))) as [[[lv p] b]|], (pstep _ _ _ _ s) as [[[lv' p'] b']|]; try contradiction; [|exists s; split; [reflexivity|exact G]].
    destruct B as [[= <- <-] B]. exists b'. destruct (settle _ _ _ _ _ p) as [[g s1|y tag]|? ? ?|? ?|? ? ? ?|? ? ?]; (split; [reflexivity|exact B]).
Qed.

Lemma trun_local own os : Forall (top_ok t) os -> forall w j q s, rel_to t hd st own w j q -> all_fields w -> same_in (mem_of hd st) (wsb (tw w)) s ->
  exists s', trun t hd (with_tsb w s) os = (with_tsb (fst (trun t hd w os)) s', snd (trun t hd w os)) /\ same_in (mem_of hd st) (wsb (tw (fst (trun t hd w os)))) s' /\ all_fields (fst (trun t hd w os)).
Proof.
  induction 1 as [|o os O F IH]; intros w j q s R A G; cbn [trun]; [exists s; auto|].
  destruct (tstep_inv t hd st Ht Dj own w j q o R O) as (j' & q' & _ & R' & _). destruct (tstep_local own w j q o s R A G) as (s' & E & G').
  pose proof (fields_kept own w j q o R A) as A'. rewrite E. destruct (tstep t hd w o) as [w1 r]. cbn [fst snd] in *. destruct (IH w1 j' q' s' R' A' G') as (s2 & E2 & G2 & A2). rewrite E2.
  destruct (trun t hd w1 os) as [w3 h3]. cbn [fst snd] in *. exists s2. auto.
Qed.

Lemma tnew_run own os : valid_region t st -> Forall (top_ok t) os ->
  exists s, trun t hd (tnew hd st own) os = (with_tsb (fst (trun t hd (twide st own) os)) s, snd (trun t hd (twide st own) os)) /\
    same_in (mem_of hd st) (wsb (tw (fst (trun t hd (twide st own) os)))) s /\ all_fields (fst (trun t hd (twide st own) os)).
Proof.
  intros V F. destruct (bnew_with hd st own) as (s & E & G). unfold tnew. rewrite E. apply (trun_local own os F (twide st own) _ _ s (tnew_inv t hd st own V)); [|exact G].
  intros i r L. discriminate.
Qed.
End World.
