(** * TreeLocal: under Tree Borrows, threads look at the bytes of the Bump only. *)
From Verif Require Import Base Spec BaseFacts SyncModel SyncSpec SyncProofs ConcModel ConcSpec ConcProofs BorrowModel BorrowSpec BorrowProofs BorrowState BorrowWorld BorrowLocal
  TBorrowModel TBorrowWp TBorrowFuel TBorrowStep TBorrowWorld TBorrowLocal TreeModel TreeSpec TreeState TreeAct TreeStep TreeWorld.

Definition same_tree (P : Z -> Prop) (s1 s2 : tree) : Prop := line s1 = line s2 /\ forall x, P x -> perms s1 x = perms s2 x.
Definition same_opt (P : Z -> Prop) (r1 r2 : option tree) : Prop :=
  match r1, r2 with Some a, Some b => same_tree P a b | None, None => True | _, _ => False end.
Definition same_forest (P : Z -> Prop) (s1 s2 : forest) : Prop := fresh_tag s1 = fresh_tag s2 /\ same_tree P (nodes s1) (nodes s2).

Lemma access_looks P w t b s1 s2 : covers P b -> same_tree P s1 s2 -> same_opt P (tree_access w t b s1) (tree_access w t b s2).
Proof.
  intros C [L G]. unfold tree_access. rewrite <- L.
  rewrite (forallb_ext_in (fun x => allowed w (line s1 t) (perms s1 x)) (fun x => allowed w (line s1 t) (perms s2 x))).
  2:{ intros x X. apply in_addrs in X. rewrite (G x (C x X)). reflexivity. }
  destruct (forallb _ _); [|exact Logic.I]. split; cbn [line perms]; [reflexivity|]. intros x X. rewrite (G x X). reflexivity.
Qed.
Lemma reads_looks P t m parts : Forall (fun q : bool * block => covers P (snd q)) parts -> forall s1 s2, same_tree P s1 s2 -> same_opt P (tree_reads t m parts s1) (tree_reads t m parts s2).
Proof.
  induction 1 as [|[c b] parts F1 F2 IH]; intros s1 s2 G; cbn [tree_reads]; [exact G|]. destruct (negb m && c); [apply IH, G|].
  pose proof (access_looks P false t b s1 s2 F1 G) as X. destruct (tree_access _ _ _ s1), (tree_access _ _ _ s2); try contradiction; [apply IH, X|exact Logic.I].
Qed.
Lemma retag_looks P n t m parts s1 s2 : Forall (fun q : bool * block => covers P (snd q)) parts -> same_tree P s1 s2 -> same_opt P (tree_retag n t m parts s1) (tree_retag n t m parts s2).
Proof.
  intros F G. unfold tree_retag. pose proof (reads_looks P t m parts F s1 s2 G) as X. destruct (tree_reads _ _ _ s1), (tree_reads _ _ _ s2); try contradiction; [|exact Logic.I].
  destruct X as [L X]. split; cbn [line perms]; [rewrite L; reflexivity|]. intros x Y. rewrite (X x Y). reflexivity.
Qed.
Lemma act_looks P o n a s1 s2 : covers P (oblk o) -> nact_ok o a = true -> same_tree P s1 s2 -> same_opt P (tree_act n a s1) (tree_act n a s2).
Proof.
  intros C A G. apply nact_ok_iff in A. assert (K : forall b, BorrowSpec.within (oblk o) b -> covers P b) by (intros b [W1 W2] y [Y1 Y2]; apply C; split; lia).
  destruct a as [t b|t b|t m parts]; cbn [tree_act nclient_access] in *; [apply access_looks; [apply K, A|exact G]..|].
  destruct A as (_ & A & _). apply retag_looks; [|exact G]. rewrite Forall_forall in *. intros q Q. apply K, A, Q.
Qed.

Section Mem.
Variables (t : target) (hd st : block).
Local Notation P := (mem_of hd st).
Lemma hd_in : covers P hd. Proof. intros y Y. left. exact Y. Qed.
Lemma st_in : covers P st. Proof. intros y Y. right. exact Y. Qed.

Lemma nreset_looks self s1 s2 : same_forest P s1 s2 ->
  match n_reset hd st self s1, n_reset hd st self s2 with Some a, Some b => same_forest P a b | None, None => True | _, _ => False end.
Proof.
  intros [N G]. unfold n_reset. rewrite <- N.
  assert (F : Forall (fun q : bool * block => covers P (snd q)) [(true, hd); (true, st)]) by (apply Forall_cons; [apply hd_in|apply Forall_cons; [apply st_in|apply Forall_nil]]).
  assert (F1 : forall c, Forall (fun q : bool * block => covers P (snd q)) [(c, hd)]) by (intros c; apply Forall_cons; [apply hd_in|apply Forall_nil]).
  pose proof (retag_looks P (fresh_tag s1) self true _ _ _ F G) as X. destruct (tree_retag _ self _ _ (nodes s1)) as [a1|], (tree_retag _ self _ _ (nodes s2)) as [a2|]; try contradiction; [|exact Logic.I].
  pose proof (retag_looks P (S (fresh_tag s1)) (fresh_tag s1) true _ _ _ (F1 true) X) as Y. destruct (tree_retag _ _ _ _ a1) as [b1|], (tree_retag _ _ _ _ a2) as [b2|]; try contradiction; [|exact Logic.I].
  pose proof (retag_looks P (S (S (fresh_tag s1))) (S (fresh_tag s1)) true _ _ _ (F1 false) Y) as Z. destruct (tree_retag _ _ _ _ b1) as [c1|], (tree_retag _ _ _ _ b2) as [c2|]; try contradiction; [|exact Logic.I].
  pose proof (access_looks P true (S (S (fresh_tag s1))) hd _ _ hd_in Z) as W. destruct (tree_access _ _ _ c1), (tree_access _ _ _ c2); try contradiction; [|exact Logic.I].
  split; [reflexivity|exact W].
Qed.

Lemma nstep_fields {A} im lv (p : prog A) s lv' p' s' : fields hd st p -> nstep im hd lv p s = Some (lv', p', s') -> fields hd st p'.
Proof.
  destruct p as [a|n parts k|n k|n e nw k|n b k]; cbn [TBorrowLocal.fields nstep]; intros F.
  - intros [= <- <- <-]. exact Logic.I.
  - destruct (tree_retag _ _ _ _ _); [|discriminate]. intros [= <- <- <-]. apply F.
  - destruct (tree_access _ _ _ _); [|discriminate]. intros [= <- <- <-]. apply F.
  - destruct (compare_exchange lv e nw) as [l v]. destruct (tree_access _ _ _ _); [|discriminate]. intros [= <- <- <-]. apply F.
  - destruct (tree_access _ _ _ _); [|discriminate]. intros [= <- <- <-]. exact F.
Qed.

Lemma nstep_looks im self0 c u lv p oc ts s1 s2 : wpo t hd st c u self0 p oc ts -> fields hd st p -> (forall a, ts = Done c (RBlock a) -> inside (blk c a) st) -> same_forest P s1 s2 ->
  match nstep im hd lv p s1, nstep im hd lv p s2 with
  | Some (x1, p1, a1), Some (x2, p2, a2) => x1 = x2 /\ p1 = p2 /\ same_forest P a1 a2
  | None, None => True
  | _, _ => False
  end.
Proof.
  intros W F B [N G].
  assert (Hb : forall a, ts = Done c (RBlock a) -> covers P (blk c a)) by (intros a E y Y; right; apply (B a E), Y).
  unfold wpo in W. destruct p as [a|n parts k|n k|n e nw k|n b k]; cbn [TBorrowLocal.fields nstep wp] in *; rewrite <- ?N.
  - repeat split; auto; apply G.
  - assert (K : Forall (fun q : bool * block => covers P (snd q)) (as_cells im parts)).
    { unfold as_cells. apply Forall_map. cbn [snd]. destruct W as [(a & E & -> & _)|(bs & -> & _)].
      + apply Forall_cons; [apply Hb, E|apply Forall_nil].
      + destruct F as [F _]. rewrite Forall_forall in *. intros q Q. destruct (F q Q) as [E|[E|E]]; [|rewrite E; apply hd_in|rewrite E; apply st_in].
        apply in_map_iff in Q. destruct Q as (b & <- & _). discriminate. }
    pose proof (retag_looks P (fresh_tag s1) n (as_mutable parts) _ _ _ K G) as X. destruct (tree_retag _ _ _ _ (nodes s1)), (tree_retag _ _ _ _ (nodes s2)); try contradiction; [|exact Logic.I].
    split; [reflexivity|]. split; [reflexivity|]. split; [reflexivity|exact X].
  - pose proof (access_looks P false n hd _ _ hd_in G) as X. destruct (tree_access _ _ _ (nodes s1)), (tree_access _ _ _ (nodes s2)); try contradiction; [|exact Logic.I].
    split; [reflexivity|]. split; [reflexivity|]. split; [reflexivity|exact X].
  - destruct (compare_exchange lv e nw) as [l v]. remember (match v with None => true | Some _ => false end) as w eqn:Ew.
    pose proof (access_looks P w n hd _ _ hd_in G) as X. destruct (tree_access _ _ _ (nodes s1)), (tree_access _ _ _ (nodes s2)); try contradiction; [|exact Logic.I].
    split; [reflexivity|]. split; [reflexivity|]. split; [reflexivity|exact X].
  - destruct W as (_ & (a & E & ->) & _). pose proof (access_looks P true n (blk c a) _ _ (Hb a E) G) as X.
    destruct (tree_access _ _ _ (nodes s1)), (tree_access _ _ _ (nodes s2)); try contradiction; [|exact Logic.I].
    split; [reflexivity|]. split; [reflexivity|]. split; [reflexivity|exact X].
Qed.
End Mem.

(** ** Programs *)
Section World.
Variables (t : target) (hd st : block).
Hypothesis (Ht : valid_target t) (Dj : disjoint hd st).
Local Notation P := (mem_of hd st).

Definition with_nst (w : nworld) (s : forest) : nworld := MkNW (nslab w) s (nowned w) (nshares w) (nobjs w) (nthreads w).
Definition all_nfields (w : nworld) : Prop := forall i r, nlookup i (nthreads w) = Some r -> fields hd st (nprog r).

Lemma share_local w self s : storage (nslab w) = st -> same_forest P (nstate w) s ->
  exists s', n_share hd (with_nst w s) self = (with_nst (fst (n_share hd w self)) s', snd (n_share hd w self)) /\ same_forest P (nstate (fst (n_share hd w self))) s'.
Proof.
  intros Es [N G]. unfold n_share, with_nst. cbn [nslab nstate nowned nshares nobjs nthreads]. rewrite Es, <- N.
  assert (F : Forall (fun q : bool * block => covers P (snd q)) [(true, hd); (true, st)]) by (apply Forall_cons; [apply hd_in|apply Forall_cons; [apply st_in|apply Forall_nil]]).
  pose proof (retag_looks P (fresh_tag (nstate w)) self false _ _ _ F G) as X. destruct (tree_retag _ _ _ _ (nodes (nstate w))) as [a|], (tree_retag _ _ _ _ (nodes s)) as [b|]; try contradiction.
  - exists (MkS b (S (fresh_tag (nstate w)))). cbn [fst snd nslab nstate nowned nshares nobjs nthreads]. split; [reflexivity|]. split; [reflexivity|exact X].
  - exists s. cbn [fst snd]. split; [reflexivity|]. split; assumption.
Qed.

Lemma nfields_kept own w j q o : nrel t hd st own w j q -> all_nfields w -> all_nfields (fst (ntstep t hd w o)).
Proof.
  intros (oc & s0 & cs & I) A. assert (Es : storage (nslab w) = st) by (rewrite (n_slab _ _ _ _ _ _ _ _ _ _ I); reflexivity).
  assert (Sh : forall self, all_nfields (fst (n_share hd w self))) by (intros self; unfold n_share; destruct (tree_retag _ _ _ _ _); exact A).
  destruct o as [[f|]| |k a|i k c u im|i]; cbn [ntstep].
  - destruct (nth_error _ f); [apply Sh|exact A].
  - destruct (nowned w); [apply Sh|exact A].
  - destruct (nowned w); [|exact A]. destruct (nthreads w) eqn:E; [|exact A]. destruct (n_reset _ _ _ _); [intros i r; discriminate|exact A].
  - destruct (nth_error _ k); [|exact A]. destruct (nact_ok _ _); [|exact A]. destruct (tree_act _ _ _); exact A.
  - destruct (nlookup i (nthreads w)) as [r|] eqn:L; [exact A|]. destruct (nth_error _ k) as [self|]; [|exact A].
    assert (X : all_nfields (MkNW (nslab w) (nstate w) (nowned w) (nshares w) (nobjs w) ((i, MkNR c u im (p_call t hd (storage (nslab w)) c u self)) :: nthreads w))).
    { intros m r. cbn [nthreads]. destruct (Nat.eq_dec m i) as [->|N]; [rewrite nlookup_cons_same; intros [= <-]; cbn [nprog]; rewrite Es; apply fields_call|rewrite nlookup_cons_other by exact N; apply A]. }
    destruct c; try exact X. exact A.
  - destruct (nlookup i (nthreads w)) as [r|] eqn:L; [|exact A]. destruct (nstep _ _ _ _ _) as [[[lv p] b]|] eqn:E; [|exact A].
    pose proof (nstep_fields hd st _ _ _ _ _ _ _ (A i r L) E) as F. apply (fields_settle t hd st (ncall r) (nuse r)) in F. rewrite Es.
    assert (X : all_nfields (ngot w lv b (ncall r) RNone None ((i, MkNR (ncall r) (nuse r) (nim r) (settle t hd st (ncall r) (nuse r) p)) :: nremove i (nthreads w)))).
    { intros m x. cbn [ngot nthreads]. destruct (Nat.eq_dec m i) as [->|N]; [rewrite nlookup_cons_same; intros [= <-]; exact F|rewrite nlookup_cons_other, nlookup_remove_other by exact N; apply A]. }
    destruct (settle t hd st (ncall r) (nuse r) p) as [[g s|y tag]|? ? ?|? ?|? ? ? ?|? ? ?]; try exact X.
    intros m x. cbn [fst ngot nthreads]. destruct (Nat.eq_dec m i) as [->|N]; [rewrite nlookup_remove_same; discriminate|rewrite nlookup_remove_other by exact N; apply A].
Qed.

Lemma ntstep_local own w j q o s : nrel t hd st own w j q -> all_nfields w -> same_forest P (nstate w) s ->
  exists s', ntstep t hd (with_nst w s) o = (with_nst (fst (ntstep t hd w o)) s', snd (ntstep t hd w o)) /\ same_forest P (nstate (fst (ntstep t hd w o))) s'.
Proof.
  intros (oc & s0 & cs & I) A G. pose proof I as [a1 a2 a3 a4 a5 a6 a7 a8 a9 a10 a11 a12 b1 b2 b3 b4]. assert (Es : storage (nslab w) = st) by (rewrite a3; reflexivity).
  assert (Same : exists s', (with_nst w s, NInvalid) = (with_nst (fst (w, NInvalid)) s', snd (w, NInvalid)) /\ same_forest P (nstate (fst (w, NInvalid))) s') by (exists s; split; [reflexivity|exact G]).
  assert (SameUB : exists s', (with_nst w s, NUB) = (with_nst (fst (w, NUB)) s', snd (w, NUB)) /\ same_forest P (nstate (fst (w, NUB))) s') by (exists s; split; [reflexivity|exact G]).
  destruct o as [[f|]| |k a|i k c u im|i]; cbn [ntstep]; cbn [with_nst nslab nstate nowned nshares nobjs nthreads].
  - destruct (nth_error _ f); [apply share_local; assumption|exact Same].
  - destruct (nowned w); [apply share_local; assumption|exact Same].
  - destruct (nowned w); [|exact Same]. destruct (nthreads w); [|exact Same]. rewrite Es.
    pose proof (nreset_looks hd st 0 _ _ G) as X. destruct (n_reset _ _ _ (nstate w)) as [a|], (n_reset _ _ _ s) as [b|]; try contradiction; [|exact SameUB].
    exists b. split; [reflexivity|exact X].
  - destruct (nth_error (nobjs w) k) as [ob|] eqn:Ek; [|exact Same]. destruct (nact_ok ob a) eqn:Ea; [|exact Same].
    assert (C : covers P (oblk ob)).
    { rewrite <- a7 in Ek. rewrite nth_error_map in Ek. destruct (nth_error (niobjs j) k) as [o1|] eqn:E1; [|discriminate]. injection Ek as <-. intros y Y. right.
      exact (nobjs_in t hd st own w j q oc s0 cs o1 y I (nth_error_In _ _ E1) Y). }
    destruct G as [N G]. rewrite <- N. pose proof (act_looks P ob (fresh_tag (nstate w)) a _ _ C Ea G) as X.
    destruct (tree_act _ _ (nodes (nstate w))) as [x|], (tree_act _ _ (nodes s)) as [y|]; try contradiction; [|exact SameUB].
    exists (MkS y (if makes_tag a then S (fresh_tag (nstate w)) else fresh_tag (nstate w))). split; [reflexivity|]. split; [reflexivity|exact X].
  - destruct (nlookup i (nthreads w)); [exact Same|]. destruct (nth_error _ k) as [self|]; [|exact Same].
    destruct c; try (exists s; split; [reflexivity|exact G]). 
  - destruct (nlookup i (nthreads w)) as [r|] eqn:L; [|exact Same].
    pose proof (b4 i) as V. rewrite L in V. destruct V as (_ & _ & W & _).
    assert (B : forall a, threads q i = Done (ncall r) (RBlock a) -> inside (blk (ncall r) a) st).
    { intros a E. exact (proj1 (proj2 (proj2 (ndone_block t st Ht q (niobjs j) i (ncall r) a a1 a2 a8 E)))). }
    pose proof (nstep_looks t hd st (nim r) (s0 i) (ncall r) (nuse r) (consumed (nslab w)) (nprog r) (oc i) (threads q i) _ _ W (A i r L) B G) as X.
    destruct (nstep _ _ _ _ (nstate w)) as [[[lv p] b]|], (nstep _ _ _ _ s) as [[[lv' p'] b']|]; try contradiction; [|exact SameUB].
    destruct X as (<- & <- & X). exists b'. destruct (settle _ _ _ _ _ p) as [[g s1|y tag]|? ? ?|? ?|? ? ? ?|? ? ?]; (split; [reflexivity|exact X]).
Qed.

Lemma nrun_local own os : Forall (nop_ok t) os -> forall w j q s, nrel t hd st own w j q -> all_nfields w -> same_forest P (nstate w) s ->
  exists s', nrun t hd (with_nst w s) os = (with_nst (fst (nrun t hd w os)) s', snd (nrun t hd w os)) /\ same_forest P (nstate (fst (nrun t hd w os))) s' /\ all_nfields (fst (nrun t hd w os)).
Proof.
  induction 1 as [|o os O F IH]; intros w j q s R A G; cbn [nrun]; [exists s; auto|].
  destruct (ntstep_inv t hd st Ht Dj own w j q o R O) as (j' & q' & _ & R' & _ & _). destruct (ntstep_local own w j q o s R A G) as (s' & E & G').
  pose proof (nfields_kept own w j q o R A) as A'. rewrite E. destruct (ntstep t hd w o) as [w1 r]. cbn [fst snd] in *. destruct (IH w1 j' q' s' R' A' G') as (s2 & E2 & G2 & A2). rewrite E2.
  destruct (nrun t hd w1 os) as [w3 h3]. cbn [fst snd] in *. exists s2. auto.
Qed.

Lemma nnew_all own os : valid_region t st -> Forall (nop_ok t) os ->
  exists s, nrun t hd (nnew hd st own) os = (with_nst (fst (nrun t hd (nwide hd st own) os)) s, snd (nrun t hd (nwide hd st own) os)) /\
    same_forest P (nstate (fst (nrun t hd (nwide hd st own) os))) s /\ all_nfields (fst (nrun t hd (nwide hd st own) os)).
Proof.
  intros V F.
  assert (E : exists s, nnew hd st own = with_nst (nwide hd st own) s /\ same_forest P (nstate (nwide hd st own)) s).
  { unfold nnew, nwide. set (lim := fun x => existsb (fun b => inb b x) [hd; st]).
    set (w := MkNW (fresh st) (MkS (MkTree (fun n => if Nat.eqb n 0 then [0%nat] else []) (fun _ _ => PActive)) 1) own [] [] []).
    set (s := MkS (MkTree (fun n => if Nat.eqb n 0 then [0%nat] else []) (fun x _ => if lim x then PActive else PDisabled)) 1).
    assert (G : same_forest P (nstate w) s).
    { split; [reflexivity|]. split; [reflexivity|]. intros x X. cbn [s w nstate nodes perms].
      assert (K : lim x = true). { unfold lim. cbn [existsb]. destruct X as [X|X]; apply inb_iff in X; rewrite X; [reflexivity|]. destruct (inb hd x); reflexivity. }
      rewrite K. reflexivity. }
    destruct own; [exists s; split; [reflexivity|exact G]|]. destruct (share_local w 0 s eq_refl G) as (s' & E & G'). exists s'. split; [|exact G'].
    change (fst (n_share hd (with_nst w s) 0) = with_nst (fst (n_share hd w 0)) s'). rewrite E. reflexivity. }
  destruct E as (s & -> & G). apply (nrun_local own os F (nwide hd st own) _ _ s (nnew_inv t hd st own V)); [|exact G].
  intros i r L. unfold nwide in L. destruct own; [discriminate|]. unfold n_share in L. destruct (tree_retag _ _ _ _ _); discriminate.
Qed.

Lemma nnew_run own os : valid_region t st -> Forall (nop_ok t) os -> snd (nrun t hd (nnew hd st own) os) = snd (nrun t hd (nwide hd st own) os).
Proof. intros V F. destruct (nnew_all own os V F) as (s & -> & _). reflexivity. Qed.
End World.
