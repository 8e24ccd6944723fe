(** * TreeAct: accesses of the client, on the tree of all tags and on that of the object alone. *)
From Verif Require Import Base Spec BaseFacts SyncModel SyncSpec ConcModel BorrowModel BorrowSpec BorrowProofs BorrowState TBorrowModel TreeModel TreeSpec TreeState.

Lemma forallb_ext_in {A} (f g : A -> bool) l : (forall x, In x l -> f x = g x) -> forallb f l = forallb g l.
Proof. induction l as [|a l IH]; intros E; [reflexivity|]. cbn. rewrite (E a (or_introl eq_refl)), IH; [reflexivity|]. intros x I. apply E. right. exact I. Qed.

Section One.
Variables (s : tree) (n : nat) (o : nobj) (root : nat) (up : list nat).
Hypothesis (R : related s n o root up).

Lemma allowed_same w t x : In t (ntags o) -> in_block (nblk o) x ->
  allowed w (line s t) (perms s x) = allowed w (line (ntree o) t) (perms (ntree o) x).
Proof.
  intros T X. destruct (r_line _ _ _ _ _ R t T) as (E & I & _). unfold allowed. rewrite E, forallb_app.
  replace (forallb _ up) with true; [rewrite andb_true_r|].
  - apply forallb_ext_in. intros y Y. destruct (r_perm _ _ _ _ _ R x y X (I y Y)) as [->|(_ & -> & ->)]; [reflexivity|destruct w; reflexivity].
  - symmetry. apply forallb_forall. intros y Y. rewrite (quiet_child w s x y); [reflexivity|]. apply (r_quiet _ _ _ _ _ R x y X Y).
Qed.

Lemma access_same w t b : In t (ntags o) -> (forall x, in_block b x -> in_block (nblk o) x) ->
  match tree_access w t b s, tree_access w t b (ntree o) with
  | Some r, Some r' => related r n (MkN (nblk o) r' (ntags o)) root up
  | None, None => True
  | _, _ => False
  end.
Proof.
  intros T B.
  assert (F : forallb (fun x => allowed w (line s t) (perms s x)) (addrs b) = forallb (fun x => allowed w (line (ntree o) t) (perms (ntree o) x)) (addrs b)).
  { apply forallb_ext_in. intros x X. apply allowed_same; [exact T|]. apply B. apply in_addrs. exact X. }
  destruct (tree_access w t b s) as [r|] eqn:E1; destruct (tree_access w t b (ntree o)) as [r'|] eqn:E2.
  2,3: unfold tree_access in E1, E2; rewrite F in E1; destruct (forallb (fun x => allowed w (line (ntree o) t) (perms (ntree o) x)) (addrs b)); congruence.
  2: exact Logic.I.
  destruct (r_line _ _ _ _ _ R t T) as (El & Il & Rl).
  assert (Z0 : In 0%nat (line s t)) by (rewrite El; apply in_or_app; right; apply (r_zero _ _ _ _ _ R)).
  pose proof (access_line _ _ _ _ _ E1) as L1. pose proof (access_line _ _ _ _ _ E2) as L2.
  pose proof R as [a1 a2 a3 a4 a5 a6 a7]. split; cbn [ntags nblk ntree]; auto.
  - intros y Y. rewrite L1, L2. auto.
  - intros x y X Y. eapply access_quiet; eauto.
  - intros x y X Y. destruct (inb b x) eqn:Bx.
    + apply inb_iff in Bx. destruct (access_in _ _ _ _ _ _ E1 Bx) as [A1 ->]. destruct (access_in _ _ _ _ _ _ E2 Bx) as [A2 ->]. unfold after.
      assert (M : among (line s t) y = among (line (ntree o) t) y).
      { apply eq_true_iff_eq. rewrite !among_iff, El, in_app_iff. split; [|auto]. intros [K|K]; [exact K|]. exfalso. exact (proj1 (a4 y K) Y). }
      rewrite M. destruct (among (line (ntree o) t) y) eqn:Ma.
      * destruct (a7 x y X Y) as [->|(-> & -> & ->)]; [left; reflexivity|]. right. destruct w; auto.
      * destruct (a7 x y X Y) as [->|(-> & _ & _)]; [left; reflexivity|]. exfalso. apply not_true_iff_false in Ma. apply Ma. apply among_iff. exact Rl.
    + assert (Nx : ~ in_block b x) by (rewrite <- inb_iff; congruence). rewrite (access_out _ _ _ _ _ _ E1 Nx), (access_out _ _ _ _ _ _ E2 Nx). auto.
Qed.

Lemma grow_mine t f : In t (ntags o) -> (1 <= n)%nat -> related (grow s n t f) (S n) (MkN (nblk o) (grow (ntree o) n t f) (n :: ntags o)) root up.
Proof.
  intros T N1. pose proof (grow_related s n t f o root up R) as G. pose proof R as [a1 a2 a3 a4 a5 a6 a7]. destruct G as [b1 b2 b3 b4 b5 b6 b7].
  destruct (a3 t T) as (El & Il & Rl).
  split; cbn [ntags nblk ntree]; auto.
  - intros y [<-|Y]; [lia|auto].
  - right. exact a2.
  - intros y [<-|Y].
    + cbn [grow line]. rewrite Nat.eqb_refl, El. split; [reflexivity|]. split; [|right; exact Rl]. intros z [<-|Z]; [left; reflexivity|right; apply Il; exact Z].
    + rewrite !grow_line by apply (a1 y Y). destruct (a3 y Y) as (E & I & K). split; [exact E|]. split; [|exact K]. intros z Z. right. apply I. exact Z.
  - intros y Y. destruct (a4 y Y) as [A B]. split; [|lia]. intros [K|K]; [lia|contradiction].
  - intros x y X [<-|Y].
    + left. cbn [grow perms]. rewrite Nat.eqb_refl. reflexivity.
    + rewrite !grow_perm by apply (a1 y Y). auto.
Qed.
End One.

(** ** All objects *)
Lemma nth_set_nth {A} (l : list A) : forall k x y, nth_error l k = Some y -> nth_error (set_nth l k x) k = Some x.
Proof. induction l as [|a l IH]; intros [|k] x y E; cbn in *; try discriminate; eauto. Qed.
Lemma nth_set_other {A} (l : list A) : forall k m x, m <> k -> nth_error (set_nth l k x) m = nth_error l m.
Proof. induction l as [|a l IH]; intros [|k] [|m] x N; cbn; auto; congruence. Qed.
Lemma set_set {A} (l : list A) : forall k x y, set_nth (set_nth l k x) k y = set_nth l k y.
Proof. induction l as [|a l IH]; intros [|k] x y; cbn; try rewrite IH; reflexivity. Qed.
Lemma in_set_nth {A} (l : list A) k x y z : nth_error l k = Some y -> In z (set_nth l k x) -> z = x \/ exists m, m <> k /\ nth_error l m = Some z.
Proof.
  intros E I. apply In_nth_error in I. destruct I as [m M]. destruct (Nat.eq_dec m k) as [->|N].
  - rewrite (nth_set_nth l k x y E) in M. left. congruence.
  - rewrite nth_set_other in M by exact N. right. eauto.
Qed.

Lemma blocks_apart objs k m (o o' : nobj) : pairwise disjoint (map nblk objs) -> nth_error objs k = Some o -> nth_error objs m = Some o' -> m <> k -> disjoint (nblk o) (nblk o').
Proof.
  intros P E1 E2 N. apply (P k m); [congruence| |]; rewrite nth_error_map; [rewrite E1|rewrite E2]; reflexivity.
Qed.

Section All.
Variables (cs : caps) (objs : list nobj) (s : forest) (k : nat) (o : nobj).
Hypothesis (H : tholds cs objs s) (E : nth_error objs k = Some o) (P : pairwise disjoint (map nblk objs)).

Lemma act_access w t b : In t (ntags o) -> (forall x, in_block b x -> in_block (nblk o) x) ->
  match tree_access w t b (nodes s), tree_access w t b (ntree o) with
  | Some r, Some r' => tholds cs (set_nth objs k (MkN (nblk o) r' (ntags o))) (MkS r (fresh_tag s))
  | None, None => True
  | _, _ => False
  end.
Proof.
  intros T B. destruct (t_objs _ _ _ H o (nth_error_In _ _ E)) as (root & up & R). pose proof (access_same _ _ _ _ _ R w t b T B) as A.
  destruct (tree_access w t b (nodes s)) as [r|] eqn:E1; destruct (tree_access w t b (ntree o)) as [r'|] eqn:E2; auto.
  destruct (access_keeps w cs objs s t b r H (proj2 (r_tags _ _ _ _ _ R t T)) E1) as (K1 & K2 & K3). split; cbn [nodes fresh_tag]; auto; [apply (t_next _ _ _ H)|].
  intros o2 I. apply (in_set_nth _ _ _ _ _ E) in I. destruct I as [->|(m & N & Em)]; [eauto|].
  destruct (t_objs _ _ _ H o2 (nth_error_In _ _ Em)) as (root2 & up2 & R2). exists root2, up2. eapply related_out; [exact R2|apply (access_line _ _ _ _ _ E1)|].
  intros x X. apply (access_out _ _ _ _ _ _ E1). intros X'. exact (blocks_apart objs k m o o2 P E Em N x (conj (B x X') X)).
Qed.
End All.

Lemma set_same_map objs k (o : nobj) r tags : nth_error objs k = Some o -> map nblk (set_nth objs k (MkN (nblk o) r tags)) = map nblk objs.
Proof. revert k. induction objs as [|a l IH]; intros [|k] E; cbn in *; try discriminate; [congruence|]. f_equal. auto. Qed.

Lemma act_reads cs t mutable parts : forall objs s k o, tholds cs objs s -> nth_error objs k = Some o -> pairwise disjoint (map nblk objs) ->
  In t (ntags o) -> (forall p x, In p parts -> in_block (snd p) x -> in_block (nblk o) x) ->
  match tree_reads t mutable parts (nodes s), tree_reads t mutable parts (ntree o) with
  | Some r, Some r' => tholds cs (set_nth objs k (MkN (nblk o) r' (ntags o))) (MkS r (fresh_tag s))
  | None, None => True
  | _, _ => False
  end.
Proof.
  induction parts as [|[c b] parts IH]; intros objs s k o H E P T B; cbn [tree_reads].
  - replace (set_nth objs k (MkN (nblk o) (ntree o) (ntags o))) with objs; [destruct s; exact H|]. destruct o as [ob ot og]. cbn [nblk ntree ntags].
    clear -E. revert k E. induction objs as [|a l IH]; intros [|k] E; cbn in *; try discriminate; [congruence|]. f_equal. auto.
  - destruct (negb mutable && c) eqn:Ec.
    + apply IH; auto. intros p x I. apply B. right. exact I.
    + pose proof (act_access cs objs s k o H E P false t b T) as A. specialize (A (fun x X => B (c, b) x (or_introl eq_refl) X)).
      destruct (tree_access false t b (nodes s)) as [r|] eqn:E1; destruct (tree_access false t b (ntree o)) as [r'|] eqn:E2; try contradiction; [|exact Logic.I].
      pose proof (IH _ _ k (MkN (nblk o) r' (ntags o)) A (nth_set_nth _ _ _ _ E)) as IH'. cbn [nodes ntree ntags nblk] in IH'. rewrite set_same_map in IH' by exact E.
      specialize (IH' P T (fun p x I => B p x (or_intror I))). destruct (tree_reads t mutable parts r), (tree_reads t mutable parts r'); auto. rewrite set_set in IH'. exact IH'.
Qed.

Lemma act_tree cs objs s k o a : tholds cs objs s -> nth_error objs k = Some o -> pairwise disjoint (map nblk objs) -> nact_ok (MkO (nblk o) (ntags o)) a = true ->
  match tree_act (fresh_tag s) a (nodes s), tree_act (fresh_tag s) a (ntree o) with
  | Some r, Some r' => tholds cs (set_nth objs k (MkN (nblk o) r' (tags_after (fresh_tag s) a (ntags o)))) (MkS r (if makes_tag a then S (fresh_tag s) else fresh_tag s))
  | None, None => True
  | _, _ => False
  end.
Proof.
  intros H E P A. destruct a as [t b|t b|t mutable parts]; cbn [nact_ok oblk otags tree_act makes_tag tags_after] in *.
  - apply andb_true_iff in A. destruct A as [A1 A2]. apply among_iff in A1. apply (act_access cs objs s k o H E P false t b A1). unfold in_block. intros x X. lia.
  - apply andb_true_iff in A. destruct A as [A1 A2]. apply among_iff in A1. apply (act_access cs objs s k o H E P true t b A1). unfold in_block. intros x X. lia.
  - apply andb_true_iff in A. destruct A as [A _]. apply andb_true_iff in A. destruct A as [A1 A2]. apply among_iff in A1. rewrite forallb_forall in A2. unfold tags_after, tree_retag. cbn [makes_tag].
    pose proof (act_reads cs t mutable parts objs s k o H E P A1) as B.
    assert (W : forall p x, In p parts -> in_block (snd p) x -> in_block (nblk o) x) by (intros p x I X; specialize (A2 p I); unfold in_block in *; lia). specialize (B W).
    destruct (tree_reads t mutable parts (nodes s)) as [r|]; destruct (tree_reads t mutable parts (ntree o)) as [r'|]; auto.
    set (f := fun x => initial mutable (cell_at parts x)).
    change (tholds cs (set_nth objs k (MkN (nblk o) (grow r' (fresh_tag s) t f) (fresh_tag s :: ntags o))) (MkS (grow r (fresh_tag s) t f) (S (fresh_tag s)))).
    assert (I1 : In (MkN (nblk o) r' (ntags o)) (set_nth objs k (MkN (nblk o) r' (ntags o)))) by (eapply nth_error_In; eapply nth_set_nth; eauto).
    destruct (t_objs _ _ _ B _ I1) as (root & up & R). cbn [nodes fresh_tag] in R.
    assert (Lt : (t < fresh_tag s)%nat) by (apply (r_tags _ _ _ _ _ R); exact A1).
    pose proof (grow_holds _ _ _ t f B Lt) as G. cbn [nodes fresh_tag] in G. destruct G as [g1 g2 g3 g4 g5]. split; auto.
    intros o2 I. rewrite <- (set_set objs k (MkN (nblk o) r' (ntags o))) in I.
    apply (in_set_nth _ _ _ _ _ (nth_set_nth _ _ (MkN (nblk o) r' (ntags o)) _ E)) in I. destruct I as [->|(m & N & Em)].
    + exists root, up. exact (grow_mine _ _ _ _ _ R t f A1 (t_next _ _ _ H)).
    + apply g5. eapply nth_error_In; eauto.
Qed.
