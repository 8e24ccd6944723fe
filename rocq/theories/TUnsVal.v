(** * TUnsVal: the blocks of the client on the tree of all tags. *)
From Verif Require Import Base Spec BaseFacts SyncModel SyncSpec UnsyncModel ConcModel BorrowModel BorrowSpec BorrowProofs BorrowState TBorrowModel
  UBorrowModel EBorrowModel TreeModel TreeSpec TreeState TreeAct TExitModel TExitState TExitOps TUnsModel TUnsSpec.

(** An object of the client: nobody else uses the pointers that its first one was made from ([up]) for its bytes *)
Record held (s : tree) (n : nat) (o : nobj) (root : nat) (up : list nat) : Prop := {
  d_tags : forall y, In y (ntags o) -> (1 <= y < n)%nat;
  d_root : In root (ntags o);
  d_line : forall y, In y (ntags o) -> line s y = line (ntree o) y ++ up /\ incl (line (ntree o) y) (ntags o) /\ In root (line (ntree o) y);
  d_up : forall y, In y up -> ~ In y (ntags o) /\ (y < n)%nat;
  d_wp : forall x y, in_block (nblk o) x -> In y up -> wp_ok (perms s x y);
  d_perm : forall x y, in_block (nblk o) x -> In y (ntags o) ->
    perms s x y = perms (ntree o) x y \/ (y = root /\ perms s x y = PCell /\ perms (ntree o) x y = PActive) }.

Lemma held_step B s s' o root up : step B s s' -> (forall x, in_block (nblk o) x -> ~ B x) -> held (nodes s) (fresh_tag s) o root up -> held (nodes s') (fresh_tag s') o root up.
Proof.
  intros K D [a b c d e f]. pose proof (s_fresh _ _ _ K). split; auto.
  - intros y Y. specialize (a y Y). lia.
  - intros y Y. rewrite (s_line _ _ _ K) by apply (a y Y). auto.
  - intros y Y. split; [apply d; exact Y|]. specialize (d y Y). lia.
  - intros x y X Y. rewrite (s_out _ _ _ K); [auto|apply D; exact X|apply d; exact Y].
  - intros x y X Y. rewrite (s_out _ _ _ K); [auto|apply D; exact X|apply a; exact Y].
Qed.

(** ** Accesses *)
Section One.
Variables (s : tree) (n : nat) (o : nobj) (root : nat) (up : list nat).
Hypothesis (R : held s n o root up).

Lemma held_allowed w t x : In t (ntags o) -> in_block (nblk o) x -> allowed w (line s t) (perms s x) = allowed w (line (ntree o) t) (perms (ntree o) x).
Proof.
  intros T X. destruct (d_line _ _ _ _ _ R t T) as (E & I & _). unfold allowed. rewrite E, forallb_app.
  replace (forallb _ up) with true; [rewrite andb_true_r|].
  - apply forallb_ext_in. intros y Y. destruct (d_perm _ _ _ _ _ R x y X (I y Y)) as [->|(_ & -> & ->)]; [reflexivity|destruct w; reflexivity].
  - symmetry. apply forallb_forall. intros y Y. destruct (child_wp w _ (d_wp _ _ _ _ _ R x y X Y)) as (q & -> & _). reflexivity.
Qed.

Lemma held_access w t b : In t (ntags o) -> (forall x, in_block b x -> in_block (nblk o) x) ->
  match tree_access w t b s, tree_access w t b (ntree o) with
  | Some r, Some r' => held r n (MkN (nblk o) r' (ntags o)) root up
  | None, None => True
  | _, _ => False
  end.
Proof.
  intros T B.
  assert (F : forallb (fun x => allowed w (line s t) (perms s x)) (addrs b) = forallb (fun x => allowed w (line (ntree o) t) (perms (ntree o) x)) (addrs b)).
  { apply forallb_ext_in. intros x X. apply held_allowed; [exact T|]. apply B. apply in_addrs. exact X. }
  destruct (tree_access w t b s) as [r|] eqn:E1; destruct (tree_access w t b (ntree o)) as [r'|] eqn:E2.
  2,3: unfold tree_access in E1, E2; rewrite F in E1; destruct (forallb (fun x => allowed w (line (ntree o) t) (perms (ntree o) x)) (addrs b)); congruence.
  2: exact Logic.I.
  destruct (d_line _ _ _ _ _ R t T) as (El & Il & Rl).
  pose proof (access_line _ _ _ _ _ E1) as L1. pose proof (access_line _ _ _ _ _ E2) as L2.
  pose proof R as [a1 a2 a3 a4 a6 a7]. split; cbn [ntags nblk ntree]; auto.
  - intros y Y. rewrite L1, L2. auto.
  - intros x y X Y. destruct (inb b x) eqn:Bx.
    + apply inb_iff in Bx. assert (Yt : In y (line s t)) by (rewrite El; apply in_or_app; right; exact Y). pose proof (access_after _ _ _ _ _ _ _ E1 Bx Yt) as C.
      destruct (child_wp w _ (a6 x y X Y)) as (q & C' & Q). congruence.
    + rewrite (access_out _ _ _ _ _ _ E1); [auto|]. rewrite <- inb_iff. congruence.
  - intros x y X Y. destruct (inb b x) eqn:Bx.
    + apply inb_iff in Bx. destruct (access_in _ _ _ _ _ _ E1 Bx) as [A1 ->]. destruct (access_in _ _ _ _ _ _ E2 Bx) as [A2 ->]. unfold after.
      assert (M : among (line s t) y = among (line (ntree o) t) y).
      { apply eq_true_iff_eq. rewrite !among_iff, El, in_app_iff. split; [|auto]. intros [K|K]; [exact K|]. exfalso. exact (proj1 (a4 y K) Y). }
      rewrite M. destruct (among (line (ntree o) t) y) eqn:Ma.
      * destruct (a7 x y X Y) as [->|(-> & -> & ->)]; [left; reflexivity|]. right. destruct w; auto.
      * destruct (a7 x y X Y) as [->|(-> & _ & _)]; [left; reflexivity|]. exfalso. apply not_true_iff_false in Ma. apply Ma. apply among_iff. exact Rl.
    + assert (Nx : ~ in_block b x) by (rewrite <- inb_iff; congruence). rewrite (access_out _ _ _ _ _ _ E1 Nx), (access_out _ _ _ _ _ _ E2 Nx). auto.
Qed.

Lemma held_grow t f : In t (ntags o) -> (1 <= n)%nat -> held (grow s n t f) (S n) (MkN (nblk o) (grow (ntree o) n t f) (n :: ntags o)) root up.
Proof.
  intros T N1. pose proof R as [a1 a2 a3 a4 a6 a7]. destruct (a3 t T) as (El & Il & Rl).
  split; cbn [ntags nblk ntree]; auto.
  - intros y [<-|Y]; [lia|]. specialize (a1 y Y). lia.
  - right. exact a2.
  - intros y [<-|Y].
    + cbn [grow line]. rewrite Nat.eqb_refl, El. split; [reflexivity|]. split; [|right; exact Rl]. intros z [<-|Z]; [left; reflexivity|right; apply Il; exact Z].
    + rewrite !grow_line by apply (a1 y Y). destruct (a3 y Y) as (E & I & K). split; [exact E|]. split; [|exact K]. intros z Z. right. apply I. exact Z.
  - intros y Y. destruct (a4 y Y) as [A B]. split; [|lia]. intros [K|K]; [lia|contradiction].
  - intros x y X Y. rewrite grow_perm by apply (a4 y Y). auto.
  - intros x y X [<-|Y].
    + left. cbn [grow perms]. rewrite Nat.eqb_refl. reflexivity.
    + rewrite !grow_perm by apply (a1 y Y). auto.
Qed.
End One.

Lemma held_reads t m parts root up n : forall s o, held s n o root up -> In t (ntags o) -> (forall p x, In p parts -> in_block (snd p) x -> in_block (nblk o) x) ->
  match tree_reads t m parts s, tree_reads t m parts (ntree o) with
  | Some r, Some r' => held r n (MkN (nblk o) r' (ntags o)) root up
  | None, None => True
  | _, _ => False
  end.
Proof.
  induction parts as [|[c b] parts IH]; intros s o R T B; cbn [tree_reads]; [destruct o; exact R|].
  assert (B' : forall p x, In p parts -> in_block (snd p) x -> in_block (nblk o) x) by (intros p x I; apply B; right; exact I).
  destruct (negb m && c); [apply IH; assumption|].
  pose proof (held_access s n o root up R false t b T (fun x X => B (c, b) x (or_introl eq_refl) X)) as A.
  destruct (tree_access false t b s) as [r|], (tree_access false t b (ntree o)) as [r'|]; try contradiction; [|exact Logic.I].
  exact (IH r (MkN (nblk o) r' (ntags o)) A T B').
Qed.

(** An access of the client: allowed exactly if it is on the object alone; nothing else changes. *)
Lemma held_act s o root up a : wf s -> held (nodes s) (fresh_tag s) o root up -> nact_ok (MkO (nblk o) (ntags o)) a = true ->
  match tree_act (fresh_tag s) a (nodes s), tree_act (fresh_tag s) a (ntree o) with
  | Some r, Some r' => let s' := MkS r (if makes_tag a then S (fresh_tag s) else fresh_tag s) in
      step (in_block (nblk o)) s s' /\ held (nodes s') (fresh_tag s') (MkN (nblk o) r' (tags_after (fresh_tag s) a (ntags o))) root up
  | None, None => True
  | _, _ => False
  end.
Proof.
  intros W R A. assert (Tl : forall t, In t (ntags o) -> (t < fresh_tag s)%nat) by (intros t T; apply (d_tags _ _ _ _ _ R t T)).
  assert (N1 : (1 <= fresh_tag s)%nat) by (apply (t_next _ _ _ W)).
  destruct a as [t b|t b|t mutable parts]; cbn [nact_ok oblk otags tree_act makes_tag tags_after] in *.
  - apply andb_true_iff in A. destruct A as [A1 A2]. apply among_iff in A1. assert (B : forall x, in_block b x -> in_block (nblk o) x) by (unfold in_block; intros x X; lia).
    pose proof (held_access _ _ _ _ _ R false t b A1 B) as H. destruct (tree_access false t b (nodes s)) as [r|] eqn:E, (tree_access false t b (ntree o)); try contradiction; auto.
    cbn [nodes fresh_tag]. split; [|exact H]. eapply step_more; [exact B|]. exact (access_step false t b s r W (Tl t A1) E).
  - apply andb_true_iff in A. destruct A as [A1 A2]. apply among_iff in A1. assert (B : forall x, in_block b x -> in_block (nblk o) x) by (unfold in_block; intros x X; lia).
    pose proof (held_access _ _ _ _ _ R true t b A1 B) as H. destruct (tree_access true t b (nodes s)) as [r|] eqn:E, (tree_access true t b (ntree o)); try contradiction; auto.
    cbn [nodes fresh_tag]. split; [|exact H]. eapply step_more; [exact B|]. exact (access_step true t b s r W (Tl t A1) E).
  - apply andb_true_iff in A. destruct A as [A _]. apply andb_true_iff in A. destruct A as [A1 A2]. apply among_iff in A1. rewrite forallb_forall in A2.
    assert (B : forall p x, In p parts -> in_block (snd p) x -> in_block (nblk o) x) by (intros p x I X; specialize (A2 p I); unfold in_block in *; lia).
    pose proof (held_reads t mutable parts root up _ _ _ R A1 B) as H.
    destruct (tree_retag (fresh_tag s) t mutable parts (nodes s)) as [r|] eqn:E.
    + assert (St : step (in_block (nblk o)) s (MkS r (S (fresh_tag s)))).
      { apply (retag_step t mutable parts (in_block (nblk o)) s r W (Tl t A1)); [|exact E]. intros c b x I _ X. exact (B (c, b) x I X). }
      unfold tree_retag in *. destruct (tree_reads t mutable parts (nodes s)) as [r0|]; [|discriminate]. injection E as <-.
      destruct (tree_reads t mutable parts (ntree o)) as [r'|]; [|contradiction]. cbn zeta. split; [exact St|]. cbn [nodes fresh_tag].
      exact (held_grow _ _ _ _ _ H t (fun x => initial mutable (cell_at parts x)) A1 N1).
    + unfold tree_retag in *. destruct (tree_reads t mutable parts (nodes s)) as [r0|]; [discriminate|]. destruct (tree_reads t mutable parts (ntree o)) as [r'|]; [contradiction|exact Logic.I].
Qed.

(** ** New blocks *)
Lemma held_new s b n up p : wf s -> (1 <= n < fresh_tag s)%nat -> line (nodes s) n = n :: up ->
  (forall x y, in_block b x -> In y up -> wp_ok (perms (nodes s) x y)) ->
  (forall x, in_block b x -> perms (nodes s) x n = p \/ perms (nodes s) x n = PCell /\ p = PActive) -> held (nodes s) (fresh_tag s) (new_alloc b n p) n up.
Proof.
  intros W L E Q P. destruct (t_line _ _ _ W n L) as (l & El & _ & F). rewrite E in El. injection El as <-. rewrite Forall_forall in F.
  split; cbn [new_alloc ntags nblk ntree line perms].
  - intros y [<-|[]]. lia.
  - left. reflexivity.
  - intros y [<-|[]]. rewrite Nat.eqb_refl. split; [exact E|]. split; [apply incl_refl|left; reflexivity].
  - intros y Y. specialize (F y Y). split; [|lia]. intros [<-|[]]. lia.
  - exact Q.
  - intros x y X [<-|[]]. destruct (P x X) as [->|[-> ->]]; auto.
Qed.

(** the pointer itself *)
Lemma held_raw s b n : wf s -> (1 <= n)%nat -> qt s n (in_block b) -> exists up, held (nodes s) (fresh_tag s) (new_alloc b n PActive) n up.
Proof.
  intros W N [L Q]. destruct (t_line _ _ _ W n (conj N L)) as (l & El & _). exists l. apply held_new; auto.
  - intros x y X Y. destruct (Q x y X) as [-> | [_ ->]]; [rewrite El; right; exact Y| |]; unfold wp_ok; auto.
  - intros x X. destruct (Q x n X) as [-> | [-> ->]]; [rewrite El; left; reflexivity| |]; auto.
Qed.

Lemma op_mut_one (unpin im : bool) b p s : wf s -> wr s p (in_block b) -> op (f_one im (mut_kind unpin) b p) s (fun n s' => down p (in_block b) s s' /\ kid p s n s' /\
  forall x, perms (nodes s') x n = if unpin then PReserved im else PCell).
Proof.
  intros W Wr. destruct unpin; cbn [mut_kind]; unfold f_one.
  - eapply op_weaken; [|apply (op_unique im p [b]); [exact W|discriminate|eapply wr_less; [|exact Wr]; intros x; apply in_any_one]].
    intros n s' (D & K & P & _). split; [|auto]. eapply down_more; [|exact D]. intros x. apply in_any_one.
  - eapply op_weaken; [|apply (op_cell im p [b]); [exact W|apply Wr|discriminate]]. intros n s' (D & K & P). split; [|auto]. apply down_none. exact D.
Qed.

Lemma kid_held p s n s' b (B : Z -> Prop) q : wf s -> wf s' -> (1 <= fresh_tag s)%nat -> kid p s n s' -> down p B s s' -> wr s p (in_block b) ->
  (forall x, in_block b x -> perms (nodes s') x n = q \/ perms (nodes s') x n = PCell /\ q = PActive) -> held (nodes s') (fresh_tag s') (new_alloc b n q) n (line (nodes s) p).
Proof.
  intros W W' N [k1 k2] (K & D & _) [L Q] P. apply held_new; [exact W'|lia|exact k2| |exact P]. intros x y X Y. apply D; [exact Y|]. apply Q; assumption.
Qed.

(** What the client does with the pointer of a block: a new object, and the other bytes are untouched *)
Lemma op_use u b base s : wf s -> qt s base (in_block b) -> (1 <= base)%nat ->
  op (f_use u b base) s (fun n s' => step (in_block b) s s' /\ (n = base \/ (fresh_tag s <= n)%nat) /\ (n < fresh_tag s')%nat /\
    exists up, held (nodes s') (fresh_tag s') (new_alloc b n (txuse_perm u)) n up).
Proof.
  intros W Q N. pose proof (t_next _ _ _ W) as N1. destruct u as [|unpin im| |unpin im]; cbn [f_use txuse_perm].
  - apply op_ret. split; [apply step_refl; exact W|]. split; [auto|]. split; [apply Q|]. apply held_raw; assumption.
  - unfold f_alloc_leak. apply op_bind. eapply op_weaken; [|apply op_access; [exact W|apply qt_wr; exact Q]]. intros [] s1 D1. pose proof (down_wf _ _ _ _ D1) as W1. pose proof (s_fresh _ _ _ (proj1 D1)) as F1.
    assert (Wr1 : wr s1 base (in_block b)) by (eapply down_wr; [exact W|exact D1|apply qt_wr; exact Q]).
    eapply op_weaken; [|apply op_mut_one; [exact W1|exact Wr1]]. intros n s2 (D2 & K2 & P2). pose proof (k_old _ _ _ _ K2).
    split; [eapply step_trans; [apply D1|apply D2]|]. split; [lia|]. split; [lia|]. exists (line (nodes s1) base).
    eapply kid_held; eauto; [eapply down_wf; eauto|lia|]. intros x _. rewrite P2. destruct unpin; auto.
  - unfold f_alloc_boxed. apply op_bind. eapply op_weaken; [|apply op_access; [exact W|apply qt_wr; exact Q]]. intros [] s1 D1. pose proof (down_wf _ _ _ _ D1) as W1.
    apply op_ret. assert (Q1 : qt s1 base (in_block b)) by (eapply step_qt; [exact W|apply D1|exact Q]). split; [apply D1|]. split; [auto|]. split; [apply Q1|]. apply held_raw; assumption.
  - unfold f_leak_box_from. apply op_bind. eapply op_weaken; [|apply op_mut_one; [exact W|apply qt_wr; exact Q]]. intros r1 s1 (D1 & K1 & P1). pose proof (down_wf _ _ _ _ D1) as W1. pose proof (s_fresh _ _ _ (proj1 D1)) as F1.
    assert (Wr1 : wr s1 r1 (in_block b)) by (eapply (kid_wr base (in_block b) s); eauto; [intros x; rewrite P1; destruct unpin; [apply wp_res|apply wp_cell]|apply qt_wr; exact Q]).
    apply op_bind. eapply op_weaken; [|apply op_mut_one; [exact W1|exact Wr1]]. intros r2 s2 (D2 & K2 & P2). pose proof (down_wf _ _ _ _ D2) as W2. pose proof (s_fresh _ _ _ (proj1 D2)) as F2.
    assert (Wr2 : wr s2 r2 (in_block b)) by (eapply (kid_wr r1 (in_block b) s1); eauto; intros x; rewrite P2; destruct unpin; [apply wp_res|apply wp_cell]).
    eapply op_weaken; [|apply (op_cell true r2 [b]); [exact W2|apply Wr2|discriminate]]. intros n s3 (D3 & K3 & P3). pose proof (k_old _ _ _ _ K3).
    split; [eapply step_trans; [apply D1|eapply step_trans; [apply D2|eapply step_more; [|apply D3]; intros x []]]|]. split; [lia|]. split; [lia|]. exists (line (nodes s2) r2).
    eapply kid_held; eauto; [eapply down_wf; eauto|lia].
Qed.
