(** * TExitState: what the operations of TExitModel do to the tree of all tags. *)
From Verif Require Import Base Spec BaseFacts SyncModel SyncSpec UnsyncModel ConcModel BorrowModel BorrowSpec BorrowProofs BorrowState TBorrowModel
  UBorrowModel EBorrowModel TreeModel TreeSpec TreeState TExitModel TExitSpec.

Definition wf (s : forest) : Prop := tholds [] [] s.

Lemma wf_root s x : wf s -> perms (nodes s) x 0%nat = PActive.
Proof. intros H. apply (t_root _ _ _ H). Qed.
Lemma wf_line s n y : wf s -> (n < fresh_tag s)%nat -> In y (line (nodes s) n) -> (y < fresh_tag s)%nat.
Proof. apply below_line. Qed.
Lemma wf_zero s n : wf s -> (n < fresh_tag s)%nat -> In 0%nat (line (nodes s) n).
Proof. apply t_zero. Qed.

(** writable *)
Definition wp_ok (p : tperm) : Prop := p = PActive \/ (exists im, p = PReserved im) \/ p = PCell.
Definition wr (s : forest) (n : nat) (X : Z -> Prop) : Prop := (n < fresh_tag s)%nat /\ forall x y, X x -> In y (line (nodes s) n) -> wp_ok (perms (nodes s) x y).
(** nobody can take it away *)
Definition qt (s : forest) (n : nat) (X : Z -> Prop) : Prop := (n < fresh_tag s)%nat /\ forall x y, X x -> In y (line (nodes s) n) -> quiet (nodes s) x y.

Lemma qt_wr s n X : qt s n X -> wr s n X.
Proof. intros [L Q]. split; [exact L|]. intros x y Hx Y. destruct (Q x y Hx Y) as [-> | [_ ->]]; [right; right|left]; reflexivity. Qed.
Lemma wr_less s n (X Y : Z -> Prop) : (forall x, Y x -> X x) -> wr s n X -> wr s n Y.
Proof. intros I [L Q]. split; auto. Qed.
Lemma qt_less s n (X Y : Z -> Prop) : (forall x, Y x -> X x) -> qt s n X -> qt s n Y.
Proof. intros I [L Q]. split; auto. Qed.

(** What every step keeps: old tags keep their lines, permissions change in [B] only, and shared references into UnsafeCells stay. *)
Record step (B : Z -> Prop) (s s' : forest) : Prop := {
  s_wf : wf s';
  s_fresh : (fresh_tag s <= fresh_tag s')%nat;
  s_line : forall y, (y < fresh_tag s)%nat -> line (nodes s') y = line (nodes s) y;
  s_out : forall x y, ~ B x -> (y < fresh_tag s)%nat -> perms (nodes s') x y = perms (nodes s) x y;
  s_cell : forall x y, (y < fresh_tag s)%nat -> perms (nodes s') x y = PCell <-> perms (nodes s) x y = PCell }.

Lemma step_refl B s : wf s -> step B s s.
Proof. intros W. split; auto; tauto. Qed.
Lemma step_trans B s1 s2 s3 : step B s1 s2 -> step B s2 s3 -> step B s1 s3.
Proof.
  intros [a1 a2 a3 a4 a5] [b1 b2 b3 b4 b5]. split; auto; [lia| | |].
  - intros y Y. rewrite b3 by lia. auto.
  - intros x y X Y. rewrite b4 by (auto; lia). auto.
  - intros x y Y. rewrite b5 by lia. auto.
Qed.
Lemma step_more (B B' : Z -> Prop) s s' : (forall x, B x -> B' x) -> step B s s' -> step B' s s'.
Proof. intros I [a1 a2 a3 a4 a5]. split; auto. Qed.

Lemma step_quiet B s s' x y : step B s s' -> (y < fresh_tag s)%nat -> quiet (nodes s) x y -> quiet (nodes s') x y.
Proof. intros K L [Q | [-> _]]; [left; apply (s_cell _ _ _ K); assumption|right; split; [reflexivity|]]. apply wf_root. apply (s_wf _ _ _ K). Qed.
Lemma step_qt B s s' n X : wf s -> step B s s' -> qt s n X -> qt s' n X.
Proof.
  intros W K [L Q]. pose proof (s_fresh _ _ _ K). split; [lia|]. intros x y Hx Y. rewrite (s_line _ _ _ K) in Y by exact L. apply (step_quiet B s s'); auto. eapply wf_line; eauto.
Qed.
Lemma step_wr B s s' n (X : Z -> Prop) : wf s -> step B s s' -> (forall x, X x -> ~ B x) -> wr s n X -> wr s' n X.
Proof.
  intros W K D [L Q]. pose proof (s_fresh _ _ _ K). split; [lia|]. intros x y Hx Y. rewrite (s_line _ _ _ K) in Y by exact L.
  rewrite (s_out _ _ _ K); auto. eapply wf_line; eauto.
Qed.

(** ... and what it keeps if it goes through the pointer [p] *)
Definition down (p : nat) (B : Z -> Prop) (s s' : forest) : Prop := step B s s' /\
  (forall x y, In y (line (nodes s) p) -> wp_ok (perms (nodes s) x y) -> wp_ok (perms (nodes s') x y)) /\
  (forall x y, ~ In y (line (nodes s) p) -> (y < fresh_tag s)%nat -> perms (nodes s) x y = PReserved true -> perms (nodes s') x y = PReserved true).

Lemma down_trans p q B s1 s2 s3 : wf s1 -> (p < fresh_tag s1)%nat -> (forall y, (y < fresh_tag s1)%nat -> In y (line (nodes s2) q) <-> In y (line (nodes s1) p)) ->
  down p B s1 s2 -> down q B s2 s3 -> down p B s1 s3.
Proof.
  intros W L I (a1 & a2 & a3) (b1 & b2 & b3). pose proof (s_fresh _ _ _ a1). split; [eapply step_trans; eauto|]. split.
  - intros x y Y H0. apply b2; [|auto]. apply I; [|exact Y]. eapply wf_line; eauto.
  - intros x y Y H0 E. apply b3; [|lia|auto]. rewrite I by exact H0. exact Y.
Qed.
Lemma down_wr p B s s' X : wf s -> down p B s s' -> wr s p X -> wr s' p X.
Proof. intros W (K & D & _) [L Q]. pose proof (s_fresh _ _ _ K). split; [lia|]. intros x y Hx Y. rewrite (s_line _ _ _ K) in Y by exact L. apply D; auto. Qed.

(** ** One access *)
Lemma child_wp w p : wp_ok p -> exists q, child w p = Some q /\ wp_ok q.
Proof. intros [-> | [[im ->] | ->]]; destruct w; cbn; eexists; (split; [reflexivity|]); unfold wp_ok; eauto. Qed.
Lemma child_cell w p q : child w p = Some q -> (q = PCell <-> p = PCell).
Proof. destruct p as [im| | | |], w; cbn; try discriminate; intros [= <-]; split; intros; congruence. Qed.
Lemma foreign_cell w p : foreign w p = PCell <-> p = PCell.
Proof. destruct p as [[|]| | | |], w; cbn; split; intros; congruence. Qed.

Lemma access_step w p b s r : wf s -> (p < fresh_tag s)%nat -> tree_access w p b (nodes s) = Some r -> step (in_block b) s (MkS r (fresh_tag s)).
Proof.
  intros W L E. destruct (access_keeps w [] [] s p b r W L E) as (K1 & K2 & K3). split; cbn [nodes fresh_tag]; auto.
  - split; cbn [nodes fresh_tag]; auto; [apply (t_next _ _ _ W)|intros o []].
  - intros y _. rewrite (access_line _ _ _ _ _ E). reflexivity.
  - intros x y N _. rewrite (access_out _ _ _ _ _ _ E N). reflexivity.
  - intros x y _. destruct (inb b x) eqn:B.
    + apply inb_iff in B. destruct (access_in _ _ _ _ _ _ E B) as [A ->]. unfold after. destruct (among (line (nodes s) p) y) eqn:M; [|apply foreign_cell].
      destruct (child w (perms (nodes s) x y)) as [q|] eqn:C; [apply (child_cell w _ _ C)|tauto].
    + rewrite (access_out _ _ _ _ _ _ E); [tauto|]. rewrite <- inb_iff. congruence.
Qed.

Lemma access_after w p b s r x y : tree_access w p b s = Some r -> in_block b x -> In y (line s p) -> child w (perms s x y) = Some (perms r x y).
Proof.
  intros E B Y. destruct (access_in _ _ _ _ _ _ E B) as [A ->]. unfold after. rewrite (proj2 (among_iff _ _) Y). unfold allowed in A. rewrite forallb_forall in A. specialize (A y Y).
  destruct (child w (perms s x y)); [reflexivity|discriminate].
Qed.
Lemma access_else w p b s r x y : tree_access w p b s = Some r -> in_block b x -> ~ In y (line s p) -> perms r x y = foreign w (perms s x y).
Proof.
  intros E B Y. destruct (access_in _ _ _ _ _ _ E B) as [A ->]. unfold after. destruct (among (line s p) y) eqn:M; [|reflexivity]. apply among_iff in M. contradiction.
Qed.

Lemma access_down w p b s r : wf s -> (p < fresh_tag s)%nat -> tree_access w p b (nodes s) = Some r -> down p (in_block b) s (MkS r (fresh_tag s)).
Proof.
  intros W L E. split; [apply (access_step w p); assumption|]. cbn [nodes]. split; intros x y Y H.
  - destruct (inb b x) eqn:B.
    + apply inb_iff in B. pose proof (access_after _ _ _ _ _ _ _ E B Y) as C. destruct (child_wp w _ H) as (q & C' & Q). congruence.
    + rewrite (access_out _ _ _ _ _ _ E); [exact H|]. rewrite <- inb_iff. congruence.
  - intros Ep. destruct (inb b x) eqn:B.
    + apply inb_iff in B. rewrite (access_else _ _ _ _ _ _ _ E B Y), Ep. destruct w; reflexivity.
    + rewrite (access_out _ _ _ _ _ _ E); [exact Ep|]. rewrite <- inb_iff. congruence.
Qed.

Lemma access_can w p b s : wr s p (in_block b) -> exists r, tree_access w p b (nodes s) = Some r.
Proof.
  intros [L Q]. apply access_some. intros x X. apply forallb_forall. intros y Y. destruct (child_wp w _ (Q x y X Y)) as (q & -> & _). reflexivity.
Qed.

(** ** Several reads *)
Lemma reads_step p mutable parts (B : Z -> Prop) : forall s r, wf s -> (p < fresh_tag s)%nat -> (forall c b x, In (c, b) parts -> negb mutable && c = false -> in_block b x -> B x) ->
  tree_reads p mutable parts (nodes s) = Some r -> step B s (MkS r (fresh_tag s)) /\ line r = line (nodes s) /\ (forall x y, In y (line (nodes s) p) -> perms r x y = perms (nodes s) x y) /\
  (forall x y, ~ In y (line (nodes s) p) -> perms (nodes s) x y = PReserved true -> perms r x y = PReserved true).
Proof.
  induction parts as [|[c b] parts IH]; intros s r W L I E; cbn [tree_reads] in E.
  - injection E as <-. split; [|auto]. destruct s. apply step_refl. exact W.
  - destruct (negb mutable && c) eqn:C; [apply IH; auto; intros; eapply I; eauto; right; assumption|].
    destruct (tree_access false p b (nodes s)) as [r1|] eqn:E1; [|discriminate].
    pose proof (access_step false p b s r1 W L E1) as K1. destruct (IH (MkS r1 (fresh_tag s)) r) as (K2 & L2 & P2 & R2); cbn [fresh_tag nodes]; auto; [apply (s_wf _ _ _ K1)|intros; eapply I; eauto; right; assumption|].
    split; [|split; [|split]].
    + cbn [fresh_tag] in K2. eapply step_trans; [eapply step_more; [|exact K1]|exact K2]. intros x X. eapply I; [left; reflexivity|exact C|exact X].
    + rewrite L2. cbn [nodes]. apply (access_line _ _ _ _ _ E1).
    + intros x y Y. rewrite P2 by (cbn [nodes]; rewrite (access_line _ _ _ _ _ E1); exact Y). cbn [nodes]. destruct (inb b x) eqn:X.
      * apply inb_iff in X. pose proof (access_after _ _ _ _ _ _ _ E1 X Y) as A. destruct (perms (nodes s) x y) as [im| | | |] eqn:Ep; cbn in A; congruence.
      * rewrite (access_out _ _ _ _ _ _ E1); [reflexivity|]. rewrite <- inb_iff. congruence.
    + intros x y Y Ep. apply R2; cbn [nodes]; [rewrite (access_line _ _ _ _ _ E1); exact Y|]. destruct (inb b x) eqn:X.
      * apply inb_iff in X. rewrite (access_else _ _ _ _ _ _ _ E1 X Y), Ep. reflexivity.
      * rewrite (access_out _ _ _ _ _ _ E1); [exact Ep|]. rewrite <- inb_iff. congruence.
Qed.

Lemma reads_can p mutable parts : forall s, wf s -> wr s p (fun x => exists c b, In (c, b) parts /\ in_block b x) -> exists r, tree_reads p mutable parts (nodes s) = Some r.
Proof.
  induction parts as [|[c b] parts IH]; intros s W Wr; cbn [tree_reads]; [eauto|].
  assert (Wr' : wr s p (fun x => exists c b, In (c, b) parts /\ in_block b x)) by (eapply wr_less; [|exact Wr]; intros x (c' & b' & I & X); exists c', b'; split; [right; exact I|exact X]).
  destruct (negb mutable && c); [apply IH; assumption|].
  destruct (access_can false p b s) as [r1 E1]; [eapply wr_less; [|exact Wr]; intros x X; exists c, b; split; [left; reflexivity|exact X]|]. rewrite E1.
  pose proof (access_down false p b s r1 W (proj1 Wr) E1) as K. apply (IH (MkS r1 (fresh_tag s))); [apply (s_wf _ _ _ (proj1 K))|]. eapply down_wr; eauto.
Qed.

(** ** A new reference *)
Lemma wf_grow s p f : wf s -> (p < fresh_tag s)%nat -> step (fun _ => False) s (MkS (grow (nodes s) (fresh_tag s) p f) (S (fresh_tag s))).
Proof.
  intros W L. split; cbn [nodes fresh_tag]; auto.
  - apply grow_holds; assumption.
  - intros y Y. apply grow_line. exact Y.
  - intros x y _ Y. apply grow_perm. exact Y.
  - intros x y Y. rewrite grow_perm by exact Y. tauto.
Qed.

Lemma retag_step p mutable parts (B : Z -> Prop) s r : wf s -> (p < fresh_tag s)%nat -> (forall c b x, In (c, b) parts -> negb mutable && c = false -> in_block b x -> B x) ->
  tree_retag (fresh_tag s) p mutable parts (nodes s) = Some r ->
  step B s (MkS r (S (fresh_tag s))) /\ line r (fresh_tag s) = fresh_tag s :: line (nodes s) p /\ (forall x, perms r x (fresh_tag s) = initial mutable (cell_at parts x)) /\
  (forall x y, In y (line (nodes s) p) -> perms r x y = perms (nodes s) x y) /\ down p B s (MkS r (S (fresh_tag s))).
Proof.
  intros W L I E. unfold tree_retag in E. destruct (tree_reads p mutable parts (nodes s)) as [r1|] eqn:E1; [|discriminate]. injection E as <-.
  destruct (reads_step p mutable parts B s r1 W L I E1) as (K & El & P & R). pose proof (wf_grow (MkS r1 (fresh_tag s)) p (fun x => initial mutable (cell_at parts x)) (s_wf _ _ _ K) L) as G. unfold grow in G. cbn [nodes fresh_tag] in G.
  assert (St : step B s (MkS {| line := fun y => if Nat.eqb y (fresh_tag s) then fresh_tag s :: line r1 p else line r1 y;
    perms := fun x y => if Nat.eqb y (fresh_tag s) then initial mutable (cell_at parts x) else perms r1 x y |} (S (fresh_tag s)))).
  { eapply step_trans; [exact K|]. eapply step_more; [|exact G]. intros x []. }
  assert (Ol : forall x y, In y (line (nodes s) p) -> (if Nat.eqb y (fresh_tag s) then initial mutable (cell_at parts x) else perms r1 x y) = perms (nodes s) x y).
  { intros x y Y. rewrite eqb_old by (eapply wf_line; eauto). apply P. exact Y. }
  split; [exact St|]. split; [|split; [|split; [exact Ol|split; [exact St|split]]]].
  - cbn [line]. rewrite Nat.eqb_refl, El. reflexivity.
  - intros x. cbn [perms]. rewrite Nat.eqb_refl. reflexivity.
  - intros x y Y H. cbn [nodes perms]. rewrite Ol by exact Y. exact H.
  - intros x y Y H Ep. cbn [nodes perms]. rewrite eqb_old by exact H. apply R; assumption.
Qed.

Lemma retag_can n p mutable parts s : wf s -> wr s p (fun x => exists c b, In (c, b) parts /\ in_block b x) -> exists r, tree_retag n p mutable parts (nodes s) = Some r.
Proof. intros W Wr. unfold tree_retag. destruct (reads_can p mutable parts s W Wr) as [r ->]. eauto. Qed.

(** ** Operations *)
Definition op {A} (m : F A) (s : forest) (Q : A -> forest -> Prop) : Prop := match m s with Some (a, s') => Q a s' | None => False end.

Lemma op_ret {A} (a : A) s (Q : A -> forest -> Prop) : Q a s -> op (fret a) s Q.
Proof. intros H. exact H. Qed.
Lemma op_bind {A B} (m : F A) (f : A -> F B) s (Q : B -> forest -> Prop) : op m s (fun a s1 => op (f a) s1 Q) -> op (fbind m f) s Q.
Proof. unfold op, fbind. destruct (m s) as [[a s1]|]; auto. Qed.
Lemma op_weaken {A} (m : F A) s (Q Q' : A -> forest -> Prop) : (forall a s', Q a s' -> Q' a s') -> op m s Q -> op m s Q'.
Proof. unfold op. destruct (m s) as [[a s1]|]; auto. Qed.
Lemma op_some {A} (m : F A) s (Q : A -> forest -> Prop) : op m s Q -> exists a s', m s = Some (a, s') /\ Q a s'.
Proof. unfold op. destruct (m s) as [[a s1]|]; [eauto|contradiction]. Qed.

Lemma op_access w p b s : wf s -> wr s p (in_block b) -> op (f_access w p b) s (fun _ s' => down p (in_block b) s s').
Proof. intros W Wr. unfold op, f_access. destruct (access_can w p b s Wr) as [r E]. rewrite E. apply access_down with (w := w); auto. apply Wr. Qed.

(** the result of a retag: a child of [p] *)
Record kid (p : nat) (s : forest) (n : nat) (s' : forest) : Prop := {
  k_old : (fresh_tag s <= n < fresh_tag s')%nat;
  k_line : line (nodes s') n = n :: line (nodes s) p }.

Definition in_any (bs : list block) (x : Z) : Prop := exists b, In b bs /\ in_block b x.

Lemma cells_find bs x : bs <> [] -> cell_at (map (pair true) bs) x = true.
Proof.
  intros N. unfold cell_at. destruct (find _ _) as [[c b]|] eqn:E.
  - apply find_some in E. destruct E as [E _]. apply in_map_iff in E. destruct E as (? & [= <- <-] & _). reflexivity.
  - destruct bs; [congruence|reflexivity].
Qed.

(** a shared reference to UnsafeCells, or a raw pointer *)
Lemma op_cell im p bs s : wf s -> (p < fresh_tag s)%nat -> bs <> [] ->
  op (f_retag im p (map (pair RCell) bs)) s (fun n s' => down p (fun _ => False) s s' /\ kid p s n s' /\ (forall x, perms (nodes s') x n = PCell)).
Proof.
  intros W L N. unfold op, f_retag. replace (as_mutable (map (pair RCell) bs)) with false by (clear; induction bs; cbn; auto).
  replace (as_cells im (map (pair RCell) bs)) with (map (pair true) bs) by (unfold as_cells; rewrite map_map; reflexivity).
  unfold tree_retag. rewrite cells_reads.
  assert (E : tree_retag (fresh_tag s) p false (map (pair true) bs) (nodes s) = Some (MkTree (fun y => if Nat.eqb y (fresh_tag s) then fresh_tag s :: line (nodes s) p else line (nodes s) y)
      (fun x y => if Nat.eqb y (fresh_tag s) then initial false (cell_at (map (pair true) bs) x) else perms (nodes s) x y))) by (unfold tree_retag; rewrite cells_reads; reflexivity).
  assert (Im : forall c b x, In (c, b) (map (pair true) bs) -> negb false && c = false -> in_block b x -> (fun _ : Z => False) x).
  { intros c b x I C. apply in_map_iff in I. destruct I as (? & [= <- <-] & _). discriminate. }
  pose proof (retag_step p false (map (pair true) bs) (fun _ => False) s _ W L Im E) as (K & El & P & O & D).
  split; [exact D|split; [split; [cbn [fresh_tag]; lia|exact El]|]].
  - intros x. cbn [nodes]. rewrite P, cells_find by exact N. reflexivity.
Qed.

(** a unique reference *)
Lemma op_unique im p bs s : wf s -> bs <> [] -> wr s p (in_any bs) ->
  op (f_retag im p (map (pair RUnique) bs)) s (fun n s' => down p (in_any bs) s s' /\ kid p s n s' /\ (forall x, perms (nodes s') x n = PReserved im) /\
    (forall x y, In y (line (nodes s) p) -> perms (nodes s') x y = perms (nodes s) x y)).
Proof.
  intros W N Wr. pose proof (proj1 Wr) as L. unfold op, f_retag. replace (as_mutable (map (pair RUnique) bs)) with true by (destruct bs; [congruence|reflexivity]).
  replace (as_cells im (map (pair RUnique) bs)) with (map (pair im) bs) by (unfold as_cells; rewrite map_map; reflexivity).
  destruct (retag_can (fresh_tag s) p true (map (pair im) bs) s W) as [r E].
  { eapply wr_less; [|exact Wr]. intros x (c & b & I & X). apply in_map_iff in I. destruct I as (b' & [= <- <-] & I). exists b'. auto. }
  rewrite E. destruct (retag_step p true (map (pair im) bs) (in_any bs) s r W L) as (K & El & P & O & D); [|exact E|].
  { intros c b x I _ X. apply in_map_iff in I. destruct I as (b' & [= <- <-] & I). exists b'. auto. }
  split; [exact D|split; [split; [cbn [fresh_tag]; lia|exact El]|split; [|exact O]]].
  - intros x. cbn [nodes]. rewrite P. cbn [initial]. f_equal. unfold cell_at. destruct (find _ _) as [[c b]|] eqn:E1.
    + apply find_some in E1. destruct E1 as [E1 _]. apply in_map_iff in E1. destruct E1 as (? & [= <- <-] & _). reflexivity.
    + destruct bs as [|b bs]; [congruence|]. cbn. destruct im; [reflexivity|]. clear. induction bs; cbn; auto.
Qed.

(** what one can do with the result *)
Lemma kid_lt p s n s' : kid p s n s' -> (n < fresh_tag s')%nat.
Proof. intros [K _]. lia. Qed.
Lemma kid_wr p B s n s' X : wf s -> down p B s s' -> kid p s n s' -> (forall x, wp_ok (perms (nodes s') x n)) -> wr s p X -> wr s' n X.
Proof.
  intros W (K & D & _) [k1 k2] P [L Q]. split; [lia|]. intros x y Hx Y. rewrite k2 in Y. destruct Y as [<-|Y]; [apply P|]. apply D; [exact Y|]. apply Q; assumption.
Qed.
Lemma kid_qt p B s n s' X : wf s -> step B s s' -> kid p s n s' -> (forall x, perms (nodes s') x n = PCell) -> qt s p X -> qt s' n X.
Proof.
  intros W K [k1 k2] P [L Q]. split; [lia|]. intros x y Hx Y. rewrite k2 in Y. destruct Y as [<-|Y]; [left; apply P|]. apply (step_quiet B s s'); auto. eapply wf_line; eauto.
Qed.
Lemma kid_down p B s n s' s3 : wf s -> (p < fresh_tag s)%nat -> kid p s n s' -> down p B s s' -> down n B s' s3 -> down p B s s3.
Proof.
  intros W L [k1 k2]. apply down_trans; auto. rewrite k2. intros y Y. split; [|right; assumption]. intros [<-|K]; [lia|exact K].
Qed.
Lemma down_seq p B s s' s3 : wf s -> (p < fresh_tag s)%nat -> down p B s s' -> down p B s' s3 -> down p B s s3.
Proof. intros W L D. apply down_trans; auto. intros y _. rewrite (s_line _ _ _ (proj1 D)) by exact L. tauto. Qed.
Lemma wp_cell : wp_ok PCell. Proof. right. right. reflexivity. Qed.
Lemma wp_res im : wp_ok (PReserved im). Proof. right. left. eauto. Qed.
Lemma down_more p (B B' : Z -> Prop) s s' : (forall x, B x -> B' x) -> down p B s s' -> down p B' s s'.
Proof. intros I [K D]. split; [eapply step_more; eauto|exact D]. Qed.
Lemma down_none p B s s' : down p (fun _ => False) s s' -> down p B s s'.
Proof. apply down_more. intros x []. Qed.
Lemma down_wf p B s s' : down p B s s' -> wf s'.
Proof. intros [K _]. apply (s_wf _ _ _ K). Qed.
Lemma down_refl p B s : wf s -> down p B s s.
Proof. intros W. split; [apply step_refl; exact W|]. auto. Qed.

(** a new pointer, and the rest of the program goes through it *)
Lemma via_cell {A} im p bs s (k : nat -> F A) B (Phi : A -> forest -> Prop) : wf s -> (p < fresh_tag s)%nat -> bs <> [] ->
  (forall n s', down p (fun _ => False) s s' -> kid p s n s' -> (forall x, perms (nodes s') x n = PCell) -> op (k n) s' (fun a s'' => down n B s' s'' /\ Phi a s'')) ->
  op (n <~ f_retag im p (map (pair RCell) bs) ~; k n) s (fun a s'' => down p B s s'' /\ Phi a s'').
Proof.
  intros W L N H. apply op_bind. eapply op_weaken; [|apply op_cell; eauto]. intros n s' (D & K & P). eapply op_weaken; [|apply H; eauto].
  intros a s'' [D' X]. split; [|exact X]. eapply kid_down; eauto. apply down_none. exact D.
Qed.
Lemma via_unique {A} im p bs s (k : nat -> F A) (B : Z -> Prop) (Phi : A -> forest -> Prop) : wf s -> bs <> [] -> wr s p (in_any bs) -> (forall x, in_any bs x -> B x) ->
  (forall n s', down p (in_any bs) s s' -> kid p s n s' -> (forall x, perms (nodes s') x n = PReserved im) ->
    (forall x y, In y (line (nodes s) p) -> perms (nodes s') x y = perms (nodes s) x y) -> op (k n) s' (fun a s'' => down n B s' s'' /\ Phi a s'')) ->
  op (n <~ f_retag im p (map (pair RUnique) bs) ~; k n) s (fun a s'' => down p B s s'' /\ Phi a s'').
Proof.
  intros W N Wr Bs H. apply op_bind. eapply op_weaken; [|apply op_unique; eauto]. intros n s' (D & K & P & O). eapply op_weaken; [|apply H; eauto].
  intros a s'' [D' X]. split; [|exact X]. eapply kid_down; eauto; [apply Wr|]. eapply down_more; eauto.
Qed.
Lemma via_seq {A C} p s (m : F A) (k : A -> F C) B (Psi : A -> forest -> Prop) (Phi : C -> forest -> Prop) : wf s -> (p < fresh_tag s)%nat ->
  op m s (fun a s' => down p B s s' /\ Psi a s') -> (forall a s', down p B s s' -> Psi a s' -> op (k a) s' (fun c s'' => down p B s' s'' /\ Phi c s'')) ->
  op (a <~ m ~; k a) s (fun c s'' => down p B s s'' /\ Phi c s'').
Proof.
  intros W L M H. apply op_bind. eapply op_weaken; [|exact M]. intros a s' [D X]. eapply op_weaken; [|apply H; eauto]. intros c s'' [D' Y]. split; [|exact Y]. eapply down_seq; eauto.
Qed.
Lemma via_end {A} p (m : F A) s B (Phi : A -> forest -> Prop) : op m s (fun a s' => down p B s s' /\ Phi a s') -> op m s (fun a s' => down p B s s' /\ Phi a s').
Proof. auto. Qed.
