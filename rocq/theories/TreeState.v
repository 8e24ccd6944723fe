(** * TreeState: accesses and new references on the tree of all tags. *)
From Verif Require Import Base Spec BaseFacts SyncModel SyncSpec ConcModel BorrowModel BorrowSpec BorrowProofs BorrowState TBorrowModel TreeModel TreeSpec.

Lemma among_iff l n : among l n = true <-> In n l.
Proof. unfold among. rewrite existsb_exists. split; [intros (y & Y & E); apply Nat.eqb_eq in E; subst; exact Y|intros I; exists n; split; [exact I|apply Nat.eqb_refl]]. Qed.

Lemma in_addrs b x : In x (addrs b) <-> in_block b x.
Proof.
  unfold addrs, in_block. rewrite in_map_iff. split.
  - intros (i & <- & I). apply in_seq in I. lia.
  - intros X. exists (Z.to_nat (x - start b)). split; [lia|]. apply in_seq. lia.
Qed.

(** ** Tags that nobody can take away: shared references inside of UnsafeCells, and the allocation's own tag *)
Definition quiet (s : tree) (x : Z) (y : nat) : Prop := perms s x y = PCell \/ (y = 0%nat /\ perms s x y = PActive).

Lemma quiet_child w s x y : quiet s x y -> child w (perms s x y) = Some (perms s x y).
Proof. intros [->|[_ ->]]; destruct w; reflexivity. Qed.

Lemma access_line w t b s s' : tree_access w t b s = Some s' -> line s' = line s.
Proof. unfold tree_access. destruct (forallb _ _); [|discriminate]. intros [= <-]. reflexivity. Qed.

Lemma access_out w t b s s' x : tree_access w t b s = Some s' -> ~ in_block b x -> perms s' x = perms s x.
Proof.
  unfold tree_access. destruct (forallb _ _); [|discriminate]. intros [= <-] N. cbn [perms]. destruct (inb b x) eqn:E; [|reflexivity].
  exfalso. apply N. apply inb_iff. exact E.
Qed.

Lemma access_in w t b s s' x : tree_access w t b s = Some s' -> in_block b x -> allowed w (line s t) (perms s x) = true /\ perms s' x = after w (line s t) (perms s x).
Proof.
  unfold tree_access. destruct (forallb _ _) eqn:F; [|discriminate]. intros [= <-] X. cbn [perms]. rewrite (proj2 (inb_iff b x) X). split; [|reflexivity].
  rewrite forallb_forall in F. apply F. apply in_addrs. exact X.
Qed.

Lemma access_some w t b s : (forall x, in_block b x -> allowed w (line s t) (perms s x) = true) -> exists s', tree_access w t b s = Some s'.
Proof.
  intros A. unfold tree_access. replace (forallb _ _) with true; [eauto|]. symmetry. apply forallb_forall. intros x X. apply A. apply in_addrs. exact X.
Qed.

Lemma access_quiet w t b s s' x y : tree_access w t b s = Some s' -> In 0%nat (line s t) -> quiet s x y -> quiet s' x y.
Proof.
  intros E Z0 Q. destruct (inb b x) eqn:B.
  - apply inb_iff in B. destruct (access_in _ _ _ _ _ _ E B) as [_ P]. unfold quiet. rewrite P. unfold after.
    destruct (among (line s t) y) eqn:M; [rewrite (quiet_child w s x y Q); exact Q|]. destruct Q as [->|[-> Q]]; [left; destruct w; reflexivity|].
    exfalso. apply not_true_iff_false in M. apply M. apply among_iff. exact Z0.
  - assert (N : ~ in_block b x) by (rewrite <- inb_iff; congruence). unfold quiet. rewrite (access_out _ _ _ _ _ _ E N). exact Q.
Qed.

(** ** An object of the client *)
Record related (s : tree) (n : nat) (o : nobj) (root : nat) (up : list nat) : Prop := {
  r_tags : forall y, In y (ntags o) -> (1 <= y < n)%nat;
  r_root : In root (ntags o);
  r_line : forall y, In y (ntags o) -> line s y = line (ntree o) y ++ up /\ incl (line (ntree o) y) (ntags o) /\ In root (line (ntree o) y);
  r_up : forall y, In y up -> ~ In y (ntags o) /\ (y < n)%nat;
  r_zero : In 0%nat up;
  r_quiet : forall x y, in_block (nblk o) x -> In y up -> quiet s x y;
  r_perm : forall x y, in_block (nblk o) x -> In y (ntags o) ->
    perms s x y = perms (ntree o) x y \/ (y = root /\ perms s x y = PCell /\ perms (ntree o) x y = PActive) }.

Record tholds (cs : caps) (objs : list nobj) (s : forest) : Prop := {
  t_next : (1 <= fresh_tag s)%nat;
  t_root : line (nodes s) 0 = [0%nat] /\ forall x, perms (nodes s) x 0%nat = PActive;
  t_line : forall n, (1 <= n < fresh_tag s)%nat -> exists l, line (nodes s) n = n :: l /\ In 0%nat l /\ Forall (fun y => (y < n)%nat) l;
  t_caps : forall n bs, In (n, bs) cs -> (n < fresh_tag s)%nat /\ forall b x y, In b bs -> in_block b x -> In y (line (nodes s) n) -> quiet (nodes s) x y;
  t_objs : forall o, In o objs -> exists root up, related (nodes s) (fresh_tag s) o root up }.

Lemma t_zero cs objs s n : tholds cs objs s -> (n < fresh_tag s)%nat -> In 0%nat (line (nodes s) n).
Proof.
  intros H L. destruct n as [|n].
  - rewrite (proj1 (t_root _ _ _ H)). left. reflexivity.
  - destruct (t_line _ _ _ H (S n)) as (l & -> & Z0 & _); [lia|]. right. exact Z0.
Qed.

Lemma tholds_less cs cs' objs s : incl cs' cs -> tholds cs objs s -> tholds cs' objs s.
Proof. intros I [a b c d e]. split; auto. Qed.

Lemma can_quiet cs objs s n x : tholds cs objs s -> can cs x n -> (n < fresh_tag s)%nat /\ forall y, In y (line (nodes s) n) -> quiet (nodes s) x y.
Proof. intros H (bs & b & I & B & X). destruct (t_caps _ _ _ H n bs I) as [L Q]. split; [exact L|]. intros y Y. eapply Q; eauto. Qed.

(** The library accesses bytes that are those of no object. *)
Lemma related_out s s' n o root up : related s n o root up -> line s' = line s -> (forall x, in_block (nblk o) x -> perms s' x = perms s x) -> related s' n o root up.
Proof.
  intros [a b c d e f g] L P. split; auto.
  - intros y Y. rewrite L. auto.
  - intros x y X Y. unfold quiet. rewrite (P x X). exact (f x y X Y).
  - intros x y X Y. rewrite (P x X). auto.
Qed.

Lemma access_keeps w cs objs s t b r : tholds cs objs s -> (t < fresh_tag s)%nat -> tree_access w t b (nodes s) = Some r ->
  (line r 0 = [0%nat] /\ forall x, perms r x 0%nat = PActive) /\
  (forall n, (1 <= n < fresh_tag s)%nat -> exists l, line r n = n :: l /\ In 0%nat l /\ Forall (fun y => (y < n)%nat) l) /\
  (forall n bs, In (n, bs) cs -> (n < fresh_tag s)%nat /\ forall b x y, In b bs -> in_block b x -> In y (line r n) -> quiet r x y).
Proof.
  intros H L E. pose proof (access_line _ _ _ _ _ E) as El. rewrite El. pose proof (t_zero _ _ _ _ H L) as Z0. split; [|split].
  - split; [apply (t_root _ _ _ H)|]. intros x. assert (Q : quiet (nodes s) x 0%nat) by (right; split; [reflexivity|apply (t_root _ _ _ H)]).
    destruct (inb b x) eqn:B.
    + apply inb_iff in B. destruct (access_in _ _ _ _ _ _ E B) as [_ ->]. unfold after. rewrite (proj2 (among_iff _ _) Z0), (quiet_child w _ _ _ Q). apply (t_root _ _ _ H).
    + rewrite (access_out _ _ _ _ _ _ E); [apply (t_root _ _ _ H)|]. rewrite <- inb_iff. congruence.
  - apply (t_line _ _ _ H).
  - intros n bs I. destruct (t_caps _ _ _ H n bs I) as [Ln Q]. split; [exact Ln|]. intros b0 x y B X Y. eapply access_quiet; eauto.
Qed.

Lemma lib_tree_access w cs objs s t b : tholds cs objs s -> over cs t [b] -> (forall o, In o objs -> disjoint b (nblk o)) -> (t < fresh_tag s)%nat ->
  exists r, tree_access w t b (nodes s) = Some r /\ tholds cs objs (MkS r (fresh_tag s)).
Proof.
  intros H O D L. destruct (access_some w t b (nodes s)) as [r E].
  { intros x X. destruct (can_quiet cs objs s t x H (O b x (or_introl eq_refl) X)) as [_ Q]. apply forallb_forall. intros y Y. rewrite (quiet_child w _ _ _ (Q y Y)). reflexivity. }
  exists r. split; [exact E|]. destruct (access_keeps w cs objs s t b r H L E) as (K1 & K2 & K3). split; cbn [nodes fresh_tag]; auto; [apply (t_next _ _ _ H)|].
  intros o I. destruct (t_objs _ _ _ H o I) as (root & up & R). exists root, up. eapply related_out; [exact R|apply (access_line _ _ _ _ _ E)|].
  intros x X. apply (access_out _ _ _ _ _ _ E). intros X'. exact (D o I x (conj X' X)).
Qed.

(** ** New references *)
Definition grow (s : tree) (n t : nat) (f : Z -> tperm) : tree :=
  MkTree (fun y => if Nat.eqb y n then n :: line s t else line s y) (fun x y => if Nat.eqb y n then f x else perms s x y).

Lemma eqb_old n y : (y < n)%nat -> Nat.eqb y n = false.
Proof. intros. apply Nat.eqb_neq. lia. Qed.

Lemma grow_line s n t f y : (y < n)%nat -> line (grow s n t f) y = line s y.
Proof. intros L. cbn [grow line]. rewrite eqb_old by exact L. reflexivity. Qed.
Lemma grow_perm s n t f x y : (y < n)%nat -> perms (grow s n t f) x y = perms s x y.
Proof. intros L. cbn [grow perms]. rewrite eqb_old by exact L. reflexivity. Qed.

Lemma grow_related s n t f o root up : related s n o root up -> related (grow s n t f) (S n) o root up.
Proof.
  intros R. pose proof R as [a b c d e g h]. split; auto.
  - intros y Y. specialize (a y Y). lia.
  - intros y Y. rewrite grow_line by apply (a y Y). auto.
  - intros y Y. split; [apply d; exact Y|]. specialize (d y Y). lia.
  - intros x y X Y. unfold quiet. rewrite grow_perm by apply (d y Y). exact (g x y X Y).
  - intros x y X Y. rewrite grow_perm by apply (a y Y). auto.
Qed.

Lemma below_line cs objs s n y : tholds cs objs s -> (n < fresh_tag s)%nat -> In y (line (nodes s) n) -> (y < fresh_tag s)%nat.
Proof.
  intros H L Y. destruct n as [|n].
  - rewrite (proj1 (t_root _ _ _ H)) in Y. destruct Y as [<-|[]]. exact L.
  - destruct (t_line _ _ _ H (S n)) as (l & E & _ & F); [lia|]. rewrite E in Y. rewrite Forall_forall in F. destruct Y as [<-|Y]; [exact L|]. specialize (F y Y). lia.
Qed.

Lemma grow_holds cs objs s t f : tholds cs objs s -> (t < fresh_tag s)%nat -> tholds cs objs (MkS (grow (nodes s) (fresh_tag s) t f) (S (fresh_tag s))).
Proof.
  intros H L. pose proof (t_next _ _ _ H) as N1. split; cbn [nodes fresh_tag].
  - lia.
  - split; [rewrite grow_line by lia; apply (t_root _ _ _ H)|]. intros x. rewrite grow_perm by lia. apply (t_root _ _ _ H).
  - intros n Ln. destruct (Nat.eq_dec n (fresh_tag s)) as [->|Nn].
    + cbn [grow line]. rewrite Nat.eqb_refl. exists (line (nodes s) t). split; [reflexivity|]. split; [exact (t_zero cs objs s t H L)|]. apply Forall_forall. intros y Y. exact (below_line cs objs s t y H L Y).
    + rewrite grow_line by lia. apply (t_line _ _ _ H). lia.
  - intros n bs I. destruct (t_caps _ _ _ H n bs I) as [Ln Q]. split; [lia|]. intros b x y B X Y. rewrite grow_line in Y by exact Ln.
    unfold quiet. rewrite grow_perm by (eapply below_line; eauto). exact (Q b x y B X Y).
  - intros o I. destruct (t_objs _ _ _ H o I) as (root & up & R). exists root, up. apply grow_related. exact R.
Qed.

Lemma cells_reads t bs : forall s, tree_reads t false (map (pair true) bs) s = Some s.
Proof. induction bs as [|b bs IH]; intros s; cbn; auto. Qed.

(** A shared reference to bytes in UnsafeCells *)
Lemma cell_retag cs objs s t bs : tholds cs objs s -> (t < fresh_tag s)%nat -> over cs t bs ->
  exists r, tree_retag (fresh_tag s) t false (map (pair true) bs) (nodes s) = Some r /\ tholds ((fresh_tag s, bs) :: cs) objs (MkS r (S (fresh_tag s))).
Proof.
  intros H L O. unfold tree_retag. rewrite cells_reads. eexists. split; [reflexivity|].
  pose proof (grow_holds cs objs s t (fun x => initial false (cell_at (map (pair true) bs) x)) H L) as G. unfold grow in G. destruct G as [a b c d e]. split; auto.
  cbn [nodes fresh_tag] in *. intros n bs0 [[= <- <-]|I]; [|apply d; exact I]. split; [lia|]. intros b0 x y B X Y. cbn [line] in Y. rewrite Nat.eqb_refl in Y. unfold quiet. cbn [perms].
  destruct Y as [<-|Y].
  - left. rewrite Nat.eqb_refl. cbn [initial]. unfold cell_at. destruct (find _ _) as [[c1 b1]|] eqn:F.
    + apply find_some in F. destruct F as [F _]. apply in_map_iff in F. destruct F as (? & [= <- <-] & _). reflexivity.
    + exfalso. pose proof (find_none _ _ F (true, b0)) as K. cbn [snd] in K. rewrite (proj2 (inb_iff b0 x) X) in K. discriminate K. apply in_map. exact B.
  - destruct (can_quiet cs objs s t x H (O b0 x B X)) as [_ Q]. rewrite eqb_old by (eapply below_line; eauto). exact (Q y Y).
Qed.

(** ** Objects come to the client *)

(** ... by their pointer *)
Lemma adopt_tree cs objs s n b : tholds cs objs s -> (1 <= n)%nat -> (n < fresh_tag s)%nat -> over cs n [b] -> tholds cs (objs ++ [new_alloc b n PActive]) s.
Proof.
  intros H L1 L2 O. pose proof H as [h1 h2 h3 h4 h5]. split; auto. intros o I. apply in_app_or in I. destruct I as [I|[<-|[]]]; [auto|].
  destruct (h3 n (conj L1 L2)) as (l & El & Z0 & F). rewrite Forall_forall in F.
  assert (Q : forall x y, in_block b x -> In y (n :: l) -> quiet (nodes s) x y).
  { intros x y X Y. rewrite <- El in Y. destruct (can_quiet cs objs s n x H (O b x (or_introl eq_refl) X)) as [_ Q]. auto. }
  exists n, l. split; cbn [new_alloc ntags nblk ntree line perms].
  - intros y [<-|[]]. lia.
  - left. reflexivity.
  - intros y [<-|[]]. rewrite Nat.eqb_refl. split; [exact El|]. split; [apply incl_refl|left; reflexivity].
  - intros y Y. specialize (F y Y). split; [|lia]. intros [<-|[]]. lia.
  - exact Z0.
  - intros x y X Y. apply Q; [exact X|right; exact Y].
  - intros x y X [<-|[]]. destruct (Q x n X (or_introl eq_refl)) as [->|[-> _]]; [right; auto|lia].
Qed.

(** ... or by a new mutable reference *)
Lemma leak_tree cs objs s t b im : tholds cs objs s -> (t < fresh_tag s)%nat -> over cs t [b] -> (forall o, In o objs -> disjoint b (nblk o)) ->
  exists r, tree_retag (fresh_tag s) t true [(im, b)] (nodes s) = Some r /\
    tholds cs (objs ++ [new_alloc b (fresh_tag s) (PReserved im)]) (MkS r (S (fresh_tag s))).
Proof.
  intros H L O D. destruct (lib_tree_access false cs objs s t b H O D L) as (r1 & E1 & H1).
  unfold tree_retag. cbn [tree_reads negb andb]. rewrite E1. eexists. split; [reflexivity|].
  pose proof (t_next _ _ _ H) as N1.
  pose proof (grow_holds cs objs _ t (fun x => initial true (cell_at [(im, b)] x)) H1 L) as G. unfold grow in G. cbn [nodes fresh_tag] in G. destruct G as [a1 a2 a3 a4 a5]. split; auto.
  intros o I. apply in_app_or in I. destruct I as [I|[<-|[]]]; [auto|]. cbn [nodes fresh_tag] in *.
  exists (fresh_tag s), (line r1 t). split; cbn [new_alloc ntags nblk ntree line perms].
  - intros y [<-|[]]. lia.
  - left. reflexivity.
  - intros y [<-|[]]. rewrite Nat.eqb_refl. split; [reflexivity|]. split; [apply incl_refl|left; reflexivity].
  - intros y Y. pose proof (below_line cs objs _ t y H1 L Y) as K. cbn [fresh_tag] in K. split; [intros [<-|[]]; lia|lia].
  - exact (t_zero cs objs _ t H1 L).
  - intros x y X Y. pose proof (below_line cs objs _ t y H1 L Y) as K. cbn [fresh_tag] in K. unfold quiet. cbn [perms]. rewrite eqb_old by exact K.
    destruct (can_quiet cs objs _ t x H1 (O b x (or_introl eq_refl) X)) as [_ Q]. exact (Q y Y).
  - intros x y X [<-|[]]. left. rewrite Nat.eqb_refl. cbn [initial]. unfold cell_at. cbn [find snd]. rewrite (proj2 (inb_iff b x) X). reflexivity.
Qed.
