(** * TExitVal: a pinned value in the tree of all tags, and the same value as an allocation of its own. *)
From Verif Require Import Base Spec BaseFacts SyncModel SyncSpec UnsyncModel ExitModel ConcModel BorrowModel BorrowSpec BorrowProofs BorrowState TBorrowModel
  UBorrowModel EBorrowModel TreeModel TreeSpec TreeState TreeAct TExitModel TExitSpec TExitState TExitOps TExitSlot.

(** Pointer [p] of the stack's tree does what [q] does in the object's own tree; [up]: where the allocation comes from; [ex]: tags that
    have nothing to do with it. *)
Record linked (ex : list nat) (s : forest) (o : nobj) (base : nat) (up : list nat) (p q : nat) : Prop := {
  k_lt : (p < fresh_tag s)%nat;
  k_up : incl (base :: up) (line (nodes s) p);
  k_in : forall y, In y (base :: ntags o) -> In y (line (nodes s) p) <-> In y (line (ntree o) q);
  k_else : forall y, In y (line (nodes s) p) -> In y (base :: ntags o) \/ In y up \/ (forall x, in_block (nblk o) x -> perms (nodes s) x y = PCell);
  k_ex : forall y, In y (line (nodes s) p) -> ~ In y ex;
  k_ideal : incl (line (ntree o) q) (base :: ntags o) }.

Definition byte_ok (unpin : bool) (s : forest) (l : list nat) (x : Z) (i : tperm) : Prop :=
  match i with
  | PCell => unpin = false /\ forall y, In y l -> quiet (nodes s) x y
  | PActive => (forall y, In y l -> active s x y) /\ exists z, In z l /\ z <> 0%nat /\ perms (nodes s) x z = PActive
  | PFrozen => (forall y, In y l -> active s x y \/ perms (nodes s) x y = PFrozen) /\ exists z, In z l /\ perms (nodes s) x z = PFrozen
  | _ => False
  end.

Record vrel (ex : list nat) (unpin : bool) (s : forest) (o : nobj) (base : nat) (up : list nat) : Prop := {
  v_line : line (nodes s) base = base :: up;
  v_ibase : line (ntree o) base = [base];
  v_tags : forall y, In y (ntags o) -> y <> base;
  v_linked : forall y, In y (base :: ntags o) -> linked ex s o base up y y;
  v_perm : forall x y, in_block (nblk o) x -> In y (ntags o) -> perms (nodes s) x y = perms (ntree o) x y;
  v_byte : forall x, in_block (nblk o) x -> byte_ok unpin s (base :: up) x (perms (ntree o) x base) }.

Lemma v_lt ex unp s o base up y : vrel ex unp s o base up -> In y (base :: ntags o) -> (y < fresh_tag s)%nat.
Proof. intros V Y. apply (k_lt _ _ _ _ _ _ _ (v_linked _ _ _ _ _ _ V y Y)). Qed.
Lemma v_up ex unp s o base up y : wf s -> vrel ex unp s o base up -> In y (base :: up) -> (y < fresh_tag s)%nat.
Proof. intros W V Y. eapply wf_line; [exact W| |rewrite (v_line _ _ _ _ _ _ V); exact Y]. eapply v_lt; eauto. left. reflexivity. Qed.

(** ** Steps elsewhere *)
Lemma linked_step ex B s s' o o' base up p q : wf s -> step B s s' -> nblk o' = nblk o -> ntags o' = ntags o -> line (ntree o') = line (ntree o) ->
  linked ex s o base up p q -> linked ex s' o' base up p q.
Proof.
  intros W K E1 E2 E3 [a1 a2 a3 a4 a5 a6]. pose proof (s_fresh _ _ _ K). pose proof (s_line _ _ _ K p a1) as L. split; rewrite ?L, ?E1, ?E2, ?E3; auto; [lia|].
  intros y Y. destruct (a4 y Y) as [Q|[Q|Q]]; auto. right. right. intros x X. apply (s_cell _ _ _ K); [eapply wf_line; eauto|apply Q; exact X].
Qed.

Lemma vrel_step ex unp B s s' o base up : wf s -> step B s s' -> (forall x, in_block (nblk o) x -> ~ B x) -> vrel ex unp s o base up -> vrel ex unp s' o base up.
Proof.
  intros W K D V. pose proof V as [a1 a2 a3 a4 a5 a6].
  assert (Up : forall y x, in_block (nblk o) x -> In y (base :: up) -> perms (nodes s') x y = perms (nodes s) x y).
  { intros y x X Y. apply (s_out _ _ _ K); [apply D; exact X|]. eapply v_up; eauto. }
  split; auto.
  - rewrite (s_line _ _ _ K); [exact a1|]. eapply v_lt; eauto. left. reflexivity.
  - intros y Y. eapply linked_step; eauto.
  - intros x y X Y. rewrite (s_out _ _ _ K); auto. eapply v_lt; eauto. right. exact Y.
  - intros x X. specialize (a6 x X). unfold byte_ok, active, quiet in *. destruct (perms (ntree o) x base); auto.
    + destruct a6 as [Q (z & Z1 & Z2 & Z3)]. split; [intros y Y; rewrite (Up y x X Y); auto|]. exists z. rewrite (Up z x X Z1). auto.
    + destruct a6 as [Q (z & Z1 & Z2)]. split; [intros y Y; rewrite (Up y x X Y); auto|]. exists z. rewrite (Up z x X Z1). auto.
    + destruct a6 as [Q0 Q]. split; [exact Q0|]. intros y Y. rewrite (Up y x X Y). auto.
Qed.

Lemma linked_ex ex ex' s o base up p q : (forall y, In y ex' -> (fresh_tag s <= y)%nat \/ In y ex) -> wf s -> linked ex s o base up p q -> linked ex' s o base up p q.
Proof.
  intros F W [a1 a2 a3 a4 a5 a6]. split; auto. intros y Y I. destruct (F y I) as [G|G]; [|exact (a5 y Y G)]. pose proof (wf_line s p y W a1 Y). lia.
Qed.
Lemma vrel_ex ex ex' unp s o base up : (forall y, In y ex' -> (fresh_tag s <= y)%nat \/ In y ex) -> wf s -> vrel ex unp s o base up -> vrel ex' unp s o base up.
Proof. intros F W [a1 a2 a3 a4 a5 a6]. split; auto. intros y Y. eapply linked_ex; eauto. Qed.

(** ** Accesses *)
Lemma v_allowed ex unp s o base up p q w x : vrel ex unp s o base up -> linked ex s o base up p q -> in_block (nblk o) x ->
  allowed w (line (nodes s) p) (perms (nodes s) x) = allowed w (line (ntree o) q) (perms (ntree o) x).
Proof.
  intros V K X. pose proof (v_byte _ _ _ _ _ _ V x X) as Bx. pose proof K as [a1 a2 a3 a4 a5 a6].
  assert (Ib : In base (line (ntree o) q)) by (apply a3; [left; reflexivity|apply a2; left; reflexivity]).
  apply eq_true_iff_eq. unfold allowed. rewrite !forallb_forall. split; intros A y Y.
  - destruct (a6 y Y) as [<-|T].
    + unfold byte_ok in Bx. destruct (perms (ntree o) x base) as [im| | | |] eqn:Ep; try contradiction; [destruct w; reflexivity| |destruct w; reflexivity].
      destruct Bx as [_ (z & Z1 & Z2)]. specialize (A z (a2 z Z1)). rewrite Z2 in A. exact A.
    + specialize (A y (proj2 (a3 y (or_intror T)) Y)). rewrite (v_perm _ _ _ _ _ _ V x y X T) in A. exact A.
  - assert (Up : In y (base :: up) -> match child w (perms (nodes s) x y) with Some _ => true | None => false end = true).
    { intros U. specialize (A base Ib). unfold byte_ok in Bx. destruct (perms (ntree o) x base) as [im| | | |] eqn:Ep; try contradiction.
      - destruct Bx as [Bx _]. destruct (Bx y U) as [-> | ->]; destruct w; reflexivity.
      - destruct w; [discriminate|]. destruct Bx as [Bx _]. destruct (Bx y U) as [[-> | ->] | ->]; reflexivity.
      - destruct Bx as [_ Bx]. rewrite (quiet_child w _ _ _ (Bx y U)). reflexivity. }
    destruct (a4 y Y) as [[<-|T]|[U|C]]; [apply Up; left; reflexivity| |apply Up; right; exact U|rewrite (C x X); destruct w; reflexivity].
    rewrite (v_perm _ _ _ _ _ _ V x y X T). apply A. apply a3; [right; exact T|exact Y].
Qed.

Lemma v_after ex unp s o base up p q w b r r' : wf s -> vrel ex unp s o base up -> linked ex s o base up p q -> (forall x, in_block b x -> in_block (nblk o) x) ->
  tree_access w p b (nodes s) = Some r -> tree_access w q b (ntree o) = Some r' -> vrel ex unp (MkS r (fresh_tag s)) (MkN (nblk o) r' (ntags o)) base up.
Proof.
  intros W V K Sb E E'. pose proof V as [v1 v2 v3 v4 v5 v6]. pose proof K as [a1 a2 a3 a4 a5 a6]. pose proof (access_step w p b s r W a1 E) as St.
  assert (Ib : In base (line (ntree o) q)) by (apply a3; [left; reflexivity|apply a2; left; reflexivity]).
  split; cbn [nodes nblk ntree ntags].
  - rewrite (access_line _ _ _ _ _ E). exact v1.
  - rewrite (access_line _ _ _ _ _ E'). exact v2.
  - exact v3.
  - intros y Y. apply (linked_step ex (in_block b) s _ o); auto. cbn [ntree]. apply (access_line _ _ _ _ _ E').
  - intros x y X Y. destruct (inb b x) eqn:Bx.
    + apply inb_iff in Bx. destruct (access_in _ _ _ _ _ _ E Bx) as [_ ->]. destruct (access_in _ _ _ _ _ _ E' Bx) as [_ ->]. unfold after.
      replace (among (line (ntree o) q) y) with (among (line (nodes s) p) y) by (apply eq_true_iff_eq; rewrite !among_iff; apply a3; right; exact Y).
      rewrite (v5 x y X Y). reflexivity.
    + assert (N : ~ in_block b x) by (rewrite <- inb_iff; congruence). rewrite (access_out _ _ _ _ _ _ E N), (access_out _ _ _ _ _ _ E' N). auto.
  - intros x X. specialize (v6 x X). destruct (inb b x) eqn:Bx.
    + apply inb_iff in Bx. pose proof (access_after _ _ _ _ _ _ _ E' Bx Ib) as Cb.
      assert (Cy : forall y, In y (base :: up) -> child w (perms (nodes s) x y) = Some (perms r x y)) by (intros y Y; apply (access_after _ _ _ _ _ _ _ E Bx); apply a2; exact Y).
      unfold byte_ok in v6. destruct (perms (ntree o) x base) as [im| | | |] eqn:Ep; try contradiction.
      * destruct v6 as [A (z & Z1 & Z2 & Z3)]. destruct w; cbn in Cb; injection Cb as <-; cbn [byte_ok]; (split; [intros y Y; specialize (A y Y); specialize (Cy y Y); unfold active in *; cbn [nodes]; destruct A as [A|A]; rewrite A in Cy; cbn in Cy; injection Cy as <-; auto|]);
          exists z; (split; [exact Z1|]); (split; [exact Z2|]); specialize (Cy z Z1); rewrite Z3 in Cy; cbn in Cy; cbn [nodes]; congruence.
      * destruct v6 as [A (z & Z1 & Z2)]. destruct w; cbn in Cb; [discriminate|]. injection Cb as <-. cbn [byte_ok]. split.
        { intros y Y; specialize (A y Y); specialize (Cy y Y); unfold active in *; cbn [nodes]; destruct A as [[A|A]|A]; rewrite A in Cy; cbn in Cy; injection Cy as <-; auto. }
        exists z. split; [exact Z1|]. specialize (Cy z Z1). rewrite Z2 in Cy. cbn in Cy. cbn [nodes]. congruence.
      * destruct v6 as [U A]. replace (perms r' x base) with PCell by (destruct w; cbn in Cb; congruence). cbn [byte_ok]. split; [exact U|]. intros y Y. specialize (A y Y). specialize (Cy y Y). rewrite (quiet_child w _ _ _ A) in Cy. injection Cy as Cy.
        unfold quiet in *. cbn [nodes]. rewrite <- Cy. exact A.
    + assert (N : ~ in_block b x) by (rewrite <- inb_iff; congruence). rewrite (access_out _ _ _ _ _ _ E' N). unfold byte_ok, active, quiet in *. cbn [nodes].
      rewrite (access_out _ _ _ _ _ _ E N). exact v6.
Qed.

Definition agree (ex : list nat) (unp : bool) (n : nat) (o : nobj) (base : nat) (up : list nat) (T : list nat) (r r' : option tree) : Prop :=
  match r, r' with
  | Some r, Some r' => vrel ex unp (MkS r n) (MkN (nblk o) r' T) base up
  | None, None => True
  | _, _ => False
  end.

Lemma v_access ex unp s o base up p q w b : wf s -> vrel ex unp s o base up -> linked ex s o base up p q -> (forall x, in_block b x -> in_block (nblk o) x) ->
  agree ex unp (fresh_tag s) o base up (ntags o) (tree_access w p b (nodes s)) (tree_access w q b (ntree o)).
Proof.
  intros W V K Sb. unfold agree.
  assert (A : forall x, In x (addrs b) -> allowed w (line (nodes s) p) (perms (nodes s) x) = allowed w (line (ntree o) q) (perms (ntree o) x)).
  { intros x X. apply in_addrs in X. eapply v_allowed; eauto. }
  destruct (tree_access w p b (nodes s)) as [r|] eqn:E, (tree_access w q b (ntree o)) as [r'|] eqn:E'; auto.
  - eapply v_after; eauto.
  - unfold tree_access in E, E'. rewrite (forallb_ext_in _ _ _ A) in E. destruct (forallb _ _); discriminate.
  - unfold tree_access in E, E'. rewrite (forallb_ext_in _ _ _ A) in E. destruct (forallb _ _); discriminate.
Qed.

Lemma v_reads ex unp base up p q m parts : forall s o, wf s -> vrel ex unp s o base up -> linked ex s o base up p q -> (forall c b x, In (c, b) parts -> in_block b x -> in_block (nblk o) x) ->
  match tree_reads p m parts (nodes s), tree_reads q m parts (ntree o) with
  | Some r, Some r' => vrel ex unp (MkS r (fresh_tag s)) (MkN (nblk o) r' (ntags o)) base up /\ linked ex (MkS r (fresh_tag s)) (MkN (nblk o) r' (ntags o)) base up p q /\ wf (MkS r (fresh_tag s))
  | None, None => True
  | _, _ => False
  end.
Proof.
  induction parts as [|[c b] parts IH]; intros s o W V K Sb; cbn [tree_reads]; [destruct s, o; auto|].
  assert (Sb' : forall c b x, In (c, b) parts -> in_block b x -> in_block (nblk o) x) by (intros c0 b0 x I; apply (Sb c0); right; exact I).
  destruct (negb m && c); [apply IH; assumption|].
  pose proof (v_access ex unp s o base up p q false b W V K (fun x X => Sb c b x (or_introl eq_refl) X)) as A. unfold agree in A.
  destruct (tree_access false p b (nodes s)) as [r|] eqn:E, (tree_access false q b (ntree o)) as [r'|] eqn:E'; try contradiction; auto.
  pose proof (access_step false p b s r W (k_lt _ _ _ _ _ _ _ K) E) as St.
  apply (IH (MkS r (fresh_tag s)) (MkN (nblk o) r' (ntags o))); auto; [apply (s_wf _ _ _ St)|]. apply (linked_step ex (in_block b) s _ o); auto. cbn [ntree]. apply (access_line _ _ _ _ _ E').
Qed.

(** ** New references *)
Lemma v_grow ex unp s o base up p q (f : Z -> tperm) : wf s -> vrel ex unp s o base up -> linked ex s o base up p q -> (forall y, In y ex -> (y < fresh_tag s)%nat) ->
  vrel ex unp (MkS (grow (nodes s) (fresh_tag s) p f) (S (fresh_tag s))) (MkN (nblk o) (grow (ntree o) (fresh_tag s) q f) (fresh_tag s :: ntags o)) base up.
Proof.
  intros W V K Xn. pose proof V as [v1 v2 v3 v4 v5 v6]. pose proof K as [a1 a2 a3 a4 a5 a6]. set (n := fresh_tag s) in *.
  assert (Tn : forall y, In y (base :: ntags o) -> (y < n)%nat) by (intros y; eapply v_lt; eauto).
  assert (Lb : (base < n)%nat) by (apply Tn; left; reflexivity). pose proof (wf_grow s p f W a1) as St. fold n in St.
  assert (Ln : line (grow (nodes s) n p f) n = n :: line (nodes s) p) by (unfold grow; cbn [line]; rewrite Nat.eqb_refl; reflexivity).
  assert (In' : line (grow (ntree o) n q f) n = n :: line (ntree o) q) by (unfold grow; cbn [line]; rewrite Nat.eqb_refl; reflexivity).
  assert (Old : forall y, (y < n)%nat -> line (grow (nodes s) n p f) y = line (nodes s) y) by (intros y Y; apply (s_line _ _ _ St y Y)).
  assert (Io : forall y, (y < n)%nat -> line (grow (ntree o) n q f) y = line (ntree o) y) by (intros y Y; unfold grow; cbn [line]; rewrite eqb_old by exact Y; reflexivity).
  assert (Po : forall x y, (y < n)%nat -> perms (grow (nodes s) n p f) x y = perms (nodes s) x y) by (intros x y Y; unfold grow; cbn [perms]; rewrite eqb_old by exact Y; reflexivity).
  assert (Pi : forall x y, (y < n)%nat -> perms (grow (ntree o) n q f) x y = perms (ntree o) x y) by (intros x y Y; unfold grow; cbn [perms]; rewrite eqb_old by exact Y; reflexivity).
  assert (Up : forall y, In y (base :: up) -> (y < n)%nat) by (intros y; eapply v_up; eauto).
  split; cbn [nodes fresh_tag nblk ntree ntags].
  - rewrite Old; auto.
  - rewrite Io; auto.
  - intros y [<-|Y]; [lia|auto].
  - intros y Y. assert (Y' : y = n \/ In y (base :: ntags o)) by (destruct Y as [<-|[<-|Y]]; [right; left; reflexivity|left; reflexivity|right; right; exact Y]). destruct Y' as [->|Y'].
    + split; cbn [nodes fresh_tag nblk ntree ntags]; rewrite ?Ln, ?In'; [lia| | | | |].
      * intros z Z0. right. apply a2. exact Z0.
      * intros z Z0. destruct (Nat.eq_dec z n) as [->|Nz]; [split; intros; left; reflexivity|].
        assert (Iz : In z (base :: ntags o)) by (destruct Z0 as [Q|[Q|Q]]; [left; exact Q|congruence|right; exact Q]). specialize (a3 z Iz). cbn [In]. split; intros [Q|Q]; try congruence; right; apply a3; exact Q.
      * intros z [<-|Z0]; [left; right; left; reflexivity|]. pose proof (wf_line s p z W a1 Z0) as Lz. fold n in Lz. destruct (a4 z Z0) as [[Q|Q]|[Q|Q]]; [left; left; exact Q|left; right; right; exact Q|right; left; exact Q|].
        right. right. intros x X. rewrite Po by exact Lz. auto.
      * intros z [<-|Z0] I; [specialize (Xn n I); lia|exact (a5 z Z0 I)].
      * intros z [<-|Z0]; [right; left; reflexivity|]. destruct (a6 z Z0) as [Q|Q]; [left; exact Q|right; right; exact Q].
    + pose proof (Tn y Y') as Ly. pose proof (v4 y Y') as [b1 b2 b3 b4 b5 b6]. split; cbn [nodes fresh_tag nblk ntree ntags]; rewrite ?(Old y Ly), ?(Io y Ly); auto.
      * intros z Z0. destruct (Nat.eq_dec z n) as [->|Nz].
        { split; intros Q; exfalso; [pose proof (wf_line s y n W b1 Q); unfold n in *; lia|specialize (Tn n (b6 n Q)); lia]. }
        apply b3. destruct Z0 as [Q|[Q|Q]]; [left; exact Q|congruence|right; exact Q].
      * intros z Z0. pose proof (wf_line s y z W b1 Z0) as Lz. fold n in Lz. destruct (b4 z Z0) as [[Q|Q]|[Q|Q]]; [left; left; exact Q|left; right; right; exact Q|right; left; exact Q|].
        right. right. intros x X. rewrite Po by exact Lz. auto.
      * intros z Z0. destruct (b6 z Z0) as [Q|Q]; [left; exact Q|right; right; exact Q].
  - intros x y X [<-|Y]; [unfold grow; cbn [perms]; rewrite Nat.eqb_refl; reflexivity|]. assert (Ly : (y < n)%nat) by (apply Tn; right; exact Y). rewrite Po, Pi by exact Ly. auto.
  - intros x X. specialize (v6 x X). rewrite Pi by exact Lb. unfold byte_ok, active, quiet in *. cbn [nodes]. destruct (perms (ntree o) x base); auto.
    + destruct v6 as [A (z & Z1 & Z2 & Z3)]. split; [intros y Y; rewrite Po by auto; auto|]. exists z. rewrite Po by auto. auto.
    + destruct v6 as [A (z & Z1 & Z2)]. split; [intros y Y; rewrite Po by auto; auto|]. exists z. rewrite Po by auto. auto.
    + destruct v6 as [U A]. split; [exact U|]. intros y Y. rewrite Po by auto. auto.
Qed.

Lemma v_retag ex unp s o base up p q m parts : wf s -> vrel ex unp s o base up -> linked ex s o base up p q -> (forall y, In y ex -> (y < fresh_tag s)%nat) ->
  (forall c b x, In (c, b) parts -> in_block b x -> in_block (nblk o) x) ->
  agree ex unp (S (fresh_tag s)) o base up (fresh_tag s :: ntags o) (tree_retag (fresh_tag s) p m parts (nodes s)) (tree_retag (fresh_tag s) q m parts (ntree o)).
Proof.
  intros W V K Xn Sb. pose proof (v_reads ex unp base up p q m parts s o W V K Sb) as R. unfold tree_retag, agree.
  destruct (tree_reads p m parts (nodes s)) as [r|], (tree_reads q m parts (ntree o)) as [r'|]; try contradiction; auto. destruct R as (V' & K' & W').
  exact (v_grow ex unp (MkS r (fresh_tag s)) (MkN (nblk o) r' (ntags o)) base up p q (fun x => initial m (cell_at parts x)) W' V' K' Xn).
Qed.
