(** * KBorrowLink: how a link is freed. *)
From Verif Require Import Base Spec BaseFacts SyncModel UnsyncModel ChainModel BorrowModel BorrowSpec BorrowProofs UBorrowModel KBorrowModel.

(** ** Stacks whose top item can be used *)
Definition top_perm (k : rkind) : perm := match k with RUnique => Unique | RCell => SharedRW | RShared => SharedRO end.

Lemma top_grant w n p q st : p = Unique \/ p = SharedRW -> granting w n (MkItem n p q :: st) = Some ([], MkItem n p q, st).
Proof. intros P. cbn. rewrite Nat.eqb_refl. destruct P as [-> | ->]; destruct w; reflexivity. Qed.
Lemma inc_nil g : incompatible g [] = ([], []).
Proof. unfold incompatible. destruct (is_unique g); reflexivity. Qed.
Lemma top_write c n p q st : p = Unique \/ p = SharedRW -> sb_write c n (MkItem n p q :: st) = Some (MkItem n p q :: st).
Proof. intros P. unfold sb_write. rewrite (top_grant true n p q st P), inc_nil. reflexivity. Qed.
Lemma top_read c n p q st : p = Unique \/ p = SharedRW -> sb_read c n (MkItem n p q :: st) = Some (MkItem n p q :: st).
Proof. intros P. unfold sb_read. rewrite (top_grant false n p q st P). reflexivity. Qed.
Lemma top_retag c k n m p q st : p = Unique \/ p = SharedRW -> k = RUnique \/ k = RCell ->
  sb_retag c k n m None (MkItem n p q :: st) = Some (MkItem m (top_perm k) None :: MkItem n p q :: st).
Proof.
  intros P K. destruct K as [-> | ->]; cbn [sb_retag top_perm].
  - rewrite (top_write c n p q st P). reflexivity.
  - rewrite (top_grant true n p q st P), inc_nil. reflexivity.
Qed.

(** A write through a unique item below items that nobody protects *)
Lemma under_write c b q G st : Forall (fun i => itag i <> b /\ protected c i = false) G ->
  sb_write c b (G ++ MkItem b Unique q :: st) = Some (MkItem b Unique q :: st).
Proof.
  intros F. unfold sb_write. rewrite granting_app; [|eapply Forall_impl; [|exact F]; intros i H; apply H].
  rewrite (top_grant true b Unique q st (or_introl eq_refl)), app_nil_r. unfold incompatible. cbn [is_unique iperm].
  replace (existsb (protected c) G) with false; [reflexivity|]. symmetry. apply not_true_is_false. intros E. apply existsb_exists in E.
  destruct E as (i & I & E). rewrite Forall_forall in F. destruct (F i I). congruence.
Qed.

(** ** All bytes of a link *)
Section Link.
Variables (t : target) (k : link) (T : Z -> stack).
Let nx := lk_next t k.
Let L := lk_all t k.

Definition place (u1 u2 : stack) (y : Z) : stack := if inb (lk_next t k) y then u1 else if inb (lk_all t k) y then u2 else [].
Definition pile (s : bstate) (u1 u2 : stack) : Prop := forall y, stk s y = place u1 u2 y ++ T y.

Lemma on_next s u1 u2 f u1' n : pile s u1 u2 -> (forall R, f (u1 ++ R) = Some (u1' ++ R)) ->
  exists st, on_block nx f (stk s) = Some st /\ pile (MkB st n) u1' u2.
Proof.
  intros P F. destruct (on_block_ok nx f (stk s)) as (st & E).
  { intros y Y. apply inb_iff in Y. unfold nx in Y. rewrite (P y). unfold place. rewrite Y, F. discriminate. }
  exists st. split; [exact E|]. intros y. cbn [stk]. destruct (on_block_spec _ _ _ _ E y) as [A B]. pose proof (P y) as Py. unfold place in *. fold nx L in Py |- *.
  destruct (inb nx y) eqn:I.
  - specialize (A (proj1 (inb_iff _ _) I)). rewrite Py, F in A. congruence.
  - rewrite B; [exact Py|]. intros K. apply inb_iff in K. congruence.
Qed.

Hypothesis next_in : inside nx L.

Lemma on_all s u1 u2 f u1' u2' n : pile s u1 u2 -> (forall R, f (u1 ++ R) = Some (u1' ++ R)) -> (forall R, f (u2 ++ R) = Some (u2' ++ R)) ->
  exists st, on_block L f (stk s) = Some st /\ pile (MkB st n) u1' u2'.
Proof.
  intros P F1 F2. destruct (on_block_ok L f (stk s)) as (st & E).
  { intros y Y. apply inb_iff in Y. unfold L in Y. rewrite (P y). unfold place. destruct (inb (lk_next t k) y); [rewrite F1; discriminate|]. rewrite Y, F2. discriminate. }
  exists st. split; [exact E|]. intros y. cbn [stk]. destruct (on_block_spec _ _ _ _ E y) as [A B]. pose proof (P y) as Py. unfold place in *. fold nx L in Py |- *.
  destruct (inb nx y) eqn:I.
  - specialize (A (next_in y (proj1 (inb_iff _ _) I))). rewrite Py, F1 in A. congruence.
  - destruct (inb L y) eqn:J.
    + specialize (A (proj1 (inb_iff _ _) J)). rewrite Py, F2 in A. congruence.
    + rewrite B; [exact Py|]. intros K. apply inb_iff in K. congruence.
Qed.

Lemma retag_next s c kd n p q u1 u2 : pile s (MkItem n p q :: u1) u2 -> p = Unique \/ p = SharedRW -> kd = RUnique \/ kd = RCell ->
  exists s', one c kd nx n s = Some (nexttag s, s') /\ nexttag s' = S (nexttag s) /\ pile s' (MkItem (nexttag s) (top_perm kd) None :: MkItem n p q :: u1) u2.
Proof.
  intros P Pp K. destruct (on_next s _ u2 (sb_retag c kd n (nexttag s) None) (MkItem (nexttag s) (top_perm kd) None :: MkItem n p q :: u1) (S (nexttag s)) P) as (st & E & P').
  { intros R. cbn [app]. apply top_retag; auto. }
  exists (MkB st (S (nexttag s))). unfold one, m_retag, m_retag_prot. cbn [retag_parts]. rewrite E. auto.
Qed.

Lemma read_next s c n p q u1 u2 : pile s (MkItem n p q :: u1) u2 -> p = Unique \/ p = SharedRW ->
  exists s', m_read c n nx s = Some (tt, s') /\ nexttag s' = nexttag s /\ pile s' (MkItem n p q :: u1) u2.
Proof.
  intros P Pp. destruct (on_next s _ u2 (sb_read c n) (MkItem n p q :: u1) (nexttag s) P) as (st & E & P'). { intros R. cbn [app]. apply top_read. exact Pp. }
  eexists. unfold m_read. rewrite E. split; [reflexivity|]. split; [reflexivity|exact P'].
Qed.
Lemma write_next s c n p q u1 u2 : pile s (MkItem n p q :: u1) u2 -> p = Unique \/ p = SharedRW ->
  exists s', m_write c n nx s = Some (tt, s') /\ nexttag s' = nexttag s /\ pile s' (MkItem n p q :: u1) u2.
Proof.
  intros P Pp. destruct (on_next s _ u2 (sb_write c n) (MkItem n p q :: u1) (nexttag s) P) as (st & E & P'). { intros R. cbn [app]. apply top_write. exact Pp. }
  eexists. unfold m_write. rewrite E. split; [reflexivity|]. split; [reflexivity|exact P'].
Qed.
Lemma perm_ok kd : kd = RUnique \/ kd = RCell -> top_perm kd = Unique \/ top_perm kd = SharedRW.
Proof. intros [-> | ->]; cbn; auto. Qed.

(** [Cell::replace] and [Cell::take] of [next] *)
Definition cell_items (n : nat) : stack :=
  [MkItem (n + 4) Unique None; MkItem (n + 3) Unique None; MkItem (n + 2) SharedRW None; MkItem (n + 1) SharedRW None; MkItem n SharedRW None].
Lemma set_next_pile s c n p q u1 u2 : pile s (MkItem n p q :: u1) u2 -> p = Unique \/ p = SharedRW ->
  exists s', cell_set c nx n s = Some (tt, s') /\ nexttag s' = (nexttag s + 5)%nat /\ pile s' (cell_items (nexttag s) ++ MkItem n p q :: u1) u2.
Proof.
  intros P Pp. unfold cell_set, mbind, uc_get, mbind.
  destruct (retag_next s c RCell n p q u1 u2 P Pp (or_intror eq_refl)) as (s1 & E1 & N1 & P1). rewrite E1. cbn [top_perm] in P1.
  destruct (retag_next s1 c RCell _ _ _ _ u2 P1 (or_intror eq_refl) (or_intror eq_refl)) as (s2 & E2 & N2 & P2). rewrite E2. cbn [top_perm] in P2.
  destruct (retag_next s2 c RCell _ _ _ _ u2 P2 (or_intror eq_refl) (or_intror eq_refl)) as (s3 & E3 & N3 & P3). rewrite E3. cbn [top_perm] in P3.
  destruct (retag_next s3 c RUnique _ _ _ _ u2 P3 (or_intror eq_refl) (or_introl eq_refl)) as (s4 & E4 & N4 & P4). rewrite E4. cbn [top_perm] in P4.
  destruct (retag_next s4 c RUnique _ _ _ _ u2 P4 (or_introl eq_refl) (or_introl eq_refl)) as (s5 & E5 & N5 & P5). rewrite E5. cbn [top_perm] in P5.
  destruct (read_next s5 c _ _ _ _ u2 P5 (or_introl eq_refl)) as (s6 & E6 & N6 & P6). rewrite E6.
  destruct (write_next s6 c _ _ _ _ u2 P6 (or_introl eq_refl)) as (s7 & E7 & N7 & P7). rewrite E7.
  eexists. split; [reflexivity|]. split; [lia|]. unfold cell_items. cbn [app].
  rewrite N4, N3, N2, N1 in P7. replace (nexttag s + 4)%nat with (S (S (S (S (nexttag s))))) by lia. replace (nexttag s + 3)%nat with (S (S (S (nexttag s)))) by lia.
  replace (nexttag s + 2)%nat with (S (S (nexttag s))) by lia. replace (nexttag s + 1)%nat with (S (nexttag s)) by lia. exact P7.
Qed.

Lemma link_ref_pile s c n p q u1 u2 : pile s (MkItem n p q :: u1) (MkItem n p q :: u2) -> p = Unique \/ p = SharedRW ->
  exists s', link_ref c t k n s = Some (nexttag s, s') /\ nexttag s' = S (nexttag s) /\
    pile s' (MkItem (nexttag s) SharedRW None :: MkItem n p q :: u1) (MkItem (nexttag s) SharedRW None :: MkItem n p q :: u2).
Proof.
  intros P Pp. destruct (on_all s _ _ (sb_retag c RCell n (nexttag s) None) (MkItem (nexttag s) SharedRW None :: MkItem n p q :: u1) (MkItem (nexttag s) SharedRW None :: MkItem n p q :: u2) (S (nexttag s)) P) as (st & E & P').
  1,2: intros R; cbn [app]; apply top_retag; auto.
  exists (MkB st (S (nexttag s))). unfold link_ref, one, m_retag, m_retag_prot. cbn [retag_parts]. fold L. rewrite E. auto.
Qed.

(** [take_next] through a reference or box that is on top *)
Lemma take_next_pile s c n p q u1 u2 : pile s (MkItem n p q :: u1) (MkItem n p q :: u2) -> p = Unique \/ p = SharedRW ->
  exists s', lk_take_next c t k n s = Some (tt, s') /\ nexttag s' = (nexttag s + 6)%nat /\
    pile s' (cell_items (S (nexttag s)) ++ MkItem (nexttag s) SharedRW None :: MkItem n p q :: u1) (MkItem (nexttag s) SharedRW None :: MkItem n p q :: u2).
Proof.
  intros P Pp. unfold lk_take_next, mbind. destruct (link_ref_pile s c n p q u1 u2 P Pp) as (s1 & E1 & N1 & P1). rewrite E1.
  destruct (set_next_pile s1 c _ _ _ _ _ P1 (or_intror eq_refl)) as (s2 & E2 & N2 & P2). fold nx. rewrite E2. exists s2. split; [reflexivity|]. split; [lia|]. rewrite N1 in P2. exact P2.
Qed.

(** A box: on top, or below items of which none is an argument of a call *)
Definition loose (b : nat) (G : stack) : Prop := Forall (fun i => (b < itag i)%nat /\ iprot i = None) G.
Ltac items := unfold loose, cell_items; cbn [app]; repeat apply Forall_cons; try apply Forall_nil; cbn [itag iprot]; split; auto; lia.
Definition boxed (b : nat) (s : bstate) : Prop := (b < nexttag s)%nat /\
  exists G1 G2, loose b G1 /\ loose b G2 /\ pile s (G1 ++ [MkItem b Unique None]) (G2 ++ [MkItem b Unique None]).
Definition on_top (b : nat) (s : bstate) : Prop := (b < nexttag s)%nat /\ pile s [MkItem b Unique None] [MkItem b Unique None].
(** in its destructor *)
Definition dying (b c : nat) (s : bstate) : Prop := (b < nexttag s)%nat /\
  exists G1 G2, Forall (fun i => (b < itag i)%nat /\ (iprot i = None \/ iprot i = Some c)) G1 /\ Forall (fun i => (b < itag i)%nat /\ (iprot i = None \/ iprot i = Some c)) G2 /\
  pile s (G1 ++ [MkItem b Unique None]) (G2 ++ [MkItem b Unique None]).

Lemma loose_prot c b G : loose b G -> Forall (fun i => itag i <> b /\ protected c i = false) G.
Proof. apply Forall_impl. intros i [A B]. split; [lia|]. unfold protected. rewrite B. reflexivity. Qed.

Lemma top_boxed b s : on_top b s -> boxed b s.
Proof. intros [A B]. split; [exact A|]. exists [], []. repeat split; [constructor|constructor|exact B]. Qed.

Lemma box_take b s c : on_top b s -> exists s', lk_box_take c t k b s = Some (tt, s') /\ boxed b s'.
Proof.
  intros [A B]. destruct (set_next_pile s c b _ _ _ _ B (or_introl eq_refl)) as (s' & E & N & P). exists s'. split; [exact E|]. split; [lia|].
  exists (cell_items (nexttag s)), []. split; [items|]. split; [constructor|exact P].
Qed.

Lemma box_take_next b s c : on_top b s -> exists s', lk_take_next c t k b s = Some (tt, s') /\ boxed b s'.
Proof.
  intros [A B]. destruct (take_next_pile s c b _ _ _ _ B (or_introl eq_refl)) as (s' & E & N & P). exists s'. split; [exact E|]. split; [lia|].
  exists (cell_items (S (nexttag s)) ++ [MkItem (nexttag s) SharedRW None]), [MkItem (nexttag s) SharedRW None].
  split; [items|]. split; [items|]. rewrite <- app_assoc. exact P.
Qed.

(** The destructor starts, and takes [next]. *)
Lemma box_drop b s C c : boxed b s -> exists d s1 s', lk_drop C t k b c s = Some (d, s1) /\ lk_take_next (c :: C) t k d s1 = Some (tt, s') /\ dying b c s'.
Proof.
  intros (A & G1 & G2 & F1 & F2 & P).
  destruct (on_all s _ _ (sb_retag C RUnique b (nexttag s) (Some c)) [MkItem (nexttag s) Unique (Some c); MkItem b Unique None] [MkItem (nexttag s) Unique (Some c); MkItem b Unique None] (S (nexttag s)) P) as (st & E & P').
  1,2: intros R; rewrite <- app_assoc; cbn [app sb_retag]; rewrite under_write; [reflexivity|apply loose_prot; assumption].
  destruct (take_next_pile _ (c :: C) _ _ _ _ _ P' (or_introl eq_refl)) as (s' & E' & N & P''). cbn [nexttag] in *.
  exists (nexttag s), (MkB st (S (nexttag s))), s'. split; [unfold lk_drop, m_retag_prot; cbn [retag_parts]; fold L; rewrite E; reflexivity|]. split; [exact E'|].
  split; [lia|]. exists (cell_items (S (S (nexttag s))) ++ [MkItem (S (nexttag s)) SharedRW None; MkItem (nexttag s) Unique (Some c)]), [MkItem (S (nexttag s)) SharedRW None; MkItem (nexttag s) Unique (Some c)].
  split; [items|]. split; [items|]. rewrite <- app_assoc. exact P''.
Qed.

Lemma box_dealloc b s C c : dying b c s -> ~ In c C -> exists s', lk_dealloc C t k b s = Some (tt, s').
Proof.
  intros (A & G1 & G2 & F1 & F2 & P) N.
  assert (X : forall G, Forall (fun i => (b < itag i)%nat /\ (iprot i = None \/ iprot i = Some c)) G -> Forall (fun i => itag i <> b /\ protected C i = false) G).
  { intros G. apply Forall_impl. intros i [B H]. split; [lia|]. unfold protected. destruct H as [-> | ->]; [reflexivity|]. apply not_true_is_false. intros E.
    apply existsb_exists in E. destruct E as (x & I & E). apply Nat.eqb_eq in E. subst. auto. }
  destruct (on_all s _ _ (sb_write C b) [MkItem b Unique None] [MkItem b Unique None] (nexttag s) P) as (st & E & _).
  1,2: intros R; rewrite <- app_assoc; cbn [app]; apply under_write; auto.
  eexists. unfold lk_dealloc, m_write. fold L. rewrite E. reflexivity.
Qed.
End Link.

(** ** A link that can be freed *)
Definition next_inside (t : target) (k : link) : Prop := inside (lk_next t k) (lk_all t k).
(** Its pointer can be used, and none of the calls [B], or those from [N] on, has a reference to it as argument. *)
Definition can_free (t : target) (k : link) (B : list nat) (N : nat) (s : bstate) : Prop := next_inside t k /\ (0 < nexttag s)%nat /\
  forall y, in_block (lk_all t k) y -> (exists st, sb_write [] 0 (stk s y) = Some st) /\
    forall i c, In i (stk s y) -> iprot i = Some c -> (c < N)%nat /\ ~ In c B.
(** Calls in progress: those of the client, and destructors *)
Definition calls_ok (B : list nat) (N : nat) (C : list nat) : Prop := forall c, In c C -> In c B \/ (N <= c)%nat.

Lemma quiet_write C n st st' : (forall i, In i st -> protected C i = false) -> sb_write [] n st = Some st' -> sb_write C n st = Some st'.
Proof.
  intros Q. unfold sb_write. destruct (granting true n st) as [[[a g] b]|] eqn:G; [|discriminate]. apply granting_spec in G. destruct G as (-> & _).
  destruct (incompatible g a) as [p q] eqn:I. intros E. replace (existsb (protected C) p) with false; [|symmetry; apply not_true_is_false; intros X].
  - destruct (existsb (protected []) p); [discriminate|exact E].
  - apply existsb_exists in X. destruct X as (i & Ii & X). rewrite Q in X; [discriminate|]. apply in_or_app. left.
    assert (a = p ++ q) as ->. { unfold incompatible in I. destruct (is_unique g); [injection I as <- <-; symmetry; apply app_nil_r|]. apply (split_srw_spec a p q I). }
    apply in_or_app. auto.
Qed.

Lemma from_raw t k B N C s : can_free t k B N s -> calls_ok B N C -> exists b s' T, lk_from_raw C t k s = Some (b, s') /\ on_top t k T b s'.
Proof.
  intros (I & P & F) K.
  assert (W : forall y, in_block (lk_all t k) y -> exists st, sb_write C 0 (stk s y) = Some st).
  { intros y Y. destruct (F y Y) as [[st E] Q]. exists st. apply quiet_write; [|exact E]. intros i Ii. unfold protected. destruct (iprot i) as [c|] eqn:Ec; [|reflexivity].
    apply not_true_is_false. intros X. apply existsb_exists in X. destruct X as (x & Ix & X). apply Nat.eqb_eq in X. subst x. destruct (Q i c Ii Ec) as [Q1 Q2].
    destruct (K c Ix); [auto|lia]. }
  destruct (on_block_ok (lk_all t k) (sb_retag C RUnique 0 (nexttag s) None) (stk s)) as (st & E).
  { intros y Y. destruct (W y Y) as (st & E). cbn [sb_retag]. rewrite E. discriminate. }
  set (T := fun y => match sb_write C 0 (stk s y) with Some r => if inb (lk_all t k) y then r else stk s y | None => stk s y end).
  exists (nexttag s), (MkB st (S (nexttag s))), T. split; [unfold lk_from_raw, one, m_retag, m_retag_prot; cbn [retag_parts]; rewrite E; reflexivity|].
  split; [cbn; lia|]. intros y. cbn [stk]. destruct (on_block_spec _ _ _ _ E y) as [A D]. unfold place, T. destruct (inb (lk_all t k) y) eqn:J.
  - assert (Y : in_block (lk_all t k) y) by (apply inb_iff; exact J). specialize (A Y). destruct (W y Y) as (r & Er). cbn [sb_retag] in A. rewrite Er in *. injection A as <-.
    destruct (inb (lk_next t k) y); reflexivity.
  - rewrite D; [|intros Y; apply inb_iff in Y; congruence]. destruct (inb (lk_next t k) y) eqn:J'; [apply inb_iff in J'; apply I in J'; apply inb_iff in J'; congruence|].
    destruct (sb_write C 0 (stk s y)); reflexivity.
Qed.
