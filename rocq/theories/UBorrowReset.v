(** * UBorrowReset: what is done with a new block, and reset. *)
From Verif Require Import Base Spec BaseFacts SyncModel SyncSpec UnsyncModel UnsyncSpec BorrowModel BorrowSpec BorrowProofs BorrowState BorrowWorld UBorrowModel UBorrowSpec UBorrowSub UBorrowCells UBorrowCalls.

(** ** Use of a new block *)
Lemma sub_self n b m p : (m < n)%nat -> sub_obj n (fun _ => []) (new_object b m p) (new_object b m p).
Proof.
  intros L. split; cbn [new_object iblk itags istk]; [reflexivity|apply incl_refl| |].
  - intros x _. constructor; [cbn; lia|constructor].
  - intros x _. exists [], [], [MkItem m p None]. split; try constructor; try reflexivity; [apply bottom_nil|left; reflexivity|constructor].
Qed.

Lemma use_runs c own cs objs (fr : Z -> Prop) s u b base :
  pairwise disjoint (map iblk objs) -> (forall o x, In o objs -> in_block (iblk o) x -> ~ fr x) ->
  holds own cs objs fr s -> over cs base [b] -> (forall x, in_block b x -> fr x) -> (1 <= base < nexttag s)%nat -> Forall (fun o => disjoint b (iblk o)) objs ->
  (forall t bs, In (t, bs) cs -> (t < nexttag s)%nat) ->
  exists n s' F r, xuse_block c u b base s = Some (n, s') /\ (nexttag s <= nexttag s')%nat /\ (base <= n < nexttag s')%nat /\
    iblk F = b /\ (forall t, In t (itags F) -> (base <= t)%nat) /\ sub_obj (nexttag s') r F (new_object b n (xuse_perm u)) /\
    holds own cs (objs ++ [F]) (fun x => fr x /\ ~ in_block b x) s'.
Proof.
  intros P Us H O Fr L D Lc.
  assert (Raw : forall cs' s' n, incl cs cs' -> holds own cs' objs fr s' -> over cs' n [b] -> (base <= n < nexttag s')%nat ->
    iblk (new_object b n SharedRW) = b /\ (forall t, In t (itags (new_object b n SharedRW)) -> (base <= t)%nat) /\ sub_obj (nexttag s') (fun _ => []) (new_object b n SharedRW) (new_object b n SharedRW) /\
    holds own cs (objs ++ [new_object b n SharedRW]) (fun x => fr x /\ ~ in_block b x) s').
  { intros cs' s' n I H' O' L'. split; [reflexivity|]. split; [intros t [<-|[]]; lia|]. split; [apply sub_self; lia|].
    eapply holds_fr; [|eapply holds_less; [exact I|apply (adopt own cs' objs fr s' b n H' O' Fr); lia]]. tauto. }
  destruct u as [|[|]| |[|]]; cbn [xuse_block xuse_perm mut_kind].
  - exists base, s, (new_object b base SharedRW), (fun _ => []). split; [reflexivity|]. split; [lia|]. split; [lia|]. apply (Raw cs); auto. apply incl_refl. lia.
  - unfold alloc_leak. destruct (wr c own cs objs fr base b s H) as (s1 & E1 & N1 & H1).
    { intros x X. split; [apply (O b); [left; reflexivity|exact X]|auto]. }
    destruct (leak_new c own cs objs fr s1 b base H1 O Fr D) as (s2 & E2 & N2 & H2). exists (nexttag s1), s2, (new_object b (nexttag s1) Unique), (fun _ => []).
    unfold mbind. rewrite E1. split; [exact E2|]. split; [lia|]. split; [lia|]. split; [reflexivity|]. split; [intros t [<-|[]]; lia|]. split; [apply sub_self; lia|exact H2].
  - unfold alloc_leak. destruct (wr c own cs objs fr base b s H) as (s1 & E1 & N1 & H1).
    { intros x X. split; [apply (O b); [left; reflexivity|exact X]|auto]. }
    destruct (cell c own cs objs fr base [b] s1 H1) as (s2 & E2 & N2 & H2); [apply one_pair|exact O|].
    exists (nexttag s1), s2, (new_object b (nexttag s1) SharedRW), (fun _ => []). unfold mbind. rewrite E1. split; [exact E2|]. split; [lia|]. split; [lia|].
    eapply Raw; [|exact H2| |lia]; [apply incl_tl, incl_refl|]. intros b0 x [<-|[]] X. exists [b], b. cbn. auto.
  - unfold alloc_boxed. destruct (wr c own cs objs fr base b s H) as (s1 & E1 & N1 & H1).
    { intros x X. split; [apply (O b); [left; reflexivity|exact X]|auto]. }
    exists base, s1, (new_object b base SharedRW), (fun _ => []). unfold mbind. rewrite E1. split; [reflexivity|]. split; [lia|]. split; [lia|].
    apply (Raw cs); auto. apply incl_refl. lia.
  - unfold leak_box_from. cbn [mut_kind]. destruct (leak_new c own cs objs fr s b base H O Fr D) as (s1 & E1 & N1 & H1).
    assert (T1 : tmp own cs objs (fun x => fr x /\ ~ in_block b x) s1 (new_object b (nexttag s) Unique) [MkItem (nexttag s) Unique None]).
    { split; [exact H1|]. split; [exact D|]. split; [cbn [new_object iblk]; tauto|]. split; [|reflexivity].
      intros t bs K. cbn [new_object itags]. intros [Q|[]]. pose proof (Lc t bs K). lia. }
    destruct (tmp_retag c own cs objs _ P s1 _ _ [MkItem (nexttag s1) Unique None; MkItem (nexttag s) Unique None] RUnique (nexttag s) b T1 eq_refl ltac:(left; reflexivity)) as (s2 & o2 & E2 & N2 & B2 & I2 & T2);
      [apply u_unique|].
    destruct (tmp_retag c own cs objs _ P s2 o2 _ [MkItem (nexttag s2) SharedRW None; MkItem (nexttag s1) Unique None; MkItem (nexttag s) Unique None] RCell (nexttag s1) b T2 B2 ltac:(rewrite I2; left; reflexivity)) as (s3 & o3 & E3 & N3 & B3 & I3 & T3);
      [apply u_cell|].
    exists (nexttag s2), s3, o3, (fun _ => [MkItem (nexttag s1) Unique None; MkItem (nexttag s) Unique None]). cbn [new_object itags] in I2.
    split; [unfold mbind; change (one c RUnique b base s) with (m_retag c base [(RUnique, b)] s); rewrite E1, E2; exact E3|]. split; [lia|]. split; [lia|]. split; [exact B3|].
    split; [rewrite I3, I2; intros t [<-|[<-|[<-|[]]]]; lia|]. destruct T3 as (H3 & _ & _ & _ & U3). split; [|exact H3].
    split; cbn [new_object iblk itags istk]; [exact B3|rewrite I3; intros t [<-|[]]; left; reflexivity| |].
    + intros x X. rewrite U3 by (rewrite B3; exact X). repeat constructor; cbn; lia.
    + intros x X. rewrite U3 by (rewrite B3; exact X). exists [], [], [MkItem (nexttag s2) SharedRW None]. split; try reflexivity; try apply bottom_nil; repeat constructor; cbn; lia.
  - unfold leak_box_from. cbn [mut_kind].
    destruct (cell c own cs objs fr base [b] s H) as (s1 & E1 & N1 & H1); [apply one_pair|exact O|].
    destruct (cell c own _ objs fr (nexttag s) [b] s1 H1) as (s2 & E2 & N2 & H2); [apply one_pair|intros b0 x [<-|[]] X; exists [b], b; cbn; auto|].
    destruct (cell c own _ objs fr (nexttag s1) [b] s2 H2) as (s3 & E3 & N3 & H3); [apply one_pair|intros b0 x [<-|[]] X; exists [b], b; cbn; auto|].
    exists (nexttag s2), s3, (new_object b (nexttag s2) SharedRW), (fun _ => []). cbn [map] in *.
    split; [unfold mbind; change (one c RCell b base s) with (m_retag c base [(RCell, b)] s); rewrite E1;
      change (one c RCell b (nexttag s) s1) with (m_retag c (nexttag s) [(RCell, b)] s1); rewrite E2; exact E3|].
    split; [lia|]. split; [lia|]. eapply Raw; [|exact H3| |lia]; [intros q Q; cbn; auto|]. intros b0 x [<-|[]] X. exists [b], b. cbn. auto.
Qed.

(** ** reset *)
Section Reset.
Variables (hd st : block) (own : bool) (cs : caps).
Hypothesis (apart_ : disjoint hd st).

Definition where_ (gh gs : stack) (x : Z) : stack := if inb hd x then gh else if inb st x then gs else [].

(** items of the library above those that remain *)
Definition pile (s : bstate) (gh gs : stack) : Prop := (1 <= nexttag s)%nat /\ (forall t bs, In (t, bs) cs -> (t < nexttag s)%nat) /\
  forall x, exists d, good own (nexttag s) d /\ stk s x = where_ gh gs x ++ whole own d /\
    (in_block hd x \/ in_block st x -> up d = [] /\ garb d = []) /\ (forall t, can cs x t -> In t (map itag (low d))).

Lemma where_hd gh gs x : in_block hd x -> where_ gh gs x = gh.
Proof. intros X. unfold where_. rewrite (proj2 (inb_iff hd x) X). reflexivity. Qed.
Lemma where_st gh gs x : in_block st x -> where_ gh gs x = gs.
Proof.
  intros X. unfold where_. destruct (inb hd x) eqn:E; [exfalso; apply inb_iff in E; exact (apart_ x (conj E X))|]. rewrite (proj2 (inb_iff st x) X). reflexivity.
Qed.
Lemma where_out gh gs gh' gs' x : ~ in_block hd x -> ~ in_block st x -> where_ gh gs x = where_ gh' gs' x.
Proof. intros X Y. unfold where_. rewrite <- inb_iff in X, Y. destruct (inb hd x); [congruence|]. destruct (inb st x); congruence. Qed.

Lemma pile_retag s gh gs k p gh' gs' : pile s gh gs ->
  (forall T, sb_retag [] k p (nexttag s) None (gh ++ T) = Some (gh' ++ T)) -> (forall T, sb_retag [] k p (nexttag s) None (gs ++ T) = Some (gs' ++ T)) ->
  exists s', m_retag [] p [(k, hd); (k, st)] s = Some (nexttag s, s') /\ nexttag s' = S (nexttag s) /\ pile s' gh' gs'.
Proof.
  intros (P0 & P1 & P2) A1 A2. unfold m_retag, m_retag_prot.
  destruct (retag_parts_disj [] p (nexttag s) None [(k, hd); (k, st)] (stk s)) as (k' & K & S1 & S2).
  - repeat constructor. exact apart_.
  - intros kd b x [[= <- <-]|[[= <- <-]|[]]] X; destruct (P2 x) as (d & _ & -> & _); [rewrite (where_hd _ _ x X), A1|rewrite (where_st _ _ x X), A2]; discriminate.
  - rewrite K. eexists. split; [reflexivity|]. cbn [nexttag]. split; [reflexivity|]. split; [cbn; lia|]. split; [intros t bs I; specialize (P1 t bs I); cbn; lia|].
    intros x. destruct (P2 x) as (d & G & E & F & U). exists d. split; [eapply good_more; [|exact G]; cbn; lia|]. split; [|auto]. cbn [stk].
    destruct (inb hd x) eqn:X; [apply inb_iff in X|destruct (inb st x) eqn:Y; [apply inb_iff in Y|]].
    + pose proof (S1 k hd x (or_introl eq_refl) X) as Q. rewrite E, (where_hd _ _ x X), A1 in Q. injection Q as Q. rewrite (where_hd _ _ x X). auto.
    + pose proof (S1 k st x (or_intror (or_introl eq_refl)) Y) as Q. rewrite E, (where_st _ _ x Y), A2 in Q. injection Q as Q. rewrite (where_st _ _ x Y). auto.
    + assert (X' : ~ in_block hd x) by (rewrite <- inb_iff; congruence). assert (Y' : ~ in_block st x) by (rewrite <- inb_iff; congruence).
      rewrite S2; [rewrite (where_out gh' gs' gh gs x X' Y'); exact E|]. intros kd b [[= <- <-]|[[= <- <-]|[]]]; assumption.
Qed.

Lemma pile_hd s gh gs f gh' n : pile s gh gs -> (forall T, f (gh ++ T) = Some (gh' ++ T)) -> (nexttag s <= n)%nat ->
  exists k, on_block hd f (stk s) = Some k /\ pile (MkB k n) gh' gs.
Proof.
  intros (P0 & P1 & P2) A1 Ln. destruct (on_block_ok hd f (stk s)) as [k K].
  { intros x X. destruct (P2 x) as (d & _ & -> & _). rewrite (where_hd _ _ x X), A1. discriminate. }
  exists k. split; [exact K|]. pose proof (on_block_spec _ _ _ _ K) as S1. split; [cbn; lia|]. split; [intros t bs I; specialize (P1 t bs I); cbn; lia|].
  intros x. destruct (P2 x) as (d & G & E & F & U). exists d. split; [eapply good_more; [|exact G]; exact Ln|]. split; [|auto]. cbn [stk].
  destruct (inb hd x) eqn:X.
  - apply inb_iff in X. pose proof (proj1 (S1 x) X) as Q. rewrite E, (where_hd _ _ x X), A1 in Q. injection Q as Q. rewrite (where_hd _ _ x X). auto.
  - rewrite (proj2 (S1 x)) by (rewrite <- inb_iff; congruence). rewrite E. unfold where_. rewrite X. reflexivity.
Qed.

Lemma pile_one s gh gs k p gh' : pile s gh gs -> (forall T, sb_retag [] k p (nexttag s) None (gh ++ T) = Some (gh' ++ T)) ->
  exists s', one [] k hd p s = Some (nexttag s, s') /\ nexttag s' = S (nexttag s) /\ pile s' gh' gs.
Proof.
  intros P A. destruct (pile_hd s gh gs _ gh' (S (nexttag s)) P A) as (k' & K & P'); [lia|]. unfold one, m_retag, m_retag_prot. cbn [retag_parts]. rewrite K.
  eexists. split; [reflexivity|]. split; [reflexivity|exact P'].
Qed.

Lemma pile_set s gh gs n : pile s (MkItem n Unique None :: gh) gs ->
  exists s' gh', cell_set [] hd n s = Some (tt, s') /\ (nexttag s <= nexttag s')%nat /\ pile s' (gh' ++ MkItem n Unique None :: gh) gs /\ Forall garb_item gh' /\
    Forall (fun i => (nexttag s <= itag i < nexttag s')%nat) gh'.
Proof.
  intros P. unfold cell_set, uc_get.
  destruct (pile_one s _ gs RCell n (MkItem (nexttag s) SharedRW None :: MkItem n Unique None :: gh) P) as (s1 & E1 & N1 & P1); [intros T; apply u_cell|].
  destruct (pile_one s1 _ gs RCell (nexttag s) (MkItem (nexttag s1) SharedRW None :: MkItem (nexttag s) SharedRW None :: MkItem n Unique None :: gh) P1) as (s2 & E2 & N2 & P2); [intros T; apply s_cell|].
  destruct (pile_one s2 _ gs RCell (nexttag s1) (MkItem (nexttag s2) SharedRW None :: MkItem (nexttag s1) SharedRW None :: MkItem (nexttag s) SharedRW None :: MkItem n Unique None :: gh) P2) as (s3 & E3 & N3 & P3); [intros T; apply s_cell|].
  set (g3 := MkItem (nexttag s2) SharedRW None :: MkItem (nexttag s1) SharedRW None :: MkItem (nexttag s) SharedRW None :: MkItem n Unique None :: gh) in *.
  destruct (pile_one s3 _ gs RUnique (nexttag s2) (MkItem (nexttag s3) Unique None :: g3) P3) as (s4 & E4 & N4 & P4); [intros T; apply s_unique|].
  destruct (pile_one s4 _ gs RUnique (nexttag s3) (MkItem (nexttag s4) Unique None :: MkItem (nexttag s3) Unique None :: g3) P4) as (s5 & E5 & N5 & P5); [intros T; apply u_unique|].
  destruct (pile_hd s5 _ gs (sb_read [] (nexttag s4)) (MkItem (nexttag s4) Unique None :: MkItem (nexttag s3) Unique None :: g3) (nexttag s5) P5) as (k6 & E6 & P6); [intros T; apply u_read|lia|].
  destruct (pile_hd _ _ gs (sb_write [] (nexttag s4)) (MkItem (nexttag s4) Unique None :: MkItem (nexttag s3) Unique None :: g3) (nexttag s5) P6) as (k7 & E7 & P7); [intros T; apply u_write|cbn; lia|].
  exists (MkB k7 (nexttag s5)), [MkItem (nexttag s4) Unique None; MkItem (nexttag s3) Unique None; MkItem (nexttag s2) SharedRW None; MkItem (nexttag s1) SharedRW None; MkItem (nexttag s) SharedRW None].
  split; [unfold mbind, m_read, m_write; rewrite E1, E2, E3, E4, E5, E6; cbn [stk nexttag] in *; rewrite E7; reflexivity|]. split; [cbn; lia|]. split; [exact P7|].
  split; repeat constructor; cbn; lia.
Qed.

Lemma pile_done s gh gs : (forall t bs, In (t, bs) cs -> bs = [hd; st]) -> pile s gh gs -> Forall garb_item gh -> Forall garb_item gs -> bottom_ok gh -> bottom_ok gs ->
  Forall (fun i => (1 <= itag i < nexttag s)%nat) gh -> Forall (fun i => (1 <= itag i < nexttag s)%nat) gs ->
  (forall t bs, In (t, bs) cs -> Forall (fun i => itag i <> t) gh /\ Forall (fun i => itag i <> t) gs) ->
  holds own cs [] (fun x => in_block hd x \/ in_block st x) s.
Proof.
  intros cs_in (P0 & P1 & P2) G1 G2 B1 B2 L1 L2 C. split; [exact P0|intros o t []|exact P1|].
  intros x. destruct (P2 x) as (d & G & E & F & U). pose proof (lt_parts _ _ _ G) as (M1 & M2 & M3).
  assert (Done : forall g, (in_block hd x \/ in_block st x) -> stk s x = g ++ whole own d -> Forall garb_item g -> bottom_ok g -> Forall (fun i => (1 <= itag i < nexttag s)%nat) g ->
    (forall t bs, In (t, bs) cs -> Forall (fun i => itag i <> t) g) ->
    exists d0, stk s x = whole own d0 /\ byte own (nexttag s) cs [] (fun x => in_block hd x \/ in_block st x) x d0).
  { intros g X Eg Gg Bg Lg Cg. destruct (F X) as [F1 F2]. exists (MkDec [] g (low d)). split; [rewrite Eg; unfold whole; cbn [up garb low]; rewrite F1, F2; reflexivity|].
    split; [|split; [|split; [reflexivity|intros o []]]].
    - destruct G. split; cbn [up garb low]; auto; [apply bottom_nil|]. cbn [app]. apply Forall_app. split; [|exact M3].
      eapply Forall_impl; [|exact Lg]. cbn. intros i. destruct own; cbn; lia.
    - intros t K. pose proof (U t K) as Ut. destruct K as (bs & b & K1 & _). split; [exact Ut|]. cbn [up garb]. split; [intros []|].
      intros Q. apply in_map_iff in Q. destruct Q as (i & Q1 & Q2). pose proof (Cg t bs K1) as Ct. rewrite Forall_forall in Ct. exact (Ct i Q2 Q1). }
  destruct (inb hd x) eqn:X; [apply inb_iff in X|destruct (inb st x) eqn:Y; [apply inb_iff in Y|]].
  - apply (Done gh); auto; [rewrite E, (where_hd _ _ x X); reflexivity|]. intros t bs I. apply (C t bs I).
  - apply (Done gs); auto; [rewrite E, (where_st _ _ x Y); reflexivity|]. intros t bs I. apply (C t bs I).
  - exists d. split; [rewrite E; unfold where_; rewrite X, Y; reflexivity|]. split; [exact G|]. split; [|split; [|intros o []]].
    + intros t (bs & b & K1 & K2 & K3). exfalso. rewrite (cs_in t bs K1) in K2. destruct K2 as [<-|[<-|[]]]; apply inb_iff in K3; congruence.
    + intros [K|K]; apply inb_iff in K; congruence.
Qed.
End Reset.

(** The first unique reference: through a tag that can be used *)
Lemma clean_write own n d t : good own n d -> usable d t -> sb_write [] t (whole own d) = Some (whole own (MkDec [] [] (low d))).
Proof.
  intros G U. unfold sb_write. destruct (usable_granting true own n d t G U) as (la & g & lb & E1 & _ & _ & E2). rewrite E2.
  rewrite (inc_low own n d la g lb G E1). rewrite no_protected. unfold whole. cbn [up garb low]. rewrite E1. napp. reflexivity.
Qed.

Lemma good_low own n d : good own n d -> good own n (MkDec [] [] (low d)).
Proof. intros G. pose proof (lt_parts _ _ _ G) as (M1 & M2 & M3). destruct G. split; cbn [up garb low]; auto; apply bottom_nil. Qed.

Lemma clean own hd st cs cs' objs (fr : Z -> Prop) s p : disjoint hd st -> holds own cs objs fr s ->
  (forall x d, in_block hd x \/ in_block st x -> byte own (nexttag s) cs objs fr x d -> exists l, sb_write [] p (whole own d) = Some (whole own (MkDec [] [] l)) /\ good own (nexttag s) (MkDec [] [] l) /\
     (forall t, can cs' x t -> In t (map itag l))) ->
  incl cs' cs ->
  exists s', m_retag [] p [(RUnique, hd); (RUnique, st)] s = Some (nexttag s, s') /\ nexttag s' = S (nexttag s) /\
    pile hd st own cs' s' [MkItem (nexttag s) Unique None] [MkItem (nexttag s) Unique None].
Proof.
  intros D H W I. unfold m_retag, m_retag_prot.
  assert (W' : forall kd b x, In (kd, b) [(RUnique, hd); (RUnique, st)] -> in_block b x -> in_block hd x \/ in_block st x).
  { intros kd b x [[= <- <-]|[[= <- <-]|[]]]; auto. }
  destruct (retag_parts_disj [] p (nexttag s) None [(RUnique, hd); (RUnique, st)] (stk s)) as (k' & K & S1 & S2).
  - repeat constructor. exact D.
  - intros kd b x J X. assert (kd = RUnique) by (destruct J as [[= <- <-]|[[= <- <-]|[]]]; reflexivity). subst kd.
    destruct (h_byte _ _ _ _ _ H x) as (d & -> & B). cbn [sb_retag]. destruct (W x d (W' _ _ _ J X) B) as (l & -> & _). discriminate.
  - rewrite K. eexists. split; [reflexivity|]. split; [reflexivity|]. split; [cbn; lia|]. split; [intros t bs J; pose proof (h_caps _ _ _ _ _ H t bs (I _ J)); cbn; lia|].
    intros x. cbn [stk nexttag]. destruct (h_byte _ _ _ _ _ H x) as (d & E & B).
    assert (Q : forall b, In (RUnique, b) [(RUnique, hd); (RUnique, st)] -> in_block b x -> exists d0, good own (S (nexttag s)) d0 /\
       k' x = where_ hd st [MkItem (nexttag s) Unique None] [MkItem (nexttag s) Unique None] x ++ whole own d0 /\
       (in_block hd x \/ in_block st x -> up d0 = [] /\ garb d0 = []) /\ (forall t, can cs' x t -> In t (map itag (low d0)))).
    { intros b J X. pose proof (S1 RUnique b x J X) as Z0. rewrite E in Z0. cbn [sb_retag] in Z0. destruct (W x d (W' _ _ _ J X) B) as (l & W1 & W2 & W3). rewrite W1 in Z0. injection Z0 as Z0.
      exists (MkDec [] [] l). split; [eapply good_more; [|exact W2]; lia|]. split; [|split; [auto|exact W3]]. rewrite <- Z0.
      destruct J as [[= <-]|[[= <-]|[]]]; [rewrite where_hd by exact X|rewrite where_st by assumption]; reflexivity. }
    destruct (inb hd x) eqn:X; [apply inb_iff in X; apply (Q hd); cbn; auto|]. destruct (inb st x) eqn:Y; [apply inb_iff in Y; apply (Q st); cbn; auto|].
    destruct B as (G & U & _). exists d. split; [eapply good_more; [|exact G]; lia|]. split.
    + unfold where_. rewrite X, Y. cbn [app]. rewrite S2; [exact E|]. intros kd b J. rewrite <- inb_iff. destruct J as [[= <- <-]|[[= <- <-]|[]]]; congruence.
    + split; [rewrite <- !inb_iff; intros [Z0|Z0]; congruence|]. intros t (bs & b & K1 & K2). apply (U t). exists bs, b. auto.
Qed.

Lemma clean_low own hd st cs cs' objs (fr : Z -> Prop) s p : disjoint hd st -> holds own cs objs fr s -> over cs p [hd; st] -> incl cs' cs ->
  exists s', m_retag [] p [(RUnique, hd); (RUnique, st)] s = Some (nexttag s, s') /\ nexttag s' = S (nexttag s) /\
    pile hd st own cs' s' [MkItem (nexttag s) Unique None] [MkItem (nexttag s) Unique None].
Proof.
  intros D H O I. apply (clean own hd st cs cs' objs fr s p D H); [|exact I]. intros x d X (G & U & _). exists (low d). split; [|split].
  - apply (clean_write own (nexttag s) d p G). apply U. destruct X as [X|X]; [apply (O hd)|apply (O st)]; cbn; auto.
  - apply good_low. exact G.
  - intros t (bs & b & K1 & K2). apply (U t). exists bs, b. auto.
Qed.

Lemma clean_owner hd st cs objs (fr : Z -> Prop) s : disjoint hd st -> holds true cs objs fr s ->
  exists s', m_retag [] 0 [(RUnique, hd); (RUnique, st)] s = Some (nexttag s, s') /\ nexttag s' = S (nexttag s) /\
    pile hd st true [] s' [MkItem (nexttag s) Unique None] [MkItem (nexttag s) Unique None].
Proof.
  intros D H. apply (clean true hd st cs [] objs fr s 0 D H); [|intros ? []]. intros x d X (G & U & _). exists []. split; [|split].
  - unfold sb_write. rewrite (whole_owner true _ d G). unfold incompatible. cbn [is_unique iperm]. rewrite no_protected. reflexivity.
  - split; cbn [up garb low map app]; try constructor; apply bottom_nil.
  - intros t (bs & b & [] & _).
Qed.

Definition kind_own (k : xkind) : bool := match k with XVar _ => true | XPtr => false end.
Definition kind_caps (k : xkind) (hd st : block) : caps := match k with XVar _ => [] | XPtr => [(0%nat, [hd; st])] end.

Lemma mb_reset_runs own hd st cs u s gh gs n : disjoint hd st -> (forall t bs, In (t, bs) cs -> t = 0%nat /\ bs = [hd; st]) -> udata u = st ->
  pile hd st own cs s (MkItem n Unique None :: gh) (MkItem n Unique None :: gs) ->
  Forall garb_item gh -> Forall garb_item gs -> bottom_ok (MkItem n Unique None :: gh) -> bottom_ok (MkItem n Unique None :: gs) -> (1 <= n < nexttag s)%nat ->
  Forall (fun i => (1 <= itag i < nexttag s)%nat) gh -> Forall (fun i => (1 <= itag i < nexttag s)%nat) gs ->
  exists s', mb_reset [] hd u n s = Some (u_reset u, s') /\ (nexttag s <= nexttag s')%nat /\ holds own cs [] (fun x => in_block hd x \/ in_block st x) s'.
Proof.
  intros D C Eu P G1 G2 B1 B2 L L1 L2. unfold mb_reset. rewrite Eu.
  destruct (pile_retag hd st own cs D s _ _ RUnique n (MkItem (nexttag s) Unique None :: MkItem n Unique None :: gh) (MkItem (nexttag s) Unique None :: MkItem n Unique None :: gs) P) as (s1 & E1 & N1 & P1);
    [intros T; apply u_unique|intros T; apply u_unique|].
  destruct (pile_set hd st own cs s1 _ _ _ P1) as (s2 & g2 & E2 & N2 & P2 & G2' & L2').
  exists s2. unfold mbind. rewrite E1, E2. split; [reflexivity|]. split; [lia|].
  assert (M1 : Forall (fun i => (1 <= itag i < nexttag s2)%nat) gh) by (eapply Forall_impl; [|exact L1]; cbn; lia).
  assert (M2 : Forall (fun i => (1 <= itag i < nexttag s2)%nat) gs) by (eapply Forall_impl; [|exact L2]; cbn; lia).
  assert (M3 : Forall (fun i => (1 <= itag i < nexttag s2)%nat) (g2 ++ MkItem (nexttag s) Unique None :: MkItem n Unique None :: gh)).
  { apply Forall_app. split; [eapply Forall_impl; [|exact L2']; cbn; lia|]. repeat (constructor; [cbn; lia|]). exact M1. }
  assert (M4 : Forall (fun i => (1 <= itag i < nexttag s2)%nat) (MkItem (nexttag s) Unique None :: MkItem n Unique None :: gs)).
  { repeat (constructor; [cbn; lia|]). exact M2. }
  eapply (pile_done hd st own cs D); [|exact P2| | | | |exact M3|exact M4|].
  - intros t bs K. apply (C t bs K).
  - apply Forall_app. split; [exact G2'|]. repeat (constructor; [reflexivity|]). exact G1.
  - repeat (constructor; [reflexivity|]). exact G2.
  - rewrite bottom_app by discriminate. rewrite bottom_cons by discriminate. exact B1.
  - rewrite bottom_cons by discriminate. exact B2.
  - intros t bs K. destruct (C t bs K) as [-> _]. split; [eapply Forall_impl; [|exact M3]|eapply Forall_impl; [|exact M4]]; cbn; lia.
Qed.

Lemma bottom_u n l : bottom_ok l -> bottom_ok (MkItem n Unique None :: l).
Proof. intros B. destruct l as [|i l]; [apply bottom_all; repeat constructor|]. rewrite bottom_cons by discriminate. exact B. Qed.

Lemma x_reset_runs kind hd st cs u objs (fr : Z -> Prop) s : disjoint hd st -> udata u = st -> holds (kind_own kind) cs objs fr s -> incl (kind_caps kind hd st) cs ->
  exists s', x_reset hd kind u s = Some (u_reset u, s') /\ (nexttag s <= nexttag s')%nat /\
    holds (kind_own kind) (kind_caps kind hd st) [] (fun x => in_block hd x \/ in_block st x) s'.
Proof.
  intros D Eu H I. pose proof (h_next _ _ _ _ _ H) as N0. unfold x_reset, bump_deref_mut. destruct kind as [[|]|]; cbn [kind_own kind_caps mut_kind] in *; rewrite Eu.
  - destruct (clean_owner hd st cs objs fr s D H) as (s1 & E1 & N1 & P1).
    destruct (pile_retag hd st true [] D s1 _ _ RUnique (nexttag s) [MkItem (nexttag s1) Unique None; MkItem (nexttag s) Unique None] [MkItem (nexttag s1) Unique None; MkItem (nexttag s) Unique None] P1) as (s2 & E2 & N2 & P2);
      [intros T; apply u_unique|intros T; apply u_unique|].
    destruct (pile_retag hd st true [] D s2 _ _ RUnique (nexttag s1) [MkItem (nexttag s2) Unique None; MkItem (nexttag s1) Unique None; MkItem (nexttag s) Unique None] [MkItem (nexttag s2) Unique None; MkItem (nexttag s1) Unique None; MkItem (nexttag s) Unique None] P2) as (s3 & E3 & N3 & P3);
      [intros T; apply u_unique|intros T; apply u_unique|].
    destruct (mb_reset_runs true hd st [] u s3 [MkItem (nexttag s1) Unique None; MkItem (nexttag s) Unique None] [MkItem (nexttag s1) Unique None; MkItem (nexttag s) Unique None] (nexttag s2) D) as (s4 & E4 & N4 & H4); [intros t bs []|exact Eu|exact P3|repeat constructor|repeat constructor|repeat apply bottom_u; apply bottom_nil|repeat apply bottom_u; apply bottom_nil|lia|repeat constructor; cbn; lia|repeat constructor; cbn; lia|].
    exists s4. unfold mbind. rewrite E1, E2, E3. split; [exact E4|]. split; [lia|exact H4].
  - destruct (owner_share [] objs fr cs s hd st H D) as (s1 & E1 & N1 & H1).
    destruct (cell [] true _ objs fr (nexttag s) [hd; st] s1 H1) as (s2 & E2 & N2 & H2); [repeat constructor; exact D|intros b x B X; exists [hd; st], b; cbn in *; auto|].
    destruct (clean_low true hd st _ [] objs fr s2 (nexttag s1) D H2) as (s3 & E3 & N3 & P3); [intros b x B X; exists [hd; st], b; cbn in *; auto|intros ? []|].
    destruct (mb_reset_runs true hd st [] u s3 [] [] (nexttag s2) D) as (s4 & E4 & N4 & H4); [intros t bs []|exact Eu|exact P3|repeat constructor|repeat constructor|repeat apply bottom_u; apply bottom_nil|repeat apply bottom_u; apply bottom_nil|lia|repeat constructor; cbn; lia|repeat constructor; cbn; lia|].
    exists s4. unfold self_ref in E1. cbn [map] in E2. unfold mbind. rewrite E1, E2, E3. split; [exact E4|]. split; [lia|exact H4].
  - destruct (clean_low false hd st cs [(0%nat, [hd; st])] objs fr s 0 D H) as (s1 & E1 & N1 & P1); [intros b x B X; exists [hd; st], b; split; [apply I; left; reflexivity|auto]|exact I|].
    destruct (mb_reset_runs false hd st [(0%nat, [hd; st])] u s1 [] [] (nexttag s) D) as (s4 & E4 & N4 & H4); [intros t bs [[= <- <-]|[]]; auto|exact Eu|exact P1|repeat constructor|repeat constructor|repeat apply bottom_u; apply bottom_nil|repeat apply bottom_u; apply bottom_nil|lia|repeat constructor; cbn; lia|repeat constructor; cbn; lia|].
    exists s4. unfold mbind. rewrite E1. split; [exact E4|]. split; [lia|exact H4].
Qed.
