(** * TExitStart: pin, destructors and pop_all on values. *)
From Verif Require TreeWorld.
From Verif Require Import Base Spec BaseFacts SyncModel SyncSpec UnsyncModel ExitModel ConcModel BorrowModel BorrowSpec BorrowProofs BorrowState TBorrowModel
  UBorrowModel EBorrowModel TreeModel TreeSpec TreeState TreeAct TExitModel TExitSpec TExitState TExitOps TExitSlot TExitVal.

Lemma v_act ex unp s o base up a : wf s -> vrel ex unp s o base up -> (forall y, In y ex -> (y < fresh_tag s)%nat) -> nact_ok (MkO (nblk o) (ntags o)) a = true ->
  match tree_act (fresh_tag s) a (nodes s), tree_act (fresh_tag s) a (ntree o) with
  | Some r, Some r' => let s' := MkS r (if makes_tag a then S (fresh_tag s) else fresh_tag s) in
      vrel ex unp s' (MkN (nblk o) r' (tags_after (fresh_tag s) a (ntags o))) base up /\ step (in_block (nblk o)) s s' /\
      (forall x y, In y ex -> perms (nodes s) x y = PReserved true -> perms (nodes s') x y = PReserved true)
  | None, None => True
  | _, _ => False
  end.
Proof.
  intros W V Xn A. apply TreeWorld.nact_ok_iff in A.
  assert (Wi : forall b x, within (nblk o) b -> in_block b x -> in_block (nblk o) x) by (intros b x [W1 W2] [X1 X2]; unfold in_block; lia).
  assert (Ac : forall w t b, In t (ntags o) -> within (nblk o) b -> match tree_access w t b (nodes s), tree_access w t b (ntree o) with
    | Some r, Some r' => vrel ex unp (MkS r (fresh_tag s)) (MkN (nblk o) r' (ntags o)) base up /\ step (in_block (nblk o)) s (MkS r (fresh_tag s)) /\
        (forall x y, In y ex -> perms (nodes s) x y = PReserved true -> perms r x y = PReserved true)
    | None, None => True | _, _ => False end).
  { intros w t b T Wb. pose proof (v_linked _ _ _ _ _ _ V t (or_intror T)) as K. pose proof (v_access ex unp s o base up t t w b W V K (fun x => Wi b x Wb)) as G. unfold agree in G.
    destruct (tree_access w t b (nodes s)) as [r|] eqn:E, (tree_access w t b (ntree o)) as [r'|]; try contradiction; auto.
    pose proof (access_down w t b s r W (k_lt _ _ _ _ _ _ _ K) E) as (D1 & _ & D3). split; [exact G|]. split; [eapply step_more; [|exact D1]; intros x; apply Wi; exact Wb|].
    intros x y I. apply D3; [|apply Xn; exact I]. intros Y. exact (k_ex _ _ _ _ _ _ _ K y Y I). }
  destruct a as [t b|t b|t m parts]; cbn [tree_act makes_tag tags_after nclient_access oblk otags] in *; cbn zeta; cbn [nodes].
  - apply Ac; apply A.
  - apply Ac; apply A.
  - destruct A as (T & F & _). rewrite Forall_forall in F. pose proof (v_linked _ _ _ _ _ _ V t (or_intror T)) as K.
    assert (Sb : forall c b x, In (c, b) parts -> in_block b x -> in_block (nblk o) x) by (intros c b x I; apply Wi; exact (F (c, b) I)).
    pose proof (v_retag ex unp s o base up t t m parts W V K Xn Sb) as G. unfold agree in G.
    destruct (tree_retag (fresh_tag s) t m parts (nodes s)) as [r|] eqn:E, (tree_retag (fresh_tag s) t m parts (ntree o)) as [r'|]; try contradiction; auto.
    pose proof (retag_step t m parts (in_block (nblk o)) s r W (k_lt _ _ _ _ _ _ _ K) (fun c b x I _ => Sb c b x I) E) as (D1 & _ & _ & _ & _ & _ & D3).
    split; [exact G|]. split; [exact D1|]. intros x y I. apply D3; [|apply Xn; exact I]. intros Y. exact (k_ex _ _ _ _ _ _ _ K y Y I).
Qed.

(** ** A new reference for the client, from the stack's pointer *)
Lemma one_parts im unp b p : f_one im (mut_kind unp) b p = fun s => match tree_retag (fresh_tag s) p unp [(if unp then im else true, b)] (nodes s) with
  | Some r => Some (fresh_tag s, MkS r (S (fresh_tag s))) | None => None end.
Proof. destruct unp; reflexivity. Qed.

Lemma v_ref ex unp im s o base up p : wf s -> vrel ex unp s o base up -> linked ex s o base up p base -> (forall y, In y ex -> (y < fresh_tag s)%nat) ->
  op (f_one im (mut_kind unp) (nblk o) p) s (fun d s' => d = fresh_tag s /\ exists o', ref_from o base unp im d o' /\ vrel ex unp s' o' base up /\ down p (in_block (nblk o)) s s' /\
    line (nodes s') d = d :: line (nodes s) p).
Proof.
  intros W V K Xn. rewrite one_parts. unfold op. set (parts := [(if unp then im else true, nblk o)]).
  assert (Sb : forall c b x, In (c, b) parts -> in_block b x -> in_block (nblk o) x) by (intros c b x [[= <- <-]|[]]; auto).
  pose proof (v_retag ex unp s o base up p base unp parts W V K Xn Sb) as G. unfold agree in G.
  assert (Some' : exists r', tree_retag (fresh_tag s) base unp parts (ntree o) = Some r').
  { unfold tree_retag, parts. cbn [tree_reads]. destruct unp; cbn [negb andb]; [|eauto].
    destruct (access_some false base (nblk o) (ntree o)) as [r E]; [|rewrite E; eauto]. intros x X. rewrite (v_ibase _ _ _ _ _ _ V). unfold allowed. cbn [forallb].
    pose proof (v_byte _ _ _ _ _ _ V x X) as B. unfold byte_ok in B. destruct (perms (ntree o) x base); try contradiction; reflexivity. }
  destruct Some' as [r' E']. rewrite E' in G. destruct (tree_retag (fresh_tag s) p unp parts (nodes s)) as [r|] eqn:E; [|contradiction].
  split; [reflexivity|]. exists (MkN (nblk o) r' (fresh_tag s :: ntags o)). split; [exists r'; split; [exact E'|reflexivity]|]. split; [exact G|].
  pose proof (retag_step p unp parts (in_block (nblk o)) s r W (k_lt _ _ _ _ _ _ _ K) (fun c b x I _ => Sb c b x I) E) as (_ & L & _ & _ & D). auto.
Qed.

Lemma linked_chain ex unp s o base up p n s' q : vrel ex unp s o base up -> (forall y, In y ex -> (y < fresh_tag s)%nat) -> chain p s n s' -> linked ex s o base up p q -> linked ex s' o base up n q.
Proof.
  intros V Xn C [a1 a2 a3 a4 a5 a6]. pose proof C as [c0 c1 c2 c3 c4 c5 c6]. split; auto; [lia| | | |].
  - intros y Y. apply c5; [|apply a2; exact Y]. eapply wf_line; [exact c0|exact a1|apply a2; exact Y].
  - intros y Y. rewrite c5 by (eapply v_lt; eauto). apply a3. exact Y.
  - intros y Y. destruct (c6 y Y) as [L|P]; [|auto]. apply c5 in Y; [|exact L]. destruct (a4 y Y) as [Q|[Q|Q]]; auto. right. right. intros x X. apply (s_cell _ _ _ (proj1 c2)); auto.
  - intros y Y I. specialize (Xn y I). apply c5 in Y; [|exact Xn]. exact (a5 y Y I).
Qed.

(** ** Readable bytes *)
Definition readable (s : forest) (p : nat) (X : Z -> Prop) : Prop := (p < fresh_tag s)%nat /\ forall x y, X x -> In y (line (nodes s) p) -> perms (nodes s) x y <> PDisabled.

Lemma readable_step B s s' p (X : Z -> Prop) : wf s -> step B s s' -> (forall x, X x -> ~ B x) -> readable s p X -> readable s' p X.
Proof.
  intros W K D [L Q]. pose proof (s_fresh _ _ _ K). split; [lia|]. intros x y Hx Y. rewrite (s_line _ _ _ K) in Y by exact L. rewrite (s_out _ _ _ K); auto. eapply wf_line; eauto.
Qed.
Lemma readable_chain p s n s' X : chain p s n s' -> readable s p X -> readable s' n X.
Proof.
  intros C [L Q]. pose proof C as [c0 c1 c2 c3 c4 c5 c6]. split; [lia|]. intros x y Hx Y. destruct (c6 y Y) as [Ly|P]; [|rewrite P; discriminate].
  apply c5 in Y; [|exact Ly]. rewrite (s_out _ _ _ (proj1 c2)); auto.
Qed.
Lemma op_read p b s : wf s -> readable s p (in_block b) -> op (f_access false p b) s (fun _ s' => down p (in_block b) s s' /\ forall x y, perms (nodes s) x y <> PDisabled -> perms (nodes s') x y <> PDisabled).
Proof.
  intros W [L Q]. unfold op, f_access. destruct (access_some false p b (nodes s)) as [r E].
  - intros x X. apply forallb_forall. intros y Y. specialize (Q x y X Y). destruct (perms (nodes s) x y); try reflexivity. congruence.
  - rewrite E. split; [apply access_down with (w := false); auto|]. intros x y N. cbn [nodes]. destruct (inb b x) eqn:B.
    + apply inb_iff in B. destruct (in_dec Nat.eq_dec y (line (nodes s) p)) as [Y|Y].
      * pose proof (access_after _ _ _ _ _ _ _ E B Y) as C. destruct (perms (nodes s) x y); cbn in C; congruence.
      * rewrite (access_else _ _ _ _ _ _ _ E B Y). destruct (perms (nodes s) x y) as [[|]| | | |]; cbn; congruence.
    + rewrite (access_out _ _ _ _ _ _ E); [exact N|]. rewrite <- inb_iff. congruence.
Qed.

(** ** pin *)
Lemma v_new (s : forest) (p : nat) (b vb : block) (unp : bool) (up : list nat) : wf s -> (p < fresh_tag s)%nat -> line (nodes s) p = p :: up -> (forall x, in_block vb x -> in_block b x) ->
  (if unp then (forall x y, in_block b x -> In y (p :: up) -> active s x y) /\ exists z, In z up /\ z <> 0%nat /\ forall x, perms (nodes s) x z <> PCell else qt s p (in_block b)) ->
  vrel [] unp s (pinned_value vb p unp) p up.
Proof.
  intros W L Lp Sb U. unfold pinned_value. split; cbn [nblk ntree ntags line perms].
  - exact Lp.
  - rewrite Nat.eqb_refl. reflexivity.
  - intros y [].
  - intros y [<-|[]]. split; cbn [nblk ntree ntags line perms]; rewrite ?Lp, ?Nat.eqb_refl; auto using incl_refl.
    + intros y [<-|[]]. split; intros; left; reflexivity.
    + intros y [<-|Y]; [left; left; reflexivity|right; left; exact Y].
  - intros x y _ [].
  - intros x X. apply Sb in X. destruct unp; cbn [byte_ok].
    + destruct U as [A (z & Z1 & Z2 & Z3)]. split; [intros y Y; apply A; auto|]. exists z. split; [right; exact Z1|]. split; [exact Z2|]. destruct (A x z X (or_intror Z1)) as [E|E]; [exact E|]. exfalso. exact (Z3 x E).
    + split; [reflexivity|]. intros y Y. destruct U as [_ Q]. apply Q; [exact X|]. rewrite Lp. exact Y.
Qed.

Lemma op_pin pl z s : wf s -> qt s (zslotter z) (in_block (p_tp pl)) -> open_ok s (zptr z) (zblk z) (zunpin z) -> (forall x, in_block (p_tp pl) x -> ~ in_block (zblk z) x) ->
  (forall x, in_block (zval z) x -> in_block (zblk z) x) -> (forall x, in_block (zlink z) x -> in_block (zblk z) x) -> (forall x, in_block (zlink z) x -> ~ in_block (zval z) x) ->
  op (f_pin pl z) s (fun v s' => (fresh_tag s <= v)%nat /\ exists o up, ref_from (pinned_value (zval z) (zptr z) (zunpin z)) (zptr z) (zunpin z) (zim z) v o /\ vrel [] (zunpin z) s' o (zptr z) up /\
    readable s' (zptr z) (in_block (zlink z)) /\ step (fun x => in_block (p_tp pl) x \/ in_block (zblk z) x) s s').
Proof.
  intros W Q O Dj Sv Sl Dl. unfold f_pin. apply op_bind. eapply op_weaken; [|apply op_cell_get; [exact W|apply qt_wr; exact Q]]. intros [] s1 D1. cbn beta in D1. pose proof (down_wf _ _ _ _ D1) as W1.
  pose proof (step_qt _ _ _ _ _ W (proj1 D1) Q) as Q1.
  assert (Dj' : forall x, in_block (zblk z) x -> ~ in_block (p_tp pl) x) by (intros x X Y; exact (Dj x Y X)).
  assert (O1 : open_ok s1 (zptr z) (zblk z) (zunpin z)) by (eapply open_step; [exact W|apply D1|exact Dj'|exact O]).
  apply op_bind. eapply op_weaken; [|apply op_leak_box_write; [exact W1|exact O1]]. intros [] s2 (D2 & up & L2 & Lt2 & U2). pose proof (down_wf _ _ _ _ D2) as W2. pose proof (step_qt _ _ _ _ _ W1 (proj1 D2) Q1) as Q2.
  apply op_bind. eapply op_weaken; [|apply op_cell_set; [exact W2|apply qt_wr; exact Q2]]. intros [] s3 D3. cbn beta in D3. pose proof (down_wf _ _ _ _ D3) as W3.
  pose proof (v_new s2 (zptr z) (zblk z) (zval z) (zunpin z) up W2 Lt2 L2 Sv U2) as V2.
  assert (V3 : vrel [] (zunpin z) s3 (pinned_value (zval z) (zptr z) (zunpin z)) (zptr z) up) by (eapply vrel_step; [exact W2|apply D3|intros x X; apply Dj', Sv, X|exact V2]).
  assert (R2 : readable s2 (zptr z) (in_block (zlink z))).
  { split; [exact Lt2|]. intros x y X Y. rewrite L2 in Y. destruct (zunpin z).
    - destruct U2 as [A _]. destruct (A x y (Sl x X) Y) as [-> | ->]; discriminate.
    - destruct U2 as [_ A]. rewrite <- L2 in Y. destruct (A x y (Sl x X) Y) as [-> | [_ ->]]; discriminate. }
  assert (R3 : readable s3 (zptr z) (in_block (zlink z))) by (eapply readable_step; [exact W2|apply D3|intros x X; apply Dj', Sl, X|exact R2]).
  eapply op_weaken; [|apply (v_ref [] (zunpin z) (zim z) s3 (pinned_value (zval z) (zptr z) (zunpin z)) (zptr z) up (zptr z) W3 V3)].
  - intros v s4 (-> & o & R & V4 & D4 & _). pose proof (s_fresh _ _ _ (proj1 D1)). pose proof (s_fresh _ _ _ (proj1 D2)). pose proof (s_fresh _ _ _ (proj1 D3)). split; [lia|].
    exists o, up. split; [exact R|]. split; [exact V4|]. split; [eapply readable_step; [exact W3|apply D4| |exact R3]; exact Dl|].
    eapply step_trans; [eapply step_more; [|apply D1]; auto|]. eapply step_trans; [eapply step_more; [|apply D2]; auto|]. eapply step_trans; [eapply step_more; [|apply D3]; auto|].
    eapply step_more; [|apply D4]. cbn [pinned_value nblk]. intros x X. right. apply Sv. exact X.
  - apply (v_linked _ _ _ _ _ _ V3). left. reflexivity.
  - intros y [].
Qed.

(** ** destructors *)
Lemma op_start ex z s o up : wf s -> nblk o = zval z -> vrel ex (zunpin z) s o (zptr z) up -> (forall y, In y ex -> (y < fresh_tag s)%nat) -> readable s (zptr z) (in_block (zlink z)) ->
  (forall x, in_block (zlink z) x -> ~ in_block (zval z) x) ->
  op (f_start z) s (fun q s' => (fresh_tag s <= snd q)%nat /\ exists o', ref_from o (zptr z) (zunpin z) (zim z) (snd q) o' /\ vrel ex (zunpin z) s' o' (zptr z) up /\
    readable s' (fst q) (in_block (zlink z)) /\ readable s' (zptr z) (in_block (zlink z)) /\ (forall y, In y (line (nodes s') (fst q)) -> ~ In y ex) /\ down (zptr z) (in_block (zval z)) s s').
Proof.
  intros W Eb V Xn R Dl. pose proof (v_linked _ _ _ _ _ _ V (zptr z) (or_introl eq_refl)) as K0.
  unfold f_start. apply op_bind. eapply op_weaken; [|apply op_one; [exact W|apply R]]. intros slot s1 C1. ch C1. apply op_bind. eapply op_weaken; [|apply op_one; auto]. intros v s2 C2. ch C2.
  apply op_bind. eapply op_weaken; [|apply op_one; auto]. intros raw s3 C3. ch C3. pose proof (chain_trans _ _ _ _ _ _ C2 C3) as C13. pose proof (chain_trans _ _ _ _ _ _ C1 C13) as C.
  assert (V3 : vrel ex (zunpin z) s3 o (zptr z) up) by (eapply vrel_step; [exact W|apply (c_down _ _ _ _ C)|intros x _ []|exact V]).
  assert (K3 : linked ex s3 o (zptr z) up raw (zptr z)) by (exact (linked_chain _ _ _ _ _ _ _ _ _ _ V Xn C K0)).
  assert (K1 : linked ex s1 o (zptr z) up slot (zptr z)) by (exact (linked_chain _ _ _ _ _ _ _ _ _ _ V Xn C1 K0)).
  pose proof (s_fresh _ _ _ (proj1 (c_down _ _ _ _ C))) as F3. pose proof (s_fresh _ _ _ (proj1 (c_down _ _ _ _ C1))) as F1.
  apply op_bind. rewrite <- Eb. eapply op_weaken; [|apply (v_ref ex (zunpin z) (zim z) s3 o (zptr z) up raw)]; auto.
  - intros d s4 (-> & o' & Rf & V4 & D4 & L4). apply op_ret. cbn [fst snd]. split; [lia|]. exists o'. split; [exact Rf|]. split; [exact V4|]. rewrite Eb in *.
    assert (Rs : readable s4 slot (in_block (zlink z))).
    { eapply readable_step; [|apply D4|exact Dl|]; auto. eapply readable_step; [|apply (c_down _ _ _ _ C13)|intros x _ []|]; auto. eapply readable_chain; eauto. }
    split; [exact Rs|]. split; [|split].
    + eapply readable_step; [|apply D4|exact Dl|]; auto. eapply readable_step; [|apply (c_down _ _ _ _ C)|intros x _ []|]; auto.
    + pose proof (s_fresh _ _ _ (proj1 (c_down _ _ _ _ C13))) as F13. rewrite (s_line _ _ _ (proj1 D4)) by (pose proof (c_new _ _ _ _ C1); lia). rewrite (s_line _ _ _ (proj1 (c_down _ _ _ _ C13))) by (pose proof (c_new _ _ _ _ C1); lia).
      apply (k_ex _ _ _ _ _ _ _ K1).
    + eapply chain_down; [exact C|exact D4].
  - intros y I. specialize (Xn y I). lia.
Qed.

(** ** pop_all reads everything through its own unique reference *)
Lemma foreign_twice p : foreign false (foreign false p) = foreign false p.
Proof. destruct p as [[|]| | | |]; reflexivity. Qed.

Definition reads (parts : list (bool * block)) (x : Z) : bool := existsb (fun c => inb (snd c) x) parts.
Lemma reads_else p parts : forall s r x y, tree_reads p true parts s = Some r -> ~ In y (line s p) -> perms r x y = if reads parts x then foreign false (perms s x y) else perms s x y.
Proof.
  induction parts as [|[c b] parts IH]; intros s r x y E Y; cbn [tree_reads] in E; [injection E as <-; reflexivity|]. cbn [negb andb] in E.
  destruct (tree_access false p b s) as [r1|] eqn:E1; [|discriminate]. specialize (IH r1 r x y E). rewrite (access_line _ _ _ _ _ E1) in IH. rewrite (IH Y). unfold reads at 2. cbn [existsb snd]. fold (reads parts x).
  destruct (inb b x) eqn:B; cbn [orb].
  - apply inb_iff in B. rewrite (access_else _ _ _ _ _ _ _ E1 B Y). destruct (reads parts x); [apply foreign_twice|reflexivity].
  - rewrite (access_out _ _ _ _ _ _ E1); [reflexivity|]. rewrite <- inb_iff. congruence.
Qed.

Definition after_pop (unpin : bool) (p : tperm) : tperm := if unpin then foreign false p else p.

Section Stack.
Variables (hd st tp : block).
Hypothesis (d3 : disjoint st tp).
Let pl := MkPlaces hd st tp.

Record taken (unpin : bool) (s : forest) (self : nat) (s' : forest) (ex : list nat) : Prop := {
  t_step : step (mem3 hd st tp) s s';
  t_st : forall x y, in_block st x -> (y < fresh_tag s)%nat -> y <> 0%nat -> perms (nodes s') x y = after_pop unpin (perms (nodes s) x y);
  t_new : forall y, In y ex -> (fresh_tag s <= y < fresh_tag s')%nat;
  t_self : forall y, In y (line (nodes s') self) -> y = 0%nat \/ In y ex;
  t_wr : wr s' self (mem3 hd st tp);
  t_loose : forall x y, in_block st x -> In y ex -> perms (nodes s') x y = PCell \/ perms (nodes s') x y = PReserved true }.

Lemma any3 x : in_any [hd; st; tp] x <-> mem3 hd st tp x.
Proof.
  split.
  - intros (b & [<-|[<-|[<-|[]]]] & X); [left|right; left|right; right]; exact X.
  - intros [X|[X|X]]; [exists hd|exists st|exists tp]; (split; [cbn; auto|exact X]).
Qed.

Lemma op_stack_unique p s : wf s -> wr s p (mem3 hd st tp) ->
  op (f_stack_ref pl RUnique p) s (fun n s' => down p (mem3 hd st tp) s s' /\ kid p s n s' /\ (forall x, perms (nodes s') x n = PReserved true) /\
    (forall x y, In y (line (nodes s) p) -> perms (nodes s') x y = perms (nodes s) x y) /\
    (forall x y, in_block st x -> (y < fresh_tag s)%nat -> ~ In y (line (nodes s) p) -> perms (nodes s') x y = foreign false (perms (nodes s) x y))).
Proof.
  intros W Wr. assert (Wa : wr s p (in_any [hd; st; tp])) by (eapply wr_less; [|exact Wr]; intros x; apply any3).
  pose proof (op_unique true p [hd; st; tp] s W ltac:(discriminate) Wa) as H. change (f_retag true p (map (pair RUnique) [hd; st; tp])) with (f_stack_ref pl RUnique p) in H.
  destruct (op_some _ _ _ H) as (n & s' & E & D & K & P & O). unfold op. rewrite E. split; [eapply down_more; [|exact D]; intros x; apply any3|]. split; [exact K|]. split; [exact P|]. split; [exact O|].
  intros x y X Ly Y. unfold f_stack_ref, f_retag in E. cbn [pl p_hd p_st p_tp as_mutable existsb fst orb as_cells map snd] in E. unfold tree_retag in E.
  destruct (tree_reads p true [(true, hd); (true, st); (true, tp)] (nodes s)) as [r|] eqn:Er; [|discriminate]. injection E as <- <-. cbn [nodes perms]. rewrite eqb_old by exact Ly.
  rewrite (reads_else _ _ _ _ x y Er Y). replace (reads _ x) with true; [reflexivity|]. unfold reads. cbn [existsb snd]. rewrite (proj2 (inb_iff st x) X). rewrite orb_true_r. reflexivity.
Qed.

Lemma op_take unpin s : wf s ->
  op (f_take pl unpin) s (fun self s' => exists ex, taken unpin s self s' ex).
Proof.
  intros W. pose proof (wf_pos _ W) as F0.
  assert (L0 : forall y, In y (line (nodes s) 0) -> y = 0%nat) by (intros y; rewrite (proj1 (t_root _ _ _ W)); intros [<-|[]]; reflexivity).
  assert (Wr0 : wr s 0 (mem3 hd st tp)) by (split; [lia|]; intros x y _ Y; rewrite (L0 y Y); left; apply wf_root; exact W).
  unfold f_take. destruct unpin; cbn [mut_kind].
  - apply op_bind. eapply op_weaken; [|apply (op_stack_unique 0 s W Wr0)]. intros n1 s1 (D1 & K1 & P1 & O1 & E1). pose proof (down_wf _ _ _ _ D1) as W1.
    assert (Wr1 : wr s1 n1 (mem3 hd st tp)) by (eapply (kid_wr 0 _ s); eauto; intros x; rewrite P1; apply wp_res).
    apply op_bind. eapply op_weaken; [|apply (op_stack_unique n1 s1 W1 Wr1)]. intros n2 s2 (D2 & K2 & P2 & O2 & E2). pose proof (down_wf _ _ _ _ D2) as W2.
    assert (Wr2 : wr s2 n2 (mem3 hd st tp)) by (eapply (kid_wr n1 _ s1); eauto; intros x; rewrite P2; apply wp_res).
    apply op_bind. eapply op_weaken; [|apply op_cell_set; [exact W2|eapply wr_less; [|exact Wr2]; intros x X; right; right; exact X]]. intros [] s3 D3. cbn beta in D3. apply op_ret. cbn [pl p_tp] in D3.
    pose proof (k_old _ _ _ _ K1). pose proof (k_old _ _ _ _ K2). pose proof (s_fresh _ _ _ (proj1 D3)). pose proof (s_fresh _ _ _ (proj1 D2)). pose proof (s_fresh _ _ _ (proj1 D1)).
    assert (Ln : line (nodes s2) n2 = n2 :: n1 :: line (nodes s) 0) by (rewrite (k_line _ _ _ _ K2), (k_line _ _ _ _ K1); reflexivity).
    exists [n2; n1]. split.
    + eapply step_trans; [apply D1|]. eapply step_trans; [apply D2|]. eapply step_more; [|apply D3]. intros x X. right. right. exact X.
    + intros x y X Ly Y0. rewrite (s_out _ _ _ (proj1 D3)) by (lia || (intros T; exact (d3 x (conj X T)))). rewrite E2; [|exact X|lia|].
      2:{ rewrite (k_line _ _ _ _ K1). intros [<-|I]; [lia|apply Y0, L0, I]. } rewrite E1; [apply foreign_twice|exact X|exact Ly|]. intros I. apply Y0, L0, I.
    + intros y [<-|[<-|[]]]; lia.
    + intros y Y. rewrite (s_line _ _ _ (proj1 D3)) in Y by lia. rewrite Ln in Y. destruct Y as [<-|[<-|Y]]; [right; left; reflexivity|right; right; left; reflexivity|left; apply L0; exact Y].
    + eapply down_wr; [exact W2|exact D3|exact Wr2].
    + intros x y X Y. right. assert (Ly : (y < fresh_tag s2)%nat) by (destruct Y as [<-|[<-|[]]]; lia). rewrite (s_out _ _ _ (proj1 D3)); [|intros T; exact (d3 x (conj X T))|exact Ly].
      destruct Y as [<-|[<-|[]]]; [apply P2|]. rewrite O2; [apply P1|]. rewrite (k_line _ _ _ _ K1). left. reflexivity.
  - apply op_bind. eapply op_weaken; [|apply (op_stack pl); [exact W|lia]]. intros n1 s1 C1. ch C1. apply op_bind. eapply op_weaken; [|apply (op_stack pl); auto]. intros n2 s2 C2. ch C2.
    pose proof (chain_trans _ _ _ _ _ _ C1 C2) as C. pose proof (chain_wr _ _ _ _ _ C Wr0) as Wr2.
    apply op_bind. eapply op_weaken; [|apply op_cell_set; [assumption|eapply wr_less; [|exact Wr2]; intros x X; right; right; exact X]]. intros [] s3 D3. cbn beta in D3. apply op_ret. cbn [pl p_tp] in D3.
    pose proof (c_new _ _ _ _ C). pose proof (s_fresh _ _ _ (proj1 (c_down _ _ _ _ C))). pose proof (s_fresh _ _ _ (proj1 D3)).
    exists (filter (fun y => Nat.leb (fresh_tag s) y) (line (nodes s2) n2)).
    assert (Cell : forall y, In y (line (nodes s2) n2) -> (fresh_tag s <= y)%nat -> forall x, perms (nodes s2) x y = PCell).
    { intros y Y Ly. destruct (c_else _ _ _ _ C y Y) as [Q|Q]; [lia|exact Q]. }
    split.
    + eapply step_trans; [eapply step_more; [|apply (c_down _ _ _ _ C)]; intros x []|]. eapply step_more; [|apply D3]. intros x X. right. right. exact X.
    + intros x y X Ly Y0. rewrite (s_out _ _ _ (proj1 D3)) by (lia || (intros T; exact (d3 x (conj X T)))). rewrite (s_out _ _ _ (proj1 (c_down _ _ _ _ C))); auto.
    + intros y Y. apply filter_In in Y. destruct Y as [Y Ly]. apply Nat.leb_le in Ly. pose proof (wf_line s2 n2 y H1 ltac:(lia) Y). lia.
    + intros y Y. rewrite (s_line _ _ _ (proj1 D3)) in Y by lia. destruct (Nat.leb (fresh_tag s) y) eqn:E; [right; apply filter_In; auto|]. apply Nat.leb_gt in E. left. apply L0. apply (c_in _ _ _ _ C y E). exact Y.
    + eapply down_wr; [eassumption|exact D3|exact Wr2].
    + intros x y X Y. left. apply filter_In in Y. destruct Y as [Y Ly]. apply Nat.leb_le in Ly. apply (s_cell _ _ _ (proj1 D3)); [eapply wf_line; [eassumption| |exact Y]; lia|]. apply Cell; auto.
Qed.

(** what happens to a value *)
Lemma v_read ex ex' unpin unp s s' self o base up : wf s -> taken unpin s self s' ex' -> (forall x, in_block (nblk o) x -> in_block st x) -> ~ In 0%nat (base :: ntags o) -> vrel ex unp s o base up ->
  vrel ex unp s' (if unpin then read_elsewhere o else o) base up.
Proof.
  intros W [t1 t2 t3 t4 t5 t6] Sb N0 V. pose proof V as [a1 a2 a3 a4 a5 a6].
  assert (X1 : nblk (if unpin then read_elsewhere o else o) = nblk o /\ ntags (if unpin then read_elsewhere o else o) = ntags o /\ line (ntree (if unpin then read_elsewhere o else o)) = line (ntree o) /\
    forall x y, perms (ntree (if unpin then read_elsewhere o else o)) x y = after_pop unpin (perms (ntree o) x y)) by (destruct unpin; repeat split).
  destruct X1 as (E1 & E2 & E3 & E4).
  assert (Lu : forall y, In y (base :: up) -> (y < fresh_tag s)%nat) by (intros y; eapply v_up; eauto).
  split; rewrite ?E1, ?E2, ?E3; auto.
  - rewrite (s_line _ _ _ t1); [exact a1|]. apply Lu. left. reflexivity.
  - intros y Y. apply (linked_step ex (mem3 hd st tp) s _ o); auto.
  - intros x y X Y. rewrite E4, t2, a5; auto; [eapply v_lt; eauto; right; exact Y|]. intros ->. apply N0. right. exact Y.
  - intros x X. specialize (a6 x X). rewrite E4.
    assert (Pu : forall y, In y (base :: up) -> y <> 0%nat -> perms (nodes s') x y = after_pop unpin (perms (nodes s) x y)) by (intros y Y Y0; apply t2; auto).
    assert (P0 : perms (nodes s') x 0%nat = PActive) by (apply wf_root; apply (s_wf _ _ _ t1)).
    unfold byte_ok in *. destruct (perms (ntree o) x base) as [im| | | |] eqn:Ep; try contradiction.
    + destruct a6 as [A (z & Z1 & Z2 & Z3)]. assert (Q : forall y, In y (base :: up) -> active s' x y \/ (unpin = true /\ perms (nodes s') x y = PFrozen)).
      { intros y Y. destruct (Nat.eq_dec y 0) as [->|Y0]; [left; left; exact P0|]. specialize (A y Y). unfold active in *. rewrite (Pu y Y Y0). destruct unpin; cbn [after_pop]; [|auto]. destruct A as [-> | ->]; cbn; auto. }
      destruct unpin; cbn [after_pop foreign].
      * split; [intros y Y; destruct (Q y Y) as [G|[_ G]]; auto|]. exists z. split; [exact Z1|]. rewrite (Pu z Z1 Z2), Z3. reflexivity.
      * split; [intros y Y; destruct (Q y Y) as [G|[G _]]; [exact G|discriminate]|]. exists z. split; [exact Z1|]. split; [exact Z2|]. rewrite (Pu z Z1 Z2), Z3. reflexivity.
    + replace (after_pop unpin PFrozen) with PFrozen by (destruct unpin; reflexivity). destruct a6 as [A (z & Z1 & Z2)]. split.
      * intros y Y. destruct (Nat.eq_dec y 0) as [->|Y0]; [left; left; exact P0|]. specialize (A y Y). unfold active in *. rewrite (Pu y Y Y0). destruct A as [[-> | ->] | ->]; destruct unpin; cbn; auto.
      * exists z. split; [exact Z1|]. rewrite (Pu z Z1), Z2; [destruct unpin; reflexivity|]. intros ->. rewrite wf_root in Z2 by exact W. discriminate.
    + replace (after_pop unpin PCell) with PCell by (destruct unpin; reflexivity). destruct a6 as [U A]. split; [exact U|]. intros y Y. apply (step_quiet (mem3 hd st tp) s); auto.
Qed.

Lemma readable_pop unpin s s' self ex p (X : Z -> Prop) : wf s -> taken unpin s self s' ex -> (forall x, X x -> in_block st x) -> readable s p X -> readable s' p X.
Proof.
  intros W [t1 t2 t3 t4 t5 t6] Sb [L R]. pose proof (s_fresh _ _ _ t1). split; [lia|]. intros x y Hx Y. rewrite (s_line _ _ _ t1) in Y by exact L. destruct (Nat.eq_dec y 0) as [->|Y0].
  - rewrite wf_root by (apply (s_wf _ _ _ t1)). discriminate.
  - rewrite t2; auto; [|eapply wf_line; eauto]. specialize (R x y Hx Y). destruct (perms (nodes s) x y) as [[|]| | | |], unpin; cbn; congruence.
Qed.
End Stack.
