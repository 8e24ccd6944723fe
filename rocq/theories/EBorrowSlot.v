(** * EBorrowSlot: the slots of an ExitStack on the stacks of all bytes. *)
From Verif Require Import Base Spec BaseFacts SyncModel SyncSpec BorrowModel BorrowSpec BorrowProofs BorrowState BorrowWorld UBorrowModel UBorrowSub UBorrowCells
  UBorrowSpec UBorrowCalls UBorrowReset
  EBorrowModel EBorrowSpec EBorrowBase.

Definition within (b B : block) : Prop := start B <= start b /\ start b + size b <= start B + size B.
Lemma within_in b B x : within b B -> in_block b x -> in_block B x.
Proof. unfold within, in_block. lia. Qed.
Lemma within_bool b B : within b B -> (start B <=? start b) && (start b + size b <=? start B + size B) = true.
Proof. intros [H1 H2]. rewrite andb_true_iff, !Z.leb_le. auto. Qed.
Lemma within_refl b : within b b.
Proof. unfold within. lia. Qed.

Lemma set_nth_nth {A} (l : list A) k x y : nth_error l k = Some y -> nth_error (set_nth l k x) k = Some x.
Proof. revert k. induction l as [|z l IH]; intros [|k]; cbn; try discriminate; auto. Qed.
Lemma set_nth_twice {A} (l : list A) k x y : set_nth (set_nth l k x) k y = set_nth l k y.
Proof. revert k. induction l as [|z l IH]; intros [|k]; cbn; try reflexivity. rewrite IH. reflexivity. Qed.
Lemma set_nth_same {A} (l : list A) k x : nth_error l k = Some x -> set_nth l k x = l.
Proof. revert k. induction l as [|z l IH]; intros [|k]; cbn; intros H; try discriminate H; [congruence|rewrite IH; auto]. Qed.
Lemma set_nth_ne {A} (l : list A) k j x : j <> k -> nth_error (set_nth l k x) j = nth_error l j.
Proof. revert k j. induction l as [|z l IH]; intros [|k] [|j] N; cbn; auto; contradiction. Qed.
Lemma set_nth_length {A} (l : list A) k x : length (set_nth l k x) = length l.
Proof. revert k. induction l as [|z l IH]; intros [|k]; cbn; auto. Qed.

Lemma obj_lt own cs objs fr s o x : holds own cs objs fr s -> In o objs -> in_block (iblk o) x -> Forall (fun i => (itag i < nexttag s)%nat) (istk o x).
Proof.
  intros H I X. destruct (h_byte _ _ _ _ _ H x) as (d & E & G & U & F & R). destruct (R o I X) as [R1 R2 R3]. rewrite R3.
  pose proof (lt_parts _ _ _ G) as (L1 & L2 & L3). apply Forall_app. split; [eapply Forall_impl; [|exact L1]; cbn; lia|].
  apply Forall_forall. intros i Q. apply filter_In in Q. rewrite Forall_forall in L3. specialize (L3 i (proj1 Q)). cbn in L3. lia.
Qed.

(** ** The library's accesses to one object *)
Section Obj.
Variables (own : bool) (cs : caps) (objs : list iobj) (fr : Z -> Prop) (k : nat) (F0 : iobj).
Hypothesis (nth_ : nth_error objs k = Some F0) (pair_ : pairwise disjoint (map iblk objs)) (used_ : forall o x, In o objs -> in_block (iblk o) x -> ~ fr x).

Definition atk (s : bstate) (F : iobj) : Prop :=
  holds own cs (set_nth objs k F) fr s /\ iblk F = iblk F0 /\ (forall t bs, In (t, bs) cs -> ~ In t (itags F)).

Lemma atk_facts s F : atk s F -> nth_error (set_nth objs k F) k = Some F /\ pairwise disjoint (map iblk (set_nth objs k F)) /\ (forall x, in_block (iblk F) x -> ~ fr x) /\
  (forall o x, In o (set_nth objs k F) -> in_block (iblk o) x -> ~ fr x) /\ (forall x, in_block (iblk F) x -> Forall (fun i => (itag i < nexttag s)%nat) (istk F x)).
Proof.
  intros (H & B & S). pose proof (set_nth_nth objs k F F0 nth_) as N. pose proof (nth_error_In _ _ nth_) as I0. split; [exact N|]. split; [|split; [|split]].
  - rewrite (set_nth_map iblk objs k F F0 nth_ B). exact pair_.
  - rewrite B. intros x. apply used_. exact I0.
  - intros o x I X. apply set_nth_in in I. destruct I as [->|I]; [rewrite B in X; exact (used_ F0 x I0 X)|exact (used_ o x I X)].
  - intros x. apply (obj_lt own cs _ fr s F x H). eapply nth_error_In; eauto.
Qed.

Lemma atk_act busy s F a (K : Z -> stack) : atk s F -> act_ok (MkO (iblk F) (itags F)) a = true ->
  (forall x, in_block (iblk F) x -> match act_at busy a (nexttag s) x with Some f => f (istk F x) = Some (K x) | None => K x = istk F x end) ->
  exists s' F', do_act busy a s = Some (ans_after a (nexttag s), s') /\ nexttag s' = next_after a (nexttag s) /\
    itags F' = tags_after a (nexttag s) (itags F) /\ (forall x, in_block (iblk F) x -> istk F' x = K x) /\ atk s' F'.
Proof.
  intros T A HK. destruct (atk_facts s F T) as (N & P & NF & _). destruct T as (H & B & S).
  destruct (obj_act own cs _ fr s busy k F a K H N A P NF S HK) as (s' & F' & E1 & E2 & E3 & E4 & E5 & E6). rewrite set_nth_twice in E6.
  exists s', F'. split; [exact E1|]. split; [exact E2|]. split; [exact E4|]. split; [exact E5|]. split; [exact E6|]. split; [congruence|].
  intros t bs I. rewrite E4. pose proof (h_caps _ _ _ _ _ H t bs I) as Lt. destruct a; cbn [tags_after]; [eauto|eauto|]. intros [K0|K0]; [lia|]. exact (S t bs I K0).
Qed.

Definition got (o : option stack) : stack := match o with Some k => k | None => [] end.
Lemma got_some o : o <> None -> o = Some (got o).
Proof. destruct o; [reflexivity|contradiction]. Qed.

Lemma atk_retag busy s F kd t b pr : atk s F -> In t (itags F) -> within b (iblk F) ->
  (forall x, in_block b x -> sb_retag busy kd t (nexttag s) pr (istk F x) <> None) ->
  exists s' F', m_retag_prot busy t [(kd, b)] pr s = Some (nexttag s, s') /\ nexttag s' = S (nexttag s) /\ itags F' = nexttag s :: itags F /\
    (forall x, in_block b x -> sb_retag busy kd t (nexttag s) pr (istk F x) = Some (istk F' x)) /\ (forall x, in_block (iblk F) x -> ~ in_block b x -> istk F' x = istk F x) /\ atk s' F'.
Proof.
  intros T It W HK. destruct (atk_act busy s F (CRetag t [(kd, b)] pr) (fun x => if inb b x then got (sb_retag busy kd t (nexttag s) pr (istk F x)) else istk F x) T) as (s' & F' & E1 & E2 & E3 & E4 & E5).
  - cbn [act_ok oblk otags forallb snd apart]. rewrite (has_tag _ _ It), (within_bool _ _ W). reflexivity.
  - intros x X. cbn [act_at find snd]. destruct (inb b x) eqn:Y; [apply got_some; apply HK; apply inb_iff; exact Y|reflexivity].
  - exists s', F'. cbn [do_act] in E1. unfold mbind in E1. destruct (m_retag_prot busy t [(kd, b)] pr s) as [[n s1]|]; [|discriminate]. cbn in E1. injection E1 as -> ->.
    split; [reflexivity|]. split; [exact E2|]. split; [exact E3|]. split; [|split; [|exact E5]].
    + intros x X. rewrite (E4 x (within_in _ _ _ W X)), (proj2 (inb_iff b x) X). apply got_some. apply HK. exact X.
    + intros x X Y. rewrite (E4 x X). rewrite <- inb_iff in Y. destruct (inb b x); [contradiction|reflexivity].
Qed.

Lemma atk_write busy s F t : atk s F -> In t (itags F) -> (forall x, in_block (iblk F) x -> sb_write busy t (istk F x) <> None) ->
  exists s' F', m_write busy t (iblk F) s = Some (tt, s') /\ nexttag s' = nexttag s /\ itags F' = itags F /\
    (forall x, in_block (iblk F) x -> sb_write busy t (istk F x) = Some (istk F' x)) /\ atk s' F'.
Proof.
  intros T It HK. destruct (atk_act busy s F (CWrite t (iblk F)) (fun x => got (sb_write busy t (istk F x))) T) as (s' & F' & E1 & E2 & E3 & E4 & E5).
  - cbn [act_ok oblk otags]. rewrite (has_tag _ _ It), within_self. reflexivity.
  - intros x X. cbn [act_at]. rewrite (proj2 (inb_iff _ x) X). apply got_some. auto.
  - exists s', F'. cbn [do_act] in E1. unfold mbind in E1. destruct (m_write busy t (iblk F) s) as [[[] s1]|]; [|discriminate]. cbn in E1. injection E1 as <-.
    split; [reflexivity|]. split; [exact E2|]. split; [exact E3|]. split; [|exact E5]. intros x X. rewrite (E4 x X). apply got_some. auto.
Qed.

Lemma atk_read busy s F t b : atk s F -> In t (itags F) -> within b (iblk F) -> (forall x, in_block b x -> sb_read busy t (istk F x) <> None) ->
  exists s' F', m_read busy t b s = Some (tt, s') /\ nexttag s' = nexttag s /\ itags F' = itags F /\
    (forall x, in_block b x -> sb_read busy t (istk F x) = Some (istk F' x)) /\ (forall x, in_block (iblk F) x -> ~ in_block b x -> istk F' x = istk F x) /\ atk s' F'.
Proof.
  intros T It W HK. destruct (atk_act busy s F (CRead t b) (fun x => if inb b x then got (sb_read busy t (istk F x)) else istk F x) T) as (s' & F' & E1 & E2 & E3 & E4 & E5).
  - cbn [act_ok oblk otags]. rewrite (has_tag _ _ It), (within_bool _ _ W). reflexivity.
  - intros x X. cbn [act_at]. destruct (inb b x) eqn:Y; [apply got_some; apply HK; apply inb_iff; exact Y|reflexivity].
  - exists s', F'. cbn [do_act] in E1. unfold mbind in E1. destruct (m_read busy t b s) as [[[] s1]|]; [|discriminate]. cbn in E1. injection E1 as <-.
    split; [reflexivity|]. split; [exact E2|]. split; [exact E3|]. split; [|split; [|exact E5]].
    + intros x X. rewrite (E4 x (within_in _ _ _ W X)), (proj2 (inb_iff b x) X). apply got_some. apply HK. exact X.
    + intros x X Y. rewrite (E4 x X). rewrite <- inb_iff in Y. destruct (inb b x); [contradiction|reflexivity].
Qed.

(** something else, which leaves the object alone *)
Lemma atk_other {A} (m : M A) s F Q : atk s F -> (forall objs', objs' = set_nth objs k F -> pairwise disjoint (map iblk objs') -> (forall o x, In o objs' -> in_block (iblk o) x -> ~ fr x) ->
    holds own cs objs' fr s -> runs own objs' fr m s cs Q) ->
  exists a s' cs', m s = Some (a, s') /\ (nexttag s <= nexttag s')%nat /\ Q a cs' (nexttag s') /\ atk s' F.
Proof.
  intros T R. destruct (atk_facts s F T) as (N & P & NF & U & _). destruct T as (H & B & S).
  destruct (R _ eq_refl P U H) as (a & s' & cs' & E & L & I & H' & Qa). exists a, s', cs'. split; [exact E|]. split; [exact L|]. split; [exact Qa|]. split; [|auto].
  eapply holds_less; eauto.
Qed.
End Obj.

(** ** The bytes of a slot: [hs] are the library's tags; the client has pointers to those in [V], and its own view of them is [ist] *)
Definition sobj (n : nat) (hs : Z -> list nat) (base : nat) (V : Z -> Prop) (T : list nat) (ist : Z -> stack) (F : iobj) : Prop :=
  forall x, in_block (iblk F) x -> exists d r, sbyte n (hs x) base d r (istk F x) /\ (V x -> crel (hs x) base T d r (ist x)) /\ (~ V x -> up d = []).

Lemma sobj_more n n' (hs hs' : Z -> list nat) base V T ist F : (n <= n')%nat -> (forall x, in_block (iblk F) x -> incl (hs' x) (hs x)) -> sobj n hs base V T ist F -> sobj n' hs' base V T ist F.
Proof.
  intros L I S x X. destruct (S x X) as (d & r & S1 & S2 & S3). exists d, r. split; [eapply sbyte_more; eauto|]. split; [|exact S3]. intros Vx. eapply crel_less; [apply I; exact X|]. auto.
Qed.

Section Slot.
Variables (own : bool) (cs : caps) (objs : list iobj) (fr : Z -> Prop) (k : nat) (F0 : iobj).
Hypothesis (nth_ : nth_error objs k = Some F0) (pair_ : pairwise disjoint (map iblk objs)) (used_ : forall o x, In o objs -> in_block (iblk o) x -> ~ fr x).
Notation atk := (atk own cs objs fr k F0).

Lemma atk_tags s F t : atk s F -> In t (itags F) -> (1 <= t < nexttag s)%nat.
Proof.
  intros (H & _) I. apply (h_tags _ _ _ _ _ H F t); [|exact I]. apply (nth_error_In _ k). exact (set_nth_nth objs k F F0 nth_).
Qed.
Lemma atk_blk s F : atk s F -> iblk F = iblk F0.
Proof. intros (_ & B & _). exact B. Qed.

Lemma so_cell busy s F h b pr hs base V T ist : atk s F -> In h (itags F) -> within b (iblk F) -> (forall x, in_block b x -> In h (hs x)) -> (forall t, In t T -> (t < nexttag s)%nat) ->
  sobj (nexttag s) hs base V T ist F ->
  exists s' F', m_retag_prot busy h [(RCell, b)] pr s = Some (nexttag s, s') /\ nexttag s' = S (nexttag s) /\ itags F' = nexttag s :: itags F /\ atk s' F' /\
    sobj (nexttag s') (fun x => if inb b x then nexttag s :: hs x else hs x) base V T ist F'.
Proof.
  intros A I W Ih LT S. destruct (atk_retag own cs objs fr k F0 nth_ pair_ used_ busy s F RCell h b pr A I W) as (s' & F' & E1 & E2 & E3 & E4 & E5 & E6).
  - intros x X. destruct (S x (within_in _ _ _ W X)) as (d & r & S1 & _). destruct (b_cell busy _ _ _ _ _ _ h pr S1 (Ih x X)) as (K & -> & _). discriminate.
  - exists s', F'. split; [exact E1|]. split; [exact E2|]. split; [exact E3|]. split; [exact E6|]. intros x X. rewrite E2. rewrite (atk_blk _ _ E6), <- (atk_blk _ _ A) in X.
    destruct (S x X) as (d & r & S1 & S2 & S3). destruct (inb b x) eqn:Y.
    + apply inb_iff in Y. destruct (b_cell busy _ _ _ _ _ _ h pr S1 (Ih x Y)) as (K & Q1 & Q2). rewrite (E4 x Y) in Q1. injection Q1 as <-. exists (add_low d (nexttag s)), r. split; [exact Q2|].
      split; [|exact S3]. intros Vx. apply c_add; auto. apply (sb_good _ _ _ _ _ _ S1).
    + rewrite E5; [|exact X|rewrite <- inb_iff; congruence]. exists d, r. split; [eapply sbyte_more; [|apply incl_refl|exact S1]; lia|]. auto.
Qed.

Lemma so_read busy s F h b hs base V T ist : atk s F -> In h (itags F) -> within b (iblk F) -> (forall x, in_block b x -> In h (hs x) /\ ~ V x) ->
  sobj (nexttag s) hs base V T ist F ->
  exists s' F', m_read busy h b s = Some (tt, s') /\ nexttag s' = nexttag s /\ itags F' = itags F /\ atk s' F' /\ sobj (nexttag s') hs base V T ist F'.
Proof.
  intros A I W Ih S. destruct (atk_read own cs objs fr k F0 nth_ pair_ used_ busy s F h b A I W) as (s' & F' & E1 & E2 & E3 & E4 & E5 & E6).
  - intros x X. destruct (S x (within_in _ _ _ W X)) as (d & r & S1 & _ & S3). destruct (b_read busy _ _ _ _ _ _ h S1 (proj1 (Ih x X)) (S3 (proj2 (Ih x X)))) as (K & d' & -> & _). discriminate.
  - exists s', F'. split; [exact E1|]. split; [exact E2|]. split; [exact E3|]. split; [exact E6|]. intros x X. rewrite E2. rewrite (atk_blk _ _ E6), <- (atk_blk _ _ A) in X.
    destruct (S x X) as (d & r & S1 & S2 & S3). destruct (inb b x) eqn:Y.
    + apply inb_iff in Y. destruct (b_read busy _ _ _ _ _ _ h S1 (proj1 (Ih x Y)) (S3 (proj2 (Ih x Y)))) as (K & d' & Q1 & Q2 & Q3). rewrite (E4 x Y) in Q1. injection Q1 as <-.
      exists d', r. split; [exact Q2|]. split; [intros Vx; exfalso; exact (proj2 (Ih x Y) Vx)|auto].
    + rewrite E5; [|exact X|rewrite <- inb_iff; congruence]. exists d, r. auto.
Qed.

(** *** A reference for the client *)
Lemma so_give busy s F h b pr unp hs base T ist : atk s F -> In h (itags F) -> within b (iblk F) -> (forall x, in_block b x -> In h (hs x)) -> (forall t, In t T -> (t < nexttag s)%nat) ->
  (forall x, in_block (iblk F) x -> exists d r, sbyte (nexttag s) (hs x) base d r (istk F x) /\ (in_block b x -> crel (hs x) base T d r (ist x) /\ (up d = [] \/ busy = [])) /\ (~ in_block b x -> up d = [])) ->
  exists s' F' ist', m_retag_prot busy h [(mut_kind unp, b)] pr s = Some (nexttag s, s') /\ nexttag s' = S (nexttag s) /\ itags F' = nexttag s :: itags F /\ atk s' F' /\
    sobj (nexttag s') hs base (in_block b) (nexttag s :: T) ist' F' /\ (forall x, in_block b x -> sb_retag [] (mut_kind unp) base (nexttag s) pr (ist x) = Some (ist' x)).
Proof.
  intros A I W Ih LT S.
  assert (P : forall x d r, in_block b x -> sbyte (nexttag s) (hs x) base d r (istk F x) -> crel (hs x) base T d r (ist x) -> up d = [] \/ busy = [] ->
    exists K d' i', sb_retag busy (mut_kind unp) h (nexttag s) pr (istk F x) = Some K /\ sbyte (Datatypes.S (nexttag s)) (hs x) base d' r K /\
      sb_retag [] (mut_kind unp) base (nexttag s) pr (ist x) = Some i' /\ crel (hs x) base (nexttag s :: T) d' r i').
  { intros x d r X S1 C U. pose proof (sbyte_hs _ _ _ _ _ _ S1) as Lh. pose proof S1 as [_ G _ _ Lr]. destruct unp; cbn [mut_kind].
    - destruct (b_unique busy _ _ _ _ _ _ h pr S1 (Ih x X) U) as (Q1 & Q2). destruct (c_give_unique _ _ _ _ _ _ _ pr G Lh LT Lr C) as (i' & Q3 & Q4). eauto 8.
    - destruct (b_cell busy _ _ _ _ _ _ h pr S1 (Ih x X)) as (K & Q1 & Q2). destruct (c_give_cell [] _ _ _ _ _ _ _ pr G Lh LT Lr C) as (i' & Q3 & Q4).
      exists K, (add_low d (nexttag s)), i'. split; [exact Q1|]. split; [|auto]. eapply sbyte_more; [|apply incl_tl, incl_refl|exact Q2]. lia. }
  destruct (atk_retag own cs objs fr k F0 nth_ pair_ used_ busy s F (mut_kind unp) h b pr A I W) as (s' & F' & E1 & E2 & E3 & E4 & E5 & E6).
  - intros x X. destruct (S x (within_in _ _ _ W X)) as (d & r & S1 & S2 & _). destruct (S2 X) as (C & U). destruct (P x d r X S1 C U) as (K & d' & i' & -> & _). discriminate.
  - exists s', F', (fun x => got (sb_retag [] (mut_kind unp) base (nexttag s) pr (ist x))). split; [exact E1|]. split; [exact E2|]. split; [exact E3|]. split; [exact E6|]. split.
    + intros x X. rewrite E2. rewrite (atk_blk _ _ E6), <- (atk_blk _ _ A) in X. destruct (S x X) as (d & r & S1 & S2 & S3). destruct (inb b x) eqn:Y.
      * apply inb_iff in Y. destruct (S2 Y) as (C & U). destruct (P x d r Y S1 C U) as (K & d' & i' & Q1 & Q2 & Q3 & Q4). rewrite (E4 x Y) in Q1. injection Q1 as <-. exists d', r.
        split; [exact Q2|]. split; [intros _; rewrite Q3; exact Q4|contradiction].
      * assert (NY : ~ in_block b x) by (rewrite <- inb_iff; congruence). rewrite E5 by assumption. exists d, r. split; [eapply sbyte_more; [|apply incl_refl|exact S1]; lia|]. split; [contradiction|auto].
    + intros x X. destruct (S x (within_in _ _ _ W X)) as (d & r & S1 & S2 & _). destruct (S2 X) as (C & U). destruct (P x d r X S1 C U) as (K & d' & i' & _ & _ & -> & _). reflexivity.
Qed.

(** *** Writing the value *)
Definition bare (x : Z) : Prop := False.
Lemma leak_write busy s F unp p : atk s F -> In p (itags F) -> sobj (nexttag s) (fun _ => [p]) p bare [] (fun _ => []) F ->
  exists s' F', leak_box_write busy unp (iblk F) p s = Some (tt, s') /\ (nexttag s <= nexttag s')%nat /\ incl (itags F) (itags F') /\ atk s' F' /\
    sobj (nexttag s') (fun _ => [p]) p bare [] (fun _ => []) F'.
Proof.
  intros A I S. pose proof (within_refl (iblk F)) as W. destruct unp; unfold leak_box_write, one; cbn [mut_kind]; unfold m_retag.
  - set (top := fun (X : stack) (G : iobj) => forall x, in_block (iblk F) x -> exists d r, sbyte (nexttag s) [p] p d r (istk F x) /\ istk G x = X ++ low d ++ bot p :: r).
    destruct (atk_retag own cs objs fr k F0 nth_ pair_ used_ busy s F RUnique p (iblk F) None A I W) as (s1 & F1 & E1 & N1 & I1 & K1 & _ & A1).
    { intros x X. destruct (S x X) as (d & r & S1 & _ & S3). rewrite (proj1 (b_unique busy _ _ _ _ _ _ p None S1 (or_introl eq_refl) (or_introl (S3 (fun q => q))))). discriminate. }
    assert (T1 : top [MkItem (nexttag s) Unique None] F1).
    { intros x X. destruct (S x X) as (d & r & S1 & _ & S3). exists d, r. split; [exact S1|]. specialize (K1 x X).
      rewrite (proj1 (b_unique busy _ _ _ _ _ _ p None S1 (or_introl eq_refl) (or_introl (S3 (fun q => q))))) in K1. injection K1 as <-. reflexivity. }
    pose proof (atk_blk _ _ A) as B0. pose proof (atk_blk _ _ A1) as B1.
    destruct (atk_retag own cs objs fr k F0 nth_ pair_ used_ busy s1 F1 RUnique (nexttag s) (iblk F) None A1) as (s2 & F2 & E2 & N2 & I2 & K2 & _ & A2); [rewrite I1; left; reflexivity|rewrite B1, <- B0; exact W| |].
    { intros x X. destruct (T1 x X) as (d & r & _ & ->). cbn [app]. rewrite u_unique. discriminate. }
    assert (T2 : top [MkItem (nexttag s1) Unique None; MkItem (nexttag s) Unique None] F2).
    { intros x X. destruct (T1 x X) as (d & r & S1 & Q). exists d, r. split; [exact S1|]. specialize (K2 x X). rewrite Q in K2. cbn [app] in K2. rewrite u_unique in K2. injection K2 as <-. reflexivity. }
    pose proof (atk_blk _ _ A2) as B2.
    destruct (atk_retag own cs objs fr k F0 nth_ pair_ used_ busy s2 F2 RCell (nexttag s1) (iblk F) None A2) as (s3 & F3 & E3 & N3 & I3 & K3 & _ & A3); [rewrite I2; left; reflexivity|rewrite B2, <- B0; exact W| |].
    { intros x X. destruct (T2 x X) as (d & r & _ & ->). cbn [app]. rewrite u_cell. discriminate. }
    assert (T3 : top [MkItem (nexttag s2) SharedRW None; MkItem (nexttag s1) Unique None; MkItem (nexttag s) Unique None] F3).
    { intros x X. destruct (T2 x X) as (d & r & S1 & Q). exists d, r. split; [exact S1|]. specialize (K3 x X). rewrite Q in K3. cbn [app] in K3. rewrite u_cell in K3. injection K3 as <-. reflexivity. }
    pose proof (atk_blk _ _ A3) as B3.
    destruct (atk_write own cs objs fr k F0 nth_ pair_ used_ busy s3 F3 (nexttag s2) A3) as (s4 & F4 & E4 & N4 & I4 & K4 & A4); [rewrite I3; left; reflexivity| |].
    { intros x X. rewrite B3, <- B0 in X. destruct (T3 x X) as (d & r & _ & ->). cbn [app]. rewrite s_write. discriminate. }
    exists s4, F4. unfold mbind. rewrite E1, E2, E3. rewrite B3, <- B0 in E4. split; [exact E4|]. split; [lia|]. split; [rewrite I4, I3, I2, I1; do 3 apply incl_tl; apply incl_refl|]. split; [exact A4|].
    intros x X. rewrite (atk_blk _ _ A4), <- B0 in X. destruct (T3 x X) as (d & r & S1 & Q). specialize (K4 x ltac:(rewrite B3, <- B0; exact X)). rewrite Q in K4. cbn [app] in K4. rewrite s_write in K4. injection K4 as <-.
    exists (MkDec [] [MkItem (nexttag s2) SharedRW None; MkItem (nexttag s1) Unique None; MkItem (nexttag s) Unique None] (low d)), r. split; [|split; [intros []|reflexivity]].
    apply (b_above (nexttag s) (nexttag s4) [p] p d r _ [] [MkItem (nexttag s2) SharedRW None; MkItem (nexttag s1) Unique None; MkItem (nexttag s) Unique None] S1); [lia|repeat constructor| |apply bottom_nil|repeat constructor; cbn; lia].
    apply (bottom_app [MkItem (nexttag s2) SharedRW None; MkItem (nexttag s1) Unique None] [MkItem (nexttag s) Unique None]); [discriminate|]. apply bottom_one. reflexivity.
  - pose proof (atk_blk _ _ A) as B0.
    destruct (so_cell busy s F p (iblk F) None (fun _ => [p]) p bare [] (fun _ => []) A I W) as (s1 & F1 & E1 & N1 & I1 & A1 & S1);
      [intros; left; reflexivity|intros ? []|exact S|]. pose proof (atk_blk _ _ A1) as B1.
    destruct (so_cell busy s1 F1 (nexttag s) (iblk F) None (fun x => if inb (iblk F) x then nexttag s :: [p] else [p]) p bare [] (fun _ => []) A1) as (s2 & F2 & E2 & N2 & I2 & A2 & S2);
      [rewrite I1; left; reflexivity|rewrite B1, <- B0; exact W|intros x X; rewrite (proj2 (inb_iff _ _) X); left; reflexivity|intros ? []|exact S1|]. pose proof (atk_blk _ _ A2) as B2.
    destruct (so_cell busy s2 F2 (nexttag s1) (iblk F) None (fun x => if inb (iblk F) x then nexttag s1 :: (if inb (iblk F) x then nexttag s :: [p] else [p]) else if inb (iblk F) x then nexttag s :: [p] else [p]) p bare [] (fun _ => []) A2)
      as (s3 & F3 & E3 & N3 & I3 & A3 & S3);
      [rewrite I2; left; reflexivity|rewrite B2, <- B0; exact W|intros x X; rewrite (proj2 (inb_iff _ _) X); left; reflexivity|intros ? []|exact S2|]. pose proof (atk_blk _ _ A3) as B3.
    assert (K : forall x, in_block (iblk F3) x -> exists d r, sbyte (nexttag s3) [p] p (MkDec [] [] (low d)) r (low d ++ bot p :: r) /\ sb_write busy (nexttag s2) (istk F3 x) = Some (low d ++ bot p :: r)).
    { intros x X. destruct (S3 x X) as (d & r & Q1 & _ & Q3). rewrite B3, <- B0 in X. rewrite !(proj2 (inb_iff _ _) X) in Q1.
      destruct (b_write busy _ _ _ _ _ _ (nexttag s2) Q1 (or_introl eq_refl) (or_introl (Q3 (fun q => q)))) as (W1 & W2). exists d, r. split; [|exact W1]. eapply sbyte_more; [apply le_n| |exact W2].
      intros h [<-|[]]. right. right. right. left. reflexivity. }
    destruct (atk_write own cs objs fr k F0 nth_ pair_ used_ busy s3 F3 (nexttag s2) A3) as (s4 & F4 & E4 & N4 & I4 & K4 & A4); [rewrite I3; left; reflexivity| |].
    { intros x X. destruct (K x X) as (d & r & _ & ->). discriminate. }
    exists s4, F4. unfold mbind. rewrite E1, E2, E3. rewrite B3, <- B0 in E4. split; [exact E4|]. split; [lia|]. split; [rewrite I4, I3, I2, I1; do 3 apply incl_tl; apply incl_refl|]. split; [exact A4|].
    intros x X. rewrite (atk_blk _ _ A4), <- B3 in X. destruct (K x X) as (d & r & Q1 & Q2). rewrite (K4 x X) in Q2. injection Q2 as ->. exists (MkDec [] [] (low d)), r. rewrite N4. split; [exact Q1|]. split; [intros []|reflexivity].
Qed.

(** *** An access of the client *)
Lemma c_new n hs base T d r ist : good false n (wb d base) -> (forall h, In h hs -> (h < n)%nat) -> Forall (fun i => (itag i < n)%nat) r -> crel hs base T d r ist -> crel hs base (n :: T) d r ist.
Proof.
  intros G Lh Lr [(A & R & E) C1 C2 C3]. destruct (good_wb n d base G) as (G0 & _ & L). split.
  - exists A. split; [eapply rel_new; eauto|exact E].
  - intros [K|K]; [lia|contradiction].
  - intros h I [K|K]; [specialize (Lh h I); lia|exact (C2 h I K)].
  - apply r_new; assumption.
Qed.

Lemma act_ok_within b T b' T' a : within b b' -> incl T T' -> act_ok (MkO b T) a = true -> act_ok (MkO b' T') a = true.
Proof.
  intros [W1 W2] I A. assert (E : forall t, existsb (Nat.eqb t) T = true -> existsb (Nat.eqb t) T' = true).
  { intros t K. apply existsb_exists in K. destruct K as (y & Y & E). apply existsb_exists. exists y. auto. }
  assert (E2 : forall c, (start b <=? start c) && (start c + size c <=? start b + size b) = true -> (start b' <=? start c) && (start c + size c <=? start b' + size b') = true).
  { intros c. rewrite !andb_true_iff, !Z.leb_le. lia. }
  destruct a as [t c|t c|t parts p]; cbn [act_ok oblk otags] in *.
  - apply andb_true_iff in A. apply andb_true_iff. split; [apply E; apply A|apply E2; apply A].
  - apply andb_true_iff in A. apply andb_true_iff. split; [apply E; apply A|apply E2; apply A].
  - rewrite !andb_true_iff in *. destruct A as ((A1 & A2) & A3). split; [split; [auto|]|exact A3]. rewrite forallb_forall in *. auto.
Qed.

Lemma so_act busy s F o a hs base : atk s F -> act_ok (MkO (iblk o) (itags o)) a = true -> within (iblk o) (iblk F) -> incl (itags o) (itags F) ->
  sobj (nexttag s) hs base (in_block (iblk o)) (itags o) (istk o) F ->
  match do_act busy a s, ideal_act busy o a (nexttag s) with
  | Some (n, s'), Some o' => n = ans_after a (nexttag s) /\ nexttag s' = next_after a (nexttag s) /\ iblk o' = iblk o /\ itags o' = tags_after a (nexttag s) (itags o) /\
      exists F', atk s' F' /\ itags F' = tags_after a (nexttag s) (itags F) /\ sobj (nexttag s') hs base (in_block (iblk o)) (itags o') (istk o') F'
  | None, None => True
  | _, _ => False
  end.
Proof.
  intros A Ok W It S. destruct (atk_facts own cs objs fr k F0 nth_ pair_ used_ s F A) as (N & P & NF & _). pose proof A as (H & B & Sep).
  pose proof (act_ok_within _ _ _ _ a W It Ok) as OkF. pose proof (client_act own cs _ fr s busy k F a H N OkF P NF Sep) as C. rewrite ideal_act_stk in C |- *.
  pose proof (act_has _ _ Ok) as Ht. cbn [otags] in Ht. 
  pose proof (act_does busy _ a (nexttag s) (istk F) OkF) as D1. pose proof (act_does busy _ a (nexttag s) (istk o) Ok) as D2.
  assert (In_ : forall x f, act_at busy a (nexttag s) x = Some f -> in_block (iblk o) x) by (intros x f Q; exact (act_inside busy _ a _ x f Ok Q)).
  assert (LT : forall t, In t (itags o) -> (1 <= t < nexttag s)%nat) by (intros t I; apply (atk_tags s F t A); auto).
  assert (Bt : forall x f, act_at busy a (nexttag s) x = Some f -> exists d r, match f (istk F x), f (istk o x) with
    | Some K', Some ist' => exists d', sbyte (next_after a (nexttag s)) (hs x) base d' r K' /\ crel (hs x) base (tags_after a (nexttag s) (itags o)) d' r ist'
    | None, None => sbyte (nexttag s) (hs x) base d r (istk F x) | _, _ => False end).
  { intros x f Q. pose proof (In_ x f Q) as X. destruct (S x (within_in _ _ _ W X)) as (d & r & S1 & S2 & _). exists d, r.
    pose proof (b_act busy _ _ _ _ _ _ _ _ a x f S1 (S2 X) LT Ht Q) as Y. destruct (f (istk F x)), (f (istk o x)); auto. }
  destruct (act_stk busy a (nexttag s) (istk F)) as [k1|]; destruct (act_stk busy a (nexttag s) (istk o)) as [k2|]; cbn [does] in D1, D2; [| | |].
  - destruct (do_act busy a s) as [[n s']|]; [|contradiction]. destruct C as (C1 & C2 & C3 & C4 & C5). cbn [iblk itags] in *. split; [exact C1|]. split; [exact C2|]. split; [reflexivity|]. split; [reflexivity|].
    exists (MkI (iblk F) k1 (tags_after a (nexttag s) (itags F))). split; [|split; [reflexivity|]].
    + split; [rewrite set_nth_twice in C5; exact C5|]. split; [exact B|]. intros t bs I. cbn [itags]. pose proof (h_caps _ _ _ _ _ H t bs I) as Lt.
      destruct a; cbn [tags_after]; [eauto|eauto|]. intros [K0|K0]; [lia|]. exact (Sep t bs I K0).
    + intros x X. cbn [iblk istk] in *. rewrite C2. specialize (D1 x). specialize (D2 x). destruct (act_at busy a (nexttag s) x) as [f|] eqn:Q.
      * destruct (Bt x f Q) as (d & r & Y). rewrite D1, D2 in Y. destruct Y as (d' & Y1 & Y2). exists d', r. split; [exact Y1|]. split; [auto|]. intros NX. exfalso. apply NX. eapply In_; eauto.
      * rewrite D1, D2. destruct (S x X) as (d & r & S1 & S2 & S3). exists d, r. split; [|split; [|exact S3]].
        -- eapply sbyte_more; [|apply incl_refl|exact S1]. destruct a; cbn [next_after]; lia.
        -- intros X'. pose proof (sbyte_hs _ _ _ _ _ _ S1) as Lh. pose proof S1 as [_ G _ _ Lr]. destruct a; cbn [tags_after]; auto. apply c_new; auto.
  - exfalso. destruct D2 as (x & f & F1 & F2). specialize (D1 x). destruct (Bt x f F1) as (d & r & Y). rewrite F1 in D1. rewrite D1, F2 in Y. exact Y.
  - exfalso. destruct D1 as (x & f & F1 & F2). specialize (D2 x). destruct (Bt x f F1) as (d & r & Y). rewrite F1 in D2. rewrite D2, F2 in Y. exact Y.
  - destruct (do_act busy a s) as [[n s']|]; [contradiction|exact Logic.I].
Qed.
End Slot.

(** ** The ideal reference *)
Lemma make_ref_ok o base unp pr n (K : Z -> stack) : (forall x, in_block (iblk o) x -> sb_retag [] (mut_kind unp) base n pr (istk o x) = Some (K x)) ->
  exists o', make_ref o base unp pr n o' /\ iblk o' = iblk o /\ itags o' = n :: itags o /\ (forall x, in_block (iblk o) x -> istk o' x = K x).
Proof.
  intros H. unfold make_ref. cbn [ideal_act retag_parts]. destruct (on_block_ok (iblk o) (sb_retag [] (mut_kind unp) base n pr) (istk o)) as (k & E).
  - intros x X. rewrite (H x X). discriminate.
  - rewrite E. eexists. split; [reflexivity|]. cbn [iblk itags istk]. split; [reflexivity|]. split; [reflexivity|]. intros x X. destruct (on_block_spec _ _ _ _ E x) as [Q _]. specialize (Q X). rewrite (H x X) in Q. congruence.
Qed.
