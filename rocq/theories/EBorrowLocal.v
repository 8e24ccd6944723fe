(** * EBorrowLocal: exit-stack looks at the bytes of the ExitStack only. *)
From Verif Require Import Base Spec BaseFacts SyncModel SyncSpec SyncProofs UnsyncModel UnsyncSpec UnsyncProofs ExitModel BorrowModel BorrowSpec BorrowProofs BorrowState BorrowWorld BorrowLocal
  UBorrowModel UBorrowSpec UBorrowSub UBorrowCells UBorrowCalls UBorrowReset UBorrowWorld UBorrowLocal EBorrowModel EBorrowSpec EBorrowBase EBorrowSlot EBorrowOps EBorrowWorld.

Section Local.
Variables (t : target) (hd st tp : block) (unpin : bool).
Let pl := MkPlaces hd st tp.
Definition ymem (y : Z) : Prop := in_block hd y \/ in_block st y \/ in_block tp y.

Lemma mem_hd : covers ymem hd. Proof. intros y Y. left. exact Y. Qed.
Lemma mem_st : covers ymem st. Proof. intros y Y. right. left. exact Y. Qed.
Lemma mem_tp : covers ymem tp. Proof. intros y Y. right. right. exact Y. Qed.

Lemma looks_stack calls k p : looks ymem (stack_ref calls pl k p).
Proof. apply looks_retag. repeat apply Forall_cons; try apply Forall_nil; [apply mem_hd|apply mem_st|apply mem_tp]. Qed.

Lemma looks_e_slot calls u l up self : valid_target t -> uok t u -> udata u = st -> type_layout t (pin_layout t l) -> looks ymem (e_slot calls t pl u l up self).
Proof.
  intros V U Us Tl. assert (Hu : covers ymem (udata u)) by (rewrite Us; apply mem_st).
  apply looks_bind; [apply looks_stack|intros]. apply looks_bind; [apply looks_stack|intros]. apply looks_bind; [apply looks_self; [apply mem_hd|exact Hu]|intros].
  apply looks_bind; [apply looks_deref; [apply mem_hd|exact Hu]|intros].
  intros s1 s2 G. apply both_bind; [apply looks_mb_box; [apply mem_hd|exact Hu|exact G]|]. intros [[u' r] base] (z & Z).
  assert (E : mb_method calls t hd u (UBumpBox (pin_layout t l)) a2 s1 = Some ((u', of_result r, base), z)).
  { cbn [mb_method]. unfold mbind. change (p_hd pl) with hd in Z. rewrite Z. reflexivity. }
  apply bump_box_answer in E. destruct (of_result r) as [a'| | | | |] eqn:Er; try apply looks_ret.
  assert (R : snd (ustep t u (UBumpBox (pin_layout t l))) = RBlock a') by (rewrite <- E; reflexivity).
  destruct (ustep_place t u (UBumpBox (pin_layout t l)) a' V U Tl R) as (l' & _ & X & In1 & _). cbn [uasked] in X. 
  apply looks_bind; [apply looks_box_from; intros y Y; apply Hu, In1; rewrite <- X; exact Y|intros]. apply looks_bind; [apply looks_ref, mem_tp|intros; apply looks_ret].
Qed.

Lemma looks_write_box calls up b p : covers ymem b -> looks ymem (leak_box_write calls up b p).
Proof.
  intros B. apply looks_bind; [apply looks_ref, B|intros]. apply looks_bind; [apply looks_ref, B|intros]. apply looks_bind; [apply looks_ref, B|intros]. apply looks_write, B.
Qed.
Lemma looks_e_pin calls s : covers ymem (sblk s) -> covers ymem (sval s) -> looks ymem (e_pin calls pl s).
Proof.
  intros B1 B2. apply looks_bind; [apply looks_cell_get, mem_tp|intros]. apply looks_bind; [apply looks_write_box, B1|intros]. apply looks_bind; [apply looks_cell_set, mem_tp|intros].
  apply looks_ref, B2.
Qed.
Lemma looks_e_take : looks ymem (e_take pl unpin).
Proof.
  apply looks_bind; [apply looks_stack|intros]. apply looks_bind; [apply looks_stack|intros]. apply looks_bind; [apply looks_cell_set, mem_tp|intros; apply looks_ret].
Qed.
Lemma looks_e_start s c : covers ymem (sblk s) -> covers ymem (sval s) -> looks ymem (e_start s c).
Proof.
  intros B1 B2. apply looks_bind; [apply looks_ref, B1|intros]. apply looks_bind; [apply looks_ref, B2|intros]. apply looks_bind; [apply looks_ref, B2|intros].
  apply looks_bind; [apply looks_retag_prot; apply Forall_cons; [exact B2|apply Forall_nil]|intros; apply looks_ret].
Qed.
Lemma looks_e_finish u self : udata u = st -> looks ymem (e_finish pl unpin u self).
Proof.
  intros Us. assert (Hu : covers ymem (udata u)) by (rewrite Us; apply mem_st).
  apply looks_bind; [apply looks_two; [apply mem_hd|exact Hu]|intros]. apply looks_bind; [apply looks_deref_mut; [apply mem_hd|exact Hu]|intros].
  apply looks_mb_reset; [apply mem_hd|exact Hu].
Qed.

(** ** Programs *)
Definition with_ysb (w : yworld) (s : bstate) : yworld := MkYW (ybump w) s (yshares w) (yslots w) (ychain w) (ydrop w) (ybusy w) (ycalls w).
Definition slots_in (l : list (slotref * sstatus)) : Prop := forall k s x, nth_error l k = Some (s, x) -> covers ymem (sblk s) /\ covers ymem (sval s) /\ covers ymem (slink s).
Definition same_step (r r2 : yworld * banswer) : Prop := exists s', r2 = (with_ysb (fst r) s', snd r) /\ same_in ymem (ysb (fst r)) s'.

Lemma slots_in_end l : slots_in l -> slots_in (end_open l).
Proof.
  intros S0 k s x E. unfold end_open in E. rewrite nth_error_map in E. destruct (nth_error l k) as [[s' x']|] eqn:El; [|discriminate]. cbn in E. injection E as <- _. exact (S0 k s' x' El).
Qed.


Lemma go_local w s self slots chain b1 b2 : udata (ybump w) = st -> slots_in slots -> same_in ymem (ysb w) s -> same_in ymem b1 b2 ->
  same_step (e_go pl unpin w self b1 slots chain) (e_go pl unpin (with_ysb w s) self b2 slots chain).
Proof.
  intros Us S0 G B. destruct chain as [|k chain]; cbn [e_go with_ysb ybump ycalls].
  - pose proof (looks_e_finish (ybump w) self Us b1 b2 B) as X. unfold both in X. destruct (e_finish pl unpin (ybump w) self b1) as [[u c1]|], (e_finish pl unpin (ybump w) self b2) as [[u2 c2]|]; try contradiction.
    + destruct X as [<- X]. exists c2. auto.
    + exists s. auto.
  - destruct (nth_error slots k) as [[r [|tags|]]|] eqn:E; try solve [exists s; auto]. destruct (S0 k r _ E) as (C1 & C2 & _).
    pose proof (looks_e_start r (ycalls w) C1 C2 b1 b2 B) as X. unfold both in X. destruct (e_start r (ycalls w) b1) as [[[sl d] c1]|], (e_start r (ycalls w) b2) as [[[sl2 d2] c2]|]; try contradiction.
    + destruct X as [X0 X]. assert (sl2 = sl /\ d2 = d) as [-> ->] by (split; [exact (eq_sym (f_equal fst X0))|exact (eq_sym (f_equal snd X0))]). exists c2. auto.
    + exists s. auto.
Qed.

Lemma ystep_local w s o : valid_target t -> uok t (ybump w) -> udata (ybump w) = st -> slots_in (yslots w) -> yop_ok t o -> same_in ymem (ysb w) s ->
  same_step (ystep t pl unpin w o) (ystep t pl unpin (with_ysb w s) o).
Proof.
  intros V U Us S0 Oo G. destruct w as [bu sb sh sl ch dr bs ca]. unfold with_ysb. cbn [ybump ysb yshares yslots ychain ydrop ybusy ycalls] in *.
  assert (Stay : forall a, same_step (MkYW bu sb sh sl ch dr bs ca, a) (MkYW bu s sh sl ch dr bs ca, a)) by (intros a; exists s; auto).
  assert (SH : forall self, same_step
     match stack_ref bs pl RCell self sb with Some (n, b) => (MkYW bu b (sh ++ [n]) sl ch None bs ca, BDone) | None => (MkYW bu sb sh sl ch dr bs ca, BUB) end
     match stack_ref bs pl RCell self s with Some (n, b) => (MkYW bu b (sh ++ [n]) sl ch None bs ca, BDone) | None => (MkYW bu s sh sl ch dr bs ca, BUB) end).
  { intros self. pose proof (looks_stack bs RCell self sb s G) as X. unfold both in X. destruct (stack_ref bs pl RCell self sb) as [[n b]|], (stack_ref bs pl RCell self s) as [[n2 b2]|]; try contradiction; [|apply Stay].
    destruct X as [<- X]. exists b2. auto. }
  destruct o as [[k|]|k l p|k| | | |k a| |c]; cbn [ystep ybump ysb yshares yslots ychain ydrop ybusy ycalls].
  - destruct dr as [d|]; [apply Stay|]. destruct (nth_error sh k); [apply SH|apply Stay].
  - destruct dr as [d|]; [apply Stay|apply SH].
  - destruct dr as [d|]; [apply Stay|]. destruct (nth_error sh k) as [self|]; [|apply Stay].
    pose proof (looks_e_slot bs bu l p self V U Us (proj2 Oo) sb s G) as X. unfold both in X.
    destruct (e_slot bs t pl bu l p self sb) as [[[[u r] q] b]|], (e_slot bs t pl bu l p self s) as [[[[u2 r2] q2] b2]|]; try contradiction; [|apply Stay].
    destruct X as [X0 X]. injection X0 as <- <- <-. exists b2. auto.
  - destruct dr as [d|]; [apply Stay|]. destruct (nth_error sl k) as [[r [|tags|]]|] eqn:E; try apply Stay. destruct (S0 k r _ E) as (C1 & C2 & _).
    pose proof (looks_e_pin bs r C1 C2 sb s G) as X. unfold both in X. destruct (e_pin bs pl r sb) as [[v b]|], (e_pin bs pl r s) as [[v2 b2]|]; try contradiction; [|apply Stay].
    destruct X as [<- X]. exists b2. auto.
  - destruct dr as [d|]; [apply Stay|]. destruct bs; [|apply Stay]. pose proof (looks_e_take sb s G) as X. unfold both in X.
    destruct (e_take pl unpin sb) as [[self b]|], (e_take pl unpin s) as [[self2 b2]|]; try contradiction; [|apply Stay]. destruct X as [<- X].
    exact (go_local (MkYW bu sb sh sl ch None [] ca) s self (end_open sl) ch b b2 Us (slots_in_end _ S0) G X).
  - destruct dr as [[[[[c k] slot] chain] self]|]; [|apply Stay]. destruct bs as [|c0 [|c1 bs]]; try apply Stay. destruct (nth_error sl k) as [[r x]|] eqn:E; [|apply Stay].
    destruct (S0 k r _ E) as (_ & _ & C3). assert (L : looks ymem (e_link r slot)) by (apply looks_read, C3). specialize (L sb s G). unfold both in L.
    destruct (e_link r slot sb) as [[u b]|], (e_link r slot s) as [[u2 b2]|]; try contradiction; [|apply Stay]. destruct L as [_ X].
    exact (go_local (MkYW bu sb sh sl ch (Some (c, k, slot, chain, self)) [c0] ca) s self sl chain b b2 Us S0 G X).
  - destruct dr as [[[[[c k] slot] chain] self]|]; [|apply Stay]. exists s. auto.
  - assert (A : same_step
      match nth_error sl k with
      | Some (r, SPinned tags) => if act_ok (MkO (sval r) tags) a then
          match do_act bs a sb with
          | Some (n, b) => (MkYW bu b sh (set_nth sl k (r, SPinned (otags (new_tag (MkO (sval r) tags) n)))) ch dr bs ca, tag_answer n)
          | None => (MkYW bu sb sh sl ch dr bs ca, BUB) end else (MkYW bu sb sh sl ch dr bs ca, BInvalid)
      | _ => (MkYW bu sb sh sl ch dr bs ca, BInvalid) end
      match nth_error sl k with
      | Some (r, SPinned tags) => if act_ok (MkO (sval r) tags) a then
          match do_act bs a s with
          | Some (n, b) => (MkYW bu b sh (set_nth sl k (r, SPinned (otags (new_tag (MkO (sval r) tags) n)))) ch dr bs ca, tag_answer n)
          | None => (MkYW bu s sh sl ch dr bs ca, BUB) end else (MkYW bu s sh sl ch dr bs ca, BInvalid)
      | _ => (MkYW bu s sh sl ch dr bs ca, BInvalid) end).
    { destruct (nth_error sl k) as [[r [|tags|]]|] eqn:E; try apply Stay. destruct (S0 k r _ E) as (_ & C2 & _). destruct (act_ok (MkO (sval r) tags) a) eqn:A; [|apply Stay].
      pose proof (looks_act ymem (MkO (sval r) tags) bs a C2 A sb s G) as X. unfold both in X. destruct (do_act bs a sb) as [[n b]|], (do_act bs a s) as [[n2 b2]|]; try contradiction; [|apply Stay].
      destruct X as [<- X]. exists b2. auto. }
    destruct dr; exact A.
  - destruct dr; exists s; auto.
  - destruct dr as [[[[[c' k'] slot] chain] self]|]; [|exists s; auto]. destruct (Nat.eqb c c'); [apply Stay|exists s; auto].
Qed.

Lemma yinv_slots w i cs Fs : yinv t hd st tp unpin w i cs Fs -> slots_in (yslots w).
Proof.
  intros I k s x E. destruct (y_slots _ _ _ _ _ _ _ _ _ I) as [L1 L2 At _]. destruct (nth_some _ Fs _ _ L1 E) as [F EF]. destruct (nth_some Fs (j_slots i) _ _ (eq_sym L2) EF) as [v Ev].
  specialize (At k (s, x) v F E Ev EF). destruct At. cbn [fst snd] in *.
  assert (C : covers ymem (sblk s)).
  { intros y Y. right. left. rewrite <- q_F in Y. exact (proj1 (y_below _ _ _ _ _ _ _ _ _ I F y (nth_error_In _ _ EF) Y)). }
  assert (W : forall b, within b (sblk s) -> covers ymem b) by (intros b W y Y; apply C; unfold within, in_block in *; lia).
  split; [exact C|]. split; apply W; assumption.
Qed.
End Local.

Section Run.
Variables (t : target) (hd st tp : block) (unpin : bool).
Hypothesis (V : valid_target t) (d1 : disjoint hd st) (d2 : disjoint hd tp) (d3 : disjoint st tp).
Let pl := MkPlaces hd st tp.

Lemma ystep_local_inv w i cs Fs s o : yinv t hd st tp unpin w i cs Fs -> yop_ok t o -> same_in (ymem hd st tp) (ysb w) s ->
  same_step hd st tp (ystep t pl unpin w o) (ystep t pl unpin (with_ysb w s) o).
Proof. intros I O G. apply ystep_local; auto; [apply I|apply I|eapply yinv_slots; eauto]. Qed.

Lemma yrun_local os : Forall (yop_ok t) os -> forall w i cs Fs s, yinv t hd st tp unpin w i cs Fs -> same_in (ymem hd st tp) (ysb w) s ->
  same_step hd st tp (fst (yrun t pl unpin w os), BDone) (fst (yrun t pl unpin (with_ysb w s) os), BDone) /\ snd (yrun t pl unpin (with_ysb w s) os) = snd (yrun t pl unpin w os) /\
  (all_latest t pl unpin (with_ysb w s) os <-> all_latest t pl unpin w os).
Proof.
  intros F. induction F as [|o os Fo F IH]; intros w i cs Fs s I G; cbn [yrun all_latest].
  - split; [exists s; auto|]. split; [reflexivity|tauto].
  - destruct (ystep_inv t hd st tp unpin V d1 d2 d3 w i cs Fs o I Fo) as (i1 & c1 & F1 & _ & I1). destruct (ystep_local_inv w i cs Fs s o I Fo G) as (s1 & E & G1). rewrite E.
    fold pl in I1. destruct (ystep t pl unpin w o) as [w1 r]. cbn [fst snd] in *. destruct (IH w1 i1 c1 F1 s1 I1 G1) as (X1 & X2 & X3).
    destruct (yrun t pl unpin w1 os) as [w2 h], (yrun t pl unpin (with_ysb w1 s1) os) as [w3 h3]. cbn [fst snd] in *. split; [exact X1|]. split; [congruence|]. rewrite X3. 
    assert (L : latest (with_ysb w s) o <-> latest w o) by (destruct o; reflexivity). tauto.
Qed.

Lemma new_same : same_in (ymem hd st tp) (ysb (ywide st)) (ysb (ynew pl)).
Proof.
  split; [reflexivity|]. intros y Y. cbn [ywide ynew ysb stk pl p_hd p_st p_tp]. unfold allocated.
  assert (E : existsb (fun b => inb b y) [hd; st; tp] = true).
  { apply existsb_exists. destruct Y as [Y|[Y|Y]]; [exists hd|exists st|exists tp]; (split; [cbn; auto|apply inb_iff, Y]). }
  rewrite E. reflexivity.
Qed.

Lemma ynew_run os : valid_region t st -> Forall (yop_ok t) os ->
  (exists s, fst (yrun t pl unpin (ynew pl) os) = with_ysb (fst (yrun t pl unpin (ywide st) os)) s /\ same_in (ymem hd st tp) (ysb (fst (yrun t pl unpin (ywide st) os))) s) /\
  snd (yrun t pl unpin (ynew pl) os) = snd (yrun t pl unpin (ywide st) os) /\ (all_latest t pl unpin (ynew pl) os <-> all_latest t pl unpin (ywide st) os).
Proof.
  intros Vs F. destruct (yrun_local os F (ywide st) _ _ _ _ (ynew_inv t hd st tp unpin Vs) new_same) as ((s & E & G) & X & Y). cbn [fst snd] in *. split; [|auto].
  exists s. split; [|exact G]. injection E as E. exact E.
Qed.
End Run.
