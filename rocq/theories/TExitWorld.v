(** * TExitWorld: programs that use an ExitStack, under Tree Borrows. *)
From Verif Require EBorrowWorld BorrowWorld UBorrowCells UBorrowWorld.
From Verif Require Import Base Spec BaseFacts SyncModel SyncSpec UnsyncModel UnsyncSpec UnsyncProofs ExitModel ExitProofs ConcModel BorrowModel BorrowSpec BorrowProofs BorrowState TBorrowModel
  UBorrowModel EBorrowModel EBorrowSlot TreeModel TreeSpec TreeState TreeAct TExitModel TExitSpec TExitState TExitOps TExitSlot TExitVal TExitStart.

(** ** Slots *)
Definition pinned (ys : list (zslot * sstatus)) (k : nat) : Prop := exists z tags, nth_error ys k = Some (z, SPinned tags).
Lemma pinned_set ys k z tags x j : nth_error ys k = Some (z, x) -> pinned ys j -> pinned (set_nth ys k (z, SPinned tags)) j.
Proof.
  intros E (s' & t' & E'). destruct (Nat.eq_dec j k) as [->|N]; [exists z, tags; eapply set_nth_nth; eauto|]. exists s', t'. rewrite set_nth_ne by exact N. exact E'.
Qed.
Lemma pinned_open ys k : pinned ys k -> pinned (zend_open ys) k.
Proof. intros (s & tags & E). exists s, tags. unfold zend_open. rewrite nth_error_map, E. reflexivity. Qed.
Lemma no_open ys k s : nth_error (zend_open ys) k <> Some (s, SOpen).
Proof. unfold zend_open. rewrite nth_error_map. destruct (nth_error ys k) as [[s0 [|tags|]]|]; cbn; congruence. Qed.

Section World.
Variables (t : target) (hd st tp : block) (unpin : bool).
Let pl := MkPlaces hd st tp.

Definition status_ok (ex used : list nat) (s : forest) (z : zslot) (x : sstatus) (y : izstatus) : Prop :=
  match x, y with
  | SOver, IZOver => True
  | SOpen, IZOpen => open_ok s (zptr z) (zblk z) (zunpin z) /\ qt s (zslotter z) (in_block tp) /\ ~ In (zptr z) used
  | SPinned tags, IZPinned o base => base = zptr z /\ nblk o = zval z /\ ntags o = tags /\ ~ In 0%nat (base :: tags) /\ incl (base :: tags) used /\
      readable s (zptr z) (in_block (zlink z)) /\ exists up, vrel ex (zunpin z) s o base up
  | _, _ => False
  end.

Record slot_ok (ex used : list nat) (s : forest) (p : zslot * sstatus) (v : izslot) : Prop := {
  q_blk : zblk (fst p) = iz_blk v;
  q_unp : zunpin (fst p) = iz_unpin v;
  q_im : zim (fst p) = iz_im v;
  q_val : forall x, in_block (zval (fst p)) x -> in_block (zblk (fst p)) x;
  q_link : forall x, in_block (zlink (fst p)) x -> in_block (zblk (fst p)) x;
  q_dis : forall x, in_block (zlink (fst p)) x -> ~ in_block (zval (fst p)) x;
  q_size : size (zval (fst p)) = lsize (iz_lay v);
  q_al : aligned (start (zval (fst p))) (lalign (iz_lay v));
  q_ptr : (1 <= zptr (fst p) < fresh_tag s)%nat;
  q_st : status_ok ex used s (fst p) (snd p) (iz_status v) }.

Record slots_ok (ex used : list nat) (s : forest) (ys : list (zslot * sstatus)) (js : list izslot) : Prop := {
  r_len : length ys = length js;
  r_at : forall k p v, nth_error ys k = Some p -> nth_error js k = Some v -> slot_ok ex used s p v;
  r_ptr : NoDup (map (fun p => zptr (fst p)) ys) }.

(** a step elsewhere *)
Lemma slot_step B ex used used' s s' p v : wf s -> step B s s' -> (forall x, in_block (zblk (fst p)) x -> ~ B x) ->
  incl used used' -> (snd p = SOpen -> In (zptr (fst p)) used' -> In (zptr (fst p)) used) -> slot_ok ex used s p v -> slot_ok ex used' s' p v.
Proof.
  intros W K D Iu Nu [a1 a2 a3 a4 a5 a6 a7 a8 a9 a10]. pose proof (s_fresh _ _ _ K). split; auto; [lia|]. destruct p as [z x]. cbn [fst snd] in *.
  destruct x as [|tags|], (iz_status v) as [|o base|]; cbn [status_ok] in *; auto.
  - destruct a10 as (b1 & b2 & b3). split; [eapply open_step; eauto|]. split; [eapply step_qt; eauto|auto].
  - destruct a10 as (b1 & b2 & b3 & b4 & b5 & b6 & up & b7). split; [exact b1|]. split; [exact b2|]. split; [exact b3|]. split; [exact b4|]. split; [intros y Y; auto|].
    split; [eapply readable_step; eauto; intros x X; apply D, a5, X|]. exists up. eapply vrel_step; eauto. rewrite b2. intros x X. apply D, a4, X.
Qed.

Lemma slot_at ex used s ys js k p : slots_ok ex used s ys js -> nth_error ys k = Some p -> exists v, nth_error js k = Some v /\ slot_ok ex used s p v.
Proof. intros H E. destruct (EBorrowWorld.nth_some _ _ _ _ (r_len _ _ _ _ _ H) E) as [v Ev]. exists v. split; [exact Ev|]. apply (r_at _ _ _ _ _ H k); assumption. Qed.
Lemma slot_of ex used s ys js k v : slots_ok ex used s ys js -> nth_error js k = Some v -> exists p, nth_error ys k = Some p /\ slot_ok ex used s p v.
Proof. intros H E. destruct (EBorrowWorld.nth_some _ _ _ _ (eq_sym (r_len _ _ _ _ _ H)) E) as [p Ep]. exists p. split; [exact Ep|]. apply (r_at _ _ _ _ _ H k); assumption. Qed.

Lemma slots_step B ex used s s' ys js : wf s -> step B s s' -> (forall k p, nth_error ys k = Some p -> forall x, in_block (zblk (fst p)) x -> ~ B x) -> slots_ok ex used s ys js -> slots_ok ex used s' ys js.
Proof.
  intros W K D [a b c]. split; auto. intros k p v E1 E2. eapply (slot_step B); eauto using incl_refl.
Qed.

(** a step at one slot *)
Lemma slots_set B ex used used' s s' ys js k z x x' v y : wf s -> step B s s' -> slots_ok ex used s ys js -> nth_error ys k = Some (z, x) -> nth_error js k = Some v -> incl used used' ->
  (forall j p, j <> k -> nth_error ys j = Some p -> forall b, in_block (zblk (fst p)) b -> ~ B b) ->
  (forall j p, j <> k -> nth_error ys j = Some p -> snd p = SOpen -> In (zptr (fst p)) used' -> In (zptr (fst p)) used) ->
  status_ok ex used' s' z x' y -> slots_ok ex used' s' (set_nth ys k (z, x')) (set_nth js k (iz_with v y)).
Proof.
  intros W K [a b c] E1 E2 Iu D U S. pose proof (s_fresh _ _ _ K). split.
  - rewrite !set_nth_length. exact a.
  - intros j p w N1 N2. destruct (Nat.eq_dec j k) as [->|Nj].
    + rewrite (set_nth_nth _ _ _ _ E1) in N1. rewrite (set_nth_nth _ _ _ _ E2) in N2. injection N1 as <-. injection N2 as <-. pose proof (b k _ _ E1 E2) as []. cbn [fst snd] in *.
      split; cbn [fst snd iz_with iz_blk iz_unpin iz_im iz_lay iz_status]; auto. lia.
    + rewrite set_nth_ne in N1 by exact Nj. rewrite set_nth_ne in N2 by exact Nj. eapply (slot_step B); eauto.
  - rewrite (BorrowWorld.set_nth_map (fun p => zptr (fst p)) ys k (z, x') (z, x) E1 eq_refl). exact c.
Qed.

(** pointers are different *)
Lemma ptr_ne ex used s ys js j k p q : slots_ok ex used s ys js -> j <> k -> nth_error ys j = Some p -> nth_error ys k = Some q -> zptr (fst p) <> zptr (fst q).
Proof.
  intros H Nj Ej Ek E. apply Nj. pose proof (r_ptr _ _ _ _ _ H) as ND. rewrite NoDup_nth_error in ND. apply ND; [rewrite map_length; apply nth_error_Some; congruence|]. rewrite !nth_error_map, Ek, Ej. cbn. congruence.
Qed.

(** *** Slots end *)
Lemma slots_map ex ex' used s s' ys js (f : zslot * sstatus -> zslot * sstatus) (g : izslot -> izslot) : slots_ok ex used s ys js -> (forall p, fst (f p) = fst p) ->
  (forall k p v, nth_error ys k = Some p -> slot_ok ex used s p v -> slot_ok ex' used s' (f p) (g v)) -> slots_ok ex' used s' (map f ys) (map g js).
Proof.
  intros [a b c] E G. split.
  - rewrite !map_length. exact a.
  - intros k p v E1 E2. rewrite nth_error_map in E1, E2. destruct (nth_error ys k) as [p0|] eqn:K1; [|discriminate]. destruct (nth_error js k) as [v0|] eqn:K2; [|discriminate].
    cbn [option_map] in E1, E2. injection E1 as <-. injection E2 as <-. apply (G k); eauto.
  - rewrite map_map. erewrite map_ext; [exact c|]. intros p. cbn beta. rewrite E. reflexivity.
Qed.
Lemma slots_over ex ex' used s ys js : slots_ok ex used s ys js -> slots_ok ex' used s (zend_slots ys) (map iz_over js).
Proof.
  intros H. apply (slots_map ex ex' used s s ys js (fun p => (fst p, SOver)) iz_over H); [reflexivity|]. intros k p v _ []. split; cbn [fst snd iz_over iz_with iz_blk iz_unpin iz_im iz_lay iz_status]; auto. exact Logic.I.
Qed.

Definition popped (v : izslot) : izslot := iz_end (if unpin then iz_read v else v).

Lemma slots_pop ex used s s' self ys js : wf s -> taken hd st tp unpin s self s' ex -> (forall k p, nth_error ys k = Some p -> forall x, in_block (zblk (fst p)) x -> in_block st x) ->
  slots_ok [] used s ys js -> slots_ok ex used s' (zend_open ys) (map popped js).
Proof.
  intros W T B H. pose proof (s_fresh _ _ _ (t_step _ _ _ _ _ _ _ _ T)) as L.
  apply (slots_map [] ex used s s' ys js (fun p => (fst p, match snd p with SOpen => SOver | s => s end)) popped H); [reflexivity|]. intros k [z x] v E S. specialize (B k _ E). pose proof S as []. cbn [fst snd] in *.
  unfold popped, iz_read. destruct x as [|tags|], (iz_status v) as [|o base|] eqn:Ev; cbn [status_ok] in q_st0; try contradiction.
  - destruct unpin; unfold iz_end; rewrite Ev; split; cbn [fst snd iz_with iz_blk iz_unpin iz_im iz_lay iz_status]; auto; try lia; exact Logic.I.
  - destruct q_st0 as (b1 & b2 & b3 & b4 & b5 & b6 & up & b7).
    assert (V : vrel [] (zunpin z) s' (if unpin then read_elsewhere o else o) base up).
    { eapply v_read; eauto; [|rewrite b3; exact b4]. rewrite b2. auto. }
    assert (V' : vrel ex (zunpin z) s' (if unpin then read_elsewhere o else o) base up).
    { assert (V0 : vrel ex (zunpin z) s o base up) by (eapply vrel_ex; [| |exact b7]; [intros y Y; left; apply (t_new _ _ _ _ _ _ _ _ T y Y)|exact W]).
      eapply v_read; eauto; [|rewrite b3; exact b4]. rewrite b2. auto. }
    assert (R' : readable s' (zptr z) (in_block (zlink z))) by (eapply (readable_pop hd st tp); eauto).
    destruct unpin; unfold iz_end; cbn [iz_with iz_status]; rewrite ?Ev; split; cbn [fst snd iz_with iz_blk iz_unpin iz_im iz_lay iz_status]; auto; try lia; rewrite ?Ev; cbn [status_ok];
      (split; [exact b1|]; split; [exact b2|]; split; [exact b3|]; split; [exact b4|]; split; [exact b5|]; split; [exact R'|]; exists up; exact V').
  - destruct unpin; unfold iz_end; rewrite Ev; split; cbn [fst snd iz_with iz_blk iz_unpin iz_im iz_lay iz_status]; auto; try lia; rewrite Ev; exact Logic.I.
Qed.
Lemma popped_blk js : map iz_blk (map popped js) = map iz_blk js.
Proof. rewrite map_map. apply map_ext. intros v. unfold popped, iz_read, iz_end. destruct unpin, (iz_status v) eqn:E; cbn [iz_with iz_status iz_blk]; rewrite ?E; reflexivity. Qed.

Lemma place_geo l a : valid_target t -> type_layout t l -> aligned a (lalign (pin_layout t l)) -> forall p top unp im, let s := place_zslot t l unp im a p top in
  (forall x, in_block (zval s) x -> in_block (zblk s) x) /\ (forall x, in_block (zlink s) x -> in_block (zblk s) x) /\ (forall x, in_block (zlink s) x -> ~ in_block (zval s) x) /\
  size (zval s) = lsize l /\ aligned (start (zval s)) (lalign l).
Proof.
  intros Ht Hl A p top unp im. cbn zeta. destruct (voff_facts t l Ht Hl) as (V1 & V2 & V3 & V4). destruct (tl_pos t l Hl) as [P1 P2]. pose proof (word_pos t Ht). unfold place_zslot. cbn [zval zblk zlink].
  split; [|split; [|split; [|split]]].
  - unfold in_block. cbn [start size]. lia.
  - unfold in_block. cbn [start size]. lia.
  - intros x X Y. unfold in_block in *. cbn [start size] in *. lia.
  - reflexivity.
  - cbn [start]. unfold aligned in *. apply Z.divide_add_r; [|exact V2]. eapply Z.divide_trans; [|exact A]. unfold pin_layout. cbn [lalign].
    apply pow2_divide; [apply Hl| |lia]. destruct (Z.max_spec (usize_align t) (lalign l)) as [[_ ->]|[_ ->]]; [apply Hl|apply Ht].
Qed.

(** ** The invariant *)
Hypothesis (Ht : valid_target t) (d1 : disjoint hd st) (d3 : disjoint st tp).

(** pop_all runs: what it knows of its [self] *)
Record running (ex : list nat) (s : forest) (self : nat) : Prop := {
  g_self : forall y, In y (line (nodes s) self) -> y = 0%nat \/ In y ex;
  g_wr : wr s self (in_block hd);
  g_loose : forall x y, in_block st x -> In y ex -> perms (nodes s) x y = PCell \/ perms (nodes s) x y = PReserved true }.

Lemma running_step B ex s s' self : wf s -> step B s s' -> (forall x, B x -> in_block st x) -> (forall y, In y ex -> (y < fresh_tag s)%nat) ->
  (forall x y, In y ex -> perms (nodes s) x y = PReserved true -> perms (nodes s') x y = PReserved true) -> running ex s self -> running ex s' self.
Proof.
  intros W K Sb X P [a b c]. pose proof (proj1 b) as L. split.
  - intros y Y. rewrite (s_line _ _ _ K) in Y by exact L. auto.
  - eapply step_wr; eauto. intros x Hx Bx. exact (d1 x (conj Hx (Sb x Bx))).
  - intros x y Sx Y. destruct (c x y Sx Y) as [E|E]; [left; apply (s_cell _ _ _ K); auto|right; auto].
Qed.
Lemma running_wr ex s self : wf s -> running ex s self -> wr s self (fun x => in_block hd x \/ in_block st x).
Proof.
  intros W [a [L b] c]. split; [exact L|]. intros x y [X|X] Y; [auto|]. destruct (a y Y) as [->|E]; [left; apply wf_root; exact W|].
  destruct (c x y X E) as [-> | ->]; unfold wp_ok; eauto.
Qed.

Record drop_ok (ex : list nat) (w : zworld) (k slot : nat) (chain : list nat) (self : nat) : Prop := {
  o_shares : zshares w = [];
  o_chain : zchain w = [];
  o_run : running ex (zforest w) self;
  o_open : forall k s, nth_error (zslots w) k <> Some (s, SOpen);
  o_pin : Forall (pinned (zslots w)) chain;
  o_this : exists z tags, nth_error (zslots w) k = Some (z, SPinned tags) /\ readable (zforest w) slot (in_block (zlink z));
  o_slot : forall y, In y (line (nodes (zforest w)) slot) -> ~ In y ex }.

Definition blocks (c : Z) (bs : list block) : Prop := Forall (fun b => forall x, in_block b x -> in_block st x /\ x < c) bs /\ pairwise disjoint bs.

Record zinv (ex : list nat) (w : zworld) (i : zideal) : Prop := {
  y_ok : uok t (zbump w);
  y_st : udata (zbump w) = st;
  y_wf : wf (zforest w);
  y_shares : Forall (fun n => qt (zforest w) n (mem3 hd st tp)) (zshares w);
  y_slots : slots_ok ex (i_used i) (zforest w) (zslots w) (i_slots i);
  y_blocks : blocks (start st + uindex (zbump w)) (map iz_blk (i_slots i));
  y_used : forall n, In n (i_used i) -> (n < fresh_tag (zforest w))%nat;
  y_count : i_shares i = length (zshares w);
  y_chain : i_chain i = zchain w;
  y_pin : Forall (pinned (zslots w)) (zchain w);
  y_drop : i_drop i = option_map (fun d => snd (fst d)) (zdrop w);
  y_ex : forall y, In y ex -> (y < fresh_tag (zforest w))%nat;
  y_dropok : match zdrop w with Some (k, slot, chain, self) => drop_ok ex w k slot chain self | None => ex = [] end }.

Lemma blk_in ex used s ys js c k p : slots_ok ex used s ys js -> blocks c (map iz_blk js) -> nth_error ys k = Some p -> forall x, in_block (zblk (fst p)) x -> in_block st x /\ x < c.
Proof.
  intros H [F _] E x X. destruct (slot_at _ _ _ _ _ _ _ H E) as (v & Ev & S). rewrite (q_blk _ _ _ _ _ S) in X. rewrite Forall_map, Forall_forall in F. exact (F v (nth_error_In _ _ Ev) x X).
Qed.
Lemma blk_dis ex used s ys js c j k p q : slots_ok ex used s ys js -> blocks c (map iz_blk js) -> j <> k -> nth_error ys j = Some p -> nth_error ys k = Some q -> forall x, in_block (zblk (fst p)) x -> ~ in_block (zblk (fst q)) x.
Proof.
  intros H [_ P] Nj Ej Ek x X Y. destruct (slot_at _ _ _ _ _ _ _ H Ej) as (v & Ev & S). destruct (slot_at _ _ _ _ _ _ _ H Ek) as (v' & Ev' & S').
  rewrite (q_blk _ _ _ _ _ S) in X. rewrite (q_blk _ _ _ _ _ S') in Y. apply (P j k (iz_blk v) (iz_blk v') Nj) with (x := x); [rewrite nth_error_map, Ev; reflexivity|rewrite nth_error_map, Ev'; reflexivity|auto].
Qed.
Lemma set_blk js k v y : nth_error js k = Some v -> map iz_blk (set_nth js k (iz_with v y)) = map iz_blk js.
Proof. intros E. apply (BorrowWorld.set_nth_map iz_blk js k _ v E). reflexivity. Qed.

(** *** A new shared reference *)
Lemma share_inv w i self : zinv [] w i -> zdrop w = None -> qt (zforest w) self (mem3 hd st tp) ->
  snd (zshare pl w self) = ZDone /\ zinv [] (fst (zshare pl w self)) (MkZI (i_slots i) (i_used i) (S (i_shares i)) (i_chain i) None).
Proof.
  intros [a1 a2 a3 a4 a5 a6 a7 a8 a9 a10 a11 a12 a13] Nd Q. unfold zshare. destruct (op_some _ _ _ (op_stack pl self (zforest w) a3 (proj1 Q))) as (n & s & -> & C). cbn [fst snd]. split; [reflexivity|].
  pose proof (proj1 (c_down _ _ _ _ C)) as K. pose proof (s_fresh _ _ _ K) as L. pose proof (chain_qt _ _ _ _ _ C Q) as Qn. rewrite Nd in *.
  split; cbn [zbump zforest zshares zslots zchain zdrop i_slots i_used i_shares i_chain i_drop]; auto.
  - apply (s_wf _ _ _ K).
  - apply Forall_app. split; [|auto]. eapply Forall_impl; [|exact a4]. intros m. apply (step_qt (fun _ => False)); auto.
  - eapply slots_step; [exact a3|exact K|intros k p _ x _ []|exact a5].
  - intros m M. specialize (a7 m M). lia.
  - rewrite app_length, a8. cbn. lia.
  - intros y [].
Qed.

(** *** The next destructor *)
Lemma go_inv w i ex s self slots js chain : uok t (zbump w) -> udata (zbump w) = st -> wf s -> running ex s self -> slots_ok ex (i_used i) s slots js ->
  blocks (start st + uindex (zbump w)) (map iz_blk js) -> (forall n, In n (i_used i) -> (n < fresh_tag s)%nat) -> (forall y, In y ex -> (y < fresh_tag s)%nat) ->
  (forall k z, nth_error slots k <> Some (z, SOpen)) -> Forall (pinned slots) chain ->
  exists i' ex', izgo i js chain (snd (z_go pl unpin w self s slots chain)) i' /\ zinv ex' (fst (z_go pl unpin w self s slots chain)) i'.
Proof.
  intros a1 a2 a3 G a5 a6 a7 a12 No Pc. destruct chain as [|k chain]; cbn [z_go].
  - destruct (op_some _ _ _ (op_finish hd st pl (zbump w) unpin self s eq_refl a2 a3 (running_wr _ _ _ a3 G))) as (u & s' & E & -> & W' & L). rewrite E. cbn [fst snd]. exists (i_reset i), []. split; [constructor|].
    split; cbn [zbump zforest zshares zslots zchain zdrop i_reset i_slots i_used i_shares i_chain i_drop]; auto.
    + destruct a1 as [V C]. split; [exact V|]. cbn. destruct V as (_ & V & _). cbn in V. lia.
    + split; [reflexivity| |constructor]. intros k p v Ek. destruct k; discriminate.
    + split; [constructor|apply pairwise_nil].
    + intros n M. specialize (a7 n M). lia.
    + intros y [].
  - inversion Pc as [|? ? (z & tags & Ek) Pc']; subst. rewrite Ek. destruct (slot_at _ _ _ _ _ _ _ a5 Ek) as (v & Ev & S). pose proof S as [q1 q2 q3 q4 q5 q6 q7 q8 q9 q10]. cbn [fst snd] in *.
    destruct (iz_status v) as [|o base|] eqn:Es; cbn [status_ok] in q10; try contradiction. destruct q10 as (-> & b2 & b3 & b4 & b5 & b6 & up & b7).
    destruct (op_some _ _ _ (op_start ex z s o up a3 b2 b7 a12 b6 q6)) as ([slot d] & s' & E & Ld & o' & Rf & V' & Rs & Rz & Ls & D'). rewrite E. cbn [fst snd] in *.
    pose proof (proj1 D') as K. pose proof (s_fresh _ _ _ K) as L.
    assert (Nd : ~ In d (i_used i)) by (intros M; specialize (a7 d M); lia).
    assert (Ld' : (d < fresh_tag s')%nat) by (eapply v_lt; [exact V'|]; right; destruct Rf as (r & _ & ->); left; reflexivity).
    rewrite q2, q3 in Rf. pose proof (blk_in _ _ _ _ _ _ _ _ a5 a6 Ek) as Bk. cbn [fst] in Bk.
    exists (MkZI (set_nth js k (iz_with v (IZPinned o' (zptr z)))) (d :: i_used i) 0 [] (Some chain)), ex. split; [eapply IZGo; eauto|].
    split; cbn [zbump zforest zshares zslots zchain zdrop i_slots i_used i_shares i_chain i_drop]; auto.
    + apply (s_wf _ _ _ K).
    + eapply (slots_set _ ex (i_used i)); [exact a3|exact K|exact a5|exact Ek|exact Ev|intros y Y; right; exact Y| | |].
      * intros j p Nj Ej x X Y. exact (blk_dis _ _ _ _ _ _ _ _ _ _ a5 a6 Nj Ej Ek x X (q4 x Y)).
      * intros j p Nj Ej So [M|M]; [|exact M]. destruct p as [zj xj]. cbn [snd] in So. subst xj. destruct (No j zj Ej).
      * cbn [status_ok]. destruct Rf as (r & Er & ->). cbn [nblk ntags]. split; [reflexivity|]. split; [exact b2|]. split; [rewrite b3; reflexivity|]. split.
        { intros [F|[F|F]]; [apply b4; left; exact F|pose proof (wf_pos _ a3); lia|apply b4; right; exact F]. }
        split; [|split; [exact Rz|exists up; exact V']]. intros y [<-|[<-|Y]]; [right; apply b5; left; reflexivity|left; reflexivity|right; apply b5; right; exact Y].
    + rewrite set_blk; assumption.
    + intros n [<-|M]; [exact Ld'|]. specialize (a7 n M). lia.
    + intros y Y. specialize (a12 y Y). lia.
    + split; cbn [zshares zchain zforest zslots]; auto.
      * eapply running_step; [exact a3|exact K| |exact a12| |exact G]; [intros x X; apply Bk, q4, X|]. intros x y Y. apply (proj2 (proj2 D')); [|apply a12; exact Y].
        intros F. destruct (v_linked _ _ _ _ _ _ b7 (zptr z) (or_introl eq_refl)) as [_ _ _ _ Kx _]. exact (Kx y F Y).
      * intros j zj. destruct (Nat.eq_dec j k) as [->|Nj]; [rewrite (set_nth_nth _ _ _ _ Ek); discriminate|]. rewrite set_nth_ne by exact Nj. apply No.
      * eapply Forall_impl; [|exact Pc']. intros j. apply (pinned_set slots k z (d :: tags) (SPinned tags)). exact Ek.
      * exists z, (d :: tags). split; [eapply set_nth_nth; eauto|exact Rs].
Qed.

(** *** One step *)
Lemma self_qt w : wf (zforest w) -> qt (zforest w) 0 (mem3 hd st tp).
Proof. intros W. pose proof (wf_pos _ W). split; [lia|]. intros x y _ Y. rewrite (proj1 (t_root _ _ _ W)) in Y. destruct Y as [<-|[]]. right. split; [reflexivity|apply wf_root; exact W]. Qed.

Lemma zstep_inv ex w i o : zinv ex w i -> zop_ok t o -> exists i' ex', zistep t st unpin i o (snd (zstep t pl unpin w o)) i' /\ zinv ex' (fst (zstep t pl unpin w o)) i'.
Proof.
  intros I Oo. pose proof I as [a1 a2 a3 a4 a5 a6 a7 a8 a9 a10 a11 a12 a13]. destruct o as [[k|]|k l p im|k| | | |k a]; cbn [zstep].
  - (* share *)
    destruct (zdrop w) as [[[[k0 sl0] ch0] se0]|] eqn:Ed; cbn [option_map fst snd] in a11.
    { cbn [fst snd]. exists i, ex. split; [apply ZIShareNot; left; rewrite a11; discriminate|exact I]. }
    destruct (nth_error (zshares w) k) as [self|] eqn:E.
    2:{ cbn [fst snd]. exists i, ex. split; [apply ZIShareNot; right; exists k; split; [reflexivity|]; rewrite a8; apply nth_error_None; exact E|exact I]. }
    assert (Hk : (k < i_shares i)%nat) by (rewrite a8; apply nth_error_Some; congruence). subst ex.
    destruct (share_inv w i self I Ed) as [R1 R2]; [rewrite Forall_forall in a4; apply a4; eapply nth_error_In; eauto|]. rewrite R1. eexists _, []. split; [|exact R2]. apply ZIShare; assumption.
  - destruct (zdrop w) as [[[[k0 sl0] ch0] se0]|] eqn:Ed; cbn [option_map fst snd] in a11.
    { cbn [fst snd]. exists i, ex. split; [apply ZIShareNot; left; rewrite a11; discriminate|exact I]. }
    subst ex. destruct (share_inv w i 0%nat I Ed (self_qt w a3)) as [R1 R2]. rewrite R1. eexists _, []. split; [|exact R2]. apply ZIShareOwner; assumption.
  - (* slot *)
    destruct (zdrop w) as [[[[k0 sl0] ch0] se0]|] eqn:Ed; cbn [option_map fst snd] in a11.
    { cbn [fst snd]. exists i, ex. split; [apply ZISlotNot; left; rewrite a11; discriminate|exact I]. }
    destruct (nth_error (zshares w) k) as [self|] eqn:E.
    2:{ cbn [fst snd]. exists i, ex. split; [apply ZISlotNot; right; rewrite a8; apply nth_error_None; exact E|exact I]. }
    assert (Hk : (k < i_shares i)%nat) by (rewrite a8; apply nth_error_Some; congruence).
    assert (Qs : qt (zforest w) self (mem3 hd st tp)) by (rewrite Forall_forall in a4; apply a4; eapply nth_error_In; eauto).
    cbn [zop_ok] in Oo. destruct Oo as [Ol Op]. assert (Vc : valid_ucall t (UBumpBox (pin_layout t l))) by exact Op.
    pose proof (ustep_ok t (zbump w) (UBumpBox (pin_layout t l)) Ht a1 Vc) as [S1 S2]. pose proof (UBorrowWorld.ustep_place t (zbump w) (UBumpBox (pin_layout t l))) as SP.
    pose proof (UBorrowWorld.ustep_same t (zbump w) (UBumpBox (pin_layout t l)) Ht a1 Vc ltac:(discriminate)) as Mono.
    pose proof (op_slot t hd st tp (zbump w) l p im self (zforest w) d1 a2 a3 Qs) as OS. destruct (op_some _ _ _ (OS ltac:(
      intros a Ea; destruct (SP a Ht a1 Vc Ea) as (l' & El & _ & P1 & _); cbn [ucall_layout] in El; injection El as <-; rewrite a2 in P1; exact P1))) as ([[u' r] so] & s & E1 & Us & R).
    clear OS.
    fold pl in E1. rewrite E1. cbn [fst snd] in *. rewrite <- Us in *. cbn [fst snd] in *.
    assert (Other : (forall a, r <> RBlock a) -> so = None -> step (in_block hd) (zforest w) s ->
      exists i' ex', zistep t st unpin i (ZSlot k l p im) (ZResponse r) i' /\ zinv ex' (MkZW u' s (zshares w) (match so with Some z => zslots w ++ [(z, SOpen)] | None => zslots w end) (zchain w) None) i').
    { intros N -> K. pose proof (s_fresh _ _ _ K) as L. exists i, ex. split; [apply ZISlotOther; auto|]. rewrite (Mono N).
      split; cbn [zbump zforest zshares zslots zchain zdrop]; auto.
      - apply (s_wf _ _ _ K).
      - eapply Forall_impl; [|exact a4]. intros m. apply (step_qt (in_block hd)); auto.
      - eapply slots_step; [exact a3|exact K| |exact a5]. intros j q Ej x X Y. apply (d1 x). split; [exact Y|]. apply (blk_in _ _ _ _ _ _ _ _ a5 a6 Ej x X).
      - intros m M. specialize (a7 m M). lia.
      - intros y Y. specialize (a12 y Y). lia. }
    destruct r as [a| |f|lv| |m]; try (destruct R as [R ->]; apply Other; [intros ? ?; discriminate|reflexivity|exact R]).
    clear Other Mono. cbn zeta in R. destruct R as (K & pp & top & -> & Lp & O & Qt). destruct (SP a Ht a1 Vc eq_refl) as (l' & El & _ & P1 & P2 & P3 & P4). clear SP. cbn [ucall_layout] in El. injection El as <-.
    set (bl := MkBlock (ptr a) (lsize (pin_layout t l))) in *. rewrite a2 in *. pose proof (s_fresh _ _ _ K) as L.
    assert (Di : Forall (fun v => disjoint bl (iz_blk v)) (i_slots i)).
    { apply Forall_forall. intros v Iv x [X1 X2]. pose proof (P3 x X1). destruct a6 as [F _]. rewrite Forall_map, Forall_forall in F. pose proof (F v Iv x X2). lia. }
    assert (Dk : forall j q, nth_error (zslots w) j = Some q -> forall x, in_block (zblk (fst q)) x -> ~ (in_block hd x \/ in_block bl x)).
    { intros j q Ej x X Y. pose proof (blk_in _ _ _ _ _ _ _ _ a5 a6 Ej x X) as [X1 X2]. destruct Y as [Y|Y]; [exact (d1 x (conj Y X1))|pose proof (P3 x Y); lia]. }
    exists (MkZI (i_slots i ++ [MkIZ bl l p im IZOpen]) (i_used i) (i_shares i) (i_chain i) None), ex.
    split; [apply (ZISlot t st unpin i k l p im a); auto|].
    destruct (place_geo l (ptr a) Ht Ol P2 pp top p im) as (g1 & g2 & g3 & g4 & g5).
    pose proof (slots_step _ _ _ _ _ _ _ a3 K Dk a5) as a5'.
    split; cbn [zbump zforest zshares zslots zchain zdrop i_slots i_used i_shares i_chain i_drop]; auto.
    + apply (s_wf _ _ _ K).
    + eapply Forall_impl; [|exact a4]. intros m. eapply step_qt; eauto.
    + destruct a5' as [r1 r2 r3]. split.
      * rewrite !app_length, r1. reflexivity.
      * intros j p0 v E4 E5. destruct (Nat.lt_trichotomy j (length (zslots w))) as [Lj|[->|Lj]].
        -- rewrite nth_error_app1 in E4 by exact Lj. rewrite nth_error_app1 in E5 by (rewrite <- r1; exact Lj). eauto.
        -- rewrite UBorrowCells.nth_last in E4. rewrite r1, UBorrowCells.nth_last in E5. injection E4 as <-. injection E5 as <-.
           pose proof (wf_pos _ a3). split; cbn [fst snd iz_blk iz_unpin iz_im iz_lay iz_status status_ok]; auto; cbn [place_zslot zptr zslotter zblk zunpin]; [lia|].
           split; [exact O|]. split; [exact Qt|]. intros M. specialize (a7 _ M). lia.
        -- exfalso. assert (Z0 : nth_error (zslots w ++ [(place_zslot t l p im (ptr a) pp top, SOpen)]) j = None) by (apply nth_error_None; rewrite app_length; cbn; lia). congruence.
      * rewrite map_app. cbn [map fst place_zslot zptr]. apply EBorrowWorld.nodup_snoc; [exact r3|]. intros M. apply in_map_iff in M. destruct M as (p0 & Ep & M). apply In_nth_error in M. destruct M as [j Ej].
        destruct (slot_at _ _ _ _ _ _ _ a5 Ej) as (v0 & _ & Sj). pose proof (q_ptr _ _ _ _ _ Sj). lia.
    + destruct a6 as [F P]. rewrite BorrowWorld.map_snoc. cbn [iz_blk]. split.
      * apply Forall_app. split; [eapply Forall_impl; [|exact F]; intros b B x X; specialize (B x X); split; [apply B|lia]|]. constructor; [|constructor]. intros x X. split; [apply P1; exact X|]. pose proof (P3 x X). lia.
      * apply BorrowWorld.pair_snoc; [exact P|]. rewrite Forall_map. exact Di.
    + intros m M. specialize (a7 m M). lia.
    + eapply Forall_impl; [|exact a10]. intros j (z & tags & Ej). exists z, tags. rewrite nth_error_app1; [exact Ej|]. apply nth_error_Some. congruence.
    + intros y Y. specialize (a12 y Y). lia.
  - (* pin *)
    destruct (zdrop w) as [[[[k0 sl0] ch0] se0]|] eqn:Ed; cbn [option_map fst snd] in a11.
    { cbn [fst snd]. exists i, ex. split; [apply ZIPinNot; left; rewrite a11; discriminate|exact I]. }
    assert (Not : (forall z, nth_error (zslots w) k <> Some (z, SOpen)) -> zistep t st unpin i (ZPin k) ZInvalid i).
    { intros N. apply ZIPinNot. right. intros v Ev Sv. destruct (slot_of _ _ _ _ _ _ _ a5 Ev) as ([z x] & Ep & [_ _ _ _ _ _ _ _ _ q]). cbn [fst snd] in q. rewrite Sv in q.
      destruct x; cbn [status_ok] in q; try contradiction. exact (N z Ep). }
    destruct (nth_error (zslots w) k) as [[z [|tags|]]|] eqn:Ek; try (cbn [fst snd]; exists i, ex; split; [apply Not; congruence|exact I]). clear Not. subst ex.
    destruct (slot_at _ _ _ _ _ _ _ a5 Ek) as (v & Ev & Sk). pose proof Sk as [q1 q2 q3 q4 q5 q6 q7 q8 q9 q10]. cbn [fst snd] in *.
    destruct (iz_status v) as [|o base|] eqn:Es; cbn [status_ok] in q10; try contradiction. destruct q10 as (O & Qt & Nu).
    pose proof (blk_in _ _ _ _ _ _ _ _ a5 a6 Ek) as Bk. cbn [fst] in Bk.
    destruct (op_some _ _ _ (op_pin pl z (zforest w) a3 Qt O (fun x X Y => d3 x (conj (proj1 (Bk x Y)) X)) q4 q5 q6)) as (n & s & E1 & Ln & o & up & Rf & V & Rz & K). rewrite E1. cbn [fst snd pl p_tp] in *.
    pose proof (s_fresh _ _ _ K) as L.
    assert (Ln' : (n < fresh_tag s)%nat) by (eapply v_lt; [exact V|]; right; destruct Rf as (r & _ & ->); left; reflexivity).
    assert (Nn : ~ In n (i_used i)) by (intros M; specialize (a7 n M); lia).
    exists (MkZI (set_nth (i_slots i) k (iz_with v (IZPinned o (zptr z)))) (n :: zptr z :: i_used i) (i_shares i) (k :: i_chain i) None), []. split.
    { rewrite q2, q3 in Rf. apply (ZIPin t st unpin i k v (zval z) (zptr z) n o); auto; [|lia]. rewrite <- q1. exact q4. }
    assert (Dk : forall j q, j <> k -> nth_error (zslots w) j = Some q -> forall x, in_block (zblk (fst q)) x -> ~ (in_block tp x \/ in_block (zblk z) x)).
    { intros j q Nj Ej x X [Y|Y]; [|exact (blk_dis _ _ _ _ _ _ _ _ _ _ a5 a6 Nj Ej Ek x X Y)]. apply (d3 x). split; [apply (blk_in _ _ _ _ _ _ _ _ a5 a6 Ej x X)|exact Y]. }
    split; cbn [zbump zforest zshares zslots zchain zdrop i_slots i_used i_shares i_chain i_drop]; auto.
    + apply (s_wf _ _ _ K).
    + eapply Forall_impl; [|exact a4]. intros m. eapply step_qt; eauto.
    + eapply (slots_set _ [] (i_used i)); [exact a3|exact K|exact a5|exact Ek|exact Ev|intros y Y; right; right; exact Y|exact Dk| |].
      * intros j q Nj Ej _ [M|[M|M]]; [| |exact M].
        -- destruct (slot_at _ _ _ _ _ _ _ a5 Ej) as (vj & _ & Sj). pose proof (q_ptr _ _ _ _ _ Sj). lia.
        -- exfalso. exact (ptr_ne _ _ _ _ _ _ _ _ _ a5 Nj Ej Ek (eq_sym M)).
      * cbn [status_ok]. destruct Rf as (r & Er & ->). cbn [nblk ntags pinned_value]. split; [reflexivity|]. split; [reflexivity|]. split; [reflexivity|]. split; [intros [F|[F|[]]]; lia|].
        split; [|split; [exact Rz|exists up; exact V]]. intros y [<-|[<-|[]]]; [right; left; reflexivity|left; reflexivity].
    + rewrite set_blk; assumption.
    + intros m [<-|[<-|M]]; [exact Ln'|lia|]. specialize (a7 m M). lia.
    + rewrite a9. reflexivity.
    + constructor; [exists z, [n]; eapply set_nth_nth; eauto|]. eapply Forall_impl; [|exact a10]. intros j. apply (pinned_set (zslots w) k z [n] SOpen). exact Ek.
    + intros y [].
  - (* pop *)
    destruct (zdrop w) as [[[[k0 sl0] ch0] se0]|] eqn:Ed; cbn [option_map fst snd] in a11.
    { cbn [fst snd]. exists i, ex. split; [apply ZIPopNot; rewrite a11; discriminate|exact I]. }
    subst ex. destruct (op_some _ _ _ (op_take hd st tp d3 unpin (zforest w) a3)) as (self & s & E1 & ex & T). fold pl in E1. rewrite E1.
    pose proof (t_step _ _ _ _ _ _ _ _ T) as K. pose proof (s_fresh _ _ _ K) as L.
    destruct (go_inv w i ex s self (zend_open (zslots w)) (map popped (i_slots i)) (zchain w)) as (i' & ex' & R1 & R2); auto.
    + apply (s_wf _ _ _ K).
    + split; [apply (t_self _ _ _ _ _ _ _ _ T)|eapply wr_less; [|apply (t_wr _ _ _ _ _ _ _ _ T)]; intros x X; left; exact X|apply (t_loose _ _ _ _ _ _ _ _ T)].
    + eapply slots_pop; eauto. intros k p Ek x X. apply (blk_in _ _ _ _ _ _ _ _ a5 a6 Ek x X).
    + rewrite popped_blk. exact a6.
    + intros n M. specialize (a7 n M). lia.
    + intros y Y. apply (t_new _ _ _ _ _ _ _ _ T y Y).
    + intros k z. apply no_open.
    + eapply Forall_impl; [|exact a10]. apply pinned_open.
    + exists i', ex'. split; [|exact R2]. apply ZIPop; [exact a11|]. rewrite a9. exact R1.
  - (* a destructor returns *)
    destruct (zdrop w) as [[[[k sl] ch] self]|] eqn:Ed; cbn [option_map fst snd] in a11.
    2:{ cbn [fst snd]. exists i, ex. split; [apply ZIRetNot; exact a11|exact I]. }
    destruct a13 as [o1 o2 o3 o4 o5 (z & tags & Ek & Rs) o7]. rewrite Ek. unfold f_link. destruct (op_some _ _ _ (op_read sl (zlink z) (zforest w) a3 Rs)) as ([] & s & E1 & D & Rd). rewrite E1.
    pose proof (proj1 D) as K. pose proof (s_fresh _ _ _ K) as L. destruct (slot_at _ _ _ _ _ _ _ a5 Ek) as (v & Ev & Sk). pose proof Sk as [q1 q2 q3 q4 q5 q6 q7 q8 q9 q10]. cbn [fst snd] in *.
    destruct (iz_status v) as [|o base|] eqn:Es; cbn [status_ok] in q10; try contradiction. destruct q10 as (-> & b2 & b3 & b4 & b5 & b6 & up & b7).
    pose proof (blk_in _ _ _ _ _ _ _ _ a5 a6 Ek) as Bk. cbn [fst] in Bk.
    destruct (go_inv w i ex s self (zslots w) (i_slots i) ch) as (i' & ex' & R1 & R2); auto.
    + apply (s_wf _ _ _ K).
    + eapply running_step; [exact a3|exact K|intros x X; apply (Bk x (q5 x X))|exact a12| |exact o3]. intros x y Y. apply (proj2 (proj2 D)); [|apply a12; exact Y]. intros F. exact (o7 y F Y).
    + replace (zslots w) with (set_nth (zslots w) k (z, SPinned tags)) by (apply set_nth_same; exact Ek).
      replace (i_slots i) with (set_nth (i_slots i) k (iz_with v (IZPinned o (zptr z)))) by (apply set_nth_same; rewrite Ev; f_equal; destruct v; cbn in *; subst; reflexivity).
      eapply (slots_set _ ex (i_used i)); [exact a3|exact K|exact a5|exact Ek|exact Ev|apply incl_refl| |auto|].
      * intros j p Nj Ej x X Y. exact (blk_dis _ _ _ _ _ _ _ _ _ _ a5 a6 Nj Ej Ek x X (q5 x Y)).
      * cbn [status_ok]. split; [reflexivity|]. split; [exact b2|]. split; [exact b3|]. split; [exact b4|]. split; [exact b5|]. split.
        { destruct b6 as [Lz Qz]. split; [lia|]. intros x y X Y. rewrite (s_line _ _ _ K) in Y by exact Lz. auto. }
        exists up. eapply vrel_step; [exact a3|exact K| |exact b7]. rewrite b2. intros x X Y. exact (q6 x Y X).
    + intros n M. specialize (a7 n M). lia.
    + intros y Y. specialize (a12 y Y). lia.
    + exists i', ex'. split; [|exact R2]. apply (ZIRet t st unpin i ch); assumption.
  - (* ... or panics *)
    destruct (zdrop w) as [[[[k sl] ch] self]|] eqn:Ed; cbn [option_map fst snd] in a11.
    2:{ cbn [fst snd]. exists i, ex. split; [apply ZIPanicNot; exact a11|exact I]. }
    cbn [fst snd]. eexists _, []. split; [apply ZIPanic; rewrite a11; discriminate|].
    split; cbn [zbump zforest zshares zslots zchain zdrop i_slots i_used i_shares i_chain i_drop option_map]; auto.
    + eapply slots_over; eauto.
    + rewrite map_map. exact a6.
    + intros y [].
  - (* an access *)
    assert (Not : (forall z tags, nth_error (zslots w) k = Some (z, SPinned tags) -> nact_ok (MkO (zval z) tags) a = false) -> zistep t st unpin i (ZAct k a) ZInvalid i).
    { intros N. apply ZIActNot. intros v o base Ev Sv. destruct (slot_of _ _ _ _ _ _ _ a5 Ev) as ([z x] & Ep & [_ _ _ _ _ _ _ _ _ q]). cbn [fst snd] in q. rewrite Sv in q.
      destruct x; cbn [status_ok] in q; try contradiction. destruct q as (_ & -> & -> & _). apply N. exact Ep. }
    destruct (nth_error (zslots w) k) as [[z [|tags|]]|] eqn:Ek;
      try (destruct (zdrop w); cbn [fst snd]; exists i, ex; (split; [apply Not; congruence|exact I])).
    destruct (nact_ok (MkO (zval z) tags) a) eqn:A.
    2:{ destruct (zdrop w); cbn [fst snd]; exists i, ex; (split; [apply Not; intros s' t' [= <- <-]; exact A|exact I]). }
    clear Not. destruct (slot_at _ _ _ _ _ _ _ a5 Ek) as (v & Ev & Sk). pose proof Sk as [q1 q2 q3 q4 q5 q6 q7 q8 q9 q10]. cbn [fst snd] in *.
    destruct (iz_status v) as [|o base|] eqn:Es; cbn [status_ok] in q10; try contradiction. destruct q10 as (-> & b2 & b3 & b4 & b5 & b6 & up & b7).
    rewrite <- b2, <- b3 in A. pose proof (v_act ex (zunpin z) (zforest w) o (zptr z) up a a3 b7 a12 A) as C.
    match goal with |- context [snd ?X] => replace X with (match tree_act (fresh_tag (zforest w)) a (nodes (zforest w)) with
            | Some r => (MkZW (zbump w) (MkS r (if makes_tag a then S (fresh_tag (zforest w)) else fresh_tag (zforest w))) (zshares w) (set_nth (zslots w) k (z, SPinned (tags_after (fresh_tag (zforest w)) a tags))) (zchain w) (zdrop w),
                         if makes_tag a then ZTag (fresh_tag (zforest w)) else ZDone)
            | None => (w, ZUB) end) by (destruct (zdrop w); reflexivity) end.
    destruct (tree_act (fresh_tag (zforest w)) a (nodes (zforest w))) as [r|] eqn:Er; destruct (tree_act (fresh_tag (zforest w)) a (ntree o)) as [r'|] eqn:Ei; try contradiction; cbn [fst snd].
    2:{ exists i, ex. split; [|exact I]. eapply ZIActUB; eauto. }
    cbn zeta in C. set (s := MkS r (if makes_tag a then S (fresh_tag (zforest w)) else fresh_tag (zforest w))) in *. destruct C as (V & K & Pr). pose proof (s_fresh _ _ _ K) as L.
    assert (Nu : ~ In (fresh_tag (zforest w)) (i_used i)) by (intros M; specialize (a7 _ M); lia).
    assert (Ls : forall m X, In m (tags_after (fresh_tag (zforest w)) a X) -> m = fresh_tag (zforest w) /\ (fresh_tag (zforest w) < fresh_tag s)%nat \/ In m X).
    { intros m X M. destruct a; cbn [tags_after] in M; auto. destruct M as [<-|M]; [|right; exact M]. left. split; [reflexivity|]. unfold s. cbn [makes_tag fresh_tag]. lia. }
    assert (Lt : forall m X, In m X -> In m (tags_after (fresh_tag (zforest w)) a X)) by (intros m X M; destruct a; cbn [tags_after]; auto; right; exact M).
    pose proof (blk_in _ _ _ _ _ _ _ _ a5 a6 Ek) as Bk. cbn [fst] in Bk. rewrite b2 in K.
    exists (MkZI (set_nth (i_slots i) k (iz_with v (IZPinned (MkN (nblk o) r' (tags_after (fresh_tag (zforest w)) a (ntags o))) (zptr z)))) (tags_after (fresh_tag (zforest w)) a (i_used i)) (i_shares i) (i_chain i) (i_drop i)), ex. split.
    { eapply ZIAct; eauto. }
    split; cbn [zbump zforest zshares zslots zchain zdrop i_slots i_used i_shares i_chain i_drop]; auto.
    + apply (s_wf _ _ _ K).
    + eapply Forall_impl; [|exact a4]. intros m. eapply step_qt; eauto.
    + eapply (slots_set _ ex (i_used i)); [exact a3|exact K|exact a5|exact Ek|exact Ev|intros y Y; apply Lt; exact Y| | |].
      * intros j p Nj Ej x X Y. exact (blk_dis _ _ _ _ _ _ _ _ _ _ a5 a6 Nj Ej Ek x X (q4 x Y)).
      * intros j p Nj Ej _ M. destruct (Ls _ _ M) as [[M1 _]|M1]; [|exact M1]. destruct (slot_at _ _ _ _ _ _ _ a5 Ej) as (vj & _ & Sj). pose proof (q_ptr _ _ _ _ _ Sj). lia.
      * cbn [status_ok nblk ntags]. split; [reflexivity|]. split; [exact b2|]. split; [rewrite b3; reflexivity|]. split.
        { intros [F|F]; [apply b4; left; exact F|]. destruct (Ls _ _ F) as [[M1 _]|M1]; [pose proof (wf_pos _ a3); lia|apply b4; right; exact M1]. }
        split; [|split; [|exists up; exact V]].
        -- intros y [<-|Y]; [apply Lt, b5; left; reflexivity|]. destruct (Ls _ _ Y) as [[-> F]|M1]; [|apply Lt, b5; right; exact M1]. destruct a; cbn [tags_after] in *; try (apply b5; right; exact Y). left. reflexivity.
        -- eapply readable_step; [exact a3|exact K|exact q6|exact b6].
    + rewrite set_blk; assumption.
    + intros m M. destruct (Ls _ _ M) as [[-> F]|M1]; [exact F|]. specialize (a7 m M1). lia.
    + eapply Forall_impl; [|exact a10]. intros j. apply (pinned_set (zslots w) k z _ (SPinned tags)). exact Ek.
    + intros y Y. specialize (a12 y Y). lia.
    + destruct (zdrop w) as [[[[k0 sl0] ch0] se0]|]; [|exact a13]. destruct a13 as [o1 o2 o3 o4 o5 (z0 & tags0 & Ek0 & Rs) o7]. split; cbn [zshares zchain zforest zslots]; auto.
      * eapply running_step; [exact a3|exact K|intros x X; apply (Bk x (q4 x X))|exact a12|exact Pr|exact o3].
      * intros j z'. destruct (Nat.eq_dec j k) as [->|Nj]; [rewrite (set_nth_nth _ _ _ _ Ek); discriminate|]. rewrite set_nth_ne by exact Nj. apply o4.
      * eapply Forall_impl; [|exact o5]. intros j. apply (pinned_set (zslots w) k z _ (SPinned tags)). exact Ek.
      * destruct (Nat.eq_dec k0 k) as [->|Nj].
        -- rewrite Ek in Ek0. injection Ek0 as <- <-. eexists z, _. split; [eapply set_nth_nth; eauto|]. eapply readable_step; [exact a3|exact K|exact q6|exact Rs].
        -- exists z0, tags0. split; [rewrite set_nth_ne by exact Nj; exact Ek0|]. eapply readable_step; [exact a3|exact K| |exact Rs]. intros x X Y.
           destruct (slot_at _ _ _ _ _ _ _ a5 Ek0) as (v0 & _ & S0). apply (blk_dis _ _ _ _ _ _ _ _ _ _ a5 a6 Nj Ek0 Ek x); [apply (q_link _ _ _ _ _ S0); exact X|apply q4; exact Y].
      * intros y Y. rewrite (s_line _ _ _ K) in Y by (apply Rs). auto.
Qed.

(** As if all memory were allocated *)
Definition zwide : zworld := MkZW (u_fresh st) (MkS (MkTree (fun n => if Nat.eqb n 0 then [0%nat] else []) (fun _ _ => PActive)) 1) [] [] [] None.
Lemma znew_inv : valid_region t st -> zinv [] zwide zideal_new.
Proof.
  intros V. split; cbn [zwide zideal_new zbump zforest zshares zslots zchain zdrop i_slots i_used i_shares i_chain i_drop option_map]; auto.
  - apply uok_fresh. exact V.
  - split; cbn [nodes fresh_tag line perms Nat.eqb].
    + lia.
    + auto.
    + intros n L. lia.
    + intros c q [].
    + intros o [].
  - split; [reflexivity| |constructor]. intros k p v E. destruct k; discriminate.
  - split; [constructor|apply pairwise_nil].
  - intros n [].
  - intros y [].
Qed.

Lemma zrun_inv os : Forall (zop_ok t) os -> forall ex w i, zinv ex w i -> exists i' ex', ziruns t st unpin i (snd (zrun t pl unpin w os)) i' /\ zinv ex' (fst (zrun t pl unpin w os)) i'.
Proof.
  intros F. induction F as [|o os Fo F IH]; intros ex w i I; cbn [zrun].
  - exists i, ex. split; [constructor|exact I].
  - destruct (zstep_inv ex w i o I Fo) as (i1 & e1 & S1 & I1). destruct (zstep t pl unpin w o) as [w1 r]. cbn [fst snd] in *.
    destruct (IH e1 w1 i1 I1) as (i2 & e2 & S2 & I2). destruct (zrun t pl unpin w1 os) as [w2 h]. cbn [fst snd] in *. exists i2, e2. split; [econstructor; eauto|exact I2].
Qed.

(** ** The calls of the memory *)
Lemma finish_calls u self s u' s' : f_finish pl unpin u self s = Some (u', s') -> u' = u_reset u.
Proof.
  unfold f_finish, f_deref_mut, f_reset, fbind, fret. intros E.
  repeat match type of E with match ?m with Some _ => _ | None => _ end = _ => destruct m as [[? ?]|]; [|discriminate] end. injection E. auto.
Qed.

Lemma go_calls w self s slots chain : urun t (zbump w) (map fst (zcalls_of t [(ZPop, snd (z_go pl unpin w self s slots chain))])) =
  (zbump (fst (z_go pl unpin w self s slots chain)), zcalls_of t [(ZPop, snd (z_go pl unpin w self s slots chain))]).
Proof.
  destruct chain as [|k chain]; cbn [z_go].
  - destruct (f_finish pl unpin (zbump w) self s) as [[u s']|] eqn:E; [|reflexivity]. rewrite (finish_calls _ _ _ _ _ E). reflexivity.
  - destruct (nth_error slots k) as [[z [|tags|]]|]; try reflexivity. destruct (f_start z s) as [[[? ?] ?]|]; reflexivity.
Qed.

Lemma zstep_calls ex w i o : zinv ex w i -> zop_ok t o ->
  urun t (zbump w) (map fst (zcalls_of t [(o, snd (zstep t pl unpin w o))])) = (zbump (fst (zstep t pl unpin w o)), zcalls_of t [(o, snd (zstep t pl unpin w o))]).
Proof.
  intros I Oo. pose proof I as [a1 a2 a3 a4 a5 a6 a7 a8 a9 a10 a11 a12 a13]. destruct o as [[k|]|k l p im|k| | | |k a]; cbn [zstep].
  - destruct (zdrop w); [reflexivity|]. destruct (nth_error (zshares w) k); [|reflexivity]. unfold zshare. destruct (f_stack_ref _ _ _ _) as [[? ?]|]; reflexivity.
  - destruct (zdrop w); [reflexivity|]. unfold zshare. destruct (f_stack_ref _ _ _ _) as [[? ?]|]; reflexivity.
  - destruct (zdrop w); [reflexivity|]. destruct (nth_error (zshares w) k) as [self|] eqn:E; [|reflexivity].
    assert (Qs : qt (zforest w) self (mem3 hd st tp)) by (rewrite Forall_forall in a4; apply a4; eapply nth_error_In; eauto).
    cbn [zop_ok] in Oo. destruct Oo as [Ol Op]. assert (Vc : valid_ucall t (UBumpBox (pin_layout t l))) by exact Op.
    pose proof (UBorrowWorld.ustep_place t (zbump w) (UBumpBox (pin_layout t l))) as SP.
    pose proof (op_slot t hd st tp (zbump w) l p im self (zforest w) d1 a2 a3 Qs) as OS. destruct (op_some _ _ _ (OS ltac:(
      intros a Ea; destruct (SP a Ht a1 Vc Ea) as (l' & El & _ & P1 & _); cbn [ucall_layout] in El; injection El as <-; rewrite a2 in P1; exact P1))) as ([[u' r] so] & s & E1 & Us & R).
    fold pl in E1. rewrite E1. cbn [fst snd zcalls_of map urun zbump] in *. rewrite <- Us. reflexivity.
  - destruct (zdrop w); [reflexivity|]. destruct (nth_error (zslots w) k) as [[s [|tags|]]|]; try reflexivity. destruct (f_pin _ _ _) as [[? ?]|]; reflexivity.
  - destruct (zdrop w); [reflexivity|]. destruct (f_take _ _ _) as [[self b]|]; [|reflexivity]. apply go_calls.
  - destruct (zdrop w) as [[[[k slot] chain] self]|]; [|reflexivity]. destruct (nth_error (zslots w) k) as [[s x]|]; [|reflexivity].
    destruct (f_link s slot (zforest w)) as [[u b]|]; [|reflexivity]. exact (go_calls w self b (zslots w) chain).
  - destruct (zdrop w) as [[[[k slot] chain] self]|]; reflexivity.
  - destruct (nth_error (zslots w) k) as [[s [|tags|]]|]; try (destruct (zdrop w); reflexivity). destruct (nact_ok _ _); [|destruct (zdrop w); reflexivity].
    cbn zeta. destruct (tree_act _ _ _) as [r|]; destruct (zdrop w); try reflexivity; cbn [snd]; destruct (makes_tag a); reflexivity.
Qed.

Lemma zcalls_app h1 h2 : zcalls_of t (h1 ++ h2) = zcalls_of t h1 ++ zcalls_of t h2.
Proof. induction h1 as [|[o r] h IH]; [reflexivity|]. cbn [app]. destruct o, r; cbn [zcalls_of app]; rewrite ?IH; reflexivity. Qed.

Lemma zrun_calls os : Forall (zop_ok t) os -> forall ex w i, zinv ex w i ->
  urun t (zbump w) (map fst (zcalls_of t (snd (zrun t pl unpin w os)))) = (zbump (fst (zrun t pl unpin w os)), zcalls_of t (snd (zrun t pl unpin w os))).
Proof.
  intros F. induction F as [|o os Fo F IH]; intros ex w i I; cbn [zrun]; [reflexivity|].
  destruct (zstep_inv ex w i o I Fo) as (i1 & e1 & _ & I1). pose proof (zstep_calls ex w i o I Fo) as C.
  destruct (zstep t pl unpin w o) as [w1 r]. cbn [fst snd] in *. specialize (IH e1 w1 i1 I1). destruct (zrun t pl unpin w1 os) as [w2 h]. cbn [fst snd] in *.
  change ((o, r) :: h) with ([(o, r)] ++ h). rewrite zcalls_app, map_app. rewrite UBorrowWorld.urun_app. unfold uevent in *. rewrite C. cbn [fst snd]. rewrite IH. reflexivity.
Qed.

(** ** Undefined behaviour comes only from the client *)
Lemma izgo_ub i js chain r i' : izgo i js chain r i' -> r <> ZUB.
Proof. intros G. inversion G; subst; discriminate. Qed.

Lemma ziruns_ub h : forall i i', ziruns t st unpin i h i' -> forall o, In (o, ZUB) h -> exists k a, o = ZAct k a.
Proof.
  intros i i' R. induction R as [|i o r i1 h i2 St R IH]; intros q Q; [destruct Q|]. destruct Q as [E|Q]; [|auto].
  injection E as -> ->. inversion St; subst; eauto; try discriminate; exfalso; eapply izgo_ub; eauto.
Qed.
End World.
