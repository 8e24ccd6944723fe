(** * ExitProofs *)
From Verif Require Import Base Spec BaseFacts SyncModel SyncSpec SyncProofs SyncMemModel SyncMemSpec SyncMemProofs UnsyncModel UnsyncSpec UnsyncProofs ExitModel ExitSpec.
From Coq Require Import Permutation.

(** ** usize in memory *)
Lemma load_bytes_same m m' n : forall p, (forall x, p <= x < p + Z.of_nat n -> m' x = m x) -> load_bytes m' p n = load_bytes m p n.
Proof.
  induction n as [|n IH]; intros p H; cbn [load_bytes]; [reflexivity|].
  rewrite (H p) by lia. rewrite (IH (p + 1)); [reflexivity|]. intros x Hx. apply H. lia.
Qed.

Lemma usize_bytes_length n : forall x, length (usize_bytes n x) = n.
Proof. induction n; intros x; cbn; [reflexivity|f_equal; auto]. Qed.

Lemma reads_cons m p b bs : reads m p (b :: bs) -> m p = b /\ reads m (p + 1) bs.
Proof.
  intros H. split.
  - specialize (H 0%nat b eq_refl). replace (p + Z.of_nat 0) with p in H by lia. exact H.
  - intros k c K. specialize (H (S k) c K). replace (p + Z.of_nat (S k)) with (p + 1 + Z.of_nat k) in H by lia. exact H.
Qed.

Lemma load_stored m n : forall p x, reads m p (usize_bytes n x) -> 0 <= x < 256 ^ Z.of_nat n -> load_bytes m p n = Some x.
Proof.
  induction n as [|n IH]; intros p x R B.
  - cbn in *. f_equal. lia.
  - cbn [usize_bytes] in R. apply reads_cons in R. destruct R as [R1 R2]. cbn [load_bytes]. rewrite R1.
    rewrite (IH (p + 1) (x / 256) R2).
    + f_equal. pose proof (Z.div_mod x 256). lia.
    + rewrite Nat2Z.inj_succ, Z.pow_succ_r in B by lia. split; [apply Z.div_pos; lia|]. apply Z.div_lt_upper_bound; lia.
Qed.

Lemma addr_space_256 t : valid_target t -> addr_space t = 256 ^ Z.of_nat (Z.to_nat (word_bytes t)).
Proof.
  intros [W _]. unfold addr_space. rewrite Z2Nat.id by lia. change 256 with (2 ^ 8). rewrite <- Z.pow_mul_r by lia. reflexivity.
Qed.

Lemma word_pos t : valid_target t -> 0 < word_bytes t.
Proof. intros [W _]. lia. Qed.

Lemma store_load t m p x : valid_target t -> is_usize t x -> load_usize t (store_usize t m p x) p = Some x.
Proof.
  intros Ht [X1 X2]. unfold load_usize, store_usize. apply load_stored; [apply mem_write_reads|].
  rewrite <- addr_space_256 by assumption. unfold usize_max in X2. lia.
Qed.

Lemma store_outside t m p x : valid_target t -> same_outside (MkBlock p (word_bytes t)) m (store_usize t m p x).
Proof. intros Ht. apply mem_write_outside. rewrite usize_bytes_length. pose proof (word_pos t Ht). lia. Qed.

Lemma load_usize_same t m m' p : valid_target t -> (forall x, p <= x < p + word_bytes t -> m' x = m x) -> load_usize t m' p = load_usize t m p.
Proof. intros Ht H. apply load_bytes_same. intros x Hx. apply H. pose proof (word_pos t Ht). lia. Qed.

Lemma store_link_outside t m p h : valid_target t -> same_outside (MkBlock p (2 * word_bytes t)) m (store_link t m p h).
Proof.
  intros Ht x Hx. unfold in_block in Hx. cbn [start size] in Hx. pose proof (word_pos t Ht). destruct h as [[a v]|]; unfold store_link.
  - rewrite (store_outside t _ (p + word_bytes t) v Ht x) by (unfold in_block; cbn [start size]; lia).
    apply store_outside; [exact Ht|]. unfold in_block; cbn [start size]; lia.
  - apply store_outside; [exact Ht|]. unfold in_block; cbn [start size]; lia.
Qed.

Definition link_ok (t : target) (h : option handle) : Prop :=
  match h with None => True | Some (a, v) => a <> 0 /\ is_usize t a /\ is_usize t v end.

Lemma store_load_link t m p h : valid_target t -> link_ok t h -> load_link t (store_link t m p h) p = Some h.
Proof.
  intros Ht L. pose proof (word_pos t Ht) as W. unfold load_link, store_link. destruct h as [[a v]|].
  - destruct L as (A & A1 & V). rewrite (load_usize_same t (store_usize t m p a)); [|exact Ht|].
    + rewrite store_load by assumption. destruct (Z.eqb_spec a 0); [contradiction|]. rewrite store_load by assumption. reflexivity.
    + intros x Hx. apply store_outside; [exact Ht|]. unfold in_block; cbn [start size]; lia.
  - rewrite store_load; [reflexivity|exact Ht|]. pose proof (addr_space_pos t Ht). split; unfold usize_max; lia.
Qed.

Lemma load_link_same t m m' p : valid_target t -> (forall x, p <= x < p + 2 * word_bytes t -> m' x = m x) -> load_link t m' p = load_link t m p.
Proof.
  intros Ht H. pose proof (word_pos t Ht). unfold load_link. rewrite (load_usize_same t m m' p), (load_usize_same t m m' (p + word_bytes t)); auto; intros x Hx; apply H; lia.
Qed.

(** ** Layout of slots *)
Lemma tl_pos t l : type_layout t l -> 0 < lalign l /\ 0 <= lsize l.
Proof. intros [H _]. split; [eapply valid_layout_align; exact H|apply H]. Qed.

Lemma voff_facts t l : valid_target t -> type_layout t l ->
  2 * word_bytes t <= value_offset t l /\ (lalign l | value_offset t l) /\
  value_offset t l + lsize l <= lsize (pin_layout t l) /\ 0 < lsize (pin_layout t l).
Proof.
  intros Ht Hl. destruct (tl_pos t l Hl) as [A B]. pose proof (word_pos t Ht). unfold pin_layout, value_offset. cbn [lsize].
  pose proof (align_up_ge (2 * word_bytes t) (lalign l) A). pose proof (align_up_aligned (2 * word_bytes t) (lalign l) A).
  assert (0 < Z.max (usize_align t) (lalign l)) by lia.
  pose proof (align_up_ge (align_up (2 * word_bytes t) (lalign l) + lsize l) (Z.max (usize_align t) (lalign l)) ltac:(assumption)).
  split; [lia|]. split; [assumption|]. split; lia.
Qed.

Lemma in_slot t vt a v x : valid_target t -> type_layout t (vt v) -> a <= x < a + value_offset t (vt v) + lsize (vt v) -> in_block (slot_block t vt a v) x.
Proof. intros Ht Hl H. destruct (voff_facts t _ Ht Hl) as (_ & _ & V & _). unfold in_block, slot_block. cbn [start size]. lia. Qed.

Lemma pin_mem_outside t vt m a v link bs : valid_target t -> type_layout t (vt v) -> Z.of_nat (length bs) = lsize (vt v) ->
  same_outside (slot_block t vt a v) m (pin_mem t vt m a v link bs).
Proof.
  intros Ht Hl Hb x Hx. destruct (voff_facts t _ Ht Hl) as (V1 & _ & V2 & V3). unfold in_block, slot_block in Hx. cbn [start size] in Hx.
  unfold pin_mem. pose proof (word_pos t Ht). destruct (tl_pos t _ Hl).
  rewrite (mem_write_outside _ _ bs (lsize (vt v)) ltac:(lia) x) by (unfold in_block; cbn [start size]; lia).
  rewrite (store_link_outside t _ a link Ht x) by (unfold in_block; cbn [start size]; lia).
  apply mem_fill_outside. exact Hx.
Qed.

Lemma pin_mem_value t vt m a v link bs : Z.of_nat (length bs) = lsize (vt v) ->
  mem_read (pin_mem t vt m a v link bs) (a + value_offset t (vt v)) (lsize (vt v)) = bs.
Proof. intros <-. apply reads_mem_read. unfold pin_mem. apply mem_write_reads. Qed.

Lemma pin_mem_link t vt m a v link bs : valid_target t -> type_layout t (vt v) -> Z.of_nat (length bs) = lsize (vt v) -> link_ok t link ->
  load_link t (pin_mem t vt m a v link bs) a = Some link.
Proof.
  intros Ht Hl Hb HL. destruct (voff_facts t _ Ht Hl) as (V1 & _ & V2 & V3). unfold pin_mem.
  rewrite (load_link_same t (store_link t (mem_fill m a (lsize (pin_layout t (vt v))) None) a link)); [apply store_load_link; assumption|exact Ht|].
  intros x Hx. apply (mem_write_outside _ _ bs (lsize (vt v)) ltac:(lia) x). unfold in_block; cbn [start size]; lia.
Qed.

(** ** Histories *)
Lemma history_drops h s1 : forall s2 lost, history h (s1 ++ s2) lost -> history (h ++ map drop_of s1) s2 lost.
Proof.
  revert h. induction s1 as [|e s1 IH]; intros h s2 lost H; cbn [map app] in *; [rewrite app_nil_r; exact H|].
  change (drop_of e :: map drop_of s1) with ([drop_of e] ++ map drop_of s1). rewrite app_assoc. apply IH. constructor. exact H.
Qed.

Lemma history_length h st lost : history h st lost -> (length st + length lost <= length h)%nat.
Proof.
  induction 1; repeat rewrite app_length in *; cbn [length] in *; repeat rewrite app_length in *; cbn [length] in *; lia.
Qed.

Lemma history_accounts h st lost : history h st lost -> Permutation (pins h) (drops h ++ map who st ++ map who lost).
Proof.
  induction 1; unfold pins, drops, drop_of in *; repeat rewrite flat_map_app in *; cbn [flat_map app map] in *; repeat rewrite app_nil_r in *; auto.
  - apply Permutation_trans with ((a, v) :: flat_map (fun e => match e with EvPin a v _ => [(a, v)] | _ => [] end) h);
      [apply Permutation_sym, Permutation_cons_append|]. cbn [who en_addr en_vt].
    apply Permutation_trans with ((a, v) :: (flat_map (fun e => match e with EvDrop a v _ => [(a, v)] | _ => [] end) h ++ map who st ++ map who lost)).
    + constructor. exact IHhistory.
    + apply Permutation_middle.
  - rewrite map_app in *. cbn [map] in *. exact IHhistory.
  - rewrite <- app_assoc. exact IHhistory.
  - rewrite map_app. exact IHhistory.
Qed.

Lemma first_addr : forall (l1 l1' l2 l2' : list entry) (a v v' : Z) bs bs', l1 ++ MkEntry a v bs :: l2 = l1' ++ MkEntry a v' bs' :: l2' ->
  ~ In a (map en_addr l1) -> ~ In a (map en_addr l1') -> l1 = l1' /\ v = v' /\ l2 = l2'.
Proof.
  induction l1 as [|x l1 IH]; intros [|y l1'] l2 l2' a v v' bs bs' E N N'; cbn [app] in E.
  - injection E as <- <- <-. auto.
  - injection E as <- _. exfalso. apply N'. left. reflexivity.
  - injection E as -> _. exfalso. apply N. left. reflexivity.
  - injection E as -> E. cbn in N, N'. destruct (IH l1' l2 l2' a v v' bs bs' E) as (-> & -> & ->); auto.
Qed.

Lemma history_unique h st lost : history h st lost -> forall st' lost', history h st' lost' -> st = st' /\ lost = lost'.
Proof.
  induction 1 as [|h st lost a v bs H IH|h st1 st2 lost a v bs bs' H IH N|h e st lost H IH|h st lost v bs H IH|h st lost H IH|h lost H IH];
    intros st' lost' H'; inversion H' as [E|? ? ? ? ? ? H1 E|? ? ? ? ? ? ? ? H1 N1 E|? ? ? ? H1 E|? ? ? ? ? H1 E|? ? ? H1 E|? ? H1 E];
    try (destruct h; discriminate E); try (symmetry in E; destruct h; discriminate E);
    subst; try apply app_inj_tail in E; try (destruct E as [-> E]); try (exfalso; discriminate E).
  all: try (injection E as ?; subst).
  all: try (destruct (IH _ _ H1) as [E1 E2]; subst; auto; fail).
  - auto.
  - destruct (IH _ _ H1) as [E1 ->]. destruct (first_addr _ _ _ _ _ _ _ _ _ E1 N N1) as (-> & -> & ->). auto.
  - destruct (IH _ _ H1) as [E1 ->]. injection E1 as ->. auto.
Qed.

Lemma history_lost h st lost : history h st lost -> lost <> [] -> In EvUnwound h.
Proof.
  induction 1; intros N; try (apply in_or_app; left; auto; fail); [congruence|]. apply in_or_app. right. left. reflexivity.
Qed.

(** ** The chain of pinned values *)
Fixpoint chain (t : target) (m : mem) (top : option handle) (st : list entry) : Prop :=
  match st with
  | [] => top = None
  | e :: st => top = Some (en_addr e, en_vt e) /\ exists link, load_link t m (en_addr e) = Some link /\ chain t m link st
  end.

Definition entry_ok (t : target) (vt : Z -> layout) (m : mem) (e : entry) : Prop :=
  is_usize t (en_vt e) /\ type_layout t (vt (en_vt e)) /\ type_layout t (pin_layout t (vt (en_vt e))) /\
  Z.of_nat (length (en_bytes e)) = lsize (vt (en_vt e)) /\
  mem_read m (en_addr e + value_offset t (vt (en_vt e))) (lsize (vt (en_vt e))) = en_bytes e.

Definition entry_block (t : target) (vt : Z -> layout) (e : entry) : block := slot_block t vt (en_addr e) (en_vt e).

Lemma entry_frame t vt m m' e b : valid_target t -> entry_ok t vt m e -> disjoint b (entry_block t vt e) -> same_outside b m m' ->
  entry_ok t vt m' e.
Proof.
  intros Ht (A & B & C & D & E) Dj S. split; [exact A|]. split; [exact B|]. split; [exact C|]. split; [exact D|].
  rewrite <- E. apply mem_read_same. intros x Hx. apply S. intros Q. apply (Dj x). split; [exact Q|].
  apply in_slot; auto. destruct (voff_facts t _ Ht B). pose proof (word_pos t Ht). lia.
Qed.

Lemma chain_frame t vt m m' b : valid_target t -> same_outside b m m' ->
  forall st top, Forall (entry_ok t vt m) st -> Forall (fun e => disjoint b (entry_block t vt e)) st -> chain t m top st -> chain t m' top st.
Proof.
  intros Ht S. induction st as [|e st IH]; intros top F D; cbn [chain]; [auto|]. intros (-> & link & L & C).
  inversion F as [|? ? (A1 & A2 & _) F']; subst. inversion D as [|? ? D1 D']; subst. split; [reflexivity|]. exists link. split; [|auto].
  rewrite <- L. apply load_link_same; [exact Ht|]. intros x Hx. apply S. intros Q. apply (D1 x). split; [exact Q|].
  apply in_slot; auto. destruct (voff_facts t _ Ht A2). destruct (tl_pos t _ A2). lia.
Qed.

Lemma pop_loop_quiet t vt boom m : forall st n top log, chain t m top st -> Forall (entry_ok t vt m) st -> (length st <= n)%nat -> quiet boom st ->
  pop_loop t vt boom m n top log = (log ++ map drop_of st, PopDone).
Proof.
  induction st as [|e st IH]; intros n top log C F L Q; cbn [chain] in C.
  - subst top. rewrite app_nil_r. destruct n; reflexivity.
  - destruct C as (-> & link & K & C). cbn [length] in L. destruct n as [|n]; [lia|]. cbn [pop_loop].
    inversion F as [|? ? (_ & _ & _ & _ & E) F']; subst. inversion Q as [|? ? Q1 Q']; subst.
    rewrite E, Q1, K. rewrite IH by (auto; lia). cbn [map]. rewrite <- app_assoc. reflexivity.
Qed.

Lemma pop_loop_boom t vt boom m e s2 : forall s1 n top log, chain t m top (s1 ++ e :: s2) -> Forall (entry_ok t vt m) (s1 ++ e :: s2) ->
  (length (s1 ++ e :: s2) <= n)%nat -> quiet boom s1 -> boom (en_vt e) (en_bytes e) = true ->
  pop_loop t vt boom m n top log = (log ++ map drop_of (s1 ++ [e]), PopPanic PE_destructor).
Proof.
  induction s1 as [|e1 s1 IH]; intros n top log C F L Q B; cbn [chain app] in *.
  - destruct C as (-> & link & K & C). cbn [length] in L. destruct n as [|n]; [lia|]. cbn [pop_loop].
    inversion F as [|? ? (_ & _ & _ & _ & E) F']; subst. rewrite E, B. destruct n; reflexivity.
  - destruct C as (-> & link & K & C). cbn [length] in L. destruct n as [|n]; [lia|]. cbn [pop_loop].
    inversion F as [|? ? (_ & _ & _ & _ & E) F']; subst. inversion Q as [|? ? Q1 Q']; subst.
    rewrite E, Q1, K. rewrite IH by (auto; lia). cbn [map]. rewrite <- app_assoc. reflexivity.
Qed.

Lemma quiet_or_boom boom st : quiet boom st \/ exists s1 e s2, st = s1 ++ e :: s2 /\ quiet boom s1 /\ boom (en_vt e) (en_bytes e) = true.
Proof.
  induction st as [|e st IH]; [left; constructor|]. destruct (boom (en_vt e) (en_bytes e)) eqn:B.
  - right. exists [], e, st. split; [reflexivity|]. split; [constructor|exact B].
  - destruct IH as [Q|(s1 & x & s2 & -> & Q & X)]; [left; constructor; assumption|].
    right. exists (e :: s1), x, s2. split; [reflexivity|]. split; [constructor; assumption|exact X].
Qed.

(** ** The invariant *)
Definition data_block (t : target) (base : Z) (lm : layout) : block := MkBlock (base + word_bytes t) (lsize (pin_layout t lm)).

(** places in use: those of pinned values and of open slots *)
Definition open_toks (ts : list etoken) : list etoken := filter (fun k => negb (tpinned k)) ts.
Definition tok_block (t : target) (vt : Z -> layout) (k : etoken) : block := slot_block t vt (taddr k) (tvt k).
Definition tok_ok (t : target) (vt : Z -> layout) (k : etoken) : Prop :=
  is_usize t (tvt k) /\ type_layout t (vt (tvt k)) /\ type_layout t (pin_layout t (vt (tvt k))).

Definition used_blocks (t : target) (vt : Z -> layout) (st : list entry) (ts : list etoken) : list block :=
  map (entry_block t vt) st ++ map (tok_block t vt) (open_toks ts).

Definition below_level (t : target) (base : Z) (i : Z) (b : block) : Prop :=
  base + word_bytes t <= start b /\ start b + size b <= base + word_bytes t + i.

Definition slot_aligned (t : target) (vt : Z -> layout) (a v : Z) : Prop := aligned a (lalign (pin_layout t (vt v))).

Record einv (t : target) (vt : Z -> layout) (base : Z) (lm : layout) (s : estate) (st lost : list entry) : Prop := {
  ei_hist : history (elog s) st lost;
  ei_base : ebase s = base;
  ei_lay : emlay s = lm;
  ei_ok : uok t (MkU (data_block t base lm) (eindex s));
  ei_chain : chain t (ebytes s) (etop s) st;
  ei_entries : Forall (entry_ok t vt (ebytes s)) st;
  ei_toks : Forall (tok_ok t vt) (etoks s);
  ei_below : Forall (below_level t base (eindex s)) (used_blocks t vt st (etoks s));
  ei_disj : pairwise disjoint (used_blocks t vt st (etoks s));
  ei_al1 : Forall (fun e => slot_aligned t vt (en_addr e) (en_vt e)) st;
  ei_al2 : Forall (fun k => slot_aligned t vt (taddr k) (tvt k)) (etoks s);
  ei_pinned : Forall (fun k => tpinned k = true -> exists e, In e st /\ en_addr e = taddr k /\ en_vt e = tvt k) (etoks s) }.

Lemma pairwise_perm {A} (R : A -> A -> Prop) l l' : (forall a b, R a b -> R b a) -> Permutation l l' -> pairwise R l -> pairwise R l'.
Proof.
  intros S P. induction P as [|x l l' P IH|x y l|l l1 l2 P1 IH1 P2 IH2]; intros H; [exact H| | |auto].
  - apply pairwise_cons_inv in H. destruct H as [F H]. apply pairwise_cons; [exact S| |auto].
    apply (Permutation_Forall P). exact F.
  - apply pairwise_cons_inv in H. destruct H as [F H]. apply pairwise_cons_inv in H. destruct H as [F' H].
    inversion F as [|? ? F1 F2]; subst. apply pairwise_cons; [exact S| |apply pairwise_cons; auto].
    constructor; [apply S; exact F1|exact F'].
Qed.

Definition can_deref (t : target) (lm : layout) : Prop := debug t = false \/ lalign (pin_layout t lm) <= usize_align t.

Lemma can_deref_dec t lm : can_deref t lm \/ ~ can_deref t lm.
Proof. unfold can_deref. destruct (debug t); [|left; auto]. destruct (Z.le_gt_cases (lalign (pin_layout t lm)) (usize_align t)); [left; auto|right; intros [?|?]; [congruence|lia]]. Qed.

Lemma deref_cases t vt base lm s st lost : valid_target t -> stack_ok t base lm -> einv t vt base lm s st lost ->
  (can_deref t lm -> emem_deref t s = Ret {| faddr := base; flen := lsize (pin_layout t lm) |}) /\
  (~ can_deref t lm -> emem_deref t s = Panic PU_deref).
Proof.
  intros Ht (_ & Hp & _) H. unfold emem_deref. rewrite (ei_base _ _ _ _ _ _ _ H), (ei_lay _ _ _ _ _ _ _ H).
  destruct (deref_exact t base (pin_layout t lm) Ht Hp) as (D1 & D2 & _). split; [intros C; apply D1; exact C|].
  intros C. unfold bump_deref. unfold bump_deref in D1. destruct (debug_ok _ _) eqn:E; [|reflexivity].
  exfalso. apply C. apply D1. reflexivity.
Qed.

Lemma data_ok t base lm : valid_target t -> stack_ok t base lm ->
  valid_region t (data_block t base lm) /\ inside (data_block t base lm) (MkBlock base (lsize (bump_layout t (pin_layout t lm)))) /\
  0 < base /\ 0 < lsize (pin_layout t lm).
Proof.
  intros Ht (Hl & Hp & Hb & Ha & R1 & R2 & R3). cbn [start size] in *.
  destruct (deref_exact t base (pin_layout t lm) Ht Hp) as (_ & _ & _ & I & _). unfold fat_data in I. cbn [faddr flen] in I.
  destruct (voff_facts t lm Ht Hl) as (_ & _ & _ & P).
  split; [|split; [exact I|split; assumption]].
  apply inside_elim in I; [|exact P]. cbn [start size] in I. unfold data_block. split; cbn [start size]; [pose proof (word_pos t Ht); lia|].
  split; [|lia]. split; [lia|]. destruct Hp as [Hv _]. destruct (tl_pos t lm Hl). pose proof (align_up_ge (lsize (pin_layout t lm)) (lalign (pin_layout t lm)) (valid_layout_align t _ Hv)).
  destruct Hv as (_ & _ & _ & V). lia.
Qed.

Definition with_index (s : estate) (i : Z) : estate := MkE (ebase s) (emlay s) i (etop s) (ebytes s) (etoks s) (elog s) (egone s).

Lemma with_index_id s : with_index s (eindex s) = s.
Proof. destruct s; reflexivity. Qed.

Lemma eslot_spec t vt base lm s st lost l : valid_target t -> stack_ok t base lm -> einv t vt base lm s st lost -> type_layout t l -> type_layout t (pin_layout t l) ->
  let d := data_block t base lm in
  (~ can_deref t lm -> eslot t s l = (s, Panic PU_deref)) /\
  (can_deref t lm -> fits_in d (eindex s) (pin_layout t l) ->
     exists a, first_aligned (start d + eindex s) (lalign (pin_layout t l)) a /\ a + lsize (pin_layout t l) <= start d + size d /\
       eslot t s l = (with_index s (a + lsize (pin_layout t l) - start d), Ret (Some a))) /\
  (can_deref t lm -> ~ fits_in d (eindex s) (pin_layout t l) -> eslot t s l = (s, Ret None)).
Proof.
  intros Ht Hs H Hl Hp d. destruct (deref_cases t vt base lm s st lost Ht Hs H) as [D1 D2]. unfold eslot.
  split; [intros C; rewrite (D2 C); reflexivity|].
  pose proof (ei_ok _ _ _ _ _ _ _ H) as Hok. destruct (voff_facts t l Ht Hl) as (_ & _ & _ & P).
  assert (U : u_bump_box t {| udata := d; uindex := eindex s |} (pin_layout t l) =
    if fitsb d (eindex s) (pin_layout t l) then (of_slab (bumped (slab_of (MkU d (eindex s))) (pin_layout t l)), Ret (ROk (placed (slab_of (MkU d (eindex s))) (pin_layout t l))))
    else (MkU d (eindex s), Ret (RErr Exhausted))).
  { unfold u_bump_box, u_level. cbn [uindex]. rewrite (u_try_alloc_at_spec t (MkU d (eindex s)) (pin_layout t l) (eindex s) Ht Hok (proj1 Hp) P (proj2 Hok)).
    cbn [udata uindex]. rewrite Z.eqb_refl. reflexivity. }
  pose proof (fitsb_iff t d (eindex s) (pin_layout t l) (proj1 Hp)) as F.
  assert (Q : fat_data t {| faddr := base; flen := lsize (pin_layout t lm) |} = d) by reflexivity.
  split; intros C W; rewrite (D1 C), Q, U.
  - destruct (fitsb _ _ _) eqn:E; [|apply F in W; discriminate].
    pose proof (valid_layout_align t _ (proj1 Hp)) as A.
    exists (place (slab_of (MkU d (eindex s))) (pin_layout t l)). split; [apply align_up_first; exact A|].
    split; [apply fits_in_iff in W; [exact W|exact A]|]. reflexivity.
  - destruct (fitsb _ _ _) eqn:E; [exfalso; apply W, F; reflexivity|reflexivity].
Qed.

Lemma slot_new t vt base lm s st lost v a : valid_target t -> stack_ok t base lm -> einv t vt base lm s st lost ->
  type_layout t (vt v) -> type_layout t (pin_layout t (vt v)) ->
  let l := pin_layout t (vt v) in let d := data_block t base lm in
  first_aligned (start d + eindex s) (lalign l) a -> a + lsize l <= start d + size d ->
  let s' := with_index s (a + lsize l - start d) in
  einv t vt base lm s' st lost /\ Forall (fun b => disjoint b (slot_block t vt a v)) (used_blocks t vt st (etoks s)) /\
  below_level t base (eindex s') (slot_block t vt a v) /\ slot_aligned t vt a v.
Proof.
  intros Ht Hs H Hl Hp l d (A1 & A2 & _) A3 s'. destruct (voff_facts t _ Ht Hl) as (_ & _ & _ & P). fold l in P.
  pose proof (ei_ok _ _ _ _ _ _ _ H) as [Hv Hi]. cbn [slab_of storage consumed udata uindex] in Hv, Hi. change (0 <= eindex s <= size d) in Hi.
  assert (LE : eindex s <= a + lsize l - start d) by lia.
  assert (BL : Forall (below_level t base (eindex s)) (used_blocks t vt st (etoks s))) by apply H.
  split.
  - destruct H. constructor; cbn [s' with_index elog ebase emlay etop ebytes etoks eindex]; auto.
    + split; cbn; [exact Hv|]. change (0 <= a + lsize l - start d <= size d). lia.
    + eapply Forall_impl; [|exact BL]. intros b [B1 B2]. split; lia.
  - split; [|split].
    + eapply Forall_impl; [|exact BL]. intros b [B1 B2]. apply disjoint_intro. left. unfold slot_block. cbn [start]. unfold d, data_block in A1. cbn [start] in A1. lia.
    + unfold below_level, slot_block. cbn [start size s' with_index eindex]. unfold d, data_block in *. cbn [start size] in *. fold l. lia.
    + exact A2.
Qed.

Lemma link_of_top t vt base lm s st lost : valid_target t -> stack_ok t base lm -> einv t vt base lm s st lost -> link_ok t (etop s).
Proof.
  intros Ht Hs H. pose proof (ei_chain _ _ _ _ _ _ _ H) as C. destruct st as [|e st]; cbn [chain] in C; [rewrite C; exact I|].
  destruct C as (-> & _). cbn [link_ok]. pose proof (ei_entries _ _ _ _ _ _ _ H) as F. inversion F as [|? ? (E1 & E2 & _) _]; subst.
  pose proof (ei_below _ _ _ _ _ _ _ H) as B. inversion B as [|? ? (B1 & B2) _]; subst. unfold entry_block, slot_block in B1, B2. cbn [start size] in B1, B2.
  destruct (voff_facts t _ Ht E2) as (_ & _ & _ & P). destruct (data_ok t base lm Ht Hs) as ((D1 & D2 & D3) & _ & D4 & _). cbn [start size data_block] in *.
  pose proof (ei_ok _ _ _ _ _ _ _ H) as [_ Hi]. cbn [slab_of storage consumed udata uindex size data_block] in Hi. pose proof (word_pos t Ht).
  split; [lia|]. split; [|exact E1]. split; [lia|]. unfold usize_max. lia.
Qed.

Lemma entry_blocks_disjoint t vt b st : Forall (fun x => disjoint x b) (map (entry_block t vt) st) -> Forall (fun e => disjoint b (entry_block t vt e)) st.
Proof. intros F. rewrite Forall_forall in *. intros e E. apply disjoint_sym, F. apply in_map. exact E. Qed.

Lemma epin_inv t vt base lm s st lost a v bs toks : valid_target t -> stack_ok t base lm -> einv t vt base lm s st lost ->
  is_usize t v -> type_layout t (vt v) -> type_layout t (pin_layout t (vt v)) -> Z.of_nat (length bs) = lsize (vt v) ->
  Forall (fun b => disjoint b (slot_block t vt a v)) (map (entry_block t vt) st) ->
  let st' := MkEntry a v bs :: st in
  slot_aligned t vt a v -> Forall (tok_ok t vt) toks -> Forall (fun k => slot_aligned t vt (taddr k) (tvt k)) toks ->
  Forall (below_level t base (eindex s)) (used_blocks t vt st' toks) -> pairwise disjoint (used_blocks t vt st' toks) ->
  Forall (fun k => tpinned k = true -> exists e, In e st' /\ en_addr e = taddr k /\ en_vt e = tvt k) toks ->
  einv t vt base lm (epin t vt s a v bs toks) st' lost.
Proof.
  intros Ht Hs H V1 V2 V3 LB DJ st' AL T1 T2 T3 T4 T5.
  pose proof (pin_mem_outside t vt (ebytes s) a v (etop s) bs Ht V2 LB) as OUT.
  pose proof (link_of_top t vt base lm s st lost Ht Hs H) as LK.
  assert (DJ' := entry_blocks_disjoint t vt _ st DJ).
  constructor; cbn [epin elog ebase emlay etop ebytes etoks eindex]; auto; try apply H.
  - constructor. apply H.
  - unfold st'. cbn [chain en_addr en_vt]. split; [reflexivity|]. exists (etop s). split; [apply pin_mem_link; auto|].
    apply (chain_frame t vt (ebytes s) _ (slot_block t vt a v)); auto; apply H.
  - constructor.
    + split; [exact V1|]. cbn [en_vt en_addr en_bytes]. split; [exact V2|]. split; [exact V3|]. split; [exact LB|]. apply pin_mem_value. exact LB.
    + pose proof (ei_entries _ _ _ _ _ _ _ H) as F. rewrite Forall_forall in *. intros e E.
      apply (entry_frame t vt (ebytes s) _ e (slot_block t vt a v)); auto.
  - constructor; [exact AL|apply H].
Qed.

(** ** pop_all *)
Definition popped (s : estate) (i : Z) (log : list eevent) : estate := MkE (ebase s) (emlay s) i None (ebytes s) [] log (egone s).

Lemma inner_pop_all_spec t vt boom base lm s st lost : valid_target t -> stack_ok t base lm -> einv t vt base lm s st lost ->
  (quiet boom st -> can_deref t lm -> inner_pop_all t vt boom s = (popped s 0 (elog s ++ map drop_of st ++ [EvReset]), PopDone)) /\
  (quiet boom st -> ~ can_deref t lm -> inner_pop_all t vt boom s = (popped s (eindex s) (elog s ++ map drop_of st ++ [EvUnwound]), PopPanic PU_deref)) /\
  (forall s1 e s2, st = s1 ++ e :: s2 -> quiet boom s1 -> boom (en_vt e) (en_bytes e) = true ->
     inner_pop_all t vt boom s = (popped s (eindex s) (elog s ++ map drop_of (s1 ++ [e]) ++ [EvUnwound]), PopPanic PE_destructor)).
Proof.
  intros Ht Hs H. destruct (deref_cases t vt base lm s st lost Ht Hs H) as [D1 D2].
  pose proof (history_length _ _ _ (ei_hist _ _ _ _ _ _ _ H)) as L.
  unfold inner_pop_all. split; [|split].
  - intros Q C. rewrite (pop_loop_quiet t vt boom (ebytes s) st) by (auto; try apply H; lia). rewrite (D1 C). unfold popped. rewrite <- app_assoc. reflexivity.
  - intros Q C. rewrite (pop_loop_quiet t vt boom (ebytes s) st) by (auto; try apply H; lia). rewrite (D2 C). unfold popped. rewrite <- app_assoc. reflexivity.
  - intros s1 e s2 -> Q B. rewrite (pop_loop_boom t vt boom (ebytes s) e s2 s1); auto; try apply H; try lia. unfold popped. rewrite <- app_assoc. reflexivity.
Qed.

Lemma popped_inv t vt base lm s st lost i log lost' : valid_target t -> stack_ok t base lm -> einv t vt base lm s st lost ->
  i = 0 \/ i = eindex s -> history log [] lost' -> einv t vt base lm (popped s i log) [] lost'.
Proof.
  intros Ht Hs H I L. constructor; cbn [popped elog ebase emlay etop ebytes etoks eindex]; try (constructor; fail); auto; try apply H.
  - pose proof (ei_ok _ _ _ _ _ _ _ H) as [R K]. split; [exact R|]. destruct I as [-> | ->]; [|exact K].
    cbn [slab_of consumed uindex storage udata] in *. lia.
  - unfold used_blocks. cbn. apply pairwise_nil.
Qed.

Lemma inner_pop_all_inv t vt boom base lm s st lost : valid_target t -> stack_ok t base lm -> einv t vt base lm s st lost ->
  exists lost', einv t vt base lm (fst (inner_pop_all t vt boom s)) [] lost'.
Proof.
  intros Ht Hs H. destruct (inner_pop_all_spec t vt boom base lm s st lost Ht Hs H) as (P1 & P2 & P3).
  pose proof (ei_hist _ _ _ _ _ _ _ H) as HH.
  destruct (quiet_or_boom boom st) as [Q|(s1 & e & s2 & E & Q & B)].
  - assert (D : history (elog s ++ map drop_of st) [] lost) by (apply history_drops; rewrite app_nil_r; exact HH).
    destruct (can_deref_dec t lm) as [C|C].
    + rewrite (P1 Q C). exists lost. apply (popped_inv t vt base lm s st lost); auto. rewrite app_assoc. constructor. exact D.
    + rewrite (P2 Q C). exists lost. apply (popped_inv t vt base lm s st lost); auto. rewrite app_assoc. exact (HUnwound _ _ _ D).
  - rewrite (P3 s1 e s2 E Q B). exists (s2 ++ lost). apply (popped_inv t vt base lm s st lost); auto. rewrite app_assoc. apply HUnwound.
    apply history_drops. rewrite <- app_assoc. cbn [app]. rewrite <- E. exact HH.
Qed.

(** ** Tokens *)
Lemma open_upd ts : forall j k, nth_error ts j = Some k -> tpinned k = false -> forall k', tpinned k' = true ->
  Permutation (open_toks ts) (k :: open_toks (upd ts j k')).
Proof.
  induction ts as [|x ts IH]; intros [|j] k N P k' P'; try discriminate; cbn in *.
  - injection N as ->. unfold open_toks. cbn [filter]. rewrite P, P'. cbn [negb]. reflexivity.
  - unfold open_toks in *. cbn [filter]. specialize (IH j k N P k' P'). destruct (negb (tpinned x)); [|exact IH].
    eapply Permutation_trans; [apply perm_skip; exact IH|]. constructor.
Qed.

Lemma open_remove ts : forall j k, nth_error ts j = Some k -> tpinned k = false -> Permutation (open_toks ts) (k :: open_toks (remove_nth j ts)).
Proof.
  induction ts as [|x ts IH]; intros [|j] k N P; try discriminate; cbn in *.
  - injection N as ->. rewrite P. reflexivity.
  - unfold open_toks in *. cbn [filter]. specialize (IH j k N P). destruct (negb (tpinned x)); [|exact IH].
    eapply Permutation_trans; [apply perm_skip; exact IH|]. constructor.
Qed.

Lemma In_remove {A} (l : list A) : forall j x, In x (remove_nth j l) -> In x l.
Proof. induction l as [|y l IH]; intros [|j] x; cbn; auto. intros [->|H]; eauto. Qed.

Lemma In_upd {A} (l : list A) : forall j x y, In x (upd l j y) -> x = y \/ In x l.
Proof. induction l as [|z l IH]; intros [|j] x y; cbn; auto; intros [->|H]; auto. destruct (IH j x y H); auto. Qed.

Lemma used_perm t vt st ts ts' k : Permutation (open_toks ts) (k :: open_toks ts') ->
  Permutation (used_blocks t vt st ts) (tok_block t vt k :: used_blocks t vt st ts').
Proof.
  intros P. unfold used_blocks. eapply Permutation_trans; [apply Permutation_app_head, Permutation_map; exact P|].
  cbn [map]. apply Permutation_sym, Permutation_middle.
Qed.

Lemma layout_eqb_eq a b : layout_eqb a b = true -> a = b.
Proof. unfold layout_eqb. destruct a, b. cbn. intros H. f_equal; lia. Qed.

Lemma estep_inv t vt boom base lm s st lost o : valid_target t -> stack_ok t base lm -> einv t vt base lm s st lost -> eop_ok t vt o ->
  exists st' lost', einv t vt base lm (fst (estep t vt boom s o)) st' lost'.
Proof.
  intros Ht Hs H Ho. unfold estep. destruct (egone s); [eauto|]. destruct o as [v|j|j bs|j bs|j| |v bs|].
  - destruct Ho as (V1 & V2 & V3). destruct (eslot_spec t vt base lm s st lost (vt v) Ht Hs H V2 V3) as (S1 & S2 & S3).
    destruct (can_deref_dec t lm) as [C|C]; [|rewrite (S1 C); eauto].
    destruct (fitsb (data_block t base lm) (eindex s) (pin_layout t (vt v))) eqn:FB.
    + apply (fitsb_iff t _ _ _ (proj1 V3)) in FB. destruct (S2 C FB) as (a & A1 & A2 & ->). cbn [fst].
      destruct (slot_new t vt base lm s st lost v a Ht Hs H V2 V3 A1 A2) as (I & D & B & AL).
      exists st, lost. destruct I. constructor; cbn [with_toks with_index elog ebase emlay etop ebytes etoks eindex] in *; auto.
      * apply Forall_app. split; [assumption|]. constructor; [|constructor]. split; auto.
      * unfold used_blocks, open_toks in *. rewrite filter_app, map_app, app_assoc. apply Forall_app. split; [assumption|]. constructor; [exact B|constructor].
      * unfold used_blocks, open_toks in *. rewrite filter_app, map_app, app_assoc. cbn [filter tpinned negb map].
        apply pairwise_app; [apply disjoint_sym|assumption| |].
        { apply pairwise_cons; [apply disjoint_sym|constructor|apply pairwise_nil]. }
        intros x y X [<-|[]]. rewrite Forall_forall in D. apply D. exact X.
      * apply Forall_app. split; [assumption|]. constructor; [exact AL|constructor].
      * apply Forall_app. split; [assumption|]. constructor; [discriminate|constructor].
    + rewrite S3; [cbn [fst]; eauto|exact C|]. intros W. apply (fitsb_iff t _ _ _ (proj1 V3)) in W. congruence.
  - destruct (nth_error (etoks s) j) as [[a v []]|] eqn:N; cbn [fst]; eauto.
    exists st, lost. pose proof (used_perm t vt st _ _ _ (open_remove _ _ _ N eq_refl)) as P.
    destruct H. constructor; cbn [with_toks elog ebase emlay etop ebytes etoks eindex] in *; auto.
    + rewrite Forall_forall in *. intros k K. apply ei_toks0. eapply In_remove; exact K.
    + apply (Permutation_Forall P) in ei_below0. inversion ei_below0; assumption.
    + apply (pairwise_perm _ _ _ disjoint_sym P) in ei_disj0. apply pairwise_cons_inv in ei_disj0. apply ei_disj0.
    + rewrite Forall_forall in *. intros k K. apply ei_al4. eapply In_remove; exact K.
    + rewrite Forall_forall in *. intros k K. apply ei_pinned0. eapply In_remove; exact K.
  - destruct (nth_error (etoks s) j) as [[a v []]|] eqn:N; cbn [fst]; eauto.
    destruct (Z.eqb_spec (Z.of_nat (length bs)) (lsize (vt v))) as [LB|LB]; cbn [fst]; eauto.
    pose proof (used_perm t vt st _ _ _ (open_upd _ _ _ N eq_refl (MkET a v true) eq_refl)) as P.
    pose proof (ei_disj _ _ _ _ _ _ _ H) as DJ. apply (pairwise_perm _ _ _ disjoint_sym P) in DJ.
    pose proof (ei_below _ _ _ _ _ _ _ H) as BL. apply (Permutation_Forall P) in BL.
    destruct (pairwise_cons_inv _ _ _ DJ) as [DJ1 _].
    pose proof (nth_error_In _ _ N) as NI.
    pose proof (ei_toks _ _ _ _ _ _ _ H) as TK. pose proof (ei_al2 _ _ _ _ _ _ _ H) as AL. pose proof (ei_pinned _ _ _ _ _ _ _ H) as PI.
    rewrite Forall_forall in TK, AL, PI. destruct (TK _ NI) as (V1 & V2 & V3). cbn [tvt] in V1, V2, V3.
    exists (MkEntry a v bs :: st), lost. apply epin_inv; auto.
    + unfold used_blocks in DJ1. apply Forall_app in DJ1. rewrite Forall_forall in *. intros b B. apply disjoint_sym, DJ1. exact B.
    + apply (AL _ NI).
    + rewrite Forall_forall. intros k K. apply In_upd in K. destruct K as [->|K]; [split; auto|apply TK; exact K].
    + rewrite Forall_forall. intros k K. apply In_upd in K. destruct K as [->|K]; [apply (AL _ NI)|apply AL; exact K].
    + rewrite Forall_forall. intros k K. apply In_upd in K. destruct K as [->|K].
      * intros _. exists (MkEntry a v bs). cbn. auto.
      * intros Q. destruct (PI k K Q) as (e & E1 & E2). exists e. split; [right; exact E1|exact E2].
  - destruct (nth_error (etoks s) j) as [[a v []]|] eqn:N; cbn [fst]; eauto.
    destruct (Z.eqb_spec (Z.of_nat (length bs)) (lsize (vt v))) as [LB|LB]; cbn [fst]; eauto.
    pose proof (nth_error_In _ _ N) as NI. pose proof (ei_pinned _ _ _ _ _ _ _ H) as PI. rewrite Forall_forall in PI.
    destruct (PI _ NI eq_refl) as (e & E1 & E2 & E3). cbn [taddr tvt] in E2, E3. subst a v.
    apply in_split in E1. destruct E1 as (st1 & st2 & ->).
    assert (HO := mem_write_outside (ebytes s) (en_addr e + value_offset t (vt (en_vt e))) bs (lsize (vt (en_vt e))) ltac:(lia)).
    set (m' := mem_write _ _ bs) in *.
    pose proof (ei_entries _ _ _ _ _ _ _ H) as F. pose proof F as F0. apply Forall_app in F. destruct F as [F1 F2]. inversion F2 as [|? ? FE F3]; subst.
    pose proof FE as (E1 & E2 & E3 & E4 & E5).
    assert (VI : forall x, in_block (MkBlock (en_addr e + value_offset t (vt (en_vt e))) (lsize (vt (en_vt e)))) x -> in_block (entry_block t vt e) x).
    { intros x X. apply in_slot; auto. unfold in_block in X. cbn [start size] in X. destruct (voff_facts t _ Ht E2). pose proof (word_pos t Ht). lia. }
    assert (HO' : same_outside (entry_block t vt e) (ebytes s) m') by (intros x X; apply HO; intros Y; apply X, VI; exact Y).
    pose proof (ei_disj _ _ _ _ _ _ _ H) as DJ.
    assert (PM : Permutation (used_blocks t vt (st1 ++ e :: st2) (etoks s)) (entry_block t vt e :: used_blocks t vt (st1 ++ st2) (etoks s))).
    { unfold used_blocks. rewrite !map_app. cbn [map]. rewrite <- !app_assoc. apply Permutation_sym. cbn [app]. apply Permutation_middle. }
    apply (pairwise_perm _ _ _ disjoint_sym PM) in DJ. apply pairwise_cons_inv in DJ. destruct DJ as [DJ _].
    unfold used_blocks in DJ. apply Forall_app in DJ. destruct DJ as [DJ _].
    assert (OD : forall x, In x (st1 ++ st2) -> disjoint (entry_block t vt e) (entry_block t vt x)).
    { intros x X. rewrite Forall_forall in DJ. apply DJ. apply in_map. exact X. }
    set (e' := MkEntry (en_addr e) (en_vt e) bs).
    exists (st1 ++ e' :: st2), lost.
    assert (UB : used_blocks t vt (st1 ++ e' :: st2) (etoks s) = used_blocks t vt (st1 ++ e :: st2) (etoks s)).
    { unfold used_blocks. rewrite !map_app. reflexivity. }
    assert (CF : forall st top, (forall x, In x st -> x = e \/ In x (st1 ++ st2)) -> Forall (entry_ok t vt (ebytes s)) st -> chain t (ebytes s) top st -> chain t m' top st).
    { induction st as [|x st IH]; intros top IN FF; cbn [chain]; [auto|]. intros (-> & link & L & C). inversion FF as [|? ? FX FF']; subst. split; [reflexivity|].
      exists link. split; [|apply IH; auto; intros y Y; apply IN; right; exact Y].
      rewrite <- L. apply load_link_same; [exact Ht|]. intros y Y. apply HO. intros Z.
      destruct (IN x (or_introl eq_refl)) as [-> | X].
      - unfold in_block in Z. cbn [start size] in Z. destruct (voff_facts t _ Ht E2). lia.
      - apply (OD x X y). split; [apply VI; exact Z|]. destruct FX as (_ & X2 & _). apply in_slot; auto.
        destruct (voff_facts t _ Ht X2). destruct (tl_pos t _ X2). lia. }
    constructor; cbn [elog ebase emlay etop ebytes etoks eindex]; try rewrite UB; try apply H.
    + pose proof (ei_hist _ _ _ _ _ _ _ H) as HH. destruct e as [a v b0]. cbn [en_addr]. apply (HWrite _ st1 st2 lost a v b0 bs HH).
      intros X. apply in_map_iff in X. destruct X as (x & X1 & X2). cbn [en_addr] in *. rewrite Forall_forall in F1. destruct (F1 x X2) as (_ & XL & _).
      destruct (voff_facts t _ Ht XL) as (_ & _ & _ & XP). destruct (voff_facts t _ Ht E2) as (_ & _ & _ & EP).
      apply (OD x (in_or_app _ _ _ (or_introl X2)) a). unfold in_block, entry_block, slot_block. cbn [start size en_addr en_vt] in *. lia.
    + assert (C : chain t m' (etop s) (st1 ++ e :: st2)).
      { apply CF; [|exact F0|apply H]. intros x X. apply in_app_or in X. destruct X as [X|[X|X]]; [right; apply in_or_app; auto|auto|right; apply in_or_app; auto]. }
      clear - C. revert C. generalize (etop s). induction st1 as [|x st1 IH]; intros top; cbn [app chain]; [auto|].
      intros (-> & link & L & C). split; [reflexivity|]. exists link. split; [exact L|]. apply IH. exact C.
    + apply Forall_app. split; [|constructor].
      * rewrite Forall_forall in *. intros x X. apply (entry_frame t vt (ebytes s) m' x (entry_block t vt e)); auto. apply OD. apply in_or_app; auto.
      * split; [exact E1|]. split; [exact E2|]. split; [exact E3|]. split; [exact LB|]. cbn [en_bytes en_addr en_vt e']. rewrite <- LB. unfold m'.
        apply reads_mem_read, mem_write_reads.
      * rewrite Forall_forall in *. intros x X. apply (entry_frame t vt (ebytes s) m' x (entry_block t vt e)); auto. apply OD. apply in_or_app; auto.
    + pose proof (ei_al1 _ _ _ _ _ _ _ H) as AL. apply Forall_app in AL. destruct AL as [AL1 AL2]. inversion AL2; subst. apply Forall_app. split; [exact AL1|]. constructor; assumption.
    + rewrite Forall_forall. intros k K Q. destruct (PI k K Q) as (x & X1 & X2). apply in_app_or in X1. destruct X1 as [X1|[X1|X1]].
      * exists x. split; [apply in_or_app; auto|exact X2].
      * subst x. exists e'. split; [apply in_or_app; right; left; reflexivity|exact X2].
      * exists x. split; [apply in_or_app; right; right; exact X1|exact X2].
  - destruct (nth_error (etoks s) j) as [[a v []]|]; cbn [fst]; eauto.
  - destruct (inner_pop_all_inv t vt boom base lm s st lost Ht Hs H) as [lost' I].
    destruct (inner_pop_all t vt boom s) as [s' r]. cbn [fst] in *. eauto.
  - destruct (negb _) eqn:NB; [cbn [fst]; eauto|]. apply negb_false_iff in NB. apply andb_true_iff in NB. destruct NB as [NB1 NB2].
    destruct Ho as (V1 & V2 & V3).
    destruct (inner_pop_all_inv t vt boom base lm s st lost Ht Hs H) as [lost' I].
    destruct (inner_pop_all t vt boom s) as [s1 r] eqn:PA. cbn [fst] in I.
    assert (T1 : etoks s1 = []).
    { clear - PA. unfold inner_pop_all in PA. destruct (pop_loop _ _ _ _ _ _ _) as [log []]; [destruct (emem_deref t s)|..]; injection PA as <- <-; reflexivity. }
    assert (DA : forall s2 k, einv t vt base lm s2 [] lost' -> exists st' lost', einv t vt base lm (fst (drop_arg boom s2 v bs k)) st' lost').
    { intros s2 k I2. exists [], lost'. destruct I2. constructor; cbn [drop_arg fst elog ebase emlay etop ebytes etoks eindex]; auto. constructor. assumption. }
    destruct r; cbn [fst]; eauto.
    destruct (eslot_spec t vt base lm s1 [] lost' (vt v) Ht Hs I V2 V3) as (S1 & S2 & S3).
    destruct (can_deref_dec t lm) as [C|C]; [|rewrite (S1 C); auto].
    destruct (fitsb (data_block t base lm) (eindex s1) (pin_layout t (vt v))) eqn:FB.
    + apply (fitsb_iff t _ _ _ (proj1 V3)) in FB. destruct (S2 C FB) as (a & A1 & A2 & ->). cbn [fst].
      destruct (slot_new t vt base lm s1 [] lost' v a Ht Hs I V2 V3 A1 A2) as (I2 & D & B & AL).
      exists [MkEntry a v bs], lost'. apply epin_inv; auto.
      * lia.
      * constructor.
      * cbn [with_index etoks]. rewrite T1. constructor; [split; auto|constructor].
      * cbn [with_index etoks]. rewrite T1. constructor; [exact AL|constructor].
      * cbn [with_index etoks]. rewrite T1. unfold used_blocks, open_toks. cbn [map app filter negb tpinned]. constructor; [exact B|constructor].
      * cbn [with_index etoks]. rewrite T1. unfold used_blocks, open_toks. cbn [map app filter negb tpinned]. apply pairwise_cons; [apply disjoint_sym|constructor|apply pairwise_nil].
      * cbn [with_index etoks]. rewrite T1. constructor; [|constructor]. intros _. eexists. split; [left; reflexivity|]. split; reflexivity.
    + rewrite S3; [auto|exact C|]. intros W. apply (fitsb_iff t _ _ _ (proj1 V3)) in W. congruence.
  - destruct (inner_pop_all_inv t vt boom base lm s st lost Ht Hs H) as [lost' I].
    assert (T1 : etoks (fst (inner_pop_all t vt boom s)) = []).
    { unfold inner_pop_all. destruct (pop_loop _ _ _ _ _ _ _) as [log []]; [destruct (emem_deref t s)|..]; reflexivity. }
    destruct (inner_pop_all t vt boom s) as [s' r]. cbn [fst] in *. exists [], lost'.
    destruct I. constructor; cbn [elog ebase emlay etop ebytes etoks eindex]; try rewrite <- T1; auto.
Qed.

Lemma enew_inv t vt base lm m : valid_target t -> stack_ok t base lm -> einv t vt base lm (enew base lm m) [] [].
Proof.
  intros Ht Hs. destruct (data_ok t base lm Ht Hs) as (R & _). constructor; cbn [enew elog ebase emlay etop ebytes etoks eindex]; try (constructor; fail); auto.
  - split; [exact R|]. cbn [slab_of storage consumed udata uindex]. destruct R as (_ & R & _). lia.
  - apply pairwise_nil.
Qed.

Lemma erun_inv t vt boom base lm : valid_target t -> stack_ok t base lm -> forall os, Forall (eop_ok t vt) os ->
  forall s st lost, einv t vt base lm s st lost -> exists st lost, einv t vt base lm (fst (erun t vt boom s os)) st lost.
Proof.
  intros Ht Hs. induction os as [|o os IH]; intros Ho s st lost I; cbn [erun fst]; [eauto|]. inversion Ho as [|? ? O1 O2]; subst.
  destruct (estep_inv t vt boom base lm s st lost o Ht Hs I O1) as (st' & lost' & I').
  destruct (estep t vt boom s o) as [s1 r]. cbn [fst] in I'. specialize (IH O2 s1 st' lost' I').
  destruct (erun t vt boom s1 os) as [s2 rs]. exact IH.
Qed.

Lemma exit_reach_inv t vt boom base lm m os s : exit_reach t vt boom base lm m os s -> exists st lost, einv t vt base lm s st lost.
Proof. intros (Ht & Hs & Ho & ->). eapply erun_inv; eauto using enew_inv. Qed.

(** ** Logs only grow *)
Lemma history_extend h h' : forall st' lost', history (h ++ h') st' lost' -> exists st lost x, history h st lost /\ lost' = x ++ lost.
Proof.
  induction h' as [|ev h' IH] using rev_ind; intros st' lost' H.
  - rewrite app_nil_r in H. exists st', lost', []. auto.
  - rewrite app_assoc in H. remember ((h ++ h') ++ [ev]) as g eqn:Eg. destruct H; try (destruct (h ++ h'); discriminate Eg);
      apply app_inj_tail in Eg; destruct Eg as [-> _]; try (apply IH in H; exact H).
    apply IH in H. destruct H as (st1 & lost1 & x & H & ->). exists st1, lost1, (st ++ x). split; [exact H|apply app_assoc].
Qed.

Lemma unwind_log t vt boom m : forall n c log, exists x, fst (unwind_loop t vt boom m n c log) = log ++ x.
Proof.
  induction n as [|n IH]; intros [[a v]|] log; cbn [unwind_loop fst]; try (exists []; rewrite app_nil_r; reflexivity).
  destruct (boom _ _); [eexists; reflexivity|]. destruct (load_link t m a); [|exists []; rewrite app_nil_r; reflexivity].
  destruct (IH o (log ++ [EvDrop a v (mem_read m (a + value_offset t (vt v)) (lsize (vt v)))])) as [x ->].
  eexists. rewrite <- app_assoc. reflexivity.
Qed.

Lemma pop_log t vt boom m : forall n c log, exists x, fst (pop_loop t vt boom m n c log) = log ++ x.
Proof.
  induction n as [|n IH]; intros [[a v]|] log; cbn [pop_loop fst]; try (exists []; rewrite app_nil_r; reflexivity).
  destruct (boom _ _).
  - destruct (unwind_log t vt boom m n None (log ++ [EvDrop a v (mem_read m (a + value_offset t (vt v)) (lsize (vt v)))])) as [x X].
    destruct (unwind_loop _ _ _ _ _ _ _) as [g []]; cbn [fst] in *; rewrite X, <- app_assoc; eexists; reflexivity.
  - destruct (load_link t m a); [|exists []; rewrite app_nil_r; reflexivity].
    destruct (IH o (log ++ [EvDrop a v (mem_read m (a + value_offset t (vt v)) (lsize (vt v)))])) as [x ->]. eexists. rewrite <- app_assoc. reflexivity.
Qed.

Lemma inner_pop_log t vt boom s : exists x, elog (fst (inner_pop_all t vt boom s)) = elog s ++ x.
Proof.
  unfold inner_pop_all. destruct (pop_log t vt boom (ebytes s) (length (elog s)) (etop s) (elog s)) as [x X].
  destruct (pop_loop _ _ _ _ _ _ _) as [g r]. cbn [fst] in X. subst g.
  destruct r; [destruct (emem_deref t s)|..]; cbn [fst elog]; rewrite <- app_assoc; eexists; reflexivity.
Qed.

Lemma eslot_log t s l : elog (fst (eslot t s l)) = elog s.
Proof. unfold eslot. destruct (emem_deref t s); [|reflexivity]. destruct (u_bump_box _ _ _) as [u [[]|]]; reflexivity. Qed.

Lemma estep_log t vt boom s o : exists x, elog (fst (estep t vt boom s o)) = elog s ++ x.
Proof.
  assert (N : exists x, elog s = elog s ++ x) by (exists []; rewrite app_nil_r; reflexivity).
  unfold estep. destruct (egone s); [exact N|]. destruct o as [v|j|j bs|j bs|j| |v bs|].
  - pose proof (eslot_log t s (vt v)) as L. destruct (eslot t s (vt v)) as [s' [[a|]|k]]; cbn [fst with_toks elog] in *; rewrite L; exact N.
  - destruct (nth_error (etoks s) j) as [[? ? []]|]; exact N.
  - destruct (nth_error (etoks s) j) as [[? ? []]|]; try exact N. destruct (_ =? _); [eexists; reflexivity|exact N].
  - destruct (nth_error (etoks s) j) as [[? ? []]|]; try exact N. destruct (_ =? _); [eexists; reflexivity|exact N].
  - destruct (nth_error (etoks s) j) as [[? ? []]|]; exact N.
  - pose proof (inner_pop_log t vt boom s) as L. destruct (inner_pop_all t vt boom s). exact L.
  - destruct (negb _); [exact N|]. destruct (inner_pop_log t vt boom s) as [x L]. destruct (inner_pop_all t vt boom s) as [s1 r]. cbn [fst] in L.
    assert (M : forall y, exists z, elog s1 ++ y = elog s ++ z) by (intros y; rewrite L, <- app_assoc; eexists; reflexivity).
    assert (M0 : exists z, elog s1 = elog s ++ z) by (exists x; exact L).
    destruct r; cbn [fst]; auto; try apply (M [EvArg v bs]).
    pose proof (eslot_log t s1 (vt v)) as L1. destruct (eslot t s1 (vt v)) as [s2 [[a|]|k]]; cbn [fst drop_arg epin elog] in *; rewrite L1; apply M.
  - pose proof (inner_pop_log t vt boom s) as L. destruct (inner_pop_all t vt boom s). exact L.
Qed.

Lemma erun_log t vt boom : forall os s, exists x, elog (fst (erun t vt boom s os)) = elog s ++ x.
Proof.
  induction os as [|o os IH]; intros s; cbn [erun fst]; [exists []; rewrite app_nil_r; reflexivity|].
  destruct (estep_log t vt boom s o) as [x X]. destruct (estep t vt boom s o) as [s1 r]. cbn [fst] in X.
  destruct (IH s1) as [y Y]. destruct (erun t vt boom s1 os) as [s2 rs]. cbn [fst] in *. rewrite Y, X, <- app_assoc. eexists; reflexivity.
Qed.
