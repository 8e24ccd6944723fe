(** * ExitRefProofs *)
From Verif Require Import Base Spec BaseFacts SyncModel SyncSpec SyncProofs SyncMemModel SyncMemSpec SyncMemProofs UnsyncModel UnsyncSpec UnsyncProofs ExitModel ExitSpec ExitProofs ExitRefSpec.
From Coq Require Import Permutation.

Definition irel (t : target) (vt : Z -> layout) (base : Z) (lm : layout) (s : estate) (i : ideal) : Prop :=
  (exists lost, einv t vt base lm s (ivals i) lost) /\
  eindex s = iused i /\ etoks s = itoks i /\ elog s = ilog i /\ egone s = igone i.

(** What one step must establish beside the invariant. *)
Definition matches (s : estate) (i : ideal) : Prop :=
  eindex s = iused i /\ etoks s = itoks i /\ elog s = ilog i /\ egone s = igone i /\ exists lost, history (ilog i) (ivals i) lost.

Lemma matches_rel t vt base lm s i st lost : einv t vt base lm s st lost -> matches s i -> irel t vt base lm s i.
Proof.
  intros H (A & B & C & D & lost' & E). split; [|auto]. exists lost.
  rewrite <- C in E. destruct (history_unique _ _ _ (ei_hist _ _ _ _ _ _ _ H) _ _ E) as [<- _]. exact H.
Qed.

Lemma usable_iff t lm : usable_stack t lm = true <-> can_deref t lm.
Proof. unfold usable_stack, can_deref, pin_layout. cbn [lalign]. destruct (debug t); cbn [negb orb]; split; intros; lia. Qed.

Lemma usable_not t lm : usable_stack t lm = false <-> ~ can_deref t lm.
Proof. rewrite <- usable_iff. destruct (usable_stack t lm); split; try discriminate; auto; intros H; exfalso; auto. Qed.

Lemma room_eq t base lm : room t base lm = data_block t base lm.
Proof. reflexivity. Qed.

Lemma i_slot_spec t vt base lm s st lost l : valid_target t -> stack_ok t base lm -> einv t vt base lm s st lost -> type_layout t l -> type_layout t (pin_layout t l) ->
  eslot t s l = (match i_slot t base lm l (eindex s) with Ret (Some a) => with_index s (used_after t base lm l a) | _ => s end,
                 i_slot t base lm l (eindex s)).
Proof.
  intros Ht Hs H Hl Hp. destruct (eslot_spec t vt base lm s st lost l Ht Hs H Hl Hp) as (S1 & S2 & S3).
  unfold i_slot, used_after. rewrite !room_eq in *. destruct (usable_stack t lm) eqn:U; cbn [negb].
  - apply usable_iff in U. pose proof (valid_layout_align t _ (proj1 Hp)) as A.
    pose proof (fits_in_iff (data_block t base lm) (eindex s) (pin_layout t l) A) as F.
    set (a := align_up _ _) in *.
    destruct (Z.leb_spec (a + lsize (pin_layout t l)) (start (data_block t base lm) + size (data_block t base lm))) as [L|L].
    + destruct (S2 U) as (a' & A1 & A2 & E); [apply F; exact L|]. rewrite E.
      assert (a' = a). { pose proof (align_up_first (start (data_block t base lm) + eindex s) (lalign (pin_layout t l)) A) as A3. fold a in A3.
        destruct A1 as (B1 & B2 & B3), A3 as (C1 & C2 & C3). apply Z.le_antisymm; auto. }
      subst a'. reflexivity.
    + rewrite S3; [reflexivity|exact U|]. intros W. apply F in W. fold a in W. lia.
  - apply usable_not in U. rewrite (S1 U). reflexivity.
Qed.

Lemma i_drops_quiet boom vals : quiet boom vals -> i_drops boom vals = (map drop_of vals, false).
Proof. induction 1 as [|e vals Q F IH]; cbn; [reflexivity|]. rewrite Q, IH. reflexivity. Qed.

Lemma i_drops_boom boom e s2 : forall s1, quiet boom s1 -> boom (en_vt e) (en_bytes e) = true -> i_drops boom (s1 ++ e :: s2) = (map drop_of (s1 ++ [e]), true).
Proof. induction 1 as [|x vals Q F IH]; cbn; intros B; [rewrite B; reflexivity|]. rewrite Q, (IH B). reflexivity. Qed.

Lemma i_pop_spec t vt boom base lm s i : valid_target t -> stack_ok t base lm -> irel t vt base lm s i ->
  snd (inner_pop_all t vt boom s) = snd (i_pop t lm boom i) /\
  (exists k, snd (i_pop t lm boom i) = PopPanic k \/ snd (i_pop t lm boom i) = PopDone) /\
  ivals (fst (i_pop t lm boom i)) = [] /\ itoks (fst (i_pop t lm boom i)) = [] /\ igone (fst (i_pop t lm boom i)) = igone i /\
  matches (fst (inner_pop_all t vt boom s)) (fst (i_pop t lm boom i)).
Proof.
  intros Ht Hs ([lost H] & A & B & C & D). destruct (inner_pop_all_spec t vt boom base lm s (ivals i) lost Ht Hs H) as (P1 & P2 & P3).
  pose proof (ei_hist _ _ _ _ _ _ _ H) as HH. rewrite C in HH. unfold i_pop.
  destruct (quiet_or_boom boom (ivals i)) as [Q|(s1 & e & s2 & E & Q & BM)].
  - assert (HD : history (ilog i ++ map drop_of (ivals i)) [] lost) by (apply history_drops; rewrite app_nil_r; exact HH).
    rewrite (i_drops_quiet _ _ Q). destruct (usable_stack t lm) eqn:U.
    + apply usable_iff in U. rewrite (P1 Q U). cbn. split; [reflexivity|]. split; [eexists 0%nat; auto|]. split; [reflexivity|]. split; [reflexivity|]. split; [reflexivity|].
      unfold matches. cbn. rewrite C. do 4 (split; [auto|]). exists lost. rewrite app_assoc. constructor. exact HD.
    + apply usable_not in U. rewrite (P2 Q U). cbn. split; [reflexivity|]. split; [eauto|]. split; [reflexivity|]. split; [reflexivity|]. split; [reflexivity|].
      unfold matches. cbn. rewrite C. do 4 (split; [auto|]). exists ([] ++ lost). rewrite app_assoc. constructor. exact HD.
  - rewrite (P3 s1 e s2 E Q BM). rewrite E, (i_drops_boom _ _ _ _ Q BM). cbn [fst snd popped].
    split; [reflexivity|]. split; [eauto|]. split; [reflexivity|]. split; [reflexivity|]. split; [reflexivity|].
    unfold matches. cbn [popped eindex etoks elog egone iused ivals itoks ilog igone]. rewrite C. do 4 (split; [auto|]). exists (s2 ++ lost).
    rewrite app_assoc. constructor. apply history_drops. rewrite <- app_assoc. cbn [app]. rewrite <- E. exact HH.
Qed.

(** Addresses of live values are distinct. *)
Lemma addr_unique t vt base lm s st1 e st2 lost : valid_target t -> einv t vt base lm s (st1 ++ e :: st2) lost -> ~ In (en_addr e) (map en_addr (st1 ++ st2)).
Proof.
  intros Ht H X. apply in_map_iff in X. destruct X as (x & X1 & X2).
  pose proof (ei_disj _ _ _ _ _ _ _ H) as DJ.
  assert (PM : Permutation (used_blocks t vt (st1 ++ e :: st2) (etoks s)) (entry_block t vt e :: used_blocks t vt (st1 ++ st2) (etoks s))).
  { unfold used_blocks. rewrite !map_app. cbn [map]. rewrite <- !app_assoc. apply Permutation_sym. cbn [app]. apply Permutation_middle. }
  apply (pairwise_perm _ _ _ disjoint_sym PM) in DJ. apply pairwise_cons_inv in DJ. destruct DJ as [DJ _].
  unfold used_blocks in DJ. apply Forall_app in DJ. destruct DJ as [DJ _]. rewrite Forall_forall in DJ.
  pose proof (DJ _ (in_map (entry_block t vt) _ _ X2)) as D.
  pose proof (ei_entries _ _ _ _ _ _ _ H) as F. rewrite Forall_forall in F.
  assert (IX : In x (st1 ++ e :: st2)) by (apply in_app_or in X2; apply in_or_app; cbn; tauto).
  destruct (F x IX) as (_ & XL & _). destruct (F e (in_elt _ _ _)) as (_ & EL & _).
  destruct (voff_facts t _ Ht XL) as (_ & _ & _ & XP). destruct (voff_facts t _ Ht EL) as (_ & _ & _ & EP).
  apply (D (en_addr e)). unfold in_block, entry_block, slot_block. cbn [start size]. lia.
Qed.

Lemma set_bytes_off a bs vals : ~ In a (map en_addr vals) -> i_set_bytes a bs vals = vals.
Proof.
  induction vals as [|e vals IH]; intros N; cbn in *; [reflexivity|]. destruct (Z.eqb_spec (en_addr e) a) as [E|E]; [tauto|]. f_equal. apply IH. tauto.
Qed.

Lemma set_bytes_at st1 e st2 bs : ~ In (en_addr e) (map en_addr (st1 ++ st2)) ->
  i_set_bytes (en_addr e) bs (st1 ++ e :: st2) = st1 ++ MkEntry (en_addr e) (en_vt e) bs :: st2.
Proof.
  intros N. rewrite map_app in N. unfold i_set_bytes. rewrite map_app. cbn [map]. rewrite Z.eqb_refl.
  fold (i_set_bytes (en_addr e) bs st1). fold (i_set_bytes (en_addr e) bs st2). rewrite !set_bytes_off; [reflexivity| |]; intros X; apply N; apply in_or_app; auto.
Qed.

Lemma find_at st1 e st2 : ~ In (en_addr e) (map en_addr (st1 ++ st2)) -> find (fun x => en_addr x =? en_addr e) (st1 ++ e :: st2) = Some e.
Proof.
  induction st1 as [|x st1 IH]; cbn; intros N; [rewrite Z.eqb_refl; reflexivity|]. destruct (Z.eqb_spec (en_addr x) (en_addr e)); [tauto|]. apply IH. tauto.
Qed.

Lemma step_matches t vt boom base lm s i o : valid_target t -> stack_ok t base lm -> irel t vt base lm s i -> eop_ok t vt o ->
  snd (estep t vt boom s o) = snd (i_step t base lm vt boom i o) /\ matches (fst (estep t vt boom s o)) (fst (i_step t base lm vt boom i o)).
Proof.
  intros Ht Hs R Ho. pose proof R as ([lost H] & A & B & C & D).
  pose proof (ei_hist _ _ _ _ _ _ _ H) as HH. rewrite C in HH.
  assert (M : matches s i) by (unfold matches; eauto 6).
  unfold estep, i_step. rewrite D. destruct (igone i) eqn:G; [auto|]. destruct o as [v|j|j bs|j bs|j| |v bs|].
  - destruct Ho as (V1 & V2 & V3). rewrite (i_slot_spec t vt base lm s (ivals i) lost (vt v) Ht Hs H V2 V3), A.
    destruct (i_slot t base lm (vt v) (iused i)) as [[a|]|k]; cbn [fst snd]; auto. split; [reflexivity|].
    unfold matches. cbn. rewrite B, C, D. eauto 8.
  - rewrite B. destruct (nth_error (itoks i) j) as [[a v []]|]; cbn [fst snd]; auto. split; [reflexivity|].
    unfold matches. cbn. rewrite C, D. eauto 8.
  - rewrite B. destruct (nth_error (itoks i) j) as [[a v []]|]; cbn [fst snd]; auto.
    destruct (_ =? _); cbn [fst snd]; auto. split; [reflexivity|]. unfold matches, epin, i_pin. cbn [eindex etoks elog egone iused ivals itoks ilog igone]. rewrite C, D, G.
    do 4 (split; [auto|]). exists lost. constructor. exact HH.
  - rewrite B. destruct (nth_error (itoks i) j) as [[a v []]|] eqn:N; cbn [fst snd]; auto.
    destruct (_ =? _); cbn [fst snd]; auto. split; [reflexivity|]. unfold matches. cbn [eindex etoks elog egone iused ivals itoks ilog igone]. rewrite C.
    do 4 (split; [auto|]). exists lost.
    pose proof (ei_pinned _ _ _ _ _ _ _ H) as PI. rewrite Forall_forall in PI. rewrite B in PI.
    destruct (PI _ (nth_error_In _ _ N) eq_refl) as (e & E1 & E2 & E3). cbn [taddr tvt] in E2, E3. subst a v.
    apply in_split in E1. destruct E1 as (st1 & st2 & E1). rewrite E1 in *.
    pose proof (addr_unique t vt base lm s st1 e st2 lost Ht H) as AU. rewrite (set_bytes_at _ _ _ _ AU).
    rewrite map_app in AU. destruct e as [a v b0]. cbn [en_addr en_vt] in *. apply (HWrite _ st1 st2 lost a v b0 bs HH).
    intros X. apply AU. apply in_or_app. auto.
  - rewrite B. destruct (nth_error (itoks i) j) as [[a v []]|] eqn:N; cbn [fst snd]; auto.
    pose proof (ei_pinned _ _ _ _ _ _ _ H) as PI. rewrite Forall_forall in PI. rewrite B in PI.
    destruct (PI _ (nth_error_In _ _ N) eq_refl) as (e & E1 & E2 & E3). cbn [taddr tvt] in E2, E3. subst a v.
    pose proof (ei_entries _ _ _ _ _ _ _ H) as F. rewrite Forall_forall in F. destruct (F e E1) as (_ & _ & _ & _ & RD).
    apply in_split in E1. destruct E1 as (st1 & st2 & E1). rewrite E1 in *.
    rewrite (find_at _ _ _ (addr_unique t vt base lm s st1 e st2 lost Ht H)). cbn [fst snd]. rewrite RD. auto.
  - destruct (i_pop_spec t vt boom base lm s i Ht Hs R) as (P1 & _ & _ & _ & _ & P2).
    destruct (inner_pop_all t vt boom s) as [s1 r], (i_pop t lm boom i) as [i1 r1]. cbn [fst snd] in *. rewrite P1. auto.
  - destruct Ho as (V1 & V2 & V3). rewrite (ei_lay _ _ _ _ _ _ _ H).
    destruct (negb _) eqn:NB; [auto|]. apply negb_false_iff in NB. apply andb_true_iff in NB. destruct NB as [NB1 NB2]. apply layout_eqb_eq in NB1.
    destruct (i_pop_spec t vt boom base lm s i Ht Hs R) as (P1 & (k & P2) & P3 & P4 & P6 & P5).
    destruct (inner_pop_all_inv t vt boom base lm s (ivals i) lost Ht Hs H) as [lost' I].
    destruct (inner_pop_all t vt boom s) as [s1 r], (i_pop t lm boom i) as [i1 r1]. cbn [fst snd] in *. subst r.
    assert (AG : forall k, snd (drop_arg boom s1 v bs k) = snd (i_arg boom i1 v bs k) /\ matches (fst (drop_arg boom s1 v bs k)) (fst (i_arg boom i1 v bs k))).
    { intros k0. split; [reflexivity|]. destruct P5 as (Q1 & Q2 & Q3 & Q4 & l0 & Q5). unfold matches, drop_arg, i_arg. cbn. rewrite Q3.
      do 4 (split; [auto|]). exists l0. constructor. exact Q5. }
    destruct P2 as [-> | ->]; [apply AG|].
    pose proof (i_slot_spec t vt base lm s1 [] lost' (vt v) Ht Hs I V2 V3) as SL. rewrite NB1 in SL |- *. rewrite SL.
    destruct P5 as (Q1 & Q2 & Q3 & Q4 & l0 & Q5). rewrite Q1.
    destruct (i_slot t base lm lm (iused i1)) as [[a|]|k1]; [|apply AG|apply AG].
    cbn [fst snd]. split; [reflexivity|]. unfold matches, epin, i_pin. cbn [with_index eindex etoks elog egone iused ivals itoks ilog igone].
    rewrite Q2, Q3, P4. cbn [app]. split; [reflexivity|]. split; [reflexivity|]. split; [reflexivity|]. split.
    + rewrite Q4, P6. exact G.
    + exists l0. constructor. exact Q5.
  - destruct (i_pop_spec t vt boom base lm s i Ht Hs R) as (P1 & _ & P3 & P4 & _ & P2).
    destruct (inner_pop_all t vt boom s) as [s1 r], (i_pop t lm boom i) as [i1 r1]. cbn [fst snd] in *. rewrite P1. split; [reflexivity|].
    destruct P2 as (Q1 & Q2 & Q3 & Q4 & l0 & Q5). unfold matches. cbn. eauto 8.
Qed.

Lemma step_rel t vt boom base lm s i o : valid_target t -> stack_ok t base lm -> irel t vt base lm s i -> eop_ok t vt o ->
  snd (estep t vt boom s o) = snd (i_step t base lm vt boom i o) /\ irel t vt base lm (fst (estep t vt boom s o)) (fst (i_step t base lm vt boom i o)).
Proof.
  intros Ht Hs R Ho. destruct (step_matches t vt boom base lm s i o Ht Hs R Ho) as [E M]. split; [exact E|].
  destruct R as ([lost H] & _). destruct (estep_inv t vt boom base lm s (ivals i) lost o Ht Hs H Ho) as (st' & lost' & I'). eapply matches_rel; eauto.
Qed.

(** ** Other writes *)
Lemma whole_slots t vt base lm s st lost b : valid_target t -> stack_ok t base lm -> einv t vt base lm s st lost -> disjoint b (whole t base lm) ->
  Forall (fun e => disjoint b (entry_block t vt e)) st.
Proof.
  intros Ht Hs H D. destruct (data_ok t base lm Ht Hs) as (_ & DI & _).
  pose proof (ei_below _ _ _ _ _ _ _ H) as BL. unfold used_blocks in BL. apply Forall_app in BL. destruct BL as [BL _].
  pose proof (ei_ok _ _ _ _ _ _ _ H) as [_ EI]. cbn [slab_of storage consumed udata uindex data_block size] in EI.
  rewrite Forall_forall in *. intros e E x [X1 X2]. destruct (BL _ (in_map (entry_block t vt) _ _ E)) as [B1 B2].
  apply (D x). split; [exact X1|]. apply DI. unfold in_block, data_block in *. cbn [start size] in *. lia.
Qed.

Lemma elsewhere_rel t vt base lm s i a bs : valid_target t -> stack_ok t base lm -> irel t vt base lm s i ->
  disjoint (MkBlock a (Z.of_nat (length bs))) (whole t base lm) ->
  irel t vt base lm (MkE (ebase s) (emlay s) (eindex s) (etop s) (mem_write (ebytes s) a bs) (etoks s) (elog s) (egone s)) i.
Proof.
  intros Ht Hs ([lost H] & A & B & C & D) DJ. split; [|cbn; auto]. exists lost.
  pose proof (whole_slots t vt base lm s _ _ _ Ht Hs H DJ) as W.
  assert (HO := mem_write_outside (ebytes s) a bs (Z.of_nat (length bs)) ltac:(lia)).
  constructor; cbn [elog ebase emlay etop ebytes etoks eindex]; try apply H.
  - apply (chain_frame t vt (ebytes s) _ _ Ht HO); [apply H|exact W|apply H].
  - pose proof (ei_entries _ _ _ _ _ _ _ H) as F. rewrite Forall_forall in *. intros e E. eapply entry_frame; eauto.
Qed.

(** ** Only bytes of the stack are written *)
Lemma epin_frame t vt base lm s st lost a v bs toks : valid_target t -> stack_ok t base lm -> einv t vt base lm s st lost ->
  type_layout t (vt v) -> Z.of_nat (length bs) = lsize (vt v) -> below_level t base (eindex s) (slot_block t vt a v) ->
  same_outside (whole t base lm) (ebytes s) (ebytes (epin t vt s a v bs toks)).
Proof.
  intros Ht Hs H V LB [B1 B2] x X. cbn [epin ebytes]. apply pin_mem_outside; auto. intros Y. apply X.
  destruct (data_ok t base lm Ht Hs) as (_ & DI & _). apply DI.
  pose proof (ei_ok _ _ _ _ _ _ _ H) as [_ EI]. cbn [slab_of storage consumed udata uindex data_block size] in EI.
  unfold in_block, slot_block, data_block in *. cbn [start size] in *. lia.
Qed.

Lemma inner_pop_bytes t vt boom s : ebytes (fst (inner_pop_all t vt boom s)) = ebytes s.
Proof. unfold inner_pop_all. destruct (pop_loop _ _ _ _ _ _ _) as [g r]. destruct r; [destruct (emem_deref t s)|..]; reflexivity. Qed.

Lemma eslot_bytes t s l : ebytes (fst (eslot t s l)) = ebytes s.
Proof. unfold eslot. destruct (emem_deref t s); [|reflexivity]. destruct (u_bump_box _ _ _) as [u [[]|]]; reflexivity. Qed.

Lemma step_frame t vt boom base lm s st lost o : valid_target t -> stack_ok t base lm -> einv t vt base lm s st lost -> eop_ok t vt o ->
  same_outside (whole t base lm) (ebytes s) (ebytes (fst (estep t vt boom s o))).
Proof.
  intros Ht Hs H Ho. assert (N : same_outside (whole t base lm) (ebytes s) (ebytes s)) by (intros x X; reflexivity).
  unfold estep. destruct (egone s); [exact N|]. destruct o as [v|j|j bs|j bs|j| |v bs|].
  - pose proof (eslot_bytes t s (vt v)) as L. destruct (eslot t s (vt v)) as [s' [[a|]|k]]; cbn [fst with_toks ebytes] in *; rewrite L; exact N.
  - destruct (nth_error (etoks s) j) as [[? ? []]|]; exact N.
  - destruct (nth_error (etoks s) j) as [[a v []]|] eqn:NT; try exact N. destruct (Z.eqb_spec (Z.of_nat (length bs)) (lsize (vt v))) as [LB|LB]; [|exact N].
    cbn [fst]. pose proof (nth_error_In _ _ NT) as NI. pose proof (ei_toks _ _ _ _ _ _ _ H) as TK. rewrite Forall_forall in TK. destruct (TK _ NI) as (_ & V2 & _). cbn [tvt] in V2.
    apply (epin_frame t vt base lm s st lost); auto.
    pose proof (ei_below _ _ _ _ _ _ _ H) as BL. rewrite Forall_forall in BL. apply BL. unfold used_blocks. apply in_or_app. right.
    change (slot_block t vt a v) with (tok_block t vt (MkET a v false)). apply in_map. unfold open_toks. apply filter_In. auto.
  - destruct (nth_error (etoks s) j) as [[a v []]|] eqn:NT; try exact N. destruct (Z.eqb_spec (Z.of_nat (length bs)) (lsize (vt v))) as [LB|LB]; [|exact N].
    cbn [fst ebytes]. intros x X. apply (mem_write_outside (ebytes s) (a + value_offset t (vt v)) bs (lsize (vt v)) ltac:(lia)). intros Y. apply X.
    pose proof (nth_error_In _ _ NT) as NI. pose proof (ei_pinned _ _ _ _ _ _ _ H) as PI. rewrite Forall_forall in PI.
    destruct (PI _ NI eq_refl) as (e & E1 & E2 & E3). cbn [taddr tvt] in E2, E3. subst a v.
    pose proof (ei_entries _ _ _ _ _ _ _ H) as F. rewrite Forall_forall in F. destruct (F e E1) as (_ & EL & _). destruct (voff_facts t _ Ht EL) as (F1 & F2 & F3 & F4).
    pose proof (ei_below _ _ _ _ _ _ _ H) as BL. unfold used_blocks in BL. apply Forall_app in BL. destruct BL as [BL _]. rewrite Forall_forall in BL.
    destruct (BL _ (in_map (entry_block t vt) _ _ E1)) as [B1 B2]. unfold entry_block, slot_block in B1, B2. cbn [start size] in B1, B2.
    destruct (data_ok t base lm Ht Hs) as (_ & DI & _). apply DI. pose proof (word_pos t Ht).
    pose proof (ei_ok _ _ _ _ _ _ _ H) as [_ EI]. cbn [slab_of storage consumed udata uindex data_block size] in EI.
    unfold in_block, data_block in *. cbn [start size] in *. lia.
  - destruct (nth_error (etoks s) j) as [[? ? []]|]; exact N.
  - pose proof (inner_pop_bytes t vt boom s) as L. destruct (inner_pop_all t vt boom s). cbn [fst] in *. rewrite L. exact N.
  - destruct (negb _) eqn:NB; [exact N|]. apply negb_false_iff in NB. apply andb_true_iff in NB. destruct NB as [NB1 NB2]. destruct Ho as (V1 & V2 & V3).
    destruct (inner_pop_all_inv t vt boom base lm s st lost Ht Hs H) as [lost' I].
    pose proof (inner_pop_bytes t vt boom s) as L. destruct (inner_pop_all t vt boom s) as [s1 r]. cbn [fst] in L, I.
    destruct r; cbn [fst drop_arg ebytes]; try (rewrite L; exact N).
    destruct (eslot_spec t vt base lm s1 [] lost' (vt v) Ht Hs I V2 V3) as (S1 & S2 & S3).
    destruct (can_deref_dec t lm) as [CD|CD]; [|rewrite (S1 CD); cbn [fst drop_arg ebytes]; rewrite L; exact N].
    destruct (fitsb (data_block t base lm) (eindex s1) (pin_layout t (vt v))) eqn:FB.
    + apply (fitsb_iff t _ _ _ (proj1 V3)) in FB. destruct (S2 CD FB) as (a & A1 & A2 & ->). cbn [fst].
      destruct (slot_new t vt base lm s1 [] lost' v a Ht Hs I V2 V3 A1 A2) as (I2 & _ & BB & _).
      rewrite <- L. change (ebytes s1) with (ebytes (with_index s1 (a + lsize (pin_layout t (vt v)) - start (data_block t base lm)))).
      apply (epin_frame t vt base lm _ [] lost'); auto. lia.
    + rewrite S3; [cbn [fst drop_arg ebytes]; rewrite L; exact N|exact CD|]. intros W. apply (fitsb_iff t _ _ _ (proj1 V3)) in W. congruence.
  - pose proof (inner_pop_bytes t vt boom s) as L. destruct (inner_pop_all t vt boom s). cbn [fst ebytes] in *. rewrite L. exact N.
Qed.

Lemma mem_write_same (m m' : mem) a bs x : m' x = m x -> mem_write m' a bs x = mem_write m a bs x.
Proof. intros E. unfold mem_write. destruct (_ && _); [reflexivity|exact E]. Qed.

Lemma run_rel_ideal t vt boom base lm : valid_target t -> stack_ok t base lm -> forall xs, Forall (xact_ok t base lm vt) xs ->
  forall s i m, irel t vt base lm s i -> same_outside (whole t base lm) m (ebytes s) ->
  let r := x_run t vt boom s xs in let ri := i_run t base lm vt boom i (calls xs) in
  snd r = snd ri /\ irel t vt base lm (fst r) (fst ri) /\ same_outside (whole t base lm) (others m xs) (ebytes (fst r)).
Proof.
  intros Ht Hs. induction xs as [|x xs IH]; intros Ho s i m R S; cbn [x_run i_run calls flat_map others fold_left]; [auto|].
  inversion Ho as [|? ? O1 O2]; subst. destruct x as [o|a bs]; cbn [x_step flat_map app i_run] in *.
  - destruct (step_rel t vt boom base lm s i o Ht Hs R O1) as [E R'].
    assert (S' : same_outside (whole t base lm) m (ebytes (fst (estep t vt boom s o)))).
    { destruct R as ([lost H] & _). pose proof (step_frame t vt boom base lm s _ _ o Ht Hs H O1) as SF. intros y Y. rewrite (SF y Y). apply S. exact Y. }
    destruct (estep t vt boom s o) as [s1 r]. destruct (i_step t base lm vt boom i o) as [i1 r1]. cbn [fst snd] in *. subst r1.
    specialize (IH O2 s1 i1 m R' S'). fold (calls xs). fold (others m xs). cbn zeta in IH.
    destruct (x_run t vt boom s1 xs) as [s2 rs], (i_run t base lm vt boom i1 (calls xs)) as [i2 rs']. cbn [fst snd] in *. destruct IH as (-> & R2 & S2). auto.
  - pose proof (elsewhere_rel t vt base lm s i a bs Ht Hs R O1) as R'.
    fold (calls xs). fold (others (mem_write m a bs) xs).
    specialize (IH O2 _ i (mem_write m a bs) R'). cbn [ebytes] in IH. cbn zeta in IH.
    assert (S' : same_outside (whole t base lm) (mem_write m a bs) (mem_write (ebytes s) a bs)) by (intros y Y; apply mem_write_same, S; exact Y).
    specialize (IH S'). destruct (x_run _ _ _ _ xs) as [s2 rs]. exact IH.
Qed.

Lemma new_rel t vt base lm m : valid_target t -> stack_ok t base lm -> irel t vt base lm (enew base lm m) ideal_new.
Proof. intros Ht Hs. split; [|cbn; auto]. exists []. apply enew_inv; auto. Qed.
