(** * PropsExit: C57-C60, ExitStack. *)
From Verif Require Import Base Spec BaseFacts SyncModel SyncSpec SyncProofs SyncMemModel UnsyncModel UnsyncProofs ExitModel ExitSpec ExitProofs PropsSync.
From Coq Require Import Permutation.

Lemma can_deref_iff t lm : can_deref t lm <-> debug t = false \/ lalign lm <= usize_align t.
Proof. unfold can_deref, pin_layout. cbn [lalign]. lia. Qed.

Ltac reach_inv H st lost Iv := 
  let st0 := fresh in let lost0 := fresh in
  destruct (exit_reach_inv _ _ _ _ _ _ _ _ H) as (st0 & lost0 & Iv);
  match goal with K : history _ st lost |- _ => destruct (history_unique _ _ _ (ei_hist _ _ _ _ _ _ _ Iv) _ _ K); subst st0 lost0 end.

(** C57. Whatever is called, the values behave as on a stack: [history] determines which values are live; each value
    pinned was dropped once, is live, or was on the stack when a panic left pop_all. *)
Theorem C57_history : forall t vt boom base lm m os s, exit_reach t vt boom base lm m os s ->
  exists st lost, history (elog s) st lost /\ (forall st' lost', history (elog s) st' lost' -> st' = st /\ lost' = lost) /\
    Permutation (pins (elog s)) (drops (elog s) ++ map who st ++ map who lost) /\
    (~ In EvUnwound (elog s) -> lost = []).
Proof.
  intros t vt boom base lm m os s H. destruct (exit_reach_inv _ _ _ _ _ _ _ _ H) as (st & lost & Iv). pose proof (ei_hist _ _ _ _ _ _ _ Iv) as HH.
  exists st, lost. split; [exact HH|]. split; [intros st' lost' H'; destruct (history_unique _ _ _ HH _ _ H'); auto|].
  split; [apply history_accounts; exact HH|]. intros N. destruct lost as [|e lost]; [reflexivity|]. exfalso. apply N. eapply history_lost; [exact HH|discriminate].
Qed.
Print Assumptions C57_history.

(** [pop_all] and dropping the stack drop exactly the live values, last pinned first, each with its current bytes, and only
    then free the memory; afterwards nothing is live. *)
Theorem C57_pop_all : forall t vt boom base lm m os s st lost, exit_reach t vt boom base lm m os s -> egone s = false ->
  history (elog s) st lost -> quiet boom st -> debug t = false \/ lalign lm <= usize_align t ->
  forall o, o = EPopAll \/ o = EDropStack ->
  let s' := fst (estep t vt boom s o) in
  snd (estep t vt boom s o) = EADone /\ elog s' = elog s ++ map drop_of st ++ [EvReset] /\ history (elog s') [] lost /\ etoks s' = [].
Proof.
  intros t vt boom base lm m os s st lost H G HH Q C o O s'. reach_inv H st lost Iv. apply can_deref_iff in C. pose proof H as (Ht & Hs & _).
  destruct (inner_pop_all_spec t vt boom base lm s st lost Ht Hs Iv) as (P & _). specialize (P Q C).
  assert (D : history (elog s ++ map drop_of st ++ [EvReset]) [] lost).
  { rewrite app_assoc. constructor. apply history_drops. rewrite app_nil_r. exact HH. }
  unfold s', estep. rewrite G. destruct O as [-> | ->]; rewrite P; cbn; auto.
Qed.
Print Assumptions C57_pop_all.

(** A value that was pinned stays where it is, and shows the bytes last written to it; pinning puts it on top. *)
Theorem C57_pinned : forall t vt boom base lm m os s st lost j, exit_reach t vt boom base lm m os s -> egone s = false ->
  history (elog s) st lost ->
  (forall a v, nth_error (etoks s) j = Some (MkET a v true) ->
     exists e, In e st /\ who e = (a, v) /\ estep t vt boom s (EPeek j) = (s, EABytes (en_bytes e))) /\
  (forall a v bs, nth_error (etoks s) j = Some (MkET a v false) -> Z.of_nat (length bs) = lsize (vt v) ->
     let s' := fst (estep t vt boom s (EPin j bs)) in
     snd (estep t vt boom s (EPin j bs)) = EAPtr (a + value_offset t (vt v)) /\ elog s' = elog s ++ [EvPin a v bs] /\
     nth_error (etoks s') j = Some (MkET a v true) /\ history (elog s') (MkEntry a v bs :: st) lost).
Proof.
  intros t vt boom base lm m os s st lost j H G HH. reach_inv H st lost Iv. split.
  - intros a v N. pose proof (ei_pinned _ _ _ _ _ _ _ Iv) as P. rewrite Forall_forall in P.
    destruct (P _ (nth_error_In _ _ N) eq_refl) as (e & E1 & E2 & E3). cbn in E2, E3. exists e. split; [exact E1|]. unfold who. rewrite E2, E3. split; [reflexivity|].
    unfold estep. rewrite G, N. pose proof (ei_entries _ _ _ _ _ _ _ Iv) as F. rewrite Forall_forall in F. destruct (F e E1) as (_ & _ & _ & _ & R).
    rewrite E2, E3 in R. rewrite R. reflexivity.
  - intros a v bs N LB s'. unfold s', estep. rewrite G, N, LB, Z.eqb_refl. cbn [fst snd epin elog etoks]. split; [reflexivity|]. split; [reflexivity|].
    split; [eapply SyncMemProofs.nth_error_upd_same; exact N|constructor; exact HH].
Qed.
Print Assumptions C57_pinned.

(** C58. The destructor of [e] panics during pop_all: the values above and [e] itself are dropped once, the panic goes on to
    the caller, and the values below are lost: no later call, whatever it is, drops them. *)
Theorem C58_panicking_destructor : forall t vt boom base lm m os s s1 e s2 lost, exit_reach t vt boom base lm m os s -> egone s = false ->
  history (elog s) (s1 ++ e :: s2) lost -> quiet boom s1 -> boom (en_vt e) (en_bytes e) = true ->
  forall o, o = EPopAll \/ o = EDropStack ->
  let s' := fst (estep t vt boom s o) in
  snd (estep t vt boom s o) = EAPanic PE_destructor /\ elog s' = elog s ++ map drop_of s1 ++ [drop_of e; EvUnwound] /\
  history (elog s') [] (s2 ++ lost) /\
  forall os', Forall (eop_ok t vt) os' -> exists st' lost', history (elog (fst (erun t vt boom s' os'))) st' (lost' ++ s2 ++ lost).
Proof.
  intros t vt boom base lm m os s s1 e s2 lost H G HH Q B o O s'. reach_inv H (s1 ++ e :: s2) lost Iv. pose proof H as (Ht & Hs & Ho & _).
  destruct (inner_pop_all_spec t vt boom base lm s (s1 ++ e :: s2) lost Ht Hs Iv) as (_ & _ & P). specialize (P s1 e s2 eq_refl Q B).
  assert (EL : elog s ++ map drop_of (s1 ++ [e]) ++ [EvUnwound] = elog s ++ map drop_of s1 ++ [drop_of e; EvUnwound]).
  { rewrite map_app, <- app_assoc. reflexivity. }
  assert (D : history (elog s ++ map drop_of (s1 ++ [e]) ++ [EvUnwound]) [] (s2 ++ lost)).
  { rewrite app_assoc. apply HUnwound. apply history_drops. rewrite <- app_assoc. exact HH. }
  assert (L : elog s' = elog s ++ map drop_of s1 ++ [drop_of e; EvUnwound]).
  { unfold s', estep. rewrite G. destruct O as [-> | ->]; rewrite P; exact EL. }
  split; [unfold estep; rewrite G; destruct O as [-> | ->]; rewrite P; reflexivity|]. split; [exact L|]. split; [rewrite L, <- EL; exact D|].
  assert (OK : eop_ok t vt o) by (destruct O as [-> | ->]; exact Logic.I).
  intros os' Ho'. destruct (estep_inv t vt boom base lm s _ _ o Ht Hs Iv OK) as (st1 & lost1 & I1). fold s' in I1.
  destruct (erun_inv t vt boom base lm Ht Hs os' Ho' s' st1 lost1 I1) as (st2 & lost2 & I2).
  pose proof (ei_hist _ _ _ _ _ _ _ I2) as K. destruct (erun_log t vt boom os' s') as [x X]. rewrite X in K.
  destruct (history_extend _ _ _ _ K) as (sa & la & y & Y1 & ->).
  destruct (history_unique _ _ _ Y1 [] (s2 ++ lost)) as [_ ->]; [rewrite L, <- EL; exact D|]. exists st2, y. rewrite X. exact K.
Qed.
Print Assumptions C58_panicking_destructor.

(** In no history does the second panic abort the program through [pop_all]: the code that was to drop the remaining values
    never runs; and no call gets stuck. *)
Theorem C58_no_abort_in_pop : forall t vt boom base lm m os s o, exit_reach t vt boom base lm m os s -> eop_ok t vt o ->
  snd (estep t vt boom s o) <> EAStuck /\
  (snd (estep t vt boom s o) = EAAbort -> exists v bs, o = ESet v bs /\ boom v bs = true).
Proof.
  intros t vt boom base lm m os s o H O. destruct (exit_reach_inv _ _ _ _ _ _ _ _ H) as (st & lost & Iv). pose proof H as (Ht & Hs & _).
  destruct (inner_pop_all_spec t vt boom base lm s st lost Ht Hs Iv) as (P1 & P2 & P3).
  assert (P : exists s1 r, inner_pop_all t vt boom s = (s1, r) /\ (r = PopDone \/ exists k, r = PopPanic k)).
  { destruct (quiet_or_boom boom st) as [Q|(a & e & b & E & Q & B)]; [|rewrite (P3 a e b E Q B); eauto 6].
    destruct (can_deref_dec t lm) as [C|C]; [rewrite (P1 Q C)|rewrite (P2 Q C)]; eauto 6. }
  destruct P as (s1 & r & P & R). unfold estep. rewrite P. destruct (egone s); [split; intros; discriminate|].
  assert (T : forall v bs s2 k, snd (drop_arg boom s2 v bs k) <> EAStuck /\ (snd (drop_arg boom s2 v bs k) = EAAbort -> exists v' bs', ESet v bs = ESet v' bs' /\ boom v' bs' = true)).
  { intros v bs s2 k. unfold drop_arg. cbn [snd]. destruct (boom v bs) eqn:B; split; try discriminate. intros _. eauto. }
  destruct o as [v|j|j bs|j bs|j| |v bs|].
  - destruct (eslot t s (vt v)) as [? [[]|]]; cbn; split; discriminate.
  - destruct (nth_error (etoks s) j) as [[? ? []]|]; cbn; split; discriminate.
  - destruct (nth_error (etoks s) j) as [[? ? []]|]; try destruct (_ =? _); cbn; split; discriminate.
  - destruct (nth_error (etoks s) j) as [[? ? []]|]; try destruct (_ =? _); cbn; split; discriminate.
  - destruct (nth_error (etoks s) j) as [[? ? []]|]; cbn; split; discriminate.
  - destruct R as [-> | [k ->]]; cbn; split; discriminate.
  - destruct (negb _); [cbn; split; discriminate|]. destruct R as [-> | [k ->]]; [|apply T].
    destruct (eslot t s1 (vt v)) as [? [[]|]]; try apply T. cbn; split; discriminate.
  - destruct R as [-> | [k ->]]; cbn; split; discriminate.
Qed.
Print Assumptions C58_no_abort_in_pop.

(** C59. [set] always has room if Mem is not aligned more strictly than usize: it drops what is live, frees the memory and pins
    the new value; it is then the only live one. *)
Theorem C59_set : forall t vt boom base lm m os s st lost v bs, exit_reach t vt boom base lm m os s -> egone s = false ->
  history (elog s) st lost -> quiet boom st -> eop_ok t vt (ESet v bs) -> vt v = lm -> Z.of_nat (length bs) = lsize lm ->
  lalign lm <= usize_align t \/ (debug t = false /\ (lalign lm | word_bytes t)) ->
  let s' := fst (estep t vt boom s (ESet v bs)) in
  exists a, snd (estep t vt boom s (ESet v bs)) = EAPtr (a + value_offset t lm) /\
    elog s' = elog s ++ map drop_of st ++ [EvReset; EvPin a v bs] /\ history (elog s') [MkEntry a v bs] lost.
Proof.
  intros t vt boom base lm m os s st lost v bs H G HH Q (V1 & V2 & V3) VL LB LA s'. reach_inv H st lost Iv. pose proof H as (Ht & Hs & _).
  assert (C : can_deref t lm) by (apply can_deref_iff; tauto).
  destruct (inner_pop_all_spec t vt boom base lm s st lost Ht Hs Iv) as (P & _). specialize (P Q C).
  assert (D : history (elog s ++ map drop_of st ++ [EvReset]) [] lost).
  { rewrite app_assoc. constructor. apply history_drops. rewrite app_nil_r. exact HH. }
  assert (I1 : einv t vt base lm (popped s 0 (elog s ++ map drop_of st ++ [EvReset])) [] lost) by (apply (popped_inv t vt base lm s st lost); auto).
  set (s1 := popped s 0 (elog s ++ map drop_of st ++ [EvReset])) in *.
  destruct (eslot_spec t vt base lm s1 [] lost (vt v) Ht Hs I1 V2 V3) as (_ & S & _).
  assert (FT : fits_in (data_block t base lm) (eindex s1) (pin_layout t (vt v))).
  { exists (base + word_bytes t). unfold data_block. cbn [start size]. rewrite VL. change (eindex s1) with 0. split; [lia|]. split; [|lia].
    destruct Hs as (_ & _ & _ & BA & _). unfold bump_layout, pin_layout in BA |- *. cbn [lalign] in BA |- *. 
    rewrite Z.max_assoc, Z.max_id in BA. apply Z.divide_add_r; [exact BA|].
    destruct LA as [LA|(_ & LA)]; [rewrite Z.max_l by lia; apply Ht|].
    destruct (Z.max_spec (usize_align t) (lalign lm)) as [(? & ->) | (? & ->)]; [exact LA|apply Ht]. }
  destruct (S C FT) as (a & _ & _ & E). exists a. unfold s', estep. rewrite G. rewrite (ei_lay _ _ _ _ _ _ _ Iv).
  assert (LE : layout_eqb lm lm = true) by (unfold layout_eqb; rewrite !Z.eqb_refl; reflexivity). rewrite VL, LE, LB, Z.eqb_refl. cbn [andb negb].
  rewrite P. rewrite VL in E. rewrite E. cbn [fst snd epin elog with_index s1 popped].
  split; [reflexivity|]. assert (EQ : (elog s ++ map drop_of st ++ [EvReset]) ++ [EvPin a v bs] = elog s ++ map drop_of st ++ [EvReset; EvPin a v bs]) by (rewrite <- !app_assoc; reflexivity).
  split; [exact EQ|]. constructor. exact D.
Qed.
Print Assumptions C59_set.

(** The documented guarantee "at least one value of type Mem" fails for a Mem that is aligned more strictly than usize: with
    debug assertions every [set] panics; without, it panics unless the word size is a multiple of the alignment. *)
Theorem C59_set_overaligned : forall t vt boom base lm m os s st lost v bs, exit_reach t vt boom base lm m os s -> egone s = false ->
  history (elog s) st lost -> quiet boom st -> eop_ok t vt (ESet v bs) -> vt v = lm -> Z.of_nat (length bs) = lsize lm ->
  usize_align t < lalign lm ->
  let s' := fst (estep t vt boom s (ESet v bs)) in let answer := snd (estep t vt boom s (ESet v bs)) in
  (debug t = true -> answer = (if boom v bs then EAAbort else EAPanic PU_deref) /\ elog s' = elog s ++ map drop_of st ++ [EvUnwound; EvArg v bs]) /\
  (debug t = false -> ~ (lalign lm | word_bytes t) ->
     answer = (if boom v bs then EAAbort else EAPanic PE_unreachable) /\ elog s' = elog s ++ map drop_of st ++ [EvReset; EvArg v bs]).
Proof.
  intros t vt boom base lm m os s st lost v bs H G HH Q (V1 & V2 & V3) VL LB LA s' answer. reach_inv H st lost Iv. pose proof H as (Ht & Hs & _).
  destruct (inner_pop_all_spec t vt boom base lm s st lost Ht Hs Iv) as (P1 & P2 & _).
  assert (LE : layout_eqb lm lm = true) by (unfold layout_eqb; rewrite !Z.eqb_refl; reflexivity).
  unfold s', answer, estep. rewrite G. rewrite (ei_lay _ _ _ _ _ _ _ Iv). rewrite VL, LE, LB, Z.eqb_refl. cbn [andb negb].
  split.
  - intros DB. rewrite P2; [|exact Q|rewrite can_deref_iff; intros [?|?]; [congruence|lia]]. cbn [drop_arg fst snd popped elog]. rewrite <- !app_assoc. auto.
  - intros DB ND. assert (C : can_deref t lm) by (apply can_deref_iff; auto). rewrite (P1 Q C).
    assert (D : history (elog s ++ map drop_of st ++ [EvReset]) [] lost).
    { rewrite app_assoc. constructor. apply history_drops. rewrite app_nil_r. exact HH. }
    assert (I1 : einv t vt base lm (popped s 0 (elog s ++ map drop_of st ++ [EvReset])) [] lost) by (apply (popped_inv t vt base lm s st lost); auto).
    set (s1 := popped s 0 (elog s ++ map drop_of st ++ [EvReset])) in *.
    destruct (eslot_spec t vt base lm s1 [] lost (vt v) Ht Hs I1 V2 V3) as (_ & _ & S). rewrite VL in S. rewrite S; [|exact C|].
    + cbn [drop_arg fst snd popped elog s1]. rewrite <- !app_assoc. auto.
    + intros (a & A1 & A2 & A3). unfold data_block in A1, A3. cbn [start size] in A1, A3. change (eindex s1) with 0 in A1.
      assert (a = base + word_bytes t) by lia. subst a. apply ND.
      destruct Hs as (_ & _ & _ & BA & _). unfold bump_layout, pin_layout in BA, A2. cbn [lalign] in BA, A2. rewrite !Z.max_r in * by lia.
      apply (Z.divide_add_cancel_r _ base); assumption.
Qed.
Print Assumptions C59_set_overaligned.

(** C60. Slots, open or with a value pinned to them, are disjoint and inside the stack; a value is aligned for its type,
    inside its slot and behind the link. *)
Theorem C60_slots : forall t vt boom base lm m os s st lost, exit_reach t vt boom base lm m os s -> history (elog s) st lost ->
  let used := map who st ++ map (fun k => (taddr k, tvt k)) (filter (fun k => negb (tpinned k)) (etoks s)) in
  pairwise disjoint (map (fun p => slot_block t vt (fst p) (snd p)) used) /\
  (forall k, In k (etoks s) -> In (taddr k, tvt k) used) /\
  forall a v, In (a, v) used ->
    inside (slot_block t vt a v) (MkBlock base (lsize (bump_layout t (pin_layout t lm)))) /\
    inside (value_block t vt a v) (slot_block t vt a v) /\ disjoint (value_block t vt a v) (MkBlock a (2 * word_bytes t)) /\
    aligned (a + value_offset t (vt v)) (lalign (vt v)) /\ aligned a (usize_align t).
Proof.
  intros t vt boom base lm m os s st lost H HH used. reach_inv H st lost Iv. pose proof H as (Ht & Hs & _).
  assert (E : map (fun p => slot_block t vt (fst p) (snd p)) used = used_blocks t vt st (etoks s)).
  { unfold used, used_blocks, open_toks. rewrite map_app, !map_map. reflexivity. }
  split; [rewrite E; apply Iv|]. pose proof (ei_pinned _ _ _ _ _ _ _ Iv) as PI. rewrite Forall_forall in PI. split.
  { intros k K. unfold used. apply in_or_app. destruct (tpinned k) eqn:TP.
    - left. destruct (PI k K TP) as (e & E1 & <- & <-). apply in_map_iff. exists e. auto.
    - right. apply in_map_iff. exists k. split; [reflexivity|]. apply filter_In. rewrite TP. auto. }
  intros a v U.
  assert (T : type_layout t (vt v) /\ slot_aligned t vt a v).
  { unfold used in U. apply in_app_or in U. destruct U as [U|U]; apply in_map_iff in U; destruct U as (x & X & XI); unfold who in X; injection X as <- <-.
    - pose proof (ei_entries _ _ _ _ _ _ _ Iv) as F. pose proof (ei_al1 _ _ _ _ _ _ _ Iv) as A. rewrite Forall_forall in F, A. split; [apply (F x XI)|apply (A x XI)].
    - apply filter_In in XI. destruct XI as [XI _]. pose proof (ei_toks _ _ _ _ _ _ _ Iv) as F. pose proof (ei_al2 _ _ _ _ _ _ _ Iv) as A. rewrite Forall_forall in F, A. split; [apply (F x XI)|apply (A x XI)]. }
  destruct T as [T AL]. destruct (voff_facts t _ Ht T) as (F1 & F2 & F3 & F4). destruct (data_ok t base lm Ht Hs) as (_ & DI & _ & DP).
  assert (B : below_level t base (eindex s) (slot_block t vt a v)).
  { pose proof (ei_below _ _ _ _ _ _ _ Iv) as B. rewrite Forall_forall in B. apply B. rewrite <- E. apply in_map_iff. exists (a, v). auto. }
  pose proof (ei_ok _ _ _ _ _ _ _ Iv) as [_ EI]. cbn [slab_of storage consumed udata uindex data_block size] in EI.
  destruct B as [B1 B2]. unfold slot_block in B1, B2. cbn [start size] in B1, B2. split.
  { intros x X. apply DI. unfold in_block, slot_block, data_block in *. cbn [start size] in *. lia. }
  assert (W := word_pos t Ht). destruct (tl_pos t _ T) as [TA TS].
  split; [apply inside_intro; unfold value_block, slot_block; cbn [start size]; lia|].
  split; [apply disjoint_intro; unfold value_block; cbn [start size]; lia|].
  assert (P2 : is_pow2 (lalign (vt v))) by apply T. assert (PU : is_pow2 (usize_align t)) by apply Ht.
  unfold slot_aligned, pin_layout, aligned in AL. cbn [lalign] in AL.
  split; unfold aligned.
  - apply Z.divide_add_r; [|exact F2]. eapply Z.divide_trans; [|exact AL]. apply pow2_divide; [exact P2| |lia].
    destruct (Z.max_spec (usize_align t) (lalign (vt v))) as [[_ ->]|[_ ->]]; assumption.
  - eapply Z.divide_trans; [|exact AL]. apply pow2_divide; [exact PU| |lia].
    destruct (Z.max_spec (usize_align t) (lalign (vt v))) as [[_ ->]|[_ ->]]; assumption.
Qed.
Print Assumptions C60_slots.

(** ** A concrete stack: Mem = [u64; 8]; type 1 is a u64, type 2 a [u16; 2] whose destructor panics, type 3 is Mem, type 4 is
    aligned to 16. *)
Definition ex_mem : layout := MkLayout 64 8.
Definition ex_vt (v : Z) : layout := if v =? 1 then MkLayout 8 8 else if v =? 2 then MkLayout 4 2 else if v =? 4 then MkLayout 16 16 else ex_mem.
Definition ex_boom2 (v : Z) (bs : list (option Z)) : bool := v =? 2.
Definition ex_bytes (x : Z) (n : nat) : list (option Z) := repeat (Some x) n.

Lemma ex_type t l n : word_bytes t = 8 -> 0 <= n < 20 -> lalign l = 2 ^ n -> 0 <= lsize l < 1000 -> (lalign l | lsize l) -> type_layout t l.
Proof.
  intros W N A S D. split; [|exact D]. split; [lia|]. split; [exists n; lia|]. unfold isize_max. rewrite W.
  assert (2 ^ n < 2 ^ 20) by (apply Z.pow_lt_mono_r; lia). change (2 ^ 20) with 1048576 in *. change (2 ^ (8 * 8 - 1) - 1) with 9223372036854775807.
  split; [lia|]. rewrite align_up_id; [lia|rewrite A; apply Z.pow_pos_nonneg; lia|exact D].
Qed.

Ltac ex_ty n := apply (ex_type _ _ n); [reflexivity|lia|reflexivity|cbn; lia|apply Z.mod_divide; [discriminate|reflexivity]].

Lemma ex_ops_ok dbg v : 0 <= v < 10 -> is_usize (x64 dbg) v /\ type_layout (x64 dbg) (ex_vt v) /\ type_layout (x64 dbg) (pin_layout (x64 dbg) (ex_vt v)).
Proof.
  intros V. split; [split; [lia|]; change (usize_max (x64 dbg)) with 18446744073709551615; lia|].
  unfold ex_vt. destruct (v =? 1); [split; ex_ty 3|]. destruct (v =? 2); [split; [ex_ty 1|ex_ty 3]|]. destruct (v =? 4); [split; ex_ty 4|]. split; ex_ty 3.
Qed.

Example ex_stack_ok dbg : valid_target (x64 dbg) /\ stack_ok (x64 dbg) 4096 ex_mem /\ stack_ok (x64 dbg) 4096 (MkLayout 16 16).
Proof.
  split; [split; [cbn; auto|split; [exists 3; split; [lia|reflexivity]|exists 1; reflexivity]]|].
  split.
  - split; [ex_ty 3|]. split; [ex_ty 3|]. split; [ex_ty 3|]. split; [exists 512; reflexivity|]. split; [reflexivity|]. split; [split; discriminate|discriminate].
  - split; [ex_ty 4|]. split; [ex_ty 4|]. split; [ex_ty 4|]. split; [exists 256; reflexivity|]. split; [reflexivity|]. split; [split; discriminate|discriminate].
Qed.

(** Two slots, used in the opposite order, then a write, a look and pop_all. *)
Definition ex_eops : list eop := [ESlot 1; ESlot 1; EPin 1 (ex_bytes 5 8); EPin 0 (ex_bytes 6 8); EWrite 1 (ex_bytes 7 8); EPeek 1].

Lemma ex_eops_ok dbg : Forall (eop_ok (x64 dbg) ex_vt) ex_eops.
Proof. repeat constructor; try exact Logic.I; apply (ex_ops_ok dbg 1); lia. Qed.

Example C57_nonvacuous : forall dbg, let s := fst (erun (x64 dbg) ex_vt ex_boom2 (enew 4096 ex_mem (fun _ => None)) ex_eops) in
  exit_reach (x64 dbg) ex_vt ex_boom2 4096 ex_mem (fun _ => None) ex_eops s /\
  snd (erun (x64 dbg) ex_vt ex_boom2 (enew 4096 ex_mem (fun _ => None)) ex_eops) =
    [EAPtr 4104; EAPtr 4128; EAPtr 4144; EAPtr 4120; EADone; EABytes (ex_bytes 7 8)] /\
  history (elog s) [MkEntry 4104 1 (ex_bytes 6 8); MkEntry 4128 1 (ex_bytes 7 8)] [] /\
  elog (fst (estep (x64 dbg) ex_vt ex_boom2 s EPopAll)) = elog s ++ [EvDrop 4104 1 (ex_bytes 6 8); EvDrop 4128 1 (ex_bytes 7 8); EvReset].
Proof.
  intros dbg s. split; [|split; [|split]].
  - split; [apply ex_stack_ok|]. split; [apply ex_stack_ok|]. split; [apply ex_eops_ok|reflexivity].
  - destruct dbg; vm_compute; reflexivity.
  - assert (E : elog s = (([] ++ [EvPin 4128 1 (ex_bytes 5 8)]) ++ [EvPin 4104 1 (ex_bytes 6 8)]) ++ [EvWrite 4128 (ex_bytes 7 8)]) by (destruct dbg; vm_compute; reflexivity).
    rewrite E. apply (HWrite _ [MkEntry 4104 1 (ex_bytes 6 8)] [] [] 4128 1 (ex_bytes 5 8)); [|cbn; lia].
    refine (HPin _ [_] _ _ _ _ _). refine (HPin _ [] _ _ _ _ _). exact HNew.
  - destruct dbg; vm_compute; reflexivity.
Qed.

(** The guarantee of Pin ("a pinned value is dropped before its memory is used for something else") is broken after a panic:
    the value pinned first is never dropped, and its memory is overwritten by another value. *)
Theorem C58_pin_guarantee_refuted : exists t vt boom base lm m os s a v bs bs' a2 v2 bs2, exit_reach t vt boom base lm m os s /\
  bs <> bs' /\ elog s = [EvPin a v bs; EvPin a2 v2 bs2; EvDrop a2 v2 bs2; EvUnwound; EvReset; EvPin a v bs'].
Proof.
  exists (x64 false), ex_vt, ex_boom2, 4096, ex_mem, (fun _ => None),
    [ESlot 1; ESlot 2; EPin 0 (ex_bytes 5 8); EPin 1 (ex_bytes 9 4); EPopAll; EPopAll; ESlot 1; EPin 0 (ex_bytes 6 8)].
  eexists. exists 4104, 1, (ex_bytes 5 8), (ex_bytes 6 8), 4128, 2, (ex_bytes 9 4).
  split; [|split; [discriminate|]].
  - split; [apply ex_stack_ok|]. split; [apply ex_stack_ok|]. split; [|reflexivity].
    repeat constructor; try exact Logic.I; first [apply (ex_ops_ok false 1); lia|apply (ex_ops_ok false 2); lia].
  - vm_compute. reflexivity.
Qed.
Print Assumptions C58_pin_guarantee_refuted.

Example C58_nonvacuous : exists os s, exit_reach (x64 true) ex_vt ex_boom2 4096 ex_mem (fun _ => None) os s /\ egone s = false /\
  history (elog s) ([] ++ MkEntry 4128 2 (ex_bytes 9 4) :: [MkEntry 4104 1 (ex_bytes 5 8)]) [] /\ quiet ex_boom2 [] /\ ex_boom2 2 (ex_bytes 9 4) = true.
Proof.
  exists [ESlot 1; ESlot 2; EPin 0 (ex_bytes 5 8); EPin 1 (ex_bytes 9 4)]. eexists. split.
  - split; [apply ex_stack_ok|]. split; [apply ex_stack_ok|]. split; [|reflexivity].
    repeat constructor; try exact Logic.I; first [apply (ex_ops_ok true 1); lia|apply (ex_ops_ok true 2); lia].
  - split; [vm_compute; reflexivity|]. split; [|split; [constructor|reflexivity]].
    match goal with |- history ?l _ _ => assert (E : l = ([] ++ [EvPin 4104 1 (ex_bytes 5 8)]) ++ [EvPin 4128 2 (ex_bytes 9 4)]) by (vm_compute; reflexivity); rewrite E end.
    refine (HPin _ [_] _ _ _ _ _). refine (HPin _ [] _ _ _ _ _). exact HNew.
Qed.

(** [set] with a Mem of alignment 8 and of alignment 16, in both profiles. *)
Example C59_nonvacuous :
  snd (erun (x64 true) ex_vt ex_boom2 (enew 4096 ex_mem (fun _ => None)) (ex_eops ++ [ESet 3 (ex_bytes 1 64); EPeek 0])) =
    [EAPtr 4104; EAPtr 4128; EAPtr 4144; EAPtr 4120; EADone; EABytes (ex_bytes 7 8); EAPtr 4120; EABytes (ex_bytes 1 64)] /\
  snd (erun (x64 true) ex_vt ex_boom2 (enew 4096 (MkLayout 16 16) (fun _ => None)) [ESet 4 (ex_bytes 1 16)]) = [EAPanic PU_deref] /\
  snd (erun (x64 false) ex_vt ex_boom2 (enew 4096 (MkLayout 16 16) (fun _ => None)) [ESet 4 (ex_bytes 1 16)]) = [EAPanic PE_unreachable] /\
  snd (erun (x64 true) ex_vt ex_boom2 (enew 4096 (MkLayout 16 16) (fun _ => None)) [EDropStack]) = [EAPanic PU_deref].
Proof. vm_compute. auto. Qed.
