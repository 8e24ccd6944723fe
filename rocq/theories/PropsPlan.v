(** * Claims about how much memory a Bump needs (C90). *)
From Verif Require Import Base Spec BaseFacts SyncModel SyncSpec SyncProofs PropsSync ConcModel ConcSpec ConcProofs RelaxedModel RelaxedSpec RelaxedProofs PropsConc
  PlanSpec PlanProofs.

Lemma worst_paid t st cs : valid_region t st -> Forall (valid_call t) cs -> Forall (pays_call st worst (fun _ => True)) cs.
Proof.
  intros VR V. eapply Forall_impl; [|exact V]. intros c Vc l Hl _. apply (pays_worst t); [exact (valid_call_layout t c l Vc Hl)|].
  destruct VR; lia.
Qed.
Lemma rounded_paid A t st cs : 0 < A -> (A | start st) -> Forall (valid_call t) cs ->
  Forall (fun c => forall l, call_layout c = Some l -> (lalign l | A)) cs -> Forall (pays_call st (rounded A) (fun S => (A | S))) cs.
Proof.
  intros HA AS V D. rewrite Forall_forall in *. intros c Hc l Hl _. apply (pays_rounded A t); [exact (valid_call_layout t c l (V c Hc) Hl)|exact HA| |exact AS].
  exact (D c Hc l Hl).
Qed.
Lemma rcalls_valid t sched : Forall (valid_raction t) sched -> Forall (valid_call t) (rcalls_of sched).
Proof. induction 1 as [|a sched H _ IH]; cbn [rcalls_of]; [constructor|]. destruct a; [constructor; [apply H|exact IH]|exact IH|exact IH]. Qed.

(** C90, one thread. In any state of the slab: if what is left is at least the sum of the requests' sizes, each with its alignment less one
    byte, then every request is served.  If the level is at a multiple of [A], counted from address 0, and no request is aligned more
    strictly than [A], the sum of the sizes, rounded up to multiples of [A], is enough.
    (Requests at a level, which may consume memory, too, are counted.) *)
Theorem C90_one_thread : forall t st s cs c r,
  valid_target t -> valid_region t st -> reach t st s -> Forall (valid_call t) cs -> no_reset cs ->
  (enough_anywhere (size st - consumed s) cs \/
   exists A, aligned (start st) A /\ aligned (consumed s) A /\ enough_at A (size st - consumed s) cs) ->
  In (c, r) (snd (run t s cs)) -> wants c -> exists a, r = RBlock a.
Proof.
  intros t st s cs c r Ht Hst (cs0 & V0 & R0) V NR E Hin W.
  pose proof (run_ok t (fresh st) cs0 Ht (ok_fresh t st Hst) V0) as (OK & ST). rewrite R0 in *.
  assert (ST' : storage s = st) by (rewrite ST; reflexivity). clear ST.
  destruct E as [E|(A & A1 & A2 & A3 & A4 & A5)].
  - refine (seq_plan t st worst (fun _ => True) cs Ht s (consumed s) OK ST' ltac:(lia) Logic.I V NR (worst_paid t st cs Hst V) _ c r Hin W).
    unfold enough_anywhere in E. lia.
  - refine (seq_plan t st (rounded A) (fun S => (A | S)) cs Ht s (consumed s) OK ST' ltac:(lia) A2 V NR (rounded_paid A t st cs A3 A1 V A4) _ c r Hin W). lia.
Qed.
Print Assumptions C90_one_thread.

(** C90, threads. Whatever the schedule (and even with [Relaxed] accesses): if all calls together are paid for, no call is refused. *)
Theorem C90_threads_relaxed : forall t st sched i c r,
  valid_target t -> valid_region t st -> Forall (valid_raction t) sched ->
  (enough_anywhere (size st) (rcalls_of sched) \/ exists A, aligned (start st) A /\ enough_at A (size st) (rcalls_of sched)) ->
  In (ERet i c r) (rhistory (rrun t st rinit sched)) -> wants c -> exists a, r = RBlock a.
Proof.
  intros t st sched i c r Ht Hst V E Hin. unfold rhistory in Hin. apply in_rev in Hin. revert Hin.
  pose proof (rcalls_valid t sched V) as VC.
  destruct E as [E|(A & A1 & A3 & A4 & A5)].
  - refine (rp_ret _ _ _ _ _ (rplan_run t st worst (fun _ => True) sched Ht Hst 0 rinit V (worst_paid t st _ Hst VC) _ (rinv_init t st Hst) (rplan_init st worst _ Logic.I)) i c r).
    unfold enough_anywhere in E. lia.
  - refine (rp_ret _ _ _ _ _ (rplan_run t st (rounded A) (fun S => (A | S)) sched Ht Hst 0 rinit V (rounded_paid A t st _ A3 A1 VC A4) _ (rinv_init t st Hst)
      (rplan_init st (rounded A) _ (Z.divide_0_r A))) i c r). lia.
Qed.
Print Assumptions C90_threads_relaxed.

(** ... in particular with the accesses that the code has: each of its executions is one with relaxed accesses, too. *)
Theorem C90_sequentially_consistent_is_relaxed : forall t st sched, exists rsched,
  rcalls_of rsched = calls_of sched /\ (Forall (valid_action t) sched -> Forall (valid_raction t) rsched) /\
  rhistory (rrun t st rinit rsched) = history (sys_run t st sys_init sched).
Proof.
  intros t st sched. destruct (embeds_run t st sched sys_init rinit embeds_init) as (l & L1 & L2 & E).
  exists l. split; [exact L1|]. split; [exact L2|]. unfold rhistory, history. rewrite (em_hist _ _ E). reflexivity.
Qed.
Print Assumptions C90_sequentially_consistent_is_relaxed.

Theorem C90_threads : forall t st sched i c r,
  valid_target t -> valid_region t st -> Forall (valid_action t) sched ->
  (enough_anywhere (size st) (calls_of sched) \/ exists A, aligned (start st) A /\ enough_at A (size st) (calls_of sched)) ->
  In (ERet i c r) (history (sys_run t st sys_init sched)) -> wants c -> exists a, r = RBlock a.
Proof.
  intros t st sched i c r Ht Hst V E Hin. destruct (C90_sequentially_consistent_is_relaxed t st sched) as (l & L1 & L2 & L3).
  rewrite <- L1 in E. rewrite <- L3 in Hin. exact (C90_threads_relaxed t st l i c r Ht Hst (L2 V) E Hin).
Qed.
Print Assumptions C90_threads.

(** C90, the bound is exact: a slab with one byte less may be at an address where the request is refused. *)
Theorem C90_tight : forall t l, valid_target t -> valid_layout t l -> 0 < lsize l ->
  exists st, valid_region t st /\ size st = lsize l + lalign l - 2 /\ snd (step t (fresh st) (CAlloc l)) = RNone.
Proof.
  intros t l Ht Vl Pos. exists (MkBlock (lalign l + 1) (lsize l + lalign l - 2)).
  pose proof (valid_layout_align t l Vl) as HA.
  assert (VR : valid_region t (MkBlock (lalign l + 1) (lsize l + lalign l - 2))).
  { destruct Vl as (_ & P2 & L1 & L2). unfold valid_region. cbn [start size].
    assert (HT : isize_max t + 1 = 2 ^ (8 * word_bytes t - 1)) by (unfold isize_max; lia).
    assert (W1 : 0 <= 8 * word_bytes t - 1) by (destruct Ht as ([H|[H|H]] & _); lia).
    assert (AD : addr_space t = 2 * (isize_max t + 1)).
    { rewrite HT. unfold addr_space. rewrite <- (Z.pow_succ_r 2 (8 * word_bytes t - 1) W1). f_equal. lia. }
    assert (D : (lalign l | isize_max t + 1)).
    { rewrite HT. apply pow2_divide; [exact P2| |lia]. exists (8 * word_bytes t - 1). split; [exact W1|reflexivity]. }
    pose proof (align_up_ge (lsize l) (lalign l) HA) as G. pose proof (align_up_aligned (lsize l) (lalign l) HA) as DA.
    assert (align_up (lsize l) (lalign l) + lalign l <= isize_max t + 1).
    { destruct D as (q & D), DA as (p & DA). rewrite D, DA in *. assert (p < q) by nia. nia. }
    lia. }
  split; [exact VR|]. split; [reflexivity|]. rewrite (step_spec t _ (CAlloc l) Ht (ok_fresh t _ VR) Vl). cbn [spec_step].
  destruct (Z.eqb_spec (lsize l) 0); [lia|]. unfold fitsb, fresh. cbn [storage consumed start size].
  assert (2 * lalign l <= align_up (lalign l + 1 + 0) (lalign l)).
  { pose proof (align_up_ge (lalign l + 1 + 0) (lalign l) HA) as G. pose proof (align_up_aligned (lalign l + 1 + 0) (lalign l) HA) as (p & E). rewrite E in *.
    assert (2 <= p) by nia. nia. }
  destruct (Z.leb_spec (align_up (lalign l + 1 + 0) (lalign l) + lsize l) (lalign l + 1 + (lsize l + lalign l - 2))); [lia|reflexivity].
Qed.
Print Assumptions C90_tight.

Lemma rounded_self l : 0 < lalign l -> (lalign l | lsize l) -> rounded (lalign l) l = lsize l.
Proof.
  intros HA (q & E). unfold rounded. rewrite E. replace (q * lalign l + lalign l - 1) with (lalign l - 1 + q * lalign l) by lia.
  rewrite Z.div_add by lia. rewrite Z.div_small by lia. lia.
Qed.

(** C90, typed slabs. A [Bump<[T; n]>] serves n requests for a T, whatever threads they come from, and never more. *)
Theorem C90_array_of_T : forall t st l n sched,
  valid_target t -> valid_region t st -> type_layout t l -> 0 < lsize l -> aligned (start st) (lalign l) -> size st = n * lsize l ->
  Forall (valid_action t) sched -> Forall (fun c => c = CAlloc l \/ c = CGet l) (calls_of sched) ->
  let h := history (sys_run t st sys_init sched) in
  Z.of_nat (length (returned_blocks h)) <= n /\
  (forall i c r, In (ERet i c r) h -> r = RNone \/ exists a, r = RBlock a) /\
  (forall i c, In (ERet i c RNone) h -> n < Z.of_nat (length (calls_of sched))).
Proof.
  intros t st l n sched Ht Hst (Vl & Dl) Pos AS SZ V FQ. cbv zeta. pose proof (valid_layout_align t l Vl) as HA.
  assert (K : kinds (fun c => c = CAlloc l \/ c = CGet l) (fun _ r => r = RNone \/ exists a, r = RBlock a) (sys_run t st sys_init sched)).
  { apply kinds_run; [exact Ht|exact Hst| |exact V|exact FQ|exact (inv_init t st Hst)|constructor; cbn; try discriminate; contradiction].
    intros c cur _ [-> | ->] _; cbn [spec_step]; (destruct (Z.eqb_spec (lsize l) 0); [lia|]); destruct (fitsb _ _ _); cbn [snd]; eauto. }
  destruct (conc_blocks_sound t st sched Ht Hst V) as (GB & PW). set (s := sys_run t st sys_init sched) in *.
  assert (FB : Forall (fun b => size b = lsize l /\ inside b st) (returned_blocks (history s))).
  { assert (X : forall i c r, In (ERet i c r) (history s) -> (c = CAlloc l \/ c = CGet l) /\ forall a, r = RBlock a -> good_block st l (ptr a)).
    { intros i c r Hin. pose proof Hin as Hin'. apply in_rev in Hin'. pose proof (ki_ret _ _ _ K i c r Hin') as (Q & _). split; [exact Q|].
      intros a ->. apply (GB i c a l Hin). destruct Q as [-> | ->]; reflexivity. }
    clear - X. induction (history s) as [|e h IH]; [constructor|]. cbn [returned_blocks].
    assert (IH' : Forall (fun b => size b = lsize l /\ inside b st) (returned_blocks h)).
    { apply IH. intros i c r Hin. apply (X i c r). right. exact Hin. }
    destruct e as [i c|i c r|i c r]; [exact IH'|exact IH'|]. destruct (event_block (c, r)) as [b|] eqn:EB; [|exact IH']. constructor; [|exact IH'].
    destruct (X i c r (or_introl eq_refl)) as (Q & G). destruct r; try discriminate. destruct (G _ eq_refl) as (_ & IN & _).
    destruct Q as [-> | ->]; cbn in EB; injection EB as <-; (split; [reflexivity|exact IN]). }
  split; [|split].
  - assert (SUM : sizes (returned_blocks (history s)) = Z.of_nat (length (returned_blocks (history s))) * lsize l).
    { clear - FB. induction FB as [|b bs (H & _) _ IH]; [reflexivity|]. cbn [sizes fold_right length]. fold (sizes bs). rewrite IH, H. lia. }
    assert (LE : sizes (returned_blocks (history s)) <= size st).
    { apply sizes_fit; [exact PW| |destruct Hst; lia]. eapply Forall_impl; [|exact FB]. intros b (H & IN). split; [lia|exact IN]. }
    rewrite SUM, SZ in LE. nia.
  - intros i c r Hin. apply in_rev in Hin. exact (proj2 (ki_ret _ _ _ K i c r Hin)).
  - intros i c Hin. destruct (Z_lt_le_dec n (Z.of_nat (length (calls_of sched)))) as [H|H]; [exact H|exfalso].
    assert (W : wants c).
    { pose proof Hin as Hin'. apply in_rev in Hin'. destruct (proj1 (ki_ret _ _ _ K i c _ Hin')) as [-> | ->]; [exact Pos|exact Logic.I]. }
    destruct (C90_threads t st sched i c RNone Ht Hst V) with (2 := Hin) (3 := W) as (a & A); [|discriminate].
    right. exists (lalign l). split; [exact AS|]. split; [exact HA|]. split.
    + eapply Forall_impl; [|exact FQ]. intros d [-> | ->] l' E; injection E as <-; apply Z.divide_refl.
    + assert (T : total (rounded (lalign l)) (calls_of sched) = Z.of_nat (length (calls_of sched)) * lsize l).
      { clear H. induction FQ as [|d cs Q _ IH]; [reflexivity|]. cbn [total fold_right length]. fold (total (rounded (lalign l)) cs). rewrite IH.
        assert (P : price (rounded (lalign l)) d = lsize l).
        { destruct Q as [-> | ->]; unfold price; cbn [call_layout]; (destruct (Z.eqb_spec (lsize l) 0); [lia|]); apply rounded_self; assumption. }
        rewrite P. lia. }
      rewrite T, SZ. nia.
Qed.
Print Assumptions C90_array_of_T.

(** Threads 0 and 1 fight for the 24 bytes of a [Bump<[u64; 3]>]; the fourth request is refused.  With 3 requests of u64, u16 and u64 a slab of
    24 bytes is not enough at every address, 15 + 3 + 15 bytes are, as are 3 * 8 bytes at a multiple of 8. *)
Definition ex_plan_sched : list action :=
  [Invoke 0 (CAlloc ex_u64); Invoke 1 (CGet ex_u64); Access 1; Access 0; Return 1; Invoke 1 (CAlloc ex_u64); Access 0; Access 1; Access 1; Return 0; Return 1;
   Invoke 0 (CGet ex_u64); Access 0; Access 0; Return 0].
Example C90_nonvacuous :
  Forall (valid_action (x64 false)) ex_plan_sched /\
  returned_blocks (history (sys_run (x64 false) (MkBlock 4096 24) sys_init ex_plan_sched)) = [MkBlock 4096 8; MkBlock 4104 8; MkBlock 4112 8] /\
  In (ERet 0 (CGet ex_u64) RNone) (history (sys_run (x64 false) (MkBlock 4096 24) sys_init ex_plan_sched)) /\
  enough_anywhere 33 [CAlloc ex_u64; CAlloc ex_u16; CAlloc ex_u64] /\ enough_at 8 24 [CAlloc ex_u64; CAlloc ex_u16; CAlloc ex_u64] /\
  ~ enough_anywhere 24 [CAlloc ex_u64; CAlloc ex_u16; CAlloc ex_u64] /\
  map snd (snd (run (x64 false) (fresh (MkBlock 4103 24)) [CAlloc ex_u64; CAlloc ex_u16; CAlloc ex_u64])) =
    [RBlock (MkAlloc 4104 9); RBlock (MkAlloc 4112 11); RNone].
Proof.
  split.
  { destruct ex_layouts_ok as (H1 & H2 & H3). unfold ex_plan_sched.
    repeat (constructor; [first [exact Logic.I | split; [|reflexivity]; first [exact H1|exact (proj1 H1)]]|]). constructor. }
  split; [reflexivity|]. split; [vm_compute; auto 20|]. split; [vm_compute; congruence|]. split.
  { split; [lia|]. split; [|vm_compute; congruence]. repeat constructor; intros l [= <-]; [exists 1|exists 4|exists 1]; reflexivity. }
  split; [vm_compute; congruence|reflexivity].
Qed.
