(** * FlakyProofs *)
From Verif Require Import Base Spec BaseFacts SyncModel SyncSpec SyncProofs UnsyncModel UnsyncSpec UnsyncProofs UninitModel ConcModel ConcSpec ConcProofs
  RelaxedModel RelaxedSpec RelaxedProofs FlakyModel FlakySpec.

Lemma ao_cases t ao p a : allowed t ao -> 0 < a -> ao p a = align_offset1 p a \/ ao p a = usize_max t.
Proof.
  intros A HA. destruct (A p a HA) as [(q & (Q1 & Q2 & Q3) & E)|E]; [left|right; exact E]. rewrite E.
  destruct (align_up_first p a HA) as (P1 & P2 & P3). pose proof (Q3 _ P1 P2). pose proof (P3 _ Q1 Q2).
  unfold align_offset1, align_up in *. lia.
Qed.

Lemma isize_usize t : valid_target t -> isize_max t < usize_max t.
Proof. intros Ht. pose proof (isize_lt_usize t Ht). unfold usize_max in *. lia. Qed.

Lemma f_prepare_cases ao t st l e : valid_target t -> valid_region t st -> valid_layout t l -> allowed t ao -> 0 <= e ->
  f_prepare ao t st l e = prepare t st l e \/ f_prepare ao t st l e = Ret AExhausted.
Proof.
  intros Ht Hst Vl A E0. pose proof (valid_layout_align t l Vl) as HA. unfold f_prepare, prepare.
  destruct (ao_cases t ao (wrapping_add t (start st) e) (lalign l) A HA) as [-> | ->]; [left; reflexivity|].
  destruct (Z.ltb_spec 0 (lsize l)); cbn [negb]; [|left; reflexivity].
  destruct (Z.leb_spec e (size st)); cbn [negb]; [|left; reflexivity].
  right. unfold checked_sub. destruct (Z.leb_spec e (size st)); [|lia]. cbn [unwrap obind].
  unfold saturating_sub. pose proof (isize_usize t Ht). destruct Hst as (_ & Hst & _).
  destruct (Z.leb_spec (usize_max t) (size st - e)); [lia|]. destruct (Z.ltb_spec 0 (lsize l)); [reflexivity|lia].
Qed.

Lemma f_try_alloc_at_cases ao t s l e : valid_target t -> valid_region t (storage s) -> valid_layout t l -> allowed t ao -> 0 <= e ->
  f_try_alloc_at ao t s l e = try_alloc_at t s l e \/ f_try_alloc_at ao t s l e = (s, Ret (RErr Exhausted)).
Proof.
  intros Ht Hst Vl A E0. unfold f_try_alloc_at, try_alloc_at.
  destruct (f_prepare_cases ao t (storage s) l e Ht Hst Vl A E0) as [-> | ->]; [left|right]; reflexivity.
Qed.

Lemma mismatch_same t s l e s' o : try_alloc_at t s l e = (s', Ret (RErr (Mismatch o))) -> s' = s /\ o = consumed s.
Proof.
  unfold try_alloc_at. destruct (prepare t (storage s) l e) as [[|e' new a]|m]; try discriminate.
  unfold compare_exchange. destruct (consumed s =? e').
  - destruct (finish (storage s) new a); discriminate.
  - intros [= <- <-]. destruct s; auto.
Qed.

Lemma f_loop_cases t l aos : valid_target t -> valid_layout t l -> (forall k, allowed t (aos k)) -> forall fuel k s g,
  ok t s -> 0 <= g ->
  f_try_alloc_loop fuel aos k t s l g = try_alloc_loop fuel t s l g \/ f_try_alloc_loop fuel aos k t s l g = (s, Ret None).
Proof.
  intros Ht Vl A. induction fuel as [|fuel IH]; intros k s g OK G; cbn [f_try_alloc_loop try_alloc_loop]; [left; reflexivity|].
  pose proof OK as (Hst & HC).
  destruct (f_try_alloc_at_cases (aos k) t s l g Ht Hst Vl (A k) G) as [-> | ->]; [|right; reflexivity].
  destruct (try_alloc_at t s l g) as [s' [[a|[|o]]|m]] eqn:E; try (left; reflexivity).
  destruct (mismatch_same t s l g s' o E) as (-> & ->). apply IH; [exact OK|lia].
Qed.

Lemma f_step_cases t s c aos : valid_target t -> ok t s -> valid_call t c -> (forall k, allowed t (aos k)) ->
  f_step aos t s c = step t s c \/ exists r, refusal c = Some r /\ f_step aos t s c = (s, r).
Proof.
  intros Ht OK V A. pose proof OK as (Hst & HC). destruct c as [l|l lv|l|l lv| |]; cbn [f_step step valid_call refusal] in *; try (left; reflexivity).
  - destruct (f_loop_cases t l aos Ht V A 2 0 s 0 OK ltac:(lia)) as [E|E]; unfold f_try_alloc, try_alloc; rewrite E; [left; reflexivity|right; eauto].
  - destruct V as (V & L). destruct (f_try_alloc_at_cases (aos O) t s l lv Ht Hst V (A O) ltac:(destruct L; lia)) as [E|E]; rewrite E; [left; reflexivity|right; eauto].
  - unfold get. destruct (lsize l =? 0); [left; reflexivity|].
    destruct (f_loop_cases t l aos Ht (proj1 V) A 2 0 s 0 OK ltac:(lia)) as [E|E]; unfold f_try_alloc, try_alloc; rewrite E; [left; reflexivity|right; eauto].
  - unfold get_at. destruct (lsize l =? 0).
    + left. cbn zeta. destruct (negb (alevel (zst_fake_alloc s l) =? lv)); reflexivity.
    + destruct V as ((V & _) & L). destruct (f_try_alloc_at_cases (aos O) t s l lv Ht Hst V (A O) ltac:(destruct L; lia)) as [E|E]; rewrite E; [left; reflexivity|right; eauto].
Qed.

Lemma f_run_weeded t cs : valid_target t -> forall s, ok t s -> Forall (fun p => valid_call t (fst p) /\ forall k, allowed t (snd p k)) cs ->
  exists kept, weeded refusal (snd (f_run t s cs)) kept /\ run t s (map fst kept) = (fst (f_run t s cs), kept) /\ Forall (valid_call t) (map fst kept).
Proof.
  intros Ht. induction cs as [|[c aos] cs IH]; intros s OK F; cbn [f_run].
  - exists []. repeat constructor.
  - inversion F as [|? ? (V & A) F']; subst. cbn [fst snd] in *.
    destruct (f_step_cases t s c aos Ht OK V A) as [E|(r & R & E)].
    + rewrite E. pose proof (step_ok t s c Ht OK V) as (OK' & _). destruct (step t s c) as [s1 r] eqn:ES. cbn [fst] in OK'.
      destruct (IH s1 OK' F') as (kept & W & RN & VK). destruct (f_run t s1 cs) as [s2 h] eqn:ER. cbn [fst snd] in *.
      exists ((c, r) :: kept). split; [apply w_keep; exact W|]. cbn [map fst run]. rewrite ES, RN. split; [reflexivity|constructor; assumption].
    + rewrite E. destruct (IH s OK F') as (kept & W & RN & VK). destruct (f_run t s cs) as [s2 h] eqn:ER. cbn [fst snd] in *.
      exists kept. split; [apply w_drop; assumption|]. auto.
Qed.

Lemma weeded_blocks h kept acc : weeded refusal h kept -> blocks_since_reset acc h = blocks_since_reset acc kept.
Proof.
  intros W. revert acc. induction W as [|e h k W IH|c r h k R W IH]; intros acc; cbn [blocks_since_reset]; [reflexivity| |].
  - destruct (is_reset (fst e)); [apply IH|]. destruct (event_block e); apply IH.
  - destruct c; cbn in R; try discriminate; injection R as <-; cbn; apply IH.
Qed.
Lemma weeded_in {C} (rf : C -> option response) h kept c a : (forall c' a', rf c' <> Some (RBlock a')) -> weeded rf h kept -> In (c, RBlock a) h -> In (c, RBlock a) kept.
Proof.
  intros N. induction 1 as [|e h k W IH|c' r h k R W IH]; intros Hin; [exact Hin| |].
  - destruct Hin as [->|Hin]; [left; reflexivity|right; auto].
  - destruct Hin as [[= -> ->]|Hin]; [exfalso; exact (N _ _ R)|auto].
Qed.

(** ** Threads *)
Lemma f_raccess_cases ao t st m c g k v : valid_target t -> valid_region t st -> valid_call t c -> allowed t ao -> 0 <= g ->
  f_raccess ao t st m c g k v = raccess t st m c g k v \/ exists r, refusal c = Some r /\ f_raccess ao t st m c g k v = Some (m, k, Done c r).
Proof.
  intros Ht Hst V A G. destruct c as [l|l lv|l|l lv| |]; cbn [f_raccess raccess valid_call refusal] in *; try (left; reflexivity).
  - destruct (f_prepare_cases ao t st l g Ht Hst V A G) as [-> | ->]; [left; reflexivity|right; eauto].
  - destruct V as (V & L). destruct (f_prepare_cases ao t st l lv Ht Hst V A ltac:(destruct L; lia)) as [-> | ->]; [left; reflexivity|right; eauto].
  - destruct (lsize l =? 0); [left; reflexivity|]. destruct (f_prepare_cases ao t st l g Ht Hst (proj1 V) A G) as [-> | ->]; [left; reflexivity|right; eauto].
  - destruct (lsize l =? 0); [left; reflexivity|]. destruct V as ((V & _) & L).
    destruct (f_prepare_cases ao t st l lv Ht Hst V A ltac:(destruct L; lia)) as [-> | ->]; [left; reflexivity|right; eauto].
Qed.

Lemma rinv_refused t st s i k c g r : rinv t st s -> rthreads s i = Running c g -> (k < length (mo s))%nat -> (views s i <= k)%nat -> refusal c = Some r ->
  rinv t st {| mo := mo s; views := updn (views s) i k; rthreads := upd (rthreads s) i (Done c r); rhist := ELin i c r :: rhist s |}.
Proof.
  intros [I1 I2 I3 I4 I5 I6 I7 I8 I9 I10 I11 I12 I13 I14] Hi Kl Kv R.
  assert (NB : event_block (c, r) = None /\ (forall a, r <> RBlock a) /\ event_level (c, r) = None).
  { destruct c; cbn in R; try discriminate; injection R as <-; cbn; repeat split; discriminate. }
  destruct NB as (NB & NR & NL).
  assert (HH : forall j, thread_levels j (rhistory {| mo := mo s; views := updn (views s) i k; rthreads := upd (rthreads s) i (Done c r); rhist := ELin i c r :: rhist s |})
    = thread_levels j (rhistory s)).
  { intros j. unfold rhistory. cbn [rhist rev]. rewrite thread_levels_app. cbn [thread_levels]. apply app_nil_r. }
  constructor; cbn [mo views rthreads rhist]; unfold latest in *; cbn [mo] in *; auto.
  - intros j. unfold updn. destruct (Nat.eqb j i); [exact Kl|apply I4].
  - intros j c' g' E. unfold upd in E. destruct (Nat.eqb_spec j i) as [->|NE]; [discriminate|].
    destruct (I5 j c' g' E) as (A & B & k0 & K1 & K2). split; [exact A|]. split; [exact B|]. exists k0. split; [exact K1|].
    unfold updn. destruct (Nat.eqb_spec j i); [contradiction|exact K2].
  - intros j c' r' b E EB. unfold upd in E. destruct (Nat.eqb_spec j i) as [->|NE]; [injection E as <- <-; congruence|exact (I6 j c' r' b E EB)].
  - intros j c' a l E EL. unfold upd in E. destruct (Nat.eqb_spec j i) as [->|NE]; [injection E as <- ->; exfalso; exact (NR a eq_refl)|exact (I7 j c' a l E EL)].
  - intros j c' a l [E|E]; [discriminate|exact (I9 j c' a l E)].
  - intros j c' r' b E EB. unfold upd in E. destruct (Nat.eqb_spec j i) as [->|NE]; [injection E as <- <-; congruence|exact (I11 j c' r' b E EB)].
  - intros j j' c1 r1 b1 c2 r2 b2 NE E1 B1 E2 B2. unfold upd in E1, E2.
    destruct (Nat.eqb_spec j i) as [->|N1]; [injection E1 as <- <-; congruence|].
    destruct (Nat.eqb_spec j' i) as [->|N2]; [injection E2 as <- <-; congruence|].
    exact (I12 j j' c1 r1 b1 c2 r2 b2 NE E1 B1 E2 B2).
  - intros j c' r' lv E EL. unfold upd in E. unfold updn. destruct (Nat.eqb_spec j i) as [->|NE]; [injection E as <- <-; congruence|exact (I13 j c' r' lv E EL)].
  - intros j. rewrite HH. destruct (I14 j) as (A & B). split; [exact A|]. eapply Forall_impl; [|exact B].
    intros lv (k0 & K1 & K2). exists k0. split; [exact K1|]. unfold updn. destruct (Nat.eqb_spec j i) as [->|]; lia.
Qed.

Lemma rinv_f_step t st s a : valid_target t -> valid_region t st -> valid_faction t a -> rinv t st s -> rinv t st (f_rstep t st s a).
Proof.
  intros Ht Hst V Hinv. destruct a as [i c|i k ao|i]; cbn [f_rstep].
  - apply rinv_step; assumption.
  - destruct (rthreads s i) as [|c g|] eqn:Hi; [exact Hinv| |exact Hinv]. destruct (nth_error (mo s) k) as [v|] eqn:Hk; [|exact Hinv].
    destruct (Nat.leb_spec (views s i) k) as [Hv|]; [|exact Hinv].
    destruct (ri_running _ _ _ Hinv i c g Hi) as (Vc & Rs & kg & Hkg & Kv).
    pose proof (increasing_mono (mo s) 0 kg 0 g (ri_mo _ _ _ Hinv) ltac:(lia) (ri_zero _ _ _ Hinv) Hkg) as G.
    destruct (f_raccess_cases ao t st (mo s) c g k v Ht Hst Vc V G) as [-> | (r & R & ->)].
    + pose proof (rinv_step t st s (RAccess i k) Ht Hst Logic.I Hinv) as X. cbn [rstep] in X. rewrite Hi, Hk in X.
      destruct (Nat.leb_spec (views s i) k); [exact X|lia].
    + apply (rinv_refused t st s i k c g r Hinv Hi); [apply nth_error_Some; congruence|exact Hv|exact R].
  - apply rinv_step; [exact Ht|exact Hst|exact Logic.I|exact Hinv].
Qed.
Lemma rinv_f_run t st sched : valid_target t -> valid_region t st -> forall s, Forall (valid_faction t) sched -> rinv t st s -> rinv t st (f_rrun t st s sched).
Proof.
  intros Ht Hst. induction sched as [|a sched IH]; intros s V Hinv; [exact Hinv|]. inversion V; subst. cbn. apply IH; [assumption|]. apply rinv_f_step; assumption.
Qed.

(** ** The single-threaded bump *)
Lemma f_u_try_alloc_at_cases ao t u l e : valid_target t -> valid_region t (udata u) -> valid_layout t l -> allowed t ao -> 0 <= e ->
  f_u_try_alloc_at ao t u l e = u_try_alloc_at t u l e \/ f_u_try_alloc_at ao t u l e = (u, Ret (RErr Exhausted)).
Proof.
  intros Ht Hst Vl A E0. pose proof (valid_layout_align t l Vl) as HA. unfold f_u_try_alloc_at, u_try_alloc_at.
  destruct (ao_cases t ao (wrapping_add t (start (udata u)) e) (lalign l) A HA) as [-> | ->]; [left; reflexivity|].
  destruct (Z.ltb_spec 0 (lsize l)); cbn [negb]; [|left; reflexivity].
  destruct (Z.leb_spec e (size (udata u))); cbn [negb]; [|left; reflexivity].
  right. unfold checked_sub. destruct (Z.leb_spec e (size (udata u))); [|lia].
  pose proof (isize_usize t Ht). destruct Hst as (_ & Hst & _).
  destruct (Z.leb_spec (usize_max t) (size (udata u) - e)); [lia|]. reflexivity.
Qed.

Lemma f_u_try_alloc_cases ao t u l : valid_target t -> uok t u -> valid_layout t l -> allowed t ao ->
  f_u_try_alloc ao t u l = u_try_alloc t u l \/ f_u_try_alloc ao t u l = (u, Ret None).
Proof.
  intros Ht (Hst & HC) Vl A. unfold f_u_try_alloc, u_try_alloc.
  destruct (f_u_try_alloc_at_cases ao t u l (uindex u) Ht Hst Vl A) as [-> | ->]; [cbn in HC; lia|left|right]; reflexivity.
Qed.

Lemma f_ustep_cases ao t u c : valid_target t -> uok t u -> valid_ucall t c -> allowed t ao ->
  f_ustep ao t u c = ustep t u c \/ exists r, urefusal c = Some r /\ f_ustep ao t u c = (u, r).
Proof.
  intros Ht OK V A. pose proof OK as (Hst & HC).
  destruct c as [[l|l lv|l|l lv| |]|l|l n]; cbn [f_ustep ustep valid_ucall valid_call urefusal refusal] in *; try (left; reflexivity).
  - destruct (f_u_try_alloc_cases ao t u l Ht OK V A) as [-> | ->]; [left; reflexivity|right; eauto].
  - destruct V as (V & L). destruct (f_u_try_alloc_at_cases ao t u l lv Ht Hst V A ltac:(destruct L; lia)) as [-> | ->]; [left; reflexivity|right; eauto].
  - destruct (f_u_try_alloc_cases ao t u l Ht OK (proj1 V) A) as [-> | ->]; [left; reflexivity|right; eauto].
  - destruct V as ((V & _) & L). destruct (f_u_try_alloc_at_cases ao t u l lv Ht Hst V A ltac:(destruct L; lia)) as [-> | ->]; [left; reflexivity|right; eauto].
  - unfold u_bump_box, u_level in *. destruct (f_u_try_alloc_at_cases ao t u l (uindex u) Ht Hst (proj1 V) A ltac:(cbn in HC; lia)) as [-> | ->]; [left; reflexivity|right; eauto].
  - unfold f_u_bump_array, u_bump_array. destruct V as (V & L). destruct (layout_array t l n) as [la|] eqn:EL; [|left; reflexivity].
    assert (Va : valid_layout t la) by (apply (layout_array_spec t l n la Ht) in EL; apply EL).
    destruct (f_u_try_alloc_cases ao t u la Ht OK Va A) as [-> | ->]; [left; reflexivity|right; eauto].
Qed.

Lemma f_urun_weeded t cs : valid_target t -> forall u, uok t u -> Forall (fun p => valid_ucall t (fst p) /\ allowed t (snd p)) cs ->
  exists kept, weeded urefusal (snd (f_urun t u cs)) kept /\ urun t u (map fst kept) = (fst (f_urun t u cs), kept) /\ Forall (valid_ucall t) (map fst kept).
Proof.
  intros Ht. induction cs as [|[c ao] cs IH]; intros u OK F; cbn [f_urun].
  - exists []. repeat constructor.
  - inversion F as [|? ? (V & A) F']; subst. cbn [fst snd] in *.
    destruct (f_ustep_cases ao t u c Ht OK V A) as [E|(r & R & E)].
    + rewrite E. pose proof (ustep_ok t u c Ht OK V) as (OK' & _). destruct (ustep t u c) as [u1 r] eqn:ES. cbn [fst] in OK'.
      destruct (IH u1 OK' F') as (kept & W & RN & VK). destruct (f_urun t u1 cs) as [u2 h] eqn:ER. cbn [fst snd] in *.
      exists ((c, r) :: kept). split; [apply w_keep; exact W|]. cbn [map fst urun]. rewrite ES, RN. split; [reflexivity|constructor; assumption].
    + rewrite E. destruct (IH u OK F') as (kept & W & RN & VK). destruct (f_urun t u cs) as [u2 h] eqn:ER. cbn [fst snd] in *.
      exists kept. split; [apply w_drop; assumption|]. auto.
Qed.
Lemma uweeded_blocks h kept acc : weeded urefusal h kept -> ublocks_since_reset acc h = ublocks_since_reset acc kept.
Proof.
  intros W. revert acc. induction W as [|e h k W IH|c r h k R W IH]; intros acc; cbn [ublocks_since_reset]; [reflexivity| |].
  - destruct (is_ureset (fst e)); [apply IH|]. destruct (uevent_block e); apply IH.
  - destruct c as [[]| |]; cbn in R; try discriminate; injection R as <-; cbn; apply IH.
Qed.

(** ** from_mem, casts *)
Lemma f_from_mem_cases ao t m b : valid_target t -> allowed t ao -> size b < usize_max t ->
  f_from_mem ao t m b = from_mem t m b \/ f_from_mem ao t m b = (m, Ret None).
Proof.
  intros Ht A S. unfold f_from_mem, from_mem.
  destruct (ao_cases t ao (start b) (lalign (header_layout t)) A (usize_align_pos t Ht)) as [-> | ->]; [left; reflexivity|right].
  destruct (Z.ltb_spec (size b) (usize_max t)); [reflexivity|lia].
Qed.
Lemma usize_max_pos t : valid_target t -> 0 < usize_max t.
Proof. intros Ht. pose proof (isize_usize t Ht). destruct Ht as (W & _). unfold isize_max, addr_space in *. 
  assert (0 < 2 ^ (8 * word_bytes t - 1)) by (apply Z.pow_pos_nonneg; lia). lia. Qed.

Lemma f_fits_cases ao t v l : valid_target t -> 0 < lalign l -> allowed t ao -> f_fits ao v l = v_fits v l \/ f_fits ao v l = false.
Proof.
  intros Ht HA A. unfold f_fits, v_fits. destruct (ao_cases t ao (uptr v) (lalign l) A HA) as [-> | ->]; [left; reflexivity|right].
  pose proof (usize_max_pos t Ht). destruct (Z.eqb_spec (usize_max t) 0); [lia|reflexivity].
Qed.
Lemma f_cast_cases ao t v l : valid_target t -> 0 < lalign l -> allowed t ao -> f_cast ao v l = v_cast v l \/ f_cast ao v l = None.
Proof. intros Ht HA A. unfold f_cast, v_cast. destruct (f_fits_cases ao t v l Ht HA A) as [-> | ->]; [left|right]; reflexivity. Qed.
Lemma f_cast_slice_cases ao t v l : valid_target t -> 0 < lalign l -> allowed t ao -> f_cast_slice ao t v l = v_cast_slice t v l \/ f_cast_slice ao t v l = None.
Proof.
  intros Ht HA A. unfold f_cast_slice, v_cast_slice.
  destruct (f_fits_cases ao t v {| lsize := 0; lalign := lalign l |} Ht HA A) as [-> | ->]; [left|right]; reflexivity.
Qed.
Lemma ao0_cases t ao p a : allowed0 t ao -> 0 < a -> ao p a = align_offset0 t p a \/ ao p a = usize_max t.
Proof.
  intros A HA. destruct (A p a HA) as [(D & E)|E]; [left|right; exact E]. rewrite E. unfold align_offset0.
  apply Z.mod_divide in D; [|lia]. rewrite D. reflexivity.
Qed.
Lemma f_split_layout_cases ao0 ao1 t v l : valid_target t -> 0 < lalign l -> allowed0 t ao0 -> allowed t ao1 -> ulen v < usize_max t ->
  f_split_layout ao0 ao1 v l = v_split_layout t v l \/ f_split_layout ao0 ao1 v l = Ret (v, None) \/ exists msg, f_split_layout ao0 ao1 v l = Panic msg.
Proof.
  intros Ht HA A0 A1 U. unfold f_split_layout, v_split_layout.
  destruct (ao0_cases t ao0 (uptr v) (lalign l) A0 HA) as [-> | ->].
  - destruct (checked_sub (ulen v) (align_offset0 t (uptr v) (lalign l))) as [len|]; [|left; reflexivity].
    destruct (checked_sub len (lsize l)); [|left; reflexivity].
    destruct (v_split_at_byte unit_layout v (align_offset0 t (uptr v) (lalign l))) as [v' [al|]]; [|left; reflexivity].
    destruct (f_fits_cases ao1 t al l Ht HA A1) as [-> | ->]; [left; reflexivity|right; right; eexists; reflexivity].
  - right; left. unfold checked_sub. destruct (Z.leb_spec (usize_max t) (ulen v)); [lia|reflexivity].
Qed.
