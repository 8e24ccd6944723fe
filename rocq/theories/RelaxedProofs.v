(** * Proofs about the relaxed-memory variant. *)
From Verif Require Import Base Spec BaseFacts SyncModel SyncSpec SyncProofs ConcModel ConcSpec ConcProofs.
From Verif Require Import RelaxedModel RelaxedSpec.

(** ** The modification order *)
Definition increasing (m : list Z) : Prop :=
  forall a b x y, (a < b)%nat -> nth_error m a = Some x -> nth_error m b = Some y -> x < y.

Lemma nth_error_last (m : list Z) : m <> [] -> nth_error m (length m - 1) = Some (last m 0).
Proof.
  intros Hm. destruct (exists_last Hm) as (l & x & ->).
  rewrite last_last, app_length. cbn [length].
  replace (length l + 1 - 1)%nat with (length l) by lia.
  rewrite nth_error_app2 by lia. rewrite Nat.sub_diag. reflexivity.
Qed.

Lemma increasing_le_last m k x : increasing m -> nth_error m k = Some x -> x <= last m 0.
Proof.
  intros Hi Hk. assert (k < length m)%nat as Hlt by (apply nth_error_Some; congruence).
  assert (m <> []) as Hm by (destruct m; [cbn in Hlt; lia|discriminate]).
  destruct (Nat.eq_dec k (length m - 1)) as [->|Hne].
  - rewrite (nth_error_last m Hm) in Hk. injection Hk as <-. lia.
  - pose proof (Hi k (length m - 1)%nat x (last m 0)) as H. apply Z.lt_le_incl, H; [lia|exact Hk|].
    apply nth_error_last; exact Hm.
Qed.

Lemma increasing_mono m a b x y : increasing m -> (a <= b)%nat ->
  nth_error m a = Some x -> nth_error m b = Some y -> x <= y.
Proof.
  intros Hi Hab Ha Hb. destruct (Nat.eq_dec a b) as [->|Hne]; [rewrite Ha in Hb; injection Hb as <-; lia|].
  apply Z.lt_le_incl. apply (Hi a b); auto; lia.
Qed.

Lemma increasing_snoc m x : increasing m -> (m = [] \/ last m 0 < x) -> increasing (m ++ [x]).
Proof.
  intros Hi Hx a b u v Hab Ha Hb.
  assert (b < length (m ++ [x]))%nat as Hlt by (apply nth_error_Some; congruence).
  rewrite app_length in Hlt. cbn [length] in Hlt.
  rewrite nth_error_app1 in Ha by lia.
  destruct (Nat.eq_dec b (length m)) as [->|Hne].
  - rewrite nth_error_app2, Nat.sub_diag in Hb by lia. cbn in Hb. injection Hb as <-.
    pose proof (increasing_le_last m a u Hi Ha).
    destruct Hx as [->|Hx]; [cbn in Hlt, Ha; destruct a; discriminate|lia].
  - rewrite nth_error_app1 in Hb by lia. apply (Hi a b); assumption.
Qed.

(** ** One access *)


Definition reads_level (c : call) : Prop :=
  match c with CLevel => True | CGet l | CGetAt l _ => lsize l = 0 | _ => False end.

Inductive raccess_case (t : target) (st : block) (m : list Z) (c : call) (guess : Z) (k : nat) (v : Z)
  : list Z * nat * tstate -> Prop :=
| rc_success l :
    call_layout c = Some l -> 0 < lsize l -> S k = length m -> v = last m 0 ->
    fitsb st (last m 0) l = true ->
    snd (spec_step t (at_level st (last m 0)) c) = RBlock (placed (at_level st (last m 0)) l) ->
    raccess_case t st m c guess k v
      (m ++ [consumed (bumped (at_level st (last m 0)) l)], S k,
       Done c (RBlock (placed (at_level st (last m 0)) l)))
| rc_retry : loops c -> v <> guess -> raccess_case t st m c guess k v (m, k, Running c v)
| rc_decide r :
    (forall lv, event_level (c, r) = Some lv -> lv = v) ->
    (forall b, event_block (c, r) = Some b -> size b = 0) ->
    (forall a l, r = RBlock a -> call_layout c = Some l -> good_block st l (ptr a)) ->
    (r = snd (spec_step t (at_level st (last m 0)) c) \/ (exists lv, r = RFail (Mismatch lv)) \/ reads_level c) ->
    (forall msg, r = RPanic msg -> snd (spec_step t (at_level st (last m 0)) c) = RPanic msg) ->
    (loops c -> r = snd (spec_step t (at_level st (last m 0)) c)) ->
    raccess_case t st m c guess k v (m, k, Done c r).

Lemma finish_placed t st cur l : valid_target t -> valid_region t st -> valid_layout t l -> 0 <= cur ->
  finish st (align_up (start st + cur) (lalign l) + lsize l - start st)
            (align_up (start st + cur) (lalign l) - start st) = Ret (placed (at_level st cur) l).
Proof.
  intros Ht Hst Hl Hc. unfold finish, placed, place, at_level. cbn [consumed storage].
  pose proof (align_up_ge (start st + cur) (lalign l) (valid_layout_align t l Hl)).
  destruct Hst as (Hst1 & _).
  replace (start st + (align_up (start st + cur) (lalign l) - start st))
    with (align_up (start st + cur) (lalign l)) by lia.
  destruct (Z.eqb_spec (align_up (start st + cur) (lalign l)) 0) as [?|_]; [lia|]. reflexivity.
Qed.

Lemma last_of_index (m : list Z) k v : nth_error m k = Some v -> S k = length m -> v = last m 0.
Proof.
  intros Hk Hl. assert (m <> []) as Hm by (destruct m; [cbn in Hl; lia|discriminate]).
  pose proof (nth_error_last m Hm) as H. replace (length m - 1)%nat with k in H by lia. congruence.
Qed.

(** The looping calls. *)
Lemma raccess_loop_case t st m c l guess k v p :
  valid_target t -> valid_region t st -> valid_layout t l -> 0 < lsize l ->
  (c = CAlloc l \/ c = CGet l) ->
  increasing m -> nth_error m k = Some v -> 0 <= guess <= last m 0 -> last m 0 <= size st ->
  raccess t st m c guess k v = Some p -> raccess_case t st m c guess k v p.
Proof.
  intros Ht Hst Hl Hpos Hc Hi Hk Hg Hcur Hacc.
  assert (loops c) as Hloop by (exists l; auto).
  assert (call_layout c = Some l) as Hcl by (destruct Hc as [->| ->]; reflexivity).
  assert (snd (spec_step t (at_level st (last m 0)) c) =
          if fitsb st (last m 0) l then RBlock (placed (at_level st (last m 0)) l) else RNone) as Hspec.
  { destruct Hc as [->| ->]; cbn [spec_step storage consumed at_level];
      (destruct (Z.eqb_spec (lsize l) 0); [lia|]); destruct (fitsb st (last m 0) l); reflexivity. }
  assert (raccess t st m c guess k v =
    match prepare t st l guess with
    | Panic msg => Some (m, k, Done c (RPanic msg))
    | Ret AExhausted => Some (m, k, Done c RNone)
    | Ret (ACas e new at_aligned) =>
        match relaxed_cas m k v e new with
        | CasImpossible => None
        | CasFail observed => Some (m, k, Running c observed)
        | CasOk m' =>
            Some (m', S k, Done c match finish st new at_aligned with
                                  | Ret a => RBlock a
                                  | Panic msg => RPanic msg
                                  end)
        end
    end) as Heq.
  { destruct Hc as [->| ->]; cbn [raccess]; [reflexivity|]. destruct (Z.eqb_spec (lsize l) 0); [lia|reflexivity]. }
  rewrite Heq in Hacc. clear Heq.
  rewrite (prepare_spec t st l guess Ht Hst Hl Hpos) in Hacc by lia. cbv zeta in Hacc.
  destruct (fitsb st guess l) eqn:Hf.
  - unfold relaxed_cas in Hacc. destruct (Z.eqb_spec v guess) as [->|Hne].
    + destruct (Nat.eqb_spec (S k) (length m)) as [Hlast|_]; [|discriminate].
      pose proof (last_of_index m k guess Hk Hlast) as Hv. subst guess.
      rewrite (finish_placed t st (last m 0) l Ht Hst Hl) in Hacc by lia.
      injection Hacc as <-. apply rc_success; try assumption; try reflexivity.
      rewrite Hspec, Hf. reflexivity.
    + injection Hacc as <-. apply rc_retry; assumption.
  - injection Hacc as <-.
    assert (fitsb st (last m 0) l = false) as Hf2.
    { destruct (fitsb st (last m 0) l) eqn:Hf2; [|reflexivity].
      rewrite (fitsb_antimono st guess (last m 0) l) in Hf; try discriminate; try assumption; try lia.
      eapply valid_layout_align; eassumption. }
    rewrite Hf2 in Hspec.
    apply rc_decide; try discriminate.
    + left. symmetry; exact Hspec.
    + intros _. symmetry; exact Hspec.
Qed.

(** The exact calls. *)
Lemma raccess_at_case t st m c l lv guess k v p :
  valid_target t -> valid_region t st -> valid_layout t l -> is_usize t lv ->
  (c = CAllocAt l lv \/ (c = CGetAt l lv /\ lsize l <> 0)) ->
  increasing m -> nth_error m k = Some v -> 0 <= last m 0 -> last m 0 <= size st ->
  raccess t st m c guess k v = Some p -> raccess_case t st m c guess k v p.
Proof.
  intros Ht Hst Hl Hlv Hc Hi Hk Hg Hcur Hacc.
  assert (call_layout c = Some l) as Hcl by (destruct Hc as [->|[-> _]]; reflexivity).
  assert (~ loops c) as Hnl.
  { intros (l' & [-> | ->] & _); destruct Hc as [[=]|[[=] _]]. }
  assert (snd (spec_step t (at_level st (last m 0)) c) =
          if lsize l =? 0 then RPanic P_size
          else if size st <? lv then RPanic P_expect
          else if fitsb st lv l then
             if last m 0 =? lv then RBlock (placed (at_level st (last m 0)) l)
             else RFail (Mismatch (last m 0))
           else RFail Exhausted) as Hspec.
  { destruct Hc as [->|[-> Hnz]]; cbn [spec_step storage consumed at_level];
      destruct (Z.eqb_spec (lsize l) 0); try congruence; try reflexivity;
      destruct (size st <? lv); try reflexivity; destruct (fitsb st lv l); try reflexivity;
      destruct (last m 0 =? lv); reflexivity. }
  assert (raccess t st m c guess k v =
    match prepare t st l lv with
    | Panic msg => Some (m, k, Done c (RPanic msg))
    | Ret AExhausted => Some (m, k, Done c (RFail Exhausted))
    | Ret (ACas e new at_aligned) =>
        match relaxed_cas m k v e new with
        | CasImpossible => None
        | CasFail observed => Some (m, k, Done c (RFail (Mismatch observed)))
        | CasOk m' =>
            Some (m', S k, Done c match finish st new at_aligned with
                                  | Ret a => RBlock a
                                  | Panic msg => RPanic msg
                                  end)
        end
    end) as Heq.
  { destruct Hc as [->|[-> Hnz]]; cbn [raccess]; [reflexivity|].
    destruct (Z.eqb_spec (lsize l) 0); [congruence|reflexivity]. }
  rewrite Heq in Hacc. clear Heq.
  destruct (Z.eqb_spec (lsize l) 0) as [Hz|Hnz].
  { unfold prepare in Hacc. rewrite Hz in Hacc. cbn in Hacc. injection Hacc as <-.
    apply rc_decide; try discriminate.
    - left. symmetry; exact Hspec.
    - intros msg [= <-]. exact Hspec.
    - intros H; contradiction. }
  assert (0 < lsize l) as Hpos by (destruct Hl; lia).
  destruct (Z.ltb_spec (size st) lv) as [Hb|Hb].
  { unfold prepare in Hacc. destruct (Z.ltb_spec 0 (lsize l)); [|lia].
    destruct (Z.leb_spec lv (size st)); [lia|]. injection Hacc as <-.
    apply rc_decide; try discriminate.
    - left. symmetry; exact Hspec.
    - intros msg [= <-]. exact Hspec.
    - intros H1; contradiction. }
  unfold is_usize in Hlv.
  rewrite (prepare_spec t st l lv Ht Hst Hl Hpos) in Hacc by lia. cbv zeta in Hacc.
  destruct (fitsb st lv l) eqn:Hf.
  - unfold relaxed_cas in Hacc. destruct (Z.eqb_spec v lv) as [->|Hne].
    + destruct (Nat.eqb_spec (S k) (length m)) as [Hlast|_]; [|discriminate].
      pose proof (last_of_index m k lv Hk Hlast) as Hv. subst lv.
      rewrite (finish_placed t st (last m 0) l Ht Hst Hl) in Hacc by lia.
      injection Hacc as <-. apply rc_success; try assumption; try reflexivity.
      rewrite Hspec, Z.eqb_refl. reflexivity.
    + injection Hacc as <-. apply rc_decide; try discriminate.
      * unfold event_level. cbn. intros lv' [= <-]. reflexivity.
      * right; left. eauto.
      * intros H; contradiction.
  - injection Hacc as <-. apply rc_decide; try discriminate.
    + left. symmetry; exact Hspec.
    + intros H; contradiction.
Qed.

Lemma raccess_cases t st m c guess k v p :
  valid_target t -> valid_region t st -> valid_call t c -> is_reset c = false ->
  increasing m -> nth_error m k = Some v -> 0 <= guess <= last m 0 -> last m 0 <= size st ->
  raccess t st m c guess k v = Some p -> raccess_case t st m c guess k v p.
Proof.
  intros Ht Hst Hc Hres Hi Hk Hg Hcur Hacc.
  destruct c as [l|l lv|l|l lv| |]; try discriminate; cbn [valid_call] in Hc.
  - destruct (Z.eq_dec (lsize l) 0) as [Hz|Hnz].
    + cbn [raccess] in Hacc. unfold prepare in Hacc. rewrite Hz in Hacc. cbn in Hacc. injection Hacc as <-.
      assert (snd (spec_step t (at_level st (last m 0)) (CAlloc l)) = RPanic P_size) as Hspec.
      { cbn [spec_step]. rewrite Hz. reflexivity. }
      apply rc_decide; try discriminate.
      * left. symmetry; exact Hspec.
      * intros msg [= <-]. exact Hspec.
      * intros _. symmetry; exact Hspec.
    + eapply raccess_loop_case; eauto. destruct Hc; lia.
  - destruct Hc as [Hl Hlv]. eapply raccess_at_case; eauto. lia.
  - destruct (Z.eq_dec (lsize l) 0) as [Hz|Hnz].
    + cbn [raccess] in Hacc. rewrite Hz in Hacc. cbn in Hacc. injection Hacc as <-.
      apply rc_decide; try discriminate.
      * unfold event_level. cbn. intros lv' [= <-]. reflexivity.
      * unfold event_block. cbn. intros b [= <-]. exact Hz.
      * intros a l' [= <-] [= <-]. pose proof (valid_layout_align t l (proj1 Hc)).
        split; [apply Z.divide_refl|]. split; [|cbn; lia].
        unfold inside, in_block. cbn [start size]. intros x Hx. lia.
      * right; right. exact Hz.
      * intros (l' & [[=]|[= <-]] & Hp). lia.
    + destruct Hc as [Hc _]. eapply raccess_loop_case; eauto. destruct Hc; lia.
  - destruct Hc as [Hl Hlv]. destruct (Z.eq_dec (lsize l) 0) as [Hz|Hnz].
    + cbn [raccess] in Hacc. rewrite Hz in Hacc. cbn [Z.eqb] in Hacc. injection Hacc as <-.
      cbn [for_zst alevel]. destruct (Z.eqb_spec v lv) as [->|Hne]; cbn [negb]; apply rc_decide; try discriminate.
      * unfold event_level. cbn. intros lv' [= <-]. reflexivity.
      * unfold event_block. cbn. intros b [= <-]. exact Hz.
      * intros a l' [= <-] [= <-]. pose proof (valid_layout_align t l (proj1 Hl)).
        split; [apply Z.divide_refl|]. split; [|cbn; lia].
        unfold inside, in_block. cbn [start size]. intros x Hx. lia.
      * right; right. exact Hz.
      * intros (l' & [[=]|[=]] & Hp).
      * unfold event_level. cbn. intros lv' [= <-]. reflexivity.
      * right; right. exact Hz.
      * intros (l' & [[=]|[=]] & Hp).
    + eapply raccess_at_case; eauto; [apply Hl|lia].
  - cbn [raccess] in Hacc. injection Hacc as <-. apply rc_decide; try discriminate.
    + unfold event_level. cbn. intros lv' [= <-]. reflexivity.
    + right; right. exact I.
    + intros (l' & [[=]|[=]] & Hp).
Qed.

(** ** Invariant *)
Record rinv (t : target) (st : block) (s : rsys) : Prop := {
  ri_mo : increasing (mo s);
  ri_zero : nth_error (mo s) 0 = Some 0;
  ri_last : last (mo s) 0 <= size st;
  ri_view : forall i, (views s i < length (mo s))%nat;
  ri_running : forall i c g, rthreads s i = Running c g ->
     valid_call t c /\ is_reset c = false /\
     exists k, nth_error (mo s) k = Some g /\ (k <= views s i)%nat;
  ri_done : forall i c r b, rthreads s i = Done c r -> event_block (c, r) = Some b ->
     block_below st (latest s) b;
  ri_done_good : forall i c a l, rthreads s i = Done c (RBlock a) -> call_layout c = Some l ->
     good_block st l (ptr a);
  ri_ret : Forall (block_below st (latest s)) (returned_blocks (rhist s));
  ri_ret_good : forall i c a l, In (ERet i c (RBlock a)) (rhist s) -> call_layout c = Some l ->
     good_block st l (ptr a);
  ri_ret_pw : pairwise disjoint (returned_blocks (rhist s));
  ri_done_ret : forall i c r b, rthreads s i = Done c r -> event_block (c, r) = Some b ->
     Forall (disjoint b) (returned_blocks (rhist s));
  ri_done_done : forall i j c r b c' r' b', i <> j ->
     rthreads s i = Done c r -> event_block (c, r) = Some b ->
     rthreads s j = Done c' r' -> event_block (c', r') = Some b' -> disjoint b b';
  ri_done_level : forall i c r lv, rthreads s i = Done c r -> event_level (c, r) = Some lv ->
     nth_error (mo s) (views s i) = Some lv;
  ri_levels : forall i, nondecreasing (thread_levels i (rhistory s)) /\
     Forall (fun lv => exists k, nth_error (mo s) k = Some lv /\ (k <= views s i)%nat)
            (thread_levels i (rhistory s));
  (* a decided call's level was read after every level returned before *)
}.

Lemma rinv_init t st : valid_region t st -> rinv t st rinit.
Proof.
  intros (H1 & H2 & H3). split; cbn.
  - intros a b x y Hab Ha Hb. destruct b as [|b]; [lia|]. destruct b; discriminate.
  - reflexivity.
  - lia.
  - intros i. lia.
  - discriminate.
  - discriminate.
  - discriminate.
  - constructor.
  - intros i c a l [].
  - apply pairwise_nil.
  - discriminate.
  - discriminate.
  - discriminate.
  - intros i. split; [|constructor]. intros a b x y _ Ha. destruct a; discriminate.
Qed.

Lemma updn_same f i x : updn f i x i = x.
Proof. unfold updn. rewrite Nat.eqb_refl. reflexivity. Qed.
Lemma updn_other f i j x : j <> i -> updn f i x j = f j.
Proof. unfold updn. intros H. destruct (Nat.eqb_spec j i); congruence. Qed.

Lemma thread_levels_app i h1 h2 : thread_levels i (h1 ++ h2) = thread_levels i h1 ++ thread_levels i h2.
Proof.
  induction h1 as [|e h1 IH]; cbn [app thread_levels]; [reflexivity|].
  destruct e as [j c|j c r|j c r]; try exact IH. destruct (Nat.eqb j i); [|exact IH].
  destruct (event_level (c, r)); cbn [app]; rewrite IH; reflexivity.
Qed.

Lemma nondecreasing_snoc l x : nondecreasing l -> Forall (fun y => y <= x) l -> nondecreasing (l ++ [x]).
Proof.
  intros Hn Hf a b u v Hab Ha Hb.
  assert (b < length (l ++ [x]))%nat as Hlt by (apply nth_error_Some; congruence).
  rewrite app_length in Hlt. cbn [length] in Hlt.
  rewrite nth_error_app1 in Ha by lia.
  destruct (Nat.eq_dec b (length l)) as [->|Hne].
  - rewrite nth_error_app2, Nat.sub_diag in Hb by lia. cbn in Hb. injection Hb as <-.
    rewrite Forall_forall in Hf. apply Hf. eapply nth_error_In; eassumption.
  - rewrite nth_error_app1 in Hb by lia. apply (Hn a b); assumption.
Qed.

Lemma placed_block_facts t st cur l :
  valid_region t st -> valid_layout t l -> 0 < lsize l -> 0 <= cur -> fitsb st cur l = true ->
  let b := MkBlock (ptr (placed (at_level st cur) l)) (lsize l) in
  let cur' := consumed (bumped (at_level st cur) l) in
  cur < cur' /\ cur' <= size st /\ block_below st cur' b /\
  (forall b', block_below st cur b' -> disjoint b b') /\
  good_block st l (ptr (placed (at_level st cur) l)).
Proof.
  intros Hst Hl Hpos Hc Hf. cbv zeta. unfold fitsb in Hf.
  pose proof (valid_layout_align t l Hl) as Ha.
  pose proof (align_up_ge (start st + cur) (lalign l) Ha) as Hup.
  unfold placed, bumped, place, at_level. cbn [ptr consumed storage].
  destruct Hst as (H1 & H2 & H3).
  split; [lia|]. split; [lia|]. split; [right; cbn [start size]; lia|]. split.
  - intros b' [Hz|[H4 H5]].
    + apply disjoint_sym, disjoint_empty. lia.
    + apply disjoint_intro. cbn [start size]. lia.
  - split; [apply align_up_aligned; exact Ha|]. split; [|lia].
    apply inside_intro; cbn [start size]; lia.
Qed.

Lemma call_layout_valid t c l : valid_call t c -> call_layout c = Some l -> valid_layout t l.
Proof. apply valid_call_layout. Qed.

Lemma nth_error_snoc_some {A} (m : list A) x k v : nth_error m k = Some v -> nth_error (m ++ [x]) k = Some v.
Proof.
  intros H. rewrite nth_error_app1; [exact H|]. apply nth_error_Some. congruence.
Qed.

Lemma rinv_step t st s a :
  valid_target t -> valid_region t st -> valid_raction t a -> rinv t st s -> rinv t st (rstep t st s a).
Proof.
  intros Ht Hst Ha Hinv. destruct a as [i c|i k|i]; cbn [rstep].
  - (* invoke *)
    destruct (rthreads s i) as [|c0 g0|c0 r0] eqn:Hi; [|exact Hinv|exact Hinv].
    destruct Ha as [Hvc Hres]. destruct Hinv as [I1 I2 I3 I4 I5 I6 I7 I8 I9 I10 I11 I12 I13 I14].
    assert (forall j c1 r1, upd (rthreads s) i (Running c 0) j = Done c1 r1 -> rthreads s j = Done c1 r1) as Hd by
      (intros j c1 r1; unfold upd; destruct (Nat.eqb_spec j i); congruence).
    split; cbn [mo views rthreads rhist]; unfold latest, rhistory; cbn [mo rhist rev]; try assumption.
    + intros j c1 g1. unfold upd. destruct (Nat.eqb_spec j i) as [->|Hj].
      * intros [= <- <-]. split; [exact Hvc|]. split; [exact Hres|]. exists 0%nat. split; [exact I2|lia].
      * apply I5.
    + intros j c1 r1 b Hj. apply (I6 j c1 r1). apply Hd. exact Hj.
    + intros j c1 a1 l1 Hj. apply (I7 j). apply Hd. exact Hj.
    + intros j c1 a1 l1 [[=]|Hin]. apply (I9 j). exact Hin.
    + intros j c1 r1 b Hj. apply (I11 j c1 r1 b). apply Hd. exact Hj.
    + intros j k c1 r1 b1 c2 r2 b2 Hjk Hj Hb1 Hk. apply (I12 j k c1 r1 b1 c2 r2 b2); auto.
    + intros j c1 r1 lv Hj. apply (I13 j c1 r1). apply Hd. exact Hj.
    + intros j. rewrite thread_levels_app. cbn [thread_levels]. rewrite app_nil_r. apply I14.
  - (* access *)
    destruct (rthreads s i) as [|c g|c0 r0] eqn:Hi; [exact Hinv| |exact Hinv].
    destruct (nth_error (mo s) k) as [v|] eqn:Hk; [|exact Hinv].
    destruct (Nat.leb_spec (views s i) k) as [Hview|_]; [|exact Hinv].
    destruct (raccess t st (mo s) c g k v) as [[[m' k'] ts]|] eqn:Hacc; [|exact Hinv].
    destruct Hinv as [I1 I2 I3 I4 I5 I6 I7 I8 I9 I10 I11 I12 I13 I14].
    destruct (I5 i c g Hi) as (Hvc & Hres & kg & Hkg & Hkgv).
    pose proof (increasing_mono (mo s) 0 kg 0 g I1 ltac:(lia) I2 Hkg) as Hg0.
    pose proof (increasing_le_last (mo s) kg g I1 Hkg) as Hg1.
    pose proof (increasing_le_last (mo s) 0 0 I1 I2) as Hl0.
    assert (k < length (mo s))%nat as Hklt by (apply nth_error_Some; congruence).
    pose proof (raccess_cases t st (mo s) c g k v _ Ht Hst Hvc Hres I1 Hk (conj Hg0 Hg1) I3 Hacc) as Hcase.
    inversion Hcase as [l Hcl Hpos HSk Hv Hf Hsp Heq1|Hloop Hne Heq1|r Hr1 Hr2 Hr3 Hr4 Hr5 Hr6 Heq1]; subst m' k' ts.
    + (* success *)
      pose proof (call_layout_valid t c l Hvc Hcl) as Hvl.
      destruct (placed_block_facts t st (last (mo s) 0) l Hst Hvl Hpos Hl0 Hf) as (F1 & F2 & F3 & F4 & F5).
      set (cur' := consumed (bumped (at_level st (last (mo s) 0)) l)) in *.
      set (a := placed (at_level st (last (mo s) 0)) l) in *.
      assert (forall b, event_block (c, RBlock a) = Some b -> b = MkBlock (ptr a) (lsize l)) as Hblk.
      { unfold event_block. rewrite Hcl. intros b [= <-]. reflexivity. }
      assert (latest s = last (mo s) 0) as Hlat by reflexivity.
      assert (cur' = place (at_level st (last (mo s) 0)) l + lsize l - start st) as Hcur' by reflexivity.
      split; cbn [mo views rthreads rhist]; unfold latest, rhistory; cbn [mo rhist rev];
        rewrite ?last_last; try assumption.
      * apply increasing_snoc; [exact I1|]. right. exact F1.
      * apply nth_error_snoc_some; exact I2.
      * intros j. rewrite app_length. cbn [length]. unfold updn. destruct (Nat.eqb_spec j i) as [->|Hj].
        -- lia.
        -- specialize (I4 j). lia.
      * intros j c1 g1. unfold upd, updn. destruct (Nat.eqb_spec j i) as [->|Hj]; [discriminate|].
        intros Hr. destruct (I5 j c1 g1 Hr) as (A1 & A2 & kk & A3 & A4). split; [exact A1|]. split; [exact A2|].
        exists kk. split; [apply nth_error_snoc_some; exact A3|exact A4].
      * intros j c1 r1 b. unfold upd. destruct (Nat.eqb_spec j i) as [->|Hj].
        -- intros [= <- <-] Hb. rewrite (Hblk b Hb). exact F3.
        -- intros Hd Hb. eapply block_below_mono; [|eapply I6; eassumption]. rewrite Hlat. lia.
      * intros j c1 a1 l1. unfold upd. destruct (Nat.eqb_spec j i) as [->|Hj].
        -- intros [= <- <-] Hl1. assert (l1 = l) as -> by congruence. exact F5.
        -- apply I7.
      * cbn [returned_blocks]. eapply Forall_impl; [|exact I8]. intros b. apply block_below_mono. rewrite Hlat. lia.
      * intros j c1 a1 l1 [[=]|Hin]. apply (I9 j). exact Hin.
      * cbn [returned_blocks]. intros j c1 r1 b. unfold upd. destruct (Nat.eqb_spec j i) as [->|Hj].
        -- intros [= <- <-] Hb. rewrite (Hblk b Hb). eapply Forall_impl; [|exact I8]. exact F4.
        -- apply I11.
      * intros j j2 c1 r1 b1 c2 r2 b2 Hjk. unfold upd.
        destruct (Nat.eqb_spec j i) as [->|Hj], (Nat.eqb_spec j2 i) as [->|Hk2].
        -- congruence.
        -- intros [= <- <-] Hb1 Hd2 Hb2. rewrite (Hblk b1 Hb1). apply F4. eapply I6; eassumption.
        -- intros Hj2 Hb1 [= <- <-] Hb2. rewrite (Hblk b2 Hb2). apply disjoint_sym, F4. eapply I6; eassumption.
        -- apply I12. exact Hjk.
      * intros j c1 r1 lv. unfold upd, updn. destruct (Nat.eqb_spec j i) as [->|Hj].
        -- intros [= <- <-] Hlv. unfold event_level in Hlv. cbn [snd] in Hlv. injection Hlv as <-.
           rewrite HSk. rewrite nth_error_app2, Nat.sub_diag by lia. reflexivity.
        -- intros Hd Hlv. apply nth_error_snoc_some. eapply I13; eassumption.
      * intros j. rewrite thread_levels_app. cbn [thread_levels]. rewrite app_nil_r.
        destruct (I14 j) as [J1 J2]. split; [exact J1|]. eapply Forall_impl; [|exact J2].
        intros lv (kk & K1 & K2). exists kk. split; [apply nth_error_snoc_some; exact K1|].
        unfold updn. destruct (Nat.eqb_spec j i) as [->|Hj]; [|exact K2].
        pose proof (I4 i). lia.
    + (* retry *)
      assert (forall j c1 r1, upd (rthreads s) i (Running c v) j = Done c1 r1 -> rthreads s j = Done c1 r1 /\ j <> i) as Hd by
        (intros j c1 r1; unfold upd; destruct (Nat.eqb_spec j i); [congruence|auto]).
      split; cbn [mo views rthreads rhist]; unfold latest, rhistory; cbn [mo rhist rev]; try assumption.
      * intros j. unfold updn. destruct (Nat.eqb_spec j i); [exact Hklt|apply I4].
      * intros j c1 g1. unfold upd, updn. destruct (Nat.eqb_spec j i) as [->|Hj].
        -- intros [= <- <-]. split; [exact Hvc|]. split; [exact Hres|]. exists k. auto.
        -- apply I5.
      * intros j c1 r1 b Hj. apply (I6 j c1 r1). apply (Hd _ _ _ Hj).
      * intros j c1 a1 l1 Hj. apply (I7 j). apply (Hd _ _ _ Hj).
      * intros j c1 r1 b Hj. apply (I11 j c1 r1 b). apply (Hd _ _ _ Hj).
      * intros j k2 c1 r1 b1 c2 r2 b2 Hjk Hj Hb1 Hk2. apply (I12 j k2 c1 r1 b1 c2 r2 b2); auto.
        -- apply (Hd _ _ _ Hj).
        -- apply (Hd _ _ _ Hk2).
      * intros j c1 r1 lv Hj. destruct (Hd _ _ _ Hj) as [Hj1 Hj2]. rewrite updn_other by exact Hj2.
        apply (I13 j c1 r1). exact Hj1.
      * intros j. fold (rhistory s). destruct (I14 j) as [J1 J2]. split; [exact J1|]. eapply Forall_impl; [|exact J2].
        intros lv (kk & K1 & K2). exists kk. split; [exact K1|].
        unfold updn. destruct (Nat.eqb_spec j i) as [->|Hj]; [|exact K2]. lia.
    + (* decided without consuming *)
      split; cbn [mo views rthreads rhist]; unfold latest, rhistory; cbn [mo rhist rev]; try assumption.
      * intros j. unfold updn. destruct (Nat.eqb_spec j i); [exact Hklt|apply I4].
      * intros j c1 g1. unfold upd, updn. destruct (Nat.eqb_spec j i) as [->|Hj]; [discriminate|]. apply I5.
      * intros j c1 r1 b. unfold upd. destruct (Nat.eqb_spec j i) as [->|Hj].
        -- intros [= <- <-] Hb. left. apply Hr2. exact Hb.
        -- apply I6.
      * intros j c1 a1 l1. unfold upd. destruct (Nat.eqb_spec j i) as [->|Hj].
        -- intros [= -> ->]. apply Hr3. reflexivity.
        -- apply I7.
      * intros j c1 a1 l1 [[=]|Hin]. apply (I9 j). exact Hin.
      * cbn [returned_blocks]. intros j c1 r1 b. unfold upd. destruct (Nat.eqb_spec j i) as [->|Hj].
        -- intros [= <- <-] Hb. apply Forall_forall. intros x _. apply disjoint_empty. rewrite (Hr2 b Hb). lia.
        -- apply I11.
      * intros j j2 c1 r1 b1 c2 r2 b2 Hjk. unfold upd.
        destruct (Nat.eqb_spec j i) as [->|Hj], (Nat.eqb_spec j2 i) as [->|Hk2].
        -- congruence.
        -- intros [= <- <-] Hb1 Hd2 Hb2. apply disjoint_empty. rewrite (Hr2 b1 Hb1). lia.
        -- intros Hj2 Hb1 [= <- <-] Hb2. apply disjoint_sym, disjoint_empty. rewrite (Hr2 b2 Hb2). lia.
        -- apply I12. exact Hjk.
      * intros j c1 r1 lv. unfold upd, updn. destruct (Nat.eqb_spec j i) as [->|Hj].
        -- intros [= <- <-] Hlv. rewrite (Hr1 lv Hlv). exact Hk.
        -- apply I13.
      * intros j. rewrite thread_levels_app. cbn [thread_levels]. rewrite app_nil_r.
        destruct (I14 j) as [J1 J2]. split; [exact J1|]. eapply Forall_impl; [|exact J2].
        intros lv (kk & K1 & K2). exists kk. split; [exact K1|].
        unfold updn. destruct (Nat.eqb_spec j i) as [->|Hj]; [|exact K2]. lia.
  - (* return *)
    destruct (rthreads s i) as [|c0 g0|c r] eqn:Hi; [exact Hinv|exact Hinv|].
    destruct Hinv as [I1 I2 I3 I4 I5 I6 I7 I8 I9 I10 I11 I12 I13 I14].
    assert (forall j c1 r1, upd (rthreads s) i Idle j = Done c1 r1 -> rthreads s j = Done c1 r1 /\ j <> i) as Hd by
      (intros j c1 r1; unfold upd; destruct (Nat.eqb_spec j i); [congruence|auto]).
    split; cbn [mo views rthreads rhist]; unfold latest, rhistory; cbn [mo rhist rev]; try assumption.
    + intros j c1 g1. unfold upd. destruct (Nat.eqb_spec j i) as [->|Hj]; [discriminate|]. apply I5.
    + intros j c1 r1 b Hj. apply (I6 j c1 r1). apply (Hd _ _ _ Hj).
    + intros j c1 a1 l1 Hj. apply (I7 j). apply (Hd _ _ _ Hj).
    + cbn [returned_blocks]. destruct (event_block (c, r)) as [b|] eqn:Hb; [|exact I8].
      constructor; [|exact I8]. eapply I6; eassumption.
    + intros j c1 a1 l1 [[= -> -> ->]|Hin]; [|apply (I9 j); exact Hin]. apply (I7 j). exact Hi.
    + cbn [returned_blocks]. destruct (event_block (c, r)) as [b|] eqn:Hb; [|exact I10].
      apply pairwise_cons; [apply disjoint_sym| |exact I10]. eapply I11; eassumption.
    + intros j c1 r1 b Hj Hb. destruct (Hd _ _ _ Hj) as [Hj' Hne].
      cbn [returned_blocks]. destruct (event_block (c, r)) as [b'|] eqn:Hb'.
      * constructor; [|eapply I11; eassumption]. eapply (I12 j i); eassumption.
      * eapply I11; eassumption.
    + intros j k2 c1 r1 b1 c2 r2 b2 Hjk Hj Hb1 Hk2. apply (I12 j k2 c1 r1 b1 c2 r2 b2); auto.
      * apply (Hd _ _ _ Hj).
      * apply (Hd _ _ _ Hk2).
    + intros j c1 r1 lv Hj. destruct (Hd _ _ _ Hj) as [Hj1 Hj2]. apply (I13 j c1 r1). exact Hj1.
    + intros j. rewrite thread_levels_app. cbn [thread_levels]. destruct (I14 j) as [J1 J2].
      destruct (Nat.eqb_spec i j) as [<-|Hj]; [|rewrite app_nil_r; split; assumption].
      destruct (event_level (c, r)) as [lv|] eqn:Hlv; [|rewrite app_nil_r; split; assumption].
      pose proof (I13 i c r lv Hi Hlv) as Hnth. split.
      * apply nondecreasing_snoc; [exact J1|]. eapply Forall_impl; [|exact J2].
        intros y (kk & K1 & K2). eapply increasing_mono; eassumption.
      * apply Forall_app. split; [exact J2|]. constructor; [|constructor].
        exists (views s i). split; [exact Hnth|lia].
Qed.

Lemma rinv_run t st s sched :
  valid_target t -> valid_region t st -> Forall (valid_raction t) sched -> rinv t st s ->
  rinv t st (rrun t st s sched).
Proof.
  intros Ht Hst. revert s. induction sched as [|a sched IH]; intros s Hs Hinv; cbn [rrun fold_left].
  - exact Hinv.
  - inversion Hs; subst. apply IH; [assumption|]. apply rinv_step; assumption.
Qed.

(** ** The claims *)
Lemma relaxed_sound t st sched :
  valid_target t -> valid_region t st -> Forall (valid_raction t) sched ->
  let h := rhistory (rrun t st rinit sched) in
  (forall i c a l, In (ERet i c (RBlock a)) h -> call_layout c = Some l -> good_block st l (ptr a)) /\
  pairwise disjoint (returned_blocks h) /\
  (forall i, nondecreasing (thread_levels i h)).
Proof.
  intros Ht Hst Hs. cbv zeta.
  pose proof (rinv_run t st rinit sched Ht Hst Hs (rinv_init t st Hst)) as Hinv.
  split; [|split].
  - intros i c a l Hin. apply (ri_ret_good t st _ Hinv i). unfold rhistory in Hin. apply in_rev in Hin. exact Hin.
  - unfold rhistory. rewrite returned_blocks_rev. apply pairwise_rev. apply (ri_ret_pw t st _ Hinv).
  - intros i. apply (ri_levels t st _ Hinv i).
Qed.

(** The decision of an allocating call is the one the sequential slab would take at the newest level. *)
Lemma relaxed_exact t st sched i k c g r :
  valid_target t -> valid_region t st -> Forall (valid_raction t) sched ->
  let s := rrun t st rinit sched in
  rthreads s i = Running c g -> rthreads (rstep t st s (RAccess i k)) i = Done c r ->
  let seq := snd (step t {| storage := st; consumed := latest s |} c) in
  (forall l, c = CAlloc l \/ (c = CGet l /\ 0 < lsize l) -> r = seq) /\
  (forall a, r = RBlock a -> (forall l, call_layout c = Some l -> 0 < lsize l) -> r = seq) /\
  (forall msg, r = RPanic msg -> r = seq) /\
  (r = RFail Exhausted -> r = seq).
Proof.
  intros Ht Hst Hs. cbv zeta. intros Hi Hd.
  pose proof (rinv_run t st rinit sched Ht Hst Hs (rinv_init t st Hst)) as Hinv.
  set (s := rrun t st rinit sched) in *. cbn [rstep] in Hd. rewrite Hi in Hd.
  destruct (nth_error (mo s) k) as [v|] eqn:Hk; [|congruence].
  destruct (Nat.leb_spec (views s i) k) as [Hview|_]; [|congruence].
  destruct (raccess t st (mo s) c g k v) as [[[m' k'] ts]|] eqn:Hacc; [|congruence].
  cbn [rthreads] in Hd. rewrite upd_same in Hd. subst ts.
  destruct Hinv as [I1 I2 I3 I4 I5 I6 I7 I8 I9 I10 I11 I12 I13 I14].
  destruct (I5 i c g Hi) as (Hvc & Hres & kg & Hkg & Hkgv).
  pose proof (increasing_mono (mo s) 0 kg 0 g I1 ltac:(lia) I2 Hkg) as Hg0.
  pose proof (increasing_le_last (mo s) kg g I1 Hkg) as Hg1.
  pose proof (increasing_le_last (mo s) 0 0 I1 I2) as Hl0.
  assert (step t {| storage := st; consumed := latest s |} c = spec_step t (at_level st (latest s)) c) as ->.
  { apply step_spec; [exact Ht| |exact Hvc]. split; [exact Hst|]. cbn. unfold latest. lia. }
  unfold latest.
  pose proof (raccess_cases t st (mo s) c g k v _ Ht Hst Hvc Hres I1 Hk (conj Hg0 Hg1) I3 Hacc) as Hcase.
  inversion Hcase as [l Hcl Hpos HSk Hv Hf Hsp Heq1|Hloop Hne Heq1|r' Hr1 Hr2 Hr3 Hr4 Hr5 Hr6 Heq1]; subst.
  - rewrite Hsp. repeat split; intros; reflexivity || discriminate.
  - split; [|split; [|split]].
    + intros l Hc. destruct (Z.eq_dec (lsize l) 0) as [Hz|Hnz].
      * destruct Hc as [->|[-> ?]]; [|lia].
        destruct Hr4 as [H|[[lv H]|H]]; [exact H| |destruct H].
        cbn [raccess] in Hacc. unfold prepare in Hacc. rewrite Hz in Hacc. cbn in Hacc. congruence.
      * apply Hr6. exists l. split; [destruct Hc as [->|[-> _]]; auto|].
        destruct Hc as [->|[-> ?]]; [destruct Hvc; lia|lia].
    + intros a -> Hpos. destruct Hr4 as [H|[[lv H]|H]]; [exact H|discriminate|].
      destruct c as [l|l lv|l|l lv| |]; cbn [reads_level] in H; try contradiction.
      * specialize (Hpos l eq_refl). lia.
      * specialize (Hpos l eq_refl). lia.
      * exfalso. cbn [raccess] in Hacc. congruence.
    + intros msg ->. symmetry. apply Hr5. reflexivity.
    + intros ->. destruct Hr4 as [H|[[lv H]|H]]; [exact H|discriminate|].
      exfalso. destruct c as [l|l lv|l|l lv| |]; cbn [reads_level] in H; try contradiction; cbn [raccess] in Hacc.
      * rewrite H in Hacc. cbn in Hacc. congruence.
      * rewrite H in Hacc. cbn in Hacc. destruct (negb _); congruence.
      * congruence.
Qed.

Lemma relaxed_nonblocking t st sched i c g :
  valid_target t -> valid_region t st -> Forall (valid_raction t) sched ->
  let s := rrun t st rinit sched in
  rthreads s i = Running c g -> can_access t st s i (length (mo s) - 1) = true.
Proof.
  intros Ht Hst Hs. cbv zeta. intros Hi.
  pose proof (rinv_run t st rinit sched Ht Hst Hs (rinv_init t st Hst)) as Hinv.
  set (s := rrun t st rinit sched) in *. unfold can_access. rewrite Hi.
  destruct Hinv as [I1 I2 I3 I4 I5 I6 I7 I8 I9 I10 I11 I12 I13 I14].
  assert (mo s <> []) as Hm by (intros He; rewrite He in I2; discriminate).
  rewrite (nth_error_last (mo s) Hm). pose proof (I4 i) as Hv.
  destruct (Nat.leb_spec (views s i) (length (mo s) - 1)) as [_|?]; [|lia]. cbn [andb].
  destruct (I5 i c g Hi) as (_ & Hres & _).
  assert (forall e new, relaxed_cas (mo s) (length (mo s) - 1) (last (mo s) 0) e new <> CasImpossible) as Hcas.
  { intros e new. unfold relaxed_cas. destruct (_ =? _); [|discriminate].
    destruct (Nat.eqb_spec (S (length (mo s) - 1)) (length (mo s))); [discriminate|].
    destruct (mo s); [congruence|cbn in *; lia]. }
  assert (forall (x : cas_result) (f : list Z -> list Z * nat * tstate) (h : Z -> list Z * nat * tstate),
    x <> CasImpossible ->
    match match x with CasOk m' => Some (f m') | CasFail o => Some (h o) | CasImpossible => None end with
    | Some _ => true | None => false end = true) as Hx.
  { intros x f h Hne. destruct x; congruence. }
  destruct c as [l|l lv|l|l lv| |]; cbn [raccess]; try discriminate Hres; try reflexivity.
  - destruct (prepare t st l g) as [[|e new a]|]; try reflexivity. apply Hx. apply Hcas.
  - destruct (prepare t st l lv) as [[|e new a]|]; try reflexivity. apply Hx. apply Hcas.
  - destruct (lsize l =? 0); [reflexivity|].
    destruct (prepare t st l g) as [[|e new a]|]; try reflexivity. apply Hx. apply Hcas.
  - destruct (lsize l =? 0); [reflexivity|].
    destruct (prepare t st l lv) as [[|e new a]|]; try reflexivity. apply Hx. apply Hcas.
Qed.

(** Bound on the number of attempts. *)
Lemma rreturns_cons i a sched :
  rreturns i (a :: sched) =
  (match a with RReturn j => if Nat.eqb j i then 1 else 0 | _ => 0 end) + rreturns i sched.
Proof.
  unfold rreturns, count. cbn [filter]. destruct a as [j c|j k|j]; try reflexivity.
  destruct (Nat.eqb j i); cbn [length]; lia.
Qed.

Definition rprog (s : rsys) (i : nat) (n : Z) : Prop :=
  decided (rthreads s i) \/ exists c g, rthreads s i = Running c g /\ n <= g.

Lemma rprog_step t st s i n a :
  valid_target t -> valid_region t st -> valid_raction t a -> rinv t st s ->
  (forall j, a = RReturn j -> j <> i) ->
  (exists c g, rthreads s i = Running c g /\ (g = 0 \/ nth_error (mo s) (views s i) = Some g)) \/ decided (rthreads s i) ->
  rprog s i n ->
  rprog (rstep t st s a) i
    (n + match a with RAccess j k => if Nat.eqb j i && can_access t st s i k then 1 else 0 | _ => 0 end) /\
  ((exists c g, rthreads (rstep t st s a) i = Running c g /\
      (g = 0 \/ nth_error (mo (rstep t st s a)) (views (rstep t st s a) i) = Some g)) \/
   decided (rthreads (rstep t st s a) i)).
Proof.
  intros Ht Hst Ha Hinv Hret Haux Hp.
  destruct a as [j c|j k|j]; cbn [rstep].
  - rewrite Z.add_0_r. destruct (rthreads s j) as [|cj gj|cj rj] eqn:Hj; [|split; assumption|split; assumption].
    assert (j <> i) as Hji.
    { intros ->. destruct Hp as [(c' & r' & Hd)|(c' & g' & Hd & _)]; congruence. }
    unfold rprog, decided in *. cbn [rthreads mo views]. rewrite upd_other by congruence. split; assumption.
  - destruct (Nat.eqb_spec j i) as [->|Hji].
    + cbn [andb]. unfold can_access.
      destruct (rthreads s i) as [|c g|cj rj] eqn:Hi.
      * destruct Hp as [(c' & r' & Hd)|(c' & g' & Hd & _)]; congruence.
      * destruct (nth_error (mo s) k) as [v|] eqn:Hk; [|rewrite Z.add_0_r, ?Hi; split; [exact Hp|exact Haux]].
        destruct (Nat.leb_spec (views s i) k) as [Hview|Hview]; cbn [andb];
          [|rewrite Z.add_0_r; rewrite Hi; split; [exact Hp|exact Haux]].
        destruct (raccess t st (mo s) c g k v) as [[[m' k'] ts]|] eqn:Hacc;
          [|rewrite Z.add_0_r, Hi; split; [exact Hp|exact Haux]].
        destruct Hinv as [I1 I2 I3 I4 I5 I6 I7 I8 I9 I10 I11 I12 I13 I14].
        destruct (I5 i c g Hi) as (Hvc & Hres & kg & Hkg & Hkgv).
        pose proof (increasing_mono (mo s) 0 kg 0 g I1 ltac:(lia) I2 Hkg) as Hg0.
        pose proof (increasing_le_last (mo s) kg g I1 Hkg) as Hg1.
        pose proof (raccess_cases t st (mo s) c g k v _ Ht Hst Hvc Hres I1 Hk (conj Hg0 Hg1) I3 Hacc) as Hcase.
        inversion Hcase as [l Hcl Hpos HSk Hv Hf Hsp Heq1|Hloop Hne Heq1|r' Hr1 Hr2 Hr3 Hr4 Hr5 Hr6 Heq1]; subst m' k' ts;
          unfold rprog, decided; cbn [rthreads mo views]; rewrite upd_same.
        -- split; [left|right]; eauto.
        -- rewrite updn_same. split; [|left; exists c, v; split; [reflexivity|right; exact Hk]].
           right. exists c, v. split; [reflexivity|].
           destruct Hp as [(c' & r' & Hd)|(c' & g' & Hd & Hng)]; [congruence|].
           rewrite Hi in Hd. injection Hd as <- <-.
           destruct Haux as [(c' & g' & Hd & Haux)|(c' & r' & Hd)]; [|congruence].
           injection Hd as <- <-.
           pose proof (increasing_mono (mo s) 0 k 0 v I1 ltac:(lia) I2 Hk) as Hv0.
           destruct Haux as [->|Hnth]; [lia|].
           pose proof (increasing_mono (mo s) (views s i) k g v I1 Hview Hnth Hk). lia.
        -- split; [left|right]; eauto.
      * rewrite Z.add_0_r, Hi. split; assumption.
    + cbn [andb]. rewrite Z.add_0_r.
      destruct (rthreads s j) as [|c g|cj rj] eqn:Hj; try (split; assumption).
      destruct (nth_error (mo s) k) as [v|] eqn:Hk; try (split; assumption).
      destruct (Nat.leb (views s j) k) eqn:Hle; try (split; assumption).
      destruct (raccess t st (mo s) c g k v) as [[[m' k'] ts]|] eqn:Hacc; try (split; assumption).
      unfold rprog, decided in *. cbn [rthreads mo views].
      rewrite upd_other, updn_other by congruence. split; [exact Hp|].
      destruct Haux as [(c' & g' & Hd & Haux)|Hd]; [left|right; exact Hd].
      exists c', g'. split; [exact Hd|]. destruct Haux as [->|Hnth]; [left; reflexivity|right].
      destruct Hinv as [I1 I2 I3 I4 I5 I6 I7 I8 I9 I10 I11 I12 I13 I14].
      destruct (I5 j c g Hj) as (Hvc & Hres & kg & Hkg & Hkgv).
      pose proof (increasing_mono (mo s) 0 kg 0 g I1 ltac:(lia) I2 Hkg) as Hg0.
      pose proof (increasing_le_last (mo s) kg g I1 Hkg) as Hg1.
      pose proof (raccess_cases t st (mo s) c g k v _ Ht Hst Hvc Hres I1 Hk (conj Hg0 Hg1) I3 Hacc) as Hcase.
      inversion Hcase; subst; try exact Hnth. apply nth_error_snoc_some. exact Hnth.
  - rewrite Z.add_0_r. specialize (Hret j eq_refl).
    destruct (rthreads s j) as [|cj gj|cj rj] eqn:Hj; [split; assumption|split; assumption|].
    unfold rprog, decided in *. cbn [rthreads mo views]. rewrite upd_other by congruence. split; assumption.
Qed.

Lemma rprog_run t st s i n sched :
  valid_target t -> valid_region t st -> Forall (valid_raction t) sched -> rinv t st s ->
  rreturns i sched = 0 ->
  (exists c g, rthreads s i = Running c g /\ (g = 0 \/ nth_error (mo s) (views s i) = Some g)) \/ decided (rthreads s i) ->
  rprog s i n -> rprog (rrun t st s sched) i (n + performed t st s i sched).
Proof.
  intros Ht Hst. revert s n. induction sched as [|a sched IH]; intros s n Hs Hinv Hret Haux Hp; cbn [rrun fold_left performed].
  - rewrite Z.add_0_r. exact Hp.
  - inversion Hs as [|? ? Ha Hs']; subst.
    rewrite rreturns_cons in Hret.
    assert (0 <= rreturns i sched) as Hrn by (unfold rreturns; lia).
    assert (forall j, a = RReturn j -> j <> i) as Hra.
    { intros j -> ->. rewrite Nat.eqb_refl in Hret. lia. }
    destruct (rprog_step t st s i n a Ht Hst Ha Hinv Hra Haux Hp) as [Hp' Haux'].
    rewrite Z.add_assoc. apply IH; auto.
    + apply rinv_step; assumption.
    + destruct a as [j c|j k|j]; try lia. destruct (Nat.eqb j i); lia.
Qed.

Lemma relaxed_wait_free t st pre i c mid :
  valid_target t -> valid_region t st ->
  Forall (valid_raction t) (pre ++ RInvoke i c :: mid) ->
  rreturns i mid = 0 ->
  let s0 := rrun t st rinit pre in
  rthreads s0 i = Idle ->
  size st + 1 <= performed t st (rstep t st s0 (RInvoke i c)) i mid ->
  decided (rthreads (rrun t st rinit (pre ++ RInvoke i c :: mid)) i).
Proof.
  intros Ht Hst Hs Hret. cbv zeta. intros Hidle Hn.
  apply Forall_app in Hs as [Hpre Hmid]. inversion Hmid as [|? ? Hinvk Hmid']; subst.
  pose proof (rinv_run t st rinit pre Ht Hst Hpre (rinv_init t st Hst)) as Hinv0.
  unfold rrun in *. rewrite fold_left_app. cbn [fold_left].
  fold (rrun t st rinit pre) in *. set (s0 := rrun t st rinit pre) in *.
  pose proof (rinv_step t st s0 (RInvoke i c) Ht Hst Hinvk Hinv0) as Hinv1.
  fold (rrun t st (rstep t st s0 (RInvoke i c)) mid).
  assert (rthreads (rstep t st s0 (RInvoke i c)) i = Running c 0) as Hrun.
  { cbn [rstep]. rewrite Hidle. cbn [rthreads]. apply upd_same. }
  assert (rprog (rstep t st s0 (RInvoke i c)) i 0) as Hp0 by (right; exists c, 0; split; [exact Hrun|lia]).
  pose proof (rprog_run t st _ i 0 mid Ht Hst Hmid' Hinv1 Hret
    (or_introl (ex_intro _ c (ex_intro _ 0 (conj Hrun (or_introl eq_refl))))) Hp0) as Hp.
  pose proof (rinv_run t st _ mid Ht Hst Hmid' Hinv1) as Hinv2.
  destruct Hp as [Hd|(c' & g' & Hd & Hng)]; [exact Hd|exfalso].
  destruct (ri_running t st _ Hinv2 i c' g' Hd) as (_ & _ & kk & Hk1 & _).
  pose proof (increasing_le_last _ kk g' (ri_mo t st _ Hinv2) Hk1).
  pose proof (ri_last t st _ Hinv2). lia.
Qed.
