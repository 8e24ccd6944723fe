(** * PlanProofs *)
From Coq Require FinFun.
From Verif Require Import Base Spec BaseFacts SyncModel SyncSpec SyncProofs ConcModel ConcSpec ConcProofs RelaxedModel RelaxedSpec RelaxedProofs PlanSpec.

(** A cost model: [B] describes the budgets that can be reached. *)
Definition pays (st : block) (cost : layout -> Z) (B : Z -> Prop) (l : layout) : Prop :=
  0 <= cost l /\
  forall u S, 0 <= u <= S -> B S -> align_up (start st + u) (lalign l) + lsize l - start st <= S + cost l /\ B (S + cost l).
Definition pays_call (st : block) (cost : layout -> Z) (B : Z -> Prop) (c : call) : Prop :=
  forall l, call_layout c = Some l -> lsize l <> 0 -> pays st cost B l.

Lemma pays_worst t st l : valid_layout t l -> 0 <= start st -> pays st worst (fun _ => True) l.
Proof.
  intros V S0. pose proof (valid_layout_align t l V) as HA. destruct V as (L0 & _). unfold pays, worst. split; [lia|]. intros u S Hu _. split; [|exact Logic.I].
  pose proof (align_up_ge (start st + u) (lalign l) HA). lia.
Qed.

Lemma rounded_ge A l : 0 < A -> 0 <= lsize l -> lsize l <= rounded A l /\ (A | rounded A l).
Proof.
  intros HA L0. unfold rounded. split; [|apply Z.divide_factor_r].
  pose proof (Z.div_mod (lsize l + A - 1) A ltac:(lia)). pose proof (Z.mod_pos_bound (lsize l + A - 1) A HA). lia.
Qed.

Lemma pays_rounded A t st l : valid_layout t l -> 0 < A -> (lalign l | A) -> (A | start st) ->
  pays st (rounded A) (fun S => (A | S)) l.
Proof.
  intros V HA D AS. pose proof (valid_layout_align t l V) as HL. destruct V as (L0 & _).
  destruct (rounded_ge A l HA L0) as (R1 & R2). split; [lia|]. intros u S Hu BS. split; [|apply Z.divide_add_r; assumption].
  assert (align_up (start st + u) (lalign l) <= start st + S); [|lia].
  apply align_up_least; [exact HL|lia|]. apply Z.divide_add_r; eapply Z.divide_trans; eauto.
Qed.

Lemma price_nonneg st cost (B : Z -> Prop) c : pays_call st cost B c -> 0 <= price cost c.
Proof. intros P. unfold price. destruct (call_layout c) as [l|] eqn:E; [|lia]. destruct (Z.eqb_spec (lsize l) 0); [lia|]. apply (P l E n). Qed.

Lemma total_app cost xs ys : total cost (xs ++ ys) = total cost xs + total cost ys.
Proof. induction xs as [|x xs IH]; cbn [app total fold_right] in *; [reflexivity|]. fold (total cost (xs ++ ys)). fold (total cost xs). rewrite IH. lia. Qed.

Lemma total_nonneg st cost B cs : Forall (pays_call st cost B) cs -> 0 <= total cost cs.
Proof. induction 1 as [|c cs H _ IH]; cbn [total fold_right]; [lia|]. fold (total cost cs). pose proof (price_nonneg st cost B c H). lia. Qed.

(** A request whose price can be paid fits. *)
Lemma paid_fits st cost B c l u S : pays_call st cost B c -> call_layout c = Some l -> lsize l <> 0 -> 0 <= u <= S -> B S ->
  S + price cost c <= size st -> fitsb st u l = true.
Proof.
  intros P C NZ U BS T. unfold price in T. rewrite C in T. destruct (Z.eqb_spec (lsize l) 0); [lia|].
  destruct (P l C NZ) as (_ & K). destruct (K u S U BS) as (K1 & _). unfold fitsb. apply Z.leb_le. lia.
Qed.

(** ** One thread *)
Lemma seq_plan t st cost (B : Z -> Prop) cs : valid_target t -> forall s S,
  ok t s -> storage s = st -> consumed s <= S -> B S -> Forall (valid_call t) cs -> no_reset cs -> Forall (pays_call st cost B) cs ->
  S + total cost cs <= size st ->
  forall c r, In (c, r) (snd (run t s cs)) -> wants c -> exists a, r = RBlock a.
Proof.
  intros Ht. induction cs as [|c cs IH]; intros s S Hok E C BS V NR P T c0 r0 Hin W; cbn [run] in Hin; [destruct Hin|].
  inversion V as [|? ? Vc Vs]; subst. inversion NR as [|? ? NRc NRs]; subst. inversion P as [|? ? Pc Ps]; subst.
  cbn [total fold_right] in T. fold (total cost cs) in T. pose proof (total_nonneg _ _ _ _ Ps) as T0. pose proof (price_nonneg _ _ _ _ Pc) as T1.
  pose proof (step_spec t s c Ht Hok Vc) as SS. pose proof (step_ok t s c Ht Hok Vc) as (OK' & ST').
  pose proof (spec_step_cases t s c) as CA. rewrite <- SS in CA.
  assert (U0 : 0 <= consumed s) by (destruct Hok; lia).
  destruct (step t s c) as [s' r] eqn:ES. cbn [fst] in *.
  destruct (run t s' cs) as [s'' h] eqn:ER. cbn [snd] in Hin.
  assert (NEXT : exists S', consumed s' <= S' /\ B S' /\ S' + total cost cs <= size (storage s)).
  { destruct CA as [(-> & _)|[(l & Hl & NZ & F & -> & _)|(-> & _)]]; [exists S; repeat split; try assumption; lia| |discriminate].
    destruct (Pc l Hl NZ) as (_ & K). destruct (K (consumed s) S ltac:(lia) BS) as (K1 & K2).
    exists (S + cost l). cbn [bumped consumed]. unfold place. split; [lia|]. split; [exact K2|].
    unfold price in T. rewrite Hl in T. destruct (Z.eqb_spec (lsize l) 0); lia. }
  destruct Hin as [[= <- <-]|Hin].
  - destruct c as [l| |l| | |]; cbn [wants] in W; try contradiction; cbn [spec_step] in SS.
    + destruct (Z.eqb_spec (lsize l) 0); [lia|].
      rewrite (paid_fits _ cost B (CAlloc l) l (consumed s) S Pc eq_refl n ltac:(lia) BS ltac:(lia)) in SS. injection SS as _ ->. eauto.
    + destruct (Z.eqb_spec (lsize l) 0); [injection SS as _ ->; eauto|].
      rewrite (paid_fits _ cost B (CGet l) l (consumed s) S Pc eq_refl n ltac:(lia) BS ltac:(lia)) in SS. injection SS as _ ->. eauto.
  - destruct NEXT as (S' & N1 & N2 & N3).
    refine (IH s' S' OK' ST' N1 N2 Vs NRs Ps N3 c0 r0 _ W). rewrite ER. exact Hin.
Qed.

(** ** Threads *)
Record rplan (st : block) (cost : layout -> Z) (B : Z -> Prop) (tot : Z) (s : rsys) : Prop := {
  rp_sum : exists P S, latest s <= S /\ B S /\ Forall (pays_call st cost B) (map snd P) /\ NoDup (map fst P) /\
     (forall i c g, rthreads s i = Running c g -> In (i, c) P) /\ S + total cost (map snd P) <= tot;
  rp_done : forall i c r, rthreads s i = Done c r -> wants c -> exists a, r = RBlock a;
  rp_ret : forall i c r, In (ERet i c r) (rhist s) -> wants c -> exists a, r = RBlock a }.

Lemma total_remove cost i c (P : list (nat * call)) : In (i, c) P -> NoDup (map fst P) ->
  exists P', total cost (map snd P) = price cost c + total cost (map snd P') /\ NoDup (map fst P') /\
    (forall j d, In (j, d) P -> j <> i -> In (j, d) P') /\ (forall p, In p P' -> In p P).
Proof.
  induction P as [|[j d] P IH]; intros Hin ND; [destruct Hin|]. cbn [map fst snd] in *. inversion ND as [|? ? N1 N2]; subst.
  destruct Hin as [[= -> ->]|Hin].
  - exists P. split; [reflexivity|]. split; [exact N2|]. split; [|intros; right; assumption]. intros j d [[= -> ->]|H] NE; [congruence|exact H].
  - destruct (IH Hin N2) as (P' & E & ND' & K1 & K2). exists ((j, d) :: P'). cbn [map fst snd total fold_right] in *.
    fold (total cost (map snd P)) in *. fold (total cost (map snd P')) in *. split; [lia|]. split.
    { constructor; [|exact ND']. intros X. apply N1. apply in_map_iff in X as ([j' d'] & X1 & X2). cbn in X1. subst j'.
      apply in_map_iff. exists (j, d'). split; [reflexivity|]. apply K2. exact X2. }
    split; [intros j' d' [X|X] NE; [left; exact X|right; apply K1; assumption]|].
    intros p [X|X]; [left; exact X|right; apply K2; exact X].
Qed.

Lemma rplan_decide st cost (B : Z -> Prop) tot s m' vs i c r (P : list (nat * call)) S S' (P' : list (nat * call)) :
  (forall j d, In (j, d) P -> j <> i -> In (j, d) P') -> (forall p, In p P' -> In p P) -> NoDup (map fst P') ->
  Forall (pays_call st cost B) (map snd P) -> last m' 0 <= S' -> B S' -> S' + total cost (map snd P') <= tot ->
  (forall j d g, rthreads s j = Running d g -> In (j, d) P) ->
  (forall j d r, rthreads s j = Done d r -> wants d -> exists a, r = RBlock a) ->
  (forall j d r, In (ERet j d r) (rhist s) -> wants d -> exists a, r = RBlock a) ->
  S <= S' -> (wants c -> exists a, r = RBlock a) ->
  rplan st cost B tot {| mo := m'; views := vs; rthreads := upd (rthreads s) i (Done c r); rhist := ELin i c r :: rhist s |}.
Proof.
  intros K1 K2 ND PP L BS SUM RU RD RR SS W. constructor; cbn [rthreads rhist].
  - exists P', S'. unfold latest. cbn [mo]. split; [exact L|]. split; [exact BS|]. split.
    { apply Forall_forall. intros x X. rewrite Forall_forall in PP. apply PP. apply in_map_iff in X as (p & <- & X). apply in_map. apply K2. exact X. }
    split; [exact ND|]. split; [|exact SUM]. intros j d g E. unfold upd in E. destruct (Nat.eqb_spec j i); [discriminate|].
    apply K1; [exact (RU j d g E)|assumption].
  - intros j d r' E. unfold upd in E. destruct (Nat.eqb_spec j i); [|exact (RD j d r' E)]. injection E as <- <-. exact W.
  - intros j d r' [E|E]; [discriminate|exact (RR j d r' E)].
Qed.

Lemma rplan_step t st cost (B : Z -> Prop) tot s a : valid_target t -> valid_region t st -> valid_raction t a -> rinv t st s ->
  Forall (pays_call st cost B) (rcalls_of [a]) -> tot + total cost (rcalls_of [a]) <= size st ->
  rplan st cost B tot s -> rplan st cost B (tot + total cost (rcalls_of [a])) (rstep t st s a).
Proof.
  intros Ht Hst Ha Hinv PA T R. pose proof (total_nonneg _ _ _ _ PA) as TN. pose proof R as [(P & S & L & BS & PP & ND & RU & SUM) RD RR].
  assert (SAME : rplan st cost B (tot + total cost (rcalls_of [a])) s).
  { constructor; [|exact RD|exact RR]. exists P, S. repeat (split; [assumption|]). lia. }
  destruct a as [i c|i k|i]; cbn [rstep].
  - destruct (rthreads s i) as [|c0 g0|c0 r0] eqn:Hi; [|exact SAME|exact SAME].
    cbn [rcalls_of total fold_right] in *. inversion PA as [|? ? Pc _]; subst. pose proof (price_nonneg _ _ _ _ Pc).
    (* an idle thread may still be listed: take it out first *)
    set (P0 := filter (fun p => negb (Nat.eqb (fst p) i)) P).
    assert (T0 : total cost (map snd P0) <= total cost (map snd P)).
    { clear - PP. unfold P0. induction P as [|[j d] P IH]; cbn [filter map fst snd total fold_right] in *; [lia|]. inversion PP as [|? ? H1 H2]; subst.
      specialize (IH H2). pose proof (price_nonneg _ _ _ _ H1). fold (total cost (map snd P)).
      destruct (negb (Nat.eqb j i)); cbn [map snd fold_right]; fold (total cost (map snd (filter (fun p => negb (Nat.eqb (fst p) i)) P))); lia. }
    constructor; cbn [rthreads rhist].
    + exists ((i, c) :: P0), S. unfold latest in *. cbn [mo map fst snd total fold_right]. fold (total cost (map snd P0)).
      split; [exact L|]. split; [exact BS|]. split.
      { constructor; [exact Pc|]. apply Forall_forall. intros x X. rewrite Forall_forall in PP. apply PP.
        apply in_map_iff in X as (p & <- & X). apply in_map. apply filter_In in X. apply X. }
      split.
      { constructor.
        - intros X. apply in_map_iff in X as (p & X1 & X2). apply filter_In in X2 as (_ & X2). rewrite X1, Nat.eqb_refl in X2. discriminate.
        - unfold P0. clear - ND. induction P as [|p P IH]; cbn [filter map fst] in *; [constructor|]. inversion ND as [|? ? N1 N2]; subst.
          destruct (negb (Nat.eqb (fst p) i)); [|exact (IH N2)]. cbn [map]. constructor; [|exact (IH N2)].
          intros X. apply N1. apply in_map_iff in X as (q & X1 & X2). rewrite <- X1. apply in_map. apply filter_In in X2. apply X2. }
      split; [|lia]. intros j d g E. unfold upd in E. destruct (Nat.eqb_spec j i) as [->|NE]; [injection E as <- <-; left; reflexivity|].
      right. apply filter_In. split; [exact (RU j d g E)|]. cbn [fst]. destruct (Nat.eqb_spec j i); [contradiction|reflexivity].
    + intros j d r E. unfold upd in E. destruct (Nat.eqb_spec j i); [discriminate|exact (RD j d r E)].
    + intros j d r [E|E]; [discriminate|exact (RR j d r E)].
  - destruct (rthreads s i) as [|c g|c0 r0] eqn:Hi; [exact SAME| |exact SAME].
    destruct (nth_error (mo s) k) as [v|] eqn:Hk; [|exact SAME].
    destruct (Nat.leb_spec (views s i) k) as [Hview|_]; [|exact SAME].
    destruct (raccess t st (mo s) c g k v) as [[[m' k'] ts]|] eqn:Hacc; [|exact SAME].
    destruct Hinv as [I1 I2 I3 I4 I5 I6 I7 I8 I9 I10 I11 I12 I13 I14].
    destruct (I5 i c g Hi) as (Hvc & Hres & kg & Hkg & Hkgv).
    pose proof (increasing_mono (mo s) 0 kg 0 g I1 ltac:(lia) I2 Hkg) as Hg0.
    pose proof (increasing_le_last (mo s) kg g I1 Hkg) as Hg1.
    pose proof (increasing_le_last (mo s) 0 0 I1 I2) as Hl0.
    pose proof (raccess_cases t st (mo s) c g k v _ Ht Hst Hvc Hres I1 Hk (conj Hg0 Hg1) I3 Hacc) as Hcase.
    cbn [rcalls_of total fold_right] in *.
    destruct (total_remove cost i c P (RU i c g Hi) ND) as (P' & E1 & ND' & K1 & K2).
    assert (Pc : pays_call st cost B c).
    { rewrite Forall_forall in PP. apply PP. apply (in_map snd P (i, c)). exact (RU i c g Hi). }
    pose proof (price_nonneg _ _ _ _ Pc) as Tc.
    assert (TP : 0 <= total cost (map snd P')).
    { apply (total_nonneg st cost B). apply Forall_forall. intros x X. rewrite Forall_forall in PP. apply PP. apply in_map_iff in X as (p & <- & X). apply in_map. apply K2. exact X. }
    unfold latest in L.
    inversion Hcase as [l Hcl Hpos HSk Hv Hf Hsp Heq1|Hloop Hne Heq1|r' Hr1 Hr2 Hr3 Hr4 Hr5 Hr6 Heq1]; subst.
    + destruct (Pc l Hcl ltac:(lia)) as (_ & K). destruct (K (last (mo s) 0) S ltac:(lia) BS) as (KA & KB).
      unfold price in E1, Tc. rewrite Hcl in E1, Tc. destruct (Z.eqb_spec (lsize l) 0); [lia|].
      apply (rplan_decide st cost B _ s _ _ i c _ P S (S + cost l) P'); try assumption; try lia.
      * rewrite last_last. unfold bumped, place, at_level. cbn [consumed storage]. lia.
      * intros _. eauto.
    + constructor; cbn [rthreads rhist].
      * exists P, S. unfold latest. cbn [mo]. do 4 (split; [assumption|]). split; [|lia]. intros j d g' E. unfold upd in E.
        destruct (Nat.eqb_spec j i) as [->|]; [|exact (RU j d g' E)]. injection E as <- _. exact (RU i c g Hi).
      * intros j d r E. unfold upd in E. destruct (Nat.eqb_spec j i); [discriminate|exact (RD j d r E)].
      * exact RR.
    + apply (rplan_decide st cost B _ s _ _ i c _ P S S P'); try assumption; try lia.
      intros W. destruct c as [l| |l| | |]; cbn [wants] in W; try contradiction.
      * rewrite (Hr6 (ex_intro _ l (conj (or_introl eq_refl) W))). cbn [spec_step]. destruct (Z.eqb_spec (lsize l) 0); [lia|].
        unfold at_level; cbn [consumed storage]. rewrite (paid_fits st cost B (CAlloc l) l (last (mo s) 0) S Pc eq_refl n ltac:(lia) BS ltac:(lia)). cbn [snd]. eauto.
      * destruct (Z.eq_dec (lsize l) 0) as [Z0|NZ].
        -- cbn [raccess] in Hacc. rewrite Z0 in Hacc. cbn in Hacc. injection Hacc as <-. eauto.
        -- assert (LP : 0 < lsize l) by (destruct Hvc as (HV & _); destruct HV; lia).
           rewrite (Hr6 (ex_intro _ l (conj (or_intror eq_refl) LP))). cbn [spec_step]. destruct (Z.eqb_spec (lsize l) 0); [lia|].
           unfold at_level; cbn [consumed storage]. rewrite (paid_fits st cost B (CGet l) l (last (mo s) 0) S Pc eq_refl n ltac:(lia) BS ltac:(lia)). cbn [snd]. eauto.
  - destruct (rthreads s i) as [|c0 g0|c0 r0] eqn:Hi; [exact SAME|exact SAME|].
    cbn [rcalls_of total fold_right] in *. constructor; cbn [rthreads rhist].
    + exists P, S. unfold latest in *. cbn [mo]. do 4 (split; [assumption|]). split; [|lia]. intros j d g' E. unfold upd in E.
      destruct (Nat.eqb_spec j i) as [->|]; [discriminate|exact (RU j d g' E)].
    + intros j d r E. unfold upd in E. destruct (Nat.eqb_spec j i); [discriminate|exact (RD j d r E)].
    + intros j d r [E|E]; [|exact (RR j d r E)]. injection E as <- <- <-. exact (RD i c0 r0 Hi).
Qed.

Lemma rcalls_of_app a b : rcalls_of (a ++ b) = rcalls_of a ++ rcalls_of b.
Proof. induction a as [|x a IH]; cbn [app rcalls_of]; [reflexivity|]. destruct x; rewrite IH; reflexivity. Qed.

Lemma rplan_run t st cost (B : Z -> Prop) sched : valid_target t -> valid_region t st -> forall tot s,
  Forall (valid_raction t) sched -> Forall (pays_call st cost B) (rcalls_of sched) -> tot + total cost (rcalls_of sched) <= size st ->
  rinv t st s -> rplan st cost B tot s -> rplan st cost B (tot + total cost (rcalls_of sched)) (rrun t st s sched).
Proof.
  intros Ht Hst. induction sched as [|a sched IH]; intros tot s V P T Hinv R.
  - cbn. rewrite Z.add_0_r. exact R.
  - change (a :: sched) with ([a] ++ sched) in *. rewrite rcalls_of_app in *. apply Forall_app in P as (P1 & P2). inversion V as [|? ? V1 V2]; subst.
    rewrite total_app in *. pose proof (total_nonneg _ _ _ _ P2).
    cbn [app rrun fold_left]. fold (rrun t st (rstep t st s a) sched). rewrite Z.add_assoc. apply IH; [exact V2|exact P2|lia| |].
    + apply rinv_step; assumption.
    + apply rplan_step; try assumption. lia.
Qed.

Lemma rplan_init st cost (B : Z -> Prop) : B 0 -> rplan st cost B 0 rinit.
Proof.
  intros B0. constructor; cbn; try discriminate; try contradiction. exists [], 0. cbn. repeat split; try constructor; try assumption; try lia. discriminate.
Qed.

(** ** Sequentially consistent executions are relaxed ones *)
Record embeds (s : sys) (r : rsys) : Prop := {
  em_hist : rhist r = hist s; em_thr : forall i, rthreads r i = threads s i;
  em_cnt : mo r <> [] /\ last (mo r) 0 = counter s; em_view : forall i, (views r i < length (mo r))%nat }.

Lemma embeds_step t st s r a : embeds s r -> exists l, rcalls_of l = calls_of [a] /\ (valid_action t a -> Forall (valid_raction t) l) /\
  embeds (sys_step t st s a) (rrun t st r l).
Proof.
  intros [E1 E2 (E3 & E4) E5]. destruct a as [i c|i|i].
  - exists [RInvoke i c]. split; [reflexivity|]. split; [intros V; constructor; [exact V|constructor]|].
    cbn [rrun fold_left rstep sys_step]. rewrite E2. destruct (threads s i) eqn:Hi; [|constructor; auto|constructor; auto].
    constructor; cbn; auto; [congruence|]. intros j. unfold upd. destruct (Nat.eqb j i); auto.
  - exists [RAccess i (length (mo r) - 1)]. split; [reflexivity|]. split; [intros V; constructor; [exact V|constructor]|].
    cbn [rrun fold_left rstep sys_step]. rewrite E2. destruct (threads s i) as [|c g|] eqn:Hi; [constructor; auto| |constructor; auto].
    rewrite (nth_error_last (mo r) E3), E4. destruct (Nat.leb_spec (views r i) (length (mo r) - 1)) as [_|X]; [|specialize (E5 i); lia].
    assert (LN : (0 < length (mo r))%nat) by (destruct (mo r); [congruence|cbn; lia]).
    assert (ACC : match raccess t st (mo r) c g (length (mo r) - 1) (counter s), access t st (counter s) c g with
      | Some (m', k', ts), (cur', ts') => ts = ts' /\ m' <> [] /\ last m' 0 = cur' /\ (k' < length m')%nat /\ (length (mo r) <= length m')%nat
      | None, (cur', ts') => cur' = counter s /\ ts' = Running c g
      end).
    { destruct c as [l|l lv|l|l lv| |]; cbn [raccess access]; unfold access_alloc, access_alloc_at.
      all: repeat match goal with |- context [if ?b =? 0 then _ else _] => destruct (b =? 0) end.
      all: try (split; [reflexivity|]; split; [exact E3|]; split; [exact E4|]; split; lia).
      all: try (split; reflexivity).
      all: match goal with |- context [prepare ?a ?b ?c ?d] => destruct (prepare a b c d) as [[|e new aa]|msg] end.
      all: try (split; [reflexivity|]; split; [exact E3|]; split; [exact E4|]; split; lia).
      all: unfold compare_exchange, relaxed_cas; destruct (counter s =? e) eqn:CE.
      all: try (replace (Nat.eqb (S (length (mo r) - 1)) (length (mo r))) with true by (symmetry; apply Nat.eqb_eq; lia)).
      all: try (split; [reflexivity|]; split; [exact E3|]; split; [exact E4|]; split; lia).
      all: split; [reflexivity|]; split; [destruct (mo r); discriminate|]; split; [apply last_last|]; rewrite app_length; cbn [length]; lia. }
    destruct (raccess t st (mo r) c g (length (mo r) - 1) (counter s)) as [[[m' k'] ts]|]; destruct (access t st (counter s) c g) as [cur' ts'].
    + destruct ACC as (-> & A1 & A2 & A3 & A4). constructor; cbn; auto.
      * rewrite E1. reflexivity.
      * intros j. unfold upd. destruct (Nat.eqb j i); auto.
      * intros j. unfold updn. destruct (Nat.eqb j i); [exact A3|]. specialize (E5 j). lia.
    + destruct ACC as (-> & ->). constructor; cbn; auto. intros j. unfold upd. destruct (Nat.eqb_spec j i) as [->|]; [rewrite E2; exact Hi|apply E2].
  - exists [RReturn i]. split; [reflexivity|]. split; [intros V; constructor; [exact V|constructor]|].
    cbn [rrun fold_left rstep sys_step]. rewrite E2. destruct (threads s i) eqn:Hi; [constructor; auto|constructor; auto|].
    constructor; cbn; auto; [congruence|]. intros j. unfold upd. destruct (Nat.eqb j i); auto.
Qed.

Lemma calls_of_app a b : calls_of (a ++ b) = calls_of a ++ calls_of b.
Proof. induction a as [|x a IH]; cbn [app calls_of]; [reflexivity|]. destruct x; rewrite IH; reflexivity. Qed.

Lemma embeds_run t st sched : forall s r, embeds s r -> exists l, rcalls_of l = calls_of sched /\ (Forall (valid_action t) sched -> Forall (valid_raction t) l) /\
  embeds (sys_run t st s sched) (rrun t st r l).
Proof.
  induction sched as [|a sched IH]; intros s r E.
  - exists []. repeat split; auto; apply E.
  - destruct (embeds_step t st s r a E) as (l1 & A1 & A2 & A3). destruct (IH _ _ A3) as (l2 & B1 & B2 & B3).
    exists (l1 ++ l2). split; [rewrite rcalls_of_app, A1, B1; change (a :: sched) with ([a] ++ sched); rewrite calls_of_app; reflexivity|].
    split; [intros V; inversion V; subst; apply Forall_app; split; auto|]. unfold rrun. rewrite fold_left_app. exact B3.
Qed.

Lemma embeds_init : embeds sys_init rinit.
Proof. constructor; cbn; auto. split; [discriminate|reflexivity]. Qed.

(** ** Blocks that do not overlap have room *)
Definition points (b : block) : list Z := map (fun k => start b + Z.of_nat k) (seq 0 (Z.to_nat (size b))).
Lemma in_points b x : In x (points b) <-> in_block b x.
Proof.
  unfold points, in_block. rewrite in_map_iff. split.
  - intros (k & <- & K). apply in_seq in K. lia.
  - intros H. exists (Z.to_nat (x - start b)). rewrite in_seq. split; lia.
Qed.
Lemma points_nodup b : NoDup (points b).
Proof. apply FinFun.Injective_map_NoDup; [intros x y H; lia|apply seq_NoDup]. Qed.

Lemma nodup_app {A} (xs ys : list A) : NoDup xs -> NoDup ys -> (forall x, In x xs -> In x ys -> False) -> NoDup (xs ++ ys).
Proof.
  induction 1 as [|x xs N1 N2 IH]; intros Y D; cbn [app]; [exact Y|]. constructor.
  - rewrite in_app_iff. intros [X|X]; [exact (N1 X)|]. apply (D x); [left; reflexivity|exact X].
  - apply IH; [exact Y|]. intros z Z1 Z2. apply (D z); [right; exact Z1|exact Z2].
Qed.

Lemma disjoint_nodup bs : pairwise disjoint bs -> NoDup (concat (map points bs)).
Proof.
  induction bs as [|b bs IH]; intros PW; [constructor|]. cbn [map concat]. apply nodup_app.
  - apply points_nodup.
  - apply IH. intros i j x y NE Hi Hj. apply (PW (S i) (S j) x y); [congruence|exact Hi|exact Hj].
  - intros x X1 X2. apply in_points in X1. apply in_concat in X2 as (l & L1 & L2). apply in_map_iff in L1 as (c & <- & L1).
    apply in_points in L2. apply In_nth_error in L1 as (k & K). apply (PW 0%nat (S k) b c ltac:(congruence) eq_refl K x). split; assumption.
Qed.

Lemma points_length b : 0 <= size b -> Z.of_nat (length (points b)) = size b.
Proof. intros H. unfold points. rewrite map_length, seq_length. lia. Qed.

Lemma sizes_fit st bs : pairwise disjoint bs -> Forall (fun b => 0 <= size b /\ inside b st) bs -> 0 <= size st -> sizes bs <= size st.
Proof.
  intros PW F S0.
  assert (LEN : Z.of_nat (length (concat (map points bs))) = sizes bs).
  { clear PW. induction F as [|b bs (H & _) _ IH]; [reflexivity|]. cbn [map concat sizes fold_right]. fold (sizes bs).
    rewrite app_length, Nat2Z.inj_add, IH, (points_length b H). reflexivity. }
  assert (INC : incl (concat (map points bs)) (points st)).
  { intros x X. apply in_concat in X as (l & L1 & L2). apply in_map_iff in L1 as (c & <- & L1). apply in_points in L2. apply in_points.
    rewrite Forall_forall in F. apply (F c L1). exact L2. }
  pose proof (NoDup_incl_length (disjoint_nodup bs PW) INC) as K. pose proof (points_length st S0). lia.
Qed.

(** ** What every answer is like *)
Record kinds (Q : call -> Prop) (R : call -> response -> Prop) (s : sys) : Prop := {
  ki_run : forall i c g, threads s i = Running c g -> Q c;
  ki_done : forall i c r, threads s i = Done c r -> Q c /\ R c r;
  ki_ret : forall i c r, In (ERet i c r) (hist s) -> Q c /\ R c r }.

Lemma kinds_run t st (Q : call -> Prop) (R : call -> response -> Prop) sched : valid_target t -> valid_region t st ->
  (forall c cur, valid_call t c -> Q c -> 0 <= cur <= size st -> R c (snd (spec_step t (at_level st cur) c))) ->
  forall s, Forall (valid_action t) sched -> Forall Q (calls_of sched) -> inv t st s -> kinds Q R s -> kinds Q R (sys_run t st s sched).
Proof.
  intros Ht Hst HR. induction sched as [|a sched IH]; intros s V FQ Hinv K; [exact K|].
  cbn [sys_run fold_left]. fold (sys_run t st (sys_step t st s a) sched). inversion V as [|? ? V1 V2]; subst.
  change (a :: sched) with ([a] ++ sched) in FQ. rewrite calls_of_app in FQ. apply Forall_app in FQ as (F1 & F2).
  apply IH; [exact V2|exact F2|apply inv_step; assumption|]. clear IH. destruct K as [K1 K2 K3]. destruct a as [i c|i|i]; cbn [sys_step].
  - destruct (threads s i) eqn:Hi; [|constructor; assumption|constructor; assumption]. cbn [calls_of] in F1. inversion F1 as [|? ? Qc _]; subst.
    constructor; cbn [threads hist].
    + intros j d g E. unfold upd in E. destruct (Nat.eqb_spec j i); [injection E as <- _; exact Qc|exact (K1 j d g E)].
    + intros j d r E. unfold upd in E. destruct (Nat.eqb_spec j i); [discriminate|exact (K2 j d r E)].
    + intros j d r [E|E]; [discriminate|exact (K3 j d r E)].
  - destruct (threads s i) as [|c g|] eqn:Hi; [constructor; assumption| |constructor; assumption].
    destruct (inv_running _ _ _ Hinv i c g Hi) as (Vc & Rs & G). pose proof (inv_counter _ _ _ Hinv) as CN. pose proof (K1 i c g Hi) as Qc.
    destruct (access_spec t st (counter s) c g Ht Hst Vc Rs G ltac:(lia)) as [(s' & r & E1 & _ & ->)|(_ & _ & ->)].
    + pose proof (HR c (counter s) Vc Qc ltac:(lia)) as R1. rewrite E1 in R1. cbn [snd] in R1. constructor; cbn [threads hist].
      * intros j d g' E. unfold upd in E. destruct (Nat.eqb_spec j i); [discriminate|exact (K1 j d g' E)].
      * intros j d r' E. unfold upd in E. destruct (Nat.eqb_spec j i); [injection E as <- <-; auto|exact (K2 j d r' E)].
      * intros j d r' [E|E]; [discriminate|exact (K3 j d r' E)].
    + constructor; cbn [threads hist].
      * intros j d g' E. unfold upd in E. destruct (Nat.eqb_spec j i); [injection E as <- _; exact Qc|exact (K1 j d g' E)].
      * intros j d r' E. unfold upd in E. destruct (Nat.eqb_spec j i); [discriminate|exact (K2 j d r' E)].
      * exact K3.
  - destruct (threads s i) as [| |c r] eqn:Hi; [constructor; assumption|constructor; assumption|]. constructor; cbn [threads hist].
    + intros j d g' E. unfold upd in E. destruct (Nat.eqb_spec j i); [discriminate|exact (K1 j d g' E)].
    + intros j d r' E. unfold upd in E. destruct (Nat.eqb_spec j i); [discriminate|exact (K2 j d r' E)].
    + intros j d r' [E|E]; [injection E as <- <- <-; exact (K2 i c r Hi)|exact (K3 j d r' E)].
Qed.
