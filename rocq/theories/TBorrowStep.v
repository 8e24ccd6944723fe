(** * TBorrowStep: one step of a thread, on the stacks of all bytes. *)
From Verif Require Import Base Spec BaseFacts SyncModel SyncSpec SyncProofs ConcModel ConcSpec ConcProofs BorrowModel BorrowSpec BorrowProofs BorrowState BorrowWorld TBorrowModel TBorrowSpec TBorrowWp TBorrowFuel.

(** what a step does to the thread of ConcModel *)
Definition moved (t : target) (st : block) (c : call) (lv : Z) (ts : tstate) (lv' : Z) (ts' : tstate) : Prop :=
  (lv' = lv /\ ts' = ts) \/ exists g, ts = Running c g /\ access t st lv c g = (lv', ts').

Definition is_cas {A} (p : TBorrowModel.prog A) : bool := match p with Cas _ _ _ _ => true | _ => false end.

Lemma pstep_ok t hd st c u self0 own cs objs (fr : Z -> Prop) s busy lv p oc ts :
  disjoint hd st -> wpo t hd st c u self0 p oc ts -> holds own cs objs fr s -> incl (all hd st self0 oc) cs -> 0 <= lv <= size st ->
  (forall x, in_block hd x -> fr x) ->
  (forall a, ts = Done c (RBlock a) -> inside (blk c a) st /\ (forall x, in_block (blk c a) x -> fr x) /\ Forall (fun o => disjoint (blk c a) (iblk o)) objs) ->
  exists lv' p' s', pstep busy hd lv p s = Some ((lv', p'), s') /\ (nexttag s <= nexttag s')%nat /\
    ((exists ts' cs' oc', moved t st c lv ts lv' ts' /\ holds own cs' objs fr s' /\ wpo t hd st c u self0 p' oc' ts' /\
       ((cs' = cs /\ oc' = oc) \/ exists bs, cs' = (nexttag s, bs) :: cs /\ oc' = (nexttag s, bs) :: oc) /\
       (is_cas p = true -> exists g, ts = Running c g /\ access t st lv c g = (lv', ts'))) \/
     (exists a, lv' = lv /\ ts = Done c (RBlock a) /\ u = ULeak /\ p' = Fin (Final (RBlock a) (Some (nexttag s))) /\ nexttag s' = S (nexttag s) /\
       holds own cs (objs ++ [new_object (blk c a) (nexttag s) Unique]) (fun x => fr x /\ ~ in_block (blk c a) x) s')).
Proof.
  intros Dj W H I Lv Fh B. pose proof (h_next _ _ _ _ _ H) as Np.
  assert (Oall : forall n bs, over (all hd st self0 oc) n bs -> over cs n bs) by (intros n bs; apply over_more; exact I).
  destruct p as [x|n parts k|n k|n e new k|n b k]; cbn [pstep].
  - exists lv, (Fin x), s. split; [reflexivity|]. split; [lia|]. left. exists ts, cs, oc. split; [left; auto|]. split; [exact H|]. split; [exact W|]. split; [left; auto|discriminate].
  - destruct W as [(a & Et & Ep & Eu & O & Ek)|(bs & -> & D & O & W)].
    + destruct (B a Et) as (In_ & Fb & Db). subst parts.
      assert (Ob : over cs n [blk c a]).
      { intros b x [<-|[]] X. apply (Oall n [st] O st); [left; reflexivity|]. apply In_. exact X. }
      destruct (leak_new busy own cs objs fr s (blk c a) n H Ob Fb Db) as (s' & E1 & N1 & H1).
      exists lv, (k (nexttag s)), s'. unfold mbind. rewrite E1. split; [reflexivity|]. split; [lia|]. right. exists a. rewrite Ek. do 5 (split; [first [reflexivity|assumption]|]). exact H1.
    + destruct (cell busy own cs objs fr n bs s H D) as (s' & E1 & N1 & H1).
      { intros b x Bi X. apply (Oall n bs O b x Bi X). }
      exists lv, (k (nexttag s)), s'. unfold mbind. rewrite E1. split; [reflexivity|]. split; [lia|]. left.
      exists ts, ((nexttag s, bs) :: cs), ((nexttag s, bs) :: oc). split; [left; auto|]. split; [exact H1|]. split; [apply W; exact Np|]. split; [right; eauto|discriminate].
  - destruct W as (O & g & Et & W). destruct (W lv Lv) as (ts' & Ea & W').
    destruct (rd busy own cs objs fr n hd s H) as (s' & E1 & N1 & H1).
    { intros x X. split; [apply (Oall n [hd] O hd); [left; reflexivity|exact X]|auto]. }
    exists lv, (k lv), s'. unfold mbind. rewrite E1. split; [reflexivity|]. split; [lia|]. left. exists ts', cs, oc. split; [right; eauto|]. split; [exact H1|]. split; [exact W'|]. split; [left; auto|discriminate].
  - destruct W as (O & g & Et & W). destruct (W lv Lv) as (ts' & Ea & W').
    assert (A : forall x, in_block hd x -> can cs x n /\ fr x) by (intros x X; split; [apply (Oall n [hd] O hd); [left; reflexivity|exact X]|auto]).
    destruct (rd busy own cs objs fr n hd s H A) as (s1 & E1 & N1 & H1). destruct (wr busy own cs objs fr n hd s H A) as (s2 & E2 & N2 & H2).
    destruct (compare_exchange lv e new) as [lv' [v|]]; cbn [fst snd] in *.
    + exists lv', (k (Some v)), s1. unfold mbind. rewrite E1. split; [reflexivity|]. split; [lia|]. left. exists ts', cs, oc. split; [right; eauto|]. split; [exact H1|]. split; [exact W'|]. split; [left; auto|eauto].
    + exists lv', (k None), s2. unfold mbind. rewrite E2. split; [reflexivity|]. split; [lia|]. left. exists ts', cs, oc. split; [right; eauto|]. split; [exact H2|]. split; [exact W'|]. split; [left; auto|eauto].
  - destruct W as (O & (a & Et & ->) & W). destruct (B a Et) as (In_ & Fb & Db).
    destruct (wr busy own cs objs fr n (blk c a) s H) as (s' & E1 & N1 & H1).
    { intros x X. split; [|auto]. apply (Oall n [st] O st); [left; reflexivity|]. apply In_. exact X. }
    exists lv, k, s'. unfold mbind. rewrite E1. split; [reflexivity|]. split; [lia|]. left. exists ts, cs, oc. split; [left; auto|]. split; [exact H1|]. split; [exact W|]. split; [left; auto|discriminate].
Qed.

(** the steps that are left *)
Lemma pstep_fuel busy hd lv p s lv' p' s' n : pstep busy hd lv p s = Some ((lv', p'), s') -> within n p -> (forall x, p <> Fin x) ->
  (exists n', n = S n' /\ within n' p') \/ (is_cas p = true /\ lv' = lv /\ exists x, p' = Fin (Again lv x)).
Proof.
  intros E W N. destruct p as [x|t parts k|t k|t e new k|t b k]; [exfalso; eapply N; reflexivity| | | |]; destruct n as [|n]; try (destruct W; fail); cbn [pstep] in E; unfold mbind, mret in E.
  - destruct (m_retag busy t parts s) as [[m s1]|]; [|discriminate]. injection E as <- <- <-. left. exists n. split; [reflexivity|apply W].
  - destruct (m_read busy t hd s) as [[m s1]|]; [|discriminate]. injection E as <- <- <-. left. exists n. split; [reflexivity|apply W].
  - destruct W as [W1 W2]. unfold compare_exchange in E. destruct (Z.eqb_spec lv e) as [Ee|Ee].
    + destruct (m_write busy t hd s) as [[m s1]|]; [|discriminate]. injection E as <- <- <-. left. exists n. split; [reflexivity|apply W1].
    + destruct (m_read busy t hd s) as [[m s1]|]; [|discriminate]. injection E as <- <- <-. destruct W2 as [W2|[x W2]].
      * left. exists n. split; [reflexivity|apply W2].
      * right. split; [reflexivity|]. split; [reflexivity|]. exists x. apply W2.
  - destruct (m_write busy t b s) as [[m s1]|]; [|discriminate]. injection E as <- <- <-. left. exists n. split; [reflexivity|apply W].
Qed.

(** ** The system of ConcModel *)
Definition rest (st : block) (ts : tstate) : Z := match ts with Running _ g => size st - g | _ => 0 end.

(** an access makes the value of the loop variable larger *)
Lemma access_rest t st q i c g lv' ts' : valid_target t -> valid_region t st -> inv t st q -> threads q i = Running c g -> access t st (counter q) c g = (lv', ts') ->
  0 <= rest st ts' <= rest st (Running c g) /\ (forall c' v, ts' = Running c' v -> rest st ts' < rest st (Running c g)).
Proof.
  intros Ht Hs V R A. destruct (inv_running t st q V i c g R) as (Vc & Ir & Lg). pose proof (inv_counter t st q V) as Lc.
  destruct (access_spec t st (counter q) c g Ht Hs Vc Ir Lg) as [(s' & r & _ & _ & E)|(_ & Ne & E)]; [lia| |]; rewrite A in E; injection E as -> ->; cbn [rest].
  - split; [lia|]. intros c' v [=].
  - split; [lia|]. intros _ _ _. lia.
Qed.

Lemma run_in_step t cs : forall s c r, valid_target t -> ok t s -> Forall (valid_call t) cs -> In (c, r) (snd (run t s cs)) ->
  exists s', ok t s' /\ storage s' = storage s /\ valid_call t c /\ snd (step t s' c) = r.
Proof.
  induction cs as [|c0 cs IH]; intros s c r Ht Hs F I; cbn [run] in I; [destruct I|]. inversion F as [|? ? F1 F2]; subst.
  pose proof (step_ok t s c0 Ht Hs F1) as [S1 S2]. destruct (step t s c0) as [s1 r0] eqn:E. cbn [fst] in *.
  pose proof (IH s1) as IH1. destruct (run t s1 cs) as [s2 h]. cbn [snd] in *. destruct I as [[= <- <-]|I].
  - exists s. rewrite E. auto.
  - destruct (IH1 c r Ht S1 F2 I) as (s' & A & B & C & D). exists s'. split; [exact A|]. split; [congruence|auto].
Qed.

Lemma follows_decided i p h c r : follows_to i p h (PDecided c r) -> p = PDecided c r \/ In (ELin i c r) h.
Proof.
  intros F. remember (PDecided c r) as q eqn:Eq. induction F as [p|p e h q Ne F IH|c0 h q F IH|c0 r0 h q F IH|c0 r0 h q F IH]; subst.
  - left. reflexivity.
  - destruct (IH eq_refl) as [->|K]; [left; reflexivity|right; right; exact K].
  - destruct (IH eq_refl) as [K|K]; [discriminate|right; right; exact K].
  - destruct (IH eq_refl) as [[= <- <-]|K]; [right; left; reflexivity|right; right; exact K].
  - destruct (IH eq_refl) as [K|K]; [discriminate|right; right; exact K].
Qed.

Lemma done_place t st q i c a : valid_target t -> valid_region t st -> inv t st q -> threads q i = Done c (RBlock a) ->
  c <> CLevel /\ call_layout c = Some (asked c) /\ inside (blk c a) st /\ aligned (ptr a) (lalign (asked c)).
Proof.
  intros Ht Hs V D. pose proof (inv_phase t st q V i) as P. rewrite D in P. cbn [phase_of] in P.
  destruct (follows_decided _ _ _ _ _ P) as [K|K]; [discriminate|]. apply lin_order_in in K.
  pose proof (inv_legal t st q V) as Lg. pose proof (inv_valid t st q V) as Va.
  destruct (run_in_step t _ (fresh st) c (RBlock a) Ht (ok_fresh t st Hs) Va) as (s' & O1 & O2 & O3 & O4); [rewrite Lg; exact K|].
  destruct (step_place t s' c a Ht O1 O3 O4) as (A1 & A2 & A3 & _). rewrite O2 in A2. cbn in A2.
  split; [exact A1|]. split; [|split; [exact A2|exact A3]].
  destruct c; cbn in *; try reflexivity; [contradiction|discriminate].
Qed.

(** A thread's accesses change nothing for the others. *)
Lemma one_access t st q i c g lv' ts' : threads q i = Running c g -> access t st (counter q) c g = (lv', ts') ->
  let q' := sys_step t st q (Access i) in
  counter q' = lv' /\ threads q' i = ts' /\ (forall j, j <> i -> threads q' j = threads q j) /\
  returned_blocks (hist q') = returned_blocks (hist q) /\ filter visible (history q') = filter visible (history q).
Proof.
  intros R A. cbn zeta. cbn [sys_step]. rewrite R, A. cbn [counter threads hist].
  split; [reflexivity|]. split; [apply upd_same|]. split; [intros j Hj; apply upd_other; exact Hj|]. unfold history. cbn [hist].
  destruct ts' as [|c' g'|c' r']; cbn [returned_blocks rev]; (split; [reflexivity|]); try reflexivity.
  rewrite filter_app. cbn [filter visible]. apply app_nil_r.
Qed.

Lemma one_return t st q i c r : threads q i = Done c r ->
  let q' := sys_step t st q (Return i) in
  counter q' = counter q /\ threads q' i = Idle /\ (forall j, j <> i -> threads q' j = threads q j) /\
  returned_blocks (hist q') = match event_block (c, r) with Some b => b :: returned_blocks (hist q) | None => returned_blocks (hist q) end /\
  filter visible (history q') = filter visible (history q) ++ [ERet i c r].
Proof.
  intros D. cbn zeta. cbn [sys_step]. rewrite D. cbn [counter threads hist returned_blocks].
  split; [reflexivity|]. split; [apply upd_same|]. split; [intros j Hj; apply upd_other; exact Hj|]. split; [reflexivity|].
  unfold history. cbn [hist rev]. rewrite filter_app. reflexivity.
Qed.

Lemma one_invoke t st q i c : threads q i = Idle ->
  let q' := sys_step t st q (Invoke i c) in
  counter q' = counter q /\ threads q' i = Running c 0 /\ (forall j, j <> i -> threads q' j = threads q j) /\
  returned_blocks (hist q') = returned_blocks (hist q) /\ filter visible (history q') = filter visible (history q) ++ [EInv i c].
Proof.
  intros D. cbn zeta. cbn [sys_step]. rewrite D. cbn [counter threads hist returned_blocks].
  split; [reflexivity|]. split; [apply upd_same|]. split; [intros j Hj; apply upd_other; exact Hj|]. split; [reflexivity|].
  unfold history. cbn [hist rev]. rewrite filter_app. reflexivity.
Qed.

(** ** The table of threads *)
Lemma lookup_cons_same i r l : lookup i ((i, r) :: l) = Some r.
Proof. unfold lookup. cbn [find fst]. rewrite Nat.eqb_refl. reflexivity. Qed.
Lemma lookup_cons_other i j r l : j <> i -> lookup j ((i, r) :: l) = lookup j l.
Proof. intros H. unfold lookup. cbn [find fst]. rewrite (proj2 (Nat.eqb_neq i j)) by congruence. reflexivity. Qed.
Lemma lookup_remove_same i l : lookup i (remove i l) = None.
Proof.
  induction l as [|[j r] l IH]; [reflexivity|]. cbn [remove filter fst]. destruct (Nat.eqb_spec j i) as [->|N]; cbn [negb]; [exact IH|].
  rewrite lookup_cons_other by congruence. exact IH.
Qed.
Lemma lookup_remove_other i j l : j <> i -> lookup j (remove i l) = lookup j l.
Proof.
  intros N. induction l as [|[k r] l IH]; [reflexivity|]. cbn [remove filter fst]. destruct (Nat.eqb_spec k i) as [->|Nk]; cbn [negb].
  - rewrite lookup_cons_other by congruence. exact IH.
  - destruct (Nat.eq_dec j k) as [->|Nj]; [rewrite !lookup_cons_same; reflexivity|]. rewrite !lookup_cons_other by congruence. exact IH.
Qed.

Definition is_step (i : nat) (o : top) : bool := match o with TStep j => Nat.eqb j i | _ => false end.
Lemma steps_cons i o os : steps i (o :: os) = (if is_step i o then 1 else 0) + steps i os.
Proof. unfold steps, is_step. cbn [filter]. destruct o as [o|j k c u|j]; try lia. destruct (Nat.eqb j i); cbn [length]; lia. Qed.
Lemma is_step_dec i o : (o = TStep i /\ is_step i o = true) \/ (o <> TStep i /\ is_step i o = false).
Proof.
  destruct o as [o|j k c u|j]; [right|right|]; try (split; [discriminate|reflexivity]). cbn [is_step]. destruct (Nat.eqb_spec j i) as [->|N]; [left; auto|right; split; [congruence|reflexivity]].
Qed.
