(** * TBorrowWp: the steps of one call, seen by one thread. *)
From Verif Require Import Base Spec BaseFacts SyncModel SyncSpec ConcModel BorrowModel BorrowSpec BorrowProofs BorrowState TBorrowModel TBorrowSpec.

Definition tags (oc : caps) : list nat := map fst oc.
Definition blk (c : call) (a : allocation) : block := MkBlock (ptr a) (lsize (asked c)).

Section Wp.
Variables (t : target) (hd st : block) (c : call) (u : buse) (self0 : nat).

(** the tags that a thread can use: the reference of the client, and those that it made *)
Definition all (oc : caps) : caps := (self0, [hd; st]) :: oc.

Definition last_tag (A : Type) := nat -> list (rkind * block) -> (nat -> prog A) -> caps -> tstate -> Prop.

Fixpoint wp {A} (L : last_tag A) (Q : A -> caps -> tstate -> Prop) (p : prog A) (oc : caps) (ts : tstate) {struct p} : Prop :=
  match p with
  | Fin a => Q a oc ts
  | Tag s parts k => L s parts k oc ts \/
      exists bs, parts = map (pair RCell) bs /\ ForallOrdPairs disjoint bs /\ over (all oc) s bs /\
        forall n, (1 <= n)%nat -> wp L Q (k n) ((n, bs) :: oc) ts
  | Load s k => over (all oc) s [hd] /\ exists g, ts = Running c g /\
      forall cur, 0 <= cur <= size st -> exists ts', access t st cur c g = (cur, ts') /\ wp L Q (k cur) oc ts'
  | Cas s e new k => over (all oc) s [hd] /\ exists g, ts = Running c g /\
      forall cur, 0 <= cur <= size st -> exists ts', access t st cur c g = (fst (compare_exchange cur e new), ts') /\
        wp L Q (k (snd (compare_exchange cur e new))) oc ts'
  | Put s b k => over (all oc) s [st] /\ (exists a, ts = Done c (RBlock a) /\ b = blk c a) /\ wp L Q k oc ts
  end.

Definition never {A} : last_tag A := fun _ _ _ _ _ => False.

Lemma wp_bind {A B} (L : last_tag B) Q R (p : prog A) (f : A -> prog B) : forall oc ts,
  wp never Q p oc ts -> (forall a oc' ts', Q a oc' ts' -> wp L R (f a) oc' ts') -> wp L R (pbind p f) oc ts.
Proof.
  induction p as [a|s parts k IH|s k IH|s e n k IH|s b k IH]; intros oc ts W H; cbn [wp pbind] in *.
  - auto.
  - destruct W as [[]|(bs & E & D & O & W)]. right. exists bs. repeat (split; [assumption|]). intros m Hm. apply IH; auto.
  - destruct W as (O & g & E & W). split; [exact O|]. exists g. split; [exact E|]. intros cur Hc. destruct (W cur Hc) as (ts' & E1 & W'). exists ts'. split; [exact E1|]. apply IH; auto.
  - destruct W as (O & g & E & W). split; [exact O|]. exists g. split; [exact E|]. intros cur Hc. destruct (W cur Hc) as (ts' & E1 & W'). exists ts'. split; [exact E1|]. apply IH; auto.
  - destruct W as (O & E & W). split; [exact O|]. split; [exact E|]. apply IH; auto.
Qed.

Lemma wp_weaken {A} (L : last_tag A) (Q R : A -> caps -> tstate -> Prop) (p : prog A) : forall oc ts,
  wp L Q p oc ts -> (forall a oc' ts', Q a oc' ts' -> R a oc' ts') -> wp L R p oc ts.
Proof.
  induction p as [a|s parts k IH|s k IH|s e n k IH|s b k IH]; intros oc ts W H; cbn [wp] in *.
  - auto.
  - destruct W as [W|(bs & E & D & O & W)]; [left; exact W|]. right. exists bs. repeat (split; [assumption|]). intros m Hm. apply IH; auto.
  - destruct W as (O & g & E & W). split; [exact O|]. exists g. split; [exact E|]. intros cur Hc. destruct (W cur Hc) as (ts' & E1 & W'). exists ts'. split; [exact E1|]. apply IH; auto.
  - destruct W as (O & g & E & W). split; [exact O|]. exists g. split; [exact E|]. intros cur Hc. destruct (W cur Hc) as (ts' & E1 & W'). exists ts'. split; [exact E1|]. apply IH; auto.
  - destruct W as (O & E & W). split; [exact O|]. split; [exact E|]. apply IH; auto.
Qed.

Hypothesis (Dj : disjoint hd st).

Lemma all_more oc oc' s bs : incl oc oc' -> over (all oc) s bs -> over (all oc') s bs.
Proof. intros I. apply over_more. intros x [<-|X]; [left; reflexivity|right; auto]. Qed.

(** a new reference *)
Definition new_ref (oc : caps) (ts : tstate) (bs : list block) : nat -> caps -> tstate -> Prop :=
  fun n oc' ts' => ts' = ts /\ incl oc oc' /\ over (all oc') n bs /\ In n (tags oc').

Lemma over_head oc n bs : over (all ((n, bs) :: oc)) n bs.
Proof. intros b x B X. exists bs, b. split; [right; left; reflexivity|auto]. Qed.

Lemma wp_tag oc ts s bs : ForallOrdPairs disjoint bs -> over (all oc) s bs -> wp never (new_ref oc ts bs) (Tag s (map (pair RCell) bs) Fin) oc ts.
Proof.
  intros D O. cbn [wp]. right. exists bs. split; [reflexivity|]. split; [exact D|]. split; [exact O|]. intros n _.
  split; [reflexivity|]. split; [apply incl_tl, incl_refl|]. split; [apply over_head|left; reflexivity].
Qed.

Lemma two_disjoint : ForallOrdPairs disjoint [hd; st].
Proof. repeat constructor. exact Dj. Qed.

Lemma wp_self oc ts s : over (all oc) s [hd; st] -> wp never (new_ref oc ts [hd; st]) (p_self hd st s) oc ts.
Proof. intros O. exact (wp_tag oc ts s [hd; st] two_disjoint O). Qed.

Lemma wp_storage oc ts s : over (all oc) s [hd; st] -> wp never (new_ref oc ts [st]) (p_storage_get st s) oc ts.
Proof.
  intros O. eapply wp_bind; [apply (wp_tag oc ts s [st] (one_pair st)); eapply over_sub; [|exact O]; intros b [<-|[]]; right; left; reflexivity|].
  intros r oc' ts' (-> & I & O1 & _). eapply wp_weaken; [apply (wp_tag oc' ts r [st] (one_pair st)); exact O1|].
  intros n oc2 ts2 (-> & I2 & O2 & N). split; [reflexivity|]. split; [eapply incl_tran; eauto|]. auto.
Qed.

Lemma over_hd' oc n : over (all oc) n [hd; st] -> over (all oc) n [hd].
Proof. apply over_sub. intros b [<-|[]]. left. reflexivity. Qed.
Lemma over_st' oc n : over (all oc) n [hd; st] -> over (all oc) n [st].
Proof. apply over_sub. intros b [<-|[]]. right. left. reflexivity. Qed.

(** the exchange of the counter *)
Lemma wp_bump oc g s e new (Q : option Z -> caps -> tstate -> Prop) : over (all oc) s [hd; st] ->
  (forall cur, 0 <= cur <= size st -> exists ts', access t st cur c g = (fst (compare_exchange cur e new), ts') /\
     forall oc', incl oc oc' -> Q (snd (compare_exchange cur e new)) oc' ts') ->
  wp never Q (p_bump hd st s e new) oc (Running c g).
Proof.
  intros O H. eapply wp_bind; [apply wp_self; exact O|]. intros s1 oc1 ts1 (-> & I1 & O1 & _).
  eapply wp_bind; [apply (wp_tag oc1 _ s1 [hd] (one_pair hd)); apply over_hd'; exact O1|]. intros k oc2 ts2 (-> & I2 & O2 & _).
  cbn [wp]. split; [exact O2|]. exists g. split; [reflexivity|]. intros cur Hc. destruct (H cur Hc) as (ts' & E & R). exists ts'. split; [exact E|].
  apply R. eapply incl_tran; eauto.
Qed.

(** [try_alloc_at] makes the access of ConcModel, or fails without one *)
Definition late (g : Z) (ts : tstate) (ts0 : tstate) : Prop :=
  ts0 = Running c g /\ forall cur, 0 <= cur <= size st -> access t st cur c g = (cur, ts).

Definition early (r : outcome result) : bool := match r with Panic _ | Ret (RErr Exhausted) => true | _ => false end.

Definition attempted (F : outcome result -> tstate) (g : Z) (oc : caps) : outcome result * nat -> caps -> tstate -> Prop :=
  fun x oc' ts' => incl oc oc' /\ over (all oc') (snd x) [st] /\ In (snd x) (tags oc') /\
    (ts' = F (fst x) \/ (late g (F (fst x)) ts' /\ early (fst x) = true)).

Definition access_as (l : layout) (e g : Z) (F : outcome result -> tstate) : Prop :=
  forall cur, 0 <= cur <= size st -> access t st cur c g =
    match prepare t st l e with
    | Panic m => (cur, F (Panic m))
    | Ret AExhausted => (cur, F (Ret (RErr Exhausted)))
    | Ret (ACas e' new at_aligned) =>
        match compare_exchange cur e' new with
        | (cur', Some observed) => (cur', F (Ret (RErr (Mismatch observed))))
        | (cur', None) => (cur', F (match finish st new at_aligned with Ret a => Ret (ROk a) | Panic m => Panic m end))
        end
    end.

Lemma wp_try_alloc_at oc l e g s F : access_as l e g F -> over (all oc) s [hd; st] ->
  wp never (attempted F g oc) (p_try_alloc_at t hd st l e s) oc (Running c g).
Proof.
  intros HA O. unfold p_try_alloc_at. eapply wp_bind; [apply wp_self; exact O|]. intros s1 oc1 ts1 (-> & I1 & O1 & _).
  eapply wp_bind; [apply wp_storage; exact O1|]. intros base oc2 ts2 (-> & I2 & O2 & N2). unfold access_as in HA.
  destruct (prepare t st l e) as [[|e' new at_]|m].
  - cbn [wp]. split; [eapply incl_tran; eauto|]. split; [exact O2|]. split; [exact N2|]. right. split; [split; [reflexivity|exact HA]|]. reflexivity.
  - eapply wp_bind.
    + apply (wp_bump oc2 g s1 e' new (fun x oc' ts' => incl oc2 oc' /\ ts' = F (match x with Some v => Ret (RErr (Mismatch v)) | None => match finish st new at_ with Ret a => Ret (ROk a) | Panic m => Panic m end end))).
      * eapply all_more; [exact I2|exact O1].
      * intros cur Hc. rewrite (HA cur Hc). destruct (compare_exchange cur e' new) as [cur' [v|]]; cbn [fst snd]; eexists; (split; [reflexivity|]); auto.
    + intros x oc' ts' (I3 & ->).
      assert (K : forall r, attempted F g oc (r, base) oc' (F r)).
      { intros r. cbn [fst snd]. split; [eapply incl_tran; [|exact I3]; eapply incl_tran; eauto|]. cbn [snd fst]. split; [eapply all_more; eauto|].
        split; [unfold tags in *; apply in_map_iff in N2; destruct N2 as (q & Eq & Iq); apply in_map_iff; eauto|left; reflexivity]. }
      destruct x as [v|]; cbn [wp]; apply K.
  - cbn [wp]. split; [eapply incl_tran; eauto|]. split; [exact O2|]. split; [exact N2|]. right. split; [split; [reflexivity|exact HA]|]. reflexivity.
Qed.

(** ** The end of a call *)
Definition loopy : Prop := match c with CAlloc _ => True | CGet l => lsize l <> 0 | _ => False end.

Definition decides (r : response) (ts : tstate) : Prop := ts = Done c r \/ ((exists g, late g (Done c r) ts) /\ forall a, r <> RBlock a).

Definition post (x : out) (oc : caps) (ts : tstate) : Prop :=
  match x with
  | Again g s => ts = Running c g /\ loopy /\ over (all oc) s [hd; st]
  | Final r tag => decides r ts /\
      match r with RBlock _ => exists n, tag = Some n /\ u <> ULeak /\ In n (tags oc) /\ over (all oc) n [st] | _ => tag = None end
  end.

Definition leaks : last_tag out := fun s parts k oc ts =>
  exists a, ts = Done c (RBlock a) /\ parts = [(RUnique, blk c a)] /\ u = ULeak /\ over (all oc) s [st] /\ forall n, k n = Fin (Final (RBlock a) (Some n)).

Definition wpo := wp leaks post.

Lemma wp_done oc ts r base : decides r ts -> In base (tags oc) -> over (all oc) base [st] -> wpo (p_done c u r base) oc ts.
Proof.
  intros D N O. destruct r as [a| |f|lv| |m]; try (cbn; split; [exact D|reflexivity]).
  destruct D as [->|[_ D]]; [|exfalso; eapply D; reflexivity].
  unfold wpo, p_done, p_use. destruct u eqn:Eu; cbn [pbind wp].
  - split; [left; reflexivity|]. exists base. split; [reflexivity|]. split; [congruence|]. auto.
  - split; [exact O|]. split; [exists a; split; reflexivity|]. left. exists a. repeat (split; [reflexivity|]). split; [exact Eu|]. split; [exact O|]. reflexivity.
  - split; [exact O|]. split; [exists a; split; reflexivity|]. split; [left; reflexivity|]. exists base. split; [reflexivity|]. split; [congruence|]. auto.
Qed.

Definition F_loop (r : outcome result) : tstate :=
  match r with
  | Ret (ROk a) => Done c (RBlock a)
  | Ret (RErr Exhausted) => Done c RNone
  | Ret (RErr (Mismatch o)) => Running c o
  | Panic m => Done c (RPanic m)
  end.
Definition F_at (r : outcome result) : tstate := Done c (of_result r).

Lemma loop_access g : loopy -> access_as (asked c) g g F_loop.
Proof.
  unfold access_as, F_loop, loopy, asked, access. intros H cur Hc. destruct c as [l|l lv|l|l lv| |] eqn:Ec; try contradiction.
  - unfold access_alloc. destruct (prepare t st l g) as [[|e new at_]|m]; try reflexivity.
    destruct (compare_exchange cur e new) as [cur' [v|]]; [reflexivity|]. destruct (finish st new at_); reflexivity.
  - destruct (Z.eqb_spec (lsize l) 0) as [E|E]; [contradiction|].
    unfold access_alloc. destruct (prepare t st l g) as [[|e new at_]|m]; try reflexivity.
    destruct (compare_exchange cur e new) as [cur' [v|]]; [reflexivity|]. destruct (finish st new at_); reflexivity.
Qed.

Lemma wp_iter oc g s : loopy -> over (all oc) s [hd; st] -> wpo (p_iter t hd st c u (asked c) g s) oc (Running c g).
Proof.
  intros H O. unfold wpo, p_iter.
  eapply wp_bind; [apply (wp_try_alloc_at oc (asked c) g g s F_loop (loop_access g H) O)|].
  intros [r base] oc' ts' (I & O1 & N & D). cbn [fst snd] in *.
  assert (K : forall x, F_loop r = Done c x -> (early r = true -> forall a, x <> RBlock a) -> wp leaks post (p_done c u x base) oc' ts').
  { intros x E Eb. apply wp_done; auto. rewrite E in D. destruct D as [->|[D1 D2]]; [left; reflexivity|]. right. split; [exists g; exact D1|auto]. }
  destruct r as [[a|[|o]]|m]; cbn [F_loop early] in *.
  - apply K; [reflexivity|]. discriminate.
  - apply K; [reflexivity|]. discriminate.
  - cbn [wp post]. split; [|split; [exact H|eapply all_more; eauto]]. destruct D as [->|[_ D]]; [reflexivity|discriminate].
  - apply K; [reflexivity|]. discriminate.
Qed.

Lemma wp_try_alloc oc s : loopy -> over (all oc) s [hd; st] -> wpo (p_try_alloc t hd st c u (asked c) s) oc (Running c 0).
Proof.
  intros H O. eapply wp_bind; [apply wp_self; exact O|]. intros s1 oc1 ts1 (-> & I & O1 & _). apply wp_iter; auto.
Qed.

Lemma wp_at oc s l lv : over (all oc) s [hd; st] -> access_as l lv 0 F_at ->
  wpo (pbind (p_try_alloc_at t hd st l lv s) (fun x => p_done c u (of_result (fst x)) (snd x))) oc (Running c 0).
Proof.
  intros O H. eapply wp_bind; [apply (wp_try_alloc_at oc l lv 0 s F_at H O)|].
  intros [r base] oc' ts' (I & O1 & N & D). cbn [fst snd] in *. apply wp_done; auto.
  destruct D as [->|[D1 D2]]; [left; reflexivity|]. right. split; [exists 0; exact D1|]. destruct r as [[a|[|o]]|m]; cbn in *; discriminate.
Qed.

Lemma wp_level oc g s (Q : Z -> caps -> tstate -> Prop) : over (all oc) s [hd; st] ->
  (forall cur, 0 <= cur <= size st -> exists ts', access t st cur c g = (cur, ts') /\ forall oc', incl oc oc' -> Q cur oc' ts') ->
  wp never Q (p_level hd st s) oc (Running c g).
Proof.
  intros O H. eapply wp_bind; [apply wp_self; exact O|]. intros s1 oc1 ts1 (-> & I1 & O1 & _).
  eapply wp_bind; [apply (wp_tag oc1 _ s1 [hd] (one_pair hd)); apply over_hd'; exact O1|]. intros k oc2 ts2 (-> & I2 & O2 & _).
  cbn [wp]. split; [exact O2|]. exists g. split; [reflexivity|]. intros cur Hc. destruct (H cur Hc) as (ts' & E & R). exists ts'. split; [exact E|].
  apply R. eapply incl_tran; eauto.
Qed.

Lemma at_access l lv : (c = CAllocAt l lv \/ (c = CGetAt l lv /\ lsize l <> 0)) -> access_as l lv 0 F_at.
Proof.
  unfold access_as, F_at, access. intros H cur Hc.
  assert (K : access_alloc_at t st cur c l lv =
    match prepare t st l lv with
    | Panic m => (cur, Done c (of_result (Panic m)))
    | Ret AExhausted => (cur, Done c (of_result (Ret (RErr Exhausted))))
    | Ret (ACas e' new at_aligned) =>
        match compare_exchange cur e' new with
        | (cur', Some observed) => (cur', Done c (of_result (Ret (RErr (Mismatch observed)))))
        | (cur', None) => (cur', Done c (of_result (match finish st new at_aligned with Ret a => Ret (ROk a) | Panic m => Panic m end)))
        end
    end).
  { unfold access_alloc_at. destruct (prepare t st l lv) as [[|e new at_]|m]; try reflexivity.
    destruct (compare_exchange cur e new) as [cur' [v|]]; [reflexivity|]. destruct (finish st new at_); reflexivity. }
  rewrite <- K. clear K. destruct H as [->|[-> Hl]]; [reflexivity|]. destruct (Z.eqb_spec (lsize l) 0); [contradiction|reflexivity].
Qed.

Lemma tags_incl oc oc' n : incl oc oc' -> In n (tags oc) -> In n (tags oc').
Proof. intros I N. unfold tags in *. apply in_map_iff in N. destruct N as (q & E & Iq). apply in_map_iff. eauto. Qed.

End Wp.

(** ** The whole call *)
Lemma wp_method t hd st c u self0 oc s : disjoint hd st -> c <> CReset -> over (all hd st self0 oc) s [hd; st] ->
  wpo t hd st c u self0 (p_method t hd st c u s) oc (Running c 0).
Proof.
  intros Dj Nr O. unfold wpo. destruct c as [l|l lv|l|l lv| |]; try congruence; cbn [p_method].
  - eapply wp_bind; [apply wp_self; [exact Dj|exact O]|]. intros s1 oc1 ts1 (-> & I & O1 & _). exact (wp_try_alloc t hd st (CAlloc l) u self0 Dj oc1 s1 Logic.I O1).
  - eapply wp_bind; [apply wp_self; [exact Dj|exact O]|]. intros s1 oc1 ts1 (-> & I & O1 & _).
    apply (wp_at t hd st (CAllocAt l lv) u self0 Dj oc1 s1 l lv O1). apply at_access. left. reflexivity.
  - eapply wp_bind; [apply wp_self; [exact Dj|exact O]|]. intros s1 oc1 ts1 (-> & I & O1 & _).
    destruct (Z.eqb_spec (lsize l) 0) as [E|E]; [|exact (wp_try_alloc t hd st (CGet l) u self0 Dj oc1 s1 E O1)].
    eapply wp_bind; [apply wp_self; [exact Dj|exact O1]|]. intros s2 oc2 ts2 (-> & I2 & O2 & N2).
    eapply wp_bind.
    + apply (wp_level t hd st (CGet l) self0 Dj oc2 0 s2 (fun v oc' ts' => incl oc2 oc' /\ ts' = Done (CGet l) (RBlock (for_zst l v))) O2).
      intros cur Hc. cbn [access]. rewrite (proj2 (Z.eqb_eq _ _) E). eexists. split; [reflexivity|]. auto.
    + intros v oc3 ts3 (I3 & ->). apply wp_done; [left; reflexivity|eapply tags_incl; eauto|]. eapply all_more; [exact I3|]. apply over_st'. exact O2.
  - eapply wp_bind; [apply wp_self; [exact Dj|exact O]|]. intros s1 oc1 ts1 (-> & I & O1 & _).
    destruct (Z.eqb_spec (lsize l) 0) as [E|E].
    2:{ apply (wp_at t hd st (CGetAt l lv) u self0 Dj oc1 s1 l lv O1). apply at_access. right. split; [reflexivity|exact E]. }
    eapply wp_bind; [apply wp_self; [exact Dj|exact O1]|]. intros s2 oc2 ts2 (-> & I2 & O2 & N2).
    eapply wp_bind.
    + apply (wp_level t hd st (CGetAt l lv) self0 Dj oc2 0 s2 (fun v oc' ts' => incl oc2 oc' /\ ts' = Done (CGetAt l lv)
        (if negb (v =? lv) then RFail (Mismatch v) else RBlock (for_zst l v))) O2).
      intros cur Hc. cbn [access]. rewrite (proj2 (Z.eqb_eq _ _) E). eexists. split; [reflexivity|]. auto.
    + intros v oc3 ts3 (I3 & ->). destruct (negb (v =? lv)); (apply wp_done; [left; reflexivity|eapply tags_incl; eauto|]; eapply all_more; [exact I3|]; apply over_st'; exact O2).
  - eapply wp_bind.
    + apply (wp_level t hd st CLevel self0 Dj oc 0 s (fun v oc' ts' => ts' = Done CLevel (RLevel v)) O).
      intros cur Hc. cbn [access]. eexists. split; [reflexivity|]. auto.
    + intros v oc3 ts3 ->. cbn. split; [left; reflexivity|reflexivity].
Qed.

Lemma wp_call t hd st c u self0 : disjoint hd st -> c <> CReset -> wpo t hd st c u self0 (p_call t hd st c u self0) [] (Running c 0).
Proof.
  intros Dj Nr. unfold p_call.
  assert (O : over (all hd st self0 []) self0 [hd; st]) by (intros b x B X; exists [hd; st], b; split; [left; reflexivity|auto]).
  eapply (wp_bind t hd st c self0 _ (fun n oc ts => ts = Running c 0 /\ over (all hd st self0 oc) n [hd; st])).
  - assert (K : wp t hd st c self0 never (fun n oc ts => ts = Running c 0 /\ over (all hd st self0 oc) n [hd; st]) (p_self hd st self0) [] (Running c 0)).
    { eapply wp_weaken; [apply wp_self; [exact Dj|exact O]|]. intros n oc ts (-> & _ & O1 & _). auto. }
    destruct u; [cbn; split; [reflexivity|exact O]|exact K|exact K].
  - intros n oc ts (-> & O1). apply wp_method; auto.
Qed.

(** the next iteration *)
Lemma wp_settle t hd st c u self0 p oc ts : disjoint hd st -> wpo t hd st c u self0 p oc ts ->
  wpo t hd st c u self0 (settle t hd st c u p) oc ts /\ forall g s, settle t hd st c u p <> Fin (Again g s).
Proof.
  intros Dj W. destruct p as [[g s|r tag]|s parts k|s k|s e n k|s b k]; cbn [settle]; try (split; [exact W|discriminate]).
  destruct W as (-> & Lp & O). split; [apply wp_iter; auto|]. intros g' s'. unfold p_iter, p_try_alloc_at, p_self. discriminate.
Qed.
