(** * BorrowState: the library's operations on the stacks of all bytes. *)
From Verif Require Import Base Spec BaseFacts SyncModel SyncSpec SyncProofs BorrowModel BorrowSpec BorrowProofs.

(** Which tags can be used by the library, where *)
Definition caps := list (nat * list block).
Definition can (cs : caps) (x : Z) (t : nat) : Prop := exists bs b, In (t, bs) cs /\ In b bs /\ in_block b x.

Definition byte (own : bool) (n : nat) (cs : caps) (objs : list iobj) (fr : Z -> Prop) (x : Z) (d : dec) : Prop :=
  good own n d /\ (forall t, can cs x t -> usable d t) /\ (fr x -> up d = []) /\
  (forall o, In o objs -> in_block (iblk o) x -> rel (itags o) d (istk o x)).

Record holds (own : bool) (cs : caps) (objs : list iobj) (fr : Z -> Prop) (s : bstate) : Prop := {
  h_next : (1 <= nexttag s)%nat;
  h_tags : forall o t, In o objs -> In t (itags o) -> (1 <= t < nexttag s)%nat;
  h_caps : forall t bs, In (t, bs) cs -> (t < nexttag s)%nat;
  h_byte : forall x, exists d, stk s x = whole own d /\ byte own (nexttag s) cs objs fr x d }.

Lemma holds_less own cs cs' objs fr s : incl cs' cs -> holds own cs objs fr s -> holds own cs' objs fr s.
Proof.
  intros I H. destruct H. constructor; auto.
  - intros t bs K. eapply h_caps0. apply I. exact K.
  - intros x. destruct (h_byte0 x) as (d & E & G & U & F & R). exists d. split; [exact E|]. split; [exact G|]. split; [|auto].
    intros t (bs & b & K1 & K2). apply U. exists bs, b. auto.
Qed.

Lemma lo_le own n : (1 <= n)%nat -> (lo own <= n)%nat.
Proof. destruct own; cbn; lia. Qed.

Lemma rel_add T own n d ist : good own n d -> ~ In n T -> rel T d ist -> rel T (add_low d n) ist.
Proof.
  intros G N R. destruct R as [R1 R2 R3]. split; cbn [add_low up garb low]; [assumption|assumption|]. cbn [filter].
  assert (M : mine T (MkItem n SharedRW None) = false) by (apply not_true_iff_false; rewrite mine_iff; exact N). rewrite M. exact R3.
Qed.

Lemma byte_more own n n' cs objs fr x d : (n <= n')%nat -> byte own n cs objs fr x d -> byte own n' cs objs fr x d.
Proof. intros L (G & B). split; [eapply good_more; eauto|exact B]. Qed.

Lemma retag_parts_disj c t n p parts : forall k,
  ForallOrdPairs (fun a b => disjoint (snd a) (snd b)) parts ->
  (forall kd b x, In (kd, b) parts -> in_block b x -> sb_retag c kd t n p (k x) <> None) ->
  exists k', retag_parts c t n p parts k = Some k' /\
    (forall kd b x, In (kd, b) parts -> in_block b x -> sb_retag c kd t n p (k x) = Some (k' x)) /\
    (forall x, (forall kd b, In (kd, b) parts -> ~ in_block b x) -> k' x = k x).
Proof.
  induction parts as [|[kd b] parts IH]; intros k D O; cbn [retag_parts].
  - exists k. split; [reflexivity|]. split; [intros ? ? ? []|auto].
  - inversion D as [|? ? D1 D2]; subst. rewrite Forall_forall in D1.
    destruct (on_block_ok b (sb_retag c kd t n p) k) as [k1 K1]; [intros x X; apply (O kd b x); [left; reflexivity|exact X]|]. rewrite K1.
    pose proof (on_block_spec _ _ _ _ K1) as S1.
    assert (Out : forall kd' b' x, In (kd', b') parts -> in_block b' x -> k1 x = k x).
    { intros kd' b' x I X. apply S1. intros Y. apply (D1 _ I x). auto. }
    destruct (IH k1 D2) as (k2 & K2 & S2 & S3).
    { intros kd' b' x I X. rewrite (Out _ _ _ I X). apply (O kd' b'); [right; exact I|exact X]. }
    exists k2. split; [exact K2|]. split.
    + intros kd' b' x [E|I] X.
      * injection E as <- <-. rewrite (S3 x); [apply S1; exact X|]. intros kd' b' I Y. apply (D1 _ I x). auto.
      * rewrite <- (Out _ _ _ I X). eapply S2; eauto.
    + intros x N. rewrite S3; [|intros kd' b' I; apply N with kd'; right; exact I]. apply S1. apply N with kd. left. reflexivity.
Qed.

Lemma cell_pairs bs : ForallOrdPairs disjoint bs -> ForallOrdPairs (fun a b : rkind * block => disjoint (snd a) (snd b)) (map (pair RCell) bs).
Proof.
  induction 1 as [|b bs F _ IH]; cbn [map]; constructor; [|exact IH]. apply Forall_map. exact F.
Qed.

Lemma dec_in (bs : list block) x : (exists b, In b bs /\ in_block b x) \/ ~ (exists b, In b bs /\ in_block b x).
Proof.
  destruct (existsb (fun b => inb b x) bs) eqn:E.
  - left. apply existsb_exists in E. destruct E as (b & B & X). exists b. rewrite <- inb_iff. auto.
  - right. intros (b & B & X). apply not_true_iff_false in E. apply E. apply existsb_exists. exists b. rewrite inb_iff. auto.
Qed.

(** A shared reference, from one that can be used *)
Lemma cell c own cs objs fr t bs s : holds own cs objs fr s -> ForallOrdPairs disjoint bs ->
  (forall b x, In b bs -> in_block b x -> can cs x t) ->
  exists s', m_retag c t (map (pair RCell) bs) s = Some (nexttag s, s') /\ nexttag s' = S (nexttag s) /\
    holds own ((nexttag s, bs) :: cs) objs fr s'.
Proof.
  intros H D C. pose proof (h_next _ _ _ _ _ H) as N1. unfold m_retag, m_retag_prot.
  destruct (retag_parts_disj c t (nexttag s) None (map (pair RCell) bs) (stk s)) as (k' & K & S1 & S2).
  - apply cell_pairs. exact D.
  - intros kd b x I X. apply in_map_iff in I. destruct I as (b0 & [= <- <-] & I).
    destruct (h_byte _ _ _ _ _ H x) as (d & E & G & U & _). rewrite E, (lib_retag c own (nexttag s) d t) ; [discriminate|exact G|]. apply U. apply (C b0); auto.
  - rewrite K. eexists. split; [reflexivity|]. cbn [nexttag]. split; [reflexivity|]. constructor; cbn [nexttag stk].
    + lia.
    + intros o t0 I1 I2. pose proof (h_tags _ _ _ _ _ H o t0 I1 I2). lia.
    + intros t0 bs0 [E|I]; [injection E as <- <-; lia|]. pose proof (h_caps _ _ _ _ _ H t0 bs0 I). lia.
    + intros x. destruct (h_byte _ _ _ _ _ H x) as (d & E & G & U & F & R). destruct (dec_in bs x) as [(b & B & X)|NX].
      * assert (I : In (RCell, b) (map (pair RCell) bs)) by (apply in_map; exact B).
        pose proof (S1 RCell b x I X) as P. rewrite E, (lib_retag c own (nexttag s) d t) in P; [|exact G|apply U; apply (C b); auto].
        injection P as P. exists (add_low d (nexttag s)). split; [auto|]. split; [|split; [|split]].
        -- apply (good_add own (nexttag s) d (nexttag s)); auto. apply lo_le. exact N1.
        -- intros t0 (bs0 & b0 & [E0|I0] & B0 & X0).
           ++ injection E0 as <- <-. pose proof (lt_parts _ _ _ G) as (L1 & L2 & _). split; [left; reflexivity|]. cbn [add_low up garb].
              rewrite Forall_forall in L1, L2. split; intros Z0; apply in_map_iff in Z0; destruct Z0 as (i & Z1 & Z2); [specialize (L1 i Z2)|specialize (L2 i Z2)]; cbn in *; lia.
           ++ destruct (U t0) as (U1 & U2); [exists bs0, b0; auto|]. split; [right; exact U1|exact U2].
        -- exact F.
        -- intros o O1 O2. apply (rel_add _ own); auto. intros Z0. pose proof (h_tags _ _ _ _ _ H o _ O1 Z0). lia.
      * rewrite S2; [|intros kd b I X; apply in_map_iff in I; destruct I as (b0 & [= <- <-] & I); apply NX; eauto].
        exists d. split; [exact E|]. apply byte_more with (nexttag s); [lia|]. split; [exact G|]. split; [|auto].
        intros t0 (bs0 & b0 & [E0|I0] & B0 & X0); [injection E0 as <- <-; exfalso; apply NX; eauto|]. apply U. exists bs0, b0. auto.
Qed.

(** Writes and reads where the client has no items *)
Lemma lib_access own cs objs fr s b f :
  holds own cs objs fr s ->
  (forall x d, in_block b x -> stk s x = whole own d -> byte own (nexttag s) cs objs fr x d ->
     exists d', f (stk s x) = Some (whole own d') /\ byte own (nexttag s) cs objs fr x d') ->
  exists k, on_block b f (stk s) = Some k /\ holds own cs objs fr (MkB k (nexttag s)).
Proof.
  intros H A. destruct (on_block_ok b f (stk s)) as [k K].
  - intros x X. destruct (h_byte _ _ _ _ _ H x) as (d & E & B). destruct (A x d X E B) as (d' & -> & _). discriminate.
  - exists k. split; [exact K|]. pose proof (on_block_spec _ _ _ _ K) as S1. destruct H. constructor; cbn [nexttag stk]; auto.
    intros x. destruct (h_byte0 x) as (d & E & B). destruct (inb b x) eqn:X.
    + apply inb_iff in X. destruct (A x d X E B) as (d' & F & B'). exists d'. split; [|exact B'].
      pose proof (proj1 (S1 x) X) as P. congruence.
    + exists d. split; [|exact B]. rewrite (proj2 (S1 x)); [exact E|]. rewrite <- inb_iff. congruence.
Qed.

Lemma wr c own cs objs fr t b s : holds own cs objs fr s -> (forall x, in_block b x -> can cs x t /\ fr x) ->
  exists s', m_write c t b s = Some (tt, s') /\ nexttag s' = nexttag s /\ holds own cs objs fr s'.
Proof.
  intros H A. unfold m_write. destruct (lib_access own cs objs fr s b (sb_write c t) H) as (k & K & H').
  - intros x d X E (G & U & F & R). exists (drop_garb d). destruct (A x X) as [A1 A2]. rewrite E, (lib_write c own (nexttag s) d t); auto.
    split; [reflexivity|]. split; [apply good_drop; exact G|]. split; [|split; [exact F|]].
    + intros t0 C0. destruct (U t0 C0) as (U1 & U2 & U3). split; [exact U1|]. split; [exact U2|]. intros [].
    + intros o O1 O2. destruct (R o O1 O2). constructor; cbn [drop_garb up garb low]; auto.
  - rewrite K. eexists. split; [reflexivity|]. split; [reflexivity|exact H'].
Qed.

Lemma rd c own cs objs fr t b s : holds own cs objs fr s -> (forall x, in_block b x -> can cs x t /\ fr x) ->
  exists s', m_read c t b s = Some (tt, s') /\ nexttag s' = nexttag s /\ holds own cs objs fr s'.
Proof.
  intros H A. unfold m_read. destruct (lib_access own cs objs fr s b (sb_read c t) H) as (k & K & H').
  - intros x d X E (G & U & F & R). exists (dis_garb d). destruct (A x X) as [A1 A2]. rewrite E, (lib_read c own (nexttag s) d t); auto.
    split; [reflexivity|]. split; [apply good_dis; exact G|]. split; [|split; [exact F|]].
    + intros t0 C0. destruct (U t0 C0) as (U1 & U2 & U3). split; [exact U1|]. split; [exact U2|]. cbn [dis_garb garb]. rewrite disable_tag. exact U3.
    + intros o O1 O2. destruct (R o O1 O2). constructor; cbn [dis_garb up garb low]; auto. eapply nin_same; [apply disable_tag|assumption].
  - rewrite K. eexists. split; [reflexivity|]. split; [reflexivity|exact H'].
Qed.

(** ** The functions of the library *)
Definition runs {A} (own : bool) (objs : list iobj) (fr : Z -> Prop) (m : M A) (s : bstate) (cs : caps) (Q : A -> caps -> nat -> Prop) : Prop :=
  exists a s' cs', m s = Some (a, s') /\ (nexttag s <= nexttag s')%nat /\ incl cs cs' /\ holds own cs' objs fr s' /\ Q a cs' (nexttag s').

Lemma runs_bind {A B} own objs fr (m : M A) (f : A -> M B) s cs Q R :
  runs own objs fr m s cs Q ->
  (forall a s' cs', (nexttag s <= nexttag s')%nat -> incl cs cs' -> holds own cs' objs fr s' -> Q a cs' (nexttag s') -> runs own objs fr (f a) s' cs' R) ->
  runs own objs fr (mbind m f) s cs R.
Proof.
  intros (a & s1 & c1 & E & L & I & H & q) K. destruct (K a s1 c1 L I H q) as (b & s2 & c2 & E2 & L2 & I2 & H2 & r).
  exists b, s2, c2. unfold mbind. rewrite E. repeat (split; [first [assumption|lia|eapply incl_tran; eassumption]|]). exact r.
Qed.

Lemma runs_ret {A} own objs fr (a : A) s cs (Q : A -> caps -> nat -> Prop) : holds own cs objs fr s -> Q a cs (nexttag s) -> runs own objs fr (mret a) s cs Q.
Proof. intros H q. exists a, s, cs. split; [reflexivity|]. split; [lia|]. split; [apply incl_refl|]. auto. Qed.

Lemma runs_weaken {A} own objs fr (m : M A) s cs (Q R : A -> caps -> nat -> Prop) : runs own objs fr m s cs Q -> (forall a c n, Q a c n -> R a c n) -> runs own objs fr m s cs R.
Proof. intros (a & s1 & c1 & E & L & I & H & q) K. exists a, s1, c1. auto 8. Qed.

(** [t] can be used in the blocks *)
Definition over (cs : caps) (t : nat) (bs : list block) : Prop := forall b x, In b bs -> in_block b x -> can cs x t.

Lemma over_more cs cs' t bs : incl cs cs' -> over cs t bs -> over cs' t bs.
Proof. intros I O b x B X. destruct (O b x B X) as (bs0 & b0 & K1 & K2). exists bs0, b0. auto. Qed.

Lemma over_sub cs t bs bs' : incl bs' bs -> over cs t bs -> over cs t bs'.
Proof. intros I O b x B X. apply (O b x); auto. Qed.

Lemma runs_cell own objs fr c t bs s cs : holds own cs objs fr s -> ForallOrdPairs disjoint bs -> over cs t bs ->
  runs own objs fr (m_retag c t (map (pair RCell) bs)) s cs (fun n cs' _ => over cs' n bs /\ (nexttag s <= n)%nat).
Proof.
  intros H D O. destruct (cell c own cs objs fr t bs s H D O) as (s' & E & N & H'). eexists _, s', _. split; [exact E|]. split; [lia|].
  split; [apply incl_tl, incl_refl|]. split; [exact H'|]. split; [|lia]. intros b x B X. exists bs, b. cbn. auto.
Qed.

Lemma runs_wr own objs fr c t b s cs : holds own cs objs fr s -> over cs t [b] -> (forall x, in_block b x -> fr x) ->
  runs own objs fr (m_write c t b) s cs (fun _ _ n => n = nexttag s).
Proof.
  intros H O F. destruct (wr c own cs objs fr t b s H) as (s' & E & N & H'); [intros x X; split; [apply (O b); [left; reflexivity|exact X]|auto]|].
  exists tt, s', cs. split; [exact E|]. split; [lia|]. split; [apply incl_refl|]. auto.
Qed.

Lemma runs_rd own objs fr c t b s cs : holds own cs objs fr s -> over cs t [b] -> (forall x, in_block b x -> fr x) ->
  runs own objs fr (m_read c t b) s cs (fun _ _ n => n = nexttag s).
Proof.
  intros H O F. destruct (rd c own cs objs fr t b s H) as (s' & E & N & H'); [intros x X; split; [apply (O b); [left; reflexivity|exact X]|auto]|].
  exists tt, s', cs. split; [exact E|]. split; [lia|]. split; [apply incl_refl|]. auto.
Qed.

Section Lib.
Variables (c : list nat) (t : target) (hd st : block) (own : bool) (objs : list iobj) (fr : Z -> Prop).
Hypothesis (apart_ : disjoint hd st) (hd_free : forall x, in_block hd x -> fr x).

Definition fresh_over (s : bstate) (bs : list block) : nat -> caps -> nat -> Prop := fun n cs' n' => over cs' n bs /\ (nexttag s <= n < n')%nat.

Lemma cap_lt s cs n bs b x : holds own cs objs fr s -> over cs n bs -> In b bs -> in_block b x -> (n < nexttag s)%nat.
Proof. intros H O B X. destruct (O b x B X) as (bs0 & b0 & K & _). eapply h_caps; eauto. Qed.

Lemma runs_new s cs self bs : holds own cs objs fr s -> ForallOrdPairs disjoint bs -> over cs self bs ->
  runs own objs fr (m_retag c self (map (pair RCell) bs)) s cs (fresh_over s bs).
Proof.
  intros H D O. destruct (cell c own cs objs fr self bs s H D O) as (s' & E & N & H'). eexists _, s', _. split; [exact E|]. split; [lia|].
  split; [apply incl_tl, incl_refl|]. split; [exact H'|]. split; [|lia]. intros b x B X. exists bs, b. cbn. auto.
Qed.

Lemma one_pair (b : block) : ForallOrdPairs disjoint [b].
Proof. constructor; constructor. Qed.

Lemma run_self s cs self : holds own cs objs fr s -> over cs self [hd; st] -> runs own objs fr (self_ref c hd st self) s cs (fresh_over s [hd; st]).
Proof. intros H O. apply (runs_new s cs self [hd; st]); auto. repeat constructor. exact apart_. Qed.

Lemma over_hd cs n : over cs n [hd; st] -> over cs n [hd].
Proof. apply over_sub. intros b [<-|[]]. left. reflexivity. Qed.
Lemma over_st cs n : over cs n [hd; st] -> over cs n [st].
Proof. apply over_sub. intros b [<-|[]]. right. left. reflexivity. Qed.

Lemma run_storage s cs self : holds own cs objs fr s -> over cs self [st] -> runs own objs fr (storage_get c st self) s cs (fresh_over s [st]).
Proof.
  intros H O. unfold storage_get. eapply runs_bind; [apply (runs_new s cs self [st] H (one_pair st) O)|]. cbn beta. intros r s1 cs1 L1 I1 H1 [O1 N1].
  eapply runs_weaken; [apply (runs_new s1 cs1 r [st] H1 (one_pair st) O1)|]. intros a c0 n [A B]. split; [exact A|lia].
Qed.

Lemma run_bump s cs self b : holds own cs objs fr s -> over cs self [hd; st] -> runs own objs fr (b_bump c hd st self b) s cs (fun _ _ _ => True).
Proof.
  intros H O. unfold b_bump. eapply runs_bind; [apply (run_self s cs self H O)|]. cbn beta. intros r s1 cs1 L1 I1 H1 [O1 N1].
  eapply runs_bind; [apply (runs_new s1 cs1 r [hd] H1 (one_pair hd) (over_hd _ _ O1))|]. cbn beta. intros q s2 cs2 L2 I2 H2 [O2 N2].
  destruct b; (eapply runs_weaken; [first [apply (runs_wr own objs fr c q hd s2 cs2 H2 O2 hd_free)|apply (runs_rd own objs fr c q hd s2 cs2 H2 O2 hd_free)]|auto]).
Qed.

Lemma run_level s0 s cs self : storage s0 = st -> holds own cs objs fr s -> over cs self [hd; st] ->
  runs own objs fr (b_level c hd s0 self) s cs (fun lv _ _ => lv = level s0).
Proof.
  intros Es H O. unfold b_level. rewrite Es. eapply runs_bind; [apply (run_self s cs self H O)|]. cbn beta. intros r s1 cs1 L1 I1 H1 [O1 N1].
  eapply runs_bind; [apply (runs_new s1 cs1 r [hd] H1 (one_pair hd) (over_hd _ _ O1))|]. cbn beta. intros q s2 cs2 L2 I2 H2 [O2 N2].
  eapply runs_bind; [apply (runs_rd own objs fr c q hd s2 cs2 H2 O2 hd_free)|]. cbn beta. intros _ s3 cs3 L3 I3 H3 _. apply runs_ret; auto.
Qed.

(** The result is that of the model without tags, and the pointer can be used in the storage. *)
Definition same_as {A} (x : slab * A) (good_ : A -> bool) (s : bstate) : slab * A * nat -> caps -> nat -> Prop :=
  fun y cs' n' => fst y = x /\ (good_ (snd x) = true -> fresh_over s [st] (snd y) cs' n').

Definition ok_result (r : outcome result) : bool := match r with Ret (ROk _) => true | _ => false end.
Definition ok_option (r : outcome (option allocation)) : bool := match r with Ret (Some _) => true | _ => false end.

Lemma try_alloc_at_storage s l e : storage (fst (try_alloc_at t s l e)) = storage s.
Proof. unfold try_alloc_at. destruct (prepare _ _ _ _) as [[|e0 n a]|]; try reflexivity. destruct (compare_exchange _ _ _) as [? [?|]]; reflexivity. Qed.

Lemma run_try_alloc_at s0 l e s cs self : storage s0 = st -> holds own cs objs fr s -> over cs self [hd; st] ->
  runs own objs fr (b_try_alloc_at c t hd s0 l e self) s cs (same_as (try_alloc_at t s0 l e) ok_result s).
Proof.
  intros Es H O. unfold b_try_alloc_at. rewrite Es. eapply runs_bind; [apply (run_self s cs self H O)|]. cbn beta. intros r s1 cs1 L1 I1 H1 [O1 N1].
  eapply runs_bind; [apply (run_storage s1 cs1 r H1 (over_st _ _ O1))|]. cbn beta. intros q s2 cs2 L2 I2 H2 [O2 N2].
  destruct (try_alloc_at t s0 l e) as [s0' r0].
  assert (P : forall (b : bool), runs own objs fr (_ <- b_bump c hd st r b ;; mret (s0', r0, q)) s2 cs2 (same_as (s0', r0) ok_result s)).
  { intros b. eapply runs_bind; [apply (run_bump s2 cs2 r b H2 (over_more _ _ _ _ I2 O1))|]. cbn beta. intros _ s3 cs3 L3 I3 H3 _.
    apply runs_ret; [exact H3|]. split; [reflexivity|]. intros _. cbn [snd]. split; [eapply over_more; eauto|lia]. }
  assert (P2 : runs own objs fr (mret (s0', r0, q)) s2 cs2 (same_as (s0', r0) ok_result s)).
  { apply runs_ret; [exact H2|]. split; [reflexivity|]. intros _. cbn [snd]. split; [exact O2|lia]. }
  destruct r0 as [[a|[|ob]]|m]; first [apply (P true)|apply (P false)|exact P2].
Qed.

Lemma run_loop fuel : forall s0 l g s cs self, storage s0 = st -> holds own cs objs fr s -> over cs self [hd; st] ->
  runs own objs fr (b_try_alloc_loop c t hd fuel s0 l g self) s cs (same_as (try_alloc_loop fuel t s0 l g) ok_option s).
Proof.
  induction fuel as [|fuel IH]; intros s0 l g s cs self Es H O; cbn [b_try_alloc_loop try_alloc_loop].
  - apply runs_ret; [exact H|]. split; [reflexivity|discriminate].
  - eapply runs_bind; [apply (run_try_alloc_at s0 l g s cs self Es H O)|]. cbn beta. intros [[s0' r0] q] s1 cs1 L1 I1 H1 [E1 F1].
    pose proof (try_alloc_at_storage s0 l g) as St. destruct (try_alloc_at t s0 l g) as [s2 r2]. cbn [fst snd] in *. injection E1 as -> ->.
    destruct r2 as [[a|[|ob]]|m].
    + apply runs_ret; [exact H1|]. split; [reflexivity|]. intros _. apply F1. reflexivity.
    + apply runs_ret; [exact H1|]. split; [reflexivity|discriminate].
    + eapply runs_weaken; [apply (IH s2 l ob s1 cs1 self); [congruence|exact H1|eapply over_more; eauto]|].
      intros y c0 n [Y1 Y2]. split; [exact Y1|]. intros K. destruct (Y2 K) as [Y3 Y4]. split; [exact Y3|lia].
    + apply runs_ret; [exact H1|]. split; [reflexivity|discriminate].
Qed.

(** one more reference &self *)
Lemma run_under {A} st0 (f : nat -> M A) s cs self Q : st0 = st -> holds own cs objs fr s -> over cs self [hd; st] ->
  (forall self s' cs', (nexttag s <= nexttag s')%nat -> holds own cs' objs fr s' -> over cs' self [hd; st] -> (nexttag s <= self < nexttag s')%nat -> runs own objs fr (f self) s' cs' Q) ->
  runs own objs fr (x <- self_ref c hd st0 self ;; f x) s cs Q.
Proof.
  intros -> H O K. eapply runs_bind; [apply (run_self s cs self H O)|]. cbn beta. intros r s1 cs1 L1 I1 H1 [O1 N1]. apply K; auto.
Qed.

Lemma same_later {A} (x : slab * A) g s s' y cs' n : (nexttag s <= nexttag s')%nat -> same_as x g s' y cs' n -> same_as x g s y cs' n.
Proof. intros L [E F]. split; [exact E|]. intros K. destruct (F K) as [F1 F2]. split; [exact F1|lia]. Qed.

Definition is_block (r : response) : bool := match r with RBlock _ => true | _ => false end.

Lemma run_method s0 k s cs self : storage s0 = st -> k <> CReset -> holds own cs objs fr s -> over cs self [hd; st] ->
  runs own objs fr (b_method c t hd s0 k self) s cs (same_as (step t s0 k) is_block s).
Proof.
  intros Es Nk H O. destruct k as [l|l lv|l|l lv| |]; cbn [b_method step]; [| | | | |congruence].
  - unfold b_alloc, b_try_alloc, try_alloc.
    eapply runs_bind; [apply run_under; [exact Es|exact H|exact O|]; intros self1 s1 cs1 L1 H1 O1 N1; apply run_under; [exact Es|exact H1|exact O1|];
      intros self2 s2 cs2 L2 H2 O2 N2; eapply runs_weaken; [apply (run_loop 2 s0 l 0 s2 cs2 self2 Es H2 O2)|]; intros y c0 n Y; exact (same_later _ _ s s2 _ _ _ ltac:(lia) Y)|].
    cbn beta. intros [[s1' r1] q] s3 cs3 L3 I3 H3 [Y1 Y2]. destruct (try_alloc_loop 2 t s0 l 0) as [s4 r4]. cbn [fst snd] in *. injection Y1 as -> ->.
    apply runs_ret; [exact H3|]. split; [reflexivity|]. cbn [snd]. intros K. apply Y2. destruct r4 as [[?|]|]; try discriminate K; reflexivity.
  - unfold b_alloc_at.
    eapply runs_bind; [apply run_under; [exact Es|exact H|exact O|]; intros self1 s1 cs1 L1 H1 O1 N1;
      eapply runs_weaken; [apply (run_try_alloc_at s0 l lv s1 cs1 self1 Es H1 O1)|]; intros y c0 n Y; exact (same_later _ _ s s1 _ _ _ ltac:(lia) Y)|].
    cbn beta. intros [[s1' r1] q] s3 cs3 L3 I3 H3 [Y1 Y2]. destruct (try_alloc_at t s0 l lv) as [s4 r4]. cbn [fst snd] in *. injection Y1 as -> ->.
    apply runs_ret; [exact H3|]. split; [reflexivity|]. cbn [snd]. intros K. apply Y2. destruct r4 as [[?|[|?]]|]; try discriminate K; reflexivity.
  - unfold b_get, get.
    eapply runs_bind with (Q := same_as (get t s0 l) ok_option s).
    + unfold get. apply run_under; [exact Es|exact H|exact O|]; intros self1 s1 cs1 L1 H1 O1 N1. destruct (lsize l =? 0).
      * apply run_under; [exact Es|exact H1|exact O1|]; intros self2 s2 cs2 L2 H2 O2 N2.
        eapply runs_bind; [apply (run_level s0 s2 cs2 self2 Es H2 O2)|]. cbn beta. intros lv s3 cs3 L3 I3 H3 ->.
        apply runs_ret; [exact H3|]. split; [reflexivity|]. intros _. cbn [snd]. split; [apply over_st; eapply over_more; eauto|lia].
      * unfold b_try_alloc. apply run_under; [exact Es|exact H1|exact O1|]; intros self2 s2 cs2 L2 H2 O2 N2.
        eapply runs_weaken; [apply (run_loop 2 s0 l 0 s2 cs2 self2 Es H2 O2)|]; intros y c0 n Y; exact (same_later _ _ s s2 _ _ _ ltac:(lia) Y).
    + cbn beta. intros [[s1' r1] q] s3 cs3 L3 I3 H3 [Y1 Y2]. change (if lsize l =? 0 then (s0, Ret (Some (zst_fake_alloc s0 l))) else try_alloc t s0 l) with (get t s0 l).
      destruct (get t s0 l) as [s4 r4]. cbn [fst snd] in *. injection Y1 as -> ->.
      apply runs_ret; [exact H3|]. split; [reflexivity|]. cbn [snd]. intros K. apply Y2. destruct r4 as [[?|]|]; try discriminate K; reflexivity.
  - unfold b_get_at.
    eapply runs_bind with (Q := same_as (get_at t s0 l lv) ok_result s).
    + unfold get_at. apply run_under; [exact Es|exact H|exact O|]; intros self1 s1 cs1 L1 H1 O1 N1. destruct (lsize l =? 0).
      * apply run_under; [exact Es|exact H1|exact O1|]; intros self2 s2 cs2 L2 H2 O2 N2.
        eapply runs_bind; [apply (run_level s0 s2 cs2 self2 Es H2 O2)|]. cbn beta. intros cur s3 cs3 L3 I3 H3 ->.
        cbn [zst_fake_alloc for_zst alevel]. destruct (negb (level s0 =? lv)); (apply runs_ret; [exact H3|]; split; [reflexivity|]; cbn [snd]).
        -- discriminate.
        -- intros _. split; [apply over_st; eapply over_more; eauto|lia].
      * eapply runs_weaken; [apply (run_try_alloc_at s0 l lv s1 cs1 self1 Es H1 O1)|]; intros y c0 n Y; exact (same_later _ _ s s1 _ _ _ ltac:(lia) Y).
    + cbn beta. intros [[s1' r1] q] s3 cs3 L3 I3 H3 [Y1 Y2]. destruct (get_at t s0 l lv) as [s4 r4]. cbn [fst snd] in *. injection Y1 as -> ->.
      apply runs_ret; [exact H3|]. split; [reflexivity|]. cbn [snd]. intros K. apply Y2. destruct r4 as [[?|[|?]]|]; try discriminate K; reflexivity.
  - eapply runs_bind; [apply (run_level s0 s cs self Es H O)|]. cbn beta. intros lv s1 cs1 L1 I1 H1 ->. apply runs_ret; [exact H1|]. split; [reflexivity|discriminate].
Qed.
End Lib.
