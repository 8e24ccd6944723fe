(** * VBorrowByte: accesses and new references in a region, and what they keep. *)
From Verif Require Import Base Spec BaseFacts SyncModel SyncProofs BorrowModel BorrowProofs BorrowWorld UBorrowModel RBorrowModel RBorrowSpec RBorrowBytes RBorrowOps RBorrowCalls RBorrowPolite VBorrowLocal.

(** ** One byte *)
Definition bok (base n : nat) (st : stack) : Prop := ends base st /\ Forall (fun i => (itag i < n)%nat) st.
Lemma bok_more base n n' st : (n <= n')%nat -> bok base n st -> bok base n' st.
Proof. intros L [E F]. split; [exact E|]. eapply Forall_impl; [|exact F]. cbn. intros; lia. Qed.
Lemma bok_fresh base n st : bok base n st -> Forall (fun i => itag i <> n) st.
Proof. intros [_ F]. eapply Forall_impl; [|exact F]. cbn. intros; lia. Qed.
Lemma ends_same b1 b2 st : ends b1 st -> ends b2 st -> b1 = b2.
Proof. intros (u1 & E1 & _) (u2 & E2 & _). rewrite E1 in E2. apply app_inj_tail in E2. destruct E2 as [_ E2]. injection E2 as ->. reflexivity. Qed.

Lemma bok_suffix base n p q g b : bok base n ((p ++ q) ++ g :: b) -> bok base n (q ++ g :: b).
Proof.
  intros [E F]. rewrite <- app_assoc in *. split.
  - destruct q as [|i q]; [apply (ends_app base p g b) in E; apply E|]. apply (ends_app base p i (q ++ g :: b)) in E. apply E.
  - apply Forall_app in F. apply F.
Qed.
Lemma keep_read base n B m st st' : bok base n st -> sb_read B m st = Some st' -> bok base n st' /\ prots st st'.
Proof.
  intros [E F] H. unfold sb_read in H. destruct (granting false m st) as [[[a g] b]|] eqn:G; [|discriminate]. destruct (existsb _ a); [discriminate|]. injection H as <-.
  destruct (granting_spec _ _ _ _ _ _ G) as (-> & _ & _). split; [|apply prots_disable]. apply ends_app in E. destruct E as [E1 E2]. apply Forall_app in F. destruct F as [F1 F2]. split.
  - apply ends_app. split; [|exact E2]. apply Forall_map. eapply Forall_impl; [|exact E1]. intros i. rewrite tag_disable. auto.
  - apply Forall_app. split; [|exact F2]. apply Forall_map. eapply Forall_impl; [|exact F1]. intros i. rewrite tag_disable. auto.
Qed.
Lemma keep_write base n B m st st' : bok base n st -> sb_write B m st = Some st' -> bok base n st' /\ prots st st'.
Proof.
  intros K H. unfold sb_write in H. destruct (granting true m st) as [[[a g] b]|] eqn:G; [|discriminate]. destruct (granting_spec _ _ _ _ _ _ G) as (-> & _ & _).
  destruct (incompatible g a) as [p k] eqn:X. pose proof (inc_app _ _ _ _ X) as ->. destruct (existsb _ p); [discriminate|]. injection H as <-.
  split; [eapply bok_suffix; exact K|]. apply prots_incl. intros i. rewrite !in_app_iff. tauto.
Qed.
(** The items of [st'] have no new protectors but [p]. *)
Definition prots_or (p : option nat) (st st' : stack) : Prop := forall i c, In i st' -> iprot i = Some c -> (exists j, In j st /\ iprot j = Some c) \/ p = Some c.
Lemma prots_none p st st' : prots st st' -> prots_or p st st'.
Proof. intros P i c I E. left. eauto. Qed.
Lemma bok_cons base n i st : (base < n)%nat -> itag i = n -> bok base n st -> bok base (S n) (i :: st).
Proof. intros L T [E F]. split; [apply ends_cons; [lia|exact E]|]. constructor; [lia|]. eapply Forall_impl; [|exact F]. cbn. intros; lia. Qed.
Lemma keep_retag base n B kd m p st st' : (base < n)%nat -> bok base n st -> sb_retag B kd m n p st = Some st' -> bok base (S n) st' /\ prots_or p st st'.
Proof.
  intros L K H. destruct kd; cbn [sb_retag] in H.
  - destruct (sb_write B m st) as [s1|] eqn:W; [|discriminate]. injection H as <-. destruct (keep_write _ _ _ _ _ _ K W) as [K1 P1]. split; [apply bok_cons; auto|].
    intros i c [<- | I] E; [right; exact E|left; exact (P1 _ _ I E)].
  - destruct (sb_read B m st) as [s1|] eqn:W; [|discriminate]. injection H as <-. destruct (keep_read _ _ _ _ _ _ K W) as [K1 P1]. split; [apply bok_cons; auto|].
    intros i c [<- | I] E; [right; exact E|left; exact (P1 _ _ I E)].
  - destruct (granting true m st) as [[[a g] b]|] eqn:G; [|discriminate]. destruct (granting_spec _ _ _ _ _ _ G) as (-> & _ & _). destruct (incompatible g a) as [q k] eqn:X.
    pose proof (inc_app _ _ _ _ X) as ->. injection H as <-. pose proof K as [E F]. split.
    + split.
      * apply ends_app in E. destruct E as [E1 E2]. apply Forall_app in E1. destruct E1 as [E1 E3]. apply ends_app. split; [exact E1|]. apply ends_cons; [cbn; lia|]. apply ends_app. auto.
      * apply Forall_app in F. destruct F as [F1 F2]. apply Forall_app in F1. destruct F1 as [F1 F3].
        assert (X2 : forall l : stack, Forall (fun i => (itag i < n)%nat) l -> Forall (fun i => (itag i < S n)%nat) l) by (intros l; apply Forall_impl; intros; lia).
        apply Forall_app. split; [auto|]. constructor; [cbn; lia|]. apply Forall_app. auto.
    + intros i c I Ec. left. exists i. split; [|exact Ec]. rewrite !in_app_iff in *. cbn [In] in *. rewrite in_app_iff in I. cbn [In] in I. destruct I as [I|[<- |[I|I]]]; try tauto. discriminate.
Qed.

(** The pointer of the memory can be used, if no destructor is running here. *)
Lemma excl_base B base n st : bok base n st -> quiet B st -> excl B base st.
Proof.
  intros [(up & -> & F) _] Q. exists up, (R base), []. split; [reflexivity|]. split; [reflexivity|]. split; [reflexivity|]. split; [exact F|]. apply quiet_app in Q. apply Q.
Qed.
Lemma excl_busy B B' n st : (forall i c, In i st -> iprot i = Some c -> In c B' -> In c B) -> excl B n st -> excl B' n st.
Proof.
  intros H (pre & g & post & -> & T & G & F & Q). exists pre, g, post. do 4 (split; [auto|]). unfold quiet in *. rewrite Forall_forall in *. intros i I c E X.
  apply (Q i I c E). apply (H i c); [apply in_app_iff; auto|exact E|exact X].
Qed.
(** A new unique reference *)
Lemma excl_mut B B' n m u p st : excl B n st -> Forall (fun i => itag i <> m) st -> (forall i c, In i st -> iprot i = Some c -> In c B' -> In c B) ->
  exists st', sb_retag B (mut_kind u) n m p st = Some st' /\ excl B' m st'.
Proof.
  intros X F H. destruct u; cbn [mut_kind sb_retag].
  - destruct (excl_write _ _ _ X) as (s1 & W & _ & _). rewrite W. eexists. split; [reflexivity|]. exists [], (MkItem m Unique p), s1. split; [reflexivity|]. do 2 (split; [reflexivity|]). split; constructor.
  - destruct X as (pre & g & post & -> & T & G & F1 & Q). rewrite granting_app by exact F1. cbn [granting]. rewrite T, Nat.eqb_refl, G. cbn [andb]. rewrite app_nil_r.
    destruct (incompatible g pre) as [q k] eqn:Y. pose proof (inc_app _ _ _ _ Y) as ->. eexists. split; [reflexivity|]. exists q, (MkItem m SharedRW None), (k ++ g :: post). do 3 (split; [reflexivity|]).
    apply Forall_app in F. destruct F as [F _]. apply Forall_app in F. split; [apply F|]. apply quiet_app in Q. destruct Q as [Q _]. unfold quiet in *. rewrite Forall_forall in *. intros i I c E X.
    apply (Q i I c E). apply (H i c); [rewrite !in_app_iff; auto|exact E|exact X].
Qed.

(** ** Actions *)
Definition all_bok (b : block) (base : nat) (s : bstate) : Prop := (base < nexttag s)%nat /\ forall y, in_block b y -> bok base (nexttag s) (stk s y).
(** What an action in [b] does, if it makes arguments of call [p] only *)
Record steps (b : block) (base : nat) (p : option nat) (s s' : bstate) : Prop := {
  st_next : (nexttag s <= nexttag s')%nat;
  st_out : outside b s s';
  st_bok : all_bok b base s';
  st_prots : forall y, in_block b y -> prots_or p (stk s y) (stk s' y) }.
Lemma steps_refl b base p s : all_bok b base s -> steps b base p s s.
Proof. intros K. constructor; [lia|apply outside_refl|exact K|]. intros y _. apply prots_none, prots_refl. Qed.
Lemma steps_trans b base p s1 s2 s3 : steps b base p s1 s2 -> steps b base p s2 s3 -> steps b base p s1 s3.
Proof.
  intros [A1 A2 A3 A4] [B1 B2 B3 B4]. constructor; [lia|eapply outside_trans; eassumption|exact B3|]. intros y Y i c I E.
  destruct (B4 y Y i c I E) as [(j & I2 & E2)|X]; [|auto]. exact (A4 y Y j c I2 E2).
Qed.
Lemma steps_none b base p s s' : steps b base None s s' -> steps b base p s s'.
Proof. intros [A1 A2 A3 A4]. constructor; auto. intros y Y i c I E. destruct (A4 y Y i c I E) as [X|X]; [auto|discriminate]. Qed.
Lemma steps_quiet b base s s' B y : steps b base None s s' -> in_block b y -> quiet B (stk s y) -> quiet B (stk s' y).
Proof.
  intros ST Y Q. unfold quiet in *. rewrite Forall_forall in *. intros i I c E. destruct (st_prots _ _ _ _ _ ST y Y i c I E) as [(j & I2 & E2)|X]; [|discriminate]. exact (Q j I2 c E2).
Qed.

Lemma run_read B n c b base s : inside c b -> all_bok b base s -> (forall y, in_block c y -> exists st', sb_read B n (stk s y) = Some st') ->
  exists s', m_read B n c s = Some (tt, s') /\ steps b base None s s' /\ (forall y, in_block c y -> sb_read B n (stk s y) = Some (stk s' y)) /\ (forall y, ~ in_block c y -> stk s' y = stk s y) /\ nexttag s' = nexttag s.
Proof.
  intros IN [KB K] H. unfold m_read. pose proof (on_block_does c (sb_read B n) (stk s)) as D. destruct (on_block c (sb_read B n) (stk s)) as [k'|]; cbn [does] in D.
  - exists (MkB k' (nexttag s)). cbn [stk nexttag].
    assert (D1 : forall y, in_block c y -> sb_read B n (stk s y) = Some (k' y)) by (intros y Y; specialize (D y); rewrite (proj2 (inb_iff c y) Y) in D; exact D).
    assert (D2 : forall y, ~ in_block c y -> k' y = stk s y) by (intros y Y; specialize (D y); destruct (inb c y) eqn:X; [apply inb_iff in X; contradiction|exact D]).
    assert (DD : forall y, in_block c y \/ ~ in_block c y) by (intros y; destruct (inb c y) eqn:X; [left; apply inb_iff; exact X|right; rewrite <- inb_iff; congruence]).
    split; [reflexivity|]. split; [|auto]. constructor; cbn [stk nexttag].
    + lia.
    + intros y Y. apply D2. intros Z0. apply Y, IN, Z0.
    + split; [exact KB|]. intros y Y. destruct (DD y) as [Z0|Z0]; [exact (proj1 (keep_read _ _ _ _ _ _ (K y Y) (D1 y Z0)))|cbn [stk nexttag]; rewrite (D2 y Z0); exact (K y Y)].
    + intros y Y. destruct (DD y) as [Z0|Z0]; [exact (prots_none _ _ _ (proj2 (keep_read _ _ _ _ _ _ (K y Y) (D1 y Z0))))|rewrite (D2 y Z0); apply prots_none, prots_refl].
  - exfalso. destruct D as (y & f & A & N0). destruct (inb c y) eqn:Y; [|discriminate]. injection A as <-. apply inb_iff in Y. destruct (H y Y) as [st' E]. congruence.
Qed.
Lemma run_write B n c b base s : inside c b -> all_bok b base s -> (forall y, in_block c y -> exists st', sb_write B n (stk s y) = Some st') ->
  exists s', m_write B n c s = Some (tt, s') /\ steps b base None s s' /\ (forall y, in_block c y -> sb_write B n (stk s y) = Some (stk s' y)) /\ (forall y, ~ in_block c y -> stk s' y = stk s y) /\ nexttag s' = nexttag s.
Proof.
  intros IN [KB K] H. unfold m_write. pose proof (on_block_does c (sb_write B n) (stk s)) as D. destruct (on_block c (sb_write B n) (stk s)) as [k'|]; cbn [does] in D.
  - exists (MkB k' (nexttag s)). cbn [stk nexttag].
    assert (D1 : forall y, in_block c y -> sb_write B n (stk s y) = Some (k' y)) by (intros y Y; specialize (D y); rewrite (proj2 (inb_iff c y) Y) in D; exact D).
    assert (D2 : forall y, ~ in_block c y -> k' y = stk s y) by (intros y Y; specialize (D y); destruct (inb c y) eqn:X; [apply inb_iff in X; contradiction|exact D]).
    assert (DD : forall y, in_block c y \/ ~ in_block c y) by (intros y; destruct (inb c y) eqn:X; [left; apply inb_iff; exact X|right; rewrite <- inb_iff; congruence]).
    split; [reflexivity|]. split; [|auto]. constructor; cbn [stk nexttag].
    + lia.
    + intros y Y. apply D2. intros Z0. apply Y, IN, Z0.
    + split; [exact KB|]. intros y Y. destruct (DD y) as [Z0|Z0]; [exact (proj1 (keep_write _ _ _ _ _ _ (K y Y) (D1 y Z0)))|cbn [stk nexttag]; rewrite (D2 y Z0); exact (K y Y)].
    + intros y Y. destruct (DD y) as [Z0|Z0]; [exact (prots_none _ _ _ (proj2 (keep_write _ _ _ _ _ _ (K y Y) (D1 y Z0))))|rewrite (D2 y Z0); apply prots_none, prots_refl].
  - exfalso. destruct D as (y & f & A & N0). destruct (inb c y) eqn:Y; [|discriminate]. injection A as <-. apply inb_iff in Y. destruct (H y Y) as [st' E]. congruence.
Qed.
Lemma kind_none_find parts y : kind_at parts y = None <-> find (fun q : rkind * block => inb (snd q) y) parts = None.
Proof. unfold kind_at. destruct (find _ parts); cbn; split; congruence. Qed.
Lemma kind_part parts y kd : kind_at parts y = Some kd -> exists c, In (kd, c) parts /\ in_block c y.
Proof.
  unfold kind_at. destruct (find _ parts) as [[k c]|] eqn:F; [|discriminate]. cbn. intros [= ->]. apply find_some in F. destruct F as [I X]. exists c. split; [exact I|]. apply inb_iff. exact X.
Qed.
Lemma run_retag B n parts p b base s : Forall (fun q => inside (snd q) b) parts -> apart parts = true -> all_bok b base s ->
  (forall y kd, kind_at parts y = Some kd -> exists st', sb_retag B kd n (nexttag s) p (stk s y) = Some st') ->
  exists s', m_retag_prot B n parts p s = Some (nexttag s, s') /\ steps b base p s s' /\
    (forall y kd, kind_at parts y = Some kd -> sb_retag B kd n (nexttag s) p (stk s y) = Some (stk s' y)) /\ (forall y, kind_at parts y = None -> stk s' y = stk s y).
Proof.
  intros IN A [KB K] H. unfold m_retag_prot. pose proof (retag_does B n (nexttag s) p parts (stk s) A) as D. destruct (retag_parts B n (nexttag s) p parts (stk s)) as [k'|]; cbn [does] in D.
  - exists (MkB k' (S (nexttag s))). cbn [stk nexttag].
    assert (D1 : forall y kd, kind_at parts y = Some kd -> sb_retag B kd n (nexttag s) p (stk s y) = Some (k' y)).
    { intros y kd X. specialize (D y). unfold kind_at in X. destruct (find _ parts) as [[k0 c]|]; [|discriminate]. injection X as <-. exact D. }
    assert (D2 : forall y, kind_at parts y = None -> k' y = stk s y) by (intros y X; specialize (D y); apply kind_none_find in X; rewrite X in D; exact D).
    assert (DI : forall y kd, kind_at parts y = Some kd -> in_block b y).
    { intros y kd X. destruct (kind_part _ _ _ X) as (c & I & Y). rewrite Forall_forall in IN. exact (IN _ I y Y). }
    split; [reflexivity|]. split; [|auto]. constructor; cbn [stk nexttag].
    + lia.
    + intros y Y. destruct (kind_at parts y) as [kd|] eqn:X; [destruct (Y (DI y kd X))|exact (D2 y X)].
    + split; [cbn; lia|]. intros y Y. destruct (kind_at parts y) as [kd|] eqn:X; cbn [stk nexttag]; [exact (proj1 (keep_retag _ _ _ _ _ _ _ _ KB (K y Y) (D1 y kd X)))|].
      rewrite (D2 y X). eapply bok_more; [|exact (K y Y)]. lia.
    + intros y Y. destruct (kind_at parts y) as [kd|] eqn:X; [exact (proj2 (keep_retag _ _ _ _ _ _ _ _ KB (K y Y) (D1 y kd X)))|]. rewrite (D2 y X). apply prots_none, prots_refl.
  - exfalso. destruct D as (y & f & X & N0). destruct (find _ parts) as [[k0 c]|] eqn:F; [|discriminate]. injection X as <-. destruct (H y k0) as [st' E]; [unfold kind_at; rewrite F; reflexivity|congruence].
Qed.
Lemma kind_one kd c y : kind_at [(kd, c)] y = if inb c y then Some kd else None.
Proof. unfold kind_at. cbn [find snd]. destruct (inb c y); reflexivity. Qed.
(** A new unique reference to [c], and a call that starts *)
Lemma run_mut B B' n u c p b base s : inside c b -> all_bok b base s -> (forall y, in_block c y -> excl B n (stk s y)) ->
  (forall y i c0, in_block c y -> In i (stk s y) -> iprot i = Some c0 -> In c0 B' -> In c0 B) ->
  exists s', m_retag_prot B n [(mut_kind u, c)] p s = Some (nexttag s, s') /\ steps b base p s s' /\ (forall y, in_block c y -> excl B' (nexttag s) (stk s' y)) /\ (forall y, ~ in_block c y -> stk s' y = stk s y).
Proof.
  intros IN K X H. assert (RT : forall y, in_block c y -> exists st', sb_retag B (mut_kind u) n (nexttag s) p (stk s y) = Some st' /\ excl B' (nexttag s) st').
  { intros y Y. apply excl_mut; [exact (X y Y)|eapply bok_fresh, (proj2 K), IN, Y|]. intros i c0. exact (H y i c0 Y). }
  destruct (run_retag B n [(mut_kind u, c)] p b base s) as (s' & E & ST & D1 & D2); [constructor; [exact IN|constructor]|reflexivity|exact K| |].
  - intros y kd Q. rewrite kind_one in Q. destruct (inb c y) eqn:Y; [|discriminate]. injection Q as <-. apply inb_iff in Y. destruct (RT y Y) as (st' & E & _). eauto.
  - exists s'. split; [exact E|]. split; [exact ST|]. split.
    + intros y Y. destruct (RT y Y) as (st' & E1 & E2). rewrite (D1 y (mut_kind u)) in E1 by (rewrite kind_one, (proj2 (inb_iff c y) Y); reflexivity). injection E1 as <-. exact E2.
    + intros y Y. apply D2. rewrite kind_one. destruct (inb c y) eqn:Z0; [apply inb_iff in Z0; contradiction|reflexivity].
Qed.
(** A new shared reference from the pointer of the memory *)
Definition sharing (base n : nat) (kd : rkind) (st : stack) : Prop := match kd with RShared => ro n st | _ => grp base n st end.
Lemma run_shared B parts b base s : Forall (fun q => inside (snd q) b) parts -> apart parts = true -> (forall q, In q parts -> fst q <> RUnique) -> all_bok b base s ->
  (forall y, in_block b y -> quiet B (stk s y)) ->
  exists s', m_retag_prot B base parts None s = Some (nexttag s, s') /\ steps b base None s s' /\
    (forall y kd, kind_at parts y = Some kd -> sharing base (nexttag s) kd (stk s' y) /\ forall n, sharing base n kd (stk s y) -> sharing base n kd (stk s' y)).
Proof.
  intros IN A NU K Q.
  assert (RT : forall y kd, kind_at parts y = Some kd -> exists st', sb_retag B kd base (nexttag s) None (stk s y) = Some st' /\ sharing base (nexttag s) kd st' /\ forall n, sharing base n kd (stk s y) -> sharing base n kd st').
  { intros y kd X. destruct (kind_part _ _ _ X) as (c & I & Y). rewrite Forall_forall in IN. pose proof (IN _ I y Y) as Yb. pose proof (proj2 K y Yb) as Ky. pose proof (NU _ I) as N0. cbn [fst] in N0. destruct kd; [congruence| |]; cbn [sharing].
    - destruct (base_shared B base (stk s y) (nexttag s) (proj1 Ky) (Q y Yb)) as (st' & E & _ & E2 & E3). eauto.
    - destruct (base_cell B base (stk s y) (nexttag s) (proj1 Ky) (bok_fresh _ _ _ Ky)) as (st' & q & k & E & E1 & E2 & E3 & E4). exists st'. split; [exact E|]. subst st'. split.
      + exact (grp_new base (stk s y) q k (nexttag s) (bok_fresh _ _ _ Ky) E1 E3 E4).
      + intros n G. rewrite E1 in G. exact (grp_old base q k n (nexttag s) G E3 E4). }
  destruct (run_retag B base parts None b base s IN A K) as (s' & E & ST & D1 & D2).
  - intros y kd X. destruct (RT y kd X) as (st' & E & _). eauto.
  - exists s'. split; [exact E|]. split; [exact ST|]. intros y kd X. destruct (RT y kd X) as (st' & E1 & E2). rewrite (D1 y kd X) in E1. injection E1 as <-. exact E2.
Qed.
