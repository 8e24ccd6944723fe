(** * UBorrowSub: an object with items of the library in its stacks, compared with one that has only the client's. *)
From Verif Require Import Base Spec BaseFacts SyncModel SyncSpec BorrowModel BorrowSpec BorrowProofs BorrowState BorrowWorld.

(** ** One stack: the client's items [a1 ++ a2], dead items [p] between them, and the library's items [r] below *)
Record sub_at (T : list nat) (full ist a1 p a2 r : stack) : Prop := {
  s_full : full = a1 ++ p ++ a2 ++ r;
  s_ist : ist = a1 ++ a2;
  s_a1 : Forall (fun i => iperm i = SharedRO) a1;
  s_p : bottom_ok p;
  s_pp : Forall garb_item p;
  s_pt : Forall (fun i => ~ In (itag i) T) p;
  s_rt : Forall (fun i => ~ In (itag i) T) r;
  s_at : Forall (fun i => In (itag i) T) (a1 ++ a2) }.

(** The library's items never change *)
Definition sub (T : list nat) (r full ist : stack) : Prop := exists a1 p a2, sub_at T full ist a1 p a2 r.

Definition both2 (T : list nat) (r : stack) (f i : option stack) : Prop :=
  match f, i with Some f, Some i => sub T r f i | None, None => True | _, _ => False end.

Lemma not_tags (T : list nat) t (l : stack) : In t T -> Forall (fun i => ~ In (itag i) T) l -> Forall (fun i => itag i <> t) l.
Proof. intros I. apply Forall_impl. intros i N E. apply N. rewrite E. exact I. Qed.

Lemma granting_out w t (l : stack) : Forall (fun i => itag i <> t) l -> granting w t l = None.
Proof. induction 1 as [|i l N _ IH]; [reflexivity|]. cbn [granting]. rewrite (proj2 (Nat.eqb_neq _ _) N). cbn [andb]. rewrite IH. reflexivity. Qed.

(** Where the granting item is *)
Inductive at2 (w : bool) (t : nat) (a1 p a2 r : stack) : option (stack * item * stack) -> option (stack * item * stack) -> Prop :=
| A2Top x g y : a1 = x ++ g :: y -> itag g = t -> grants w (iperm g) = true ->
    at2 w t a1 p a2 r (Some (x, g, y ++ p ++ a2 ++ r)) (Some (x, g, y ++ a2))
| A2Low x g y : a2 = x ++ g :: y -> itag g = t -> grants w (iperm g) = true ->
    at2 w t a1 p a2 r (Some (a1 ++ p ++ x, g, y ++ r)) (Some (a1 ++ x, g, y))
| A2None : at2 w t a1 p a2 r None None.

Lemma granting2 w T t full ist a1 p a2 r : sub_at T full ist a1 p a2 r -> In t T -> at2 w t a1 p a2 r (granting w t full) (granting w t ist).
Proof.
  intros S Ht. destruct S as [E1 E2 H1 H2 H3 H4 H5 H6]. subst full ist. destruct (granting w t a1) as [[[x g] y]|] eqn:G1.
  - destruct (granting_spec _ _ _ _ _ _ G1) as (-> & B & C). rewrite !(granting_left _ _ _ _ _ _ _ G1). constructor; auto.
  - rewrite !(granting_none _ _ _ _ G1). rewrite (granting_app w t p) by (apply (not_tags T); assumption).
    destruct (granting w t a2) as [[[x g] y]|] eqn:G2.
    + destruct (granting_spec _ _ _ _ _ _ G2) as (-> & B & C). rewrite (granting_left _ _ _ _ _ _ _ G2). constructor; auto.
    + rewrite (granting_none _ _ _ _ G2), (granting_out w t r) by (apply (not_tags T); assumption). constructor.
Qed.

Lemma ro_disable l : Forall (fun i => iperm i = SharedRO) l -> map disable l = l.
Proof. induction 1 as [|i l E _ IH]; [reflexivity|]. cbn [map]. rewrite IH. unfold disable, is_unique. rewrite E. reflexivity. Qed.

Lemma ro_prot_u c l : Forall (fun i => iperm i = SharedRO) l -> existsb (fun i => is_unique i && protected c i) l = false.
Proof. induction 1 as [|i l E _ IH]; [reflexivity|]. cbn [existsb]. rewrite IH. unfold is_unique. rewrite E. reflexivity. Qed.

Lemma ro_srw l : Forall (fun i => iperm i = SharedRO) l -> Forall (fun i => is_srw i = false) l.
Proof. apply Forall_impl. intros i E. unfold is_srw. rewrite E. reflexivity. Qed.

(** The items above a shared item, without the dead ones *)
Lemma split2 a1 p x q k : Forall (fun i => iperm i = SharedRO) a1 -> bottom_ok p -> split_srw x = (q, k) ->
  split_srw (a1 ++ p ++ x) = (a1 ++ p ++ q, k) /\ split_srw (a1 ++ x) = (a1 ++ q, k).
Proof.
  intros R B E. destruct (split_srw_spec _ _ _ E) as (-> & F & Bq).
  assert (B1 : bottom_ok a1) by (apply bottom_all; apply ro_srw; exact R). split.
  - replace (a1 ++ p ++ q ++ k) with ((a1 ++ p ++ q) ++ k) by (napp; reflexivity). apply split_srw_app; [|exact F]. apply bottom_up_garb; [exact B1|]. apply bottom_up_garb; assumption.
  - rewrite app_assoc. apply split_srw_app; [|exact F]. apply bottom_up_garb; assumption.
Qed.

Lemma inc2 g a1 p x q k : Forall (fun i => iperm i = SharedRO) a1 -> bottom_ok p -> incompatible g x = (q, k) ->
  incompatible g (a1 ++ p ++ x) = (a1 ++ p ++ q, k) /\ incompatible g (a1 ++ x) = (a1 ++ q, k) /\ x = q ++ k.
Proof.
  intros R B. unfold incompatible. destruct (is_unique g).
  - intros [= <- <-]. rewrite app_nil_r. auto.
  - intros E. destruct (split2 a1 p x q k R B E) as [E1 E2]. split; [exact E1|]. split; [exact E2|]. apply (split_srw_spec _ _ _ E).
Qed.

Lemma garb_exists c l : Forall garb_item l -> existsb (protected c) l = false.
Proof. apply garb_prot. Qed.

Lemma sub_read c T r full ist t : sub T r full ist -> In t T -> both2 T r (sb_read c t full) (sb_read c t ist).
Proof.
  intros (a1 & p & a2 & S) Ht. unfold sb_read. pose proof S as [E1 E2 H1 H2 H3 H4 H5 H6].
  destruct (granting2 false T t _ _ _ _ _ _ S Ht) as [x g y E G1 G2|x g y E G1 G2|]; cbn [both2]; [| |exact Logic.I].
  - assert (Rx : Forall (fun i => iperm i = SharedRO) x) by (rewrite E in H1; apply Forall_app in H1; apply H1).
    rewrite (ro_prot_u c x Rx), (ro_disable x Rx). exists a1, p, a2. rewrite E. split; auto; try (rewrite <- E; assumption); napp; reflexivity.
  - rewrite !existsb_app, (ro_prot_u c a1 H1), (garb_prot_u c p H3). cbn [orb]. destruct (existsb _ x); [exact Logic.I|].
    rewrite !map_app, (ro_disable a1 H1). exists a1, (map disable p), (map disable x ++ g :: y). split; auto.
    + napp. reflexivity.
    + napp. reflexivity.
    + apply disable_bottom. exact H2.
    + apply disable_garb. exact H3.
    + eapply nin_same; [apply disable_tag|exact H4].
    + rewrite Forall_app in *. destruct H6 as [H6 H7]. split; [exact H6|]. rewrite E in H7. eapply in_same; [|exact H7]. rewrite !map_app, disable_tag. reflexivity.
Qed.

Lemma sub_write c T r full ist t : sub T r full ist -> In t T ->
  match sb_write c t full, sb_write c t ist with
  | Some f, Some i => exists a2, sub_at T f i [] [] a2 r
  | None, None => True
  | _, _ => False
  end.
Proof.
  intros (a1 & p & a2 & S) Ht. unfold sb_write. pose proof S as [E1 E2 H1 H2 H3 H4 H5 H6].
  destruct (granting2 true T t _ _ _ _ _ _ S Ht) as [x g y E G1 G2|x g y E G1 G2|]; [| |exact Logic.I].
  - exfalso. rewrite E in H1. apply Forall_app in H1. destruct H1 as [_ H1]. inversion H1 as [|? ? K _]; subst. rewrite K in G2. discriminate.
  - destruct (incompatible g x) as [q k] eqn:Ei. destruct (inc2 g a1 p x q k H1 H2 Ei) as (I1 & I2 & Ex). rewrite I1, I2.
    rewrite !existsb_app, (garb_prot c p H3). cbn [orb]. destruct (existsb _ a1 || existsb _ q)%bool; [exact Logic.I|].
    exists (k ++ g :: y). split; [napp; reflexivity|reflexivity|constructor|apply bottom_nil|constructor|constructor|exact H5|].
    cbn [app]. apply Forall_app in H6. destruct H6 as [_ H6]. rewrite E, Ex, <- app_assoc in H6. apply Forall_app in H6. apply H6.
Qed.

Lemma sub_new T n r full ist : Forall (fun i => (itag i < n)%nat) full -> sub T r full ist -> sub (n :: T) r full ist.
Proof.
  intros L (a1 & p & a2 & [E1 E2 H1 H2 H3 H4 H5 H6]). exists a1, p, a2. rewrite E1, !Forall_app in L. destruct L as (L1 & L2 & L3 & L4). split; auto.
  - rewrite Forall_forall in *. intros i K [K0|K0]; [specialize (L2 i K); cbn in L2; lia|]. exact (H4 i K K0).
  - rewrite Forall_forall in *. intros i K [K0|K0]; [specialize (L4 i K); cbn in L4; lia|]. exact (H5 i K K0).
  - eapply Forall_impl; [|exact H6]. cbn. auto.
Qed.

Lemma incl_tags_sub (P : item -> Prop) l : Forall P l -> forall l', incl l' l -> Forall P l'.
Proof. intros F l' I. rewrite Forall_forall in *. auto. Qed.

Lemma sub_retag c T r full ist k t n prot : sub T r full ist -> In t T -> Forall (fun i => (itag i < n)%nat) full ->
  both2 (n :: T) r (sb_retag c k t n prot full) (sb_retag c k t n prot ist).
Proof.
  intros S Ht L. pose proof (sub_new T n r full ist L S) as S2. assert (Ht2 : In t (n :: T)) by (right; exact Ht).
  destruct k; cbn [sb_retag].
  - pose proof (sub_write c (n :: T) r full ist t S2 Ht2) as W. destruct (sb_write c t full) as [f|], (sb_write c t ist) as [i|]; try contradiction; [|exact Logic.I].
    destruct W as (a2 & [E1 E2 H1 H2 H3 H4 H5 H6]). cbn [both2]. exists [], [], (MkItem n Unique prot :: a2). split; auto; try (subst; reflexivity).
    cbn [app] in *. constructor; [left; reflexivity|exact H6].
  - pose proof (sub_read c (n :: T) r full ist t S2 Ht2) as W. destruct (sb_read c t full) as [f|], (sb_read c t ist) as [i|]; cbn [both2] in *; try contradiction; [|exact Logic.I].
    destruct W as (a1 & p & a2 & [E1 E2 H1 H2 H3 H4 H5 H6]). exists (MkItem n SharedRO prot :: a1), p, a2. split; auto; try (subst; reflexivity).
    cbn [app]. constructor; [left; reflexivity|exact H6].
  - destruct S2 as (a1 & p & a2 & S2). pose proof S2 as [E1 E2 H1 H2 H3 H4 H5 H6].
    destruct (granting2 true (n :: T) t _ _ _ _ _ _ S2 Ht2) as [x g y E G1 G2|x g y E G1 G2|]; cbn [both2]; [| |exact Logic.I].
    + exfalso. rewrite E in H1. apply Forall_app in H1. destruct H1 as [_ H1]. inversion H1 as [|? ? K _]; subst. rewrite K in G2. discriminate.
    + destruct (incompatible g x) as [q k] eqn:Ei. destruct (inc2 g a1 p x q k H1 H2 Ei) as (I1 & I2 & Ex). rewrite I1, I2. cbn [both2].
      exists a1, p, (q ++ MkItem n SharedRW None :: k ++ g :: y). split; auto; [napp; reflexivity|napp; reflexivity|].
      rewrite Forall_app in *. destruct H6 as [H6 H7]. split; [exact H6|]. rewrite E, Ex, <- app_assoc in H7. apply Forall_app in H7. destruct H7 as [H7 H8].
      apply Forall_app. split; [exact H7|]. constructor; [left; reflexivity|exact H8].
Qed.

(** ** Objects *)
Record sub_obj (n : nat) (r : Z -> stack) (full o : iobj) : Prop := {
  so_blk : iblk full = iblk o;
  so_tags : incl (itags o) (itags full);
  so_lt : forall x, in_block (iblk o) x -> Forall (fun i => (itag i < n)%nat) (istk full x);
  so_byte : forall x, in_block (iblk o) x -> sub (itags o) (r x) (istk full x) (istk o x) }.

(** How an access changes the tags of a stack *)
Lemma tags_read c t st st' : sb_read c t st = Some st' -> map itag st' = map itag st.
Proof.
  unfold sb_read. destruct (granting false t st) as [[[a g] b]|] eqn:G; [|discriminate]. destruct (existsb _ a); [discriminate|]. intros [= <-].
  destruct (granting_spec _ _ _ _ _ _ G) as (-> & _). rewrite !map_app. cbn [map]. rewrite disable_tag. reflexivity.
Qed.

Lemma inc_split g a p k : incompatible g a = (p, k) -> a = p ++ k.
Proof. unfold incompatible. destruct (is_unique g); [intros [= <- <-]; rewrite app_nil_r; reflexivity|]. intros E. apply (split_srw_spec _ _ _ E). Qed.

Lemma incl_write c t st st' : sb_write c t st = Some st' -> incl st' st.
Proof.
  unfold sb_write. destruct (granting true t st) as [[[a g] b]|] eqn:G; [|discriminate]. destruct (incompatible g a) as [p k] eqn:E. destruct (existsb _ p); [discriminate|]. intros [= <-].
  destruct (granting_spec _ _ _ _ _ _ G) as (-> & _). rewrite (inc_split _ _ _ _ E), <- app_assoc. apply incl_appr, incl_refl.
Qed.

Lemma retag_lt c k t n prot st st' : sb_retag c k t n prot st = Some st' -> Forall (fun i => (itag i < n)%nat) st -> Forall (fun i => (itag i < S n)%nat) st'.
Proof.
  intros R L. assert (L' : Forall (fun i => (itag i < S n)%nat) st) by (eapply Forall_impl; [|exact L]; cbn; lia). destruct k; cbn [sb_retag] in R.
  - destruct (sb_write c t st) as [s1|] eqn:W; [|discriminate]. injection R as <-. constructor; [cbn; lia|]. eapply incl_tags_sub; [exact L'|]. eapply incl_write; eauto.
  - destruct (sb_read c t st) as [s1|] eqn:W; [|discriminate]. injection R as <-. constructor; [cbn; lia|]. apply tags_read in W.
    rewrite (Forall_tag (fun k => (k < S n)%nat)) in *. rewrite W. exact L'.
  - destruct (granting true t st) as [[[a g] b]|] eqn:G; [|discriminate]. destruct (incompatible g a) as [p q] eqn:E. injection R as <-.
    destruct (granting_spec _ _ _ _ _ _ G) as (-> & _). rewrite (inc_split _ _ _ _ E), <- app_assoc in L'. apply Forall_app in L'. apply Forall_app. split; [apply L'|].
    constructor; [cbn; lia|apply L'].
Qed.

Lemma act_lt busy a n x f st st' : act_at busy a n x = Some f -> f st = Some st' -> Forall (fun i => (itag i < n)%nat) st -> Forall (fun i => (itag i < next_after a n)%nat) st'.
Proof.
  intros A F L. destruct a as [t b|t b|t parts p]; cbn [act_at next_after] in *.
  - destruct (inb b x); [|discriminate]. injection A as <-. apply tags_read in F. rewrite (Forall_tag (fun k => (k < n)%nat)) in *. rewrite F. exact L.
  - destruct (inb b x); [|discriminate]. injection A as <-. eapply incl_tags_sub; [exact L|]. eapply incl_write; eauto.
  - destruct (find _ parts) as [[kd b]|]; [|discriminate]. injection A as <-. eapply retag_lt; eauto.
Qed.

Lemma act_both2 busy T r full ist a n x f : sub T r full ist -> In (act_tag a) T -> Forall (fun i => (itag i < n)%nat) full -> act_at busy a n x = Some f ->
  both2 (tags_after a n T) r (f full) (f ist).
Proof.
  intros S Ht L A. destruct a as [t b|t b|t parts p]; cbn [act_at act_tag tags_after] in *.
  - destruct (inb b x); [|discriminate]. injection A as <-. apply sub_read; auto.
  - destruct (inb b x); [|discriminate]. injection A as <-. pose proof (sub_write busy T r full ist t S Ht) as W. unfold both2.
    destruct (sb_write busy t full), (sb_write busy t ist); try contradiction; auto. destruct W as (a2 & W). exists [], [], a2. exact W.
  - destruct (find _ parts) as [[kd b]|]; [|discriminate]. injection A as <-. apply sub_retag; auto.
Qed.

(** An access of the client *)
Lemma sub_act busy n r full o a : sub_obj n r full o -> act_ok (MkO (iblk o) (itags o)) a = true ->
  act_ok (MkO (iblk full) (itags full)) a = true /\
  match ideal_act busy full a n, ideal_act busy o a n with
  | Some full', Some o' => sub_obj (next_after a n) r full' o' /\ iblk o' = iblk o /\ itags o' = tags_after a n (itags o)
  | None, None => True
  | _, _ => False
  end.
Proof.
  intros S A. pose proof S as [S1 S2 S3 S4]. pose proof (act_has _ _ A) as Ht. cbn [otags] in Ht.
  assert (A' : act_ok (MkO (iblk full) (itags full)) a = true).
  { assert (E : forall t, existsb (Nat.eqb t) (itags o) = true -> existsb (Nat.eqb t) (itags full) = true).
    { intros t K. apply existsb_exists in K. destruct K as (y & Y & E). apply existsb_exists. exists y. auto. }
    rewrite S1. destruct a as [t b|t b|t parts p]; cbn [act_ok oblk otags] in *; repeat (rewrite andb_true_iff in A |- *); intuition. }
  split; [exact A'|]. rewrite !ideal_act_stk.
  pose proof (act_does busy _ a n (istk full) A) as D1. pose proof (act_does busy _ a n (istk o) A) as D2.
  assert (In_ : forall x f, act_at busy a n x = Some f -> in_block (iblk o) x) by (intros x f F; exact (act_inside busy _ a n x f A F)).
  assert (B : forall x f, act_at busy a n x = Some f -> both2 (tags_after a n (itags o)) (r x) (f (istk full x)) (f (istk o x))).
  { intros x f F. pose proof (In_ x f F) as X. eapply act_both2; eauto. }
  destruct (act_stk busy a n (istk full)) as [k1|]; destruct (act_stk busy a n (istk o)) as [k2|]; cbn [does] in D1, D2; [|exfalso|exfalso|exact Logic.I].
  - cbn [iblk itags]. split; [|auto]. split; cbn [iblk itags istk].
    + exact S1.
    + destruct a; cbn [tags_after]; auto. intros y [<-|Y]; [left; reflexivity|right; auto].
    + intros x X. specialize (D1 x). destruct (act_at busy a n x) as [f|] eqn:F.
      * eapply act_lt; [exact F|exact D1|apply S3; exact X].
      * rewrite D1. eapply Forall_impl; [|apply S3; exact X]. cbn. intros i. destruct a; cbn [next_after]; lia.
    + intros x X. specialize (D1 x). specialize (D2 x). destruct (act_at busy a n x) as [f|] eqn:F.
      * specialize (B x f F). rewrite D1, D2 in B. exact B.
      * rewrite D1, D2. destruct a; cbn [tags_after]; auto. apply sub_new; [apply S3; exact X|apply S4; exact X].
  - destruct D2 as (x & f & F1 & F2). specialize (D1 x). specialize (B x f F1). rewrite F1 in D1. rewrite D1, F2 in B. exact B.
  - destruct D1 as (x & f & F1 & F2). specialize (D2 x). specialize (B x f F1). rewrite F1 in D2. rewrite D2, F2 in B. exact B.
Qed.
