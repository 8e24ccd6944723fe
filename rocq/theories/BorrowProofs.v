From Verif Require Import Base Spec BaseFacts SyncModel SyncSpec SyncProofs BorrowModel BorrowSpec.

Ltac napp := repeat (progress (rewrite <- ?app_assoc; cbn [app])).

(** ** Blocks *)
Lemma inb_iff b x : inb b x = true <-> in_block b x.
Proof. unfold inb, in_block. rewrite andb_true_iff, Z.leb_le, Z.ltb_lt. reflexivity. Qed.

Lemma addrs_in b x : In x (addrs b) <-> in_block b x.
Proof.
  unfold addrs, in_block. rewrite in_map_iff. split.
  - intros (i & <- & H). apply in_seq in H. lia.
  - intros H. exists (Z.to_nat (x - start b)). split; [lia|]. apply in_seq. lia.
Qed.

Lemma on_block_spec b f s s' : on_block b f s = Some s' ->
  forall x, (in_block b x -> f (s x) = Some (s' x)) /\ (~ in_block b x -> s' x = s x).
Proof.
  unfold on_block. destruct (forallb _ _) eqn:F; [|discriminate]. intros [= <-] x. rewrite forallb_forall in F. split; intros H.
  - pose proof (F x (proj2 (addrs_in b x) H)) as K. rewrite (proj2 (inb_iff b x) H). destruct (f (s x)); [reflexivity|discriminate].
  - destruct (inb b x) eqn:E; [apply inb_iff in E; contradiction|reflexivity].
Qed.

Lemma on_block_ok b f s : (forall x, in_block b x -> f (s x) <> None) -> exists s', on_block b f s = Some s'.
Proof.
  intros H. unfold on_block. destruct (forallb _ _) eqn:F; [eauto|]. exfalso.
  assert (T : forallb (fun x => match f (s x) with Some _ => true | None => false end) (addrs b) = true).
  { apply forallb_forall. intros x X. apply addrs_in in X. specialize (H x X). destruct (f (s x)); [reflexivity|congruence]. }
  congruence.
Qed.

Lemma on_block_none b f s : on_block b f s = None -> exists x, in_block b x /\ f (s x) = None.
Proof.
  unfold on_block. destruct (forallb _ _) eqn:F; [discriminate|]. intros _.
  assert (E : existsb (fun x => match f (s x) with Some _ => false | None => true end) (addrs b) = true).
  { apply not_false_iff_true. intros E. assert (T : forallb (fun x => match f (s x) with Some _ => true | None => false end) (addrs b) = true); [|congruence].
    apply forallb_forall. intros x X. destruct (f (s x)) eqn:K; [reflexivity|]. exfalso. rewrite <- not_true_iff_false in E. apply E. apply existsb_exists. exists x. rewrite K. auto. }
  apply existsb_exists in E. destruct E as (x & X & K). exists x. split; [apply addrs_in; exact X|]. destruct (f (s x)); [discriminate|reflexivity].
Qed.

(** ** One stack *)
Definition bottom_ok (u : stack) : Prop := forall u' i, u = u' ++ [i] -> is_srw i = false.

Lemma bottom_nil : bottom_ok [].
Proof. intros u i E. destruct u; discriminate. Qed.

Lemma bottom_cons i u : u <> [] -> bottom_ok (i :: u) <-> bottom_ok u.
Proof.
  intros N. split; intros B u' j E.
  - apply (B (i :: u')). rewrite E. reflexivity.
  - destruct u' as [|k u']; [cbn in E; injection E as -> E; congruence|]. injection E as -> E. eapply B. exact E.
Qed.

Lemma bottom_app a u : u <> [] -> bottom_ok (a ++ u) <-> bottom_ok u.
Proof.
  intros N. induction a as [|i a IH]; cbn [app]; [reflexivity|]. rewrite bottom_cons; [exact IH|]. destruct a; [exact N|discriminate].
Qed.

Lemma bottom_all u : Forall (fun i => is_srw i = false) u -> bottom_ok u.
Proof. intros F u' i ->. apply Forall_app in F. destruct F as [_ F]. inversion F; auto. Qed.

Lemma bottom_up_garb u v : bottom_ok u -> bottom_ok v -> bottom_ok (u ++ v).
Proof.
  intros B F. destruct v as [|i v]; [rewrite app_nil_r; exact B|]. rewrite bottom_app by discriminate. exact F.
Qed.

Lemma split_srw_low l : Forall (fun i => is_srw i = true) l -> split_srw l = ([], l).
Proof. induction 1 as [|i l H _ IH]; cbn [split_srw]; [reflexivity|]. rewrite IH, H. reflexivity. Qed.

Lemma split_srw_app u l : bottom_ok u -> Forall (fun i => is_srw i = true) l -> split_srw (u ++ l) = (u, l).
Proof.
  intros B F. induction u as [|i u IH]; cbn [app split_srw]; [apply split_srw_low; exact F|].
  destruct u as [|j u].
  - cbn [app] in *. rewrite (split_srw_low l F). rewrite (B [] i eq_refl). reflexivity.
  - rewrite IH; [reflexivity|]. rewrite bottom_cons in B by discriminate. exact B.
Qed.

Lemma split_srw_spec a : forall p k, split_srw a = (p, k) -> a = p ++ k /\ Forall (fun i => is_srw i = true) k /\ bottom_ok p.
Proof.
  induction a as [|i a IH]; intros p k; cbn [split_srw].
  - intros [= <- <-]. split; [reflexivity|]. split; [constructor|apply bottom_nil].
  - destruct (split_srw a) as [p0 k0]. destruct (IH _ _ eq_refl) as (E & F & B). destruct p0 as [|j p0].
    + destruct (is_srw i) eqn:S0; intros [= <- <-]; cbn [app] in *; subst a.
      * split; [reflexivity|]. split; [constructor; auto|apply bottom_nil].
      * split; [reflexivity|]. split; [exact F|]. apply bottom_all. constructor; auto.
    + intros [= <- <-]. subst a. split; [reflexivity|]. split; [exact F|]. rewrite bottom_cons by discriminate. exact B.
Qed.

Lemma granting_app w t a b : Forall (fun i => itag i <> t) a ->
  granting w t (a ++ b) = match granting w t b with Some (x, g, y) => Some (a ++ x, g, y) | None => None end.
Proof.
  induction 1 as [|i a H _ IH]; cbn [app granting].
  - destruct (granting w t b) as [[[x g] y]|]; reflexivity.
  - rewrite (proj2 (Nat.eqb_neq _ _) H). cbn [andb]. rewrite IH. destruct (granting w t b) as [[[x g] y]|]; reflexivity.
Qed.

Lemma granting_left w t a b x g y : granting w t a = Some (x, g, y) -> granting w t (a ++ b) = Some (x, g, y ++ b).
Proof.
  revert x g y. induction a as [|i a IH]; intros x g y; cbn [app granting]; [discriminate|].
  destruct (_ && _); [intros [= <- <- <-]; reflexivity|]. destruct (granting w t a) as [[[x0 g0] y0]|]; [|discriminate].
  intros [= <- <- <-]. rewrite (IH _ _ _ eq_refl). reflexivity.
Qed.

Lemma granting_none w t a b : granting w t a = None ->
  granting w t (a ++ b) = match granting w t b with Some (x, g, y) => Some (a ++ x, g, y) | None => None end.
Proof.
  induction a as [|i a IH]; cbn [app granting]; [destruct (granting w t b) as [[[x g] y]|]; reflexivity|].
  destruct (_ && _); [discriminate|]. destruct (granting w t a) as [[[x0 g0] y0]|]; [discriminate|]. intros _. rewrite IH by reflexivity.
  destruct (granting w t b) as [[[x g] y]|]; reflexivity.
Qed.

Lemma granting_spec w t a : forall x g y, granting w t a = Some (x, g, y) -> a = x ++ g :: y /\ itag g = t /\ grants w (iperm g) = true.
Proof.
  induction a as [|i a IH]; intros x g y; cbn [granting]; [discriminate|]. destruct (Nat.eqb (itag i) t && grants w (iperm i)) eqn:E.
  - intros [= <- <- <-]. apply andb_true_iff in E. destruct E as [E1 E2]. apply Nat.eqb_eq in E1. auto.
  - destruct (granting w t a) as [[[x0 g0] y0]|]; [|discriminate]. intros [= <- <- <-]. destruct (IH _ _ _ eq_refl) as (-> & ? & ?). auto.
Qed.

(** A stack of the slab: the client's items, dead items of the library, the shared items. *)
Record dec := MkDec { up : stack; garb : stack; low : stack }.

Definition bel (own : bool) : stack := if own then [MkItem 0 Unique None] else [].
Definition whole (own : bool) (d : dec) : stack := up d ++ garb d ++ low d ++ bel own.
Definition lo (own : bool) : nat := if own then 1 else 0.

Definition low_item (i : item) : Prop := iperm i = SharedRW /\ iprot i = None.
Definition garb_item (i : item) : Prop := iprot i = None.

Record good (own : bool) (n : nat) (d : dec) : Prop := {
  g_low : Forall low_item (low d);
  g_nodup : NoDup (map itag (low d));
  g_garb : Forall garb_item (garb d);
  g_gb : bottom_ok (garb d);
  g_up : bottom_ok (up d);
  g_lt : Forall (fun i => (lo own <= itag i < n)%nat) (up d ++ garb d ++ low d) }.

Lemma low_srw l : Forall low_item l -> Forall (fun i => is_srw i = true) l.
Proof. apply Forall_impl. intros i [E _]. unfold is_srw. rewrite E. reflexivity. Qed.

Lemma garb_prot c l : Forall garb_item l -> existsb (protected c) l = false.
Proof. induction 1 as [|i l E _ IH]; cbn [existsb]; [reflexivity|]. unfold protected at 1. rewrite E, IH. reflexivity. Qed.

Lemma garb_prot_u c l : Forall garb_item l -> existsb (fun i => is_unique i && protected c i) l = false.
Proof. induction 1 as [|i l E _ IH]; cbn [existsb]; [reflexivity|]. unfold protected at 1. rewrite E, IH, andb_false_r. reflexivity. Qed.

Lemma low_prot_u c l : Forall low_item l -> existsb (fun i => is_unique i && protected c i) l = false.
Proof. induction 1 as [|i l [E0 E] _ IH]; cbn [existsb]; [reflexivity|]. unfold protected at 1. rewrite E, IH, andb_false_r. reflexivity. Qed.

Lemma low_disable l : Forall low_item l -> map disable l = l.
Proof. induction 1 as [|i l [E _] _ IH]; cbn [map]; [reflexivity|]. rewrite IH. unfold disable, is_unique. rewrite E. reflexivity. Qed.

Lemma disable_tag l : map itag (map disable l) = map itag l.
Proof. rewrite map_map. apply map_ext. intros i. unfold disable. destruct (is_unique i); reflexivity. Qed.

Lemma disable_srw i : is_srw (disable i) = is_srw i.
Proof. unfold disable. destruct (is_unique i) eqn:E; [|reflexivity]. unfold is_srw, is_unique in *. cbn. destruct (iperm i); try discriminate; reflexivity. Qed.

Lemma disable_garb l : Forall garb_item l -> Forall garb_item (map disable l).
Proof.
  intros F. apply Forall_map. eapply Forall_impl; [|exact F]. intros i B.
  unfold garb_item, disable. destruct (is_unique i); exact B.
Qed.

Lemma disable_bottom u : bottom_ok u -> bottom_ok (map disable u).
Proof.
  intros B u' i E. assert (K : exists v j, u = v ++ [j] /\ i = disable j).
  { destruct (exists_last (l := u)) as (v & j & ->); [intros ->; destruct u'; discriminate|]. exists v, j. split; [reflexivity|].
    rewrite map_app in E. apply app_inj_tail in E. symmetry. apply E. }
  destruct K as (v & j & -> & ->). rewrite disable_srw. eapply B. reflexivity.
Qed.

Lemma Forall_tag (P : nat -> Prop) (l : stack) : Forall (fun i => P (itag i)) l <-> Forall P (map itag l).
Proof. rewrite Forall_map. reflexivity. Qed.

Lemma lt_same own n (l l' : stack) : map itag l' = map itag l -> Forall (fun i => (lo own <= itag i < n)%nat) l -> Forall (fun i => (lo own <= itag i < n)%nat) l'.
Proof. intros E. rewrite !(Forall_tag (fun k => (lo own <= k < n)%nat)), E. auto. Qed.

Lemma in_same (T : list nat) (l l' : stack) : map itag l' = map itag l -> Forall (fun i => In (itag i) T) l -> Forall (fun i => In (itag i) T) l'.
Proof. intros E. rewrite !(Forall_tag (fun k => In k T)), E. auto. Qed.

Lemma nin_same (T : list nat) (l l' : stack) : map itag l' = map itag l -> Forall (fun i => ~ In (itag i) T) l -> Forall (fun i => ~ In (itag i) T) l'.
Proof. intros E. rewrite !(Forall_tag (fun k => ~ In k T)), E. auto. Qed.

Lemma lt_parts own n d : good own n d -> Forall (fun i => (lo own <= itag i < n)%nat) (up d) /\
  Forall (fun i => (lo own <= itag i < n)%nat) (garb d) /\ Forall (fun i => (lo own <= itag i < n)%nat) (low d).
Proof. intros G. pose proof (g_lt _ _ _ G) as F. rewrite !Forall_app in F. tauto. Qed.

Lemma good_more own n n' d : (n <= n')%nat -> good own n d -> good own n' d.
Proof. intros L G. destruct G. constructor; auto. eapply Forall_impl; [|exact g_lt0]. cbn. lia. Qed.

(** The library can use tag [t] here. *)
Definition usable (d : dec) (t : nat) : Prop := In t (map itag (low d)) /\ ~ In t (map itag (up d)) /\ ~ In t (map itag (garb d)).

Lemma not_in_tags t (l : stack) : ~ In t (map itag l) -> Forall (fun i => itag i <> t) l.
Proof. intros N. rewrite Forall_forall. intros i K E. apply N. rewrite <- E. apply in_map. exact K. Qed.

Lemma usable_granting w own n d t : good own n d -> usable d t -> exists la g lb, low d = la ++ g :: lb /\ itag g = t /\ low_item g /\
  granting w t (whole own d) = Some (up d ++ garb d ++ la, g, lb ++ bel own).
Proof.
  intros G (U1 & U2 & U3). unfold whole. rewrite granting_app by (apply not_in_tags; exact U2). rewrite granting_app by (apply not_in_tags; exact U3).
  assert (K : exists la g lb, low d = la ++ g :: lb /\ itag g = t /\ low_item g /\ granting w t (low d) = Some (la, g, lb)).
  { pose proof (g_low _ _ _ G) as F. clear G U2 U3. induction (low d) as [|i l IH]; [destruct U1|]. inversion F as [|? ? [F1 F0] F2]; subst.
    cbn [granting]. destruct (Nat.eqb_spec (itag i) t) as [E|E].
    - exists [], i, l. rewrite F1. assert (grants w SharedRW = true) by (destruct w; reflexivity). rewrite H. repeat split; auto.
    - destruct IH as (la & g & lb & -> & E1 & E2 & E3); auto; [destruct U1; [contradiction|assumption]|]. rewrite E3.
      exists (i :: la), g, lb. auto. }
  destruct K as (la & g & lb & E1 & E2 & E3 & E4). rewrite (granting_left _ _ _ _ _ _ _ E4). exists la, g, lb. auto.
Qed.

Lemma inc_low own n d la g lb : good own n d -> low d = la ++ g :: lb -> incompatible g (up d ++ garb d ++ la) = (up d ++ garb d, la).
Proof.
  intros G E. pose proof (g_low _ _ _ G) as F. rewrite E in F. apply Forall_app in F. destruct F as [F1 F2]. inversion F2 as [|? ? [F3 _] _]; subst.
  unfold incompatible, is_unique. rewrite F3. rewrite app_assoc. apply split_srw_app; [|apply low_srw; exact F1].
  apply bottom_up_garb; apply G.
Qed.

(** *** What the library does to a stack *)
Definition add_low (d : dec) (new : nat) : dec := MkDec (up d) (garb d) (MkItem new SharedRW None :: low d).
Definition drop_garb (d : dec) : dec := MkDec (up d) [] (low d).
Definition dis_garb (d : dec) : dec := MkDec (up d) (map disable (garb d)) (low d).

Lemma lib_retag c own n d t new : good own n d -> usable d t ->
  sb_retag c RCell t new None (whole own d) = Some (whole own (add_low d new)).
Proof.
  intros G U. cbn [sb_retag]. destruct (usable_granting true own n d t G U) as (la & g & lb & E1 & _ & _ & E2). rewrite E2.
  rewrite (inc_low own n d la g lb G E1). unfold whole, add_low. cbn [up garb low]. rewrite E1. napp. reflexivity.
Qed.

Lemma lib_write c own n d t : good own n d -> usable d t -> up d = [] -> sb_write c t (whole own d) = Some (whole own (drop_garb d)).
Proof.
  intros G U E. unfold sb_write. destruct (usable_granting true own n d t G U) as (la & g & lb & E1 & _ & _ & E2). rewrite E2.
  rewrite (inc_low own n d la g lb G E1). rewrite E. cbn [app]. rewrite (garb_prot c _ (g_garb _ _ _ G)).
  unfold whole, drop_garb. cbn [up garb low]. rewrite E, E1. napp. reflexivity.
Qed.

Lemma lib_read c own n d t : good own n d -> usable d t -> up d = [] -> sb_read c t (whole own d) = Some (whole own (dis_garb d)).
Proof.
  intros G U E. unfold sb_read. destruct (usable_granting false own n d t G U) as (la & g & lb & E1 & _ & _ & E2). rewrite E2.
  rewrite E. cbn [app]. pose proof (g_low _ _ _ G) as F. rewrite E1 in F. apply Forall_app in F. destruct F as [F1 _].
  rewrite existsb_app, (garb_prot_u c _ (g_garb _ _ _ G)), (low_prot_u c _ F1). cbn [orb].
  unfold whole, dis_garb. cbn [up garb low]. rewrite E, E1. cbn [app]. rewrite map_app, (low_disable _ F1). napp. reflexivity.
Qed.

Lemma good_add own n d new : good own n d -> (lo own <= new)%nat -> (n <= new)%nat -> good own (S new) (add_low d new).
Proof.
  intros G L N. pose proof (lt_parts _ _ _ G) as (L1 & L2 & L3). destruct G. constructor; cbn [add_low up garb low]; auto.
  - constructor; [split; reflexivity|auto].
  - cbn [map]. constructor; [|auto]. intros K. rewrite in_map_iff in K. destruct K as (i & E & K). rewrite Forall_forall in L3. specialize (L3 i K). cbn in *. lia.
  - rewrite !Forall_app in *. split; [eapply Forall_impl; [|exact L1]; cbn; lia|]. split; [eapply Forall_impl; [|exact L2]; cbn; lia|].
    constructor; [cbn; lia|]. eapply Forall_impl; [|exact L3]; cbn; lia.
Qed.

Lemma good_drop own n d : good own n d -> good own n (drop_garb d).
Proof.
  intros G. pose proof (lt_parts _ _ _ G) as (L1 & L2 & L3). destruct G. constructor; cbn [drop_garb up garb low]; auto; [apply bottom_nil|]. cbn [app]. rewrite Forall_app. auto.
Qed.

Lemma good_dis own n d : good own n d -> good own n (dis_garb d).
Proof.
  intros G. pose proof (lt_parts _ _ _ G) as (L1 & L2 & L3). destruct G. constructor; cbn [dis_garb up garb low]; auto; [apply disable_garb; auto|apply disable_bottom; auto|].
  rewrite !Forall_app. split; [exact L1|]. split; [|exact L3]. rewrite (Forall_tag (fun k => (lo own <= k < n)%nat)) in *. rewrite disable_tag. exact L2.
Qed.

(** *** What the client's accesses do, compared to the object alone *)
Definition mine (T : list nat) (i : item) : bool := existsb (Nat.eqb (itag i)) T.

Lemma mine_iff T i : mine T i = true <-> In (itag i) T.
Proof. unfold mine. rewrite existsb_exists. split; [intros (x & X & E); apply Nat.eqb_eq in E; subst; exact X|intros K; exists (itag i); rewrite Nat.eqb_refl; auto]. Qed.

Record rel (T : list nat) (d : dec) (ist : stack) : Prop := {
  r_up : Forall (fun i => In (itag i) T) (up d);
  r_garb : Forall (fun i => ~ In (itag i) T) (garb d);
  r_eq : ist = up d ++ filter (mine T) (low d) }.

Lemma granting_filter w T t l : In t T -> Forall low_item l ->
  match granting w t l with
  | Some (la, g, lb) => granting w t (filter (mine T) l) = Some (filter (mine T) la, g, filter (mine T) lb)
  | None => granting w t (filter (mine T) l) = None
  end.
Proof.
  intros Ht F. induction F as [|i l [Hi _] F IH]; [reflexivity|]. cbn [granting filter].
  destruct (Nat.eqb_spec (itag i) t) as [E|E].
  - assert (M : mine T i = true) by (apply mine_iff; rewrite E; exact Ht). rewrite M, Hi. cbn [granting]. rewrite E, Nat.eqb_refl, Hi.
    destruct w; reflexivity.
  - cbn [andb]. destruct (granting w t l) as [[[la g] lb]|]; destruct (mine T i) eqn:M; cbn [filter granting]; rewrite ?M; try (rewrite (proj2 (Nat.eqb_neq _ _) E); cbn [andb]); rewrite IH; reflexivity.
Qed.

Lemma granting_bel w own t : t <> 0%nat -> granting w t (bel own) = None.
Proof. intros N. destruct own; [|reflexivity]. cbn. destruct t; [congruence|reflexivity]. Qed.

(** Where the granting item is found *)
Inductive found (w : bool) (T : list nat) (own : bool) (d : dec) (t : nat) : option (stack * item * stack) -> option (stack * item * stack) -> Prop :=
| FUp a g b : up d = a ++ g :: b -> itag g = t -> grants w (iperm g) = true ->
    found w T own d t (Some (a, g, b ++ garb d ++ low d ++ bel own)) (Some (a, g, b ++ filter (mine T) (low d)))
| FLow la g lb : low d = la ++ g :: lb -> itag g = t -> low_item g ->
    found w T own d t (Some (up d ++ garb d ++ la, g, lb ++ bel own)) (Some (up d ++ filter (mine T) la, g, filter (mine T) lb))
| FNone : found w T own d t None None.

Lemma found_granting w T own n d ist t : good own n d -> rel T d ist -> In t T -> t <> 0%nat ->
  found w T own d t (granting w t (whole own d)) (granting w t ist).
Proof.
  intros G R Ht N. rewrite (r_eq _ _ _ R). unfold whole. destruct (granting w t (up d)) as [[[a g] b]|] eqn:E.
  - rewrite (granting_left _ _ _ _ _ _ _ E), (granting_left _ _ _ _ _ _ _ E). destruct (granting_spec _ _ _ _ _ _ E) as (E1 & E2 & E3). constructor; auto.
  - rewrite !(granting_none _ _ _ _ E).
    rewrite granting_app by (eapply Forall_impl; [|exact (r_garb _ _ _ R)]; cbn; intros i K1 K2; apply K1; rewrite K2; exact Ht).
    pose proof (granting_filter w T t (low d) Ht (g_low _ _ _ G)) as K. destruct (granting w t (low d)) as [[[la g] lb]|] eqn:E2.
    + rewrite (granting_left _ _ _ _ _ _ _ E2), K. destruct (granting_spec _ _ _ _ _ _ E2) as (E3 & E4 & _). constructor; auto.
      pose proof (g_low _ _ _ G) as F. rewrite E3 in F. apply Forall_app in F. destruct F as [_ F]. inversion F; auto.
    + rewrite (granting_none _ _ _ _ E2), (granting_bel w own t N), K. constructor.
Qed.

Definition keeps (T : list nat) (new : option nat) (d d' : dec) : Prop :=
  incl (low d) (low d') /\ incl (map itag (garb d')) (map itag (garb d)) /\ Forall (fun i => In (itag i) T) (up d') /\
  (forall i, In i (low d') -> In i (low d) \/ Some (itag i) = new).

Definition both (own : bool) (n : nat) (T : list nat) (new : option nat) (d : dec) (r i : option stack) : Prop :=
  match r, i with
  | Some r, Some i => exists d', r = whole own d' /\ good own n d' /\ rel T d' i /\ keeps T new d d'
  | None, None => True
  | _, _ => False
  end.

Lemma up_lt own n d : good own n d -> Forall (fun i => (lo own <= itag i < n)%nat) (up d).
Proof. intros G. apply (lt_parts _ _ _ G). Qed.

Lemma filter_low T l : Forall low_item l -> Forall low_item (filter (mine T) l).
Proof. intros F. rewrite Forall_forall in *. intros i K. apply filter_In in K. apply F. apply K. Qed.

Lemma client_read c own n T d ist t : good own n d -> rel T d ist -> In t T -> t <> 0%nat ->
  both own n T None d (sb_read c t (whole own d)) (sb_read c t ist).
Proof.
  intros G R Ht N. unfold sb_read. pose proof (lt_parts _ _ _ G) as (L1 & L2 & L3). pose proof (r_up _ _ _ R) as RU. pose proof (r_garb _ _ _ R) as RG.
  destruct (found_granting false T own n d ist t G R Ht N) as [a g b E E1 E2|la g lb E E1 E2|]; cbn [both]; [| |exact Logic.I].
  - destruct (existsb _ a); [exact Logic.I|]. exists (MkDec (map disable a ++ g :: b) (garb d) (low d)). unfold whole. cbn [up garb low].
    split; [napp; reflexivity|].
    assert (TG : map itag (map disable a ++ g :: b) = map itag (up d)) by (rewrite E, !map_app, disable_tag; reflexivity).
    split; [|split].
    + destruct G. constructor; cbn [up garb low]; auto.
      * rewrite E, bottom_app in g_up0 by discriminate. rewrite bottom_app by discriminate. exact g_up0.
      * apply Forall_app. split; [eapply lt_same; [exact TG|exact L1]|apply Forall_app; auto].
    + constructor; cbn [up garb low]; auto; [|napp; reflexivity].
      eapply in_same; [exact TG|exact RU].
    + split; [apply incl_refl|]. cbn [garb low]. split; [apply incl_refl|]. split; [|auto]. cbn [up].
      eapply in_same; [exact TG|exact RU].
  - pose proof (g_low _ _ _ G) as F. rewrite E in F. apply Forall_app in F. destruct F as [F1 F2].
    rewrite !existsb_app, (garb_prot_u c _ (g_garb _ _ _ G)), (low_prot_u c _ F1), (low_prot_u c _ (filter_low T _ F1)), !orb_false_r.
    destruct (existsb _ (up d)); [exact Logic.I|].
    exists (MkDec (map disable (up d)) (map disable (garb d)) (low d)). unfold whole. cbn [up garb low].
    rewrite !map_app, (low_disable _ F1), (low_disable _ (filter_low T _ F1)).
    split; [rewrite E; napp; reflexivity|]. split; [|split].
    + destruct G. constructor; cbn [up garb low]; auto; [apply disable_garb; auto|apply disable_bottom; auto|apply disable_bottom; auto|].
      apply Forall_app. split; [eapply lt_same; [apply disable_tag|exact L1]|]. apply Forall_app. split; [eapply lt_same; [apply disable_tag|exact L2]|exact L3].
    + constructor; cbn [up garb low].
      * eapply in_same; [apply disable_tag|exact RU].
      * eapply nin_same; [apply disable_tag|exact RG].
      * assert (M : mine T g = true) by (apply mine_iff; rewrite E1; exact Ht).
        rewrite E, filter_app. cbn [filter]. rewrite M. napp. reflexivity.
    + split; [apply incl_refl|]. cbn [garb low up]. split; [rewrite disable_tag; apply incl_refl|]. split; [|auto].
      eapply in_same; [apply disable_tag|exact RU].
Qed.

Lemma up_bottom_tail a g b k : bottom_ok (a ++ g :: b) -> bottom_ok (k ++ g :: b).
Proof. intros B. rewrite bottom_app in B by discriminate. rewrite bottom_app by discriminate. exact B. Qed.

Lemma client_write c own n T d ist t : good own n d -> rel T d ist -> In t T -> t <> 0%nat ->
  both own n T None d (sb_write c t (whole own d)) (sb_write c t ist).
Proof.
  intros G R Ht N. unfold sb_write. pose proof (lt_parts _ _ _ G) as (L1 & L2 & L3). pose proof (r_up _ _ _ R) as RU. pose proof (r_garb _ _ _ R) as RG.
  destruct (found_granting true T own n d ist t G R Ht N) as [a g b E E1 E2|la g lb E E1 E2|]; cbn [both]; [| |exact Logic.I].
  - destruct (incompatible g a) as [p k] eqn:Hin. destruct (existsb _ p); [exact Logic.I|].
    assert (A : exists p', a = p' ++ k).
    { unfold incompatible in Hin. destruct (is_unique g); [injection Hin as <- <-; exists a; rewrite app_nil_r; reflexivity|].
      destruct (split_srw_spec _ _ _ Hin) as (A & _). eauto. }
    destruct A as [p' A]. rewrite A in E.
    exists (MkDec (k ++ g :: b) (garb d) (low d)). unfold whole. cbn [up garb low]. split; [napp; reflexivity|].
    assert (L1' : Forall (fun i => (lo own <= itag i < n)%nat) (k ++ g :: b)).
    { rewrite E in L1. rewrite <- app_assoc in L1. apply Forall_app in L1. apply L1. }
    assert (RU' : Forall (fun i => In (itag i) T) (k ++ g :: b)).
    { rewrite E in RU. rewrite <- app_assoc in RU. apply Forall_app in RU. apply RU. }
    split; [|split].
    + destruct G. constructor; cbn [up garb low]; auto.
      * rewrite E in g_up0. eapply up_bottom_tail. exact g_up0.
      * apply Forall_app. split; [exact L1'|apply Forall_app; auto].
    + constructor; cbn [up garb low]; auto. napp. reflexivity.
    + split; [apply incl_refl|]. cbn [garb low up]. split; [apply incl_refl|]. auto.
  - pose proof (g_low _ _ _ G) as F. rewrite E in F. apply Forall_app in F. destruct F as [F1 F2].
    rewrite (inc_low own n d la g lb G E).
    assert (K : incompatible g (up d ++ filter (mine T) la) = (up d, filter (mine T) la)).
    { unfold incompatible, is_unique. destruct E2 as [-> _]. apply split_srw_app; [apply G|]. apply low_srw. apply filter_low. exact F1. }
    rewrite K. rewrite existsb_app, (garb_prot c _ (g_garb _ _ _ G)), orb_false_r. destruct (existsb _ (up d)); [exact Logic.I|].
    exists (MkDec [] [] (low d)). unfold whole. cbn [up garb low app]. split; [rewrite E; napp; reflexivity|]. split; [|split].
    + destruct G. constructor; cbn [up garb low app]; auto; apply bottom_nil.
    + constructor; cbn [up garb low app]; auto.
      assert (M : mine T g = true) by (apply mine_iff; rewrite E1; exact Ht).
      rewrite E, filter_app. cbn [filter]. rewrite M. reflexivity.
    + split; [apply incl_refl|]. cbn [garb low up]. split; [intros x []|]. auto.
Qed.

(** A new tag *)
Lemma filter_new own n T l : Forall (fun i => (lo own <= itag i < n)%nat) l -> filter (mine (n :: T)) l = filter (mine T) l.
Proof.
  intros F. apply filter_ext_in. intros i K. rewrite Forall_forall in F. specialize (F i K). unfold mine. cbn [existsb].
  assert (E : Nat.eqb (itag i) n = false) by (apply Nat.eqb_neq; lia). rewrite E. reflexivity.
Qed.

Lemma rel_new own n T d ist : good own n d -> rel T d ist -> rel (n :: T) d ist.
Proof.
  intros G R. pose proof (lt_parts _ _ _ G) as (L1 & L2 & L3). destruct R. constructor.
  - eapply Forall_impl; [|exact r_up0]. cbn. auto.
  - rewrite Forall_forall in *. intros i K [E|E]; [specialize (L2 i K); cbn in L2; lia|]. exact (r_garb0 i K E).
  - rewrite (filter_new own) by exact L3. exact r_eq0.
Qed.

Lemma client_retag c own n T d ist k t prot : good own n d -> rel T d ist -> In t T -> t <> 0%nat -> (lo own <= n)%nat ->
  both own (S n) (n :: T) (Some n) d (sb_retag c k t n prot (whole own d)) (sb_retag c k t n prot ist).
Proof.
  intros G R Ht N Ln. pose proof (lt_parts _ _ _ G) as (L1 & L2 & L3).
  assert (P : forall p r i, is_srw (MkItem n p prot) = false -> both own n T None d r i ->
    both own (S n) (n :: T) (Some n) d (match r with Some st => Some (MkItem n p prot :: st) | None => None end)
      (match i with Some st => Some (MkItem n p prot :: st) | None => None end)).
  { intros p [r|] [i|] SR; cbn [both]; auto. intros (d' & -> & G' & R' & K1 & K2 & K3 & K4).
    pose proof (lt_parts _ _ _ G') as (L1' & L2' & L3').
    exists (MkDec (MkItem n p prot :: up d') (garb d') (low d')). split; [reflexivity|]. split; [|split].
    - apply good_more with (n' := S n) in G'; [|lia]. pose proof (g_lt _ _ _ G') as GL. destruct G'. split; cbn [up garb low app]; [assumption|assumption|assumption|assumption| |].
      + destruct (up d') as [|j u]; [apply bottom_all; constructor; auto|]. rewrite bottom_cons by discriminate. exact g_up0.
      + constructor; [cbn; lia|exact GL].
    - pose proof (rel_new own n T d' i G' R') as R2. destruct R2. split; cbn [up garb low]; [|assumption|].
      + constructor; [cbn; auto|auto].
      + rewrite r_eq0. reflexivity.
    - split; [exact K1|]. split; [exact K2|]. cbn [up low]. split.
      + constructor; [cbn; auto|]. eapply Forall_impl; [|exact K3]. cbn. auto.
      + intros j J. destruct (K4 j J) as [J'|J']; [auto|discriminate]. }
  destruct k; cbn [sb_retag].
  - apply P; [reflexivity|]. apply client_write; auto.
  - apply P; [reflexivity|]. apply client_read; auto.
  - clear P. pose proof (rel_new own n T d ist G R) as R2.
    destruct (found_granting true T own n d ist t G R Ht N) as [a g b E E1 E2|la g lb E E1 E2|]; cbn [both]; [| |exact Logic.I].
    + destruct (incompatible g a) as [p k] eqn:Hin. assert (A : a = p ++ k).
      { unfold incompatible in Hin. destruct (is_unique g); [injection Hin as <- <-; rewrite app_nil_r; reflexivity|]. apply (split_srw_spec _ _ _ Hin). }
      rewrite A in E. set (nw := MkItem n SharedRW None).
      exists (MkDec (p ++ nw :: k ++ g :: b) (garb d) (low d)). unfold whole. cbn [up garb low]. split; [napp; reflexivity|].
      assert (X : forall P : item -> Prop, Forall P (up d) -> P nw -> Forall P (p ++ nw :: k ++ g :: b)).
      { intros P F F0. rewrite E, <- app_assoc in F. apply Forall_app in F. apply Forall_app. split; [apply F|]. constructor; [exact F0|apply F]. }
      split; [|split].
      * pose proof (good_more own n (S n) d ltac:(lia) G) as G'. pose proof (g_up _ _ _ G) as B. pose proof (lt_parts _ _ _ G') as (M1 & M2 & M3). destruct G'. constructor; cbn [up garb low]; auto.
        -- rewrite E in B. replace (p ++ nw :: k ++ g :: b) with ((p ++ nw :: k) ++ g :: b) by (napp; reflexivity). eapply up_bottom_tail. exact B.
        -- apply Forall_app. split; [apply X; [exact M1|cbn; lia]|apply Forall_app; auto].
      * destruct R2. constructor; cbn [up garb low]; auto.
        -- apply X; [exact r_up0|cbn; auto].
        -- rewrite (filter_new own) by exact L3. napp. reflexivity.
      * split; [apply incl_refl|]. cbn [up garb low]. split; [apply incl_refl|]. split; [|auto]. apply X; [apply R2|cbn; auto].
    + pose proof (g_low _ _ _ G) as F. rewrite E in F. apply Forall_app in F. destruct F as [F1 F2].
      rewrite (inc_low own n d la g lb G E).
      assert (K : incompatible g (up d ++ filter (mine T) la) = (up d, filter (mine T) la)).
      { unfold incompatible, is_unique. destruct E2 as [-> _]. apply split_srw_app; [apply G|]. apply low_srw. apply filter_low. exact F1. }
      rewrite K. exists (add_low d n). unfold whole, add_low. cbn [up garb low]. split; [rewrite E; napp; reflexivity|]. split; [|split].
      * apply (good_add own n d n); auto.
      * destruct R2. constructor; cbn [up garb low]; auto. cbn [filter]. assert (M0 : mine (n :: T) (MkItem n SharedRW None) = true) by (apply mine_iff; cbn; auto). rewrite M0.
        rewrite (filter_new own) by exact L3. rewrite E, filter_app. cbn [filter].
        assert (M : mine T g = true) by (apply mine_iff; rewrite E1; exact Ht). rewrite M. napp. reflexivity.
      * split; [cbn [low]; intros x X; right; exact X|]. cbn [up garb low]. split; [apply incl_refl|]. split; [apply R2|].
        intros i [<-|I]; auto.
Qed.

(** ** What the client may try *)

Lemma has_tag l t : existsb (Nat.eqb t) l = true <-> In t l.
Proof.
  rewrite existsb_exists. split.
  - intros (x & I1 & E). apply Nat.eqb_eq in E. now subst.
  - intros I1. exists t. split; [exact I1|apply Nat.eqb_refl].
Qed.

Lemma within_iff o b : ((start o <=? start b) && (start b + size b <=? start o + size o)) = true <-> within o b.
Proof. unfold within. rewrite andb_true_iff, !Z.leb_le. reflexivity. Qed.

Lemma apart_iff parts : apart parts = true <-> ForallOrdPairs (fun p q : rkind * block => start (snd p) + size (snd p) <= start (snd q)) parts.
Proof.
  induction parts as [|[r b] l IH]; [split; [constructor|reflexivity]|].
  cbn [apart]. rewrite andb_true_iff, IH, forallb_forall. split.
  - intros [F R]. constructor; [|exact R]. apply Forall_forall. intros q Q. apply Z.leb_le, F, Q.
  - intros C. inversion C as [|? ? F R]; subst. split; [|exact R]. intros q Q. apply Z.leb_le. rewrite Forall_forall in F. exact (F q Q).
Qed.

Lemma act_ok_iff o a : act_ok o a = true <-> client_access o a.
Proof.
  destruct a as [t b|t b|t parts p]; cbn [act_ok client_access].
  1, 2: rewrite andb_true_iff, has_tag, within_iff; reflexivity.
  rewrite !andb_true_iff, has_tag, apart_iff, forallb_forall, Forall_forall. setoid_rewrite within_iff. tauto.
Qed.
