(** * RBorrowBytes: the stack of one byte, with and without the tags of the library. *)
From Verif Require Import Base Spec BaseFacts SyncModel SyncSpec BorrowModel BorrowSpec BorrowProofs.

Definition R (n : nat) : item := MkItem n SharedRW None.
Definition weakish (i : item) : Prop := iperm i = SharedRO \/ iperm i = Disabled.

(** Below the client's items that allow writes there are only shared-read-write items of the library. *)
Fixpoint J (K : list nat) (st : stack) : Prop :=
  match st with
  | [] => True
  | i :: st => (weakish i \/ mine K i = false \/ Forall (fun g => mine K g = false -> is_srw g = true) st) /\ J K st
  end.

Lemma mine_disable K i : mine K (disable i) = mine K i.
Proof. unfold mine, disable. destruct (is_unique i); reflexivity. Qed.
Lemma tag_disable i : itag (disable i) = itag i.
Proof. unfold disable. destruct (is_unique i); reflexivity. Qed.
Lemma prot_disable i : iprot (disable i) = iprot i.
Proof. unfold disable. destruct (is_unique i); reflexivity. Qed.
Lemma weak_disable i : is_srw i = false -> weakish (disable i).
Proof. unfold weakish, disable, is_unique, is_srw. destruct i as [a p q]; destruct p; cbn; auto; discriminate. Qed.
Lemma srw_or i : is_srw i = true \/ is_srw i = false.
Proof. destruct (is_srw i); auto. Qed.
Lemma weak_not_srw i : weakish i -> is_srw i = false.
Proof. unfold is_srw. intros [E|E]; rewrite E; reflexivity. Qed.

Lemma J_app_r K a b : J K (a ++ b) -> J K b.
Proof. induction a; cbn [app J]; [auto|tauto]. Qed.
Lemma J_app_l K a b : J K (a ++ b) -> J K a.
Proof.
  induction a as [|i a IH]; cbn [app J]; [auto|]. intros [H1 H2]. split; [|auto]. rewrite Forall_app in H1. tauto.
Qed.
Lemma J_pick K a g b : J K (a ++ g :: b) -> mine K g = true -> ~ weakish g -> Forall (fun g => mine K g = false -> is_srw g = true) b.
Proof. intros H M N. apply J_app_r in H. cbn [J] in H. destruct H as [[H|[H|H]] _]; [contradiction|congruence|exact H]. Qed.
Lemma garb_disable K a : Forall (fun g => mine K g = false -> is_srw g = true) a -> Forall (fun g => mine K g = false -> is_srw g = true) (map disable a).
Proof. intros F. apply Forall_map. eapply Forall_impl; [|exact F]. intros i. cbv beta. rewrite mine_disable, disable_srw. auto. Qed.
Lemma J_disable K a b : J K (a ++ b) -> J K (map disable a ++ b).
Proof.
  induction a as [|i a IH]; cbn [app map J]; [auto|]. intros [H1 H2]. split; [|auto]. rewrite mine_disable.
  destruct (srw_or i) as [S|S]; [|left; apply weak_disable; exact S].
  destruct H1 as [H1|[H1|H1]]; [apply weak_not_srw in H1; congruence|auto|]. right. right. apply Forall_app in H1. destruct H1 as [F1 F2].
  apply Forall_app. split; [apply garb_disable; exact F1|exact F2].
Qed.
Lemma J_insert K p i q : is_srw i = true -> J K (p ++ q) -> J K (i :: q) -> J K (p ++ i :: q).
Proof.
  intros S. induction p as [|j p IH]; cbn [app J]; [auto|]. intros [H1 H2] H3. split; [|auto].
  destruct H1 as [H1|[H1|H1]]; auto. right. right. apply Forall_app in H1. destruct H1 as [F1 F2]. apply Forall_app. split; [exact F1|]. constructor; auto.
Qed.
Lemma mine_new K n i : (itag i < n)%nat -> mine (n :: K) i = mine K i.
Proof. intros H. unfold mine. cbn [existsb]. rewrite (proj2 (Nat.eqb_neq (itag i) n)) by lia. reflexivity. Qed.
Lemma J_new K n st : Forall (fun i => (itag i < n)%nat) st -> J K st -> J (n :: K) st.
Proof.
  induction st as [|i st IH]; [auto|]. intros F. inversion F as [|? ? F1 F2]; subst. cbn [J]. intros [H1 H2]. split; [|auto]. rewrite mine_new by exact F1.
  destruct H1 as [H1|[H1|H1]]; auto. right. right. rewrite Forall_forall in *. intros g G. rewrite mine_new; auto.
Qed.
Lemma filter_new K n (st : stack) : Forall (fun i => (itag i < n)%nat) st -> filter (mine (n :: K)) st = filter (mine K) st.
Proof. induction 1 as [|i st F1 F2 IH]; [reflexivity|]. cbn [filter]. rewrite mine_new by exact F1. rewrite IH. reflexivity. Qed.

Lemma granting_filter w K t st : In t K ->
  granting w t (filter (mine K) st) = match granting w t st with Some (a, g, b) => Some (filter (mine K) a, g, filter (mine K) b) | None => None end.
Proof.
  intros T. induction st as [|i st IH]; [reflexivity|]. cbn [granting filter].
  destruct (Nat.eqb_spec (itag i) t) as [E|E].
  - assert (M : mine K i = true) by (apply mine_iff; rewrite E; exact T). rewrite M. cbn [granting]. rewrite E, Nat.eqb_refl. cbn [andb].
    destruct (grants w (iperm i)); [reflexivity|]. rewrite IH. destruct (granting w t st) as [[[a g] b]|]; [|reflexivity]. cbn [filter]. rewrite M. reflexivity.
  - cbn [andb]. destruct (mine K i) eqn:M.
    + cbn [granting]. rewrite (proj2 (Nat.eqb_neq _ _) E). cbn [andb]. rewrite IH. destruct (granting w t st) as [[[a g] b]|]; [|reflexivity]. cbn [filter]. rewrite M. reflexivity.
    + rewrite IH. destruct (granting w t st) as [[[a g] b]|]; [|reflexivity]. cbn [filter]. rewrite M. reflexivity.
Qed.

Lemma filter_srw K (k : stack) : Forall (fun i => is_srw i = true) k -> Forall (fun i => is_srw i = true) (filter (mine K) k).
Proof. intros F. rewrite Forall_forall in *. intros i H. apply filter_In in H. apply F. tauto. Qed.

Lemma filter_bottom K p : J K p -> bottom_ok p -> bottom_ok (filter (mine K) p).
Proof.
  intros H B. destruct p as [|x p0] using rev_ind; [apply bottom_nil|]. clear IHp0. rewrite filter_app. cbn [filter].
  destruct (mine K x) eqn:M.
  - apply bottom_app; [discriminate|]. intros u' i E. destruct u' as [|? u']; [|destruct u'; discriminate]. cbn in E. injection E as <-. eapply B. reflexivity.
  - rewrite app_nil_r. apply bottom_all. apply Forall_forall. intros i I. apply filter_In in I. destruct I as [I Mi].
    apply in_split in I. destruct I as (a & b & ->). destruct (srw_or i) as [S|S]; [|exact S]. exfalso.
    rewrite <- app_assoc in H. cbn [app] in H. apply J_pick in H; [|exact Mi|intros W; apply weak_not_srw in W; congruence].
    apply Forall_app in H. destruct H as [_ H]. inversion H as [|? ? H1 H2]; subst. specialize (H1 M). specialize (B _ x eq_refl). congruence.
Qed.

Lemma split_filter K a p k : J K a -> split_srw a = (p, k) -> split_srw (filter (mine K) a) = (filter (mine K) p, filter (mine K) k).
Proof.
  intros H E. apply split_srw_spec in E. destruct E as (-> & Sk & Bp). rewrite filter_app. apply split_srw_app; [|apply filter_srw; exact Sk].
  apply filter_bottom; [apply J_app_l in H; exact H|exact Bp].
Qed.

Lemma prot_filter K c (a : stack) : Forall (fun i => mine K i = false -> iprot i = None) a ->
  existsb (protected c) (filter (mine K) a) = existsb (protected c) a.
Proof.
  induction 1 as [|i a H F IH]; [reflexivity|]. cbn [filter existsb]. destruct (mine K i); cbn [existsb]; rewrite IH; [reflexivity|].
  unfold protected at 2. rewrite H by reflexivity. reflexivity.
Qed.
Lemma uprot_filter K c (a : stack) : Forall (fun i => mine K i = false -> iprot i = None) a ->
  existsb (fun i => BorrowModel.is_unique i && protected c i) (filter (mine K) a) = existsb (fun i => BorrowModel.is_unique i && protected c i) a.
Proof.
  induction 1 as [|i a H F IH]; [reflexivity|]. cbn [filter existsb]. destruct (mine K i); cbn [existsb]; rewrite IH; [reflexivity|].
  unfold protected at 2. rewrite H by reflexivity. rewrite andb_false_r. reflexivity.
Qed.
Lemma filter_disable K (a : stack) : filter (mine K) (map disable a) = map disable (filter (mine K) a).
Proof. induction a as [|i a IH]; [reflexivity|]. cbn [map filter]. rewrite mine_disable. destruct (mine K i); cbn [map]; rewrite IH; reflexivity. Qed.

(** ** The invariant of a byte of a memory with tag [base] *)
Definition item_ok (n : nat) (K : list nat) (i : item) : Prop :=
  (itag i < n)%nat /\ (mine K i = false -> iprot i = None).
Definition ends (base : nat) (st : stack) : Prop := exists up, st = up ++ [R base] /\ Forall (fun i => itag i <> base) up.
Record W (n : nat) (K : list nat) (base : nat) (st : stack) : Prop := {
  w_items : Forall (item_ok n K) st;
  w_ends : ends base st;
  w_J : J K st }.

Lemma ends_app base a i b : ends base (a ++ i :: b) <-> Forall (fun i => itag i <> base) a /\ ends base (i :: b).
Proof.
  split; [|intros (F & u & E & G); exists (a ++ u); rewrite E; napp; split; [reflexivity|apply Forall_app; auto]]. intros (u & E & F).
  destruct b as [|x b _] using rev_ind.
  - apply app_inj_tail in E. destruct E as [-> ->]. split; [exact F|]. exists []. auto.
  - rewrite app_comm_cons, app_assoc in E. apply app_inj_tail in E. destruct E as [<- ->]. apply Forall_app in F. destruct F as [F1 F2]. split; [exact F1|].
    exists (i :: b). split; [reflexivity|exact F2].
Qed.
Lemma ends_cons base i st : itag i <> base -> ends base st -> ends base (i :: st).
Proof. intros N (u & -> & F). exists (i :: u). split; [reflexivity|]. constructor; auto. Qed.

Lemma W_lt n K base st : W n K base st -> Forall (fun i => (itag i < n)%nat) st.
Proof. intros H. eapply Forall_impl; [|apply (w_items _ _ _ _ H)]. intros i [A _]. exact A. Qed.
Lemma ok_prot n K st : Forall (item_ok n K) st -> Forall (fun i => mine K i = false -> iprot i = None) st.
Proof. intros H. eapply Forall_impl; [|exact H]. intros i [_ A]. exact A. Qed.

Lemma item_more n n' K i : (n <= n')%nat -> item_ok n K i -> item_ok n' K i.
Proof. intros L [A B]. split; auto; lia. Qed.
Lemma W_more n n' K base st : (n <= n')%nat -> W n K base st -> W n' K base st.
Proof. intros L [A B C]. constructor; auto. eapply Forall_impl; [|exact A]. intros i. apply item_more. exact L. Qed.
Lemma item_new n K i : item_ok n K i -> item_ok (S n) (n :: K) i.
Proof. intros [A B]. split; [lia|]. rewrite mine_new by exact A. auto. Qed.
Lemma W_new n K base st : W n K base st -> W (S n) (n :: K) base st.
Proof.
  intros H. constructor; [|apply (w_ends _ _ _ _ H)|].
  - eapply Forall_impl; [|apply (w_items _ _ _ _ H)]. intros i. apply item_new.
  - apply J_new; [apply (W_lt _ _ _ _ H)|apply (w_J _ _ _ _ H)].
Qed.
Lemma item_disable n K i : item_ok n K i -> item_ok n K (disable i).
Proof. unfold item_ok. rewrite tag_disable, mine_disable, prot_disable. auto. Qed.
Lemma item_R n n' K : (n < n')%nat -> item_ok n' K (R n).
Proof. intros L. unfold item_ok, R. cbn. auto. Qed.

Lemma W_disable n K base a g b : W n K base (a ++ g :: b) -> W n K base (map disable a ++ g :: b).
Proof.
  intros [A B C]. apply Forall_app in A. destruct A as [A1 A2]. constructor.
  - apply Forall_app. split; [|exact A2]. apply Forall_map. eapply Forall_impl; [|exact A1]. intros i. apply item_disable.
  - apply ends_app in B. destruct B as [B1 B2]. apply ends_app. split; [|exact B2]. apply Forall_map. eapply Forall_impl; [|exact B1]. intros i. cbv beta. rewrite tag_disable. auto.
  - apply J_disable. exact C.
Qed.
Lemma W_suffix n K base p k g b : W n K base ((p ++ k) ++ g :: b) -> W n K base (k ++ g :: b).
Proof.
  intros [A B C]. apply ends_app in B. rewrite <- app_assoc in A, C. apply Forall_app in A. destruct A as [A1 A2].
  destruct B as [B1 B2]. apply Forall_app in B1. destruct B1 as [_ B1]. constructor; [exact A2|apply ends_app; auto|apply J_app_r in C; exact C].
Qed.
(** A new item on top *)
Lemma W_push n K base st m perm prot : W n K base st -> (n <= m)%nat -> ~ In m K -> (base < n)%nat -> prot = None -> W (S m) K base (MkItem m perm prot :: st).
Proof.
  intros H L N Lb ->. assert (Mm : mine K (MkItem m perm None) = false) by (destruct (mine K _) eqn:E; [apply mine_iff in E; contradiction|reflexivity]).
  constructor.
  - constructor; [unfold item_ok; cbn; auto|]. eapply Forall_impl; [|apply (w_items _ _ _ _ H)]. intros i. apply item_more. lia.
  - apply ends_cons; [cbn; lia|apply (w_ends _ _ _ _ H)].
  - split; [auto|apply (w_J _ _ _ _ H)].
Qed.
(** A new shared-read-write item *)
Lemma W_insert n n' K base p i q : W n K base (p ++ q) -> (n <= n')%nat -> is_srw i = true -> item_ok n' K i -> itag i <> base -> q <> [] ->
  J K (i :: q) -> W n' K base (p ++ i :: q).
Proof.
  intros [A B C] L S O Tb Q Jq. apply Forall_app in A. destruct A as [A1 A2]. constructor.
  - apply Forall_app. split; [|constructor; [exact O|]]; eapply Forall_impl; try eassumption; intros j; apply item_more; exact L.
  - destruct q as [|x q]; [congruence|]. apply ends_app in B. destruct B as [B1 B2]. apply ends_app. split; [exact B1|]. apply ends_cons; auto.
  - apply J_insert; auto.
Qed.

Definition abs (K : list nat) (st : stack) : stack := filter (mine K) st.

(** ** Accesses with tags of the client (and of the memory) *)
Lemma mine_read c n K base st t : W n K base st -> In t K ->
  match sb_read c t st with
  | Some st' => W n K base st' /\ sb_read c t (abs K st) = Some (abs K st')
  | None => sb_read c t (abs K st) = None
  end.
Proof.
  intros H T. unfold sb_read, abs. rewrite (granting_filter false K t st T). destruct (granting false t st) as [[[a g] b]|] eqn:E; [|reflexivity].
  apply granting_spec in E. destruct E as (-> & Tg & _). assert (Mg : mine K g = true) by (apply mine_iff; rewrite Tg; exact T).
  pose proof (w_items _ _ _ _ H) as F. apply Forall_app in F. destruct F as [F _]. apply ok_prot in F.
  rewrite (uprot_filter K c a F). destruct (existsb _ a); [reflexivity|]. split; [apply W_disable; exact H|].
  rewrite filter_app, filter_disable. cbn [filter]. rewrite Mg. reflexivity.
Qed.

Lemma inc_filter K g a p k : J K a -> incompatible g a = (p, k) -> incompatible g (filter (mine K) a) = (filter (mine K) p, filter (mine K) k).
Proof. unfold incompatible. destruct (BorrowModel.is_unique g); [intros _ [= <- <-]; reflexivity|]. apply split_filter. Qed.
Lemma inc_app g a p k : incompatible g a = (p, k) -> a = p ++ k.
Proof. unfold incompatible. destruct (BorrowModel.is_unique g); [intros [= <- <-]; rewrite app_nil_r; reflexivity|]. intros E. apply split_srw_spec in E. tauto. Qed.
Lemma inc_srw g a p k : incompatible g a = (p, k) -> Forall (fun i => is_srw i = true) k.
Proof. unfold incompatible. destruct (BorrowModel.is_unique g); [intros [= <- <-]; constructor|]. intros E. apply split_srw_spec in E. tauto. Qed.

Lemma mine_write c n K base st t : W n K base st -> In t K ->
  match sb_write c t st with
  | Some st' => W n K base st' /\ sb_write c t (abs K st) = Some (abs K st') /\
      exists k g b, st' = k ++ g :: b /\ Forall (fun i => is_srw i = true) k /\ itag g = t /\ grants true (iperm g) = true
  | None => sb_write c t (abs K st) = None
  end.
Proof.
  intros H T. unfold sb_write, abs. rewrite (granting_filter true K t st T). destruct (granting true t st) as [[[a g] b]|] eqn:E; [|reflexivity].
  apply granting_spec in E. destruct E as (-> & Tg & Gg). assert (Mg : mine K g = true) by (apply mine_iff; rewrite Tg; exact T).
  pose proof (w_items _ _ _ _ H) as F. apply Forall_app in F. destruct F as [F _]. apply ok_prot in F.
  destruct (incompatible g a) as [p k] eqn:I. rewrite (inc_filter K g a p k (J_app_l _ _ _ (w_J _ _ _ _ H)) I).
  pose proof (inc_app _ _ _ _ I) as ->. pose proof (inc_srw _ _ _ _ I) as Sk. apply Forall_app in F. destruct F as [F _].
  rewrite (prot_filter K c p F). destruct (existsb _ p); [reflexivity|]. split; [eapply W_suffix; exact H|]. split.
  - rewrite filter_app. cbn [filter]. rewrite Mg. reflexivity.
  - exists k, g, b. auto.
Qed.

Lemma not_weak g : grants true (iperm g) = true -> ~ weakish g.
Proof. intros G [E|E]; rewrite E in G; discriminate. Qed.
Lemma srw_garb K (k : stack) : Forall (fun i => is_srw i = true) k -> Forall (fun g => mine K g = false -> is_srw g = true) k.
Proof. intros F. eapply Forall_impl; [|exact F]. auto. Qed.

(** A shared-read-write or unique item right above the items that are compatible with [g] *)
Lemma J_new_item K k g b (i : item) : J K (k ++ g :: b) -> mine K g = true -> grants true (iperm g) = true -> Forall (fun i => is_srw i = true) k -> J K (i :: k ++ g :: b).
Proof.
  intros H M G F. split; [|exact H]. right. right. apply Forall_app. split; [apply srw_garb; exact F|].
  constructor; [congruence|]. eapply J_pick; [exact H|exact M|apply not_weak; exact G].
Qed.

Lemma mine_retag c n K base st kd t prot : W n K base st -> In t K -> (base < n)%nat ->
  match sb_retag c kd t n prot st with
  | Some st' => W (S n) (n :: K) base st' /\ sb_retag c kd t n prot (abs K st) = Some (abs (n :: K) st')
  | None => sb_retag c kd t n prot (abs K st) = None
  end.
Proof.
  intros H T Lb. pose proof (W_lt _ _ _ _ H) as Lt.
  assert (Mn : forall perm p, mine (n :: K) (MkItem n perm p) = true) by (intros; apply mine_iff; left; reflexivity).
  assert (Ni : forall perm p, item_ok (S n) (n :: K) (MkItem n perm p)).
  { intros. unfold item_ok. rewrite Mn. cbn. split; [lia|discriminate]. }
  unfold sb_retag. destruct kd.
  - pose proof (mine_write c n K base st t H T) as M. destruct (sb_write c t st) as [st1|]; [|rewrite M; reflexivity].
    destruct M as (H1 & E & k & g & b & -> & F & Tg & Gg). rewrite E. pose proof (W_new _ _ _ _ H1) as H2. split.
    + constructor; [constructor; [apply Ni|apply (w_items _ _ _ _ H2)]| |].
      * apply ends_cons; [cbn; lia|apply (w_ends _ _ _ _ H2)].
      * apply J_new_item; [apply (w_J _ _ _ _ H2)|apply mine_iff; right; rewrite Tg; exact T|exact Gg|exact F].
    + unfold abs. cbn [filter]. rewrite Mn. rewrite filter_new; [reflexivity|apply (W_lt _ _ _ _ H1)].
  - pose proof (mine_read c n K base st t H T) as M. destruct (sb_read c t st) as [st1|]; [|rewrite M; reflexivity].
    destruct M as (H1 & E). rewrite E. pose proof (W_new _ _ _ _ H1) as H2. split.
    + constructor; [constructor; [apply Ni|apply (w_items _ _ _ _ H2)]| |].
      * apply ends_cons; [cbn; lia|apply (w_ends _ _ _ _ H2)].
      * split; [left; left; reflexivity|apply (w_J _ _ _ _ H2)].
    + unfold abs. cbn [filter]. rewrite Mn. rewrite filter_new; [reflexivity|apply (W_lt _ _ _ _ H1)].
  - unfold abs. rewrite (granting_filter true K t st T). destruct (granting true t st) as [[[a g] b]|] eqn:E; [|reflexivity].
    apply granting_spec in E. destruct E as (-> & Tg & Gg). assert (Mg : mine K g = true) by (apply mine_iff; rewrite Tg; exact T).
    destruct (incompatible g a) as [p k] eqn:I. rewrite (inc_filter K g a p k (J_app_l _ _ _ (w_J _ _ _ _ H)) I).
    pose proof (inc_app _ _ _ _ I) as ->. pose proof (inc_srw _ _ _ _ I) as Sk. rewrite <- app_assoc in H. pose proof (W_new _ _ _ _ H) as H2. split.
    + eapply W_insert; [exact H2|lia|reflexivity|apply Ni|cbn; lia|destruct k; discriminate|].
      apply J_new_item; [eapply J_app_r; apply (w_J _ _ _ _ H2)|apply mine_iff; right; rewrite Tg; exact T|exact Gg|exact Sk].
    + rewrite <- app_assoc in Lt. apply Forall_app in Lt. destruct Lt as [L1 L2]. rewrite filter_app. cbn [filter]. rewrite Mn. rewrite (filter_new K n p L1), (filter_new K n (k ++ g :: b) L2).
      rewrite filter_app. cbn [filter]. rewrite Mg. reflexivity.
Qed.

(** ** References of the library *)
Lemma mine_not K m perm p : ~ In m K -> mine K (MkItem m perm p) = false.
Proof. intros N. destruct (mine K _) eqn:E; [apply mine_iff in E; contradiction|reflexivity]. Qed.

(** *** on a byte that is not inside of an UnsafeCell *)
Definition on_top (r : nat) (st : stack) : Prop := exists st', st = MkItem r SharedRO None :: st'.

Lemma look_retag c n K base st m : W n K base st -> In base K -> (base < n)%nat -> (n <= m)%nat -> ~ In m K ->
  match sb_retag c RShared base m None st with
  | Some st' => W (S m) K base st' /\ sb_read c base (abs K st) = Some (abs K st') /\ on_top m st'
  | None => sb_read c base (abs K st) = None
  end.
Proof.
  intros H T Lb L N. unfold sb_retag. pose proof (mine_read c n K base st base H T) as M. destruct (sb_read c base st) as [st1|]; [|exact M].
  destruct M as (H1 & E). split; [eapply W_push; eauto|]. split; [|eexists; reflexivity]. rewrite E. unfold abs. cbn [filter]. rewrite mine_not by exact N. reflexivity.
Qed.

Lemma top_read c r st : on_top r st -> sb_read c r st = Some st.
Proof. intros (st' & ->). unfold sb_read. cbn [granting itag iperm grants negb]. rewrite Nat.eqb_refl. reflexivity. Qed.

Lemma top_retag c n K base st r m : W n K base st -> on_top r st -> (base < n)%nat -> (n <= m)%nat -> ~ In m K ->
  exists st', sb_retag c RShared r m None st = Some st' /\ W (S m) K base st' /\ abs K st' = abs K st /\ on_top m st'.
Proof.
  intros H O Lb L N. unfold sb_retag. rewrite (top_read c r st O). eexists. split; [reflexivity|]. split; [eapply W_push; eauto|]. split; [|eexists; reflexivity].
  unfold abs. cbn [filter]. rewrite mine_not by exact N. reflexivity.
Qed.

(** *** on a byte inside of an UnsafeCell *)
Definition rw (base r : nat) (st : stack) : Prop :=
  exists p k, st = p ++ R r :: k ++ [R base] /\ Forall (fun i => itag i <> r) p /\ Forall (fun i => itag i <> base) (p ++ R r :: k) /\ bottom_ok p /\ Forall (fun i => is_srw i = true) k.

Lemma granting_base n K base st w : W n K base st -> exists a, st = a ++ [R base] /\ granting w base st = Some (a, R base, []) /\ Forall (fun i => itag i <> base) a.
Proof.
  intros [_ (u & -> & F) _]. exists u. split; [reflexivity|]. split; [|exact F]. rewrite (granting_app w base u _ F). cbn [granting R itag iperm]. rewrite Nat.eqb_refl.
  destruct w; cbn; rewrite app_nil_r; reflexivity.
Qed.

Lemma granting_rw w base r st p k : st = p ++ R r :: k ++ [R base] -> Forall (fun i => itag i <> r) p -> granting w r st = Some (p, R r, k ++ [R base]).
Proof.
  intros -> F. rewrite (granting_app w r p _ F). cbn [granting R itag iperm grants]. rewrite Nat.eqb_refl. destruct w; cbn [andb]; rewrite app_nil_r; reflexivity.
Qed.

Lemma J_garb K i st : mine K i = false -> J K st -> J K (i :: st).
Proof. intros M H. split; auto. Qed.

Lemma split_bottom p : bottom_ok p -> split_srw p = (p, []).
Proof. intros B. pose proof (split_srw_app p [] B (Forall_nil _)) as E. rewrite app_nil_r in E. exact E. Qed.

Lemma cell_base c n K base st m : W n K base st -> (base < n)%nat -> (n <= m)%nat -> ~ In m K ->
  exists st', sb_retag c RCell base m None st = Some st' /\ W (S m) K base st' /\ abs K st' = abs K st /\ rw base m st'.
Proof.
  intros H Lb L N. destruct (granting_base n K base st true H) as (a & -> & E & F). unfold sb_retag. rewrite E. cbn [incompatible BorrowModel.is_unique R iperm].
  destruct (split_srw a) as [p k] eqn:S. pose proof (split_srw_spec a p k S) as (-> & Sk & Bp). eexists. split; [reflexivity|]. rewrite <- app_assoc in H. split; [|split].
  - eapply W_insert; [exact H|lia|reflexivity|apply item_R; lia|cbn; lia|destruct k; discriminate|]. apply J_garb; [apply mine_not; exact N|eapply J_app_r; apply (w_J _ _ _ _ H)].
  - unfold abs. rewrite <- app_assoc, !filter_app. cbn [filter]. rewrite (mine_not K m SharedRW None N). rewrite filter_app. reflexivity.
  - exists p, k. split; [reflexivity|]. split; [|split; [|auto]].
    + pose proof (W_lt _ _ _ _ H) as Lt. apply Forall_app in Lt. destruct Lt as [Lt _]. eapply Forall_impl; [|exact Lt]. cbv beta. lia.
    + apply Forall_app in F. destruct F as [F1 F2]. apply Forall_app. split; [exact F1|]. constructor; [cbn; lia|exact F2].
Qed.

Lemma cell_from c n K base st r m : W n K base st -> rw base r st -> (base < n)%nat -> (n <= m)%nat -> ~ In m K ->
  exists st', sb_retag c RCell r m None st = Some st' /\ W (S m) K base st' /\ abs K st' = abs K st /\ rw base m st'.
Proof.
  intros H (p & k & E & F1 & F2 & B & Sk) Lb L N. unfold sb_retag. rewrite (granting_rw true base r st p k E F1). subst st. cbn [incompatible BorrowModel.is_unique R iperm].
  rewrite (split_bottom p B). eexists. split; [reflexivity|]. cbn [app]. split; [|split].
  - eapply (W_insert n (S m) K base p (MkItem m SharedRW None) (R r :: k ++ [R base])); [exact H|lia|reflexivity|apply item_R; lia|cbn; lia|discriminate|].
    apply J_garb; [apply mine_not; exact N|eapply J_app_r; apply (w_J _ _ _ _ H)].
  - unfold abs. rewrite !filter_app. cbn [filter]. rewrite (mine_not K m SharedRW None N). reflexivity.
  - exists p, (R r :: k). split; [reflexivity|]. split; [|split; [|split; [exact B|constructor; [reflexivity|exact Sk]]]].
    + pose proof (W_lt _ _ _ _ H) as Lt. apply Forall_app in Lt. destruct Lt as [Lt _]. eapply Forall_impl; [|exact Lt]. cbv beta. lia.
    + apply Forall_app in F2. destruct F2 as [F2 F3]. apply Forall_app. split; [exact F2|]. constructor; [cbn; lia|exact F3].
Qed.

(** The reference of [deref] *)
Lemma deref_shared c n K base st r i : W n K base st -> on_top r st -> (base < n)%nat -> sb_read c base i = Some (abs K st) ->
  exists st', sb_retag c RShared r n None st = Some st' /\ W (S n) (n :: K) base st' /\ sb_retag c RShared base n None i = Some (abs (n :: K) st').
Proof.
  intros H O Lb E. unfold sb_retag. rewrite (top_read c r st O), E. eexists. split; [reflexivity|]. pose proof (W_new _ _ _ _ H) as H2.
  assert (Mn : mine (n :: K) (MkItem n SharedRO None) = true) by (apply mine_iff; left; reflexivity). split.
  - constructor; [constructor; [|apply (w_items _ _ _ _ H2)]| |].
    + unfold item_ok. rewrite Mn. cbn. split; [lia|discriminate].
    + apply ends_cons; [cbn; lia|apply (w_ends _ _ _ _ H2)].
    + split; [left; left; reflexivity|apply (w_J _ _ _ _ H2)].
  - unfold abs. cbn [filter]. rewrite Mn. rewrite filter_new; [reflexivity|apply (W_lt _ _ _ _ H)].
Qed.

Lemma deref_cell c n K base st r : W n K base st -> In base K -> rw base r st -> (base < n)%nat ->
  exists st', sb_retag c RCell r n None st = Some st' /\ W (S n) (n :: K) base st' /\ sb_retag c RCell base n None (abs K st) = Some (abs (n :: K) st').
Proof.
  intros H T (p & k & E & F1 & F2 & B & Sk) Lb. unfold sb_retag. rewrite (granting_rw true base r st p k E F1). cbn [incompatible BorrowModel.is_unique R iperm].
  rewrite (split_bottom p B). cbn [app]. eexists. split; [reflexivity|]. pose proof (W_new _ _ _ _ H) as H2. pose proof (W_lt _ _ _ _ H) as Lt.
  assert (Mb : mine K (R base) = true) by (apply mine_iff; exact T).
  assert (Mn : mine (n :: K) (MkItem n SharedRW None) = true) by (apply mine_iff; left; reflexivity). split.
  - subst st. eapply (W_insert (S n) (S n) (n :: K) base p (MkItem n SharedRW None) (R r :: k ++ [R base])); [exact H2|lia|reflexivity| |cbn; lia|discriminate|].
    + unfold item_ok. rewrite Mn. cbn. split; [lia|discriminate].
    + apply (J_new_item (n :: K) (R r :: k) (R base) []).
      * eapply J_app_r. apply (w_J _ _ _ _ H2).
      * apply mine_iff. right. exact T.
      * reflexivity.
      * constructor; [reflexivity|exact Sk].
  - unfold abs. rewrite (granting_filter true K base st T). assert (E2 : st = (p ++ R r :: k) ++ [R base]) by (rewrite E; napp; reflexivity).
    rewrite E2 at 1. rewrite (granting_app true base (p ++ R r :: k) [R base] F2). cbn [granting R itag iperm grants]. rewrite Nat.eqb_refl. cbn [andb]. rewrite app_nil_r.
    assert (I : incompatible (R base) (p ++ R r :: k) = (p, R r :: k)) by (apply split_srw_app; [exact B|constructor; [reflexivity|exact Sk]]).
    rewrite (inc_filter K (R base) _ _ _) with (2 := I); [|rewrite E2 in H; eapply J_app_l; apply (w_J _ _ _ _ H)].
    rewrite E in Lt. apply Forall_app in Lt. destruct Lt as [L1 L2].
    rewrite filter_app. cbn [filter]. rewrite Mn. change (R r :: k ++ [R base]) with ((R r :: k) ++ [R base]) in *.
    rewrite (filter_new K n p L1). assert (L3 : Forall (fun i => (itag i < n)%nat) ((R r :: k) ++ [R base])) by exact L2.
    replace (if mine (n :: K) {| itag := r; iperm := SharedRW; iprot := None |} then _ else _) with (filter (mine (n :: K)) ((R r :: k) ++ [R base])) by reflexivity.
    rewrite (filter_new K n _ L3), (filter_app _ (R r :: k)). cbn [filter]. rewrite Mb. reflexivity.
Qed.

(** ** Counters *)
Definition cnt (K : list nat) (st : stack) : Prop := Forall (fun i => mine K i = true -> is_srw i = true) st.

Lemma cnt_abs K st : cnt K st <-> Forall (fun i => is_srw i = true) (abs K st).
Proof.
  unfold cnt, abs. rewrite !Forall_forall. split; intros H i I.
  - apply filter_In in I. destruct I as [I M]. apply H; auto.
  - intros M. apply H. apply filter_In. auto.
Qed.
Lemma cnt_same K K' st st' : abs K st = abs K' st' -> cnt K st -> cnt K' st'.
Proof. rewrite !cnt_abs. intros ->. auto. Qed.

Lemma srw_disable (l : stack) : Forall (fun i => is_srw i = true) l -> map disable l = l.
Proof. induction 1 as [|i l H F IH]; [reflexivity|]. cbn [map]. rewrite IH. f_equal. unfold disable, BorrowModel.is_unique. unfold is_srw in H. destruct (iperm i); try discriminate; reflexivity. Qed.

Lemma cnt_garbage n K base st p q : W n K base st -> cnt K st -> st = p ++ q -> bottom_ok p -> Forall (fun i => mine K i = false) p.
Proof.
  intros H C -> B. destruct p as [|x p _] using rev_ind; [constructor|]. apply Forall_app in C. destruct C as [C _].
  assert (Mx : mine K x = false).
  { apply Forall_app in C. destruct C as [_ C]. inversion C as [|? ? C1 _]; subst. specialize (B p x eq_refl). destruct (mine K x); [rewrite C1 in B by reflexivity; discriminate|reflexivity]. }
  apply Forall_app. split; [|auto]. apply Forall_forall. intros i I. destruct (mine K i) eqn:M; [|reflexivity]. exfalso. apply Forall_app in C. destruct C as [C _].
  rewrite Forall_forall in C. pose proof (C i I M) as S. apply in_split in I. destruct I as (a & b & ->). pose proof (w_J _ _ _ _ H) as J1. apply J_app_l in J1.
  rewrite <- app_assoc in J1. cbn [app] in J1. apply J_pick in J1; [|exact M|intros X; apply weak_not_srw in X; congruence].
  apply Forall_app in J1. destruct J1 as [_ J1]. inversion J1 as [|? ? J2 _]; subst. specialize (J2 Mx). specialize (B _ x eq_refl). congruence.
Qed.
Lemma filter_garbage K (p : stack) : Forall (fun i => mine K i = false) p -> filter (mine K) p = [].
Proof. induction 1 as [|i p M F IH]; [reflexivity|]. cbn [filter]. rewrite M. exact IH. Qed.

Lemma cnt_read c n K base st q : W n K base st -> cnt K st -> rw base q st ->
  exists st', sb_read c q st = Some st' /\ W n K base st' /\ abs K st' = abs K st.
Proof.
  intros H C (p & k & E & F1 & F2 & B & Sk). unfold sb_read. rewrite (granting_rw false base q st p k E F1).
  pose proof (cnt_garbage n K base st p _ H C E B) as G.
  assert (X : existsb (fun i => BorrowModel.is_unique i && protected c i) p = false).
  { rewrite <- (uprot_filter K c p); [rewrite filter_garbage by exact G; reflexivity|]. pose proof (ok_prot _ _ _ (w_items _ _ _ _ H)) as P. rewrite E in P. apply Forall_app in P. tauto. }
  rewrite X. eexists. split; [reflexivity|]. subst st. split; [apply W_disable; exact H|]. unfold abs. rewrite !filter_app, filter_disable. rewrite (filter_garbage K p G). reflexivity.
Qed.

Definition top_u (r : nat) (st : stack) : Prop := exists st', st = MkItem r Unique None :: st'.

Lemma cnt_unique c n K base st q m : W n K base st -> cnt K st -> rw base q st -> (base < n)%nat -> (n <= m)%nat -> ~ In m K ->
  exists st', sb_retag c RUnique q m None st = Some st' /\ W (S m) K base st' /\ abs K st' = abs K st /\ top_u m st'.
Proof.
  intros H C (p & k & E & F1 & F2 & B & Sk) Lb L N. unfold sb_retag, sb_write. rewrite (granting_rw true base q st p k E F1). cbn [incompatible BorrowModel.is_unique R iperm].
  rewrite (split_bottom p B). pose proof (cnt_garbage n K base st p _ H C E B) as G.
  assert (X : existsb (protected c) p = false).
  { rewrite <- (prot_filter K c p); [rewrite filter_garbage by exact G; reflexivity|]. pose proof (ok_prot _ _ _ (w_items _ _ _ _ H)) as P. rewrite E in P. apply Forall_app in P. tauto. }
  rewrite X. cbn [app]. eexists. split; [reflexivity|]. subst st. split; [|split; [|eexists; reflexivity]].
  - eapply W_push; eauto. apply (W_suffix n K base p [] (R q) (k ++ [R base])). rewrite app_nil_r. exact H.
  - unfold abs. rewrite filter_app, (filter_garbage K p G). cbn [filter app]. rewrite (mine_not K m Unique None N). reflexivity.
Qed.

Lemma topu_read c r st : top_u r st -> sb_read c r st = Some st.
Proof. intros (st' & ->). unfold sb_read. cbn [granting itag iperm grants negb]. rewrite Nat.eqb_refl. reflexivity. Qed.
Lemma topu_write c r st : top_u r st -> sb_write c r st = Some st.
Proof. intros (st' & ->). unfold sb_write. cbn [granting itag iperm grants negb]. rewrite Nat.eqb_refl. reflexivity. Qed.
Lemma topu_retag c n K base st r m : W n K base st -> top_u r st -> (base < n)%nat -> (n <= m)%nat -> ~ In m K ->
  exists st', sb_retag c RUnique r m None st = Some st' /\ W (S m) K base st' /\ abs K st' = abs K st /\ top_u m st'.
Proof.
  intros H O Lb L N. unfold sb_retag. rewrite (topu_write c r st O). eexists. split; [reflexivity|]. split; [eapply W_push; eauto|]. split; [|eexists; reflexivity].
  unfold abs. cbn [filter]. rewrite mine_not by exact N. reflexivity.
Qed.

(** ** [Rc::new] *)
Lemma new_byte c n K base st st1 m kd : W n K base st -> In base K -> sb_write c base st = Some st1 -> kd <> RShared -> (base < n)%nat -> (n <= m)%nat -> ~ In m K ->
  exists st2, sb_retag c kd base m None st1 = Some st2 /\ W (S m) K base st2 /\ abs K st2 = abs K st1 /\ cnt K st2.
Proof.
  intros H T E Nk Lb L N. pose proof (mine_write c n K base st base H T) as M. rewrite E in M. destruct M as (H1 & _ & k & g & b & -> & Sk & Tg & Gg).
  pose proof (w_ends _ _ _ _ H1) as En. apply ends_app in En. destruct En as [Fk (u & Eu & Fu)].
  destruct u as [|x u]; [|cbn in Eu; injection Eu as -> ->; inversion Fu; subst; contradiction]. cbn in Eu. injection Eu as -> ->.
  assert (C1 : cnt K (k ++ [R base])) by (apply Forall_app; split; [eapply Forall_impl; [|exact Sk]; auto|constructor; auto]).
  assert (Fin : forall st2, W (S m) K base st2 -> abs K st2 = abs K (k ++ [R base]) -> cnt K st2) by (intros st2 _ X; eapply cnt_same; [symmetry; exact X|exact C1]).
  destruct kd; [|contradiction|].
  - unfold sb_retag, sb_write. destruct (granting_base n K base _ true H1) as (a & Ea & Ga & Fa). apply app_inj_tail in Ea. destruct Ea as [<- _]. rewrite Ga. cbn [incompatible BorrowModel.is_unique R iperm].
    rewrite (split_srw_low k Sk). cbn [existsb]. eexists. split; [reflexivity|].
    assert (W2 : W (S m) K base (MkItem m Unique None :: k ++ [R base])) by (eapply W_push; eauto).
    assert (A2 : abs K (MkItem m Unique None :: k ++ [R base]) = abs K (k ++ [R base])) by (unfold abs; cbn [filter]; rewrite (mine_not K m Unique None N); reflexivity).
    split; [exact W2|]. split; [exact A2|]. apply Fin; auto.
  - destruct (cell_base c n K base _ m H1 Lb L N) as (st2 & E2 & W2 & A2 & _). exists st2. split; [exact E2|]. split; [exact W2|]. split; [exact A2|]. apply Fin; auto.
Qed.
