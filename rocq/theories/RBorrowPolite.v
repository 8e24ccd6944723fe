(** * RBorrowPolite: programs that use references as the borrow checker allows have no undefined behaviour. *)
From Verif Require Import Base Spec BaseFacts SyncModel SyncSpec RcModel RcProofs RcMemProofs BorrowModel BorrowSpec BorrowProofs BorrowState BorrowWorld EBorrowSlot UBorrowModel RBorrowModel RBorrowSpec RBorrowBytes RBorrowOps RBorrowCalls RBorrowWorld RBorrowStep.

(** ** One byte *)
Definition quiet (B : list nat) (l : stack) : Prop := Forall (fun i => forall c, iprot i = Some c -> ~ In c B) l.
(** The items of [st'] have no new protectors. *)
Definition prots (st st' : stack) : Prop := forall i c, In i st' -> iprot i = Some c -> exists j, In j st /\ iprot j = Some c.
Definition ro (n : nat) (st : stack) : Prop := In (MkItem n SharedRO None) st.
Definition grp (base n : nat) (st : stack) : Prop :=
  exists p k, st = p ++ k ++ [R base] /\ Forall (fun i => is_srw i = true) k /\ bottom_ok p /\ In (R n) k /\ Forall (fun i => itag i <> n) p.
Definition excl (B : list nat) (n : nat) (st : stack) : Prop :=
  exists pre g post, st = pre ++ g :: post /\ itag g = n /\ grants true (iperm g) = true /\ Forall (fun i => itag i <> n) pre /\ quiet B pre.

Lemma quiet_app B a b : quiet B (a ++ b) <-> quiet B a /\ quiet B b.
Proof. apply Forall_app. Qed.
Lemma quiet_prot B l : quiet B l -> existsb (protected B) l = false.
Proof.
  induction 1 as [|i l H _ IH]; cbn [existsb]; [reflexivity|]. rewrite IH, orb_false_r. unfold protected.
  destruct (iprot i) as [c|] eqn:E; [|reflexivity]. destruct (existsb _ B) eqn:X; [|reflexivity].
  apply existsb_exists in X. destruct X as (c' & I & Q). apply Nat.eqb_eq in Q. subst c'. destruct (H c eq_refl I).
Qed.
Lemma quiet_uprot B l : quiet B l -> existsb (fun i => BorrowModel.is_unique i && protected B i) l = false.
Proof.
  intros Q. pose proof (quiet_prot _ _ Q) as E. clear Q. induction l as [|i l IH]; cbn [existsb] in *; [reflexivity|].
  apply orb_false_iff in E. destruct E as [E1 E2]. rewrite E1, (IH E2), andb_false_r. reflexivity.
Qed.
Lemma quiet_disable B l : quiet B l -> quiet B (map disable l).
Proof. intros Q. apply Forall_map. revert Q. apply Forall_impl. intros i. rewrite prot_disable. auto. Qed.
Lemma prots_refl st : prots st st.
Proof. intros i c I E. eauto. Qed.
Lemma prots_incl st st' : incl st' st -> prots st st'.
Proof. intros S0 i c I E. eauto. Qed.
Lemma prots_disable a b : prots (a ++ b) (map disable a ++ b).
Proof.
  intros i c I E. apply in_app_iff in I. destruct I as [I|I].
  - apply in_map_iff in I. destruct I as (j & <- & J0). rewrite prot_disable in E. exists j. rewrite in_app_iff. auto.
  - exists i. rewrite in_app_iff. auto.
Qed.
Lemma prots_trans a b c : prots a b -> prots b c -> prots a c.
Proof. intros P Q i n I E. destruct (Q _ _ I E) as (j & J0 & E2). exact (P _ _ J0 E2). Qed.
Lemma prots_cons st st' i : prots st st' -> iprot i = None -> prots st (i :: st').
Proof. intros P E j c [<- | I] F; [congruence|eauto]. Qed.

Lemma grant_base base st w : ends base st -> exists a, st = a ++ [R base] /\ granting w base st = Some (a, R base, []) /\ Forall (fun i => itag i <> base) a.
Proof.
  intros (u & -> & F). exists u. split; [reflexivity|]. split; [|exact F]. rewrite granting_app by exact F. cbn. rewrite Nat.eqb_refl. destruct w; cbn; rewrite app_nil_r; reflexivity.
Qed.

Lemma ro_disable n a b : ro n (a ++ b) -> ro n (map disable a ++ b).
Proof.
  unfold ro. rewrite !in_app_iff. intros [I|I]; [left|right; exact I]. apply in_map_iff. exists (MkItem n SharedRO None). split; [reflexivity|exact I].
Qed.

(** A read through the pointer of the memory *)
Lemma base_read B base st : ends base st -> quiet B st -> exists st', sb_read B base st = Some st' /\ prots st st' /\ forall n, ro n st -> ro n st'.
Proof.
  intros E Q. destruct (grant_base base st false E) as (a & -> & G & _). apply quiet_app in Q. destruct Q as [Q _].
  exists (map disable a ++ [R base]). unfold sb_read. rewrite G, (quiet_uprot _ _ Q). split; [reflexivity|]. split; [apply prots_disable|]. intros n. apply ro_disable.
Qed.
Lemma base_write B base st : ends base st -> quiet B st -> exists st', sb_write B base st = Some st' /\ incl st' st.
Proof.
  intros E Q. destruct (grant_base base st true E) as (a & -> & G & _). apply quiet_app in Q. destruct Q as [Q _].
  unfold sb_write. rewrite G. destruct (incompatible (R base) a) as [p k] eqn:X. pose proof (inc_app _ _ _ _ X) as ->. apply quiet_app in Q.
  rewrite (quiet_prot B p) by apply Q. eexists. split; [reflexivity|]. intros i I. rewrite !in_app_iff in *. tauto.
Qed.
Lemma base_shared B base st n : ends base st -> quiet B st -> exists st', sb_retag B RShared base n None st = Some st' /\ prots st st' /\ ro n st' /\ forall n', ro n' st -> ro n' st'.
Proof.
  intros E Q. destruct (base_read _ _ _ E Q) as (s1 & R1 & P1 & O1). exists (MkItem n SharedRO None :: s1). unfold sb_retag. rewrite R1.
  split; [reflexivity|]. split; [apply prots_cons; auto|]. split; [left; reflexivity|]. intros n' I. right. apply O1. exact I.
Qed.
Lemma base_cell B base st n : ends base st -> Forall (fun i => itag i <> n) st ->
  exists st' p k, sb_retag B RCell base n None st = Some st' /\ st = p ++ k ++ [R base] /\ st' = p ++ R n :: k ++ [R base] /\ Forall (fun i => is_srw i = true) k /\ bottom_ok p.
Proof.
  intros E F. destruct (grant_base base st true E) as (a & -> & G & _). unfold sb_retag. rewrite G. unfold incompatible. cbn [BorrowModel.is_unique R iperm].
  destruct (split_srw a) as [p k] eqn:X. destruct (split_srw_spec _ _ _ X) as (-> & S1 & B1). rewrite <- app_assoc.
  do 3 eexists. repeat (split; [reflexivity|]). split; [exact S1|exact B1].
Qed.
Lemma cell_prots p k n (l : stack) : prots (p ++ k ++ l) (p ++ R n :: k ++ l).
Proof.
  intros i c I E. exists i. split; [|exact E]. rewrite !in_app_iff in *. cbn [In] in I. rewrite in_app_iff in I.
  destruct I as [I|[<- |I]]; [tauto|discriminate|tauto].
Qed.
Lemma grp_new base st p k n : Forall (fun i => itag i <> n) st -> st = p ++ k ++ [R base] -> Forall (fun i => is_srw i = true) k -> bottom_ok p -> grp base n (p ++ R n :: k ++ [R base]).
Proof.
  intros F -> S1 B1. exists p, (R n :: k). split; [reflexivity|]. split; [constructor; auto|]. split; [exact B1|]. split; [left; reflexivity|]. apply Forall_app in F. apply F.
Qed.
Lemma split_unique p k p' k' base : p ++ k ++ [R base] = p' ++ k' ++ [R base] -> Forall (fun i => is_srw i = true) k -> bottom_ok p ->
  Forall (fun i => is_srw i = true) k' -> bottom_ok p' -> p = p' /\ k = k'.
Proof.
  intros E S1 B1 S2 B2. rewrite !app_assoc in E. apply app_inj_tail in E. destruct E as [E _].
  pose proof (split_srw_app p k B1 S1) as X. rewrite E, (split_srw_app p' k' B2 S2) in X. injection X as -> ->. auto.
Qed.
Lemma grp_old base p k n n' : grp base n (p ++ k ++ [R base]) -> Forall (fun i => is_srw i = true) k -> bottom_ok p -> grp base n (p ++ R n' :: k ++ [R base]).
Proof.
  intros (p' & k' & E & S2 & B2 & I & F) S1 B1. destruct (split_unique _ _ _ _ _ E S1 B1 S2 B2) as [<- <-].
  exists p, (R n' :: k). split; [reflexivity|]. split; [constructor; auto|]. split; [exact B1|]. split; [right; exact I|exact F].
Qed.

(** Accesses of the client *)
Lemma client_read_ro B n st : ro n st -> quiet B st -> exists st', sb_read B n st = Some st' /\ prots st st' /\ (forall n', ro n' st -> ro n' st').
Proof.
  intros I Q. unfold sb_read. destruct (granting false n st) as [[[a g] b]|] eqn:G.
  - destruct (granting_spec _ _ _ _ _ _ G) as (-> & _ & _). apply quiet_app in Q. rewrite (quiet_uprot B a) by apply Q.
    eexists. split; [reflexivity|]. split; [apply prots_disable|]. intros n'. apply ro_disable.
  - exfalso. clear Q. induction st as [|i st IH]; [destruct I|]. cbn [granting] in G. destruct I as [-> | I].
    + cbn in G. rewrite Nat.eqb_refl in G. discriminate.
    + destruct (_ && _); [discriminate|]. destruct (granting false n st) as [[[? ?] ?]|]; [discriminate|]. auto.
Qed.
Lemma grp_granting w base n p k : In (R n) k -> Forall (fun i => itag i <> n) p -> Forall (fun i => is_srw i = true) k ->
  exists k1 g k2, k = k1 ++ g :: k2 /\ granting w n (p ++ k ++ [R base]) = Some (p ++ k1, g, k2 ++ [R base]).
Proof.
  intros I F S1. rewrite granting_app by exact F.
  assert (X : exists k1 g k2, granting w n k = Some (k1, g, k2)).
  { clear F. induction k as [|i k IH]; [destruct I|]. cbn [granting]. destruct I as [-> | I].
    - cbn. rewrite Nat.eqb_refl. destruct w; cbn; eauto.
    - destruct (_ && _); [eauto|]. inversion S1; subst. destruct (IH I) as (k1 & g & k2 & ->); [assumption|]. eauto. }
  destruct X as (k1 & g & k2 & X). exists k1, g, k2. rewrite (granting_left _ _ _ _ _ _ _ X). split; [|reflexivity]. apply granting_spec in X. apply X.
Qed.
Lemma client_read_grp B base n st : grp base n st -> quiet B st ->
  exists st', sb_read B n st = Some st' /\ prots st st' /\ (forall n', grp base n' st -> grp base n' st').
Proof.
  intros (p & k & -> & S1 & B1 & I & F) Q. destruct (grp_granting false base n p k I F S1) as (k1 & g & k2 & -> & G).
  unfold sb_read. rewrite G. apply quiet_app in Q. destruct Q as [Q1 Q2]. rewrite <- app_assoc in Q2. apply quiet_app in Q2.
  rewrite quiet_uprot by (apply quiet_app; split; [exact Q1|apply Q2]). pose proof (proj1 (Forall_app _ _ _) S1) as [S2 _].
  eexists. split; [reflexivity|].
  rewrite map_app, (srw_disable k1 S2). replace ((map disable p ++ k1) ++ g :: k2 ++ [R base]) with (map disable p ++ (k1 ++ g :: k2) ++ [R base]) by (rewrite <- !app_assoc; reflexivity).
  split; [apply prots_disable|].
  intros n' (p' & k' & E & S3 & B3 & I3 & F3). destruct (split_unique _ _ _ _ _ E S1 B1 S3 B3) as [<- <-].
  exists (map disable p), (k1 ++ g :: k2). split; [reflexivity|]. split; [exact S1|]. split; [apply disable_bottom; exact B1|]. split; [exact I3|].
  apply Forall_map. revert F3. apply Forall_impl. intros i. rewrite tag_disable. auto.
Qed.
Lemma client_write_grp B base n st : grp base n st -> quiet B st ->
  exists st', sb_write B n st = Some st' /\ incl st' st /\ (forall n', grp base n' st -> grp base n' st').
Proof.
  intros (p & k & -> & S1 & B1 & I & F) Q. destruct (grp_granting true base n p k I F S1) as (k1 & g & k2 & -> & G).
  unfold sb_write. rewrite G. apply quiet_app in Q. destruct Q as [Q1 Q2].
  pose proof (proj1 (Forall_app _ _ _) S1) as [S2 S3]. inversion S3 as [|g' l' SG S4]; subst.
  unfold incompatible. replace (BorrowModel.is_unique g) with false by (revert SG; unfold is_srw, BorrowModel.is_unique; destruct (iperm g); congruence).
  rewrite (split_srw_app p k1 B1 S2), (quiet_prot B p Q1). eexists. split; [reflexivity|].
  replace (k1 ++ g :: k2 ++ [R base]) with ((k1 ++ g :: k2) ++ [R base]) by (rewrite <- !app_assoc; reflexivity).
  split; [intros i J0; apply in_app_iff; right; exact J0|].
  intros n' (p' & k' & E & S5 & B3 & I3 & F3). destruct (split_unique _ _ _ _ _ E S1 B1 S5 B3) as [<- <-].
  exists [], (k1 ++ g :: k2). split; [reflexivity|]. split; [exact S1|]. split; [apply bottom_nil|]. split; [exact I3|constructor].
Qed.
Lemma excl_read B n st : excl B n st -> exists st', sb_read B n st = Some st' /\ prots st st' /\ excl B n st'.
Proof.
  intros (pre & g & post & -> & T & G & F & Q). unfold sb_read. rewrite granting_app by exact F. cbn [granting]. rewrite T, Nat.eqb_refl.
  replace (grants false (iperm g)) with true by (destruct (iperm g); try discriminate; reflexivity). cbn [andb]. rewrite app_nil_r, (quiet_uprot _ _ Q).
  eexists. split; [reflexivity|]. split; [apply prots_disable|]. exists (map disable pre), g, post. split; [reflexivity|]. split; [exact T|]. split; [exact G|].
  split; [|apply quiet_disable; exact Q]. apply Forall_map. revert F. apply Forall_impl. intros i. rewrite tag_disable. auto.
Qed.
Lemma excl_write B n st : excl B n st -> exists st', sb_write B n st = Some st' /\ incl st' st /\ excl B n st'.
Proof.
  intros (pre & g & post & -> & T & G & F & Q). unfold sb_write. rewrite granting_app by exact F. cbn [granting]. rewrite T, Nat.eqb_refl, G. cbn [andb]. rewrite app_nil_r.
  destruct (incompatible g pre) as [p k] eqn:X. pose proof (inc_app _ _ _ _ X) as ->. apply quiet_app in Q. destruct Q as [Q1 Q2]. apply Forall_app in F. destruct F as [F1 F2].
  rewrite (quiet_prot _ _ Q1). eexists. split; [reflexivity|]. split; [intros i; rewrite !in_app_iff; tauto|].
  exists k, g, post. auto.
Qed.
(** A new unique reference from the pointer of the memory *)
Lemma base_mut B B' base st n u p : ends base st -> quiet B st -> quiet B' st -> Forall (fun i => itag i <> n) st ->
  exists st', sb_retag B (mut_kind u) base n p st = Some st' /\ excl B' n st' /\
    forall i, In i st' -> In i st \/ itag i = n /\ (iprot i = None \/ iprot i = p).
Proof.
  intros E Q Q' F. destruct u; cbn [mut_kind].
  - destruct (base_write _ _ _ E Q) as (s1 & W1 & I1). unfold sb_retag. rewrite W1. eexists. split; [reflexivity|]. split.
    + exists [], (MkItem n Unique p), s1. split; [reflexivity|]. split; [reflexivity|]. split; [reflexivity|]. split; constructor.
    + intros i [<- | I]; cbn; auto.
  - destruct (base_cell B base st n E F) as (s1 & p' & k & R1 & -> & -> & S1 & B1). exists (p' ++ R n :: k ++ [R base]). split; [exact R1|]. split.
    + exists p', (R n), (k ++ [R base]). split; [reflexivity|]. split; [reflexivity|]. split; [reflexivity|]. apply Forall_app in F. apply quiet_app in Q'. split; [apply F|apply Q'].
    + intros i I. rewrite in_app_iff in *. cbn [In] in I. destruct I as [I|[<- |I]]; [tauto|right; cbn; auto|tauto].
Qed.

Lemma base_read_keeps B base st st' : ends base st -> sb_read B base st = Some st' -> ends base st' /\ prots st st' /\ (forall n, ro n st -> ro n st') /\
  forall n, Forall (fun i => itag i <> n) st -> Forall (fun i => itag i <> n) st'.
Proof.
  intros E. destruct (grant_base base st false E) as (a & -> & G & F). unfold sb_read. rewrite G. destruct (existsb _ a); [discriminate|]. intros [= <-].
  assert (FM : forall n, Forall (fun i => itag i <> n) a -> Forall (fun i => itag i <> n) (map disable a)).
  { intros n. rewrite Forall_map. apply Forall_impl. intros i. rewrite tag_disable. auto. }
  split; [exists (map disable a); auto|]. split; [apply prots_disable|]. split; [intros n; apply ro_disable|].
  intros n. rewrite !Forall_app. intros [H1 H2]. auto.
Qed.
Lemma quiet_prots B st st' : prots st st' -> quiet B st -> quiet B st'.
Proof. intros P Q. apply Forall_forall. intros i I c E. destruct (P _ _ I E) as (j & J0 & E2). unfold quiet in Q; rewrite Forall_forall in Q. exact (Q j J0 c E2). Qed.

(** ** The world *)
Definition mode_at (B : list nat) (x : qbox) (v : vstatus) (q : qmode) (k : Z -> stack) : Prop :=
  match q with
  | MShared ns => (exists l, v = QLive l) /\
      forall n, In n ns -> forall y kd, kind_at (q_refs x) y = Some kd -> match kd with RShared => ro n (k y) | _ => grp (q_base x) n (k y) end
  | MExcl n => forall y, in_block (q_val x) y -> excl B n (k y)
  end.
Record pinv (i : qideal) (ms : nat -> qmode) : Prop := {
  p_nodup : NoDup (j_busy i);
  p_lt : Forall (fun c => (c < j_calls i)%nat) (j_busy i);
  p_items : forall y it c, In it (j_stk i y) -> iprot it = Some c -> (c < j_calls i)%nat /\
    (In c (j_busy i) -> exists m x here, nth_error (j_mems i) m = Some x /\ in_block (jm_blk x) y /\ In (c, m, here) (j_drops i));
  p_live : forall m b base ty l, nth_error (j_mems i) m = Some (MkJM b base (Some (ty, QLive l))) -> forall c here, ~ In (c, m, here) (j_drops i);
  p_mode : forall m b base ty v, nth_error (j_mems i) m = Some (MkJM b base (Some (ty, v))) -> v <> QOver ->
    mode_at (j_busy i) (MkQB (start b) ty base) v (ms m) (j_stk i) }.

Lemma pinv_more k mems hs hs' dr bu ca us us' ms ms' : (forall m, ms' m = ms m) -> pinv (MkQI k mems hs dr bu ca us) ms -> pinv (MkQI k mems hs' dr bu ca us') ms'.
Proof. intros E [P1 P2 P3 P4 P5]. constructor; auto. intros. rewrite E. eapply P5; eassumption. Qed.

Section Polite.
Variables (t : target) (owner : Z -> option nat).
Hypothesis V : valid_target t.

Record facts (i : qideal) : Prop := {
  f_ends : forall m x y, nth_error (j_mems i) m = Some x -> in_block (jm_blk x) y ->
    ends (jm_base x) (j_stk i y) /\ Forall (fun it => In (itag it) (j_used i)) (j_stk i y);
  f_sep : forall m m' x x' y, nth_error (j_mems i) m = Some x -> nth_error (j_mems i) m' = Some x' -> in_block (jm_blk x) y -> in_block (jm_blk x') y -> m = m';
  f_box : forall m b base ty v, nth_error (j_mems i) m = Some (MkJM b base (Some (ty, v))) ->
    qtype_ok t ty /\ rc_fits t b (q_lay ty) = true /\ ((0 < strong_of (j_handles i) m)%nat -> exists l, v = QLive l) }.

Lemma jm_nth w i m x : qinv t owner w i -> nth_error (j_mems i) m = Some x -> exists k, nth_error (qmems w) m = Some k /\ x = jm k.
Proof.
  intros Q E. rewrite (v_mems _ _ _ _ Q), nth_error_map in E. destruct (nth_error (qmems w) m) as [k|]; [|discriminate]. injection E as <-. eauto.
Qed.
Lemma qinv_facts w i : qinv t owner w i -> facts i.
Proof.
  intros Q. pose proof (v_minv _ _ _ _ Q) as MI. constructor.
  - intros m x y E I. destruct (jm_nth _ _ _ _ Q E) as (k & K & ->). cbn [jm jm_blk jm_base] in *.
    pose proof (v_own _ _ _ _ _ MI _ _ _ K I) as O. destruct (s_W _ _ _ _ _ _ (v_sb _ _ _ _ Q) O) as (WW & _ & B). rewrite (v_abs _ _ _ _ Q). unfold absf, abs. split.
    + destruct (w_ends _ _ _ _ WW) as (u & -> & F). exists (filter (mine (j_used i)) u). split.
      * rewrite filter_app. cbn [filter]. replace (mine (j_used i) (R (m_base k))) with true; [reflexivity|]. symmetry. unfold mine. cbn [R itag]. apply existsb_exists. exists (m_base k). split; [exact B|apply Nat.eqb_refl].
      * apply Forall_forall. intros it X. apply filter_In in X. rewrite Forall_forall in F. apply F, X.
    + apply Forall_forall. intros it X. apply filter_In in X. destruct X as [_ X]. unfold mine in X. apply existsb_exists in X. destruct X as (n & N0 & E2). apply Nat.eqb_eq in E2. congruence.
  - intros m m' x x' y E E' I I'. destruct (jm_nth _ _ _ _ Q E) as (k & K & ->). destruct (jm_nth _ _ _ _ Q E') as (k' & K' & ->). exact (v_sep _ _ _ _ _ MI _ _ _ _ _ K K' I I').
  - intros m b base ty v E. destruct (jm_nth _ _ _ _ Q E) as (k & K & X). unfold jm in X. injection X as -> -> X. destruct (m_box k) as [c|] eqn:C; [|discriminate]. injection X as -> ->.
    destruct (v_box _ _ _ _ _ MI _ _ _ K C) as (B1 & B2 & _ & _ & B5 & _). rewrite (v_handles _ _ _ _ Q). auto.
Qed.

Lemma quiet_live i ms m b base ty l y : facts i -> pinv i ms -> nth_error (j_mems i) m = Some (MkJM b base (Some (ty, QLive l))) -> in_block b y -> quiet (j_busy i) (j_stk i y).
Proof.
  intros F P E I. apply Forall_forall. intros it X c C B. destruct (proj2 (p_items _ _ P _ _ _ X C) B) as (m' & x' & h & E' & I' & D).
  pose proof (f_sep _ F _ _ _ _ _ E E' I I') as <-. exact (p_live _ _ P _ _ _ _ _ E _ _ D).
Qed.
Lemma quiet_new i ms y : pinv i ms -> quiet (j_busy i) (j_stk i y) -> quiet (j_calls i :: j_busy i) (j_stk i y).
Proof.
  intros P Q. apply Forall_forall. intros it X c C [<- | B].
  - pose proof (proj1 (p_items _ _ P _ _ _ X C)). lia.
  - unfold quiet in Q; rewrite Forall_forall in Q. exact (Q it X c C B).
Qed.

Lemma mode_busy B B' x v q k : (forall y it c, in_block (q_val x) y -> In it (k y) -> iprot it = Some c -> In c B' -> In c B) -> mode_at B x v q k -> mode_at B' x v q k.
Proof.
  intros H. destruct q as [ns|n]; cbn [mode_at]; [auto|]. intros M y I. destruct (M y I) as (pre & g & post & E & T & G & F & Q).
  exists pre, g, post. repeat (split; [assumption|]). apply Forall_forall. intros it X c C D. unfold quiet in Q; rewrite Forall_forall in Q. apply (Q it X c C). apply (H y it c I); [|exact C|exact D].
  rewrite E. apply in_app_iff. left. exact X.
Qed.
Lemma mode_stk B x v q k k' : qtype_ok t (q_ty x) -> (forall y, in_block (q_val x) y -> k' y = k y) -> mode_at B x v q k -> mode_at B x v q k'.
Proof.
  intros OK E. destruct q as [ns|n]; cbn [mode_at].
  - intros [L M]. split; [exact L|]. intros n I y kd K. rewrite (E y) by (destruct (refs_val t x OK y kd K); assumption). exact (M n I y kd K).
  - intros M y I. rewrite E by exact I. exact (M y I).
Qed.

(** A step that changes one memory *)
Lemma val_mem b base ty y : qtype_ok t ty -> rc_fits t b (q_lay ty) = true -> in_block (q_val (MkQB (start b) ty base)) y -> in_block b y.
Proof.
  intros OK FT I. pose proof (val_all t (MkQB (start b) ty base) V OK y I) as A. exact (in_mem t owner (MkQM b base None) ty y OK FT A).
Qed.
Lemma p_step i ms m x b' k' hs' dr' bu' ca' us' ms' : facts i -> pinv i ms -> nth_error (j_mems i) m = Some x ->
  (forall y, ~ in_block (jm_blk x) y -> k' y = j_stk i y) ->
  (forall y it c, in_block (jm_blk x) y -> In it (k' y) -> iprot it = Some c -> (exists j, In j (j_stk i y) /\ iprot j = Some c) \/ (c < ca')%nat /\ exists h, In (c, m, h) dr') ->
  (j_calls i <= ca')%nat -> NoDup bu' -> Forall (fun c => (c < ca')%nat) bu' -> (forall c, In c bu' -> In c (j_busy i) \/ (j_calls i <= c)%nat) ->
  (forall c m' h, In (c, m', h) (j_drops i) -> In c bu' -> exists h', In (c, m', h') dr') ->
  (forall c m' h, In (c, m', h) dr' -> m' <> m -> exists h', In (c, m', h') (j_drops i)) ->
  match b' with
  | Some (ty, v) => (forall l, v = QLive l -> forall c h, ~ In (c, m, h) dr') /\ (v <> QOver -> mode_at bu' (MkQB (start (jm_blk x)) ty (jm_base x)) v (ms' m) k')
  | None => True
  end -> (forall m', m' <> m -> ms' m' = ms m') ->
  pinv (MkQI k' (set_nth (j_mems i) m (MkJM (jm_blk x) (jm_base x) b')) hs' dr' bu' ca' us') ms'.
Proof.
  intros F P E OUT ITS CA ND LT BU D1 D2 BX MS.
  assert (BLK : forall m0 x0, nth_error (j_mems i) m0 = Some x0 -> exists x1, nth_error (set_nth (j_mems i) m (MkJM (jm_blk x) (jm_base x) b')) m0 = Some x1 /\ jm_blk x1 = jm_blk x0).
  { intros m0 x0 E0. destruct (Nat.eq_dec m0 m) as [-> | N0].
    - rewrite E in E0. injection E0 as <-. eexists. split; [eapply set_nth_nth; exact E|reflexivity].
    - exists x0. rewrite set_nth_ne by congruence. auto. }
  assert (OLD : forall y it c, In it (j_stk i y) -> iprot it = Some c -> (c < ca')%nat /\
     (In c bu' -> exists m0 x0 here, nth_error (set_nth (j_mems i) m (MkJM (jm_blk x) (jm_base x) b')) m0 = Some x0 /\ in_block (jm_blk x0) y /\ In (c, m0, here) dr')).
  { intros y it c I C. destruct (p_items _ _ P _ _ _ I C) as [L A]. split; [lia|]. intros B. destruct (BU c B) as [B' | B']; [|lia].
    destruct (A B') as (m0 & x0 & h & E0 & I0 & H0). destruct (D1 _ _ _ H0 B) as (h' & H'). destruct (BLK _ _ E0) as (x1 & E1 & BB). exists m0, x1, h'. rewrite BB. auto. }
  constructor; cbn [j_busy j_calls j_stk j_mems j_drops].
  - exact ND.
  - exact LT.
  - intros y it c I C. destruct (inb (jm_blk x) y) eqn:Y.
    + apply inb_iff in Y. destruct (ITS y it c Y I C) as [(j & J0 & C0)|(L & h & H0)]; [exact (OLD y j c J0 C0)|]. split; [exact L|]. intros _.
      destruct (BLK _ _ E) as (x1 & E1 & BB). exists m, x1, h. rewrite BB. auto.
    + rewrite OUT in I by (rewrite <- inb_iff; congruence). exact (OLD y it c I C).
  - intros m0 b base ty l E0 c h. destruct (Nat.eq_dec m0 m) as [-> | N0].
    + rewrite (set_nth_nth _ _ _ _ E) in E0. injection E0 as <- <- ->. apply (proj1 BX l eq_refl).
    + rewrite set_nth_ne in E0 by congruence. intros H0. destruct (D2 _ _ _ H0 N0) as (h' & H'). exact (p_live _ _ P _ _ _ _ _ E0 _ _ H').
  - intros m0 b base ty v E0 NO. destruct (Nat.eq_dec m0 m) as [-> | N0].
    + rewrite (set_nth_nth _ _ _ _ E) in E0. injection E0 as <- <- ->. apply (proj2 BX NO).
    + rewrite set_nth_ne in E0 by congruence. rewrite MS by exact N0. destruct (f_box _ F _ _ _ _ _ E0) as (OK & FT & _).
      apply (mode_busy (j_busy i)).
      * intros y it c I J0 C B. pose proof (val_mem _ _ _ _ OK FT I) as IB. rewrite OUT in J0.
        -- destruct (BU c B) as [B' | B']; [exact B'|]. pose proof (proj1 (p_items _ _ P _ _ _ J0 C)). lia.
        -- intros I'. apply N0. exact (f_sep _ F _ _ _ _ _ E0 E IB I').
      * apply (mode_stk _ _ _ _ (j_stk i)); [exact OK| |exact (p_mode _ _ P _ _ _ _ _ E0 NO)].
        intros y I. apply OUT. intros I'. apply N0. exact (f_sep _ F _ _ _ _ _ E0 E (val_mem _ _ _ _ OK FT I) I').
Qed.

(** The same calls are in progress. *)
Lemma p_put i ms m b base ob b' k' hs' us' ms' : facts i -> pinv i ms -> nth_error (j_mems i) m = Some (MkJM b base ob) ->
  (forall y, ~ in_block b y -> k' y = j_stk i y) -> (forall y, in_block b y -> prots (j_stk i y) (k' y)) ->
  match b' with
  | Some (ty, v) => (forall l, v = QLive l -> forall c h, ~ In (c, m, h) (j_drops i)) /\ (v <> QOver -> mode_at (j_busy i) (MkQB (start b) ty base) v (ms' m) k')
  | None => True
  end -> (forall m', m' <> m -> ms' m' = ms m') -> pinv (j_put i m b' k' hs' us') ms'.
Proof.
  intros F P E OUT PR BX MS. unfold j_put. rewrite E. cbn [jm_blk jm_base].
  apply (p_step i ms m (MkJM b base ob) b' k' hs' (j_drops i) (j_busy i) (j_calls i) us' ms' F P E OUT); cbn [jm_blk jm_base]; auto.
  - intros y it c I J0 C. left. exact (PR y I it c J0 C).
  - apply (p_nodup _ _ P).
  - apply (p_lt _ _ P).
  - intros c m' h H0 _. eauto.
  - intros c m' h H0 _. eauto.
Qed.
Lemma put_id i m x : nth_error (j_mems i) m = Some x -> forall hs us, j_put i m (jm_box x) (j_stk i) hs us = MkQI (j_stk i) (j_mems i) hs (j_drops i) (j_busy i) (j_calls i) us.
Proof. intros E hs us. unfold j_put. rewrite E, set_nth_same; [reflexivity|]. rewrite E. destruct x; reflexivity. Qed.
Lemma p_same i ms m x hs us ms' : pinv i ms -> nth_error (j_mems i) m = Some x -> (forall m, ms' m = ms m) -> pinv (j_put i m (jm_box x) (j_stk i) hs us) ms'.
Proof. intros P E MS. rewrite (put_id _ _ _ E). destruct i as [k mems hs0 dr bu ca us0]. cbn in *. exact (pinv_more _ _ _ _ _ _ _ _ _ _ _ MS P). Qed.

(** A call of an Rc *)
Lemma kind_blk b base ty y kd : qtype_ok t ty -> rc_fits t b (q_lay ty) = true -> kind_at (q_refs (MkQB (start b) ty base)) y = Some kd -> in_block b y.
Proof. intros OK FT K. destruct (refs_val t (MkQB (start b) ty base) OK y kd K) as [I _]. exact (val_mem _ _ _ _ OK FT I). Qed.
Lemma look_live i ms m b base ty l : facts i -> pinv i ms -> nth_error (j_mems i) m = Some (MkJM b base (Some (ty, QLive l))) ->
  exists k', look (j_busy i) base (q_refs (MkQB (start b) ty base)) (j_stk i) = Some k' /\
    (forall y, ~ in_block b y -> k' y = j_stk i y) /\
    (forall y, in_block b y -> ends base (k' y) /\ prots (j_stk i y) (k' y) /\ quiet (j_busy i) (k' y) /\ forall n, ~ In n (j_used i) -> Forall (fun it => itag it <> n) (k' y)) /\
    mode_at (j_busy i) (MkQB (start b) ty base) (QLive l) (MShared (shared_of (ms m))) k'.
Proof.
  intros F P E. destruct (f_box _ F _ _ _ _ _ E) as (OK & FT & _). set (x := MkQB (start b) ty base).
  pose proof (look_does (j_busy i) base (q_refs x) (j_stk i) (refs_apart t x OK)) as D.
  assert (Q : forall y, in_block b y -> quiet (j_busy i) (j_stk i y)) by (intros y I; exact (quiet_live _ _ _ _ _ _ _ _ F P E I)).
  destruct (look (j_busy i) base (q_refs x) (j_stk i)) as [k'|]; cbn [does] in D.
  2: { exfalso. destruct D as (y & f & L & N0). unfold look_of in L. destruct (kind_at (q_refs x) y) as [[]|] eqn:K; try discriminate. injection L as <-.
       pose proof (kind_blk _ _ _ _ _ OK FT K) as I. destruct (base_read _ _ _ (proj1 (f_ends _ F _ _ _ E I)) (Q y I)) as (st' & R0 & _). cbn [jm_base] in R0. congruence. }
  exists k'. split; [reflexivity|].
  assert (KY : forall y, match kind_at (q_refs x) y with Some RShared => sb_read (j_busy i) base (j_stk i y) = Some (k' y) | _ => k' y = j_stk i y end).
  { intros y. specialize (D y). unfold look_of in D. destruct (kind_at (q_refs x) y) as [[]|]; exact D. }
  split; [|split].
  - intros y N0. specialize (KY y). destruct (kind_at (q_refs x) y) as [[]|] eqn:K; try exact KY. destruct (N0 (kind_blk _ _ _ _ _ OK FT K)).
  - intros y I. destruct (f_ends _ F _ _ _ E I) as [EN TG]. cbn [jm_base] in EN.
    assert (TG2 : forall n, ~ In n (j_used i) -> Forall (fun it => itag it <> n) (j_stk i y)) by (intros n N0; revert TG; apply Forall_impl; intros it I0 X0; rewrite X0 in I0; auto).
    specialize (KY y). destruct (kind_at (q_refs x) y) as [[]|]; try (rewrite KY; repeat split; [exact EN|apply prots_refl|apply Q; exact I|exact TG2]).
    destruct (base_read_keeps _ _ _ _ EN KY) as (A1 & A2 & A3 & A4). split; [exact A1|]. split; [exact A2|]. split; [exact (quiet_prots _ _ _ A2 (Q y I))|]. intros n N0. apply A4, TG2, N0.
  - cbn [mode_at]. split; [eauto|]. intros n I y kd K. pose proof (p_mode _ _ P _ _ _ _ _ E ltac:(discriminate)) as M. destruct (ms m) as [ns|n0]; [|destruct I]. destruct M as [_ M].
    specialize (M n I y kd K). specialize (KY y). fold x in M. rewrite K in KY. pose proof (kind_blk _ _ _ _ _ OK FT K) as IB. destruct (f_ends _ F _ _ _ E IB) as [EN _].
    destruct kd; [rewrite KY; exact M| |rewrite KY; exact M]. exact (proj1 (proj2 (proj2 (base_read_keeps _ _ _ _ EN KY))) n M).
Qed.
Lemma p_look i ms m b base ty l k' hs us ms' : facts i -> pinv i ms -> nth_error (j_mems i) m = Some (MkJM b base (Some (ty, QLive l))) ->
  look (j_busy i) base (q_refs (MkQB (start b) ty base)) (j_stk i) = Some k' -> ms' m = MShared (shared_of (ms m)) -> (forall m', m' <> m -> ms' m' = ms m') ->
  pinv (j_put i m (Some (ty, QLive l)) k' hs us) ms'.
Proof.
  intros F P E L MS MO. destruct (look_live _ _ _ _ _ _ _ F P E) as (k2 & L2 & OUT & IN & MD). rewrite L in L2. injection L2 as <-.
  apply (p_put i ms m b base _ _ k' hs us ms' F P E OUT).
  - intros y I. apply (IN y I).
  - split; [intros l0 _; exact (p_live _ _ P _ _ _ _ _ E)|]. intros _. rewrite MS. exact MD.
  - exact MO.
Qed.

(** A new reference of [get_mut] or a destructor *)
Lemma mut_live i ms m b base ty l k n p B' : facts i -> pinv i ms -> nth_error (j_mems i) m = Some (MkJM b base (Some (ty, QLive l))) -> ~ In n (j_used i) ->
  look (j_busy i) base (q_refs (MkQB (start b) ty base)) (j_stk i) = Some k -> B' = j_busy i \/ B' = j_calls i :: j_busy i ->
  exists k', retag_parts (j_busy i) base n p [(mut_kind (q_unpin ty), q_val (MkQB (start b) ty base))] k = Some k' /\
    (forall y, ~ in_block b y -> k' y = j_stk i y) /\
    (forall y it c, in_block b y -> In it (k' y) -> iprot it = Some c -> (exists j, In j (j_stk i y) /\ iprot j = Some c) \/ p = Some c) /\
    mode_at B' (MkQB (start b) ty base) (QLive l) (MExcl n) k'.
Proof.
  intros F P E NU L BB. destruct (f_box _ F _ _ _ _ _ E) as (OK & FT & _). set (x := MkQB (start b) ty base) in *.
  destruct (look_live _ _ _ _ _ _ _ F P E) as (k2 & L2 & OUT & IN & _). fold x in L2. rewrite L in L2. injection L2 as <-.
  pose proof (act_does (j_busy i) _ (CRetag base [(mut_kind (q_unpin ty), q_val x)] p) n k (act_ok_mut x p)) as D0. cbn [act_stk] in D0.
  assert (D : does (fun y => if inb (q_val x) y then Some (sb_retag (j_busy i) (mut_kind (q_unpin ty)) base n p) else None) k (retag_parts (j_busy i) base n p [(mut_kind (q_unpin ty), q_val x)] k)).
  { revert D0. apply does_ext. intros y. cbn [act_at find snd]. destruct (inb (q_val x) y); reflexivity. }
  clear D0.
  assert (BM : forall y, in_block (q_val x) y -> in_block b y /\ exists st', sb_retag (j_busy i) (mut_kind (q_unpin ty)) base n p (k y) = Some st' /\ excl B' n st' /\
     forall it, In it st' -> In it (k y) \/ itag it = n /\ (iprot it = None \/ iprot it = p)).
  { intros y I. pose proof (val_mem _ _ _ _ OK FT I) as IB. split; [exact IB|]. destruct (IN y IB) as (EN & PR & Q & TG). apply base_mut; [exact EN|exact Q| |apply TG; exact NU].
    destruct BB as [-> | ->]; [exact Q|]. apply (quiet_prots _ _ _ PR). apply (quiet_new i ms y P). exact (quiet_live _ _ _ _ _ _ _ _ F P E IB). }
  destruct (retag_parts (j_busy i) base n p _ k) as [k'|]; cbn [does] in D.
  2: { exfalso. destruct D as (y & f & A & N0). destruct (inb (q_val x) y) eqn:Y; [|discriminate]. injection A as <-. apply inb_iff in Y. destruct (BM y Y) as (_ & st' & R0 & _). congruence. }
  exists k'. split; [reflexivity|]. split; [|split].
  - intros y N0. specialize (D y). destruct (inb (q_val x) y) eqn:Y; [apply inb_iff in Y; destruct (N0 (proj1 (BM y Y)))|]. rewrite D. apply OUT. exact N0.
  - intros y it c I J0 C. destruct (IN y I) as (EN & PR & Q & TG). specialize (D y). destruct (inb (q_val x) y) eqn:Y.
    + apply inb_iff in Y. destruct (BM y Y) as (_ & st' & R0 & _ & IT). rewrite R0 in D. injection D as ->. destruct (IT it J0) as [J1|[_ [C1|C1]]]; [left; exact (PR _ _ J1 C)|congruence|right; congruence].
    + rewrite D in J0. left. exact (PR _ _ J0 C).
  - cbn [mode_at]. intros y I. specialize (D y). rewrite (proj2 (inb_iff _ _) I) in D. destruct (BM y I) as (_ & st' & R0 & X & _). rewrite R0 in D. injection D as ->. exact X.
Qed.
Lemma mode_val B x v v' n k : mode_at B x v (MExcl n) k -> mode_at B x v' (MExcl n) k.
Proof. auto. Qed.

(** A new reference of [deref] *)
Lemma deref_live i ms m b base ty l n : facts i -> pinv i ms -> nth_error (j_mems i) m = Some (MkJM b base (Some (ty, QLive l))) -> ~ In n (j_used i) ->
  exists k', retag_parts (j_busy i) base n None (q_refs (MkQB (start b) ty base)) (j_stk i) = Some k' /\
    (forall y, ~ in_block b y -> k' y = j_stk i y) /\ (forall y, in_block b y -> prots (j_stk i y) (k' y)) /\
    mode_at (j_busy i) (MkQB (start b) ty base) (QLive (n :: l)) (MShared (n :: shared_of (ms m))) k'.
Proof.
  intros F P E NU. destruct (f_box _ F _ _ _ _ _ E) as (OK & FT & _). set (x := MkQB (start b) ty base).
  pose proof (retag_does (j_busy i) base n None (q_refs x) (j_stk i) (refs_apart t x OK)) as D0.
  assert (D : does (fun y => match kind_at (q_refs x) y with Some kd => Some (sb_retag (j_busy i) kd base n None) | None => None end) (j_stk i) (retag_parts (j_busy i) base n None (q_refs x) (j_stk i))).
  { revert D0. apply does_ext. intros y. unfold kind_at. destruct (find _ (q_refs x)) as [[kd ?]|]; reflexivity. }
  clear D0.
  assert (BM : forall y kd, kind_at (q_refs x) y = Some kd -> in_block b y /\ exists st', sb_retag (j_busy i) kd base n None (j_stk i y) = Some st' /\ prots (j_stk i y) st' /\
     match kd with RShared => ro n st' /\ forall n', ro n' (j_stk i y) -> ro n' st' | _ => grp base n st' /\ forall n', grp base n' (j_stk i y) -> grp base n' st' end).
  { intros y kd K. pose proof (kind_blk _ _ _ _ _ OK FT K) as I. split; [exact I|]. destruct (f_ends _ F _ _ _ E I) as [EN TG]. cbn [jm_base] in EN.
    pose proof (quiet_live _ _ _ _ _ _ _ _ F P E I) as Q.
    assert (TG2 : Forall (fun it => itag it <> n) (j_stk i y)) by (revert TG; apply Forall_impl; intros it I0 X0; rewrite X0 in I0; auto).
    destruct (refs_val t x OK y kd K) as [_ NUQ]. destruct kd; [congruence| |].
    - destruct (base_shared _ _ _ n EN Q) as (st' & A1 & A2 & A3 & A4). exists st'. auto.
    - destruct (base_cell (j_busy i) _ _ n EN TG2) as (st' & p & kk & A1 & A2 & -> & S1 & B1). exists (p ++ R n :: kk ++ [R base]). split; [exact A1|]. rewrite A2.
      split; [apply cell_prots|]. split; [rewrite A2 in TG2; exact (grp_new _ _ _ _ _ TG2 eq_refl S1 B1)|]. intros n' G. exact (grp_old _ _ _ _ _ G S1 B1). }
  destruct (retag_parts (j_busy i) base n None (q_refs x) (j_stk i)) as [k'|]; cbn [does] in D.
  2: { exfalso. destruct D as (y & f & A & N0). destruct (kind_at (q_refs x) y) as [kd|] eqn:K; [|discriminate]. injection A as <-. destruct (BM y kd K) as (_ & st' & R0 & _). congruence. }
  exists k'. split; [reflexivity|]. split; [|split].
  - intros y N0. specialize (D y). destruct (kind_at (q_refs x) y) as [kd|] eqn:K; [destruct (N0 (proj1 (BM y kd K)))|exact D].
  - intros y I. specialize (D y). destruct (kind_at (q_refs x) y) as [kd|] eqn:K; [|rewrite D; apply prots_refl]. destruct (BM y kd K) as (_ & st' & R0 & PR & _). rewrite R0 in D. injection D as ->. exact PR.
  - cbn [mode_at]. split; [eauto|]. intros n1 I y kd K. specialize (D y). rewrite K in D. destruct (BM y kd K) as (_ & st' & R0 & _ & X). rewrite R0 in D. injection D as ->.
    pose proof (p_mode _ _ P _ _ _ _ _ E ltac:(discriminate)) as M. fold x in M.
    destruct I as [<- | I]; [destruct kd; exact (proj1 X)|]. destruct (ms m) as [ns|]; [|destruct I]. pose proof (proj2 M n1 I y kd K) as M0. destruct kd; exact (proj2 X n1 M0).
Qed.

Lemma set_here (ms : nat -> qmode) m q : (if Nat.eqb m m then q else ms m) = q.
Proof. rewrite Nat.eqb_refl. reflexivity. Qed.
Lemma set_there (ms : nat -> qmode) m q m' : m' <> m -> (if Nat.eqb m' m then q else ms m') = ms m'.
Proof. intros N0. destruct (Nat.eqb_spec m' m); [contradiction|reflexivity]. Qed.

Lemma detach_drops m l c m' h : In (c, m', h) l -> exists h', In (c, m', h') (detach m l).
Proof.
  intros I. unfold detach. destruct (Nat.eqb m' m) eqn:E.
  - exists false. apply in_map_iff. exists (c, m', h). cbn [fst snd]. rewrite E. auto.
  - exists h. apply in_map_iff. exists (c, m', h). cbn [fst snd]. rewrite E. auto.
Qed.
Lemma drops_detach m l c m' h : In (c, m', h) (detach m l) -> exists h', In (c, m', h') l.
Proof.
  unfold detach. intros I. apply in_map_iff in I. destruct I as ([[c0 m0] h0] & E & I). cbn [fst snd] in E. destruct (Nat.eqb m0 m); injection E as <- <- <-; eauto.
Qed.

Lemma p_weaken i ms m b base ty l : pinv i ms -> nth_error (j_mems i) m = Some (MkJM b base (Some (ty, QLive l))) ->
  pinv i (fun m' => if Nat.eqb m' m then MShared (shared_of (ms m)) else ms m').
Proof.
  intros P E. destruct P as [P1 P2 P3 P4 P5]. constructor; auto. intros m0 b0 base0 ty0 v0 E0 NO. specialize (P5 _ _ _ _ _ E0 NO). destruct (Nat.eqb_spec m0 m) as [-> | N0]; [|exact P5].
  rewrite E in E0. injection E0 as <- <- <- <-. destruct (ms m) as [ns|n]; [exact P5|]. split; [eauto|]. intros n0 [].
Qed.

(** ** A call on a handle *)
Ltac same :=
  match goal with |- _ <> QUB /\ pinv (j_put ?i ?m (Some (?ty, ?v)) _ _ _) _ => split; [discriminate|]; apply (p_same i _ m (MkJM _ _ (Some (ty, v))) _ _ _ ltac:(eassumption) ltac:(eassumption)); intros; reflexivity end.
Ltac looked :=
  split; [discriminate|]; eapply p_look; [eassumption|eassumption|eassumption|eassumption|apply set_here|intros; apply set_there; assumption].
Lemma p_call w i ms n h m kd b base ty v o i' r : facts i -> pinv i ms -> qhandles w = j_handles i -> nth_error (j_handles i) h = Some (m, kd) ->
  nth_error (j_mems i) m = Some (MkJM b base (Some (ty, v))) -> ~ In n (j_used i) -> handle_of o = Some h ->
  jcall t n i h m kd (MkQB (start b) ty base) v o = (i', r) -> r <> QUB /\ pinv i' (mode_after w ms o r).
Proof.
  intros F P HW HH E NU HO.
  assert (MA : forall r, mode_after w ms o r =
    match kd with
    | HStrong => let set m q := fun m' => if Nat.eqb m' m then q else ms m' in
        match o, r with
        | QDeref _, QTag n => set m (MShared (n :: shared_of (ms m)))
        | QGetMut _, QTag n | QDrop _, QTag n => set m (MExcl n)
        | _, _ => set m (MShared (shared_of (ms m)))
        end
    | HWeak => match o, r with QUpgrade _, QDone => fun m' => if Nat.eqb m' m then MShared (shared_of (ms m)) else ms m' | _, _ => ms end
    | _ => ms
    end).
  { intros r0. unfold mode_after. rewrite HO, HW, HH. destruct o; try discriminate; reflexivity. }
  intros C. rewrite MA. clear MA. revert C.
  assert (LV : kd = HStrong \/ (strong_of (j_handles i) m =? 0)%nat = false -> exists l, v = QLive l).
  { intros X. apply (proj2 (proj2 (f_box _ F _ _ _ _ _ E))). destruct X as [-> | X]; [|apply Nat.eqb_neq in X; lia].
    pose proof (count_has is_strong m HStrong (j_handles i) h HH eq_refl). unfold strong_of. lia. }
  assert (LK : forall l, v = QLive l -> exists k', look (j_busy i) base (q_refs (MkQB (start b) ty base)) (j_stk i) = Some k').
  { intros l ->. destruct (look_live _ _ _ _ _ _ _ F P E) as (k' & L & _). eauto. }
  unfold jcall. cbn [q_ty q_base].
  destruct kd.
  - (* Rc *)
    destruct (LV (or_introl eq_refl)) as [l ->]. destruct (LK l eq_refl) as [k L]. rewrite L.
    destruct o; try discriminate HO; cbn [handle_of] in HO; try (intros [= <- <-]; looked); try (intros [= <- <-]; split; [discriminate|]; eapply p_weaken; eassumption).
    + (* drop *)
      destruct (Nat.eqb _ 1); [|intros [= <- <-]; looked].
      destruct (mut_live i ms m b base ty l k n (Some (j_calls i)) _ F P E NU L (or_intror eq_refl)) as (k2 & R2 & OUT & IT & MD). rewrite R2.
      cbn [tags_of]. intros [= <- <-]. split; [discriminate|]. unfold j_put. rewrite E. cbn [j_mems j_handles].
      apply (p_step i ms m (MkJM b base (Some (ty, QLive l))) (Some (ty, QDying (n :: l)))); cbn [jm_blk jm_base]; auto.
      * intros y it c I J0 C0. destruct (IT y it c I J0 C0) as [X|[= <-]]; [left; exact X|]. right. split; [lia|]. exists true. left. reflexivity.
      * constructor; [|apply (p_nodup _ _ P)]. intros I. pose proof (p_lt _ _ P) as LT. rewrite Forall_forall in LT. specialize (LT _ I). lia.
      * constructor; [lia|]. eapply Forall_impl; [|apply (p_lt _ _ P)]. cbn. intros; lia.
      * intros c [<- | I]; [right; lia|left; exact I].
      * intros c m' hh I _. exists hh. right. exact I.
      * intros c m' hh [X | I] N0; [congruence|eauto].
      * split; [intros l0; discriminate|]. intros _. rewrite set_here. exact MD.
      * intros; apply set_there; assumption.
    + (* deref *)
      destruct (deref_live i ms m b base ty l n F P E NU) as (k2 & R2 & OUT & PR & MD). rewrite R2. intros [= <- <-]. split; [discriminate|].
      apply (p_put i ms m b base _ _ k2 _ _ _ F P E OUT PR); [|intros; apply set_there; assumption].
      split; [intros l0 _; exact (p_live _ _ P _ _ _ _ _ E)|]. intros _. rewrite set_here. exact MD.
    + (* get_mut *)
      destruct (_ && _); [|intros [= <- <-]; looked].
      destruct (mut_live i ms m b base ty l k n None _ F P E NU L (or_introl eq_refl)) as (k2 & R2 & OUT & IT & MD). rewrite R2. intros [= <- <-]. split; [discriminate|].
      apply (p_put i ms m b base _ _ k2 _ _ _ F P E OUT); [|split; [intros l0 _; exact (p_live _ _ P _ _ _ _ _ E)|intros _; rewrite set_here; exact MD]|intros; apply set_there; assumption].
      intros y I it c J0 C0. destruct (IT y it c I J0 C0) as [X|X]; [exact X|discriminate].
    + (* try_unwrap *)
      destruct (Nat.eqb _ 1); [|intros [= <- <-]; looked]. destruct (look_live _ _ _ _ _ _ _ F P E) as (k2 & L2 & OUT & IN & _). rewrite L in L2. injection L2 as <-.
      destruct (f_box _ F _ _ _ _ _ E) as (OK & FT & _). set (x := MkQB (start b) ty base) in *.
      pose proof (on_block_does (q_val x) (sb_read (j_busy i) base) k) as D. destruct (on_block (q_val x) (sb_read (j_busy i) base) k) as [k2|]; cbn [does] in D.
      * intros [= <- <-]. split; [discriminate|]. apply (p_put i ms m b base _ _ k2 _ _ _ F P E); [| |split; [discriminate|congruence]|intros; apply set_there; assumption].
        -- intros y N0. specialize (D y). destruct (inb (q_val x) y) eqn:Y; [apply inb_iff in Y; destruct (N0 (val_mem _ _ _ _ OK FT Y))|]. rewrite D. apply OUT. exact N0.
        -- intros y I. destruct (IN y I) as (EN & PR & _). specialize (D y). destruct (inb (q_val x) y) eqn:Y; [|rewrite D; exact PR].
           eapply prots_trans; [exact PR|]. apply (base_read_keeps _ _ _ _ EN D).
      * exfalso. destruct D as (y & f & A & N0). destruct (inb (q_val x) y) eqn:Y; [|discriminate]. injection A as <-. apply inb_iff in Y.
        destruct (IN y (val_mem _ _ _ _ OK FT Y)) as (EN & _ & Q & _). destruct (base_read _ _ _ EN Q) as (st' & R0 & _). congruence.
    + (* into_raw *)
      destruct (_ && _); intros [= <- <-]; looked.
  - (* Weak *)
    destruct o; try discriminate HO; cbn [handle_of] in HO; try (intros [= <- <-]; same); try (intros [= <- <-]; split; [discriminate|exact P]).
    + (* upgrade *)
      destruct (Nat.eqb _ 0) eqn:Z0; [intros [= <- <-]; same|]. destruct (LV (or_intror eq_refl)) as [l ->]. destruct (LK l eq_refl) as [k L]. rewrite L. intros [= <- <-]. looked.
    + (* Weak::try_unwrap *)
      destruct (_ && _); [|intros [= <- <-]; same]. intros [= <- <-]. split; [discriminate|]. unfold j_put. rewrite E. cbn [j_mems j_handles j_stk].
      apply (p_step i ms m (MkJM b base (Some (ty, v))) None); cbn [jm_blk jm_base]; auto.
      * intros y it c I J0 C0. left. eauto.
      * apply (p_nodup _ _ P).
      * apply (p_lt _ _ P).
      * intros c m' hh I _. eapply detach_drops. exact I.
      * intros c m' hh I _. eapply drops_detach. exact I.
  - destruct o; try discriminate HO; cbn [handle_of] in HO; try (intros [= <- <-]; split; [discriminate|exact P]). intros [= <- <-]. same.
  - destruct o; try discriminate HO; cbn [handle_of] in HO; intros [= <- <-]; split; try discriminate; exact P.
Qed.

(** ** The other steps *)
Lemma quiet_free i ms m b base ob y : facts i -> pinv i ms -> nth_error (j_mems i) m = Some (MkJM b base ob) -> (forall c h, ~ In (c, m, h) (j_drops i)) ->
  in_block b y -> quiet (j_busy i) (j_stk i y).
Proof.
  intros F P E ND I. apply Forall_forall. intros it X c C B. destruct (proj2 (p_items _ _ P _ _ _ X C) B) as (m' & x' & h & E' & I' & D).
  pose proof (f_sep _ F _ _ _ _ _ E E' I I') as <-. exact (ND _ _ D).
Qed.
Lemma kind_has parts kd c y : apart parts = true -> In (kd, c) parts -> in_block c y -> kind_at parts y = Some kd.
Proof.
  unfold kind_at. induction parts as [|[kd0 b0] parts IH]; intros A I Y; [destruct I|]. cbn [find snd]. cbn [apart] in A. apply andb_true_iff in A. destruct A as [A1 A2].
  destruct I as [[= -> ->] | I].
  - rewrite (proj2 (inb_iff _ _) Y). reflexivity.
  - destruct (inb b0 y) eqn:X; [|exact (IH A2 I Y)]. exfalso. apply inb_iff in X. rewrite forallb_forall in A1. specialize (A1 _ I). cbn [snd] in A1. unfold in_block in *. lia.
Qed.
Lemma kind_val x y : qtype_ok t (q_ty x) -> in_block (q_val x) y -> exists kd, kind_at (q_refs x) y = Some kd.
Proof.
  intros OK I. pose proof OK as (_ & _ & _ & _ & CV). destruct (CV (y - q_addr x)) as ([u c] & IC & Y); [unfold in_block, q_val in I; cbn [start size] in I; lia|].
  exists (if u : bool then RCell else RShared). apply (kind_has _ _ (MkBlock (q_addr x + start c) (size c))); [apply (refs_apart t x OK)| |unfold in_block in *; cbn [start size snd] in *; lia].
  unfold q_refs. apply in_map_iff. exists (u, c). auto.
Qed.
Definition mode_y (B : list nat) (x : qbox) (q : qmode) (y : Z) (st : stack) : Prop :=
  match q with
  | MShared ns => forall n, In n ns -> forall kd, kind_at (q_refs x) y = Some kd -> match kd with RShared => ro n st | _ => grp (q_base x) n st end
  | MExcl n => in_block (q_val x) y -> excl B n st
  end.
Lemma p_act_stk i ms m b base ty v a l n : facts i -> pinv i ms -> nth_error (j_mems i) m = Some (MkJM b base (Some (ty, v))) ->
  tags_of v = Some l -> act_ok (MkO (q_val (MkQB (start b) ty base)) l) a = true -> allowed (ms m) (MkQB (start b) ty base) a ->
  exists k', act_stk (j_busy i) a n (j_stk i) = Some k' /\ (forall y, ~ in_block b y -> k' y = j_stk i y) /\ (forall y, in_block b y -> prots (j_stk i y) (k' y)) /\
    mode_at (j_busy i) (MkQB (start b) ty base) v (ms m) k'.
Proof.
  intros F P E TL OKA AL. set (x := MkQB (start b) ty base) in *. destruct (f_box _ F _ _ _ _ _ E) as (OK & FT & _).
  assert (NO : v <> QOver) by (intros ->; discriminate). pose proof (p_mode _ _ P _ _ _ _ _ E NO) as M. fold x in M.
  pose proof (act_does (j_busy i) _ a n (j_stk i) OKA) as D.
  assert (ST : forall y f, act_at (j_busy i) a n y = Some f -> in_block b y /\ exists st', f (j_stk i y) = Some st' /\ prots (j_stk i y) st' /\ mode_y (j_busy i) x (ms m) y st').
  { intros y f A. pose proof (act_inside _ _ _ _ _ _ OKA A) as IV. cbn [oblk] in IV. pose proof (val_mem _ _ _ _ OK FT IV) as IB. split; [exact IB|].
    destruct (ms m) as [ns|n0] eqn:MM; cbn [mode_at mode_y] in *.
    - destruct M as [[l0 ->] M]. pose proof (quiet_live _ _ _ _ _ _ _ _ F P E IB) as Q. destruct (kind_val x y OK IV) as [kd K]. pose proof (refs_val t x OK y kd K) as [_ NUQ].
      destruct a as [n1 b1|n1 b1|n1 parts p]; cbn [allowed act_at] in *; [| |destruct AL]; destruct (inb b1 y) eqn:Y; try discriminate; injection A as <-.
      + pose proof (M n1 AL y kd K) as M1. destruct kd; [congruence| |].
        * destruct (client_read_ro _ _ _ M1 Q) as (st' & R1 & R2 & R3). exists st'. split; [exact R1|]. split; [exact R2|]. intros n2 I2 kd2 K2. rewrite K in K2. injection K2 as <-. apply R3. exact (M n2 I2 y _ K).
        * destruct (client_read_grp _ _ _ _ M1 Q) as (st' & R1 & R2 & R3). exists st'. split; [exact R1|]. split; [exact R2|]. intros n2 I2 kd2 K2. rewrite K in K2. injection K2 as <-. apply R3. exact (M n2 I2 y _ K).
      + destruct AL as (I1 & c & IC & INS). apply inb_iff in Y. pose proof (kind_has _ _ _ y (refs_apart t x OK) IC (INS y Y)) as K1. rewrite K in K1. injection K1 as ->.
        destruct (client_write_grp _ _ _ _ (M n1 I1 y _ K) Q) as (st' & R1 & R2 & R3). exists st'. split; [exact R1|]. split; [apply prots_incl; exact R2|].
        intros n2 I2 kd2 K2. rewrite K in K2. injection K2 as <-. apply R3. exact (M n2 I2 y _ K).
    - destruct a as [n1 b1|n1 b1|n1 parts p]; cbn [allowed act_at] in *; [| |destruct AL]; destruct (inb b1 y) eqn:Y; try discriminate; injection A as <-; subst n1.
      + destruct (excl_read _ _ _ (M y IV)) as (st' & R1 & R2 & R3). exists st'. auto.
      + destruct (excl_write _ _ _ (M y IV)) as (st' & R1 & R2 & R3). exists st'. split; [exact R1|]. split; [apply prots_incl; exact R2|]. auto. }
  destruct (act_stk (j_busy i) a n (j_stk i)) as [k'|]; cbn [does] in D.
  2: { exfalso. destruct D as (y & f & A & N0). destruct (ST y f A) as (_ & st' & R0 & _). congruence. }
  exists k'. split; [reflexivity|].
  assert (MY : forall y, mode_y (j_busy i) x (ms m) y (k' y)).
  { intros y. specialize (D y). destruct (act_at (j_busy i) a n y) as [f|] eqn:A.
    - destruct (ST y f A) as (_ & st' & R0 & _ & X). rewrite R0 in D. injection D as <-. exact X.
    - rewrite D. destruct (ms m) as [ns|n0]; cbn [mode_at mode_y] in *; [|apply M]. intros n0 I0 kd K. exact (proj2 M n0 I0 y kd K). }
  split; [|split].
  - intros y N0. specialize (D y). destruct (act_at (j_busy i) a n y) as [f|] eqn:A; [destruct (N0 (proj1 (ST y f A)))|exact D].
  - intros y I. specialize (D y). destruct (act_at (j_busy i) a n y) as [f|] eqn:A; [|rewrite D; apply prots_refl]. destruct (ST y f A) as (_ & st' & R0 & PR & _). rewrite R0 in D. injection D as <-. exact PR.
  - destruct (ms m) as [ns|n0]; cbn [mode_at mode_y] in *; [|exact MY]. split; [apply M|]. intros n0 I0 y kd K. exact (MY y n0 I0 kd K).
Qed.

Lemma leave_in B c x : In x (leave B c) -> In x B.
Proof. unfold leave. intros I. apply filter_In in I. apply I. Qed.
Lemma p_other w i ms n o i' r : qinv t owner w i -> pinv i ms -> qop_ok t o -> polite_op w ms o -> ~ In n (j_used i) -> handle_of o = None ->
  jstep t n i o = (i', r) -> r <> QUB /\ pinv i' (mode_after w ms o r).
Proof.
  intros Q P OKO PO NU HO. pose proof (qinv_facts _ _ Q) as F. unfold jstep. rewrite HO.
  destruct o as [m ty| | | | | | | | | | | | | |m a| |c]; try discriminate HO; cbn [mode_after handle_of].
  - (* new *)
    destruct (nth_error (j_mems i) m) as [[b base [[ty0 v0]|]]|] eqn:E; try (intros [= <- <-]; split; [discriminate|exact P]).
    destruct (rc_fits t b (q_lay ty)) eqn:FT; [|intros [= <- <-]; split; [discriminate|exact P]].
    cbn [qop_ok polite_op] in *. rewrite <- (v_drops _ _ _ _ Q) in PO. set (x := MkQB (start b) ty base).
    assert (IM : forall y, in_block (q_all t x) y -> in_block b y) by (intros y I; exact (in_mem t owner (MkQM b base None) ty y OKO FT I)).
    pose proof (on_block_does (q_all t x) (sb_write (j_busy i) base) (j_stk i)) as D.
    assert (ST : forall y, in_block (q_all t x) y -> exists st', sb_write (j_busy i) base (j_stk i y) = Some st' /\ incl st' (j_stk i y)).
    { intros y I. pose proof (IM y I) as IB. apply base_write; [apply (f_ends _ F _ _ _ E IB)|]. exact (quiet_free _ _ _ _ _ _ _ F P E PO IB). }
    destruct (on_block (q_all t x) (sb_write (j_busy i) base) (j_stk i)) as [k'|]; cbn [does] in D.
    + intros [= <- <-]. split; [discriminate|]. apply (p_put i ms m b base None _ k' _ _ _ F P E).
      * intros y N0. specialize (D y). destruct (inb (q_all t x) y) eqn:Y; [apply inb_iff in Y; destruct (N0 (IM y Y))|exact D].
      * intros y I. specialize (D y). destruct (inb (q_all t x) y) eqn:Y; [|rewrite D; apply prots_refl]. apply inb_iff in Y. destruct (ST y Y) as (st' & R0 & I0). rewrite R0 in D. injection D as <-. apply prots_incl. exact I0.
      * split; [intros l _; exact PO|]. intros _. rewrite set_here. split; [eauto|]. intros n0 [].
      * intros m' N0. apply set_there. exact N0.
    + exfalso. destruct D as (y & f & A & N0). destruct (inb (q_all t x) y) eqn:Y; [|discriminate]. injection A as <-. apply inb_iff in Y. destruct (ST y Y) as (st' & R0 & _). congruence.
  - (* the end of a destructor *)
    destruct (j_drops i) as [|[[c m] here] ds] eqn:DR; [intros [= <- <-]; split; [discriminate|exact P]|]. destruct (j_busy i) as [|b0 bs] eqn:BU; [intros [= <- <-]; split; [discriminate|exact P]|].
    destruct (Nat.eqb_spec b0 c) as [-> | N0]; [|intros [= <- <-]; split; [discriminate|exact P]].
    pose proof (p_nodup _ _ P) as ND. pose proof (p_lt _ _ P) as LT. rewrite BU in ND, LT. inversion ND as [|c' bs' NI ND2]; subst. inversion LT as [|c' bs' LC LT2]; subst.
    assert (D1 : forall c0 m' h, In (c0, m', h) (j_drops i) -> In c0 bs -> exists h', In (c0, m', h') ds).
    { rewrite DR. intros c0 m' h [[= -> -> ->] | I] B; [contradiction|eauto]. }
    assert (D2 : forall c0 m' h, In (c0, m', h) ds -> exists h', In (c0, m', h') (j_drops i)) by (rewrite DR; intros c0 m' h I; exists h; right; exact I).
    assert (SAME : pinv (MkQI (j_stk i) (j_mems i) (j_handles i) ds bs (j_calls i) (j_used i)) ms).
    { constructor; cbn [j_busy j_calls j_stk j_mems j_drops]; auto.
      - intros y it c0 I C0. destruct (p_items _ _ P _ _ _ I C0) as [L A]. split; [exact L|]. intros B. destruct A as (m0 & x0 & h & E0 & I0 & H0); [rewrite BU; right; exact B|].
        destruct (D1 _ _ _ H0 B) as (h' & H'). exists m0, x0, h'. auto.
      - intros m0 b1 base ty l E0 c0 h H0. destruct (D2 _ _ _ H0) as (h' & H'). exact (p_live _ _ P _ _ _ _ _ E0 _ _ H').
      - intros m0 b1 base ty v E0 NO. apply (mode_busy (j_busy i)); [intros y it c0 _ _ _ B; rewrite BU; right; exact B|]. exact (p_mode _ _ P _ _ _ _ _ E0 NO). }
    intros [= <- <-]. split; [discriminate|].
    destruct (nth_error (j_mems i) m) as [[b1 base [[ty v]|]]|] eqn:E; try exact SAME. destruct here; [|exact SAME].
    unfold j_put. rewrite E. cbn [j_mems jm_blk jm_base].
    apply (p_step i ms m (MkJM b1 base (Some (ty, v))) (Some (ty, QOver)) (j_stk i)); cbn [jm_blk jm_base]; auto.
    + intros y it c0 I J0 C0. left. eauto.
    + intros c0 B. left. rewrite BU. right. exact B.
    + intros c0 m' h H0 _. exact (D2 _ _ _ H0).
    + split; [discriminate|congruence].
  - (* an access *)
    destruct (nth_error (j_mems i) m) as [[b base [[ty v]|]]|] eqn:E; try (intros [= <- <-]; split; [discriminate|exact P]).
    destruct (tags_of v) as [l|] eqn:TL; [|intros [= <- <-]; split; [discriminate|exact P]].
    destruct (act_ok _ a) eqn:OKA; [|intros [= <- <-]; split; [discriminate|exact P]].
    cbn [polite_op] in PO. destruct (jm_nth _ _ _ _ Q E) as (k & K & X). unfold jm in X. injection X as -> -> X. destruct (m_box k) as [c|] eqn:C; [|discriminate]. injection X as -> ->.
    specialize (PO k c K C). destruct (p_act_stk i ms m (m_blk k) (m_base k) (c_ty c) (c_val c) a l n F P E TL OKA PO) as (k' & AS & OUT & PR & MD).
    assert (NR : match a with CRetag _ _ _ => False | _ => True end) by (destruct a; [exact Logic.I|exact Logic.I|]; destruct (ms m); exact PO).
    assert (G : match ideal_act (j_busy i) (MkI (m_blk k) (j_stk i) l) a n with Some i0 => istk i0 = k' | None => False end).
    { destruct a as [n1 b1|n1 b1|n1 parts p]; [| |destruct NR]; cbn [ideal_act act_stk istk] in *; rewrite AS; reflexivity. }
    destruct (ideal_act _ _ a n) as [i0|]; [|destruct G]. rewrite G. intros [= <- <-]. split; [destruct a; discriminate|].
    assert (G2 : match a with CRetag _ _ _ => add_tag (c_val c) (Some n) | _ => c_val c end = c_val c) by (destruct a; [reflexivity|reflexivity|destruct NR]). rewrite G2.
    assert (NO : c_val c <> QOver) by (intros X; rewrite X in TL; discriminate).
    assert (PP : pinv (j_put i m (Some (c_ty c, c_val c)) k' (j_handles i) (used_after a n (j_used i))) ms).
    { apply (p_put i ms m _ _ _ _ k' _ _ _ F P E OUT PR); [|auto]. split; [|auto]. intros l0 X. rewrite X in E. exact (p_live _ _ P _ _ _ _ _ E). }
    destruct a; exact PP.
  - (* a function starts *)
    intros [= <- <-]. split; [discriminate|]. destruct P as [P1 P2 P3 P4 P5]. constructor; cbn [j_busy j_calls j_stk j_mems j_drops]; auto.
    + constructor; [|exact P1]. intros I. rewrite Forall_forall in P2. specialize (P2 _ I). lia.
    + constructor; [lia|]. eapply Forall_impl; [|exact P2]. cbn. intros; lia.
    + intros y it c I C. destruct (P3 _ _ _ I C) as [L A]. split; [lia|]. intros [<- | B]; [lia|]. auto.
    + intros m b base ty v E NO. apply (mode_busy (j_busy i)); [|exact (P5 _ _ _ _ _ E NO)]. intros y it c _ I C [<- | B]; [|exact B]. pose proof (proj1 (P3 _ _ _ I C)). lia.
  - (* and returns *)
    destruct (existsb _ (j_drops i)); intros [= <- <-]; split; try discriminate; [exact P|].
    destruct P as [P1 P2 P3 P4 P5]. constructor; cbn [j_busy j_calls j_stk j_mems j_drops]; auto.
    + unfold leave. apply NoDup_filter. exact P1.
    + apply Forall_forall. intros x I. rewrite Forall_forall in P2. apply P2. eapply leave_in. exact I.
    + intros y it c0 I C. destruct (P3 _ _ _ I C) as [L A]. split; [exact L|]. intros B. apply A. eapply leave_in. exact B.
    + intros m b base ty v E NO. apply (mode_busy (j_busy i)); [|exact (P5 _ _ _ _ _ E NO)]. intros y it c0 _ _ _ B. eapply leave_in. exact B.
Qed.

(** ** Programs *)
Lemma p_jstep w i ms n o i' r : qinv t owner w i -> pinv i ms -> qop_ok t o -> polite_op w ms o -> ~ In n (j_used i) ->
  jstep t n i o = (i', r) -> r <> QUB /\ pinv i' (mode_after w ms o r).
Proof.
  intros Q P OKO PO NU J0. pose proof (qinv_facts _ _ Q) as F. destruct (handle_of o) as [h|] eqn:HO; [|eapply p_other; eassumption].
  unfold jstep in J0. rewrite HO in J0. pose proof (v_handles _ _ _ _ Q) as HW.
  assert (SAME : forall r, (nth_error (j_handles i) h = None \/ exists m kd, nth_error (j_handles i) h = Some (m, kd) /\ forall x, nth_error (j_mems i) m = Some x -> jm_box x = None) ->
    r = QInvalid -> r <> QUB /\ pinv i (mode_after w ms o r)).
  { intros r0 X ->. split; [discriminate|].
    assert (MA : forall m', m' <> match nth_error (j_handles i) h with Some (m, _) => m | None => 0%nat end \/ nth_error (j_handles i) h = None -> mode_after w ms o QInvalid m' = ms m').
    { intros m' X'. unfold mode_after. rewrite HO, <- HW. destruct (nth_error (j_handles i) h) as [[m kd]|].
      - destruct X' as [X' | X']; [|discriminate]. destruct kd, o; try discriminate HO; try reflexivity; apply set_there; exact X'.
      - destruct o; try discriminate HO; reflexivity. }
    destruct P as [P1 P2 P3 P4 P5]. constructor; auto. intros m b base ty v E NO. rewrite MA; [exact (P5 _ _ _ _ _ E NO)|].
    destruct X as [X|(m0 & kd & X & BX)]; [right; exact X|left]. rewrite X. intros ->. specialize (BX _ E). discriminate. }
  destruct (nth_error (j_handles i) h) as [[m kd]|] eqn:HH; [|injection J0 as <- <-; apply SAME; auto].
  destruct (nth_error (j_mems i) m) as [[b base [[ty v]|]]|] eqn:E.
  - eapply p_call; try eassumption. symmetry. exact HW.
  - injection J0 as <- <-. apply SAME; [|reflexivity]. right. exists m, kd. split; [reflexivity|]. intros x X. rewrite E in X. injection X as <-. reflexivity.
  - injection J0 as <- <-. apply SAME; [|reflexivity]. right. exists m, kd. split; [reflexivity|]. intros x X. congruence.
Qed.
Lemma polite_run os : Forall (qop_ok t) os -> forall w i ms, qinv t owner w i -> dinv w -> pinv i ms -> polite t w ms os -> Forall (fun e => snd e <> QUB) (snd (qrun t w os)).
Proof.
  induction 1 as [|o os OKO OKS IH]; intros w i ms Q D P PO; cbn [qrun]; [constructor|]. cbn [polite] in PO. destruct PO as [PO PS].
  destruct (qstep_sim t owner V w i o Q D OKO) as (n & i' & NU & J0 & Q' & D'). destruct (p_jstep _ _ _ _ _ _ _ Q P OKO PO NU J0) as [NB P'].
  destruct (qstep t w o) as [w1 r]. cbn [fst snd] in *. pose proof (IH _ _ _ Q' D' P' PS) as X. destruct (qrun t w1 os) as [w2 hs]. constructor; [exact NB|exact X].
Qed.
End Polite.

(** ** The start *)
Definition owner_new (bs : list block) (y : Z) : option nat := option_map m_base (find (fun k => inb (m_blk k) y) (qmems_new bs)).
Lemma combine_seq bs : forall d m, nth_error (combine bs (seq d (length bs))) m = option_map (fun b : block => (b, (d + m)%nat)) (nth_error bs m).
Proof.
  induction bs as [|b bs IH]; intros d m; [destruct m; reflexivity|]. cbn [length seq combine]. destruct m as [|m]; cbn [nth_error option_map]; [rewrite Nat.add_0_r; reflexivity|].
  rewrite IH. destruct (nth_error bs m); cbn [option_map]; [|reflexivity]. do 2 f_equal. lia.
Qed.
Lemma mems_new_nth bs m : nth_error (qmems_new bs) m = option_map (fun b : block => MkQM b m None) (nth_error bs m).
Proof. unfold qmems_new. rewrite nth_error_map, combine_seq. destruct (nth_error bs m); reflexivity. Qed.
Section Init.
Variables (t : target) (bs : list block).
Hypothesis D : pairwise disjoint bs.
Lemma new_find y k : find (fun k => inb (m_blk k) y) (qmems_new bs) = Some k -> exists m, nth_error (qmems_new bs) m = Some k /\ in_block (m_blk k) y /\ m_base k = m /\ (m < length bs)%nat.
Proof.
  intros F. apply find_some in F. destruct F as [I Y]. apply inb_iff in Y. destruct (In_nth_error _ _ I) as [m E]. exists m. split; [exact E|]. split; [exact Y|].
  rewrite mems_new_nth in E. destruct (nth_error bs m) as [b|] eqn:X; [|discriminate]. injection E as <-. split; [reflexivity|]. apply nth_error_Some. congruence.
Qed.
Lemma new_sep m m' k k' y : nth_error (qmems_new bs) m = Some k -> nth_error (qmems_new bs) m' = Some k' -> in_block (m_blk k) y -> in_block (m_blk k') y -> m = m'.
Proof.
  rewrite !mems_new_nth. destruct (nth_error bs m) as [b|] eqn:E; [|discriminate]. destruct (nth_error bs m') as [b'|] eqn:E'; [|discriminate]. intros [= <-] [= <-]. cbn [m_blk]. intros I I'.
  destruct (Nat.eq_dec m m') as [|N0]; [assumption|]. destruct (D m m' b b' N0 E E' y (conj I I')).
Qed.
Lemma qinv_new : qinv t (owner_new bs) (qnew bs) (qideal_new bs).
Proof.
  assert (BX : forall m k, nth_error (qmems_new bs) m = Some k -> m_box k = None /\ m_base k = m /\ (m < length bs)%nat).
  { intros m k E. rewrite mems_new_nth in E. destruct (nth_error bs m) as [b|] eqn:X; [|discriminate]. injection E as <-. repeat split; auto. apply nth_error_Some. congruence. }
  assert (IS : forall m, (m < length bs)%nat -> In m (seq 0 (length bs))) by (intros m L; apply in_seq; lia).
  constructor; cbn [qnew qideal_new j_used j_stk j_mems qmems qsb qhandles j_handles j_drops j_busy j_calls qdrops qbusy qcalls]; try reflexivity.
  - constructor; cbn [stk nexttag].
    + intros y. unfold owner_new, stacks_new. destruct (find _ (qmems_new bs)) as [k|] eqn:F; cbn [option_map]; [|reflexivity]. destruct (new_find _ _ F) as (m & _ & _ & B & L).
      rewrite B. constructor.
      * constructor; [|constructor]. split; [exact L|]. intros _. reflexivity.
      * exists []. auto.
      * cbn [J]. split; [|exact Logic.I]. right. right. constructor.
    + intros y b. unfold owner_new. destruct (find _ (qmems_new bs)) as [k|] eqn:F; [|discriminate]. intros [= <-]. destruct (new_find _ _ F) as (m & _ & _ & -> & L). auto.
    + apply Forall_forall. intros n I. apply in_seq in I. lia.
    + intros y (m & k & c & E & B & _). destruct (BX m k E) as [X _]. congruence.
  - intros y. unfold absf, abs. cbn [stk]. unfold stacks_new. destruct (find _ (qmems_new bs)) as [k|] eqn:F; [|reflexivity]. destruct (new_find _ _ F) as (m & _ & _ & -> & L).
    cbn [filter]. replace (mine (seq 0 (length bs)) (MkItem m SharedRW None)) with true; [reflexivity|]. symmetry. apply existsb_exists. exists m. split; [auto|apply Nat.eqb_refl].
  - unfold jmems_new, qmems_new. rewrite map_map. reflexivity.
  - constructor.
    + intros m k y E I. unfold owner_new. destruct (find _ (qmems_new bs)) as [k'|] eqn:F.
      * destruct (new_find _ _ F) as (m' & E' & I' & _ & _). pose proof (new_sep _ _ _ _ _ E E' I I') as <-. rewrite E in E'. injection E' as <-. reflexivity.
      * pose proof (find_none _ _ F k (nth_error_In _ _ E)) as X. cbn beta in X. rewrite (proj2 (inb_iff _ _) I) in X. discriminate.
    + intros m m' k k' y E E' I I'. eapply new_sep; eassumption.
    + intros m k E. destruct (BX m k E) as (_ & -> & L). auto.
    + intros m k c E B. destruct (BX m k E) as [X _]. congruence.
    + intros m k E _. split; reflexivity.
Qed.
Lemma dinv_new : dinv (qnew bs).
Proof. intros n m []. Qed.
Lemma pinv_new ms : pinv (qideal_new bs) ms.
Proof.
  constructor; cbn [qideal_new j_busy j_calls j_stk j_mems j_drops].
  - constructor.
  - constructor.
  - intros y it c I C. unfold stacks_new in I. destruct (find _ (qmems_new bs)); [|destruct I]. destruct I as [<- | []]. discriminate.
  - intros m b base ty l E c h [].
  - intros m b base ty v E. unfold jmems_new in E. rewrite nth_error_map in E. destruct (nth_error (combine _ _) m); discriminate.
Qed.
End Init.
