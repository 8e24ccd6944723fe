(** * EBorrowOps: the functions of ExitStack on the stacks of all bytes. *)
From Verif Require Import Base Spec BaseFacts SyncModel SyncSpec UnsyncModel UnsyncSpec ExitModel BorrowModel BorrowSpec BorrowProofs BorrowState BorrowWorld
  UBorrowModel UBorrowSpec UBorrowSub UBorrowCells UBorrowCalls UBorrowReset EBorrowModel EBorrowSpec EBorrowBase EBorrowSlot.

(** ** Which bytes are touched *)
Definition touches {A} (P : Z -> Prop) (m : M A) : Prop := forall s a s', m s = Some (a, s') -> (forall x, ~ P x -> stk s' x = stk s x) /\ (nexttag s <= nexttag s')%nat.

Lemma touches_ret {A} P (a : A) : touches P (mret a).
Proof. intros s b s' [= <- <-]. auto. Qed.
Lemma touches_bind {A B} P (m : M A) (f : A -> M B) : touches P m -> (forall a, touches P (f a)) -> touches P (mbind m f).
Proof.
  intros H1 H2 s b s' E. unfold mbind in E. destruct (m s) as [[a s1]|] eqn:E1; [|discriminate]. destruct (H1 _ _ _ E1) as [K1 K2]. destruct (H2 a _ _ _ E) as [K3 K4].
  split; [|lia]. intros x X. rewrite (K3 x X). auto.
Qed.
Lemma touches_parts c t n p parts : forall k k' x, retag_parts c t n p parts k = Some k' -> (forall kd b, In (kd, b) parts -> ~ in_block b x) -> k' x = k x.
Proof.
  induction parts as [|[kd b] parts IH]; intros k k' x E N; cbn [retag_parts] in E; [congruence|]. destruct (on_block b _ k) as [k1|] eqn:E1; [|discriminate].
  rewrite (IH k1 k' x E) by (intros kd' b' I; apply (N kd' b'); right; exact I). apply (on_block_spec _ _ _ _ E1 x). apply (N kd b). left. reflexivity.
Qed.
Lemma touches_retag (P : Z -> Prop) c p parts : (forall kd b x, In (kd, b) parts -> in_block b x -> P x) -> touches P (m_retag c p parts).
Proof.
  intros H s a s' E. unfold m_retag, m_retag_prot in E. destruct (retag_parts c p (nexttag s) None parts (stk s)) as [k|] eqn:E1; [|discriminate]. injection E as <- <-. split; [|cbn [nexttag]; lia]. cbn [stk].
  intros x X. apply (touches_parts _ _ _ _ _ _ _ x E1). intros kd b I Y. apply X. eauto.
Qed.
Lemma touches_read (P : Z -> Prop) c p b : (forall x, in_block b x -> P x) -> touches P (m_read c p b).
Proof.
  intros H s a s' E. unfold m_read in E. destruct (on_block b _ (stk s)) as [k|] eqn:E1; [|discriminate]. injection E as <- <-. split; [|cbn [nexttag]; lia]. cbn [stk].
  intros x X. apply (on_block_spec _ _ _ _ E1 x). auto.
Qed.
Lemma touches_write (P : Z -> Prop) c p b : (forall x, in_block b x -> P x) -> touches P (m_write c p b).
Proof.
  intros H s a s' E. unfold m_write in E. destruct (on_block b _ (stk s)) as [k|] eqn:E1; [|discriminate]. injection E as <- <-. split; [|cbn [nexttag]; lia]. cbn [stk].
  intros x X. apply (on_block_spec _ _ _ _ E1 x). auto.
Qed.
Lemma touches_one (P : Z -> Prop) c k b p : (forall x, in_block b x -> P x) -> touches P (one c k b p).
Proof. intros H. apply touches_retag. intros kd b' x [[= <- <-]|[]] X. auto. Qed.
Lemma touches_set (P : Z -> Prop) c b p : (forall x, in_block b x -> P x) -> touches P (cell_set c b p).
Proof.
  intros H. unfold cell_set, uc_get. repeat first [apply touches_bind; [|intros ?]|apply touches_one; exact H|apply touches_read; exact H|apply touches_write; exact H].
Qed.
Lemma touches_finish hd st tp unp u self : udata u = st -> touches (fun x => in_block hd x \/ in_block st x) (e_finish (MkPlaces hd st tp) unp u self).
Proof.
  intros E. unfold e_finish, bump_deref_mut, mb_reset. cbn [p_hd]. rewrite E.
  assert (R : forall k p, touches (fun x => in_block hd x \/ in_block st x) (m_retag [] p [(k, hd); (k, st)])).
  { intros k p. apply touches_retag. intros kd b x [[= <- <-]|[[= <- <-]|[]]]; auto. }
  repeat first [apply R|apply touches_set; auto; fail|apply touches_bind; [|intros ?]|apply touches_ret].
Qed.

(** ** Small facts *)
Lemma holds_over own cs objs fr s t bs : holds own cs objs fr s -> over cs t bs -> (t < nexttag s)%nat -> holds own ((t, bs) :: cs) objs fr s.
Proof.
  intros [h1 h2 h3 h4] O L. split; [exact h1|exact h2| |].
  - intros t0 bs0 [[= <- <-]|I]; [exact L|eauto].
  - intros x. destruct (h4 x) as (d & E & G & U & F & R). exists d. split; [exact E|]. split; [exact G|]. split; [|auto].
    intros t0 (bs0 & b & [[= <- <-]|I] & B & X); [apply U; apply (O b x B X)|]. apply U. exists bs0, b. auto.
Qed.
Lemma holds_up cs s tp (fr : Z -> Prop) : holds true cs [] fr s -> (forall x, in_block tp x -> exists d, stk s x = whole true d /\ good true (nexttag s) d /\ up d = [] /\ (forall t, can cs x t -> usable d t)) ->
  holds true cs [] (fun x => fr x \/ in_block tp x) s.
Proof.
  intros [h1 h2 h3 h4] T. split; [exact h1|exact h2|exact h3|]. intros x. destruct (inb tp x) eqn:X.
  - apply inb_iff in X. destruct (T x X) as (d & E & G & U & C). exists d. split; [exact E|]. split; [exact G|]. split; [exact C|]. split; [auto|intros ? []].
  - destruct (h4 x) as (d & E & G & U & F & R). exists d. split; [exact E|]. split; [exact G|]. split; [exact U|]. split; [|exact R]. intros [K|K]; [auto|]. apply inb_iff in K. congruence.
Qed.
Lemma sobj_ext n hs base (V : Z -> Prop) T ist ist' F : (forall x, V x -> ist x = ist' x) -> sobj n hs base V T ist F -> sobj n hs base V T ist' F.
Proof. intros E S x X. destruct (S x X) as (d & r & S1 & S2 & S3). exists d, r. split; [exact S1|]. split; [|exact S3]. intros Vx. rewrite <- (E x Vx). auto. Qed.

(** A new LeakBox *)
Lemma sub_sobj n r F b p : (p < n)%nat -> sub_obj n r F (new_object b p SharedRW) -> sobj n (fun _ => [p]) p bare [] (fun _ => []) F.
Proof.
  intros L [S1 S2 S3 S4] x X. cbn [new_object iblk itags istk] in *. rewrite S1 in X. specialize (S3 x X). destruct (S4 x X) as (a1 & q & a2 & [E1 E2 E3 E4 E5 E6 E7 E8]).
  assert (Ea : a1 = [] /\ a2 = [bot p]).
  { destruct a1 as [|i a1]; [auto|]. exfalso. cbn [app] in E2. injection E2 as <- _. inversion E3 as [|? ? Q]. discriminate. }
  destruct Ea as [-> ->]. cbn [app] in E1. rewrite E1 in S3. apply Forall_app in S3. destruct S3 as [L1 L2]. inversion L2 as [|? ? L3 L4].
  exists (MkDec [] q []), (r x). split; [|split; [intros []|reflexivity]]. split.
  - rewrite whole_wb. unfold whole. cbn [up garb low bel app]. rewrite app_nil_r. exact E1.
  - apply wb_good; [|intros []|exact L]. split; cbn [up garb low app map]; auto; try constructor; try apply bottom_nil. rewrite app_nil_r. eapply Forall_impl; [|exact L1]. cbn. lia.
  - intros h [<-|[]]. split; [left; reflexivity|]. split; [intros []|]. cbn [wb garb]. intros K. apply in_map_iff in K. destruct K as (i & E & K). rewrite Forall_forall in E6. apply (E6 i K). left. auto.
  - exact E7.
  - exact L4.
Qed.

Section Ops.
Variables (hd st tp : block).
Hypothesis (d1 : disjoint hd st) (d2 : disjoint hd tp) (d3 : disjoint st tp).
Let pl := MkPlaces hd st tp.

Lemma three : ForallOrdPairs disjoint [hd; st; tp].
Proof. repeat constructor; assumption. Qed.
Lemma over_two cs n : over cs n [hd; st; tp] -> over cs n [hd; st].
Proof. apply over_sub. intros b [<-|[<-|[]]]; cbn; auto. Qed.
Lemma over_tp cs n : over cs n [hd; st; tp] -> over cs n [tp].
Proof. apply over_sub. intros b [<-|[]]; cbn; auto. Qed.

Lemma under3 {A} c own objs fr (f : nat -> M A) s cs self Q : holds own cs objs fr s -> over cs self [hd; st; tp] ->
  (forall self s' cs', (nexttag s <= nexttag s')%nat -> holds own cs' objs fr s' -> incl cs cs' -> over cs' self [hd; st; tp] -> (nexttag s <= self < nexttag s')%nat -> runs own objs fr (f self) s' cs' Q) ->
  runs own objs fr (x <- stack_ref c pl RCell self ;; f x) s cs Q.
Proof.
  intros H O K. eapply runs_bind.
  - unfold stack_ref. cbn [p_hd p_st p_tp pl]. apply (runs_new c own objs fr s cs self [hd; st; tp] H three O).
  - cbn beta. intros a s' cs' L I H' [O' L']. apply K; auto.
Qed.

(** ** slot *)
Lemma e_slot_runs busy t objs (fr : Z -> Prop) cs s u l unp self :
  (forall x, in_block hd x -> fr x) -> (forall x, in_block tp x -> fr x) -> pairwise disjoint (map iblk objs) -> (forall o x, In o objs -> in_block (iblk o) x -> ~ fr x) -> udata u = st ->
  holds true cs objs fr s -> over cs self [hd; st; tp] ->
  (forall a, snd (ustep t u (UBumpBox (pin_layout t l))) = RBlock a -> let b := MkBlock (ptr a) (lsize (pin_layout t l)) in
     inside b st /\ (forall x, in_block b x -> fr x) /\ Forall (fun o => disjoint b (iblk o)) objs) ->
  exists so s', e_slot busy t pl u l unp self s = Some ((ustep t u (UBumpBox (pin_layout t l)), so), s') /\ (nexttag s <= nexttag s')%nat /\
    match snd (ustep t u (UBumpBox (pin_layout t l))) with
    | RBlock a => exists p top F, so = Some (place_slot t l unp (ptr a) p top) /\ (nexttag s <= p < nexttag s')%nat /\ (nexttag s <= top)%nat /\
        let b := MkBlock (ptr a) (lsize (pin_layout t l)) in
        iblk F = b /\ (forall t, In t (itags F) -> (nexttag s <= t < top)%nat) /\ In p (itags F) /\ sobj (nexttag s') (fun _ => [p]) p bare [] (fun _ => []) F /\
        holds true ((top, [tp]) :: cs) (objs ++ [F]) (fun x => fr x /\ ~ in_block b x) s'
    | _ => so = None /\ holds true cs objs fr s'
    end.
Proof.
  intros Fh Ft Pa Us Eu H O B. set (L := pin_layout t l) in *.
  assert (R : runs true objs fr (self <- stack_ref busy pl RCell self ;; this <- stack_ref busy pl RCell self ;; m <- self_ref busy hd (udata u) this ;; m <- bump_deref_ref busy hd u m ;;
    x <- mb_bump_box busy t hd u L m ;; mret (this, x)) s cs
    (fun y cs' n' => over cs' (fst y) [hd; st; tp] /\ usame st (u_try_alloc_at t u L (u_level u)) ok_result s (snd y) cs' n')).
  { apply under3; [exact H|exact O|]. intros self1 s1 cs1 L1 H1 I1 O1 N1. apply under3; [exact H1|exact O1|]. intros this s2 cs2 L2 H2 I2 O2 N2. rewrite Eu.
    eapply runs_bind; [apply (run_self busy hd st true objs fr d1 s2 cs2 this H2 (over_two _ _ O2))|]. cbn beta. intros m s3 cs3 L3 I3 H3 [O3 _].
    unfold bump_deref_ref. rewrite Eu. eapply runs_bind with (Q := fun n cs' _ => over cs' n [hd; st]).
    { apply (under busy hd st true objs fr d1); [exact H3|exact O3|]. intros self4 s4 cs4 L4 H4 O4 N4. eapply runs_weaken; [apply (run_self busy hd st true objs fr d1 s4 cs4 self4 H4 O4)|intros ? ? ? [? _]; assumption]. }
    cbn beta. intros m4 s4 cs4 L4 I4 H4 O4.
    eapply runs_bind with (Q := usame st (u_try_alloc_at t u L (u_level u)) ok_result s).
    { unfold mb_bump_box. rewrite Eu. apply (under busy hd st true objs fr d1); [exact H4|exact O4|]. intros self5 s5 cs5 L5 H5 O5 N5.
      eapply runs_bind; [apply (run_mb_level busy hd st true objs fr d1 Fh u s5 cs5 self5 Eu H5 O5)|]. cbn beta. intros lv s6 cs6 L6 I6 H6 ->.
      eapply runs_weaken; [apply (run_mb_alloc_at busy t hd st true objs fr d1 Fh Pa Us u L (u_level u) s6 cs6 self5 Eu H6 (over_more _ _ _ _ I6 O5))|]. intros y c0 n Y. exact (usame_later st _ _ s s6 _ _ _ ltac:(lia) Y). }
    cbn beta. intros x s5 cs5 L5 I5 H5 Y. apply runs_ret; [exact H5|]. cbn [fst snd]. split; [|exact Y]. eapply over_more; [|exact O2]. eapply incl_tran; [exact I3|]. eapply incl_tran; [exact I4|exact I5]. }
  destruct R as ([this [[u' r] base]] & s2 & cs2 & E2 & L2 & I2 & H2 & O2 & Y1 & Y2). cbn [fst snd] in *.
  assert (Es : forall (k : nat -> ubump * outcome result * nat -> M (ubump * response * option slotref)),
    (self <- stack_ref busy pl RCell self ;; this <- stack_ref busy pl RCell self ;; m <- self_ref busy hd (udata u) this ;; m <- bump_deref_ref busy hd u m ;;
     x <- mb_bump_box busy t hd u L m ;; k this x) s = k this (u', r, base) s2).
  { intros k. unfold mbind in *. destruct (stack_ref busy pl RCell self s) as [[a1 s01]|]; [|discriminate]. destruct (stack_ref busy pl RCell a1 s01) as [[a2 s02]|]; [|discriminate].
    destruct (self_ref busy hd (udata u) a2 s02) as [[a3 s03]|]; [|discriminate]. destruct (bump_deref_ref busy hd u a3 s03) as [[a4 s04]|]; [|discriminate].
    destruct (mb_bump_box busy t hd u L a4 s04) as [[a5 s05]|]; [|discriminate]. unfold mret in E2. injection E2 as -> -> ->. reflexivity. }
  unfold e_slot. fold L. cbn [p_hd p_st p_tp pl]. rewrite Es. cbn [ustep] in *. unfold u_bump_box in *. destruct (u_try_alloc_at t u L (u_level u)) as [u1 r1]. cbn [fst snd] in *. injection Y1 as -> ->.
  pose proof (h_next _ _ _ _ _ H) as N1.
  destruct (of_result r1) as [a| |f|lv| |m] eqn:Er;
    try (exists None, s2; split; [reflexivity|]; split; [exact L2|]; split; [reflexivity|]; eapply holds_less; [exact I2|exact H2]).
  destruct (B a eq_refl) as (B1 & B2 & B3). destruct Y2 as [Y3 Y4]; [destruct r1 as [[?|[|?]]|]; [reflexivity|discriminate Er..]|].
  destruct (use_runs busy true cs2 objs fr s2 (XBox unp) (MkBlock (ptr a) (lsize L)) base Pa Us H2) as (p & s4 & F & rr & E4 & L4 & M4 & G1 & G2 & G3 & H4); auto; [|lia| |].
  { intros b x [<-|[]] X. apply (Y3 st); [left; reflexivity|]. apply B1. exact X. }
  { intros t0 bs K. exact (h_caps _ _ _ _ _ H2 t0 bs K). }
  cbn [xuse_block xuse_perm] in *.
  destruct (cell busy true cs2 (objs ++ [F]) _ this [tp] s4 H4) as (s5 & E5 & N5 & H5); [apply one_pair|apply (over_tp _ _ O2)|].
  exists (Some (place_slot t l unp (ptr a) p (nexttag s4))), s5. unfold mbind. rewrite E4. unfold one. cbn [map] in E5. rewrite E5. split; [reflexivity|]. split; [lia|]. exists p, (nexttag s4), F.
  split; [reflexivity|]. split; [lia|]. split; [lia|]. cbn zeta. split; [exact G1|]. split; [|split; [|split]].
  - intros t0 K. split; [specialize (G2 t0 K); lia|]. apply (h_tags _ _ _ _ _ H4 F t0); [apply in_or_app; right; left; reflexivity|exact K].
  - apply (so_tags _ _ _ _ G3). left. reflexivity.
  - eapply sobj_more; [|intros x _; apply incl_refl|eapply sub_sobj; [|exact G3]]; lia.
  - eapply holds_less; [|exact H5]. intros q [<-|K]; [left; reflexivity|right; auto].
Qed.

(** ** pin *)
Definition free_tags (cs : caps) (F : iobj) : Prop := forall t bs, In (t, bs) cs -> ~ In t (itags F).

Lemma e_pin_runs busy objs (fr : Z -> Prop) cs s k F sl :
  nth_error objs k = Some F -> pairwise disjoint (map iblk objs) -> (forall o x, In o objs -> in_block (iblk o) x -> ~ fr x) -> (forall x, in_block tp x -> fr x) ->
  holds true cs objs fr s -> free_tags cs F -> iblk F = sblk sl -> within (sval sl) (sblk sl) -> In (spointer sl) (itags F) -> over cs (sslotter sl) [tp] ->
  sobj (nexttag s) (fun _ => [spointer sl]) (spointer sl) bare [] (fun _ => []) F ->
  exists n s' F' o, e_pin busy pl sl s = Some (n, s') /\ (nexttag s <= n < nexttag s')%nat /\ iblk F' = iblk F /\ incl (n :: itags F) (itags F') /\
    make_ref (raw_object (sval sl) (spointer sl)) (spointer sl) (sunpin sl) None n o /\ iblk o = sval sl /\ itags o = [n] /\
    sobj (nexttag s') (fun _ => [spointer sl]) (spointer sl) (in_block (sval sl)) [n] (istk o) F' /\ holds true cs (set_nth objs k F') fr s' /\ free_tags cs F'.
Proof.
  intros Nk Pa Us Ft H Fr Bf W Ip Os S. set (p := spointer sl) in *.
  assert (A0 : atk true cs objs fr k F s F) by (split; [rewrite (set_nth_same _ _ _ Nk); exact H|split; [reflexivity|exact Fr]]).
  destruct (atk_other true cs objs fr k F Nk Pa Us (cell_get busy tp (sslotter sl)) s F (fun _ _ _ => True) A0) as ([] & s1 & cs1 & E1 & L1 & _ & A1).
  { intros objs' _ P' U' H'. apply (run_get busy true objs' fr); auto. }
  destruct (leak_write true cs objs fr k F Nk Pa Us busy s1 F (sunpin sl) p A1 Ip) as (s2 & F2 & E2 & L2 & I2 & A2 & S2).
  { eapply sobj_more; [|intros; apply incl_refl|exact S]. exact L1. }
  destruct (atk_other true cs objs fr k F Nk Pa Us (cell_set busy tp (sslotter sl)) s2 F2 (fun _ _ _ => True) A2) as ([] & s3 & cs3 & E3 & L3 & _ & A3).
  { intros objs' _ P' U' H'. apply (run_set busy true objs' fr); auto. }
  pose proof (atk_blk true cs objs fr k F _ _ A3) as B3.
  destruct (so_give true cs objs fr k F Nk Pa Us busy s3 F2 p (sval sl) None (sunpin sl) (fun _ => [p]) p [] (fun _ => [bot p]) A3) as (s4 & F4 & i4 & E4 & N4 & I4 & A4 & S4 & K4).
  - apply I2. exact Ip.
  - rewrite B3, Bf. exact W.
  - intros; left; reflexivity.
  - intros ? [].
  - intros x X. destruct (S2 x X) as (d & r & Q1 & _ & Q3). exists d, r. split; [eapply sbyte_more; [|apply incl_refl|exact Q1]; exact L3|]. specialize (Q3 (fun q => q)). split; [|auto]. intros _.
    split; [|left; exact Q3]. split; [|intros []|intros h _ []|apply Forall_forall; intros i _ []]. exists []. split; [|reflexivity]. split; [rewrite Q3; constructor|apply Forall_forall; intros i _ []|rewrite Q3, filter_none; reflexivity].
  - destruct (make_ref_ok (raw_object (sval sl) p) p (sunpin sl) None (nexttag s3) i4) as (o & O1 & O2 & O3 & O4); [exact K4|]. cbn [raw_object iblk itags] in *.
    exists (nexttag s3), s4, F4, o. split; [|split; [lia|split; [|split; [|split; [exact O1|split; [exact O2|split; [exact O3|split; [|split]]]]]]]].
    + unfold e_pin. fold p. cbn [p_tp pl]. unfold mbind. rewrite E1. rewrite <- Bf, E2. rewrite E3. exact E4.
    + apply (atk_blk true cs objs fr k F _ _ A4).
    + rewrite I4. intros t [<-|K]; [left; reflexivity|right; auto].
    + eapply sobj_ext; [|exact S4]. intros x X. symmetry. apply O4. exact X.
    + exact (proj1 A4).
    + exact (proj2 (proj2 A4)).
Qed.

(** ** pop_all *)
Lemma e_take_cell objs (fr : Z -> Prop) cs s :
  pairwise disjoint (map iblk objs) -> (forall o x, In o objs -> in_block (iblk o) x -> ~ fr x) -> (forall x, in_block tp x -> fr x) -> holds true cs objs fr s ->
  exists self s', e_take pl false s = Some (self, s') /\ (nexttag s <= self < nexttag s')%nat /\ holds true [(self, [hd; st; tp])] objs fr s'.
Proof.
  intros Pa Us Ft H. destruct (owner_cells [] objs fr cs s [hd; st; tp] H three) as (s1 & E1 & N1 & H1).
  assert (R : runs true objs fr (self <- stack_ref [] pl RCell (nexttag s) ;; _ <- cell_set [] tp self ;; mret self) s1 ((nexttag s, [hd; st; tp]) :: cs)
    (fun n cs' n' => over cs' n [hd; st; tp] /\ (nexttag s1 <= n < n')%nat)).
  { apply under3; [exact H1|intros b x B X; exists [hd; st; tp], b; cbn; auto|]. intros self s2 cs2 L2 H2 I2 O2 N2. eapply runs_bind; [apply (run_set [] true objs fr Pa Us s2 cs2 self tp H2 (over_tp _ _ O2) Ft)|].
    cbn beta. intros _ s3 cs3 L3 I3 H3 _. apply runs_ret; [exact H3|]. split; [eapply over_more; eauto|lia]. }
  destruct R as (self & s2 & cs2 & E2 & L2 & I2 & H2 & O2 & N2). exists self, s2. split; [|split; [lia|]].
  - unfold e_take. cbn [mut_kind p_tp pl]. unfold stack_ref at 1. cbn [p_hd p_st p_tp pl]. unfold mbind at 1. cbn [map] in E1. rewrite E1. exact E2.
  - eapply holds_less; [|apply (holds_over true cs2 objs fr s2 self [hd; st; tp] H2 O2); lia]. intros q [<-|[]]. left. reflexivity.
Qed.

Lemma e_start_runs objs (fr : Z -> Prop) cs s k F sl c o hs :
  nth_error objs k = Some F -> pairwise disjoint (map iblk objs) -> (forall o x, In o objs -> in_block (iblk o) x -> ~ fr x) ->
  holds true cs objs fr s -> free_tags cs F -> iblk F = sblk sl -> within (sval sl) (sblk sl) -> In (spointer sl) (itags F) -> In (spointer sl) hs -> iblk o = sval sl -> incl (itags o) (itags F) ->
  sobj (nexttag s) (fun _ => hs) (spointer sl) (in_block (iblk o)) (itags o) (istk o) F ->
  exists slot d s' F' o', e_start sl c s = Some ((slot, d), s') /\ (nexttag s <= d < nexttag s')%nat /\ iblk F' = iblk F /\ incl (d :: slot :: itags F) (itags F') /\
    make_ref o (spointer sl) (sunpin sl) (Some c) d o' /\ iblk o' = iblk o /\ itags o' = d :: itags o /\
    sobj (nexttag s') (fun _ => [slot; spointer sl]) (spointer sl) (in_block (iblk o')) (itags o') (istk o') F' /\ holds true cs (set_nth objs k F') fr s' /\ free_tags cs F'.
Proof.
  intros Nk Pa Us H Fr Bf W Ip Ih Bo It S. set (p := spointer sl) in *.
  assert (A0 : atk true cs objs fr k F s F) by (split; [rewrite (set_nth_same _ _ _ Nk); exact H|split; [reflexivity|exact Fr]]).
  assert (LT : forall t, In t (itags o) -> (t < nexttag s)%nat) by (intros t K; apply (atk_tags true cs objs fr k F Nk s F t A0); auto).
  destruct (so_cell true cs objs fr k F Nk Pa Us [] s F p (sblk sl) None (fun _ => hs) p (in_block (iblk o)) (itags o) (istk o) A0 Ip) as (s1 & F1 & E1 & N1 & I1 & A1 & S1);
    [rewrite Bf; apply within_refl|intros; exact Ih|exact LT|exact S|]. pose proof (atk_blk true cs objs fr k F _ _ A1) as B1.
  destruct (so_cell true cs objs fr k F Nk Pa Us [] s1 F1 (nexttag s) (sval sl) None (fun x => if inb (sblk sl) x then nexttag s :: hs else hs) p (in_block (iblk o)) (itags o) (istk o) A1) as (s2 & F2 & E2 & N2 & I2 & A2 & S2);
    [rewrite I1; left; reflexivity|rewrite B1, Bf; exact W|intros x X; rewrite (proj2 (inb_iff _ _) (within_in _ _ _ W X)); left; reflexivity|intros t K; specialize (LT t K); lia|exact S1|].
  pose proof (atk_blk true cs objs fr k F _ _ A2) as B2.
  destruct (so_cell true cs objs fr k F Nk Pa Us [] s2 F2 (nexttag s1) (sval sl) None (fun x => if inb (sval sl) x then nexttag s1 :: (if inb (sblk sl) x then nexttag s :: hs else hs) else if inb (sblk sl) x then nexttag s :: hs else hs)
    p (in_block (iblk o)) (itags o) (istk o) A2) as (s3 & F3 & E3 & N3 & I3 & A3 & S3);
    [rewrite I2; left; reflexivity|rewrite B2, Bf; exact W|intros x X; rewrite (proj2 (inb_iff _ _) X); left; reflexivity|intros t K; specialize (LT t K); lia|exact S2|].
  pose proof (atk_blk true cs objs fr k F _ _ A3) as B3.
  destruct (so_give true cs objs fr k F Nk Pa Us [] s3 F3 (nexttag s2) (sval sl) (Some c) (sunpin sl)
     (fun x => if inb (sval sl) x then nexttag s2 :: nexttag s :: hs else if inb (sblk sl) x then nexttag s :: hs else hs) p (itags o) (istk o) A3) as (s4 & F4 & i4 & E4 & N4 & I4 & A4 & S4 & K4).
  - rewrite I3. left. reflexivity.
  - rewrite B3, Bf. exact W.
  - intros x X. rewrite (proj2 (inb_iff _ _) X). left. reflexivity.
  - intros t K. specialize (LT t K). lia.
  - intros x X. destruct (S3 x X) as (d & r & Q1 & Q2 & Q3). exists d, r.
    assert (Inc : incl (if inb (sval sl) x then nexttag s2 :: nexttag s :: hs else if inb (sblk sl) x then nexttag s :: hs else hs)
      (if inb (sval sl) x then nexttag s2 :: (if inb (sval sl) x then nexttag s1 :: (if inb (sblk sl) x then nexttag s :: hs else hs) else if inb (sblk sl) x then nexttag s :: hs else hs)
       else if inb (sval sl) x then nexttag s1 :: (if inb (sblk sl) x then nexttag s :: hs else hs) else if inb (sblk sl) x then nexttag s :: hs else hs)).
    { rewrite B3, Bf in X. rewrite (proj2 (inb_iff _ _) X). destruct (inb (sval sl) x); intros h Q; cbn [In] in *; tauto. }
    split; [eapply sbyte_more; [apply le_n|exact Inc|exact Q1]|]. rewrite Bo in Q2, Q3. split; [|exact Q3]. intros Y. split; [eapply crel_less; [exact Inc|auto]|right; reflexivity].
  - destruct (make_ref_ok o p (sunpin sl) (Some c) (nexttag s3) i4) as (o' & O1 & O2 & O3 & O4); [rewrite Bo; exact K4|].
    exists (nexttag s), (nexttag s3), s4, F4, o'. split; [|split; [lia|split; [|split; [|split; [exact O1|split; [exact O2|split; [exact O3|split; [|split]]]]]]]].
    + unfold e_start, one, m_retag. fold p. unfold mbind. rewrite E1, E2, E3, E4. reflexivity.
    + apply (atk_blk true cs objs fr k F _ _ A4).
    + rewrite I4, I3, I2, I1. intros t [<-|[<-|K]]; cbn [In]; auto.
    + rewrite O2, O3, Bo. eapply sobj_ext; [|eapply sobj_more; [apply le_n| |exact S4]].
      * intros x X. symmetry. apply O4. rewrite Bo. exact X.
      * cbn beta. intros x Fx h Q. assert (D : In h (nexttag s :: hs)) by (destruct Q as [<-|[<-|[]]]; cbn [In]; auto).
        destruct (inb (sval sl) x); [right; exact D|]. destruct (inb (sblk sl) x) eqn:X; [exact D|]. 
        exfalso. rewrite (atk_blk true cs objs fr k F _ _ A4), Bf in Fx. apply inb_iff in Fx. congruence.
    + exact (proj1 A4).
    + exact (proj2 (proj2 A4)).
Qed.

(** ** The link to the next value *)
Lemma e_link_runs objs (fr : Z -> Prop) cs s k F sl slot o hs :
  nth_error objs k = Some F -> pairwise disjoint (map iblk objs) -> (forall o x, In o objs -> in_block (iblk o) x -> ~ fr x) ->
  holds true cs objs fr s -> free_tags cs F -> iblk F = sblk sl -> within (slink sl) (sblk sl) -> disjoint (slink sl) (sval sl) -> In slot (itags F) -> In slot hs -> iblk o = sval sl ->
  sobj (nexttag s) (fun _ => hs) (spointer sl) (in_block (iblk o)) (itags o) (istk o) F ->
  exists s' F', e_link sl slot s = Some (tt, s') /\ nexttag s' = nexttag s /\ iblk F' = iblk F /\ itags F' = itags F /\
    sobj (nexttag s') (fun _ => hs) (spointer sl) (in_block (iblk o)) (itags o) (istk o) F' /\ holds true cs (set_nth objs k F') fr s' /\ free_tags cs F'.
Proof.
  intros Nk Pa Us H Fr Bf W D Ip Ih Bo S.
  assert (A0 : atk true cs objs fr k F s F) by (split; [rewrite (set_nth_same _ _ _ Nk); exact H|split; [reflexivity|exact Fr]]).
  destruct (so_read true cs objs fr k F Nk Pa Us [] s F slot (slink sl) (fun _ => hs) (spointer sl) (in_block (iblk o)) (itags o) (istk o) A0 Ip) as (s1 & F1 & E1 & N1 & I1 & A1 & S1).
  - rewrite Bf. exact W.
  - intros x X. split; [exact Ih|]. rewrite Bo. intros Y. exact (D x (conj X Y)).
  - exact S.
  - exists s1, F1. split; [exact E1|]. split; [exact N1|]. split; [apply (atk_blk true cs objs fr k F _ _ A1)|]. split; [exact I1|]. split; [exact S1|]. split; [exact (proj1 A1)|exact (proj2 (proj2 A1))].
Qed.

(** ** The end of pop_all *)
Definition all_free (x : Z) : Prop := (in_block hd x \/ in_block st x) \/ in_block tp x.

Lemma tp_kept u unp self s s' r : udata u = st -> e_finish pl unp u self s = Some (r, s') ->
  (forall x, in_block tp x -> exists d, stk s x = whole true d /\ good true (nexttag s) d /\ up d = []) ->
  holds true [] [] (fun x => in_block hd x \/ in_block st x) s' -> holds true [] [] all_free s'.
Proof.
  intros Eu E T H. destruct (touches_finish hd st tp unp u self Eu s r s' E) as [K1 K2]. apply (holds_up [] s' tp); [exact H|]. intros x X. destruct (T x X) as (d & E1 & G & U).
  exists d. rewrite (K1 x). 2: { intros [Y|Y]; [exact (d2 x (conj Y X))|exact (d3 x (conj Y X))]. } split; [exact E1|]. split; [eapply good_more; [|exact G]; lia|]. split; [exact U|]. intros t (bs & b & [] & _).
Qed.

Lemma e_finish_cell objs (fr : Z -> Prop) cs s u self : (forall x, in_block tp x -> fr x) -> udata u = st -> holds true cs objs fr s -> over cs self [hd; st; tp] ->
  exists s', e_finish pl false u self s = Some (u_reset u, s') /\ (nexttag s <= nexttag s')%nat /\ holds true [] [] all_free s'.
Proof.
  intros Ft Eu H O. pose proof (h_next _ _ _ _ _ H) as N0.
  assert (D2 : ForallOrdPairs disjoint [hd; st]) by (repeat constructor; exact d1).
  destruct (cell [] true cs objs fr self [hd; st] s H D2) as (s1 & E1 & N1 & H1); [exact (over_two _ _ O)|].
  destruct (cell [] true _ objs fr (nexttag s) [hd; st] s1 H1 D2) as (s2 & E2 & N2 & H2); [intros b x B X; exists [hd; st], b; cbn in *; auto|].
  destruct (clean_low true hd st _ [] objs fr s2 (nexttag s1) d1 H2) as (s3 & E3 & N3 & P3); [intros b x B X; exists [hd; st], b; cbn in *; auto|intros ? []|].
  destruct (mb_reset_runs true hd st [] u s3 [] [] (nexttag s2) d1) as (s4 & E4 & N4 & H4); [intros t bs []|exact Eu|exact P3|repeat constructor|repeat constructor|repeat apply bottom_u; apply bottom_nil|repeat apply bottom_u; apply bottom_nil|lia|repeat constructor; cbn; lia|repeat constructor; cbn; lia|].
  assert (E : e_finish pl false u self s = Some (u_reset u, s4)).
  { unfold e_finish, bump_deref_mut. cbn [p_hd pl mut_kind]. rewrite Eu. cbn [map] in E1, E2. unfold mbind. rewrite E1, E2, E3. exact E4. }
  exists s4. split; [exact E|]. split; [lia|]. apply (tp_kept u false self s s4 _ Eu E); [|exact H4].
  intros x X. destruct (h_byte _ _ _ _ _ H x) as (d & Q1 & Q2 & _ & Q4 & _). exists d. auto.
Qed.

(** *** If Mem is Unpin, the reference is unique *)
Definition U (n : nat) : item := MkItem n Unique None.
Definition in3 (x : Z) : Prop := in_block hd x \/ in_block st x \/ in_block tp x.

Lemma in3_parts (k kd : rkind) (b : block) x : In (kd, b) [(k, hd); (k, st); (k, tp)] -> in_block b x -> kd = k /\ in3 x.
Proof. unfold in3. intros [[= <- <-]|[[= <- <-]|[[= <- <-]|[]]]]; auto. Qed.

Lemma unique3 p s (T T' : Z -> stack) : (forall x, in3 x -> sb_retag [] RUnique p (nexttag s) None (stk s x) = Some (T' x)) -> (forall x, ~ in3 x -> stk s x = T x) ->
  exists s', stack_ref [] pl RUnique p s = Some (nexttag s, s') /\ nexttag s' = S (nexttag s) /\ (forall x, in3 x -> stk s' x = T' x) /\ (forall x, ~ in3 x -> stk s' x = T x).
Proof.
  intros H N. unfold stack_ref, m_retag, m_retag_prot. cbn [p_hd p_st p_tp pl].
  destruct (retag_parts_disj [] p (nexttag s) None [(RUnique, hd); (RUnique, st); (RUnique, tp)] (stk s)) as (k & K1 & K2 & K3).
  - repeat constructor; cbn [snd]; assumption.
  - intros kd b x I X. destruct (in3_parts _ _ _ _ I X) as [-> Y]. rewrite (H x Y). discriminate.
  - rewrite K1. eexists. split; [reflexivity|]. split; [reflexivity|]. cbn [stk]. split.
    + intros x Y. assert (E : exists b, In (RUnique, b) [(RUnique, hd); (RUnique, st); (RUnique, tp)] /\ in_block b x) by (destruct Y as [Y|[Y|Y]]; [exists hd|exists st|exists tp]; cbn; auto).
      destruct E as (b & I & X). specialize (K2 _ _ _ I X). rewrite (H x Y) in K2. congruence.
    + intros x Y. rewrite K3; [auto|]. intros kd b I X. apply Y. apply (in3_parts _ _ _ _ I X).
Qed.

Lemma e_take_unique objs (fr : Z -> Prop) cs s : holds true cs objs fr s ->
  exists self s', e_take pl true s = Some (self, s') /\ (nexttag s <= self < nexttag s')%nat /\ pile hd st true [] s' [U self; U (nexttag s)] [U self; U (nexttag s)] /\
    (forall x, in_block tp x -> exists d, stk s' x = whole true d /\ good true (nexttag s') d /\ up d = []) /\ (forall x, in_block st x -> stk s' x = [U self; U (nexttag s); U 0]).
Proof.
  intros H. pose proof (h_next _ _ _ _ _ H) as N0.
  destruct (unique3 0 s (stk s) (fun _ => [U (nexttag s); U 0])) as (s1 & E1 & N1 & A1 & B1); [|reflexivity|].
  { intros x _. destruct (h_byte _ _ _ _ _ H x) as (d & -> & G & _). exact (owner_unique _ d _ G). }
  destruct (unique3 (nexttag s) s1 (stk s) (fun _ => [U (nexttag s1); U (nexttag s); U 0])) as (s2 & E2 & N2 & A2 & B2); [|exact B1|].
  { intros x X. rewrite (A1 x X). apply u_unique. }
  set (n := nexttag s) in *. set (m := nexttag s1) in *.
  assert (D3 : forall x, in_block tp x -> ~ in_block hd x /\ ~ in_block st x) by (intros x X; split; intros Y; [exact (d2 x (conj Y X))|exact (d3 x (conj Y X))]).
  assert (P2 : pile tp st true [] s2 [U m; U n] [U m; U n]).
  { split; [lia|]. split; [intros ? ? []|]. intros x. unfold where_. destruct (inb tp x) eqn:X; [|destruct (inb st x) eqn:Y].
    - apply inb_iff in X. exists (MkDec [] [] []). split; [split; cbn [up garb low map app]; try constructor; apply bottom_nil|]. split; [rewrite A2; [reflexivity|right; right; exact X]|]. split; [auto|]. intros t (bs & b & [] & _).
    - apply inb_iff in Y. exists (MkDec [] [] []). split; [split; cbn [up garb low map app]; try constructor; apply bottom_nil|]. split; [rewrite A2; [reflexivity|right; left; exact Y]|]. split; [auto|]. intros t (bs & b & [] & _).
    - assert (Nn : ~ (in_block tp x \/ in_block st x)) by (intros [Q|Q]; apply inb_iff in Q; congruence).
      destruct (inb hd x) eqn:Z0.
      + apply inb_iff in Z0. exists (MkDec [U m; U n] [] []). split; [|split; [rewrite A2; [reflexivity|left; exact Z0]|split; [tauto|intros t (bs & b & [] & _)]]].
        split; cbn [up garb low map app lo]; try apply bottom_nil; repeat constructor; cbn [itag U]; try lia. repeat apply bottom_u. apply bottom_nil.
      + destruct (h_byte _ _ _ _ _ H x) as (d & E & G & _). exists d. split; [eapply good_more; [|exact G]; fold n; lia|]. split; [rewrite B2; [exact E|]|split; [tauto|intros t (bs & b & [] & _)]].
        intros [Q|Q]; [apply inb_iff in Q; congruence|tauto]. }
  destruct (pile_set tp st true [] s2 [U n] [U m; U n] m P2) as (s3 & gh & E3 & L3 & P3 & F3 & F4).
  assert (T3 : forall x, ~ in_block tp x -> stk s3 x = stk s2 x) by (intros x X; apply (touches_set (in_block tp) [] tp m (fun x X => X) s2 tt s3 E3); exact X).
  exists m, s3. split; [unfold e_take; cbn [mut_kind]; unfold mbind; fold pl; rewrite E1; rewrite E2; cbn [p_tp pl]; rewrite E3; reflexivity|]. split; [lia|].
  assert (Tp : forall x, in_block tp x -> exists d, stk s3 x = whole true d /\ good true (nexttag s3) d /\ up d = []).
  { intros x X. destruct P3 as (_ & _ & P3). destruct (P3 x) as (d & G & E & Q & _). destruct (Q (or_introl X)) as [Q1 Q2]. rewrite (where_hd tp st _ _ x X) in E.
    exists (MkDec [] (gh ++ [U m; U n]) (low d)). split; [rewrite E; unfold whole; cbn [up garb low app]; rewrite Q1, Q2; reflexivity|]. split; [|reflexivity].
    pose proof (lt_parts _ _ _ G) as (_ & _ & L). destruct G. split; cbn [up garb low app map]; auto.
    - apply Forall_app. split; [exact F3|repeat constructor].
    - apply bottom_app; [discriminate|]. repeat apply bottom_u. apply bottom_nil.
    - apply bottom_nil.
    - rewrite <- app_assoc. apply Forall_app. split; [eapply Forall_impl; [|exact F4]; cbn; lia|]. cbn [app]. constructor; [cbn; lia|]. constructor; [cbn; lia|]. exact L. }
  split; [|split; [exact Tp|]].
  - split; [lia|]. split; [intros ? ? []|]. intros x. unfold where_. destruct (inb hd x) eqn:X; [|destruct (inb st x) eqn:Y].
    + apply inb_iff in X. exists (MkDec [] [] []). split; [split; cbn [up garb low map app]; try constructor; apply bottom_nil|]. rewrite T3 by (intros Q; apply (D3 x) in Q; tauto).
      split; [rewrite A2; [reflexivity|left; exact X]|]. split; [auto|]. intros t (bs & b & [] & _).
    + apply inb_iff in Y. exists (MkDec [] [] []). split; [split; cbn [up garb low map app]; try constructor; apply bottom_nil|]. rewrite T3 by (intros Q; apply (D3 x) in Q; tauto).
      split; [rewrite A2; [reflexivity|right; left; exact Y]|]. split; [auto|]. intros t (bs & b & [] & _).
    + assert (Nn : ~ (in_block hd x \/ in_block st x)) by (intros [Q|Q]; apply inb_iff in Q; congruence). destruct (inb tp x) eqn:Z0.
      * apply inb_iff in Z0. destruct (Tp x Z0) as (d & Q1 & Q2 & _). exists d. split; [exact Q2|]. split; [exact Q1|]. split; [tauto|intros t (bs & b & [] & _)].
      * assert (Z1 : ~ in_block tp x) by (intros Q; apply inb_iff in Q; congruence). destruct (h_byte _ _ _ _ _ H x) as (d & E & G & _). exists d. split; [eapply good_more; [|exact G]; fold n; lia|].
        rewrite (T3 x Z1). split; [rewrite B2; [exact E|]|split; [tauto|intros t (bs & b & [] & _)]]. unfold in3. tauto.
  - intros x X. rewrite T3 by (intros Q; apply (D3 x) in Q; tauto). apply A2. right. left. exact X.
Qed.

Lemma e_finish_unique u s self n : udata u = st -> (1 <= n)%nat -> (n <= self < nexttag s)%nat -> pile hd st true [] s [U self; U n] [U self; U n] ->
  (forall x, in_block tp x -> exists d, stk s x = whole true d /\ good true (nexttag s) d /\ up d = []) ->
  exists s', e_finish pl true u self s = Some (u_reset u, s') /\ (nexttag s <= nexttag s')%nat /\ holds true [] [] all_free s'.
Proof.
  intros Eu N0 L P Tp.
  destruct (pile_retag hd st true [] d1 s _ _ RUnique self [U (nexttag s); U self; U n] [U (nexttag s); U self; U n] P) as (s1 & E1 & N1 & P1); [intros T; apply u_unique|intros T; apply u_unique|].
  destruct (pile_retag hd st true [] d1 s1 _ _ RUnique (nexttag s) [U (nexttag s1); U (nexttag s); U self; U n] [U (nexttag s1); U (nexttag s); U self; U n] P1) as (s2 & E2 & N2 & P2); [intros T; apply u_unique|intros T; apply u_unique|].
  destruct (pile_retag hd st true [] d1 s2 _ _ RUnique (nexttag s1) [U (nexttag s2); U (nexttag s1); U (nexttag s); U self; U n] [U (nexttag s2); U (nexttag s1); U (nexttag s); U self; U n] P2) as (s3 & E3 & N3 & P3); [intros T; apply u_unique|intros T; apply u_unique|].
  destruct (mb_reset_runs true hd st [] u s3 [U (nexttag s1); U (nexttag s); U self; U n] [U (nexttag s1); U (nexttag s); U self; U n] (nexttag s2) d1) as (s4 & E4 & N4 & H4); [intros t bs []|exact Eu|exact P3|repeat constructor|repeat constructor|repeat apply bottom_u; apply bottom_nil|repeat apply bottom_u; apply bottom_nil|lia|repeat constructor; cbn; lia|repeat constructor; cbn; lia|].
  assert (E : e_finish pl true u self s = Some (u_reset u, s4)).
  { unfold e_finish, bump_deref_mut. cbn [p_hd pl mut_kind]. rewrite Eu. unfold mbind. rewrite E1, E2, E3. exact E4. }
  exists s4. split; [exact E|]. split; [lia|]. apply (tp_kept u true self s s4 _ Eu E); [exact Tp|exact H4].
Qed.

(** the pointers that are kept for the values are of no use then *)
Lemma e_start_ub sl c s self n : inside (sblk sl) st -> 0 < size (sblk sl) -> (1 <= spointer sl < n)%nat -> (n <= self)%nat -> (forall x, in_block st x -> stk s x = [U self; U n; U 0]) -> e_start sl c s = None.
Proof.
  intros I P L1 L2 H. unfold e_start, mbind, one, m_retag, m_retag_prot. cbn [retag_parts]. destruct (on_block (sblk sl) _ (stk s)) as [k|] eqn:E; [|reflexivity]. exfalso.
  assert (X : in_block (sblk sl) (start (sblk sl))) by (unfold in_block; lia). pose proof (proj1 (on_block_spec _ _ _ _ E _) X) as Q. rewrite (H _ (I _ X)) in Q. cbn [sb_retag granting] in Q.
  assert (Z0 : forall j, j <> spointer sl -> Nat.eqb (itag (U j)) (spointer sl) = false) by (intros j J; apply Nat.eqb_neq; exact J).
  rewrite !Z0 in Q by lia. discriminate.
Qed.
End Ops.
