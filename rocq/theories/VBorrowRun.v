(** * VBorrowRun: every call of a polite program is defined. *)
From Verif Require Import Base Spec BaseFacts SyncModel SyncProofs UninitModel UninitSpec UninitProofs FixedVecModel FixedVecSpec FixedVecProofs BorrowModel BorrowProofs BorrowWorld UBorrowModel EBorrowSlot RBorrowModel RBorrowSpec RBorrowBytes RBorrowOps RBorrowCalls RBorrowPolite VBorrowModel VBorrowSpec VBorrowTree VBorrowStep VBorrowLocal VBorrowInit VBorrowByte VBorrowPolite.

Definition set_mode (ms : nat -> qmode) (v : nat) (q : qmode) : nat -> qmode := fun v' => if Nat.eqb v' v then q else ms v'.
Lemma set_mode_here ms v q : set_mode ms v q v = q.
Proof. unfold set_mode. rewrite Nat.eqb_refl. reflexivity. Qed.
Lemma set_mode_there ms v q i : i <> v -> set_mode ms v q i = ms i.
Proof. unfold set_mode. intros N. destruct (Nat.eqb_spec i v); [contradiction|reflexivity]. Qed.

(** ** Methods *)
Section Methods.
Variables (B : list nat) (b : block) (base : nat).
Definition ready (s : bstate) : Prop := all_bok b base s /\ forall y, in_block b y -> quiet B (stk s y).
Lemma ready_steps s s' : ready s -> steps b base None s s' -> ready s'.
Proof. intros [K Q] ST. split; [apply ST|]. intros y Y. exact (steps_quiet _ _ _ _ _ _ ST Y (Q y Y)). Qed.
Lemma ready_excl s y : ready s -> in_block b y -> excl B base (stk s y).
Proof. intros [K Q] Y. exact (excl_base _ _ _ _ (proj2 K y Y) (Q y Y)). Qed.
Lemma go_read s c : ready s -> inside c b -> exists s', m_read B base c s = Some (tt, s') /\ steps b base None s s'.
Proof.
  intros R IN. destruct (run_read B base c b base s IN (proj1 R)) as (s' & E & ST & _); [|eauto].
  intros y Y. destruct (excl_read _ _ _ (ready_excl s y R (IN y Y))) as (st' & X & _). eauto.
Qed.
Lemma go_write s c : ready s -> inside c b -> exists s', m_write B base c s = Some (tt, s') /\ steps b base None s s'.
Proof.
  intros R IN. destruct (run_write B base c b base s IN (proj1 R)) as (s' & E & ST & _); [|eauto].
  intros y Y. destruct (excl_write _ _ _ (ready_excl s y R (IN y Y))) as (st' & X & _). eauto.
Qed.
Lemma go_mut s u c p B' : ready s -> inside c b -> (forall y i c0, in_block b y -> In i (stk s y) -> iprot i = Some c0 -> In c0 B' -> In c0 B) ->
  exists s', m_retag_prot B base [(mut_kind u, c)] p s = Some (nexttag s, s') /\ steps b base p s s' /\ forall y, in_block c y -> excl B' (nexttag s) (stk s' y).
Proof.
  intros R IN H. destruct (run_mut B B' base u c p b base s IN (proj1 R)) as (s' & E & ST & X & _); [|intros y i c0 Y; exact (H y i c0 (IN y Y))|eauto].
  intros y Y. exact (ready_excl s y R (IN y Y)).
Qed.
Lemma go_init s ty a : ready s -> inside (v_elem ty a 0) b ->
  exists n s', vb_init B ty base a s = Some (n, s') /\ steps b base None s s' /\ forall y, in_block (v_elem ty a 0) y -> excl B n (stk s' y).
Proof.
  intros R IN. destruct (go_write s _ R IN) as (s1 & E1 & ST1). pose proof (ready_steps _ _ R ST1) as R1.
  destruct (go_mut s1 (q_unpin ty) _ None B R1 IN) as (s2 & E2 & ST2 & X); [auto|]. exists (nexttag s1), s2. unfold vb_init, mbind. rewrite E1. split; [exact E2|].
  split; [eapply steps_trans; eassumption|exact X].
Qed.
Lemma go_wr s ty a : ready s -> inside (v_elem ty a 0) b -> exists s', vb_write B ty base a s = Some (tt, s') /\ steps b base None s s'.
Proof.
  intros R IN. destruct (go_mut s (q_unpin ty) _ None B R IN) as (s1 & E1 & ST1 & X1); [auto|]. pose proof (ready_steps _ _ R ST1) as R1.
  destruct (run_mut B B (nexttag s) false (v_elem ty a 0) None b base s1 IN (proj1 R1) X1) as (s2 & E2 & ST2 & X2 & _); [auto|]. pose proof (ready_steps _ _ R1 ST2) as R2.
  destruct (run_write B (nexttag s1) (v_elem ty a 0) b base s2 IN (proj1 R2)) as (s3 & E3 & ST3 & _).
  { intros y Y. destruct (excl_write _ _ _ (X2 y Y)) as (st' & X & _). eauto. }
  exists s3. unfold vb_write, mbind, one, m_retag, v_mut. rewrite E1. change RCell with (mut_kind false). rewrite E2. split; [exact E3|].
  eapply steps_trans; [exact ST1|]. eapply steps_trans; eassumption.
Qed.
Lemma go_restore s ty d : ready s -> inside (v_elems ty (delements d + dtail d * lsize (q_lay ty)) (dtail_len d)) b -> inside (v_elems ty (delements d) (dtail_len d)) b ->
  exists s', vb_restore B ty base d s = Some (tt, s') /\ steps b base None s s'.
Proof.
  intros R I1 I2. unfold vb_restore. destruct (_ =? 0); [exists s; split; [reflexivity|apply steps_refl, R]|].
  destruct (go_read s _ R I1) as (s1 & E1 & ST1). pose proof (ready_steps _ _ R ST1) as R1. destruct (go_write s1 _ R1 I2) as (s2 & E2 & ST2).
  exists s2. unfold mbind. rewrite E1. split; [exact E2|]. eapply steps_trans; eassumption.
Qed.
End Methods.

Section Run.
Variables (t : target).
Hypothesis V : valid_target t.

(** ** The regions *)
Lemma change_put v k vs k' : vinv t vs -> usable_at vs v = Some k -> change t v k vs (set_nth vs v k') -> gone k' = false -> view_ok t k' /\ inside (w_blk k') (w_blk k).
Proof.
  intros I U CH G. pose proof (proj1 (usable_spec _ _ _) U) as (E & GK & _). pose proof (set_nth_nth vs v k' k E) as X.
  destruct CH as [S0|k2 S0 P B OK|k1 k2 S0 P B1 B2 G1 G2 O1 O2 I1 I2 D].
  - rewrite S0, E in X. injection X as <-. split; [exact (t_ok _ _ I _ _ E GK)|apply inside_self].
  - rewrite S0, (set_nth_nth vs v k2 k E) in X. injection X as ->. exact (OK G).
  - exfalso. apply (f_equal (@length vview)) in S0. rewrite app_length, !set_nth_length in S0. cbn [length] in S0. lia.
Qed.
Lemma change_cut v k vs k1 k2 : vinv t vs -> usable_at vs v = Some k -> change t v k vs (set_nth vs v k1 ++ [k2]) ->
  view_ok t k1 /\ view_ok t k2 /\ inside (w_blk k1) (w_blk k) /\ inside (w_blk k2) (w_blk k) /\ (w_parent k2 = w_parent k \/ w_parent k2 = Some v) /\
  (w_parent k2 = Some v -> inside (w_blk k2) (w_blk k1)).
Proof.
  intros I U CH. pose proof (proj1 (usable_spec _ _ _) U) as (E & GK & C). destruct CH as [S0|k' S0 P B OK|k1' k2' S0 P B1 B2 G1 G2 O1 O2 I1 I2 D].
  - exfalso. apply (f_equal (@length vview)) in S0. rewrite app_length, !set_nth_length in S0. cbn [length] in S0. lia.
  - exfalso. apply (f_equal (@length vview)) in S0. rewrite app_length, !set_nth_length in S0. cbn [length] in S0. lia.
  - apply app_inj_tail in S0. destruct S0 as [S0 <-]. pose proof (set_nth_nth vs v k1 k E) as X. rewrite S0, (set_nth_nth vs v k1' k E) in X. injection X as ->.
    split; [exact O1|]. split; [exact O2|]. split; [exact I1|]. split; [exact I2|]. destruct D as [[D _]|(D & IN & _)]; (split; [auto|]); [|auto].
    rewrite D. intros Y. pose proof (C v k E) as Z0. rewrite (proj2 (borrows_iff v k)) in Z0; [discriminate|auto].
Qed.

Section One.
Variables (w : vworld) (ms : nat -> qmode) (v : nat) (k : vview).
Hypothesis IV : vinv t (vviews w).
Hypothesis P : pinv w ms.
Hypothesis U : usable_at (vviews w) v = Some k.

Lemma one_ready : running k = None -> ready (vbusy w) (w_blk k) (w_base k) (vsb w).
Proof.
  intros R. pose proof (proj1 (usable_spec _ _ _) U) as (E & G & _). split; [exact (p_bok _ _ P _ _ E G)|]. intros y Y. exact (quiet_at t w ms v k y IV P U R Y).
Qed.
Lemma one_busy y i c : In i (stk (vsb w) y) -> iprot i = Some c -> In c (vcalls w :: vbusy w) -> In c (vbusy w).
Proof. intros I E [<- | X]; [|exact X]. pose proof (proj1 (p_items _ _ P _ _ _ I E)). lia. Qed.

Lemma one_put k' s' q : change t v k (vviews w) (set_nth (vviews w) v k') -> w_base k' = w_base k -> w_parent k' = w_parent k -> running k = None -> running k' = None ->
  steps (w_blk k) (w_base k) None (vsb w) s' -> (gone k' = false -> mode_at (vbusy w) k' q (stk s') /\ rest_at (vbusy w) k' (stk s')) ->
  pinv (MkVWorld s' (set_nth (vviews w) v k') (vbusy w) (vcalls w)) (set_mode ms v q).
Proof.
  intros CH B0 P0 R1 R2 ST M. apply (p_put t V w ms v k k' s' _ _ _ None); auto.
  - intros G. exact (change_put v k _ k' IV U CH G).
  - apply P.
  - apply P.
  - discriminate.
  - congruence.
  - congruence.
  - rewrite set_mode_here. exact M.
  - intros i. apply set_mode_there.
Qed.
Lemma one_same k' : change t v k (vviews w) (set_nth (vviews w) v k') -> w_base k' = w_base k -> w_parent k' = w_parent k -> running k = None -> running k' = None ->
  match w_st k' with SDropping _ _ _ _ _ => False | _ => True end -> pinv (MkVWorld (vsb w) (set_nth (vviews w) v k') (vbusy w) (vcalls w)) (set_mode ms v (MShared [])).
Proof.
  intros CH B0 P0 R1 R2 S0. apply one_put; auto; [apply steps_refl, one_ready, R1|]. intros _. split; [intros n []|]. unfold rest_at. destruct (w_st k'); auto. contradiction.
Qed.
Lemma one_start k' s' q : change t v k (vviews w) (set_nth (vviews w) v k') -> w_base k' = w_base k -> w_parent k' = w_parent k -> w_u k' = w_u k -> running k = None -> running k' = Some (vcalls w) ->
  steps (w_blk k) (w_base k) (Some (vcalls w)) (vsb w) s' -> mode_at (vcalls w :: vbusy w) k' q (stk s') -> rest_at (vcalls w :: vbusy w) k' (stk s') ->
  pinv (MkVWorld s' (set_nth (vviews w) v k') (vcalls w :: vbusy w) (S (vcalls w))) (set_mode ms v q).
Proof.
  intros CH B0 P0 U0 R1 R2 ST M RS. apply (p_put t V w ms v k k' s' _ _ _ (Some (vcalls w))); auto.
  - intros G. exact (change_put v k _ k' IV U CH G).
  - constructor; [|apply P]. intros X. pose proof (p_lt _ _ P) as L. rewrite Forall_forall in L. specialize (L _ X). lia.
  - constructor; [lia|]. eapply Forall_impl; [|apply P]. cbn. intros; lia.
  - intros c [<- | X]; auto.
  - intros c [= <-]. split; [lia|exact R2].
  - congruence.
  - rewrite set_mode_here. auto.
  - intros i. apply set_mode_there.
Qed.
Lemma one_cut k1 k2 : change t v k (vviews w) (set_nth (vviews w) v k1 ++ [k2]) -> w_base k1 = w_base k -> w_base k2 = w_base k -> w_parent k1 = w_parent k -> running k = None -> running k1 = None -> running k2 = None ->
  gone k1 = false -> match w_st k1 with SDropping _ _ _ _ _ => False | _ => True end -> match w_st k2 with SDropping _ _ _ _ _ => False | _ => True end ->
  pinv (MkVWorld (vsb w) (set_nth (vviews w) v k1 ++ [k2]) (vbusy w) (vcalls w)) (set_mode ms v (MShared [])).
Proof.
  intros CH B1 B2 P1 R R1 R2 G1 S1 S2. destruct (change_cut v k _ k1 k2 IV U CH) as (O1 & O2 & I1 & I2 & PA & _). pose proof (proj1 (usable_spec _ _ _) U) as (E & G & C).
  assert (RF : forall k0, match w_st k0 with SDropping _ _ _ _ _ => False | _ => True end -> rest_at (vbusy w) k0 (stk (vsb w))) by (intros k0; unfold rest_at; destruct (w_st k0); tauto).
  assert (L : (v < length (vviews w))%nat) by (apply nth_error_Some; congruence).
  assert (PP : forall p, w_parent k2 = Some p -> set_mode ms v (MShared []) p = MShared []).
  { intros p X. destruct (Nat.eq_dec p v) as [-> | N]; [apply set_mode_here|]. rewrite set_mode_there by exact N. destruct PA as [PA|PA]; [|congruence]. rewrite PA in X. exact (p_lent _ _ P _ _ _ E G X). }
  assert (Q : pinv (MkVWorld (vsb w) (set_nth (vviews w) v k1) (vbusy w) (vcalls w)) (set_mode ms v (MShared []))).
  { apply (p_put t V w ms v k k1 (vsb w) _ _ _ None); auto; try (apply P); try congruence; [apply steps_refl; exact (p_bok _ _ P _ _ E G)| |].
    - intros _. rewrite set_mode_here. split; [intros n []|apply RF, S1].
    - intros i. apply set_mode_there. }
  (* append *)
  destruct Q as [Q1 Q2 Q3 Q4 Q5 Q6 Q7 Q8]. cbn [vbusy vcalls vviews vsb] in *. rewrite set_nth_length in Q8.
  assert (PN : forall j kj, nth_error (set_nth (vviews w) v k1 ++ [k2]) j = Some kj -> j = length (vviews w) /\ kj = k2 \/ nth_error (set_nth (vviews w) v k1) j = Some kj).
  { intros j kj X. destruct (Nat.lt_ge_cases j (length (set_nth (vviews w) v k1))) as [L1|L1].
    - rewrite nth_error_app1 in X by exact L1. right. exact X.
    - rewrite nth_error_app2 in X by exact L1. rewrite set_nth_length in *. left. assert (j - length (vviews w) = 0)%nat as Z0 by (destruct (j - length (vviews w))%nat as [|q]; [reflexivity|destruct q; discriminate]).
      rewrite Z0 in X. injection X as <-. split; [lia|reflexivity]. }
  constructor; cbn [vbusy vcalls vviews vsb]; auto.
  - intros j kj X GJ. destruct (PN _ _ X) as [[-> ->]|X2]; [|exact (Q3 _ _ X2 GJ)]. rewrite B2. destruct (p_bok _ _ P _ _ E G) as [K1 K2]. split; [exact K1|]. intros y Y. apply K2, I2, Y.
  - intros y it c IT Ec. destruct (Q4 _ _ _ IT Ec) as [LL A]. split; [exact LL|]. intros X. destruct (A X) as (j & kj & Ej & Rj & Yj). exists j, kj. split; [|auto].
    rewrite nth_error_app1; [exact Ej|]. apply nth_error_Some. congruence.
  - intros j kj X GJ. destruct (PN _ _ X) as [[-> ->]|X2]; [|exact (Q5 _ _ X2 GJ)]. rewrite Q8 by lia. intros n [].
  - intros j kj X GJ. destruct (PN _ _ X) as [[-> ->]|X2]; [apply RF, S2|exact (Q6 _ _ X2 GJ)].
  - intros j kj q X GJ Y. destruct (PN _ _ X) as [[-> ->]|X2]; [exact (PP q Y)|exact (Q7 _ _ _ X2 GJ Y)].
  - intros j LL. apply Q8. rewrite app_length, set_nth_length in LL. lia.
Qed.
(** A destructor returns. *)
Lemma one_ret k' c bs : change t v k (vviews w) (set_nth (vviews w) v k') -> w_base k' = w_base k -> w_parent k' = w_parent k -> running k = Some c -> running k' = None -> vbusy w = c :: bs ->
  (gone k' = false -> rest_at (vbusy w) k' (stk (vsb w))) -> pinv (MkVWorld (vsb w) (set_nth (vviews w) v k') bs (vcalls w)) (set_mode ms v (MShared [])).
Proof.
  intros CH B0 P0 R1 R2 EB RS. pose proof (proj1 (usable_spec _ _ _) U) as (E & G & _). pose proof (p_nodup _ _ P) as ND. pose proof (p_lt _ _ P) as LT. rewrite EB in ND, LT.
  inversion ND as [|c' bs' NI ND2]; subst. inversion LT as [|c' bs' LC LT2]; subst.
  apply (p_put t V w ms v k k' (vsb w) _ _ _ None); auto.
  - intros GK. exact (change_put v k _ k' IV U CH GK).
  - apply steps_refl. exact (p_bok _ _ P _ _ E G).
  - intros c0 X. left. rewrite EB. right. exact X.
  - discriminate.
  - congruence.
  - congruence.
  - intros GK. rewrite set_mode_here. split; [intros n []|]. destruct (change_put v k _ k' IV U CH GK) as [OK _]. apply (rest_busy t V (vbusy w)); [exact OK| |exact (RS GK)].
    intros y i c0 _ _ _ X. rewrite EB. right. exact X.
  - intros i. apply set_mode_there.
Qed.
(** An access of the client *)
Lemma one_act a : act_ok (MkO (w_blk k) (w_tags k)) a = true -> vallowed (ms v) k a ->
  exists s', do_act (vbusy w) a (vsb w) = Some (None, s') /\ pinv (MkVWorld s' (set_nth (vviews w) v k) (vbusy w) (vcalls w)) ms.
Proof.
  intros OKA AL. pose proof (proj1 (usable_spec _ _ _) U) as (E & G & _). pose proof (t_ok _ _ IV _ _ E G) as OK. pose proof (p_bok _ _ P _ _ E G) as K.
  pose proof (p_mode _ _ P _ _ E G) as M. pose proof (p_rest _ _ P _ _ E G) as RS. pose proof (live_in t V k OK G) as LI.
  (* what is left: one access *)
  assert (FIN : forall b s', inside b (live_blk k) -> steps (w_blk k) (w_base k) None (vsb w) s' -> (forall y, ~ in_block b y -> stk s' y = stk (vsb w) y) ->
    (forall y, in_block b y -> match ms v with
      | MShared ns => forall n, In n ns -> forall kd, kind_at (live_refs k) y = Some kd -> sharing (w_base k) n kd (stk s' y)
      | MExcl n => excl (vbusy w) n (stk s' y) end) -> pinv (MkVWorld s' (set_nth (vviews w) v k) (vbusy w) (vcalls w)) ms).
  { intros b s' IN ST OUT MY. apply (p_put t V w ms v k k s' _ _ _ None); auto.
    - intros _. split; [exact OK|apply inside_self].
    - apply P.
    - apply P.
    - discriminate.
    - intros _. split.
      + destruct (ms v) as [ns|n]; cbn [mode_at] in *.
        * intros n I. destruct (M n I) as [S0 M1]. split; [exact S0|]. intros y kd KD. destruct (inb b y) eqn:Y; [apply inb_iff in Y; exact (MY y Y n I kd KD)|]. rewrite OUT by (rewrite <- inb_iff; congruence). exact (M1 y kd KD).
        * intros y Y. destruct (inb b y) eqn:Z0; [apply inb_iff in Z0; exact (MY y Z0)|]. rewrite OUT by (rewrite <- inb_iff; congruence). exact (M y Y).
      + unfold rest_at, live_blk in *. destruct (w_st k) as [| | | | | | | |ty n d i r|] eqn:S0; auto. intros y Y. rewrite OUT; [exact (RS y Y)|]. intros Z0. apply IN in Z0.
        destruct r; unfold in_block, v_elems, v_elem in *; cbn [start size] in *; lia. }
  destruct a as [n b|n b|n parts p]; cbn [do_act] in *; [| |destruct (ms v); destruct AL].
  - assert (A2 : (exists ns, ms v = MShared ns /\ In n ns) \/ ms v = MExcl n) by (destruct (ms v) as [ns|n1]; cbn [vallowed] in AL; [left; exists ns; split; [reflexivity|apply AL]|right; f_equal; apply AL]).
    assert (IN : inside b (live_blk k)) by (destruct (ms v); apply AL).
    assert (IB : inside b (w_blk k)) by (intros y Y; apply LI, IN, Y).
    destruct A2 as [(ns & MV & I)|MV].
    + rewrite MV in M. cbn [mode_at] in M. destruct (M n I) as [SH _].
      assert (R : running k = None) by (unfold shareable, running in *; destruct (w_st k); tauto).
      assert (RD : forall y, in_block b y -> exists st', sb_read (vbusy w) n (stk (vsb w) y) = Some st' /\ forall n2, In n2 ns -> forall kd, kind_at (live_refs k) y = Some kd -> sharing (w_base k) n2 kd st').
      { intros y Y. pose proof (quiet_at t w ms v k y IV P U R (IB y Y)) as Q. destruct (live_kind t k y OK SH (IN y Y)) as (kd & KD & NU). pose proof (proj2 (M n I) y kd KD) as S1. destruct kd; [congruence| |]; cbn [sharing] in S1.
        - destruct (client_read_ro _ _ _ S1 Q) as (st' & R1 & _ & R3). exists st'. split; [exact R1|]. intros n2 I2 kd2 K2. rewrite KD in K2. injection K2 as <-. apply R3. exact (proj2 (M n2 I2) y _ KD).
        - destruct (client_read_grp _ _ _ _ S1 Q) as (st' & R1 & _ & R3). exists st'. split; [exact R1|]. intros n2 I2 kd2 K2. rewrite KD in K2. injection K2 as <-. apply R3. exact (proj2 (M n2 I2) y _ KD). }
      destruct (run_read (vbusy w) n b (w_blk k) (w_base k) (vsb w) IB K) as (s' & EE & ST & D1 & D2 & _); [intros y Y; destruct (RD y Y) as (st' & X & _); eauto|].
      exists s'. unfold mbind. rewrite EE. split; [reflexivity|]. apply (FIN b); auto. intros y Y. rewrite MV. destruct (RD y Y) as (st' & X & Z0). rewrite (D1 y Y) in X. injection X as <-. exact Z0.
    + rewrite MV in M. cbn [mode_at] in M.
      assert (RD : forall y, in_block b y -> exists st', sb_read (vbusy w) n (stk (vsb w) y) = Some st' /\ excl (vbusy w) n st') by (intros y Y; destruct (excl_read _ _ _ (M y (IN y Y))) as (st' & R1 & _ & R3); eauto).
      destruct (run_read (vbusy w) n b (w_blk k) (w_base k) (vsb w) IB K) as (s' & EE & ST & D1 & D2 & _); [intros y Y; destruct (RD y Y) as (st' & X & _); eauto|].
      exists s'. unfold mbind. rewrite EE. split; [reflexivity|]. apply (FIN b); auto. intros y Y. rewrite MV. destruct (RD y Y) as (st' & X & Z0). rewrite (D1 y Y) in X. injection X as <-. exact Z0.
  - destruct (ms v) as [ns|n1] eqn:MV; cbn [vallowed] in AL; cbn [mode_at] in M.
    + destruct AL as (I & c & IC & INS). destruct (M n I) as [SH _]. destruct (live_refs_ok t k OK) as (AP & _ & LR). rewrite Forall_forall in LR.
      assert (R : running k = None) by (unfold shareable, running in *; destruct (w_st k); tauto).
      assert (IN : inside b (live_blk k)) by (intros y Y; exact (LR _ IC y (INS y Y))).
      assert (IB : inside b (w_blk k)) by (intros y Y; apply LI, IN, Y).
      assert (RD : forall y, in_block b y -> exists st', sb_write (vbusy w) n (stk (vsb w) y) = Some st' /\ forall n2, In n2 ns -> forall kd, kind_at (live_refs k) y = Some kd -> sharing (w_base k) n2 kd st').
      { intros y Y. pose proof (quiet_at t w ms v k y IV P U R (IB y Y)) as Q. pose proof (kind_has (fun _ => None) _ _ _ y AP IC (INS y Y)) as KD. pose proof (proj2 (M n I) y _ KD) as S1. cbn [sharing] in S1.
        destruct (client_write_grp _ _ _ _ S1 Q) as (st' & R1 & _ & R3). exists st'. split; [exact R1|]. intros n2 I2 kd2 K2. rewrite KD in K2. injection K2 as <-. apply R3. exact (proj2 (M n2 I2) y _ KD). }
      destruct (run_write (vbusy w) n b (w_blk k) (w_base k) (vsb w) IB K) as (s' & EE & ST & D1 & D2 & _); [intros y Y; destruct (RD y Y) as (st' & X & _); eauto|].
      exists s'. unfold mbind. rewrite EE. split; [reflexivity|]. apply (FIN b); auto. intros y Y. destruct (RD y Y) as (st' & X & Z0). rewrite (D1 y Y) in X. injection X as <-. exact Z0.
    + destruct AL as [-> IN]. assert (IB : inside b (w_blk k)) by (intros y Y; apply LI, IN, Y).
      assert (RD : forall y, in_block b y -> exists st', sb_write (vbusy w) n (stk (vsb w) y) = Some st' /\ excl (vbusy w) n st') by (intros y Y; destruct (excl_write _ _ _ (M y (IN y Y))) as (st' & R1 & _ & R3); eauto).
      destruct (run_write (vbusy w) n b (w_blk k) (w_base k) (vsb w) IB K) as (s' & EE & ST & D1 & D2 & _); [intros y Y; destruct (RD y Y) as (st' & X & _); eauto|].
      exists s'. unfold mbind. rewrite EE. split; [reflexivity|]. apply (FIN b); auto. intros y Y. destruct (RD y Y) as (st' & X & Z0). rewrite (D1 y Y) in X. injection X as <-. exact Z0.
Qed.
(** A new shared reference *)
Lemma one_share parts k' : running k = None -> live_refs k = parts -> live_refs k' = parts -> shareable k' -> w_base k' = w_base k ->
  exists s', m_retag (vbusy w) (w_base k) parts (vsb w) = Some (nexttag (vsb w), s') /\ steps (w_blk k) (w_base k) None (vsb w) s' /\
    mode_at (vbusy w) k' (MShared (nexttag (vsb w) :: shared_of (ms v))) (stk s').
Proof.
  intros R L1 L2 SH B0. pose proof (proj1 (usable_spec _ _ _) U) as (E & G & _). pose proof (t_ok _ _ IV _ _ E G) as OK. pose proof (p_mode _ _ P _ _ E G) as M.
  destruct (live_refs_ok t k OK) as (AP & NU & LR). rewrite L1 in *. destruct (one_ready R) as [K Q].
  destruct (run_shared (vbusy w) parts (w_blk k) (w_base k) (vsb w)) as (s' & EE & ST & X); auto.
  { eapply Forall_impl; [|exact LR]. intros q I. eapply inside_tr; [exact I|]. exact (live_in t V k OK G). }
  exists s'. split; [exact EE|]. split; [exact ST|]. intros n I. split; [exact SH|]. rewrite L2, B0. intros y kd KD. destruct (X y kd KD) as [X1 X2]. destruct I as [<- | I]; [exact X1|].
  apply X2. destruct (ms v) as [ns|n1]; cbn [shared_of] in I; [|destruct I]. destruct (M n I) as [_ M1]. rewrite L1 in M1. exact (M1 y kd KD).
Qed.
End One.

(** ** A call *)
Ltac inval H P := injection H as <- <-; split; [discriminate|]; first [exact (p_weak _ _ _ P)|exact P].
Ltac same IV P U CH R H := injection H as <- <-; cbn [vviews] in CH; split; [discriminate|]; refine (one_same _ _ _ _ IV P U _ CH _ _ R _ _); try reflexivity; exact Logic.I.
Ltac putx IV P U CH R H E ST := rewrite E in H; injection H as <- <-; cbn [vviews] in CH; split; [discriminate|]; refine (one_put _ _ _ _ IV P U _ _ _ CH _ _ R _ ST _); try reflexivity.
Ltac nomode := let n := fresh in intros _; split; [intros n []|exact Logic.I].

Ltac norun R H P := rewrite R in H; inval H P.
Ltac actx IV P U E G ST0 PO H :=
  let AO := fresh in match type of H with (if act_ok ?o ?a then _ else _) = _ => destruct (act_ok o a) eqn:AO end;
  [|injection H as <- <-; split; [discriminate|exact P]];
  let s' := fresh in let EE := fresh in let PI := fresh in
  destruct (one_act _ _ _ _ IV P U _ AO (PO _ U)) as (s' & EE & PI); rewrite EE in H; injection H as <- <-; split; [discriminate|exact PI].
Ltac retx IV P U CH RU H EB :=
  let b0 := fresh in let bs0 := fresh in let NE := fresh in rewrite RU in H;
  match type of H with (match vbusy ?w with _ => _ end) = _ => destruct (vbusy w) as [|b0 bs0] eqn:EB end; [inval H P|];
  match type of H with (if Nat.eqb ?b ?c then _ else _) = _ => destruct (Nat.eqb_spec b c) as [-> | NE] end; [|inval H P];
  injection H as <- <-; cbn [vviews] in CH; split; [discriminate|]; refine (one_ret _ _ _ _ IV P U _ _ _ CH _ _ RU _ EB _); try reflexivity.

Lemma p_call w ms v k o w' r : vinv t (vviews w) -> pinv w ms -> usable_at (vviews w) v = Some k -> vop_ok t o -> vpolite_op w ms o -> view_of o = Some v ->
  vcall t w v k o = (w', r) -> r <> VUB /\ pinv w' (vmode_after w ms o r).
Proof.
  intros IV P U OP PO VO H. pose proof (vcall_change t V w v k o w' r IV U OP H) as CH. pose proof (proj1 (usable_spec _ _ _) U) as (E & G & _). pose proof (t_ok _ _ IV _ _ E G) as OK.
  pose proof (live_in t V k OK G) as LI. pose proof OK as OK0. unfold view_ok in OK. unfold live_blk in LI.
  assert (RR : running k = None -> ready (vbusy w) (w_blk k) (w_base k) (vsb w)) by (intros R; exact (one_ready w ms v k IV P U R)).
  assert (BB : forall y i c0, in_block (w_blk k) y -> In i (stk (vsb w) y) -> iprot i = Some c0 -> In c0 (vcalls w :: vbusy w) -> In c0 (vbusy w)) by (intros y i c0 _; exact (one_busy w ms P y i c0)).
  unfold vcall in H. destruct o; try discriminate VO; injection VO as ->; destruct (w_st k) as [|ty0|ty0|ty0|ty0 c0|ty0 n0|ty0 n0 c0|ty0 n0 d0|ty0 n0 d0 i0 r0|] eqn:ST0;
    try (inval H P); cbn [vop_ok vpolite_op] in OP, PO; try contradiction; try rename ty0 into ty; unfold running in RR; rewrite ST0 in RR; try specialize (RR eq_refl);
    try (assert (R : running k = None) by (unfold running; rewrite ST0; reflexivity)); cbn [vmode_after view_of].
  - (* cast_slice *) destruct (v_cast_slice _ _ _) as [u'|]; [|inval H P]. same IV P U CH R H.
  - (* as_memory *) same IV P U CH R H.
  - (* split_at *) destruct (v_split_at _ _ _ _) as [[u1 [u2|]]|]; [|inval H P|inval H P]. injection H as <- <-. cbn [vviews] in CH. split; [discriminate|].
    refine (one_cut _ _ _ _ IV P U _ _ CH _ _ _ R _ _ _ _ _); try reflexivity; exact Logic.I.
  - (* split_at_byte *) destruct (v_split_at_byte _ _ _) as [u1 [u2|]]; [|inval H P]. injection H as <- <-. cbn [vviews] in CH. split; [discriminate|].
    refine (one_cut _ _ _ _ IV P U _ _ CH _ _ _ R _ _ _ _ _); try reflexivity; exact Logic.I.
  - (* init *) destruct (v_cast (w_u k) (q_lay ty)) eqn:F; [|inval H P]. assert (PA : 0 < lalign (q_lay ty)) by (eapply type_layout_align; apply OP).
    unfold v_cast in F. destruct (v_fits (w_u k) (q_lay ty)) eqn:F2; [|discriminate]. apply (v_fits_iff _ _ PA) in F2. destruct F2 as [_ F2]. pose proof (sized_in ty k F2) as IN.
    destruct (go_init _ _ _ _ ty _ RR IN) as (n & s' & EE & ST & X). putx IV P U CH R H EE ST. intros _. split; [exact X|exact Logic.I].
  - (* boxed *) destruct (v_cast (w_u k) (q_lay ty)) eqn:F; [|inval H P]. assert (PA : 0 < lalign (q_lay ty)) by (eapply type_layout_align; apply OP).
    unfold v_cast in F. destruct (v_fits (w_u k) (q_lay ty)) eqn:F2; [|discriminate]. apply (v_fits_iff _ _ PA) in F2. destruct F2 as [_ F2]. pose proof (sized_in ty k F2) as IN.
    destruct (go_init _ _ _ _ ty _ RR IN) as (n & s' & EE & ST & X). unfold vb_box, mbind in H. rewrite EE in H. injection H as <- <-. cbn [vviews] in CH. split; [discriminate|].
    refine (one_put _ _ _ _ IV P U _ _ _ CH _ _ R _ ST _); try reflexivity. nomode.
  - (* write *) destruct (v_cast (w_u k) (q_lay ty)) eqn:F; [|inval H P]. assert (PA : 0 < lalign (q_lay ty)) by (eapply type_layout_align; apply OP).
    unfold v_cast in F. destruct (v_fits (w_u k) (q_lay ty)) eqn:F2; [|discriminate]. apply (v_fits_iff _ _ PA) in F2. destruct F2 as [_ F2]. pose proof (sized_in ty k F2) as IN.
    destruct (go_wr _ _ _ _ ty _ RR IN) as (s' & EE & ST). rewrite EE in H. injection H as <- <-. cbn [vviews] in CH. split; [discriminate|].
    refine (one_put _ _ _ _ IV P U _ _ _ CH _ _ R _ ST _); try reflexivity. nomode.
  - (* new *) same IV P U CH R H.
  - (* from_unaligned *) destruct (f_from_unaligned _ _ _); [|inval H P]. same IV P U CH R H.
  - (* deref *) destruct (one_share w ms v k IV P U (q_refs (MkQB (uptr (w_u k)) ty (w_base k))) (MkVW (w_u k) (w_base k) (nexttag (vsb w) :: w_tags k) (w_parent k) (SBox ty)) R) as (s' & EE & ST & X);
      [unfold live_refs; rewrite ST0; reflexivity|reflexivity|exact Logic.I|reflexivity|]. unfold vb_deref in H. putx IV P U CH R H EE ST. intros _. split; [exact X|exact Logic.I].
  - (* deref_mut *) destruct (go_mut _ _ _ _ (q_unpin ty) _ None (vbusy w) RR LI) as (s' & EE & ST & X); [auto|]. unfold vb_deref_mut, one, m_retag, v_mut in H. putx IV P U CH R H EE ST. intros _. split; [exact X|exact Logic.I].
  - (* take *) destruct (go_read _ _ _ _ _ RR LI) as (s' & EE & ST). unfold vb_take in H. putx IV P U CH R H EE ST. nomode.
  - (* into_raw *) same IV P U CH R H.
  - (* leak *) destruct (go_mut _ _ _ _ (q_unpin ty) _ None (vbusy w) RR LI) as (s' & EE & ST & X); [auto|]. unfold vb_deref_mut, one, m_retag, v_mut in H. putx IV P U CH R H EE ST. intros _. split; [exact X|exact Logic.I].
  - (* push *) destruct OK as (T & W & N). destruct (f_push _ _ _ _ _) as [[[h f] [e|]]|] eqn:PU; [inval H P| |inval H P].
    destruct (push_len t V _ _ _ _ _ T W N PU) as [_ L]. pose proof (elem_in t V ty k n0 W ltac:(lia)) as IN. rewrite elem_one in IN.
    destruct (go_init _ _ _ _ ty _ RR IN) as (n & s' & EE & ST & X). unfold vb_push, mbind, slot in H. cbn [w_vec funinit flen] in H. rewrite EE in H. injection H as <- <-. cbn [vviews] in CH. split; [discriminate|].
    refine (one_put _ _ _ _ IV P U _ _ _ CH _ _ R _ ST _); try reflexivity. nomode.
  - (* pop *) destruct OK as (T & W & N). destruct (f_pop _ _ _ _) as [[f [e|]]|] eqn:PU; [|inval H P|inval H P].
    destruct (pop_len t _ _ _ _ _ T W N PU) as [_ L]. pose proof (elem_in t V ty k (n0 - 1) W ltac:(lia)) as IN. destruct (go_read _ _ _ _ _ RR IN) as (s' & EE & ST). unfold vb_pop in H. cbn [w_vec funinit flen] in H.
    putx IV P U CH R H EE ST. nomode.
  - (* fill *) destruct OK as (T & W & N). destruct (n0 <? _) eqn:L; [|inval H P]. apply Z.ltb_lt in L. unfold f_capacity in L. cbn [w_vec funinit] in L.
    pose proof (elem_in t V ty k n0 W ltac:(lia)) as IN. destruct (go_write _ _ _ _ _ RR IN) as (s' & EE & ST). unfold vb_fill in H. cbn [w_vec funinit flen] in H. putx IV P U CH R H EE ST. nomode.
  - (* truncate *) destruct OK as (T & W & N). destruct (Z.eqb_spec n0 0) as [Z0|Z0]; [inval H P|]. pose proof (elem_in t V ty k (n0 - 1) W ltac:(lia)) as IN.
    destruct (go_mut _ _ _ _ (q_unpin ty) _ (Some (vcalls w)) (vcalls w :: vbusy w) RR IN BB) as (s' & EE & ST & X). unfold vb_truncate, v_mut in H. cbn [w_vec funinit flen] in H. rewrite EE in H. injection H as <- <-.
    cbn [vviews] in CH. split; [discriminate|]. refine (one_start _ _ _ _ IV P U _ _ _ CH _ _ _ R _ ST _ _); try reflexivity. exact X.
  - (* as_slice *) destruct (one_share w ms v k IV P U (slice_refs ty (w_base k) (uptr (w_u k)) n0) (MkVW (w_u k) (w_base k) (nexttag (vsb w) :: w_tags k) (w_parent k) (SVec ty n0)) R) as (s' & EE & ST & X);
      [unfold live_refs; rewrite ST0; reflexivity|reflexivity|exact Logic.I|reflexivity|]. unfold vb_slice in H. putx IV P U CH R H EE ST. intros _. split; [exact X|exact Logic.I].
  - destruct (one_share w ms v k IV P U (slice_refs ty (w_base k) (delements d0 + dstart d0 * lsize (q_lay ty)) (d_len d0)) (MkVW (w_u k) (w_base k) (nexttag (vsb w) :: w_tags k) (w_parent k) (SDrain ty n0 d0)) R) as (s' & EE & ST & X);
      [unfold live_refs; rewrite ST0; reflexivity|reflexivity|exact Logic.I|reflexivity|]. unfold vb_slice in H. putx IV P U CH R H EE ST. intros _. split; [exact X|exact Logic.I].
  - (* as_mut_slice *) destruct (go_mut _ _ _ _ (q_unpin ty) _ None (vbusy w) RR LI) as (s' & EE & ST & X); [auto|]. unfold vb_mut_slice, m_retag, v_mut in H. putx IV P U CH R H EE ST. intros _. split; [exact X|exact Logic.I].
  - destruct (go_mut _ _ _ _ (q_unpin ty) _ None (vbusy w) RR LI) as (s' & EE & ST & X); [auto|]. unfold vb_mut_slice, m_retag, v_mut in H. putx IV P U CH R H EE ST. intros _. split; [exact X|exact Logic.I].
  - (* as_ptr *) same IV P U CH R H.
  - (* split_and_shrink_to *) destruct (f_split_and_shrink _ _ _ _); [|inval H P]. injection H as <- <-. cbn [vviews] in CH. split; [discriminate|].
    refine (one_cut _ _ _ _ IV P U _ _ CH _ _ _ R _ _ _ _ _); try reflexivity; exact Logic.I.
  - (* split_borrowed *) destruct (f_split_borrowed _ _ _ _); [|inval H P]. injection H as <- <-. cbn [vviews] in CH. split; [discriminate|].
    refine (one_cut _ _ _ _ IV P U _ _ CH _ _ _ R _ _ _ _ _); try reflexivity; exact Logic.I.
  - (* shrink_to_fit *) destruct (f_shrink_to_fit _ _ _); [|inval H P]. injection H as <- <-. cbn [vviews] in CH. split; [discriminate|].
    refine (one_cut _ _ _ _ IV P U _ _ CH _ _ _ R _ _ _ _ _); try reflexivity; exact Logic.I.
  - (* drain *) destruct (f_drain _ _ _ _ _); [|inval H P]. same IV P U CH R H.
  - (* next *) destruct OK as (T & W & N1 & N2 & N3 & N4 & N5 & N6). unfold d_next, d_is_empty in H. destruct (Z.eqb_spec (dstart d0) (dend d0)) as [Z0|Z0]; [inval H P|].
    pose proof (elem_in t V ty k (n0 + dstart d0) W ltac:(lia)) as IN. rewrite elem_one, Z.mul_add_distr_r, Z.add_assoc, <- N3, <- elem_one in IN.
    destruct (go_read _ _ _ _ _ RR IN) as (s' & EE & ST). unfold vb_next in H. putx IV P U CH R H EE ST. nomode.
  - (* next_back *) destruct OK as (T & W & N1 & N2 & N3 & N4 & N5 & N6). unfold d_next_back, d_is_empty in H. destruct (Z.eqb_spec (dstart d0) (dend d0)) as [Z0|Z0]; [inval H P|].
    pose proof (elem_in t V ty k (n0 + (dend d0 - 1)) W ltac:(lia)) as IN. rewrite elem_one, Z.mul_add_distr_r, Z.add_assoc, <- N3, <- elem_one in IN.
    destruct (go_read _ _ _ _ _ RR IN) as (s' & EE & ST). unfold vb_next_back in H. putx IV P U CH R H EE ST. nomode.
  - (* restore *) destruct OK as (T & W & N1 & N2 & N3 & N4 & N5 & N6). destruct (d_is_empty d0); [|inval H P].
    pose proof (elems_in t V ty k (n0 + dtail d0) (dtail_len d0) W ltac:(lia) ltac:(lia)) as I1. rewrite Z.mul_add_distr_r, Z.add_assoc, <- N3 in I1.
    pose proof (elems_in t V ty k n0 (dtail_len d0) W ltac:(lia) ltac:(lia)) as I2. rewrite <- N3 in I2.
    destruct (go_restore _ _ _ _ ty d0 RR I1 I2) as (s' & EE & ST). putx IV P U CH R H EE ST. nomode.
  - (* the Drain is gone *) same IV P U CH R H.
  - (* drop of a box *) destruct (go_mut _ _ _ _ (q_unpin ty) _ (Some (vcalls w)) (vcalls w :: vbusy w) RR LI BB) as (s' & EE & ST & X). unfold vb_drop, v_mut in H. rewrite EE in H. injection H as <- <-.
    cbn [vviews] in CH. split; [discriminate|]. refine (one_start _ _ _ _ IV P U _ _ _ CH _ _ _ R _ ST _ _); try reflexivity. exact X.
  - (* drop of a vector *) destruct (go_mut _ _ _ _ (q_unpin ty) _ None (vbusy w) RR LI) as (s' & EE & ST & X); [auto|]. unfold vb_drop_vec, vb_mut_slice, m_retag, v_mut in H. cbn [w_vec funinit flen] in H.
    putx IV P U CH R H EE ST. intros _. split; [intros n []|]. unfold rest_at. cbn [w_st w_u]. rewrite Z.mul_0_l, Z.add_0_r, Z.sub_0_r. exact X.
  - (* an element *) destruct OK as (T & W & N1 & N2 & N3). destruct r0 as [c0|]; [inval H P|]. assert (R : running k = None) by (unfold running; rewrite ST0; reflexivity). specialize (RR eq_refl).
    destruct (i0 <? n0) eqn:L; [apply Z.ltb_lt in L|same IV P U CH R H].
    pose proof (elem_in t V ty k i0 W ltac:(lia)) as IN. pose proof (p_rest _ _ P _ _ E G) as RS. unfold rest_at in RS. rewrite ST0 in RS. pose proof (type_layout_size _ _ (proj1 T)) as SZ.
    assert (EI : forall y, in_block (v_elem ty (uptr (w_u k)) i0) y -> excl (vbusy w) d0 (stk (vsb w) y)).
    { intros y Y. apply RS. unfold in_block, v_elem, v_elems in *. cbn [start size] in *. split; [lia|]. assert (1 * lsize (q_lay ty) <= (n0 - i0) * lsize (q_lay ty)) by (apply Z.mul_le_mono_nonneg_r; lia). lia. }
    destruct (run_mut (vbusy w) (vcalls w :: vbusy w) d0 (q_unpin ty) _ (Some (vcalls w)) (w_blk k) (w_base k) (vsb w) IN (proj1 RR) EI) as (s' & EE & ST & X & OUT).
    { intros y i c Y. apply BB. exact (IN y Y). }
    unfold vb_drop_elem, v_mut in H. cbn [w_vec funinit] in H. rewrite EE in H. injection H as <- <-. cbn [vviews] in CH. split; [discriminate|].
    refine (one_start _ _ _ _ IV P U _ _ _ CH _ _ _ R _ ST _ _); try reflexivity.
    + cbn [mode_at live_blk w_st w_u]. replace (i0 + 1 - 1) with i0 by lia. exact X.
    + unfold rest_at. cbn [w_st w_u]. intros y Y. rewrite OUT by (intros Z0; unfold in_block, v_elem, v_elems in *; cbn [start size] in *; lia).
      apply (excl_busy (vbusy w)); [intros i c I Ec; exact (one_busy w ms P y i c I Ec)|]. apply RS. unfold in_block, v_elems in *. cbn [start size] in *. lia.
  - norun R H P.
  - norun R H P.
  - norun R H P.
  - norun R H P.
  - (* the destructor in a Box *) assert (RU : running k = Some c0) by (unfold running; rewrite ST0; reflexivity). retx IV P U CH RU H EB.
  - norun R H P.
  - assert (RU : running k = Some c0) by (unfold running; rewrite ST0; reflexivity). retx IV P U CH RU H EB.
  - norun R H P.
  - destruct r0 as [c0|]; [|assert (R : running k = None) by (unfold running; rewrite ST0; reflexivity); norun R H P].
    assert (RU : running k = Some c0) by (unfold running; rewrite ST0; reflexivity). pose proof (p_rest _ _ P _ _ E G) as RS. unfold rest_at in RS. rewrite ST0 in RS. retx IV P U CH RU H EB. intros _. rewrite EB. exact RS.
  - norun R H P.
  - same IV P U CH R H.
  - same IV P U CH R H.
  - same IV P U CH R H.
  - same IV P U CH R H.
  - same IV P U CH R H.
  - actx IV P U E G ST0 PO H.
  - actx IV P U E G ST0 PO H.
  - actx IV P U E G ST0 PO H.
  - actx IV P U E G ST0 PO H.
  - actx IV P U E G ST0 PO H.
  - actx IV P U E G ST0 PO H.
  - actx IV P U E G ST0 PO H.
  - actx IV P U E G ST0 PO H.
  - actx IV P U E G ST0 PO H.
  - actx IV P U E G ST0 PO H.
Qed.

(** ** Programs *)
Lemma leave_in B c d : In d (leave B c) -> In d B.
Proof. unfold leave. intros I. apply filter_In in I. apply I. Qed.
Lemma p_calls w ms B' C' : vinv t (vviews w) -> pinv w ms -> NoDup B' -> Forall (fun c => (c < C')%nat) B' -> (vcalls w <= C')%nat -> (forall c, In c B' -> In c (vbusy w) \/ (vcalls w <= c)%nat) ->
  pinv (MkVWorld (vsb w) (vviews w) B' C') ms.
Proof.
  intros IV P ND LT LC BU. assert (OLD : forall y it c, In it (stk (vsb w) y) -> iprot it = Some c -> In c B' -> In c (vbusy w)).
  { intros y it c IT Ec X. destruct (BU c X) as [|L]; [assumption|]. pose proof (proj1 (p_items _ _ P _ _ _ IT Ec)). lia. }
  constructor; cbn [vbusy vcalls vviews vsb]; auto; try apply P.
  - intros y it c IT Ec. destruct (p_items _ _ P _ _ _ IT Ec) as [L A]. split; [lia|]. intros X. exact (A (OLD y it c IT Ec X)).
  - intros i k E G. apply (mode_busy t V (vbusy w)); [exact (t_ok _ _ IV _ _ E G)|exact G| |exact (p_mode _ _ P _ _ E G)]. intros y it c _. apply OLD.
  - intros i k E G. apply (rest_busy t V (vbusy w)); [exact (t_ok _ _ IV _ _ E G)| |exact (p_rest _ _ P _ _ E G)]. intros y it c _. apply OLD.
Qed.
Lemma p_step w ms o : vinv t (vviews w) -> pinv w ms -> vop_ok t o -> vpolite_op w ms o ->
  snd (vstep t w o) <> VUB /\ pinv (fst (vstep t w o)) (vmode_after w ms o (snd (vstep t w o))).
Proof.
  intros IV P OP PO. destruct (view_of o) as [v|] eqn:VO.
  - unfold vstep. rewrite VO. destruct (usable_at (vviews w) v) as [k|] eqn:U.
    + destruct (vcall t w v k o) as [w' r] eqn:H. exact (p_call w ms v k o w' r IV P U OP PO VO H).
    + cbn [fst snd]. split; [discriminate|]. destruct o; try discriminate VO; injection VO as ->; cbn [vmode_after view_of]; first [exact (p_weak _ _ _ P)|exact P].
  - destruct o; try discriminate VO; cbn [vstep view_of fst snd vmode_after].
    + split; [discriminate|]. apply p_calls; auto.
      * constructor; [|apply P]. intros X. pose proof (p_lt _ _ P) as L. rewrite Forall_forall in L. specialize (L _ X). lia.
      * constructor; [lia|]. eapply Forall_impl; [|apply P]. cbn. intros; lia.
      * intros c [<- | X]; auto.
    + unfold vstep. cbn [view_of]. destruct (existsb _ (vviews w)); cbn [fst snd vmode_after]; (split; [discriminate|]); [exact P|]. apply p_calls; auto.
      * apply NoDup_filter, P.
      * apply Forall_forall. intros d I. apply leave_in in I. pose proof (p_lt _ _ P) as L. rewrite Forall_forall in L. exact (L d I).
      * intros d I. left. exact (leave_in _ _ _ I).
Qed.
Lemma p_run os : forall w ms, vinv t (vviews w) -> pinv w ms -> Forall (vop_ok t) os -> vpolite t w ms os -> Forall (fun e => snd e <> VUB) (snd (vrun t w os)).
Proof.
  induction os as [|o os IH]; intros w ms IV P OS PO; [constructor|]. inversion OS as [|? ? O1 O2]; subst. destruct PO as [PO1 PO2]. cbn [vrun].
  destruct (p_step w ms o IV P O1 PO1) as [N P2]. pose proof (vstep_inv t V w o IV O1) as I2. destruct (vstep t w o) as [w1 r]. cbn [fst snd] in *. specialize (IH _ _ I2 P2 O2 PO2).
  destruct (vrun t w1 os) as [w2 h]. constructor; assumption.
Qed.
Lemma p_new_world bs : memories_ok t bs -> pinv (vnew bs) (fun _ => MShared []).
Proof.
  intros MO. constructor; cbn [vnew vbusy vcalls vviews vsb]; auto.
  - constructor.
  - intros i k E G. destruct (vviews_nth _ _ _ E) as (b & Eb & -> & Wb & Em). rewrite Wb. cbn [w_base]. split; [cbn [nexttag]; apply nth_error_Some; congruence|].
    intros y Y. cbn [stk nexttag]. unfold stacks_new. destruct (find _ (qmems_new bs)) as [q|] eqn:F.
    + destruct (new_find _ _ _ F) as (m & E' & I' & B & L). pose proof (new_sep bs (proj2 MO) _ _ _ _ _ Em E' Y I') as <-. rewrite B. split; [exists []; auto|]. constructor; [exact L|constructor].
    + pose proof (find_none _ _ F _ (nth_error_In _ _ Em)) as X. cbn [m_blk] in X. rewrite (proj2 (inb_iff _ _) Y) in X. discriminate.
  - intros y it c I C. exfalso. cbn [stk] in I. unfold stacks_new in I. destruct (find _ (qmems_new bs)); [|destruct I]. destruct I as [<- | []]. discriminate.
  - intros i k E G n [].
  - intros i k E G. destruct (vviews_nth _ _ _ E) as (b & Eb & -> & _). exact Logic.I.
Qed.
End Run.
