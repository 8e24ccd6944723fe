(** * KBorrowLocal: Chain looks at the bytes of its allocations only; programs with many chains, compared with the ideal. *)
From Verif Require Import Base Spec BaseFacts SyncModel SyncSpec SyncProofs UnsyncModel UnsyncSpec UnsyncProofs ChainModel ChainSpec ChainProofs BorrowModel BorrowSpec BorrowProofs BorrowState BorrowWorld BorrowLocal
  UBorrowModel UBorrowSpec UBorrowSub UBorrowCells UBorrowCalls UBorrowReset UBorrowWorld UBorrowLocal EBorrowSlot RBorrowPolite KBorrowModel KBorrowSpec KBorrowLink KBorrowDrop KBorrowTame KBorrowObjs KBorrowWorld.
Import ChainModel.

(** ** Stacks of many links that are the same where they matter *)
Definition krel (D : nat -> Z -> Prop) (ss1 ss2 : list bstate) : Prop :=
  length ss1 = length ss2 /\ forall p x1 x2, nth_error ss1 p = Some x1 -> nth_error ss2 p = Some x2 -> same_in (D p) x1 x2.
Definition kboth {A} (D : nat -> Z -> Prop) (Q : A -> Prop) (r1 r2 : option (A * list bstate)) : Prop :=
  match r1, r2 with
  | Some (a1, s1), Some (a2, s2) => a1 = a2 /\ krel D s1 s2 /\ Q a1
  | None, None => True
  | _, _ => False
  end.
Definition klooks {A} (D : nat -> Z -> Prop) (Q : A -> Prop) (f : KM A) : Prop := forall s1 s2, krel D s1 s2 -> kboth D Q (f s1) (f s2).

Lemma klooks_ret {A} D (Q : A -> Prop) a : Q a -> klooks D Q (kret a).
Proof. intros q s1 s2 R. cbn. auto. Qed.
Lemma klooks_fail {A} D (Q : A -> Prop) : klooks D Q kfail.
Proof. intros s1 s2 R. exact Logic.I. Qed.
Lemma klooks_bind {A B} D (Q : A -> Prop) (R : B -> Prop) f (g : A -> KM B) : klooks D Q f -> (forall a, Q a -> klooks D R (g a)) -> klooks D R (kbind f g).
Proof.
  intros F G s1 s2 K. specialize (F s1 s2 K). unfold kbind, kboth in *. destruct (f s1) as [[a1 u1]|], (f s2) as [[a2 u2]|]; try contradiction; [|exact Logic.I].
  destruct F as (<- & K1 & q). exact (G a1 q u1 u2 K1).
Qed.
Lemma klooks_on {A} D p (m : M A) : looks (D p) m -> klooks D (fun _ => True) (k_on p m).
Proof.
  intros L s1 s2 [K1 K2]. unfold k_on. destruct (nth_error s1 p) as [x1|] eqn:E1.
  - destruct (nth_error s2 p) as [x2|] eqn:E2; [|apply nth_error_None in E2; assert (p < length s1)%nat by (apply nth_error_Some; congruence); lia].
    specialize (L x1 x2 (K2 p x1 x2 E1 E2)). unfold both in L. destruct (m x1) as [[a1 y1]|], (m x2) as [[a2 y2]|]; try contradiction; [|exact Logic.I].
    destruct L as [<- L]. cbn. split; [reflexivity|]. split; [|exact Logic.I]. split; [rewrite !set_nth_length; exact K1|].
    intros q z1 z2 Z1 Z2. destruct (Nat.eq_dec q p) as [->|Ne].
    + erewrite set_nth_nth in Z1 by eauto. erewrite set_nth_nth in Z2 by eauto. congruence.
    + rewrite set_nth_ne in Z1, Z2 by exact Ne. eauto.
  - destruct (nth_error s2 p) as [x2|] eqn:E2; [|exact Logic.I]. apply nth_error_None in E1. assert (p < length s2)%nat by (apply nth_error_Some; congruence). lia.
Qed.

(** ** A link *)
Section Link.
Variables (P : Z -> Prop) (calls : list nat) (t : target) (k : link).
Hypothesis (V : valid_target t) (Ha : covers P (lk_all t k)) (Sz : 0 <= size (udata (lbump k))).

Lemma all_next : covers P (lk_next t k).
Proof. intros y Y. apply Ha. pose proof (word_pos t V). unfold in_block, lk_next, lk_all in *. cbn [start size] in *. lia. Qed.
Lemma all_index : covers P (lk_index t k).
Proof. intros y Y. apply Ha. pose proof (word_pos t V). unfold in_block, lk_index, lk_all in *. cbn [start size] in *. lia. Qed.
Lemma all_data : covers P (udata (lbump k)).
Proof. intros y Y. apply Ha. pose proof (word_pos t V). unfold in_block, lk_all in *. cbn [start size] in *. lia. Qed.

Lemma looks_link_ref p : looks P (link_ref calls t k p).
Proof. apply looks_ref, Ha. Qed.
Lemma looks_as_bump self : looks P (lk_as_bump calls t k self).
Proof. apply looks_bind; [apply looks_link_ref|intros]. apply looks_self; [apply all_index|apply all_data]. Qed.
Lemma looks_capacity : looks P (lk_capacity calls t k).
Proof.
  apply looks_bind; [apply looks_link_ref|intros]. apply looks_bind; [apply looks_as_bump|intros].
  apply looks_bind; [apply looks_self; [apply all_index|apply all_data]|intros]. apply looks_bind; [apply looks_uc_get, all_data|intros; apply looks_ret].
Qed.
Lemma looks_remaining : looks P (lk_remaining calls t k).
Proof.
  apply looks_bind; [apply looks_link_ref|intros]. apply looks_bind; [apply looks_capacity|intros]. apply looks_bind; [apply looks_as_bump|intros].
  apply looks_mb_level; [apply all_index|apply all_data].
Qed.
Lemma looks_set_next : looks P (lk_set_next calls t k).
Proof. apply looks_bind; [apply looks_link_ref|intros]. apply looks_bind; [apply looks_link_ref|intros]. apply looks_cell_set, all_next. Qed.
Lemma looks_take_next self : looks P (lk_take_next calls t k self).
Proof. apply looks_bind; [apply looks_link_ref|intros]. apply looks_cell_set, all_next. Qed.
Lemma looks_box_take box : looks P (lk_box_take calls t k box).
Proof. apply looks_cell_set, all_next. Qed.
Lemma looks_from_raw : looks P (lk_from_raw calls t k).
Proof. apply looks_ref, Ha. Qed.
Lemma looks_drop box c : looks P (lk_drop calls t k box c).
Proof. apply looks_retag_prot. constructor; [exact Ha|constructor]. Qed.
Lemma looks_dealloc box : looks P (lk_dealloc calls t k box).
Proof. apply looks_write, Ha. Qed.

Lemma looks_bump_box l un : uok t (lbump k) -> type_layout t l -> looks P (lk_bump_box calls t k l un).
Proof.
  intros U Tl. apply looks_bind; [apply looks_link_ref|intros]. apply looks_bind; [apply looks_as_bump|intros]. intros s1 s2 G. apply both_xcall; [apply all_index|apply all_data|exact G|].
  intros s' a1 base (z & Z). cbn beta in Z. unfold mbind in Z. cbn [mret] in Z. apply bump_box_answer in Z.
  assert (R : snd (ustep t (lbump k) (UBumpBox l)) = RBlock a1) by (rewrite <- Z; reflexivity).
  destruct (ustep_place t (lbump k) (UBumpBox l) a1 V U Tl R) as (l' & _ & -> & In1 & _). intros y Y. apply all_data, In1, Y.
Qed.
End Link.

Lemma bump_box_data calls t k l un s u' r tag z : valid_target t -> uok t (lbump k) -> type_layout t l ->
  lk_bump_box calls t k l un s = Some ((u', r, tag), z) -> udata u' = udata (lbump k).
Proof.
  intros V U Tl X. apply mbind_some in X. destruct X as (a1 & z1 & _ & X). apply mbind_some in X. destruct X as (a2 & z2 & _ & X).
  apply mbind_some in X. destruct X as (a3 & z3 & _ & X). apply mbind_some in X. destruct X as ([[u1 r1] base] & z4 & E & X).
  apply bump_box_answer in E. assert (Y : udata u1 = udata (lbump k)) by (pose proof (ustep_ok t (lbump k) (UBumpBox l) V U Tl) as [_ Y]; rewrite <- E in Y; exact Y).
  destruct r1; cbn [mret] in X; try (injection X as <- _ _ _; exact Y).
  apply mbind_some in X. destruct X as (? & ? & _ & X). cbn [mret] in X. injection X as <- _ _ _. exact Y.
Qed.

(** ** Many links *)
(** [D] is what was allocated for each link *)
Definition fits (t : target) (D : nat -> Z -> Prop) (s : world) : Prop :=
  forall p k, cell (store s) p = Some k -> covers (D p) (lk_all t k) /\ 0 <= size (udata (lbump k)) /\ forall x, in_block (lraw k) x <-> D p x.

Lemma fits_put t D s p k k' : fits t D s -> cell (store s) p = Some k -> udata (lbump k') = udata (lbump k) -> lraw k' = lraw k -> fits t D (put s p k').
Proof.
  intros F C E1 E2 q kq Cq. destruct (Nat.eq_dec q p) as [->|Ne].
  - rewrite (cell_put _ _ _ _ C) in Cq. injection Cq as <-. destruct (F p k C) as (F1 & F2 & F3). rewrite E2. unfold lk_all. rewrite E1. auto.
  - rewrite cell_put_other in Cq by congruence. exact (F q kq Cq).
Qed.
Lemma fits_next t D s p k nx : fits t D s -> cell (store s) p = Some k -> fits t D (put s p (with_next k nx)).
Proof. intros F C. eapply fits_put; eauto. Qed.
Lemma fits_dealloc t D s p s' : fits t D s -> dealloc_link t s p = Some s' -> fits t D s'.
Proof.
  intros F E q kq Cq. unfold dealloc_link in E. destruct (cell (store s) p) as [k|] eqn:C; [|discriminate]. injection E as <-. cbn [store] in Cq.
  destruct (Nat.eq_dec q p) as [->|Ne].
  - apply cell_iff in Cq. apply cell_iff in C. exfalso. rewrite (ChainProofs.nth_set_nth_eq) in Cq; [discriminate|]. apply nth_error_Some. congruence.
  - apply (F q). unfold cell in *. rewrite ChainProofs.nth_set_nth_ne in Cq by congruence. exact Cq.
Qed.
Lemma fits_root t D s i r : fits t D s -> fits t D (set_root s i r).
Proof. intros F. exact F. Qed.

Section Many.
Variables (t : target) (D : nat -> Z -> Prop).
Hypothesis V : valid_target t.

Lemma klooks_from_raw calls s nx : fits t D s -> klooks D (fun _ => True) (k_from_raw calls t s nx).
Proof.
  intros F. unfold k_from_raw. destruct nx as [q|]; [|apply klooks_ret; exact Logic.I]. destruct (cell (store s) q) as [k|] eqn:C; [|apply klooks_fail].
  eapply klooks_bind; [apply klooks_on, looks_from_raw, (F q k C)|intros; apply klooks_ret; exact Logic.I].
Qed.

Lemma klooks_drop n : (forall calls c s p box, fits t D s -> klooks D (fits t D) (k_drop_box t n calls c s p box)) /\
  (forall calls c s current, fits t D s -> klooks D (fits t D) (k_drop_tail t n calls c s current)).
Proof.
  induction n as [|n [IH1 IH2]]; (split; [intros calls c s p box F|intros calls c s current F]); cbn [k_drop_box k_drop_tail]; try apply klooks_fail.
  - destruct (cell (store s) p) as [k|] eqn:C; [|apply klooks_fail]. destruct (F p k C) as (F1 & F2 & _). pose proof (fits_next t D s p k None F C) as F'.
    eapply klooks_bind; [apply klooks_on, looks_drop, F1|intros self _]. eapply klooks_bind; [apply klooks_on, looks_take_next; assumption|intros _ _].
    eapply klooks_bind; [apply klooks_from_raw, F'|intros current _]. eapply klooks_bind; [apply IH2, F'|intros s' Fs]. eapply klooks_bind; [apply klooks_on, looks_dealloc, F1|intros _ _].
    destruct (dealloc_link t s' p) as [s2|] eqn:E; [|apply klooks_fail]. apply klooks_ret. eapply fits_dealloc; eauto.
  - destruct current as [[q box]|]; [|apply klooks_ret, F]. destruct (cell (store s) q) as [k|] eqn:C; [|apply klooks_fail]. destruct (F q k C) as (F1 & F2 & _). pose proof (fits_next t D s q k None F C) as F'.
    eapply klooks_bind; [apply klooks_on, looks_take_next; assumption|intros _ _]. eapply klooks_bind; [apply klooks_from_raw, F'|intros next _].
    eapply klooks_bind; [apply IH1, F'|intros s' Fs]. apply IH2, Fs.
Qed.

Lemma klooks_chain_loop n : forall calls c s current, fits t D s -> klooks D (fits t D) (k_drop_chain_loop t n calls c s current).
Proof.
  induction n as [|n IH]; intros calls c s current F; cbn [k_drop_chain_loop]; [apply klooks_fail|]. destruct current as [p|]; [|apply klooks_ret, F].
  destruct (cell (store s) p) as [k|] eqn:C; [|apply klooks_fail]. destruct (F p k C) as (F1 & F2 & _). pose proof (fits_next t D s p k None F C) as F'.
  eapply klooks_bind; [apply klooks_on, looks_from_raw, F1|intros box _]. eapply klooks_bind; [apply klooks_on, looks_box_take; assumption|intros _ _].
  eapply klooks_bind; [apply klooks_drop, F'|intros s' Fs]. apply IH, Fs.
Qed.

Lemma klooks_drop_chain calls c s i : fits t D s -> klooks D (fits t D) (k_drop_chain t calls c s i).
Proof. intros F. unfold k_drop_chain. destruct (cell (chains s) i); [|apply klooks_fail]. apply klooks_chain_loop. exact F. Qed.

Lemma klooks_set_next calls c s p nx : fits t D s -> klooks D (fits t D) (k_set_next t calls c s p nx).
Proof.
  intros F. unfold k_set_next. destruct (cell (store s) p) as [k|] eqn:C; [|apply klooks_fail]. destruct (F p k C) as (F1 & F2 & _). pose proof (fits_next t D s p k nx F C) as F'.
  eapply klooks_bind; [apply klooks_on, looks_set_next; assumption|intros _ _]. eapply klooks_bind; [apply klooks_from_raw, F'|intros [[q box]|] _]; [|apply klooks_ret, F'].
  apply klooks_drop, F'.
Qed.

Lemma klooks_chain calls c s i j : fits t D s -> klooks D (fits t D) (k_chain t calls c s i j).
Proof.
  intros F. unfold k_chain. destruct (cell (chains s) i) as [a|]; [|apply klooks_fail]. destruct (cell (chains s) j) as [[b|]|]; [| |apply klooks_fail].
  - eapply klooks_bind; [apply klooks_set_next, F|intros s1 F1]. apply klooks_drop_chain. exact F1.
  - apply klooks_drop_chain, F.
Qed.

Lemma klooks_root {A} (Q : A -> Prop) s i none f : fits t D s -> Q none -> (forall p k, cell (store s) p = Some k -> klooks D Q (f p k)) -> klooks D Q (k_root s i none f).
Proof.
  intros F q G. unfold k_root. destruct (cell (chains s) i) as [[p|]|]; [|apply klooks_ret, q|apply klooks_fail]. destruct (cell (store s) p) as [k|] eqn:C; [|apply klooks_fail]. auto.
Qed.

Lemma klooks_call calls c s o un : fits t D s -> owner_ok t s o -> (forall p k, cell (store s) p = Some k -> uok t (lbump k)) -> (forall sz addr, o <> ONew sz addr) ->
  klooks D (fun x => fits t D (fst (fst x))) (k_call t calls c s o un).
Proof.
  intros F O U No. destruct o as [sz addr|i j|i l|i|i|i]; cbn [k_call].
  - destruct (No sz addr eq_refl).
  - eapply klooks_bind; [apply klooks_chain, F|intros s' Fs]. apply klooks_ret. exact Fs.
  - apply klooks_root; [exact F|exact F|intros p k C]. destruct (F p k C) as (F1 & F2 & _). destruct O as [_ Tl].
    intros s1 s2 R. unfold kbind. pose proof (klooks_on D p _ (looks_bump_box (D p) calls t k V F1 F2 l un (U p k C) Tl) s1 s2 R) as B. unfold kboth in B.
    destruct (k_on p (lk_bump_box calls t k l un) s1) as [[[[b1 r1] tag1] u1]|] eqn:E1, (k_on p (lk_bump_box calls t k l un) s2) as [[[[b2 r2] tag2] u2]|]; try contradiction; [|exact Logic.I].
    destruct B as (E & B & _). injection E as <- <- <-. cbn [kret kboth]. split; [reflexivity|]. split; [exact B|]. cbn [fst].
    eapply fits_put; [exact F|exact C| |reflexivity]. cbn [lbump with_bump].
    unfold k_on in E1. destruct (nth_error s1 p) as [x1|]; [|discriminate]. destruct (lk_bump_box calls t k l un x1) as [[a1 y1]|] eqn:Eb; [|discriminate]. injection E1 as -> _.
    exact (bump_box_data calls t k l un x1 b1 r1 tag1 y1 V (U p k C) Tl Eb).
  - apply klooks_root; [exact F|exact F|intros p k C]. destruct (F p k C) as (F1 & F2 & _). eapply klooks_bind; [apply klooks_on, looks_capacity; assumption|intros _ _]. apply klooks_ret. exact F.
  - apply klooks_root; [exact F|exact F|intros p k C]. destruct (F p k C) as (F1 & F2 & _). eapply klooks_bind; [apply klooks_on, looks_remaining; assumption|intros lv _]. apply klooks_ret. exact F.
  - eapply klooks_bind; [apply klooks_drop_chain, F|intros s' Fs]. apply klooks_ret. exact Fs.
Qed.
End Many.

(** ** The invariant *)
Definition dom (s : world) (p : nat) (x : Z) : Prop := exists k, cell (store s) p = Some k /\ in_block (lraw k) x.
Definition placed (t : target) (s : world) : Prop := forall p k, cell (store s) p = Some k -> inside (lk_all t k) (lraw k) /\ 0 <= size (udata (lbump k)).
Definition with_ksbs (w : kworld) (ss : list bstate) : kworld := MkK (kw w) ss (kobjs w) (kprots w) (kbusy w) (kcalls w).
Definition kinvb (t : target) (w : kworld) (i : kideal) (f : nat -> list nat) : Prop :=
  exists ss, kinv t (with_ksbs w ss) i f /\ krel (dom (kw w)) ss (ksbs w) /\ placed t (kw w).

Lemma placed_fits t s : placed t s -> fits t (dom s) s.
Proof.
  intros P p k C. destruct (P p k C) as [P1 P2]. split; [|split; [exact P2|]].
  - intros y Y. exists k. split; [exact C|apply P1, Y].
  - intros x. split; [intros X; exists k; auto|intros (k' & C' & X)]. congruence.
Qed.
Lemma fits_placed t D s : fits t D s -> placed t s /\ forall p x, dom s p x -> D p x.
Proof.
  intros F. split.
  - intros p k C. destruct (F p k C) as (F1 & F2 & F3). split; [|exact F2]. intros x X. apply F3, F1, X.
  - intros p x (k & C & X). destruct (F p k C) as (_ & _ & F3). apply F3, X.
Qed.
Lemma krel_mono (D D' : nat -> Z -> Prop) a b : (forall p x, D' p x -> D p x) -> krel D a b -> krel D' a b.
Proof. intros S0 [K1 K2]. split; [exact K1|]. intros p x1 x2 E1 E2. destruct (K2 p x1 x2 E1 E2) as [X1 X2]. split; [exact X1|]. intros y Y. apply X2, S0, Y. Qed.

Lemma kinvb_new t : kinvb t knew kideal_new (fun _ => []).
Proof.
  exists []. split; [apply kinv_new|]. split; [split; [reflexivity|intros [|p] x1 x2; discriminate]|]. intros p k C. unfold cell in C. cbn in C. destruct p; discriminate.
Qed.

Lemma kstep_invb t w i f o : valid_target t -> kinvb t w i f -> kop_ok t w o ->
  exists i' f', kistep t i o (snd (kstep t w o)) i' /\ kinvb t (fst (kstep t w o)) i' f' /\
    match o with
    | KOp q _ => exists r blk, snd (kstep t w o) = KAns r blk /\ cstep t (kw w) q = Some (kw (fst (kstep t w o)), r)
    | _ => kw (fst (kstep t w o)) = kw w
    end.
Proof.
  intros V (ss & I & R & P) K. destruct (kstep_inv t (with_ksbs w ss) i f o V I K) as (i' & f' & St & I' & Q). exists i', f'.
  cut (exists ss', kstep_w t (with_ksbs w ss) o = (with_ksbs (fst (kstep t w o)) ss', snd (kstep t w o)) /\ krel (dom (kw (fst (kstep t w o)))) ss' (ksbs (fst (kstep t w o))) /\ placed t (kw (fst (kstep t w o)))).
  { intros (ss' & E & R' & P'). rewrite E in St, I', Q. cbn [fst snd] in *. split; [exact St|]. split; [exists ss'; auto|]. destruct o; exact Q. }
  clear St I' Q i' f'. pose proof (placed_fits t _ P) as F. pose proof I as []. unfold with_ksbs in *. cbn [kw ksbs kobjs kprots kbusy kcalls] in *.
  destruct o as [o u|p j a| |c].
  - assert (No : (exists sz addr, o = ONew sz addr) \/ forall sz addr, o <> ONew sz addr) by (destruct o; [left; eauto| | | | |]; right; discriminate).
    destruct No as [(sz & addr & ->)|No].
    + cbn [kstep_w kstep k_call kw ksbs kobjs kprots kbusy kcalls]. destruct K as [[Hz Ha] _]. destruct (link_alloc t sz addr) as [k l|n] eqn:E.
      2:{ exists ss. cbn. split; [reflexivity|]. auto. }
      eexists. cbn [fst snd kw ksbs kobjs_after]. split; [reflexivity|]. cbn [ksbs kw store].
      assert (Cl : forall q kq, cell (store (kw w) ++ [Some k]) q = Some kq -> cell (store (kw w)) q = Some kq \/ q = length (store (kw w)) /\ kq = k).
      { intros q kq C. unfold cell in *. destruct (Nat.lt_ge_cases q (length (store (kw w)))) as [Hl|Hl]; [left; rewrite nth_error_app1 in C by exact Hl; exact C|].
        rewrite nth_error_app2 in C by exact Hl. destruct (q - length (store (kw w)))%nat as [|[|d]] eqn:D; try discriminate. injection C as <-. right. split; [lia|reflexivity]. }
      split.
      * destruct R as [R1 R2]. split; [rewrite !app_length; cbn; lia|]. intros q x1 x2 E1 E2.
        destruct (Nat.lt_ge_cases q (length ss)) as [Hl|Hl].
        -- rewrite nth_error_app1 in E1 by exact Hl. rewrite nth_error_app1 in E2 by lia. destruct (R2 q x1 x2 E1 E2) as [X1 X2]. split; [exact X1|].
           intros y (kq & Cq & Y). apply X2. cbn [store] in Cq. destruct (Cl q kq Cq) as [Cq'|[Q _]]; [exists kq; auto|lia].
        -- rewrite nth_error_app2 in E1 by exact Hl. rewrite nth_error_app2 in E2 by lia. rewrite R1 in *. destruct (q - length (ksbs w))%nat as [|[|d]] eqn:D; try discriminate.
           injection E1 as <-. injection E2 as <-. split; [reflexivity|]. intros y (kq & Cq & Y). cbn [store] in Cq. destruct (Cl q kq Cq) as [Cq'|[_ ->]].
           { apply cell_lt in Cq'. lia. }
           cbn [wide_link new_link stk]. unfold allocated. cbn [existsb]. apply inb_iff in Y. rewrite Y. reflexivity.
      * intros q kq Cq. cbn [store] in Cq. destruct (Cl q kq Cq) as [Cq'|[_ ->]]; [exact (P q kq Cq')|].
        unfold link_alloc in E. destruct (link_layout_from_size t sz) as [l'|] eqn:El; [|discriminate]. destruct addr as [a|]; [|discriminate]. remember (a + 2 * word_bytes t + word_bytes t) as d eqn:Ed. injection E as <- <-.
        destruct Hz as [Hz _]. destruct (link_layout_spec t sz l' V Hz El) as [_ Hle]. pose proof (word_pos t V). cbn [lbump lraw u_fresh udata size start]. split; [|exact Hz].
        unfold lk_all. cbn [lbump u_fresh udata size start]. apply inside_intro; cbn [start size]; lia.
    + assert (B : kboth (dom (kw w)) (fun x => fits t (dom (kw w)) (fst (fst x))) (k_call t (kbusy w) (kcalls w) (kw w) o u ss) (k_call t (kbusy w) (kcalls w) (kw w) o u (ksbs w))).
      { apply klooks_call; [exact V|exact F|exact (proj1 K)| |exact No|exact R].
        intros p k C. apply cell_iff in C. eapply (ci_links _ _ _ _ k_c) in C. apply C. }
      replace (kstep_w t _ (KOp o u)) with (kstep t (MkK (kw w) ss (kobjs w) (kprots w) (kbusy w) (kcalls w)) (KOp o u)) by (destruct o as [sz addr|? ?|? ?|?|?|?]; [destruct (No sz addr eq_refl)| | | | |]; reflexivity).
      cbn [kstep kw ksbs kobjs kprots kbusy kcalls]. unfold kboth in B.
      destruct (k_call _ _ _ _ _ _ ss) as [[[[s1 r1] b1] ss1]|], (k_call _ _ _ _ _ _ (ksbs w)) as [[[[s2 r2] b2] ss2]|]; try contradiction.
      * destruct B as (E & B & Fs). injection E as <- <- <-. exists ss1. cbn [fst snd kw ksbs] in *. destruct (fits_placed _ _ _ Fs) as [P' M]. split; [reflexivity|]. split; [exact (krel_mono _ _ _ _ M B)|exact P'].
      * exists ss. split; [reflexivity|]. auto.
  - cbn [kstep_w kstep kw ksbs kobjs kprots kbusy kcalls]. change (objs_of (MkK (kw w) ss (kobjs w) (kprots w) (kbusy w) (kcalls w)) p) with (objs_of w p).
    change (prots_of (MkK (kw w) ss (kobjs w) (kprots w) (kbusy w) (kcalls w)) p) with (prots_of w p).
    destruct (cell (store (kw w)) p) as [k|] eqn:C; [|exists ss; split; [reflexivity|auto]].
    destruct (k_links p k C) as (x & Fs & Ex & Il). destruct (nth_error (objs_of w p) j) as [ob|] eqn:Eo; [|exists ss; split; [reflexivity|auto]]. rewrite Ex.
    destruct R as [R1 R2]. destruct (nth_error (ksbs w) p) as [y|] eqn:Ey.
    2:{ exfalso. apply nth_error_None in Ey. assert (p < length ss)%nat by (apply nth_error_Some; congruence). lia. }
    destruct (act_ok ob a && prot_ok (kbusy w) a) eqn:A; [|exists ss; split; [reflexivity|]; split; [split; assumption|exact P]].
    apply andb_true_iff in A. destruct A as [A _].
    assert (Cv : covers (dom (kw w) p) (oblk ob)).
    { pose proof (l_objs _ _ _ _ _ _ _ _ Il) as Lo. unfold objs_of in Eo. rewrite <- Lo in Eo. rewrite nth_error_map in Eo. destruct (nth_error (nth p (ilinks i) []) j) as [io|] eqn:Ei; [|discriminate]. injection Eo as <-. cbn [oblk].
      destruct (forall2_nth _ _ _ _ _ (l_sub _ _ _ _ _ _ _ _ Il) Ei) as (o1 & E1 & S1). intros z Z. destruct (F p k C) as (F1 & F2 & _). apply (all_data (dom (kw w) p) t k V F1).
      apply (l_below _ _ _ _ _ _ _ _ Il o1 z (nth_error_In _ _ E1)). destruct S1 as (r & [B1 _ _ _]). rewrite B1. exact Z. }
    pose proof (looks_act _ ob (kbusy w) a Cv A x y (R2 p x y Ex Ey)) as B. unfold both in B.
    destruct (do_act (kbusy w) a x) as [[n s1]|], (do_act (kbusy w) a y) as [[n2 s2]|]; try contradiction.
    + destruct B as [<- B]. exists (BorrowModel.set_nth ss p s1). split; [reflexivity|]. cbn [fst kw ksbs]. split; [|exact P]. split; [rewrite !set_nth_length; exact R1|].
      intros q z1 z2 Z1 Z2. destruct (Nat.eq_dec q p) as [->|Ne].
      * erewrite set_nth_nth in Z1 by eauto. erewrite set_nth_nth in Z2 by eauto. congruence.
      * rewrite set_nth_ne in Z1, Z2 by exact Ne. eauto.
    + exists ss. split; [reflexivity|]. split; [split; assumption|exact P].
  - exists ss. split; [reflexivity|]. auto.
  - exists ss. split; [reflexivity|]. auto.
Qed.

(** ** Programs *)
Lemma krun_invb t os : valid_target t -> forall w i f, kinvb t w i f -> kprog_ok t w os ->
  exists i' f', kiruns t i (snd (krun t w os)) i' /\ kinvb t (fst (krun t w os)) i' f' /\
    crun t (kw w) (cops_of os) = Some (kw (fst (krun t w os)), canswers_of (snd (krun t w os))).
Proof.
  intros V. induction os as [|o os IH]; intros w i f I P; cbn [krun].
  - exists i, f. cbn. split; [constructor|]. auto.
  - destruct P as [P1 P2]. destruct (kstep_invb t w i f o V I P1) as (i1 & f1 & X1 & X2 & X3). destruct (IH _ _ _ X2 P2) as (i2 & f2 & Y1 & Y2 & Y3).
    destruct (kstep t w o) as [w1 r]. cbn [fst snd] in *. destruct (krun t w1 os) as [w2 h]. cbn [fst snd] in *. exists i2, f2. split; [econstructor; eauto|]. split; [exact Y2|].
    destruct o as [o u|p j a| |c]; cbn [cops_of canswers_of]; try (rewrite X3 in Y3; exact Y3). destruct X3 as (r' & blk & -> & E). cbn [crun]. rewrite E, Y3. reflexivity.
Qed.

