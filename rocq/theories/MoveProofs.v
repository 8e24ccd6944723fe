From Verif Require Import Base Spec BaseFacts SyncModel SyncSpec SyncProofs SyncMemModel SyncMemSpec SyncMemProofs UnsyncModel UnsyncProofs
  ExitModel ExitSpec ExitProofs ExitRefSpec OwnModel OwnProofs MoveModel MoveSpec.

Lemma pop_top t vt boom s : etop (fst (inner_pop_all t vt boom s)) = None.
Proof. unfold inner_pop_all. destruct (pop_loop _ _ _ _ _ _ _) as [log []]; [destruct (emem_deref t s)|..]; reflexivity. Qed.

Lemma eslot_top t s l : etop (fst (eslot t s l)) = etop s /\ egone (fst (eslot t s l)) = egone s.
Proof.
  unfold eslot. destruct (emem_deref t s) as [f|]; [|auto]. destruct (u_bump_box _ _ _) as [u [[a|]|]]; auto.
Qed.

(** A stack that is gone has no values. *)
Lemma pop_gone t vt boom s : egone (fst (inner_pop_all t vt boom s)) = egone s.
Proof. unfold inner_pop_all. destruct (pop_loop _ _ _ _ _ _ _) as [log []]; [destruct (emem_deref t s)|..]; reflexivity. Qed.

Lemma gone_empty t vt boom s o : (egone s = true -> etop s = None) -> egone (fst (estep t vt boom s o)) = true -> etop (fst (estep t vt boom s o)) = None.
Proof.
  intros G. unfold estep. destruct (egone s) eqn:Eg; [intros _; auto|].
  destruct o; cbn [fst].
  - destruct (eslot_top t s (vt v)) as [K1 K2]. destruct (eslot t s (vt v)) as [s' [[a|]|k]]; cbn [fst with_toks egone] in *; congruence.
  - destruct (nth_error (etoks s) j) as [[a v []]|]; cbn [fst with_toks egone]; congruence.
  - destruct (nth_error (etoks s) j) as [[a v []]|]; cbn [fst egone]; try congruence. destruct (_ =? _); cbn [fst epin egone]; congruence.
  - destruct (nth_error (etoks s) j) as [[a v []]|]; cbn [fst egone]; try congruence. destruct (_ =? _); cbn [fst egone]; congruence.
  - destruct (nth_error (etoks s) j) as [[a v []]|]; cbn [fst egone]; congruence.
  - pose proof (pop_top t vt boom s). destruct (inner_pop_all t vt boom s); cbn [fst] in *. auto.
  - destruct (negb _); [cbn [fst]; congruence|]. pose proof (pop_top t vt boom s) as P1. pose proof (pop_gone t vt boom s) as P2.
    destruct (inner_pop_all t vt boom s) as [s1 r]; cbn [fst] in *. destruct r; cbn [fst]; auto.
    + destruct (eslot_top t s1 (vt v)) as [K1 K2]. destruct (eslot t s1 (vt v)) as [s2 [[a|]|k]]; cbn [fst epin drop_arg egone etop] in *; congruence.
  - pose proof (pop_top t vt boom s). destruct (inner_pop_all t vt boom s) as [s' r]; cbn [fst etop] in *. auto.
Qed.

Lemma chain_none t m st : chain t m None st -> st = [].
Proof. destruct st; [reflexivity|]. cbn. intros [E _]. discriminate. Qed.

(** ** The invariant of careful programs *)
Definition vinv t vt lm (s : estate) : Prop :=
  stack_ok t (ebase s) lm /\ (exists st lost, einv t vt (ebase s) lm s st lost) /\ (egone s = true -> etop s = None).

Lemma vinv_new t vt base lm m : valid_target t -> stack_ok t base lm -> vinv t vt lm (enew base lm m).
Proof. intros Ht Hs. split; [exact Hs|]. split; [exists [], []; apply enew_inv; auto|]. discriminate. Qed.

Lemma vinv_call t vt boom lm s o : valid_target t -> vinv t vt lm s -> eop_ok t vt o -> vinv t vt lm (fst (estep t vt boom s o)).
Proof.
  intros Ht (Hs & (st & lost & I) & G) Ho.
  destruct (estep_inv t vt boom _ lm s st lost o Ht Hs I Ho) as (st' & lost' & I').
  pose proof (ei_base _ _ _ _ _ _ _ I') as E. split; [rewrite E; exact Hs|]. split; [exists st', lost'; rewrite E; exact I'|].
  apply gone_empty. exact G.
Qed.

Lemma vinv_move t vt lm s a : valid_target t -> vinv t vt lm s -> stack_ok t a lm ->
  (forall st lost, history (elog s) st lost -> st = []) -> vinv t vt lm (emove t s a).
Proof.
  intros Ht (Hs & (st & lost & I) & G) Ha E. split; [exact Ha|]. split; [|exact G].
  pose proof (E _ _ (ei_hist _ _ _ _ _ _ _ I)) as ->. exists [], lost.
  destruct (data_ok t a lm Ht Ha) as (R & _).
  constructor; cbn [emove elog ebase emlay etop ebytes etoks eindex]; try (constructor; fail); auto; try apply I.
  - pose proof (ei_ok _ _ _ _ _ _ _ I) as [_ K]. split; [exact R|]. cbn [slab_of consumed uindex storage udata data_block size] in *. exact K.
  - apply pairwise_nil.
Qed.

Lemma vinv_forget t vt lm s : valid_target t -> vinv t vt lm s -> (forall st lost, history (elog s) st lost -> st = []) -> vinv t vt lm (eforget s).
Proof.
  intros Ht (Hs & (st & lost & I) & G) E. split; [exact Hs|].
  pose proof (E _ _ (ei_hist _ _ _ _ _ _ _ I)) as ->. split.
  - exists [], lost. constructor; cbn [eforget elog ebase emlay etop ebytes etoks eindex]; try (constructor; fail); auto; try apply I. apply pairwise_nil.
  - intros _. exact (ei_chain _ _ _ _ _ _ _ I).
Qed.

Lemma entry_in_place t vt base lm s st lost e : valid_target t -> stack_ok t base lm -> einv t vt base lm s st lost -> In e st ->
  inside (entry_block t vt e) (place t s) /\ inside (value_block t vt (en_addr e) (en_vt e)) (entry_block t vt e) /\ 0 < size (entry_block t vt e).
Proof.
  intros Ht Hs I K. destruct (data_ok t base lm Ht Hs) as (R & DI & _ & P).
  pose proof (ei_below _ _ _ _ _ _ _ I) as B. rewrite Forall_forall in B.
  destruct (B (entry_block t vt e)) as [B1 B2]; [apply in_or_app; left; apply in_map; exact K|].
  pose proof (ei_entries _ _ _ _ _ _ _ I) as F. rewrite Forall_forall in F. destruct (F e K) as (_ & T1 & T2 & _ & _).
  destruct (voff_facts t _ Ht T1) as (V1 & V2 & V3 & V4). destruct (tl_pos t _ T1) as [A1 A2].
  pose proof (ei_ok _ _ _ _ _ _ _ I) as [_ K2]. cbn [slab_of consumed uindex storage udata data_block size] in K2.
  assert (PL : place t s = MkBlock base (lsize (bump_layout t (pin_layout t lm)))) by (unfold place; rewrite (ei_base _ _ _ _ _ _ _ I), (ei_lay _ _ _ _ _ _ _ I); reflexivity).
  assert (S0 : size (entry_block t vt e) = lsize (pin_layout t (vt (en_vt e)))) by reflexivity.
  split; [|split].
  - rewrite PL. intros x Hx. apply DI. unfold in_block, data_block in *. cbn [start size] in *. lia.
  - intros x Hx. apply in_slot; auto. unfold in_block, value_block in Hx. cbn [start size] in Hx. pose proof (word_pos t Ht). lia.
  - rewrite S0. exact V4.
Qed.

Lemma vinv_write t vt lm s p bs : valid_target t -> vinv t vt lm s ->
  (egone s = true \/ p + Z.of_nat (length bs) <= ebase s \/ ebase s + size (place t s) <= p) -> vinv t vt lm (ewrite s p bs).
Proof.
  intros Ht (Hs & (st & lost & I) & G) A. split; [exact Hs|]. split; [|exact G]. exists st, lost.
  assert (D : Forall (fun e => disjoint (MkBlock p (Z.of_nat (length bs))) (entry_block t vt e)) st).
  { rewrite Forall_forall. intros e K. destruct A as [A|A].
    - pose proof (ei_chain _ _ _ _ _ _ _ I) as C. rewrite (G A) in C. apply chain_none in C. subst st. destruct K.
    - destruct (entry_in_place t vt _ lm s st lost e Ht Hs I K) as (B & _ & _). intros x [X1 X2]. specialize (B x X2).
      unfold in_block, place in *. cbn [start size] in *. lia. }
  assert (SO : same_outside (MkBlock p (Z.of_nat (length bs))) (ebytes s) (mem_write (ebytes s) p bs)).
  { apply mem_write_outside. lia. }
  constructor; cbn [ewrite elog ebase emlay etop ebytes etoks eindex]; try apply I.
  - eapply chain_frame; [exact Ht|exact SO|apply I|exact D|apply I].
  - pose proof (ei_entries _ _ _ _ _ _ _ I) as F. rewrite Forall_forall in *. intros e K. eapply entry_frame; [exact Ht|auto|apply D; exact K|exact SO].
Qed.

Lemma vinv_sound t vt lm s : valid_target t -> vinv t vt lm s -> sound_stack t vt s.
Proof.
  intros Ht (Hs & (st & lost & I) & G). exists st, lost. split; [apply I|]. intros _. rewrite Forall_forall. intros e K.
  destruct (entry_in_place t vt _ lm s st lost e Ht Hs I K) as (B1 & B2 & _). split; [intros x X; apply B1, B2; exact X|].
  pose proof (ei_entries _ _ _ _ _ _ _ I) as F. rewrite Forall_forall in F. apply (F e K).
Qed.

Lemma vrun_app t vt boom u os1 : forall os2 s, fst (vrun t vt boom u s (os1 ++ os2)) = fst (vrun t vt boom u (fst (vrun t vt boom u s os1)) os2).
Proof.
  induction os1 as [|o os1 IH]; intros os2 s; cbn [vrun app]; [reflexivity|]. destruct (vstep t vt boom u s o) as [s1 r].
  specialize (IH os2 s1). destruct (vrun t vt boom u s1 (os1 ++ os2)), (vrun t vt boom u s1 os1). exact IH.
Qed.

Lemma careful_inv t vt boom u base lm m : valid_target t -> stack_ok t base lm -> forall os, Forall (vop_ok t vt lm) os ->
  moves_only_when_empty t vt boom u base lm m os -> vinv t vt lm (vst (fst (vrun t vt boom u (MkV (enew base lm m) false) os))).
Proof.
  intros Ht Hs os. induction os as [|o os IH] using rev_ind; intros F C; [apply vinv_new; auto|].
  apply Forall_app in F. destruct F as [F1 F2]. inversion F2 as [|? ? O _]; subst.
  assert (C1 : moves_only_when_empty t vt boom u base lm m os).
  { intros a b c E R. apply (C a b (c ++ [o])); [rewrite E, <- app_assoc; reflexivity|exact R]. }
  specialize (IH F1 C1). rewrite vrun_app. pose proof (C os o [] eq_refl) as C2.
  remember (fst (vrun t vt boom u (MkV (enew base lm m) false) os)) as s eqn:Es. clear Es. cbn [vrun].
  assert (E : fst (let (s1, r) := vstep t vt boom u s o in (s1, [r])) = fst (vstep t vt boom u s o)) by (destruct (vstep t vt boom u s o); reflexivity).
  rewrite E. clear E. unfold vstep. destruct o as [o|a| |p bs]; cbn [relocates vop_ok] in *.
  - pose proof (vinv_call t vt boom lm (vst s) o Ht IH O) as K. destruct (estep t vt boom (vst s) o). exact K.
  - destruct (may_move u s); cbn [fst vst]; [|exact IH]. apply vinv_move; auto. apply C2. exact Logic.I.
  - destruct (may_move u s); cbn [fst vst]; [|exact IH]. apply vinv_forget; auto. apply C2. exact Logic.I.
  - destruct (client_memory t s p (Z.of_nat (length bs))) eqn:M; cbn [fst vst]; [|exact IH]. apply vinv_write; auto.
    unfold client_memory in M. rewrite !orb_true_iff, !Z.leb_le in M. destruct M as [[M|M]|M]; auto.
Qed.

(** A stack of a type that is not Unpin is never moved after its first use. *)
Lemma unused_empty t vt boom u base lm m os : vused (fst (vrun t vt boom u (MkV (enew base lm m) false) os)) = false ->
  elog (vst (fst (vrun t vt boom u (MkV (enew base lm m) false) os))) = [].
Proof.
  induction os as [|o os IH] using rev_ind; [reflexivity|]. rewrite vrun_app.
  remember (fst (vrun t vt boom u (MkV (enew base lm m) false) os)) as s eqn:Es. clear Es. cbn [vrun].
  assert (E : fst (let (s1, r) := vstep t vt boom u s o in (s1, [r])) = fst (vstep t vt boom u s o)) by (destruct (vstep t vt boom u s o); reflexivity).
  rewrite E. clear E. unfold vstep. destruct o as [o|a| |p bs].
  - destruct (estep t vt boom (vst s) o). discriminate.
  - destruct (may_move u s); cbn [fst vst vused emove elog]; auto.
  - destruct (may_move u s); cbn [fst vst vused eforget elog]; auto.
  - destruct (client_memory _ _ _ _); cbn [fst vst vused ewrite elog]; auto.
Qed.

Lemma pinned_inv t vt boom base lm m : valid_target t -> stack_ok t base lm -> forall os, Forall (vop_ok t vt lm) os ->
  vinv t vt lm (vst (fst (vrun t vt boom false (MkV (enew base lm m) false) os))).
Proof.
  intros Ht Hs os. induction os as [|o os IH] using rev_ind; intros F; [apply vinv_new; auto|].
  apply Forall_app in F. destruct F as [F1 F2]. inversion F2 as [|? ? O _]; subst. specialize (IH F1).
  pose proof (unused_empty t vt boom false base lm m os) as UE. rewrite vrun_app.
  remember (fst (vrun t vt boom false (MkV (enew base lm m) false) os)) as s eqn:Es. clear Es. cbn [vrun].
  assert (E : fst (let (s1, r) := vstep t vt boom false s o in (s1, [r])) = fst (vstep t vt boom false s o)) by (destruct (vstep t vt boom false s o); reflexivity).
  rewrite E. clear E.
  assert (C2 : may_move false s = true -> forall st lost, history (elog (vst s)) st lost -> st = []).
  { unfold may_move. rewrite andb_true_iff. cbn [orb]. rewrite negb_true_iff, negb_true_iff. intros [_ U] st lost H. rewrite (UE U) in H.
    apply history_length in H. destruct st; [reflexivity|]. cbn in H. lia. }
  unfold vstep. destruct o as [o|a| |p bs]; cbn [relocates vop_ok] in *.
  - pose proof (vinv_call t vt boom lm (vst s) o Ht IH O) as K. destruct (estep t vt boom (vst s) o). exact K.
  - destruct (may_move false s) eqn:MM; cbn [fst vst]; [|exact IH]. apply vinv_move; auto; apply C2; auto.
  - destruct (may_move false s) eqn:MM; cbn [fst vst]; [|exact IH]. apply vinv_forget; auto; apply C2; auto.
  - destruct (client_memory t s p (Z.of_nat (length bs))) eqn:M; cbn [fst vst]; [|exact IH]. apply vinv_write; auto.
    unfold client_memory in M. rewrite !orb_true_iff, !Z.leb_le in M. destruct M as [[M|M]|M]; auto.
Qed.

(** ** Moving with values: the stack still uses its old place *)
Lemma moved_live t vt boom lm s e st lost a bs : valid_target t -> vinv t vt lm (vst s) -> egone (vst s) = false ->
  history (elog (vst s)) (e :: st) lost -> stack_ok t a lm -> disjoint (MkBlock a (size (place t (vst s)))) (place t (vst s)) ->
  Z.of_nat (length bs) = lsize (vt (en_vt e)) -> 0 < lsize (vt (en_vt e)) ->
  exists s1 s2 s3 more r, vstep t vt boom true s (VMove a) = (s1, EADone) /\
    vstep t vt boom true s1 (VWrite (en_addr e + value_offset t (vt (en_vt e))) bs) = (s2, EADone) /\
    vstep t vt boom true s2 (VCall EDropStack) = (s3, r) /\
    elog (vst s3) = elog (vst s) ++ EvDrop (en_addr e) (en_vt e) bs :: more /\
    place t (vst s1) = MkBlock a (size (place t (vst s))) /\ disjoint (value_block t vt (en_addr e) (en_vt e)) (place t (vst s1)).
Proof.
  intros Ht (Hs & (st0 & lost0 & I) & G) Eg H Ha D L NZ.
  destruct (history_unique _ _ _ (ei_hist _ _ _ _ _ _ _ I) _ _ H) as [-> ->].
  destruct (entry_in_place t vt _ lm (vst s) _ _ e Ht Hs I (or_introl eq_refl)) as (P1 & P2 & _).
  pose proof (ei_chain _ _ _ _ _ _ _ I) as C. cbn [chain] in C. destruct C as (Etop & link & LK & _).
  pose proof (ei_entries _ _ _ _ _ _ _ I) as F. inversion F as [|? ? (U & T1 & T2 & LB & RB) _]; subst.
  destruct (voff_facts t _ Ht T1) as (V1 & V2 & V3 & V4). destruct (tl_pos t _ T1) as [A1 A2]. pose proof (word_pos t Ht) as W.
  set (v := en_vt e) in *. set (b := en_addr e) in *. set (off := value_offset t (vt v)) in *.
  set (n := size (place t (vst s))) in *.
  pose (s1 := MkV (emove t (vst s) a) (vused s)).
  pose (s2 := MkV (ewrite (vst s1) (b + off) bs) (vused s)).
  assert (PL : place t (vst s1) = MkBlock a n) by reflexivity.
  assert (M1 : vstep t vt boom true s (VMove a) = (s1, EADone)) by (unfold vstep, may_move; rewrite Eg; reflexivity).
  assert (DV : disjoint (value_block t vt b v) (MkBlock a n)).
  { intros x [X1 X2]. apply (D x). split; [exact X2|]. apply P1, P2. exact X1. }
  assert (n0 : 0 < n). { destruct (data_ok t a lm Ht Ha) as (_ & DI & _ & DP). unfold n, place. cbn [size]. rewrite (ei_lay _ _ _ _ _ _ _ I).
    apply inside_elim in DI; [|exact DP]. unfold data_block in DI. cbn [start size] in *. lia. }
  assert (CM : client_memory t s1 (b + off) (Z.of_nat (length bs)) = true).
  { unfold client_memory. cbn [s1 vst emove egone ebase]. rewrite Eg. cbn [orb]. rewrite orb_true_iff, !Z.leb_le.
    change (size (place t (emove t (vst s) a))) with n. rewrite L.
    destruct (Z.le_gt_cases (b + off + lsize (vt v)) a); [auto|]. destruct (Z.le_gt_cases (a + n) (b + off)); [auto|]. exfalso.
    apply (DV (Z.max (b + off) a)). unfold in_block, value_block. cbn [start size]. fold off. lia. }
  assert (M2 : vstep t vt boom true s1 (VWrite (b + off) bs) = (s2, EADone)) by (unfold vstep; rewrite CM; reflexivity).
  assert (BV : mem_read (ebytes (vst s2)) (b + off) (lsize (vt v)) = bs).
  { cbn [s2 vst ewrite ebytes]. rewrite <- L. apply OwnProofs.write_read. lia. }
  assert (LK2 : load_link t (ebytes (vst s2)) b = Some link).
  { rewrite <- LK. apply load_link_same; [exact Ht|]. intros x Hx. cbn [s2 s1 vst ewrite ebytes emove].
    rewrite (mem_write_outside _ (b + off) bs (Z.of_nat (length bs)) ltac:(lia)) by (unfold in_block; cbn [start size]; lia).
    apply (mem_copy_outside _ _ _ n); [fold n; lia|]. intros Q. apply (D x). split; [exact Q|]. apply P1. apply in_slot; auto. fold v b off. lia. }
  assert (N : exists k, length (elog (vst s2)) = Datatypes.S k).
  { change (elog (vst s2)) with (elog (vst s)). apply history_length in H. cbn [length] in H. destruct (length (elog (vst s))); [lia|eauto]. }
  destruct N as [k N].
  assert (PP : exists more r, pop_loop t vt boom (ebytes (vst s2)) (length (elog (vst s2))) (etop (vst s2)) (elog (vst s2)) = (elog (vst s) ++ EvDrop b v bs :: more, r)).
  { rewrite N. change (etop (vst s2)) with (etop (vst s)). rewrite Etop. change (elog (vst s2)) with (elog (vst s)). cbn [pop_loop]. fold v b off. rewrite BV.
    destruct (boom v bs).
    - assert (UU : forall l, unwind_loop t vt boom (ebytes (vst s2)) k None l = (l, PopDone)) by (intros; destruct k; reflexivity). rewrite UU.
      exists [], (PopPanic PE_destructor). reflexivity.
    - rewrite LK2. destruct (pop_log t vt boom (ebytes (vst s2)) k link (elog (vst s) ++ [EvDrop b v bs])) as [x X].
      destruct (pop_loop t vt boom (ebytes (vst s2)) k link (elog (vst s) ++ [EvDrop b v bs])) as [lg r]. cbn [fst] in X. exists x, r.
      rewrite X, <- app_assoc. reflexivity. }
  destruct PP as (more & r & PP).
  assert (M3 : exists s3 more' r', vstep t vt boom true s2 (VCall EDropStack) = (s3, r') /\ elog (vst s3) = elog (vst s) ++ EvDrop b v bs :: more').
  { unfold vstep, estep. cbn [s2 vst ewrite egone s1 emove]. rewrite Eg. change (ewrite (emove t (vst s) a) (b + off) bs) with (vst s2).
    unfold inner_pop_all. rewrite PP. destruct r; [destruct (emem_deref t (vst s2))|..]; do 3 eexists; (split; [reflexivity|]); cbn [vst elog]; rewrite <- app_assoc; reflexivity. }
  destruct M3 as (s3 & more' & r' & M3 & M4). exists s1, s2, s3, more', r'. auto 8.
Qed.

(** ** Forgetting: nothing is dropped any more *)
Lemma gone_still t vt boom u os : forall s, egone (vst s) = true -> elog (vst (fst (vrun t vt boom u s os))) = elog (vst s) /\ egone (vst (fst (vrun t vt boom u s os))) = true.
Proof.
  induction os as [|o os IH]; intros s G; [auto|]. cbn [vrun]. destruct (vstep t vt boom u s o) as [s1 r] eqn:E.
  assert (K : elog (vst s1) = elog (vst s) /\ egone (vst s1) = true).
  { unfold vstep in E. destruct o as [o|a| |p bs].
    - unfold estep in E. rewrite G in E. injection E as <- <-. auto.
    - unfold may_move in E. rewrite G in E. injection E as <- <-. auto.
    - unfold may_move in E. rewrite G in E. injection E as <- <-. auto.
    - destruct (client_memory _ _ _ _); injection E as <- <-; auto. }
  destruct K as [K1 K2]. specialize (IH s1 K2). destruct (vrun t vt boom u s1 os) as [s2 rs]. cbn [fst] in *. rewrite <- K1. exact IH.
Qed.
