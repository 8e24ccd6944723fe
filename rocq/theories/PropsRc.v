(** * Claims about Rc and Weak (C47-C53). *)
From Coq Require Import Permutation.
From Verif Require Import Base Spec BaseFacts SyncModel SyncSpec SyncProofs PropsSync
  UninitModel UninitSpec UninitProofs PropsUninit RcModel RcSpec RcProofs RcRefine RcAcct RcMore.

(** Example: two regions of 64 bytes; T is u32, so RcBox<T> takes 24 bytes. *)
Definition ex_mems : list uview := [MkView 4096 64 0; MkView 8192 64 0].
Definition ex_rops : list rop :=
  [RNew 0 7 ex_u32; RClone 0; RDowngrade 2; RGetMut 0 (Some 5); RDrop 0; RUpgrade 3; RStrongCount 3; RWeakCount 4; RDrop 2;
   RDrop 3; RGetMut 4 (Some 8); RIntoRaw 4; RRawReplace 4 9; RFromRaw 4; RDeref 4; RDowngrade 4; RNew 1 6 ex_u32; RPtrEq 1 4;
   RDrop 4; RUpgrade 5; RDone; RWeakTryUnwrap 5; RNew 5 10 ex_u32; RTryUnwrap 5; RStrongCount 5; RClone 1].
Example ex_mems_ok : memories (x64 false) ex_mems.
Proof.
  split.
  - repeat constructor; vm_compute; congruence.
  - intros [|[|i]] [|[|j]] x y D N M; cbn in N, M; try congruence; try (destruct i; discriminate); try (destruct j; discriminate);
      injection N as <-; injection M as <-; apply disjoint_intro; cbn; lia.
Qed.
Example ex_rops_ok : Forall (rop_ok (x64 false)) ex_rops /\ short (x64 false) ex_mems ex_rops.
Proof.
  split; [|vm_compute; reflexivity]. unfold ex_rops. repeat constructor; try (apply ex_u32_type); cbn [rop_ok];
    try (apply (proj1 ex_u32_type)); try (vm_compute; congruence); exists 3; vm_compute; split; congruence.
Qed.

(** C47. Every history answers exactly as the reference that counts handles, and the values dropped and moved
    out are the same, in the same order.  [AUb] is not among the answers of the reference, so no dead box is
    ever accessed. *)
Theorem C47_reference : forall t us os, valid_target t -> memories t us -> Forall (rop_ok t) os -> short t us os ->
  snd (rrun t (rinit us) os) = snd (srun t (sinit us) os) /\ rlog (fst (rrun t (rinit us) os)) = slog (fst (srun t (sinit us) os)).
Proof. intros t us os V M F S. destruct (refine_short t us os V M F S) as ((_ & L & _) & A). auto. Qed.
Print Assumptions C47_reference.


Example C47_nonvacuous : snd (rrun (x64 false) (rinit ex_mems) ex_rops) =
  [ADone; ATok 2; ATok 3; ANone; ADone; ATok 4; ANum 2; ANum 2; ADone; ADone; AVal 7; ADone; AVal 8; ADone; AVal 9; ATok 5;
   ADone; ABool false; ADone; ANone; ADone; ADone; ADone; AVal 10; ANum 0; ATok 6].
Proof. vm_compute. reflexivity. Qed.

(** C47, directly: the counts reported through any handle are the numbers of handles that exist: strong handles,
    and weak handles plus one if there is a strong handle. *)
Theorem C47_counts : forall t us os s i k, valid_target t -> rc_reach t us os s ->
  tok s i = Some k -> tkind k = KStrong \/ tkind k = KWeak ->
  rstep t s (RStrongCount i) = (s, ANum (peers s KStrong k)) /\
  rstep t s (RWeakCount i) = (s, ANum (peers s KWeak k + if 0 <? peers s KStrong k then 1 else 0)).
Proof.
  intros t us os s i k V H T K. destruct (reach_rel t us os s V H) as (R & L).
  set (p := fst (srun t (sinit us) os)) in *. destruct (live_stok t s p i k R T) as (kd & SK & KK & NS & TR).
  assert (exists a, hall kd = Some a /\ (kd = SStrong a \/ kd = SWeak a)) as (a & Ha & KD).
  { rewrite <- KK in K. destruct kd; cbn in K |- *; destruct K; try discriminate; eauto. }
  destruct (handle_box t s p i kd a k R NS Ha TR) as (W & _).
  destruct (peers_cnt t s p i kd a V R NS Ha k W) as (P1 & P2).
  assert (LT : Z.of_nat (length (rtoks s)) < usize_max t) by lia.
  destruct (step_rel t s p (RStrongCount i) V R I (or_intror LT) ltac:(discriminate)) as (_ & A1).
  destruct (step_rel t s p (RWeakCount i) V R I (or_intror LT) ltac:(discriminate)) as (_ & A2).
  cbn [sstep snd] in A1, A2. rewrite SK in A1, A2.
  assert (S1 : forall o, (o = RStrongCount i \/ o = RWeakCount i) -> fst (rstep t s o) = s).
  { intros o [-> | ->]; cbn [rstep]; rewrite T; unfold at_box; destruct (tkind k); try reflexivity; destruct (rheap s _); reflexivity. }
  rewrite (surjective_pairing (rstep t s (RStrongCount i))), (surjective_pairing (rstep t s (RWeakCount i))), A1, A2, !S1 by auto.
  rewrite P1, P2. destruct KD as [-> | ->]; auto.
Qed.
Print Assumptions C47_counts.

(** C48. Every value given to the container (by new, or replaced through get_mut or raw memory) is afterwards in
    exactly one place: dropped once, moved out once, or still in an allocation that a strong handle (or raw
    memory) owns. *)
Theorem C48_exactly_once : forall t us os, valid_target t -> memories t us -> Forall (rop_ok t) os -> short t us os ->
  let log := rlog (fst (rrun t (rinit us) os)) in
  Permutation (puts log) (drops log ++ tooks log ++ alive_values (fst (srun t (sinit us) os))).
Proof.
  intros t us os V M F S log. destruct (refine_short t us os V M F S) as ((_ & L & _) & _). unfold log. rewrite L.
  destruct (sinit_bal us). apply srun_bal; assumption.
Qed.
Print Assumptions C48_exactly_once.


Example C48_nonvacuous : let log := rlog (fst (rrun (x64 false) (rinit ex_mems) ex_rops)) in
  puts log = [7; 8; 9; 6; 10] /\ drops log = [9] /\ tooks log = [7; 8; 10] /\
  alive_values (fst (srun (x64 false) (sinit ex_mems) ex_rops)) = [6].
Proof. vm_compute. auto. Qed.

(** C48, the moment: dropping a strong handle starts the destructor of the value iff it is the last strong
    handle, and the value is what [deref] showed; dropping any other handle drops nothing. *)
Theorem C48_last_strong : forall t us os s i k, valid_target t -> rc_reach t us os s -> tok s i = Some k ->
  snd (rstep t s (RDrop i)) = ADone /\
  rlog (fst (rstep t s (RDrop i))) =
    rlog s ++ (if kind_eqb (tkind k) KStrong && (peers s KStrong k =? 1)
               then match snd (rstep t s (RDeref i)) with AVal v => [Dropped v] | _ => [] end else []) /\
  (tkind k = KStrong -> exists v, snd (rstep t s (RDeref i)) = AVal v).
Proof.
  intros t us os s i k V H T. destruct (reach_rel t us os s V H) as (R & L).
  set (p := fst (srun t (sinit us) os)) in *. destruct (live_stok t s p i k R T) as (kd & SK & KK & NS & TR).
  assert (LT : Z.of_nat (length (rtoks s)) < usize_max t) by lia.
  destruct (step_rel t s p (RDrop i) V R I (or_intror LT) ltac:(discriminate)) as ((_ & G1 & _) & A1).
  destruct (step_rel t s p (RDeref i) V R I (or_intror LT) ltac:(discriminate)) as (_ & A2).
  destruct R as (K & RL & RD). assert (R : rel t s p) by (split; auto). clear K.
  rewrite A1, A2, G1, <- KK. cbn [sstep]. rewrite SK. destruct kd as [u|a|a|a]; cbn [kkind kind_eqb andb snd fst].
  - split; [reflexivity|]. split; [cbn; rewrite app_nil_r; auto|discriminate].
  - destruct (handle_box t s p i _ a k R NS eq_refl TR) as (W & _).
    destruct (peers_cnt t s p i _ a V R NS eq_refl k W) as (P1 & P2). rewrite P1. change (strongs p a) with (cnt (is_strong a) (stoks p)).
    destruct (cnt (is_strong a) (stoks p) =? 1); cbn; (split; [reflexivity|]; split; [|eauto]); rewrite <- RL; [reflexivity|rewrite app_nil_r; reflexivity].
  - split; [reflexivity|]. split; [cbn; rewrite app_nil_r; auto|discriminate].
  - split; [reflexivity|]. split; [cbn; rewrite app_nil_r; auto|discriminate].
Qed.
Print Assumptions C48_last_strong.

(** No other call but [new] with unsuitable memory drops anything. *)
Theorem C48_only_drop : forall t us os s o, valid_target t -> rc_reach t us os s -> rop_ok t o ->
  drops (rlog (fst (rstep t s o))) <> drops (rlog s) ->
  (exists i k, o = RDrop i /\ tok s i = Some k /\ tkind k = KStrong /\ peers s KStrong k = 1) \/
  (exists i v l, o = RNew i v l /\ snd (rstep t s o) = APanic).
Proof.
  intros t us os s o V H OK ND. destruct (reach_rel t us os s V H) as (R & L).
  set (p := fst (srun t (sinit us) os)) in *.
  assert (LT : Z.of_nat (length (rtoks s)) < usize_max t) by lia.
  assert (UP : forall i, o = RUpgrade i -> snd (rstep t s o) <> APanic) by (intros ? ->; eapply upgrade_fine; eauto).
  destruct (step_rel t s p o V R OK (or_intror LT) UP) as ((_ & G1 & _) & A1). 
  assert (RL : rlog s = slog p) by (destruct R as (_ & RL & _); exact RL).
  rewrite G1, RL in ND. rewrite A1.
  assert (VV : forall a v, drops (slog (s_val p a v)) = drops (slog p)) by (intros a v; unfold s_val; destruct (nth_error (sallocs p) a); reflexivity).
  clear A1 G1 UP OK LT.
  destruct o; cbn [sstep] in *; revert ND;
    [| | | |pose proof (tok_stok t s p i R) as TS| | | | | | | | | | | | |].
  5: { destruct (stok p i) as [[u|a|a|a]|]; try (intros ND; exfalso; apply ND; reflexivity).
    destruct TS as (k & T & NT & NS & TR). intros ND. left. exists i, k. split; [reflexivity|]. split; [exact T|].
    destruct (handle_box t s p i _ a k R NS eq_refl TR) as (W & _). destruct (peers_cnt t s p i _ a V R NS eq_refl k W) as (P1 & P2).
    split; [apply TR|]. rewrite P1. revert ND. change (strongs p a) with (cnt (is_strong a) (stoks p)).
    destruct (Z.eqb_spec (cnt (is_strong a) (stoks p)) 1); [intros _; assumption|intros ND; exfalso; apply ND; reflexivity]. }
  1: { intros ND. right. exists i, v, l. split; [reflexivity|]. revert ND. destruct (stok p i) as [[u|a|a|a]|]; try (intros ND; exfalso; apply ND; reflexivity).
    destruct (holds u (rc_layout t l)); [|reflexivity]. cbn. rewrite drops_app. cbn. rewrite app_nil_r. intros ND; exfalso; apply ND; reflexivity. }
  all: match goal with |- _ -> ?G => set (goal := G) end;
    repeat match goal with
      | |- context [match stok ?q ?j with _ => _ end] => destruct (stok q j)
      | |- context [match ?x with SMem _ => _ | SStrong _ => _ | SWeak _ => _ | SRaw _ => _ end] => destruct x
      | |- context [if ?x then _ else _] => destruct x
      | |- context [match sdropping ?q with _ => _ end] => destruct (sdropping q)
      | |- context [match ?x with Some _ => _ | None => _ end] => destruct x
      end; cbn; rewrite ?drops_app, ?VV; cbn; rewrite ?app_nil_r; intros ND; exfalso; apply ND; reflexivity.
Qed.
Print Assumptions C48_only_drop.

(** The states reached by prefixes of [ex_rops] are examples of [rc_reach]. *)
Definition ex_at (n : nat) : rstate := fst (rrun (x64 false) (rinit ex_mems) (firstn n ex_rops)).
Lemma ex_reach n : rc_reach (x64 false) ex_mems (firstn n ex_rops) (ex_at n).
Proof.
  destruct ex_rops_ok as (F & S). split; [exact ex_mems_ok|]. split; [|split; [|reflexivity]].
  - clear S. revert n. induction F; intros [|n]; cbn [firstn]; constructor; auto.
  - unfold short in *. rewrite firstn_length. lia.
Qed.

(** C49. [upgrade] returns a strong handle of the same memory iff a strong handle exists; otherwise nothing
    changes.  The new handle shows the value that every strong handle shows. *)
Theorem C49_upgrade : forall t us os s i k, valid_target t -> rc_reach t us os s -> tok s i = Some k -> tkind k = KWeak ->
  if peers s KStrong k =? 0 then snd (rstep t s (RUpgrade i)) = ANone /\ same_rc s (fst (rstep t s (RUpgrade i)))
  else let s' := fst (rstep t s (RUpgrade i)) in
    snd (rstep t s (RUpgrade i)) = ATok (length (rtoks s)) /\
    rtoks s' = rtoks s ++ [MkTok KStrong (tview k) (tlay k) Live] /\ rlog s' = rlog s /\
    (forall j kj, tok s j = Some kj -> tkind kj = KStrong -> uptr (tview kj) = uptr (tview k) ->
       snd (rstep t s' (RDeref (length (rtoks s)))) = snd (rstep t s (RDeref j))).
Proof.
  intros t us os s i k V H T K.
  destruct (box_facts t us os s i k V H T ltac:(congruence)) as (b & HB & B1 & _ & _ & B2 & P1 & P2 & _).
  destruct (B1 ltac:(congruence)) as (E1 & E2). clear B1. specialize (B2 K).
  cbn [rstep]. rewrite T, K. unfold at_box. rewrite HB. unfold weak_upgrade, inc_strong. rewrite op_add1, E1.
  destruct (Z.eqb_spec (peers s KStrong k) 0) as [Z|Z].
  - cbn [fst snd]. split; [reflexivity|]. unfold same_rc, set_box, hset; cbn. repeat split. intros x.
    destruct (Z.eqb_spec x (uptr (tview k))) as [-> | D]; congruence.
  - assert ((peers s KStrong k <? usize_max t) = true) as -> by lia. cbn [obind fst snd]. split; [reflexivity|].
    split; [unfold retok; reflexivity|]. split; [reflexivity|].
    intros j kj Tj Kj Uj. unfold tok at 1. cbn [rtoks add_tok set_box]. rewrite nth_error_app2, Nat.sub_diag by lia.
    cbn [nth_error tstat retok tkind tview rheap add_tok set_box]. rewrite hset_same. rewrite Tj, Kj, Uj, HB. reflexivity.
Qed.
Print Assumptions C49_upgrade.

Example C49_nonvacuous : (exists k, tok (ex_at 5) 3 = Some k /\ tkind k = KWeak /\ peers (ex_at 5) KStrong k = 1) /\
  (exists k, tok (ex_at 19) 5 = Some k /\ tkind k = KWeak /\ peers (ex_at 19) KStrong k = 0).
Proof. split; eexists; (split; [vm_compute; reflexivity|]); vm_compute; auto. Qed.

(** C50. [get_mut] and [into_raw] succeed iff the handle is the only one; [try_unwrap] iff it is the only strong
    one.  A failing call leaves everything unchanged. *)
Theorem C50_unique : forall t us os s i k w, valid_target t -> rc_reach t us os s -> tok s i = Some k -> tkind k = KStrong ->
  (if unique s k
   then exists v, snd (rstep t s (RGetMut i w)) = AVal v /\ snd (rstep t s (RDeref i)) = AVal v /\
          snd (rstep t (fst (rstep t s (RGetMut i w))) (RDeref i)) = AVal (match w with Some x => x | None => v end) /\
          rlog (fst (rstep t s (RGetMut i w))) = rlog s ++ (match w with Some x => [Put x; Took v] | None => [] end)
   else rstep t s (RGetMut i w) = (s, ANone)) /\
  (if unique s k then snd (rstep t s (RIntoRaw i)) = ADone else rstep t s (RIntoRaw i) = (s, AErr)) /\
  (if peers s KStrong k =? 1
   then exists v, snd (rstep t s (RTryUnwrap i)) = AVal v /\ snd (rstep t s (RDeref i)) = AVal v /\
          rlog (fst (rstep t s (RTryUnwrap i))) = rlog s ++ [Took v] /\
          tok (fst (rstep t s (RTryUnwrap i))) i = Some (MkTok KWeak (tview k) (tlay k) Live)
   else rstep t s (RTryUnwrap i) = (s, AErr)).
Proof.
  intros t us os s i k w V H T K.
  destruct (box_facts t us os s i k V H T ltac:(congruence)) as (b & HB & B1 & _ & B2 & _ & P1 & P2 & TL & VF & M0 & _).
  destruct (B1 ltac:(congruence)) as (E1 & E2). clear B1. specialize (B2 K).
  assert (U : is_unique b = unique s k).
  { unfold is_unique, unique. rewrite E1, E2. destruct (Z.eqb_spec (peers s KStrong k) 1) as [E|]; [|reflexivity]. rewrite E. cbn [andb].
    change (0 <? 1) with true. cbv iota. destruct (Z.eqb_spec (peers s KWeak k) 0), (Z.eqb_spec (peers s KWeak k + 1) 1); auto; lia. }
  assert (TI : nth_error (rtoks s) i = Some k /\ tstat k = Live).
  { unfold tok in T. destruct (nth_error (rtoks s) i) as [x|]; [|discriminate]. destruct (tstat x) eqn:E; try discriminate. split; congruence. }
  cbn [rstep]. rewrite T, K. unfold at_box. rewrite HB. split; [|split].
  - rewrite U. destruct (unique s k); [|reflexivity]. exists (bval b). destruct w as [x|]; cbn [fst snd].
    + split; [reflexivity|]. split; [reflexivity|]. split; [|reflexivity].
      unfold tok. cbn [logs set_box rtoks rheap]. destruct TI as (-> & ->). rewrite K, hset_same. reflexivity.
    + rewrite T, K, HB, app_nil_r. auto.
  - unfold rc_into_raw. rewrite U. destruct (unique s k); [|reflexivity]. cbn [negb].
    pose proof (v_fits_sub t (tlay k) (tview k) V TL VF) as FF.
    unfold v_cast. assert (v_fits (from_memory (uptr (tview k)) (ulen (tview k))) (tlay k) = true) as -> by exact FF. reflexivity.
  - unfold rc_try_unwrap. rewrite E1. destruct (Z.eqb_spec (peers s KStrong k) 1); [|reflexivity]. cbn [negb].
    unfold dec_strong. rewrite op_sub1 by lia. cbn [obind bval fst snd]. exists (bval b).
    split; [reflexivity|]. split; [reflexivity|]. split; [reflexivity|].
    unfold tok. cbn [logs set_box set_tok rtoks]. destruct TI as (N & L). erewrite upd_nth_nth_eq by exact N. unfold retok. reflexivity.
Qed.
Print Assumptions C50_unique.

Example C50_nonvacuous :
  (exists k, tok (ex_at 10) 4 = Some k /\ tkind k = KStrong /\ unique (ex_at 10) k = true) /\
  (exists k, tok (ex_at 3) 0 = Some k /\ tkind k = KStrong /\ unique (ex_at 3) k = false) /\
  (exists k, tok (ex_at 16) 4 = Some k /\ unique (ex_at 16) k = false /\ peers (ex_at 16) KStrong k = 1).
Proof. repeat split; eexists; (split; [vm_compute; reflexivity|]); vm_compute; auto. Qed.

(** C51. [Weak::try_unwrap] gives the memory back iff there is no strong handle and no other weak one.  It is
    then the region of the box, and no other token of the client reaches into it. *)
Theorem C51_memory : forall t us os s i k, valid_target t -> rc_reach t us os s -> tok s i = Some k -> tkind k = KWeak ->
  if (peers s KStrong k =? 0) && (peers s KWeak k =? 1)
  then let s' := fst (rstep t s (RWeakTryUnwrap i)) in
    snd (rstep t s (RWeakTryUnwrap i)) = ADone /\ rlog s' = rlog s /\
    exists k', tok s' i = Some k' /\ tkind k' = KMem /\ tview k' = tview k /\
      forall j kj, j <> i -> nth_error (rtoks s') j = Some kj -> tstat kj <> Gone -> disjoint (region (tview k')) (region (tview kj))
  else rstep t s (RWeakTryUnwrap i) = (s, AErr).
Proof.
  intros t us os s i k V H T K. destruct (reach_rel t us os s V H) as (R & L).
  assert (LT : Z.of_nat (length (rtoks s)) < usize_max t) by lia.
  destruct (step_rel t s _ (RWeakTryUnwrap i) V R I (or_intror LT) ltac:(discriminate)) as (R' & _).
  destruct (box_facts t us os s i k V H T ltac:(congruence)) as (b & HB & B1 & _ & _ & B2 & P1 & P2 & TL & VF & M0 & _).
  destruct (B1 ltac:(congruence)) as (E1 & E2). clear B1. specialize (B2 K).
  assert (U : is_unique_to_rc_memory b = (peers s KStrong k =? 0) && (peers s KWeak k =? 1)).
  { unfold is_unique_to_rc_memory. rewrite E1, E2. destruct (Z.eqb_spec (peers s KStrong k) 0) as [E|]; [|reflexivity]. rewrite E.
    cbn [andb]. change (0 <? 0) with false. cbv iota. rewrite Z.add_0_r. reflexivity. }
  revert R'. cbn [rstep]. rewrite T, K. unfold at_box. rewrite HB. unfold weak_try_unwrap. rewrite U.
  destruct (_ && _) eqn:UU; [|reflexivity]. intros R'. cbn [negb] in *. apply andb_true_iff in UU. destruct UU as (U1 & U2).
  assert (1 <= bweak b) by (rewrite E2; destruct (0 <? peers s KStrong k); lia).
  unfold dec_weak in *. rewrite op_sub1 in * by lia. cbn [obind fst snd] in *. split; [reflexivity|]. split; [reflexivity|].
  assert (TI : nth_error (rtoks s) i = Some k) by (unfold tok in T; destruct (nth_error (rtoks s) i) as [x|]; [destruct (tstat x); congruence|discriminate]).
  assert (VW : from_memory (uptr (tview k)) (ulen (tview k)) = tview k) by (unfold from_memory; destruct (tview k); cbn in *; congruence).
  rewrite VW in *. exists (retok k KMem (tview k)). unfold tok. cbn [set_box set_tok rtoks] in *.
  erewrite upd_nth_nth_eq by exact TI. split; [reflexivity|]. split; [reflexivity|]. split; [reflexivity|].
  intros j kj D N G. cbn [tview retok].
  destruct (rel_apart t _ _ i j (retok k KMem (tview k)) kj R') as [X|(_ & X & _)]; auto.
  - cbn [set_box set_tok rtoks]. erewrite upd_nth_nth_eq by exact TI. reflexivity.
  - cbn. discriminate.
  - cbn in X. destruct X; discriminate.
Qed.
Print Assumptions C51_memory.

Example C51_nonvacuous :
  (exists k, tok (ex_at 21) 5 = Some k /\ tkind k = KWeak /\ peers (ex_at 21) KStrong k = 0 /\ peers (ex_at 21) KWeak k = 1) /\
  (exists k, tok (ex_at 5) 3 = Some k /\ tkind k = KWeak /\ peers (ex_at 5) KStrong k = 1).
Proof. split; eexists; (split; [vm_compute; reflexivity|]); vm_compute; auto. Qed.

(** C51, the value: if no destructor asks for the memory of its own allocation, memory, raw memory and strong
    handles never reach into an allocation whose value is being dropped. *)
Theorem C51_calm : forall t us os u k, valid_target t -> memories t us -> Forall (rop_ok t) os -> short t us os ->
  calm t (rinit us) os ->
  let s := fst (rrun t (rinit us) os) in
  In u (rdropping s) -> In k (rtoks s) -> tstat k = Live -> tkind k <> KWeak -> disjoint (region u) (region (tview k)).
Proof. intros t us os u k V M F S C s. exact (calm_disjoint t us os u k V M F S C). Qed.
Print Assumptions C51_calm.

Example C51_calm_nonvacuous : calm (x64 false) (rinit ex_mems) (firstn 20 ex_rops) /\
  rdropping (ex_at 20) = [MkView 4096 64 0] /\ exists k, In k (rtoks (ex_at 20)) /\ tstat k = Live /\ tkind k = KStrong.
Proof.
  split; [|split; [vm_compute; reflexivity|]].
  - unfold ex_rops. cbn [firstn]. repeat (apply calm_cons; [intros ? ? E; discriminate E|]). apply calm_nil.
  - exists (MkTok KStrong (MkView 8192 64 0) ex_u32 Live). vm_compute. auto.
Qed.

(** Without that condition it is false: a destructor that holds a [Weak] of its own allocation gets the memory
    while the value in it is still being dropped (rc.rs:520-530 decrements both counters before drop_in_place). *)
Definition ex_reentrant : list rop := [RNew 0 7 ex_u32; RDowngrade 0; RDrop 0; RWeakTryUnwrap 2; RNew 2 8 ex_u32].
Theorem C51_reentrant_refuted :
  let s := fst (rrun (x64 false) (rinit ex_mems) ex_reentrant) in
  memories (x64 false) ex_mems /\ Forall (rop_ok (x64 false)) ex_reentrant /\ short (x64 false) ex_mems ex_reentrant /\
  rdropping s = [MkView 4096 64 0] /\ nth_error (rtoks s) 2 = Some (MkTok KStrong (MkView 4096 64 0) ex_u32 Live) /\
  rlog s = [Put 7; Dropped 7; Put 8].
Proof.
  split; [exact ex_mems_ok|]. split; [|vm_compute; auto].
  unfold ex_reentrant. repeat constructor; try (apply ex_u32_type); cbn [rop_ok];
    try (apply (proj1 ex_u32_type)); try (vm_compute; congruence); exists 3; vm_compute; split; congruence.
Qed.
Print Assumptions C51_reentrant_refuted.

(** C52. With overflow checks, histories of any length, forgotten handles included, answer as the reference,
    which counts without bounds: no counter ever wraps.  [upgrade] is excepted, see below. *)
Theorem C52_checked : forall t us os, valid_target t -> debug t = true -> memories t us -> Forall (rop_ok t) os ->
  upgrades_return t (rinit us) os ->
  snd (rrun t (rinit us) os) = snd (srun t (sinit us) os) /\ rlog (fst (rrun t (rinit us) os)) = slog (fst (srun t (sinit us) os)).
Proof.
  intros t us os V D M F U. destruct (run_rel t os V (rinit us) (sinit us) (init_rel t us M) F (or_introl D) U) as ((_ & L & _) & A). auto.
Qed.
Print Assumptions C52_checked.

Example C52_checked_nonvacuous : debug (x64 true) = true /\ memories (x64 true) ex_mems /\ upgrades_return (x64 true) (rinit ex_mems) ex_rops.
Proof.
  split; [reflexivity|]. split; [exact ex_mems_ok|]. intros n i N.
  assert (E : snd (rrun (x64 true) (rinit ex_mems) ex_rops) = snd (rrun (x64 false) (rinit ex_mems) ex_rops)) by (vm_compute; reflexivity).
  rewrite E, C47_nonvacuous. intros Q. do 26 (destruct n as [|n]; [cbn in Q, N; discriminate|]). cbn in Q. destruct n; discriminate.
Qed.

(** [upgrade] with overflow checks: rc.rs:410-412 creates the handle before counting it, so the panic drops a
    handle that was not counted.  After that the value is dropped while a strong handle still exists. *)
Theorem C52_upgrade_refuted : forall t u v l, valid_target t -> debug t = true -> type_layout t l ->
  holds u (rc_layout t l) = true -> umeta u = 0 ->
  exists os, rlog (fst (rrun t (rinit [u]) os)) = [Put v; Dropped v] /\
    tok (fst (rrun t (rinit [u]) os)) 0 = Some (MkTok KStrong u l Live).
Proof.
  intros t u v l V D TL HO M. eexists. destruct (debug_upgrade t u v l V D TL HO M) as (A & B). split; [exact A|].
  unfold tok. rewrite B. reflexivity.
Qed.
Print Assumptions C52_upgrade_refuted.

(** Without overflow checks: usize::MAX + 1 clones (forgotten, say) wrap the counter; the next drop drops the
    value although strong handles exist. *)
Theorem C52_release_refuted : forall t u v l, valid_target t -> debug t = false -> type_layout t l ->
  holds u (rc_layout t l) = true -> umeta u = 0 ->
  exists os, Forall (fun o => match o with RNew _ _ _ | RClone _ | RDrop _ => True | _ => False end) os /\
    rlog (fst (rrun t (rinit [u]) os)) = [Put v; Dropped v] /\
    tok (fst (rrun t (rinit [u]) os)) 0 = Some (MkTok KStrong u l Live).
Proof.
  intros t u v l V D TL HO M. eexists. destruct (release_wrap t u v l V D TL HO M) as (A & B). split; [|split; [exact A|unfold tok; rewrite B; reflexivity]].
  apply Forall_app. split; [repeat constructor|]. apply Forall_app. split; [|repeat constructor].
  apply Forall_forall. intros o I. apply repeat_spec in I. subst o. exact I0 || trivial.
Qed.
Print Assumptions C52_release_refuted.

Example C52_nonvacuous : valid_target (x64 true) /\ type_layout (x64 true) ex_u32 /\ holds (MkView 4096 64 0) (rc_layout (x64 true) ex_u32) = true.
Proof. split; [|split; [exact ex_u32_type|reflexivity]]. destruct ex_target_ok. split; auto. Qed.

(** C53. [new] panics iff the region is too small or misaligned for the box, and then the value is dropped. *)
Theorem C53_new : forall t us os s i k v l, valid_target t -> rc_reach t us os s -> tok s i = Some k -> tkind k = KMem -> type_layout t l ->
  let s' := fst (rstep t s (RNew i v l)) in
  if (uptr (tview k) mod lalign (rc_layout t l) =? 0) && (lsize (rc_layout t l) <=? ulen (tview k))
  then snd (rstep t s (RNew i v l)) = ADone /\ tok s' i = Some (MkTok KStrong (tview k) l Live) /\
       snd (rstep t s' (RDeref i)) = AVal v /\ rlog s' = rlog s ++ [Put v]
  else snd (rstep t s (RNew i v l)) = APanic /\ tok s' i = None /\ rlog s' = rlog s ++ [Put v; Dropped v].
Proof.
  intros t us os s i k v l V H T K TL s'. destruct (rc_layout_facts t l V TL) as (_ & _ & _ & P & _).
  destruct (reach_rel t us os s V H) as (R & _). destruct (live_stok t s _ i k R T) as (kd & _ & KK & _ & TR).
  pose proof TR as (_ & _ & _ & T4 & _). destruct (T4 eq_refl) as (_ & M0).
  assert (TI : nth_error (rtoks s) i = Some k) by (unfold tok in T; destruct (nth_error (rtoks s) i) as [x|]; [destruct (tstat x); congruence|discriminate]).
  change ((uptr (tview k) mod lalign (rc_layout t l) =? 0) && (lsize (rc_layout t l) <=? ulen (tview k))) with (holds (tview k) (rc_layout t l)).
  rewrite (holds_fits _ _ P). unfold s'. cbn [rstep]. rewrite T, K. unfold rc_new, v_cast.
  destruct (v_fits (tview k) (rc_layout t l)); cbv iota; cbn [negb unwrap obind fst snd].
  - split; [reflexivity|]. cbn [uptr]. assert (MkView (uptr (tview k)) (ulen (tview k)) 0 = tview k) as -> by (destruct (tview k); cbn in *; congruence).
    assert (NN : nth_error (upd_nth i (MkTok KStrong (tview k) l Live) (rtoks s)) i = Some (MkTok KStrong (tview k) l Live)) by (erewrite upd_nth_nth_eq by exact TI; reflexivity).
    unfold tok. cbn [logs set_box set_tok rtoks rheap]. rewrite NN. cbn [tstat tkind at_box]. unfold at_box; cbn [rheap tview logs set_box]. rewrite hset_same. auto.
  - split; [reflexivity|]. split; [|reflexivity]. unfold tok. cbn [logs set_tok rtoks]. erewrite upd_nth_nth_eq by exact TI. reflexivity.
Qed.
Print Assumptions C53_new.

Example C53_new_nonvacuous : tok (ex_at 0) 0 = Some (MkTok KMem (MkView 4096 64 0) (MkLayout 0 1) Live) /\
  rc_layout (x64 false) ex_u32 = MkLayout 24 8 /\ snd (rstep (x64 false) (ex_at 0) (RNew 0 1 (MkLayout 56 8))) = APanic.
Proof. vm_compute. auto. Qed.

(** C53. [into_raw] gives the whole region with the value at its start; [from_raw] on it is the same handle again,
    and the client sees no difference. *)
Theorem C53_round_trip : forall t us os s i k, valid_target t -> rc_reach t us os s -> tok s i = Some k -> tkind k = KStrong ->
  unique s k = true ->
  let s1 := fst (rstep t s (RIntoRaw i)) in
  let s2 := fst (rstep t s1 (RFromRaw i)) in
  tok s1 i = Some (MkTok KRaw (tview k) (tlay k) Live) /\ aligned (uptr (tview k)) (lalign (tlay k)) /\
  lsize (tlay k) <= ulen (tview k) /\
  snd (rstep t s1 (RFromRaw i)) = ADone /\ same_rc s s2.
Proof.
  intros t us os s i k V H T K U s1 s2.
  destruct (box_facts t us os s i k V H T ltac:(congruence)) as (b & HB & B1 & _ & B2 & _ & P1 & P2 & TL & VF & M0 & _).
  destruct (B1 ltac:(congruence)) as (E1 & E2). clear B1. specialize (B2 K).
  assert (TI : nth_error (rtoks s) i = Some k /\ tstat k = Live).
  { unfold tok in T. destruct (nth_error (rtoks s) i) as [x|]; [|discriminate]. destruct (tstat x) eqn:E; try discriminate. split; congruence. }
  assert (UU : is_unique b = true).
  { unfold unique in U. apply andb_true_iff in U. destruct U as (U1 & U2). apply Z.eqb_eq in U1, U2.
    unfold is_unique. rewrite E1, E2, U1, U2. reflexivity. }
  pose proof (v_fits_sub t (tlay k) (tview k) V TL VF) as FF.
  assert (VW : forall _ : Z, MkView (uptr (tview k)) (ulen (tview k)) 0 = tview k) by (intros _; destruct (tview k); cbn in *; congruence).
  assert (S1 : s1 = set_tok s i (retok k KRaw (tview k))).
  { unfold s1. cbn [rstep]. rewrite T, K. unfold at_box. rewrite HB. unfold rc_into_raw. rewrite UU. cbn [negb]. unfold v_cast.
    change (v_fits (from_memory (uptr (tview k)) (ulen (tview k))) (tlay k)) with (v_fits (tview k) (tlay k)). rewrite FF.
    cbn [negb unwrap obind fst]. unfold from_memory; cbn [uptr ulen umeta]. rewrite (VW 0). reflexivity. }
  destruct TI as (TI & TS).
  assert (T1 : tok s1 i = Some (retok k KRaw (tview k))) by (rewrite S1; unfold tok; cbn [set_tok rtoks]; erewrite upd_nth_nth_eq by exact TI; reflexivity).
  assert (F : rc_from_raw t (tlay k) (tview k) = Ret (tview k)).
  { unfold rc_from_raw, v_cast. rewrite VF. rewrite orb_true_r. cbv iota. cbn [negb unwrap]. rewrite (VW 0). reflexivity. }
  split; [rewrite T1; reflexivity|]. apply v_fits_iff in FF; [|apply (type_layout_align t _ TL)]. split; [apply FF|]. split; [apply FF|].
  unfold s2. cbn [rstep]. rewrite T1. cbn [retok tkind tlay tview]. rewrite F. cbn [fst snd]. split; [reflexivity|].
  rewrite S1. unfold same_rc; cbn [set_tok rtoks rdropping rlog rheap retok tlay]. repeat split.
  rewrite upd_nth_twice. apply upd_nth_self. rewrite TI. unfold retok. destruct k; cbn in *; congruence.
Qed.
Print Assumptions C53_round_trip.

Example C53_round_trip_nonvacuous : exists k, tok (ex_at 11) 4 = Some k /\ tkind k = KStrong /\ unique (ex_at 11) k = true.
Proof. eexists. split; [vm_compute; reflexivity|]. vm_compute. auto. Qed.

(** C53. The fields of the box lie in memory as repr(C) requires, the value first, inside the region that [new] asks for. *)
Theorem C53_layout : forall t l p, valid_target t -> type_layout t l -> aligned p (lalign (rc_layout t l)) ->
  exists strong weak, size strong = word_bytes t /\ size weak = word_bytes t /\
    reprC p 0 [l; usize_layout t; usize_layout t] [MkBlock p (lsize l); strong; weak] /\
    inside strong (MkBlock p (lsize (rc_layout t l))) /\ inside weak (MkBlock p (lsize (rc_layout t l))) /\
    inside (MkBlock p (lsize l)) (MkBlock p (lsize (rc_layout t l))).
Proof.
  intros t l p V TL A. destruct (rc_layout_facts t l V TL) as (F1 & F2 & F3 & F4 & F5 & F6 & F7 & F8).
  pose proof (type_layout_size t l TL).
  exists (MkBlock (p + rc_strong_off t l) (word_bytes t)), (MkBlock (p + rc_weak_off t l) (word_bytes t)).
  split; [reflexivity|]. split; [reflexivity|]. split; [apply rc_fields; assumption|].
  pose proof (word_pos t V). split; [|split]; apply inside_intro; cbn [start size]; lia.
Qed.
Print Assumptions C53_layout.
