(** * BorrowLocal: the library looks at the bytes of its allocation only. *)
From Verif Require Import Base Spec BaseFacts SyncModel SyncSpec SyncProofs BorrowModel BorrowSpec BorrowProofs BorrowState BorrowWorld.

(** The stacks are the same at the bytes of P. *)
Definition same_in (P : Z -> Prop) (s1 s2 : bstate) : Prop := nexttag s1 = nexttag s2 /\ forall y, P y -> stk s1 y = stk s2 y.
Definition covers (P : Z -> Prop) (b : block) : Prop := forall y, in_block b y -> P y.
Definition both {A} (P : Z -> Prop) (r1 r2 : option (A * bstate)) : Prop :=
  match r1, r2 with
  | Some (a1, s1), Some (a2, s2) => a1 = a2 /\ same_in P s1 s2
  | None, None => True
  | _, _ => False
  end.
Definition looks {A} (P : Z -> Prop) (f : M A) : Prop := forall s1 s2, same_in P s1 s2 -> both P (f s1) (f s2).

Lemma looks_ret {A} P (a : A) : looks P (mret a).
Proof. intros s1 s2 G. cbn. auto. Qed.
Lemma both_bind {A B} P (f : M A) (g : A -> M B) s1 s2 : both P (f s1) (f s2) -> (forall a, (exists z, f s1 = Some (a, z)) -> looks P (g a)) -> both P (mbind f g s1) (mbind f g s2).
Proof.
  intros Lf Lg. unfold mbind. destruct (f s1) as [[a1 u1]|] eqn:E, (f s2) as [[a2 u2]|]; try contradiction; [|exact Logic.I].
  destruct Lf as (<- & G1). exact (Lg a1 (ex_intro _ _ eq_refl) u1 u2 G1).
Qed.
Lemma looks_bind {A B} P (f : M A) (g : A -> M B) : looks P f -> (forall a, looks P (g a)) -> looks P (mbind f g).
Proof. intros Lf Lg s1 s2 G. apply both_bind; [apply Lf, G|auto]. Qed.

Lemma block_looks P c f k1 k2 : covers P c -> (forall y, P y -> k1 y = k2 y) ->
  match on_block c f k1, on_block c f k2 with
  | Some a1, Some a2 => forall y, P y -> a1 y = a2 y
  | None, None => True
  | _, _ => False
  end.
Proof.
  intros IN G. pose proof (on_block_does c f k1) as D1. pose proof (on_block_does c f k2) as D2. destruct (on_block c f k1) as [a1|], (on_block c f k2) as [a2|]; cbn [does] in D1, D2; auto.
  - intros y Y. specialize (D1 y). specialize (D2 y). rewrite (G y Y) in D1. destruct (inb c y); congruence.
  - destruct D2 as (x & f0 & X & F). specialize (D1 x). destruct (inb c x) eqn:XX; [|discriminate]. injection X as <-. rewrite (G x) in D1 by (apply IN, inb_iff, XX). congruence.
  - destruct D1 as (x & f0 & X & F). specialize (D2 x). destruct (inb c x) eqn:XX; [|discriminate]. injection X as <-. rewrite (G x) in F by (apply IN, inb_iff, XX). congruence.
Qed.
Lemma parts_looks P calls n new p parts : forall k1 k2, Forall (fun q => covers P (snd q)) parts -> (forall y, P y -> k1 y = k2 y) ->
  match retag_parts calls n new p parts k1, retag_parts calls n new p parts k2 with
  | Some a1, Some a2 => forall y, P y -> a1 y = a2 y
  | None, None => True
  | _, _ => False
  end.
Proof.
  induction parts as [|[kd c] parts IH]; intros k1 k2 F G; cbn [retag_parts]; [auto|]. inversion F as [|q l F1 F2]; subst. cbn [snd] in F1.
  pose proof (block_looks P c (sb_retag calls kd n new p) k1 k2 F1 G) as X. destruct (on_block c _ k1) as [a1|], (on_block c _ k2) as [a2|]; try contradiction; [|exact Logic.I].
  exact (IH a1 a2 F2 X).
Qed.
Lemma looks_read P calls n c : covers P c -> looks P (m_read calls n c).
Proof.
  intros IN s1 s2 [GN G]. unfold m_read. pose proof (block_looks P c (sb_read calls n) _ _ IN G) as X.
  destruct (on_block _ _ (stk s1)), (on_block _ _ (stk s2)); try contradiction; [|exact Logic.I]. split; [reflexivity|]. split; assumption.
Qed.
Lemma looks_write P calls n c : covers P c -> looks P (m_write calls n c).
Proof.
  intros IN s1 s2 [GN G]. unfold m_write. pose proof (block_looks P c (sb_write calls n) _ _ IN G) as X.
  destruct (on_block _ _ (stk s1)), (on_block _ _ (stk s2)); try contradiction; [|exact Logic.I]. split; [reflexivity|]. split; assumption.
Qed.
Lemma looks_retag_prot P calls n parts p : Forall (fun q => covers P (snd q)) parts -> looks P (m_retag_prot calls n parts p).
Proof.
  intros IN s1 s2 [GN G]. unfold m_retag_prot. rewrite <- GN. pose proof (parts_looks P calls n (nexttag s1) p parts _ _ IN G) as X.
  destruct (retag_parts _ _ _ _ _ (stk s1)), (retag_parts _ _ _ _ _ (stk s2)); try contradiction; [|exact Logic.I]. split; [reflexivity|]. split; [reflexivity|assumption].
Qed.
Lemma looks_retag P calls n parts : Forall (fun q => covers P (snd q)) parts -> looks P (m_retag calls n parts).
Proof. apply looks_retag_prot. Qed.
Lemma looks_act P o calls a : covers P (oblk o) -> act_ok o a = true -> looks P (do_act calls a).
Proof.
  intros S0 OK. apply act_ok_iff in OK.
  assert (W : forall c, within (oblk o) c -> covers P c) by (intros c [X1 X2] y Y; apply S0; unfold in_block in *; lia).
  destruct a as [n c|n c|n parts p]; cbn [client_access do_act] in *.
  - apply looks_bind; [apply looks_read, W, OK|intros; apply looks_ret].
  - apply looks_bind; [apply looks_write, W, OK|intros; apply looks_ret].
  - apply looks_bind; [apply looks_retag_prot|intros; apply looks_ret]. eapply Forall_impl; [|apply OK]. intros q; apply W.
Qed.

(** ** Bump *)
Section Sync.
Variables (P : Z -> Prop) (calls : list nat) (t : target) (hd : block).
Hypothesis (Hh : covers P hd).

Lemma looks_self st self : covers P st -> looks P (self_ref calls hd st self).
Proof. intros S0. apply looks_retag. repeat (apply Forall_cons; [assumption|]). apply Forall_nil. Qed.
Lemma looks_one kd b n : covers P b -> looks P (m_retag calls n [(kd, b)]).
Proof. intros S0. apply looks_retag. apply Forall_cons; [exact S0|apply Forall_nil]. Qed.
Lemma looks_storage st self : covers P st -> looks P (storage_get calls st self).
Proof. intros S0. apply looks_bind; [|intros r]; apply looks_one, S0. Qed.
Lemma looks_bump st self b : covers P st -> looks P (b_bump calls hd st self b).
Proof.
  intros S0. unfold b_bump. apply looks_bind; [apply looks_self, S0|intros r]. apply looks_bind; [apply looks_one, Hh|intros c].
  destruct b; [apply looks_write|apply looks_read]; exact Hh.
Qed.
Lemma looks_try_alloc_at s l e self : covers P (storage s) -> looks P (b_try_alloc_at calls t hd s l e self).
Proof.
  intros S0. unfold b_try_alloc_at. apply looks_bind; [apply looks_self, S0|intros r]. apply looks_bind; [apply looks_storage, S0|intros c].
  destruct (try_alloc_at t s l e) as [s' [[a|[|o]]|m]]; try apply looks_ret; (apply looks_bind; [apply looks_bump, S0|intros; apply looks_ret]).
Qed.
Lemma looks_loop fuel : forall s l g self, covers P (storage s) -> looks P (b_try_alloc_loop calls t hd fuel s l g self).
Proof.
  induction fuel as [|fuel IH]; intros s l g self S0; cbn [b_try_alloc_loop]; [apply looks_ret|].
  intros s1 s2 G. apply both_bind; [apply looks_try_alloc_at; assumption|]. intros [[s' r] base] (z & E).
  assert (S' : storage s' = storage s).
  { revert E. unfold b_try_alloc_at, mbind. destruct (self_ref _ _ _ _ _) as [[? ?]|]; [|discriminate]. destruct (storage_get _ _ _ _) as [[? ?]|]; [|discriminate].
    pose proof (try_alloc_at_storage t s l g) as Y. destruct (try_alloc_at t s l g) as [s0 r0]. cbn [fst] in Y.
    destruct r0 as [[a|[|o]]|m]; try (intros [= <- <- <- _]; exact Y); (destruct (b_bump _ _ _ _ _ _) as [[? ?]|]; [|discriminate]; intros [= <- <- <- _]; exact Y). }
  destruct r as [[a|[|o]]|m]; try apply looks_ret. apply IH. rewrite S'. exact S0.
Qed.
Lemma looks_level s self : covers P (storage s) -> looks P (b_level calls hd s self).
Proof.
  intros S0. unfold b_level. apply looks_bind; [apply looks_self, S0|intros r]. apply looks_bind; [apply looks_one, Hh|intros c].
  apply looks_bind; [apply looks_read, Hh|intros; apply looks_ret].
Qed.
Lemma looks_try_alloc s l self : covers P (storage s) -> looks P (b_try_alloc calls t hd s l self).
Proof. intros S0. unfold b_try_alloc. apply looks_bind; [apply looks_self, S0|intros r]. apply looks_loop, S0. Qed.
Lemma looks_method s c self : covers P (storage s) -> looks P (b_method calls t hd s c self).
Proof.
  intros S0. destruct c as [l|l lv|l|l lv| |]; cbn [b_method]; try apply looks_ret.
  - unfold b_alloc. apply looks_bind; [apply looks_bind; [apply looks_self, S0|intros; apply looks_try_alloc, S0]|intros [[? ?] ?]; apply looks_ret].
  - unfold b_alloc_at. apply looks_bind; [apply looks_bind; [apply looks_self, S0|intros; apply looks_try_alloc_at, S0]|intros [[? ?] ?]; apply looks_ret].
  - unfold b_get. apply looks_bind; [|intros [[? ?] ?]; apply looks_ret]. apply looks_bind; [apply looks_self, S0|intros r]. destruct (lsize l =? 0); [|apply looks_try_alloc, S0].
    apply looks_bind; [apply looks_self, S0|intros r1]. apply looks_bind; [apply looks_level, S0|intros; apply looks_ret].
  - unfold b_get_at. apply looks_bind; [|intros [[? ?] ?]; apply looks_ret]. apply looks_bind; [apply looks_self, S0|intros r]. destruct (lsize l =? 0); [|apply looks_try_alloc_at, S0].
    apply looks_bind; [apply looks_self, S0|intros r1]. apply looks_bind; [apply looks_level, S0|intros cur]. destruct (negb (cur =? lv)); apply looks_ret.
  - apply looks_bind; [apply looks_level, S0|intros; apply looks_ret].
Qed.
Lemma looks_use_block u b base : covers P b -> looks P (use_block calls u b base).
Proof.
  intros S0. destruct u; cbn [use_block]; [apply looks_ret| |]; (apply looks_bind; [apply looks_write, S0|intros _]); [apply looks_one, S0|apply looks_ret].
Qed.
Lemma both_call s c u self s1 s2 : covers P (storage s) -> same_in P s1 s2 ->
  (forall s' a base, (exists z, (x <- use_self calls hd s u self ;; b_method calls t hd s c x) s1 = Some ((s', RBlock a, base), z)) -> covers P (MkBlock (ptr a) (lsize (asked c)))) ->
  both P (b_call calls t hd s c u self s1) (b_call calls t hd s c u self s2).
Proof.
  intros S0 G B. assert (E : forall z, b_call calls t hd s c u self z = ((x <- (x <- use_self calls hd s u self ;; b_method calls t hd s c x) ;;
    let '(s', r, base) := x in match r with RBlock a => tag <- use_block calls u (MkBlock (ptr a) (lsize (asked c))) base ;; mret (s', r, Some tag) | _ => mret (s', r, None) end) z)).
  { intros z. unfold b_call, mbind. destruct (use_self _ _ _ _ _ _) as [[? ?]|]; reflexivity. }
  rewrite !E. apply both_bind.
  - apply looks_bind; [destruct u; [apply looks_ret|apply looks_self, S0|apply looks_self, S0]|intros; apply looks_method, S0|exact G].
  - intros [[s' r] base] X. destruct r; try apply looks_ret. specialize (B s' a base X).
    apply looks_bind; [apply looks_use_block, B|intros; apply looks_ret].
Qed.
Lemma looks_reset s self : covers P (storage s) -> looks P (b_reset calls hd s self).
Proof.
  intros S0. unfold b_reset. apply looks_bind; [apply looks_retag; repeat (apply Forall_cons; [assumption|]); apply Forall_nil|intros r].
  apply looks_bind; [apply looks_one, Hh|intros c]. apply looks_bind; [apply looks_one, Hh|intros d].
  apply looks_bind; [apply looks_write, Hh|intros; apply looks_ret].
Qed.
End Sync.

(** ** Programs *)
Definition mem_of (hd st : block) (x : Z) : Prop := in_block hd x \/ in_block st x.

Definition with_sb (w : bworld) (s : bstate) : bworld := MkW (wslab w) s (wowned w) (wshares w) (wobjs w) (wbusy w) (wcalls w).

(** The steps other than calls *)
Lemma plain_local t hd st w o s : (forall i c u, o <> BCall i c u) -> storage (wslab w) = st -> Forall (fun o => covers (mem_of hd st) (oblk o)) (wobjs w) -> same_in (mem_of hd st) (wsb w) s ->
  exists s', bstep t hd (with_sb w s) o = (with_sb (fst (bstep t hd w o)) s', snd (bstep t hd w o)) /\ same_in (mem_of hd st) (wsb (fst (bstep t hd w o))) s'.
Proof.
  intros NC a2 OB G.
  assert (Hh : covers (mem_of hd st) hd) by (intros y Y; left; exact Y). assert (Hs : covers (mem_of hd st) (storage (wslab w))) by (rewrite a2; intros y Y; right; exact Y).
  destruct w as [sl sb ow sh ob bu ca]. unfold with_sb. cbn [wslab wsb wowned wshares wobjs wbusy wcalls] in *.
  assert (SH : forall self, exists s',
    match self_ref bu hd (storage sl) self s with Some (n, b) => (MkW sl b ow (sh ++ [n]) ob bu ca, BDone) | None => (MkW sl s ow sh ob bu ca, BUB) end =
    (let r := match self_ref bu hd (storage sl) self sb with Some (n, b) => (MkW sl b ow (sh ++ [n]) ob bu ca, BDone) | None => (MkW sl sb ow sh ob bu ca, BUB) end in (with_sb (fst r) s', snd r)) /\
    same_in (mem_of hd st) (wsb (fst match self_ref bu hd (storage sl) self sb with Some (n, b) => (MkW sl b ow (sh ++ [n]) ob bu ca, BDone) | None => (MkW sl sb ow sh ob bu ca, BUB) end)) s').
  { intros self. pose proof (looks_self _ bu hd Hh (storage sl) self Hs sb s G) as B. unfold both in B.
    destruct (self_ref bu hd (storage sl) self sb) as [[n b]|], (self_ref bu hd (storage sl) self s) as [[n' b']|]; try contradiction.
    - destruct B as [<- B]. exists b'. split; [reflexivity|exact B].
    - exists s. split; [reflexivity|exact G]. }
  destruct o as [[k|]|k c u| |k a| |c]; cbn [bstep wslab wsb wowned wshares wobjs wbusy wcalls].
  - destruct (nth_error sh k) as [self|]; [apply SH|]. exists s. split; [reflexivity|exact G].
  - destruct ow; [apply SH|]. exists s. split; [reflexivity|exact G].
  - destruct (NC k c u eq_refl).
  - destruct ow; [|exists s; split; [reflexivity|exact G]]. destruct bu; [|exists s; split; [reflexivity|exact G]].
    pose proof (looks_reset _ [] hd Hh sl 0 Hs sb s G) as B. unfold both in B.
    destruct (b_reset [] hd sl 0 sb) as [[n b]|], (b_reset [] hd sl 0 s) as [[n' b']|]; try contradiction.
    + destruct B as [<- B]. exists b'. split; [reflexivity|exact B].
    + exists s. split; [reflexivity|exact G].
  - destruct (nth_error ob k) as [o0|] eqn:E; [|exists s; split; [reflexivity|exact G]]. destruct (act_ok o0 a) eqn:A0; [|exists s; split; [reflexivity|exact G]].
    assert (S0 : covers (mem_of hd st) (oblk o0)) by (rewrite Forall_forall in OB; apply OB, (nth_error_In _ _ E)).
    pose proof (looks_act _ o0 bu a S0 A0 sb s G) as B. unfold both in B.
    destruct (do_act bu a sb) as [[n b]|], (do_act bu a s) as [[n' b']|]; try contradiction.
    + destruct B as [<- B]. exists b'. split; [reflexivity|exact B].
    + exists s. split; [reflexivity|exact G].
  - exists s. split; [reflexivity|exact G].
  - exists s. split; [reflexivity|exact G].
Qed.

Lemma bstep_local t hd st own w i o s : valid_target t -> disjoint hd st -> winv t hd st own w i -> bop_ok t o -> same_in (mem_of hd st) (wsb w) s ->
  exists s', bstep t hd (with_sb w s) o = (with_sb (fst (bstep t hd w o)) s', snd (bstep t hd w o)) /\ same_in (mem_of hd st) (wsb (fst (bstep t hd w o))) s'.
Proof.
  intros Ht Dj I Oo G. pose proof I as [a1 a2 a3 a4 a5 a6 a7 a8 a9 a10 a11 a12 a13].
  assert (Hh : covers (mem_of hd st) hd) by (intros y Y; left; exact Y). assert (Hs : covers (mem_of hd st) (storage (wslab w))) by (rewrite a2; intros y Y; right; exact Y).
  assert (Pl : (forall i c u, o <> BCall i c u) -> exists s', bstep t hd (with_sb w s) o = (with_sb (fst (bstep t hd w o)) s', snd (bstep t hd w o)) /\ same_in (mem_of hd st) (wsb (fst (bstep t hd w o))) s').
  { intros NC. apply plain_local; [exact NC|exact a2| |exact G]. rewrite <- a6. apply Forall_map. apply Forall_forall. intros o1 O1 y Y. right. exact (proj1 (a7 o1 y O1 Y)). }
  destruct o as [f|k c u| |k a| |c]; try (apply Pl; discriminate). clear Pl.
  destruct w as [sl sb ow sh ob bu ca]. unfold with_sb. cbn [bstep wslab wsb wowned wshares wobjs wbusy wcalls] in *.
  destruct (nth_error sh k) as [self|] eqn:E; [|exists s; split; [reflexivity|exact G]].
  assert (NR : c = CReset \/ c <> CReset) by (destruct c; auto; right; discriminate). destruct NR as [->|NR]; [exists s; split; [reflexivity|exact G]|].
  destruct (call_runs bu t hd st own (iobjs i) (frees hd st (consumed sl)) _ sb sl c u self Dj (fun x X => or_introl X) a2 NR a5 (shares_over hd st sh self (nth_error_In _ _ E))) as (tag & s1 & R1 & _).
  { intros a0 A0. destruct (step_place t sl c a0 Ht a1 Oo A0) as (_ & P1 & _ & P2 & _). rewrite a2 in *. split; [exact P1|]. split; [intros x X; right; split; [apply P1, X|apply (P2 x X)]|].
    apply Forall_forall. intros o0 O0 x [X1 X2]. pose proof (P2 x X1). destruct (a7 o0 x O0 X2). lia. }
  assert (B : both (mem_of hd st) (b_call bu t hd sl c u self sb) (b_call bu t hd sl c u self s)).
  { apply both_call; [exact Hh|exact Hs|exact G|]. intros s' a0 base (z & Z0).
    assert (A0 : snd (step t sl c) = RBlock a0).
    { unfold b_call in R1. unfold mbind in R1, Z0. destruct (use_self bu hd sl u self sb) as [[self' s2]|]; [|discriminate]. rewrite Z0 in R1. cbn beta in R1.
      destruct (use_block _ _ _ _ _) as [[? ?]|]; [|discriminate]. injection R1 as R1 _ _. rewrite <- R1. reflexivity. }
    destruct (step_place t sl c a0 Ht a1 Oo A0) as (_ & P1 & _). intros y Y. right. rewrite <- a2. apply P1, Y. }
  rewrite R1 in B. unfold both in B. destruct (b_call bu t hd sl c u self s) as [[r2 s2]|] eqn:R2; [|contradiction]. destruct B as [<- B].
  exists s2. rewrite R1. destruct (step t sl c) as [sl' r]. destruct c; try congruence; split; try reflexivity; exact B.
Qed.

Lemma brun_local t hd st own os : valid_target t -> disjoint hd st -> Forall (bop_ok t) os -> forall w i s, winv t hd st own w i -> same_in (mem_of hd st) (wsb w) s ->
  exists s', brun t hd (with_sb w s) os = (with_sb (fst (brun t hd w os)) s', snd (brun t hd w os)) /\ same_in (mem_of hd st) (wsb (fst (brun t hd w os))) s'.
Proof.
  intros Ht Dj. induction 1 as [|o os O F IH]; intros w i s I G; cbn [brun]; [exists s; auto|].
  destruct (bstep_inv t hd st own w i o Ht Dj I O) as (i' & _ & I'). destruct (bstep_local t hd st own w i o s Ht Dj I O G) as (s' & E & G').
  rewrite E. destruct (bstep t hd w o) as [w1 r]. cbn [fst snd] in *. destruct (IH w1 i' s' I' G') as (s2 & E2 & G2). rewrite E2.
  destruct (brun t hd w1 os) as [w3 h3]. cbn [fst snd] in *. exists s2. auto.
Qed.

(** The stacks of the allocation *)
Lemma bnew_with hd st own : exists s, bnew hd st own = with_sb (bwide st own) s /\ same_in (mem_of hd st) (wsb (bwide st own)) s.
Proof.
  eexists. split; [reflexivity|]. split; [reflexivity|]. intros y Y. cbn [bwide wsb stk]. unfold allocated.
  assert (E : existsb (fun b => inb b y) [hd; st] = true).
  { apply existsb_exists. destruct Y as [Y|Y]; [exists hd|exists st]; (split; [cbn; auto|apply inb_iff, Y]). }
  rewrite E. reflexivity.
Qed.

Lemma bnew_run t hd st own os : valid_target t -> valid_region t st -> disjoint hd st -> Forall (bop_ok t) os ->
  exists s, brun t hd (bnew hd st own) os = (with_sb (fst (brun t hd (bwide st own) os)) s, snd (brun t hd (bwide st own) os)).
Proof.
  intros Ht V Dj F. destruct (bnew_with hd st own) as (s & -> & G). destruct (brun_local t hd st own os Ht Dj F _ _ s (bnew_inv t hd st own V) G) as (s' & E & _). eauto.
Qed.
