(** * OwnRefProofs: the model of Box and LeakBox refines independent cells. *)
From Verif Require Import Base Spec BaseFacts SyncMemModel SyncMemSpec SyncMemProofs UninitModel UninitSpec UninitProofs
  OwnModel OwnSpec OwnProofs OwnRefSpec FixedVecPool.

(** A token and its cell *)
Definition tok_rel (k : otoken) (c : cell) : Prop :=
  okd k = ckind c /\ olay k = clay c /\ osized k = csized c /\ uptr (oview k) = caddr c /\ ulen (oview k) <= clen c /\
  (match okd k with OUninit | OInit | OBox => ulen (oview k) = clen c | _ => True end).

Definition cells_rel (t : target) (us : list (uview * layout)) (s : ostate) (cs : list cell) : Prop :=
  oinv t s /\ Forall2 tok_rel (otoks s) cs /\
  (forall i c, nth_error cs i = Some c -> life (events_of i (olog s)) = Some (if with_value (ckind c) then Some (cval c) else None)) /\
  Forall2 (fun p c => caddr c = uptr (fst p) /\ clen c = ulen (fst p)) us cs.

Lemma tok_rel_ex t us s cs i k : cells_rel t us s cs -> nth_error (otoks s) i = Some k ->
  exists c, nth_error cs i = Some c /\ tok_rel k c /\
    (with_value (okd k) = true -> mem_read (omem s) (uptr (oview k)) (lsize (olay k)) = cval c).
Proof.
  intros (I & F & L & _) N. destruct (Forall2_nth _ _ _ _ _ F N) as (c & C & R). exists c. split; [exact C|]. split; [exact R|].
  intros W. destruct I as (_ & _ & LL & _). pose proof (LL i k N) as E1. pose proof (L i c C) as E2. rewrite E1 in E2.
  destruct R as (R1 & _). rewrite <- R1, W in E2. congruence.
Qed.

Lemma coercion_unsize t k a n d ws : unsize t k a n (fun p => MkRaw (p + d) ws) =
  if coercion_ok t d ws then Ret (MkRaw a ws, n) else if Nat.eqb (length ws) 1 then Panic PN_base else Panic PN_fat.
Proof.
  rewrite unsize_spec. cbn [rwords raddr]. unfold coercion_ok. destruct (Nat.eqb (length ws) 1); [|reflexivity]. cbn [andb].
  replace (a + d =? a) with (d =? 0); [destruct (negb (debug t) || (d =? 0)); reflexivity|].
  destruct (Z.eqb_spec d 0), (Z.eqb_spec (a + d) a); lia || reflexivity.
Qed.

Lemma v_cast_eq t v l : type_layout t l ->
  v_cast v l = if (lsize l <=? ulen v) && (uptr v mod lalign l =? 0) then Some (MkView (uptr v) (ulen v) 0) else None.
Proof.
  intros T. unfold v_cast. pose proof (type_layout_align t l T) as P. pose proof (v_fits_iff v l P) as F. unfold aligned in F.
  rewrite <- Z.mod_divide in F by lia.
  destruct (v_fits v l) eqn:E.
  - destruct (proj1 F eq_refl) as (A & B). rewrite (proj2 (Z.leb_le _ _) B), A. reflexivity.
  - destruct (Z.leb_spec (lsize l) (ulen v)); [|reflexivity]. destruct (Z.eqb_spec (uptr v mod lalign l) 0); [|reflexivity].
    assert (false = true) by (apply F; auto). discriminate.
Qed.

Lemma Forall2_upd {A B} (R : A -> B -> Prop) l l' i a b : Forall2 R l l' -> R a b -> Forall2 R (upd_nth i a l) (upd_nth i b l').
Proof.
  intros F H. revert i. induction F as [|x y l l' XY F IH]; intros [|i]; cbn; constructor; auto.
Qed.
Lemma Forall2_upd_r {A B} (R : A -> B -> Prop) l l' i b b' : Forall2 R l l' -> nth_error l' i = Some b -> (forall a, R a b -> R a b') ->
  Forall2 R l (upd_nth i b' l').
Proof.
  intros F N H. revert i N. induction F as [|x y l l' XY F IH]; intros [|i] N; cbn in *; try discriminate; constructor; auto.
  injection N as ->. auto.
Qed.

Lemma rel_set t us s cs i c k' c' m es : cells_rel t us s cs -> nth_error cs i = Some c ->
  oinv t (oset s i k' m es) -> tok_rel k' c' -> caddr c' = caddr c -> clen c' = clen c ->
  fold_left life_step es (Some (if with_value (ckind c) then Some (cval c) else None)) =
    Some (if with_value (ckind c') then Some (cval c') else None) ->
  cells_rel t us (oset s i k' m es) (upd_nth i c' cs).
Proof.
  intros (I & F & L & G) C I' R A1 A2 LF. split; [exact I'|]. cbn [oset otoks olog]. split; [apply Forall2_upd; assumption|]. split.
  - intros j d D. rewrite events_app, life_app. destruct (Nat.eq_dec j i) as [-> | NE].
    + erewrite upd_nth_nth_eq in D by exact C. injection D as <-. rewrite events_same, (L i c C). exact LF.
    + rewrite upd_nth_nth_ne in D by auto. rewrite events_other by auto. cbn [fold_left]. exact (L j d D).
  - eapply Forall2_upd_r; [exact G|exact C|]. intros p. rewrite A1, A2. auto.
Qed.

(** All memory given to the owners *)
Definition owned (us : list (uview * layout)) (x : Z) : Prop := Exists (fun p => in_block (region (fst p)) x) us.

Lemma rel_owned t us s cs i k x : cells_rel t us s cs -> nth_error (otoks s) i = Some k ->
  uptr (oview k) <= x < uptr (oview k) + ulen (oview k) -> owned us x.
Proof.
  intros (_ & F & _ & G) N X. destruct (Forall2_nth _ _ _ _ _ F N) as (c & C & (_ & _ & _ & A & B & _)).
  assert (exists p, nth_error us i = Some p) as (p & P).
  { destruct (nth_error us i) eqn:P; [eauto|]. apply nth_error_None in P. rewrite (Forall2_length _ _ _ G) in P.
    apply nth_error_None in P. congruence. }
  destruct (Forall2_nth _ _ _ _ _ G P) as (c' & C' & (Q1 & Q2)). assert (c' = c) by congruence. subst c'.
  apply Exists_exists. exists p. split; [eapply nth_error_In; exact P|]. unfold in_block, region; cbn. lia.
Qed.

Definition step_rel (t : target) (us : list (uview * layout)) (s : ostate) (r : ostate * oanswer)
  (q : list cell * list (nat * oevent) * oanswer) : Prop :=
  snd r = snd q /\ olog (fst r) = olog s ++ snd (fst q) /\ cells_rel t us (fst r) (fst (fst q)) /\
  (forall x, ~ owned us x -> omem (fst r) x = omem s x).

Lemma step_rel_id t us s cs a : cells_rel t us s cs -> step_rel t us s (s, a) (cs, [], a).
Proof. intros R. split; [reflexivity|]. split; [cbn; rewrite app_nil_r; reflexivity|]. split; [exact R|reflexivity]. Qed.

Lemma upd_same {A} i (x : A) l : nth_error l i = Some x -> upd_nth i x l = l.
Proof. revert i. induction l as [|y l IH]; intros [|i] N; cbn in *; try discriminate; [congruence|]. f_equal. auto. Qed.

Lemma call_step t us s cs i o : cells_rel t us s cs -> oact_ok t us (OCall i o) ->
  step_rel t us s (ostep t s (i, o)) (cells_step t cs (OCall i o)).
Proof.
  intros R OK.
  assert (OK' : oop_ok t (i, o)) by (destruct o; exact OK || exact Logic.I).
  pose proof (oinv_step t s (i, o) (proj1 R) OK') as ST.
  unfold ostep, cells_step in *. destruct (nth_error (otoks s) i) as [k|] eqn:N.
  2: { assert (C : nth_error cs i = None).
       { destruct R as (_ & F & _). apply nth_error_None. rewrite <- (Forall2_length _ _ _ F). apply nth_error_None. exact N. }
       rewrite C. apply step_rel_id, R. }
  destruct (tok_rel_ex t us s cs i k R N) as (c & C & TR & V). rewrite C.
  assert (KO : otok_ok t k) by (destruct R as ((F & _) & _); rewrite Forall_forall in F; apply F; eapply nth_error_In; exact N).
  pose proof (fun x => rel_owned t us s cs i k x R N) as OW.
  destruct k as [kd v l sz]. destruct c as [ck cv cl csz ca cn].
  destruct TR as (E1 & E2 & E3 & E4 & E5 & E6).
  cbn [okd oview olay osized ckind cval clay csized caddr clen] in *. unfold otok_ok in KO; cbn [okd oview olay] in KO.
  subst ck cl csz ca.
  assert (SZ : claims kd = true -> 0 <= lsize l <= ulen v).
  { intros Q. destruct (KO Q) as (RR & T & A & S). pose proof (type_layout_size t l T). lia. }
  assert (SET : forall kd' v' sz' cv' m' es a, oinv t (oset s i (MkOT kd' v' l sz') m' es) ->
     tok_rel (MkOT kd' v' l sz') (MkCell kd' cv' l sz' (uptr v) cn) ->
     fold_left life_step es (Some (if with_value kd then Some cv else None)) = Some (if with_value kd' then Some cv' else None) ->
     (forall x, ~ owned us x -> m' x = omem s x) ->
     step_rel t us s (oset s i (MkOT kd' v' l sz') m' es, a) (upd_nth i (MkCell kd' cv' l sz' (uptr v) cn) cs, map (pair i) es, a)).
  { intros kd' v' sz' cv' m' es a I' TR LF M. split; [reflexivity|]. split; [reflexivity|]. split; [|exact M]. cbn [fst].
    eapply rel_set; [exact R|exact C|exact I'|exact TR|reflexivity|reflexivity|exact LF]. }
  assert (SAME : forall a, step_rel t us s (s, a) (upd_nth i (MkCell kd cv l sz (uptr v) cn) cs, map (pair i) [], a)).
  { intros a. rewrite upd_same by exact C. apply step_rel_id, R. }
  assert (WR : forall bs, claims kd = true -> Z.of_nat (length bs) = lsize l -> forall x, ~ owned us x -> mem_write (omem s) (uptr v) bs x = omem s x).
  { intros bs Q EB x X. specialize (SZ Q). apply (write_other _ _ _ (ulen v)); [lia|]. intros Y. apply X, OW, Y. }
  destruct o, kd; unfold cell_step, as_kind, with_new, as_unsized, as_type in *; cbn [ckind cval clay csized caddr clen fst snd] in *;
    try apply SAME; unfold become, sized_val in *; cbn [olay osized] in *; cbn [claims with_value] in *; try specialize (SZ eq_refl);
    try specialize (V eq_refl).
  all: try (destruct sz; cbn [andb] in *; [|apply SAME]).
  all: try (destruct (Z.eqb_spec (Z.of_nat (length bs)) (lsize l)) as [EB|]; cbn [andb] in *; [|apply SAME]).
  all: unfold box_new, box_take, box_leak, own_replace, lb_new, lb_leak, lb_from_mut, lb_from_uninit, lb_into_pin, lb_write, lb_take, own_drop, own_deref,
      box_into_raw, box_from_raw, lb_into_raw, lb_from_raw in *; cbn [fst snd uptr ulen umeta] in *.
  all: rewrite ?V in *.
  all: try (apply SAME).
  all: try (apply SET; [exact ST|repeat (split; [cbn; first [reflexivity|lia]|]); cbn; first [exact Logic.I|lia]|
      cbn [fold_left life_step with_value]; rewrite ?bytes_eqb_refl; reflexivity|first [reflexivity|apply WR; auto]]).
  - rewrite coercion_unsize in *. destruct (coercion_ok t d ws).
    + cbn [raddr rwords fst] in *. apply SET; [exact ST|repeat (split; [cbn; first [reflexivity|lia]|]); cbn; lia|reflexivity|reflexivity].
    + destruct (Nat.eqb (length ws) 1); cbn [fst] in *;
        (apply SET; [exact ST|repeat (split; [cbn; first [reflexivity|lia]|]); cbn; exact Logic.I|reflexivity|reflexivity]).
  - rewrite coercion_unsize in *. destruct (coercion_ok t d ws).
    + cbn [raddr rwords fst] in *. apply SET; [exact ST|repeat (split; [cbn; first [reflexivity|lia]|]); cbn; lia|reflexivity|reflexivity].
    + destruct (Nat.eqb (length ws) 1); cbn [fst] in *;
        (apply SET; [exact ST|repeat (split; [cbn; first [reflexivity|lia]|]); cbn; exact Logic.I|
          cbn [fold_left life_step with_value]; rewrite ?bytes_eqb_refl; reflexivity|reflexivity]).
  - rewrite (v_cast_eq t v l0 OK) in *. rewrite E6 in *. destruct ((lsize l0 <=? cn) && (uptr v mod lalign l0 =? 0)); [|apply SAME].
    cbn [fst] in ST. split; [reflexivity|]. split; [reflexivity|]. split; [|reflexivity]. cbn [fst].
    eapply rel_set; [exact R|exact C|exact ST| |reflexivity|reflexivity|reflexivity].
    repeat (split; [cbn; first [reflexivity|lia]|]); cbn; lia.
Qed.

Lemma other_step t us s cs a bs : cells_rel t us s cs -> oact_ok t us (OOther a bs) ->
  cells_rel t us (fst (oact_step t s (OOther a bs))) cs.
Proof.
  intros R D. pose proof (fun i k x => rel_owned t us s cs i k x R) as OW. destruct R as (I & F & L & G).
  assert (M : forall x, owned us x -> mem_write (omem s) a bs x = omem s x).
  { intros x X. apply (write_other _ _ _ (Z.of_nat (length bs))); [lia|]. intros Y. cbn [oact_ok] in D.
    apply Exists_exists in X. destruct X as (p & P & B). rewrite Forall_forall in D. apply (D p P x). split; [exact Y|exact B]. }
  split; [|split; [exact F|split; [exact L|exact G]]].
  destruct I as (I1 & I2 & I3 & I4). cbn [oact_step fst]. split; [exact I1|]. split; [exact I2|]. split; [|exact I4].
  intros i k N. cbn [otoks olog omem] in *. rewrite (I3 i k N). f_equal. destruct (with_value (okd k)) eqn:W; [|reflexivity]. f_equal.
  apply mem_read_same. intros x X. symmetry. apply M. apply (OW i k x N).
  assert (CL : claims (okd k) = true) by (destruct (okd k); cbn in *; congruence).
  rewrite Forall_forall in I1. pose proof (I1 k (nth_error_In _ _ N) CL) as (_ & (_ & _ & Q)). lia.
Qed.

Lemma cells_rel_init t us m : owned_memories t us -> cells_rel t us (oinit us m) (cells_init us).
Proof.
  intros O. split; [apply oinv_init, O|]. unfold oinit, cells_init; cbn [otoks olog]. split; [|split].
  - clear O. induction us as [|p us IH]; cbn; constructor; auto. repeat split; cbn; lia.
  - intros i c C. rewrite nth_error_map in C. destruct (nth_error us i); [|discriminate]. injection C as <-. reflexivity.
  - clear O. induction us as [|p us IH]; cbn; constructor; auto.
Qed.

Lemma oact_run_rel t us xs : forall s cs, cells_rel t us s cs -> Forall (oact_ok t us) xs ->
  forall s' as' cs' log' bs', oact_run t s xs = (s', as') -> cells_run t cs (olog s) xs = (cs', log', bs') ->
  as' = bs' /\ olog s' = log' /\ cells_rel t us s' cs' /\
  (forall x m, ~ owned us x -> omem s x = m x -> omem s' x = other_writes m xs x).
Proof.
  induction xs as [|x xs IH]; intros s cs R F s' as' cs' log' bs' E1 E2; cbn [oact_run cells_run] in *.
  { injection E1 as <- <-. injection E2 as <- <- <-. split; [reflexivity|]. split; [reflexivity|]. split; [exact R|]. intros x m _ E. exact E. }
  inversion F; subst. destruct x as [i o|a bs].
  - pose proof (call_step t us s cs i o R H1) as (S1 & S2 & S3 & S4). cbn [oact_step] in E1.
    destruct (ostep t s (i, o)) as [s1 a1]. destruct (cells_step t cs (OCall i o)) as [[cs1 es] b1]. cbn [fst snd] in *.
    destruct (oact_run t s1 xs) as [s2 r2] eqn:Q1. rewrite <- S2 in E2. destruct (cells_run t cs1 (olog s1) xs) as [[cs2 log2] r3] eqn:Q2.
    injection E1 as <- <-. injection E2 as <- <- <-. destruct (IH _ _ S3 H2 _ _ _ _ _ Q1 Q2) as (A & B & C & D).
    split; [congruence|]. split; [exact B|]. split; [exact C|]. intros x m X E. cbn [other_writes]. apply D; [exact X|].
    rewrite S4 by exact X. exact E.
  - pose proof (other_step t us s cs a bs R H1) as S3. cbn [oact_step cells_step fst] in *. rewrite app_nil_r in E2.
    destruct (oact_run t _ xs) as [s2 r2] eqn:Q1. destruct (cells_run t cs (olog s) xs) as [[cs2 log2] r3] eqn:Q2.
    injection E1 as <- <-. injection E2 as <- <- <-. destruct (IH _ _ S3 H2 _ _ _ _ _ Q1 Q2) as (A & B & C & D).
    split; [congruence|]. split; [exact B|]. split; [exact C|]. intros x m X E. cbn [other_writes]. apply D; [exact X|].
    cbn [omem]. unfold mem_write. rewrite E. reflexivity.
Qed.
