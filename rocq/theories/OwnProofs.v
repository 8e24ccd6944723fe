(** * OwnProofs: the invariant behind the claims about Box, LeakBox and unsize. *)
From Verif Require Import Base Spec BaseFacts SyncMemModel SyncMemSpec SyncMemProofs UninitModel UninitSpec UninitProofs
  OwnModel OwnSpec.

(** ** unsize *)

Lemma unsize_with_spec t p c : unsize_with t p c =
  if Nat.eqb (length (rwords (c p))) 1
  then (if negb (debug t) || (raddr (c p) =? p) then Ret (MkRaw p (rwords (c p))) else Panic PN_base)
  else Panic PN_fat.
Proof. unfold unsize_with. destruct (Nat.eqb _ 1); [|reflexivity]. destruct (negb (debug t) || (raddr (c p) =? p)); reflexivity. Qed.

Lemma replace_ptr_same t k a n r : length (rwords r) = 1%nat -> raddr r = a -> replace_ptr t k a n r = Ret (r, n).
Proof.
  intros L E. assert (U : unsize_with t a (fun _ => r) = Ret r).
  { rewrite unsize_with_spec, L, E, Z.eqb_refl, orb_true_r. cbn. destruct r; cbn in *; congruence. }
  induction k; cbn [replace_ptr]; rewrite ?U; try reflexivity; [apply IHk|rewrite E, Z.eqb_refl, orb_true_r; reflexivity..].
Qed.

Lemma unsize_spec t k a n c : unsize t k a n c =
  if Nat.eqb (length (rwords (c a))) 1
  then (if negb (debug t) || (raddr (c a) =? a) then Ret (MkRaw a (rwords (c a)), n) else Panic PN_base)
  else Panic PN_fat.
Proof.
  unfold unsize, as_sized_ptr. rewrite unsize_with_spec. destruct (Nat.eqb_spec (length (rwords (c a))) 1) as [E|]; [|reflexivity].
  destruct (negb (debug t) || (raddr (c a) =? a)); [|reflexivity]. cbn [obind]. apply replace_ptr_same; auto.
Qed.

(** ** The invariant *)

Definition otok_ok (t : target) (k : otoken) : Prop :=
  claims (okd k) = true -> wf_view t (TSized (olay k)) (oview k).

Definition oinv (t : target) (s : ostate) : Prop :=
  Forall (otok_ok t) (otoks s) /\
  (forall i j x y, i <> j -> nth_error (otoks s) i = Some x -> nth_error (otoks s) j = Some y ->
     claims (okd x) = true -> claims (okd y) = true -> disjoint (region (oview x)) (region (oview y))) /\
  (forall i k, nth_error (otoks s) i = Some k ->
     life (events_of i (olog s)) =
       Some (if with_value (okd k) then Some (mem_read (omem s) (uptr (oview k)) (lsize (olay k))) else None)) /\
  (forall i, nth_error (otoks s) i = None -> events_of i (olog s) = []).

Lemma events_app i l l' : events_of i (l ++ l') = events_of i l ++ events_of i l'.
Proof. unfold events_of. apply flat_map_app. Qed.
Lemma events_same i es : events_of i (map (pair i) es) = es.
Proof. unfold events_of. induction es as [|e es IH]; cbn; [reflexivity|]. rewrite Nat.eqb_refl. cbn. f_equal. exact IH. Qed.
Lemma events_other i j es : i <> j -> events_of i (map (pair j) es) = [].
Proof. intros D. unfold events_of. induction es as [|e es IH]; cbn; [reflexivity|]. destruct (Nat.eqb_spec j i); [congruence|exact IH]. Qed.
Lemma life_app a b : life (a ++ b) = fold_left life_step b (life a).
Proof. unfold life. apply fold_left_app. Qed.
Lemma bytes_eqb_refl b : bytes_eqb b b = true.
Proof. unfold bytes_eqb. destruct (list_eq_dec byte_eq_dec b b); congruence. Qed.

Lemma upd_len {A} i (x : A) l : length (upd_nth i x l) = length l.
Proof. revert i. induction l as [|y l IH]; intros [|i]; cbn; auto. Qed.

(** Replacing token [i]. *)
Lemma oinv_set t s i k k' m es : oinv t s -> nth_error (otoks s) i = Some k ->
  otok_ok t k' -> (claims (okd k') = true -> claims (okd k) = true /\ inside (region (oview k')) (region (oview k))) ->
  (forall x, ~ (claims (okd k) = true /\ in_block (region (oview k)) x) -> m x = omem s x) ->
  fold_left life_step es (Some (if with_value (okd k) then Some (mem_read (omem s) (uptr (oview k)) (lsize (olay k))) else None)) =
    Some (if with_value (okd k') then Some (mem_read m (uptr (oview k')) (lsize (olay k'))) else None) ->
  oinv t (oset s i k' m es).
Proof.
  intros (F & D & L & E) N OK IN M LF.
  assert (LT : (i < length (otoks s))%nat) by (apply nth_error_Some; congruence).
  unfold oinv, oset; cbn [otoks omem olog]. split; [|split; [|split]].
  - apply Forall_forall. intros x I. apply upd_nth_In in I. destruct I as [-> | I]; [exact OK|]. rewrite Forall_forall in F. auto.
  - intros a b x y AB Na Nb Cx Cy.
    destruct (Nat.eq_dec a i) as [-> | Da].
    + erewrite upd_nth_nth_eq in Na by exact N. injection Na as <-. rewrite upd_nth_nth_ne in Nb by auto.
      destruct (IN Cx) as (C & I). eapply disjoint_inside; [exact I|]. apply (D i b k y); auto.
    + rewrite upd_nth_nth_ne in Na by auto. destruct (Nat.eq_dec b i) as [-> | Db].
      * erewrite upd_nth_nth_eq in Nb by exact N. injection Nb as <-. destruct (IN Cy) as (C & I).
        apply disjoint_sym. eapply disjoint_inside; [exact I|]. apply disjoint_sym. apply (D a i x k); auto.
      * rewrite upd_nth_nth_ne in Nb by auto. exact (D a b x y AB Na Nb Cx Cy).
  - intros j y Nj. rewrite events_app, life_app. destruct (Nat.eq_dec j i) as [-> | Dj].
    + erewrite upd_nth_nth_eq in Nj by exact N. injection Nj as <-. rewrite events_same, (L i k N). exact LF.
    + rewrite upd_nth_nth_ne in Nj by auto. rewrite events_other by auto. cbn [fold_left]. rewrite (L j y Nj). f_equal.
      destruct (with_value (okd y)) eqn:W; [|reflexivity]. f_equal. apply mem_read_same. intros x Hx. symmetry. apply M. intros (C & I).
      assert (CY : claims (okd y) = true) by (destruct (okd y); cbn in *; congruence).
      rewrite Forall_forall in F. pose proof (F y (nth_error_In _ _ Nj) CY) as (_ & (_ & _ & Q)).
      apply (D i j k y (not_eq_sym Dj) N Nj C CY x). split; [exact I|]. unfold in_block, region; cbn. lia.
  - intros j Nj. rewrite events_app. assert (j <> i).
    { intros ->. apply nth_error_None in Nj. rewrite upd_len in Nj. lia. }
    rewrite events_other by auto. rewrite E; [reflexivity|]. rewrite upd_nth_nth_ne in Nj by auto. exact Nj.
Qed.

Lemma oinv_init t us m : owned_memories t us -> oinv t (oinit us m).
Proof.
  intros (F & P). unfold oinv, oinit; cbn [otoks omem olog]. split; [|split; [|split]].
  - apply Forall_map. eapply Forall_impl; [|exact F]. intros p W _. exact W.
  - intros i j x y D Nx Ny _ _. rewrite nth_error_map in Nx, Ny. destruct (nth_error us i) eqn:A, (nth_error us j) eqn:B; try discriminate.
    cbn in Nx, Ny. injection Nx as <-. injection Ny as <-. cbn [oview]. apply (P i j); auto; rewrite nth_error_map; [rewrite A|rewrite B]; reflexivity.
  - intros i k N. rewrite nth_error_map in N. destruct (nth_error us i); [|discriminate]. injection N as <-. reflexivity.
  - reflexivity.
Qed.

Lemma write_read m p bs n : Z.of_nat (length bs) = n -> mem_read (mem_write m p bs) p n = bs.
Proof. intros <-. apply reads_mem_read, mem_write_reads. Qed.

Lemma write_other m p bs n x : Z.of_nat (length bs) <= n -> ~ (p <= x < p + n) -> mem_write m p bs x = m x.
Proof. intros L X. apply (mem_write_outside m p bs n L). unfold in_block; cbn. exact X. Qed.

Ltac conv H N := eapply oinv_set; [exact H|exact N|..].

Lemma oinv_step t s c : oinv t s -> oop_ok t c -> oinv t (fst (ostep t s c)).
Proof.
  intros H OK. destruct c as [i o]. unfold ostep. destruct (nth_error (otoks s) i) as [k|] eqn:N; [|exact H].
  assert (KO : otok_ok t k) by (destruct H as (F & _); rewrite Forall_forall in F; apply F; eapply nth_error_In; exact N).
  destruct k as [kd v l sz]. cbn [okd oview olay osized] in *. unfold otok_ok in KO; cbn [okd oview olay] in KO.
  unfold sized_val, oop_ok in *; cbn [snd osized olay] in *.
  assert (WF : forall kd' v', claims kd = true -> uptr v' = uptr v -> lsize l <= ulen v' <= ulen v -> forall sz', otok_ok t (MkOT kd' v' l sz')).
  { intros kd' v' C U L sz' _. destruct (KO C) as (R & T & A & S). unfold region in R. split; [|split; [exact T|split; [cbn; rewrite U; exact A|cbn; lia]]].
    unfold valid_region, region in *; cbn [start size oview] in *. pose proof (type_layout_size t l T). rewrite U. lia. }
  assert (IN : forall v' : uview, uptr v' = uptr v -> ulen v' <= ulen v -> inside (region v') (region v)).
  { intros v' U L x. unfold in_block, region; cbn. lia. }
  assert (SZ : claims kd = true -> 0 <= lsize l <= ulen v).
  { intros C. destruct (KO C) as (R & T & A & S). pose proof (type_layout_size t l T). lia. }
  assert (VK : forall kd' v' sz', with_value kd' = with_value kd -> claims kd = true -> uptr v' = uptr v -> lsize l <= ulen v' <= ulen v ->
     oinv t (oset s i (MkOT kd' v' l sz') (omem s) [])).
  { intros kd' v' sz' W C U L. conv H N; cbn [okd oview olay].
    - apply WF; assumption.
    - intros _. split; [exact C|apply IN; [exact U|lia]].
    - reflexivity.
    - cbn [fold_left]. rewrite W, U. reflexivity. }
  assert (TK : forall kd' v' e, with_value kd = true -> claims kd = true -> with_value kd' = false -> uptr v' = uptr v -> lsize l <= ulen v' <= ulen v ->
     (e = OTook (mem_read (omem s) (uptr v) (lsize l)) \/ e = ODropped (mem_read (omem s) (uptr v) (lsize l))) ->
     oinv t (oset s i (MkOT kd' v' l sz) (omem s) [e])).
  { intros kd' v' e W C W' U L E. conv H N; cbn [okd oview olay].
    - apply WF; assumption.
    - intros _. split; [exact C|apply IN; [exact U|lia]].
    - reflexivity.
    - rewrite W, W'. destruct E as [-> | ->]; cbn [fold_left life_step]; rewrite bytes_eqb_refl; reflexivity. }
  assert (PUT : forall kd' v' bs, with_value kd = false -> claims kd = true -> with_value kd' = true -> uptr v' = uptr v -> lsize l <= ulen v' <= ulen v ->
     Z.of_nat (length bs) = lsize l -> oinv t (oset s i (MkOT kd' v' l sz) (mem_write (omem s) (uptr v) bs) [OPut bs])).
  { intros kd' v' bs W C W' U L E. conv H N; cbn [okd oview olay].
    - apply WF; assumption.
    - intros _. split; [exact C|apply IN; [exact U|lia]].
    - intros x X. apply (write_other _ _ _ (ulen v)); [lia|]. intros Q. apply X. split; [exact C|]. unfold in_block, region; cbn. lia.
    - rewrite W, W'. cbn [fold_left life_step]. rewrite U, write_read by exact E. reflexivity. }
  assert (RE : forall bs, with_value kd = true -> claims kd = true ->
     Z.of_nat (length bs) = lsize l -> oinv t (oset s i (MkOT kd v l sz) (mem_write (omem s) (uptr v) bs) [OTook (mem_read (omem s) (uptr v) (lsize l)); OPut bs])).
  { intros bs W C E. specialize (SZ C). conv H N; cbn [okd oview olay].
    - apply WF; auto; lia.
    - intros _. split; [exact C|apply inside_refl].
    - intros x X. apply (write_other _ _ _ (ulen v)); [lia|]. intros Q. apply X. split; [exact C|]. unfold in_block, region; cbn. lia.
    - rewrite W. cbn [fold_left life_step]. rewrite bytes_eqb_refl. cbn [life_step]. rewrite write_read by exact E. reflexivity. }
  assert (GO : claims kd = true -> with_value kd = false -> oinv t (oset s i (MkOT OGone v l sz) (omem s) [])).
  { intros C W. conv H N; cbn [okd oview olay with_value].
    - intros Q. discriminate Q.
    - intros Q. discriminate Q.
    - reflexivity.
    - rewrite W. reflexivity. }
  assert (UN : forall d ws k, (k = PBox \/ k = PUninit) -> forall r n, unsize t k (uptr v) (ulen v) (fun p => MkRaw (p + d) ws) = Ret (r, n) -> raddr r = uptr v /\ n = ulen v).
  { intros d ws k _ r n. rewrite unsize_spec. cbn [raddr rwords]. destruct (Nat.eqb _ _); [|discriminate]. destruct (_ || _); [|discriminate].
    intros Q. injection Q as <- <-. auto. }
  destruct o, kd; cbn [fst]; try exact H; unfold become; cbn [olay osized];
    cbn [claims with_value] in *; try specialize (SZ eq_refl).
  all: try (destruct sz; cbn [andb]; [|exact H]).
  all: try (destruct (Z.eqb_spec (Z.of_nat (length bs)) (lsize l)) as [EB|]; [|exact H]).
  all: unfold box_new, box_take, box_leak, own_replace, lb_new, lb_leak, lb_from_mut, lb_from_uninit, lb_into_pin, lb_write, lb_take, own_drop,
      box_into_raw, box_from_raw, lb_into_raw, lb_from_raw; cbn [fst].
  all: try (apply VK; cbn; try reflexivity; lia).
  all: try (apply TK; cbn; auto; lia).
  all: try (apply PUT; cbn; auto; lia).
  all: try (apply RE; auto).
  all: try (apply GO; auto).
  - destruct (unsize t PUninit _ _ _) as [[r n]|] eqn:E; [|cbn [fst]; apply GO; auto].
    destruct (UN d ws PUninit (or_intror eq_refl) r n E) as (U1 & U2). cbn [fst]. apply VK; cbn; auto; lia.
  - destruct (unsize t PBox _ _ _) as [[r n]|] eqn:E; [|cbn [fst]; apply TK; auto; lia].
    destruct (UN d ws PBox (or_introl eq_refl) r n E) as (U1 & U2). cbn [fst]. apply VK; cbn; auto; lia.
  - (* cast *) destruct (v_cast v l0) as [u|] eqn:E; [|exact H]. cbn [fst]. unfold v_cast in E.
    destruct (v_fits v l0) eqn:F; [|discriminate]. injection E as <-.
    apply v_fits_iff in F; [|apply (type_layout_align t l0 OK)]. destruct F as (F1 & F2).
    conv H N; cbn [okd oview olay with_value].
    + intros _. destruct (KO eq_refl) as (R & _). split; [exact R|]. cbn. split; [exact OK|]. split; [exact F1|exact F2].
    + intros _. split; [reflexivity|]. intros x Hx. exact Hx.
    + reflexivity.
    + reflexivity.
Qed.

Lemma orun_inv t cs : forall s, oinv t s -> Forall (oop_ok t) cs -> oinv t (fst (orun t s cs)).
Proof.
  induction cs as [|c cs IH]; intros s H F; [exact H|]. inversion F; subst. cbn [orun].
  pose proof (oinv_step t s c H H2) as H1. destruct (ostep t s c) as [s1 a]. cbn [fst] in H1. specialize (IH s1 H1 H3).
  destruct (orun t s1 cs). exact IH.
Qed.

Lemma own_reach_inv t us m cs s : own_reach t us m cs s -> oinv t s.
Proof. intros (M & F & ->). apply orun_inv; [apply oinv_init; exact M|exact F]. Qed.
