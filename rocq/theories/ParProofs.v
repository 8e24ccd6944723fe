(** * ParProofs *)
From Verif Require Import Base Spec BaseFacts SyncModel SyncSpec SyncProofs SyncMemModel SyncMemSpec SyncMemProofs FixedVecPool HeapSpec HeapProofs
  ConcModel ConcSpec ConcProofs RelaxedModel RelaxedSpec RelaxedProofs MemBumpSpec MemBumpProofs ConcMemModel ConcMemSpec ConcMemProofs ThreadsProofs
  ParModel ParSpec.

Lemma Forall2_nth_r {X Y} (R : X -> Y -> Prop) xs ys i y : Forall2 R xs ys -> nth_error ys i = Some y -> exists x, nth_error xs i = Some x /\ R x y.
Proof. intros F. revert i. induction F as [|x0 y0 xs ys H F IH]; intros [|i]; cbn; try discriminate; [intros [= <-]; eauto|apply IH]. Qed.
Lemma Forall2_imp {X Y} (P Q : X -> Y -> Prop) xs ys : (forall i x y, nth_error xs i = Some x -> nth_error ys i = Some y -> P x y -> Q x y) -> Forall2 P xs ys -> Forall2 Q xs ys.
Proof. intros I F. induction F as [|x y xs ys H F IH]; constructor; [apply (I 0%nat); auto|]. apply IH. intros i. apply (I (Datatypes.S i)). Qed.

(** ** The invariant *)
Definition ptr_ok (t : target) (cs : csys) (x : parptr) (a : parr) : Prop :=
  pp_addr x = pa_addr a /\ pp_lay x = pa_lay a /\ pp_live x = pa_live a /\
  (pp_live x = true ->
    valid_layout t (pp_lay x) /\ 0 < lsize (pp_lay x) /\ aligned (pp_addr x) (lalign (pp_lay x)) /\
    exists n, nth_error (ctoks cs) (pp_tok x) = Some (MkBlock (pp_addr x) n, pa_owner a) /\ lsize (pp_lay x) <= n /\
      agrees (cmem cs) (pp_addr x) (lsize (pp_lay x)) (pa_data a)).

Definition has (ptrs : list parptr) (A : list parr) (i h : nat) (x : parptr) (a : parr) : Prop :=
  nth_error ptrs h = Some x /\ nth_error A h = Some a /\ pp_live x = true /\ pa_owner a = i.

Definition asks (ptrs : list parptr) (A : list parr) (i : nat) (o : parop) (l : layout) : Prop :=
  match o with
  | PAlloc l' | PZeroed l' => l' = l
  | PRealloc h n => exists x a, has ptrs A i h x a /\ l = MkLayout n (lalign (pp_lay x)) /\ lsize (pp_lay x) < n
  | _ => False
  end.

Definition good_answer (st : block) (lat : Z) (l : layout) (r : response) : Prop :=
  (r = RPanic P_size /\ lsize l = 0) \/ (r = RNone /\ 0 < lsize l /\ ~ fits_in st lat l) \/ (exists a, r = RBlock a /\ 0 < lsize l).

Definition newblock (t : target) (cs : csys) (ptrs : list parptr) (i k : nat) (p : Z) (l : layout) : Prop :=
  rthreads (cbase cs) i = Idle /\ nth_error (ctoks cs) k = Some (MkBlock p (lsize l), i) /\ valid_layout t l /\ 0 < lsize l /\
  aligned p (lalign l) /\ forall h x, nth_error ptrs h = Some x -> pp_live x = true -> pp_tok x <> k.

Definition phase_ok (t : target) (st : block) (cs : csys) (ptrs : list parptr) (A : list parr) (i : nat) (ph : parphase) : Prop :=
  match ph with
  | PIdle => rthreads (cbase cs) i = Idle
  | PWait o => exists l, valid_layout t l /\ asks ptrs A i o l /\
      ((exists g, rthreads (cbase cs) i = Running (CAlloc l) g) \/
       (exists r, rthreads (cbase cs) i = Done (CAlloc l) r /\ good_answer st (latest (cbase cs)) l r))
  | PZeroing o k p l d => o = PZeroed l /\ newblock t cs ptrs i k p l /\ 0 <= d <= lsize l /\ forall z, 0 <= z < d -> cmem cs (p + z) = Some 0
  | PCopying o k p l d => exists h n x a, o = PRealloc h n /\ has ptrs A i h x a /\ l = MkLayout n (lalign (pp_lay x)) /\ lsize (pp_lay x) < n /\
      newblock t cs ptrs i k p l /\ 0 <= d <= lsize (pp_lay x) /\ forall z, 0 <= z < d -> cmem cs (p + z) = cmem cs (pp_addr x + z)
  end.

Definition separate (ptrs : list parptr) : Prop := forall h h' x x', h <> h' -> nth_error ptrs h = Some x -> nth_error ptrs h' = Some x' ->
  pp_live x = true -> pp_live x' = true -> pp_tok x <> pp_tok x'.

Definition fullp (st : block) (cs : csys) (l : layout) : Prop := ~ fits_in st (latest (cbase cs)) l.

Record parinv (t : target) (st : block) (m0 : mem) (s : parsys) (A : list parr) : Prop := {
  pv_c : cinv t st m0 (pcs s);
  pv_e : entered t st (cbase (pcs s));
  pv_ptrs : Forall2 (ptr_ok t (pcs s)) (pptrs s) A;
  pv_sep : separate (pptrs s);
  pv_phase : forall i, phase_ok t st (pcs s) (pptrs s) A i (pphase s i);
  pv_log : par_ideals t (fullp st (pcs s)) [] (plog s) A }.

(** ** What an action of thread [i] that touches the blocks [T] leaves alone *)
Record cframe (i : nat) (T : nat -> Prop) (cs cs' : csys) : Prop := {
  cf_toks : forall k q, nth_error (ctoks cs) k = Some q -> ~ T k -> nth_error (ctoks cs') k = Some q;
  cf_mem : forall k b o x, nth_error (ctoks cs) k = Some (b, o) -> ~ T k -> in_block b x -> cmem cs' x = cmem cs x;
  cf_threads : forall j, j <> i -> rthreads (cbase cs') j = rthreads (cbase cs) j;
  cf_latest : latest (cbase cs) <= latest (cbase cs') }.

Lemma cframe_refl i T cs : cframe i T cs cs.
Proof. split; auto. lia. Qed.
Lemma cframe_trans i T a b c : cframe i T a b -> cframe i T b c -> cframe i T a c.
Proof.
  intros [A1 A2 A3 A4] [B1 B2 B3 B4]. split; eauto; try lia.
  - intros k bl o x N H I. rewrite (B2 k bl o x); eauto.
  - intros j N. rewrite B3, A3; auto.
Qed.

Lemma rstep_latest t st b a : valid_target t -> valid_region t st -> valid_raction t a -> rinv t st b -> latest b <= latest (rstep t st b a).
Proof.
  intros V VR VA RI. pose proof (rinv_step t st b a V VR VA RI) as RI'. unfold latest.
  assert (X : exists w, mo (rstep t st b a) = mo b ++ w).
  { destruct a as [j c|j k|j]; cbn [rstep].
    - destruct (rthreads b j); exists []; cbn [mo]; rewrite app_nil_r; reflexivity.
    - destruct (rthreads b j) as [|c g|c r] eqn:E; try (exists []; rewrite app_nil_r; reflexivity). destruct (nth_error (mo b) k) as [v|] eqn:K; [|exists []; rewrite app_nil_r; reflexivity].
      destruct (Nat.leb _ _); [|exists []; rewrite app_nil_r; reflexivity].
      destruct (raccess t st (mo b) c g k v) as [[[m' k'] ts]|] eqn:Q; [|exists []; rewrite app_nil_r; reflexivity]. cbn [mo].
      destruct (ri_running t st b RI j c g E) as (Hvc & Hres & kg & Hkg & Hkgv).
      pose proof (increasing_mono (mo b) 0 kg 0 g (ri_mo t st b RI) ltac:(lia) (ri_zero t st b RI) Hkg) as Hg0.
      pose proof (increasing_le_last (mo b) kg g (ri_mo t st b RI) Hkg) as Hg1.
      pose proof (raccess_cases t st (mo b) c g k v _ V VR Hvc Hres (ri_mo t st b RI) K (conj Hg0 Hg1) (ri_last t st b RI) Q) as C.
      inversion C; subst; eauto; exists []; rewrite app_nil_r; reflexivity.
    - destruct (rthreads b j); exists []; cbn [mo]; rewrite app_nil_r; reflexivity. }
  destruct X as (w & W). pose proof (ri_zero t st b RI) as Z0. assert (NE : mo b <> []) by (intros E; rewrite E in Z0; discriminate).
  pose proof (nth_error_last (mo b) NE) as L. assert (LN : (length (mo b) - 1 < length (mo b))%nat) by (destruct (mo b); [congruence|cbn; lia]).
  apply (increasing_le_last (mo (rstep t st b a)) (length (mo b) - 1) _ (ri_mo t st _ RI')). rewrite W, nth_error_app1 by exact LN. exact L.
Qed.

Lemma frame_base t st m0 cs a : valid_target t -> valid_region t st -> valid_raction t a -> cinv t st m0 cs ->
  let i := match a with RInvoke j _ | RAccess j _ | RReturn j => j end in
  cframe i (fun _ => False) cs (cstep t st cs (CBase a)).
Proof.
  intros V VR VA CI i. pose proof (rstep_latest t st _ a V VR VA (ci_base t st m0 cs CI)) as LT. cbn [cstep].
  destruct (got (cbase cs) a) as [[j b]|]; split; cbn [ctoks cmem cbase]; try exact LT; auto.
  - intros k q N _. rewrite nth_error_app1; [exact N|]. apply nth_error_Some. congruence.
  - intros j' N. apply rstep_other. unfold i in N. destruct a; congruence.
  - intros j' N. apply rstep_other. unfold i in N. destruct a; congruence.
Qed.

Lemma frame_store t st m0 cs i k off bs : cinv t st m0 cs -> cframe i (eq k) cs (cstep t st cs (CStore i k off bs)).
Proof.
  intros CI. cbn [cstep]. destruct (may_use cs i k) as [b|] eqn:E; [|apply cframe_refl]. apply may_use_inv in E.
  destruct (Z.leb_spec 0 off) as [L1|L1]; cbn [andb]; [|apply cframe_refl].
  destruct (Z.leb_spec (off + Z.of_nat (length bs)) (size b)) as [L2|L2]; [|apply cframe_refl].
  split; cbn [ctoks cmem cbase]; auto; [|lia]. intros k' b' o x N D X. apply (mem_write_outside _ _ _ (Z.of_nat (length bs))); [lia|]. intros Y.
  apply (toks_disjoint t st m0 cs k k' b b' i o CI D E N x). split; [|exact X]. unfold in_block in *. cbn [start size] in Y. lia.
Qed.
Lemma frame_load t st cs i k T : cframe i T cs (cstep t st cs (CLoad i k)).
Proof. cbn [cstep]. destruct (may_use cs i k); [|apply cframe_refl]. split; cbn [ctoks cmem cbase]; auto. lia. Qed.
Lemma frame_send t st cs i k j : cframe i (eq k) cs (cstep t st cs (CSend i k j)).
Proof.
  cbn [cstep]. destruct (may_use cs i k); [|apply cframe_refl]. split; cbn [ctoks cmem cbase]; auto; [|lia].
  intros k' q N D. rewrite nth_error_upd_other; auto.
Qed.

(** ** Frames *)
Lemma ptr_frame t i T cs cs' x a : cframe i T cs cs' -> ptr_ok t cs x a -> (pp_live x = true -> ~ T (pp_tok x)) -> ptr_ok t cs' x a.
Proof.
  intros F (P1 & P2 & P3 & P4) NT. split; [exact P1|]. split; [exact P2|]. split; [exact P3|]. intros L.
  destruct (P4 L) as (Q1 & Q2 & Q3 & n & Q4 & Q5 & Q6). split; [exact Q1|]. split; [exact Q2|]. split; [exact Q3|]. exists n.
  split; [apply (cf_toks _ _ _ _ F); auto|]. split; [exact Q5|]. eapply agrees_same; [exact Q6|]. intros z Z.
  apply (cf_mem _ _ _ _ F (pp_tok x) _ _ z Q4 (NT L)). unfold in_block. cbn [start size]. lia.
Qed.

Definition ptrs_frame (i : nat) (cs' : csys) (ptrs : list parptr) (A : list parr) (ptrs' : list parptr) (A' : list parr) : Prop :=
  (forall j h x a, j <> i -> has ptrs A j h x a -> has ptrs' A' j h x a) /\
  (forall h x, nth_error ptrs' h = Some x -> pp_live x = true ->
     (exists h0 x0, nth_error ptrs h0 = Some x0 /\ pp_live x0 = true /\ pp_tok x0 = pp_tok x) \/ exists b, nth_error (ctoks cs') (pp_tok x) = Some (b, i)).

Lemma ptrs_frame_refl i cs' ptrs A : ptrs_frame i cs' ptrs A ptrs A.
Proof. split; [auto|]. intros h x N L. left. eauto. Qed.

Lemma has_ok t cs ptrs A i h x a : Forall2 (ptr_ok t cs) ptrs A -> has ptrs A i h x a ->
  valid_layout t (pp_lay x) /\ 0 < lsize (pp_lay x) /\ aligned (pp_addr x) (lalign (pp_lay x)) /\
    exists n, nth_error (ctoks cs) (pp_tok x) = Some (MkBlock (pp_addr x) n, i) /\ lsize (pp_lay x) <= n /\
      agrees (cmem cs) (pp_addr x) (lsize (pp_lay x)) (pa_data a).
Proof.
  intros F (N1 & N2 & L & <-). destruct (Forall2_nth _ _ _ _ _ F N1) as (a' & N2' & (_ & _ & _ & R)). assert (a' = a) by congruence. subst. exact (R L).
Qed.

Lemma fullp_mono t st lat lat' l : valid_layout t l -> lat <= lat' -> ~ fits_in st lat l -> ~ fits_in st lat' l.
Proof. intros _ H N (a & A1 & A2). apply N. exists a. split; [lia|exact A2]. Qed.

Lemma newblock_frame t cs cs' ptrs A ptrs' A' i T j k p l : j <> i -> cframe i T cs cs' -> (forall q, T q -> exists b, nth_error (ctoks cs) q = Some (b, i)) ->
  ptrs_frame i cs' ptrs A ptrs' A' -> newblock t cs ptrs j k p l ->
  newblock t cs' ptrs' j k p l /\ forall x, p <= x < p + lsize l -> cmem cs' x = cmem cs x.
Proof.
  intros D F TO (_ & PF) (N1 & N2 & N3 & N4 & N5 & N6).
  assert (NT : ~ T k) by (intros X; destruct (TO k X) as (b & B); congruence).
  pose proof (cf_toks _ _ _ _ F k _ N2 NT) as K. split.
  - split; [rewrite (cf_threads _ _ _ _ F j D); exact N1|]. split; [exact K|]. split; [exact N3|]. split; [exact N4|]. split; [exact N5|].
    intros h x X L E. destruct (PF h x X L) as [(h0 & x0 & X1 & X2 & X3)|(b & B)]; [apply (N6 h0 x0 X1 X2); congruence|]. rewrite E in B. congruence.
  - intros x X. apply (cf_mem _ _ _ _ F k _ _ x N2 NT). unfold in_block. cbn [start size]. exact X.
Qed.

Lemma phase_frame t st cs cs' ptrs A ptrs' A' i T j ph : j <> i -> Forall2 (ptr_ok t cs) ptrs A ->
  cframe i T cs cs' -> (forall q, T q -> exists b, nth_error (ctoks cs) q = Some (b, i)) -> ptrs_frame i cs' ptrs A ptrs' A' ->
  phase_ok t st cs ptrs A j ph -> phase_ok t st cs' ptrs' A' j ph.
Proof.
  intros D P F TO PF. pose proof PF as (PF1 & _). destruct ph as [|o|o k p l d|o k p l d]; cbn [phase_ok].
  - rewrite (cf_threads _ _ _ _ F j D). auto.
  - intros (l & VL & AS & R). exists l. split; [exact VL|]. split.
    + destruct o; cbn [asks] in *; auto. destruct AS as (x & a & H & Q). exists x, a. split; [apply PF1; auto|exact Q].
    + rewrite (cf_threads _ _ _ _ F j D). destruct R as [R|(r & R & G)]; [left; exact R|right; exists r; split; [exact R|]].
      destruct G as [G|[(G1 & G2 & G3)|G]]; [left; exact G|right; left|right; right; exact G]. split; [exact G1|]. split; [exact G2|].
      eapply fullp_mono; [exact VL|apply (cf_latest _ _ _ _ F)|exact G3].
  - intros (-> & NB & DD & Z0). destruct (newblock_frame t cs cs' ptrs A ptrs' A' i T j k p l D F TO PF NB) as (NB' & M).
    split; [reflexivity|]. split; [exact NB'|]. split; [exact DD|]. intros z Z. rewrite M by lia. apply Z0. exact Z.
  - intros (h & n & x & a & -> & H & -> & LT & NB & DD & Z0). destruct (newblock_frame t cs cs' ptrs A ptrs' A' i T j k p _ D F TO PF NB) as (NB' & M).
    exists h, n, x, a. split; [reflexivity|]. split; [apply PF1; auto|]. split; [reflexivity|]. split; [exact LT|]. split; [exact NB'|]. split; [exact DD|].
    destruct (has_ok t cs ptrs A j h x a P H) as (_ & _ & _ & m & K & K2 & _). cbn [lsize] in M.
    intros z Z. rewrite M by lia. rewrite Z0 by exact Z. symmetry. apply (cf_mem _ _ _ _ F (pp_tok x) _ _ _ K).
    + intros X. destruct (TO _ X) as (b & B). congruence.
    + unfold in_block. cbn [start size]. lia.
Qed.

Lemma ideals_full t (full full' : layout -> Prop) A es B : (forall l, full l -> full' l) -> par_ideals t full A es B -> par_ideals t full' A es B.
Proof.
  intros I. induction 1 as [A|A es B e C H IH S]; [constructor|]. econstructor; [exact IH|]. destruct S; econstructor; eauto.
Qed.

Lemma fullp_frame st i T cs cs' l : cframe i T cs cs' -> fullp st cs l -> fullp st cs' l.
Proof. intros F N (a & A1 & A2). apply N. exists a. split; [|exact A2]. pose proof (cf_latest _ _ _ _ F). lia. Qed.

(** The call of thread [i] returns, or goes on. *)
Lemma return_ok t st m0 s A cs' i T o ptrs' A' ans : parinv t st m0 s A ->
  cinv t st m0 cs' -> entered t st (cbase cs') -> cframe i T (pcs s) cs' -> (forall q, T q -> exists b, nth_error (ctoks (pcs s)) q = Some (b, i)) ->
  Forall2 (ptr_ok t cs') ptrs' A' -> separate ptrs' -> ptrs_frame i cs' (pptrs s) A ptrs' A' ->
  rthreads (cbase cs') i = Idle -> par_ideal t (fullp st cs') A (MkPE i o ans) A' ->
  parinv t st m0 (par_return s cs' i o ptrs' ans) A'.
Proof.
  intros I C E F TO P S PF ID L. split; cbn [par_return pcs pptrs pphase plog]; try assumption.
  - intros j. unfold upd_phase. destruct (Nat.eqb_spec j i) as [->|D]; [exact ID|].
    eapply phase_frame; [exact D|apply (pv_ptrs _ _ _ _ _ I)|exact F|exact TO|exact PF|apply (pv_phase _ _ _ _ _ I)].
  - econstructor; [|exact L]. eapply ideals_full; [|apply (pv_log _ _ _ _ _ I)]. intros l. eapply fullp_frame. exact F.
Qed.
Lemma go_ok t st m0 s A cs' i T ph : parinv t st m0 s A ->
  cinv t st m0 cs' -> entered t st (cbase cs') -> cframe i T (pcs s) cs' -> (forall q, T q -> exists b, nth_error (ctoks (pcs s)) q = Some (b, i)) ->
  Forall2 (ptr_ok t cs') (pptrs s) A -> phase_ok t st cs' (pptrs s) A i ph ->
  parinv t st m0 (par_go s cs' i ph) A.
Proof.
  intros I C E F TO P OK. split; cbn [par_go pcs pptrs pphase plog]; try assumption.
  - apply (pv_sep _ _ _ _ _ I).
  - intros j. unfold upd_phase. destruct (Nat.eqb_spec j i) as [->|D]; [exact OK|].
    eapply phase_frame; [exact D|apply (pv_ptrs _ _ _ _ _ I)|exact F|exact TO|apply ptrs_frame_refl|apply (pv_phase _ _ _ _ _ I)].
  - eapply ideals_full; [|apply (pv_log _ _ _ _ _ I)]. intros l. eapply fullp_frame. exact F.
Qed.

(** ** Pointers *)
Lemma par_ptr_has t st m0 s A i h x : parinv t st m0 s A -> par_ptr s i h = Some x -> exists a, has (pptrs s) A i h x a /\ pa_has A i h a.
Proof.
  intros I. unfold par_ptr. destruct (nth_error (pptrs s) h) as [y|] eqn:N; [|discriminate]. destruct (pp_live y) eqn:L; [|discriminate].
  destruct (nth_error (ctoks (pcs s)) (pp_tok y)) as [[b o]|] eqn:K; [|discriminate]. destruct (Nat.eqb_spec o i) as [->|]; [|discriminate]. intros [= <-].
  destruct (Forall2_nth _ _ _ _ _ (pv_ptrs _ _ _ _ _ I) N) as (a & NA & (_ & _ & E3 & R)). destruct (R L) as (_ & _ & _ & n & K2 & _).
  rewrite K in K2. injection K2 as _ O. exists a. split; [repeat split; auto|]. split; [exact NA|]. split; [congruence|auto].
Qed.
Lemma has_par_ptr t st m0 s A i h a : parinv t st m0 s A -> pa_has A i h a -> exists x, par_ptr s i h = Some x /\ has (pptrs s) A i h x a.
Proof.
  intros I (NA & L & O). destruct (Forall2_nth_r _ _ _ _ _ (pv_ptrs _ _ _ _ _ I) NA) as (x & N & (_ & _ & E3 & R)). assert (LX : pp_live x = true) by congruence.
  destruct (R LX) as (_ & _ & _ & n & K & _). exists x. split; [|repeat split; auto]. unfold par_ptr. rewrite N, LX, K. rewrite <- O, Nat.eqb_refl. reflexivity.
Qed.

Lemma lose_upd ptrs A i h x a s : has ptrs A i h x a -> pptrs s = ptrs -> lose s h = SyncMemModel.upd ptrs h (gone x).
Proof. intros (N & _) E. unfold lose. rewrite E, N. reflexivity. Qed.

Lemma nth_upd_live ptrs h x h' y : nth_error (SyncMemModel.upd ptrs h (gone x)) h' = Some y -> pp_live y = true -> h' <> h /\ nth_error ptrs h' = Some y.
Proof.
  rewrite nth_error_upd. destruct (Nat.eqb_spec h' h) as [->|D]; [|auto]. destruct (nth_error ptrs h); [|discriminate]. intros [= <-]. discriminate.
Qed.

Lemma sep_lose ptrs h x : separate ptrs -> separate (SyncMemModel.upd ptrs h (gone x)).
Proof.
  intros S h1 h2 x1 x2 D N1 N2 L1 L2. apply nth_upd_live in N1 as (_ & N1); [|exact L1]. apply nth_upd_live in N2 as (_ & N2); [|exact L2].
  exact (S h1 h2 x1 x2 D N1 N2 L1 L2).
Qed.
Lemma sep_snoc ptrs y : separate ptrs -> (forall h x, nth_error ptrs h = Some x -> pp_live x = true -> pp_tok x <> pp_tok y) -> separate (ptrs ++ [y]).
Proof.
  intros S F h1 h2 x1 x2 D N1 N2 L1 L2. apply snoc_nth in N1. apply snoc_nth in N2.
  destruct N1 as [N1|[-> ->]], N2 as [N2|[-> ->]]; [exact (S h1 h2 x1 x2 D N1 N2 L1 L2)|exact (F h1 x1 N1 L1)|intros E; exact (F h2 x2 N2 L2 (eq_sym E))|congruence].
Qed.

Lemma F2_len {X Y} (R : X -> Y -> Prop) l l' : Forall2 R l l' -> length l = length l'.
Proof. induction 1; cbn; congruence. Qed.

Lemma ptrs_lose t cs ptrs A h x a : Forall2 (ptr_ok t cs) ptrs A -> nth_error ptrs h = Some x -> nth_error A h = Some a ->
  Forall2 (ptr_ok t cs) (SyncMemModel.upd ptrs h (gone x)) (SyncMemModel.upd A h (pa_dead a)).
Proof.
  intros F N M. destruct (Forall2_nth _ _ _ _ _ F N) as (a' & M' & (R1 & R2 & R3 & _)). assert (a' = a) by congruence. subst a'.
  apply F2_upd; [exact F|]. split; [exact R1|]. split; [exact R2|]. split; [reflexivity|]. discriminate.
Qed.

Lemma frame_lose i cs' ptrs A h x a : has ptrs A i h x a ->
  ptrs_frame i cs' ptrs A (SyncMemModel.upd ptrs h (gone x)) (SyncMemModel.upd A h (pa_dead a)).
Proof.
  intros (N & M & L & O). split.
  - intros j h' x' a' D (N' & M' & L' & O'). assert (h' <> h) by (intros ->; congruence).
    repeat split; auto; rewrite nth_error_upd_other by auto; assumption.
  - intros h' y N' L'. apply nth_upd_live in N' as (_ & N'); [|exact L']. left. eauto.
Qed.
Lemma frame_snoc i cs' ptrs A ptrs' A' y c b : length ptrs' = length A' -> nth_error (ctoks cs') (pp_tok y) = Some (b, i) -> ptrs_frame i cs' ptrs A ptrs' A' -> ptrs_frame i cs' ptrs A (ptrs' ++ [y]) (A' ++ [c]).
Proof.
  intros LN K (F1 & F2). split.
  - intros j h x a D H. destruct (F1 j h x a D H) as (N & M & L & O). split; [|split; [|auto]]; (rewrite nth_error_app1; [assumption|apply nth_error_Some; congruence]).
  - intros h x N L. apply snoc_nth in N as [N|[-> ->]]; [exact (F2 h x N L)|]. right. exists b. exact K.
Qed.

(** ** The actions *)
Section Steps.
  Context (t : target) (st : block) (m0 : mem) (V : valid_target t) (VR : valid_region t st).

  Lemma csys_step cs a : valid_caction t a -> cinv t st m0 cs -> entered t st (cbase cs) ->
    cinv t st m0 (cstep t st cs a) /\ entered t st (cbase (cstep t st cs a)).
  Proof using V VR.
    intros VA C E. split; [apply cinv_step; assumption|]. destruct a as [a|i k off bs|i k|i k j]; cbn [cstep].
    - destruct (got (cbase cs) a) as [[j b]|]; cbn [cbase]; apply entered_step; assumption.
    - destruct (may_use cs i k); [|exact E]. destruct (_ && _); exact E.
    - destruct (may_use cs i k); exact E.
    - destruct (may_use cs i k); exact E.
  Qed.

  Lemma none_touched (cs : csys) (i : nat) : forall q : nat, False -> exists b, nth_error (ctoks cs) q = Some (b, i).
  Proof using Type. contradiction. Qed.

  Lemma ptrs_frame_all i T s A cs' : Forall2 (ptr_ok t (pcs s)) (pptrs s) A -> cframe i T (pcs s) cs' -> (forall q, ~ T q) -> Forall2 (ptr_ok t cs') (pptrs s) A.
  Proof using Type.
    intros P F N. eapply Forall2_imp; [|exact P]. intros h x a _ _ R. eapply ptr_frame; [exact F|exact R|]. intros _. apply N.
  Qed.

  (** The allocation loop begins. *)
  Lemma ask_ok s A i o l : parinv t st m0 s A -> pphase s i = PIdle -> valid_layout t l -> asks (pptrs s) A i o l ->
    parinv t st m0 (par_ask t st s i o l) A.
  Proof using V VR.
    intros I PH VL AS. pose proof (pv_phase _ _ _ _ _ I i) as ID. rewrite PH in ID. cbn [phase_ok] in ID.
    assert (VA : valid_caction t (CBase (RInvoke i (CAlloc l)))) by (split; [exact VL|reflexivity]).
    destruct (csys_step _ _ VA (pv_c _ _ _ _ _ I) (pv_e _ _ _ _ _ I)) as (C & E).
    pose proof (frame_base t st m0 (pcs s) (RInvoke i (CAlloc l)) V VR VA (pv_c _ _ _ _ _ I)) as F. cbn zeta beta iota in F.
    eapply go_ok; [exact I|exact C|exact E|exact F|apply none_touched| |].
    - eapply ptrs_frame_all; [apply (pv_ptrs _ _ _ _ _ I)|exact F|auto].
    - exists l. split; [exact VL|]. split; [exact AS|]. left. exists 0. cbn [cstep got cbase rstep]. rewrite ID. cbn [rthreads]. apply upd_same.
  Qed.

  (** An access to the counter *)
  Lemma access_ok s A i k : parinv t st m0 s A -> parinv t st m0 (parstep t st s (PAccess i k)) A.
  Proof using V VR.
    intros I. assert (VA : valid_caction t (CBase (RAccess i k))) by exact Logic.I.
    destruct (csys_step _ _ VA (pv_c _ _ _ _ _ I) (pv_e _ _ _ _ _ I)) as (C & E).
    pose proof (frame_base t st m0 (pcs s) (RAccess i k) V VR VA (pv_c _ _ _ _ _ I)) as F. cbn zeta beta iota in F.
    cbn [parstep]. set (cs' := cstep t st (pcs s) (CBase (RAccess i k))) in *.
    split; cbn [pcs pptrs pphase plog]; try assumption.
    - eapply ptrs_frame_all; [apply (pv_ptrs _ _ _ _ _ I)|exact F|auto].
    - apply (pv_sep _ _ _ _ _ I).
    - intros j. destruct (Nat.eq_dec j i) as [->|D].
      2:{ eapply phase_frame; [exact D|apply (pv_ptrs _ _ _ _ _ I)|exact F|apply none_touched|apply ptrs_frame_refl|apply (pv_phase _ _ _ _ _ I)]. }
      assert (EB : cbase cs' = rstep t st (cbase (pcs s)) (RAccess i k)) by reflexivity.
      assert (EM : cmem cs' = cmem (pcs s)) by reflexivity. assert (ET : ctoks cs' = ctoks (pcs s)) by reflexivity.
      assert (ST : rthreads (cbase (pcs s)) i = Idle -> rthreads (cbase cs') i = Idle).
      { intros ID. rewrite EB. cbn [rstep]. rewrite ID. exact ID. }
      pose proof (pv_phase _ _ _ _ _ I i) as PH. destruct (pphase s i) as [|o|o k' p l d|o k' p l d]; cbn [phase_ok] in *.
      + auto.
      + destruct PH as (l & VL & AS & R). exists l. split; [exact VL|]. split; [exact AS|]. destruct R as [(g & R)|(r & R & G)].
        2:{ right. exists r. assert (X : rstep t st (cbase (pcs s)) (RAccess i k) = cbase (pcs s)) by (cbn [rstep]; rewrite R; reflexivity). rewrite EB, X. auto. }
        pose proof (ci_base _ _ _ _ (pv_c _ _ _ _ _ I)) as RI. set (b := cbase (pcs s)) in *. rewrite EB. cbn [rstep]. rewrite R.
        destruct (nth_error (mo b) k) as [v|] eqn:K; [|left; exists g; exact R]. destruct (Nat.leb _ _); [|left; exists g; exact R].
        destruct (raccess t st (mo b) (CAlloc l) g k v) as [[[m' k'] ts]|] eqn:Q; [|left; exists g; exact R]. cbn [rthreads]. rewrite upd_same.
        destruct (ri_running t st b RI i _ g R) as (Hvc & Hres & kg & Hkg & Hkgv).
        pose proof (increasing_mono (mo b) 0 kg 0 g (ri_mo t st b RI) ltac:(lia) (ri_zero t st b RI) Hkg) as Hg0.
        pose proof (increasing_le_last (mo b) kg g (ri_mo t st b RI) Hkg) as Hg1.
        pose proof (raccess_cases t st (mo b) (CAlloc l) g k v _ V VR Hvc Hres (ri_mo t st b RI) K (conj Hg0 Hg1) (ri_last t st b RI) Q) as CC.
        destruct (Z.eq_dec (lsize l) 0) as [Z0|NZ].
        * cbn [raccess] in Q. unfold prepare in Q. rewrite Z0 in Q. cbn in Q. injection Q as <- <- <-. right. eexists. split; [reflexivity|]. left. auto.
        * assert (P : 0 < lsize l) by (destruct VL; lia).
          inversion CC as [l' Hcl Hpos HSk Hv Hf Hsp Heq1|Hloop Hne Heq1|r' Hr1 Hr2 Hr3 Hr4 Hr5 Hr6 Heq1]; subst.
          -- right. eexists. split; [reflexivity|]. right. right. eexists. split; [reflexivity|exact P].
          -- left. eexists. reflexivity.
          -- right. eexists. split; [reflexivity|]. assert (LP : loops (CAlloc l)) by (exists l; auto). specialize (Hr6 LP). rewrite Hr6.
             cbn [spec_step]. destruct (Z.eqb_spec (lsize l) 0); [lia|]. cbn [at_level storage consumed].
             destruct (fitsb st (last (mo b) 0) l) eqn:FB; cbn [snd]; [right; right; eauto|].
             right. left. split; [reflexivity|]. split; [exact P|]. unfold latest. cbn [mo]. intros X. apply (fitsb_iff t) in X; [congruence|exact VL].
      + destruct PH as (-> & NB & R). split; [reflexivity|]. split; [|exact R]. destruct NB as (N1 & NB). split; [apply ST; exact N1|exact NB].
      + destruct PH as (h & n & x & a & -> & H & -> & LT & NB & R). exists h, n, x, a. split; [reflexivity|]. split; [exact H|]. split; [reflexivity|].
        split; [exact LT|]. split; [|exact R]. destruct NB as (N1 & NB). split; [apply ST; exact N1|exact NB].
    - eapply ideals_full; [|apply (pv_log _ _ _ _ _ I)]. intros l. eapply fullp_frame. exact F.
  Qed.

  (** Calls that end at once *)
  Lemma quiet_ok s A i o ptrs' A' ans : parinv t st m0 s A -> pphase s i = PIdle ->
    Forall2 (ptr_ok t (pcs s)) ptrs' A' -> separate ptrs' -> ptrs_frame i (pcs s) (pptrs s) A ptrs' A' ->
    par_ideal t (fullp st (pcs s)) A (MkPE i o ans) A' -> parinv t st m0 (par_return s (pcs s) i o ptrs' ans) A'.
  Proof using Type.
    intros I PH P S PF L. pose proof (pv_phase _ _ _ _ _ I i) as ID. rewrite PH in ID. cbn [phase_ok] in ID.
    eapply (return_ok t st m0 s A (pcs s) i (fun _ => False)); try eassumption; [apply I|apply I|apply cframe_refl|contradiction].
  Qed.

  Lemma aligned_mod p al : 0 < al -> aligned p al -> p mod al = 0.
  Proof using Type. intros P D. apply Z.mod_divide in D; [exact D|lia]. Qed.

  Lemma realloc_ok s A i h n : parinv t st m0 s A -> pphase s i = PIdle -> 0 <= n <= usize_max t ->
    exists A', parinv t st m0 (par_start t st s i (PRealloc h n)) A'.
  Proof using V VR.
    intros I PH N. cbn [par_start]. destruct (par_ptr s i h) as [x|] eqn:Q; [|eauto]. destruct (par_ptr_has _ _ _ _ _ _ _ _ I Q) as (a & H & PA).
    destruct (has_ok _ _ _ _ _ _ _ _ (pv_ptrs _ _ _ _ _ I) H) as (VL & P & AL & m & K & LE & AG).
    pose proof H as (H1 & H2 & H3 & H4). destruct (Forall2_nth _ _ _ _ _ (pv_ptrs _ _ _ _ _ I) H1) as (a' & H2' & (E1 & E2 & _)). assert (a' = a) by congruence. subst a'.
    pose proof (valid_layout_align _ _ VL) as PAL.
    unfold nonzero_from_layout. destruct (Z.eqb_spec (lsize (pp_lay x)) 0) as [|_]; [lia|]. unfold layout_reallocated.
    destruct (from_size_align t n (lalign (pp_lay x))) as [l|] eqn:FS.
    - apply from_size_align_iff in FS as (-> & VL'). unfold nonzero_from_layout. cbn [lsize]. destruct (Z.eqb_spec n 0) as [->|NZ].
      + exists A. cbn [unwrap]. eapply quiet_ok; [exact I|exact PH|apply I|apply I|apply ptrs_frame_refl|]. econstructor. exact PA.
      + cbn [unwrap lalign lsize]. rewrite (aligned_mod _ _ PAL AL), Z.eqb_refl. cbn [andb]. destruct (Z.leb_spec n (lsize (pp_lay x))) as [LN|LN].
        * exists (SyncMemModel.upd A h (pa_dead a) ++ [MkPA (pa_addr a) (MkLayout n (lalign (pa_lay a))) i true (resized (pa_data a) n)]).
          rewrite (lose_upd _ _ _ _ _ _ s H eq_refl). eapply quiet_ok; [exact I|exact PH| | | |].
          -- apply Forall2_app; [apply ptrs_lose; [apply I|exact H1|exact H2]|]. constructor; [|constructor].
             split; [exact E1|]. split; [cbn [pp_lay pa_lay]; rewrite E2; reflexivity|]. split; [reflexivity|]. intros _. cbn [pp_lay pp_addr pp_tok lsize lalign pa_owner pa_data].
             split; [exact VL'|]. split; [lia|]. split; [exact AL|]. exists m. split; [exact K|]. split; [lia|]. eapply agrees_resized; [exact AG|lia|auto].
          -- apply sep_snoc; [apply sep_lose, I|]. intros h' y NY LY. apply nth_upd_live in NY as (D & NY); [|exact LY]. cbn [pp_tok].
             apply (pv_sep _ _ _ _ _ I h' h y x D NY H1 LY H3).
          -- eapply frame_snoc; [rewrite !upd_length; apply (F2_len _ _ _ (pv_ptrs _ _ _ _ _ I))|exact K|]. apply frame_lose. exact H.
          -- rewrite E1. econstructor; [exact PA|]. rewrite <- E2. lia.
        * exists A. apply ask_ok; [exact I|exact PH|exact VL'|]. exists x, a. auto.
    - exists A. eapply quiet_ok; [exact I|exact PH|apply I|apply I|apply ptrs_frame_refl|].
      assert (NV : ~ valid_layout t (MkLayout n (lalign (pp_lay x)))).
      { intros X. assert (from_size_align t n (lalign (pp_lay x)) = Some (MkLayout n (lalign (pp_lay x)))) as Y; [|congruence]. apply from_size_align_iff. auto. }
      econstructor; [exact PA| |].
      + rewrite <- E2. destruct (Z_lt_ge_dec (lsize (pp_lay x)) n) as [|GE]; [assumption|]. exfalso. apply NV.
        destruct VL as (V1 & V2 & V3 & V4). split; [cbn [lsize]; lia|]. split; [exact V2|]. split; [exact V3|]. cbn [lsize lalign].
        pose proof (align_up_mono n (lsize (pp_lay x)) (lalign (pp_lay x)) PAL ltac:(lia)). lia.
      + rewrite <- E2. intros X. contradiction.
  Qed.

  Lemma dealloc_ok s A i h : parinv t st m0 s A -> pphase s i = PIdle -> exists A', parinv t st m0 (par_start t st s i (PDealloc h)) A'.
  Proof using Type.
    intros I PH. cbn [par_start]. destruct (par_ptr s i h) as [x|] eqn:Q; [|eauto]. destruct (par_ptr_has _ _ _ _ _ _ _ _ I Q) as (a & H & PA).
    pose proof H as (H1 & H2 & _). exists (SyncMemModel.upd A h (pa_dead a)). rewrite (lose_upd _ _ _ _ _ _ s H eq_refl). eapply quiet_ok; [exact I|exact PH| | | |].
    - apply ptrs_lose; [apply I|exact H1|exact H2].
    - apply sep_lose, I.
    - apply frame_lose. exact H.
    - econstructor. exact PA.
  Qed.

  (** The contents of, or the thread that has, one block change. *)
  Lemma upd_ptrs cs' s A i h x a a' : parinv t st m0 s A -> has (pptrs s) A i h x a -> cframe i (eq (pp_tok x)) (pcs s) cs' -> ptr_ok t cs' x a' ->
    Forall2 (ptr_ok t cs') (pptrs s) (SyncMemModel.upd A h a') /\ ptrs_frame i cs' (pptrs s) A (pptrs s) (SyncMemModel.upd A h a').
  Proof using Type.
    intros I (H1 & H2 & H3 & H4) F R. pose proof (pv_ptrs _ _ _ _ _ I) as P. split.
    - apply Forall2_nth_iff; [rewrite upd_length; apply (F2_len _ _ _ P)|]. intros h' y b N1 N2. rewrite nth_error_upd in N2. destruct (Nat.eqb_spec h' h) as [->|D].
      + rewrite H2 in N2. injection N2 as <-. assert (y = x) by congruence. subst y. exact R.
      + destruct (Forall2_nth _ _ _ _ _ P N1) as (b' & N2' & R'). assert (b' = b) by congruence. subst b'. eapply ptr_frame; [exact F|exact R'|].
        intros LY E. apply (pv_sep _ _ _ _ _ I h' h y x D N1 H1 LY H3). auto.
    - split; [|intros h' y N L; left; eauto]. intros j h' y b D (N1 & N2 & N3 & N4). assert (h' <> h) by (intros ->; congruence).
      repeat split; auto. rewrite nth_error_upd_other by auto. exact N2.
  Qed.

  Lemma may_use_has s A i h x a : parinv t st m0 s A -> pphase s i = PIdle -> has (pptrs s) A i h x a ->
    exists n, may_use (pcs s) i (pp_tok x) = Some (MkBlock (pp_addr x) n) /\ nth_error (ctoks (pcs s)) (pp_tok x) = Some (MkBlock (pp_addr x) n, i) /\ lsize (pp_lay x) <= n /\
      rthreads (cbase (pcs s)) i = Idle.
  Proof using Type.
    intros I PH H. pose proof (pv_phase _ _ _ _ _ I i) as ID. rewrite PH in ID. cbn [phase_ok] in ID.
    destruct (has_ok _ _ _ _ _ _ _ _ (pv_ptrs _ _ _ _ _ I) H) as (_ & _ & _ & n & K & LE & _). exists n. unfold may_use. rewrite ID, K, Nat.eqb_refl. auto.
  Qed.

  Lemma store_ok s A i h off bs : parinv t st m0 s A -> pphase s i = PIdle -> exists A', parinv t st m0 (par_start t st s i (PStore h off bs)) A'.
  Proof using V VR.
    intros I PH. cbn [par_start]. destruct (par_ptr s i h) as [x|] eqn:Q; [|eauto]. destruct (par_ptr_has _ _ _ _ _ _ _ _ I Q) as (a & H & PA).
    destruct (Z.leb_spec 0 off) as [L1|L1]; cbn [andb]; [|eauto]. destruct (Z.leb_spec (off + Z.of_nat (length bs)) (lsize (pp_lay x))) as [L2|L2]; [|eauto].
    pose proof H as (H1 & H2 & H3 & H4). destruct (Forall2_nth _ _ _ _ _ (pv_ptrs _ _ _ _ _ I) H1) as (a' & H2' & R). assert (a' = a) by congruence. subst a'.
    destruct (csys_step _ (CStore i (pp_tok x) off bs) Logic.I (pv_c _ _ _ _ _ I) (pv_e _ _ _ _ _ I)) as (C & E).
    pose proof (frame_store t st m0 (pcs s) i (pp_tok x) off bs (pv_c _ _ _ _ _ I)) as F.
    destruct (may_use_has _ _ _ _ _ _ I PH H) as (n & MU & K & LE & ID).
    set (cs' := cstep t st (pcs s) (CStore i (pp_tok x) off bs)) in *.
    assert (ECS : cs' = MkC (cbase (pcs s)) (mem_write (cmem (pcs s)) (pp_addr x + off) bs) (ctoks (pcs s)) (ctrace (pcs s) ++ [MStore i (pp_tok x) off bs])).
    { unfold cs'. cbn [cstep]. rewrite MU. cbn [size start]. destruct (Z.leb_spec 0 off); [|lia]. destruct (Z.leb_spec (off + Z.of_nat (length bs)) n); [reflexivity|lia]. }
    set (a2 := MkPA (pa_addr a) (pa_lay a) (pa_owner a) true (hsplice (pa_data a) (Z.to_nat off) bs)).
    assert (R2 : ptr_ok t cs' x a2).
    { destruct R as (R1 & R2 & R3 & R4). split; [exact R1|]. split; [exact R2|]. split; [exact H3|]. intros L. destruct (R4 L) as (Q1 & Q2 & Q3 & k & Q4 & Q5 & Q6).
      split; [exact Q1|]. split; [exact Q2|]. split; [exact Q3|]. exists k. rewrite ECS. cbn [ctoks cmem]. split; [exact Q4|]. split; [exact Q5|].
      apply agrees_splice; assumption. }
    destruct (upd_ptrs cs' s A i h x a a2 I H F R2) as (P & PF). exists (SyncMemModel.upd A h a2).
    eapply (return_ok t st m0 s A cs' i (eq (pp_tok x))); try eassumption.
    - intros q <-. eauto.
    - apply I.
    - rewrite ECS. exact ID.
    - destruct R as (_ & R2' & _). apply pi_store; [exact PA|exact L1|rewrite <- R2'; exact L2].
  Qed.

  Lemma load_ok s A i h : parinv t st m0 s A -> pphase s i = PIdle -> exists A', parinv t st m0 (par_start t st s i (PLoad h)) A'.
  Proof using V VR.
    intros I PH. cbn [par_start]. destruct (par_ptr s i h) as [x|] eqn:Q; [|eauto]. destruct (par_ptr_has _ _ _ _ _ _ _ _ I Q) as (a & H & PA).
    destruct (csys_step _ (CLoad i (pp_tok x)) Logic.I (pv_c _ _ _ _ _ I) (pv_e _ _ _ _ _ I)) as (C & E).
    pose proof (frame_load t st (pcs s) i (pp_tok x) (fun _ => False)) as F. destruct (may_use_has _ _ _ _ _ _ I PH H) as (n & MU & K & LE & ID).
    destruct (has_ok _ _ _ _ _ _ _ _ (pv_ptrs _ _ _ _ _ I) H) as (_ & _ & _ & _ & _ & _ & AG). exists A.
    eapply (return_ok t st m0 s A _ i (fun _ => False)); try eassumption; try apply I; try contradiction.
    - eapply ptrs_frame_all; [apply I|exact F|auto].
    - apply ptrs_frame_refl.
    - cbn [cstep]. rewrite MU. exact ID.
    - econstructor; [exact PA|]. apply agrees_keeps. exact AG.
  Qed.

  Lemma send_ok s A i h j : parinv t st m0 s A -> pphase s i = PIdle -> exists A', parinv t st m0 (par_start t st s i (PSend h j)) A'.
  Proof using V VR.
    intros I PH. cbn [par_start]. destruct (par_ptr s i h) as [x|] eqn:Q; [|eauto]. destruct (par_ptr_has _ _ _ _ _ _ _ _ I Q) as (a & H & PA).
    pose proof H as (H1 & H2 & H3 & H4). destruct (Forall2_nth _ _ _ _ _ (pv_ptrs _ _ _ _ _ I) H1) as (a' & H2' & R). assert (a' = a) by congruence. subst a'.
    destruct (csys_step _ (CSend i (pp_tok x) j) Logic.I (pv_c _ _ _ _ _ I) (pv_e _ _ _ _ _ I)) as (C & E).
    pose proof (frame_send t st (pcs s) i (pp_tok x) j) as F. destruct (may_use_has _ _ _ _ _ _ I PH H) as (n & MU & K & LE & ID).
    set (cs' := cstep t st (pcs s) (CSend i (pp_tok x) j)) in *.
    assert (ECS : cs' = MkC (cbase (pcs s)) (cmem (pcs s)) (SyncMemModel.upd (ctoks (pcs s)) (pp_tok x) (MkBlock (pp_addr x) n, j)) (ctrace (pcs s) ++ [MSend i (pp_tok x) j])).
    { unfold cs'. cbn [cstep]. rewrite MU. reflexivity. }
    set (a2 := MkPA (pa_addr a) (pa_lay a) j true (pa_data a)).
    assert (R2 : ptr_ok t cs' x a2).
    { destruct R as (R1 & R2 & R3 & R4). split; [exact R1|]. split; [exact R2|]. split; [exact H3|]. intros L. destruct (R4 L) as (Q1 & Q2 & Q3 & k & Q4 & Q5 & Q6).
      split; [exact Q1|]. split; [exact Q2|]. split; [exact Q3|]. exists n. rewrite ECS. cbn [ctoks cmem]. split; [eapply nth_error_upd_same; exact K|]. split; [exact LE|exact Q6]. }
    destruct (upd_ptrs cs' s A i h x a a2 I H F R2) as (P & PF). exists (SyncMemModel.upd A h a2).
    eapply (return_ok t st m0 s A cs' i (eq (pp_tok x))); try eassumption.
    - intros q <-. eauto.
    - apply I.
    - rewrite ECS. exact ID.
    - econstructor. exact PA.
  Qed.

  (** [Bump::alloc] returns. *)
  Lemma return_facts cs i l r : cinv t st m0 cs -> rthreads (cbase cs) i = Done (CAlloc l) r ->
    let cs' := cstep t st cs (CBase (RReturn i)) in
    cmem cs' = cmem cs /\ rthreads (cbase cs') i = Idle /\
    match r with RBlock a => good_block st l (ptr a) /\ ctoks cs' = ctoks cs ++ [(MkBlock (ptr a) (lsize l), i)] | _ => True end.
  Proof using Type.
    intros C D cs'. unfold cs'. cbn [cstep got]. rewrite D. destruct r as [a| | | | |]; cbn [event_block call_layout fst snd cmem cbase ctoks].
    1: split; [reflexivity|]; split; [cbn [rstep]; rewrite D; cbn [rthreads]; apply upd_same|]; split; [|reflexivity];
       apply (ri_done_good t st _ (ci_base _ _ _ _ C) i _ a l D eq_refl).
    all: split; [reflexivity|]; split; [cbn [rstep]; rewrite D; cbn [rthreads]; apply upd_same|exact Logic.I].
  Qed.

  Lemma answered_ok s A i o l r : parinv t st m0 s A -> pphase s i = PWait o -> rthreads (cbase (pcs s)) i = Done (CAlloc l) r ->
    exists A', parinv t st m0 (par_answered t st s i o l r) A'.
  Proof using V VR.
    intros I PH D. pose proof (pv_phase _ _ _ _ _ I i) as OK. rewrite PH in OK. destruct OK as (l' & VL & AS & [(g & X)|(r' & X & G)]); [congruence|].
    rewrite D in X. injection X as <- <-.
    destruct (csys_step _ (CBase (RReturn i)) Logic.I (pv_c _ _ _ _ _ I) (pv_e _ _ _ _ _ I)) as (C & E).
    pose proof (frame_base t st m0 (pcs s) (RReturn i) V VR Logic.I (pv_c _ _ _ _ _ I)) as F. cbn zeta beta iota in F.
    destruct (return_facts (pcs s) i l r (pv_c _ _ _ _ _ I) D) as (M & ID & TK). unfold par_answered.
    set (cs' := cstep t st (pcs s) (CBase (RReturn i))) in *.
    assert (P : Forall2 (ptr_ok t cs') (pptrs s) A) by (eapply ptrs_frame_all; [apply (pv_ptrs _ _ _ _ _ I)|exact F|auto]).
    assert (RET : forall ans, par_ideal t (fullp st cs') A (MkPE i o ans) A -> parinv t st m0 (par_return s cs' i o (pptrs s) ans) A).
    { intros ans L. eapply (return_ok t st m0 s A cs' i (fun _ => False)); try eassumption; try contradiction; [apply I|apply ptrs_frame_refl]. }
    destruct G as [(-> & Z0)|[(-> & NZ & NF)|(a & -> & NZ)]].
    - exists A. destruct o; cbn [asks] in AS; try contradiction; apply RET.
      + subst. constructor. exact Z0.
      + subst. constructor. exact Z0.
      + destruct AS as (x & b & H & -> & LT). cbn [lsize] in Z0. destruct (has_ok _ _ _ _ _ _ _ _ P H) as (_ & Q & _). lia.
    - exists A. assert (FL : fullp st cs' l) by (eapply fullp_frame; [exact F|exact NF]).
      destruct o; cbn [asks] in AS; try contradiction; apply RET.
      + subst. constructor. exact FL.
      + subst. constructor. exact FL.
      + destruct AS as (x & b & H & -> & LT). pose proof H as (H1 & H2 & H3 & H4). destruct (Forall2_nth _ _ _ _ _ P H1) as (b' & H2' & (E1 & E2 & E3 & _)).
        assert (b' = b) by congruence. subst b'. eapply pi_grow_null; [split; [exact H2|]; split; [congruence|exact H4]|congruence|rewrite <- E2; auto].
    - destruct TK as ((AL & IN & NN) & TK). set (k := length (ctoks (pcs s))) in *.
      assert (K : nth_error (ctoks cs') k = Some (MkBlock (ptr a) (lsize l), i)) by (rewrite TK; apply nth_error_app_mid).
      assert (FR : forall h x, nth_error (pptrs s) h = Some x -> pp_live x = true -> pp_tok x <> k).
      { intros h x N L X. destruct (Forall2_nth _ _ _ _ _ (pv_ptrs _ _ _ _ _ I) N) as (b & _ & (_ & _ & _ & R)). destruct (R L) as (_ & _ & _ & n & K2 & _).
        rewrite X in K2. assert (k < length (ctoks (pcs s)))%nat by (apply nth_error_Some; congruence). unfold k in *. lia. }
      assert (NB : newblock t cs' (pptrs s) i k (ptr a) l) by (repeat (split; [assumption|]); exact FR).
      destruct o as [l'|l'|h n| | | |]; cbn [asks] in AS; try contradiction.
      + subst l'. exists (A ++ [MkPA (ptr a) l i true (anything (lsize l))]). eapply (return_ok t st m0 s A cs' i (fun _ => False)); try eassumption; try contradiction.
        * apply Forall2_app; [exact P|]. constructor; [|constructor]. repeat (split; [reflexivity|]). intros _. cbn [pp_lay pp_addr pp_tok pa_owner pa_data].
          split; [exact VL|]. split; [exact NZ|]. split; [exact AL|]. exists (lsize l). split; [exact K|]. split; [lia|]. apply agrees_anything. lia.
        * apply sep_snoc; [apply I|exact FR].
        * eapply frame_snoc; [apply (F2_len _ _ _ P)|exact K|apply ptrs_frame_refl].
        * constructor. exact NZ.
      + subst l'. exists A. eapply (go_ok t st m0 s A cs' i (fun _ => False)); try eassumption; try contradiction.
        cbn [phase_ok]. split; [reflexivity|]. split; [exact NB|]. split; [lia|]. intros z Z. lia.
      + destruct AS as (x & b & H & -> & LT). exists A. eapply (go_ok t st m0 s A cs' i (fun _ => False)); try eassumption; try contradiction.
        exists h, n, x, b. split; [reflexivity|]. split; [exact H|]. split; [reflexivity|]. split; [exact LT|]. split; [exact NB|].
        destruct (has_ok _ _ _ _ _ _ _ _ P H) as (_ & Q & _). split; [lia|]. intros z Z. lia.
  Qed.

  (** One byte is written into a block that the program does not have yet. *)
  Lemma byte_ok cs ptrs A i k p l d v : cinv t st m0 cs -> Forall2 (ptr_ok t cs) ptrs A -> newblock t cs ptrs i k p l -> 0 <= d < lsize l ->
    let cs' := cstep t st cs (CStore i k d [v]) in
    cframe i (eq k) cs cs' /\ cmem cs' = mem_write (cmem cs) (p + d) [v] /\ newblock t cs' ptrs i k p l /\ Forall2 (ptr_ok t cs') ptrs A.
  Proof using Type.
    intros C P NB D cs'. pose proof (frame_store t st m0 cs i k d [v] C) as F. fold cs' in F. pose proof NB as (N1 & N2 & N3 & N4 & N5 & N6).
    assert (ECS : cs' = MkC (cbase cs) (mem_write (cmem cs) (p + d) [v]) (ctoks cs) (ctrace cs ++ [MStore i k d [v]])).
    { unfold cs'. cbn [cstep]. unfold may_use. rewrite N1, N2, Nat.eqb_refl. cbn [size start length]. destruct (Z.leb_spec 0 d); [|lia].
      destruct (Z.leb_spec (d + Z.of_nat 1) (lsize l)); [reflexivity|lia]. }
    split; [exact F|]. split; [rewrite ECS; reflexivity|]. split; [rewrite ECS; exact NB|].
    eapply Forall2_imp; [|exact P]. intros h x a N _ R. eapply ptr_frame; [exact F|exact R|]. intros L E. exact (N6 h x N L (eq_sym E)).
  Qed.
  Lemma write1_same m p v : mem_write m p [v] p = v.
  Proof using Type. pose proof (mem_write_reads m p [v] 0%nat v eq_refl) as H. rewrite Z.add_0_r in H. exact H. Qed.
  Lemma write1_other m p v x : x <> p -> mem_write m p [v] x = m x.
  Proof using Type. intros N. apply (mem_write_outside _ _ _ 1); [cbn [length]; lia|]. intros Y. unfold in_block in Y. cbn [start size] in Y. lia. Qed.

  Lemma zeroing_ok s A i o k p l d : parinv t st m0 s A -> pphase s i = PZeroing o k p l d -> exists A', parinv t st m0 (par_work t st s i) A'.
  Proof using V VR.
    intros I PH. pose proof (pv_phase _ _ _ _ _ I i) as OK. rewrite PH in OK. destruct OK as (-> & NB & DD & Z0). unfold par_work. rewrite PH.
    pose proof NB as (N1 & N2 & N3 & N4 & N5 & N6). pose proof (pv_ptrs _ _ _ _ _ I) as P. destruct (Z.ltb_spec d (lsize l)) as [LT|GE].
    - destruct (csys_step _ (CStore i k d [Some 0]) Logic.I (pv_c _ _ _ _ _ I) (pv_e _ _ _ _ _ I)) as (C & E).
      destruct (byte_ok (pcs s) (pptrs s) A i k p l d (Some 0) (pv_c _ _ _ _ _ I) P NB ltac:(lia)) as (F & M & NB' & P').
      exists A. eapply (go_ok t st m0 s A _ i (eq k)); try eassumption.
      + intros q <-. eauto.
      + cbn [phase_ok]. split; [reflexivity|]. split; [exact NB'|]. split; [lia|]. intros z Z. rewrite M. destruct (Z.eq_dec z d) as [->|NE]; [apply write1_same|].
        rewrite write1_other by lia. apply Z0. lia.
    - assert (d = lsize l) by lia. subst d. exists (A ++ [MkPA p l i true (zeroes (lsize l))]). eapply (return_ok t st m0 s A (pcs s) i (fun _ => False)); try apply I; try contradiction.
      + apply cframe_refl.
      + apply Forall2_app; [exact P|]. constructor; [|constructor]. repeat (split; [reflexivity|]). intros _. cbn [pp_lay pp_addr pp_tok pa_owner pa_data].
        split; [exact N3|]. split; [exact N4|]. split; [exact N5|]. exists (lsize l). split; [exact N2|]. split; [lia|].
        split; [unfold zeroes; rewrite repeat_length; lia|]. intros z b N. assert (z < length (zeroes (lsize l)))%nat by (apply nth_error_Some; rewrite N; discriminate).
        unfold zeroes in *. rewrite repeat_length in *. apply nth_error_In in N. apply repeat_spec in N. injection N as ->. apply Z0. lia.
      + apply sep_snoc; [apply I|exact N6].
      + eapply frame_snoc; [apply (F2_len _ _ _ P)|exact N2|apply ptrs_frame_refl].
      + exact N1.
      + constructor. exact N4.
  Qed.

  Lemma copying_ok s A i o k p l d : parinv t st m0 s A -> pphase s i = PCopying o k p l d -> exists A', parinv t st m0 (par_work t st s i) A'.
  Proof using V VR.
    intros I PH. pose proof (pv_phase _ _ _ _ _ I i) as OK. rewrite PH in OK. destruct OK as (h & n & x & a & -> & H & -> & LN & NB & DD & Z0). unfold par_work. rewrite PH.
    pose proof H as (H1 & H2 & H3 & H4). rewrite H1. pose proof NB as (N1 & N2 & N3 & N4 & N5 & N6). pose proof (pv_ptrs _ _ _ _ _ I) as P. cbn [lsize].
    destruct (has_ok _ _ _ _ _ _ _ _ P H) as (VL & PL & AL & mm & K & LE & AG). rewrite Z.min_r by lia. destruct (Z.ltb_spec d (lsize (pp_lay x))) as [LT|GE].
    - destruct (csys_step _ (CLoad i (pp_tok x)) Logic.I (pv_c _ _ _ _ _ I) (pv_e _ _ _ _ _ I)) as (C1 & E1).
      assert (EL : exists tr, cstep t st (pcs s) (CLoad i (pp_tok x)) = MkC (cbase (pcs s)) (cmem (pcs s)) (ctoks (pcs s)) tr).
      { cbn [cstep]. destruct (may_use (pcs s) i (pp_tok x)); [eauto|]. exists (ctrace (pcs s)). destruct (pcs s); reflexivity. }
      pose proof (frame_load t st (pcs s) i (pp_tok x) (eq k)) as F1. destruct EL as (tr & EL). rewrite EL in C1, E1, F1 |- *. set (cs1 := MkC (cbase (pcs s)) (cmem (pcs s)) (ctoks (pcs s)) tr) in *.
      assert (NB1 : newblock t cs1 (pptrs s) i k p (MkLayout n (lalign (pp_lay x)))) by exact NB.
      assert (P1 : Forall2 (ptr_ok t cs1) (pptrs s) A) by exact P.
      destruct (csys_step cs1 (CStore i k d [cmem (pcs s) (pp_addr x + d)]) Logic.I C1 E1) as (C & E).
      destruct (byte_ok cs1 (pptrs s) A i k p _ d (cmem (pcs s) (pp_addr x + d)) C1 P1 NB1 ltac:(cbn [lsize]; lia)) as (F & M & NB' & P').
      exists A. eapply (go_ok t st m0 s A _ i (eq k)); try eassumption.
      + eapply cframe_trans; [exact F1|exact F].
      + intros q <-. eauto.
      + exists h, n, x, a. split; [reflexivity|]. split; [exact H|]. split; [reflexivity|]. split; [exact LN|]. split; [exact NB'|]. split; [lia|].
        assert (DJ : forall z, 0 <= z < lsize (pp_lay x) -> pp_addr x + z <> p + d).
        { intros z Z X. assert (KN : pp_tok x <> k) by (apply (N6 h x H1 H3)).
          pose proof (toks_disjoint t st m0 (pcs s) _ _ _ _ _ _ (pv_c _ _ _ _ _ I) KN K N2 (p + d)) as Y. apply Y. unfold in_block. cbn [start size lsize]. lia. }
        intros z Z. rewrite M. cbn [cmem cs1]. rewrite (write1_other _ _ _ (pp_addr x + z)) by (apply DJ; lia). destruct (Z.eq_dec z d) as [->|NE]; [apply write1_same|].
        rewrite write1_other by lia. apply Z0. lia.
    - assert (d = lsize (pp_lay x)) by lia. subst d. destruct (Forall2_nth _ _ _ _ _ P H1) as (a' & H2' & (E1 & E2 & E3 & _)). assert (a' = a) by congruence. subst a'.
      exists (SyncMemModel.upd A h (pa_dead a) ++ [MkPA p (MkLayout n (lalign (pa_lay a))) i true (resized (pa_data a) n)]).
      rewrite (lose_upd _ _ _ _ _ _ s H eq_refl). eapply (return_ok t st m0 s A (pcs s) i (fun _ => False)); try apply I; try contradiction.
      + apply cframe_refl.
      + apply Forall2_app; [apply ptrs_lose; [exact P|exact H1|exact H2]|]. constructor; [|constructor].
        split; [reflexivity|]. split; [cbn [pp_lay pa_lay]; rewrite E2; reflexivity|]. split; [reflexivity|]. intros _. cbn [pp_lay pp_addr pp_tok pa_owner pa_data].
        split; [exact N3|]. split; [exact N4|]. split; [exact N5|]. exists n. split; [exact N2|]. cbn [lsize] in *. split; [lia|]. eapply agrees_resized; [exact AG|lia|].
        intros z Z. apply Z0. lia.
      + apply sep_snoc; [apply sep_lose, I|]. intros h' y NY LY. apply nth_upd_live in NY as (_ & NY); [|exact LY]. exact (N6 h' y NY LY).
      + eapply frame_snoc; [rewrite !upd_length; apply (F2_len _ _ _ P)|exact N2|]. apply frame_lose. exact H.
      + exact N1.
      + eapply pi_grow; [split; [exact H2|]; split; [congruence|exact H4]|congruence].
  Qed.

  Lemma parinv_step s A a : paraction_ok t a -> parinv t st m0 s A -> exists A', parinv t st m0 (parstep t st s a) A'.
  Proof using V VR.
    intros OK I. destruct a as [i o|i k|i]; cbn [parstep].
    - destruct (pphase s i) eqn:PH; [|eauto..]. destruct o as [l|l|h n|h|h off bs|h|h j].
      + exists A. cbn [par_start]. apply ask_ok; auto. reflexivity.
      + exists A. cbn [par_start]. apply ask_ok; auto. reflexivity.
      + apply (realloc_ok s A i h n I PH OK).
      + apply (dealloc_ok s A i h I PH).
      + apply (store_ok s A i h off bs I PH).
      + apply (load_ok s A i h I PH).
      + apply (send_ok s A i h j I PH).
    - exists A. apply access_ok. exact I.
    - destruct (pphase s i) as [|o|o k p l d|o k p l d] eqn:PH.
      + unfold par_work. rewrite PH. eauto.
      + unfold par_work. rewrite PH. pose proof (pv_phase _ _ _ _ _ I i) as Q. rewrite PH in Q. destruct Q as (l & VL & AS & [(g & X)|(r & X & G)]); rewrite X; [eauto|].
        apply (answered_ok s A i o l r I PH X).
      + eapply zeroing_ok; eassumption.
      + eapply copying_ok; eassumption.
  Qed.

  Lemma parinv_run sched : forall s A, Forall (paraction_ok t) sched -> parinv t st m0 s A -> exists A', parinv t st m0 (parrun t st s sched) A'.
  Proof using V VR.
    induction sched as [|a sched IH]; intros s A F I; [exists A; exact I|]. inversion F; subst. destruct (parinv_step s A a) as (A1 & I1); auto.
    unfold parrun. cbn [fold_left]. apply (IH _ A1); assumption.
  Qed.

  Lemma parinv_init : parinv t st m0 (parinit m0) [].
  Proof using VR.
    split; cbn [parinit pcs pptrs pphase plog].
    - apply cinv_init. exact VR.
    - exists []. split; [constructor|reflexivity].
    - constructor.
    - intros h h' x x' _ N. destruct h; discriminate.
    - intros i. reflexivity.
    - constructor.
  Qed.
End Steps.

Lemma parinv_blocks t st m0 s A : parinv t st m0 s A ->
  pairwise disjoint (map pa_block (pa_lives A)) /\ Forall (fun a => inside (pa_block a) st /\ aligned (pa_addr a) (lalign (pa_lay a)) /\ valid_layout t (pa_lay a) /\
     0 < lsize (pa_lay a) /\ Z.of_nat (length (pa_data a)) = lsize (pa_lay a)) (pa_lives A).
Proof.
  intros I. pose proof (pv_ptrs _ _ _ _ _ I) as P.
  assert (L : forall h a, nth_error A h = Some a -> pa_live a = true -> exists x n, nth_error (pptrs s) h = Some x /\ pp_live x = true /\
     nth_error (ctoks (pcs s)) (pp_tok x) = Some (MkBlock (pa_addr a) n, pa_owner a) /\ lsize (pa_lay a) <= n /\ aligned (pa_addr a) (lalign (pa_lay a)) /\ valid_layout t (pa_lay a) /\
     0 < lsize (pa_lay a) /\ Z.of_nat (length (pa_data a)) = lsize (pa_lay a)).
  { intros h a N LV. destruct (Forall2_nth_r _ _ _ _ _ P N) as (x & NX & (E1 & E2 & E3 & R)). assert (LX : pp_live x = true) by congruence.
    destruct (R LX) as (Q1 & Q2 & Q3 & n & Q4 & Q5 & (Q6 & _)). rewrite E1, E2 in *. exists x, n. auto 10. }
  split.
  - assert (D : forall h h' a a', h <> h' -> nth_error A h = Some a -> nth_error A h' = Some a' -> pa_live a = true -> pa_live a' = true -> disjoint (pa_block a) (pa_block a')).
    { intros h h' a a' NE N N' LV LV'. destruct (L h a N LV) as (x & n & X1 & X2 & X3 & X4 & _). destruct (L h' a' N' LV') as (x' & n' & Y1 & Y2 & Y3 & Y4 & _).
      pose proof (pv_sep _ _ _ _ _ I h h' x x' NE X1 Y1 X2 Y2) as TN.
      pose proof (toks_disjoint t st m0 (pcs s) _ _ _ _ _ _ (pv_c _ _ _ _ _ I) TN X3 Y3) as DJ. intros z (Z1 & Z2). apply (DJ z).
      unfold pa_block, in_block in *. cbn [start size] in *. lia. }
    clear L. clear P I. revert D. unfold pa_lives. induction A as [|a A IH]; intros D; [apply pairwise_nil|]. cbn [filter]. destruct (pa_live a) eqn:LV.
    + cbn [map]. apply pairwise_cons.
      * apply disjoint_sym.
      * apply Forall_forall. intros b B. apply in_map_iff in B as (a' & <- & B). apply filter_In in B as (B & LV'). apply In_nth_error in B as (k & K).
        apply (D 0%nat (Datatypes.S k) a a'); auto.
      * apply IH. intros h h' b b' NE. apply (D (Datatypes.S h) (Datatypes.S h') b b'). congruence.
    + apply IH. intros h h' b b' NE. apply (D (Datatypes.S h) (Datatypes.S h') b b'). congruence.
  - apply Forall_forall. intros a B. apply filter_In in B as (B & LV). apply In_nth_error in B as (h & N).
    destruct (L h a N LV) as (x & n & X1 & X2 & X3 & X4 & X5 & X6 & X7 & X8). split; [|auto].
    intros z Z. apply (ci_sub _ _ _ _ (pv_c _ _ _ _ _ I) _ _ _ X3). unfold pa_block, in_block in *. cbn [start size] in *. lia.
Qed.

(** ** A thread can finish alone *)
Section Alone.
  Context (t : target) (st : block) (m0 : mem) (V : valid_target t) (VR : valid_region t st).

  Definition finishes (s : parsys) (i : nat) (o : parop) (acts : list paraction) : Prop :=
    exists e, plog (parrun t st s acts) = plog s ++ [e] /\ pe_thread e = i /\ pe_op e = o.

  Lemma finishes_cons s i o a acts : plog (parstep t st s a) = plog s -> finishes (parstep t st s a) i o acts -> finishes s i o (a :: acts).
  Proof using Type. intros E (e & F & R). exists e. unfold parrun. cbn [fold_left]. unfold parrun in F. rewrite F, E. auto. Qed.
  Lemma finishes_now s i o a : (exists cs ptrs ans, parstep t st s a = par_return s cs i o ptrs ans) -> finishes s i o [a].
  Proof using Type. intros (cs & ptrs & ans & E). unfold finishes, parrun. cbn [fold_left]. rewrite E. eexists. split; [reflexivity|]. auto. Qed.

  Lemma phase_same s cs i ph : pphase (par_go s cs i ph) i = ph.
  Proof using Type. cbn [par_go pphase]. unfold upd_phase. rewrite Nat.eqb_refl. reflexivity. Qed.

  Lemma zeroing_done n : forall s A i o k p l d, parinv t st m0 s A -> pphase s i = PZeroing o k p l d -> lsize l - d = Z.of_nat n ->
    finishes s i o (repeat (PWork i) (Datatypes.S n)).
  Proof using V VR.
    induction n as [|n IH]; intros s A i o k p l d I PH M; cbn [repeat].
    - apply finishes_now. cbn [parstep]. unfold par_work. rewrite PH. destruct (Z.ltb_spec d (lsize l)); [lia|]. eauto.
    - destruct (parinv_step t st m0 V VR s A (PWork i) Logic.I I) as (A1 & I1).
      assert (E : parstep t st s (PWork i) = par_go s (cstep t st (pcs s) (CStore i k d [Some 0])) i (PZeroing o k p l (d + 1))).
      { cbn [parstep]. unfold par_work. rewrite PH. destruct (Z.ltb_spec d (lsize l)); [reflexivity|lia]. }
      apply finishes_cons; [rewrite E; reflexivity|]. eapply IH; [exact I1|rewrite E; apply phase_same|lia].
  Qed.

  Lemma copying_done n : forall s A i o k p l d, parinv t st m0 s A -> pphase s i = PCopying o k p l d ->
    (forall h m x, o = PRealloc h m -> nth_error (pptrs s) h = Some x -> lsize (pp_lay x) - d = Z.of_nat n) ->
    finishes s i o (repeat (PWork i) (Datatypes.S n)).
  Proof using V VR.
    induction n as [|n IH]; intros s A i o k p l d I PH M; cbn [repeat].
    - pose proof (pv_phase _ _ _ _ _ I i) as OK. rewrite PH in OK. destruct OK as (h & m & x & a & -> & H & -> & LN & NB & DD & Z0). pose proof H as (H1 & _).
      specialize (M h m x eq_refl H1). apply finishes_now. cbn [parstep]. unfold par_work. rewrite PH, H1. destruct (Z.ltb_spec d (Z.min (lsize (MkLayout m (lalign (pp_lay x)))) (lsize (pp_lay x)))); [lia|]. eauto.
    - destruct (parinv_step t st m0 V VR s A (PWork i) Logic.I I) as (A1 & I1).
      pose proof (pv_phase _ _ _ _ _ I i) as OK. rewrite PH in OK. destruct OK as (h & m & x & a & -> & H & -> & LN & NB & DD & Z0). pose proof H as (H1 & _).
      pose proof (M h m x eq_refl H1) as MX.
      assert (E : exists cs, parstep t st s (PWork i) = par_go s cs i (PCopying (PRealloc h m) k p (MkLayout m (lalign (pp_lay x))) (d + 1))).
      { cbn [parstep]. unfold par_work. rewrite PH, H1. cbn [lsize]. destruct (Z.ltb_spec d (Z.min m (lsize (pp_lay x)))); [eauto|lia]. }
      destruct E as (cs & E). apply finishes_cons; [rewrite E; reflexivity|]. eapply IH; [exact I1|rewrite E; apply phase_same|].
      intros h' m' x' [= <- <-] N. rewrite E in N. cbn [par_go pptrs] in N. assert (x' = x) by congruence. subst. lia.
  Qed.

  (** blocks are not larger than the slab *)
  Lemma newblock_size cs ptrs i k p l : cinv t st m0 cs -> newblock t cs ptrs i k p l -> lsize l <= size st.
  Proof using Type.
    intros C (_ & K & _ & P & _). pose proof (ci_sub _ _ _ _ C _ _ _ K) as IN.
    pose proof (IN p ltac:(unfold in_block; cbn [start size]; lia)) as X. pose proof (IN (p + lsize l - 1) ltac:(unfold in_block; cbn [start size]; lia)) as Y.
    unfold in_block in *. cbn [start size] in *. lia.
  Qed.

  Definition mine (i : nat) (a : paraction) : Prop := a = PWork i \/ exists k, a = PAccess i k.

  Lemma mine_repeat i n : Forall (mine i) (repeat (PWork i) n).
  Proof using Type. apply Forall_forall. intros a Q. apply repeat_spec in Q. left. exact Q. Qed.

  Lemma working_done s A i o : parinv t st m0 s A -> par_busy (pphase s i) = Some o -> (forall o', pphase s i <> PWait o') ->
    exists acts, Z.of_nat (length acts) <= size st + 1 /\ Forall (mine i) acts /\ finishes s i o acts.
  Proof using V VR.
    intros I B NW. pose proof (pv_phase _ _ _ _ _ I i) as OK. destruct (pphase s i) as [|o'|o' k p l d|o' k p l d] eqn:PH; cbn [par_busy] in B; [discriminate|destruct (NW o'); reflexivity| |];
      injection B as ->; cbn [phase_ok] in OK.
    - destruct OK as (-> & NB & DD & Z0). exists (repeat (PWork i) (Datatypes.S (Z.to_nat (lsize l - d)))). pose proof (newblock_size _ _ _ _ _ _ (pv_c _ _ _ _ _ I) NB).
      split; [rewrite repeat_length; lia|]. split; [apply mine_repeat|]. eapply zeroing_done; [exact I|exact PH|lia].
    - destruct OK as (h & m & x & a & -> & H & -> & LN & NB & DD & Z0). exists (repeat (PWork i) (Datatypes.S (Z.to_nat (lsize (pp_lay x) - d)))).
      pose proof (newblock_size _ _ _ _ _ _ (pv_c _ _ _ _ _ I) NB) as SZ. cbn [lsize] in SZ.
      split; [rewrite repeat_length; lia|]. split; [apply mine_repeat|]. eapply copying_done; [exact I|exact PH|]. intros h' m' x' [= <- <-] N. destruct H as (H1 & _). assert (x' = x) by congruence. subst. lia.
  Qed.

  Lemma accesses_alone i ks : forall s, let s' := parrun t st s (map (PAccess i) ks) in
    cbase (pcs s') = fold_left (rstep t st) (map (RAccess i) ks) (cbase (pcs s)) /\ pphase s' = pphase s /\ plog s' = plog s.
  Proof using Type.
    induction ks as [|k ks IH]; intros s; [repeat split|]. cbn zeta. unfold parrun. cbn [map fold_left]. specialize (IH (parstep t st s (PAccess i k))). cbn zeta in IH. unfold parrun in IH.
    destruct IH as (E1 & E2 & E3). rewrite E1, E2, E3. repeat split.
  Qed.

  Lemma parinv_run' s A acts : parinv t st m0 s A -> Forall (mine 0) acts \/ (exists i, Forall (mine i) acts) -> exists A', parinv t st m0 (parrun t st s acts) A'.
  Proof using V VR.
    intros I H. apply (parinv_run t st m0 V VR acts s A); [|exact I]. assert (X : exists i, Forall (mine i) acts) by (destruct H; eauto). destruct X as (i & X).
    eapply Forall_impl; [|exact X]. intros a [->|(k & ->)]; exact Logic.I.
  Qed.

  Lemma finishes_app s i o acts acts' : plog (parrun t st s acts) = plog s -> finishes (parrun t st s acts) i o acts' -> finishes s i o (acts ++ acts').
  Proof using Type. intros E (e & F & R). exists e. unfold parrun in *. rewrite fold_left_app, F, E. auto. Qed.

  Lemma busy_done s A i o : parinv t st m0 s A -> par_busy (pphase s i) = Some o ->
    exists acts, Z.of_nat (length acts) <= size st + 4 /\ Forall (mine i) acts /\ finishes s i o acts.
  Proof using V VR.
    intros I B. assert (W : (exists o', pphase s i = PWait o') \/ (forall o', pphase s i <> PWait o')) by (destruct (pphase s i); [right; congruence|eauto|right; congruence..]).
    destruct W as [(o' & PH)|NW].
    2:{ destruct (working_done s A i o I B NW) as (acts & L & M & F). exists acts. split; [lia|auto]. }
    rewrite PH in B. injection B as ->. pose proof (pv_phase _ _ _ _ _ I i) as OK. rewrite PH in OK. destruct OK as (l & VL & AS & R).
    assert (X : exists ks r, (length ks <= 2)%nat /\ rthreads (fold_left (rstep t st) (map (RAccess i) ks) (cbase (pcs s))) i = Done (CAlloc l) r).
    { destruct R as [(g & R)|(r & R & _)]; [|exists [], r; split; [cbn; lia|exact R]]. eapply solo_done; [exact V|exact VR|apply (pv_e _ _ _ _ _ I)|exact R]. }
    destruct X as (ks & r & LK & D). destruct (accesses_alone i ks s) as (E1 & E2 & E3). set (s1 := parrun t st s (map (PAccess i) ks)) in *.
    assert (MK : Forall (mine i) (map (PAccess i) ks)) by (apply Forall_forall; intros a Q; apply in_map_iff in Q as (k & <- & _); right; eauto).
    destruct (parinv_run' s A (map (PAccess i) ks) I ltac:(eauto)) as (A1 & I1). fold s1 in I1.
    assert (PH1 : pphase s1 i = PWait o) by (rewrite E2; exact PH). assert (D1 : rthreads (cbase (pcs s1)) i = Done (CAlloc l) r) by (rewrite E1; exact D).
    destruct (parinv_step t st m0 V VR s1 A1 (PWork i) Logic.I I1) as (A2 & I2).
    assert (WK : parstep t st s1 (PWork i) = par_answered t st s1 i o l r) by (cbn [parstep]; unfold par_work; rewrite PH1, D1; reflexivity).
    assert (Y : (exists cs ptrs ans, parstep t st s1 (PWork i) = par_return s1 cs i o ptrs ans) \/
                (exists cs ph, parstep t st s1 (PWork i) = par_go s1 cs i ph /\ par_busy ph = Some o /\ (forall o', ph <> PWait o'))).
    { rewrite WK. unfold par_answered. destruct r as [a| | | | |]; eauto. destruct o; eauto; right; do 2 eexists; split; reflexivity || (split; [reflexivity|congruence]). }
    destruct Y as [Y|(cs & ph & E & B2 & NW)].
    - exists (map (PAccess i) ks ++ [PWork i]). rewrite app_length, map_length. cbn [length]. destruct VR as (_ & S0 & _). split; [lia|].
      split; [apply Forall_app; split; [exact MK|]; constructor; [left; reflexivity|constructor]|]. apply finishes_app; [exact E3|]. apply finishes_now. exact Y.
    - assert (PH2 : pphase (parstep t st s1 (PWork i)) i = ph) by (rewrite E; apply phase_same).
      destruct (working_done _ A2 i o I2 ltac:(rewrite PH2; exact B2) ltac:(rewrite PH2; exact NW)) as (acts & L & M & F).
      exists (map (PAccess i) ks ++ PWork i :: acts). rewrite app_length, map_length. cbn [length]. split; [lia|].
      split; [apply Forall_app; split; [exact MK|]; constructor; [left; reflexivity|exact M]|]. apply finishes_app; [exact E3|]. fold s1.
      apply finishes_cons; [rewrite E; reflexivity|exact F].
  Qed.

  Lemma start_done s A i o : parinv t st m0 s A -> parop_ok t o -> pphase s i = PIdle -> par_legal A i o ->
    exists acts, Z.of_nat (length acts) <= size st + 5 /\ (forall a, In a acts -> a = PStart i o \/ mine i a) /\ finishes s i o acts.
  Proof using V VR.
    intros I OK PH LG. destruct (parinv_step t st m0 V VR s A (PStart i o) OK I) as (A1 & I1).
    assert (Y : (exists cs ptrs ans, parstep t st s (PStart i o) = par_return s cs i o ptrs ans) \/ (exists cs, parstep t st s (PStart i o) = par_go s cs i (PWait o))).
    { cbn [parstep]. rewrite PH. destruct o as [l|l|h n|h|h off bs|h|h j]; cbn [par_start par_legal] in *; [right; unfold par_ask; eauto..| | | | |].
      - destruct LG as (a & PA). destruct (has_par_ptr _ _ _ _ _ _ _ _ I PA) as (x & -> & _). destruct (nonzero_from_layout (pp_lay x)); [|left; eauto].
        destruct (layout_reallocated t l n) as [[q|e]|]; [|left; eauto..]. destruct (_ && _); [left; eauto|right; unfold par_ask; eauto].
      - destruct LG as (a & PA). destruct (has_par_ptr _ _ _ _ _ _ _ _ I PA) as (x & -> & _). eauto.
      - destruct LG as (a & PA & O1 & O2). destruct (has_par_ptr _ _ _ _ _ _ _ _ I PA) as (x & -> & H). pose proof H as (H1 & H2 & _).
        destruct (Forall2_nth _ _ _ _ _ (pv_ptrs _ _ _ _ _ I) H1) as (a' & H2' & (_ & E2 & _)). assert (a' = a) by congruence. subst a'. rewrite E2.
        destruct (Z.leb_spec 0 off); [|lia]. destruct (Z.leb_spec (off + Z.of_nat (length bs)) (lsize (pa_lay a))); [|lia]. cbn [andb]. eauto.
      - destruct LG as (a & PA). destruct (has_par_ptr _ _ _ _ _ _ _ _ I PA) as (x & -> & _). eauto.
      - destruct LG as (a & PA). destruct (has_par_ptr _ _ _ _ _ _ _ _ I PA) as (x & -> & _). eauto. }
    destruct Y as [Y|(cs & E)].
    - exists [PStart i o]. destruct VR as (_ & S0 & _). split; [cbn [length]; lia|]. split; [intros a [<-|[]]; auto|]. apply finishes_now. exact Y.
    - destruct (busy_done _ A1 i o I1 ltac:(rewrite E, phase_same; reflexivity)) as (acts & L & M & F). exists (PStart i o :: acts). cbn [length]. split; [lia|].
      split; [intros a [<-|Q]; [auto|]; right; rewrite Forall_forall in M; apply M; exact Q|]. apply finishes_cons; [rewrite E; reflexivity|exact F].
  Qed.
End Alone.
