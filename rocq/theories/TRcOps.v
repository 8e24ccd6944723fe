(** * TRcOps: what the methods of Rc and Weak do to the tree of all tags. *)
From Verif Require Import Base Spec BaseFacts SyncModel SyncSpec RcModel RcProofs RcMemProofs BorrowModel BorrowSpec BorrowProofs BorrowState UBorrowModel RBorrowModel RBorrowSpec RBorrowBytes RBorrowOps RBorrowCalls RBorrowPolite
  TBorrowModel EBorrowModel TreeModel TreeSpec TreeState TExitModel TExitSpec TExitState TExitOps TRcModel TRcSpec.

(** ** Reads leave Frozen alone *)
Definition keeps (X : Z -> Prop) (s s' : forest) : Prop :=
  forall y n, X y -> (n < fresh_tag s)%nat -> perms (nodes s) y n = PFrozen -> perms (nodes s') y n = PFrozen.

Lemma access_frozen p b s r x y : tree_access false p b s = Some r -> perms s x y = PFrozen -> perms r x y = PFrozen.
Proof.
  intros E P. destruct (inb b x) eqn:B.
  - apply inb_iff in B. destruct (among (line s p) y) eqn:M.
    + apply among_iff in M. pose proof (access_after _ _ _ _ _ _ _ E B M) as C. rewrite P in C. cbn in C. congruence.
    + rewrite (access_else _ _ _ _ _ _ _ E B), P; [reflexivity|]. rewrite <- among_iff. congruence.
  - rewrite (access_out _ _ _ _ _ _ E); [exact P|]. rewrite <- inb_iff. congruence.
Qed.
Lemma reads_frozen p m parts x y : forall s r, tree_reads p m parts s = Some r -> perms s x y = PFrozen -> perms r x y = PFrozen.
Proof.
  induction parts as [|[c b] parts IH]; intros s r E P; cbn [tree_reads] in E; [congruence|].
  destruct (negb m && c); [eapply IH; eauto|]. destruct (tree_access false p b s) as [r1|] eqn:E1; [|discriminate]. eapply IH; [exact E|]. eapply access_frozen; eauto.
Qed.

(** readable *)
Definition rdable (s : forest) (n : nat) (X : Z -> Prop) : Prop := (n < fresh_tag s)%nat /\ forall x y, X x -> In y (line (nodes s) n) -> perms (nodes s) x y <> PDisabled.
Lemma wr_rdable s n X : wr s n X -> rdable s n X.
Proof. intros [L Q]. split; [exact L|]. intros x y Hx Y. destruct (Q x y Hx Y) as [-> | [[im ->] | ->]]; discriminate. Qed.
Lemma rd_can p b s : rdable s p (in_block b) -> exists r, tree_access false p b (nodes s) = Some r.
Proof.
  intros [L Q]. apply access_some. intros x X. apply forallb_forall. intros y Y. specialize (Q x y X Y). destruct (perms (nodes s) x y); try reflexivity. congruence.
Qed.
Lemma reads_rd p parts : forall s, wf s -> (p < fresh_tag s)%nat -> (forall b, In (false, b) parts -> rdable s p (in_block b)) -> exists r, tree_reads p false parts (nodes s) = Some r.
Proof.
  induction parts as [|[c b] parts IH]; intros s W L R; cbn [tree_reads]; [eauto|]. destruct c; cbn [negb andb].
  - apply IH; auto. intros b' I. apply R. right. exact I.
  - destruct (rd_can p b s) as [r1 E1]; [apply R; left; reflexivity|]. rewrite E1. destruct (access_down false p b s r1 W L E1) as (K & _).
    apply (IH (MkS r1 (fresh_tag s))); [apply (s_wf _ _ _ K)|exact L|]. intros b' I. destruct (R b' (or_intror I)) as [_ Q]. split; [exact L|]. cbn [nodes]. intros x y X Y.
    rewrite (access_line _ _ _ _ _ E1) in Y. specialize (Q x y X Y). destruct (inb b x) eqn:B.
    + apply inb_iff in B. pose proof (access_after _ _ _ _ _ _ _ E1 B Y) as A. destruct (perms (nodes s) x y); cbn in A; congruence.
    + rewrite (access_out _ _ _ _ _ _ E1); [exact Q|]. rewrite <- inb_iff. congruence.
Qed.

Definition ofk (kd : rkind) : tperm := match kd with RShared => PFrozen | _ => PCell end.
Lemma cell_kind_at im parts y kd : Forall (fun q : rkind * block => fst q <> RUnique) parts -> kind_at parts y = Some kd -> initial false (cell_at (as_cells im parts) y) = ofk kd.
Proof.
  intros F. unfold kind_at, cell_at. assert (E : find (fun p : bool * block => inb (snd p) y) (as_cells im parts) =
    option_map (fun p : rkind * block => (match fst p with RUnique => im | RShared => false | RCell => true end, snd p)) (find (fun p : rkind * block => inb (snd p) y) parts)).
  { clear. induction parts as [|[k b] parts IH]; [reflexivity|]. unfold as_cells in *. cbn [map find fst snd]. destruct (inb b y); [reflexivity|exact IH]. }
  rewrite E. clear E. destruct (find _ parts) as [[k b]|] eqn:E; [|discriminate]. cbn [option_map fst snd]. intros [= ->]. apply find_some in E. destruct E as [E _].
  rewrite Forall_forall in F. specialize (F _ E). cbn [fst] in F. destruct kd; [congruence|reflexivity|reflexivity].
Qed.

(** a shared reference *)
Lemma op_shared im p parts (B : Z -> Prop) s : wf s -> (p < fresh_tag s)%nat -> Forall (fun q : rkind * block => fst q <> RUnique) parts ->
  (forall b, In (RShared, b) parts -> rdable s p (in_block b) /\ forall x, in_block b x -> B x) ->
  op (f_retag im p parts) s (fun n s' => step B s s' /\ keeps (fun _ => True) s s' /\ n = fresh_tag s /\ fresh_tag s' = S n /\ line (nodes s') n = n :: line (nodes s) p /\
    (forall y kd, kind_at parts y = Some kd -> perms (nodes s') y n = ofk kd) /\ (forall x y, In y (line (nodes s) p) -> perms (nodes s') x y = perms (nodes s) x y)).
Proof.
  intros W L F R. unfold op, f_retag.
  assert (M : as_mutable parts = false).
  { unfold as_mutable. clear R. induction F as [|[k b] parts K F IH]; [reflexivity|]. cbn [existsb fst] in *. rewrite IH. destruct k; [congruence|reflexivity|reflexivity]. }
  rewrite M.
  assert (C : forall b, In (false, b) (as_cells im parts) -> In (RShared, b) parts).
  { intros b I. unfold as_cells in I. apply in_map_iff in I. destruct I as ([k b'] & [= E ->] & I). rewrite Forall_forall in F. specialize (F _ I). cbn [fst] in *. destruct k; [congruence|exact I|discriminate]. }
  destruct (reads_rd p (as_cells im parts) s W L) as [r0 E0]; [intros b I; apply R, C, I|].
  assert (exists r, tree_retag (fresh_tag s) p false (as_cells im parts) (nodes s) = Some r) as [r E] by (unfold tree_retag; rewrite E0; eauto).
  rewrite E. destruct (retag_step p false (as_cells im parts) B s r W L) as (K & El & P & O & _); [|exact E|].
  { intros c b x I Nc X. destruct c; [discriminate|]. apply (R b (C b I)). exact X. }
  split; [exact K|]. split; [|split; [reflexivity|split; [reflexivity|split; [exact El|split; [|exact O]]]]].
  - intros y n _ Ln Q. unfold tree_retag in E. rewrite E0 in E. injection E as <-. cbn [nodes perms]. rewrite eqb_old by exact Ln. eapply reads_frozen; eauto.
  - intros y kd Ky. cbn [nodes]. rewrite P. apply cell_kind_at; assumption.
Qed.

Lemma op_and {A} (m : F A) s (P Q : A -> forest -> Prop) : op m s P -> op m s Q -> op m s (fun a s' => P a s' /\ Q a s').
Proof. unfold op. destruct (m s) as [[a s1]|]; auto. Qed.

Section Box.
Variables (t : target) (x : qbox).
Hypotheses (V : valid_target t) (OK : qtype_ok t (q_ty x)) (B0 : q_base x = 0%nat).
Let parts := q_refs x ++ [(RCell, q_strong t x); (RCell, q_weak t x)].
Definition counter (b : block) : Prop := b = q_strong t x \/ b = q_weak t x.
Definition cnts (y : Z) : Prop := in_block (q_strong t x) y \/ in_block (q_weak t x) y.
Notation val := (in_block (q_val x)).

(** Rc looks at the value; Weak leaves it alone. *)
Definition see (s s' : forest) : Prop := step (in_block (q_all t x)) s s' /\ keeps val s s'.
Definition touch (s s' : forest) : Prop := step cnts s s'.

Lemma see_refl s : wf s -> see s s.
Proof. intros W. split; [apply step_refl; exact W|]. intros y n _ _ P. exact P. Qed.
Lemma see_trans s1 s2 s3 : see s1 s2 -> see s2 s3 -> see s1 s3.
Proof.
  intros [A K] [A' K']. split; [(cbn beta in *; eapply step_trans; eassumption)|]. intros y n Y L P. apply K'; [exact Y|pose proof (s_fresh _ _ _ A); lia|]. apply K; auto.
Qed.
Lemma cnts_all y : cnts y -> in_block (q_all t x) y /\ ~ val y.
Proof. intros [Y|Y]; [apply (strong_all t x V OK)|apply (weak_all t x V OK)]; exact Y. Qed.
Lemma counter_cnts b y : counter b -> in_block b y -> cnts y.
Proof. intros [-> | ->] Y; [left|right]; exact Y. Qed.
Lemma touch_see s s' : touch s s' -> see s s'.
Proof.
  intros K. split; [eapply step_more; [|exact K]; intros y Y; apply cnts_all; exact Y|]. intros y n Y L P.
  rewrite (s_out _ _ _ K); [exact P| |exact L]. intros C. apply cnts_all in C. tauto.
Qed.
Lemma down_touch p b s s' : counter b -> down p (in_block b) s s' -> touch s s'.
Proof. intros C [K _]. eapply step_more; [|exact K]. intros y Y. eapply counter_cnts; eauto. Qed.
Lemma see_wf s s' : see s s' -> wf s'.
Proof. intros [K _]. apply (s_wf _ _ _ K). Qed.
Lemma touch_wf s s' : touch s s' -> wf s'.
Proof. intros K. apply (s_wf _ _ _ K). Qed.

Lemma see_bind {A B} (m : F A) (k : A -> F B) s (Phi : B -> forest -> Prop) : op m s (fun _ s' => see s s') ->
  (forall a s', see s s' -> op (k a) s' (fun b s'' => see s' s'' /\ Phi b s'')) -> op (fbind m k) s (fun b s'' => see s s'' /\ Phi b s'').
Proof.
  intros M H. apply op_bind. eapply op_weaken; [|exact M]. intros a s' K. eapply op_weaken; [|apply (H a s' K)]. intros b s'' [K' Y]. split; [|exact Y]. (cbn beta in *; eapply see_trans; eassumption).
Qed.
Lemma see_seq {A B} (m : F A) (k : A -> F B) s : op m s (fun _ s' => see s s') ->
  (forall a s', see s s' -> op (k a) s' (fun _ s'' => see s' s'')) -> op (fbind m k) s (fun _ s'' => see s s'').
Proof.
  intros M H. apply op_bind. eapply op_weaken; [|exact M]. intros a s' K. eapply op_weaken; [|apply (H a s' K)]. intros b s'' K'. (cbn beta in *; eapply see_trans; eassumption).
Qed.
Lemma touch_seq {A B} (m : F A) (k : A -> F B) s : op m s (fun _ s' => touch s s') ->
  (forall a s', touch s s' -> op (k a) s' (fun _ s'' => touch s' s'')) -> op (fbind m k) s (fun _ s'' => touch s s'').
Proof.
  intros M H. apply op_bind. eapply op_weaken; [|exact M]. intros a s' K. eapply op_weaken; [|apply (H a s' K)]. intros b s'' K'. (cbn beta in *; eapply step_trans; eassumption).
Qed.

Lemma root_lt s : wf s -> (q_base x < fresh_tag s)%nat.
Proof. intros W. rewrite B0. pose proof (t_next _ _ _ W). lia. Qed.
Lemma root_line s y : wf s -> In y (line (nodes s) (q_base x)) -> y = 0%nat.
Proof. intros W. rewrite B0, (proj1 (t_root _ _ _ W)). intros [<-|[]]. reflexivity. Qed.
Lemma root_wr s X : wf s -> wr s (q_base x) X.
Proof. intros W. split; [apply root_lt; exact W|]. intros y n _ Y. apply (root_line s n W) in Y. subst n. left. apply wf_root. exact W. Qed.

(** a reference like the one of [inner]: only the root is above it *)
Definition ref_like (ps : list (rkind * block)) (r : nat) (s : forest) : Prop := (r < fresh_tag s)%nat /\
  forall y kd n, kind_at ps y = Some kd -> In n (line (nodes s) r) -> n = 0%nat \/ perms (nodes s) y n = ofk kd.
Lemma parts_shared : Forall (fun q : rkind * block => fst q <> RUnique) parts.
Proof.
  apply Forall_app. split; [|repeat constructor; discriminate]. apply Forall_forall. intros [kd b] I. apply (refs_in t x OK) in I. apply I.
Qed.
Lemma refs_shared : Forall (fun q : rkind * block => fst q <> RUnique) (q_refs x).
Proof. pose proof parts_shared as F. apply Forall_app in F. apply F. Qed.
Lemma shared_refs b : In (RShared, b) parts -> In (RShared, b) (q_refs x).
Proof. intros I. apply in_app_iff in I. destruct I as [I|[[=]|[[=]|[]]]]. exact I. Qed.
Lemma refs_all kd b y : In (kd, b) (q_refs x) -> in_block b y -> val y /\ in_block (q_all t x) y.
Proof. intros I Y. apply (refs_in t x OK) in I. assert (val y) by (unfold in_block in *; lia). split; [assumption|]. apply (val_all t x V OK). assumption. Qed.
Lemma kind_parts_refs y kd : kind_at (q_refs x) y = Some kd -> kind_at parts y = Some kd.
Proof. intros E. unfold parts. rewrite kind_app, E. reflexivity. Qed.
Lemma ref_like_refs r s : ref_like parts r s -> ref_like (q_refs x) r s.
Proof. intros [L R]. split; [exact L|]. intros y kd n K. apply R. apply kind_parts_refs. exact K. Qed.

(** a new shared reference from the root or from such a reference *)
Lemma op_ref ps p s : wf s -> ps = parts \/ ps = q_refs x -> ref_like ps p s ->
  op (f_retag true p ps) s (fun n s' => see s s' /\ n = fresh_tag s /\ ref_like ps n s').
Proof.
  intros W E [L R]. assert (Fs : Forall (fun q : rkind * block => fst q <> RUnique) ps) by (destruct E as [-> | ->]; [apply parts_shared|apply refs_shared]).
  assert (In1 : forall b, In (RShared, b) ps -> In (RShared, b) (q_refs x)) by (destruct E as [-> | ->]; [apply shared_refs|auto]).
  assert (Ka : forall b y, In (RShared, b) ps -> in_block b y -> kind_at ps y = Some RShared).
  { intros b y I Y. apply (kind_has (fun _ => None) ps RShared b y); [|exact I|exact Y]. destruct E as [-> | ->]; [apply (RBorrowCalls.parts_apart t x V OK)|apply (refs_apart t x OK)]. }
  eapply op_weaken; [|apply (op_shared true p ps (in_block (q_all t x)) s W L Fs)].
  - cbn beta. intros n s' (K & Kp & -> & Fr & El & Pn & Po). split; [split; [exact K|]|split; [reflexivity|]].
    + intros y n _. apply Kp. exact Logic.I.
    + split; [lia|]. intros y kd n Ky I. rewrite El in I. destruct I as [<-|I]; [right; apply Pn; exact Ky|]. destruct (R y kd n Ky I) as [->|P]; [left; reflexivity|right]. rewrite Po by exact I. exact P.
  - intros b I. split; [|intros y Y; apply (refs_all RShared b y (In1 b I) Y)]. split; [exact L|]. intros y n Y N. destruct (R y RShared n (Ka b y I Y) N) as [->| ->]; [rewrite wf_root by exact W|]; discriminate.
Qed.
Lemma root_like ps s : wf s -> ref_like ps (q_base x) s.
Proof. intros W. split; [apply root_lt; exact W|]. intros y kd n _ I. left. eapply root_line; eauto. Qed.

Lemma op_inner s : wf s -> op (g_inner t x) s (fun r s' => see s s' /\ ref_like parts r s').
Proof.
  intros W. unfold g_inner. cbv zeta. fold parts. apply op_bind. eapply op_weaken; [|apply (op_ref parts (q_base x) s W (or_introl eq_refl) (root_like _ _ W))].
  intros r s1 (K & _ & R). eapply op_weaken; [|apply (op_ref parts r s1 (see_wf _ _ K) (or_introl eq_refl) R)]. intros r' s2 (K' & _ & R'). split; [(cbn beta in *; eapply see_trans; eassumption)|exact R'].
Qed.
Lemma like_wr b r s : counter b -> wf s -> ref_like parts r s -> wr s r (in_block b).
Proof.
  intros C W [L R]. split; [exact L|]. intros y n Y N.
  assert (Ky : kind_at parts y = Some RCell) by (apply (cell_kind t x V OK b y C Y)).
  destruct (R y RCell n Ky N) as [->| ->]; [left; apply wf_root; exact W|apply wp_cell].
Qed.
Lemma op_rc_get b s : counter b -> wf s -> op (r <~ g_inner t x ~; f_cell_get b r) s (fun _ s' => see s s').
Proof.
  intros C W. apply op_bind. eapply op_weaken; [|apply op_inner; exact W]. intros r s1 [K R]. pose proof (see_wf _ _ K) as W1.
  eapply op_weaken; [|apply op_cell_get; [exact W1|apply like_wr; assumption]]. intros ? s2 D. eapply see_trans; [exact K|]. apply touch_see. (cbn beta in *; eapply down_touch; eassumption).
Qed.
Lemma op_rc_set b s : counter b -> wf s -> op (r <~ g_inner t x ~; f_cell_set b r) s (fun _ s' => see s s').
Proof.
  intros C W. apply op_bind. eapply op_weaken; [|apply op_inner; exact W]. intros r s1 [K R]. pose proof (see_wf _ _ K) as W1.
  eapply op_weaken; [|apply op_cell_set; [exact W1|apply like_wr; assumption]]. intros ? s2 D. eapply see_trans; [exact K|]. apply touch_see. (cbn beta in *; eapply down_touch; eassumption).
Qed.
Lemma c_s : counter (q_strong t x). Proof. left. reflexivity. Qed.
Lemma c_w : counter (q_weak t x). Proof. right. reflexivity. Qed.

Lemma op_strong s : wf s -> op (g_strong_count t x) s (fun _ s' => see s s').
Proof. apply op_rc_get, c_s. Qed.
Lemma op_weak s : wf s -> op (g_weak_count t x) s (fun _ s' => see s s').
Proof. apply op_rc_get, c_w. Qed.
Lemma op_set_strong s : wf s -> op (g_set_strong t x) s (fun _ s' => see s s').
Proof. intros W. unfold g_set_strong. apply see_seq; [apply op_strong; exact W|]. intros ? s1 K. apply op_rc_set; [apply c_s|(cbn beta in *; eapply see_wf; eassumption)]. Qed.
Lemma op_set_weak s : wf s -> op (g_set_weak t x) s (fun _ s' => see s s').
Proof. intros W. unfold g_set_weak. apply see_seq; [apply op_weak; exact W|]. intros ? s1 K. apply op_rc_set; [apply c_w|(cbn beta in *; eapply see_wf; eassumption)]. Qed.
Lemma op_see_ret {A} (a : A) s : wf s -> op (fret a) s (fun _ s' => see s s').
Proof. intros W. apply op_ret. apply see_refl. exact W. Qed.
Lemma op_is_unique n s : wf s -> op (g_is_unique t x n) s (fun _ s' => see s s').
Proof.
  intros W. unfold g_is_unique. apply see_seq; [apply op_strong; exact W|]. intros ? s1 K. apply see_wf in K. destruct (Nat.eqb n 1); [apply op_weak; exact K|apply op_see_ret; exact K].
Qed.
Lemma op_deref s : wf s -> op (g_deref t x) s (fun n s' => see s s' /\ (fresh_tag s <= n)%nat /\ ref_like (q_refs x) n s').
Proof.
  intros W. unfold g_deref. apply op_bind. eapply op_weaken; [|apply op_inner; exact W]. intros r s1 [K R]. eapply op_weaken; [|apply (op_ref (q_refs x) r s1 (see_wf _ _ K) (or_intror eq_refl) (ref_like_refs _ _ R))].
  intros n s2 (K' & -> & R'). split; [(cbn beta in *; eapply see_trans; eassumption)|]. split; [|exact R']. apply (s_fresh _ _ _ (proj1 K)).
Qed.

(** a unique reference from the root *)
Definition excl (s : forest) (n : nat) (s' : forest) : Prop := step (in_block (q_all t x)) s s' /\ (fresh_tag s <= n)%nat /\ wr s' n val.
Lemma op_mut im kd s : wf s -> kd <> RShared -> op (f_one im kd (q_val x) (q_base x)) s (excl s).
Proof.
  intros W N. destruct kd; [|congruence|].
  - eapply op_weaken; [|apply (op_unique im (q_base x) [q_val x] s W); [discriminate|apply root_wr; exact W]]. cbn beta. intros n s' (D & K & P & _). split; [|split].
    + eapply step_more; [|apply D]. intros y Y. apply in_any_one in Y. apply (val_all t x V OK). exact Y.
    + apply K.
    + eapply (kid_wr (q_base x) (in_any [q_val x]) s); eauto; [intros y; rewrite P; apply wp_res|apply root_wr; exact W].
  - eapply op_weaken; [|apply (op_one (q_base x) (q_val x) im s W (root_lt s W))]. intros n s' C. split; [|split].
    + eapply step_more; [|apply (c_down _ _ _ _ C)]. intros y [].
    + apply (c_new _ _ _ _ C).
    + eapply chain_wr; [exact C|apply root_wr; exact W].
Qed.
Lemma mut_not_shared u : mut_kind u <> RShared.
Proof. unfold mut_kind. destruct u; discriminate. Qed.
Lemma see_excl s s1 n s' : see s s1 -> excl s1 n s' -> excl s n s'.
Proof. intros [K _] (E & L & Wr). pose proof (s_fresh _ _ _ K). split; [(cbn beta in *; eapply step_trans; eassumption)|]. split; [lia|exact Wr]. Qed.

Lemma op_get_mut st wk s : wf s -> op (g_get_mut t x st wk) s (fun r s' =>
  if Nat.eqb st 1 && Nat.eqb wk 1 then exists n, r = Some n /\ excl s n s' else r = None /\ see s s').
Proof.
  intros W. unfold g_get_mut. apply op_bind. eapply op_weaken; [|apply op_is_unique; exact W]. intros ? s1 K. destruct (Nat.eqb st 1 && Nat.eqb wk 1).
  - apply op_bind. eapply op_weaken; [|apply op_mut; [(cbn beta in *; eapply see_wf; eassumption)|apply mut_not_shared]]. intros n s2 E. apply op_ret. exists n. split; [reflexivity|]. (cbn beta in *; eapply see_excl; eassumption).
  - apply op_ret. auto.
Qed.
Lemma op_drop st s : wf s -> op (g_drop t x st) s (fun r s' => if Nat.eqb st 1 then exists n, r = Some n /\ excl s n s' else r = None /\ see s s').
Proof.
  intros W. unfold g_drop. apply op_bind. eapply op_weaken; [|apply op_set_strong; exact W]. intros ? s1 K1. apply op_bind. eapply op_weaken; [|apply op_strong; (cbn beta in *; eapply see_wf; eassumption)]. intros ? s2 K2.
  pose proof (see_trans _ _ _ K1 K2) as K. destruct (Nat.eqb st 1).
  - apply op_bind. eapply op_weaken; [|apply op_set_weak; (cbn beta in *; eapply see_wf; eassumption)]. intros ? s3 K3. pose proof (see_trans _ _ _ K K3) as K'.
    apply op_bind. eapply op_weaken; [|apply op_mut; [(cbn beta in *; eapply see_wf; eassumption)|apply mut_not_shared]]. intros n s4 E. apply op_ret. exists n. split; [reflexivity|]. (cbn beta in *; eapply see_excl; eassumption).
  - apply op_ret. auto.
Qed.
Lemma op_read_val s : wf s -> op (f_access false (q_base x) (q_val x)) s (fun _ s' => see s s').
Proof.
  intros W. unfold op, f_access. destruct (access_can false (q_base x) (q_val x) s (root_wr s _ W)) as [r E]. rewrite E. split.
  - eapply step_more; [|apply (access_step false (q_base x) (q_val x) s r W (root_lt s W) E)]. apply (val_all t x V OK).
  - intros y n _ _ P. eapply access_frozen; eauto.
Qed.
Lemma op_try_unwrap st s : wf s -> op (g_try_unwrap t x st) s (fun _ s' => see s s').
Proof.
  intros W. unfold g_try_unwrap. apply see_seq; [apply op_strong; exact W|]. intros ? s1 K. apply see_wf in K. destruct (Nat.eqb st 1); [|apply op_see_ret; exact K].
  apply see_seq; [apply op_set_strong; exact K|]. intros ? s2 K2. apply op_read_val. (cbn beta in *; eapply see_wf; eassumption).
Qed.

(** *** Weak *)
Lemma op_gw_cell b s : wf s -> op (gw_cell x b) s (chain (q_base x) s).
Proof. intros W. unfold gw_cell. apply chain_bind; [apply op_one; [exact W|apply root_lt; exact W]|]. intros n s' C. apply op_one; [eapply chain_wf; eauto|apply (c_new _ _ _ _ C)]. Qed.
Lemma op_gw_count b s : counter b -> wf s -> op (gw_count x b) s (fun _ s' => touch s s').
Proof.
  intros C W. unfold gw_count. eapply op_weaken; [|apply (via0 (q_base x) s (gw_cell x b) _ (in_block b)); [apply op_gw_cell; exact W|]].
  - intros ? s' D. (cbn beta in *; eapply down_touch; eassumption).
  - intros n s' Ch. apply op_cell_get; [eapply chain_wf; eauto|]. eapply chain_wr; [exact Ch|apply root_wr; exact W].
Qed.
Lemma op_gw_set s : wf s -> op (gw_set t x) s (fun _ s' => touch s s').
Proof.
  intros W. unfold gw_set. apply touch_seq; [apply op_gw_count; [apply c_w|exact W]|]. intros ? s1 K. pose proof (touch_wf _ _ K) as W1.
  eapply op_weaken; [|apply (via0 (q_base x) s1 (gw_cell x (q_weak t x)) _ (in_block (q_weak t x))); [apply op_gw_cell; exact W1|]].
  - intros ? s' D. eapply down_touch; [apply c_w|exact D].
  - intros n s' Ch. apply op_cell_set; [eapply chain_wf; eauto|]. eapply chain_wr; [exact Ch|apply root_wr; exact W1].
Qed.
Lemma op_gw_upgrade st s : wf s -> op (gw_upgrade t x st) s (fun _ s' => if Nat.eqb st 0 then touch s s' else see s s').
Proof.
  intros W. unfold gw_upgrade. apply op_bind. eapply op_weaken; [|apply op_gw_count; [apply c_s|exact W]]. intros ? s1 K. destruct (Nat.eqb st 0); [apply op_ret; exact K|].
  eapply op_weaken; [|apply op_set_strong; (cbn beta in *; eapply touch_wf; eassumption)]. intros ? s2 K2. eapply see_trans; [apply touch_see; exact K|exact K2].
Qed.
Lemma op_touch_ret {A} (a : A) s : wf s -> op (fret a) s (fun _ s' => touch s s').
Proof. intros W. apply op_ret. apply step_refl. exact W. Qed.
Lemma op_gw_try st wk s : wf s -> op (gw_try_unwrap t x st wk) s (fun _ s' => touch s s').
Proof.
  intros W. unfold gw_try_unwrap. apply touch_seq; [apply op_gw_count; [apply c_s|exact W]|]. intros ? s1 K1. apply touch_wf in K1. destruct (Nat.eqb st 0); [|apply op_touch_ret; exact K1].
  apply touch_seq; [apply op_gw_count; [apply c_w|exact K1]|]. intros ? s2 K2. apply touch_wf in K2. destruct (Nat.eqb wk 1); [apply op_gw_set; exact K2|apply op_touch_ret; exact K2].
Qed.

(** *** [Rc::new] *)
Lemma op_new s : wf s -> op (g_new t x) s (fun _ s' => step (in_block (q_all t x)) s s').
Proof.
  intros W. unfold g_new. apply op_bind. eapply op_weaken; [|apply (op_access true (q_base x) (q_all t x) s W); apply root_wr; exact W]. intros ? s1 (K1 & _). pose proof (s_wf _ _ _ K1) as W1.
  apply op_bind. eapply op_weaken with (Q := fun _ s2 => step (in_block (q_all t x)) s1 s2).
  - intros n s2 K2. apply op_ret. (cbn beta in *; eapply step_trans; eassumption).
  - pose proof (mut_not_shared (q_unpin (q_ty x))) as N. destruct (mut_kind (q_unpin (q_ty x))); [|congruence|].
    + eapply op_weaken; [|apply (op_unique true (q_base x) [q_all t x] s1 W1); [discriminate|apply root_wr; exact W1]]. cbn beta. intros n s2 ((K & _) & _). eapply step_more; [|exact K]. intros y Y. apply in_any_one in Y. exact Y.
    + eapply op_weaken; [|apply (op_one (q_base x) (q_all t x) true s1 W1 (root_lt s1 W1))]. intros n s2 C. eapply step_more; [|apply (c_down _ _ _ _ C)]. intros y [].
Qed.
End Box.
