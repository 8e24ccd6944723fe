(** * RBorrowCalls: the methods of Rc and Weak on a box. *)
From Verif Require Import Base Spec BaseFacts SyncModel SyncSpec RcModel RcProofs RcMemProofs BorrowModel BorrowSpec BorrowProofs BorrowState BorrowWorld UBorrowModel RBorrowModel RBorrowSpec RBorrowBytes RBorrowOps.

Lemma find_app {A} (f : A -> bool) l1 l2 : find f (l1 ++ l2) = match find f l1 with Some a => Some a | None => find f l2 end.
Proof. induction l1 as [|a l1 IH]; [reflexivity|]. cbn [app find]. destruct (f a); [reflexivity|exact IH]. Qed.
Lemma kind_app l1 l2 y : kind_at (l1 ++ l2) y = match kind_at l1 y with Some k => Some k | None => kind_at l2 y end.
Proof. unfold kind_at. rewrite find_app. destruct (find _ l1); reflexivity. Qed.
Lemma kind_in l y kd : kind_at l y = Some kd -> exists b, In (kd, b) l /\ in_block b y.
Proof.
  unfold kind_at. destruct (find _ l) as [[k b]|] eqn:E; [|discriminate]. intros [= ->]. apply find_some in E. destruct E as [I X]. exists b. split; [exact I|]. apply inb_iff. exact X.
Qed.
Lemma kind_none l y : (forall kd b, In (kd, b) l -> ~ in_block b y) -> kind_at l y = None.
Proof. intros H. destruct (kind_at l y) as [kd|] eqn:E; [|reflexivity]. apply kind_in in E. destruct E as (b & I & X). exfalso. eapply H; eauto. Qed.

Lemma apart_app a b : apart a = true -> apart b = true -> (forall p q, In p a -> In q b -> start (snd p) + size (snd p) <= start (snd q)) -> apart (a ++ b) = true.
Proof.
  induction a as [|[k p] a IH]; [auto|]. cbn [app apart]. rewrite !andb_true_iff. intros [A1 A2] B C. split.
  - rewrite forallb_app, A1. cbn [andb]. apply forallb_forall. intros q Q. apply Z.leb_le. apply (C (k, p) q); [left; reflexivity|exact Q].
  - apply IH; auto. intros p' q' P Q. apply C; [right; exact P|exact Q].
Qed.

Definition act_owned (owner : Z -> option nat) (blk : block) : Prop := forall y, in_block blk y -> exists b, owner y = Some b.

Section Act.
Variables (owner : Z -> option nat) (c : list nat).

(** An access with a tag of the client *)
Lemma act_sim K cs s o a : sinv owner K cs s -> act_ok o a = true -> In (act_tag a) K -> act_owned owner (oblk o) -> (forall y, in_block (oblk o) y -> ~ cs y) ->
  match act_stk c a (nexttag s) (stk s) with
  | Some k' => let s' := MkB k' (next_after a (nexttag s)) in let K' := tags_after a (nexttag s) K in
      sinv owner K' cs s' /\ does (act_at c a (nexttag s)) (absf K s) (Some (absf K' s'))
  | None => does (act_at c a (nexttag s)) (absf K s) None
  end.
Proof.
  intros H A T O NC. pose proof (act_does c o a (nexttag s) (stk s) A) as D.
  refine (lift owner K (tags_after a (nexttag s) K) cs (next_after a (nexttag s)) s _ _ _ H D _ _ _ _ _).
  - destruct a; cbn; lia.
  - destruct a; cbn; auto.
  - auto.
  - intros y Cy. destruct (act_at c a (nexttag s) y) eqn:E; [|reflexivity]. exfalso. apply (NC y); [eapply act_inside; eauto|exact Cy].
  - intros y f E. pose proof (act_inside c o a _ y f A E) as Iy. destruct (O y Iy) as (b & Ob). exists b. split; [exact Ob|]. rewrite E.
    destruct (s_W _ _ _ _ y b H Ob) as (X & Lb & Ib). unfold act_at in E. destruct a as [t bl|t bl|t parts p]; cbn [act_tag] in T; cbn [tags_after next_after].
    + destruct (inb bl y); [|discriminate]. injection E as <-. pose proof (mine_read c _ K b (stk s y) t X T) as Y. destruct (sb_read c t (stk s y)); [exact Y|eauto].
    + destruct (inb bl y); [|discriminate]. injection E as <-. pose proof (mine_write c _ K b (stk s y) t X T) as Y. destruct (sb_write c t (stk s y)); [tauto|eauto].
    + destruct (find _ parts) as [[kd bl]|]; [|discriminate]. injection E as <-. pose proof (mine_retag c _ K b (stk s y) kd t p X T Lb) as Y.
      destruct (sb_retag c kd t (nexttag s) p (stk s y)); [exact Y|eauto].
Qed.
End Act.

Lemma within_true a b : start b <= start a -> start a + size a <= start b + size b -> (start b <=? start a) && (start a + size a <=? start b + size b) = true.
Proof. intros. apply andb_true_iff. split; apply Z.leb_le; lia. Qed.

Section Box.
Variables (t : target) (x : qbox).
Hypotheses (V : valid_target t) (OK : qtype_ok t (q_ty x)).
Let base := q_base x.
Let parts := q_refs x ++ [(RCell, q_strong t x); (RCell, q_weak t x)].

Lemma q_offs : 0 <= lsize (q_lay (q_ty x)) <= rc_strong_off t (q_lay (q_ty x)) /\
  rc_strong_off t (q_lay (q_ty x)) + word_bytes t <= rc_weak_off t (q_lay (q_ty x)) /\
  rc_weak_off t (q_lay (q_ty x)) + word_bytes t <= lsize (rc_layout t (q_lay (q_ty x))) /\ 0 < word_bytes t.
Proof. apply offs; [exact V|apply OK]. Qed.

Lemma refs_in kd b : In (kd, b) (q_refs x) -> kd <> RUnique /\ start (q_val x) <= start b /\ start b + size b <= start (q_val x) + size (q_val x) /\ 0 <= size b.
Proof.
  unfold q_refs. intros H. apply in_map_iff in H. destruct H as (p & E & I). injection E as <- <-. destruct OK as (_ & _ & P & _). specialize (P p I).
  unfold q_val. cbn [start size]. split; [destruct (fst p); discriminate|lia].
Qed.
Lemma refs_val y kd : kind_at (q_refs x) y = Some kd -> in_block (q_val x) y /\ kd <> RUnique.
Proof. intros E. apply kind_in in E. destruct E as (b & I & X). apply refs_in in I. unfold in_block in *. split; [lia|tauto]. Qed.
Lemma val_all y : in_block (q_val x) y -> in_block (q_all t x) y.
Proof. pose proof q_offs as O. unfold in_block, q_val, q_all. cbn [start size]. lia. Qed.
Lemma strong_all y : in_block (q_strong t x) y -> in_block (q_all t x) y /\ ~ in_block (q_val x) y.
Proof. pose proof q_offs as O. unfold in_block, q_val, q_all, q_strong. cbn [start size]. lia. Qed.
Lemma weak_all y : in_block (q_weak t x) y -> in_block (q_all t x) y /\ ~ in_block (q_val x) y.
Proof. pose proof q_offs as O. unfold in_block, q_val, q_all, q_weak. cbn [start size]. lia. Qed.
Lemma strong_not_weak y : in_block (q_strong t x) y -> ~ in_block (q_weak t x) y.
Proof. pose proof q_offs as O. unfold in_block, q_strong, q_weak. cbn [start size]. lia. Qed.

Lemma refs_apart : apart (q_refs x) = true.
Proof.
  destruct OK as (_ & _ & _ & A & _). unfold q_refs. induction (q_parts (q_ty x)) as [|p l IH]; [reflexivity|]. cbn [map apart] in *. apply andb_true_iff in A. destruct A as [A1 A2].
  apply andb_true_iff. split; [|apply IH; exact A2]. apply forallb_forall. intros q Q. apply in_map_iff in Q. destruct Q as (p' & <- & I). rewrite forallb_forall in A1.
  specialize (A1 (RShared, snd p') (in_map (fun p => (RShared, snd p)) l p' I)). cbn [snd start size] in *. apply Z.leb_le in A1. apply Z.leb_le. lia.
Qed.
Lemma parts_apart : apart parts = true.
Proof.
  pose proof q_offs as O. apply apart_app; [apply refs_apart| |].
  - cbn [apart forallb snd]. rewrite andb_true_r. unfold q_strong, q_weak. cbn [start size]. rewrite andb_true_r. apply Z.leb_le. lia.
  - intros [k p] q P Q. apply refs_in in P. unfold q_val in P. cbn [start size snd] in *. destruct Q as [<-|[<-|[]]]; unfold q_strong, q_weak; cbn [start snd]; lia.
Qed.
Lemma parts_kind y kd : kind_at parts y = Some kd -> in_block (q_all t x) y /\ kd <> RUnique.
Proof.
  unfold parts. rewrite kind_app. destruct (kind_at (q_refs x) y) as [k|] eqn:E.
  - intros [= ->]. apply refs_val in E. split; [apply val_all|]; tauto.
  - intros X. apply kind_in in X. destruct X as (b & I & Y). destruct I as [[= <- <-]|[[= <- <-]|[]]]; (split; [|discriminate]); [apply strong_all|apply weak_all]; exact Y.
Qed.
Variables (owner : Z -> option nat) (c : list nat) (K : list nat) (cs : Z -> Prop).
Hypotheses (OW : forall y, in_block (q_all t x) y -> owner y = Some (q_base x))
  (CS : forall y, in_block (q_strong t x) y \/ in_block (q_weak t x) y -> cs y) (NC : forall y, in_block (q_val x) y -> ~ cs y).
Lemma parts_owned : owned owner parts base.
Proof. intros y kd E. apply OW. apply (parts_kind y kd E). Qed.
Lemma refs_owned : owned owner (q_refs x) base.
Proof. intros y kd E. apply OW. apply val_all. apply (refs_val y kd E). Qed.
Lemma cell_owned b : b = q_strong t x \/ b = q_weak t x -> owned owner [(RCell, b)] base.
Proof.
  intros E y kd X. apply OW. rewrite kind_one in X. destruct (inb b y) eqn:I; [|discriminate]. apply inb_iff in I. destruct E as [-> | ->]; [apply strong_all|apply weak_all]; exact I.
Qed.
Lemma cell_cs b : b = q_strong t x \/ b = q_weak t x -> forall y, in_block b y -> cs y.
Proof. intros [-> | ->] y Y; apply CS; auto. Qed.
Lemma cell_kind b y : b = q_strong t x \/ b = q_weak t x -> in_block b y -> kind_at parts y = Some RCell.
Proof.
  intros E Y. unfold parts. rewrite kind_app. destruct (kind_at (q_refs x) y) as [k|] eqn:F.
  - exfalso. apply refs_val in F. destruct F as [F _]. destruct E as [-> | ->]; [apply strong_all in Y|apply weak_all in Y]; tauto.
  - unfold kind_at. cbn [find snd]. destruct (inb (q_strong t x) y) eqn:S; [reflexivity|]. destruct (inb (q_weak t x) y) eqn:Wk; [reflexivity|].
    exfalso. destruct E as [-> | ->]; apply inb_iff in Y; congruence.
Qed.
Lemma refd_cell b r s : b = q_strong t x \/ b = q_weak t x -> refd parts base r s -> refd [(RCell, b)] base r s.
Proof. intros E H y kd. rewrite kind_one. destruct (inb b y) eqn:I; [|discriminate]. intros [= <-]. apply inb_iff in I. apply (H y RCell). eapply cell_kind; eauto. Qed.
Lemma refd_refs r s : refd parts base r s -> refd (q_refs x) base r s.
Proof. intros H y kd E. apply H. unfold parts. rewrite kind_app, E. reflexivity. Qed.
Lemma look_parts y : look_of c base parts y = look_of c base (q_refs x) y.
Proof.
  unfold look_of, parts. rewrite kind_app. destruct (kind_at (q_refs x) y); [reflexivity|].
  unfold kind_at. cbn [find snd]. destruct (inb (q_strong t x) y); [reflexivity|]. destruct (inb (q_weak t x) y); reflexivity.
Qed.

Notation LK := (look_of c (q_base x) (q_refs x)).
Notation looks' := (looks owner K cs).

Lemma inner_looks s : sinv owner K cs s -> looks' LK (rb_inner c t x) s (fun r s' => refd parts base r s').
Proof.
  intros H. unfold rb_inner. cbv zeta. fold parts. fold base. eapply looks_after with (P := fun r s' => refd parts base r s').
  - assert (L := lib_base owner c K cs parts base s H parts_apart parts_owned).
    assert (L' : looks' (look_of c base parts) (m_retag c base parts) s (fun r s' => refd parts base r s')).
    { apply L; [intros y E; apply parts_kind in E; tauto|]. intros y Cy E. unfold parts in E. rewrite kind_app in E. destruct (kind_at (q_refs x) y) as [k|] eqn:F.
      - apply refs_val in F. apply (NC y); tauto.
      - apply kind_in in E. destruct E as (b & [[=]|[[=]|[]]] & _). }
    unfold looks in *. destruct (m_retag c base parts s) as [[r s']|].
    + destruct L' as (L1 & L2 & L3 & L4). split; [exact L1|]. split; [exact L2|]. split; [|exact L4]. eapply does_ext; [|exact L3]. intros; symmetry; apply look_parts.
    + eapply does_ext; [|exact L']. intros; symmetry; apply look_parts.
  - intros r s' H1 _ R1. apply lib_from; [exact H1|apply parts_apart|apply parts_owned|exact R1].
Qed.

Lemma count_looks b s : b = q_strong t x \/ b = q_weak t x -> sinv owner K cs s -> looks' LK (r <- rb_inner c t x ;; cell_get c b r) s (fun _ _ => True).
Proof.
  intros E H. eapply looks_after; [apply inner_looks; exact H|]. intros r s' H1 _ R1. eapply run_get with (base := base); [exact H1|apply cell_owned; exact E|apply cell_cs; exact E|apply refd_cell; auto].
Qed.
Lemma strong_looks s : sinv owner K cs s -> looks' LK (rb_strong_count c t x) s (fun _ _ => True).
Proof. apply count_looks. auto. Qed.
Lemma weak_looks s : sinv owner K cs s -> looks' LK (rb_weak_count c t x) s (fun _ _ => True).
Proof. apply count_looks. auto. Qed.
Lemma set_looks b s : b = q_strong t x \/ b = q_weak t x -> sinv owner K cs s -> looks' LK (r <- rb_inner c t x ;; cell_set c b r) s (fun _ _ => True).
Proof.
  intros E H. eapply looks_after; [apply inner_looks; exact H|]. intros r s' H1 _ R1. eapply run_set with (base := base); [exact H1|apply cell_owned; exact E|apply cell_cs; exact E|apply refd_cell; auto].
Qed.
Lemma set_strong_looks s : sinv owner K cs s -> looks' LK (rb_set_strong c t x) s (fun _ _ => True).
Proof. intros H. eapply looks_bind; [apply look_idem|apply strong_looks; exact H|]. intros _ s' H1 _ _. apply set_looks; auto. Qed.
Lemma set_weak_looks s : sinv owner K cs s -> looks' LK (rb_set_weak c t x) s (fun _ _ => True).
Proof. intros H. eapply looks_bind; [apply look_idem|apply weak_looks; exact H|]. intros _ s' H1 _ _. apply set_looks; auto. Qed.
Lemma unique_looks n s : sinv owner K cs s -> looks' LK (rb_is_unique c t x n) s (fun _ _ => True).
Proof.
  intros H. unfold rb_is_unique. destruct (Nat.eqb n 1).
  - eapply looks_bind; [apply look_idem|apply strong_looks; exact H|]. intros _ s' H1 _ _. apply weak_looks; exact H1.
  - eapply looks_after; [apply strong_looks; exact H|]. intros _ s' H1 _ _. apply looks_ret; auto.
Qed.

(** *** Weak *)
Lemma wk_cell_runs b s : b = q_strong t x \/ b = q_weak t x -> sinv owner K cs s -> looks' none_at (wk_cell c x b) s (fun r s' => refd [(RCell, b)] base r s').
Proof.
  intros E H. unfold wk_cell. eapply looks_after; [apply run_base; [exact H|apply cell_owned; exact E]|]. intros r s' H1 _ R1. apply run_from; [exact H1|apply cell_owned; exact E|exact R1].
Qed.
Lemma wk_count_runs b s : b = q_strong t x \/ b = q_weak t x -> sinv owner K cs s -> looks' none_at (wk_count c x b) s (fun _ _ => True).
Proof.
  intros E H. unfold wk_count. eapply looks_after; [apply wk_cell_runs; eauto|]. intros r s' H1 _ R1. eapply run_get with (base := base); [exact H1|apply cell_owned; exact E|apply cell_cs; exact E|exact R1].
Qed.
Lemma wk_set_runs s : sinv owner K cs s -> looks' none_at (wk_set c t x) s (fun _ _ => True).
Proof.
  intros H. unfold wk_set. eapply looks_after; [apply wk_count_runs; auto|]. intros _ s1 H1 _ _. eapply looks_after; [apply wk_cell_runs; auto|]. intros r s' H2 _ R1.
  eapply run_set with (base := base); [exact H2|apply cell_owned; auto|apply cell_cs; auto|exact R1].
Qed.
Lemma wk_upgrade_runs n s : sinv owner K cs s -> looks' (if Nat.eqb n 0 then none_at else LK) (wk_upgrade c t x n) s (fun _ _ => True).
Proof.
  intros H. unfold wk_upgrade. destruct (Nat.eqb n 0).
  - eapply looks_after; [apply wk_count_runs; auto|]. intros _ s' H1 _ _. apply looks_ret; auto.
  - eapply looks_before; [apply wk_count_runs; auto|]. intros _ s' H1 _ _. apply set_strong_looks. exact H1.
Qed.
Lemma wk_try_runs st wk s : sinv owner K cs s -> looks' none_at (wk_try_unwrap c t x st wk) s (fun _ _ => True).
Proof.
  intros H. unfold wk_try_unwrap. eapply looks_after; [apply wk_count_runs; auto|]. intros _ s1 H1 _ _. destruct (Nat.eqb st 0); [|apply looks_ret; auto].
  eapply looks_after; [apply wk_count_runs; auto|]. intros _ s2 H2 _ _. destruct (Nat.eqb wk 1); [apply wk_set_runs; exact H2|apply looks_ret; auto].
Qed.

(** *** New references to the value *)
Definition ref_at (n : nat) (y : Z) : option (stack -> option stack) :=
  match kind_at (q_refs x) y with Some kd => Some (sb_retag c kd base n None) | None => None end.

Lemma deref_sim s : sinv owner K cs s ->
  match rb_deref c t x s with
  | Some (r, s') => (nexttag s <= r)%nat /\ nexttag s' = S r /\ sinv owner (r :: K) cs s' /\ does (ref_at r) (absf K s) (Some (absf (r :: K) s'))
  | None => forall n, does (ref_at n) (absf K s) None
  end.
Proof.
  intros H. unfold rb_deref, mbind. pose proof (inner_looks s H) as L. unfold looks in L. destruct (rb_inner c t x s) as [[r s1]|].
  - destruct L as (H1 & L & D & R1). apply refd_refs in R1. unfold m_retag, m_retag_prot.
    pose proof (retag_does c r (nexttag s1) None (q_refs x) (stk s1) refs_apart) as D1.
    assert (KA : forall y, kind_at (q_refs x) y = match find (fun q : rkind * block => inb (snd q) y) (q_refs x) with Some (kd, _) => Some kd | None => None end).
    { intros y. unfold kind_at. destruct (find _ (q_refs x)) as [[kd b]|]; reflexivity. }
    (* on each byte *)
    assert (By : forall y kd, kind_at (q_refs x) y = Some kd -> exists st', sb_retag c kd r (nexttag s1) None (stk s1 y) = Some st' /\ W (S (nexttag s1)) (nexttag s1 :: K) base st' /\
        sb_retag c kd base (nexttag s1) None (absf K s y) = Some (abs (nexttag s1 :: K) st')).
    { intros y kd E. pose proof (refs_owned y kd E) as Ob. destruct (s_W _ _ _ _ y base H1 Ob) as (X & Lb & Ib). specialize (R1 y kd E). cbn [does] in D. specialize (D y). unfold look_of in D. rewrite E in D.
      destruct kd.
      - apply refs_val in E. tauto.
      - apply (deref_shared c _ K base (stk s1 y) r (absf K s y) X R1 Lb). exact D.
      - unfold absf in D at 1. rewrite <- D. unfold absf. apply (deref_cell c _ K base (stk s1 y) r X Ib R1 Lb). }
    assert (NN : retag_parts c r (nexttag s1) None (q_refs x) (stk s1) <> None).
    { intros E. rewrite E in D1. cbn [does] in D1. destruct D1 as (y & f & F & X). specialize (By y). rewrite KA in By. destruct (find _ (q_refs x)) as [[kd b]|]; [|discriminate].
      injection F as <-. destruct (By kd eq_refl) as (st' & Y & _). congruence. }
    destruct (retag_parts c r (nexttag s1) None (q_refs x) (stk s1)) as [k'|]; [|congruence]. split; [exact L|]. split; [reflexivity|].
    assert (At : forall y, match kind_at (q_refs x) y with Some kd => W (S (nexttag s1)) (nexttag s1 :: K) base (k' y) /\ sb_retag c kd base (nexttag s1) None (absf K s y) = Some (abs (nexttag s1 :: K) (k' y))
                                             | None => k' y = stk s1 y end).
    { intros y. cbn [does] in D1. specialize (D1 y). specialize (By y). rewrite KA in *. destruct (find _ (q_refs x)) as [[kd b]|]; [|exact D1].
      destruct (By kd eq_refl) as (st' & Y & Z1 & Z2). rewrite Y in D1. injection D1 as <-. auto. }
    assert (Keep : forall y, abs (nexttag s1 :: K) (stk s1 y) = abs K (stk s1 y)).
    { intros y. apply filter_new. destruct (owner y) as [b|] eqn:E; [eapply W_lt; apply (s_W _ _ _ _ y b H1 E)|]. pose proof (s_bytes _ _ _ _ H1 y) as X. rewrite E in X. rewrite X. constructor. }
    split; [constructor; cbn [stk nexttag]|].
    + intros y. specialize (At y). destruct (kind_at (q_refs x) y) as [kd|] eqn:E.
      * rewrite (refs_owned y kd E). apply At.
      * rewrite At. pose proof (s_bytes _ _ _ _ H1 y) as X. destruct (owner y); [apply W_new; exact X|exact X].
    + intros y b E. right. apply (s_base _ _ _ _ H1 y b E).
    + constructor; [lia|]. eapply Forall_impl; [|apply (s_K _ _ _ _ H1)]. cbv beta. lia.
    + intros y Cy. specialize (At y). destruct (kind_at (q_refs x) y) as [kd|] eqn:E; [exfalso; apply (NC y); [apply (refs_val y kd E)|exact Cy]|].
      rewrite At. eapply cnt_same; [symmetry; apply Keep|]. apply (s_cnt _ _ _ _ H1 y Cy).
    + intros y. specialize (At y). unfold ref_at. destruct (kind_at (q_refs x) y) as [kd|] eqn:E.
      * unfold absf at 2. cbn [stk]. apply At.
      * unfold absf at 1. cbn [stk]. rewrite At, Keep. cbn [does] in D. specialize (D y). unfold look_of in D. rewrite E in D. exact D.
  - intros n. destruct L as (y & f & E & X). unfold look_of in E. exists y. unfold ref_at. destruct (kind_at (q_refs x) y) as [[]|]; try discriminate. injection E as <-. eexists. split; [reflexivity|].
    unfold sb_retag. fold base in X. rewrite X. reflexivity.
Qed.

(** *** Accesses through the pointer of the memory *)
Lemma val_owned : act_owned owner (q_val x).
Proof. intros y Y. exists (q_base x). apply OW. apply val_all. exact Y. Qed.
Lemma act_ok_mut p : act_ok (MkO (q_val x) [base]) (CRetag base [(mut_kind (q_unpin (q_ty x)), q_val x)] p) = true.
Proof. unfold act_ok. cbn [oblk otags existsb forallb snd apart]. rewrite Nat.eqb_refl, within_true by lia. reflexivity. Qed.
Lemma act_ok_read : act_ok (MkO (q_val x) [base]) (CRead base (q_val x)) = true.
Proof. unfold act_ok. cbn [oblk otags existsb]. rewrite Nat.eqb_refl, within_true by lia. reflexivity. Qed.
End Box.

(** *** [Rc::new] *)
Lemma act_ok_write t x : act_ok (MkO (q_all t x) [q_base x]) (CWrite (q_base x) (q_all t x)) = true.
Proof. unfold act_ok. cbn [oblk otags existsb]. rewrite Nat.eqb_refl, within_true by lia. reflexivity. Qed.

Lemma new_sim owner c t x K cs s (kd := mut_kind (q_unpin (q_ty x))) : (forall y, in_block (q_all t x) y -> owner y = Some (q_base x)) -> In (q_base x) K -> (forall y, in_block (q_all t x) y -> ~ cs y) -> sinv owner K cs s ->
  match rb_new c t x s with
  | Some (_, s') => (nexttag s <= nexttag s')%nat /\ sinv owner K (fun y => cs y \/ in_block (q_all t x) y) s' /\ does (act_at c (CWrite (q_base x) (q_all t x)) 0) (absf K s) (Some (absf K s'))
  | None => does (act_at c (CWrite (q_base x) (q_all t x)) 0) (absf K s) None
  end.
Proof.
  intros OW IK NC H. unfold rb_new, mbind, m_write. fold kd.
  assert (Ob : act_owned owner (q_all t x)) by (intros y Y; eexists; apply OW; exact Y).
  pose proof (act_sim owner c K cs s (MkO (q_all t x) [q_base x]) (CWrite (q_base x) (q_all t x)) H (act_ok_write t x) IK Ob NC) as A. cbn [act_stk tags_after next_after] in A.
  pose proof (on_block_spec (q_all t x) (sb_write c (q_base x)) (stk s)) as Sp.
  destruct (on_block (q_all t x) (sb_write c (q_base x)) (stk s)) as [k1|]; [|exact A]. destruct A as [H1 D1]. specialize (Sp k1 eq_refl). set (s1 := MkB k1 (nexttag s)) in *.
  pose proof (s_fresh _ _ _ _ H1) as Fr.
  assert (Nk : kd <> RShared) by (unfold kd, mut_kind; destruct (q_unpin (q_ty x)); discriminate).
  assert (L : looks owner K cs none_at (one c kd (q_all t x) (q_base x)) s1 (fun r s' => forall y kd', kind_at [(kd, q_all t x)] y = Some kd' -> cnt K (stk s' y))).
  { unfold one. apply (retag_looks owner c K cs none_at [(kd, q_all t x)] (q_base x) s1 (fun r st' kd' => cnt K st') H1 eq_refl).
    - reflexivity.
    - reflexivity.
    - intros y kd'. rewrite kind_one. destruct (inb (q_all t x) y) eqn:I; [|discriminate]. intros [= <-]. apply inb_iff in I. exists (q_base x). split; [apply OW; exact I|].
      destruct (s_W _ _ _ _ y _ H (OW y I)) as (X & Lb & Ib). destruct (Sp y) as [Sy _]. specialize (Sy I).
      destruct (new_byte c _ K _ (stk s y) (k1 y) (nexttag s1) kd X Ib Sy Nk Lb (Nat.le_refl _) Fr) as (st2 & E2 & W2 & A2 & C2).
      unfold s1 in E2 |- *. cbn [stk nexttag] in E2 |- *. rewrite E2. cbn [none_at]. auto. }
  unfold looks in L. destruct (one c kd (q_all t x) (q_base x) s1) as [[r s2]|]; [|destruct L as (y & f & E & _); discriminate].
  unfold mret. destruct L as (H2 & L2 & D2 & C2). split; [exact L2|]. split.
  - destruct H2 as [A B C D]. constructor; auto. intros y [Cy|Iy]; [auto|]. apply (C2 y kd). rewrite kind_one, (proj2 (inb_iff _ y) Iy). reflexivity.
  - apply (does_post _ _ (absf K s1)); [exact D2|]. exact D1.
Qed.
