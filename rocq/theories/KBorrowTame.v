(** * KBorrowTame: the library's calls on a link, and what they keep. *)
From Verif Require Import Base Spec BaseFacts SyncModel SyncSpec SyncProofs UnsyncModel UnsyncSpec UnsyncProofs ChainModel ChainSpec ChainProofs BorrowModel BorrowSpec BorrowProofs BorrowState BorrowWorld
  UBorrowModel UBorrowSpec UBorrowSub UBorrowCells UBorrowCalls UBorrowReset UBorrowWorld RBorrowPolite KBorrowModel KBorrowLink.

(** ** No new arguments of calls *)
Definition tame {A} (m : M A) : Prop := forall s a s', m s = Some (a, s') -> forall y, prots (stk s y) (stk s' y).

Lemma tame_ret {A} (a : A) : tame (mret a).
Proof. intros s b s' [= <- <-] y. apply prots_refl. Qed.
Lemma tame_bind {A B} (m : M A) (f : A -> M B) : tame m -> (forall a, tame (f a)) -> tame (mbind m f).
Proof.
  intros T F s b s'. unfold mbind. destruct (m s) as [[a s1]|] eqn:E; [|discriminate]. intros E' y. eapply prots_trans; [apply (T _ _ _ E y)|apply (F a _ _ _ E' y)].
Qed.

Lemma read_prots c n st st' : sb_read c n st = Some st' -> prots st st'.
Proof.
  unfold sb_read. destruct (granting false n st) as [[[a g] b]|] eqn:G; [|discriminate]. apply granting_spec in G. destruct G as (-> & _).
  destruct (existsb _ a); [discriminate|]. intros [= <-]. apply prots_disable.
Qed.
Lemma inc_parts g a p k : incompatible g a = (p, k) -> a = p ++ k.
Proof. unfold incompatible. destruct (is_unique g); [intros [= <- <-]; symmetry; apply app_nil_r|]. intros I. apply (split_srw_spec a p k I). Qed.
Lemma write_prots c n st st' : sb_write c n st = Some st' -> prots st st'.
Proof.
  unfold sb_write. destruct (granting true n st) as [[[a g] b]|] eqn:G; [|discriminate]. apply granting_spec in G. destruct G as (-> & _).
  destruct (incompatible g a) as [p k] eqn:I. apply inc_parts in I. subst a. destruct (existsb _ p); [discriminate|]. intros [= <-].
  apply prots_incl. rewrite <- app_assoc. apply incl_appr, incl_refl.
Qed.
(** the new item is an argument of [p] *)
Lemma retag_prots c k n m p st st' : sb_retag c k n m p st = Some st' -> forall i d, In i st' -> iprot i = Some d -> (exists j, In j st /\ iprot j = Some d) \/ p = Some d.
Proof.
  destruct k; cbn [sb_retag].
  - destruct (sb_write c n st) as [s1|] eqn:E; [|discriminate]. intros [= <-] i d [<-|I] P; [right; exact P|left; apply (write_prots _ _ _ _ E i d I P)].
  - destruct (sb_read c n st) as [s1|] eqn:E; [|discriminate]. intros [= <-] i d [<-|I] P; [right; exact P|left; apply (read_prots _ _ _ _ E i d I P)].
  - destruct (granting true n st) as [[[a g] b]|] eqn:G; [|discriminate]. apply granting_spec in G. destruct G as (-> & _).
    destruct (incompatible g a) as [q k] eqn:I. apply inc_parts in I. subst a. intros [= <-] i d Ii P. left. apply in_app_or in Ii.
    destruct Ii as [Ii|[<-|Ii]]; [|discriminate|]; exists i; (split; [|exact P]); rewrite <- app_assoc; apply in_or_app; auto.
Qed.
Lemma retag_prots_none c k n m st st' : sb_retag c k n m None st = Some st' -> prots st st'.
Proof. intros E i d I P. destruct (retag_prots _ _ _ _ _ _ _ E i d I P) as [H|H]; [exact H|discriminate]. Qed.

Lemma on_block_prots b f st st' y : (forall x x', f x = Some x' -> prots x x') -> on_block b f st = Some st' -> prots (st y) (st' y).
Proof.
  intros F E. destruct (on_block_spec _ _ _ _ E y) as [A B]. destruct (inb b y) eqn:I; [apply (F _ _ (A (proj1 (inb_iff _ _) I)))|].
  rewrite B; [apply prots_refl|]. intros K. apply inb_iff in K. congruence.
Qed.
Lemma tame_read c n b : tame (m_read c n b).
Proof.
  intros s a s'. unfold m_read. destruct (on_block b _ (stk s)) as [k|] eqn:E; [|discriminate]. intros [= <- <-] y. cbn [stk]. eapply on_block_prots; [|exact E]. intros; eapply read_prots; eauto.
Qed.
Lemma tame_write c n b : tame (m_write c n b).
Proof.
  intros s a s'. unfold m_write. destruct (on_block b _ (stk s)) as [k|] eqn:E; [|discriminate]. intros [= <- <-] y. cbn [stk]. eapply on_block_prots; [|exact E]. intros; eapply write_prots; eauto.
Qed.
Lemma parts_prots c n m parts y : forall st st', retag_parts c n m None parts st = Some st' -> prots (st y) (st' y).
Proof.
  induction parts as [|[kd b] parts IH]; cbn [retag_parts]; intros st st'; [intros [= <-]; apply prots_refl|].
  destruct (on_block b _ st) as [k|] eqn:E; [|discriminate]. intros E'. eapply prots_trans; [|apply (IH _ _ E')]. eapply on_block_prots; [|exact E]. intros; eapply retag_prots_none; eauto.
Qed.
Lemma tame_retag c n parts : tame (m_retag c n parts).
Proof.
  intros s a s'. unfold m_retag, m_retag_prot. destruct (retag_parts _ _ _ _ _ _) as [k|] eqn:E; [|discriminate]. intros [= <- <-] y. cbn [stk]. eapply parts_prots; eauto.
Qed.

Ltac tame_step :=
  match goal with
  | |- tame (mbind _ _) => apply tame_bind; [|intros]
  | |- tame (mret _) => apply tame_ret
  | |- tame (m_read _ _ _) => apply tame_read
  | |- tame (m_write _ _ _) => apply tame_write
  | |- tame (m_retag _ _ _) => apply tame_retag
  | |- tame (one _ _ _ _) => apply tame_retag
  | |- tame (self_ref _ _ _ _) => apply tame_retag
  | |- tame (if ?b then _ else _) => destruct b
  | |- tame (let (_, _) := ?x in _) => destruct x
  | |- tame (match ?x with _ => _ end) => destruct x
  | |- tame (uc_get _ _ _) => unfold uc_get
  | |- tame (cell_get _ _ _) => unfold cell_get
  | |- tame (cell_set _ _ _) => unfold cell_set
  | |- tame (link_ref _ _ _ _) => apply tame_retag
  | |- tame (lk_as_bump _ _ _ _) => unfold lk_as_bump
  | |- tame (lk_capacity _ _ _) => unfold lk_capacity
  | |- tame (mb_capacity _ _ _ _) => unfold mb_capacity
  | |- tame (mb_level _ _ _ _) => unfold mb_level
  | |- tame (mb_bump _ _ _ _ _ _) => unfold mb_bump
  | |- tame (mb_try_alloc_at _ _ _ _ _ _ _) => unfold mb_try_alloc_at
  | |- tame (mb_alloc_at _ _ _ _ _ _ _) => unfold mb_alloc_at
  | |- tame (mb_bump_box _ _ _ _ _ _) => unfold mb_bump_box
  | |- tame (x_call _ _ _ _ _ _ _ _) => unfold x_call, mb_method
  | |- tame (xuse_block _ _ _ _) => unfold xuse_block, leak_box_from
  end.

Lemma tame_bump_box C t k l u : tame (lk_bump_box C t k l u).
Proof. unfold lk_bump_box. repeat tame_step. Qed.
Lemma tame_capacity C t k : tame (lk_capacity C t k).
Proof. unfold lk_capacity. repeat tame_step. Qed.
Lemma tame_remaining C t k : tame (lk_remaining C t k).
Proof. unfold lk_remaining. repeat tame_step. Qed.
Lemma tame_set_next C t k : tame (lk_set_next C t k).
Proof. unfold lk_set_next. repeat tame_step. Qed.

(** ** The blocks of a link *)
Section Link.
Variables (t : target) (k : link).
Hypothesis (V : valid_target t) (U : uok t (lbump k)).
Let nx := lk_next t k.
Let hd := lk_index t k.
Let st := udata (lbump k).
Let L := lk_all t k.

Lemma word_pos : 0 < word_bytes t.
Proof. destruct V as (A & _). lia. Qed.
Lemma data_size : 0 <= size st.
Proof. destruct U as [(A & B & C) D]. change (storage (slab_of (lbump k))) with st in B. lia. Qed.
Lemma link_next_in : inside nx L.
Proof. pose proof word_pos. pose proof data_size. intros x. unfold in_block, nx, L, lk_next, lk_all. cbn [start size]. fold st. lia. Qed.
Lemma link_index_in : inside hd L.
Proof. pose proof word_pos. pose proof data_size. intros x. unfold in_block, hd, L, lk_index, lk_all. cbn [start size]. fold st. lia. Qed.
Lemma link_data_in : inside st L.
Proof. pose proof word_pos. intros x. unfold in_block, L, lk_all. cbn [start size]. fold st. lia. Qed.
Lemma index_data : disjoint hd st.
Proof. intros x [A B]. unfold in_block, hd, lk_index in *. cbn [start size] in *. fold st in A. lia. Qed.
Lemma next_data : disjoint nx st.
Proof. pose proof word_pos. intros x [A B]. unfold in_block, nx, lk_next in *. cbn [start size] in *. fold st in A. lia. Qed.

(** The bytes where the client has nothing *)
Definition lfree (x : Z) : Prop := in_block (lk_next t k) x \/ in_block (lk_index t k) x \/ (in_block (udata (lbump k)) x /\ start (udata (lbump k)) + uindex (lbump k) <= x).

Lemma over_in cs n b bs : over cs n [b] -> Forall (fun c => inside c b) bs -> over cs n bs.
Proof.
  intros O F c x I X. rewrite Forall_forall in F. apply (O b x); [left; reflexivity|]. apply (F c I). exact X.
Qed.
Lemma over_bump cs n : over cs n [L] -> over cs n [hd; st].
Proof. intros O. apply (over_in cs n L); [exact O|]. apply Forall_cons; [apply link_index_in|]. apply Forall_cons; [apply link_data_in|constructor]. Qed.
Lemma over_next cs n : over cs n [L] -> over cs n [nx].
Proof. intros O. apply (over_in cs n L); [exact O|]. apply Forall_cons; [apply link_next_in|constructor]. Qed.

Section Runs.
Variables (C : list nat) (objs : list iobj).
Hypothesis (pair_ : pairwise disjoint (map iblk objs)) (used_ : forall o x, In o objs -> in_block (iblk o) x -> ~ lfree x).

Lemma run_ref s cs p : holds false cs objs lfree s -> over cs p [L] -> runs false objs lfree (link_ref C t k p) s cs (fresh_over s [L]).
Proof. intros H O. apply run_one; auto. Qed.
Lemma run_as_bump s cs p : holds false cs objs lfree s -> over cs p [L] -> runs false objs lfree (lk_as_bump C t k p) s cs (fresh_over s [hd; st]).
Proof.
  intros H O. unfold lk_as_bump. eapply runs_bind; [apply run_ref; eauto|]. intros n s1 cs1 N1 _ H1 [O1 _].
  eapply runs_weaken; [apply run_self; [apply index_data|exact H1|apply over_bump; exact O1]|]. intros a c n' [A B]. split; [exact A|]. lia.
Qed.
Lemma run_set_next s cs : holds false cs objs lfree s -> over cs 0 [L] -> runs false objs lfree (lk_set_next C t k) s cs (fun _ _ _ => True).
Proof.
  intros H O. unfold lk_set_next. eapply runs_bind; [apply run_ref; eauto|]. intros n s1 cs1 N1 _ H1 [O1 _].
  eapply runs_bind; [apply run_ref; eauto|]. intros n2 s2 cs2 N2 _ H2 [O2 _]. apply run_set; auto; [apply over_next; exact O2|]. intros x X. left. exact X.
Qed.
Lemma index_free x : in_block hd x -> lfree x.
Proof. intros X. right. left. exact X. Qed.
Lemma run_lk_capacity s cs : holds false cs objs lfree s -> over cs 0 [L] -> runs false objs lfree (lk_capacity C t k) s cs (fun _ _ _ => True).
Proof.
  intros H O. unfold lk_capacity. eapply runs_bind; [apply run_ref; eauto|]. intros n s1 cs1 N1 _ H1 [O1 _].
  eapply runs_bind; [apply run_as_bump; eauto|]. intros n2 s2 cs2 N2 _ H2 [O2 _].
  apply (run_mb_capacity C hd st false objs lfree index_data (lbump k) s2 cs2 n2 eq_refl H2 O2).
Qed.
Lemma run_lk_remaining s cs : holds false cs objs lfree s -> over cs 0 [L] -> runs false objs lfree (lk_remaining C t k) s cs (fun lv _ _ => lv = u_level (lbump k)).
Proof.
  intros H O. unfold lk_remaining. eapply runs_bind; [apply run_ref; eauto|]. intros n s1 cs1 N1 I1 H1 [O1 _].
  eapply runs_bind; [apply run_lk_capacity; [exact H1|apply (over_more cs); auto]|]. intros u s2 cs2 N2 I2 H2 _.
  eapply runs_bind; [apply (run_as_bump s2 cs2 n H2); apply (over_more cs1); auto|]. intros n3 s3 cs3 N3 _ H3 [O3 _].
  apply (run_mb_level C hd st false objs lfree index_data index_free (lbump k) s3 cs3 n3 eq_refl H3 O3).
Qed.
End Runs.
End Link.
