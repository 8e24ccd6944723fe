(** * PropsRBorrow: C102: Rc and Weak and the aliasing rules. *)
From Verif Require Import Base Spec BaseFacts SyncModel SyncSpec RcModel RcProofs RcMemProofs BorrowModel BorrowSpec BorrowProofs BorrowState BorrowWorld EBorrowSlot UBorrowModel RBorrowModel RBorrowSpec RBorrowBytes RBorrowOps RBorrowCalls RBorrowWorld RBorrowStep RBorrowPolite.

(** For every program that uses Rcs and Weaks in memories apart from each other, all answers, and if an access is undefined behaviour, are as if
    each value had only the pointer of its memory and the references that the client made: the counters are not in memory, a Weak never
    touches the value, and an Rc only looks at it (outside of UnsafeCells), except for [deref], [get_mut], [try_unwrap] and the drop of the last Rc. *)
Theorem C102_values_are_separate t bs os : valid_target t -> pairwise disjoint bs -> Forall (qop_ok t) os ->
  exists i, jruns t (qideal_new bs) (snd (qrun t (qnew bs) os)) i.
Proof.
  intros V D O. destruct (qrun_sim t _ V os O _ _ (qinv_new t bs D) (dinv_new bs)) as (i & J0 & _). eauto.
Qed.

(** No program that uses references as the borrow checker allows has undefined behaviour. *)
Theorem C102_polite_never_ub t bs os : valid_target t -> pairwise disjoint bs -> Forall (qop_ok t) os -> polite t (qnew bs) (fun _ => MShared []) os ->
  Forall (fun e => snd e <> QUB) (snd (qrun t (qnew bs) os)).
Proof.
  intros V D O P. exact (polite_run t _ V os O _ _ _ (qinv_new t bs D) (dinv_new bs) (pinv_new bs _) P).
Qed.

(** Whatever the client did before, these calls of a Weak are never undefined behaviour (also in the destructor of the value). *)
Theorem C102_weak_never_ub t bs os h m o : valid_target t -> pairwise disjoint bs -> Forall (qop_ok t) os ->
  nth_error (qhandles (fst (qrun t (qnew bs) os))) h = Some (m, HWeak) -> In o [QClone h; QStrong h; QWeak h; QDrop h; QTake h] ->
  snd (qstep t (fst (qrun t (qnew bs) os)) o) <> QUB.
Proof.
  intros V D O H I. destruct (qrun_sim t _ V os O _ _ (qinv_new t bs D) (dinv_new bs)) as (i & _ & Q & DI).
  assert (OK : qop_ok t o) by (cbn in I; destruct I as [<- | [<- | [<- | [<- | [<- | []]]]]]; exact Logic.I).
  destruct (qstep_sim t _ V _ _ o Q DI OK) as (n & i' & _ & J0 & _ & _). revert J0. generalize (snd (qstep t (fst (qrun t (qnew bs) os)) o)). intros r J0 ->.
  assert (HO : handle_of o = Some h) by (cbn in I; destruct I as [<- | [<- | [<- | [<- | [<- | []]]]]]; reflexivity).
  unfold jstep in J0. rewrite HO, (v_handles _ _ _ _ Q), H in J0. destruct (nth_error (j_mems i) m) as [[b base [[ty v]|]]|]; try discriminate.
  cbn in I. destruct I as [<- | [<- | [<- | [<- | [<- | []]]]]]; unfold jcall in J0; try discriminate. destruct (_ && _); discriminate.
Qed.

(** The memory of a value can be taken while its destructor runs (by a Weak, claim C51).  A new Rc in it is undefined behaviour at once, for every type that is Unpin and
    not zero-sized: the destructor's reference is protected. *)
Theorem C102_reuse_in_destructor_ub t b ty ty' : valid_target t -> qtype_ok t ty -> qtype_ok t ty' -> q_unpin ty = true -> 0 < lsize (q_lay ty) ->
  rc_fits t b (q_lay ty) = true -> rc_fits t b (q_lay ty') = true ->
  exists d, map snd (snd (qrun t (qnew [b]) [QNew 0 ty; QDowngrade 0; QDrop 0; QTake 1; QNew 0 ty'])) = [QDone; QDone; QTag d; QDone; QUB].
Proof.
  intros V OK OK' U SZ FT FT'. assert (D : pairwise disjoint [b]) by (intros i j x y N0 X Y; destruct i as [|[]], j as [|[]]; try discriminate; congruence).
  pose proof (qinv_new t [b] D) as Q0. pose proof (dinv_new [b]) as D0. pose proof (pinv_new [b] (fun _ => MShared [])) as P0. set (w0 := qnew [b]) in *. set (ms0 := fun _ : nat => MShared []) in *.
  cbn [qrun].
  destruct (qstep_sim t _ V w0 _ (QNew 0 ty) Q0 D0 OK) as (n1 & i1 & N1 & J1 & Q1 & D1).
  destruct (p_jstep t _ V w0 _ ms0 n1 (QNew 0 ty) _ _ Q0 P0 OK ltac:(intros c h []) N1 J1) as [B1 P1].
  destruct (qstep t w0 (QNew 0 ty)) as [w1 r1]. cbn [fst snd] in *.
  cbn [jstep handle_of qideal_new jmems_new length seq combine map fst snd nth_error j_mems j_busy j_stk] in J1. rewrite FT in J1.
  destruct (on_block _ _ (stacks_new _)) as [k1|]; [|injection J1 as _ <-; congruence]. unfold j_put in J1. cbn [qideal_new jmems_new length seq combine map fst snd j_mems nth_error set_nth j_handles app j_drops j_busy j_calls j_used jm_blk jm_base] in J1. injection J1 as <- <-.
  destruct (qstep_sim t _ V w1 _ (QDowngrade 0) Q1 D1 Logic.I) as (n2 & i2 & N2 & J2 & Q2 & D2).
  destruct (p_jstep t _ V w1 _ _ n2 (QDowngrade 0) _ _ Q1 P1 Logic.I Logic.I N2 J2) as [B2 P2].
  destruct (qstep t w1 (QDowngrade 0)) as [w2 r2]. cbn [fst snd] in *.
  cbn [jstep handle_of j_handles nth_error j_mems jcall q_base j_busy j_stk q_ty] in J2.
  destruct (look _ _ _ k1) as [k2|]; [|injection J2 as _ <-; congruence]. unfold j_put in J2. cbn [qideal_new jmems_new length seq combine map fst snd j_mems nth_error set_nth j_handles app j_drops j_busy j_calls j_used jm_blk jm_base] in J2. injection J2 as <- <-.
  destruct (qstep_sim t _ V w2 _ (QDrop 0) Q2 D2 Logic.I) as (n3 & i3 & N3 & J3 & Q3 & D3).
  destruct (p_jstep t _ V w2 _ _ n3 (QDrop 0) _ _ Q2 P2 Logic.I Logic.I N3 J3) as [B3 P3].
  destruct (qstep t w2 (QDrop 0)) as [w3 r3]. cbn [fst snd] in *.
  cbn [jstep handle_of j_handles nth_error j_mems jcall q_base j_busy j_stk q_ty] in J3.
  destruct (look _ _ _ k2) as [k3|]; [|injection J3 as _ <-; congruence].
  replace (strong_of [(0%nat, HStrong); (0%nat, HWeak)] 0) with 1%nat in J3 by reflexivity. cbn [Nat.eqb] in J3. rewrite U in J3. cbn [mut_kind retag_parts] in J3.
  pose proof (on_block_does (q_val (MkQB (start b) ty 0)) (sb_retag [] RUnique 0 n3 (Some 0%nat)) k3) as R3. cbn [j_calls] in J3.
  destruct (on_block _ _ k3) as [k4|]; [|injection J3 as _ <-; congruence]. cbn [does] in R3. specialize (R3 (start b)).
  rewrite (proj2 (inb_iff _ _)) in R3 by (unfold in_block, q_val; cbn [start size q_addr q_ty]; lia).
  unfold j_put in J3. cbn [qideal_new jmems_new length seq combine map fst snd j_mems nth_error set_nth j_handles app j_drops j_busy j_calls j_used jm_blk jm_base tags_of] in J3. injection J3 as <- <-.
  destruct (qstep_sim t _ V w3 _ (QTake 1) Q3 D3 Logic.I) as (n4 & i4 & N4 & J4 & Q4 & D4).
  destruct (qstep t w3 (QTake 1)) as [w4 r4]. cbn [fst snd] in *.
  cbn [jstep handle_of j_handles nth_error j_mems jcall q_base j_busy j_stk q_ty] in J4.
  replace (strong_of [(0%nat, HGone); (0%nat, HWeak)] 0) with 0%nat in J4 by reflexivity. replace (weak_of [(0%nat, HGone); (0%nat, HWeak)] 0) with 1%nat in J4 by reflexivity. cbn [Nat.eqb andb] in J4.
  unfold j_put in J4. cbn [qideal_new jmems_new length seq combine map fst snd j_mems nth_error set_nth j_handles app j_drops j_busy j_calls j_used jm_blk jm_base j_stk] in J4. injection J4 as <- <-.
  destruct (qstep_sim t _ V w4 _ (QNew 0 ty') Q4 D4 OK') as (n5 & i5 & N5 & J5 & _ & _).
  destruct (qstep t w4 (QNew 0 ty')) as [w5 r5]. cbn [fst snd] in *.
  cbn [jstep handle_of j_handles nth_error j_mems j_busy j_stk] in J5. rewrite FT' in J5.
  exists n3. cbn [map snd]. do 4 f_equal. f_equal.
  pose proof (on_block_does (q_all t (MkQB (start b) ty' 0)) (sb_write [0%nat] 0) k4) as R5. destruct (on_block _ _ k4) as [k5|]; [|injection J5 as _ <-; reflexivity]. exfalso.
  cbn [does] in R5. specialize (R5 (start b)).
  pose proof (q_offs t (MkQB (start b) ty' 0) V OK') as OF. cbn [q_ty] in OF.
  rewrite (proj2 (inb_iff _ _)) in R5 by (unfold in_block, q_all; cbn [start size q_addr q_ty]; lia).
  cbn [sb_retag] in R3. destruct (sb_write [] 0 (k3 (start b))) as [s3|]; [|discriminate]. injection R3 as R3. rewrite <- R3 in R5.
  assert (NN : n3 <> 0%nat) by (cbn in N3; intros X; apply N3; left; congruence).
  unfold sb_write in R5. cbn [granting itag] in R5. destruct (Nat.eqb_spec n3 0); [contradiction|]. cbn [andb] in R5.
  destruct (granting true 0 s3) as [[[a g] d]|]; [|discriminate]. unfold incompatible in R5. destruct (BorrowModel.is_unique g).
  - cbn [existsb protected iprot Nat.eqb orb] in R5. discriminate.
  - cbn [split_srw] in R5. destruct (split_srw a) as [p k]. destruct p; cbn [is_srw iperm existsb protected iprot Nat.eqb orb] in R5; discriminate.
Qed.

(** ** Examples *)
Definition ex_int : qtype := MkQT (MkLayout 8 8) [(false, MkBlock 0 8)] true.
Definition ex_cell : qtype := MkQT (MkLayout 8 4) [(true, MkBlock 0 4); (false, MkBlock 4 4)] false.
Definition ex_bs : list block := [MkBlock 4096 32; MkBlock 4160 24].
Example ex_bs_apart : pairwise disjoint ex_bs.
Proof.
  intros i j x y N0 X Y z [Z1 Z2]. unfold in_block in *. destruct i as [|[|[]]]; try discriminate; destruct j as [|[|[]]]; try discriminate; try congruence; injection X as <-; injection Y as <-; cbn in *; lia.
Qed.
Example ex_int_ok : qtype_ok (x64 false) ex_int.
Proof.
  assert (L : type_layout (x64 false) (MkLayout 8 8)) by (split; [split; [cbn; lia|split; [exists 3; split; [lia|reflexivity]|split; cbn; lia]]|exists 1; reflexivity]).
  refine (conj L (conj _ (conj _ (conj eq_refl _)))).
  - split; [split; [cbn; lia|split; [exists 3; split; [lia|reflexivity]|split; cbn; lia]]|exists 3; reflexivity].
  - intros p [<- | []]. cbn. lia.
  - intros i I. cbn in I. exists (false, MkBlock 0 8). split; [left; reflexivity|]. unfold in_block. cbn. lia.
Qed.
Example ex_cell_ok : qtype_ok (x64 false) ex_cell.
Proof.
  refine (conj _ (conj _ (conj _ (conj eq_refl _)))).
  - split; [split; [cbn; lia|split; [exists 2; split; [lia|reflexivity]|split; cbn; lia]]|exists 2; reflexivity].
  - split; [split; [cbn; lia|split; [exists 3; split; [lia|reflexivity]|split; cbn; lia]]|exists 3; reflexivity].
  - intros p [<- | [<- | []]]; cbn; lia.
  - intros i I. cbn in I. destruct (Z.lt_ge_cases i 4); [exists (true, MkBlock 0 4)|exists (false, MkBlock 4 4)]; (split; [cbn; auto|]); unfold in_block; cbn; lia.
Qed.

(** Two values, one with a Cell: clones, shared references of which one writes to the cell, [get_mut], and at last a destructor, after which the memory is used again *)
Definition ex_qops (a b c d e : nat) : list qop :=
  [QNew 0 ex_int; QNew 1 ex_cell; QClone 0; QDeref 1; QDeref 1; QAct 1 (CWrite a (MkBlock 4160 4)); QClone 1; QAct 1 (CRead b (MkBlock 4160 8)); QAct 1 (CWrite a (MkBlock 4160 4));
   QDrop 3; QGetMut 0; QDrop 0; QDowngrade 2; QGetMut 2; QStrong 4; QDrop 4; QGetMut 2; QAct 0 (CWrite c (MkBlock 4096 8)); QAct 0 (CRead c (MkBlock 4100 4)); QDowngrade 2;
   QEnter; QDrop 2; QAct 0 (CWrite d (MkBlock 4096 8)); QUpgrade 5; QWeak 5; QRet; QAct 0 (CRead d (MkBlock 4096 8)); QTake 5; QNew 0 ex_cell; QDrop 1; QAct 1 (CWrite e (MkBlock 4160 8)); QRet].
Example ex_qops_ok a b c d e : Forall (qop_ok (x64 false)) (ex_qops a b c d e).
Proof. repeat apply Forall_cons; try apply Forall_nil; try exact Logic.I; try exact ex_int_ok; exact ex_cell_ok. Qed.
Example ex_qops_run : map snd (snd (qrun (x64 false) (qnew ex_bs) (ex_qops 18 21 122 164 227))) =
  [QDone; QDone; QDone; QTag 18; QTag 21; QDone; QDone; QDone; QDone; QDone; QNo; QDone; QDone; QNo; QNum 1; QDone; QTag 122; QDone; QDone; QDone; QNum 0;
   QTag 164; QDone; QNo; QNum 1; QDone; QInvalid; QDone; QDone; QTag 227; QDone; QDone].
Proof. vm_compute. reflexivity. Qed.
(** A check for the condition of [C102_polite_never_ub] *)
Definition allowedb (q : qmode) (x : qbox) (a : cact) : bool :=
  match q, a with
  | MShared ns, CRead n _ => existsb (Nat.eqb n) ns
  | MShared ns, CWrite n b => existsb (Nat.eqb n) ns &&
      existsb (fun p => match fst p with RCell => (start (snd p) <=? start b) && (start b + size b <=? start (snd p) + size (snd p)) | _ => false end) (q_refs x)
  | MExcl n, CRead n' _ | MExcl n, CWrite n' _ => Nat.eqb n n'
  | _, CRetag _ _ _ => false
  end.
Definition polite_opb (w : qworld) (ms : nat -> qmode) (o : qop) : bool :=
  match o with
  | QAct m a => match nth_error (qmems w) m with Some k => match m_box k with Some c => allowedb (ms m) (box_at k (c_ty c)) a | None => true end | None => true end
  | QNew m _ => forallb (fun d => negb (Nat.eqb (snd (fst d)) m)) (qdrops w)
  | _ => true
  end.
Fixpoint politeb (t : target) (w : qworld) (ms : nat -> qmode) (os : list qop) : bool :=
  match os with
  | [] => true
  | o :: os => polite_opb w ms o && let (w1, r) := qstep t w o in politeb t w1 (mode_after w ms o r) os
  end.
Lemma has_in n ns : existsb (Nat.eqb n) ns = true -> In n ns.
Proof. intros E. apply existsb_exists in E. destruct E as (x & I & X). apply Nat.eqb_eq in X. subst. exact I. Qed.
Lemma politeb_ok t os : forall w ms, politeb t w ms os = true -> polite t w ms os.
Proof.
  induction os as [|o os IH]; intros w ms; cbn [politeb polite]; [auto|]. intros E. apply andb_true_iff in E. destruct E as [E1 E2]. split.
  - destruct o; try exact Logic.I; cbn [polite_op polite_opb] in *.
    + rewrite forallb_forall in E1. intros c here I. specialize (E1 _ I). cbn [fst snd] in E1. rewrite Nat.eqb_refl in E1. discriminate.
    + intros k c K C. rewrite K, C in E1. destruct (ms m) as [ns|n], a; cbn [allowed allowedb] in *; try discriminate.
      * apply has_in. exact E1.
      * apply andb_true_iff in E1. destruct E1 as [E1 E3]. split; [apply has_in; exact E1|]. apply existsb_exists in E3. destruct E3 as ([[] c1] & I & X); try discriminate.
        cbn [snd fst] in X. exists c1. split; [exact I|]. intros z Z0. unfold in_block in *. lia.
      * apply Nat.eqb_eq. exact E1.
      * apply Nat.eqb_eq. exact E1.
  - destruct (qstep t w o) as [w1 r]. cbn [fst snd]. apply IH. exact E2.
Qed.
Example ex_qops_polite : polite (x64 false) (qnew ex_bs) (fun _ => MShared []) (ex_qops 18 21 122 164 227).
Proof. apply politeb_ok. vm_compute. reflexivity. Qed.
(** A unique reference that is used after the Rc was cloned (the borrow checker does not allow it) is undefined behaviour. *)
Example ex_rude : map snd (snd (qrun (x64 false) (qnew ex_bs) [QNew 0 ex_int; QGetMut 0; QClone 0; QAct 0 (CWrite 13 (MkBlock 4096 8))])) = [QDone; QTag 13; QDone; QUB].
Proof. vm_compute. reflexivity. Qed.
(** The case of [C102_reuse_in_destructor_ub] exists. *)
Example ex_reuse : rc_fits (x64 false) (MkBlock 4096 32) (q_lay ex_int) = true /\ rc_fits (x64 false) (MkBlock 4096 32) (q_lay ex_cell) = true /\ q_unpin ex_int = true /\
  map snd (snd (qrun (x64 false) (qnew [MkBlock 4096 32]) [QNew 0 ex_int; QDowngrade 0; QDrop 0; QTake 1; QNew 0 ex_cell])) = [QDone; QDone; QTag 43; QDone; QUB].
Proof. vm_compute. auto. Qed.
(** Inside of a destructor: a Weak has all its calls, and [upgrade] says no. *)
Example ex_weak_in_destructor : let w := fst (qrun (x64 false) (qnew ex_bs) [QNew 0 ex_int; QDowngrade 0; QDrop 0]) in nth_error (qhandles w) 1 = Some (0%nat, HWeak) /\ qbusy w = [0%nat] /\
  map (fun o => snd (qstep (x64 false) w o)) [QClone 1; QStrong 1; QWeak 1; QUpgrade 1; QDrop 1; QTake 1] = [QDone; QNum 0; QNum 1; QNo; QDone; QDone].
Proof. vm_compute. auto. Qed.

(** A new Rc is refused exactly if the memory is too small or not aligned for the box (and never undefined behaviour in a program as above). *)
Theorem C102_new_needs_room t w m ty k : nth_error (qmems w) m = Some k -> m_box k = None -> valid_layout t (rc_layout t (q_lay ty)) ->
  snd (qstep t w (QNew m ty)) = QNo <-> ~ (lsize (rc_layout t (q_lay ty)) <= size (m_blk k) /\ aligned (start (m_blk k)) (lalign (rc_layout t (q_lay ty)))).
Proof.
  intros E B V. cbn [qstep handle_of]. rewrite E, B. unfold rc_fits.
  assert (P : 0 < lalign (rc_layout t (q_lay ty))) by (destruct V as (_ & (n & N & ->) & _); lia).
  destruct (Z.leb_spec (lsize (rc_layout t (q_lay ty))) (size (m_blk k))) as [L|L]; cbn [andb]; [|split; [intros _ [X _]; lia|reflexivity]].
  destruct (Z.eqb_spec (start (m_blk k) mod lalign (rc_layout t (q_lay ty))) 0) as [A|A].
  - split; [destruct (rb_new _ _ _ _) as [[]|]; discriminate|intros X; exfalso; apply X; split; [exact L|apply Z.mod_divide; [lia|exact A]]].
  - split; [intros _ [_ X]; apply A; apply Z.mod_divide; [lia|exact X]|reflexivity].
Qed.

Print Assumptions C102_values_are_separate.
Print Assumptions C102_polite_never_ub.
Print Assumptions C102_weak_never_ub.
Print Assumptions C102_reuse_in_destructor_ub.
Print Assumptions C102_new_needs_room.
