(** * WorldProofs: containers in one memory refine independent abstract objects *)
From Verif Require Import Base Spec BaseFacts SyncModel SyncSpec SyncProofs SyncMemModel SyncMemSpec SyncMemProofs UninitModel UninitSpec UninitProofs
  OwnModel RcModel RcSpec RcProofs RcRefine RcMore RcMemModel RcMemSpec RcMemProofs AllocModel AllocSpec AllocProofs
  FixedVecModel FixedVecSpec FixedVecProofs FixedVecPool MemBumpProofs FixedVecMemModel FixedVecMemSpec FixedVecMemProofs WorldModel WorldSpec.

Definition rc_inv (code : bval -> elem) (t : target) (N : nat) (l : layout) (u : uview) (x : xstate) (p : sstate) : Prop :=
  type_layout t l /\ valid_layout t (rc_layout t l) /\
  exists s, RcRefine.rel t s p /\ xrel code t x s /\ views_of (rtoks s) [u] /\ Forall (fun k => tlay k = l) (xtoks x) /\ (length (xtoks x) <= N)%nat.

Definition prel (code : bval -> elem) (t : target) (N : nat) (m : mem) (p : part) (a : apart) : Prop :=
  match p, a with
  | PBox l u k, ABox l' c => l' = l /\ lsize l <= ulen u /\
      match k, c with
      | BFull, AFull x => x = code (mem_read m (uptr u) (lsize l))
      | BEmpty, AEmpty => True
      | BGone, AGoneBox => True
      | _, _ => False
      end
  | PVec l u pool drops, AVec l' a => l' = l /\ type_layout t l /\ valid_region t (region u) /\ ysim code t l u (MkY (MkYW m drops) pool) a
  | PRc l u toks dropping log, ARc l' q => l' = l /\ rc_inv code t N l u (MkX toks m dropping log) q
  | PSlice l a n, ASlice l' xs => l' = l /\ type_layout t l /\ 0 <= n /\ map code (b_slice l m a n) = xs
  | PRaw q l, ARaw l' => l' = l
  | _, _ => False
  end.

(** ** Changes elsewhere *)
Lemma upto_In n i : In i (upto n) -> 0 <= i < Z.of_nat n.
Proof. induction n as [|n IH]; cbn [upto]; [intros []|]. rewrite in_app_iff. cbn [In]. intros [H|[<-|[]]]; [apply IH in H|]; lia. Qed.
Lemma upto_length n : length (upto n) = n.
Proof. induction n as [|n IH]; cbn [upto]; [reflexivity|]. rewrite app_length, IH. cbn. lia. Qed.
Lemma nth_upto k n : (k < n)%nat -> nth_error (upto n) k = Some (Z.of_nat k).
Proof.
  induction n as [|n IH]; intros L; [lia|]. cbn [upto]. destruct (Nat.eq_dec k n) as [->|N].
  - rewrite nth_error_app2 by (rewrite upto_length; lia). rewrite upto_length, Nat.sub_diag. reflexivity.
  - rewrite nth_error_app1 by (rewrite upto_length; lia). apply IH. lia.
Qed.
Lemma slice_same l m m' a n : 0 <= lsize l -> (forall x, in_block (MkBlock a (n * lsize l)) x -> m' x = m x) -> b_slice l m' a n = b_slice l m a n.
Proof.
  intros L S. unfold b_slice. apply map_ext_in. intros i I. apply upto_In in I.
  unfold b_read. apply read_ext. intros x X. apply S. unfold in_block. cbn [start size]. nia.
Qed.

Lemma prel_stable code t N m m' p a : valid_target t -> (forall x, in_block (foot p) x -> m' x = m x) -> prel code t N m p a -> prel code t N m' p a.
Proof.
  intros V S H. destruct p as [l u k|l u pool drops|l u toks dropping log|l b n|q l], a as [l' c|l' a|l' q0|l' xs|l']; cbn [prel foot] in *; try contradiction.
  - destruct H as (-> & L & H). split; [reflexivity|]. split; [exact L|]. destruct k, c; auto. subst x. f_equal. symmetry. apply read_ext.
    intros x X. apply S. unfold in_block, region. cbn. lia.
  - destruct H as (-> & TL & VR & H). split; [reflexivity|]. split; [exact TL|]. split; [exact VR|].
    apply (ysim_stable code t l u {| yw := {| ymem := m; ydrops := drops |}; ypool := pool |} a m'); [|exact H]. exact S.
  - destruct H as (-> & H). split; [reflexivity|]. destruct H as (T1 & T2 & s & R & X & VW & FL & LN). split; [exact T1|]. split; [exact T2|].
    exists s. split; [exact R|]. split; [|auto]. destruct X as (X1 & X2 & X3 & X4 & X5). cbn [xtoks xdropping xlog xmem] in *. subst.
    split; [reflexivity|]. split; [reflexivity|]. split; [reflexivity|]. split; [|exact X5].
    intros i k NK HK. destruct (X4 i k NK HK) as (b & Hb & BI). exists b. split; [exact Hb|].
    destruct (rel_handle _ s _ i k R NK HK) as (TL & FT & _). cbn [xmem] in *. apply (box_same code t (tlay k) (addr k) m m' b V TL); [|exact BI].
    intros x Xx. apply S. destruct (VW i k NK) as (u' & [<-|[]] & U1 & U2). pose proof (fits_in_region t (tlay k) (tview k) V TL FT) as FR.
    unfold in_block, region, addr in *. cbn [start size]. lia.
  - destruct H as (-> & TL & P & H). split; [reflexivity|]. split; [exact TL|]. split; [exact P|]. rewrite <- H. f_equal.
    apply slice_same; [|exact S]. apply (type_layout_size t l TL).
  - exact H.
Qed.

(** ** One call on a part *)
Lemma has_size_eq l bs : has_size l bs = true -> Z.of_nat (length bs) = lsize l.
Proof. unfold has_size. intros H. apply Z.eqb_eq. exact H. Qed.

Lemma of_type_one l bs : of_type l [bs] = has_size l bs.
Proof. apply andb_true_r. Qed.
Lemma vec_typed_spec code l o q : ynamed code o = Some q -> of_type l (yop_vals o) = vec_typed l o.
Proof. destruct o; cbn [ynamed yop_vals vec_typed]; intros E; try discriminate E; rewrite ?of_type_one; reflexivity. Qed.
Lemma vec_typed_none code l o : ynamed code o = None -> vec_typed l o = false.
Proof. destruct o; cbn [ynamed vec_typed]; intros E; try discriminate E; reflexivity. Qed.
Lemma rc_typed_spec l o : of_type l (xop_vals o) && xop_type l o = rc_typed l o.
Proof.
  destruct o as [i bs l'|i w| | | | | | | | | | | | | | | | |]; cbn [xop_vals xop_type rc_typed]; try reflexivity.
  - rewrite of_type_one. apply andb_comm.
  - destruct w; [rewrite of_type_one; apply andb_true_r|reflexivity].
  - rewrite of_type_one. apply andb_true_r.
Qed.
Lemma vec_ok_op t own l u k o : wop_ok t own (WVec k o) -> vec_typed l o = true -> valid_yop t l (region u) o.
Proof.
  intros OK TY. split.
  - destruct o; cbn [yop_vals vec_typed] in *; auto; try (constructor; [apply has_size_eq; exact TY|constructor]);
      apply Forall_forall; intros e E; rewrite forallb_forall in TY; apply has_size_eq, TY, E.
  - destruct o; cbn in *; auto. discriminate.
Qed.

Lemma slice_set (code : bval -> elem) l m a n i bs : 0 <= lsize l -> 0 <= i < n -> Z.of_nat (length bs) = lsize l ->
  map code (b_slice l (mem_write m (a + i * lsize l) bs) a n) = upd_nth (Z.to_nat i) (code bs) (map code (b_slice l m a n)).
Proof.
  intros L I B. apply nth_error_ext_. intros k. unfold b_slice. rewrite map_map, nth_error_map.
  assert (LN : length (map code (map (fun i0 => b_read l m (a + i0 * lsize l)) (upto (Z.to_nat n)))) = Z.to_nat n) by (rewrite !map_length; apply upto_length).
  destruct (Nat.lt_ge_cases k (Z.to_nat n)) as [K|K].
  - rewrite nth_upto by exact K. cbn [option_map]. destruct (Nat.eq_dec (Z.to_nat i) k) as [<-|D].
    + erewrite upd_nth_nth_eq by (apply (nth_error_nth' (map code (map (fun i0 => b_read l m (a + i0 * lsize l)) (upto (Z.to_nat n)))) 0); rewrite LN; exact K).
      f_equal. rewrite Z2Nat.id by lia. unfold b_read. f_equal. apply read_write_same. exact B.
    + rewrite upd_nth_nth_ne by exact D. rewrite map_map, nth_error_map, nth_upto by exact K. cbn [option_map]. do 2 f_equal. unfold b_read.
      apply read_ext. intros x X. apply write_out. rewrite B. assert (Z.of_nat k <> i) by lia. destruct (Z.lt_trichotomy (Z.of_nat k) i) as [?|[?|?]]; nia.
  - rewrite (proj2 (nth_error_None (upto (Z.to_nat n)) k)) by (rewrite upto_length; exact K). cbn [option_map]. symmetry. apply nth_error_None.
    rewrite upd_nth_length, LN. exact K.
Qed.

Definition all_lay (l : layout) (T : list token) : Prop := forall i k, nth_error T i = Some k -> tlay k = l.
Lemma lay_set l T i k k' : all_lay l T -> nth_error T i = Some k -> (tlay k' = tlay k \/ tlay k' = l) -> all_lay l (upd_nth i k' T).
Proof.
  intros H N E j x Nj. destruct (upd_nth_cases i k' T j x Nj) as [(-> & ->)|(_ & M)]; [|exact (H j x M)]. destruct E as [->|E]; [|exact E]. exact (H i k N).
Qed.
Lemma lay_app l T i k k' : all_lay l T -> nth_error T i = Some k -> tlay k' = tlay k -> all_lay l (T ++ [k']).
Proof.
  intros H N E j x Nj. destruct (Nat.lt_ge_cases j (length T)) as [G|G].
  - rewrite nth_error_app1 in Nj by exact G. exact (H j x Nj).
  - rewrite nth_error_app2 in Nj by exact G. destruct (j - length T)%nat as [|n]; [|destruct n; discriminate]. cbn in Nj. injection Nj as <-.
    rewrite E. exact (H i k N).
Qed.
Lemma xstep_lay code t x o l : all_lay l (xtoks x) -> (forall i bs l', o = XNew i bs l' -> l' = l) ->
  all_lay l (xtoks (fst (xstep code t x o))) /\ (length (xtoks (fst (xstep code t x o))) <= S (length (xtoks x)))%nat.
Proof.
  intros H NL. assert (TN : forall i k, xtok x i = Some k -> nth_error (xtoks x) i = Some k).
  { intros i k E. unfold xtok in E. destruct (nth_error (xtoks x) i) as [k0|]; [|discriminate]. destruct (tstat k0); congruence. }
  destruct o; cbn [xstep]; unfold with_tok;
    repeat match goal with |- context [xtok x ?i] => let E := fresh "TK" in destruct (xtok x i) eqn:E; [apply TN in E|] end;
    try (cbn [fst]; split; [exact H|lia]);
    repeat match goal with
    | |- context [match tkind ?k with _ => _ end] => destruct (tkind k)
    | |- context [match ?y with _ => _ end] => lazymatch y with context [match _ with _ => _ end] => fail | _ => destruct y end
    end;
    cbn [fst xtoks xlogs xput xset xadd]; rewrite ?upd_nth_length, ?app_length; cbn [length];
    (split; [|lia]); try exact H;
    first [eapply lay_set; [exact H|eassumption|left; reflexivity] | eapply lay_app; [exact H|eassumption|reflexivity]
          | eapply lay_set; [exact H|eassumption|right; cbn; eapply NL; reflexivity]].
Qed.

Lemma prel_mono code t N N' m p a : (N <= N')%nat -> prel code t N m p a -> prel code t N' m p a.
Proof.
  intros L. destruct p, a; cbn [prel]; auto. intros (E & T1 & T2 & s & R & X & VW & FL & LN). split; [exact E|]. split; [exact T1|]. split; [exact T2|].
  exists s. repeat (split; [assumption|]). lia.
Qed.

Lemma same_refl B m : SyncMemSpec.same_outside B m m.
Proof. intros x _. reflexivity. Qed.
Lemma all_lay_Forall l T : Forall (fun k => tlay k = l) T <-> all_lay l T.
Proof.
  split.
  - intros F i k N. rewrite Forall_forall in F. apply F. eapply nth_error_In. exact N.
  - intros H. apply Forall_forall. intros k K. apply In_nth_error in K as (i & K). exact (H i k K).
Qed.

Lemma part_sim code boom t own N m p a o : valid_target t -> code [] = 0 -> Z.of_nat N < usize_max t -> prel code t N m p a -> wop_ok t own o ->
  let '(m', p', r) := part_step code (fun b => boom (code b)) t m p o in
  let (a', r') := apart_step code boom t a o in
  r' = wname code r /\ prel code t (S N) m' p' a' /\ foot p' = foot p /\ SyncMemSpec.same_outside (foot p) m m'.
Proof.
  intros V C0 LT H OK. assert (HS : prel code t (S N) m p a) by (eapply prel_mono; [|exact H]; lia).
  assert (SAME : RInvalid = wname code WInvalid /\ prel code t (S N) m p a /\ foot p = foot p /\ SyncMemSpec.same_outside (foot p) m m)
    by (split; [reflexivity|]; split; [exact HS|]; split; [reflexivity|apply same_refl]).
  destruct p as [l u k|l u pool drops|l u toks dropping log|l b n|q l], a as [l' c|l' a|l' q0|l' xs|l']; cbn [prel] in H; try contradiction.
  - (* box *)
    destruct H as (-> & L & H). destruct o as [| | | | |j o| | | | | |]; try exact SAME; try (match goal with o : bxop |- _ => destruct o; exact SAME end).
    destruct o as [|bs| |bs| |], k, c; try contradiction; try exact SAME; cbn [part_step apart_step].
    + subst x. cbn [wname]. split; [reflexivity|]. split; [exact HS|]. split; [reflexivity|apply same_refl].
    + rewrite ?of_type_one; destruct (has_size l bs) eqn:E; [|exact SAME]. apply has_size_eq in E. cbn [own_replace]. subst x. cbn [wname]. split; [reflexivity|].
      split; [|split; [reflexivity|]].
      * cbn [prel]. split; [reflexivity|]. split; [exact L|]. symmetry. f_equal. apply read_write_same. exact E.
      * intros y Y. apply write_out. unfold in_block, foot, region in Y. cbn in Y. lia.
    + subst x. cbn [box_take wname]. split; [reflexivity|]. split; [cbn [prel box_into_raw ulen]; auto|]. split; [reflexivity|apply same_refl].
    + rewrite ?of_type_one; destruct (has_size l bs) eqn:E; [|exact SAME]. apply has_size_eq in E. cbn [box_new wname]. split; [reflexivity|]. split; [|split; [reflexivity|]].
      * cbn [prel]. split; [reflexivity|]. split; [exact L|]. symmetry. f_equal. apply read_write_same. exact E.
      * intros y Y. apply write_out. unfold in_block, foot, region in Y. cbn in Y. lia.
    + subst x. cbn [wname]. split; [reflexivity|]. split; [cbn [prel]; auto|]. split; [reflexivity|apply same_refl].
    + split; [reflexivity|]. split; [cbn [prel]; auto|]. split; [reflexivity|apply same_refl].
    + split; [reflexivity|]. split; [cbn [prel]; auto|]. split; [reflexivity|apply same_refl].
    + split; [reflexivity|]. split; [cbn [prel]; auto|]. split; [reflexivity|apply same_refl].
  - (* vector *)
    destruct H as (-> & TL & VR & H). destruct o as [| | | | | |j o| | | | |]; try exact SAME; try (match goal with o : bxop |- _ => destruct o; exact SAME end). cbn [part_step apart_step].
    destruct (ynamed code o) as [q|] eqn:Q; [|rewrite (vec_typed_none code l o Q); exact SAME]. rewrite (vec_typed_spec code l o q Q).
    destruct (vec_typed l o) eqn:TY; [|exact SAME]. pose proof (vec_ok_op t own l u j o OK TY) as VO.
    pose proof (ystep_sim code boom t l u _ a o V (fun _ => C0) H VO) as K.
    destruct (ystep t l _ _ o) as [y r]. rewrite Q in K.
    destruct (astep _ _ boom a q) as [a' r']. destruct K as (-> & S1 & FR). split; [reflexivity|]. split; [|split; [reflexivity|]].
    + cbn [prel]. split; [reflexivity|]. split; [exact TL|]. split; [exact VR|]. destruct y as [[ym yd] yp]. exact S1.
    + cbn [foot]. destruct o; try discriminate; exact FR.
  - (* rc *)
    destruct H as (-> & T1 & T2 & s & R & X & VW & FL & LN). destruct o as [| | | | | | |j o| | | |]; try exact SAME; try (match goal with o : bxop |- _ => destruct o; exact SAME end). cbn [part_step apart_step].
    rewrite rc_typed_spec. destruct (rc_typed l o) eqn:TY; [|exact SAME].
    assert (XO : xop_ok t o).
    { destruct o; cbn [xop_ok rc_typed] in *; auto. apply andb_true_iff in TY as (TY & T3). apply andb_true_iff in TY as (T4 & T5).
      apply Z.eqb_eq in T4. apply Z.eqb_eq in T5. apply has_size_eq in T3. destruct l as [l1 l2], l0 as [l3 l4]. cbn [lsize lalign] in *. subst l3 l4. auto. }
    assert (NL : forall i bs l', o = XNew i bs l' -> l' = l).
    { intros i bs l' ->. cbn [rc_typed] in TY. apply andb_true_iff in TY as (TY & T3). apply andb_true_iff in TY as (T4 & T5).
      apply Z.eqb_eq in T4. apply Z.eqb_eq in T5. destruct l as [l1 l2], l' as [l3 l4]. cbn [lsize lalign] in *. congruence. }
    assert (OT : op_typed (xtoks (MkX toks m dropping log)) o).
    { intros i w k E NK. cbn [xtoks] in *. rewrite (proj1 (all_lay_Forall l toks) FL i k NK). destruct E as [-> | ->]; cbn [rc_typed] in TY; apply has_size_eq; exact TY. }
    assert (LR : Z.of_nat (length (rtoks s)) < usize_max t) by (destruct X as (X1 & _); rewrite <- X1; lia).
    destruct (xstep_all code t _ s q0 o [u] V R X XO OT VW LR) as (s' & R' & X' & A' & VW' & _ & W').
    destruct (xstep_lay code t (MkX toks m dropping log) o l (proj1 (all_lay_Forall l toks) FL) NL) as (AL & LL).
    destruct (xstep code t (MkX toks m dropping log) o) as [x r]. destruct (sxstep code t q0 o) as [q1 r1]. cbn [fst snd] in *. subst r1.
    split; [reflexivity|]. split; [|split; [reflexivity|]].
    + cbn [prel]. split; [reflexivity|]. split; [exact T1|]. split; [exact T2|]. exists s'. destruct x as [x1 x2 x3 x4]. cbn [xtoks xmem xdropping xlog] in *.
      split; [exact R'|]. split; [exact X'|]. split; [exact VW'|]. split; [apply all_lay_Forall; exact AL|]. lia.
    + intros y Y. apply W'. intros u' [<-|[]]. exact Y.
  - (* slice *)
    destruct H as (-> & TL & P & H). pose proof (type_layout_size t l TL) as L.
    assert (LX : Z.of_nat (length xs) = n) by (rewrite <- H, map_length; unfold b_slice; rewrite map_length, FixedVecProofs.upto_length; lia).
    destruct o as [| | | | | | | |j|j i bs| |]; try exact SAME; try (match goal with o : bxop |- _ => destruct o; exact SAME end); cbn [part_step apart_step].
    + cbn [wname]. rewrite H. split; [reflexivity|]. split; [exact HS|]. split; [reflexivity|apply same_refl].
    + rewrite ?of_type_one; destruct (has_size l bs) eqn:E; [|exact SAME]. apply has_size_eq in E. rewrite LX.
      destruct (Z.leb_spec 0 i); cbn [andb]; [|split; [reflexivity|]; split; [exact HS|]; split; [reflexivity|apply same_refl]].
      destruct (Z.ltb_spec i n); [|split; [reflexivity|]; split; [exact HS|]; split; [reflexivity|apply same_refl]].
      split; [reflexivity|]. split; [|split; [reflexivity|]].
      * cbn [prel]. split; [reflexivity|]. split; [exact TL|]. split; [exact P|]. rewrite <- H. apply slice_set; auto.
      * intros y Y. apply write_out. unfold in_block in Y. cbn [foot start size] in Y. rewrite E. nia.
  - (* plain *)
    subst l'. destruct o as [| | | | | | | | | |j off bs|]; try exact SAME; try (match goal with o : bxop |- _ => destruct o; exact SAME end). cbn [part_step apart_step].
    destruct (Z.leb_spec 0 off); cbn [andb]; [|exact SAME]. destruct (Z.leb_spec (off + Z.of_nat (length bs)) (lsize l)); [|exact SAME].
    split; [reflexivity|]. split; [reflexivity|]. split; [reflexivity|]. intros y Y. apply write_out. unfold in_block in Y. cbn [foot start size] in Y. lia.
Qed.

Lemma ysim_entry code t l u y a i : valid_target t -> (lsize l = 0 -> code [] = 0) -> ysim code t l u y a ->
  usable (ypool y) i = ausable (apool a) i /\
  (usable (ypool y) i = true -> exists e x, nth_error (ypool y) i = Some e /\ nth_error (apool a) i = Some x /\
     map code (y_as_slice l (ymem (yw y)) (evec e)) = aitems x /\ 0 <= flen (evec e) /\ Z.of_nat (length (aitems x)) = flen (evec e) /\
     forall z, in_block (MkBlock (slot l (evec e) 0) (flen (evec e) * lsize l)) z -> in_block (region u) z).
Proof.
  intros V C SM. pose proof SM as (s & h0 & R & P & W & F). split; [rewrite <- P; eapply rel_usable; exact R|].
  intros U. destruct (usable_inv _ _ U) as (e & He & Ha & _). destruct (ysim_contents code t l u y a i e V C SM He Ha) as (x & X1 & X2 & X3 & _).
  exists e, x. split; [exact He|]. split; [exact X1|]. split; [exact X3|].
  destruct (Forall2_nth _ _ _ _ _ (r_pool _ _ _ _ _ _ R) (eq_ind_r (fun P => nth_error P _ = Some e) He P)) as (x' & X1' & _ & _ & X). specialize (X Ha).
  assert (G : vgood t l u (wheap (fw s)) (evec e)) by (split; [exact (F _ _ He Ha)|eauto]).
  destruct (good_slots t l u _ _ V G) as (L & FL & FS & _). split; [exact FL|]. split.
  - rewrite <- X3, map_length. unfold y_as_slice, b_slice. rewrite map_length, FixedVecProofs.upto_length. lia.
  - intros z Z0. destruct G as ((G1 & G2 & _) & _). unfold in_block, slot, region in *. cbn [start size] in *. lia.
Qed.

(** ** The program *)
Definition grant (A : lalloc) (s : lst A) (m : mem) (req : option layout) : option Z :=
  match req with
  | Some l => match l_alloc A s m l with (_, _, Ret (Some (p, _))) => Some p | _ => None end
  | None => None
  end.
Definition after (A : lalloc) (s : lst A) (m : mem) (req : option layout) : lst A :=
  match req with Some l => fst (fst (l_alloc A s m l)) | None => s end.

Definition winv (code : bval -> elem) (t : target) (A : lalloc) (own : Z -> Prop) (inv : lst A -> mem -> list (Z * layout) -> Prop)
    (N : nat) (w : world A) (parts : list apart) : Prop :=
  exists live, inv (wst w) (wmem w) live /\ Forall2 (prel code t N (wmem w)) (wparts w) parts /\
    pairwise disjoint (map foot (wparts w)) /\
    (forall i p x, nth_error (wparts w) i = Some p -> in_block (foot p) x -> ~ ~ own x /\ exists a, In a live /\ in_block (ablock a) x).

Lemma ask t (A : lalloc) (own : Z -> Prop) (inv : lst A -> mem -> list (Z * layout) -> Prop) (s : lst A) (m : mem) live l : honours t A own inv -> exact A -> inv s m live -> valid_layout t l -> 0 < lsize l ->
  (exists s' m', l_alloc A s m l = (s', m', Ret None) /\ inv s' m' live /\ unchanged own live m m') \/
  (exists s' m' p, l_alloc A s m l = (s', m', Ret (Some (p, l))) /\ inv s' m' ((p, l) :: live) /\ unchanged own live m m' /\
     aligned p (lalign l) /\ valid_region t (MkBlock p (lsize l)) /\ forall x, in_block (MkBlock p (lsize l)) x -> ~ client_may own live x).
Proof.
  intros H X I V P. destruct (h_alloc t A own inv H s m live l I V P) as (s' & m' & r & E & U & R). destruct r as [[p l']|].
  - right. assert (l' = l) as -> by (eapply X; exact E). exists s', m', p. destruct R as (R1 & R2 & R3 & R4 & R5 & R6).
    split; [exact E|]. split; [exact R6|]. split; [exact U|]. split; [exact R2|]. split; [exact R4|]. intros x K. apply R5. exact K.
  - left. exists s', m'. auto.
Qed.

Lemma Forall2_impl2 {X Y} (P Q : X -> Y -> Prop) xs ys : (forall i x y, nth_error xs i = Some x -> P x y -> Q x y) -> Forall2 P xs ys -> Forall2 Q xs ys.
Proof.
  intros H F. revert H. induction F as [|x y xs ys A _ IH]; intros H; constructor.
  - apply (H 0%nat); auto.
  - apply IH. intros i a b N. apply (H (S i)). exact N.
Qed.

Lemma keep_inv code t (A : lalloc) (own : Z -> Prop) (inv : lst A -> mem -> list (Z * layout) -> Prop) N (w : world A) parts live (s' : lst A) (m' : mem) : valid_target t ->
  Forall2 (prel code t N (wmem w)) (wparts w) parts -> pairwise disjoint (map foot (wparts w)) ->
  (forall i p x, nth_error (wparts w) i = Some p -> in_block (foot p) x -> ~ ~ own x /\ exists a, In a live /\ in_block (ablock a) x) ->
  inv s' m' live -> unchanged own live (wmem w) m' -> winv code t A own inv (S N) (MkWorld s' m' (wparts w)) parts.
Proof.
  intros V F PW FT I U. exists live. cbn [wst wmem wparts]. split; [exact I|]. split; [|split; [exact PW|exact FT]].
  eapply Forall2_impl2; [|exact F]. intros i p a Hp HR. apply (prel_mono code t N); [lia|]. eapply prel_stable; [exact V| |exact HR].
  intros x X. apply U. right. destruct (FT i p x Hp X) as (_ & K). exact K.
Qed.

Lemma pairwise_app {X} (R : X -> X -> Prop) xs y : (forall a b, R a b -> R b a) -> pairwise R xs -> (forall i x, nth_error xs i = Some x -> R x y) ->
  pairwise R (xs ++ [y]).
Proof.
  intros S P Y i j a b D Ha Hb.
  assert (K : forall i a, nth_error (xs ++ [y]) i = Some a -> nth_error xs i = Some a \/ (i = length xs /\ a = y)).
  { intros i0 a0 H. destruct (Nat.lt_ge_cases i0 (length xs)).
    - rewrite nth_error_app1 in H by assumption. auto.
    - rewrite nth_error_app2 in H by assumption. destruct (i0 - length xs)%nat as [|n] eqn:E; cbn in H; [|destruct n; discriminate].
      right. split; [lia|congruence]. }
  destruct (K i a Ha) as [Ha'|(Ea & ->)], (K j b Hb) as [Hb'|(Eb & ->)].
  - eapply P; eauto.
  - eauto.
  - apply S. eauto.
  - congruence.
Qed.

Lemma add_inv code t (A : lalloc) (own : Z -> Prop) (inv : lst A -> mem -> list (Z * layout) -> Prop) N (w : world A) parts live live' (s' : lst A) (m' : mem) p a : valid_target t ->
  Forall2 (prel code t N (wmem w)) (wparts w) parts -> pairwise disjoint (map foot (wparts w)) ->
  (forall i p x, nth_error (wparts w) i = Some p -> in_block (foot p) x -> ~ ~ own x /\ exists a, In a live /\ in_block (ablock a) x) ->
  inv s' m' live' -> unchanged own live (wmem w) m' -> (forall b, In b live -> In b live') ->
  (forall x, in_block (foot p) x -> ~ client_may own live x /\ exists b, In b live' /\ in_block (ablock b) x) ->
  prel code t (S N) m' p a -> winv code t A own inv (S N) (MkWorld s' m' (wparts w ++ [p])) (parts ++ [a]).
Proof.
  intros V F PW FT I U LL NW HP. exists live'. cbn [wst wmem wparts]. split; [exact I|]. split; [|split].
  - apply Forall2_app; [|constructor; [exact HP|constructor]].
    eapply Forall2_impl2; [|exact F]. intros i p0 a0 Hp HR. apply (prel_mono code t N); [lia|]. eapply prel_stable; [exact V| |exact HR].
    intros x X. apply U. right. destruct (FT i p0 x Hp X) as (_ & K). exact K.
  - rewrite map_app. cbn [map]. apply pairwise_app; [intros b c D x (X1 & X2); exact (D x (conj X2 X1))|exact PW|].
    intros i b Hb x (X1 & X2). rewrite nth_error_map in Hb. destruct (nth_error (wparts w) i) as [p0|] eqn:E; [|discriminate]. injection Hb as <-.
    destruct (FT i p0 x E X1) as (_ & K). apply (NW x X2). right. exact K.
  - intros i p0 x Hp X. destruct (Nat.lt_ge_cases i (length (wparts w))) as [G|G].
    + rewrite nth_error_app1 in Hp by exact G. destruct (FT i p0 x Hp X) as (O & b & B1 & B2). split; [exact O|]. exists b. auto.
    + rewrite nth_error_app2 in Hp by exact G. destruct (i - length (wparts w))%nat as [|n]; cbn in Hp; [|destruct n; discriminate]. injection Hp as <-.
      destruct (NW x X) as (O & K). split; [|exact K]. intros NO. apply O. left. exact NO.
Qed.

Lemma usize_big t : valid_target t -> 1 < usize_max t.
Proof. intros ([E|[E|E]] & _); unfold usize_max, addr_space; rewrite E; cbn; lia. Qed.

(** A value written into a new block *)
Lemma write_new t (A : lalloc) (own : Z -> Prop) (inv : lst A -> mem -> list (Z * layout) -> Prop) (s : lst A) (m : mem) live p l (m' : mem) : honours t A own inv -> inv s m ((p, l) :: live) -> (forall x, in_block (MkBlock p (lsize l)) x -> ~ client_may own live x) ->
  SyncMemSpec.same_outside (MkBlock p (lsize l)) m m' -> inv s m' ((p, l) :: live) /\ unchanged own live m m'.
Proof.
  intros H I NC S. split.
  - apply (AllocSpec.h_write t A own inv H s m); [exact I|]. intros x X. apply S. intros K. apply X. apply client_may_new. exact K.
  - intros x X. apply S. intros K. exact (NC x K X).
Qed.

Lemma rc_new_part code t l bs p m N : valid_target t -> type_layout t l -> valid_layout t (rc_layout t l) -> Z.of_nat (length bs) = lsize l ->
  aligned p (lalign (rc_layout t l)) -> valid_region t (MkBlock p (lsize (rc_layout t l))) ->
  let u := from_memory p (lsize (rc_layout t l)) in
  exists x, xstep code t (xinit [u] m) (XNew 0 bs l) = (x, ADone) /\
    prel code t (S N) (xmem x) (PRc l u (xtoks x) (xdropping x) (xlog x))
      (ARc l (MkS [MkST (SStrong 0) Live] [MkSA (code bs) u] [] [Put (code bs)])) /\
    SyncMemSpec.same_outside (region u) m (xmem x).
Proof.
  intros V T1 T2 LB AP VR u.
  assert (M : memories t [u]).
  { split; [constructor; [split; [exact VR|reflexivity]|constructor]|]. intros [|[|i]] [|[|j]] a b D Ha Hb; cbn in *; try discriminate; congruence. }
  destruct (xinit_rel code t [u] m M) as (R & X & VW).
  assert (XO : xop_ok t (XNew 0 bs l)) by (cbn [xop_ok]; auto).
  assert (OT : op_typed (xtoks (xinit [u] m)) (XNew 0 bs l)) by (intros i w k [E|E]; discriminate).
  assert (LT : Z.of_nat (length (rtoks (rinit [u]))) < usize_max t) by (cbn; apply usize_big; exact V).
  destruct (xstep_all code t _ _ _ (XNew 0 bs l) [u] V R X XO OT VW LT) as (s' & R' & X' & A' & VW' & _ & W').
  assert (HO : RcSpec.holds u (rc_layout t l) = true).
  { unfold RcSpec.holds. apply andb_true_iff. unfold u. cbn [uptr ulen from_memory]. split; [|lia]. destruct AP as (c & ->). apply Z.eqb_eq. apply Z.mod_mul.
    destruct (rc_layout_facts t l V T1) as (F1 & F2 & F3 & F4 & F5 & F6 & F7 & F8). destruct T2 as (T2 & _). lia. }
  cbn [sxstep named sstep sinit map stok stoks nth_error sst sk sallocs length app sdropping slog s_log] in R', A'. rewrite HO in R', A'. cbn [fst snd s_log] in R', A'.
  destruct (xstep code t (xinit [u] m) (XNew 0 bs l)) as [x r] eqn:E. cbn [fst snd] in *. subst r. exists x. split; [reflexivity|]. split.
  - cbn [prel]. split; [reflexivity|]. split; [exact T1|]. split; [exact T2|]. exists s'. split; [exact R'|]. destruct x as [x1 x2 x3 x4]. split; [exact X'|]. split; [exact VW'|].
    assert (E1 : x1 = [{| tkind := KStrong; tview := {| uptr := uptr u; ulen := ulen u; umeta := 0 |}; tlay := l; tstat := Live |}]).
    { cbn [xstep with_tok xtok xinit xtoks map nth_error tstat tkind tview] in E. revert E. unfold v_cast. destruct (v_fits u (rc_layout t l)); cbn [negb]; intros E; injection E as <- _ _; [reflexivity|].
      all: discriminate. }
    cbn [xtoks]. subst x1. split; [constructor; [reflexivity|constructor]|]. cbn [length]. lia.
  - intros y Y. apply W'. intros u' [<-|[]]. exact Y.
Qed.

(** ** One call of the program *)
Lemma winv_mono code t (A : lalloc) (own : Z -> Prop) (inv : lst A -> mem -> list (Z * layout) -> Prop) N (w : world A) parts :
  winv code t A own inv N w parts -> winv code t A own inv (S N) w parts.
Proof.
  intros (live & I & F & PW & FT). exists live. split; [exact I|]. split; [|split; [exact PW|exact FT]].
  eapply Forall2_impl2; [|exact F]. intros i p a _ H. eapply prel_mono; [|exact H]. lia.
Qed.

Lemma Forall2_upd {X Y} (P Q : X -> Y -> Prop) k x' y' : forall xs ys,
  (forall i x y, i <> k -> nth_error xs i = Some x -> P x y -> Q x y) -> Q x' y' -> Forall2 P xs ys -> Forall2 Q (upd_nth k x' xs) (upd_nth k y' ys).
Proof.
  intros xs ys H HQ F. revert k H. induction F as [|x y xs ys A B IH]; intros [|k] H; cbn [upd_nth]; try constructor; auto.
  - eapply Forall2_impl2; [|exact B]. intros i a b N. apply (H (S i)); [lia|exact N].
  - apply (H 0%nat); auto.
  - apply IH. intros i a b N. apply (H (S i)). lia.
Qed.
Lemma Forall2_none {X Y} (P : X -> Y -> Prop) xs ys k : Forall2 P xs ys -> nth_error xs k = None -> nth_error ys k = None.
Proof. intros F H. apply nth_error_None. apply nth_error_None in H. rewrite <- (Forall2_length _ _ _ F). exact H. Qed.
Lemma upd_nth_same {X} k (x : X) xs : nth_error xs k = Some x -> upd_nth k x xs = xs.
Proof. revert k. induction xs as [|y ys IH]; intros [|k] H; cbn in *; try congruence. f_equal. auto. Qed.
Lemma map_upd_nth {X Y} (f : X -> Y) k x xs : map f (upd_nth k x xs) = upd_nth k (f x) (map f xs).
Proof. revert k. induction xs as [|y ys IH]; intros [|k]; cbn; try reflexivity. f_equal. apply IH. Qed.

Definition step_ok (code : bval -> elem) (boom : elem -> bool) (t : target) (A : lalloc) (own : Z -> Prop) (inv : lst A -> mem -> list (Z * layout) -> Prop)
    (N : nat) (w : world A) (a : list apart) (o : wop) : Prop :=
  let (w', r) := wstep code (fun b => boom (code b)) t A w o in
  let (a', r') := awstep code boom t (grant A (wst w) (wmem w) (request t a o)) a o in
  r' = wname code r /\ winv code t A own inv (S N) w' a' /\ wst w' = after A (wst w) (wmem w) (request t a o) /\
  (forall x, ~ own x -> wmem w' x = welse (wmem w) [o] x).

Section Step.
  Context (code : bval -> elem) (boom : elem -> bool) (t : target) (A : lalloc) (own : Z -> Prop) (inv : lst A -> mem -> list (Z * layout) -> Prop).
  Context (V : valid_target t) (C0 : code [] = 0) (H : honours t A own inv) (EX : exact A).

  Lemma own_same live m m' : unchanged own live m m' -> forall x, ~ own x -> m' x = m x.
  Proof. intros U x X. apply U. left. exact X. Qed.

  Lemma step_boxed N (w : world A) a l bs : winv code t A own inv N w a -> wop_ok t own (WBoxed l bs) -> step_ok code boom t A own inv N w a (WBoxed l bs).
  Proof using V H EX.
    intros (live & I & F & PW & FT) (TL & LB). unfold step_ok. cbn [wstep awstep request welse]. unfold boxed, alloc_t, nonzero_from_layout.
    destruct (Z.eqb_spec (lsize l) 0) as [Z0|Z0]; cbn [orb].
    - rewrite (invent_zst t l TL Z0). cbn [obind box_new wadd aadd_part grant after]. cbn [vbytes].
      assert (S : SyncMemSpec.same_outside (MkBlock (lalign l) 0) (wmem w) (mem_write (wmem w) (lalign l) bs)).
      { intros x X. apply write_out. rewrite LB, Z0. lia. }
      assert (U : forall x, mem_write (wmem w) (lalign l) bs x = wmem w x) by (intros x; apply S; unfold in_block; cbn; lia).
      split; [cbn [wname]; rewrite (Forall2_length _ _ _ F); reflexivity|]. split; [|split; [reflexivity|intros x _; apply U]].
      cbn [uptr]. eapply add_inv with (live := live) (live' := live); eauto.
      + apply (AllocSpec.h_write t A own inv H (wst w) (wmem w)); [exact I|]. intros x _. apply U.
      + intros x _. apply U.
      + intros x X. exfalso. unfold in_block, foot, region in X. cbn in X. lia.
      + cbn [prel ulen]. split; [reflexivity|]. split; [lia|]. cbn [uptr]. f_equal. symmetry. apply read_write_same. exact LB.
    - pose proof (type_layout_size t l TL) as L0. assert (P : 0 < lsize l) by lia. unfold alloc_layout. cbn [grant after].
      destruct (ask t A own inv _ _ live l H EX I (proj1 TL) P) as [(s' & m' & E & I' & U)|(s' & m' & p & E & I' & U & AL & VR & NC)]; rewrite E.
      + cbn [wkeep fst]. split; [reflexivity|]. split; [|split; [reflexivity|apply (own_same live); exact U]].
        eapply keep_inv; eauto.
      + unfold lk_cast. destruct (v_cast_spec (from_memory p (lsize l)) l (type_layout_align t l TL)) as [C _].
        rewrite C by (cbn [uptr ulen from_memory]; split; [exact AL|lia]). cbn [unwrap obind box_new wadd aadd_part vbytes uptr from_memory fst].
        assert (S : SyncMemSpec.same_outside (MkBlock p (lsize l)) m' (mem_write m' p bs)).
        { intros x X. apply write_out. unfold in_block in X. cbn [start size] in X. lia. }
        destruct (write_new t A own inv s' m' live p l _ H I' NC S) as [I2 U2].
        split; [cbn [wname]; rewrite (Forall2_length _ _ _ F); reflexivity|]. split; [|split; [reflexivity|apply (own_same live); exact (unchanged_trans _ _ _ _ _ U U2)]].
        eapply add_inv with (live := live) (live' := (p, l) :: live); eauto.
        * exact (unchanged_trans _ _ _ _ _ U U2).
        * intros b B. right. exact B.
        * intros x X. split; [apply NC; exact X|]. exists (p, l). split; [left; reflexivity|exact X].
        * cbn [prel ulen from_memory]. split; [reflexivity|]. split; [lia|]. cbn [uptr]. f_equal. symmetry. apply read_write_same. exact LB.
  Qed.

  Lemma step_fixed_vec N (w : world A) a l cap : winv code t A own inv N w a -> wop_ok t own (WFixedVec l cap) -> step_ok code boom t A own inv N w a (WFixedVec l cap).
  Proof using V H EX.
    intros (live & I & F & PW & FT) (TL & (CN & CM)). unfold step_ok. cbn [wstep awstep request welse]. unfold array_request, fixed_vec.
    pose proof (type_layout_size t l TL) as L0. pose proof (type_layout_align t l TL) as AP.
    rewrite checked_mul_spec, (Z.mul_comm (lsize l) cap).
    assert (NOMEM : forall r : wres, r = WNoMem -> let (w', r) := wkeep w (wst w) (wmem w) r in
      let (a', r') := (a, RNoMem) in r' = wname code r /\ winv code t A own inv (S N) w' a' /\ wst w' = wst w /\ (forall x, ~ own x -> wmem w' x = wmem w x)).
    { intros r ->. cbn [wkeep wst wmem]. split; [reflexivity|]. split; [|split; [reflexivity|auto]]. eapply keep_inv; eauto. intros x _. reflexivity. }
    destruct (Z.leb_spec (cap * lsize l) (usize_max t)) as [LE|GT].
    2:{ assert (FS : from_size_align t (cap * lsize l) (lalign l) = None).
        { destruct (from_size_align t (cap * lsize l) (lalign l)) as [k|] eqn:FS; [|reflexivity]. apply from_size_align_iff in FS as (-> & (_ & _ & _ & B)).
          cbn [lsize lalign] in B. pose proof (align_up_ge (cap * lsize l) (lalign l) AP). pose proof (isize_lt_usize t V). unfold usize_max in GT. lia. }
        rewrite FS. destruct (_ =? 0); cbn [grant after]; exact (NOMEM _ eq_refl). }
    destruct (from_size_align t (cap * lsize l) (lalign l)) as [lay|] eqn:FS.
    2:{ destruct (_ =? 0); cbn [grant after]; exact (NOMEM _ eq_refl). }
    apply from_size_align_iff in FS as (EL & VL). unfold nonzero_from_layout. rewrite EL. cbn [lsize]. rewrite <- EL.
    destruct (Z.eqb_spec (cap * lsize l) 0) as [Z0|Z0]; cbn [orb].
    - cbn [wadd aadd_part grant after f_new funinit v_empty wst wmem].
      split; [cbn [wname]; rewrite (Forall2_length _ _ _ F); reflexivity|]. split; [|split; [reflexivity|auto]].
      eapply add_inv with (live := live) (live' := live); eauto.
      + intros x _. reflexivity.
      + intros x X. exfalso. unfold in_block, foot, region in X. cbn in X. lia.
      + assert (VR : valid_region t (region (v_empty l))).
        { destruct TL as ((T1 & T2 & T3 & T4) & T5). unfold valid_region, region. cbn [start size v_empty uptr ulen]. split; [lia|].
          pose proof (isize_lt_usize t V). unfold isize_max in *. lia. }
        cbn [prel]. split; [reflexivity|]. split; [exact TL|]. split; [exact VR|].
        pose proof (ysim_init code t l (v_empty l) (wmem w) V) as Y. 
        assert (CP : v_capacity t l (v_empty l) = (if lsize l =? 0 then usize_max t else cap)).
        { unfold v_capacity. cbn [ulen v_empty]. destruct (Z.eqb_spec (lsize l) 0); [reflexivity|]. rewrite Z.div_0_l by assumption. nia. }
         rewrite CP in Y. apply Y.
        split; [exact VR|]. split; [exact TL|]. cbn [uptr v_empty]. apply Z.divide_refl.
    - assert (P : 0 < cap * lsize l) by nia. assert (LP : 0 < lsize l) by nia. unfold alloc_layout. cbn [grant after].
      assert (PL : 0 < lsize lay) by (rewrite EL; exact P).
      destruct (ask t A own inv _ _ live lay H EX I VL PL) as [(s' & m' & E & I' & U)|(s' & m' & p & E & I' & U & AL & VR & NC)]; rewrite E.
      + cbn [wkeep fst]. split; [reflexivity|]. split; [|split; [reflexivity|apply (own_same live); exact U]].
        eapply keep_inv; eauto.
      + unfold lk_cast_slice. destruct (v_cast_slice_spec t (from_memory p (lsize lay)) l AP ltac:(cbn [ulen from_memory]; lia)) as [C _].
        rewrite EL in AL, VR, NC. cbn [lsize lalign] in AL, VR, NC.
        rewrite C by (cbn [uptr from_memory]; exact AL). cbn [unwrap obind wadd aadd_part f_new funinit fst wst wmem].
        assert (CP : v_capacity t l (from_memory p (lsize lay)) = cap) by (apply capacity_eq; [exact LP|rewrite EL; reflexivity]). rewrite CP.
        split; [cbn [wname]; rewrite (Forall2_length _ _ _ F); reflexivity|]. split; [|split; [reflexivity|apply (own_same live); exact U]].
        destruct (Z.eqb_spec (lsize l) 0); [lia|].
        set (u := {| uptr := uptr (from_memory p (lsize lay)); ulen := ulen (from_memory p (lsize lay)); umeta := cap |}).
        assert (RU : region u = MkBlock p (cap * lsize l)) by (unfold u, region; cbn [uptr ulen from_memory]; rewrite EL; reflexivity).
        eapply add_inv with (live := live) (live' := (p, lay) :: live); eauto.
        * intros b B. right. exact B.
        * intros x X. cbn [foot] in X. rewrite RU in X. split; [apply NC; exact X|]. exists (p, lay). split; [left; reflexivity|].
          unfold ablock. cbn [fst snd]. rewrite EL. exact X.
        * cbn [prel]. split; [reflexivity|]. split; [exact TL|]. rewrite RU. split; [exact VR|].
          pose proof (ysim_init code t l u m' V) as Y. assert (CU : v_capacity t l u = cap) by exact CP. rewrite CU in Y. apply Y.
          split; [rewrite RU; exact VR|]. split; [exact TL|exact AL].
  Qed.

  Lemma step_rc N (w : world A) a l bs : winv code t A own inv N w a -> wop_ok t own (WRc l bs) -> step_ok code boom t A own inv N w a (WRc l bs).
  Proof using V H EX.
    intros (live & I & F & PW & FT) (TL & VL & LB). unfold step_ok. cbn [wstep awstep request welse]. unfold rc_bytes, nonzero_from_layout.
    pose proof (rc_layout_pos t l V TL) as P. destruct (Z.eqb_spec (lsize (rc_layout t l)) 0) as [Z0|Z0]; [lia|]. unfold alloc_layout. cbn [grant after].
    destruct (ask t A own inv _ _ live _ H EX I VL P) as [(s' & m' & E & I' & U)|(s' & m' & p & E & I' & U & AL & VR & NC)]; rewrite E.
    - cbn [wkeep fst]. split; [reflexivity|]. split; [|split; [reflexivity|apply (own_same live); exact U]]. eapply keep_inv; eauto.
    - destruct (rc_new_part code t l bs p m' N V TL VL LB AL VR) as (x & EX' & PR & S). rewrite EX'. cbn [wadd aadd_part fst wst wmem].
      destruct (write_new t A own inv s' m' live p _ _ H I' NC S) as [I2 U2].
      split; [cbn [wname]; rewrite (Forall2_length _ _ _ F); reflexivity|]. split; [|split; [reflexivity|apply (own_same live); exact (unchanged_trans _ _ _ _ _ U U2)]].
      eapply add_inv with (live := live) (live' := (p, rc_layout t l) :: live); eauto.
      + exact (unchanged_trans _ _ _ _ _ U U2).
      + intros b B. right. exact B.
      + intros y Y. split; [apply NC; exact Y|]. exists (p, rc_layout t l). split; [left; reflexivity|exact Y].
  Qed.

  Lemma step_raw N (w : world A) a l : winv code t A own inv N w a -> wop_ok t own (WRaw l) -> step_ok code boom t A own inv N w a (WRaw l).
  Proof using V H EX.
    intros (live & I & F & PW & FT) (VL & P). unfold step_ok. cbn [wstep awstep request welse grant after].
    destruct (ask t A own inv _ _ live _ H EX I VL P) as [(s' & m' & E & I' & U)|(s' & m' & p & E & I' & U & AL & VR & NC)]; rewrite E.
    - cbn [wkeep fst]. split; [reflexivity|]. split; [|split; [reflexivity|apply (own_same live); exact U]]. eapply keep_inv; eauto.
    - cbn [wadd aadd_part fst wst wmem].
      split; [cbn [wname]; rewrite (Forall2_length _ _ _ F); reflexivity|]. split; [|split; [reflexivity|apply (own_same live); exact U]].
      eapply add_inv with (live := live) (live' := (p, l) :: live); eauto.
      + intros b B. right. exact B.
      + intros y Y. split; [apply NC; exact Y|]. exists (p, l). split; [left; reflexivity|exact Y].
      + reflexivity.
  Qed.

  Lemma step_elsewhere N (w : world A) a b bs : winv code t A own inv N w a -> wop_ok t own (WElsewhere b bs) -> step_ok code boom t A own inv N w a (WElsewhere b bs).
  Proof using V H EX.
    intros (live & I & F & PW & FT) OK. cbn [wop_ok] in OK. unfold step_ok. cbn [wstep awstep request welse grant after wkeep wst wmem].
    split; [reflexivity|]. split; [|split; [reflexivity|reflexivity]].
    assert (S : SyncMemSpec.same_outside (MkBlock b (Z.of_nat (length bs))) (wmem w) (mem_write (wmem w) b bs)).
    { intros x X. apply write_out. unfold in_block in X. cbn [start size] in X. lia. }
    exists live. cbn [wst wmem wparts]. split; [|split; [|split; [exact PW|exact FT]]].
    - apply (AllocSpec.h_write t A own inv H (wst w) (wmem w)); [exact I|]. intros x X. apply S. intros K. apply X. left. apply OK. exact K.
    - eapply Forall2_impl2; [|exact F]. intros i p q Hp HR. apply (prel_mono code t N); [lia|]. eapply prel_stable; [exact V| |exact HR].
      intros x X. apply S. intros K. destruct (FT i p x Hp X) as (NN & _). exact (NN (OK x K)).
  Qed.

  Lemma step_part N (w : world A) a o : winv code t A own inv N w a -> wop_ok t own o -> Z.of_nat N < usize_max t ->
    let (w', r) := match nth_error (wparts w) (wop_part o) with
      | Some p => let '(m', p', r) := part_step code (fun b => boom (code b)) t (wmem w) p o in (MkWorld (wst w) m' (upd_nth (wop_part o) p' (wparts w)), r)
      | None => (w, WInvalid)
      end in
    let (a', r') := match nth_error a (wop_part o) with
      | Some p => let (p', r) := apart_step code boom t p o in (upd_nth (wop_part o) p' a, r)
      | None => (a, RInvalid)
      end in
    r' = wname code r /\ winv code t A own inv (S N) w' a' /\ wst w' = wst w /\ (forall x, ~ own x -> wmem w' x = wmem w x).
  Proof using V C0 H.
    intros (live & I & F & PW & FT) OK LT. destruct (nth_error (wparts w) (wop_part o)) as [p|] eqn:NP.
    2:{ rewrite (Forall2_none _ _ _ _ F NP). split; [reflexivity|]. split; [|split; [reflexivity|auto]]. apply winv_mono. exists live. auto. }
    destruct (Forall2_nth _ _ _ _ _ F NP) as (q & NQ & PR). rewrite NQ.
    pose proof (part_sim code boom t own N (wmem w) p q o V C0 LT PR OK) as K.
    destruct (part_step code (fun b => boom (code b)) t (wmem w) p o) as [[m' p'] r]. destruct (apart_step code boom t q o) as [q' r'].
    destruct K as (-> & PR' & FP & S). split; [reflexivity|].
    assert (OUT : forall x, ~ own x -> m' x = wmem w x).
    { intros x X. apply S. intros K. destruct (FT _ _ x NP K) as (NN & _). exact (NN X). }
    split; [|split; [reflexivity|exact OUT]]. exists live. cbn [wst wmem wparts]. split; [|split; [|split]].
    - apply (AllocSpec.h_write t A own inv H (wst w) (wmem w)); [exact I|]. intros x X. apply S. intros K. apply X. right. apply (FT _ _ x NP K).
    - apply (Forall2_upd (prel code t N (wmem w))); [|exact PR'|exact F]. intros i p0 q0 D Hp HR. apply (prel_mono code t N); [lia|].
      eapply prel_stable; [exact V| |exact HR]. intros x X. apply S. intros K.
      refine (PW i (wop_part o) (foot p0) (foot p) D _ _ x (conj X K)); rewrite nth_error_map; [rewrite Hp|rewrite NP]; reflexivity.
    - rewrite map_upd_nth, FP, upd_nth_same; [exact PW|]. rewrite nth_error_map, NP. reflexivity.
    - intros i p0 x Hp X. destruct (upd_nth_cases _ _ _ _ _ Hp) as [(-> & ->)|(_ & M)]; [|exact (FT i p0 x M X)]. rewrite FP in X. exact (FT _ _ x NP X).
  Qed.

  Lemma slice_copy l m src q n : 0 <= lsize l -> b_slice l (mem_copy m src q (n * lsize l)) q n = b_slice l m src n.
  Proof.
    intros L. unfold b_slice. apply map_ext_in. intros i I. apply upto_In in I. unfold b_read, mem_read. apply map_ext_in. intros k K. apply in_seq in K.
    rewrite <- !Z.add_assoc. apply mem_copy_at. nia.
  Qed.

  Lemma step_copy N (w : world A) a k i : winv code t A own inv N w a -> step_ok code boom t A own inv N w a (WCopySlice k i).
  Proof using V C0 H EX.
    intros W. pose proof W as (live & I & F & PW & FT). unfold step_ok. cbn [wstep awstep request welse]. unfold aslice_of.
    assert (BAD : RInvalid = wname code WInvalid /\ winv code t A own inv (S N) w a /\ wst w = wst w /\ (forall x, ~ own x -> wmem w x = wmem w x)).
    { split; [reflexivity|]. split; [apply winv_mono; exact W|]. split; auto. }
    destruct (nth_error (wparts w) k) as [p|] eqn:NP; [|rewrite (Forall2_none _ _ _ _ F NP); exact BAD].
    destruct (Forall2_nth _ _ _ _ _ F NP) as (q & NQ & PR). rewrite NQ.
    destruct p as [l u b|l u pool drops|l u toks dropping log|l b n|b l], q as [l' c|l' q|l' q0|l' xs|l']; cbn [prel] in PR; try contradiction; try exact BAD.
    destruct PR as (-> & TL & VR & SM). destruct (ysim_entry code t l u _ q i V (fun _ => C0) SM) as (UE & UV). cbn [ypool yw ymem] in *.
    rewrite <- UE. destruct (usable pool i) eqn:US; [|exact BAD].
    destruct (UV eq_refl) as (e & x & He & Hx & EQ & FL & LN & IN). rewrite He, Hx. rewrite LN.
    set (n := flen (evec e)) in *. set (src := slot l (evec e) 0) in *. set (lay := {| lsize := n * lsize l; lalign := lalign l |}).
    pose proof (type_layout_size t l TL) as L0. pose proof (type_layout_align t l TL) as AP.
    unfold array_request, copy_slice. fold lay. unfold nonzero_from_layout. cbn [lsize lay].
    destruct (Z.eqb_spec (n * lsize l) 0) as [Z0|Z0].
    - cbn [grant after]. rewrite Z0. cbn [v_as_ptr v_empty uptr umeta wadd aadd_part wst wmem].
      split; [cbn [wname]; rewrite (Forall2_length _ _ _ F); reflexivity|].
      assert (U : forall x, mem_copy (wmem w) src (lalign l) 0 x = wmem w x) by (intros y; apply mem_copy_zero).
      split; [|split; [reflexivity|intros y _; apply U]].
      eapply add_inv with (live := live) (live' := live); eauto.
      + apply (AllocSpec.h_write t A own inv H (wst w) (wmem w)); [exact I|]. intros y _. apply U.
      + intros y _. apply U.
      + intros y Y. exfalso. unfold in_block, foot in Y. cbn [start size] in Y. lia.
      + cbn [prel]. split; [reflexivity|]. split; [exact TL|]. split; [lia|]. reflexivity.
    - assert (P : 0 < n * lsize l) by nia. assert (LP : 0 < lsize l) by nia.
      assert (SZ : n * lsize l <= isize_max t).
      { pose proof (IN src ltac:(unfold in_block; cbn [start size]; lia)) as J1. pose proof (IN (src + n * lsize l - 1) ltac:(unfold in_block; cbn [start size]; lia)) as J2.
        destruct VR as (_ & VR & _). unfold in_block, region in *. cbn [start size] in *. lia. }
      assert (VL : valid_layout t lay).
      { destruct TL as ((T1 & T2 & T3 & T4) & (c & T5)). unfold valid_layout. cbn [lsize lalign lay]. split; [lia|]. split; [exact T2|]. split; [exact T3|].
        assert (align_up (n * lsize l) (lalign l) = n * lsize l) as -> by (apply align_up_id; [exact AP|]; rewrite T5; exists (n * c); lia). exact SZ. }
      rewrite (proj2 (from_size_align_iff t (n * lsize l) (lalign l) lay) (conj eq_refl VL)). unfold alloc_layout. cbn [grant after]. fold lay.
      destruct (ask t A own inv _ _ live lay H EX I VL P) as [(s' & m' & E & I' & U)|(s' & m' & p & E & I' & U & AL & VR' & NC)]; rewrite E.
      + cbn [wkeep fst]. split; [reflexivity|]. split; [|split; [reflexivity|apply (own_same live); exact U]]. eapply keep_inv; eauto.
      + unfold lk_cast_slice. destruct (v_cast_slice_spec t (from_memory p (lsize lay)) l AP ltac:(cbn [ulen from_memory lsize lay]; lia)) as [C _].
        rewrite C by (cbn [uptr from_memory]; exact AL). cbn [unwrap obind v_as_ptr uptr umeta from_memory].
        assert (CP : v_capacity t l {| uptr := p; ulen := lsize lay; umeta := 0 |} = n) by (apply capacity_eq; [exact LP|reflexivity]). unfold from_memory. rewrite CP.
        cbn [wadd aadd_part fst wst wmem].
        assert (S : SyncMemSpec.same_outside (MkBlock p (lsize lay)) m' (mem_copy m' src p (n * lsize l))) by (apply mem_copy_outside; cbn [lsize lay]; lia).
        destruct (write_new t A own inv s' m' live p lay _ H I' NC S) as [I2 U2].
        split; [cbn [wname]; rewrite (Forall2_length _ _ _ F); reflexivity|]. split; [|split; [reflexivity|apply (own_same live); exact (unchanged_trans _ _ _ _ _ U U2)]].
        eapply add_inv with (live := live) (live' := (p, lay) :: live); eauto.
        * exact (unchanged_trans _ _ _ _ _ U U2).
        * intros b B. right. exact B.
        * intros y Y. split; [apply NC; exact Y|]. exists (p, lay). split; [left; reflexivity|exact Y].
        * cbn [prel]. split; [reflexivity|]. split; [exact TL|]. split; [exact FL|]. rewrite slice_copy by exact L0. rewrite <- EQ. unfold y_as_slice. fold src n. f_equal.
          apply slice_same; [exact L0|]. intros y Y. apply U. right. apply (FT k _ y NP). exact (IN y Y).
  Qed.

  Lemma wstep_sim N (w : world A) a o : winv code t A own inv N w a -> wop_ok t own o -> Z.of_nat N < usize_max t -> step_ok code boom t A own inv N w a o.
  Proof using V C0 H EX.
    intros W OK LT. pose proof (step_part N w a o W OK LT) as SP. destruct o; try exact SP; clear SP.
    - apply step_boxed; assumption.
    - apply step_fixed_vec; assumption.
    - apply step_rc; assumption.
    - apply step_raw; assumption.
    - apply step_copy; assumption.
    - apply step_elsewhere; assumption.
  Qed.
End Step.

(** ** Histories *)
Lemma prel_drops code t N m p a : prel code t N m p a -> same_drops code p a.
Proof.
  destruct p as [l u k|l u pool drops|l u toks dropping log|l b n|q l], a as [l' c|l' a|l' q0|l' xs|l']; cbn [prel same_drops]; auto.
  - intros (_ & _ & H). destruct k, c; auto.
  - intros (_ & _ & _ & H). exact (ysim_drops code t l u _ a H).
  - intros (_ & _ & _ & s & (_ & L & _) & (_ & _ & E & _) & _). cbn [xlog] in E. congruence.
  - intros (_ & TL & P & <-). rewrite map_length. unfold b_slice. rewrite map_length, upto_length. lia.
Qed.

Lemma wname_abort code r : wname code r = RVecAns FAborted <-> r = WVecAns YAborted.
Proof. split; [|intros ->; reflexivity]. destruct r as [| | | |r| | | |]; cbn; try discriminate. destruct r; cbn; discriminate || reflexivity. Qed.

Lemma welse_ext os : forall m m' x, m' x = m x -> welse m' os x = welse m os x.
Proof.
  induction os as [|o os IH]; intros m m' x E; cbn [welse]; [exact E|]. destruct o; auto. apply IH. unfold mem_write. destruct (_ && _); [reflexivity|exact E].
Qed.
Lemma welse_cons o os m : welse m (o :: os) = welse (welse m [o]) os.
Proof. destruct o; reflexivity. Qed.

Lemma request_valid t own a o l : valid_target t -> wop_ok t own o -> request t a o = Some l -> valid_layout t l /\ 0 < lsize l.
Proof.
  intros V. assert (AR : forall l0 n, array_request t l0 n = Some l -> valid_layout t l /\ 0 < lsize l).
  { intros l0 n E. unfold array_request in E. destruct (Z.eqb_spec (n * lsize l0) 0) as [|NZ]; [discriminate|]. apply from_size_align_iff in E as (-> & VL).
    split; [exact VL|]. destruct VL as (P & _). cbn [lsize] in *. lia. }
  destruct o; cbn [wop_ok request]; try discriminate; intros OK E.
  - destruct OK as (TL & _). pose proof (type_layout_size _ _ TL). destruct (Z.eqb_spec (lsize l0) 0); [discriminate|]. injection E as <-. split; [apply TL|lia].
  - eauto.
  - destruct OK as (TL & VL & _). injection E as <-. split; [exact VL|]. apply rc_layout_pos; assumption.
  - injection E as <-. exact OK.
  - destruct (aslice_of a k i) as [[l0 xs]|]; [eauto|discriminate].
Qed.

Section Run.
  Context (code : bval -> elem) (boom : elem -> bool) (t : target) (A : lalloc) (own : Z -> Prop) (inv : lst A -> mem -> list (Z * layout) -> Prop).
  Context (V : valid_target t) (C0 : code [] = 0) (H : honours t A own inv) (EX : exact A).

  Lemma wrun_sim os : forall N (w : world A) a, winv code t A own inv N w a -> Forall (wop_ok t own) os -> Z.of_nat (N + length os) <= usize_max t ->
    let (w', rs) := wrun code (fun b => boom (code b)) t A w os in
    exists gs a' N', awrun code boom t gs a os = (a', map (wname code) rs) /\ length gs = length os /\ winv code t A own inv N' w' a' /\
      (~ In (WVecAns YAborted) rs -> forall x, ~ own x -> wmem w' x = welse (wmem w) os x).
  Proof using V C0 H EX.
    induction os as [|o os IH]; intros N w a W OK LN; cbn [wrun].
    { exists [], a, N. split; [reflexivity|]. split; [reflexivity|]. split; [exact W|reflexivity]. }
    inversion OK as [|? ? O1 O2]; subst. cbn [length] in LN.
    pose proof (wstep_sim code boom t A own inv V C0 H EX N w a o W O1 ltac:(lia)) as S. unfold step_ok in S.
    destruct (wstep code (fun b => boom (code b)) t A w o) as [w1 r].
    set (g := grant A (wst w) (wmem w) (request t a o)) in *.
    destruct (awstep code boom t g a o) as [a1 r'] eqn:ES. destruct S as (-> & W1 & _ & F1).
    specialize (IH (S N) w1 a1 W1 O2 ltac:(lia)).
    assert (REST : r <> WVecAns YAborted -> let (w', rs) := (let (w2, rs) := wrun code (fun b => boom (code b)) t A w1 os in (w2, r :: rs)) in
      exists gs a' N', awrun code boom t gs a (o :: os) = (a', map (wname code) rs) /\ length gs = length (o :: os) /\ winv code t A own inv N' w' a' /\
        (~ In (WVecAns YAborted) rs -> forall x, ~ own x -> wmem w' x = welse (wmem w) (o :: os) x)).
    { intros NR. destruct (wrun code (fun b => boom (code b)) t A w1 os) as [w2 rs]. destruct IH as (gs & a' & N' & E1 & E2 & E3 & E4).
      exists (g :: gs), a', N'. split; [|split; [cbn; lia|split; [exact E3|]]].
      - cbn [awrun hd tl map]. rewrite ES, E1. destruct (wname code r) as [| | | |q| | | |] eqn:Q; try reflexivity.
        destruct q; try reflexivity. apply wname_abort in Q. contradiction.
      - intros NI x X. rewrite E4; [|intros K; apply NI; right; exact K|exact X]. rewrite (welse_cons o). apply welse_ext. apply F1. exact X. }
    destruct r as [| | | |q| | | |]; try (apply REST; discriminate). destruct q; try (apply REST; discriminate).
    exists (g :: map (fun _ => None) os), a1, (S N). split; [cbn [awrun hd wname yname] in *; rewrite ES; reflexivity|]. split; [cbn; rewrite map_length; reflexivity|].
    split; [exact W1|]. intros NI. exfalso. apply NI. left. reflexivity.
  Qed.
End Run.

(** The Bump *)
Lemma bump_ask t st s m live l : valid_target t -> bump_inv t st s m live -> valid_layout t l -> 0 < lsize l ->
  grant (bump_lalloc t) s m (Some l) = fst (bump_grant st (consumed s) l) /\
  consumed (after (bump_lalloc t) s m (Some l)) = snd (bump_grant st (consumed s) l).
Proof.
  intros V (OK & ST & _) VL P. cbn [grant after l_alloc bump_lalloc]. unfold la_alloc. rewrite (bump_alloc_spec t (MkM s m) l V OK VL). cbn [sl bytes].
  destruct (Z.eqb_spec (lsize l) 0); [lia|]. unfold fits_now, fitsb, bump_grant. cbn [sl]. rewrite ST.
  destruct (_ <=? _); cbn [fst snd with_sl sl bumped consumed]; unfold place; rewrite ?ST; split; reflexivity.
Qed.

Lemma bwrun_sim code boom t st os : valid_target t -> code [] = 0 -> valid_region t st -> forall N (w : world (bump_lalloc t)) a,
  winv code t (bump_lalloc t) (in_block st) (bump_inv t st) N w a -> Forall (wop_ok t (in_block st)) os -> Z.of_nat (N + length os) <= usize_max t ->
  let (w', rs) := wrun code (fun b => boom (code b)) t (bump_lalloc t) w os in
  exists a', bwrun code boom t st (consumed (wst w)) a os = (a', map (wname code) rs) /\
    exists N', winv code t (bump_lalloc t) (in_block st) (bump_inv t st) N' w' a'.
Proof.
  intros V C0 VR. induction os as [|o os IH]; intros N w a W OK LN; cbn [wrun].
  { exists a. split; [reflexivity|]. exists N. exact W. }
  inversion OK as [|? ? O1 O2]; subst. cbn [length] in LN.
  pose proof (wstep_sim code boom t _ _ _ V C0 (bump_honours t st V VR) (bump_exact t) N w a o W O1 ltac:(lia)) as S. unfold step_ok in S.
  destruct (wstep code (fun b => boom (code b)) t (bump_lalloc t) w o) as [w1 r].
  cbn [bwrun].
  assert (G : (match request t a o with Some l => bump_grant st (consumed (wst w)) l | None => (None, consumed (wst w)) end) =
    (grant (bump_lalloc t) (wst w) (wmem w) (request t a o), consumed (after (bump_lalloc t) (wst w) (wmem w) (request t a o)))).
  { destruct (request t a o) as [l|] eqn:Q; [|reflexivity]. destruct (request_valid t _ a o l V O1 Q) as (VL & P). destruct W as (live & I & _).
    destruct (bump_ask t st (wst w) (wmem w) live l V I VL P) as (-> & ->). destruct (bump_grant st _ l). reflexivity. }
  rewrite G. set (g := grant (bump_lalloc t) (wst w) (wmem w) (request t a o)) in *.
  destruct (awstep code boom t g a o) as [a1 r']. destruct S as (-> & W1 & E1 & _). rewrite <- E1.
  specialize (IH (S N) w1 a1 W1 O2 ltac:(lia)).
  assert (REST : r <> WVecAns YAborted -> let (w', rs) := (let (w2, rs) := wrun code (fun b => boom (code b)) t (bump_lalloc t) w1 os in (w2, r :: rs)) in
    exists a', (match wname code r with RVecAns FAborted => (a1, [RVecAns FAborted]) | r0 => let (p2, rs0) := bwrun code boom t st (consumed (wst w1)) a1 os in (p2, r0 :: rs0) end)
      = (a', map (wname code) rs) /\ exists N', winv code t (bump_lalloc t) (in_block st) (bump_inv t st) N' w' a').
  { intros NR. destruct (wrun code (fun b => boom (code b)) t (bump_lalloc t) w1 os) as [w2 rs]. destruct IH as (a' & E2 & E3).
    exists a'. split; [|exact E3]. rewrite E2. destruct (wname code r) as [| | | |q| | | |] eqn:Q; cbn [map]; rewrite ?Q; try reflexivity.
    destruct q; try reflexivity. apply wname_abort in Q. contradiction. }
  destruct r as [| | | |q| | | |]; try (apply REST; discriminate). destruct q; try (apply REST; discriminate).
  exists a1. split; [reflexivity|]. exists (S N). exact W1.
Qed.

Lemma winit_inv code t (A : lalloc) (own : Z -> Prop) (inv : lst A -> mem -> list (Z * layout) -> Prop) (s : lst A) (m : mem) live : inv s m live ->
  winv code t A own inv 0 (MkWorld s m []) [].
Proof. intros I. exists live. cbn [wst wmem wparts]. split; [exact I|]. split; [constructor|]. split; intros [|i]; cbn; discriminate. Qed.
