(** * KBorrowWorld: programs with many chains, compared with the ideal. *)
From Verif Require Import Base Spec BaseFacts SyncModel SyncSpec SyncProofs UnsyncModel UnsyncSpec UnsyncProofs ChainModel ChainSpec ChainProofs BorrowModel BorrowSpec BorrowProofs BorrowState BorrowWorld
  UBorrowModel UBorrowSpec UBorrowSub UBorrowCells UBorrowCalls UBorrowReset UBorrowWorld EBorrowSlot RBorrowPolite KBorrowModel KBorrowSpec KBorrowLink KBorrowDrop KBorrowTame KBorrowObjs.
Import ChainModel.

(** ** The number of links stays *)
Definition keeps {A} (m : KM A) : Prop := forall ss a ss', m ss = Some (a, ss') -> length ss' = length ss.

Lemma keeps_ret {A} (a : A) : keeps (kret a).
Proof. intros ss b ss' [= _ <-]. reflexivity. Qed.
Lemma keeps_fail {A} : keeps (@kfail A).
Proof. intros ss b ss' [=]. Qed.
Lemma keeps_bind {A B} (m : KM A) (f : A -> KM B) : keeps m -> (forall a, keeps (f a)) -> keeps (kbind m f).
Proof. intros X Y ss b ss'. unfold kbind. destruct (m ss) as [[a s1]|] eqn:E; [|discriminate]. intros E2. rewrite (Y _ _ _ _ E2). eapply X; eauto. Qed.
Lemma keeps_on {A} p (m : M A) : keeps (k_on p m).
Proof.
  intros ss b ss'. unfold k_on. destruct (nth_error ss p); [|discriminate]. destruct (m b0) as [[a s]|]; [|discriminate]. intros [= _ <-]. apply EBorrowSlot.set_nth_length.
Qed.
Lemma keeps_raw C t s nx : keeps (k_from_raw C t s nx).
Proof.
  unfold k_from_raw. destruct nx as [q|]; [|apply keeps_ret]. destruct (cell (store s) q); [|apply keeps_fail].
  apply keeps_bind; [apply keeps_on|intros a; apply keeps_ret].
Qed.

Ltac keeping := repeat first [apply keeps_ret | apply keeps_fail | apply keeps_on | apply keeps_raw | apply keeps_bind; [|intros ?]].

Lemma keeps_drop t n : (forall C c s p b, keeps (k_drop_box t n C c s p b)) /\ (forall C c s cur, keeps (k_drop_tail t n C c s cur)).
Proof.
  induction n as [|n [IH1 IH2]]; [split; intros; apply keeps_fail|]. split; intros; cbn [k_drop_box k_drop_tail].
  - destruct (cell (store s) p); keeping; [apply IH2|]. destruct (dealloc_link t a2 p); keeping.
  - destruct cur as [[q b]|]; keeping. destruct (cell (store s) q); keeping; [apply IH1|apply IH2].
Qed.
Lemma keeps_loop t n : forall C c s cur, keeps (k_drop_chain_loop t n C c s cur).
Proof.
  induction n as [|n IH]; intros; cbn [k_drop_chain_loop]; keeping. destruct cur as [p|]; keeping. destruct (cell (store s) p); keeping; [apply keeps_drop|apply IH].
Qed.
Lemma keeps_drop_chain t C c s i : keeps (k_drop_chain t C c s i).
Proof. unfold k_drop_chain. destruct (cell (chains s) i); keeping. apply keeps_loop. Qed.
Lemma keeps_chain t C c s i j : keeps (k_chain t C c s i j).
Proof.
  unfold k_chain. destruct (cell (chains s) i); keeping. destruct (cell (chains s) j) as [[r|]|]; keeping; try apply keeps_drop_chain.
  unfold k_set_next. destruct (cell (store s) r); keeping. destruct a0 as [[q b]|]; keeping. apply keeps_drop.
Qed.

(** ** The links of a world *)
Definition links (t : target) (s : world) (ss : list bstate) (objs : list (list bobj)) (ps : list (list nat)) (os : list (list iobj)) (used : list (list nat)) : Prop :=
  forall p k, cell (store s) p = Some k -> exists x Fs, nth_error ss p = Some x /\ linv t k x (nth p objs []) (nth p ps []) (nth p os []) (nth p used []) Fs.

Lemma linv_bump t k k' s objs ps os used Fs : lbump k = lbump k' -> linv t k s objs ps os used Fs -> linv t k' s objs ps os used Fs.
Proof. destruct k as [n b r], k' as [n' b' r']. cbn. intros <- [a1 a2 a3 a4 a5 a6 a7]. constructor; assumption. Qed.

Lemma nth_set {A} (l : list A) p x d : (p < length l)%nat -> nth p (BorrowModel.set_nth l p x) d = x.
Proof. intros H. destruct (nth_error l p) as [y|] eqn:E; [|apply nth_error_None in E; lia]. apply nth_error_nth. eapply EBorrowSlot.set_nth_nth; eauto. Qed.
Lemma nth_set_other {A} (l : list A) p q x d : q <> p -> nth q (BorrowModel.set_nth l p x) d = nth q l d.
Proof. intros H. revert p q H. induction l as [|a l IH]; intros [|p] [|q] H; cbn; auto; try congruence. Qed.

Section Calls.
Variables (t : target) (B : list nat) (N : nat).
Hypothesis (V : valid_target t) (HB : forall c, In c B -> (c < N)%nat).

Lemma calls_refl : calls_ok B N B.
Proof. intros c H. left. exact H. Qed.

(** Links that may be freed *)
Lemma links_free s ss objs ps os used q : (forall k, cell (store s) q = Some k -> link_ok t k) -> links t s ss objs ps os used -> (forall c, In c (nth q ps []) -> (c < N)%nat /\ ~ In c B) -> free_at t B N s ss q.
Proof.
  intros K L P k Ck. destruct (L q k Ck) as (x & Fs & Ex & I). exists x. split; [exact Ex|]. destruct (K k Ck) as [U _]. eapply link_can_free; eauto.
Qed.

Lemma links_shrink s s' ss ss' objs ps os used : links t s ss objs ps os used -> (forall q k, cell (store s') q = Some k -> exists k0, cell (store s) q = Some k0 /\ lbump k0 = lbump k) ->
  (forall q k, cell (store s') q = Some k -> nth_error ss' q = nth_error ss q) -> links t s' ss' objs ps os used.
Proof.
  intros L S E q k Ck. destruct (S q k Ck) as (k0 & C0 & Eb). destruct (L q k0 C0) as (x & Fs & Ex & I). exists x, Fs. rewrite (E q k Ck). split; [exact Ex|].
  eapply linv_bump; eauto.
Qed.

Lemma drop_links s i s' ss objs ps os used : drop_chain t s i = Some s' -> links t s ss objs ps os used -> (forall p k, cell (store s) p = Some k -> link_ok t k) ->
  (forall q c, (exists k, cell (store s) q = Some k) -> cell (store s') q = None -> In c (nth q ps []) -> (c < N)%nat /\ ~ In c B) ->
  exists ss', k_drop_chain t B N s i ss = Some (s', ss') /\ links t s' ss' objs ps os used /\ length ss' = length ss.
Proof.
  intros E L K P. destruct (k_drop_chain_ok t B N B N calls_refl (le_n N) HB s i s' ss E) as (S & ss' & E' & Same).
  { intros q Cq k Ck. eapply links_free; eauto. }
  exists ss'. split; [exact E'|]. split; [|eapply keeps_drop_chain; eauto].
  eapply links_shrink; eauto.
Qed.

Lemma drop_none s j ss : cell (chains s) j = Some None -> drop_chain t s j = Some (set_root s j None) /\ k_drop_chain t B N s j ss = Some (set_root s j None, ss).
Proof. intros E. unfold drop_chain, k_drop_chain, enough. rewrite E, Nat.add_succ_r. split; reflexivity. Qed.

Lemma chain_links s f i j s' ss objs ps os used : cinv t s f [] -> i <> j -> chain_alive s i -> chain_alive s j -> chain_chain t s i j = Some s' -> links t s ss objs ps os used ->
  (forall q c, In q (tl (f j)) -> In c (nth q ps []) -> (c < N)%nat /\ ~ In c B) ->
  exists ss', k_chain t B N s i j ss = Some (s', ss') /\ links t s' ss' objs ps os used /\ length ss' = length ss.
Proof.
  intros I Ne Ai Aj E L P. destruct (chain_chain_spec t s f i j I Ne Ai Aj) as (s'' & E0 & Sp). rewrite E in E0. injection E0 as <-.
  assert (Kp : forall ss', k_chain t B N s i j ss = Some (s', ss') -> length ss' = length ss) by (intros ss' X; eapply keeps_chain; eauto).
  destruct Ai as [ri Ai]. destruct Aj as [rj Aj]. pose proof (proj2 (cell_iff _ _ _) Ai) as Ci. pose proof (proj2 (cell_iff _ _ _) Aj) as Cj.
  pose proof (ci_own _ _ _ _ I _ _ Aj) as Oj.
  unfold chain_chain in E. unfold k_chain in *. rewrite Ci, Cj in *. destruct rj as [root|].
  - inversion Oj as [|p0 k0 tl0 Ck0 O0 Ep0 Ef]; subst p0. rewrite <- Ef in Sp, P. cbn [tl] in P. destruct Sp as (_ & dead & k & ri' & Hd & Nd & Hk & Hri & Kl).
    assert (ri' = ri) by congruence. subst ri'. assert (k0 = k) by congruence. subst k0. pose proof (proj2 (cell_iff _ _ _) Hk) as Ck.
    destruct (set_next t s root ri) as [s1|] eqn:E1; [|discriminate].
    set (s2 := set_root (set_root s1 i (Some (Some root))) j (Some None)) in *.
    assert (C2 : cell (chains s2) j = Some None).
    { unfold drop_chain in E. destruct (cell (chains s2) j) as [r|] eqn:C2; [|discriminate]. unfold s2 in C2. cbn [chains set_root] in C2. rewrite cell_set_same in C2.
      destruct (_ <? _)%nat; [|discriminate]. symmetry. exact C2. }
    assert (X : forall z, drop_chain t s2 j = Some s' /\ k_drop_chain t B N s2 j z = Some (s', z)).
    { intros z. destruct (drop_none s2 j z C2) as [D1 D2]. rewrite D1 in E. injection E as <-. auto. }
    assert (St : store s' = store s1) by (destruct (drop_none s2 j [] C2) as [D1 _]; rewrite D1 in E; injection E as <-; reflexivity).
    destruct Kl as (_ & _ & Kd & Ka & _). rewrite St in Kd, Ka. cbn [store set_root put] in Ka.
    pose proof (owns_nodup _ _ _ Oj) as Nj. rewrite <- Ef in Nj. inversion Nj as [|? ? Nr _]; subst.
    assert (Rr : ~ In root dead) by (intros D; apply Hd in D; auto).
    assert (Cr : cell (store s1) root = Some (with_next k ri)).
    { apply cell_iff. rewrite (Ka root Rr). apply nth_set_nth_eq. eapply nth_lt; eauto. }
    destruct (L root k Ck) as (x & Fs & Ex & Il). destruct (ci_links _ _ _ _ I _ _ Hk) as [U _].
    destruct (link_set_next t k V U B x _ _ _ _ _ Il) as (x' & Es & Il').
    destruct (k_set_next_ok t B N B N calls_refl (le_n N) HB s root ri s1 ss k x x' E1 Ck Ex Es) as (ss' & E' & Er & Same & Sh).
    { eauto. }
    { intros q Cq. destruct (Nat.eq_dec q root) as [->|Nq]; [congruence|].
      destruct (in_dec Nat.eq_dec q dead) as [D|D].
      - eapply links_free; eauto. { intros kq Ckq. apply cell_iff in Ckq. eapply ci_links; eauto. } intros c. apply P. apply Hd. exact D.
      - intros kq Ckq. exfalso. specialize (Ka q D). rewrite nth_set_nth_ne in Ka by congruence. unfold cell in Cq, Ckq. rewrite Ka in Cq. congruence. }
    exists ss'. assert (R : k_set_next t B N s root ri ss = Some (s1, ss')) by exact E'.
    assert (R2 : (s1 <~ k_set_next t B N s root ri ;; k_drop_chain t B N (set_root (set_root s1 i (Some (Some root))) j (Some None)) j) ss = Some (s', ss')).
    { unfold kbind. rewrite R. apply X. }
    split; [exact R2|]. split; [|apply Kp; exact R2].
    intros q kq Cq. rewrite St in Cq. destruct (Nat.eq_dec q root) as [->|Nq].
    + exists x', Fs. split; [exact Er|]. assert (kq = with_next k ri) by congruence. subst kq. eapply linv_bump; [|exact Il']. reflexivity.
    + pose proof (Sh q kq Cq) as C0. rewrite cell_put_other in C0 by congruence. destruct (L q kq C0) as (y & Gs & Ey & Iy). exists y, Gs. split; [|exact Iy].
      rewrite (Same q kq Nq Cq). exact Ey.
  - destruct (drop_none s j ss Cj) as [D1 D2]. rewrite D1 in E. injection E as <-. exists ss. split; [exact D2|]. split; [|reflexivity]. 
    eapply links_shrink; [exact L| |auto]. intros q k Cq. exists k. auto.
Qed.
End Calls.

(** ** The invariant *)
Record kinv (t : target) (w : kworld) (i : kideal) (f : nat -> list nat) : Prop := {
  k_c : cinv t (kw w) f [];
  k_w : iworld i = kw w;
  k_sbs : length (ksbs w) = length (store (kw w));
  k_objs : length (kobjs w) = length (store (kw w));
  k_prots : length (kprots w) = length (store (kw w));
  k_ilinks : length (ilinks i) = length (store (kw w));
  k_used : length (itagsused i) = length (store (kw w));
  k_links : links t (kw w) (ksbs w) (kobjs w) (kprots w) (ilinks i) (itagsused i);
  k_busy : ikbusy i = kbusy w;
  k_calls : ikcalls i = kcalls w;
  k_lt : forall c, In c (kbusy w) -> (c < kcalls w)%nat;
  k_pl : forall p c, In c (prots_of w p) -> (c < kcalls w)%nat }.

Lemma kinv_new t : kinv t knew kideal_new (fun _ => []).
Proof.
  constructor; auto; cbn; try contradiction.
  - apply cinv_empty.
  - intros p k C. unfold cell in C. cbn in C. destruct p; discriminate.
  - intros [|p] c; cbn; contradiction.
Qed.

(** Only the chains and the stacks change *)
Lemma kinv_same t w i f s' ss' f' : kinv t w i f -> cinv t s' f' [] -> length (store s') = length (store (kw w)) -> length ss' = length (ksbs w) -> links t s' ss' (kobjs w) (kprots w) (ilinks i) (itagsused i) ->
  kinv t (MkK s' ss' (kobjs w) (kprots w) (kbusy w) (kcalls w)) (MkKI s' (ilinks i) (itagsused i) (ikbusy i) (ikcalls i)) f'.
Proof. intros [] C L1 L2 Lk. constructor; cbn; auto; congruence. Qed.

Lemma dead_in t s ps s' q : killed t s ps s' -> (exists k, cell (store s) q = Some k) -> cell (store s') q = None -> In q ps.
Proof.
  intros (_ & _ & _ & Ka & _) [k Ck] Cq. destruct (in_dec Nat.eq_dec q ps) as [D|D]; [exact D|]. exfalso. unfold cell in *. rewrite (Ka q D) in Cq. congruence.
Qed.

Lemma ans_tag a n : ktag_answer (ans_after a n) = match a with CRetag _ _ _ => KTag n | _ => KDone end.
Proof. destruct a; reflexivity. Qed.

(** A step as if all memory were allocated: only new links differ *)
Definition kstep_w (t : target) (w : kworld) (o : kop) : kworld * kanswer :=
  match o with
  | KOp (ONew sz addr) u =>
      match link_alloc t sz addr with
      | LinkErr n => kstep t w o
      | LinkOk k _ => (MkK {| store := store (kw w) ++ [Some k]; chains := chains (kw w) ++ [Some (Some (length (store (kw w))))]; ChainModel.frees := ChainModel.frees (kw w) |}
                         (ksbs w ++ [wide_link]) (kobjs w ++ [[]]) (kprots w ++ [[]]) (kbusy w) (kcalls w), KAns ANewOk None)
      end
  | _ => kstep t w o
  end.

Lemma kcall_new t w i f sz addr u : valid_target t -> kinv t w i f -> owner_ok t (kw w) (ONew sz addr) ->
  exists i' f', kistep t i (KOp (ONew sz addr) u) (snd (kstep_w t w (KOp (ONew sz addr) u))) i' /\ kinv t (fst (kstep_w t w (KOp (ONew sz addr) u))) i' f' /\
    exists r blk, snd (kstep_w t w (KOp (ONew sz addr) u)) = KAns r blk /\ cstep t (kw w) (ONew sz addr) = Some (kw (fst (kstep_w t w (KOp (ONew sz addr) u))), r).
Proof.
  intros V I [Hz Ha]. cbn [kstep_w kstep k_call cstep]. destruct (link_alloc t sz addr) as [k l|n] eqn:E.
  - destruct addr as [a|]; [|unfold link_alloc in E; destruct (link_layout_from_size t sz); discriminate].
    assert (Hv : valid_region t (MkBlock a (lsize l))).
    { assert (El : link_layout_from_size t sz = Some l) by (unfold link_alloc in E; destruct (link_layout_from_size t sz); [injection E as _ <-; reflexivity|discriminate]).
      exact (proj1 (Ha a l eq_refl El)). }
    destruct (link_alloc_ok t sz a k l V Hz E Hv) as (Lo & Ln & _ & _ & _ & L0).
    do 2 eexists. cbn [snd]. split; [|split; [|do 2 eexists; split; reflexivity]].
    + apply KINew. rewrite (k_w _ _ _ _ I). cbn [cstep]. rewrite E. reflexivity.
    + cbn [fst kobjs_after]. destruct I. constructor; cbn [kw ksbs kobjs kprots kbusy kcalls iworld ilinks itagsused ikbusy ikcalls store]; try (rewrite !app_length; cbn; congruence); auto.
      * apply (cinv_new t (kw w) f k k_c0 Ln Lo).
      * intros p k' C. unfold cell in C. destruct (Nat.lt_ge_cases p (length (store (kw w)))) as [Hl|Hl].
        -- cbn [store] in C. rewrite nth_error_app1 in C by exact Hl. destruct (k_links0 p k') as (x & Fs & X1 & X2); [exact C|].
           exists x, Fs. rewrite nth_error_app1 by (rewrite k_sbs0; exact Hl). rewrite !app_nth1 by congruence. auto.
        -- cbn [store] in C. rewrite nth_error_app2 in C by exact Hl. destruct (p - length (store (kw w)))%nat as [|[|d]] eqn:D; try discriminate. injection C as <-.
           assert (p = length (store (kw w))) by lia. subst p. exists (wide_link), [].
           rewrite nth_error_app2 by lia. rewrite !app_nth2 by lia. rewrite k_sbs0, k_objs0, k_prots0, k_ilinks0, k_used0, Nat.sub_diag. cbn [nth nth_error]. split; [reflexivity|].
           apply link_new; auto.
      * unfold prots_of. cbn [kprots]. intros p c C. destruct (Nat.lt_ge_cases p (length (kprots w))) as [Hl|Hl].
        -- rewrite app_nth1 in C by exact Hl. apply (k_pl0 p c C).
        -- rewrite app_nth2 in C by exact Hl. destruct (p - length (kprots w))%nat as [|[|d]]; destruct C.
  - do 2 eexists. cbn [snd]. split; [|split; [|do 2 eexists; split; reflexivity]].
    + cbn [snd kret]. apply KICall; [rewrite (k_w _ _ _ _ I); cbn [cstep]; rewrite E; reflexivity|discriminate|discriminate].
    + cbn [fst kobjs_after]. eapply kinv_same; eauto; apply I.
Qed.

(** Calls that change nothing but chains and stacks *)
Lemma kcall_quiet t w i f o u s' r ss f' : kinv t w i f -> cstep t (kw w) o = Some (s', r) -> k_call t (kbusy w) (kcalls w) (kw w) o u (ksbs w) = Some ((s', r, None), ss) ->
  r <> ANewOk -> (forall a, r <> ABox (RBlock a)) -> cinv t s' f' [] -> length (store s') = length (store (kw w)) -> length ss = length (ksbs w) -> links t s' ss (kobjs w) (kprots w) (ilinks i) (itagsused i) ->
  exists i', kistep t i (KOp o u) (KAns r None) i' /\ kinv t (fst (kstep t w (KOp o u))) i' f'.
Proof.
  intros I Ec Ek R1 R2 C L1 L2 Lk. eexists. split; [apply KICall; [rewrite (k_w _ _ _ _ I); exact Ec|exact R1|exact R2]|].
  cbn [kstep]. rewrite Ek. cbn [fst].
  replace (kobjs_after w o r None) with (kobjs w) by (destruct o, r; try reflexivity; try congruence; match goal with |- context[ABox ?x] => destruct x; reflexivity end).
  replace (match o with ONew _ _ => match r with ANewOk => kprots w ++ [[]] | _ => kprots w end | _ => kprots w end) with (kprots w) by (destruct o, r; try reflexivity; congruence).
  eapply kinv_same; eauto.
Qed.

Lemma links_put t s p k k' ss x Fs objs ps os used : cell (store s) p = Some k -> nth_error ss p <> None -> links t s ss objs ps os used ->
  linv t k' x (nth p objs []) (nth p ps []) (nth p os []) (nth p used []) Fs -> links t (put s p k') (BorrowModel.set_nth ss p x) objs ps os used.
Proof.
  intros C S L I q kq Cq. destruct (Nat.eq_dec q p) as [->|Ne].
  - rewrite (cell_put _ _ _ _ C) in Cq. injection Cq as <-. destruct (nth_error ss p) as [y|] eqn:E; [|congruence]. exists x, Fs. split; [eapply EBorrowSlot.set_nth_nth; eauto|exact I].
  - rewrite cell_put_other in Cq by congruence. destruct (L q kq Cq) as (y & Gs & Ey & Iy). exists y, Gs. rewrite EBorrowSlot.set_nth_ne by exact Ne. auto.
Qed.

Lemma root_live t s f i p : cinv t s f [] -> nth_error (chains s) i = Some (Some (Some p)) -> exists k, nth_error (store s) p = Some (Some k) /\ link_ok t k.
Proof.
  intros I E. pose proof (ci_own _ _ _ _ I _ _ E) as O. inversion O as [|? k ps Hk]; subst. exists k. split; [exact Hk|]. eapply ci_links; eauto.
Qed.

Lemma put_length s p k : length (store (put s p k)) = length (store s).
Proof. apply ChainProofs.set_nth_length. Qed.

Lemma put_same s p k : cell (store s) p = Some k -> put s p k = s.
Proof. intros C. apply cell_iff in C. destruct s as [st ch fr]. unfold put. cbn in *. rewrite (ChainProofs.set_nth_id _ _ _ C). reflexivity. Qed.

Lemma kcall_box t w i f ch l u : valid_target t -> kinv t w i f -> owner_ok t (kw w) (OBumpBox ch l) ->
  exists s' ss r blk i', cstep t (kw w) (OBumpBox ch l) = Some (s', r) /\ k_call t (kbusy w) (kcalls w) (kw w) (OBumpBox ch l) u (ksbs w) = Some ((s', r, blk), ss) /\
    kistep t i (KOp (OBumpBox ch l) u) (KAns r blk) i' /\ kinv t (fst (kstep t w (KOp (OBumpBox ch l) u))) i' f.
Proof.
  intros V I [[rt Hr] Hl]. pose proof (proj2 (cell_iff _ _ _) Hr) as Cr. destruct rt as [p|].
  2:{ assert (E1 : cstep t (kw w) (OBumpBox ch l) = Some (kw w, ABox (RFail Exhausted))) by (cbn [cstep]; rewrite Cr; reflexivity).
      assert (E2 : k_call t (kbusy w) (kcalls w) (kw w) (OBumpBox ch l) u (ksbs w) = Some ((kw w, ABox (RFail Exhausted), None), ksbs w)) by (cbn [k_call]; unfold k_root; rewrite Cr; reflexivity).
      destruct (kcall_quiet _ _ _ _ _ _ _ _ _ f I E1 E2) as (i' & X1 & X2); try discriminate; try reflexivity; try apply I. do 5 eexists. split; [exact E1|]. split; [exact E2|]. split; [exact X1|exact X2]. }
  destruct (root_live _ _ _ _ _ (k_c _ _ _ _ I) Hr) as (k & Hk & Lo). pose proof (proj2 (cell_iff _ _ _) Hk) as Ck.
  destruct (k_links _ _ _ _ I p k Ck) as (x & Fs & Ex & Il). pose proof (proj1 Lo) as U.
  destruct (link_bump_box t k V U (kbusy w) x _ _ _ _ _ l u Il Hl) as (tag & x' & Eb & R).
  set (ub := ustep t (lbump k) (UBumpBox l)) in *.
  set (s' := put (kw w) p (with_bump k (fst ub))). set (ss := BorrowModel.set_nth (ksbs w) p x').
  assert (E1 : cstep t (kw w) (OBumpBox ch l) = Some (s', ABox (snd ub))).
  { cbn [cstep]. rewrite Cr, Ck. unfold s', ub. cbn [ustep]. destruct (u_bump_box t (lbump k) l); reflexivity. }
  assert (E2 : k_call t (kbusy w) (kcalls w) (kw w) (OBumpBox ch l) u (ksbs w) = Some ((s', ABox (snd ub), match tag with Some n => Some (p, n) | None => None end), ss)).
  { cbn [k_call]. unfold k_root. rewrite Cr, Ck. unfold kbind. rewrite (k_on_run _ _ _ _ _ _ Ex Eb). destruct ub. reflexivity. }
  assert (C' : cinv t s' f []).
  { apply cinv_put_bump; [apply I|exact Hk|]. unfold ub. cbn [ustep]. destruct (u_bump_box t (lbump k) l) as [b' r'] eqn:Eu. cbn [fst]. eapply bump_box_link_ok; eauto. }
  assert (Lp : (p < length (store (kw w)))%nat) by (eapply nth_lt; eauto).
  exists s', ss, (ABox (snd ub)). destruct (snd ub) as [a| | | | |] eqn:Er.
  2-6: destruct R as [-> R]; exists None; destruct (kcall_quiet _ _ _ _ _ _ _ _ _ f I E1 E2) as (i' & X1 & X2);
       [discriminate|discriminate|exact C'|apply put_length|apply EBorrowSlot.set_nth_length|eapply links_put; [exact Ck|congruence|apply I|exact R]|exists i'; auto].
  destruct R as (n & F & R). cbn zeta in R. destruct R as (-> & P1 & P2 & P3 & P4 & P5). do 2 eexists. split; [exact E1|]. split; [exact E2|]. split.
  - eapply KIBox; rewrite ?(k_w _ _ _ _ I); eauto.
  - cbn [kstep]. rewrite E2. cbn [fst kobjs_after]. pose proof I as []. constructor; cbn [kw ksbs kobjs kprots kbusy kcalls iworld ilinks itagsused ikbusy ikcalls]; auto;
      unfold ss, s'; rewrite ?EBorrowSlot.set_nth_length, ?put_length; auto.
    intros q kq Cq. destruct (Nat.eq_dec q p) as [->|Ne].
    + rewrite (cell_put _ _ _ _ Ck) in Cq. injection Cq as <-. exists x', (Fs ++ [F]). split; [eapply EBorrowSlot.set_nth_nth; eauto|]. rewrite !nth_set by congruence. exact P5.
    + rewrite cell_put_other in Cq by congruence. destruct (k_links0 q kq Cq) as (y & Gs & Ey & Iy). exists y, Gs. rewrite EBorrowSlot.set_nth_ne by exact Ne. rewrite !nth_set_other by exact Ne. auto.
Qed.

Lemma kcall_inv t w i f o u : valid_target t -> kinv t w i f -> kop_ok t w (KOp o u) -> (forall sz addr, o <> ONew sz addr) ->
  exists s' ss r blk i' f', cstep t (kw w) o = Some (s', r) /\ k_call t (kbusy w) (kcalls w) (kw w) o u (ksbs w) = Some ((s', r, blk), ss) /\
    kistep t i (KOp o u) (KAns r blk) i' /\ kinv t (fst (kstep t w (KOp o u))) i' f'.
Proof.
  intros V I [O K] No. destruct o as [sz addr|a b|a l|a|a|a].
  - destruct (No sz addr eq_refl).
  - destruct O as (Ne & Aa & Ab). destruct (chain_chain_spec t (kw w) f a b (k_c _ _ _ _ I) Ne Aa Ab) as (s' & E & Sp).
    assert (P : forall q c, In q (tl (f b)) -> In c (nth q (kprots w) []) -> (c < kcalls w)%nat /\ ~ In c (kbusy w)).
    { intros q c Hq Hc. split; [apply (k_pl _ _ _ _ I q c Hc)|]. apply (K (f b) q c); auto. apply (chain_owns_iff t (kw w) f b (f b) (k_c _ _ _ _ I)). auto. }
    destruct (chain_links t (kbusy w) (kcalls w) V (k_lt _ _ _ _ I) _ _ _ _ s' _ _ _ _ _ (k_c _ _ _ _ I) Ne Aa Ab E (k_links _ _ _ _ I) P) as (ss & Ek & Lk & Ln).
    assert (C' : exists f', cinv t s' f' [] /\ length (store s') = length (store (kw w))).
    { destruct (f b) as [|root tl0]; [destruct Sp as [C (_ & Kl & _)]; exists f; auto|]. destruct Sp as (C & ps & k & ri & _ & _ & _ & _ & (_ & Kl & _)). exists (chained f a root).
      split; [exact C|]. rewrite Kl. cbn [store set_root]. apply put_length. }
    destruct C' as (f' & C' & Ls).
    assert (E1 : cstep t (kw w) (OChain a b) = Some (s', AUnit)) by (cbn [cstep]; rewrite E; reflexivity).
    assert (E2 : k_call t (kbusy w) (kcalls w) (kw w) (OChain a b) u (ksbs w) = Some ((s', AUnit, None), ss)) by (cbn [k_call]; unfold kbind; rewrite Ek; reflexivity).
    destruct (kcall_quiet _ _ _ _ _ _ _ _ _ f' I E1 E2) as (i' & X1 & X2); auto; try discriminate. exists s', ss, AUnit, None, i', f'. auto.
  - destruct (kcall_box t w i f a l u V I O) as (s' & ss & r & blk & i' & X). exists s', ss, r, blk, i', f. exact X.
  - destruct O as [rt Hr]. pose proof (proj2 (cell_iff _ _ _) Hr) as Cr. destruct rt as [p|].
    + destruct (root_live _ _ _ _ _ (k_c _ _ _ _ I) Hr) as (k & Hk & Lo). pose proof (proj2 (cell_iff _ _ _) Hk) as Ck. destruct (k_links _ _ _ _ I p k Ck) as (x & Fs & Ex & Il).
      destruct (link_capacity t k V (proj1 Lo) (kbusy w) x _ _ _ _ _ Il) as (x' & Ec & Il').
      assert (E1 : cstep t (kw w) (OCapacity a) = Some (kw w, ASize (Ret (u_capacity (lbump k))))) by (cbn [cstep]; rewrite Cr, Ck; reflexivity).
      assert (E2 : k_call t (kbusy w) (kcalls w) (kw w) (OCapacity a) u (ksbs w) = Some ((kw w, ASize (Ret (u_capacity (lbump k))), None), BorrowModel.set_nth (ksbs w) p x')).
      { cbn [k_call]. unfold k_root. rewrite Cr, Ck. unfold kbind. rewrite (k_on_run _ _ _ _ _ _ Ex Ec). reflexivity. }
      destruct (kcall_quiet _ _ _ _ _ _ _ _ _ f I E1 E2) as (i' & X1 & X2); try discriminate; try apply I; auto; [apply EBorrowSlot.set_nth_length| |do 6 eexists; split; [exact E1|]; split; [exact E2|]; split; [exact X1|exact X2]].
      rewrite <- (put_same (kw w) p k Ck) at 1. eapply links_put; [exact Ck|congruence|apply I|exact Il'].
    + assert (E1 : cstep t (kw w) (OCapacity a) = Some (kw w, ASize (Ret 0))) by (cbn [cstep]; rewrite Cr; reflexivity).
      assert (E2 : k_call t (kbusy w) (kcalls w) (kw w) (OCapacity a) u (ksbs w) = Some ((kw w, ASize (Ret 0), None), ksbs w)) by (cbn [k_call]; unfold k_root; rewrite Cr; reflexivity).
      destruct (kcall_quiet _ _ _ _ _ _ _ _ _ f I E1 E2) as (i' & X1 & X2); try discriminate; try apply I; auto. do 6 eexists; split; [exact E1|]; split; [exact E2|]; split; [exact X1|exact X2].
  - destruct O as [rt Hr]. pose proof (proj2 (cell_iff _ _ _) Hr) as Cr. destruct rt as [p|].
    + destruct (root_live _ _ _ _ _ (k_c _ _ _ _ I) Hr) as (k & Hk & Lo). pose proof (proj2 (cell_iff _ _ _) Hk) as Ck. destruct (k_links _ _ _ _ I p k Ck) as (x & Fs & Ex & Il).
      destruct (link_remaining t k V (proj1 Lo) (kbusy w) x _ _ _ _ _ Il) as (x' & Ec & Il').
      set (r := ASize (op_sub t PC_sub (u_capacity (lbump k)) (u_level (lbump k)))).
      assert (E1 : cstep t (kw w) (ORemaining a) = Some (kw w, r)) by (cbn [cstep]; rewrite Cr, Ck; reflexivity).
      assert (E2 : k_call t (kbusy w) (kcalls w) (kw w) (ORemaining a) u (ksbs w) = Some ((kw w, r, None), BorrowModel.set_nth (ksbs w) p x')).
      { cbn [k_call]. unfold k_root. rewrite Cr, Ck. unfold kbind. rewrite (k_on_run _ _ _ _ _ _ Ex Ec). reflexivity. }
      destruct (kcall_quiet _ _ _ _ _ _ _ _ _ f I E1 E2) as (i' & X1 & X2); try discriminate; try apply I; auto; [apply EBorrowSlot.set_nth_length| |do 6 eexists; split; [exact E1|]; split; [exact E2|]; split; [exact X1|exact X2]].
      rewrite <- (put_same (kw w) p k Ck) at 1. eapply links_put; [exact Ck|congruence|apply I|exact Il'].
    + assert (E1 : cstep t (kw w) (ORemaining a) = Some (kw w, ASize (Ret 0))) by (cbn [cstep]; rewrite Cr; reflexivity).
      assert (E2 : k_call t (kbusy w) (kcalls w) (kw w) (ORemaining a) u (ksbs w) = Some ((kw w, ASize (Ret 0), None), ksbs w)) by (cbn [k_call]; unfold k_root; rewrite Cr; reflexivity).
      destruct (kcall_quiet _ _ _ _ _ _ _ _ _ f I E1 E2) as (i' & X1 & X2); try discriminate; try apply I; auto. do 6 eexists; split; [exact E1|]; split; [exact E2|]; split; [exact X1|exact X2].
  - destruct (drop_chain_spec t (kw w) f a (k_c _ _ _ _ I) O) as (s' & E & Kl & C').
    destruct (drop_links t (kbusy w) (kcalls w) V (k_lt _ _ _ _ I) (kw w) a s' (ksbs w) _ _ _ _ E (k_links _ _ _ _ I)) as (ss & Ek & Lk & Ln).
    { intros p k Ck. apply cell_iff in Ck. eapply ci_links; [apply I|exact Ck]. }
    { intros q c Lq Dq Hc. split; [apply (k_pl _ _ _ _ I q c Hc)|]. apply (K (f a) q c); [|exact (dead_in _ _ _ _ q Kl Lq Dq)|exact Hc].
      apply (chain_owns_iff t (kw w) f a (f a) (k_c _ _ _ _ I)). auto. }
    assert (E1 : cstep t (kw w) (ODrop a) = Some (s', AUnit)) by (cbn [cstep]; rewrite E; reflexivity).
    assert (E2 : k_call t (kbusy w) (kcalls w) (kw w) (ODrop a) u (ksbs w) = Some ((s', AUnit, None), ss)) by (cbn [k_call]; unfold kbind; rewrite Ek; reflexivity).
    destruct (kcall_quiet _ _ _ _ _ _ _ _ _ f I E1 E2) as (i' & X1 & X2); auto; try discriminate; [apply Kl|]. exists s', ss, AUnit, None, i', f. auto.
Qed.

Lemma kact_inv t w i f p j a : valid_target t -> kinv t w i f ->
  exists i', kistep t i (KAct p j a) (snd (kstep t w (KAct p j a))) i' /\ kinv t (fst (kstep t w (KAct p j a))) i' f /\ kw (fst (kstep t w (KAct p j a))) = kw w.
Proof.
  intros V I. cbn [kstep]. pose proof I as [].
  destruct (cell (store (kw w)) p) as [k|] eqn:Ck.
  2:{ exists i. cbn [fst snd]. split; [|auto]. apply KIActNot. intros [k' L]. rewrite k_w0 in L. apply cell_iff in L. congruence. }
  destruct (k_links0 p k Ck) as (x & Fs & Ex & Il). rewrite Ex.
  assert (Lv : link_live (iworld i) p) by (rewrite k_w0; exists k; apply cell_iff; exact Ck).
  assert (Lo : link_ok t k) by (apply cell_iff in Ck; eapply ci_links; eauto).
  assert (Eo : nth_error (objs_of w p) j = option_map (fun o => MkO (iblk o) (itags o)) (nth_error (objects i p) j)).
  { unfold objs_of, objects. rewrite <- (l_objs _ _ _ _ _ _ _ _ Il). apply nth_error_map. }
  destruct (nth_error (objects i p) j) as [o|] eqn:Ho; cbn [option_map] in Eo; rewrite Eo.
  2:{ exists i. cbn [fst snd]. split; [|auto]. apply KIActNot. congruence. }
  destruct (act_ok (MkO (iblk o) (itags o)) a) eqn:A; cbn [andb].
  2:{ exists i. cbn [fst snd]. split; [|auto]. apply KIActNot. intros _ o' Eo'. assert (o' = o) by congruence. subst o'. rewrite A. reflexivity. }
  destruct (prot_ok (kbusy w) a) eqn:Pk.
  2:{ exists i. cbn [fst snd]. split; [|auto]. apply KIActNot. intros _ o' Eo'. rewrite k_busy0, Pk. apply andb_false_r. }
  pose proof (link_act t k V (kbusy w) x _ _ _ _ _ j o a Il Ho A) as X.
  destruct (do_act (kbusy w) a x) as [[n s']|] eqn:Ed.
  - destruct (ideal_act (kbusy w) o a (nexttag x)) as [o'|] eqn:Ei; [|contradiction]. destruct X as (-> & Fs' & Il').
    assert (Lp : (p < length (store (kw w)))%nat) by (eapply cell_lt; eauto).
    eexists. cbn [fst snd]. split; [|split; [|reflexivity]].
    + rewrite ans_tag. eapply KIAct; eauto; rewrite ?k_busy0; eauto. intros Hn. pose proof (l_used _ _ _ _ _ _ _ _ Il _ Hn). lia.
    + constructor; cbn [kw ksbs kobjs kprots kbusy kcalls iworld ilinks itagsused ikbusy ikcalls]; rewrite ?EBorrowSlot.set_nth_length; auto.
      * intros q kq Cq. destruct (Nat.eq_dec q p) as [->|Ne].
        -- assert (kq = k) by congruence. subst kq. exists s', Fs'. split; [eapply EBorrowSlot.set_nth_nth; eauto|]. rewrite !nth_set by congruence. exact Il'.
        -- destruct (k_links0 q kq Cq) as (y & Gs & Ey & Iy). exists y, Gs. rewrite EBorrowSlot.set_nth_ne by exact Ne. rewrite !nth_set_other by exact Ne. auto.
      * unfold prots_of. cbn [kprots]. intros q c Hc. destruct (Nat.eq_dec q p) as [->|Ne].
        -- rewrite nth_set in Hc by congruence. destruct a as [| |? ? [c'|]]; cbn [prots_after] in Hc; try (apply (k_pl0 p c Hc)).
           destruct Hc as [<-|Hc]; [|apply (k_pl0 p c Hc)]. cbn [prot_ok] in Pk. apply existsb_exists in Pk. destruct Pk as (d & D1 & D2). apply Nat.eqb_eq in D2. subst d. apply k_lt0. exact D1.
        -- rewrite nth_set_other in Hc by exact Ne. apply (k_pl0 q c Hc).
  - destruct (ideal_act (kbusy w) o a (nexttag x)) as [o'|] eqn:Ei; [contradiction|]. exists i. cbn [fst snd]. split; [|auto].
    eapply KIActUB; eauto; rewrite ?k_busy0; eauto.
Qed.

Lemma leave_in l c d : In d (leave l c) -> In d l.
Proof. unfold leave. intros H. apply filter_In in H. apply H. Qed.

Lemma kstep_inv t w i f o : valid_target t -> kinv t w i f -> kop_ok t w o ->
  exists i' f', kistep t i o (snd (kstep_w t w o)) i' /\ kinv t (fst (kstep_w t w o)) i' f' /\
    match o with
    | KOp q _ => exists r blk, snd (kstep_w t w o) = KAns r blk /\ cstep t (kw w) q = Some (kw (fst (kstep_w t w o)), r)
    | _ => kw (fst (kstep_w t w o)) = kw w
    end.
Proof.
  intros V I K. destruct o as [o u|p j a| |c].
  - destruct o as [sz addr|x y|x l|x|x|x]; [apply (kcall_new t w i f sz addr u V I (proj1 K))| | | | |]; cbn [kstep_w];
    match goal with |- context[KOp ?q _] => set (o := q) in * end;
    destruct (kcall_inv t w i f o u V I K) as (s' & ss & r & blk & i' & f' & E1 & E2 & X1 & X2); try discriminate; exists i', f';
    assert (E3 : snd (kstep t w (KOp o u)) = KAns r blk) by (cbn [kstep]; rewrite E2; reflexivity); rewrite E3; (split; [exact X1|]); (split; [exact X2|]);
    exists r, blk; (split; [reflexivity|]); cbn [kstep]; rewrite E2; exact E1.
  - destruct (kact_inv t w i f p j a V I) as (i' & X). exists i', f. exact X.
  - pose proof I as []. eexists. exists f. cbn [kstep_w kstep fst snd]. rewrite <- k_calls0. split; [apply KIEnter|]. rewrite k_calls0. split; [|reflexivity].
    constructor; cbn [kw ksbs kobjs kprots kbusy kcalls iworld ilinks itagsused ikbusy ikcalls]; auto; try congruence.
    + intros c [<-|H]; [lia|]. specialize (k_lt0 c H). lia.
    + intros p c H. pose proof (k_pl0 p c H). lia.
  - pose proof I as []. eexists. exists f. cbn [kstep_w kstep fst snd]. split; [apply KIExit|]. split; [|reflexivity].
    constructor; cbn [kw ksbs kobjs kprots kbusy kcalls iworld ilinks itagsused ikbusy ikcalls]; auto; try congruence.
    intros d H. apply k_lt0. eapply leave_in; eauto.
Qed.

(** ** Programs *)
Lemma krun_fst t os : forall w, map fst (snd (krun t w os)) = os.
Proof.
  induction os as [|o os IH]; intros w; cbn [krun]; [reflexivity|]. destruct (kstep t w o) as [w1 r]. specialize (IH w1). destruct (krun t w1 os) as [w2 h]. cbn in *. congruence.
Qed.

Lemma kiruns_ub t h : forall i i', kiruns t i h i' -> forall o, In (o, KUB) h -> exists p j a, o = KAct p j a.
Proof.
  intros i i' R. induction R as [|s1 o r s2 h s3 St R IH]; intros q Q; [destruct Q|]. destruct Q as [E|Q]; [|exact (IH q Q)]. injection E as <- ->. inversion St; subst; eauto.
Qed.

Lemma kiruns_plain t h : forall i i', kiruns t i h i' -> (forall p, Forall simple (objects i p)) -> Forall (fun p => kplain (fst p)) h -> forall o, ~ In (o, KUB) h.
Proof.
  intros i i' R. induction R as [|s1 o r s2 h s3 St R IH]; intros F P q Q; [destruct Q|]. inversion P as [|? ? P1 P2]; subst. cbn [fst] in P1.
  assert (X : (forall p, Forall simple (objects s2 p)) /\ r <> KUB).
  { assert (Set_ : forall l p x w us b c q0, Forall simple x -> (forall q0, Forall simple (nth q0 l [])) -> Forall simple (objects (MkKI w (BorrowModel.set_nth l p x) us b c) q0)).
    { intros l p x w us b c q0 Fx Fl. unfold objects. cbn [ilinks]. destruct (Nat.eq_dec q0 p) as [->|Ne]; [|rewrite nth_set_other by exact Ne; apply Fl].
      destruct (Nat.lt_ge_cases p (length l)) as [L|L]; [rewrite nth_set by exact L; exact Fx|]. rewrite nth_overflow; [constructor|]. rewrite EBorrowSlot.set_nth_length. exact L. }
    inversion St; subst; (split; [|try discriminate]); try exact F.
    - intros p. unfold objects. cbn [ilinks]. destruct (Nat.lt_ge_cases p (length (ilinks s1))) as [L|L]; [rewrite app_nth1 by exact L; apply F|].
      rewrite app_nth2 by exact L. destruct (p - length (ilinks s1))%nat as [|[|d]]; constructor.
    - intros p0. apply Set_; [|apply F]. apply Forall_app. split; [apply F|]. constructor; [|constructor]. exists n, SharedRW. cbn. auto.
    - intros p0. apply Set_; [|apply F]. apply Forall_forall. intros y Y. apply set_nth_in in Y. pose proof (F p) as Fp. rewrite Forall_forall in Fp. destruct Y as [->|Y]; [|auto].
      destruct (simple_ok (ikbusy s1) o0 a (Fp _ (nth_error_In _ _ H0)) H1) with (n := n) as (o2 & E2 & S2); [destruct a; auto|]. assert (o2 = o') by congruence. subst o2. exact S2.
    - destruct a; discriminate.
    - exfalso. pose proof (F p) as Fp. rewrite Forall_forall in Fp. destruct (simple_ok (ikbusy s2) o0 a (Fp _ (nth_error_In _ _ H0)) H1) with (n := n) as (o2 & E2 & S2); [destruct a; auto|]. congruence. }
  destruct X as [X1 X2]. destruct Q as [E|Q]; [congruence|]. exact (IH X1 P2 q Q).
Qed.
