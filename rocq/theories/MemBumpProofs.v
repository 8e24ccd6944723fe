(** * MemBumpProofs *)
From Verif Require Import Base Spec BaseFacts SyncModel SyncSpec SyncProofs SyncMemModel SyncMemSpec SyncMemProofs
  UnsyncModel UnsyncSpec UnsyncProofs ExitModel ExitProofs MemBumpModel MemBumpSpec.

Definition header_of (t : target) (f : fat) : block := MkBlock (faddr f) (word_bytes t).

Definition bblock_ok (u : ubump) (b : block) : Prop :=
  0 < size b /\ start (udata u) <= start b /\ start b + size b <= start (udata u) + uindex u.

Definition binv (t : target) (f : fat) (s : bstate) (u : ubump) : Prop :=
  bfat s = f /\ view t (bmem s) f = Some u /\ uok t u /\ udata u = fat_data t f /\
  Forall (bblock_ok u) (bblocks s) /\ pairwise disjoint (bblocks s).

Lemma view_load t m f u : view t m f = Some u -> load_usize t m (faddr f) = Some (uindex u) /\ udata u = fat_data t f.
Proof. unfold view. destruct (load_usize t m (faddr f)); [|discriminate]. intros H. injection H as <-. auto. Qed.

Lemma view_eq t m f u : load_usize t m (faddr f) = Some (uindex u) -> udata u = fat_data t f -> view t m f = Some u.
Proof. unfold view. intros -> H. destruct u; cbn in *. subst. reflexivity. Qed.

Lemma uok_usize t u : valid_target t -> uok t u -> is_usize t (uindex u).
Proof.
  intros Ht [(_ & H1 & _) H2]. cbn in H1, H2. pose proof (isize_lt_usize t Ht) as [? ?]. unfold is_usize, usize_max. lia.
Qed.

(** storing the new index: the view changes as it should, and only the header is written *)
Lemma bstore_view t m f u u' :
  valid_target t -> view t m f = Some u -> uok t u' -> udata u' = fat_data t f ->
  view t (bstore t m f u u') f = Some u' /\ same_outside (header_of t f) m (bstore t m f u u').
Proof.
  intros Ht Hv Hok Hd. destruct (view_load t m f u Hv) as [Hl Hdu]. unfold bstore.
  destruct (Z.eqb_spec (uindex u') (uindex u)) as [E|E].
  - split; [|intros x _; reflexivity]. apply view_eq; [|exact Hd]. rewrite E. exact Hl.
  - split; [|apply store_outside; exact Ht].
    apply view_eq; [|exact Hd]. apply store_load; [exact Ht|apply uok_usize; assumption].
Qed.

Lemma header_apart t f u b : udata u = fat_data t f -> bblock_ok u b -> disjoint (header_of t f) b.
Proof.
  intros Hd (H1 & H2 & H3) x [Hx Hy]. rewrite Hd in H2. unfold header_of, fat_data, in_block in *. cbn [start size] in *. lia.
Qed.

Lemma view_write t m f u b off bs :
  valid_target t -> view t m f = Some u -> bblock_ok u b -> 0 <= off -> off + Z.of_nat (length bs) <= size b ->
  view t (mem_write m (start b + off) bs) f = Some u.
Proof.
  intros Ht Hv Hb Ho Hl. destruct (view_load t m f u Hv) as [L D]. apply view_eq; [|exact D].
  rewrite <- L. apply load_usize_same; [exact Ht|]. intros x Hx.
  apply (mem_write_outside m (start b + off) bs (Z.of_nat (length bs))); [lia|].
  intros Hin. apply (header_apart t f u b D Hb x). unfold header_of, in_block in *. cbn [start size] in *. lia.
Qed.

Definition bcontents (s : bstate) : list (list (option Z)) :=
  map (fun b => mem_read (bmem s) (start b) (size b)) (bblocks s).

Lemma mem_read_length m p n : 0 <= n -> Z.of_nat (length (mem_read m p n)) = n.
Proof. intros H. unfold mem_read. rewrite map_length, seq_length. lia. Qed.

Lemma map_reads_same m m' bl :
  (forall b, In b bl -> same_on b m m') ->
  map (fun b => mem_read m' (start b) (size b)) bl = map (fun b => mem_read m (start b) (size b)) bl.
Proof.
  intros H. apply map_ext_in. intros b Hb. apply mem_read_same. intros x Hx. apply (H b Hb). exact Hx.
Qed.

Lemma nth_mem_read m p n k : 0 <= n -> nth_error (mem_read m p n) k = if Z.of_nat k <? n then Some (m (p + Z.of_nat k)) else None.
Proof.
  intros Hn. destruct (Z.ltb_spec (Z.of_nat k) n).
  - unfold mem_read. rewrite nth_error_map.
    rewrite (nth_error_nth' _ 0%nat) by (rewrite seq_length; lia). cbn. rewrite seq_nth by lia. reflexivity.
  - apply nth_error_None. unfold mem_read. rewrite map_length, seq_length. lia.
Qed.

Lemma nth_error_firstn_ {A} (l : list A) n k : (k < n)%nat -> nth_error (firstn n l) k = nth_error l k.
Proof. revert l k. induction n; intros l k H; [lia|]. destruct l, k; cbn; auto. apply IHn. lia. Qed.
Lemma nth_error_skipn_ {A} (l : list A) n k : nth_error (skipn n l) k = nth_error l (n + k).
Proof. revert l. induction n; intros l; [reflexivity|]. destruct l; cbn; auto. destruct k; reflexivity. Qed.

Lemma nth_error_ext_ {A} (l l' : list A) : (forall k, nth_error l k = nth_error l' k) -> l = l'.
Proof.
  revert l'. induction l as [|x l IH]; intros [|y l'] H; try reflexivity; try (specialize (H O); discriminate).
  f_equal; [specialize (H O); injection H; auto|]. apply IH. intros k. apply (H (S k)).
Qed.

Lemma read_spliced m p n off bs :
  0 <= off -> off + Z.of_nat (length bs) <= n ->
  mem_read (mem_write m (p + off) bs) p n = splice (mem_read m p n) (Z.to_nat off) bs.
Proof.
  intros Ho Hl. assert (Hn : 0 <= n) by lia. apply nth_error_ext_. intros k. unfold splice.
  pose proof (mem_read_length m p n Hn) as HL.
  assert (Hf : length (firstn (Z.to_nat off) (mem_read m p n)) = Z.to_nat off) by (rewrite firstn_length; lia).
  rewrite (nth_mem_read _ p n k Hn).
  destruct (Nat.lt_ge_cases k (Z.to_nat off)) as [K|K].
  { rewrite nth_error_app1 by lia. rewrite nth_error_firstn_ by exact K. rewrite nth_mem_read by exact Hn.
    destruct (Z.ltb_spec (Z.of_nat k) n); [|reflexivity]. f_equal. 
    apply (mem_write_outside m (p + off) bs (Z.of_nat (length bs))); [lia|]. unfold in_block. cbn [start size]. lia. }
  rewrite nth_error_app2 by lia. rewrite Hf.
  destruct (Nat.lt_ge_cases (k - Z.to_nat off) (length bs)) as [J|J].
  { rewrite nth_error_app1 by exact J. destruct (nth_error bs (k - Z.to_nat off)) as [x|] eqn:E.
    - pose proof (mem_write_reads m (p + off) bs _ _ E) as R.
      replace (p + off + Z.of_nat (k - Z.to_nat off)) with (p + Z.of_nat k) in R by lia. rewrite R.
      destruct (Z.ltb_spec (Z.of_nat k) n); [reflexivity|lia].
    - apply nth_error_None in E. lia. }
  rewrite nth_error_app2 by exact J. rewrite nth_error_skipn_.
  replace (Z.to_nat off + length bs + (k - Z.to_nat off - length bs))%nat with k by lia.
  rewrite nth_mem_read by exact Hn. destruct (Z.ltb_spec (Z.of_nat k) n); [|reflexivity]. f_equal.
  apply (mem_write_outside m (p + off) bs (Z.of_nat (length bs))); [lia|]. unfold in_block. cbn [start size]. lia.
Qed.

Lemma map_upd_read m m' (bl : list block) k b x :
  nth_error bl k = Some b -> mem_read m' (start b) (size b) = x ->
  (forall j c, j <> k -> nth_error bl j = Some c -> mem_read m' (start c) (size c) = mem_read m (start c) (size c)) ->
  map (fun b => mem_read m' (start b) (size b)) bl = upd (map (fun b => mem_read m (start b) (size b)) bl) k x.
Proof.
  intros Hk Hx Ho. apply nth_error_ext_. intros j. rewrite nth_error_map.
  destruct (Nat.eq_dec j k) as [->|N].
  - rewrite Hk. cbn. erewrite nth_error_upd_same; [|rewrite nth_error_map, Hk; reflexivity]. f_equal. exact Hx.
  - rewrite nth_error_upd_other by auto. rewrite nth_error_map. destruct (nth_error bl j) as [c|] eqn:E; [|reflexivity].
    cbn. f_equal. apply (Ho j c N E).
Qed.

(** One step: invariant, what it does to memory, and the answer *)
Lemma bcall_step t f s u c :
  valid_target t -> binv t f s u -> valid_ucall t c ->
  exists s' u' r, bstep t s (BCall c) = (s', BResp r) /\ ustep t u c = (u', r) /\ binv t f s' u' /\
    same_outside (header_of t f) (bmem s) (bmem s') /\
    bblocks s' = (if is_ureset c then [] else
              match uevent_block (c, r) with Some b => bblocks s ++ [b] | None => bblocks s end).
Proof.
  intros Ht (Hf & Hv & Hok & Hd & Hb & Hp) Hc. unfold bstep. rewrite Hf, Hv.
  destruct (ustep_ok t u c Ht Hok Hc) as [Hok1 Hst1].
  pose proof (ustep_spec t u c Ht Hok Hc) as Es.
  pose proof (uspec_cases t u c Ht Hok Hc) as Hcs. rewrite <- Es in Hcs.
  destruct (ustep t u c) as [u1 r] eqn:E. cbn [fst] in *.
  destruct (bstore_view t (bmem s) f u u1 Ht Hv Hok1 ltac:(congruence)) as [V1 V2].
  eexists _, u1, r. split; [reflexivity|]. split; [reflexivity|]. cbn [bmem bblocks].
  split; [|split; [exact V2|reflexivity]].
  unfold binv. cbn [bfat bmem bblocks]. split; [reflexivity|]. split; [exact V1|]. split; [exact Hok1|].
  split; [congruence|].
  destruct Hcs as [[-> Hnb]|[(l & Hl1 & Hl & Hpos & Hfit & Hrs & -> & ->)|(-> & -> & ->)]].
  - destruct (is_ureset c); [split; [constructor|apply pairwise_nil]|].
    destruct (uevent_block (c, r)) as [b|] eqn:Eb; [|split; assumption].
    unfold uevent_block in Eb. destruct r; try discriminate. exfalso. eapply Hnb. reflexivity.
  - rewrite Hrs. unfold uevent_block. rewrite Hl1.
    destruct (placed_facts t u l Hok Hl Hpos Hfit) as (P1 & P2 & P3 & P4).
    change (ptr (placed (slab_of u) l)) with (place (slab_of u) l).
    assert (Hi : uindex (of_slab (bumped (slab_of u) l)) = place (slab_of u) l + lsize l - start (udata u)) by reflexivity.
    destruct Hok as [_ Hc0]. cbn in Hc0.
    split.
    + apply Forall_app. split.
      * eapply Forall_impl; [|exact Hb]. intros b (B1 & B2 & B3). unfold bblock_ok.
        change (udata (of_slab (bumped (slab_of u) l))) with (udata u). rewrite Hi. lia.
      * constructor; [|constructor]. unfold bblock_ok.
        change (udata (of_slab (bumped (slab_of u) l))) with (udata u). rewrite Hi. cbn [start size]. lia.
    + apply pairwise_app; [intros ? ?; apply disjoint_sym|exact Hp| |].
      * apply pairwise_cons; [intros ? ?; apply disjoint_sym|constructor|apply pairwise_nil].
      * intros x y Hx [<-|[]]. rewrite Forall_forall in Hb. specialize (Hb x Hx). destruct Hb as (B1 & B2 & B3).
        unfold disjoint, in_block. cbn [start size]. intros z [Z1 Z2]. lia.
  - cbn [is_ureset]. split; [constructor|apply pairwise_nil].
Qed.

Lemma bother_step t f s u o :
  valid_target t -> binv t f s u -> bround t f = Ret f -> (forall c, o <> BCall c) ->
  exists s' a, bstep t s o = (s', a) /\ binv t f s' u /\ bblocks s' = bblocks s /\
    match o, a with
    | BWrite k off bs, BDone => exists b, nth_error (bblocks s) k = Some b /\ 0 <= off /\ off + Z.of_nat (length bs) <= size b /\
                                  bmem s' = mem_write (bmem s) (start b + off) bs
    | BWrite k off bs, BInvalid => s' = s /\
        (forall b, nth_error (bblocks s) k = Some b -> off < 0 \/ size b < off + Z.of_nat (length bs))
    | BRead k, BBytes bs => s' = s /\ nth_error (bcontents s) k = Some bs
    | BRead k, BInvalid => s' = s /\ nth_error (bblocks s) k = None
    | BRoundTrip, BDone => s' = s
    | _, _ => False
    end.
Proof.
  intros Ht I Hr Hn. pose proof I as (Hf & Hv & Hok & Hd & Hb & Hp). destruct o as [c|k off bs|k|]; [destruct (Hn c); reflexivity| | |]; unfold bstep.
  - destruct (nth_error (bblocks s) k) as [b|] eqn:E.
    + destruct (Z.leb_spec 0 off) as [H1|H1]; cbn [andb].
      2:{ do 2 eexists. split; [reflexivity|]. split; [exact I|]. split; [reflexivity|]. cbn. split; [reflexivity|].
          intros b' [= <-]. lia. }
      destruct (Z.leb_spec (off + Z.of_nat (length bs)) (size b)) as [H2|H2].
      2:{ do 2 eexists. split; [reflexivity|]. split; [exact I|]. split; [reflexivity|]. cbn. split; [reflexivity|].
          intros b' [= <-]. lia. }
      do 2 eexists. split; [reflexivity|]. cbn [bmem bblocks]. split; [|split; [reflexivity|exists b; auto]].
      unfold binv. cbn [bmem bblocks bfat]. split; [exact Hf|]. split.
      * rewrite Forall_forall in Hb. apply (view_write t (bmem s) f u b off bs Ht Hv); auto.
        apply Hb. apply nth_error_In with k. exact E.
      * auto.
    + do 2 eexists. split; [reflexivity|]. split; [exact I|]. split; [reflexivity|]. cbn. split; [reflexivity|]. discriminate.
  - destruct (nth_error (bblocks s) k) as [b|] eqn:E.
    + do 2 eexists. split; [reflexivity|]. split; [exact I|]. split; [reflexivity|]. cbn. split; [reflexivity|].
      unfold bcontents. rewrite nth_error_map, E. reflexivity.
    + do 2 eexists. split; [reflexivity|]. split; [exact I|]. split; [reflexivity|]. cbn. auto.
  - rewrite Hf, Hr. do 2 eexists. split; [reflexivity|]. cbn [bmem bblocks].
    assert (Hs : MkBS (bmem s) f (bblocks s) = s) by (destruct s; cbn in *; subst; reflexivity). rewrite Hs.
    split; [exact I|]. split; reflexivity.
Qed.

Definition whole (t : target) (f : fat) : block := MkBlock (faddr f) (word_bytes t + flen f).

Lemma bblock_in_whole t f u b : valid_target t -> uok t u -> udata u = fat_data t f -> bblock_ok u b -> inside b (whole t f).
Proof.
  intros Ht [_ Hc] Hd (B1 & B2 & B3). cbn in Hc. rewrite Hd in *. unfold fat_data in *. cbn [start size] in *.
  pose proof (word_pos t Ht). apply inside_intro; unfold whole; cbn [start size]; lia.
Qed.

Lemma contents_same s m' : (forall b, In b (bblocks s) -> same_on b (bmem s) m') ->
  map (fun b => mem_read m' (start b) (size b)) (bblocks s) = bcontents s.
Proof. intros H. apply map_reads_same. exact H. Qed.

Lemma brun_spec t f os : forall s u,
  valid_target t -> 0 <= flen f -> bround t f = Ret f -> binv t f s u -> Forall (valid_bop t) os ->
  let (s', h) := brun t s os in
  binv t f s' (fst (urun t u (bcalls os))) /\ bresponses h = snd (urun t u (bcalls os)) /\
  same_outside (whole t f) (bmem s) (bmem s') /\ ideal (bcontents s) h (bcontents s').
Proof.
  induction os as [|o os IH]; intros s u Ht Hlen Hr I Hv; cbn [brun bcalls urun].
  { split; [exact I|]. split; [reflexivity|]. split; [intros x _; reflexivity|constructor]. }
  inversion Hv as [|? ? Hvo Hvs]; subst. pose proof I as (Hf & Hvw & Hok & Hd & Hb & Hp).
  assert (Hbin : forall b, In b (bblocks s) -> bblock_ok u b) by (rewrite Forall_forall in Hb; exact Hb).
  pose proof (word_pos t Ht) as W.
  destruct o as [c|k off bs|k|].
  - destruct (bcall_step t f s u c Ht I Hvo) as (s1 & u1 & r & E1 & E2 & I1 & M1 & B1). rewrite E1.
    cbn [bcalls urun]. rewrite E2.
    specialize (IH s1 u1 Ht Hlen Hr I1 Hvs). destruct (brun t s1 os) as [s2 h]. destruct (urun t u1 (bcalls os)) as [u2 g].
    cbn [fst snd] in *. destruct IH as (J1 & J2 & J3 & J4). split; [exact J1|]. cbn [bresponses]. split; [f_equal; exact J2|].
    split.
    + intros x Hx. rewrite (J3 x Hx). apply M1. intros Hin. apply Hx. unfold header_of, whole, in_block in *.
      cbn [start size] in *. lia.
    + assert (Hsame : map (fun b => mem_read (bmem s1) (start b) (size b)) (bblocks s) = bcontents s).
      { apply contents_same. intros b Hbi x Hx. apply M1. intros Hh.
        apply (header_apart t f u b Hd (Hbin b Hbi) x). split; assumption. }
      destruct (is_ureset c) eqn:Er.
      * apply ideal_reset; [exact Er|]. unfold bcontents at 1 in J4. rewrite B1 in J4. exact J4.
      * destruct (uevent_block (c, r)) as [b|] eqn:Eb.
        -- apply (ideal_new _ _ _ b (mem_read (bmem s1) (start b) (size b))); [exact Er|exact Eb| |].
           ++ apply mem_read_length. destruct I1 as (_ & _ & _ & _ & Hb1 & _). rewrite B1 in Hb1.
              apply Forall_app in Hb1. destruct Hb1 as [_ Hb1]. inversion Hb1 as [|? ? (? & _) _]; subst. lia.
           ++ unfold bcontents at 1 in J4. rewrite B1, map_app, Hsame in J4. exact J4.
        -- apply ideal_none; [exact Er|exact Eb|]. unfold bcontents at 1 in J4. rewrite B1, Hsame in J4. exact J4.
  - destruct (bother_step t f s u (BWrite k off bs) Ht I Hr ltac:(discriminate)) as (s1 & a & E & I1 & B1 & H).
    rewrite E. specialize (IH s1 u Ht Hlen Hr I1 Hvs). destruct (brun t s1 os) as [s2 h]. cbn [bcalls].
    destruct IH as (J1 & J2 & J3 & J4). split; [exact J1|]. destruct a; try contradiction.
    + destruct H as (b & Hk & Ho & Hl & Hm). split; [exact J2|]. split.
      * intros x Hx. rewrite (J3 x Hx), Hm. apply (mem_write_outside _ _ _ (Z.of_nat (length bs))); [lia|].
        intros Hin. apply Hx. apply (bblock_in_whole t f u b Ht Hok Hd (Hbin b (nth_error_In _ _ Hk))).
        unfold in_block in *. cbn [start size] in *. lia.
      * pose proof (Hbin b (nth_error_In _ _ Hk)) as (Hb0 & _).
        apply (ideal_write _ k off bs (mem_read (bmem s) (start b) (size b))).
        -- unfold bcontents. rewrite nth_error_map, Hk. reflexivity.
        -- exact Ho.
        -- rewrite mem_read_length by lia. exact Hl.
        -- unfold bcontents at 1 in J4. rewrite B1 in J4. rewrite <- (read_spliced (bmem s) (start b) (size b) off bs Ho Hl).
           rewrite <- (map_upd_read (bmem s) (bmem s1) (bblocks s) k b _ Hk); [exact J4|rewrite Hm; reflexivity|].
           intros j c Hj Hc. rewrite Hm. apply mem_read_same. intros x Hx.
           apply (mem_write_outside _ _ _ (Z.of_nat (length bs))); [lia|]. intros Hin.
           apply (Hp j k c b Hj Hc Hk x). unfold in_block in *. cbn [start size] in *. lia.
    + destruct H as [-> H]. split; [exact J2|]. split; [exact J3|]. apply ideal_bad_write; [|exact J4].
      intros old Ho. unfold bcontents in Ho. rewrite nth_error_map in Ho. destruct (nth_error (bblocks s) k) as [b|] eqn:Ek; [|discriminate].
      injection Ho as <-. destruct (Hbin b (nth_error_In _ _ Ek)) as (Hb0 & _). rewrite mem_read_length by lia.
      apply (H b eq_refl).
  - destruct (bother_step t f s u (BRead k) Ht I Hr ltac:(discriminate)) as (s1 & a & E & I1 & B1 & H).
    rewrite E. specialize (IH s1 u Ht Hlen Hr I1 Hvs). destruct (brun t s1 os) as [s2 h]. cbn [bcalls].
    destruct IH as (J1 & J2 & J3 & J4). split; [exact J1|]. destruct a; try contradiction; destruct H as [-> H].
    + split; [exact J2|]. split; [exact J3|]. apply ideal_read; [exact H|exact J4].
    + split; [exact J2|]. split; [exact J3|]. apply ideal_bad_read; [|exact J4].
      unfold bcontents. rewrite nth_error_map, H. reflexivity.
  - destruct (bother_step t f s u BRoundTrip Ht I Hr ltac:(discriminate)) as (s1 & a & E & I1 & B1 & H).
    rewrite E. specialize (IH s1 u Ht Hlen Hr I1 Hvs). destruct (brun t s1 os) as [s2 h]. cbn [bcalls].
    destruct IH as (J1 & J2 & J3 & J4). split; [exact J1|]. destruct a; try contradiction. subst s1.
    split; [exact J2|]. split; [exact J3|]. apply ideal_round. exact J4.
Qed.

Lemma from_mem_start t m b f :
  valid_target t -> valid_region t b -> snd (from_mem t m b) = Ret (Some f) ->
  binv t f (MkBS (fst (from_mem t m b)) f []) (u_fresh (fat_data t f)) /\ bround t f = Ret f /\ 0 <= flen f /\
  inside (whole t f) b /\ same_outside b m (fst (from_mem t m b)) /\ valid_region t (fat_data t f).
Proof.
  intros Ht Hb Hf. destruct (from_mem_exact t m b Ht Hb) as (p & Hp & K1 & K2).
  destruct (Z_le_gt_dec (p + word_bytes t) (start b + size b)) as [H|H]; [|rewrite (K2 ltac:(lia)) in Hf; discriminate].
  destruct (K1 H) as (f' & F1 & F2 & F3 & F4 & F5 & F6 & F7 & F8 & F9).
  rewrite Hf in F1. injection F1 as <-. destruct (roundtrip t m b f Ht Hb Hf) as (R1 & R2 & R3 & R4).
  pose proof (word_pos t Ht) as W. destruct F3 as (D1 & D2 & D3 & D4).
  split; [|split; [exact R4|split; [exact D1|split; [|split]]]].
  - unfold binv. cbn [bfat bmem bblocks]. split; [reflexivity|]. split; [exact F7|]. split; [apply uok_fresh; exact F8|].
    split; [reflexivity|]. split; [constructor|apply pairwise_nil].
  - replace (whole t f) with (into_mem t f); [exact R3|]. destruct (into_mem t f) as [a0 n0]; cbn [start size] in *. unfold whole. congruence.
  - intros x Hx. apply F9. intros Hin. apply Hx. apply F4. exact Hin.
  - exact F8.
Qed.
