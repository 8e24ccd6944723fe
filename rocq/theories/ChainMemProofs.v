(** * ChainMemProofs *)
From Verif Require Import Base Spec BaseFacts SyncModel SyncSpec SyncProofs SyncMemModel SyncMemSpec SyncMemProofs
  UnsyncModel UnsyncSpec UnsyncProofs ExitModel ExitProofs MemBumpModel MemBumpSpec MemBumpProofs ChainModel ChainMemModel ChainMemSpec.
From Verif Require ChainProofs ChainSpec.

(** ** Layout *)

Lemma val_layout t n : valid_target t -> 0 <= n -> link_val_layout t n = link_layout t n.
Proof.
  intros Ht Hn. pose proof (usize_align_pos t Ht) as Ha.
  assert (Hw2 : (usize_align t | 2 * word_bytes t)) by (apply Z.divide_mul_r; apply Ht).
  unfold link_val_layout, link_layout, fat_layout. cbn [lsize lalign flen]. rewrite Z.max_id.
  rewrite (align_up_id (2 * word_bytes t)) by assumption.
  pose proof (align_up_aligned (word_bytes t + n) (usize_align t) Ha) as Hal.
  rewrite align_up_id; [|exact Ha|apply Z.divide_add_r; assumption]. f_equal.
  unfold align_up. replace (- (3 * word_bytes t + n)) with (- (word_bytes t + n) + (- 2 * word_bytes t)) by lia.
  destruct Hw2 as [q Hq]. replace (- 2 * word_bytes t) with ((- q) * usize_align t) by lia.
  rewrite Z_mod_plus_full. lia.
Qed.

Lemma layout_big t n : valid_target t -> 0 <= n -> 3 * word_bytes t + n <= lsize (link_layout t n).
Proof. intros Ht Hn. unfold link_layout. cbn [lsize]. apply align_up_ge. apply usize_align_pos. exact Ht. Qed.

Lemma from_size_spec t n : valid_target t -> 0 <= n ->
  link_layout_from_size t n = if isize_max t <? lsize (link_layout t n) then None else Some (link_layout t n).
Proof.
  intros Ht Hn. destruct (ChainProofs.link_layout_iff t n Ht Hn) as [L1 L2].
  destruct (Z.ltb_spec (isize_max t) (lsize (link_layout t n))) as [H|H]; [exact (L2 H)|exact (L1 H)].
Qed.

(** ** One link in memory *)

Record link_good (t : target) (k : rlink) : Prop := {
  lg_region : valid_region t (kraw t k);
  lg_cap : 0 <= kcap k;
  lg_used : 0 <= kused k <= kcap k }.

Definition hof (k : rlink) : handle := (kbase k, kcap k).

Lemma hof_ok t k : valid_target t -> link_good t k -> link_ok t (Some (hof k)).
Proof.
  intros Ht [(R1 & R2 & R3) C U]. unfold link_ok, hof. cbn [fst snd kraw start size] in *.
  pose proof (layout_big t (kcap k) Ht C). pose proof (word_pos t Ht). unfold is_usize, usize_max. 
  pose proof (isize_lt_usize t Ht). unfold usize_max in *. lia.
Qed.

(** index and untouched bytes *)
Definition link_in (t : target) (m : mem) (k : rlink) : Prop :=
  load_usize t m (kbase k + 2 * word_bytes t) = Some (kused k) /\
  forall x, kused k <= x < kcap k -> m (start (kdata t k) + x) = Some 0.

Fixpoint seg (t : target) (m : mem) (p : option handle) (ls : list rlink) : Prop :=
  match ls with
  | [] => p = None
  | k :: ls => p = Some (hof k) /\ link_in t m k /\ exists n, load_link t m (kbase k) = Some n /\ seg t m n ls
  end.

Definition raw_same (t : target) (k : rlink) (m m' : mem) : Prop := forall x, in_block (kraw t k) x -> m' x = m x.

Lemma link_in_same t m m' k : valid_target t -> 0 <= kused k -> 0 <= kcap k -> raw_same t k m m' -> link_in t m k -> link_in t m' k.
Proof.
  intros Ht U C S [L1 L2]. pose proof (word_pos t Ht). pose proof (layout_big t (kcap k) Ht C) as B.
  unfold raw_same, kraw, in_block in S. cbn [start size] in S. split.
  - rewrite <- L1. apply load_usize_same; [exact Ht|]. intros x Hx. apply S. lia.
  - intros x Hx. rewrite <- (L2 x Hx). unfold kdata. cbn [start]. apply S. lia.
Qed.

Lemma load_link_raw t m m' k : valid_target t -> 0 <= kcap k -> raw_same t k m m' -> load_link t m' (kbase k) = load_link t m (kbase k).
Proof.
  intros Ht C S. apply load_link_same; [exact Ht|]. intros x Hx. apply S. pose proof (word_pos t Ht).
  pose proof (layout_big t (kcap k) Ht C) as B. unfold kraw, in_block. cbn [start size]. lia.
Qed.

Lemma seg_same t m m' ls : valid_target t -> forall p, (forall k, In k ls -> link_good t k /\ raw_same t k m m') -> seg t m p ls -> seg t m' p ls.
Proof.
  intros Ht. induction ls as [|k ls IH]; intros p H; cbn [seg]; [auto|]. intros (E & L & n & Ln & S).
  destruct (H k (or_introl eq_refl)) as [[G1 G2 G3] R]. split; [exact E|]. split; [apply (link_in_same t m m' k Ht (proj1 G3) G2 R L)|].
  exists n. split; [rewrite (load_link_raw t m m' k Ht G2 R); exact Ln|]. apply IH; [|exact S]. intros q Hq. apply H. right. exact Hq.
Qed.

(** ** The heap *)

Lemma same_alloc_iff a b : same_alloc a b = true <-> a = b.
Proof.
  unfold same_alloc, layout_eqb. destruct a as [p [s a]], b as [q [s' a']]. cbn [fst snd lsize lalign]. split.
  - intros H. assert (p = q) by lia. assert (s = s') by lia. assert (a = a') by lia. congruence.
  - intros E. injection E as -> -> ->. rewrite !Z.eqb_refl. reflexivity.
Qed.

Lemma pointee_hof t k : valid_target t -> 0 <= kcap k -> pointee t (hof k) = kalloc t k.
Proof. intros Ht C. unfold pointee, hof, kalloc. cbn [fst snd]. rewrite val_layout by assumption. reflexivity. Qed.

Lemma xlive_iff t s k : valid_target t -> 0 <= kcap k -> xlive t s (hof k) = true <-> In (kalloc t k) (xheap s).
Proof.
  intros Ht C. unfold xlive. rewrite pointee_hof by assumption. rewrite existsb_exists. split.
  - intros (q & Hq & E). apply same_alloc_iff in E. subst q. exact Hq.
  - intros Hq. exists (kalloc t k). split; [exact Hq|]. apply same_alloc_iff. reflexivity.
Qed.

(** ** Freeing links *)

Definition outside_all (t : target) (ks : list rlink) (x : Z) : Prop := forall k, In k ks -> ~ in_block (kraw t k) x.

Record kills (t : target) (s : xworld) (ks : list rlink) (s' : xworld) : Prop := {
  kl_roots : xroots s' = xroots s;
  kl_boxes : xboxes s' = xboxes s;
  kl_frees : xfrees s' = xfrees s ++ map (kalloc t) ks;
  kl_heap : forall q, In q (xheap s') <-> In q (xheap s) /\ ~ In (fst q) (map kbase ks);
  kl_mem : forall x, outside_all t ks x -> xmem s' x = xmem s x }.

Lemma kills_nil t s : kills t s [] s.
Proof. constructor; auto. - cbn. rewrite app_nil_r. reflexivity. - intros q. cbn. tauto. Qed.

Lemma kills_trans t s ks s1 qs s2 : kills t s ks s1 -> kills t s1 qs s2 -> kills t s (ks ++ qs) s2.
Proof.
  intros [A1 A2 A3 A4 A5] [B1 B2 B3 B4 B5]. constructor; try congruence.
  - rewrite B3, A3, map_app, app_assoc. reflexivity.
  - intros q. rewrite B4, A4, map_app, in_app_iff. tauto.
  - intros x H. rewrite B5, A5; [reflexivity| |]; intros k Hk; apply H, in_or_app; auto.
Qed.

(** writing inside the links that are freed anyway *)
Lemma kills_pre t s m ks s' : kills t (set_mem s m) ks s' -> (forall x, outside_all t ks x -> m x = xmem s x) -> kills t s ks s'.
Proof.
  intros [A1 A2 A3 A4 A5] H. constructor; cbn [set_mem xroots xboxes xfrees xheap xmem] in *; auto.
  intros x Hx. rewrite A5 by exact Hx. apply H. exact Hx.
Qed.

Lemma replace_next_ok t s k n old : valid_target t -> 0 <= kcap k -> In (kalloc t k) (xheap s) -> load_link t (xmem s) (kbase k) = Some old ->
  replace_next t s (hof k) n = Some (set_mem s (store_link t (xmem s) (kbase k) n), old).
Proof.
  intros Ht C H L. unfold replace_next. rewrite (proj2 (xlive_iff t s k Ht C) H). cbn [hof fst]. rewrite L. reflexivity.
Qed.

Lemma store_raw t m k n x : valid_target t -> 0 <= kcap k -> ~ in_block (kraw t k) x -> store_link t m (kbase k) n x = m x.
Proof.
  intros Ht C H. apply (store_link_outside t m (kbase k) n Ht). intros Hx. apply H. unfold kraw, in_block in *. cbn [start size] in *.
  pose proof (word_pos t Ht). pose proof (layout_big t (kcap k) Ht C). lia.
Qed.

Lemma dealloc_ok t s k : valid_target t -> 0 <= kcap k -> In (kalloc t k) (xheap s) ->
  exists s', heap_dealloc t s (hof k) = Some s' /\ kills t s [k] s'.
Proof.
  intros Ht C H. unfold heap_dealloc. rewrite (proj2 (xlive_iff t s k Ht C) H), (pointee_hof t k Ht C). eexists. split; [reflexivity|].
  constructor; cbn [xroots xboxes xfrees xheap xmem map]; auto.
  - intros q. rewrite filter_In. cbn [hof fst]. split.
    + intros [Q1 Q2]. split; [exact Q1|]. intros [E|[]]. rewrite <- E in Q2. rewrite Z.eqb_refl in Q2. discriminate.
    + intros [Q1 Q2]. split; [exact Q1|]. destruct (Z.eqb_spec (fst q) (kbase k)) as [E|E]; [|reflexivity]. exfalso. apply Q2. left. auto.
  - intros x Hx. apply (mem_fill_outside (xmem s) (kbase k) (lsize (link_layout t (kcap k))) None). exact (Hx k (or_introl eq_refl)).
Qed.

Definition apart (t : target) (ks : list rlink) : Prop := pairwise disjoint (map (kraw t) ks).

Lemma apart_cons t k ks : apart t (k :: ks) <-> (forall q, In q ks -> disjoint (kraw t k) (kraw t q)) /\ apart t ks.
Proof.
  unfold apart. cbn [map]. split.
  - intros H. split.
    + intros q Hq. apply In_nth_error in Hq. destruct Hq as [n Hn]. apply (H 0%nat (S n)); [discriminate|reflexivity|].
      cbn. rewrite nth_error_map, Hn. reflexivity.
    + intros i j x y D X Y. apply (H (S i) (S j)); auto.
  - intros [H1 H2] i j x y D X Y. destruct i as [|i], j as [|j]; cbn in X, Y.
    + congruence.
    + injection X as <-. rewrite nth_error_map in Y. destruct (nth_error ks j) as [q|] eqn:E; [|discriminate]. injection Y as <-.
      apply H1. apply nth_error_In with (1 := E).
    + injection Y as <-. rewrite nth_error_map in X. destruct (nth_error ks i) as [q|] eqn:E; [|discriminate]. injection X as <-.
      intros z [Z1 Z2]. apply (H1 q (nth_error_In _ _ E) z). auto.
    + apply (H2 i j); auto.
Qed.

Lemma good_in t k : valid_target t -> link_good t k -> in_block (kraw t k) (kbase k).
Proof.
  intros Ht [G1 G2 G3]. unfold kraw, in_block. cbn [start size]. pose proof (layout_big t (kcap k) Ht G2). pose proof (word_pos t Ht). lia.
Qed.

Lemma apart_base t k q : valid_target t -> link_good t k -> link_good t q -> disjoint (kraw t k) (kraw t q) -> kbase k <> kbase q.
Proof. intros Ht G1 G2 D E. apply (D (kbase k)). split; [apply good_in; assumption|]. rewrite E. apply good_in; assumption. Qed.

(** a link without a tail *)
Lemma drop_single t s k fuel : valid_target t -> link_good t k -> In (kalloc t k) (xheap s) -> load_link t (xmem s) (kbase k) = Some None ->
  (2 <= fuel)%nat -> exists s', x_drop_box t fuel s (hof k) = Some s' /\ kills t s [k] s'.
Proof.
  intros Ht G H L F. destruct fuel as [|[|n]]; try lia. cbn [x_drop_box x_drop_tail].
  rewrite (replace_next_ok t s k None None Ht (lg_cap _ _ G) H L).
  destruct (dealloc_ok t (set_mem s (store_link t (xmem s) (kbase k) None)) k Ht (lg_cap _ _ G) H) as (s' & E & K).
  exists s'. split; [exact E|]. apply (kills_pre t s _ _ _ K). intros x Hx. apply store_raw; [exact Ht|apply G|]. apply Hx. left. reflexivity.
Qed.

Lemma none_link_ok t : link_ok t None.
Proof. exact Logic.I. Qed.

Lemma drop_tail_ok t : valid_target t -> forall ls s p fuel,
  seg t (xmem s) p ls -> Forall (link_good t) ls -> apart t ls -> (forall k, In k ls -> In (kalloc t k) (xheap s)) ->
  (length ls + 3 <= fuel)%nat -> exists s', x_drop_tail t fuel s p = Some s' /\ kills t s ls s'.
Proof.
  intros Ht. induction ls as [|k ls IH]; intros s p fuel S G A H F.
  - cbn [seg] in S. subst p. destruct fuel; [lia|]. exists s. split; [reflexivity|apply kills_nil].
  - destruct S as (-> & L & n & Ln & S). inversion G as [|? ? Gk Gs]; subst. apply apart_cons in A. destruct A as [A1 A2].
    destruct fuel as [|fuel]; [cbn in F; lia|]. cbn [x_drop_tail]. cbn [length] in F.
    rewrite (replace_next_ok t s k None n Ht (lg_cap _ _ Gk) (H k (or_introl eq_refl)) Ln).
    set (s1 := set_mem s (store_link t (xmem s) (kbase k) None)).
    destruct (drop_single t s1 k fuel Ht Gk (H k (or_introl eq_refl))) as (s2 & E2 & K2); [|lia|].
    { unfold s1. cbn [set_mem xmem]. apply store_load_link; [exact Ht|apply none_link_ok]. }
    rewrite E2.
    assert (K : kills t s [k] s2).
    { apply (kills_pre t s _ _ _ K2). intros x Hx. apply store_raw; [exact Ht|apply Gk|]. apply Hx. left. reflexivity. }
    destruct (IH s2 n fuel) as (s3 & E3 & K3).
    + apply (seg_same t (xmem s)); [exact Ht| |exact S]. intros q Hq. rewrite Forall_forall in Gs. split; [apply Gs; exact Hq|].
      intros x Hx. apply (kl_mem _ _ _ _ K). intros k' [<-|[]] Hk. apply (A1 q Hq x). auto.
    + exact Gs.
    + exact A2.
    + intros q Hq. apply (kl_heap _ _ _ _ K). split; [apply H; right; exact Hq|]. cbn. intros [E|[]].
      rewrite Forall_forall in Gs. apply (apart_base t k q Ht Gk (Gs q Hq) (A1 q Hq)). exact E.
    + lia.
    + exists s3. split; [exact E3|]. apply (kills_trans t s [k] s2 ls s3 K K3).
Qed.

Lemma drop_loop_ok t : valid_target t -> forall ls s p fuel,
  seg t (xmem s) p ls -> Forall (link_good t) ls -> apart t ls -> (forall k, In k ls -> In (kalloc t k) (xheap s)) ->
  (length ls + 3 <= fuel)%nat -> exists s', x_drop_loop t fuel s p = Some s' /\ kills t s ls s'.
Proof.
  intros Ht. induction ls as [|k ls IH]; intros s p fuel S G A H F.
  - cbn [seg] in S. subst p. destruct fuel; [lia|]. exists s. split; [reflexivity|apply kills_nil].
  - destruct S as (-> & L & n & Ln & S). inversion G as [|? ? Gk Gs]; subst. apply apart_cons in A. destruct A as [A1 A2].
    destruct fuel as [|fuel]; [cbn in F; lia|]. cbn [x_drop_loop]. cbn [length] in F.
    rewrite (replace_next_ok t s k None n Ht (lg_cap _ _ Gk) (H k (or_introl eq_refl)) Ln).
    set (s1 := set_mem s (store_link t (xmem s) (kbase k) None)).
    destruct (drop_single t s1 k fuel Ht Gk (H k (or_introl eq_refl))) as (s2 & E2 & K2); [|lia|].
    { unfold s1. cbn [set_mem xmem]. apply store_load_link; [exact Ht|apply none_link_ok]. }
    rewrite E2.
    assert (K : kills t s [k] s2).
    { apply (kills_pre t s _ _ _ K2). intros x Hx. apply store_raw; [exact Ht|apply Gk|]. apply Hx. left. reflexivity. }
    destruct (IH s2 n fuel) as (s3 & E3 & K3).
    + apply (seg_same t (xmem s)); [exact Ht| |exact S]. intros q Hq. rewrite Forall_forall in Gs. split; [apply Gs; exact Hq|].
      intros x Hx. apply (kl_mem _ _ _ _ K). intros k' [<-|[]] Hk. apply (A1 q Hq x). auto.
    + exact Gs.
    + exact A2.
    + intros q Hq. apply (kl_heap _ _ _ _ K). split; [apply H; right; exact Hq|]. cbn. intros [E|[]].
      rewrite Forall_forall in Gs. apply (apart_base t k q Ht Gk (Gs q Hq) (A1 q Hq)). exact E.
    + lia.
    + exists s3. split; [exact E3|]. apply (kills_trans t s [k] s2 ls s3 K K3).
Qed.

(** a link with its tail: the tail goes first *)
Lemma drop_box_ok t : valid_target t -> forall k ls s fuel,
  seg t (xmem s) (Some (hof k)) (k :: ls) -> Forall (link_good t) (k :: ls) -> apart t (k :: ls) ->
  (forall q, In q (k :: ls) -> In (kalloc t q) (xheap s)) -> (length ls + 4 <= fuel)%nat ->
  exists s', x_drop_box t fuel s (hof k) = Some s' /\ kills t s (ls ++ [k]) s'.
Proof.
  intros Ht k ls s fuel (_ & L & n & Ln & S) G A H F. inversion G as [|? ? Gk Gs]; subst. apply apart_cons in A. destruct A as [A1 A2].
  destruct fuel as [|fuel]; [lia|]. cbn [x_drop_box].
  rewrite (replace_next_ok t s k None n Ht (lg_cap _ _ Gk) (H k (or_introl eq_refl)) Ln).
  set (s1 := set_mem s (store_link t (xmem s) (kbase k) None)). rewrite Forall_forall in Gs.
  destruct (drop_tail_ok t Ht ls s1 n fuel) as (s2 & E2 & K2).
  - apply (seg_same t (xmem s)); [exact Ht| |exact S]. intros q Hq. split; [apply Gs; exact Hq|].
    intros x Hx. apply store_raw; [exact Ht|apply Gk|]. intros Hk. apply (A1 q Hq x). auto.
  - apply Forall_forall. exact Gs.
  - exact A2.
  - intros q Hq. apply H. right. exact Hq.
  - lia.
  - rewrite E2. destruct (dealloc_ok t s2 k Ht (lg_cap _ _ Gk)) as (s3 & E3 & K3).
    + apply (kl_heap _ _ _ _ K2). split; [apply H; left; reflexivity|]. cbn [kalloc fst]. intros Hin. apply in_map_iff in Hin.
      destruct Hin as (q & Eq & Hq). apply (apart_base t k q Ht Gk (Gs q Hq) (A1 q Hq)). auto.
    + exists s3. split; [exact E3|]. apply (kills_pre t s _ _ _ (kills_trans t s1 ls s2 [k] s3 K2 K3)).
      intros x Hx. apply store_raw; [exact Ht|apply Gk|]. apply Hx. apply in_or_app. right. left. reflexivity.
Qed.

(** ** The relation *)

Definition root_rel (t : target) (m : mem) (x : option (option (option handle))) (c : option (option (list rlink))) : Prop :=
  match c with
  | None => x = None
  | Some None => x = Some None
  | Some (Some ls) => ls <> [] /\ exists p, x = Some (Some p) /\ seg t m p ls
  end.

Definition box_of (b : nat * Z * list (option Z)) : nat * block :=
  let '(i, p, bs) := b in (i, MkBlock p (Z.of_nat (length bs))).

Record wrel (t : target) (x : xworld) (r : rworld) : Prop := {
  w_roots : forall i, root_rel t (xmem x) (nth_error (xroots x) i) (nth_error (rchains r) i);
  w_good : forall i a k, linked r i a k -> link_good t k;
  w_apart : forall i a k j b q, linked r i a k -> linked r j b q -> (i, a) <> (j, b) -> disjoint (kraw t k) (kraw t q);
  w_heap : forall q, In q (xheap x) <-> exists i a k, linked r i a k /\ q = kalloc t k;
  w_frees : xfrees x = rfrees r;
  w_boxes : xboxes x = map box_of (rboxes r);
  w_box : forall n i p bs, nth_error (rboxes r) n = Some (i, p, bs) -> usable r i = true ->
    exists a k, linked r i a k /\ (0 < length bs)%nat /\ start (kdata t k) <= p /\
      p + Z.of_nat (length bs) <= start (kdata t k) + kused k /\ mem_read (xmem x) p (Z.of_nat (length bs)) = bs;
  w_box_apart : forall n n' i p bs i' p' bs', n <> n' -> nth_error (rboxes r) n = Some (i, p, bs) ->
    nth_error (rboxes r) n' = Some (i', p', bs') -> usable r i = true -> usable r i' = true ->
    disjoint (MkBlock p (Z.of_nat (length bs))) (MkBlock p' (Z.of_nat (length bs')));
  w_box_chain : forall n i p bs, nth_error (rboxes r) n = Some (i, p, bs) -> (i < length (rchains r))%nat }.

Lemma wrel_empty t m : wrel t (xempty m) rempty.
Proof.
  assert (N : forall A i (x : A), nth_error (@nil A) i = Some x -> False) by (intros A [|i]; discriminate).
  assert (L : forall i a k, ~ linked rempty i a k) by (intros i a k (ls & E & _); destruct i; discriminate).
  constructor; cbn [xempty rempty xmem xroots xheap xfrees xboxes rchains rfrees rboxes].
  - intros [|i]; reflexivity.
  - intros i a k H. destruct (L _ _ _ H).
  - intros i a k j b q H. destruct (L _ _ _ H).
  - intros q. split; [intros []|]. intros (i & a & k & H & _). destruct (L _ _ _ H).
  - reflexivity.
  - reflexivity.
  - intros n i p bs H. destruct (N _ _ _ H).
  - intros n n' i p bs i' p' bs' _ H. destruct (N _ _ _ H).
  - intros n i p bs H. destruct (N _ _ _ H).
Qed.

Lemma usable_iff r i : usable r i = true <-> exists ls, nth_error (rchains r) i = Some (Some ls).
Proof. unfold usable. destruct (nth_error (rchains r) i) as [[ls|]|]; split; try discriminate; eauto; intros [ls' E]; discriminate. Qed.

Lemma wrel_chain t x r i : wrel t x r -> usable r i = true ->
  exists k ls p, nth_error (rchains r) i = Some (Some (k :: ls)) /\ nth_error (xroots x) i = Some (Some (Some p)) /\
    seg t (xmem x) (Some p) (k :: ls) /\ p = hof k.
Proof.
  intros W U. apply usable_iff in U. destruct U as [ls E]. pose proof (w_roots _ _ _ W i) as R. rewrite E in R. cbn [root_rel] in R.
  destruct R as (N & p & Ex & S). destruct ls as [|k ls]; [congruence|]. destruct S as (-> & S). exists k, ls, (hof k).
  split; [exact E|]. split; [exact Ex|]. split; [|reflexivity]. cbn [seg]. auto.
Qed.

Lemma linked_head r i k ls : nth_error (rchains r) i = Some (Some (k :: ls)) -> linked r i 0 k.
Proof. intros E. exists (k :: ls). auto. Qed.

Lemma kdata_raw t k x : valid_target t -> link_good t k -> in_block (kdata t k) x -> in_block (kraw t k) x.
Proof.
  intros Ht G. pose proof (layout_big t (kcap k) Ht (lg_cap _ _ G)). pose proof (word_pos t Ht). unfold kdata, kraw, in_block. cbn [start size]. lia.
Qed.

Lemma chain_facts t x r i ls : valid_target t -> wrel t x r -> nth_error (rchains r) i = Some (Some ls) ->
  Forall (link_good t) ls /\ apart t ls /\ (forall k, In k ls -> In (kalloc t k) (xheap x)) /\ (length ls <= length (xheap x))%nat.
Proof.
  intros Ht W E.
  assert (G : forall a k, nth_error ls a = Some k -> link_good t k) by (intros a k N; apply (w_good _ _ _ W i a k); exists ls; auto).
  assert (H : forall k, In k ls -> In (kalloc t k) (xheap x)).
  { intros k Hk. apply In_nth_error in Hk. destruct Hk as [a N]. apply (w_heap _ _ _ W). exists i, a, k. split; [exists ls; auto|reflexivity]. }
  assert (A : forall a b k q, nth_error ls a = Some k -> nth_error ls b = Some q -> a <> b -> disjoint (kraw t k) (kraw t q)).
  { intros a b k q Na Nb D. apply (w_apart _ _ _ W i a k i b q); [exists ls; auto|exists ls; auto|congruence]. }
  split; [|split; [|split; [exact H|]]].
  - apply Forall_forall. intros k Hk. apply In_nth_error in Hk. destruct Hk as [a N]. eauto.
  - intros a b y z D Y Z. rewrite nth_error_map in Y, Z. destruct (nth_error ls a) as [k|] eqn:Na; [|discriminate].
    destruct (nth_error ls b) as [q|] eqn:Nb; [|discriminate]. injection Y as <-. injection Z as <-. apply (A a b); assumption.
  - rewrite <- (map_length (kalloc t)). apply NoDup_incl_length.
    + apply (proj2 (NoDup_nth_error _)). intros a b La Eab. destruct (Nat.eq_dec a b) as [|D]; [assumption|exfalso]. rewrite map_length in La.
      rewrite !nth_error_map in Eab. destruct (nth_error ls a) as [k|] eqn:Na; [|apply nth_error_None in Na; lia].
      destruct (nth_error ls b) as [q|] eqn:Nb; [|discriminate]. cbn in Eab. injection Eab as Ek _.
      apply (apart_base t k q Ht (G a k Na) (G b q Nb) (A a b k q Na Nb D)). exact Ek.
    + intros q Hq. apply in_map_iff in Hq. destruct Hq as (k & <- & Hk). auto.
Qed.

(** Chains that lose links, or exchange them *)
Lemma wrel_shrink t x r x' r' (phi : nat -> nat -> nat * nat) ks :
  valid_target t -> wrel t x r ->
  (forall i, root_rel t (xmem x') (nth_error (xroots x') i) (nth_error (rchains r') i)) ->
  (forall i a k, linked r' i a k -> linked r (fst (phi i a)) (snd (phi i a)) k) ->
  (forall i a k j b q, linked r' i a k -> linked r' j b q -> phi i a = phi j b -> (i, a) = (j, b)) ->
  (forall i a k, linked r i a k -> (exists j b, linked r' j b k) \/ In k ks) ->
  (forall q, In q ks -> exists j b, linked r j b q /\ forall i a k, linked r' i a k -> phi i a <> (j, b)) ->
  (forall i, usable r' i = true -> usable r i = true /\ forall a k, linked r i a k -> exists b, linked r' i b k) ->
  (forall i a k y, linked r' i a k -> in_block (kdata t k) y -> xmem x' y = xmem x y) ->
  (forall q, In q (xheap x') <-> In q (xheap x) /\ ~ In (fst q) (map kbase ks)) ->
  xfrees x' = rfrees r' -> xboxes x' = xboxes x -> rboxes r' = rboxes r -> length (rchains r') = length (rchains r) ->
  wrel t x' r'.
Proof.
  intros Ht W R A B C D E M H F BX BR LN. constructor.
  - exact R.
  - intros i a k L. exact (w_good _ _ _ W _ _ _ (A i a k L)).
  - intros i a k j b q L L' N. apply (w_apart _ _ _ W _ _ _ _ _ _ (A i a k L) (A j b q L')). intros X. apply N.
    apply (B i a k j b q L L'). destruct (phi i a), (phi j b). exact X.
  - intros q. rewrite H, (w_heap _ _ _ W). split.
    + intros [(i & a & k & L & ->) N]. destruct (C i a k L) as [(j & b & L')|Hk]; [eauto 6|]. exfalso. apply N. cbn [kalloc fst].
      apply in_map. exact Hk.
    + intros (i & a & k & L & ->). pose proof (A i a k L) as L0. split; [eauto 6|]. cbn [kalloc fst]. intros Hin. apply in_map_iff in Hin.
      destruct Hin as (q & Eq & Hq). destruct (D q Hq) as (j & b & Lq & N). specialize (N i a k L).
      apply (apart_base t k q Ht (w_good _ _ _ W _ _ _ L0) (w_good _ _ _ W _ _ _ Lq)); [|symmetry; exact Eq].
      apply (w_apart _ _ _ W _ _ _ _ _ _ L0 Lq). destruct (phi i a). exact N.
  - exact F.
  - rewrite BX, BR. apply (w_boxes _ _ _ W).
  - rewrite BR. intros n i p bs Hb U. destruct (E i U) as [U0 K]. destruct (w_box _ _ _ W n i p bs Hb U0) as (a & k & L & P1 & P2 & P3 & P4).
    destruct (K a k L) as [b L']. exists b, k. split; [exact L'|]. split; [exact P1|]. split; [exact P2|]. split; [exact P3|].
    rewrite <- P4 at 2. apply mem_read_same. intros y Hy. apply (M i b k y L'). pose proof (w_good _ _ _ W _ _ _ L) as [_ _ G].
    unfold in_block, kdata in *. cbn [start size] in *. lia.
  - rewrite BR. intros n n' i p bs i' p' bs' N N1 N2 U1 U2. apply (w_box_apart _ _ _ W n n' i p bs i' p' bs' N N1 N2); [apply E|apply E]; assumption.
  - rewrite BR, LN. apply (w_box_chain _ _ _ W).
Qed.

Lemma cell_some {A} (l : list (option A)) i c : nth_error l i = Some (Some c) -> cell l i = Some c.
Proof. intros E. unfold cell. rewrite E. reflexivity. Qed.

(** ** Drop of a chain *)
Lemma linked_set r cs i c : rchains r = set_nth i c cs -> (i < length cs)%nat -> forall j a k,
  linked r j a k <-> (j = i /\ exists ls, c = Some ls /\ nth_error ls a = Some k) \/ (j <> i /\ exists ls, nth_error cs j = Some (Some ls) /\ nth_error ls a = Some k).
Proof.
  intros E Hi j a k. unfold linked. rewrite E. destruct (Nat.eq_dec j i) as [->|N].
  - rewrite ChainProofs.nth_set_nth_eq by exact Hi. split.
    + intros (ls & X & Y). injection X as ->. left. eauto.
    + intros [[_ (ls & -> & Y)]|[X _]]; [eauto|congruence].
  - rewrite ChainProofs.nth_set_nth_ne by congruence. split; [intros (ls & X & Y); right; eauto|]. intros [[X _]|[_ X]]; [congruence|exact X].
Qed.

Lemma nth_lt' {A} (l : list A) i x : nth_error l i = Some x -> (i < length l)%nat.
Proof. intros H. apply nth_error_Some. congruence. Qed.

Lemma drop_chain_ok t x r i ls : valid_target t -> wrel t x r -> nth_error (rchains r) i = Some (Some ls) ->
  exists x', x_drop_chain t x i = Some x' /\
    wrel t x' (MkRW (set_nth i None (rchains r)) (rfrees r ++ map (kalloc t) ls) (rboxes r)) /\
    forall y, outside_all t ls y -> xmem x' y = xmem x y.
Proof.
  intros Ht W E. pose proof (nth_lt' _ _ _ E) as Li.
  pose proof (w_roots _ _ _ W i) as R. rewrite E in R. destruct R as (_ & p & Ep & S). pose proof (nth_lt' _ _ _ Ep) as Lx.
  destruct (chain_facts t x r i ls Ht W E) as (G & A & H & LH).
  unfold x_drop_chain. rewrite (cell_some _ _ _ Ep).
  destruct (drop_loop_ok t Ht ls (set_xroot x i None) p (xfuel x) S G A H) as (x' & Ex & K); [unfold xfuel; lia|].
  exists x'. split; [exact Ex|]. destruct K as [K1 K2 K3 K4 K5]. cbn [set_xroot xroots xboxes xfrees xheap xmem] in *. split; [|exact K5].
  set (r' := MkRW (set_nth i None (rchains r)) (rfrees r ++ map (kalloc t) ls) (rboxes r)).
  assert (L : forall j a k, linked r' j a k <-> j <> i /\ linked r j a k).
  { intros j a k. rewrite (linked_set r' (rchains r) i None eq_refl Li j a k). unfold linked. split.
    - intros [[_ (q & X & _)]|X]; [discriminate|exact X].
    - auto. }
  assert (MS : forall j a k y, linked r j a k -> j <> i -> in_block (kraw t k) y -> xmem x' y = xmem x y).
  { intros j a k y Lk N Hy. apply K5. intros q Hq Hqy. apply In_nth_error in Hq. destruct Hq as [b Nb].
    apply (w_apart _ _ _ W j a k i b q Lk) with (x := y); [exists ls; auto|congruence|auto]. }
  apply (wrel_shrink t x r x' r' (fun i a => (i, a)) ls Ht W).
  - intros j. rewrite K1. cbn [r' rchains]. destruct (Nat.eq_dec j i) as [->|N].
    + rewrite !ChainProofs.nth_set_nth_eq by assumption. reflexivity.
    + rewrite !ChainProofs.nth_set_nth_ne by congruence. pose proof (w_roots _ _ _ W j) as R.
      destruct (nth_error (rchains r) j) as [[lj|]|] eqn:Ej; cbn [root_rel] in *; auto.
      destruct R as (Nl & q & Eq & Sq). split; [exact Nl|]. exists q. split; [exact Eq|]. apply (seg_same t (xmem x)); [exact Ht| |exact Sq].
      intros k Hk. apply In_nth_error in Hk. destruct Hk as [a Na]. assert (Lk : linked r j a k) by (exists lj; auto).
      split; [apply (w_good _ _ _ W _ _ _ Lk)|]. intros y Hy. apply (MS j a k y Lk N Hy).
  - intros j a k Lk. apply L in Lk. apply Lk.
  - intros j a k j' b q _ _ X. congruence.
  - intros j a k Lk. destruct (Nat.eq_dec j i) as [->|N].
    + right. destruct Lk as (l' & X & Y). rewrite E in X. injection X as <-. apply nth_error_In with (1 := Y).
    + left. exists j, a. apply L. auto.
  - intros q Hq. apply In_nth_error in Hq. destruct Hq as [b Nb]. exists i, b. split; [exists ls; auto|].
    intros j a k Lk X. apply L in Lk. injection X as -> ->. destruct Lk. congruence.
  - intros j U. apply usable_iff in U. destruct U as [lj Ej]. cbn [r' rchains] in Ej. destruct (Nat.eq_dec j i) as [->|N].
    { rewrite ChainProofs.nth_set_nth_eq in Ej by exact Li. discriminate. }
    rewrite ChainProofs.nth_set_nth_ne in Ej by congruence. split; [apply usable_iff; eauto|]. intros a k Lk. exists a. apply L. auto.
  - intros j a k y Lk Hy. apply L in Lk. destruct Lk as [N Lk]. apply (MS j a k y Lk N). apply kdata_raw; [exact Ht|apply (w_good _ _ _ W _ _ _ Lk)|exact Hy].
  - exact K4.
  - cbn [r' rfrees]. rewrite K3, (w_frees _ _ _ W). reflexivity.
  - exact K2.
  - reflexivity.
  - cbn [r' rchains]. rewrite ?ChainProofs.set_nth_length. reflexivity.
Qed.

(** ** Joining chains *)

Lemma link_in_next t m k n : valid_target t -> link_good t k -> link_in t m k -> link_in t (store_link t m (kbase k) n) k.
Proof.
  intros Ht G [L1 L2]. pose proof (word_pos t Ht) as Hw. pose proof (store_link_outside t m (kbase k) n Ht) as O.
  assert (S : forall y, kbase k + 2 * word_bytes t <= y -> store_link t m (kbase k) n y = m y).
  { intros y Hy. apply O. unfold in_block. cbn [start size]. lia. }
  split.
  - rewrite <- L1. apply load_usize_same; [exact Ht|]. intros x Hx. apply S. lia.
  - intros x Hx. rewrite <- (L2 x Hx). apply S. unfold kdata. cbn [start]. pose proof (lg_used _ _ G). lia.
Qed.

Definition reorder (old : list rlink) : list rlink := match old with [] => [] | q :: qs => qs ++ [q] end.

Lemma reorder_in old q : In q (reorder old) <-> In q old.
Proof. destruct old as [|a l]; cbn; [tauto|]. rewrite in_app_iff. cbn. tauto. Qed.

(** [set_next] on the newest link [k] of a chain *)
Lemma set_next_ok t x k old n : valid_target t -> seg t (xmem x) (Some (hof k)) (k :: old) -> Forall (link_good t) (k :: old) -> apart t (k :: old) ->
  (forall q, In q (k :: old) -> In (kalloc t q) (xheap x)) -> (length (k :: old) <= length (xheap x))%nat -> link_ok t n ->
  exists x', x_set_next t x (hof k) n = Some x' /\ kills t (set_mem x (store_link t (xmem x) (kbase k) n)) (reorder old) x' /\
    load_link t (xmem x') (kbase k) = Some n /\ link_in t (xmem x') k.
Proof.
  intros Ht S G A H LH On. destruct S as (_ & Li & nx & Ln & S). inversion G as [|? ? Gk Gs]; subst. apply apart_cons in A. destruct A as [A1 A2].
  unfold x_set_next. rewrite (replace_next_ok t x k n nx Ht (lg_cap _ _ Gk) (H k (or_introl eq_refl)) Ln).
  set (x1 := set_mem x (store_link t (xmem x) (kbase k) n)).
  assert (L1 : load_link t (xmem x1) (kbase k) = Some n) by (apply store_load_link; assumption).
  assert (I1 : link_in t (xmem x1) k) by (apply link_in_next; assumption).
  destruct old as [|q qs].
  - cbn [seg] in S. subst nx. exists x1. split; [reflexivity|]. split; [apply kills_nil|]. auto.
  - cbn [seg] in S. destruct S as (-> & S').
    destruct (drop_box_ok t Ht q qs x1 (xfuel x)) as (x' & E & K).
    + apply (seg_same t (xmem x)); [exact Ht| |cbn [seg]; auto]. intros z Hz. rewrite Forall_forall in Gs. split; [apply Gs; exact Hz|].
      intros y Hy. apply store_raw; [exact Ht|apply Gk|]. intros Hk. apply (A1 z Hz y). auto.
    + exact Gs.
    + exact A2.
    + intros z Hz. apply H. right. exact Hz.
    + unfold xfuel. cbn [length] in LH. lia.
    + exists x'. split; [exact E|]. split; [exact K|].
      assert (Sm : raw_same t k (xmem x1) (xmem x')).
      { intros y Hy. apply (kl_mem _ _ _ _ K). intros z Hz Hzy. apply (proj1 (reorder_in (q :: qs) z)) in Hz. apply (A1 z Hz y). auto. }
      split; [rewrite (load_link_raw t (xmem x1) (xmem x') k Ht (lg_cap _ _ Gk) Sm); exact L1|].
      apply (link_in_same t (xmem x1)); [exact Ht|apply (lg_used _ _ Gk)|apply Gk|exact Sm|exact I1].
Qed.

Lemma join_ok t x r i j ls k old : valid_target t -> wrel t x r -> i <> j ->
  nth_error (rchains r) i = Some (Some ls) -> nth_error (rchains r) j = Some (Some (k :: old)) ->
  exists x', x_chain t x i j = Some x' /\
    wrel t x' (MkRW (set_nth j None (set_nth i (Some (k :: ls)) (rchains r))) (rfrees r ++ map (kalloc t) (reorder old)) (rboxes r)) /\
    forall y, outside_all t (k :: old) y -> xmem x' y = xmem x y.
Proof.
  intros Ht W Nij Ei Ej. pose proof (nth_lt' _ _ _ Ei) as Li. pose proof (nth_lt' _ _ _ Ej) as Lj.
  pose proof (w_roots _ _ _ W i) as Ri. rewrite Ei in Ri. destruct Ri as (Nl & pi & Epi & Si). pose proof (nth_lt' _ _ _ Epi) as Lxi.
  pose proof (w_roots _ _ _ W j) as Rj. rewrite Ej in Rj. destruct Rj as (_ & pj & Epj & Sj). pose proof (nth_lt' _ _ _ Epj) as Lxj.
  destruct (chain_facts t x r i ls Ht W Ei) as (Gi & Ai & Hi & LHi).
  destruct (chain_facts t x r j (k :: old) Ht W Ej) as (Gj & Aj & Hj & LHj).
  pose proof Sj as (-> & _).
  assert (Opi : link_ok t pi).
  { destruct ls as [|a ls]; [congruence|]. destruct Si as (-> & _). apply hof_ok; [exact Ht|]. inversion Gi; assumption. }
  destruct (set_next_ok t x k old pi Ht Sj Gj Aj Hj LHj Opi) as (x1 & E1 & K & Lk & Ik).
  unfold x_chain. rewrite (cell_some _ _ _ Epi), (cell_some _ _ _ Epj), E1.
  set (x2 := set_xroot (set_xroot x1 i (Some (Some (hof k)))) j (Some None)).
  assert (Ex2 : nth_error (xroots x2) j = Some (Some None)).
  { unfold x2. cbn [set_xroot xroots]. apply ChainProofs.nth_set_nth_eq. rewrite ChainProofs.set_nth_length, (kl_roots _ _ _ _ K). exact Lxj. }
  unfold x_drop_chain. rewrite (cell_some _ _ _ Ex2). unfold xfuel. rewrite Nat.add_comm. cbn [Nat.add x_drop_loop].
  eexists. split; [reflexivity|]. destruct K as [K1 K2 K3 K4 K5]. cbn [set_mem xroots xboxes xfrees xheap xmem] in *.
  unfold x2. cbn [set_xroot xmem].
  assert (MO : forall y, outside_all t (k :: old) y -> xmem x1 y = xmem x y).
  { intros y Hy. rewrite K5.
    - inversion Gj as [|? ? Gk Gs]. apply store_raw; [exact Ht|apply Gk|]. apply Hy. left. reflexivity.
    - intros q Hq. apply (proj1 (reorder_in old q)) in Hq. apply Hy. right. exact Hq. }
  split; [|exact MO].
  set (r' := MkRW (set_nth j None (set_nth i (Some (k :: ls)) (rchains r))) (rfrees r ++ map (kalloc t) (reorder old)) (rboxes r)).
  assert (L : forall n a q, linked r' n a q <-> n <> j /\ ((n = i /\ nth_error (k :: ls) a = Some q) \/ (n <> i /\ linked r n a q))).
  { intros n a q. assert (Lj' : (j < length (set_nth i (Some (k :: ls)) (rchains r)))%nat) by (rewrite ChainProofs.set_nth_length; exact Lj).
    rewrite (linked_set r' _ j None eq_refl Lj'). split.
    - intros [[_ (z & X & _)]|[N (lz & X & Y)]]; [discriminate|]. split; [exact N|]. destruct (Nat.eq_dec n i) as [->|Ni].
      + rewrite ChainProofs.nth_set_nth_eq in X by exact Li. injection X as <-. auto.
      + rewrite ChainProofs.nth_set_nth_ne in X by congruence. right. split; [exact Ni|]. exists lz. auto.
    - intros [N [[-> Y]|[Ni (lz & X & Y)]]]; right; split; try exact N.
      + exists (k :: ls). rewrite ChainProofs.nth_set_nth_eq by exact Li. auto.
      + exists lz. rewrite ChainProofs.nth_set_nth_ne by congruence. auto. }
  assert (Lkj : linked r j 0 k) by (exists (k :: old); auto).
  assert (Gk : link_good t k) by (apply (w_good _ _ _ W _ _ _ Lkj)).
  (* bytes of links that are not in chain j *)
  assert (MS : forall n a q y, linked r n a q -> n <> j -> in_block (kraw t q) y -> xmem x1 y = xmem x y).
  { intros n a q y Lq N Hy. apply MO. intros z Hz Hzy. apply In_nth_error in Hz. destruct Hz as [b Nb].
    apply (w_apart _ _ _ W n a q j b z Lq) with (x := y); [exists (k :: old); auto|congruence|auto]. }
  assert (SG : forall n lz p, n <> j -> nth_error (rchains r) n = Some (Some lz) -> seg t (xmem x) p lz -> seg t (xmem x1) p lz).
  { intros n lz p N En S. apply (seg_same t (xmem x)); [exact Ht| |exact S]. intros z Hz. apply In_nth_error in Hz. destruct Hz as [a Na].
    assert (Lz : linked r n a z) by (exists lz; auto). split; [apply (w_good _ _ _ W _ _ _ Lz)|]. intros y Hy. apply (MS n a z y Lz N Hy). }
  apply (wrel_shrink t x r _ r' (fun n a => if Nat.eqb n i then match a with O => (j, O) | S a => (i, a) end else (n, a)) (reorder old) Ht W);
    cbn [set_xroot xmem xroots xheap xfrees xboxes r' rchains rfrees rboxes].
  - intros n. rewrite ChainProofs.set_set_nth, K1. destruct (Nat.eq_dec n j) as [->|Nj].
    { rewrite !ChainProofs.nth_set_nth_eq by (rewrite ChainProofs.set_nth_length; assumption). reflexivity. }
    rewrite !(ChainProofs.nth_set_nth_ne j n) by congruence. destruct (Nat.eq_dec n i) as [->|Ni].
    + rewrite !ChainProofs.nth_set_nth_eq by assumption. cbn [root_rel]. split; [discriminate|]. eexists. split; [reflexivity|].
      cbn [seg]. split; [reflexivity|]. split; [exact Ik|]. exists pi. split; [exact Lk|]. apply (SG i ls pi Nij Ei Si).
    + rewrite !ChainProofs.nth_set_nth_ne by congruence. pose proof (w_roots _ _ _ W n) as R.
      destruct (nth_error (rchains r) n) as [[lz|]|] eqn:En; cbn [root_rel] in *; auto.
      destruct R as (Nz & q & Eq & Sq). split; [exact Nz|]. exists q. split; [exact Eq|]. apply (SG n lz q Nj En Sq).
  - intros n a q Lq. apply L in Lq. destruct Lq as [Nj [[-> Y]|[Ni Lq]]].
    + rewrite Nat.eqb_refl. destruct a as [|a]; cbn in Y |- *; [injection Y as <-; exact Lkj|]. exists ls. auto.
    + destruct (Nat.eqb_spec n i); [congruence|]. exact Lq.
  - intros n a q m b z Lq Lz. apply L in Lq. apply L in Lz. destruct Lq as [Nq _], Lz as [Nz _].
    destruct (Nat.eqb_spec n i) as [->|], (Nat.eqb_spec m i) as [->|]; try destruct a as [|a]; try destruct b as [|b]; intros X; congruence.
  - intros n a q Lq. destruct (Nat.eq_dec n j) as [->|Nj].
    + destruct Lq as (lz & X & Y). rewrite Ej in X. injection X as <-. destruct a as [|a]; cbn in Y.
      * injection Y as <-. left. exists i, 0%nat. apply L. split; [exact Nij|]. left. auto.
      * right. apply reorder_in. apply nth_error_In with (1 := Y).
    + left. destruct (Nat.eq_dec n i) as [->|Ni].
      * exists i, (S a). apply L. split; [exact Nij|]. left. split; [reflexivity|]. destruct Lq as (lz & X & Y). rewrite Ei in X. injection X as <-. exact Y.
      * exists n, a. apply L. auto.
  - intros q Hq. apply (proj1 (reorder_in old q)) in Hq. apply In_nth_error in Hq. destruct Hq as [b Nb]. exists j, (S b). split; [exists (k :: old); auto|].
    intros n a z Lz. apply L in Lz. destruct Lz as [Nj _]. destruct (Nat.eqb_spec n i) as [->|]; [destruct a|]; congruence.
  - intros n U. apply usable_iff in U. destruct U as [lz En]. cbn [r' rchains] in En. destruct (Nat.eq_dec n j) as [->|Nj].
    { rewrite ChainProofs.nth_set_nth_eq in En by (rewrite ChainProofs.set_nth_length; exact Lj). discriminate. }
    rewrite ChainProofs.nth_set_nth_ne in En by congruence. destruct (Nat.eq_dec n i) as [->|Ni].
    + split; [apply usable_iff; eauto|]. intros a q (l' & X & Y). rewrite Ei in X. injection X as <-. exists (S a). apply L. split; [exact Nij|]. left. auto.
    + rewrite ChainProofs.nth_set_nth_ne in En by congruence. split; [apply usable_iff; eauto|]. intros a q Lq. exists a. apply L. auto.
  - intros n a q y Lq Hy. apply L in Lq. destruct Lq as [Nj Lq].
    assert (Cq : (q = k) \/ exists m b, m <> j /\ linked r m b q).
    { destruct Lq as [[-> Y]|[Ni Lq]]; [|right; exists n, a; auto]. destruct a as [|a]; cbn in Y; [injection Y as <-; auto|].
      right. exists i, a. split; [exact Nij|]. exists ls. auto. }
    destruct Cq as [->|(m & b & Nm & Lm)].
    + rewrite K5.
      * apply (store_link_outside t (xmem x) (kbase k) pi Ht). unfold kdata, in_block in *. cbn [start size] in *. pose proof (word_pos t Ht). lia.
      * intros z Hz Hzy. apply (proj1 (reorder_in old z)) in Hz. apply apart_cons in Aj. destruct Aj as [Aj _]. apply (Aj z Hz y).
        split; [|exact Hzy]. apply kdata_raw; assumption.
    + apply (MS m b q y Lm Nm). apply kdata_raw; [exact Ht|apply (w_good _ _ _ W _ _ _ Lm)|exact Hy].
  - exact K4.
  - rewrite K3, (w_frees _ _ _ W). reflexivity.
  - exact K2.
  - reflexivity.
  - cbn [r' rchains]. rewrite ?ChainProofs.set_nth_length. reflexivity.
Qed.

(** ** Allocation from a chain *)

Definition bump_of (t : target) (k : rlink) : ubump := {| udata := kdata t k; uindex := kused k |}.

Lemma view_link t m k : valid_target t -> link_in t m k -> view t m (link_bump t (hof k)) = Some (bump_of t k).
Proof.
  intros Ht [L _]. apply view_eq; [exact L|]. unfold bump_of, kdata, fat_data, link_bump, hof. cbn [udata faddr flen fst snd]. f_equal. lia.
Qed.

Lemma uok_link t k : valid_target t -> link_good t k -> uok t (bump_of t k).
Proof.
  intros Ht G. pose proof (layout_big t (kcap k) Ht (lg_cap _ _ G)) as B. destruct G as [(R1 & R2 & R3) C U]. pose proof (word_pos t Ht).
  cbn [kraw start size] in *. unfold uok, ok, slab_of, bump_of, kdata, valid_region. cbn [storage consumed udata uindex start size].
  repeat split; lia.
Qed.

Lemma bump_box_eq t u l : valid_target t -> uok t u -> type_layout t l ->
  u_bump_box t u l =
    if lsize l =? 0 then (u, Panic PU_size)
    else let q := align_up (start (udata u) + uindex u) (lalign l) in
      if q + lsize l <=? start (udata u) + size (udata u)
      then ({| udata := udata u; uindex := q + lsize l - start (udata u) |}, Ret (ROk {| ptr := q; alevel := q + lsize l - start (udata u) |}))
      else (u, Ret (RErr Exhausted)).
Proof.
  intros Ht Ok Tl. pose proof (ustep_spec t u (UBumpBox l) Ht Ok Tl) as E. cbn [ustep uspec] in E. unfold fitsb in E.
  destruct (u_bump_box t u l) as [u' r]. cbv zeta.
  destruct (lsize l =? 0); [|destruct (_ <=? _)]; destruct r as [[a|e]|e]; cbn [of_result] in E; try discriminate.
  - congruence.
  - unfold of_slab, bumped, placed, place, slab_of in E. cbn [storage consumed] in E. injection E as E1 E2. subst. reflexivity.
  - congruence.
Qed.

Lemma read_zeros m p n : 0 <= n -> (forall x, p <= x < p + n -> m x = Some 0) -> mem_read m p n = repeat (Some 0) (Z.to_nat n).
Proof.
  intros Hn H. apply nth_error_ext_. intros k. rewrite (nth_mem_read m p n k Hn). destruct (Z.ltb_spec (Z.of_nat k) n) as [L|L].
  - rewrite (H (p + Z.of_nat k)) by lia. symmetry. apply nth_error_repeat. lia.
  - symmetry. apply nth_error_None. rewrite repeat_length. lia.
Qed.

Lemma newest_nth r i k ls : nth_error (rchains r) i = Some (Some (k :: ls)) -> newest r i = Some k.
Proof. intros E. unfold newest. rewrite E. reflexivity. Qed.

Lemma root_bump_ok t x r i k ls : valid_target t -> wrel t x r -> nth_error (rchains r) i = Some (Some (k :: ls)) ->
  x_root_bump t x i = Some (Some (link_bump t (hof k), bump_of t k)).
Proof.
  intros Ht W E. pose proof (w_roots _ _ _ W i) as R. rewrite E in R. destruct R as (_ & p & Ep & S). destruct S as (-> & Li & _).
  pose proof (linked_head r i k ls E) as L. pose proof (w_good _ _ _ W _ _ _ L) as G.
  unfold x_root_bump. rewrite (cell_some _ _ _ Ep).
  assert (In (kalloc t k) (xheap x)) as H by (apply (w_heap _ _ _ W); exists i, 0%nat, k; auto).
  rewrite (proj2 (xlive_iff t x k Ht (lg_cap _ _ G)) H), (view_link t (xmem x) k Ht Li). reflexivity.
Qed.

Lemma wrel_bumped t x r i k ls q n : valid_target t -> wrel t x r -> nth_error (rchains r) i = Some (Some (k :: ls)) ->
  0 < n -> start (kdata t k) + kused k <= q -> q + n <= start (kdata t k) + kcap k ->
  let u' := {| udata := kdata t k; uindex := q + n - start (kdata t k) |} in
  let m' := bstore t (xmem x) (link_bump t (hof k)) (bump_of t k) u' in
  wrel t (MkXW m' (xroots x) (xheap x) (xfrees x) (xboxes x ++ [(i, MkBlock q n)]))
    (MkRW (set_nth i (Some (MkRL (kbase k) (kcap k) (q + n - start (kdata t k)) :: ls)) (rchains r)) (rfrees r)
       (rboxes r ++ [(i, q, repeat (Some 0) (Z.to_nat n))])) /\
  forall y, ~ in_block (kraw t k) y -> m' y = xmem x y.
Proof.
  intros Ht W E Pn Q1 Q2 u' m'. pose proof (linked_head r i k ls E) as Lk. pose proof (w_good _ _ _ W _ _ _ Lk) as G.
  pose proof (nth_lt' _ _ _ E) as Li. pose proof (word_pos t Ht) as Hw. pose proof (layout_big t (kcap k) Ht (lg_cap _ _ G)) as LB.
  pose proof (w_roots _ _ _ W i) as R. rewrite E in R. destruct R as (_ & p & Ep & S). destruct S as (-> & Lin & nx & Ln & S).
  set (k' := MkRL (kbase k) (kcap k) (q + n - start (kdata t k))).
  assert (Hst : start (kdata t k) = kbase k + 3 * word_bytes t) by reflexivity.
  assert (G' : link_good t k').
  { destruct G as [G1 G2 G3]. constructor; cbn [k' kcap kused kbase kraw] in *; [exact G1|exact G2|lia]. }
  assert (V : view t m' (link_bump t (hof k)) = Some u' /\ same_outside (header_of t (link_bump t (hof k))) (xmem x) m').
  { apply bstore_view; [exact Ht|apply view_link; assumption| |].
    - exact (uok_link t k' Ht G').
    - unfold u', kdata, fat_data, link_bump, hof. cbn [udata faddr flen fst snd]. f_equal. lia. }
  destruct V as [V Vo]. apply view_load in V. destruct V as [V _].
  assert (MO : forall y, ~ (kbase k + 2 * word_bytes t <= y < kbase k + 3 * word_bytes t) -> m' y = xmem x y).
  { intros y Hy. apply Vo. unfold header_of, link_bump, in_block. cbn [faddr start size hof fst]. lia. }
  assert (L2 : forall x, kused k <= x < kcap k -> m' (start (kdata t k) + x) = Some 0).
  { intros y Hy. destruct Lin as [_ L2]. rewrite <- (L2 y Hy). apply MO. pose proof (lg_used _ _ G). lia. }
  split.
  2:{ intros y Hy. apply MO. unfold kraw, in_block in Hy. cbn [start size] in Hy. pose proof (lg_cap _ _ G). lia. }
  set (r' := MkRW _ _ _).
  assert (L : forall j a z, linked r' j a z -> exists z0, linked r j a z0 /\ kbase z = kbase z0 /\ kcap z = kcap z0 /\
              (((j, a) = (i, 0%nat) /\ z = k' /\ z0 = k) \/ ((j, a) <> (i, 0%nat) /\ z = z0))).
  { intros j a z Hz. apply (linked_set r' (rchains r) i _ eq_refl Li) in Hz. destruct Hz as [[-> (l' & X & Y)]|[N (l' & X & Y)]].
    - injection X as <-. destruct a as [|a]; cbn in Y.
      + injection Y as <-. exists k. split; [exact Lk|]. auto 6.
      + exists z. split; [exists (k :: ls); auto|]. split; [reflexivity|]. split; [reflexivity|]. right. split; [congruence|reflexivity].
    - exists z. split; [exists l'; auto|]. split; [reflexivity|]. split; [reflexivity|]. right. split; [congruence|reflexivity]. }
  assert (L' : forall j a z, linked r j a z -> exists z', linked r' j a z' /\ kbase z' = kbase z /\ kcap z' = kcap z /\ kused z <= kused z').
  { intros j a z (l' & X & Y). destruct (Nat.eq_dec j i) as [->|N].
    - rewrite E in X. injection X as <-. destruct a as [|a]; cbn in Y.
      + injection Y as <-. exists k'. split; [apply (linked_set r' (rchains r) i _ eq_refl Li); left; split; [reflexivity|]; eexists; split; reflexivity|].
        cbn [k' kbase kcap kused]. split; [reflexivity|]. split; [reflexivity|lia].
      + exists z. split; [apply (linked_set r' (rchains r) i _ eq_refl Li); left; split; [reflexivity|]; eexists; split; [reflexivity|exact Y]|].
        split; [reflexivity|]. split; [reflexivity|lia].
    - exists z. split; [apply (linked_set r' (rchains r) i _ eq_refl Li); right; eauto|]. split; [reflexivity|]. split; [reflexivity|lia]. }
  assert (RW : forall z z0, kbase z = kbase z0 -> kcap z = kcap z0 -> kraw t z = kraw t z0) by (intros z z0 Z1 Z2; unfold kraw; congruence).
  assert (DW : forall z z0, kbase z = kbase z0 -> kcap z = kcap z0 -> kdata t z = kdata t z0) by (intros z z0 Z1 Z2; unfold kdata; congruence).
  assert (U : forall j, usable r' j = true <-> usable r j = true).
  { intros j. rewrite !usable_iff. cbn [r' rchains]. destruct (Nat.eq_dec j i) as [->|N].
    - rewrite ChainProofs.nth_set_nth_eq by exact Li. rewrite E. split; eauto.
    - rewrite ChainProofs.nth_set_nth_ne by congruence. tauto. }
  assert (MS : forall j a z, linked r j a z -> (j, a) <> (i, 0%nat) -> raw_same t z (xmem x) m').
  { intros j a z Lz N y Hy. apply MO. intros Hk. apply (w_apart _ _ _ W j a z i 0%nat k Lz Lk N y). split; [exact Hy|].
    unfold kraw, in_block. cbn [start size]. pose proof (lg_cap _ _ G). lia. }
  assert (SN : forall p l0 b, seg t (xmem x) p l0 -> (forall a z, nth_error l0 a = Some z -> linked r i (b + a) z) -> (0 < b)%nat -> seg t m' p l0).
  { intros p0 l0 b S0 H0 Hb. apply (seg_same t (xmem x)); [exact Ht| |exact S0]. intros z Hz. apply In_nth_error in Hz. destruct Hz as [a Na].
    specialize (H0 a z Na). split; [apply (w_good _ _ _ W _ _ _ H0)|]. apply (MS i (b + a)%nat z H0). intros X. injection X as X. lia. }
  assert (ML : load_link t m' (kbase k) = Some nx).
  { rewrite <- Ln. apply load_link_same; [exact Ht|]. intros y Hy. apply MO. lia. }
  constructor; cbn [xmem xroots xheap xfrees xboxes r' rchains rfrees rboxes].
  - intros j. destruct (Nat.eq_dec j i) as [->|N].
    + rewrite ChainProofs.nth_set_nth_eq by exact Li. cbn [root_rel]. split; [discriminate|]. eexists. split; [exact Ep|].
      cbn [seg]. split; [reflexivity|]. split.
      * split; [exact V|]. cbn [k' kused kcap]. intros y Hy. change (kdata t k') with (kdata t k). apply L2. lia.
      * exists nx. split; [exact ML|]. apply (SN nx ls 1%nat S); [|lia]. intros a z Na. exists (k :: ls). auto.
    + rewrite ChainProofs.nth_set_nth_ne by congruence. pose proof (w_roots _ _ _ W j) as R.
      destruct (nth_error (rchains r) j) as [[lz|]|] eqn:Ej; cbn [root_rel] in *; auto. destruct R as (Nz & pz & Eq & Sq).
      split; [exact Nz|]. exists pz. split; [exact Eq|]. apply (seg_same t (xmem x)); [exact Ht| |exact Sq].
      intros z Hz. apply In_nth_error in Hz. destruct Hz as [a Na]. assert (Lz : linked r j a z) by (exists lz; auto).
      split; [apply (w_good _ _ _ W _ _ _ Lz)|]. apply (MS j a z Lz). congruence.
  - intros j a z Hz. destruct (L j a z Hz) as (z0 & L0 & _ & _ & [(_ & -> & _)|(_ & ->)]); [exact G'|apply (w_good _ _ _ W _ _ _ L0)].
  - intros j a z j2 b z2 H1 H2 N. destruct (L _ _ _ H1) as (y1 & L1 & B1 & C1 & _), (L _ _ _ H2) as (y2 & L3 & B2 & C2 & _).
    rewrite (RW z y1 B1 C1), (RW z2 y2 B2 C2). apply (w_apart _ _ _ W _ _ _ _ _ _ L1 L3 N).
  - intros z. rewrite (w_heap _ _ _ W). split.
    + intros (j & a & y & Ly & ->). destruct (L' j a y Ly) as (y' & Ly' & B1 & C1 & _). exists j, a, y'. split; [exact Ly'|]. unfold kalloc. congruence.
    + intros (j & a & y & Ly & ->). destruct (L j a y Ly) as (y' & Ly' & B1 & C1 & _). exists j, a, y'. split; [exact Ly'|]. unfold kalloc. congruence.
  - apply (w_frees _ _ _ W).
  - rewrite map_app, (w_boxes _ _ _ W). cbn [map box_of]. rewrite repeat_length. rewrite Z2Nat.id by lia. reflexivity.
  - intros b j p0 bs Hb Uj. apply U in Uj. apply nth_error_snoc in Hb. destruct Hb as [Hb|[_ Hb]].
    + destruct (w_box _ _ _ W b j p0 bs Hb Uj) as (a & z & Lz & P1 & P2 & P3 & P4).
      destruct (L' j a z Lz) as (z' & Lz' & B1 & C1 & C2). exists a, z'. split; [exact Lz'|]. rewrite (DW z' z B1 C1).
      split; [exact P1|]. split; [exact P2|]. split; [lia|]. rewrite <- P4 at 2. apply mem_read_same. intros y Hy.
      unfold in_block in Hy. cbn [start size] in Hy. pose proof (w_good _ _ _ W _ _ _ Lz) as Gz. apply MO. intros Hk.
      destruct (Nat.eq_dec j i) as [->|N]; [destruct (Nat.eq_dec a 0) as [->|Na]|].
      * destruct Lz as (l0 & X & Y). rewrite E in X. injection X as <-. cbn in Y. injection Y as <-. lia.
      * apply (w_apart _ _ _ W i a z i 0%nat k Lz Lk) with (x := y); [congruence|]. split.
        -- apply kdata_raw; [exact Ht|exact Gz|]. pose proof (lg_used _ _ Gz). unfold in_block, kdata in *. cbn [start size] in *. lia.
        -- unfold kraw, in_block. cbn [start size]. pose proof (lg_cap _ _ G). lia.
      * apply (w_apart _ _ _ W j a z i 0%nat k Lz Lk) with (x := y); [congruence|]. split.
        -- apply kdata_raw; [exact Ht|exact Gz|]. pose proof (lg_used _ _ Gz). unfold in_block, kdata in *. cbn [start size] in *. lia.
        -- unfold kraw, in_block. cbn [start size]. pose proof (lg_cap _ _ G). lia.
    + injection Hb as -> -> ->. rewrite repeat_length, Z2Nat.id by lia. exists 0%nat, k'.
      split; [apply (linked_set r' (rchains r) i _ eq_refl Li); left; split; [reflexivity|]; eexists; split; reflexivity|].
      change (kdata t k') with (kdata t k). cbn [k' kused]. split; [lia|]. split; [pose proof (lg_used _ _ G); lia|]. split; [lia|].
      apply read_zeros; [lia|]. intros y Hy. replace y with (start (kdata t k) + (y - start (kdata t k))) by lia. apply L2. lia.
  - assert (New : forall b j p0 bs, nth_error (rboxes r) b = Some (j, p0, bs) -> usable r j = true -> disjoint (MkBlock p0 (Z.of_nat (length bs))) (MkBlock q n)).
    { intros b j p0 bs Hb Uj y [Y1 Y2]. destruct (w_box _ _ _ W b j p0 bs Hb Uj) as (a & z & Lz & P1 & P2 & P3 & _).
      pose proof (w_good _ _ _ W _ _ _ Lz) as Gz. pose proof (lg_used _ _ Gz) as Uz. pose proof (lg_used _ _ G) as Uk. unfold in_block in Y1, Y2. cbn [start size] in *.
      assert (D : (j, a) = (i, 0%nat) \/ (j, a) <> (i, 0%nat)).
      { destruct (Nat.eq_dec j i), (Nat.eq_dec a 0); [left|right|right|right]; congruence. }
      destruct D as [D|D].
      - injection D as -> ->. destruct Lz as (l0 & X & Y). rewrite E in X. injection X as <-. cbn in Y. injection Y as <-. lia.
      - apply (w_apart _ _ _ W j a z i 0%nat k Lz Lk D y). split.
        + apply kdata_raw; [exact Ht|exact Gz|]. unfold in_block, kdata in *. cbn [start size] in *. lia.
        + apply kdata_raw; [exact Ht|exact G|]. unfold in_block, kdata in *. cbn [start size] in *. lia. }
    intros b b' j p0 bs j' p1 bs' N H1 H2 U1 U2. apply U in U1. apply U in U2.
    apply nth_error_snoc in H1. apply nth_error_snoc in H2. destruct H1 as [H1|[A1 H1]], H2 as [H2|[A2 H2]].
    + apply (w_box_apart _ _ _ W b b' j p0 bs j' p1 bs' N H1 H2 U1 U2).
    + injection H2 as -> -> ->. rewrite repeat_length, Z2Nat.id by lia. apply (New b j p0 bs H1 U1).
    + injection H1 as -> -> ->. rewrite repeat_length, Z2Nat.id by lia. intros y [Y1 Y2]. apply (New b' j' p1 bs' H2 U2 y). auto.
    + lia.
  - intros b j p0 bs Hb. rewrite ChainProofs.set_nth_length. apply nth_error_snoc in Hb. destruct Hb as [Hb|[_ Hb]];
      [apply (w_box_chain _ _ _ W _ _ _ _ Hb)|]. injection Hb as -> -> ->. exact Li.
Qed.

(** ** Stores *)

Lemma seg_stored t m m' ls : valid_target t -> forall p, (forall k, In k ls -> link_good t k /\
    forall y, in_block (kraw t k) y -> ~ in_block (MkBlock (start (kdata t k)) (kused k)) y -> m' y = m y) ->
  seg t m p ls -> seg t m' p ls.
Proof.
  intros Ht. pose proof (word_pos t Ht) as Hw. induction ls as [|k ls IH]; intros p H; cbn [seg]; [auto|]. intros (E & [L1 L2] & n & Ln & S).
  destruct (H k (or_introl eq_refl)) as [[G1 G2 G3] R]. pose proof (layout_big t (kcap k) Ht G2) as LB.
  unfold kraw, kdata, in_block in R. cbn [start size] in R. split; [exact E|]. split; [split|].
  - rewrite <- L1. apply load_usize_same; [exact Ht|]. intros y Hy. apply R; lia.
  - intros y Hy. rewrite <- (L2 y Hy). unfold kdata. cbn [start]. apply R; lia.
  - exists n. split.
    + rewrite <- Ln. apply load_link_same; [exact Ht|]. intros y Hy. apply R; lia.
    + apply IH; [|exact S]. intros q Hq. apply H. right. exact Hq.
Qed.

Lemma wrel_stored t x r m' bx : valid_target t -> wrel t x r -> map box_of bx = map box_of (rboxes r) ->
  (forall i a k y, linked r i a k -> in_block (kraw t k) y -> ~ in_block (MkBlock (start (kdata t k)) (kused k)) y -> m' y = xmem x y) ->
  (forall n i p bs, nth_error bx n = Some (i, p, bs) -> usable r i = true -> mem_read m' p (Z.of_nat (length bs)) = bs) ->
  wrel t (set_mem x m') (MkRW (rchains r) (rfrees r) bx).
Proof.
  intros Ht W BX M C.
  assert (B : forall n i p bs, nth_error bx n = Some (i, p, bs) -> exists bs0, nth_error (rboxes r) n = Some (i, p, bs0) /\ length bs = length bs0).
  { intros n i p bs Hn. assert (X : nth_error (map box_of bx) n = Some (box_of (i, p, bs))) by (rewrite nth_error_map, Hn; reflexivity).
    rewrite BX, nth_error_map in X. destruct (nth_error (rboxes r) n) as [[[i0 p0] bs0]|] eqn:E; [|discriminate].
    cbn in X. injection X as -> -> X. exists bs0. split; [reflexivity|lia]. }
  constructor; cbn [set_mem xmem xroots xheap xfrees xboxes rchains rfrees rboxes].
  - intros i. pose proof (w_roots _ _ _ W i) as R. destruct (nth_error (rchains r) i) as [[ls|]|] eqn:E; cbn [root_rel] in *; auto.
    destruct R as (N & p & Ep & S). split; [exact N|]. exists p. split; [exact Ep|]. apply (seg_stored t (xmem x)); [exact Ht| |exact S].
    intros k Hk. apply In_nth_error in Hk. destruct Hk as [a Na]. assert (Lk : linked r i a k) by (exists ls; auto).
    split; [apply (w_good _ _ _ W _ _ _ Lk)|]. intros y. apply (M i a k y Lk).
  - apply (w_good _ _ _ W).
  - apply (w_apart _ _ _ W).
  - apply (w_heap _ _ _ W).
  - apply (w_frees _ _ _ W).
  - rewrite BX. apply (w_boxes _ _ _ W).
  - intros n i p bs Hn U. destruct (B n i p bs Hn) as (bs0 & Hb & EL). destruct (w_box _ _ _ W n i p bs0 Hb U) as (a & k & L & P1 & P2 & P3 & _).
    exists a, k. rewrite EL. split; [exact L|]. split; [exact P1|]. split; [exact P2|]. split; [exact P3|]. rewrite <- EL. apply (C n i p bs Hn U).
  - intros n n' i p bs i' p' bs' N H1 H2 U1 U2. destruct (B _ _ _ _ H1) as (c1 & B1 & ->), (B _ _ _ _ H2) as (c2 & B2 & ->).
    apply (w_box_apart _ _ _ W n n' i p c1 i' p' c2 N B1 B2 U1 U2).
  - intros n i p bs Hn. destruct (B n i p bs Hn) as (bs0 & Hb & _). apply (w_box_chain _ _ _ W _ _ _ _ Hb).
Qed.

Lemma wild_ok t x r a bs : valid_target t -> wrel t x r ->
  (forall i b k, linked r i b k -> disjoint (MkBlock a (Z.of_nat (length bs))) (kraw t k)) ->
  wrel t (set_mem x (mem_write (xmem x) a bs)) r.
Proof.
  intros Ht W D. destruct r as [rc rf rb].
  assert (M : forall i b k y, linked (MkRW rc rf rb) i b k -> in_block (kraw t k) y -> mem_write (xmem x) a bs y = xmem x y).
  { intros i b k y L Hy. apply (mem_write_outside (xmem x) a bs (Z.of_nat (length bs))); [lia|]. intros Hb. apply (D i b k L y). auto. }
  apply (wrel_stored t x (MkRW rc rf rb) _ rb Ht W eq_refl).
  - intros i b k y L Hy _. apply (M i b k y L Hy).
  - intros n i p c Hn U. destruct (w_box _ _ _ W n i p c Hn U) as (b & k & L & P1 & P2 & P3 & P4). rewrite <- P4 at 2.
    apply mem_read_same. intros y Hy. apply (M i b k y L). apply kdata_raw; [exact Ht|apply (w_good _ _ _ W _ _ _ L)|].
    pose proof (lg_used _ _ (w_good _ _ _ W _ _ _ L)). unfold kdata, in_block in *. cbn [start size] in *. lia.
Qed.

Lemma splice_len (bs : list (option Z)) off new : (off + length new <= length bs)%nat -> length (splice bs off new) = length bs.
Proof. intros H. unfold splice. rewrite !app_length, firstn_length, skipn_length. lia. Qed.

Lemma map_set_nth {A B} (f : A -> B) l : forall n a, nth_error (map f l) n = Some (f a) -> map f (set_nth n a l) = map f l.
Proof. induction l as [|x l IH]; intros [|n] a H; cbn in *; try reflexivity; [injection H as <-; reflexivity|f_equal; auto]. Qed.

Lemma store_ok t x r n i p old off bs : valid_target t -> wrel t x r -> nth_error (rboxes r) n = Some (i, p, old) -> usable r i = true ->
  0 <= off -> off + Z.of_nat (length bs) <= Z.of_nat (length old) ->
  wrel t (set_mem x (mem_write (xmem x) (p + off) bs)) (MkRW (rchains r) (rfrees r) (set_nth n (i, p, splice old (Z.to_nat off) bs) (rboxes r))) /\
  forall y, ~ in_block (MkBlock p (Z.of_nat (length old))) y -> mem_write (xmem x) (p + off) bs y = xmem x y.
Proof.
  intros Ht W Hn U Ho Hl. destruct (w_box _ _ _ W n i p old Hn U) as (a & k & L & P1 & P2 & P3 & P4).
  pose proof (w_good _ _ _ W _ _ _ L) as G. pose proof (nth_lt' _ _ _ Hn) as Ln.
  assert (SL : length (splice old (Z.to_nat off) bs) = length old) by (apply splice_len; lia).
  assert (MO : forall y, ~ in_block (MkBlock p (Z.of_nat (length old))) y -> mem_write (xmem x) (p + off) bs y = xmem x y).
  { intros y Hy. apply (mem_write_outside (xmem x) (p + off) bs (Z.of_nat (length bs))); [lia|]. intros Hb. apply Hy. unfold in_block in *. cbn [start size] in *. lia. }
  split; [|exact MO]. apply (wrel_stored t x r _ _ Ht W).
  - apply map_set_nth. rewrite nth_error_map, Hn. cbn [option_map box_of]. rewrite SL. reflexivity.
  - intros j b q y Lq Hy Hn'. apply MO. intros Hb.
    assert (D : (j, b) = (i, a) \/ (j, b) <> (i, a)) by (destruct (Nat.eq_dec j i), (Nat.eq_dec b a); [left|right|right|right]; congruence).
    destruct D as [D|D].
    + injection D as -> ->. assert (q = k) as ->.
      { destruct Lq as (l1 & X1 & Y1), L as (l2 & X2 & Y2). congruence. }
      apply Hn'. unfold in_block in *. cbn [start size] in *. lia.
    + apply (w_apart _ _ _ W j b q i a k Lq L D y). split; [exact Hy|]. apply kdata_raw; [exact Ht|exact G|].
      pose proof (lg_used _ _ G). unfold kdata, in_block in *. cbn [start size] in *. lia.
  - intros n' j p' c Hn' Uj. destruct (Nat.eq_dec n' n) as [->|N].
    + rewrite ChainProofs.nth_set_nth_eq in Hn' by exact Ln. injection Hn' as <- <- <-. rewrite SL, read_spliced by lia. rewrite P4. reflexivity.
    + rewrite ChainProofs.nth_set_nth_ne in Hn' by congruence. destruct (w_box _ _ _ W n' j p' c Hn' Uj) as (b & q & Lq & Q1 & Q2 & Q3 & Q4).
      rewrite <- Q4 at 2. apply mem_read_same. intros y Hy. apply MO. intros Hb.
      apply (w_box_apart _ _ _ W n' n j p' c i p old N Hn' Hn Uj U y). split; [|exact Hb]. exact Hy.
Qed.

(** ** A new chain *)

Lemma load_bytes_zero m n : forall p, (forall y, p <= y < p + Z.of_nat n -> m y = Some 0) -> load_bytes m p n = Some 0.
Proof.
  induction n as [|n IH]; intros p H; cbn [load_bytes]; [reflexivity|]. rewrite H by lia. rewrite IH; [reflexivity|]. intros y Hy. apply H. lia.
Qed.

Lemma new_ok t x r n a : valid_target t -> wrel t x r -> is_usize t n -> lsize (link_layout t n) <= isize_max t ->
  let b := MkBlock a (lsize (link_layout t n)) in
  valid_region t b -> (forall i q k, linked r i q k -> disjoint b (kraw t k)) ->
  wrel t (MkXW (mem_fill (xmem x) a (lsize (link_layout t n)) (Some 0)) (xroots x ++ [Some (Some (a, n))]) ((a, link_layout t n) :: xheap x) (xfrees x) (xboxes x))
    (MkRW (rchains r ++ [Some [MkRL a n 0]]) (rfrees r) (rboxes r)).
Proof.
  intros Ht W Un Hs b V D. pose proof (word_pos t Ht) as Hw. pose proof (layout_big t n Ht (proj1 Un)) as LB.
  set (k0 := MkRL a n 0). set (r' := MkRW _ _ _). set (m' := mem_fill _ _ _ _).
  assert (G0 : link_good t k0).
  { constructor; cbn [k0 kcap kused]; [exact V|apply Un|]. destruct Un. lia. }
  assert (LR : length (xroots x) = length (rchains r)).
  { destruct (Nat.lt_trichotomy (length (xroots x)) (length (rchains r))) as [H|[H|H]]; [exfalso| exact H|exfalso].
    - pose proof (w_roots _ _ _ W (length (xroots x))) as R. rewrite (proj2 (nth_error_None (xroots x) _)) in R by lia.
      destruct (nth_error (rchains r) (length (xroots x))) as [[ls|]|] eqn:E; cbn [root_rel] in R.
      + destruct R as (_ & p & R & _). discriminate.
      + discriminate.
      + apply nth_error_None in E. lia.
    - pose proof (w_roots _ _ _ W (length (rchains r))) as R. rewrite (proj2 (nth_error_None (rchains r) _)) in R by lia. cbn [root_rel] in R.
      apply nth_error_None in R. lia. }
  assert (L : forall i q k, linked r' i q k -> linked r i q k \/ (i = length (rchains r) /\ q = 0%nat /\ k = k0)).
  { intros i q k (ls & E & Y). cbn [r' rchains] in E. apply nth_error_snoc in E. destruct E as [E|[-> E]]; [left; exists ls; auto|].
    injection E as ->. right. destruct q as [|[|q]]; cbn in Y; try discriminate. injection Y as <-. auto. }
  assert (L' : forall i q k, linked r i q k -> linked r' i q k).
  { intros i q k (ls & E & Y). exists ls. split; [|exact Y]. cbn [r' rchains]. rewrite nth_error_app1 by apply (nth_lt' _ _ _ E). exact E. }
  assert (L0 : linked r' (length (rchains r)) 0 k0).
  { exists [k0]. split; [|reflexivity]. cbn [r' rchains]. rewrite nth_error_app2, Nat.sub_diag by lia. reflexivity. }
  assert (MO : forall y, ~ in_block b y -> m' y = xmem x y) by (apply (mem_fill_outside (xmem x) a (lsize (link_layout t n)) (Some 0))).
  assert (MZ : forall y, in_block b y -> m' y = Some 0).
  { intros y Hy. unfold m', mem_fill, in_block, b in *. cbn [start size] in Hy.
    destruct (Z.leb_spec a y), (Z.ltb_spec y (a + lsize (link_layout t n))); cbn; try reflexivity; lia. }
  assert (MS : forall i q k, linked r i q k -> raw_same t k (xmem x) m').
  { intros i q k Lk y Hy. apply MO. intros Hb. apply (D i q k Lk y). auto. }
  assert (FR : forall i q k, linked r i q k -> (i < length (rchains r))%nat) by (intros i q k (ls & E & _); apply (nth_lt' _ _ _ E)).
  assert (US : forall i, usable r' i = true -> usable r i = true \/ i = length (rchains r)).
  { intros i Hu. apply usable_iff in Hu. destruct Hu as [ls E]. cbn [r' rchains] in E. apply nth_error_snoc in E.
    destruct E as [E|[E _]]; [left; apply usable_iff; eauto|auto]. }
  assert (BX : forall c i p bs, nth_error (rboxes r) c = Some (i, p, bs) -> usable r' i = true -> usable r i = true).
  { intros c i p bs Hc Hu. destruct (US i Hu) as [Hu'| ->]; [exact Hu'|exfalso]. pose proof (w_box_chain _ _ _ W _ _ _ _ Hc). lia. }
  constructor; cbn [xmem xroots xheap xfrees xboxes r' rchains rfrees rboxes].
  - intros i. destruct (Nat.lt_trichotomy i (length (rchains r))) as [H|[H|H]].
    + rewrite !nth_error_app1 by lia. pose proof (w_roots _ _ _ W i) as R.
      destruct (nth_error (rchains r) i) as [[ls|]|] eqn:E; cbn [root_rel] in *; auto.
      destruct R as (N & p & Ep & S). split; [exact N|]. exists p. split; [exact Ep|]. apply (seg_same t (xmem x)); [exact Ht| |exact S].
      intros k Hk. apply In_nth_error in Hk. destruct Hk as [q Nq]. assert (Lk : linked r i q k) by (exists ls; auto).
      split; [apply (w_good _ _ _ W _ _ _ Lk)|apply (MS i q k Lk)].
    + rewrite !nth_error_app2 by lia. rewrite LR, H, Nat.sub_diag. cbn [nth_error root_rel]. split; [discriminate|].
      exists (Some (a, n)). split; [reflexivity|]. cbn [seg]. split; [reflexivity|].
      assert (Z1 : forall p, a <= p -> p + word_bytes t <= a + lsize (link_layout t n) -> load_usize t m' p = Some 0).
      { intros p Hp1 Hp2. unfold load_usize. apply load_bytes_zero. intros y Hy. apply MZ. unfold in_block, b. cbn [start size]. lia. }
      split; [split|].
      * cbn [k0 kbase kused]. destruct Un. apply Z1; lia.
      * cbn [k0 kused kcap kdata kbase start]. intros y Hy. apply MZ. unfold in_block, b. cbn [start size]. destruct Un. lia.
      * exists None. split; [|reflexivity]. unfold load_link. cbn [k0 kbase]. destruct Un. rewrite Z1 by lia. reflexivity.
    + rewrite (proj2 (nth_error_None _ _)) by (rewrite app_length; cbn; lia). rewrite (proj2 (nth_error_None _ _)) by (rewrite app_length; cbn; lia). reflexivity.
  - intros i q k Hk. destruct (L i q k Hk) as [Lk|(_ & _ & ->)]; [apply (w_good _ _ _ W _ _ _ Lk)|exact G0].
  - intros i q k j q' k' H1 H2 N. destruct (L _ _ _ H1) as [L1|(-> & -> & ->)], (L _ _ _ H2) as [L2|(-> & -> & ->)].
    + apply (w_apart _ _ _ W _ _ _ _ _ _ L1 L2 N).
    + intros y [Y1 Y2]. apply (D _ _ _ L1 y). auto.
    + apply (D _ _ _ L2).
    + congruence.
  - intros z. cbn [In]. rewrite (w_heap _ _ _ W). split.
    + intros [<-|(i & q & k & Lk & ->)]; [exists (length (rchains r)), 0%nat, k0; auto|]. exists i, q, k. auto.
    + intros (i & q & k & Lk & ->). destruct (L _ _ _ Lk) as [Lk'|(_ & _ & ->)]; [right; eauto 6|left; reflexivity].
  - apply (w_frees _ _ _ W).
  - apply (w_boxes _ _ _ W).
  - intros c i p bs Hc Hu. destruct (w_box _ _ _ W c i p bs Hc (BX _ _ _ _ Hc Hu)) as (q & k & Lk & P1 & P2 & P3 & P4).
    exists q, k. split; [auto|]. split; [exact P1|]. split; [exact P2|]. split; [exact P3|]. rewrite <- P4 at 2. apply mem_read_same.
    intros y Hy. apply (MS i q k Lk). apply kdata_raw; [exact Ht|apply (w_good _ _ _ W _ _ _ Lk)|].
    pose proof (lg_used _ _ (w_good _ _ _ W _ _ _ Lk)). unfold kdata, in_block in *. cbn [start size] in *. lia.
  - intros c c' i p bs i' p' bs' N H1 H2 U1 U2. apply (w_box_apart _ _ _ W c c' i p bs i' p' bs' N H1 H2 (BX _ _ _ _ H1 U1) (BX _ _ _ _ H2 U2)).
  - intros c i p bs Hc. rewrite app_length. cbn. pose proof (w_box_chain _ _ _ W _ _ _ _ Hc). lia.
Qed.

(** ** One call *)

Lemma step_ok t x r o : valid_target t -> wrel t x r -> xop_ok t r o ->
  exists x' r' a, xstep t x o = Some (x', a) /\ rstep t r o = Some (r', a) /\ wrel t x' r' /\
    (is_wild o = false -> forall y, ~ chain_byte t r y -> ~ chain_byte t r' y -> xmem x' y = xmem x y).
Proof.
  intros Ht W Ok. pose proof (word_pos t Ht) as Hw.
  assert (CB : forall i ls y, nth_error (rchains r) i = Some (Some ls) -> ~ chain_byte t r y -> outside_all t ls y).
  { intros i ls y E N k Hk Hy. apply N. apply In_nth_error in Hk. destruct Hk as [a Na]. exists i, a, k. split; [exists ls; auto|exact Hy]. }
  destruct o as [n heap|i j|i l|i|i|i|b off bs|b|a bs]; cbn [xop_ok] in Ok; cbn [xstep rstep is_wild].
  - destruct Ok as [Un Hh]. rewrite (from_size_spec t n Ht (proj1 Un)).
    destruct (Z.ltb_spec (isize_max t) (lsize (link_layout t n))) as [H|H].
    { exists x, r, (XAErr n). auto. }
    destruct heap as [a|].
    2:{ exists x, r, (XAErr (lsize (link_layout t n))). auto. }
    destruct (Hh a eq_refl H) as (V & _ & D). cbv zeta in V, D.
    do 3 eexists. split; [reflexivity|]. split; [reflexivity|]. split; [exact (new_ok t x r n a Ht W Un H V D)|].
    intros _ y _ N. cbn [xmem heap_alloc]. apply (mem_fill_outside (xmem x) a (lsize (link_layout t n)) (Some 0)). intros Hy.
    apply N. exists (length (rchains r)), 0%nat, (MkRL a n 0). split; [|exact Hy]. exists [MkRL a n 0]. split; [|reflexivity].
    cbn [rchains]. rewrite nth_error_app2, Nat.sub_diag by lia. reflexivity.
  - destruct Ok as (N & Ui & Uj). apply usable_iff in Ui. destruct Ui as [ls Ei].
    destruct (wrel_chain t x r j W Uj) as (k & old & p & Ej & _).
    destruct (join_ok t x r i j ls k old Ht W N Ei Ej) as (x' & E & W' & M). rewrite E, Ei, Ej.
    do 3 eexists. split; [reflexivity|]. split; [reflexivity|]. split; [exact W'|]. intros _ y Ny _. apply M. apply (CB j _ y Ej Ny).
  - destruct Ok as [Ui Tl]. destruct (wrel_chain t x r i W Ui) as (k & ls & p & Ei & _). pose proof (linked_head r i k ls Ei) as Lk.
    pose proof (w_good _ _ _ W _ _ _ Lk) as G. pose proof (uok_link t k Ht G) as Uk.
    rewrite (root_bump_ok t x r i k ls Ht W Ei), (newest_nth r i k ls Ei), (bump_box_eq t (bump_of t k) l Ht Uk Tl).
    cbn [bump_of udata uindex]. cbv zeta.
    assert (Same : set_mem x (bstore t (xmem x) (link_bump t (hof k)) (bump_of t k) (bump_of t k)) = x).
    { unfold bstore. rewrite Z.eqb_refl. destruct x. reflexivity. }
    assert (H0 : 0 <= lsize l) by (apply Tl). assert (Ha : 0 < lalign l) by (apply pow2_pos; apply Tl).
    destruct (Z.eqb_spec (lsize l) 0) as [Z0|Z0].
    { do 3 eexists. split; [reflexivity|]. split; [reflexivity|]. change {| udata := kdata t k; uindex := kused k |} with (bump_of t k). rewrite Same. auto. }
    set (q := align_up (start (kdata t k) + kused k) (lalign l)).
    destruct (Z.leb_spec (q + lsize l) (start (kdata t k) + size (kdata t k))) as [Hq|Hq].
    + destruct (wrel_bumped t x r i k ls q (lsize l) Ht W Ei) as [W' M]; [lia|apply align_up_ge; exact Ha|exact Hq|].
      do 3 eexists. split; [reflexivity|]. split; [reflexivity|]. unfold with_newest. rewrite Ei. split; [exact W'|].
      intros _ y Ny _. apply M. intros Hy. apply Ny. exists i, 0%nat, k. auto.
    + do 3 eexists. split; [reflexivity|]. split; [reflexivity|]. change {| udata := kdata t k; uindex := kused k |} with (bump_of t k). rewrite Same. auto.
  - destruct (wrel_chain t x r i W Ok) as (k & ls & p & Ei & _). rewrite (root_bump_ok t x r i k ls Ht W Ei), (newest_nth r i k ls Ei).
    do 3 eexists. split; [reflexivity|]. split; [reflexivity|]. auto.
  - destruct (wrel_chain t x r i W Ok) as (k & ls & p & Ei & _). rewrite (root_bump_ok t x r i k ls Ht W Ei), (newest_nth r i k ls Ei).
    pose proof (linked_head r i k ls Ei) as Lk. pose proof (lg_used _ _ (w_good _ _ _ W _ _ _ Lk)) as Uk.
    unfold u_capacity, u_level, bump_of, op_sub. cbn [udata uindex kdata size]. destruct (Z.leb_spec (kused k) (kcap k)); [|lia].
    do 3 eexists. split; [reflexivity|]. split; [reflexivity|]. auto.
  - apply usable_iff in Ok. destruct Ok as [ls Ei]. destruct (drop_chain_ok t x r i ls Ht W Ei) as (x' & E & W' & M). rewrite E, Ei.
    do 3 eexists. split; [reflexivity|]. split; [reflexivity|]. split; [exact W'|]. intros _ y Ny _. apply M. apply (CB i _ y Ei Ny).
  - destruct Ok as (i & p & old & Hb & Ui & Ho & Hl). rewrite Hb, Ui.
    destruct (wrel_chain t x r i W Ui) as (k & ls & h & Ei & Ex & _).
    unfold x_box. rewrite (w_boxes _ _ _ W), nth_error_map, Hb. cbn [option_map box_of]. rewrite (cell_some _ _ _ Ex). cbn [start].
    destruct (store_ok t x r b i p old off bs Ht W Hb Ui Ho Hl) as [W' M].
    do 3 eexists. split; [reflexivity|]. split; [reflexivity|]. split; [exact W'|]. intros _ y Ny _. apply M. intros Hy. apply Ny.
    destruct (w_box _ _ _ W b i p old Hb Ui) as (a & q & Lq & P1 & P2 & P3 & _). exists i, a, q. split; [exact Lq|].
    pose proof (w_good _ _ _ W _ _ _ Lq) as G. apply kdata_raw; [exact Ht|exact G|]. pose proof (lg_used _ _ G). unfold kdata, in_block in *. cbn [start size] in *. lia.
  - destruct Ok as (i & p & old & Hb & Ui). rewrite Hb, Ui.
    destruct (wrel_chain t x r i W Ui) as (k & ls & h & Ei & Ex & _).
    unfold x_box. rewrite (w_boxes _ _ _ W), nth_error_map, Hb. cbn [option_map box_of]. rewrite (cell_some _ _ _ Ex). cbn [start size].
    destruct (w_box _ _ _ W b i p old Hb Ui) as (a & q & Lq & P1 & P2 & P3 & P4). rewrite P4.
    do 3 eexists. split; [reflexivity|]. split; [reflexivity|]. auto.
  - do 3 eexists. split; [reflexivity|]. split; [reflexivity|]. split; [exact (wild_ok t x r a bs Ht W Ok)|]. discriminate.
Qed.

Lemma run_ok t os : valid_target t -> forall x r, wrel t x r -> xhist t r os ->
  exists x' r' as_, xrun t x os = Some (x', as_) /\ rrun t r os = Some (r', as_) /\ wrel t x' r'.
Proof.
  intros Ht. induction os as [|o os IH]; intros x r W H; cbn [xhist xrun rrun] in *.
  - exists x, r, []. auto.
  - destruct H as [Ok H]. destruct (step_ok t x r o Ht W Ok) as (x1 & r1 & a & E1 & E2 & W1 & _). rewrite E1, E2.
    destruct (IH x1 r1 W1 (H r1 a E2)) as (x2 & r2 & l & F1 & F2 & W2). rewrite F1, F2. eauto 6.
Qed.
