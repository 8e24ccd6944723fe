(** * Claims about [Chain] (C27, C28). *)
From Verif Require Import Base Spec BaseFacts SyncModel SyncSpec SyncProofs PropsSync
  UnsyncModel UnsyncSpec UnsyncProofs ChainModel ChainSpec ChainProofs.

(** C27. No history of calls that obeys Rust's ownership rules ever uses or frees a link that is not
    allocated, and none gets stuck. *)
Theorem C27_no_dangling_link : forall t os,
  valid_target t -> chain_hist t empty_world os ->
  exists s h, crun t empty_world os = Some (s, h).
Proof.
  intros t os Ht Hh. destruct (crun_ok t empty_world _ os Ht (cinv_empty t) Hh) as (s & h & f & E & _). eauto.
Qed.
Print Assumptions C27_no_dangling_link.

(** C27. After any history: each existing chain owns a finite list of allocated links without repetition; a
    link is allocated iff some existing chain owns it, and that chain is unique; each link is freed at most
    once, and it is freed iff it was allocated before and is not allocated now. *)
Theorem C27_each_link_owned_or_freed_once : forall t s,
  valid_target t -> chain_reach t s ->
  (forall i, chain_alive s i -> exists ps, chain_owns s i ps /\ NoDup ps) /\
  (forall p, link_live s p <-> exists i ps, chain_owns s i ps /\ In p ps) /\
  (forall i j ps qs p, chain_owns s i ps -> chain_owns s j qs -> In p ps -> In p qs -> i = j) /\
  NoDup (freed s) /\
  (forall p, In p (freed s) <-> (p < length (store s))%nat /\ ~ link_live s p).
Proof.
  intros t s Ht Hr. destruct (chain_reach_inv t s Ht Hr) as [f Hc].
  pose proof (fun i ps => chain_owns_iff t s f i ps Hc) as Hiff.
  split; [|split; [|split; [|split]]].
  - intros i Hi. exists (f i). split; [apply Hiff; auto|]. destruct Hi as [r Hi].
    apply (owns_nodup _ _ _ (ci_own _ _ _ _ Hc i r Hi)).
  - intros p. split.
    + intros Hp. destruct (ci_live _ _ _ _ Hc p Hp) as [(i & Hi & Hin)|[]]. exists i, (f i). split; [apply Hiff; auto|exact Hin].
    + intros (i & ps & (r & Hi & Ho) & Hin). apply (owns_live _ _ _ _ Ho Hin).
  - intros i j ps qs p Hi Hj. apply Hiff in Hi, Hj. destruct Hi as [Hi ->], Hj as [Hj ->].
    apply (ci_uniq _ _ _ _ Hc i j p Hi Hj).
  - apply (ci_freed _ _ _ _ Hc).
  - intros p. rewrite (ci_freed_iff _ _ _ _ Hc). unfold link_live. split.
    + intros E. split; [apply nth_lt with (1 := E)|]. intros [k E']. congruence.
    + intros [Hlt Hn]. destruct (nth_error (store s) p) as [[k|]|] eqn:E; [exfalso; eauto|reflexivity|].
      apply nth_error_None in E. lia.
Qed.
Print Assumptions C27_each_link_owned_or_freed_once.

(** C27. Hence when no chain is left, every link ever allocated was freed. *)
Theorem C27_no_leak : forall t s,
  valid_target t -> chain_reach t s -> (forall i, ~ chain_alive s i) ->
  forall p, (p < length (store s))%nat -> In p (freed s).
Proof.
  intros t s Ht Hr Hno p Hp. destruct (C27_each_link_owned_or_freed_once t s Ht Hr) as (_ & H2 & _ & _ & H5).
  apply H5. split; [exact Hp|]. intros Hl. apply H2 in Hl. destruct Hl as (i & ps & (r & Hi & _) & _).
  apply (Hno i). exists r. exact Hi.
Qed.
Print Assumptions C27_no_leak.

(** C27. What is freed when: dropping a chain frees exactly its links; [chain] frees exactly all links of the
    moved chain but the newest, which is put in front of the links of the other chain (all kept); all other
    calls free nothing.  Other chains keep all their links. *)
Theorem C27_effects : forall t s o s' a,
  valid_target t -> chain_reach t s -> owner_ok t s o -> cstep t s o = Some (s', a) ->
  exists fr, freed s' = freed s ++ fr /\
  match o with
  | ODrop i =>
      (forall ps, chain_owns s i ps -> fr = ps) /\ ~ chain_alive s' i /\
      forall x ps, x <> i -> chain_owns s x ps -> chain_owns s' x ps
  | OChain i j =>
      ~ chain_alive s' j /\
      (forall ps qs, chain_owns s i ps -> chain_owns s j qs ->
         chain_owns s' i (firstn 1 qs ++ ps) /\ forall p, In p fr <-> In p (skipn 1 qs)) /\
      forall x ps, x <> i -> x <> j -> chain_owns s x ps -> chain_owns s' x ps
  | _ => fr = [] /\ forall x ps, chain_owns s x ps -> chain_owns s' x ps
  end.
Proof.
  intros t s o s' a Ht Hr Ho E. destruct (chain_reach_inv t s Ht Hr) as [f Hc].
  destruct (cstep_ok t s f o Ht Hc Ho) as (s1 & a1 & f' & E1 & Hc' & H). rewrite E in E1. injection E1 as <- <-.
  pose proof (fun i ps => chain_owns_iff t s f i ps Hc) as Hiff.
  pose proof (fun i ps => chain_owns_iff t s' f' i ps Hc') as Hiff'.
  assert (Hsame : frees s' = frees s -> freed s' = freed s ++ []).
  { intros X. unfold freed. rewrite X, app_nil_r. reflexivity. }
  assert (Hal : chains s' = chains s -> forall x, chain_alive s x -> chain_alive s' x).
  { intros X x. unfold chain_alive. rewrite X. auto. }
  destruct o as [sz addr|i j|i l|i|i|i].
  - exists []. destruct H as [H1 H2]. split; [auto|]. split; [reflexivity|]. intros x ps Hx. apply Hiff in Hx.
    destruct Hx as [Hx ->]. apply Hiff'. destruct (H2 x Hx) as [H3 H4]. auto.
  - destruct H as (H1 & H2 & H3 & H4 & H5 & H6). exists (skipn (length (freed s)) (freed s')). split; [exact H3|].
    split; [rewrite H4; tauto|]. split.
    + intros ps qs Hp Hq. apply Hiff in Hp, Hq. destruct Hp as [Hp ->], Hq as [Hq ->]. split.
      * apply Hiff'. split; [|auto]. apply H4. cbn in Ho. split; [apply Ho|exact Hp].
      * intros p. rewrite H2. destruct (f j); reflexivity.
    + intros x ps X1 X2 Hx. apply Hiff in Hx. destruct Hx as [Hx ->]. apply Hiff'. split; [apply H4; auto|].
      symmetry. auto.
  - exists []. destruct H as (H1 & H2 & H3). split; [auto|]. split; [reflexivity|]. intros x ps Hx. apply Hiff in Hx.
    destruct Hx as [Hx ->]. apply Hiff'. rewrite H3. auto.
  - exists []. destruct H as (H1 & H2 & H3). split; [auto|]. split; [reflexivity|]. intros x ps Hx. apply Hiff in Hx.
    destruct Hx as [Hx ->]. apply Hiff'. rewrite H3. auto.
  - exists []. destruct H as (H1 & H2 & H3). split; [auto|]. split; [reflexivity|]. intros x ps Hx. apply Hiff in Hx.
    destruct Hx as [Hx ->]. apply Hiff'. rewrite H3. auto.
  - destruct H as (H1 & H2 & H3). exists (f i). split.
    { unfold freed. rewrite H1, map_app, map_map. cbn. rewrite map_id. reflexivity. }
    split; [intros ps Hp; apply Hiff in Hp; symmetry; apply Hp|]. split; [rewrite H2; tauto|].
    intros x ps X1 Hx. apply Hiff in Hx. destruct Hx as [Hx ->]. apply Hiff'. rewrite H2, H3. auto.
Qed.
Print Assumptions C27_effects.

(** C27. A link is given back to the heap with the layout it was obtained with: for each live link, the
    layout computed from the value is the one [Chain::new] computes for that capacity, and its size is that of
    the memory obtained; and every deallocation passes that layout. *)
Theorem C27_dealloc_layout : forall t s,
  valid_target t -> chain_reach t s ->
  (forall p k, nth_error (store s) p = Some (Some k) ->
     let cap := u_capacity (lbump k) in
     link_layout_from_size t cap = Some (link_val_layout t cap) /\
     size (lraw k) = lsize (link_val_layout t cap)) /\
  (forall o s' a, owner_ok t s o -> cstep t s o = Some (s', a) ->
     exists fr, frees s' = frees s ++ fr /\
     forall p l, In (p, l) fr -> exists k, nth_error (store s) p = Some (Some k) /\ l = link_val_layout t (u_capacity (lbump k))).
Proof.
  intros t s Ht Hr. destruct (chain_reach_inv t s Ht Hr) as [f Hc]. split.
  - intros p k E. destruct (ci_links _ _ _ _ Hc p k E) as (_ & _ & K3 & K4). auto.
  - intros o s' a Ho E. destruct (cstep_ok t s f o Ht Hc Ho) as (s1 & a1 & f' & E1 & Hc' & H).
    rewrite E in E1. injection E1 as <- <-.
    assert (Hd : forall ps, (forall p, In p ps -> link_live s p) ->
              forall p l, In (p, l) (map (fun p => (p, dealloc_of t (store s) p)) ps) ->
              exists k, nth_error (store s) p = Some (Some k) /\ l = link_val_layout t (u_capacity (lbump k))).
    { intros ps Hps p l Hin. apply in_map_iff in Hin. destruct Hin as (q & [= <- <-] & Hq).
      destruct (Hps q Hq) as [k Ek]. exists k. split; [exact Ek|]. unfold dealloc_of.
      rewrite (proj2 (cell_iff _ _ _) Ek). reflexivity. }
    assert (Hlv : forall i p, chain_alive s i -> In p (f i) -> link_live s p).
    { intros i p [r Hi] Hp. apply (owns_live _ _ _ _ (ci_own _ _ _ _ Hc i r Hi) Hp). }
    assert (Hnil : frees s' = frees s -> exists fr, frees s' = frees s ++ fr /\ forall p l, In (p, l) fr ->
              exists k, nth_error (store s) p = Some (Some k) /\ l = link_val_layout t (u_capacity (lbump k))).
    { intros X. exists []. rewrite X, app_nil_r. split; [reflexivity|intros p l []]. }
    destruct o as [sz addr|i j|i l|i|i|i]; try (apply Hnil; apply H).
    + destruct H as (H1 & H2 & _). eexists. split; [exact H1|]. apply Hd. intros p Hp. apply H2 in Hp.
      apply (Hlv j); [apply Ho|]. destruct (f j); [destruct Hp|right; exact Hp].
    + destruct H as (H1 & _). eexists. split; [exact H1|]. apply Hd. intros p. apply (Hlv i). exact Ho.
Qed.
Print Assumptions C27_dealloc_layout.

(** Two chains, one moved into the other, allocations, drop. *)
Definition ex_cops : list cop :=
  [ONew 64 (Some 4096); ONew 3 (Some 8192); ONew 16 (Some 16384); OBumpBox 0 ex_u64; OChain 1 2; OChain 0 1;
   OBumpBox 0 ex_u16; OBumpBox 0 ex_u64; OCapacity 0; ORemaining 0; ODrop 0].

Lemma ex_link_layouts : forall sz, In sz [64; 3; 16] -> forall a l, In a [4096; 8192; 16384] ->
  link_layout_from_size (x64 true) sz = Some l ->
  valid_region (x64 true) (MkBlock a (lsize l)) /\ aligned a (lalign l).
Proof.
  intros sz Hs a l Ha. repeat (destruct Hs as [<-|Hs]; [
    repeat (destruct Ha as [<-|Ha]; [intros [= <-]; split; [vm_compute; repeat split; congruence|
      eexists; cbn; first [instantiate (1 := 512); reflexivity|instantiate (1 := 1024); reflexivity|instantiate (1 := 2048); reflexivity]]|]); destruct Ha|]).
  destruct Hs.
Qed.

Lemma ex_type (l : layout) : l = ex_u64 \/ l = ex_u16 -> type_layout (x64 true) l.
Proof. destruct ex_layouts_ok as (H1 & H2 & _). intros [->| ->]; [exact H1|exact H2]. Qed.

Example C27_nonvacuous :
  chain_hist (x64 true) empty_world ex_cops /\
  option_map snd (crun (x64 true) empty_world ex_cops) =
  Some (combine ex_cops [ANewOk; ANewOk; ANewOk; ABox (RBlock (MkAlloc 4120 8)); AUnit; AUnit;
    ABox (RBlock (MkAlloc 16408 2)); ABox (RBlock (MkAlloc 16416 16)); ASize (Ret 16); ASize (Ret 0); AUnit]) /\
  option_map (fun r => freed (fst r)) (crun (x64 true) empty_world ex_cops) = Some [1; 2; 0]%nat.
Proof.
  split; [|split; reflexivity].
  unfold ex_cops.
  repeat (apply hist_cons; [|intros s' a E; vm_compute in E; injection E as <- <-]); [..|apply hist_nil];
    try (split; [vm_compute; split; congruence|intros a l [= <-]; apply ex_link_layouts; cbn; auto 10]);
    try (cbn; split; [discriminate|]; split; eexists; reflexivity);
    try (split; [eexists; reflexivity|apply ex_type; auto]);
    try (eexists; reflexivity).
Qed.

(** C28. [bump_box] looks at the newest link only: it succeeds iff the request fits there (first fit), the
    block is inside that link's memory and no other link changes; else it fails without effect.  [capacity]
    and [remaining_capacity] are those of the newest link, and do not panic. *)
Theorem C28_newest_link_only : forall t s i p ps k l,
  valid_target t -> chain_reach t s -> chain_owns s i (p :: ps) -> nth_error (store s) p = Some (Some k) ->
  type_layout t l -> 0 < lsize l ->
  (fits_in (udata (lbump k)) (u_level (lbump k)) l ->
   exists q lv s', cstep t s (OBumpBox i l) = Some (s', ABox (RBlock {| ptr := q; alevel := lv |})) /\
     first_aligned (start (udata (lbump k)) + u_level (lbump k)) (lalign l) q /\
     inside (MkBlock q (lsize l)) (lraw k) /\
     forall x, x <> p -> nth_error (store s') x = nth_error (store s) x) /\
  (~ fits_in (udata (lbump k)) (u_level (lbump k)) l ->
   cstep t s (OBumpBox i l) = Some (s, ABox (RFail Exhausted))) /\
  cstep t s (OCapacity i) = Some (s, ASize (Ret (size (udata (lbump k))))) /\
  cstep t s (ORemaining i) = Some (s, ASize (Ret (size (udata (lbump k)) - u_level (lbump k)))).
Proof.
  intros t s i p ps k l Ht Hr (r & Hi & Ho) Hp Hl Hpos. destruct (chain_reach_inv t s Ht Hr) as [f Hc].
  inversion Ho as [|p' k' ps' Hp' Ho']; subst. destruct (ci_links _ _ _ _ Hc p k Hp) as (K1 & K2 & _).
  cbn [cstep]. rewrite (proj2 (cell_iff _ _ _) Hi), (proj2 (cell_iff _ _ _) Hp).
  destruct (bump_box_exact t (lbump k) l Ht K1 Hl) as (_ & B1 & B2).
  destruct (ualloc_exact t (lbump k) l Ht K1 (proj1 Hl) Hpos) as [A1 _].
  split; [|split; [|split]].
  - intros Hf. specialize (B1 Hpos Hf). destruct (A1 Hf) as (q & Hq & Ea). rewrite Ea in B1. cbn [ustep] in B1.
    destruct (u_bump_box t (lbump k) l) as [b' rr]. injection B1 as -> Hrr. rewrite Hrr.
    do 3 eexists. split; [reflexivity|]. split; [exact Hq|]. split.
    + intros x Hx. apply K2. unfold in_block in *. cbn [start size] in Hx.
      destruct Hq as (Q1 & Q2 & Q3). destruct Hf as (y & Y1 & Y2 & Y3). specialize (Q3 y Y1 Y2).
      destruct K1 as [_ Hc0]. cbn in Hc0. unfold u_level in *. lia.
    + intros x Hx. apply nth_set_nth_ne. congruence.
  - intros Hn. specialize (B2 Hpos Hn). cbn [ustep] in B2. destruct (u_bump_box t (lbump k) l) as [b' rr].
    injection B2 as -> Hrr. rewrite Hrr. do 2 f_equal. unfold put. destruct s as [st ch fr]. cbn in *. f_equal.
    apply set_nth_id. destruct k; exact Hp.
  - reflexivity.
  - unfold op_sub, u_capacity, u_level. destruct K1 as [_ Hc0]. cbn in Hc0.
    destruct (Z.leb_spec (uindex (lbump k)) (size (udata (lbump k)))); [reflexivity|lia].
Qed.
Print Assumptions C28_newest_link_only.

(** The documented reading of [capacity], "how many bytes in total can be allocated within this Chain", is
    false: after moving a chain of 3 bytes in front of one of 64 bytes, the capacity is 3 and a u64 is refused. *)
Theorem C28_total_capacity_refuted : exists t os s h,
  valid_target t /\ chain_hist t empty_world os /\ crun t empty_world os = Some (s, h) /\
  chain_owns s 0 [1; 0]%nat /\ (exists k, nth_error (store s) 0 = Some (Some k) /\ u_capacity (lbump k) = 64 /\ u_level (lbump k) = 0) /\
  cstep t s (OCapacity 0) = Some (s, ASize (Ret 3)) /\
  cstep t s (OBumpBox 0 ex_u64) = Some (s, ABox (RFail Exhausted)).
Proof.
  exists (x64 true), [ONew 64 (Some 4096); ONew 3 (Some 8192); OChain 0 1]. do 2 eexists.
  split; [exact ex_target_ok|]. split; [|split; [reflexivity|]].
  - repeat (apply hist_cons; [|intros s' a E; vm_compute in E; injection E as <- <-]); [..|apply hist_nil];
    try (split; [vm_compute; split; congruence|intros a l [= <-]; apply ex_link_layouts; cbn; auto 10]);
    try (cbn; split; [discriminate|]; split; eexists; reflexivity).
  - split; [|split; [|split; reflexivity]].
    + eexists. split; [reflexivity|]. econstructor; [reflexivity|]. econstructor; [reflexivity|]. constructor.
    + eexists. split; [reflexivity|]. split; reflexivity.
Qed.
Print Assumptions C28_total_capacity_refuted.

(** C82. [Chain::new(n)] asks the heap for three words (a fat [next] pointer and the index) plus [n] bytes,
    rounded up to the alignment of usize.  If that exceeds isize::MAX it fails whatever the heap would answer and
    the error reports [n]; if the heap refuses, the error reports the size asked for; in both cases nothing
    changes.  Otherwise there is one more chain, which owns one new link of capacity exactly [n], all of it
    remaining, that lies inside the memory obtained; every other chain keeps its links. *)
Theorem C82_new : forall t s n,
  valid_target t -> chain_reach t s -> is_usize t n ->
  let need := align_up (3 * word_bytes t + n) (usize_align t) in
  (isize_max t < need -> forall heap, cstep t s (ONew n heap) = Some (s, ANewErr n)) /\
  (need <= isize_max t ->
   cstep t s (ONew n None) = Some (s, ANewErr need) /\
   forall a, valid_region t (MkBlock a need) -> aligned a (usize_align t) ->
   exists s', cstep t s (ONew n (Some a)) = Some (s', ANewOk) /\
     let c := length (chains s) in
     length (chains s') = S c /\
     chain_owns s' c [length (store s)] /\
     (exists k, nth_error (store s') (length (store s)) = Some (Some k) /\ inside (udata (lbump k)) (MkBlock a need)) /\
     cstep t s' (OCapacity c) = Some (s', ASize (Ret n)) /\
     cstep t s' (ORemaining c) = Some (s', ASize (Ret n)) /\
     freed s' = freed s /\
     forall i ps, chain_owns s i ps -> chain_owns s' i ps).
Proof.
  intros t s n Ht Hr Hn need. destruct (link_layout_iff t n Ht (proj1 Hn)) as [L1 L2].
  fold need in L1, L2. split.
  - intros H heap. cbn [cstep]. unfold link_alloc. rewrite (L2 H). reflexivity.
  - intros H. specialize (L1 H). split; [cbn [cstep]; unfold link_alloc; rewrite L1; reflexivity|].
    intros a Ha Hal.
    assert (Ho : owner_ok t s (ONew n (Some a))).
    { split; [exact Hn|]. intros a' l [= <-]. rewrite L1. intros [= <-]. auto. }
    assert (Es : exists s', cstep t s (ONew n (Some a)) = Some (s', ANewOk)).
    { cbn [cstep]. unfold link_alloc. rewrite L1. eauto. }
    destruct Es as [s' E]. exists s'. split; [exact E|].
    pose proof (C27_effects t s _ s' _ Ht Hr Ho E) as (fr & F1 & F2 & F3). subst fr. rewrite app_nil_r in F1.
    cbn [cstep] in E. destruct (link_alloc t n (Some a)) as [k l|] eqn:Ek; [|discriminate].
    assert (l = MkLayout need (usize_align t)) as ->.
    { unfold link_alloc in Ek. rewrite L1 in Ek. congruence. }
    destruct (link_alloc_ok t n a k _ Ht Hn Ek Ha) as (K1 & K2 & K3 & K4 & K5 & K6). cbn [lsize] in K3.
    injection E as E. subst s'. cbn [chains store].
    assert (Hc : cell (chains s ++ [Some (Some (length (store s)))]) (length (chains s)) = Some (Some (length (store s)))).
    { unfold cell. rewrite nth_error_app2, Nat.sub_diag by lia. reflexivity. }
    assert (Hk : nth_error (store s ++ [Some k]) (length (store s)) = Some (Some k)).
    { rewrite nth_error_app2, Nat.sub_diag by lia. reflexivity. }
    split; [rewrite app_length; cbn; lia|]. split; [|split; [|split; [|split; [|split]]]].
    + exists (Some (length (store s))). split; [apply cell_iff; exact Hc|]. econstructor; [exact Hk|]. rewrite K2. constructor.
    + exists k. split; [exact Hk|]. destruct K1 as (_ & K1 & _). rewrite K3 in K1. exact K1.
    + cbn [cstep chains store]. rewrite Hc, (proj2 (cell_iff _ _ _) Hk). unfold u_capacity. rewrite K5. reflexivity.
    + cbn [cstep chains store]. rewrite Hc, (proj2 (cell_iff _ _ _) Hk). unfold u_capacity, u_level, op_sub.
      rewrite K5, K6, Z.sub_0_r. destruct (Z.leb_spec 0 n); [reflexivity|]. destruct Hn. lia.
    + exact F1.
    + exact F3.
Qed.
Print Assumptions C82_new.

(** C82. A chain that exists owns at least one link, after any history. *)
Theorem C82_never_empty : forall t s i,
  valid_target t -> chain_reach t s -> chain_alive s i -> exists p ps, chain_owns s i (p :: ps).
Proof.
  intros t s i Ht Hr Hi. destruct (C27_each_link_owned_or_freed_once t s Ht Hr) as (H & _).
  destruct (H i Hi) as (ps & (r & H1 & H2) & _). pose proof (reach_rooted t s Ht Hr i) as Hn.
  inversion H2 as [|p k ps' H3 H4]; subst.
  - contradiction.
  - exists p, ps'. exists (Some p). split; [exact H1|exact H2].
Qed.
Print Assumptions C82_never_empty.

Example C82_nonvacuous :
  (cstep (x64 true) empty_world (ONew 3 None) = Some (empty_world, ANewErr 32)) /\
  (cstep (x64 true) empty_world (ONew (usize_max (x64 true)) (Some 4096)) = Some (empty_world, ANewErr (usize_max (x64 true)))) /\
  (exists s', cstep (x64 true) empty_world (ONew 3 (Some 4096)) = Some (s', ANewOk)) /\
  align_up (3 * word_bytes (x64 true) + 3) (usize_align (x64 true)) = 32 /\ chain_reach (x64 true) empty_world.
Proof.
  repeat split; try (eexists; reflexivity). exists [], []. split; [constructor|reflexivity].
Qed.
