(** * Claims about the single-threaded bump allocators (C18-C25). *)
From Verif Require Import Base Spec BaseFacts SyncModel SyncSpec SyncProofs PropsSync
  UnsyncModel UnsyncSpec UnsyncProofs.

Definition ex_ucalls : list ucall :=
  [UCall (CAlloc ex_u16); UBumpBox ex_u64; UBumpArray ex_u16 3; UCall (CGetAt ex_u16 99);
   UCall (CGet ex_zst); UBumpArray ex_u64 1000; UCall CReset; UCall (CGet ex_u64)].
Example ex_ucalls_ok : Forall (valid_ucall (x64 false)) ex_ucalls.
Proof.
  destruct ex_layouts_ok as (H1 & H2 & H3).
  repeat apply Forall_cons; try apply Forall_nil; cbn [valid_ucall valid_call]; auto;
    try (split; [assumption|vm_compute; split; congruence]). apply H2.
Qed.

(** C18. A history of alloc, alloc_at, get, get_at, level and reset gives the answers of the thread-safe
    bump over the same region (a panic corresponds to a panic, messages aside), and leaves it at the same
    level.  Typed requests for zero-sized types are excluded: see the next theorem. *)
Theorem C18_unsync_matches_sync : forall t d cs,
  valid_target t -> valid_region t d -> Forall (valid_call t) cs ->
  Forall (fun c => ~ for_zst_type c) cs ->
  ucalls_history (snd (urun t (u_fresh d) (map UCall cs))) (snd (run t (fresh d) cs)) /\
  u_level (fst (urun t (u_fresh d) (map UCall cs))) = level (fst (run t (fresh d) cs)).
Proof.
  intros t d cs Ht Hd Hv Hz.
  destruct (urun_sync t (u_fresh d) cs Ht (uok_fresh t d Hd) Hv Hz) as [K1 K2].
  change (slab_of (u_fresh d)) with (fresh d) in *. split; [exact K2|]. rewrite <- K1. reflexivity.
Qed.
Print Assumptions C18_unsync_matches_sync.

Example C18_nonvacuous :
  let cs := [CAlloc ex_u16; CGet ex_u64; CAllocAt ex_u16 13; CAlloc ex_zst; CAllocAt ex_u16 99; CAlloc ex_u64;
             CAlloc ex_u64; CReset; CAlloc ex_u64] in
  map snd (snd (urun (x64 false) (u_fresh ex_st) (map UCall cs))) =
  [RBlock (MkAlloc 4100 3); RBlock (MkAlloc 4104 13); RBlock (MkAlloc 4112 15); RPanic PU_size; RPanic PU_expect;
   RBlock (MkAlloc 4120 29); RNone; RUnit; RBlock (MkAlloc 4104 13)] /\
  Forall (fun c => ~ for_zst_type c) cs.
Proof. split; [reflexivity|]. repeat constructor; cbn; intros; try discriminate; auto. Qed.

(** C18, the difference: a typed request for a zero-sized type always panics without effect, where the
    thread-safe bump always answers with a block. *)
Theorem C18_unsync_zst_panics : forall t d u l lv,
  valid_target t -> valid_region t d -> ureach t d u -> type_layout t l -> is_usize t lv -> lsize l = 0 ->
  (exists m, ustep t u (UCall (CGet l)) = (u, RPanic m)) /\
  (exists m, ustep t u (UCall (CGetAt l lv)) = (u, RPanic m)) /\
  (forall s, reach t d s -> exists a, step t s (CGet l) = (s, RBlock a)).
Proof.
  intros t d u l lv Ht Hd Hu Hl Hlv Hz. destruct (ureach_ok t d u Ht Hd Hu) as [Hok _].
  split; [|split].
  - eexists. apply (zst_panics t u (CGet l) Ht Hok Hl Hz).
  - eexists. apply (zst_panics t u (CGetAt l lv) Ht Hok (conj Hl Hlv) Hz).
  - intros s Hs. eexists. cbn [step]. unfold get. rewrite Hz. cbn. reflexivity.
Qed.
Print Assumptions C18_unsync_zst_panics.

(** C18, safety for all calls of the single-threaded bump including boxes and arrays: every block is
    aligned, inside the data region and not null, and blocks since the last reset are disjoint. *)
Theorem C18_unsync_blocks_good_and_disjoint : forall t d cs,
  valid_target t -> valid_region t d -> Forall (valid_ucall t) cs ->
  let h := snd (urun t (u_fresh d) cs) in
  (forall c a l, In (c, RBlock a) h -> ucall_layout c = Some l -> good_block d l (ptr a)) /\
  pairwise disjoint (ublocks_since_reset [] h).
Proof.
  intros t d cs Ht Hd Hv.
  destruct (urun_disjoint t (u_fresh d) cs [] Ht (uok_fresh t d Hd) Hv ltac:(constructor) ltac:(apply pairwise_nil))
    as [K1 K2]. split; [exact K2|exact K1].
Qed.
Print Assumptions C18_unsync_blocks_good_and_disjoint.

Example C18_blocks_nonvacuous :
  map snd (snd (urun (x64 false) (u_fresh ex_st) ex_ucalls)) =
  [RBlock (MkAlloc 4100 3); RBlock (MkAlloc 4104 13); RBlock (MkAlloc 4112 19); RPanic PU_expect; RPanic PU_size;
   RFail Exhausted; RUnit; RBlock (MkAlloc 4104 13)].
Proof. reflexivity. Qed.

(** C18 (as C03 for the thread-safe bump): a block is returned exactly when it fits, first fit. *)
Theorem C18_unsync_alloc_iff_fits : forall t d u l,
  valid_target t -> valid_region t d -> ureach t d u -> valid_layout t l -> 0 < lsize l ->
  (fits_in d (u_level u) l ->
   exists p, first_aligned (start d + u_level u) (lalign l) p /\
     ustep t u (UCall (CAlloc l)) =
       ({| udata := d; uindex := p + lsize l - start d |},
        RBlock {| ptr := p; alevel := p + lsize l - start d |})) /\
  (~ fits_in d (u_level u) l -> ustep t u (UCall (CAlloc l)) = (u, RNone)).
Proof.
  intros t d u l Ht Hd Hu Hl Hp. destruct (ureach_ok t d u Ht Hd Hu) as [Hok Hdd].
  pose proof (ualloc_exact t u l Ht Hok Hl Hp) as H. rewrite Hdd in H. exact H.
Qed.
Print Assumptions C18_unsync_alloc_iff_fits.

(** C19. No call reaches the [unreachable!] of the single-threaded bump, boxes and arrays never report a
    level mismatch, and the panics that remain are exactly the documented ones: zero-sized requests, and
    levels beyond the capacity. *)
Theorem C19_unsync_no_unreachable : forall t d u c,
  valid_target t -> valid_region t d -> ureach t d u -> valid_ucall t c ->
  snd (ustep t u c) <> RPanic PU_unreachable /\
  ((exists m, snd (ustep t u c) = RPanic m) <->
   match c with
   | UCall (CAlloc l) | UCall (CGet l) | UBumpBox l => lsize l = 0
   | UCall (CAllocAt l lv) | UCall (CGetAt l lv) => lsize l = 0 \/ size d < lv
   | UCall CLevel | UCall CReset => False
   | UBumpArray l n => lsize l * n = 0
   end) /\
  match c with
  | UBumpBox _ | UBumpArray _ _ | UCall (CAlloc _) | UCall (CGet _) =>
      forall lv, snd (ustep t u c) <> RFail (Mismatch lv)
  | _ => True
  end.
Proof.
  intros t d u c Ht Hd Hu Hv. destruct (ureach_ok t d u Ht Hd Hu) as [Hok <-].
  destruct (upanics t u c Ht Hok Hv) as [K1 K2]. split; [exact K1|]. split; [exact K2|].
  destruct c as [[l|l lv|l|l lv| |]|l|l n]; try exact I.
  - intros lv. cbn [ustep]. destruct (u_try_alloc t u l) as [u' [[?|]|?]]; discriminate.
  - intros lv. cbn [ustep]. destruct (u_try_alloc t u l) as [u' [[?|]|?]]; discriminate.
  - apply (bump_box_exact t u l Ht Hok Hv).
  - intros lv. cbn [ustep]. unfold u_bump_array. destruct (layout_array t l n); [|discriminate].
    destruct (u_try_alloc t u l0) as [u' [[?|]|?]]; discriminate.
Qed.
Print Assumptions C19_unsync_no_unreachable.

(** C19, boxes: [bump_box] is [alloc] with a different way to say no. *)
Theorem C19_bump_box_is_alloc : forall t d u l,
  valid_target t -> valid_region t d -> ureach t d u -> type_layout t l -> 0 < lsize l ->
  (fits_in d (u_level u) l -> ustep t u (UBumpBox l) = ustep t u (UCall (CAlloc l))) /\
  (~ fits_in d (u_level u) l -> ustep t u (UBumpBox l) = (u, RFail Exhausted)).
Proof.
  intros t d u l Ht Hd Hu Hl Hp. destruct (ureach_ok t d u Ht Hd Hu) as [Hok <-].
  destruct (bump_box_exact t u l Ht Hok Hl) as (_ & K1 & K2). split; [apply K1; exact Hp|apply K2; exact Hp].
Qed.
Print Assumptions C19_bump_box_is_alloc.

Example C19_nonvacuous :
  snd (ustep (x64 true) (u_fresh ex_st) (UBumpBox ex_u64)) = RBlock (MkAlloc 4104 13) /\
  snd (ustep (x64 true) (MkU ex_st 30) (UBumpBox ex_u64)) = RFail Exhausted /\
  snd (ustep (x64 true) (u_fresh ex_st) (UBumpBox (MkLayout 0 1))) = RPanic PU_size /\
  (exists m, snd (ustep (x64 true) (u_fresh ex_st) (UCall (CAllocAt ex_u64 33))) = RPanic m).
Proof. repeat split. eexists. reflexivity. Qed.

(** C20. [from_mem] skips to the first address aligned for the header and succeeds iff the header fits
    there.  Header and data then lie in the given memory and are disjoint, the capacity is what remains
    rounded down to the header alignment, the allocator is empty, and only the header bytes are written. *)
Theorem C20_from_mem : forall t m b,
  valid_target t -> valid_region t b ->
  exists p, first_aligned (start b) (usize_align t) p /\
  (p + word_bytes t <= start b + size b ->
   exists f, snd (from_mem t m b) = Ret (Some f) /\
     faddr f = p /\ data_room t p (start b + size b) (flen f) /\
     inside (MkBlock p (word_bytes t)) b /\ inside (fat_data t f) b /\
     disjoint (MkBlock p (word_bytes t)) (fat_data t f) /\
     view t (fst (from_mem t m b)) f = Some (u_fresh (fat_data t f)) /\
     valid_region t (fat_data t f) /\
     (forall x, ~ in_block (MkBlock p (word_bytes t)) x -> fst (from_mem t m b) x = m x)) /\
  (start b + size b < p + word_bytes t -> from_mem t m b = (m, Ret None)).
Proof. exact from_mem_exact. Qed.
Print Assumptions C20_from_mem.

Example C20_nonvacuous :
  snd (from_mem (x64 true) (fun _ => Some 7) (MkBlock 4099 30)) = Ret (Some (MkFat 4104 16)) /\
  snd (from_mem (x64 true) (fun _ => Some 7) (MkBlock 4099 12)) = Ret None /\
  fst (from_mem (x64 true) (fun _ => Some 7) (MkBlock 4099 30)) 4111 = Some 0 /\
  fst (from_mem (x64 true) (fun _ => Some 7) (MkBlock 4099 30)) 4112 = Some 7.
Proof. repeat split. Qed.

(** C21. For an allocator made by [from_mem], [into_mem] gives back memory inside the original one that
    consists of the header and the data region, and [from_mem_unchecked] over it recreates the same fat
    pointer, hence (as neither writes) an allocator with the same data region and the same level in every
    state the memory may have reached in between. *)
Theorem C21_memory_round_trip : forall t m b f,
  valid_target t -> valid_region t b -> snd (from_mem t m b) = Ret (Some f) ->
  let mem := into_mem t f in
  start mem = faddr f /\ size mem = word_bytes t + flen f /\ inside mem b /\ inside (fat_data t f) mem /\
  exists f', from_mem_unchecked t mem = Ret f' /\
    fat_data t f' = fat_data t f /\ forall m', view t m' f' = view t m' f.
Proof.
  intros t m b f Ht Hb Hf. destruct (roundtrip t m b f Ht Hb Hf) as (K1 & K2 & K3 & K4).
  cbv zeta. split; [exact K1|]. split; [exact K2|]. split; [exact K3|]. split.
  - pose proof (word_pos t Ht). apply inside_intro; unfold fat_data; cbn [start size]; lia.
  - exists f. auto.
Qed.
Print Assumptions C21_memory_round_trip.

Example C21_nonvacuous : into_mem (x64 true) (MkFat 4104 16) = MkBlock 4104 24 /\
  from_mem_unchecked (x64 true) (MkBlock 4104 24) = Ret (MkFat 4104 16).
Proof. split; reflexivity. Qed.

(** C22. The data region of a [Bump<T>] seen as [MemBump]: it is T's storage iff the alignment of T divides
    the size of usize; else it starts below the storage.  It always stays inside the struct.  With debug
    assertions the deref panics exactly for types aligned more than usize. *)
Theorem C22_deref_data_region : forall t base l,
  valid_target t -> type_layout t l ->
  let f := {| faddr := base; flen := lsize l |} in
  (bump_deref t base l = Ret f <-> (debug t = false \/ lalign l <= usize_align t)) /\
  ((exists m, bump_deref t base l = Panic m) <-> (debug t = true /\ usize_align t < lalign l)) /\
  (fat_data t f = MkBlock (base + bump_offset t l) (lsize l) <-> (lalign l | word_bytes t)) /\
  inside (fat_data t f) (MkBlock base (lsize (bump_layout t l))) /\
  (~ (lalign l | word_bytes t) -> start (fat_data t f) < base + bump_offset t l).
Proof. exact deref_exact. Qed.
Print Assumptions C22_deref_data_region.

(** The expected claim "deref always succeeds and covers T's storage" is false: a [Bump<T>] with T aligned
    to 16. *)
Theorem C22_deref_covers_storage_refuted : exists t base l,
  valid_target t /\ type_layout t l /\ aligned base (lalign (bump_layout t l)) /\
  exists f, bump_deref t base l = Ret f /\
    fat_data t f <> MkBlock (base + bump_offset t l) (lsize l) /\
    bump_deref (x64 true) base l = Panic PU_deref.
Proof.
  exists (x64 false), 4096, {| lsize := 32; lalign := 16 |}. split; [exact ex_target_ok|].
  split; [repeat split; try (vm_compute; congruence); [exists 4; split; [lia|reflexivity]|exists 2; reflexivity]|].
  split; [exists 256; reflexivity|]. eexists. split; [reflexivity|]. split; [discriminate|reflexivity].
Qed.
Print Assumptions C22_deref_covers_storage_refuted.

Example C22_nonvacuous :
  bump_deref (x64 true) 4096 (MkLayout 32 8) = Ret (MkFat 4096 32) /\ fat_data (x64 true) (MkFat 4096 32) = MkBlock 4104 32 /\
  bump_deref (x64 false) 4096 (MkLayout 32 16) = Ret (MkFat 4096 32) /\ bump_offset (x64 false) (MkLayout 32 16) = 16.
Proof. repeat split. Qed.

(** C23. [MemBump::new] panics exactly when the layout does not exist; else its data region is inside the
    memory obtained, and it is an empty allocator iff the heap happened to return zeroes in the header. *)
Theorem C23_membump_new_fresh_iff_zeroed : forall t cap heap m,
  valid_target t -> is_usize t cap -> byte_mem m ->
  ((exists k, membump_new t cap heap = Panic k) <->
   isize_max t < align_up (word_bytes t + cap) (usize_align t)) /\
  (forall f l, membump_new t cap heap = Ret (f, l) ->
     flen f = cap /\ lalign l = usize_align t /\
     inside (fat_data t f) (MkBlock (heap l) (lsize l)) /\
     (view t m f = Some (u_fresh (fat_data t f)) <->
      forall k, 0 <= k < word_bytes t -> m (heap l + k) = Some 0)).
Proof.
  intros t cap heap m Ht Hc Hm. destruct (membump_new_exact t cap heap Ht Hc) as [K1 K2].
  destruct (Z_le_gt_dec (align_up (word_bytes t + cap) (usize_align t)) (isize_max t)) as [Hle|Hgt].
  - destruct (K1 Hle) as (l & -> & L1 & L2 & L3). split.
    + split; [intros [k Hk]; discriminate|lia].
    + intros f l' [= <- <-]. split; [reflexivity|]. split; [exact L2|]. split; [exact L3|].
      apply (view_fresh_iff t m {| faddr := heap l; flen := cap |} Ht Hm).
  - destruct (K2 ltac:(lia)) as [k ->]. split; [split; [lia|eauto]|discriminate].
Qed.
Print Assumptions C23_membump_new_fresh_iff_zeroed.

(** The documented claim "creates an empty allocator" is false: the heap may return memory with non-zero
    bytes, and then a single byte does not fit in an allocator of 64 bytes just created. *)
Theorem C23_new_is_empty_refuted : exists t cap heap m f l u,
  valid_target t /\ is_usize t cap /\ byte_mem m /\ membump_new t cap heap = Ret (f, l) /\
  view t m f = Some u /\ u_capacity u = 64 /\ u_level u <> 0 /\
  (forall a, snd (ustep t u (UCall (CAlloc {| lsize := 1; lalign := 1 |}))) <> RBlock a).
Proof.
  exists (x64 false), 64, (fun _ => 4096), (fun _ => Some 255). do 3 eexists.
  split; [exact ex_target_ok|]. split; [split; vm_compute; congruence|].
  split; [intros x b [= <-]; lia|]. split; [reflexivity|]. split; [reflexivity|].
  split; [reflexivity|]. split; [discriminate|]. vm_compute. discriminate.
Qed.
Print Assumptions C23_new_is_empty_refuted.

Example C23_nonvacuous :
  membump_new (x64 false) 61 (fun _ => 4096) = Ret (MkFat 4096 61, MkLayout 72 8) /\
  view (x64 false) (fun _ => Some 0) (MkFat 4096 61) = Some (u_fresh (MkBlock 4104 61)) /\
  (exists k, membump_new (x64 false) (2 ^ 63) (fun _ => 4096) = Panic k).
Proof. repeat split. eexists. reflexivity. Qed.

(** C24. After [get_at] allocated a value at a level, [get_unchecked] at the same level gives that value's
    address iff the level was aligned for it; else it gives a lower, misaligned address. *)
Theorem C24_get_unchecked_address : forall t d u l lv u' a,
  valid_target t -> valid_region t d -> ureach t d u -> type_layout t l -> is_usize t lv ->
  ustep t u (UCall (CGetAt l lv)) = (u', RBlock a) ->
  exists a', u_get_unchecked t u' lv = Ret a' /\ alevel a' = lv /\
    (ptr a' = ptr a <-> aligned (start d + lv) (lalign l)) /\
    (~ aligned (start d + lv) (lalign l) -> ptr a' < ptr a /\ ~ aligned (ptr a') (lalign l)).
Proof.
  intros t d u l lv u' a Ht Hd Hu Hl Hlv E. destruct (ureach_ok t d u Ht Hd Hu) as [Hok <-].
  destruct (get_unchecked_exact t u l lv u' a Ht Hok Hl Hlv E) as (a' & K1 & K2 & K3 & K4 & K5).
  exists a'. split; [exact K1|]. split; [exact K2|]. split; [|exact K5]. split; [|exact K4].
  intros Heq. destruct (Znumtheory.Zdivide_dec (lalign l) (start (udata u) + lv)) as [Hy|Hn]; [exact Hy|].
  destruct (K5 Hn). lia.
Qed.
Print Assumptions C24_get_unchecked_address.

Theorem C24_get_unchecked_refuted : exists t d l u' a,
  valid_target t /\ valid_region t d /\ type_layout t l /\
  ustep t (u_fresh d) (UCall (CGetAt l 0)) = (u', RBlock a) /\
  exists a', u_get_unchecked t u' 0 = Ret a' /\ ptr a' <> ptr a.
Proof.
  exists (x64 false), ex_st, ex_u64. do 2 eexists. split; [exact ex_target_ok|]. split; [exact ex_region_ok|].
  split; [apply ex_layouts_ok|]. split; [reflexivity|]. eexists. split; [reflexivity|]. discriminate.
Qed.
Print Assumptions C24_get_unchecked_refuted.

(** C24: with debug assertions [get_unchecked] refuses exactly the levels at and behind the end, without them none; it never changes
    anything, so the level comes back as it was given. *)
Theorem C24_get_unchecked_panics : forall t d u lv,
  valid_target t -> valid_region t d -> ureach t d u -> is_usize t lv ->
  ((exists m, u_get_unchecked t u lv = Panic m) <-> (debug t = true /\ size d <= lv)) /\
  (forall a, u_get_unchecked t u lv = Ret a -> ptr a = start d + lv /\ alevel a = lv).
Proof.
  intros t d u lv Ht Hd Hu Hlv. destruct (ureach_ok t d u Ht Hd Hu) as [Hok <-]. unfold u_get_unchecked, debug_ok, u_capacity.
  destruct (debug t), (Z.ltb_spec lv (size (udata u))); cbn [negb orb]; (split; [split; [intros (m & E); try discriminate; auto|intros (E & L); try discriminate; try lia; eauto]|intros a E; try discriminate; injection E as <-; auto]).
Qed.
Print Assumptions C24_get_unchecked_panics.

Example C24_nonvacuous :
  ustep (x64 true) (MkU ex_st 8) (UCall (CGetAt ex_u16 8)) = (MkU ex_st 11, RBlock (MkAlloc 4108 11)) /\
  u_get_unchecked (x64 true) (MkU ex_st 11) 8 = Ret (MkAlloc 4107 8) /\
  u_get_unchecked (x64 true) (MkU ex_st 11) 32 = Panic PU_unchecked /\ u_get_unchecked (x64 false) (MkU ex_st 11) 32 = Ret (MkAlloc 4131 32).
Proof. repeat split. Qed.

(** C25. [bump_array] of n > 0 elements of non-zero size succeeds iff the array has a layout (its size
    does not exceed isize::MAX) and fits; then it is one aligned block of exactly n elements, placed first fit.
    Else it fails without effect.  (Empty arrays and zero-sized elements: C19.) *)
Theorem C25_bump_array : forall t d u l n,
  valid_target t -> valid_region t d -> ureach t d u -> type_layout t l -> is_usize t n -> 0 < lsize l -> 0 < n ->
  let la := {| lsize := lsize l * n; lalign := lalign l |} in
  (valid_layout t la /\ fits_in d (u_level u) la ->
   exists p, first_aligned (start d + u_level u) (lalign l) p /\
     ustep t u (UBumpArray l n) =
       ({| udata := d; uindex := p + lsize l * n - start d |},
        RBlock {| ptr := p; alevel := p + lsize l * n - start d |})) /\
  (~ (valid_layout t la /\ fits_in d (u_level u) la) ->
   ustep t u (UBumpArray l n) = (u, RFail Exhausted)).
Proof.
  intros t d u l n Ht Hd Hu Hl Hn Hp Hn0. destruct (ureach_ok t d u Ht Hd Hu) as [Hok <-].
  exact (bump_array_exact t u l n Ht Hok Hl Hn Hp Hn0).
Qed.
Print Assumptions C25_bump_array.

Example C25_nonvacuous :
  snd (ustep (x64 false) (u_fresh ex_st) (UBumpArray ex_u64 3)) = RBlock (MkAlloc 4104 29) /\
  snd (ustep (x64 false) (u_fresh ex_st) (UBumpArray ex_u64 4)) = RFail Exhausted /\
  snd (ustep (x64 false) (u_fresh ex_st) (UBumpArray ex_u64 (2 ^ 61))) = RFail Exhausted /\
  snd (ustep (x64 false) (u_fresh ex_st) (UBumpArray ex_u64 0)) = RPanic PU_size.
Proof. repeat split. Qed.
