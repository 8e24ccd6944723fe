(** * Claims about the thread-safe [Bump], one call at a time (C01, C03-C07, C09, C11, C17). *)
From Verif Require Import Base Spec BaseFacts SyncModel SyncSpec SyncProofs.

(** A slab of 32 bytes at address 4099 (odd on purpose) on a 64-bit target, and some layouts. *)
Definition ex_st : block := MkBlock 4099 32.
Definition ex_u64 : layout := {| lsize := 8; lalign := 8 |}.
Definition ex_u16 : layout := {| lsize := 2; lalign := 2 |}.
Definition ex_zst : layout := {| lsize := 0; lalign := 4 |}.
Definition ex_calls : list call :=
  [CAlloc ex_u16; CGet ex_u64; CAllocAt ex_u16 13; CGet ex_zst; CAlloc ex_u64; CAlloc ex_u64;
   CReset; CAlloc ex_u64].

Example ex_target_ok : valid_target (x64 false).
Proof. repeat split; cbn; auto; [exists 3; split; [lia|reflexivity]|exists 1; reflexivity]. Qed.
Example ex_region_ok : valid_region (x64 false) ex_st.
Proof. repeat split; vm_compute; congruence. Qed.
Example ex_layouts_ok :
  type_layout (x64 false) ex_u64 /\ type_layout (x64 false) ex_u16 /\ type_layout (x64 false) ex_zst.
Proof.
  repeat split; try (vm_compute; congruence).
  - exists 3; split; [lia|reflexivity].
  - exists 1; reflexivity.
  - exists 1; split; [lia|reflexivity].
  - exists 1; reflexivity.
  - exists 2; split; [lia|reflexivity].
  - exists 0; reflexivity.
Qed.
Example ex_calls_ok : Forall (valid_call (x64 false)) ex_calls.
Proof.
  destruct ex_layouts_ok as (H1 & H2 & H3).
  repeat constructor; cbn [valid_call]; try (split; [|vm_compute; split; congruence]); auto;
    try apply H1; try apply H2; try apply H3.
Qed.

(** C01. Every history of calls: each block handed out is aligned, in bounds and of the requested size,
    and the blocks handed out since the last reset are pairwise disjoint. *)
Theorem C01_blocks_good_and_disjoint : forall t st cs,
  valid_target t -> valid_region t st -> Forall (valid_call t) cs ->
  let h := snd (run t (fresh st) cs) in
  (forall c a l, In (c, RBlock a) h -> call_layout c = Some l -> good_block st l (ptr a)) /\
  pairwise disjoint (blocks_since_reset [] h).
Proof. exact bump_history_sound. Qed.
Print Assumptions C01_blocks_good_and_disjoint.

Example C01_nonvacuous :
  map snd (snd (run (x64 false) (fresh ex_st) ex_calls)) =
  [RBlock (MkAlloc 4100 3); RBlock (MkAlloc 4104 13); RBlock (MkAlloc 4112 15);
   RBlock (MkAlloc 4 15); RBlock (MkAlloc 4120 29); RNone; RUnit; RBlock (MkAlloc 4104 13)].
Proof. reflexivity. Qed.

(** C03. [alloc] returns a block exactly when the request fits in the free rest of the slab, and then it
    is the first aligned address at or after the current level. *)
Theorem C03_alloc_iff_fits : forall t st s l,
  valid_target t -> valid_region t st -> reach t st s -> valid_layout t l -> 0 < lsize l ->
  (fits_in st (level s) l ->
   exists p, first_aligned (start st + level s) (lalign l) p /\
     step t s (CAlloc l) =
       ({| storage := st; consumed := p + lsize l - start st |},
        RBlock {| ptr := p; alevel := p + lsize l - start st |})) /\
  (~ fits_in st (level s) l -> step t s (CAlloc l) = (s, RNone)).
Proof. exact alloc_exact. Qed.
Print Assumptions C03_alloc_iff_fits.

Theorem C03_get_is_alloc : forall t st s l,
  valid_target t -> valid_region t st -> reach t st s -> type_layout t l -> 0 < lsize l ->
  step t s (CGet l) = step t s (CAlloc l).
Proof. exact get_exact. Qed.
Print Assumptions C03_get_is_alloc.

Example C03_nonvacuous :
  reach (x64 false) ex_st (MkSlab ex_st 13) /\
  fits_in ex_st 13 ex_u64 /\ ~ fits_in ex_st 29 ex_u64.
Proof.
  split; [|split].
  - exists [CAlloc ex_u16; CGet ex_u64]. split; [|reflexivity].
    destruct ex_layouts_ok as (A & B & _).
    constructor; [apply B|]. constructor; [exact A|constructor].
  - exists 4112. split; [cbn; lia|]. split; [exists 514; reflexivity|cbn; lia].
  - intros (a & H1 & H2 & H3). cbn in *. lia.
Qed.

(** C04. The levels reported in a history (by [level], by allocations, by mismatches) never decrease. *)
Theorem C04_levels_monotone : forall t st s cs,
  valid_target t -> valid_region t st -> reach t st s -> Forall (valid_call t) cs -> no_reset cs ->
  forall i j a b, (i < j)%nat -> nth_error (levels (snd (run t s cs))) i = Some a ->
  nth_error (levels (snd (run t s cs))) j = Some b -> a <= b.
Proof.
  exact (fun t st s cs Ht Hst Hr => levels_sorted t s cs Ht (proj1 (reach_ok t st s Ht Hst Hr))).
Qed.
Print Assumptions C04_levels_monotone.

(** C04. One call: the level grows exactly by padding and size to the level reported, and is left alone
    by every failing call. *)
Theorem C04_level_accounting : forall t st s c,
  valid_target t -> valid_region t st -> reach t st s -> valid_call t c -> is_reset c = false ->
  let (s', r) := step t s c in
  level s <= level s' <= size (storage s) /\
  (forall a l, r = RBlock a -> call_layout c = Some l ->
      level s' = alevel a /\
      (0 < lsize l -> level s' = ptr a + lsize l - start (storage s) /\
                      start (storage s) + level s <= ptr a < start (storage s) + level s + lalign l) /\
      (lsize l = 0 -> level s' = level s)) /\
  ((forall a, r <> RBlock a) -> s' = s) /\
  (forall lv, event_level (c, r) = Some lv -> lv = level s').
Proof.
  exact (fun t st s c Ht Hst Hr => step_level t s c Ht (proj1 (reach_ok t st s Ht Hst Hr))).
Qed.
Print Assumptions C04_level_accounting.

Example C04_nonvacuous :
  levels (snd (run (x64 false) (fresh ex_st) (firstn 6 ex_calls))) = [3; 13; 15; 15; 29].
Proof. reflexivity. Qed.

(** C05. [alloc_at] has exactly the documented outcomes, for any level value. *)
Theorem C05_alloc_at_outcomes : forall t st s l lv,
  valid_target t -> valid_region t st -> reach t st s -> valid_layout t l -> is_usize t lv ->
  let r := step t s (CAllocAt l lv) in
  ((exists m, snd r = RPanic m) <-> (lsize l = 0 \/ size st < lv)) /\
  (0 < lsize l -> lv <= size st ->
     (lv = level s /\ fits_in st lv l -> r = step t s (CAlloc l) /\ exists a, snd r = RBlock a) /\
     (lv <> level s /\ fits_in st lv l -> r = (s, RFail (Mismatch (level s)))) /\
     (~ fits_in st lv l -> r = (s, RFail Exhausted))).
Proof. exact alloc_at_exact. Qed.
Print Assumptions C05_alloc_at_outcomes.

Example C05_nonvacuous :
  let s := MkSlab ex_st 13 in
  map snd [step (x64 false) s (CAllocAt ex_u64 13); step (x64 false) s (CAllocAt ex_u64 3);
           step (x64 false) s (CAllocAt ex_u64 30); step (x64 false) s (CAllocAt ex_u64 33)] =
  [RBlock (MkAlloc 4112 21); RFail (Mismatch 13); RFail Exhausted; RPanic P_expect].
Proof. reflexivity. Qed.

(** C06. Allocations chained by levels are placed like repr(C) members ... *)
Theorem C06_chain_is_reprC : forall t st s lv ls s' bs,
  valid_target t -> valid_region t st -> reach t st s ->
  Forall (valid_layout t) ls -> is_usize t lv ->
  chain_at t s lv ls = (s', Some bs) -> reprC (start (storage s)) lv ls bs.
Proof.
  exact (fun t st s lv ls s' bs Ht Hst Hr =>
    chain_at_sound t s lv ls s' bs Ht (proj1 (reach_ok t st s Ht Hst Hr))).
Qed.
Print Assumptions C06_chain_is_reprC.

(** ... and they succeed whenever that placement fits in the slab. *)
Theorem C06_chain_complete : forall t st s lv ls bs,
  valid_target t -> valid_region t st -> reach t st s ->
  Forall (fun l => valid_layout t l /\ 0 < lsize l) ls ->
  lv = level s -> reprC (start (storage s)) lv ls bs ->
  ends_within (start (storage s) + size (storage s)) bs ->
  exists s', chain_at t s lv ls = (s', Some bs).
Proof.
  exact (fun t st s lv ls bs Ht Hst Hr =>
    chain_at_complete t s lv ls bs Ht (proj1 (reach_ok t st s Ht Hst Hr))).
Qed.
Print Assumptions C06_chain_complete.

Example C06_nonvacuous :
  snd (chain_at (x64 false) (fresh ex_st) 0 [ex_u16; ex_u64; ex_u16; ex_u64]) =
  Some [MkBlock 4100 2; MkBlock 4104 8; MkBlock 4112 2; MkBlock 4120 8].
Proof. reflexivity. Qed.

(** C07. Exhaustion reported for a layout, at any level not above the current one, is final until
    reset. *)
Theorem C07_exhausted_is_stable : forall t st s l lv cs,
  valid_target t -> valid_region t st -> reach t st s ->
  valid_layout t l -> 0 < lsize l -> 0 <= lv <= level s ->
  Forall (valid_call t) cs -> no_reset cs ->
  snd (step t s (CAllocAt l lv)) = RFail Exhausted \/ snd (step t s (CAlloc l)) = RNone ->
  snd (step t (fst (run t s cs)) (CAlloc l)) = RNone /\
  (forall lv', is_usize t lv' -> level s <= lv' <= size (storage s) ->
      snd (step t (fst (run t s cs)) (CAllocAt l lv')) = RFail Exhausted).
Proof.
  exact (fun t st s l lv cs Ht Hst Hr =>
    exhausted_stable t s l lv cs Ht (proj1 (reach_ok t st s Ht Hst Hr))).
Qed.
Print Assumptions C07_exhausted_is_stable.

(** C07. ... and whatever level a later call for this layout names, it gets no block and changes nothing. *)
Theorem C07_no_later_call_succeeds : forall t st s l lv cs c,
  valid_target t -> valid_region t st -> reach t st s ->
  valid_layout t l -> 0 < lsize l -> 0 <= lv <= level s ->
  Forall (valid_call t) cs -> no_reset cs ->
  snd (step t s (CAllocAt l lv)) = RFail Exhausted \/ snd (step t s (CAlloc l)) = RNone ->
  valid_call t c -> call_layout c = Some l ->
  let s' := fst (run t s cs) in fst (step t s' c) = s' /\ forall a, snd (step t s' c) <> RBlock a.
Proof. exact (fun t st s l lv cs c Ht Hst Hr => exhausted_any t s l lv cs c Ht (proj1 (reach_ok t st s Ht Hst Hr))). Qed.
Print Assumptions C07_no_later_call_succeeds.

Example C07_nonvacuous :
  snd (step (x64 false) (MkSlab ex_st 29) (CAlloc ex_u64)) = RNone /\
  snd (step (x64 false) (fst (run (x64 false) (MkSlab ex_st 29) [CAlloc ex_u16])) (CAlloc ex_u64)) = RNone.
Proof. split; reflexivity. Qed.

(** C09. After reset every continuation behaves as on a fresh slab over the same storage.
    (That the bytes are kept is C09_reset_keeps_bytes.) *)
Theorem C09_reset_is_fresh : forall t st s cs,
  valid_target t -> valid_region t st -> reach t st s ->
  snd (step t s CReset) = RUnit /\ run t (fst (step t s CReset)) cs = run t (fresh st) cs.
Proof. exact reset_fresh. Qed.
Print Assumptions C09_reset_is_fresh.

Example C09_nonvacuous :
  snd (step (x64 false) (MkSlab ex_st 29) (CAlloc ex_u64)) = RNone /\
  map snd (snd (run (x64 false) (MkSlab ex_st 29) [CReset; CAlloc ex_u64])) =
  [RUnit; RBlock (MkAlloc 4104 13)].
Proof. split; reflexivity. Qed.

(** C11. Zero-sized types. *)
Theorem C11_zst_never_consumes : forall t st s l lv,
  valid_target t -> valid_region t st -> reach t st s -> type_layout t l -> lsize l = 0 -> is_usize t lv ->
  (exists a, step t s (CGet l) = (s, RBlock a) /\ aligned (ptr a) (lalign l) /\ ptr a <> 0 /\
             alevel a = level s) /\
  (lv = level s -> exists a, step t s (CGetAt l lv) = (s, RBlock a) /\ aligned (ptr a) (lalign l) /\
             ptr a <> 0 /\ alevel a = level s) /\
  (lv <> level s -> step t s (CGetAt l lv) = (s, RFail (Mismatch (level s)))).
Proof. exact zst_exact. Qed.
Print Assumptions C11_zst_never_consumes.

(** even on a slab of size zero *)
Example C11_nonvacuous :
  valid_region (x64 false) (MkBlock 4096 0) /\
  step (x64 false) (fresh (MkBlock 4096 0)) (CGet ex_zst) =
  (fresh (MkBlock 4096 0), RBlock (MkAlloc 4 0)).
Proof. split; [repeat split; vm_compute; congruence|reflexivity]. Qed.

(** C17. A call panics exactly in the documented cases; in particular no internal assertion, unwrap or
    arithmetic check of the allocator can fire for non-zero sizes. *)
Theorem C17_panics_exactly_when_documented : forall t st s c,
  valid_target t -> valid_region t st -> reach t st s -> valid_call t c ->
  (exists m, snd (step t s c) = RPanic m) <->
  match c with
  | CAlloc l => lsize l = 0
  | CAllocAt l lv => lsize l = 0 \/ size st < lv
  | CGetAt l lv => lsize l <> 0 /\ size st < lv
  | _ => False
  end.
Proof. exact no_hidden_panic. Qed.
Print Assumptions C17_panics_exactly_when_documented.

(** the slab may end at the very end of the address space *)
Example C17_nonvacuous :
  let st := MkBlock (2 ^ 64 - 16) 16 in
  valid_region (x64 false) st /\
  map snd (snd (run (x64 false) (fresh st) [CAlloc ex_u64; CAlloc ex_u64; CAlloc ex_u64; CAlloc ex_zst])) =
  [RBlock (MkAlloc (2 ^ 64 - 16) 8); RBlock (MkAlloc (2 ^ 64 - 8) 16); RNone; RPanic P_size].
Proof. split; [repeat split; vm_compute; congruence|reflexivity]. Qed.
