(** * PropsSyncMem: contents of a slab (C09 bytes, C12-C16, C72). *)
From Verif Require Import Base Spec BaseFacts SyncModel SyncSpec SyncProofs PropsSync.
From Verif Require Import SyncMemModel SyncMemSpec SyncMemProofs.

(** C09, second half: reset alters no byte and only the level. *)
Theorem C09_reset_keeps_bytes t c :
  bytes (ms (fst (mstep t c OReset))) = bytes (ms c) /\
  storage (sl (ms (fst (mstep t c OReset)))) = storage (sl (ms c)) /\
  level (sl (ms (fst (mstep t c OReset)))) = 0.
Proof. split; [|split]; reflexivity. Qed.

(** C12: leak stores the value or gives it back; it fails only if there is no room. *)
Theorem C12_leak_stores_or_returns t st c l v :
  valid_target t -> valid_region t st -> mreach t st c ->
  type_layout t l -> Z.of_nat (length (vbytes v)) = lsize l ->
  let r := mstep t c (OLeak l v) in
  drops (fst r) = drops c /\
  ((exists p, snd r = ABlock p /\ good_block st l p /\
      live_handle (fst r) (length (handles c)) = Some (new_handle p l (KRef (vid v))) /\
      reads (bytes (ms (fst r))) p (vbytes v) /\
      same_outside (MkBlock p (lsize l)) (bytes (ms c)) (bytes (ms (fst r)))) /\
   (lsize l = 0 \/ fits_in st (level (sl (ms c))) l)
   \/
   r = (c, AGiven v Exhausted) /\ 0 < lsize l /\ ~ fits_in st (level (sl (ms c))) l).
Proof.
  intros Ht Hst Hr Hl Hlen. destruct (mreach_minv t st c Ht Hst Hr) as [Hi <-].
  exact (leak_exact t c l v Ht Hi Hl Hlen).
Qed.

Theorem C12_leak_at_stores_or_returns t st c l v lv :
  valid_target t -> valid_region t st -> mreach t st c ->
  type_layout t l -> Z.of_nat (length (vbytes v)) = lsize l -> is_usize t lv ->
  (lsize l = 0 \/ lv <= size st) ->
  let r := mstep t c (OLeakAt l v lv) in
  (exists p, snd r = ABlock p /\ stored st c l v (KRef (vid v)) (fst r) p) \/
  (exists f, r = (c, AGiven v f)).
Proof.
  intros Ht Hst Hr Hl Hlen Hlv Hle. destruct (mreach_minv t st c Ht Hst Hr) as [Hi <-].
  exact (leak_at_exact t c l v lv Ht Hi Hl Hlen Hlv Hle).
Qed.

(** leak_box stores the value in a box or drops it exactly once, now. *)
Theorem C12_leak_box_stores_or_drops t st c l v :
  valid_target t -> valid_region t st -> mreach t st c ->
  type_layout t l -> Z.of_nat (length (vbytes v)) = lsize l ->
  let r := mstep t c (OLeakBox l v) in
  (exists p, snd r = ABlock p /\ stored st c l v (KBox (vid v)) (fst r) p) \/
  (snd r = ANull /\ ms (fst r) = ms c /\ handles (fst r) = handles c /\
   drops (fst r) = drops c ++ [(vid v, vbytes v)]).
Proof.
  intros Ht Hst Hr Hl Hlen. destruct (mreach_minv t st c Ht Hst Hr) as [Hi <-].
  exact (leak_box_exact t c l v Ht Hi Hl Hlen).
Qed.

Theorem C12_leak_box_at_stores_or_drops t st c l v lv :
  valid_target t -> valid_region t st -> mreach t st c ->
  type_layout t l -> Z.of_nat (length (vbytes v)) = lsize l -> is_usize t lv ->
  let r := mstep t c (OLeakBoxAt l v lv) in
  (exists p, snd r = ABlock p /\ stored st c l v (KBox (vid v)) (fst r) p) \/
  ((forall p, snd r <> ABlock p) /\ ms (fst r) = ms c /\ handles (fst r) = handles c /\
   drops (fst r) = drops c ++ [(vid v, vbytes v)]).
Proof.
  intros Ht Hst Hr Hl Hlen Hlv. destruct (mreach_minv t st c Ht Hst Hr) as [Hi <-].
  exact (leak_box_at_exact t c l v lv Ht Hi Hl Hlen Hlv).
Qed.

(** A box that nobody wrote through hands exactly the stored value to its destructor, whatever else
    happened on the slab between storing and dropping. *)
Theorem C12_box_drop_sees_its_value t st c l v o p os :
  valid_target t -> valid_region t st -> mreach t st c -> Forall (valid_op t) os ->
  o = OLeakBox l v \/ (exists lv, o = OLeakBoxAt l v lv) -> valid_op t o ->
  snd (mstep t c o) = ABlock p ->
  let i := length (handles c) in
  Forall (fun o => touches o i = false) os ->
  let c2 := fst (mrun t (fst (mstep t c o)) os) in
  snd (mstep t c2 (OBoxDrop i)) = AUnit /\
  drops (fst (mstep t c2 (OBoxDrop i))) = drops c2 ++ [(vid v, vbytes v)].
Proof.
  intros Ht Hst Hr Hos Ho Hv Ha i Htch. destruct (mreach_minv t st c Ht Hst Hr) as [Hi _].
  exact (box_drop_sees t c l v os p i Ht Hi Hos o Ho Hv Ha eq_refl Htch).
Qed.

(** Over any history no value is dropped twice; a value in a live box has not been dropped; a value given
    to leak/leak_at is never dropped. *)
Theorem C12_values_dropped_at_most_once t st m os :
  NoDup (ids os) ->
  let c := fst (mrun t (start_client (uninit_slab st m)) os) in
  (forall id, (times_dropped id c <= 1)%nat) /\
  (forall i h id, live_handle c i = Some h -> hkind h = KBox id -> times_dropped id c = 0%nat) /\
  (forall id, (forall o v, In o os -> boxing o = true -> op_value o = Some v -> vid v <> id) ->
     times_dropped id c = 0%nat).
Proof.
  intros Hn c. split; [|split].
  - intros id. exact (dropped_at_most_once t _ os id Hn).
  - intros i h id. exact (live_box_not_dropped t _ os i h id Hn).
  - intros id. exact (leaked_never_dropped t _ os id).
Qed.

(** C13 for GlobalAlloc::realloc. *)
Theorem C13_realloc t st c i h n :
  valid_target t -> valid_region t st -> mreach t st c ->
  live_handle c i = Some h -> hkind h = KRaw -> 0 < n <= usize_max t ->
  let l := {| lsize := n; lalign := lalign (hlay h) |} in
  let r := mstep t c (ORealloc i n) in
  (n <= lsize (hlay h) ->
     snd r = ABlock (hptr h) /\ ms (fst r) = ms c /\ realloc_done st c i h l (hptr h) (fst r)) /\
  (lsize (hlay h) < n -> valid_layout t l -> fits_in st (level (sl (ms c))) l ->
     exists q, snd r = ABlock q /\ q <> hptr h /\
               first_aligned (start st + level (sl (ms c))) (lalign l) q /\
               realloc_done st c i h l q (fst r)) /\
  (lsize (hlay h) < n -> ~ (valid_layout t l /\ fits_in st (level (sl (ms c))) l) -> r = (c, ANull)).
Proof.
  intros Ht Hst Hr Hi Hk Hn. destruct (mreach_minv t st c Ht Hst Hr) as [Hinv <-]. cbv zeta.
  destruct (live_handle_facts t c i h Hinv Hi) as (_ & (Hal & _) & Hl & _).
  rewrite (ga_realloc_step t c i h n Ht Hinv Hi Hk) by lia.
  set (l := {| lsize := n; lalign := lalign (hlay h) |}).
  assert (Hshrink : n <= lsize (hlay h) -> valid_layout t l).
  { intros Hle. destruct Hl as (L1 & L2 & L3 & L4). unfold valid_layout, l. cbn.
    split; [lia|]. split; [exact L2|]. split; [exact L3|].
    pose proof (align_up_mono n (lsize (hlay h)) (lalign (hlay h)) (pow2_pos _ L2) Hle). lia. }
  destruct (from_size_align t n (lalign (hlay h))) as [l'|] eqn:E.
  - apply from_size_align_iff in E. destruct E as [-> Hl']. fold l in Hl' |- *.
    destruct (realloc_exact t c i h l Ht Hinv Hi Hk Hl' ltac:(cbn; lia)) as (R1 & R2 & R3).
    split; [|split].
    + intros Hle. apply R1. split; [exact Hal|exact Hle].
    + intros Hgt _ Hf. apply R2; [|exact Hf]. intros [_ Hx]. cbn in Hx. lia.
    + intros Hgt Hno. apply R3; [intros [_ Hx]; cbn in Hx; lia|]. intros Hf. apply Hno. auto.
  - assert (Hno : ~ valid_layout t l).
    { intros Hv. assert (from_size_align t n (lalign (hlay h)) = Some l); [|congruence].
      apply from_size_align_iff. auto. }
    split; [|split]; intros; try reflexivity; exfalso; auto.
Qed.

(** C13 for LocalAlloc::realloc, which may also change the alignment. *)
Theorem C13_local_realloc t st c i h l :
  valid_target t -> valid_region t st -> mreach t st c ->
  live_handle c i = Some h -> hkind h = KRaw -> valid_layout t l -> 0 < lsize l ->
  let r := mstep t c (OLocalRealloc i l) in
  let keep := aligned (hptr h) (lalign l) /\ lsize l <= lsize (hlay h) in
  (keep -> snd r = ABlock (hptr h) /\ ms (fst r) = ms c /\ realloc_done st c i h l (hptr h) (fst r)) /\
  (~ keep -> fits_in st (level (sl (ms c))) l ->
     exists q, snd r = ABlock q /\ q <> hptr h /\
               first_aligned (start st + level (sl (ms c))) (lalign l) q /\
               realloc_done st c i h l q (fst r)) /\
  (~ keep -> ~ fits_in st (level (sl (ms c))) l -> r = (c, ANull)).
Proof.
  intros Ht Hst Hr Hi Hk Hl Hp. destruct (mreach_minv t st c Ht Hst Hr) as [Hinv <-]. cbv zeta.
  rewrite (la_realloc_step t c i h l Hi Hk).
  exact (realloc_exact t c i h l Ht Hinv Hi Hk Hl Hp).
Qed.

(** C14: deallocation has no effect on slab and bytes, and no block that is live at any later time before
    the next reset overlaps the deallocated one. *)
Theorem C14_dealloc_frees_nothing t st c i h o os :
  valid_target t -> valid_region t st -> mreach t st c ->
  live_handle c i = Some h -> hkind h = KRaw -> o = ODealloc i \/ o = OLocalDealloc i ->
  Forall (valid_op t) os -> Forall (fun o => is_oreset o = false) os ->
  let c1 := fst (mstep t c o) in
  ms c1 = ms c /\
  forall j hj, live_handle (fst (mrun t c1 os)) j = Some hj -> disjoint (hblock hj) (hblock h).
Proof.
  intros Ht Hst Hr Hi Hk Ho Hos Hnr. destruct (mreach_minv t st c Ht Hst Hr) as [Hinv _]. cbv zeta.
  destruct (dealloc_avoided t c i h o Hinv Hi Hk Ho) as (H1 & _ & H2). split; [exact H1|].
  apply mrun_avoided; try assumption. apply mstep_minv; try assumption. destruct Ho as [->| ->]; exact I.
Qed.

(** C15: zeroed allocation succeeds like plain allocation, at the same place, and zeroes exactly it. *)
Theorem C15_zeroed_is_zero_and_local t st c l o :
  valid_target t -> valid_region t st -> mreach t st c -> valid_layout t l ->
  o = OZeroed l \/ o = OLocalZeroed l ->
  let r := mstep t c o in
  snd r = snd (mstep t c (OAlloc l)) /\
  sl (ms (fst r)) = sl (ms (fst (mstep t c (OAlloc l)))) /\
  match snd r with
  | ABlock p =>
      (forall x, in_block (MkBlock p (lsize l)) x -> bytes (ms (fst r)) x = Some 0) /\
      same_outside (MkBlock p (lsize l)) (bytes (ms c)) (bytes (ms (fst r)))
  | _ => fst r = c
  end.
Proof.
  intros Ht Hst Hr Hl Ho. destruct (mreach_minv t st c Ht Hst Hr) as [Hinv _].
  destruct (zeroed_exact t c l o Ht Hinv Hl Ho) as (H1 & H2 & _ & H3). split; [exact H2|]. split; [exact H1|exact H3].
Qed.

(** C16, positive part. *)
Theorem C16_zeroed_slab_hands_out_zeroes t st m os l p :
  valid_target t -> valid_region t st -> Forall (valid_op t) os ->
  Forall (fun o => is_oreset o = false) os -> valid_layout t l ->
  let c := fst (mrun t (start_client (zeroed_slab st m)) os) in
  snd (mstep t c (OAlloc l)) = ABlock p ->
  forall x, in_block (MkBlock p (lsize l)) x -> bytes (ms (fst (mstep t c (OAlloc l)))) x = Some 0.
Proof. exact (zeroed_alloc_reads_zero t st m os l p). Qed.

(** C16, negative part: with a reset in the history old bytes reappear. *)
Theorem C16_zeroed_after_reset_refuted :
  ~ (forall t st m os l p, valid_target t -> valid_region t st -> Forall (valid_op t) os -> valid_layout t l ->
     let c := fst (mrun t (start_client (zeroed_slab st m)) os) in
     snd (mstep t c (OAlloc l)) = ABlock p ->
     forall x, in_block (MkBlock p (lsize l)) x -> bytes (ms (fst (mstep t c (OAlloc l)))) x = Some 0).
Proof.
  intros H.
  specialize (H (x64 false) ex_st (fun _ => None) [OAlloc ex_u64; OWrite 0 0 [Some 7]; OReset] ex_u64 4104
                ex_target_ok ex_region_ok).
  assert (Hl : valid_layout (x64 false) ex_u64) by apply ex_layouts_ok.
  assert (Hops : Forall (valid_op (x64 false)) [OAlloc ex_u64; OWrite 0 0 [Some 7]; OReset]).
  { apply Forall_cons; [exact Hl|]. apply Forall_cons; [exact I|]. apply Forall_cons; [exact I|]. apply Forall_nil. }
  specialize (H Hops Hl).
  cbv zeta in H. specialize (H ltac:(vm_compute; reflexivity) 4104 ltac:(unfold in_block; cbn; lia)).
  vm_compute in H. discriminate.
Qed.

(** C72: what others do on the same slab is invisible through a handle. *)
Theorem C72_clients_do_not_interfere t st c os i h :
  valid_target t -> valid_region t st -> mreach t st c -> Forall (valid_op t) os ->
  Forall (fun o => touches o i = false) os -> live_handle c i = Some h ->
  live_handle (fst (mrun t c os)) i = Some h /\
  same_on (hblock h) (bytes (ms c)) (bytes (ms (fst (mrun t c os)))).
Proof.
  intros Ht Hst Hr Hos Htch Hi. destruct (mreach_minv t st c Ht Hst Hr) as [Hinv _].
  exact (mrun_frame t c os i h Ht Hinv Hos Htch Hi).
Qed.

(** ** The hypotheses are met by concrete, non-trivial histories *)

Definition ex_v1 : value := MkValue 1 [Some 1; Some 2; Some 3; Some 4; Some 5; Some 6; Some 7; Some 8].
Definition ex_v2 : value := MkValue 2 [Some 9; Some 9].

(** alloc u64; leak_box u16; grow the first; drop the box: everything happens on a 32-byte slab. *)
Definition ex_ops : list op :=
  [OAlloc ex_u64; OWrite 0 2 [Some 5; Some 6]; OLeakBox ex_u16 ex_v2; ORealloc 0 11; OBoxDrop 1;
   ODealloc 2; OLeak ex_u64 ex_v1].

Example ex_mem_valid : Forall (valid_op (x64 false)) ex_ops.
Proof.
  destruct ex_layouts_ok as (H1 & H2 & _).
  repeat (apply Forall_cons; [cbn [valid_op]|]); try apply Forall_nil; try exact I;
    try (split; assumption || reflexivity); try apply H1; try apply H2.
  vm_compute. split; congruence.
Qed.

Example ex_mem_run :
  let (c, h) := mrun (x64 false) (start_client (uninit_slab ex_st (fun _ => None))) ex_ops in
  map snd h = [ABlock 4104; AUnit; ABlock 4112; ABlock 4120; AUnit; AUnit; AGiven ex_v1 Exhausted] /\
  mem_read (bytes (ms c)) 4120 8 = [None; None; Some 5; Some 6; None; None; None; None] /\
  drops c = [(2%nat, [Some 9; Some 9])] /\ level (sl (ms c)) = 32.
Proof. vm_compute. repeat split. Qed.

Print Assumptions C09_reset_keeps_bytes.
Print Assumptions C12_leak_stores_or_returns.
Print Assumptions C12_leak_at_stores_or_returns.
Print Assumptions C12_leak_box_stores_or_drops.
Print Assumptions C12_leak_box_at_stores_or_drops.
Print Assumptions C12_box_drop_sees_its_value.
Print Assumptions C12_values_dropped_at_most_once.
Print Assumptions C13_realloc.
Print Assumptions C13_local_realloc.
Print Assumptions C14_dealloc_frees_nothing.
Print Assumptions C15_zeroed_is_zero_and_local.
Print Assumptions C16_zeroed_slab_hands_out_zeroes.
Print Assumptions C16_zeroed_after_reset_refuted.
Print Assumptions C72_clients_do_not_interfere.
