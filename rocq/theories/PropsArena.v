(** * PropsArena: C95, allocators inside allocators. *)
From Verif Require Import Base Spec BaseFacts SyncModel SyncSpec SyncProofs SyncMemModel SyncMemSpec SyncMemProofs
  UnsyncModel UnsyncSpec UnsyncProofs ExitModel MemBumpModel MemBumpSpec MemBumpProofs ArenaModel ArenaSpec ArenaProofs PropsSync.

(** C95. Allocators may be made by [from_mem] in blocks of other allocators, to any depth and in any order, and all of them used
    interleaved, as far as the borrow checker allows: each then answers as if it were alone and its index were kept apart, each block that
    is not borrowed by an allocator is an array of its own, a new allocator gets exactly the rounded rest of its block behind the header,
    and what the allocators that may be used own is pairwise disjoint and inside the memory given to the first.  Nothing outside that
    memory changes. *)
Theorem C95_nested_allocators_refine : forall t m R f os,
  valid_target t -> valid_region t R -> snd (from_mem t m R) = Ret (Some f) -> Forall (valid_aop t) os ->
  let r := arun t (a_start (fst (from_mem t m R)) f) os in
  exists w, iruns t [MkIA (u_fresh (fat_data t f)) [] None] (snd r) w /\
    (forall j b, owned t w j b -> inside b R) /\
    (forall j b j' b', owned t w j b -> owned t w j' b' -> (j = j' /\ b = b') \/ disjoint b b') /\
    same_outside R m (amem (fst r)).
Proof.
  intros t m R f os Ht HR E Hv. destruct (a_start_rel t m R f Ht HR E) as (A & S0). cbv zeta.
  destruct (arun_sim t R os Ht _ _ A Hv) as (w & S & A' & M). exists w. split; [exact S|]. pose proof (ar_geom _ _ _ _ A') as G. split; [|split].
  - intros j b O. pose proof O as (U & a & Ea & _). exact (asame t R w j a b Ht G U Ea O).
  - intros j b j' b' O O'. exact (owned_apart t R w j b j' b' Ht G O O').
  - intros x Hx. rewrite (M x Hx). cbn [a_start amem]. apply S0. exact Hx.
Qed.
Print Assumptions C95_nested_allocators_refine.

(** C95, no undefined behaviour and no panic of the constructor: no call of any of these allocators meets an uninitialised index, whatever
    was stored in the blocks at any level. *)
Theorem C95_no_index_is_lost : forall t m R f os,
  valid_target t -> valid_region t R -> snd (from_mem t m R) = Ret (Some f) -> Forall (valid_aop t) os ->
  let r := arun t (a_start (fst (from_mem t m R)) f) os in
  (forall o, ~ In (o, AUninit) (snd r)) /\ (forall o k, ~ In (o, APanic k) (snd r)).
Proof.
  intros t m R f os Ht HR E Hv. destruct (C95_nested_allocators_refine t m R f os Ht HR E Hv) as (w & S & _). cbv zeta.
  assert (N : forall h w w', iruns t w h w' -> forall o a, In (o, a) h -> a <> AUninit /\ forall k, a <> APanic k).
  { clear. intros h w w' H. induction H as [|w o r w1 h w2 H1 H2 IH]; intros o' a' Hin; [contradiction|]. destruct Hin as [Q|Hin]; [|exact (IH _ _ Hin)].
    injection Q as <- <-. inversion H1; subst; split; intros; discriminate. }
  split; [intros o Hin; destruct (N _ _ _ S _ _ Hin) as (Q & _); apply Q; reflexivity|].
  intros o k Hin. destruct (N _ _ _ S _ _ Hin) as (_ & Q). apply (Q k). reflexivity.
Qed.
Print Assumptions C95_no_index_is_lost.

(** Two levels in one block, stores at all levels, a block returned to its owner and used again, and a reset that ends everything. *)
Example C95_nonvacuous :
  let t := x64 true in let m := fun _ : Z => @None Z in let R := MkBlock 4099 125 in
  let u8s n := UBumpArray {| lsize := 1; lalign := 1 |} n in
  let os := [ACall 0 (u8s 50); ANest 0 0; ACall 1 (u8s 25); ACall 1 (UCall (CAlloc ex_u16)); ANest 1 0; ACall 2 (UCall (CAlloc ex_u64));
             AWrite 2 0 0 [Some 1]; AWrite 1 1 1 [Some 9]; AWrite 0 0 0 [Some 5]; ACall 0 (u8s 3); AWrite 0 1 0 [Some 7]; ARead 2 0; ARead 1 1;
             ANest 0 1; AEnd 1; ACall 2 (UCall CLevel); ARead 1 1; AWrite 0 0 0 [Some 5]; ACall 0 (UCall CReset); ARead 0 0; ACall 0 (u8s 1)] in
  Forall (valid_aop t) os /\ valid_region t R /\
  snd (from_mem t m R) = Ret (Some (MkFat 4104 112)) /\
  map snd (snd (arun t (a_start (fst (from_mem t m R)) (MkFat 4104 112)) os)) =
  [AResp (RBlock (MkAlloc 4112 50)); ANested 1 (MkBlock 4120 40); AResp (RBlock (MkAlloc 4120 25)); AResp (RBlock (MkAlloc 4146 28));
   ANested 2 (MkBlock 4128 16); AResp (RBlock (MkAlloc 4128 8)); ADone; ADone; AInvalid; AResp (RBlock (MkAlloc 4162 53)); ADone;
   ABytes [Some 1; None; None; None; None; None; None; None]; ABytes [None; Some 9]; ANoRoom; ADone; AInvalid; AInvalid; ADone;
   AResp RUnit; AInvalid; AResp (RBlock (MkAlloc 4112 1))].
Proof.
  assert (L1 : type_layout (x64 true) {| lsize := 1; lalign := 1 |}) by (split; [|exists 1; reflexivity]; split; [cbn; lia|]; split; [exists 0; split; [lia|reflexivity]|]; split; vm_compute; discriminate).
  assert (L2 : valid_layout (x64 true) ex_u16) by (split; [cbn; lia|]; split; [exists 1; split; [lia|reflexivity]|]; split; vm_compute; discriminate).
  assert (L8 : valid_layout (x64 true) ex_u64) by (split; [cbn; lia|]; split; [exists 3; split; [lia|reflexivity]|]; split; vm_compute; discriminate).
  cbv zeta. split; [|split; [|split; reflexivity]].
  - repeat apply Forall_cons; try apply Forall_nil; cbn [valid_aop valid_ucall valid_call]; auto; split; try exact L1; unfold is_usize, usize_max, addr_space; cbn; lia.
  - unfold valid_region, isize_max, addr_space. cbn. lia.
Qed.
