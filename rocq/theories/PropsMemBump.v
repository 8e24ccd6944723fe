(** * PropsMemBump: C76, an allocator that lives inside the memory it hands out. *)
From Verif Require Import Base Spec BaseFacts SyncModel SyncSpec SyncProofs SyncMemModel SyncMemSpec SyncMemProofs
  UnsyncModel UnsyncSpec UnsyncProofs ExitModel MemBumpModel MemBumpSpec MemBumpProofs PropsSync.

(** C76. Whatever a client stores in the blocks it got from a [MemBump], and however often it unwraps and rewraps the
    memory, the allocator's own state in that memory is never damaged: no call meets an uninitialised index or an
    internal panic of the conversion, every call answers as an allocator whose index is kept elsewhere would, and
    nothing outside the memory given to [from_mem] changes. *)
Theorem C76_client_cannot_corrupt_index : forall t m b f os,
  valid_target t -> valid_region t b -> snd (from_mem t m b) = Ret (Some f) -> Forall (valid_bop t) os ->
  let r := brun t (MkBS (fst (from_mem t m b)) f []) os in
  bresponses (snd r) = snd (urun t (u_fresh (fat_data t f)) (bcalls os)) /\
  view t (bmem (fst r)) (bfat (fst r)) = Some (fst (urun t (u_fresh (fat_data t f)) (bcalls os))) /\
  (forall o, ~ In (o, BUninit) (snd r)) /\ (forall o k, ~ In (o, BPanic k) (snd r)) /\
  same_outside b m (bmem (fst r)).
Proof.
  intros t m b f os Ht Hb Hf Hv. destruct (from_mem_start t m b f Ht Hb Hf) as (I & R & L & W & S & _).
  cbv zeta. pose proof (brun_spec t f os _ _ Ht L R I Hv) as H.
  destruct (brun t (MkBS (fst (from_mem t m b)) f []) os) as [s h]. cbn [fst snd].
  destruct H as (J1 & J2 & J3 & J4). cbn [bmem] in J3. split; [exact J2|].
  destruct J1 as (V1 & V2 & _). split; [rewrite V1; exact V2|].
  assert (N : forall A h A', ideal A h A' -> forall o a, In (o, a) h -> a <> BUninit /\ forall k, a <> BPanic k).
  { clear. intros A h A' H. induction H; intros o a Hin; cbn in Hin; try contradiction;
      (destruct Hin as [E|Hin]; [injection E as <- <-; split; [|intros ?]; discriminate|eapply IHideal; exact Hin]). }
  split; [intros o Hin; apply (N _ _ _ J4) in Hin; tauto|].
  split; [intros o k Hin; apply (N _ _ _ J4) in Hin; destruct Hin as [_ Hin]; apply (Hin k); reflexivity|].
  intros x Hx. rewrite (J3 x); [apply S; exact Hx|]. intros Hw. apply Hx. apply W. exact Hw.
Qed.
Print Assumptions C76_client_cannot_corrupt_index.

(** C76, the contents: the blocks handed out since the last reset behave as independent arrays.  A load gives what the
    stores to that very block left there; neither allocator calls, nor stores to other blocks, nor unwrapping and
    rewrapping the memory change it.  (A new block starts with arbitrary contents; a store or load is refused exactly if
    there is no such block or it leaves the block.) *)
Theorem C76_blocks_are_independent_arrays : forall t m b f os,
  valid_target t -> valid_region t b -> snd (from_mem t m b) = Ret (Some f) -> Forall (valid_bop t) os ->
  exists A, ideal [] (snd (brun t (MkBS (fst (from_mem t m b)) f []) os)) A.
Proof.
  intros t m b f os Ht Hb Hf Hv. destruct (from_mem_start t m b f Ht Hb Hf) as (I & R & L & _).
  pose proof (brun_spec t f os _ _ Ht L R I Hv) as H.
  destruct (brun t (MkBS (fst (from_mem t m b)) f []) os) as [s h]. destruct H as (_ & _ & _ & J4). eexists. exact J4.
Qed.
Print Assumptions C76_blocks_are_independent_arrays.

(** C76, what allocator calls write: of all memory only the header, so a block just handed out still has the bytes that
    were there before (also right after a reset). *)
Theorem C76_calls_write_only_the_header : forall t m b s c,
  valid_target t -> valid_region t b -> breach t b m s -> valid_ucall t c ->
  same_outside (MkBlock (faddr (bfat s)) (word_bytes t)) (bmem s) (bmem (fst (bstep t s (BCall c)))) /\
  (forall k x, nth_error (bblocks s) k = Some x -> disjoint (MkBlock (faddr (bfat s)) (word_bytes t)) x).
Proof.
  intros t m b s c Ht Hb (f & os & Hf & Hv & ->) Hc. destruct (from_mem_start t m b f Ht Hb Hf) as (I & R & L & _).
  pose proof (brun_spec t f os _ _ Ht L R I Hv) as H.
  destruct (brun t (MkBS (fst (from_mem t m b)) f []) os) as [s h]. destruct H as (J & _). cbn [fst].
  destruct (bcall_step t f s _ c Ht J Hc) as (s' & u' & r & E & _ & _ & M & _). rewrite E. cbn [fst].
  pose proof J as (-> & _ & _ & D & B & _). split; [exact M|]. intros k x Hx. rewrite Forall_forall in B.
  apply (header_apart t f _ x D). apply B. eapply nth_error_In. exact Hx.
Qed.
Print Assumptions C76_calls_write_only_the_header.

Example C76_nonvacuous :
  let t := x64 true in let m := fun _ : Z => @None Z in let b := MkBlock 4099 45 in
  let os := [BCall (UCall (CAlloc ex_u16)); BWrite 0 0 [Some 255; None]; BRoundTrip; BCall (UBumpBox ex_u64);
             BWrite 1 6 [Some 9; Some 8]; BWrite 1 7 [Some 1; Some 2]; BRead 0; BRead 1; BCall (UCall CLevel);
             BCall (UCall CReset); BRead 0; BCall (UCall (CAlloc ex_u16)); BRead 0] in
  snd (from_mem t m b) = Ret (Some (MkFat 4104 32)) /\
  map snd (snd (brun t (MkBS (fst (from_mem t m b)) (MkFat 4104 32) []) os)) =
  [BResp (RBlock (MkAlloc 4112 2)); BDone; BDone; BResp (RBlock (MkAlloc 4120 16)); BDone; BInvalid;
   BBytes [Some 255; None]; BBytes [None; None; None; None; None; None; Some 9; Some 8]; BResp (RLevel 16);
   BResp RUnit; BInvalid; BResp (RBlock (MkAlloc 4112 2)); BBytes [Some 255; None]].
Proof. split; reflexivity. Qed.
