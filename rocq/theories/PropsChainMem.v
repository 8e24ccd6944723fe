(** * PropsChainMem: C83, chains whose pointers, indices and boxes share the memory of the global allocator. *)
From Verif Require Import Base Spec BaseFacts SyncModel SyncMemModel UnsyncModel UnsyncProofs MemBumpSpec ChainModel ChainMemModel ChainMemSpec ChainMemProofs PropsSync PropsChain.

(** C83. Whatever is stored in boxes (and by others outside the chains' memory), and however chains are created, joined
    and dropped: no call reads a pointer or an index that was damaged, uses or frees memory which is not an allocated link,
    or gets stuck; all answers, what loads return, and what is freed (address, layout and order) are those of chains which
    are lists of links and of boxes which are arrays of bytes. *)
Theorem C83_reference : forall t m os, valid_target t -> xhist t rempty os ->
  exists x r as_, xrun t (xempty m) os = Some (x, as_) /\ rrun t rempty os = Some (r, as_) /\ xfrees x = rfrees r.
Proof.
  intros t m os Ht H. destruct (run_ok t os Ht _ _ (wrel_empty t m) H) as (x & r & l & E1 & E2 & W). exists x, r, l.
  split; [exact E1|]. split; [exact E2|]. apply (w_frees _ _ _ W).
Qed.
Print Assumptions C83_reference.

(** C83, no leak: allocated are exactly the links of the chains that exist, one block of the right layout each, and
    they do not overlap. *)
Theorem C83_live_heap : forall t m os x r as_ as',
  valid_target t -> xhist t rempty os -> xrun t (xempty m) os = Some (x, as_) -> rrun t rempty os = Some (r, as') ->
  (forall q, In q (xheap x) <-> exists i a k, linked r i a k /\ q = kalloc t k) /\
  (forall i a k j b k', linked r i a k -> linked r j b k' -> (i, a) <> (j, b) -> disjoint (kraw t k) (kraw t k')).
Proof.
  intros t m os x r l l' Ht H E1 E2. destruct (run_ok t os Ht _ _ (wrel_empty t m) H) as (x0 & r0 & l0 & F1 & F2 & W).
  rewrite F1 in E1. rewrite F2 in E2. injection E1 as -> _. injection E2 as -> _. split; [apply (w_heap _ _ _ W)|apply (w_apart _ _ _ W)].
Qed.
Print Assumptions C83_live_heap.

(** C83, the boxes of chains that exist: each lies in the part of a link of its chain that was handed out, apart from all
    others, and has the contents that were stored last (zero at first). *)
Theorem C83_boxes : forall t m os x r as_ as',
  valid_target t -> xhist t rempty os -> xrun t (xempty m) os = Some (x, as_) -> rrun t rempty os = Some (r, as') ->
  (forall n i p bs, nth_error (rboxes r) n = Some (i, p, bs) -> usable r i = true ->
     nth_error (xboxes x) n = Some (i, MkBlock p (Z.of_nat (length bs))) /\
     mem_read (xmem x) p (Z.of_nat (length bs)) = bs /\
     exists a k, linked r i a k /\ inside (MkBlock p (Z.of_nat (length bs))) (MkBlock (start (kdata t k)) (kused k)) /\
       inside (kdata t k) (kraw t k)) /\
  (forall n n' i p bs i' p' bs', n <> n' -> nth_error (rboxes r) n = Some (i, p, bs) -> nth_error (rboxes r) n' = Some (i', p', bs') ->
     usable r i = true -> usable r i' = true -> disjoint (MkBlock p (Z.of_nat (length bs))) (MkBlock p' (Z.of_nat (length bs')))).
Proof.
  intros t m os x r l l' Ht H E1 E2. destruct (run_ok t os Ht _ _ (wrel_empty t m) H) as (x0 & r0 & l0 & F1 & F2 & W).
  rewrite F1 in E1. rewrite F2 in E2. injection E1 as -> _. injection E2 as -> _. split; [|apply (w_box_apart _ _ _ W)].
  intros n i p bs Hn U. destruct (w_box _ _ _ W n i p bs Hn U) as (a & k & L & P1 & P2 & P3 & P4).
  pose proof (w_good _ _ _ W _ _ _ L) as G. pose proof (layout_big t (kcap k) Ht (lg_cap _ _ G)) as LB. pose proof (UnsyncProofs.word_pos t Ht).
  split; [rewrite (w_boxes _ _ _ W), nth_error_map, Hn; reflexivity|]. split; [exact P4|]. exists a, k. split; [exact L|].
  unfold inside, kdata, kraw, in_block in *. cbn [start size] in *. split; intros y Hy; lia.
Qed.
Print Assumptions C83_boxes.

(** C83, the frame: a call writes to no byte outside of the memory of the chains that exist before or after it. *)
Theorem C83_frame : forall t m os o x r as_ as' x1 r1 a a',
  valid_target t -> xhist t rempty os -> xrun t (xempty m) os = Some (x, as_) -> rrun t rempty os = Some (r, as') ->
  xop_ok t r o -> is_wild o = false -> xstep t x o = Some (x1, a) -> rstep t r o = Some (r1, a') ->
  forall y, ~ chain_byte t r y -> ~ chain_byte t r1 y -> xmem x1 y = xmem x y.
Proof.
  intros t m os o x r l l' x1 r1 a a' Ht H E1 E2 Ok Wi S1 S2. destruct (run_ok t os Ht _ _ (wrel_empty t m) H) as (x0 & r0 & l0 & F1 & F2 & W).
  rewrite F1 in E1. rewrite F2 in E2. injection E1 as -> _. injection E2 as -> _.
  destruct (step_ok t x r o Ht W Ok) as (x2 & r2 & b & G1 & G2 & _ & M). rewrite G1 in S1. rewrite G2 in S2. injection S1 as -> _. injection S2 as -> _.
  exact (M Wi).
Qed.
Print Assumptions C83_frame.

(** Three chains, boxes from two of them, all of their bytes overwritten (and memory around the links), chains joined:
    the first box is still there, then everything is freed. *)
Definition ex_xops : list xop :=
  [XNew 64 (Some 4096); XNew 3 (Some 8192); XNew 16 (Some 16384); XNew 5 None; XBump 0 ex_u64; XStore 0 0 (repeat (Some 255) 8);
   XWild 4184 (repeat (Some 7) 16); XBump 2 ex_u16; XStore 1 0 [Some 1; Some 2]; XLoad 1; XChain 1 2; XChain 0 1;
   XBump 0 ex_u16; XBump 0 ex_u64; XCap 0; XRem 0; XLoad 0; XStore 2 1 [Some 9]; XLoad 2; XLoad 3; XDrop 0].

Lemma ex_regions n a : In n [64; 3; 16] -> In a [4096; 8192; 16384] ->
  valid_region (x64 true) (MkBlock a (lsize (link_layout (x64 true) n))) /\ aligned a 8.
Proof.
  intros Hn Ha.
  repeat (destruct Hn as [<-|Hn]; [
    repeat (destruct Ha as [<-|Ha]; [split; [vm_compute; repeat split; congruence|apply Z.mod_divide; [discriminate|reflexivity]]|]); destruct Ha|]).
  destruct Hn.
Qed.

Lemma ex_hist_cons t r o os : xop_ok t r o -> (forall r1 a, rstep t r o = Some (r1, a) -> xhist t r1 os) -> xhist t r (o :: os).
Proof. intros H1 H2. split; assumption. Qed.

Ltac ex_links :=
  let i := fresh in let a := fresh in let k := fresh in let ls := fresh in let E := fresh in let N := fresh in
  intros i a k (ls & E & N); repeat (destruct i as [|i]; cbn in E; [injection E as <-; repeat (destruct a as [|a]; cbn in N; [injection N as <-|]); try discriminate|]);
  try discriminate; try (destruct i; discriminate); try (destruct a; discriminate);
  let y := fresh in let Y := fresh in let Z := fresh in intros y [Y Z]; unfold in_block, kraw in Y, Z; cbn [start size kbase kcap] in Y, Z;
  repeat match type of Y with context [lsize ?l] => let v := eval vm_compute in (lsize l) in change (lsize l) with v in Y end;
  repeat match type of Z with context [lsize ?l] => let v := eval vm_compute in (lsize l) in change (lsize l) with v in Z end;
  rewrite ?repeat_length in Y; lia.

Example C83_nonvacuous :
  xhist (x64 true) rempty ex_xops /\
  option_map snd (xrun (x64 true) (xempty (fun _ => None)) ex_xops) =
  Some [XANew; XANew; XANew; XAErr 32; XABox 4120; XAUnit; XAUnit; XABox 16408; XAUnit; XABytes [Some 1; Some 2]; XAUnit; XAUnit;
        XABox 16410; XABox 16416; XASize 16; XASize 0; XABytes (repeat (Some 255) 8); XAUnit; XABytes [Some 0; Some 9]; XABytes (repeat (Some 0) 8); XAUnit] /\
  option_map (fun s => xfrees (fst s)) (xrun (x64 true) (xempty (fun _ => None)) ex_xops) =
  Some [(8192, MkLayout 32 8); (16384, MkLayout 40 8); (4096, MkLayout 88 8)].
Proof.
  split; [|split; vm_compute; reflexivity]. unfold ex_xops.
  repeat (apply ex_hist_cons; [|intros s' a E; vm_compute in E; injection E as <- <-]); [..|exact Logic.I];
    try (split; [vm_compute; split; congruence|intros a [= <-] _; cbv zeta; split; [apply ex_regions; cbn; auto|];
         split; [apply (ex_regions 3); cbn; auto|]; ex_links]);
    try (split; [vm_compute; split; congruence|discriminate]);
    try (split; [discriminate|split; reflexivity]);
    try (split; [reflexivity|apply ex_type; auto]);
    try reflexivity;
    try (do 3 eexists; split; [reflexivity|]; split; [reflexivity|]; cbn; lia);
    try (do 3 eexists; split; [reflexivity|reflexivity]);
    try ex_links.
Qed.
