(** * Claims about Rc and Weak in bytes (C78). *)
From Verif Require Import Base Spec BaseFacts SyncModel SyncSpec SyncProofs PropsSync SyncMemModel UnsyncModel
  UninitModel UninitSpec UninitProofs PropsUninit RcModel RcSpec PropsRc RcMemModel RcMemSpec RcMemProofs.

(** Example: a name for every byte string; different strings of bytes have different names. *)
Definition digit (b : option Z) : Z := match b with None => 1 | Some v => v + 2 end.
Fixpoint name (bs : list (option Z)) : rvalue := match bs with [] => 0 | b :: r => digit b + 258 * name r end.
Definition bytes_ok (bs : list (option Z)) : Prop := Forall (fun b => match b with None => True | Some v => 0 <= v < 256 end) bs.

Example name_injective : forall a b, bytes_ok a -> bytes_ok b -> name a = name b -> a = b.
Proof.
  assert (P : forall a, bytes_ok a -> 0 <= name a).
  { induction a as [|x a IH]; intros B; cbn [name]; [lia|]. inversion B; subst. specialize (IH H2). destruct x; cbn [digit]; lia. }
  assert (D : forall x, match x with None => True | Some v => 0 <= v < 256 end -> 1 <= digit x < 258) by (intros [v|]; cbn [digit]; lia).
  induction a as [|x a IH]; intros [|y b] A B E; cbn [name] in E; auto.
  - inversion B; subst. pose proof (P b H2). pose proof (D y H1). lia.
  - inversion A; subst. pose proof (P a H2). pose proof (D x H1). lia.
  - inversion A; inversion B; subst. pose proof (D x H1). pose proof (D y H5).
    assert (E1 : digit x = digit y /\ name a = name b) by (pose proof (P a H2); pose proof (P b H6); lia). destruct E1 as (E1 & E2).
    f_equal; [|apply IH; auto]. destruct x, y; cbn [digit] in E1; try reflexivity; try lia. f_equal. lia.
Qed.

(** Example: two regions holding garbage; T is u32.  The second region is scribbled over while an Rc lives in the
    first one, is then used for another Rc, and is released and scribbled over again. *)
Definition u32_bytes (a : Z) : list (option Z) := [Some a; Some 1; Some 2; Some 3].
Definition ex_xops : list xop :=
  [XScribble 1 0 (repeat (Some 255) 64); XNew 0 (u32_bytes 7) ex_u32; XClone 0; XDowngrade 2; XScribble 1 3 (repeat None 8);
   XNew 1 (u32_bytes 6) ex_u32; XGetMut 1 (Some (u32_bytes 9)); XDrop 0; XUpgrade 3; XWeakCount 4; XDrop 1; XDone; XDrop 2;
   XDrop 3; XGetMut 4 (Some (u32_bytes 8)); XIntoRaw 4; XRawReplace 4 (u32_bytes 5); XFromRaw 4; XDeref 4; XDowngrade 4;
   XTryUnwrap 4; XDrop 4; XWeakTryUnwrap 5; XScribble 5 0 (repeat (Some 170) 64)].

Example ex_xhistory : xhistory name (x64 false) ex_mems (fun _ => Some 85) ex_xops.
Proof.
  split; [exact ex_mems_ok|]. split; [|split; [vm_compute; reflexivity|]].
  - unfold ex_xops. repeat constructor; cbn [xop_ok]; try (apply ex_u32_type); try (apply (proj1 ex_u32_type)); try (vm_compute; congruence); exists 3; vm_compute; split; congruence.
  - unfold ex_xops. repeat (constructor; [|]); try constructor; intros i w k [E|E]; try discriminate; injection E as <- <-; vm_compute; intros [= <-]; reflexivity.
Qed.
Example C78_nonvacuous : snd (xrun name (x64 false) (xinit ex_mems (fun _ => Some 85)) ex_xops) =
  [ADone; ADone; ATok 2; ATok 3; ADone; ADone; AVal (name (u32_bytes 6)); ADone; ATok 4; ANum 2; ADone; ADone; ADone; ADone;
   AVal (name (u32_bytes 7)); ADone; AVal (name (u32_bytes 8)); ADone; AVal (name (u32_bytes 5)); ATok 5; AVal (name (u32_bytes 5));
   ADone; ADone; ADone].
Proof. vm_compute. reflexivity. Qed.

(** C78. With boxes represented only by bytes of one memory that the client also uses for other things, every
    history of calls answers exactly as the reference that counts handles and remembers the values put in, and
    drops and moves out the same values in the same order. *)
Theorem C78_bytes_reference : forall code t us m os, valid_target t -> xhistory code t us m os ->
  snd (xrun code t (xinit us m) os) = snd (sxrun code t (sinit us) os) /\
  xlog (fst (xrun code t (xinit us m) os)) = slog (fst (sxrun code t (sinit us) os)).
Proof.
  intros code t us m os V H. destruct (xhistory_all code t us m os V H) as (s & (_ & L & _) & (_ & _ & E & _) & A & _). split; [exact A|congruence].
Qed.
Print Assumptions C78_bytes_reference.

(** C78. No call touches a byte outside the regions the client handed over. *)
Theorem C78_frame : forall code t us m os x, valid_target t -> xhistory code t us m os ->
  (forall u, In u us -> ~ in_block (region u) x) -> xmem (fst (xrun code t (xinit us m) os)) x = m x.
Proof. intros code t us m os x V H Y. destruct (xhistory_all code t us m os V H) as (s & _ & _ & _ & _ & W). apply W. exact Y. Qed.
Print Assumptions C78_frame.

(** C78. At every moment the two words behind the value hold the number of strong handles, and the number of weak
    handles plus one if there is a strong handle. *)
Theorem C78_counters : forall code t us m os i k, valid_target t -> xhistory code t us m os ->
  let x := fst (xrun code t (xinit us m) os) in
  xtok x i = Some k -> tkind k = KStrong \/ tkind k = KWeak ->
  load_usize t (xmem x) (uptr (tview k) + rc_strong_off t (tlay k)) = Some (handles x KStrong (uptr (tview k))) /\
  load_usize t (xmem x) (uptr (tview k) + rc_weak_off t (tlay k)) =
    Some (handles x KWeak (uptr (tview k)) + if 0 <? handles x KStrong (uptr (tview k)) then 1 else 0).
Proof. intros code t us m os i k. apply counters. Qed.
Print Assumptions C78_counters.
