(** * PropsMove: C98, an ExitStack that is moved or forgotten. *)
From Verif Require Import Base Spec BaseFacts SyncModel SyncSpec SyncProofs SyncMemModel SyncMemProofs UnsyncModel UnsyncProofs
  ExitModel ExitSpec ExitProofs OwnModel OwnProofs MoveModel MoveSpec MoveProofs PropsSync PropsExit.

(** C98. If Mem is not Unpin then the stack cannot be moved after its first use: it is sound, whatever the program does. *)
Theorem C98_not_unpin : forall t vt boom base lm m os s, move_reach t vt boom false base lm m os s -> sound_stack t vt (vst s).
Proof. intros t vt boom base lm m os s (Ht & Hs & F & ->). eapply vinv_sound; [exact Ht|]. apply pinned_inv; auto. Qed.
Print Assumptions C98_not_unpin.

(** If Mem is Unpin the stack is sound in programs that move or forget it only while no value is pinned to it ... *)
Theorem C98_moved_while_empty : forall t vt boom unpin base lm m os s, move_reach t vt boom unpin base lm m os s ->
  moves_only_when_empty t vt boom unpin base lm m os -> sound_stack t vt (vst s).
Proof. intros t vt boom u base lm m os s (Ht & Hs & F & ->) C. eapply vinv_sound; [exact Ht|]. apply careful_inv; auto. Qed.
Print Assumptions C98_moved_while_empty.

(** ... but safe code may move it at any time. Whatever value is on top, in whichever such program: after a move to [a] the client
    may write any bytes to where the value was, and dropping the stack runs the destructor of the value there, on those bytes. *)
Theorem C98_moved_with_value_refuted : forall t vt boom base lm m os s e st lost a bs,
  move_reach t vt boom true base lm m os s -> moves_only_when_empty t vt boom true base lm m os -> egone (vst s) = false ->
  history (elog (vst s)) (e :: st) lost ->
  stack_ok t a lm -> disjoint (MkBlock a (size (place t (vst s)))) (place t (vst s)) ->
  Z.of_nat (length bs) = lsize (vt (en_vt e)) -> 0 < lsize (vt (en_vt e)) ->
  exists s1 s2 s3 more r,
    vstep t vt boom true s (VMove a) = (s1, EADone) /\
    place t (vst s1) = MkBlock a (size (place t (vst s))) /\ disjoint (value_block t vt (en_addr e) (en_vt e)) (place t (vst s1)) /\
    vstep t vt boom true s1 (VWrite (start (value_block t vt (en_addr e) (en_vt e))) bs) = (s2, EADone) /\
    vstep t vt boom true s2 (VCall EDropStack) = (s3, r) /\
    elog (vst s3) = elog (vst s) ++ EvDrop (en_addr e) (en_vt e) bs :: more.
Proof.
  intros t vt boom base lm m os s e st lost a bs (Ht & Hs & F & ->) C G H Ha D L NZ.
  destruct (moved_live t vt boom lm _ e st lost a bs Ht (careful_inv t vt boom true base lm m Ht Hs os F C) G H Ha D L NZ)
    as (s1 & s2 & s3 & more & r & A1 & A2 & A3 & A4 & A5 & A6).
  exists s1, s2, s3, more, r. auto 8.
Qed.
Print Assumptions C98_moved_with_value_refuted.

Lemma ex_stack_8192 dbg : stack_ok (x64 dbg) 8192 ex_mem.
Proof. split; [ex_ty 3|]. split; [ex_ty 3|]. split; [ex_ty 3|]. split; [exists 1024; reflexivity|]. split; [reflexivity|]. split; [split; discriminate|discriminate]. Qed.

(** So the stack is not sound in all programs of safe code: the destructor of a value runs on bytes that nobody put into it. *)
Theorem C98_unpin_refuted : exists t vt boom base lm m os s, move_reach t vt boom true base lm m os s /\ ~ sound_stack t vt (vst s) /\
  exists a v bs, In (EvDrop a v bs) (elog (vst s)) /\ ~ In (EvPin a v bs) (elog (vst s)) /\ ~ In (EvWrite a bs) (elog (vst s)).
Proof.
  exists (x64 false), ex_vt, ex_boom2, 4096, ex_mem, (fun _ => None),
    [VCall (ESlot 1); VCall (EPin 0 (ex_bytes 5 8)); VMove 8192; VWrite 4120 (ex_bytes 9 8); VCall EPopAll].
  eexists. split; [|split].
  - split; [apply ex_stack_ok|]. split; [apply ex_stack_ok|]. split; [|reflexivity].
    pose proof (ex_stack_8192 false). repeat (constructor; [first [exact Logic.I|assumption|apply (ex_ops_ok false 1); lia]|]). constructor.
  - intros (st & lost & H & _). 
    match type of H with history ?l _ _ => assert (E : l = [EvPin 4104 1 (ex_bytes 5 8); EvDrop 4104 1 (ex_bytes 9 8); EvReset]) by (vm_compute; reflexivity) end.
    rewrite E in H. clear E. 
    assert (K : forall h x st lost, history (h ++ [x]) st lost -> exists st' lost', history h st' lost' /\ (forall a v bs, x = EvDrop a v bs -> In (MkEntry a v bs) st')).
    { intros h x st' lost' H'. inversion H'; subst; match goal with E : _ ++ [_] = _ ++ [_] |- _ => apply app_inj_tail in E; destruct E as [-> <-] | E : [] = _ ++ [_] |- _ => destruct h; discriminate end; do 2 eexists;
        (split; [eassumption|]); intros; try discriminate.
      unfold drop_of in *. injection H0 as <- <- <-. left. destruct e; reflexivity. }
    change [EvPin 4104 1 (ex_bytes 5 8); EvDrop 4104 1 (ex_bytes 9 8); EvReset] with ((([] ++ [EvPin 4104 1 (ex_bytes 5 8)]) ++ [EvDrop 4104 1 (ex_bytes 9 8)]) ++ [EvReset]) in H.
    apply K in H. destruct H as (st1 & lost1 & H & _). apply K in H. destruct H as (st2 & lost2 & H & X). specialize (X _ _ _ eq_refl).
    assert (P : history ([] ++ [EvPin 4104 1 (ex_bytes 5 8)]) [MkEntry 4104 1 (ex_bytes 5 8)] []) by (constructor; constructor).
    destruct (history_unique _ _ _ H _ _ P) as [E _]. subst st2. destruct X as [X|[]]. discriminate.
  - exists 4104, 1, (ex_bytes 9 8). vm_compute. split; [auto|]. split; intros [X|[X|[X|[]]]]; discriminate.
Qed.
Print Assumptions C98_unpin_refuted.

(** And safe code may forget it at any time: then no value pinned to it is ever dropped, although its memory can be overwritten. *)
Theorem C98_forgotten_refuted : forall t vt boom base lm m os s e st lost bs,
  move_reach t vt boom true base lm m os s -> egone (vst s) = false -> history (elog (vst s)) (e :: st) lost ->
  Z.of_nat (length bs) = lsize (vt (en_vt e)) ->
  exists s1 s2, vstep t vt boom true s VForget = (s1, EADone) /\
    vstep t vt boom true s1 (VWrite (start (value_block t vt (en_addr e) (en_vt e))) bs) = (s2, EADone) /\
    mem_read (ebytes (vst s2)) (start (value_block t vt (en_addr e) (en_vt e))) (lsize (vt (en_vt e))) = bs /\
    forall os', elog (vst (fst (vrun t vt boom true s2 os'))) = elog (vst s).
Proof.
  intros t vt boom base lm m os s e st lost bs (Ht & Hs & F & ->) G H L.
  remember (fst (vrun t vt boom true (MkV (enew base lm m) false) os)) as s eqn:Es. clear Es.
  exists (MkV (eforget (vst s)) (vused s)). eexists. split; [unfold vstep, may_move; rewrite G; reflexivity|].
  split; [reflexivity|]. split.
  - cbn [vst ewrite ebytes]. apply OwnProofs.write_read. exact L.
  - intros os'. match goal with |- context [vrun t vt boom true ?x os'] => destruct (gone_still t vt boom true os' x eq_refl) as [K _] end. exact K.
Qed.
Print Assumptions C98_forgotten_refuted.

(** A program that moves the empty stack, pins two values, pops them and moves it again; both kinds of Mem. *)
Definition ex_vops : list vop := [VMove 8192; VWrite 4096 (ex_bytes 3 88); VCall (ESlot 1); VCall (EPin 0 (ex_bytes 5 8)); VCall EPopAll].

Lemma ex_vops_ok dbg a : stack_ok (x64 dbg) a ex_mem -> Forall (vop_ok (x64 dbg) ex_vt ex_mem) (ex_vops ++ [VMove a; VCall (ESlot 1); VCall (EPin 0 (ex_bytes 7 8))]).
Proof. intros A. pose proof (ex_stack_8192 dbg). repeat (constructor; [first [exact Logic.I|assumption|apply (ex_ops_ok dbg 1); lia]|]). constructor. Qed.

Example C98_nonvacuous : forall dbg,
  let run u os := vrun (x64 dbg) ex_vt ex_boom2 u (MkV (enew 4096 ex_mem (fun _ => None)) false) os in
  let os := ex_vops ++ [VMove 4096; VCall (ESlot 1); VCall (EPin 0 (ex_bytes 7 8))] in
  move_reach (x64 dbg) ex_vt ex_boom2 true 4096 ex_mem (fun _ => None) os (fst (run true os)) /\
  moves_only_when_empty (x64 dbg) ex_vt ex_boom2 true 4096 ex_mem (fun _ => None) os /\
  snd (run true os) = [EADone; EADone; EAPtr 8200; EAPtr 8216; EADone; EADone; EAPtr 4104; EAPtr 4120] /\
  snd (run false os) = [EADone; EADone; EAPtr 8200; EAPtr 8216; EADone; EAInvalid; EAPtr 8200; EAPtr 8216] /\
  egone (vst (fst (run true os))) = false /\ history (elog (vst (fst (run true os)))) [MkEntry 4104 1 (ex_bytes 7 8)] [] /\
  stack_ok (x64 dbg) 8192 ex_mem /\ disjoint (MkBlock 8192 (size (place (x64 dbg) (vst (fst (run true os)))))) (place (x64 dbg) (vst (fst (run true os)))).
Proof.
  intros dbg run os. split; [|split; [|split; [|split; [|split; [|split; [|split]]]]]].
  - split; [apply ex_stack_ok|]. split; [apply ex_stack_ok|]. split; [apply ex_vops_ok, ex_stack_ok|reflexivity].
  - intros os1 o os2 E R st lost H. unfold os, ex_vops in E. cbn [app] in E.
    assert (Z0 : forall l, (l = [] \/ l = [EvPin 8200 1 (ex_bytes 5 8); EvDrop 8200 1 (ex_bytes 5 8); EvReset]) -> history l st lost -> st = []).
    { intros l [-> | ->] H'.
      - pose proof (history_unique _ _ _ HNew _ _ H'). intuition congruence.
      - assert (P : history ((([] ++ [EvPin 8200 1 (ex_bytes 5 8)]) ++ [drop_of (MkEntry 8200 1 (ex_bytes 5 8))]) ++ [EvReset]) [] []) by (repeat constructor).
        pose proof (history_unique _ _ _ P _ _ H'). intuition congruence. }
    eapply Z0; [|exact H].
    do 9 (destruct os1 as [|? os1]; cbn [app] in E; [try discriminate E; injection E as E0 E; subst o; try (destruct R; fail);
      first [left; reflexivity|right; destruct dbg; vm_compute; reflexivity]|try discriminate E; injection E as E0 E; subst]).
  - destruct dbg; vm_compute; reflexivity.
  - destruct dbg; vm_compute; reflexivity.
  - destruct dbg; vm_compute; reflexivity.
  - match goal with |- history ?l _ _ => assert (E : l = ((([] ++ [EvPin 8200 1 (ex_bytes 5 8)]) ++ [drop_of (MkEntry 8200 1 (ex_bytes 5 8))]) ++ [EvReset]) ++ [EvPin 4104 1 (ex_bytes 7 8)])
      by (destruct dbg; vm_compute; reflexivity); rewrite E end. repeat constructor.
  - apply ex_stack_8192.
  - intros x [X1 X2]. 
    assert (E : place (x64 dbg) (vst (fst (run true os))) = MkBlock 4096 88) by (destruct dbg; vm_compute; reflexivity).
    rewrite E in X1, X2. unfold in_block in *. cbn [start size] in *. lia.
Qed.
