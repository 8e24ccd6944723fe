(** * PropsTExit: ExitStack and the second proposal for the aliasing rules (Tree Borrows). *)
From Verif Require TExitWorld TreeWorld.
From Verif Require Import Base Spec BaseFacts SyncModel SyncSpec SyncProofs UnsyncModel UnsyncSpec ExitModel BorrowModel BorrowSpec UBorrowModel UBorrowSpec
  EBorrowModel EBorrowSpec TreeModel TreeSpec TExitModel TExitSpec TExitTop TExitLocal PropsSync PropsEBorrow.

(** Whatever a program does with an ExitStack, all of its answers are those of the ideal, in which each pinned value is an allocation of its
    own: the destructors run last value first, each with a new reference to its value that is made from the pointer of the stack.  An access
    of the client is undefined behaviour exactly if it would be with the separate allocations. *)
Theorem C107_values_are_separate t pl unpin os : valid_target t -> stack_place t pl -> Forall (zop_ok t) os ->
  exists i, ziruns t (p_st pl) unpin zideal_new (snd (zrun t pl unpin (znew pl) os)) i.
Proof.
  destruct pl as [hd st tp]. intros Ht (V & D1 & D2 & D3) F. rewrite (proj1 (proj2 (znew_run t hd st tp unpin Ht D1 D3 os V F))).
  destruct (TExitWorld.zrun_inv t hd st tp unpin Ht D1 D3 os F _ _ _ (TExitWorld.znew_inv t hd st tp V)) as (i & ex & R & _). eauto.
Qed.

(** The library itself has no undefined behaviour, whether Mem is Unpin or not: not in slot and pin, and not in pop_all, whatever the destructors do. *)
Theorem C107_library_never_ub t pl unpin os : valid_target t -> stack_place t pl -> Forall (zop_ok t) os ->
  forall o, In (o, ZUB) (snd (zrun t pl unpin (znew pl) os)) -> exists k a, o = ZAct k a.
Proof.
  intros Ht P F. destruct (C107_values_are_separate t pl unpin os Ht P F) as (i & R). exact (TExitWorld.ziruns_ub t (p_st pl) _ _ _ _ R).
Qed.

(** ... and the client has none if it reads and writes each value through the last reference it has: that of pin, and then that of the
    destructor; but if Mem is Unpin then destructors must not write to values that are Unpin. *)
Theorem C107_last_reference_never_ub t pl unpin os : valid_target t -> stack_place t pl -> Forall (zop_ok t) os -> all_zlatest t pl unpin (znew pl) os ->
  forall o, ~ In (o, ZUB) (snd (zrun t pl unpin (znew pl) os)).
Proof.
  destruct pl as [hd st tp]. intros Ht (V & D1 & D2 & D3) F L. rewrite (proj1 (proj2 (znew_run t hd st tp unpin Ht D1 D3 os V F))). apply (znew_run t hd st tp unpin Ht D1 D3 os V F) in L.
  apply (zrun_top t hd st tp unpin os Ht D1 D3 F _ _ _ (TExitWorld.znew_inv t hd st tp V)); [constructor|exact L].
Qed.

(** With a Mem that is Unpin, such as an array of bytes, pop_all freezes those values: in a destructor every write to a value that is
    Unpin, through any of its references, is undefined behaviour. *)
Theorem C107_unpin_memory_destructors_cannot_write t pl os k z tags n b : valid_target t -> stack_place t pl -> Forall (zop_ok t) os ->
  let w := fst (zrun t pl true (znew pl) os) in
  zdrop w <> None -> nth_error (zslots w) k = Some (z, SPinned tags) -> zunpin z = true ->
  In n tags -> within (zval z) b -> 0 < size b -> snd (zstep t pl true w (ZAct k (NWrite n b))) = ZUB.
Proof.
  destruct pl as [hd st tp]. intros Ht (V & D1 & D2 & D3) F w0 Nd Ek U N B Sb. pose proof (TExitWorld.znew_inv t hd st tp V) as I0.
  destruct (znew_run t hd st tp true Ht D1 D3 os V F) as ((s0 & Ew & G) & _).
  destruct (zrun_stuck t hd st tp true os Ht D1 D3 F _ _ _ I0) as (ex & i & I & S); [intros X; cbn in X; congruence|].
  unfold w0 in *. rewrite Ew in *. set (w := fst (zrun t (MkPlaces hd st tp) true (TExitWorld.zwide st) os)) in *.
  destruct (zstep_local_inv t hd st tp true Ht ex w i s0 (ZAct k (NWrite n b)) I Logic.I G) as (s1 & -> & _). cbn [snd].
  apply (stuck_write t hd st tp ex w i k z tags n b I S Nd Ek U Sb). apply TreeWorld.nact_ok_iff. cbn. auto.
Qed.

(** The calls of the memory behave as in the model without tags. *)
Theorem C107_calls_unchanged t pl unpin os : valid_target t -> stack_place t pl -> Forall (zop_ok t) os ->
  let h := snd (zrun t pl unpin (znew pl) os) in
  urun t (u_fresh (p_st pl)) (map fst (zcalls_of t h)) = (zbump (fst (zrun t pl unpin (znew pl) os)), zcalls_of t h).
Proof.
  destruct pl as [hd st tp]. intros Ht (V & D1 & D2 & D3) F. destruct (znew_run t hd st tp unpin Ht D1 D3 os V F) as ((s & -> & _) & -> & _).
  exact (TExitWorld.zrun_calls t hd st tp unpin Ht D1 D3 os F _ _ _ (TExitWorld.znew_inv t hd st tp V)).
Qed.

(** ** The hypotheses can be met: two values, of which only the first is Unpin *)
Definition ex_zops (a b c d : nat) : list zop :=
  [ZShare None; ZSlot 0 ex_u64 true false; ZSlot 0 ex_u16 false false; ZPin 1; ZShare (Some 0%nat); ZPin 0;
   ZAct 0 (NWrite a (MkBlock 4112 8)); ZAct 1 (NWrite b (MkBlock 4136 2)); ZAct 0 (NRead a (MkBlock 4112 8)); ZSlot 1 ex_u64 true false;
   ZPop; ZAct 0 (NRead c (MkBlock 4112 8)); ZRet; ZAct 1 (NWrite d (MkBlock 4136 2)); ZRet; ZShare None; ZSlot 0 ex_u64 true false].

Example ex_zops_ok a b c d : Forall (zop_ok (x64 false)) (ex_zops a b c d).
Proof.
  destruct ex_layouts_ok as (A & B & _).
  assert (P : type_layout (x64 false) (pin_layout (x64 false) ex_u64) /\ type_layout (x64 false) (pin_layout (x64 false) ex_u16)).
  { split; (split; [split; [cbn; lia|split; [exists 3; split; [lia|reflexivity]|split; cbn; lia]]|exists 3; reflexivity]). }
  unfold ex_zops. repeat apply Forall_cons; try apply Forall_nil; cbn [zop_ok]; auto; split; first [exact A|exact B|apply P].
Qed.

(** The program runs, also with a Mem that is Unpin: two values of different types are pinned and used, the memory is full, the destructors
    run in reverse order, one reads its value and one writes to it, and there is room again. *)
Example ex_zops_run : map snd (snd (zrun (x64 false) ex_pl true (znew ex_pl) (ex_zops 86 73 114 118))) =
  [ZDone; ZResponse (RBlock (MkAlloc 4096 24)); ZResponse (RBlock (MkAlloc 4120 48)); ZTag 73; ZDone; ZTag 86; ZDone; ZDone; ZDone;
   ZResponse (RFail Exhausted); ZTag 114; ZDone; ZTag 118; ZDone; ZDone; ZDone; ZResponse (RBlock (MkAlloc 4096 24))].
Proof. vm_compute. reflexivity. Qed.

(** It uses each value through the last reference only. *)
Example ex_zops_latest : all_zlatest (x64 false) ex_pl true (znew ex_pl) (ex_zops 86 73 114 118).
Proof.
  cbn [ex_zops all_zlatest]. repeat split; try exact Logic.I;
  (match goal with |- zlatest ?u ?w ?o => cbn [zlatest] end;
   match goal with |- exists z n tags b, nth_error ?l ?k = _ /\ _ =>
     let x := eval vm_compute in (nth_error l k) in
     match x with Some (?s, SPinned (?n :: ?tags)) => exists s, n, tags; eexists; split; [vm_compute; reflexivity|
       first [left; reflexivity|right; split; [reflexivity|first [left; vm_compute; reflexivity|right; vm_compute; reflexivity]]]] end
   end).
Qed.

(** If the destructor of the first value writes to it: fine if Mem is not Unpin, undefined behaviour if it is. *)
Definition ex_writes (c : nat) : list zop := firstn 11 (ex_zops 86 73 114 118) ++ [ZAct 0 (NWrite c (MkBlock 4112 8))].
Example ex_write_pinned_memory : nth 11 (map snd (snd (zrun (x64 false) ex_pl false (znew ex_pl) (ex_writes 114)))) ZInvalid = ZDone.
Proof. vm_compute. reflexivity. Qed.
Example ex_write_unpin_memory : nth 11 (map snd (snd (zrun (x64 false) ex_pl true (znew ex_pl) (ex_writes 114)))) ZInvalid = ZUB.
Proof. vm_compute. reflexivity. Qed.
Example ex_unpin_before : let w := fst (zrun (x64 false) ex_pl true (znew ex_pl) (firstn 11 (ex_zops 86 73 114 118))) in
  zdrop w <> None /\ exists z tags, nth_error (zslots w) 0 = Some (z, SPinned tags) /\ zunpin z = true /\ In 114%nat tags /\ zval z = MkBlock 4112 8.
Proof. vm_compute. split; [discriminate|]. eexists _, _. repeat split. auto. Qed.

(** The reference of pin is frozen as soon as the destructor has its own, whatever Mem is. *)
Example ex_old_reference : nth 11 (map snd (snd (zrun (x64 false) ex_pl false (znew ex_pl) (ex_writes 86)))) ZInvalid = ZUB.
Proof. vm_compute. reflexivity. Qed.

(** So writes through the last reference are not always allowed. *)
Theorem C107_destructors_may_write_refuted :
  ~ (forall t pl unpin os k z n tags b, valid_target t -> stack_place t pl -> Forall (zop_ok t) os ->
       let w := fst (zrun t pl unpin (znew pl) os) in
       zdrop w <> None -> nth_error (zslots w) k = Some (z, SPinned (n :: tags)) -> within (zval z) b ->
       snd (zstep t pl unpin w (ZAct k (NWrite n b))) <> ZUB).
Proof.
  intros X. assert (Fo : Forall (zop_ok (x64 false)) (firstn 11 (ex_zops 86 73 114 118))).
  { pose proof (ex_zops_ok 86 73 114 118) as Fo. rewrite <- (firstn_skipn 11 (ex_zops 86 73 114 118)) in Fo. apply Forall_app in Fo. apply Fo. }
  match goal with _ => let e := constr:(nth_error (zslots (fst (zrun (x64 false) ex_pl true (znew ex_pl) (firstn 11 (ex_zops 86 73 114 118))))) 0) in
    let v := eval vm_compute in e in assert (Eq : e = v) by (vm_compute; reflexivity) end.
  refine (X (x64 false) ex_pl true _ 0%nat _ _ _ (MkBlock 4112 8) ex_target_ok ex_pl_ok Fo _ Eq _ _); [vm_compute; discriminate|split; cbn; lia|vm_compute; reflexivity].
Qed.

Print Assumptions C107_values_are_separate.
Print Assumptions C107_library_never_ub.
Print Assumptions C107_last_reference_never_ub.
Print Assumptions C107_unpin_memory_destructors_cannot_write.
Print Assumptions C107_calls_unchanged.
Print Assumptions C107_destructors_may_write_refuted.
