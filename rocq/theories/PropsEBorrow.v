(** * PropsEBorrow: ExitStack and the aliasing rules (Stacked Borrows). *)
From Verif Require Import Base Spec BaseFacts SyncModel SyncSpec SyncProofs UnsyncModel UnsyncSpec ExitModel BorrowModel BorrowSpec UBorrowModel UBorrowSpec
  EBorrowModel EBorrowSpec EBorrowWorld EBorrowLocal PropsSync.

(** Whatever a program does with an ExitStack, all of its answers are those of the ideal, in which each pinned value is an allocation of its
    own: the destructors run last value first, each with a new reference to its value that is made from the pointer of the stack.  An access
    of the client is undefined behaviour exactly if it would be with the separate allocations; pop_all is if Mem is Unpin and a value is pinned. *)
Theorem C101_values_are_separate t pl unpin os : valid_target t -> stack_place t pl -> Forall (yop_ok t) os ->
  exists i, yiruns t (p_st pl) unpin yideal_new (snd (yrun t pl unpin (ynew pl) os)) i.
Proof.
  destruct pl as [hd st tp]. intros Ht (V & D1 & D2 & D3) F. rewrite (proj1 (proj2 (ynew_run t hd st tp unpin Ht D1 D2 D3 os V F))). destruct (yrun_inv t hd st tp unpin Ht D1 D2 D3 os F _ _ _ _ (ynew_inv t hd st tp unpin V)) as (i & cs & Fs & R & _). eauto.
Qed.

(** With a Mem that is not Unpin the library itself has no undefined behaviour: not in slot and pin, and not in pop_all, whatever the destructors do. *)
Theorem C101_library_never_ub t pl os : valid_target t -> stack_place t pl -> Forall (yop_ok t) os ->
  forall o, In (o, BUB) (snd (yrun t pl false (ynew pl) os)) -> exists k a, o = YAct k a.
Proof.
  intros Ht P F. destruct (C101_values_are_separate t pl false os Ht P F) as (i & R). exact (yiruns_ub t (p_st pl) _ _ _ R).
Qed.

(** ... and the client has none if it reads and writes each value through the last reference it has: that of pin, and then that of the destructor. *)
Theorem C101_last_reference_never_ub t pl os : valid_target t -> stack_place t pl -> Forall (yop_ok t) os -> all_latest t pl false (ynew pl) os ->
  forall o, ~ In (o, BUB) (snd (yrun t pl false (ynew pl) os)).
Proof.
  destruct pl as [hd st tp]. intros Ht (V & D1 & D2 & D3) F L. rewrite (proj1 (proj2 (ynew_run t hd st tp false Ht D1 D2 D3 os V F))). apply (ynew_run t hd st tp false Ht D1 D2 D3 os V F) in L. apply (yrun_top t hd st tp os Ht D1 D2 D3 F _ _ _ _ (ynew_inv t hd st tp false V)); [constructor|exact L].
Qed.

(** With a Mem that is Unpin, such as an array of bytes, every pop_all (and drop) of a stack with a pinned value is undefined behaviour: the
    unique reference to the stack invalidates the pointers to its values. *)
Theorem C101_unpin_memory_ub t pl os : valid_target t -> stack_place t pl -> Forall (yop_ok t) os ->
  let w := fst (yrun t pl true (ynew pl) os) in
  ychain w <> [] -> ybusy w = [] -> snd (ystep t pl true w YPop) = BUB.
Proof.
  destruct pl as [hd st tp]. intros Ht (V & D1 & D2 & D3) F w0 C B. destruct (yrun_inv t hd st tp true Ht D1 D2 D3 os F _ _ _ _ (ynew_inv t hd st tp true V)) as (i & cs & Fs & _ & I).
  destruct (ynew_run t hd st tp true Ht D1 D2 D3 os V F) as ((s0 & Ew & G) & _). set (w := fst (yrun t (MkPlaces hd st tp) true (ywide st) os)) in *.
  assert (W : ychain w <> [] /\ ybusy w = []) by (unfold w0 in *; rewrite Ew in *; auto). unfold w0. rewrite Ew. clear C B Ew. destruct W as [C B]. clearbody w. clear w0.
  destruct (ystep_local_inv t hd st tp true Ht w i cs Fs s0 YPop I Logic.I G) as (s1 & -> & _). cbn [snd].
  destruct (ystep_inv t hd st tp true Ht D1 D2 D3 w i cs Fs YPop I Logic.I) as (i' & cs' & Fs' & S & _).
  assert (Nd : ydrop w = None) by (pose proof (y_dropok _ _ _ _ _ _ _ _ _ I) as Q; destruct (ydrop w) as [[[[[c k] sl] ch] se]|]; [destruct Q; discriminate|reflexivity]).
  remember (snd (ystep t (MkPlaces hd st tp) true w YPop)) as r eqn:Er. clear Er. inversion S; subst; try reflexivity.
  - match goal with Q : true = false \/ _ |- _ => destruct Q as [Q0|Q0]; [discriminate|] end. rewrite (y_chain _ _ _ _ _ _ _ _ _ I) in *. contradiction.
  - match goal with Q : _ <> None \/ _ |- _ => destruct Q as [Q0|Q0] end; [rewrite (y_drop _ _ _ _ _ _ _ _ _ I), Nd in Q0; congruence|rewrite (y_busy _ _ _ _ _ _ _ _ _ I) in Q0; contradiction].
Qed.

(** The calls of the memory behave as in the model without tags. *)
Theorem C101_calls_unchanged t pl unpin os : valid_target t -> stack_place t pl -> Forall (yop_ok t) os ->
  let h := snd (yrun t pl unpin (ynew pl) os) in
  urun t (u_fresh (p_st pl)) (map fst (ecalls_of t h)) = (ybump (fst (yrun t pl unpin (ynew pl) os)), ecalls_of t h).
Proof.
  destruct pl as [hd st tp]. intros Ht (V & D1 & D2 & D3) F. destruct (ynew_run t hd st tp unpin Ht D1 D2 D3 os V F) as ((s & -> & _) & -> & _). exact (yrun_calls t hd st tp unpin Ht D1 D2 D3 os F _ _ _ _ (ynew_inv t hd st tp unpin V)).
Qed.

(** ** The hypotheses can be met *)
Definition ex_pl : places := MkPlaces (MkBlock 4160 8) (MkBlock 4096 64) (MkBlock 4168 8).
Example ex_pl_ok : stack_place (x64 false) ex_pl.
Proof.
  split; [|split; [|split]; intros x [X Y]; unfold in_block in *; cbn in *; lia]. unfold valid_region. cbn. repeat split; try lia.
Qed.

Definition ex_yops (a b c d : nat) : list yop :=
  [YShare None; YSlot 0 ex_u64 true; YSlot 0 ex_u16 false; YPin 1; YShare (Some 0%nat); YPin 0;
   YAct 0 (CWrite a (MkBlock 4112 8)); YAct 1 (CWrite b (MkBlock 4136 2)); YAct 0 (CRead a (MkBlock 4112 8)); YSlot 1 ex_u64 true;
   YPop; YAct 0 (CWrite c (MkBlock 4112 8)); YRet; YAct 1 (CRead d (MkBlock 4136 2)); YRet; YShare None; YSlot 0 ex_u64 true].

Example ex_yops_ok a b c d : Forall (yop_ok (x64 false)) (ex_yops a b c d).
Proof.
  destruct ex_layouts_ok as (A & B & _).
  assert (P : type_layout (x64 false) (pin_layout (x64 false) ex_u64) /\ type_layout (x64 false) (pin_layout (x64 false) ex_u16)).
  { split; (split; [split; [cbn; lia|split; [exists 3; split; [lia|reflexivity]|split; cbn; lia]]|exists 3; reflexivity]). }
  unfold ex_yops. repeat apply Forall_cons; try apply Forall_nil; cbn [yop_ok]; auto; split; first [exact A|exact B|apply P].
Qed.

(** The program runs: two values of different types are pinned and used, the memory is full, the destructors run in reverse order, and there is room again. *)
Example ex_yops_run : map snd (snd (yrun (x64 false) ex_pl false (ynew ex_pl) (ex_yops 86 73 114 118))) =
  [BDone; BResponse (RBlock (MkAlloc 4096 24)) None; BResponse (RBlock (MkAlloc 4120 48)) None; BTag 73; BDone; BTag 86; BDone; BDone; BDone;
   BResponse (RFail Exhausted) None; BTag 114; BDone; BTag 118; BDone; BDone; BDone; BResponse (RBlock (MkAlloc 4096 24)) None].
Proof. vm_compute. reflexivity. Qed.

(** It uses each value through the last reference only. *)
Example ex_yops_latest : all_latest (x64 false) ex_pl false (ynew ex_pl) (ex_yops 86 73 114 118).
Proof.
  cbn [ex_yops all_latest]. repeat split; try exact Logic.I;
  (match goal with |- latest ?w ?o => cbn [latest] end;
   match goal with |- exists s n tags b, nth_error ?l ?k = _ /\ _ =>
     let x := eval vm_compute in (nth_error l k) in
     match x with Some (?s, SPinned (?n :: ?tags)) => exists s, n, tags; eexists; split; [vm_compute; reflexivity|first [left; reflexivity|right; reflexivity]] end
   end).
Qed.

(** Inside of the destructor the reference of pin is not allowed any more (its protector is violated). *)
Example ex_old_reference : nth 11 (map snd (snd (yrun (x64 false) ex_pl false (ynew ex_pl) (ex_yops 86 73 86 118)))) BDone = BUB.
Proof. vm_compute. reflexivity. Qed.

(** With a Mem that is Unpin this program is undefined behaviour as soon as pop_all is called. *)
Theorem C101_any_memory_never_ub_refuted :
  ~ (forall t pl unpin os, valid_target t -> stack_place t pl -> Forall (yop_ok t) os -> all_latest t pl unpin (ynew pl) os ->
       forall o, ~ In (o, BUB) (snd (yrun t pl unpin (ynew pl) os))).
Proof.
  intros X. apply (X (x64 false) ex_pl true (firstn 11 (ex_yops 86 73 114 118)) ex_target_ok ex_pl_ok) with (o := YPop).
  - pose proof (ex_yops_ok 86 73 114 118) as F. rewrite <- (firstn_skipn 11 (ex_yops 86 73 114 118)) in F. apply Forall_app in F. apply F.
  - cbn [ex_yops all_latest firstn]. repeat split; try exact Logic.I;
    (match goal with |- latest ?w ?o => cbn [latest] end;
     match goal with |- exists s n tags b, nth_error ?l ?k = _ /\ _ =>
       let x := eval vm_compute in (nth_error l k) in
       match x with Some (?s, SPinned (?n :: ?tags)) => exists s, n, tags; eexists; split; [vm_compute; reflexivity|first [left; reflexivity|right; reflexivity]] end
     end).
  - assert (E : nth_error (snd (yrun (x64 false) ex_pl true (ynew ex_pl) (firstn 11 (ex_yops 86 73 114 118)))) 10 = Some (YPop, BUB)) by (vm_compute; reflexivity).
    exact (nth_error_In _ _ E).
Qed.

Example ex_unpin_before : let w := fst (yrun (x64 false) ex_pl true (ynew ex_pl) (firstn 10 (ex_yops 86 73 114 118))) in ychain w = [0%nat; 1%nat] /\ ybusy w = [].
Proof. vm_compute. split; reflexivity. Qed.

Print Assumptions C101_values_are_separate.
Print Assumptions C101_library_never_ub.
Print Assumptions C101_last_reference_never_ub.
Print Assumptions C101_unpin_memory_ub.
Print Assumptions C101_calls_unchanged.
Print Assumptions C101_any_memory_never_ub_refuted.
