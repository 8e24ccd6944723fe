(** * VBorrowInit: the world at the start of a program. *)
From Verif Require Import Base Spec BaseFacts SyncModel SyncProofs UninitModel UninitSpec UninitProofs FixedVecModel FixedVecSpec FixedVecProofs BorrowModel BorrowProofs BorrowWorld UBorrowModel EBorrowSlot RBorrowModel RBorrowSpec RBorrowPolite VBorrowModel VBorrowSpec VBorrowTree VBorrowStep VBorrowLocal.

Lemma vviews_nth bs v k : nth_error (vviews_new bs) v = Some k ->
  exists b, nth_error bs v = Some b /\ k = MkVW (from_memory (start b) (size b)) v [] None SRaw /\ w_blk k = b /\ nth_error (qmems_new bs) v = Some (MkQM b v None).
Proof.
  unfold vviews_new. rewrite nth_error_map, mems_new_nth. destruct (nth_error bs v) as [b|]; [|discriminate]. cbn [option_map]. intros [= <-]. exists b. cbn [m_blk m_base].
  split; [reflexivity|]. split; [reflexivity|]. split; [destruct b; reflexivity|reflexivity].
Qed.
Lemma vnew_inv t bs : memories_ok t bs -> vinv t (vviews_new bs).
Proof.
  intros [F D]. constructor.
  - intros i k E _. destruct (vviews_nth _ _ _ E) as (b & EB & -> & _). unfold view_ok. cbn [w_st w_u]. split; [|exact Logic.I].
    rewrite Forall_forall in F. pose proof (F b (nth_error_In _ _ EB)) as X. destruct b. exact X.
  - intros i k p E _ P. destruct (vviews_nth _ _ _ E) as (b & EB & -> & _). discriminate.
  - intros i j ki kj y Ei Ej _ _ N Yi Yj. destruct (vviews_nth _ _ _ Ei) as (bi & EBi & _ & Bi & _), (vviews_nth _ _ _ Ej) as (bj & EBj & _ & Bj & _).
    rewrite Bi in Yi. rewrite Bj in Yj. destruct (D i j bi bj N EBi EBj y). auto.
Qed.

Lemma reach_inv t bs os : valid_target t -> memories_ok t bs -> Forall (vop_ok t) os -> vinv t (vviews (fst (vrun t (vnew bs) os))).
Proof. intros V M F. apply vrun_inv; [exact V| |exact F]. apply vnew_inv, M. Qed.

Lemma step_local t w o v k stk' : valid_target t -> vinv t (vviews w) -> vop_ok t o -> view_of o = Some v -> usable_at (vviews w) v = Some k ->
  (forall y, in_block (w_blk k) y -> stk' y = stk (vsb w) y) ->
  let r := vstep t w o in let r' := vstep t (with_stacks w stk') o in
  (forall y, ~ in_block (w_blk k) y -> stk (vsb (fst r)) y = stk (vsb w) y) /\
  snd r' = snd r /\ vviews (fst r') = vviews (fst r) /\ (forall y, in_block (w_blk k) y -> stk (vsb (fst r')) y = stk (vsb (fst r)) y).
Proof.
  intros V I OP VO U G. cbn zeta. unfold vstep. rewrite VO. cbn [with_stacks vviews]. rewrite U. destruct w as [s vs B C]. cbn [vviews vsb] in *.
  assert (A : agree (w_blk k) (MkB stk' (nexttag s)) s) by (split; [reflexivity|exact G]).
  destruct (vcall_local t V vs B C (MkB stk' (nexttag s)) s v k o I U OP A) as [W1 W2 W3 W4 W5 W6 W7]. unfold with_stacks. cbn [vviews vbusy vcalls vsb].
  split; [exact W4|]. split; [exact W1|]. split; [exact W5|]. apply W2.
Qed.
