(** * TBorrowFuel: the steps of one iteration of a call are bounded. *)
From Verif Require Import Base Spec BaseFacts SyncModel SyncSpec ConcModel BorrowModel BorrowSpec TBorrowModel TBorrowSpec.

(** The program ends after at most [n] steps; only a failed exchange leads to another iteration, with the value that was seen. *)
Fixpoint within (n : nat) (p : prog out) {struct p} : Prop :=
  match p, n with
  | Fin (Final _ _), _ => True
  | Fin (Again _ _), _ => False
  | Tag _ _ k, S n => forall m, within n (k m)
  | Load _ k, S n => forall v, within n (k v)
  | Cas _ _ _ k, S n => within n (k None) /\ ((forall v, within n (k (Some v))) \/ exists s, forall v, k (Some v) = Fin (Again v s))
  | Put _ _ k, S n => within n k
  | _, O => False
  end.

Lemma within_done n c u r base : within (S (S n)) (p_done c u r base).
Proof. destruct r; try exact Logic.I. destruct u; cbn; auto. Qed.

Lemma within_iter t hd st c u l g s : within 8 (p_iter t hd st c u l g s).
Proof.
  unfold p_iter, p_try_alloc_at, p_self, p_storage_get, p_bump. cbn [pbind within]. intros m1 m2 m3.
  destruct (prepare t st l g) as [[|e new at_]|m]; cbn [pbind]; [apply within_done| |apply within_done].
  cbn [p_self pbind within]. intros m4 m5. split; [|right; exists s; reflexivity].
  destruct (finish st new at_) as [a|m]; apply (within_done 0).
Qed.

Lemma within_tries t hd st c u l g s : within 8 (do x := p_try_alloc_at t hd st l g s in p_done c u (of_result (fst x)) (snd x)).
Proof.
  unfold p_try_alloc_at, p_self, p_storage_get, p_bump. cbn [pbind within]. intros m1 m2 m3.
  destruct (prepare t st l g) as [[|e new at_]|m]; cbn [pbind]; [apply within_done| |apply within_done].
  cbn [p_self pbind within]. intros m4 m5. split; [|left; intros v]; apply (within_done 0).
Qed.

Lemma within_more n p : forall k, (n <= k)%nat -> within n p -> within k p.
Proof.
  revert n. induction p as [[g s|r tag]|s parts k IH|s k IH|s e new k IH|s b k IH]; intros n m L W; cbn in *; auto.
  - destruct n as [|n]; [destruct W|]. destruct m as [|m]; [lia|]. intros x. eapply IH; [|apply W]. lia.
  - destruct n as [|n]; [destruct W|]. destruct m as [|m]; [lia|]. intros x. eapply IH; [|apply W]. lia.
  - destruct n as [|n]; [destruct W|]. destruct m as [|m]; [lia|]. destruct W as [W1 [W2|W2]]; (split; [eapply IH; [|apply W1]; lia|]); [left; intros v; eapply IH; [|apply W2]; lia|right; exact W2].
  - destruct n as [|n]; [destruct W|]. destruct m as [|m]; [lia|]. eapply IH; [|apply W]. lia.
Qed.

Lemma within_call t hd st c u self : within 11 (p_call t hd st c u self).
Proof.
  assert (K : forall s, within 10 (p_method t hd st c u s)).
  { intros s. destruct c as [l|l lv|l|l lv| |]; cbn [p_method pbind p_self p_try_alloc p_level within].
    - intros m m'. apply within_iter.
    - intros m. eapply within_more; [|apply within_tries]. lia.
    - intros m. destruct (lsize l =? 0); cbn [pbind p_self p_try_alloc p_level within].
      + intros m1 m2 m3 v. apply within_done.
      + intros m'. apply within_iter.
    - intros m. destruct (lsize l =? 0); [|eapply within_more; [|apply within_tries]; lia]. cbn [pbind p_self p_try_alloc p_level within].
      intros m1 m2 m3 v. destruct (negb (v =? lv)); apply within_done.
    - intros m1 m2 v. exact Logic.I.
    - exact Logic.I. }
  unfold p_call, p_use_self. destruct u; cbn [pbind p_self within]; [eapply within_more; [|apply K]; lia| |]; intros m; apply K.
Qed.
