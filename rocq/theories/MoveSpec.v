(** * MoveSpec: what programs that move an ExitStack may do, and when they do it with values pinned. *)
From Verif Require Import Base Spec SyncModel SyncMemModel UnsyncModel ExitModel ExitSpec MoveModel.

(** The types exist, and the stack fits where it is moved to. *)
Definition vop_ok (t : target) (vt : Z -> layout) (lm : layout) (o : vop) : Prop :=
  match o with VCall o => eop_ok t vt o | VMove a => stack_ok t a lm | VForget | VWrite _ _ => True end.

(** A program from a new stack at [base] *)
Definition move_reach t vt boom unpin base lm m (os : list vop) (s : vstate) : Prop :=
  valid_target t /\ stack_ok t base lm /\ Forall (vop_ok t vt lm) os /\ s = fst (vrun t vt boom unpin (MkV (enew base lm m) false) os).

Definition relocates (o : vop) : Prop := match o with VMove _ | VForget => True | _ => False end.

(** The program moves or forgets the stack only while no value is pinned to it. *)
Definition moves_only_when_empty t vt boom unpin base lm m (os : list vop) : Prop :=
  forall os1 o os2, os = os1 ++ o :: os2 -> relocates o ->
  forall st lost, history (elog (vst (fst (vrun t vt boom unpin (MkV (enew base lm m) false) os1)))) st lost -> st = [].

(** All is well: the log is that of a stack of values, and unless the stack is gone each live value is inside the place where the
    stack is now, and the bytes there are those last put there. *)
Definition sound_stack t vt (s : estate) : Prop :=
  exists st lost, history (elog s) st lost /\
  (egone s = false -> Forall (fun e => inside (value_block t vt (en_addr e) (en_vt e)) (place t s) /\
     mem_read (ebytes s) (en_addr e + value_offset t (vt (en_vt e))) (lsize (vt (en_vt e))) = en_bytes e) st).
