(** * ExitSpec *)
From Verif Require Import Base Spec SyncModel SyncMemModel UnsyncModel ExitModel.
From Coq Require Import Permutation.

(** A pinned value: address of its slot, its type, its current bytes. *)
Record entry := MkEntry { en_addr : Z; en_vt : Z; en_bytes : list (option Z) }.

Definition drop_of (e : entry) : eevent := EvDrop (en_addr e) (en_vt e) (en_bytes e).

(** [history h st lost]: the events [h] are those of a stack of values.  A pinned value goes on top, only the value on
    top is dropped, and the memory is only declared free when no value is on the stack.  [st] are the values on the
    stack after [h], top first; [lost] those that were on it when a panic left pop_all. *)
Inductive history : list eevent -> list entry -> list entry -> Prop :=
| HNew : history [] [] []
| HPin h st lost a v bs : history h st lost -> history (h ++ [EvPin a v bs]) (MkEntry a v bs :: st) lost
| HWrite h st1 st2 lost a v bs bs' : history h (st1 ++ MkEntry a v bs :: st2) lost -> ~ In a (map en_addr st1) ->
    history (h ++ [EvWrite a bs']) (st1 ++ MkEntry a v bs' :: st2) lost
| HDrop h e st lost : history h (e :: st) lost -> history (h ++ [drop_of e]) st lost
| HArg h st lost v bs : history h st lost -> history (h ++ [EvArg v bs]) st lost
| HUnwound h st lost : history h st lost -> history (h ++ [EvUnwound]) [] (st ++ lost)
| HReset h lost : history h [] lost -> history (h ++ [EvReset]) [] lost.

(** Slot and type of the values pinned, and of those dropped, oldest first. *)
Definition pins (h : list eevent) : list (Z * Z) :=
  flat_map (fun e => match e with EvPin a v _ => [(a, v)] | _ => [] end) h.
Definition drops (h : list eevent) : list (Z * Z) :=
  flat_map (fun e => match e with EvDrop a v _ => [(a, v)] | _ => [] end) h.
Definition who (e : entry) : Z * Z := (en_addr e, en_vt e).

(** The place of a slot: link and value. *)
Definition slot_block (t : target) (vt : Z -> layout) (a v : Z) : block := MkBlock a (lsize (pin_layout t (vt v))).
Definition value_block (t : target) (vt : Z -> layout) (a v : Z) : block := MkBlock (a + value_offset t (vt v)) (lsize (vt v)).

(** An ExitStack<Mem> with Mem of layout [lm] can exist at [base]. *)
Definition stack_ok (t : target) (base : Z) (lm : layout) : Prop :=
  type_layout t lm /\ type_layout t (pin_layout t lm) /\ type_layout t (bump_layout t (pin_layout t lm)) /\
  aligned base (lalign (bump_layout t (pin_layout t lm))) /\
  valid_region t (MkBlock base (lsize (bump_layout t (pin_layout t lm)))).

(** The types of the values exist. *)
Definition eop_ok (t : target) (vt : Z -> layout) (o : eop) : Prop :=
  match o with
  | ESlot v | ESet v _ => is_usize t v /\ type_layout t (vt v) /\ type_layout t (pin_layout t (vt v))
  | _ => True
  end.

Definition exit_reach (t : target) (vt : Z -> layout) (boom : Z -> list (option Z) -> bool) (base : Z) (lm : layout) (m : mem)
  (os : list eop) (s : estate) : Prop :=
  valid_target t /\ stack_ok t base lm /\ Forall (eop_ok t vt) os /\ s = fst (erun t vt boom (enew base lm m) os).

(** No destructor panics on the values of [st]. *)
Definition quiet (boom : Z -> list (option Z) -> bool) (st : list entry) : Prop :=
  Forall (fun e => boom (en_vt e) (en_bytes e) = false) st.
