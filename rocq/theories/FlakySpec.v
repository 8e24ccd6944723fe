(** * FlakySpec *)
From Verif Require Import Base Spec SyncModel SyncSpec UnsyncModel UnsyncSpec ConcModel RelaxedModel FlakyModel.

(** What core promises about one call of [align_offset] (for a pointer to bytes): the distance to the next aligned address, or usize::MAX. *)
Definition allowed (t : target) (ao : offset_fn) : Prop :=
  forall p a, 0 < a -> (exists q, first_aligned p a q /\ ao p a = q - p) \/ ao p a = usize_max t.

(** What a call says when it is refused. *)
Definition refusal (c : call) : option response :=
  match c with CAlloc _ | CGet _ => Some RNone | CAllocAt _ _ | CGetAt _ _ => Some (RFail Exhausted) | _ => None end.
Definition urefusal (c : ucall) : option response :=
  match c with UCall c => refusal c | UBumpBox _ | UBumpArray _ _ => Some (RFail Exhausted) end.

(** [k] is the history [h] without some of the refused calls. *)
Inductive weeded {C} (rf : C -> option response) : list (C * response) -> list (C * response) -> Prop :=
| w_nil : weeded rf [] []
| w_keep e h k : weeded rf h k -> weeded rf (e :: h) (e :: k)
| w_drop c r h k : rf c = Some r -> weeded rf h k -> weeded rf ((c, r) :: h) k.

Definition valid_faction (t : target) (a : faction) : Prop :=
  match a with FInvoke _ c => valid_call t c /\ is_reset c = false | FAccess _ _ ao => allowed t ao | FReturn _ => True end.

(** ... and about one call for a pointer to a zero-sized type, which cannot be advanced: 0 if it is aligned already, or usize::MAX. *)
Definition allowed0 (t : target) (ao : offset_fn) : Prop :=
  forall p a, 0 < a -> ((a | p) /\ ao p a = 0) \/ ao p a = usize_max t.
