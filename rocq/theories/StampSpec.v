(** * StampSpec: levels as stamps. *)
From Verif Require Import Base Spec SyncModel SyncSpec ConcModel ConcSpec RelaxedModel RelaxedSpec.

(** The level that a call insists on. *)
Definition named_level (c : call) : option Z :=
  match c with CAllocAt _ lv | CGetAt _ lv => Some lv | _ => None end.

(** An allocation of at least one byte that was granted: the thread, the call, the layout and the allocation. *)
Record grant := MkGrant { g_thread : nat; g_call : call; g_layout : layout; g_alloc : allocation }.

(** The grant that a decision is, if any. *)
Definition granted (e : hevent) : option grant :=
  match e with
  | ELin i c (RBlock a) =>
      match call_layout c with
      | Some l => if lsize l =? 0 then None else Some (MkGrant i c l a)
      | None => None
      end
  | _ => None
  end.

(** All grants of a history, to any thread, in the order of the decisions. *)
Fixpoint grants (h : list hevent) : list grant :=
  match h with
  | [] => []
  | e :: h' => match granted e with Some g => g :: grants h' | None => grants h' end
  end.

(** Grants that follow each other without a gap other than padding: the first starts at the first fitting address at or after
    level [u], a call that names a level named exactly the one at which the grant before ended, and the level reported is
    the end of the block. *)
Inductive stacked (st : block) : Z -> list grant -> Z -> Prop :=
| st_nil u : stacked st u [] u
| st_cons u g gs v :
    call_layout (g_call g) = Some (g_layout g) -> 0 < lsize (g_layout g) ->
    (forall lv, named_level (g_call g) = Some lv -> lv = u) ->
    first_aligned (start st + u) (lalign (g_layout g)) (ptr (g_alloc g)) ->
    alevel (g_alloc g) = ptr (g_alloc g) + lsize (g_layout g) - start st ->
    stacked st (alevel (g_alloc g)) gs v ->
    stacked st u (g :: gs) v.

(** The block of a grant. *)
Definition grant_block (g : grant) : block := MkBlock (ptr (g_alloc g)) (lsize (g_layout g)).

(** Level [lv] is 0 or was reported by a grant. *)
Definition level_of_grant (lv : Z) (gs : list grant) : Prop := lv = 0 \/ exists g, In g gs /\ alevel (g_alloc g) = lv.

(** All levels that thread [i] had learned from returned calls before it started the calls recorded in the rest: the history is
    split at a call of the thread. *)
Definition learned_before (i : nat) (lv : Z) (c : call) (r : response) (h : list hevent) : Prop :=
  exists h1 h2, h = h1 ++ ERet i c r :: h2 /\ In lv (thread_levels i h1).

(** A call of thread [j] that reported level [a] had returned before thread [i] made the call [c] that was answered [r]. *)
Definition precedes (h : list hevent) (a : Z) (i : nat) (c : call) (r : response) : Prop :=
  exists h1 j c' r' h2 h3 h4,
    h = h1 ++ ERet j c' r' :: h2 ++ EInv i c :: h3 ++ ERet i c r :: h4 /\
    (forall c'' r'', ~ In (ERet i c'' r'') h3) /\ event_level (c', r') = Some a.
