(** * OwnSpec: the life of a value, read off the events of one owner. *)
From Verif Require Import Base Spec SyncMemModel UninitModel UninitSpec OwnModel.

(** Start: existing, pairwise disjoint regions, each large enough and aligned for its type. *)
Definition owned_memories (t : target) (us : list (uview * layout)) : Prop :=
  Forall (fun p => wf_view t (TSized (snd p)) (fst p)) us /\ pairwise disjoint (map (fun p => region (fst p)) us).

Definition oop_ok (t : target) (c : nat * oop) : Prop := match snd c with OCast l => type_layout t l | _ => True end.

Definition own_reach (t : target) (us : list (uview * layout)) (m : mem) (cs : list (nat * oop)) (s : ostate) : Prop :=
  owned_memories t us /\ Forall (oop_ok t) cs /\ s = fst (orun t (oinit us m) cs).

(** Events of token [i] *)
Definition events_of (i : nat) (log : list (nat * oevent)) : list oevent :=
  flat_map (fun e => if Nat.eqb (fst e) i then [snd e] else []) log.

(** One place, over time: empty, or with a value.  A value can only be put into an empty place; what is dropped or
    moved out must be exactly the value that is there, and leaves the place empty.  [None]: this was violated. *)
Definition byte_eq_dec : forall x y : option Z, {x = y} + {x <> y}.
Proof. decide equality. apply Z.eq_dec. Defined.
Definition bytes_eqb (a b : list (option Z)) : bool := if list_eq_dec byte_eq_dec a b then true else false.

Definition life_step (c : option (option (list (option Z)))) (e : oevent) : option (option (list (option Z))) :=
  match c, e with
  | Some None, OPut bs => Some (Some bs)
  | Some (Some bs), ODropped b | Some (Some bs), OTook b => if bytes_eqb bs b then Some None else None
  | _, _ => None
  end.

(** The place after the events [es]: [Some None] empty, [Some (Some bs)] with value [bs]. *)
Definition life (es : list oevent) : option (option (list (option Z))) := fold_left life_step es (Some None).

(** There is a value behind a token of this kind. *)
Definition with_value (k : okind) : bool :=
  match k with OUninit | OLeakU | OGone => false | _ => true end.

(** The token has its memory for itself. *)
Definition claims (k : okind) : bool := match k with OGone => false | _ => true end.
