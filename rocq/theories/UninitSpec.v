(** * UninitSpec *)
From Verif Require Import Base Spec UninitModel.

(** The bytes a region owns. *)
Definition region (v : uview) : block := MkBlock (uptr v) (ulen v).

(** Well-formed regions, by static type: they exist, are aligned, and a sized one holds its type. *)
Definition wf_view (t : target) (ty : utype) (v : uview) : Prop :=
  valid_region t (region v) /\
  match ty with
  | TRaw => True
  | TSized l => type_layout t l /\ aligned (uptr v) (lalign l) /\ lsize l <= ulen v
  | TSlice l => type_layout t l /\ aligned (uptr v) (lalign l)
  end.

(** [a] and [b] are what remains of [v] cut at byte [k]: adjacent, and together exactly [v]. *)
Definition cut (v : uview) (k : Z) (a b : uview) : Prop :=
  region a = MkBlock (uptr v) k /\ region b = MkBlock (uptr v + k) (ulen v - k) /\ 0 <= k <= ulen v.

(** [n] is the number of whole elements of size [sz] in [len] bytes. *)
Definition whole_elements (sz len n : Z) : Prop := 0 <= n /\ n * sz <= len < (n + 1) * sz.

(** The [i]-th element of a slice of elements of layout [l] at [p] *)
Definition element (p : Z) (l : layout) (i : Z) : block := MkBlock (p + i * lsize l) (lsize l).

(** Operations with type-correct arguments. *)
Definition valid_uop (t : target) (o : uop) : Prop :=
  match o with
  | OpSplitAt _ n | OpSplitAtByte _ n => is_usize t n
  | OpSplitLayout _ l => valid_layout t l
  | OpSplitCast _ l | OpSplitSlice _ l | OpCast _ l | OpCastSlice _ l => type_layout t l
  | _ => True
  end.

(** The operations whose pointer arithmetic is wrong: splitting at a byte other than 0, through a pointer
    to a type that does not have size 1. *)
Definition byte_split_bad (P : pool) (o : uop) : Prop :=
  match o with
  | OpSplitAtByte i n => exists ty v l, nth_error P i = Some (ty, v) /\ sized_layout ty = Some l /\ lsize l <> 1 /\ n <> 0
  | OpSplitToFit i => exists ty v l, nth_error P i = Some (ty, v) /\ sized_layout ty = Some l /\ lsize l <> 1 /\ lsize l <> 0
  | _ => False
  end.

Inductive good_ops (t : target) : pool -> list uop -> Prop :=
| good_nil P : good_ops t P []
| good_cons P o os : valid_uop t o -> ~ byte_split_bad P o ->
    (forall P', pstep t P o = Ret P' -> good_ops t P' os) -> good_ops t P (o :: os).
