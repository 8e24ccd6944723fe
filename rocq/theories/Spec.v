(** * Spec: vocabulary of the claims, independent of the model of the code. *)
From Verif Require Import Base.

(** A block of memory: [size] bytes starting at [start]. *)
Record block := MkBlock { start : Z; size : Z }.

Definition in_block (b : block) (x : Z) : Prop := start b <= x < start b + size b.

(** No address lies in both. *)
Definition disjoint (a b : block) : Prop := forall x, ~ (in_block a x /\ in_block b x).

(** Every address of [a] is one of [b]. *)
Definition inside (a b : block) : Prop := forall x, in_block a x -> in_block b x.

Definition aligned (p a : Z) : Prop := (a | p).

(** Any two list entries at different positions are related. *)
Definition pairwise {A} (R : A -> A -> Prop) (l : list A) : Prop :=
  forall i j x y, i <> j -> nth_error l i = Some x -> nth_error l j = Some y -> R x y.

(** A slab region that exists in the address space: not null, non-negative length, does not wrap. *)
Definition valid_region (t : target) (b : block) : Prop :=
  0 < start b /\ 0 <= size b <= isize_max t /\ start b + size b <= addr_space t.

(** [a] is the least aligned address that is not below [p]: the placement rule of repr(C). *)
Definition first_aligned (p al a : Z) : Prop :=
  p <= a /\ aligned a al /\ forall q, p <= q -> aligned q al -> a <= q.

(** What it means to say that a request fits in a region of which the first [used] bytes are taken:
    there is some aligned position in the free rest with enough room. *)
Definition fits_in (b : block) (used : Z) (l : layout) : Prop :=
  exists a, start b + used <= a /\ aligned a (lalign l) /\ a + lsize l <= start b + size b.

(** Number of list elements satisfying a boolean test. *)
Definition count {A} (f : A -> bool) (l : list A) : nat := length (filter f l).

(** Placement of repr(C) struct members: member [l] after [used] bytes of struct. The offsets of all
    members of a struct based at address [p]; the struct's base need not be aligned itself. *)
Inductive reprC (p : Z) : Z -> list layout -> list block -> Prop :=
| reprC_nil used : reprC p used [] []
| reprC_cons used l ls a bs :
    first_aligned (p + used) (lalign l) a ->
    reprC p (a + lsize l - p) ls bs ->
    reprC p used (l :: ls) (MkBlock a (lsize l) :: bs).
