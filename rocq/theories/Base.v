(** * Base: the fragment of Rust's core library that the modelled code calls.

    Machine words are [Z].  Everything whose result depends on the platform takes a [target]
    explicitly.  Panics are ordinary values. *)
From Coq Require Export ZArith List Bool Lia.
From Coq Require Export ZifyBool ZifyNat.
Export ListNotations.
#[global] Open Scope Z_scope.

(** ** Targets *)

(** A compilation target and profile.  [word_bytes] = size_of::<usize>() (2, 4 or 8 on every Rust
    target), [usize_align] = align_of::<usize>(), [debug] = debug assertions and arithmetic overflow
    checks are on (they are switched together by cargo's default profiles; simplification). *)
Record target := MkTarget { word_bytes : Z; usize_align : Z; debug : bool }.

(** model only *)
Definition is_pow2 (a : Z) : Prop := exists k, 0 <= k /\ a = 2 ^ k.

(** the targets of rustc: usize of 2, 4 or 8 bytes, aligned to a divisor of its size *)
Definition valid_target (t : target) : Prop :=
  (word_bytes t = 2 \/ word_bytes t = 4 \/ word_bytes t = 8) /\
  is_pow2 (usize_align t) /\ (usize_align t | word_bytes t).

(** number of addresses *)
Definition addr_space (t : target) : Z := 2 ^ (8 * word_bytes t).
(** usize::MAX *)
Definition usize_max (t : target) : Z := addr_space t - 1.
(** isize::MAX *)
Definition isize_max (t : target) : Z := 2 ^ (8 * word_bytes t - 1) - 1.

(** the values of a usize *)
Definition is_usize (t : target) (x : Z) : Prop := 0 <= x <= usize_max t.

(** The common 64-bit target, in both profiles; used by the examples and witnesses. *)
Definition x64 (dbg : bool) : target := {| word_bytes := 8; usize_align := 8; debug := dbg |}.

(** ** Panics *)

Inductive outcome (A : Type) : Type :=
| Ret (a : A)
| Panic (msg : nat).     (* [msg] names the panicking site, see the constants of each model *)
Arguments Ret {A} a.
Arguments Panic {A} msg.

(** a panic ends the function *)
Definition obind {A B} (x : outcome A) (f : A -> outcome B) : outcome B :=
  match x with Ret a => f a | Panic m => Panic m end.
Notation "'olet' x ':=' e 'in' k" := (obind e (fun x => k))
  (at level 200, x name, e at level 100, k at level 200, right associativity).
Notation "'oassert' b 'orpanic' m ';;' k" := (if b then k else Panic m)
  (at level 200, b at level 100, m at level 0, k at level 200, right associativity).

(** [Option::unwrap] *)
Definition unwrap {A} (m : nat) (x : option A) : outcome A :=
  match x with Some a => Ret a | None => Panic m end.

(** ** usize arithmetic of core *)

(** core: usize::checked_sub, checked_add, checked_mul, saturating_sub, wrapping_add/sub/mul *)
Definition checked_sub (a b : Z) : option Z := if b <=? a then Some (a - b) else None.
(** core: usize::checked_add *)
Definition checked_add (t : target) (a b : Z) : option Z :=
  if a + b <=? usize_max t then Some (a + b) else None.
(** core: usize::checked_mul *)
Definition checked_mul (t : target) (a b : Z) : option Z :=
  if a * b <=? usize_max t then Some (a * b) else None.
(** core: usize::saturating_sub *)
Definition saturating_sub (a b : Z) : Z := if b <=? a then a - b else 0.
(** core: arithmetic without overflow checks *)
Definition wrap (t : target) (a : Z) : Z := a mod addr_space t.
(** core: usize::wrapping_add *)
Definition wrapping_add (t : target) (a b : Z) : Z := wrap t (a + b).
(** core: usize::wrapping_sub *)
Definition wrapping_sub (t : target) (a b : Z) : Z := wrap t (a - b).

(** The plain operators [+] and [-]: panic on overflow in debug builds, wrap in release builds. *)
Definition op_add (t : target) (m : nat) (a b : Z) : outcome Z :=
  if a + b <=? usize_max t then Ret (a + b)
  else if debug t then Panic m else Ret (wrap t (a + b)).
(** the operator [-] *)
Definition op_sub (t : target) (m : nat) (a b : Z) : outcome Z :=
  if b <=? a then Ret (a - b)
  else if debug t then Panic m else Ret (wrap t (a - b)).

(** ** Layouts *)

(** core::alloc::Layout *)
Record layout := MkLayout { lsize : Z; lalign : Z }.

(** the next multiple of [a] *)
Definition align_up (x a : Z) : Z := x + (- x) mod a.

(** The validity conditions of [Layout::from_size_align]: power-of-two alignment, and the size rounded
    up to the alignment must not exceed isize::MAX (Rust >= 1.64; older releases used usize::MAX, which
    only enlarges the set and is not modelled). *)
Definition valid_layout (t : target) (l : layout) : Prop :=
  0 <= lsize l /\ is_pow2 (lalign l) /\ lalign l <= isize_max t /\
  align_up (lsize l) (lalign l) <= isize_max t.

(** usize::is_power_of_two *)
Definition is_pow2b (a : Z) : bool := (0 <? a) && (2 ^ Z.log2 a =? a).

(** core::alloc::Layout::from_size_align *)
Definition from_size_align (t : target) (size align : Z) : option layout :=
  if is_pow2b align && (align <=? isize_max t) && (0 <=? size) && (align_up size align <=? isize_max t)
  then Some {| lsize := size; lalign := align |} else None.

(** The layout of a Rust type: additionally the size is a multiple of the alignment. *)
Definition type_layout (t : target) (l : layout) : Prop :=
  valid_layout t l /\ (lalign l | lsize l).

(** core::alloc::Layout::array::<T>(n) for an element of layout [l] *)
Definition layout_array (t : target) (l : layout) (n : Z) : option layout :=
  match checked_mul t (lsize l) n with
  | None => None
  | Some s => from_size_align t s (lalign l)
  end.

(** core::alloc::Layout::pad_to_align *)
Definition pad_to_align (l : layout) : layout :=
  {| lsize := align_up (lsize l) (lalign l); lalign := lalign l |}.

(** core::alloc::Layout::extend: (combined layout, offset of the second field) *)
Definition layout_extend (t : target) (l n : layout) : option (layout * Z) :=
  let align := Z.max (lalign l) (lalign n) in
  let off := align_up (lsize l) (lalign n) in
  match checked_add t off (lsize n) with
  | None => None
  | Some s => match from_size_align t s align with
              | None => None
              | Some r => Some (r, off)
              end
  end.

(** ** Pointers *)

(** [<*mut X>::align_offset(align)] for a pointee of stride 1: distance to the next aligned address
    (core always returns the exact distance for stride 1 at run time). *)
Definition align_offset1 (p a : Z) : Z := (- p) mod a.

(** The same for a zero-sized pointee (such as [*mut ()]): no offset can change the address, so it is 0
    if the pointer is aligned and usize::MAX otherwise. *)
Definition align_offset0 (t : target) (p a : Z) : Z :=
  if p mod a =? 0 then 0 else usize_max t.

(** ** Byte memory *)

(** A byte is [None] while uninitialised. *)
Definition mem := Z -> option Z.

(** core::ptr::write / writes of a byte string [bs] at [p] *)
Definition mem_write (m : mem) (p : Z) (bs : list (option Z)) : mem :=
  fun x => if (p <=? x) && (x <? p + Z.of_nat (length bs))
           then nth (Z.to_nat (x - p)) bs None else m x.

(** core::ptr::write_bytes(p, b, n) *)
Definition mem_fill (m : mem) (p n : Z) (b : option Z) : mem :=
  fun x => if (p <=? x) && (x <? p + n) then b else m x.

(** core::ptr::copy_nonoverlapping(src, dst, n) *)
Definition mem_copy (m : mem) (src dst n : Z) : mem :=
  fun x => if (dst <=? x) && (x <? dst + n) then m (src + (x - dst)) else m x.
