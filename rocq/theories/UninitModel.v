(** * UninitModel: without-alloc/src/uninit.rs, [Uninit<T>] and [UninitView<T>].

    [Uninit] wraps an [UninitView] and forwards to it (lines 78-87, 133-259, 366-462); both are
    modelled by the same functions.  Where a pair of lines is cited, the first is [Uninit], the second
    [UninitView]. *)
From Verif Require Import Base Spec.

(** uninit.rs:96-117: address, length in bytes, and for slices the element count kept in the fat pointer
    (0 for sized pointees, which have none). *)
Record uview := MkView { uptr : Z; ulen : Z; umeta : Z }.

Definition PN_fits : nat := 201.     (* :573 assert!(aligned.fits(layout)) *)
Definition PN_cast : nat := 202.     (* unwrap of cast / cast_slice: :168,:183,:217,:389,:591,:599,:614,:654,:803,:838 *)
Definition PN_zst : nat := 203.      (* :610 assert_eq!(size_of::<T>(), 0) *)
Definition PN_split : nat := 204.    (* :258,:685,:420,:849 unwrap of a split *)
Definition PN_first : nat := 205.    (* :431,:858 unwrap *)
Definition PN_last : nat := 206.     (* :442,:867 unwrap *)

(** uninit.rs:133-140, 547-554 [from_memory] *)
Definition from_memory (p len : Z) : uview := {| uptr := p; ulen := len; umeta := 0 |}.

(** uninit.rs:152-159 and 501-503, 579-586 [decast], [as_memory] *)
Definition decast (v : uview) : uview := {| uptr := uptr v; ulen := ulen v; umeta := 0 |}.

(** uninit.rs:892-895 [fits]: alignment is tested through a [*mut u8] *)
Definition v_fits (v : uview) (l : layout) : bool :=
  (align_offset1 (uptr v) (lalign l) =? 0) && (lsize l <=? ulen v).

(** uninit.rs:237-241, 734-745 [cast] to a type of layout [l]; [None] = Err(self) *)
Definition v_cast (v : uview) (l : layout) : option uview :=
  if negb (v_fits v l) then None
  else Some {| uptr := uptr v; ulen := ulen v; umeta := 0 |}.

(** uninit.rs:248-252, 658-681 [cast_slice] to elements of layout [l]; [None] = Err(self) *)
Definition v_cast_slice (t : target) (v : uview) (l : layout) : option uview :=
  let empty := {| lsize := 0; lalign := lalign l |} in
  if negb (v_fits v empty) then None
  else
    let slice_len := if lsize l =? 0 then usize_max t else ulen v / lsize l in
    Some {| uptr := uptr v; ulen := ulen v; umeta := slice_len |}.

(** uninit.rs:223-226, 624-639 [split_at_byte] on a pointee of layout [l]: (self afterwards, result).
    Line 632, [base.add(at)], is on a [*mut T] and hence advances by [at * size_of::<T>()] bytes. *)
Definition v_split_at_byte (l : layout) (v : uview) (at_ : Z) : uview * option uview :=
  if (ulen v <? at_) || (at_ <? lsize l) then (v, None)
  else
    let next_base := uptr v + at_ * lsize l in
    let next_len := ulen v - at_ in
    ({| uptr := uptr v; ulen := at_; umeta := umeta v |}, Some (from_memory next_base next_len)).

(** The unit type *)
Definition unit_layout : layout := {| lsize := 0; lalign := 1 |}.

(** uninit.rs:145-148, 561-575 [split_layout] on raw memory ([Uninit<()>]); [align_offset] is that of a
    pointer to a zero-sized type. *)
Definition v_split_layout (t : target) (v : uview) (l : layout) : outcome (uview * option uview) :=
  let align := align_offset0 t (uptr v) (lalign l) in
  match (match checked_sub (ulen v) align with
         | None => None
         | Some len => checked_sub len (lsize l)
         end) with
  | None => Ret (v, None)
  | Some _ =>
      match v_split_at_byte unit_layout v align with
      | (v', None) => Ret (v', None)
      | (v', Some aligned) => oassert v_fits aligned l orpanic PN_fits ;; Ret (v', Some aligned)
      end
  end.

(** uninit.rs:166-170, 589-593 [split_cast] *)
Definition v_split_cast (t : target) (v : uview) (l : layout) : outcome (uview * option uview) :=
  olet r := v_split_layout t v l in
  match r with
  | (v', None) => Ret (v', None)
  | (v', Some s) => olet c := unwrap PN_cast (v_cast s l) in Ret (v', Some c)
  end.

(** uninit.rs:180-185, 596-601 [split_slice] *)
Definition v_split_slice (t : target) (v : uview) (l : layout) : outcome (uview * option uview) :=
  olet r := v_split_layout t v {| lsize := 0; lalign := lalign l |} in
  match r with
  | (v', None) => Ret (v', None)
  | (v', Some s) => olet c := unwrap PN_cast (v_cast_slice t s l) in Ret (v', Some c)
  end.

(** uninit.rs:193-196, 609-615 [invent_for_zst]; NonNull::dangling is the alignment as address *)
Definition v_invent_for_zst (l : layout) : outcome uview :=
  oassert (lsize l =? 0) orpanic PN_zst ;;
  unwrap PN_cast (v_cast (from_memory (lalign l) 0) l).

(** uninit.rs:209-218, 646-655 [from_maybe_uninit] of a place at [p] *)
Definition v_from_maybe_uninit (p : Z) (l : layout) : outcome uview :=
  unwrap PN_cast (v_cast (from_memory p (lsize l)) l).

(** uninit.rs:380-390, 796-804 [from_maybe_uninit_slice] of [n] places at [p] *)
Definition v_from_maybe_uninit_slice (t : target) (p : Z) (l : layout) (n : Z) : outcome uview :=
  unwrap PN_cast (v_cast_slice t (from_memory p (lsize l * n)) l).

(** uninit.rs:257-259, 684-686 [split_to_fit] *)
Definition v_split_to_fit (l : layout) (v : uview) : outcome (uview * uview) :=
  match v_split_at_byte l v (lsize l) with
  | (v', Some r) => Ret (v', r)
  | (_, None) => Panic PN_split
  end.

(** uninit.rs:366-377, 782-794 [empty] *)
Definition v_empty (l : layout) : uview := {| uptr := lalign l; ulen := 0; umeta := 0 |}.

(** uninit.rs:400-402, 812-816 [capacity] *)
Definition v_capacity (t : target) (l : layout) (v : uview) : Z :=
  if lsize l =? 0 then usize_max t else ulen v / lsize l.

(** uninit.rs:407-410, 819-839 [split_at]: (self afterwards, result); the element count in the fat pointer of
    [self] is not updated. *)
Definition v_split_at (t : target) (l : layout) (v : uview) (at_ : Z) : outcome (uview * option uview) :=
  match checked_mul t at_ (lsize l) with
  | None => Ret (v, None)
  | Some bytes =>
      if ulen v <? bytes then Ret (v, None)
      else
        let next_len := ulen v - bytes in
        let next_base := uptr v + bytes in
        let self := {| uptr := uptr v; ulen := bytes; umeta := umeta v |} in
        olet other := unwrap PN_cast (v_cast_slice t (from_memory next_base next_len) l) in
        Ret (self, Some other)
  end.

(** uninit.rs:419-421, 848-850 [shrink_to_fit] *)
Definition v_shrink_to_fit (t : target) (l : layout) (v : uview) : outcome (uview * uview) :=
  olet r := v_split_at t l v (v_capacity t l v) in
  match r with
  | (v', Some o) => Ret (v', decast o)
  | (_, None) => Panic PN_split
  end.

(** uninit.rs:426-432, 853-859 [split_first]: (self afterwards, first element) *)
Definition v_split_first (t : target) (l : layout) (v : uview) : outcome (uview * option uview) :=
  olet r := v_split_at t l v 1 in
  match r with
  | (v', None) => Ret (v', None)
  | (first, Some part) =>
      olet c := unwrap PN_first (v_cast (decast first) l) in
      Ret (part, Some c)
  end.

(** uninit.rs:437-443, 862-868 [split_last] *)
Definition v_split_last (t : target) (l : layout) (v : uview) : outcome (uview * option uview) :=
  let split := wrapping_sub t (v_capacity t l v) 1 in
  olet r := v_split_at t l v split in
  match r with
  | (v', None) => Ret (v', None)
  | (v', Some part) =>
      olet c := unwrap PN_last (v_cast (decast part) l) in
      Ret (v', Some c)
  end.

(** uninit.rs:454-462, 878-886 [into_maybe_uninit_slice]: address and element count of the slice *)
Definition v_into_slice (t : target) (l : layout) (v : uview) : Z * Z := (uptr v, v_capacity t l v).

(** uninit.rs:265-311, 748-750 [as_ptr], [as_mut], [into_mut], [into_ref] of a slice: the fat pointer itself *)
Definition v_as_ptr (v : uview) : Z * Z := (uptr v, umeta v).

(** ** A client that owns several regions *)

(** Static type of a region: [Uninit<()>], [Uninit<T>], [Uninit<[T]>] with the layout of T. *)
Inductive utype := TRaw | TSized (l : layout) | TSlice (l : layout).

Inductive uop :=
| OpSplitAt (i : nat) (n : Z)          (* slice *)
| OpSplitFirst (i : nat)
| OpSplitLast (i : nat)
| OpShrink (i : nat)
| OpSplitLayout (i : nat) (l : layout) (* raw *)
| OpSplitCast (i : nat) (l : layout)
| OpSplitSlice (i : nat) (l : layout)
| OpCast (i : nat) (l : layout)        (* raw or sized *)
| OpCastSlice (i : nat) (l : layout)
| OpSplitAtByte (i : nat) (n : Z)      (* raw or sized *)
| OpSplitToFit (i : nat)
| OpAsMemory (i : nat).

(** model only: the Uninits that the client holds *)
Definition pool := list (utype * uview).

(** model only: list update *)
Fixpoint upd_nth {A} (i : nat) (x : A) (l : list A) : list A :=
  match l, i with
  | [], _ => []
  | _ :: l', O => x :: l'
  | a :: l', S j => a :: upd_nth j x l'
  end.

(** Layout of the pointee for the methods of sized pointees *)
Definition sized_layout (ty : utype) : option layout :=
  match ty with TRaw => Some unit_layout | TSized l => Some l | TSlice _ => None end.

(** [a] replaces region [i], [b] is a new region of the client. *)
Definition two (P : pool) (i : nat) (tya : utype) (a : uview) (tyb : utype) (b : option uview) : pool :=
  match b with
  | None => upd_nth i (tya, a) P
  | Some b => upd_nth i (tya, a) P ++ [(tyb, b)]
  end.

(** One call through region [i]; calls that do not type-check do nothing. *)
Definition pstep (t : target) (P : pool) (o : uop) : outcome pool :=
  match o with
  | OpSplitAt i n =>
      match nth_error P i with
      | Some (TSlice l, v) => olet r := v_split_at t l v n in Ret (two P i (TSlice l) (fst r) (TSlice l) (snd r))
      | _ => Ret P
      end
  | OpSplitFirst i =>
      match nth_error P i with
      | Some (TSlice l, v) => olet r := v_split_first t l v in Ret (two P i (TSlice l) (fst r) (TSized l) (snd r))
      | _ => Ret P
      end
  | OpSplitLast i =>
      match nth_error P i with
      | Some (TSlice l, v) => olet r := v_split_last t l v in Ret (two P i (TSlice l) (fst r) (TSized l) (snd r))
      | _ => Ret P
      end
  | OpShrink i =>
      match nth_error P i with
      | Some (TSlice l, v) => olet r := v_shrink_to_fit t l v in Ret (two P i (TSlice l) (fst r) TRaw (Some (snd r)))
      | _ => Ret P
      end
  | OpSplitLayout i l =>
      match nth_error P i with
      | Some (TRaw, v) => olet r := v_split_layout t v l in Ret (two P i TRaw (fst r) TRaw (snd r))
      | _ => Ret P
      end
  | OpSplitCast i l =>
      match nth_error P i with
      | Some (TRaw, v) => olet r := v_split_cast t v l in Ret (two P i TRaw (fst r) (TSized l) (snd r))
      | _ => Ret P
      end
  | OpSplitSlice i l =>
      match nth_error P i with
      | Some (TRaw, v) => olet r := v_split_slice t v l in Ret (two P i TRaw (fst r) (TSlice l) (snd r))
      | _ => Ret P
      end
  | OpCast i l =>
      match nth_error P i with
      | Some (TRaw, v) | Some (TSized _, v) =>
          Ret (match v_cast v l with Some c => upd_nth i (TSized l, c) P | None => P end)
      | _ => Ret P
      end
  | OpCastSlice i l =>
      match nth_error P i with
      | Some (TRaw, v) | Some (TSized _, v) =>
          Ret (match v_cast_slice t v l with Some c => upd_nth i (TSlice l, c) P | None => P end)
      | _ => Ret P
      end
  | OpSplitAtByte i n =>
      match nth_error P i with
      | Some (ty, v) => match sized_layout ty with
                        | Some l => let r := v_split_at_byte l v n in Ret (two P i ty (fst r) TRaw (snd r))
                        | None => Ret P
                        end
      | None => Ret P
      end
  | OpSplitToFit i =>
      match nth_error P i with
      | Some (ty, v) => match sized_layout ty with
                        | Some l => olet r := v_split_to_fit l v in Ret (two P i ty (fst r) TRaw (Some (snd r)))
                        | None => Ret P
                        end
      | None => Ret P
      end
  | OpAsMemory i =>
      match nth_error P i with
      | Some (_, v) => Ret (upd_nth i (TRaw, decast v) P)
      | None => Ret P
      end
  end.

(** client of the model: calls in sequence *)
Fixpoint prun (t : target) (P : pool) (os : list uop) : outcome pool :=
  match os with
  | [] => Ret P
  | o :: os' => olet P' := pstep t P o in prun t P' os'
  end.
