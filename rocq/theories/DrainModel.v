(** * DrainModel: a [Drain] (without-alloc/src/fixed_vec.rs:97-116) used step by step, also through its mutable slice.

    FixedVecModel has the fields and the iterator methods of [Drain]; this file adds the remaining methods and a client that makes any
    sequence of calls on one drain. *)
From Verif Require Import Base Spec UninitModel FixedVecModel.

(** fixed_vec.rs:489-497 [as_mut_slice], then indexing of slices (core: bounds check) and core::mem::replace.  Result: the old value. *)
Definition d_replace (l : layout) (h : eheap) (d : drain) (k : Z) (e : elem) : outcome (eheap * option elem) :=
  let base := delements d + dstart d * lsize l in
  oassert k <? d_len d orpanic PN_index ;;
  Ret (h_write l h (base + k * lsize l) e, h_read l h (base + k * lsize l)).

(** fixed_vec.rs:489-497 [as_mut_slice], then [swap] of slices (core) *)
Definition d_swap (l : layout) (h : eheap) (d : drain) (j k : Z) : outcome eheap :=
  let base := delements d + dstart d * lsize l in
  oassert j <? d_len d orpanic PN_index ;;
  oassert k <? d_len d orpanic PN_index ;;
  Ret (h_put l (h_put l h (base + j * lsize l) (h_read l h (base + k * lsize l))) (base + k * lsize l) (h_read l h (base + j * lsize l))).

(** fixed_vec.rs:639-641 [size_hint], with that of core's Range<usize> *)
Definition d_size_hint (d : drain) : Z * option Z :=
  if dstart d <? dend d then (dend d - dstart d, Some (dend d - dstart d)) else (0, Some 0).

Inductive dop :=
| DNext | DNextBack | DSlice
| DLen                                 (* Drain::len, ExactSizeIterator::len (fixed_vec.rs:660-664) *)
| DIsEmpty | DHint
| DReplace (k : Z) (e : elem)          (* mem::replace(&mut drain.as_mut_slice()[k], e) *)
| DSwap (j k : Z).                     (* drain.as_mut_slice().swap(j, k) *)

(** what the calls return *)
Inductive dans (X : Type) :=
| DItem (x : option X) | DItems (xs : list X) | DSize (n : Z) | DBool (b : bool) | DBounds (lo : Z) (hi : option Z) | DOld (x : X)
| DUnit | DPanicked.
Arguments DItem {X}. Arguments DItems {X}. Arguments DSize {X}. Arguments DBool {X}. Arguments DBounds {X}. Arguments DOld {X}.
Arguments DUnit {X}. Arguments DPanicked {X}.

(** One call.  (A caught panic of indexing leaves the drain usable.) *)
Definition dstep (l : layout) (h : eheap) (d : drain) (o : dop) : eheap * drain * dans (option elem) :=
  match o with
  | DNext => let '(d', x) := d_next l h d in (h, d', DItem x)
  | DNextBack => let '(d', x) := d_next_back l h d in (h, d', DItem x)
  | DSlice => (h, d, DItems (d_as_slice l h d))
  | DLen => (h, d, DSize (d_len d))
  | DIsEmpty => (h, d, DBool (d_is_empty d))
  | DHint => (h, d, DBounds (fst (d_size_hint d)) (snd (d_size_hint d)))
  | DReplace k e => match d_replace l h d k e with Ret (h', old) => (h', d, DOld old) | Panic _ => (h, d, DPanicked) end
  | DSwap j k => match d_swap l h d j k with Ret h' => (h', d, DUnit) | Panic _ => (h, d, DPanicked) end
  end.

(** client of the model: calls in sequence *)
Fixpoint drun (l : layout) (h : eheap) (d : drain) (os : list dop) : eheap * drain * list (dans (option elem)) :=
  match os with
  | [] => (h, d, [])
  | o :: os' => let '(h1, d1, r) := dstep l h d o in let '(h2, d2, rs) := drun l h1 d1 os' in (h2, d2, r :: rs)
  end.
