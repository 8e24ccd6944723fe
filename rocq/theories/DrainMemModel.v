(** * DrainMemModel: a [Drain] on bytes, used step by step (as DrainModel, with the memory of FixedVecMemModel). *)
From Verif Require Import Base Spec UninitModel SyncMemModel FixedVecModel FixedVecMemModel DrainModel.

(** fixed_vec.rs:489-497 [as_mut_slice], then indexing of slices (core: bounds check) and core::mem::replace.  Result: the old value. *)
Definition yd_replace (l : layout) (m : mem) (d : drain) (k : Z) (e : bval) : outcome (mem * bval) :=
  let base := delements d + dstart d * lsize l in
  oassert k <? d_len d orpanic PN_index ;;
  Ret (mem_write m (base + k * lsize l) e, b_read l m (base + k * lsize l)).

(** fixed_vec.rs:489-497 [as_mut_slice], then [swap] of slices (core) *)
Definition yd_swap (l : layout) (m : mem) (d : drain) (j k : Z) : outcome mem :=
  let base := delements d + dstart d * lsize l in
  oassert j <? d_len d orpanic PN_index ;;
  oassert k <? d_len d orpanic PN_index ;;
  Ret (mem_write (mem_write m (base + j * lsize l) (b_read l m (base + k * lsize l))) (base + k * lsize l) (b_read l m (base + j * lsize l))).

(** the calls on a Drain: fixed_vec.rs:474-508, 622-663 *)
Inductive ydop := YDNext | YDNextBack | YDSlice | YDLen | YDIsEmpty | YDHint | YDReplace (k : Z) (e : bval) | YDSwap (j k : Z).

(** the calls, through the functions cited above *)
Definition ydstep (l : layout) (m : mem) (d : drain) (o : ydop) : mem * drain * dans bval :=
  match o with
  | YDNext => let '(d', x) := yd_next l m d in (m, d', DItem x)
  | YDNextBack => let '(d', x) := yd_next_back l m d in (m, d', DItem x)
  | YDSlice => (m, d, DItems (yd_as_slice l m d))
  | YDLen => (m, d, DSize (d_len d))
  | YDIsEmpty => (m, d, DBool (d_is_empty d))
  | YDHint => (m, d, DBounds (fst (d_size_hint d)) (snd (d_size_hint d)))
  | YDReplace k e => match yd_replace l m d k e with Ret (m', old) => (m', d, DOld old) | Panic _ => (m, d, DPanicked) end
  | YDSwap j k => match yd_swap l m d j k with Ret m' => (m', d, DUnit) | Panic _ => (m, d, DPanicked) end
  end.

(** client of the model: calls in sequence *)
Fixpoint ydrun (l : layout) (m : mem) (d : drain) (os : list ydop) : mem * drain * list (dans bval) :=
  match os with
  | [] => (m, d, [])
  | o :: os' => let '(m1, d1, r) := ydstep l m d o in let '(m2, d2, rs) := ydrun l m1 d1 os' in (m2, d2, r :: rs)
  end.
