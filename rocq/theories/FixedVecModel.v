(** * FixedVecModel: without-alloc/src/fixed_vec.rs, [FixedVec<T>] and [Drain<T>]

    The storage is an [Uninit<[T]>], for which the functions of UninitModel are used.  Elements are
    identified by an integer; the value of a zero-sized type is 0.  Memory is modelled per slot: the map from
    the address of an element to the element whose bytes were last written there. *)
From Verif Require Import Base Spec UninitModel.

(** model only: an element is a name *)
Definition elem := Z.
(** model only: the elements in memory, by address *)
Definition eheap := Z -> option elem.

(** core::ptr::write of a [T] with layout [l] *)
Definition h_write (l : layout) (h : eheap) (a : Z) (e : elem) : eheap :=
  if lsize l =? 0 then h else fun x => if x =? a then Some e else h x.

(** core::ptr::read; [None] = the slot was never written *)
Definition h_read (l : layout) (h : eheap) (a : Z) : option elem :=
  if lsize l =? 0 then Some 0 else h a.

(** core::ptr::copy of [n] elements of layout [l] (memmove) *)
Definition h_copy (l : layout) (h : eheap) (src dst n : Z) : eheap :=
  if lsize l =? 0 then h
  else fun x => if (dst <=? x) && (x <? dst + n * lsize l) && ((x - dst) mod lsize l =? 0)
                then h (src + (x - dst)) else h x.

(** Destructors: [boom e] says that dropping [e] panics.  Drops are logged in order. *)
Record fworld := MkW { wheap : eheap; wdrops : list (option elem) }.
(** model only: a destructor runs *)
Definition log_drop (w : fworld) (x : option elem) : fworld :=
  {| wheap := wheap w; wdrops := wdrops w ++ [x] |}.
(** model only: does the destructor panic *)
Definition booms (boom : elem -> bool) (x : option elem) : bool :=
  match x with Some e => boom e | None => false end.

(** fixed_vec.rs:92-95 *)
Record fvec := MkFvec { funinit : uview; flen : Z }.

Definition PN_tail : nat := 301.    (* :415 unwrap in head_tail_mut *)
Definition PN_pop : nat := 302.     (* :264 *)
Definition PN_at : nat := 303.      (* :310, :327 `at` out of bounds *)
Definition PN_usplit : nat := 304.  (* :311, :329 *)
Definition PN_bound : nat := 305.   (* :375, :379 n + 1 *)
Definition PN_order : nat := 306.   (* :383 *)
Definition PN_end : nat := 307.     (* :384 *)
Definition PN_fullv : nat := 308.   (* :725 *)
Definition PN_cap : nat := 309.     (* :345 *)

(** Address of the [i]-th element: fixed_vec.rs:421-432 [as_ptr], [as_mut_ptr], [end_mut_ptr] *)
Definition slot (l : layout) (v : fvec) (i : Z) : Z := uptr (funinit v) + i * lsize l.

(** fixed_vec.rs:440-445 [new] *)
Definition f_new (u : uview) : fvec := {| funinit := u; flen := 0 |}.

(** fixed_vec.rs:457-461 [from_unaligned]; the argument is taken by value and made raw memory first *)
Definition f_from_unaligned (t : target) (l : layout) (u : uview) : outcome fvec :=
  olet r := v_split_slice t (decast u) l in
  Ret (f_new (match snd r with Some s => s | None => v_empty l end)).

(** fixed_vec.rs:214-216 [capacity] *)
Definition f_capacity (t : target) (l : layout) (v : fvec) : Z := v_capacity t l (funinit v).

(** model only: 0, ..., n-1 *)
Fixpoint upto (n : nat) : list Z :=
  match n with O => [] | S k => upto k ++ [Z.of_nat k] end.

(** The [n] slots from address [a] *)
Definition read_slots (l : layout) (h : eheap) (a n : Z) : list (option elem) :=
  map (fun i => h_read l h (a + i * lsize l)) (upto (Z.to_nat n)).

(** fixed_vec.rs:173-178, 181-188 [as_slice], [as_mut_slice] and the Deref impls 511-521 *)
Definition f_as_slice (l : layout) (h : eheap) (v : fvec) : list (option elem) :=
  read_slots l h (slot l v 0) (flen v).

Definition PN_index : nat := 310.   (* core: index out of bounds *)

(** A [T] is moved to address [a]; [None] = uninitialised memory *)
Definition h_put (l : layout) (h : eheap) (a : Z) (x : option elem) : eheap :=
  if lsize l =? 0 then h else fun y => if y =? a then x else h y.

(** [mem::replace(&mut vec[k], e)]: fixed_vec.rs:544-546 [index_mut], 518-520 [deref_mut], 181-188 [as_mut_slice], then
    the bounds check of slices and core::mem::replace.  Result: the old value. *)
Definition f_replace (l : layout) (h : eheap) (v : fvec) (k : Z) (e : elem) : outcome (eheap * option elem) :=
  oassert k <? flen v orpanic PN_index ;;
  Ret (h_write l h (slot l v k) e, h_read l h (slot l v k)).

(** [vec.swap(j, k)]: [swap] of slices (core) through fixed_vec.rs:518-520 [deref_mut], 181-188 [as_mut_slice] *)
Definition f_swap (l : layout) (h : eheap) (v : fvec) (j k : Z) : outcome eheap :=
  oassert j <? flen v orpanic PN_index ;;
  oassert k <? flen v orpanic PN_index ;;
  Ret (h_put l (h_put l h (slot l v j) (h_read l h (slot l v k))) (slot l v k) (h_read l h (slot l v j))).

(** fixed_vec.rs:411-417 [head_tail_mut] *)
Definition f_head_tail (t : target) (l : layout) (v : fvec) : outcome (uview * uview) :=
  olet r := v_split_at t l (funinit v) (flen v) in
  match r with
  | (all, Some tail) => Ret (all, tail)
  | (_, None) => Panic PN_tail
  end.

(** fixed_vec.rs:242-256 [push]; [Some e] = Err(e).  The write is [Uninit::init], uninit.rs:315-327. *)
Definition f_push (t : target) (l : layout) (h : eheap) (v : fvec) (e : elem)
  : outcome (eheap * fvec * option elem) :=
  if flen v =? usize_max t then Ret (h, v, Some e)
  else
    olet ht := f_head_tail t l v in
    olet r := v_split_first t l (snd ht) in
    match snd r with
    | None => Ret (h, v, Some e)
    | Some init =>
        Ret (h_write l h (uptr init) e, {| funinit := funinit v; flen := flen v + 1 |}, None)
    end.

(** fixed_vec.rs:259-272 [pop]; the inner option is the content of the slot *)
Definition f_pop (t : target) (l : layout) (h : eheap) (v : fvec) : outcome (fvec * option (option elem)) :=
  if flen v =? 0 then Ret (v, None)
  else
    olet ht := f_head_tail t l v in
    olet r := v_split_last t l (fst ht) in
    olet last := unwrap PN_pop (snd r) in
    Ret ({| funinit := funinit v; flen := flen v - 1 |}, Some (h_read l h (uptr last))).

(** fixed_vec.rs:162-169, the loop of [truncate]: [n] iterations left, [ptr] and [local_len] as in the
    source.  Result: drops, final [local_len], whether a destructor panicked. *)
Fixpoint truncate_loop (boom : elem -> bool) (l : layout) (w : fworld) (n : nat) (ptr local_len : Z)
  : fworld * Z * bool :=
  match n with
  | O => (w, local_len, false)
  | S n' =>
      let local_len := local_len - 1 in
      let ptr := ptr - lsize l in
      let x := h_read l (wheap w) ptr in
      let w := log_drop w x in
      if booms boom x then (w, local_len, true)
      else truncate_loop boom l w n' ptr local_len
  end.

(** fixed_vec.rs:146-170 [truncate]; the length is stored by the guard, also when unwinding *)
Definition f_truncate (boom : elem -> bool) (l : layout) (w : fworld) (v : fvec) (len : Z)
  : fworld * fvec * bool :=
  let '(w', local_len, p) :=
    truncate_loop boom l w (Z.to_nat (flen v - len)) (slot l v (flen v)) (flen v) in
  (w', {| funinit := funinit v; flen := local_len |}, p).

(** fixed_vec.rs:195-197 [clear] *)
Definition f_clear (boom : elem -> bool) (l : layout) (w : fworld) (v : fvec) : fworld * fvec * bool :=
  f_truncate boom l w v 0.

(** fixed_vec.rs:309-318 [split_borrowed]: (self afterwards, the part) *)
Definition f_split_borrowed (t : target) (l : layout) (v : fvec) (at_ : Z) : outcome (fvec * fvec) :=
  oassert (at_ <=? f_capacity t l v) orpanic PN_at ;;
  olet r := v_split_at t l (funinit v) at_ in
  olet new_uninit := unwrap PN_usplit (snd r) in
  let new_len := saturating_sub (flen v) at_ in
  Ret ({| funinit := funinit v; flen := flen v - new_len |}, {| funinit := new_uninit; flen := new_len |}).

(** fixed_vec.rs:326-337 [split_and_shrink_to] *)
Definition f_split_and_shrink (t : target) (l : layout) (v : fvec) (at_ : Z) : outcome (fvec * fvec) :=
  oassert (at_ <=? f_capacity t l v) orpanic PN_at ;;
  olet r := v_split_at t l (funinit v) at_ in
  olet new_uninit := unwrap PN_usplit (snd r) in
  let new_len := saturating_sub (flen v) at_ in
  Ret ({| funinit := fst r; flen := flen v - new_len |}, {| funinit := new_uninit; flen := new_len |}).

(** fixed_vec.rs:466-468 [shrink_to_fit] *)
Definition f_shrink_to_fit (t : target) (l : layout) (v : fvec) : outcome (fvec * uview) :=
  olet r := v_shrink_to_fit t l (funinit v) in
  Ret ({| funinit := fst r; flen := flen v |}, snd r).

(** Iterators given by the caller: arbitrary state machines, whose [next] may also panic. *)
Inductive inext (S : Type) := INone (s : S) | ISome (e : elem) (s : S) | IBoom (s : S).
Arguments INone {S} s.
Arguments ISome {S} e s.
Arguments IBoom {S} s.

(** fixed_vec.rs:347-358, the loop of [fill] over [iter.by_ref().take(unused)].  The flag tells that the
    iterator panicked. *)
Fixpoint fill_loop {S} (next : S -> inext S) (l : layout) (h : eheap) (v : fvec) (unused : nat) (s : S)
  : eheap * fvec * S * bool :=
  match unused with
  | O => (h, v, s, false)
  | Datatypes.S n =>
      match next s with
      | INone s' => (h, v, s', false)
      | IBoom s' => (h, v, s', true)
      | ISome e s' =>
          fill_loop next l (h_write l h (slot l v (flen v)) e) {| funinit := funinit v; flen := flen v + 1 |} n s'
      end
  end.

(** fixed_vec.rs:342-360 [fill]: returns the iterator *)
Definition f_fill {S} (next : S -> inext S) (t : target) (l : layout) (h : eheap) (v : fvec) (s : S)
  : outcome (eheap * fvec * S * bool) :=
  olet unused := op_sub t PN_cap (f_capacity t l v) (flen v) in
  Ret (fill_loop next l h v (Z.to_nat unused) s).

(** fixed_vec.rs:720-728 [extend]: fill, and panic if the returned iterator yields one more item, which is
    then dropped while unwinding. *)
Inductive xres := XOk | XPanic | XFull (spill : elem).
(** fixed_vec.rs:721-728 [extend] *)
Definition f_extend {S} (next : S -> inext S) (t : target) (l : layout) (h : eheap) (v : fvec) (s : S)
  : outcome (eheap * fvec * S * xres) :=
  olet r := f_fill next t l h v s in
  let '(h', v', s', p) := r in
  if p then Ret (h', v', s', XPanic)
  else match next s' with
       | INone s2 => Ret (h', v', s2, XOk)
       | IBoom s2 => Ret (h', v', s2, XPanic)
       | ISome e s2 => Ret (h', v', s2, XFull e)
       end.

(** core::ops::Bound *)
Inductive bound := Included (n : Z) | Excluded (n : Z) | Unbounded.

(** fixed_vec.rs:103-116; [elements] is an address, [len] the length field of the vector *)
Record drain := MkDrain { dstart : Z; dend : Z; dtail : Z; dtail_len : Z; delements : Z }.

(** fixed_vec.rs:369-409 [drain]: the vector (with its length shortened) and the iterator *)
Definition f_drain (t : target) (l : layout) (v : fvec) (lo hi : bound) : outcome (fvec * drain) :=
  let len := flen v in
  olet start := match lo with Included n => Ret n | Excluded n => op_add t PN_bound n 1 | Unbounded => Ret 0 end in
  olet end_ := match hi with Included n => op_add t PN_bound n 1 | Excluded n => Ret n | Unbounded => Ret len end in
  oassert (start <=? end_) orpanic PN_order ;;
  oassert (end_ <=? len) orpanic PN_end ;;
  Ret ({| funinit := funinit v; flen := start |},
       {| dstart := 0; dend := end_ - start; dtail := end_ - start; dtail_len := len - end_;
          delements := slot l v start |}).

(** fixed_vec.rs:500-502 [Drain::len], 505-507 [is_empty], 475-483 [as_slice] *)
Definition d_len (d : drain) : Z := dend d - dstart d.
(** fixed_vec.rs:505-507 [Drain::is_empty] *)
Definition d_is_empty (d : drain) : bool := dstart d =? dend d.
(** fixed_vec.rs:476-483 [Drain::as_slice] *)
Definition d_as_slice (l : layout) (h : eheap) (d : drain) : list (option elem) :=
  read_slots l h (delements d + dstart d * lsize l) (d_len d).

(** fixed_vec.rs:625-637 [next] *)
Definition d_next (l : layout) (h : eheap) (d : drain) : drain * option (option elem) :=
  if d_is_empty d then (d, None)
  else ({| dstart := dstart d + 1; dend := dend d; dtail := dtail d; dtail_len := dtail_len d; delements := delements d |},
        Some (h_read l h (delements d + dstart d * lsize l))).

(** fixed_vec.rs:645-657 [next_back] *)
Definition d_next_back (l : layout) (h : eheap) (d : drain) : drain * option (option elem) :=
  if d_is_empty d then (d, None)
  else ({| dstart := dstart d; dend := dend d - 1; dtail := dtail d; dtail_len := dtail_len d; delements := delements d |},
        Some (h_read l h (delements d + (dend d - 1) * lsize l))).

(** fixed_vec.rs:670 [self.for_each(drop)]; fuel is the number of items left.  The flag tells that a
    destructor panicked. *)
Fixpoint d_drop_loop (boom : elem -> bool) (l : layout) (w : fworld) (d : drain) (fuel : nat) : fworld * drain * bool :=
  match fuel with
  | O => (w, d, false)
  | S n =>
      match d_next l (wheap w) d with
      | (d', None) => (w, d', false)
      | (d', Some x) =>
          let w := log_drop w x in
          if booms boom x then (w, d', true) else d_drop_loop boom l w d' n
      end
  end.

(** fixed_vec.rs:668-681 [Drop for Drain]: world, vector, panicked *)
Definition d_drop (boom : elem -> bool) (l : layout) (w : fworld) (v : fvec) (d : drain) : fworld * fvec * bool :=
  let '(w', d', p) := d_drop_loop boom l w d (Z.to_nat (d_len d)) in
  if p then (w', v, true)
  else if dtail_len d' =? 0 then (w', v, false)
  else ({| wheap := h_copy l (wheap w') (delements d' + dtail d' * lsize l) (delements d') (dtail_len d');
           wdrops := wdrops w' |},
        {| funinit := funinit v; flen := flen v + dtail_len d' |}, false).

(** Drop glue of a slice (core): in order; when one destructor panics the others still run, and a second
    panic aborts the process. *)
Inductive dres := DOk | DPanic | DAbort.
(** core: drop glue of a slice; a second panic aborts *)
Fixpoint drop_slice (boom : elem -> bool) (w : fworld) (xs : list (option elem)) (unwinding : bool) : fworld * dres :=
  match xs with
  | [] => (w, if unwinding then DPanic else DOk)
  | x :: xs' =>
      let w := log_drop w x in
      if booms boom x then (if unwinding then (w, DAbort) else drop_slice boom w xs' true)
      else drop_slice boom w xs' unwinding
  end.

(** fixed_vec.rs:523-529 [Drop for FixedVec] *)
Definition f_drop (boom : elem -> bool) (l : layout) (w : fworld) (v : fvec) : fworld * dres :=
  drop_slice boom w (f_as_slice l (wheap w) v) false.

(** ** A client that owns several vectors of the same element type *)

(** [eparent]: the vector that is borrowed by this one (from [split_borrowed]). *)
Record fentry := MkEntry { evec : fvec; ealive : bool; eparent : option nat }.
(** client of the model *)
Record fstate := MkFstate { fw : fworld; fpool : list fentry }.

(** The borrow checker: a vector can be used while it is alive and no living vector borrows from it. *)
Definition is_child (i : nat) (e : fentry) : bool :=
  ealive e && match eparent e with Some k => Nat.eqb k i | None => false end.
(** model only: vector i exists and is not borrowed by a live one *)
Definition usable (P : list fentry) (i : nat) : bool :=
  match nth_error P i with
  | Some e => ealive e && negb (existsb (is_child i) P)
  | None => false
  end.

Inductive fop :=
| FPush (i : nat) (e : elem)
| FPop (i : nat)
| FTruncate (i : nat) (n : Z)
| FClear (i : nat)
| FFill (i : nat) (items : list elem) (ends_in_panic : bool)
| FExtend (i : nat) (items : list elem) (ends_in_panic : bool)
| FDrain (i : nat) (lo hi : bound) (fronts : list bool) (forget : bool)  (* true = next, false = next_back *)
| FShrink (i : nat)
| FSplitBorrowed (i : nat) (at_ : Z)
| FSplitShrink (i : nat) (at_ : Z)
| FDropVec (i : nat)
| FForgetVec (i : nat)
| FSlice (i : nat)
| FReplace (i : nat) (k : Z) (e : elem)    (* mem::replace(&mut vec[k], e) *)
| FSwap (i : nat) (j k : Z).               (* vec.swap(j, k) *)

Inductive fres (X : Type) :=
| FNone                              (* not allowed by the borrow checker *)
| FOk
| FRejected (e : elem)               (* push: Err(e) *)
| FPopped (x : option X)             (* pop, replace: the value moved out *)
| FRest (rest : list elem) (ok : bool)   (* fill, extend: the iterator's remaining items; false = panicked *)
| FDrained (xs : list (option X)) (ok : bool)  (* answers of next/next_back; false = panic while dropping *)
| FItems (xs : list X)
| FPart (j : nat)                    (* index of the new vector *)
| FPanicked
| FAborted.
Arguments FNone {X}.
Arguments FOk {X}.
Arguments FRejected {X} e.
Arguments FPopped {X} x.
Arguments FRest {X} rest ok.
Arguments FDrained {X} xs ok.
Arguments FItems {X} xs.
Arguments FPart {X} j.
Arguments FPanicked {X}.
Arguments FAborted {X}.

(** [Vec::into_iter]-like iterator, which may end in a panic *)
Definition list_next (ends_in_panic : bool) (s : list elem) : inext (list elem) :=
  match s with
  | [] => if ends_in_panic then IBoom [] else INone []
  | e :: s' => ISome e s'
  end.

(** client of the model: next (true) and next_back in some order *)
Fixpoint d_consume (l : layout) (h : eheap) (d : drain) (fronts : list bool) : drain * list (option (option elem)) :=
  match fronts with
  | [] => (d, [])
  | b :: fs =>
      let '(d', x) := if b then d_next l h d else d_next_back l h d in
      let '(d2, xs) := d_consume l h d' fs in
      (d2, x :: xs)
  end.

(** model only: update of a field *)
Definition put (s : fstate) (w : fworld) (i : nat) (e : fentry) (v : fvec) : fstate :=
  {| fw := w; fpool := upd_nth i {| evec := v; ealive := ealive e; eparent := eparent e |} (fpool s) |}.
(** model only: vector i is gone *)
Definition kill (s : fstate) (w : fworld) (i : nat) (e : fentry) : fstate :=
  {| fw := w; fpool := upd_nth i {| evec := evec e; ealive := false; eparent := eparent e |} (fpool s) |}.

(** model only: update of a field *)
Definition with_heap (w : fworld) (h : eheap) : fworld := {| wheap := h; wdrops := wdrops w |}.

(** model only: the vector called *)
Definition op_index (o : fop) : nat :=
  match o with
  | FPush i _ | FPop i | FTruncate i _ | FClear i | FFill i _ _ | FExtend i _ _ | FDrain i _ _ _ _ | FShrink i
  | FSplitBorrowed i _ | FSplitShrink i _ | FDropVec i | FForgetVec i | FSlice i
  | FReplace i _ _ | FSwap i _ _ => i
  end.

(** One call on a usable vector [e]. *)
Definition fdo (t : target) (l : layout) (boom : elem -> bool) (s : fstate) (e : fentry) (o : fop)
  : fstate * fres (option elem) :=
  let i := op_index o in
  let v := evec e in
  let w := fw s in
  match o with
  | FPush _ x =>
      match f_push t l (wheap w) v x with
      | Panic _ => (s, FPanicked)
      | Ret (h, v', None) => (put s (with_heap w h) i e v', FOk)
      | Ret (h, v', Some x') => (put s (with_heap w h) i e v', FRejected x')
      end
  | FPop _ =>
      match f_pop t l (wheap w) v with
      | Panic _ => (s, FPanicked)
      | Ret (v', x) => (put s w i e v', FPopped x)
      end
  | FTruncate _ n =>
      let '(w', v', p) := f_truncate boom l w v n in (put s w' i e v', if p then FPanicked else FOk)
  | FClear _ =>
      let '(w', v', p) := f_clear boom l w v in (put s w' i e v', if p then FPanicked else FOk)
  | FFill _ items b =>
      match f_fill (list_next b) t l (wheap w) v items with
      | Panic _ => (s, FPanicked)
      | Ret (h, v', rest, p) => (put s (with_heap w h) i e v', FRest rest (negb p))
      end
  | FExtend _ items b =>
      match f_extend (list_next b) t l (wheap w) v items with
      | Panic _ => (s, FPanicked)
      | Ret (h, v', rest, XOk) => (put s (with_heap w h) i e v', FRest rest true)
      | Ret (h, v', rest, XPanic) => (put s (with_heap w h) i e v', FRest rest false)
      | Ret (h, v', rest, XFull spill) =>
          let w' := log_drop (with_heap w h) (Some spill) in
          if boom spill then (put s w' i e v', FAborted) else (put s w' i e v', FRest rest false)
      end
  | FDrain _ lo hi fronts forget =>
      match f_drain t l v lo hi with
      | Panic _ => (s, FPanicked)
      | Ret (v', d) =>
          let '(d', xs) := d_consume l (wheap w) d fronts in
          if forget then (put s w i e v', FDrained xs true)
          else let '(w', v2, p) := d_drop boom l w v' d' in (put s w' i e v2, FDrained xs (negb p))
      end
  | FShrink _ =>
      match f_shrink_to_fit t l v with
      | Panic _ => (s, FPanicked)
      | Ret (v', _) => (put s w i e v', FOk)
      end
  | FSplitBorrowed _ n =>
      match f_split_borrowed t l v n with
      | Panic _ => (s, FPanicked)
      | Ret (v', part) =>
          let s' := put s w i e v' in
          ({| fw := w; fpool := fpool s' ++ [{| evec := part; ealive := true; eparent := Some i |}] |},
           FPart (length (fpool s')))
      end
  | FSplitShrink _ n =>
      match f_split_and_shrink t l v n with
      | Panic _ => (s, FPanicked)
      | Ret (v', part) =>
          let s' := put s w i e v' in
          ({| fw := w; fpool := fpool s' ++ [{| evec := part; ealive := true; eparent := eparent e |}] |},
           FPart (length (fpool s')))
      end
  | FDropVec _ =>
      let '(w', r) := f_drop boom l w v in
      (kill s w' i e, match r with DOk => FOk | DPanic => FPanicked | DAbort => FAborted end)
  | FForgetVec _ => (kill s w i e, FOk)
  | FSlice _ => (s, FItems (f_as_slice l (wheap w) v))
  | FReplace _ k x =>
      match f_replace l (wheap w) v k x with
      | Panic _ => (s, FPanicked)
      | Ret (h, old) => (put s (with_heap w h) i e v, FPopped (Some old))
      end
  | FSwap _ j k =>
      match f_swap l (wheap w) v j k with
      | Panic _ => (s, FPanicked)
      | Ret h => (put s (with_heap w h) i e v, FOk)
      end
  end.

(** a call, unless the vector is gone or borrowed *)
Definition fstep (t : target) (l : layout) (boom : elem -> bool) (s : fstate) (o : fop) : fstate * fres (option elem) :=
  if usable (fpool s) (op_index o) then
    match nth_error (fpool s) (op_index o) with
    | Some e => fdo t l boom s e o
    | None => (s, FNone)
    end
  else (s, FNone).

(** A history; nothing happens after an abort. *)
Fixpoint frun (t : target) (l : layout) (boom : elem -> bool) (s : fstate) (os : list fop)
  : fstate * list (fres (option elem)) :=
  match os with
  | [] => (s, [])
  | o :: os' =>
      match fstep t l boom s o with
      | (s', FAborted) => (s', [FAborted])
      | (s', r) => let '(s2, rs) := frun t l boom s' os' in (s2, r :: rs)
      end
  end.

(** The client starts with one empty vector over the region [u]. *)
Definition finit (h : eheap) (u : uview) : fstate :=
  {| fw := {| wheap := h; wdrops := [] |};
     fpool := [{| evec := f_new u; ealive := true; eparent := None |}] |}.
