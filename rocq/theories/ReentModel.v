(** * ReentModel: without-alloc/src/fixed_vec.rs and boxed.rs while destructors and iterators have effects.

    In [FixedVecMemModel] a destructor is only logged and an iterator is a list of items.  Here they are
    arbitrary code of the client: they run in the middle of a call, with the whole memory and a state [C] of
    their own, and may panic or end the process.  Memory is bytes, as in FixedVecMemModel. *)
From Verif Require Import Base Spec UninitModel SyncMemModel FixedVecModel FixedVecMemModel.

(** Everything in the program: the state of the client's code and memory *)
Record rworld (C : Type) := MkRW { rcl : C; rmem : mem }.
Arguments MkRW {C} _ _.
Arguments rcl {C} _.
Arguments rmem {C} _.

(** client of the model: the destructor of T (drop glue included).  Arguments: whether the thread is unwinding,
    the address of the value ([None]: a local variable of the caller), its bytes. *)
Definition dtor (C : Type) := bool -> option Z -> bval -> rworld C -> rworld C * dres.

(** client of the model: Iterator::next, and what it does *)
Inductive ires := INone | ISome (x : bval) | IPanic | IAbort.
(** client of the model: Iterator::next *)
Definition rnext (C : Type) := bool -> rworld C -> rworld C * ires.
(** client of the model: the destructor of the iterator *)
Definition rclose (C : Type) := bool -> rworld C -> rworld C * dres.

(** core: a panic that starts or arrives while the thread unwinds ends the process *)
Definition raise (unwinding : bool) : dres := if unwinding then DAbort else DPanic.
(** core: call of a destructor *)
Definition invoke {C} (dt : dtor C) (unwinding : bool) (at_ : option Z) (x : bval) (w : rworld C) : rworld C * dres :=
  let '(w', r) := dt unwinding at_ x w in
  (w', match r with DPanic => raise unwinding | _ => r end).
(** core::ptr::drop_in_place of one T at address [a] *)
Definition drop_in_place {C} (dt : dtor C) (unwinding : bool) (l : layout) (a : Z) (w : rworld C) : rworld C * dres :=
  invoke dt unwinding (Some a) (b_read l (rmem w) a) w.

(** fixed_vec.rs:162-169, the loop of [truncate].  The length of the vector is [local_len] (:147-156) when
    the loop ends, normally or by a panic. *)
Fixpoint r_truncate_loop {C} (dt : dtor C) (unwinding : bool) (l : layout) (w : rworld C) (n : nat) (ptr local_len : Z)
  : rworld C * Z * dres :=
  match n with
  | O => (w, local_len, DOk)
  | S n' =>
      let local_len := local_len - 1 in
      let ptr := ptr - lsize l in
      match drop_in_place dt unwinding l ptr w with
      | (w', DOk) => r_truncate_loop dt unwinding l w' n' ptr local_len
      | (w', r) => (w', local_len, r)
      end
  end.

(** fixed_vec.rs:146-170 [truncate] *)
Definition r_truncate {C} (dt : dtor C) (unwinding : bool) (l : layout) (w : rworld C) (v : fvec) (len : Z) : rworld C * fvec * dres :=
  let '(w', local_len, r) := r_truncate_loop dt unwinding l w (Z.to_nat (flen v - len)) (slot l v (flen v)) (flen v) in
  (w', {| funinit := funinit v; flen := local_len |}, r).
(** fixed_vec.rs:195-197 [clear] *)
Definition r_clear {C} (dt : dtor C) (unwinding : bool) (l : layout) (w : rworld C) (v : fvec) : rworld C * fvec * dres :=
  r_truncate dt unwinding l w v 0.

(** core::ptr::drop_in_place of a slice of [n] elements at [a]: after a panic the others are dropped while
    unwinding *)
Fixpoint r_drop_slice {C} (dt : dtor C) (unwinding : bool) (l : layout) (w : rworld C) (a : Z) (n : nat) (panicked : bool)
  : rworld C * dres :=
  match n with
  | O => (w, if panicked then DPanic else DOk)
  | S n' =>
      match drop_in_place dt (unwinding || panicked) l a w with
      | (w', DOk) => r_drop_slice dt unwinding l w' (a + lsize l) n' panicked
      | (w', DPanic) => r_drop_slice dt unwinding l w' (a + lsize l) n' true
      | (w', DAbort) => (w', DAbort)
      end
  end.

(** fixed_vec.rs:523-529 [Drop for FixedVec]: drop_in_place of [as_mut_slice], 181-188 *)
Definition r_drop {C} (dt : dtor C) (unwinding : bool) (l : layout) (w : rworld C) (v : fvec) : rworld C * dres :=
  r_drop_slice dt unwinding l w (slot l v 0) (Z.to_nat (flen v)) false.

(** boxed.rs:157-163 [Drop for Box] of the value at [a] *)
Definition r_box_drop {C} (dt : dtor C) (unwinding : bool) (l : layout) (w : rworld C) (a : Z) : rworld C * dres :=
  drop_in_place dt unwinding l a w.

(** fixed_vec.rs:669 [self.for_each(drop)], with [next] 625-637; fuel is the number of items left *)
Fixpoint r_drain_loop {C} (dt : dtor C) (unwinding : bool) (l : layout) (w : rworld C) (d : drain) (fuel : nat)
  : rworld C * drain * dres :=
  match fuel with
  | O => (w, d, DOk)
  | S n =>
      match yd_next l (rmem w) d with
      | (d', None) => (w, d', DOk)
      | (d', Some x) =>
          match invoke dt unwinding None x w with
          | (w', DOk) => r_drain_loop dt unwinding l w' d' n
          | (w', r) => (w', d', r)
          end
      end
  end.

(** fixed_vec.rs:667-681 [Drop for Drain]; the vector is [v] *)
Definition r_drain_drop {C} (dt : dtor C) (unwinding : bool) (l : layout) (w : rworld C) (v : fvec) (d : drain)
  : rworld C * fvec * dres :=
  match r_drain_loop dt unwinding l w d (Z.to_nat (d_len d)) with
  | (w', d', DOk) =>
      if dtail_len d' =? 0 then (w', v, DOk)
      else (MkRW (rcl w') (mem_copy (rmem w') (delements d' + dtail d' * lsize l) (delements d') (dtail_len d' * lsize l)),
            {| funinit := funinit v; flen := flen v + dtail_len d' |}, DOk)
  | (w', _, r) => (w', v, r)
  end.

(** a panic of the client's [next], or in the loop over the iterator: the iterator is dropped while unwinding *)
Definition r_unwind_iter {C} (close : rclose C) (unwinding : bool) (w : rworld C) : rworld C * dres :=
  if unwinding then (w, DAbort)
  else match close true w with
       | (w', DOk) => (w', DPanic)
       | (w', _) => (w', DAbort)
       end.

(** fixed_vec.rs:347-358, the loop of [fill] over [iter.by_ref().take(unused)] *)
Fixpoint r_fill_loop {C} (next : rnext C) (close : rclose C) (unwinding : bool) (l : layout) (w : rworld C) (v : fvec) (unused : nat)
  : rworld C * fvec * dres :=
  match unused with
  | O => (w, v, DOk)
  | S n =>
      match next unwinding w with
      | (w', INone) => (w', v, DOk)
      | (w', ISome x) =>
          r_fill_loop next close unwinding l (MkRW (rcl w') (mem_write (rmem w') (slot l v (flen v)) x))
            {| funinit := funinit v; flen := flen v + 1 |} n
      | (w', IPanic) => let '(w2, r) := r_unwind_iter close unwinding w' in (w2, v, r)
      | (w', IAbort) => (w', v, DAbort)
      end
  end.

(** fixed_vec.rs:342-360 [fill]; after [DOk] the caller has the iterator *)
Definition r_fill {C} (next : rnext C) (close : rclose C) (unwinding : bool) (t : target) (l : layout) (w : rworld C) (v : fvec)
  : outcome (rworld C * fvec * dres) :=
  olet unused := op_sub t PN_cap (f_capacity t l v) (flen v) in
  Ret (r_fill_loop next close unwinding l w v (Z.to_nat unused)).

(** fixed_vec.rs:720-728 [extend]: one more item makes it panic; unwinding drops this item, then the iterator.
    In the end the iterator is dropped. *)
Definition r_extend {C} (dt : dtor C) (next : rnext C) (close : rclose C) (unwinding : bool) (t : target) (l : layout)
  (w : rworld C) (v : fvec) : outcome (rworld C * fvec * dres) :=
  olet f := r_fill next close unwinding t l w v in
  match f with
  | (w1, v1, DOk) =>
      Ret match next unwinding w1 with
          | (w2, INone) => let '(w3, r) := close unwinding w2 in (w3, v1, match r with DPanic => raise unwinding | _ => r end)
          | (w2, ISome x) =>
              if unwinding then (w2, v1, DAbort)
              else match invoke dt true None x w2 with
                   | (w3, DOk) => let '(w4, r) := r_unwind_iter close false w3 in (w4, v1, r)
                   | (w3, _) => (w3, v1, DAbort)
                   end
          | (w2, IPanic) => let '(w3, r) := r_unwind_iter close unwinding w2 in (w3, v1, r)
          | (w2, IAbort) => (w2, v1, DAbort)
          end
  | (w1, v1, r) => Ret (w1, v1, r)
  end.
