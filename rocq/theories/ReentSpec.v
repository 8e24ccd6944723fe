(** * ReentSpec: what the client's code sees and may do during a call. *)
From Verif Require Import Base Spec UninitModel UninitSpec SyncMemModel FixedVecModel FixedVecSpec FixedVecMemModel ReentModel.

(** Destructors called one after the other on the values [xs], up to and including the first that does not
    return normally: the world afterwards, the number of calls, and how the last ended. *)
Fixpoint drop_each {C} (dt : dtor C) (unwinding : bool) (xs : list (option Z * bval)) (w : rworld C) : rworld C * Z * dres :=
  match xs with
  | [] => (w, 0, DOk)
  | (p, x) :: xs' =>
      match dt unwinding p x w with
      | (w', DOk) => let '(w2, k, r) := drop_each dt unwinding xs' w' in (w2, k + 1, r)
      | (w', DPanic) => (w', 1, if unwinding then DAbort else DPanic)
      | (w', DAbort) => (w', 1, DAbort)
      end
  end.

(** All of them, the rest while unwinding if one panics; a second panic ends the process. *)
Definition drop_all {C} (dt : dtor C) (unwinding : bool) (xs : list (option Z * bval)) (w : rworld C) : rworld C * Z * dres :=
  match drop_each dt unwinding xs w with
  | (w1, k, DPanic) =>
      match drop_each dt true (skip k xs) w1 with
      | (w2, k2, DOk) => (w2, k + k2, DPanic)
      | (w2, k2, r) => (w2, k + k2, r)
      end
  | r => r
  end.

(** The values [xs] of an array at [a], with the places where they are. *)
Definition at_places (l : layout) (a : Z) (xs : list bval) : list (option Z * bval) :=
  combine (map (fun i => Some (a + i * lsize l)) (upto (length xs))) xs.
(** Values in local variables. *)
Definition as_locals (xs : list bval) : list (option Z * bval) := map (fun x => (None, x)) xs.

(** A vector over valid memory. *)
Definition vec_wf (t : target) (l : layout) (v : fvec) : Prop :=
  wf_view t (TSlice l) (funinit v) /\ 0 <= flen v <= f_capacity t l v.

(** The destructor, called on one of the values [xs], leaves the memory [U] alone, except for the value itself.
    [I]: what the client's own code relies on and maintains. *)
Definition respects {C} (I : rworld C -> Prop) (dt : dtor C) (l : layout) (U : block) (xs : list bval) : Prop :=
  forall unwinding p x w, I w -> In x xs ->
    I (fst (dt unwinding p x w)) /\
    forall y, in_block U y -> (forall a, p = Some a -> ~ in_block (MkBlock a (lsize l)) y) ->
      rmem (fst (dt unwinding p x w)) y = rmem w y.

(** Worlds that differ at most in the memory [U]. *)
Definition same_but {C} (U : block) (w w' : rworld C) : Prop :=
  rcl w' = rcl w /\ forall y, ~ in_block U y -> rmem w' y = rmem w y.

(** The client's code neither reads nor changes the memory [U]. *)
Definition apart {C A} (I : rworld C -> Prop) (U : block) (f : rworld C -> rworld C * A) : Prop :=
  (forall w w', I w -> same_but U w w' -> same_but U (fst (f w)) (fst (f w')) /\ snd (f w') = snd (f w)) /\
  (forall w, I w -> I (fst (f w)) /\ forall y, in_block U y -> rmem (fst (f w)) y = rmem w y).
Definition stable {C} (U : block) (I : rworld C -> Prop) : Prop := forall w w', same_but U w w' -> I w -> I w'.

(** How asking an iterator for at most [n] items ends: enough items, no more items, or a panic. *)
Inductive asked := Enough | NoMore | Panics | Aborts.
Fixpoint ask {C} (next : rnext C) (unwinding : bool) (n : nat) (w : rworld C) : rworld C * list bval * asked :=
  match n with
  | O => (w, [], Enough)
  | S n' =>
      match next unwinding w with
      | (w', INone) => (w', [], NoMore)
      | (w', ISome x) => let '(w2, xs, how) := ask next unwinding n' w' in (w2, x :: xs, how)
      | (w', IPanic) => (w', [], Panics)
      | (w', IAbort) => (w', [], Aborts)
      end
  end.

(** The items of the iterator are values of type T. *)
Definition items_of_size {C} (I : rworld C -> Prop) (next : rnext C) (l : layout) : Prop :=
  forall unwinding w x, I w -> snd (next unwinding w) = ISome x -> Z.of_nat (length x) = lsize l.

(** What a panic of the iterator does: the iterator is dropped. *)
Definition after_panic {C} (close : rclose C) (unwinding : bool) (w : rworld C) : rworld C * dres :=
  if unwinding then (w, DAbort)
  else let '(w', r) := close true w in (w', match r with DOk => DPanic | _ => DAbort end).

(** [fill] with room for [n] items: the items stored, and how it ends. *)
Definition filled {C} (next : rnext C) (close : rclose C) (unwinding : bool) (n : nat) (w : rworld C) : rworld C * list bval * dres :=
  let '(w1, items, how) := ask next unwinding n w in
  match how with
  | Enough | NoMore => (w1, items, DOk)
  | Panics => let '(w2, r) := after_panic close unwinding w1 in (w2, items, r)
  | Aborts => (w1, items, DAbort)
  end.

(** [extend] with room for [n] items: it asks once more; an item too many is dropped, then the iterator. *)
Definition extended {C} (dt : dtor C) (next : rnext C) (close : rclose C) (unwinding : bool) (n : nat) (w : rworld C)
  : rworld C * list bval * dres :=
  match filled next close unwinding n w with
  | (w1, items, DOk) =>
      let '(w2, one) := next unwinding w1 in
      let '(w3, r) :=
        match one with
        | INone => let '(w3, r) := close unwinding w2 in (w3, match r with DPanic => if unwinding then DAbort else DPanic | _ => r end)
        | ISome x =>
            if unwinding then (w2, DAbort)
            else match dt true None x w2 with
                 | (w3, DOk) => after_panic close false w3
                 | (w3, _) => (w3, DAbort)
                 end
        | IPanic => after_panic close unwinding w2
        | IAbort => (w2, DAbort)
        end in
      (w3, items, r)
  | r => r
  end.
