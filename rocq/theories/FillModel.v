(** * FillModel: fill/src/fill.rs. *)
From Verif Require Import Base.

(** Iterators: arbitrary state machines, whose [next] may give an item, nothing (also more than once, and items again
    afterwards), or panic. *)
Inductive inx (A S : Type) := NNone (s : S) | NSome (a : A) (s : S) | NBoom (s : S).
Arguments NNone {A S} s.
Arguments NSome {A S} a s.
Arguments NBoom {A S} s.

(** How a call of [fill] ends: it returns, it panics, or it has not returned after [fuel] rounds of its loop. *)
Inductive fend := FEnd | FBoom | FMore.

(** fill.rs:17-23 the trait: the implementation of [fill] for containers [C] and items [A] works for every iterator. *)
Record filler (C A : Type) := MkFiller { fill : forall S : Type, (S -> inx A S) -> nat -> C -> S -> C * S * fend }.
Arguments MkFiller {C A} _.
Arguments fill {C A} _ {S} _ _ _ _.

(** fill.rs:29-35 [fill_and_keep_tail]: the iterator is passed by reference and returned *)
Definition fill_and_keep_tail {C A} (f : filler C A) {S} (next : S -> inx A S) (fuel : nat) (c : C) (s : S) : C * S * fend :=
  fill f next fuel c s.

Definition PF_count : nat := 701.   (* fill.rs:58 overflow of count += 1 *)

(** fill.rs:54-60: [iter.inspect(|_| count += 1)] *)
Definition inspect_next (t : target) {A S} (next : S -> inx A S) (cs : Z * S) : inx A (Z * S) :=
  let (count, s) := cs in
  match next s with
  | NNone s' => NNone (count, s')
  | NBoom s' => NBoom (count, s')
  | NSome a s' => match op_add t PF_count count 1 with Ret n => NSome a (n, s') | Panic _ => NBoom (count, s') end
  end.
(** [fill_count]: container, the iterator (which the code drops), count *)
Definition fill_count (t : target) {C A} (f : filler C A) {S} (next : S -> inx A S) (fuel : nat) (c : C) (s : S) : C * S * Z * fend :=
  let '(c', (n, s'), e) := fill f (inspect_next t next) fuel c (0, s) in (c', s', n, e).

(** core::iter::Fuse over a [&mut I] *)
Definition fuse_next {A S} (next : S -> inx A S) (fs : bool * S) : inx A (bool * S) :=
  let (done, s) := fs in
  if done then NNone (true, s)
  else match next s with
       | NNone s' => NNone (true, s')
       | NSome a s' => NSome a (false, s')
       | NBoom s' => NBoom (false, s')
       end.
(** fill.rs:92-104 [Overflow] *)
Definition overflow_next {A S} (next : S -> inx A S) (os : bool * S) : inx A (bool * S) :=
  let (overflow, s) := os in
  match next s with
  | NNone s' => NNone (overflow && false, s')
  | NSome a s' => NSome a (overflow && true, s')
  | NBoom s' => NBoom (overflow, s')
  end.
(** fill.rs:89-114 [checked_fill]: container, the iterator, and whether it is returned (else it is dropped) *)
Definition checked_fill {C A} (f : filler C A) {S} (next : S -> inx A S) (fuel : nat) (c : C) (s : S) : C * S * bool * fend :=
  let '(c', (overflow, (done, s')), e) := fill_and_keep_tail f (overflow_next (fuse_next next)) fuel c (true, (false, s)) in
  (c', s', overflow, e).

(** The standard vector and queue: contents, capacity, number of reallocations. *)
Record svec (A : Type) := MkSvec { svcap : Z; svitems : list A; svmoves : Z }.
Arguments MkSvec {A}. Arguments svcap {A}. Arguments svitems {A}. Arguments svmoves {A}.

(** Vec::push and VecDeque::push_back: reallocate if full *)
Definition spush {A} (v : svec A) (a : A) : svec A :=
  if Z.of_nat (length (svitems v)) <? svcap v then MkSvec (svcap v) (svitems v ++ [a]) (svmoves v)
  else MkSvec (2 * svcap v + 1) (svitems v ++ [a]) (svmoves v + 1).

(** [for item in iter.take(n) { self.push(item) }]; [Take] does not call [next] once [n] is 0 *)
Fixpoint push_loop {A S} (push : svec A -> A -> svec A) (next : S -> inx A S) (n : nat) (v : svec A) (s : S) : svec A * S * fend :=
  match n with
  | O => (v, s, FEnd)
  | Datatypes.S n =>
      match next s with
      | NNone s' => (v, s', FEnd)
      | NBoom s' => (v, s', FBoom)
      | NSome a s' => push_loop push next n (push v a) s'
      end
  end.

(** fill.rs:119-127 Vec *)
Definition vec_filler {A} : filler (svec A) A :=
  MkFiller (fun S next fuel v s => push_loop spush next (Z.to_nat (svcap v - Z.of_nat (length (svitems v)))) v s).
(** fill.rs:131-139 VecDeque *)
Definition deque_filler {A} : filler (svec A) A :=
  MkFiller (fun S next fuel v s => push_loop spush next (Z.to_nat (svcap v - Z.of_nat (length (svitems v)))) v s).

(** fill.rs:142-148 (): [for () in iter {}] *)
Fixpoint unit_loop {S} (next : S -> inx unit S) (fuel : nat) (s : S) : S * fend :=
  match fuel with
  | O => (s, FMore)
  | Datatypes.S n => match next s with
                     | NNone s' => (s', FEnd)
                     | NBoom s' => (s', FBoom)
                     | NSome tt s' => unit_loop next n s'
                     end
  end.
(** fill.rs:142-148 *)
Definition unit_filler : filler unit unit := MkFiller (fun S next fuel u s => let (s', e) := unit_loop next fuel s in (u, s', e)).

(** fill.rs:154-164 Option *)
Definition option_filler {A} : filler (option A) A :=
  MkFiller (fun S next fuel o s =>
    match o with
    | Some x => (Some x, s, FEnd)
    | None => match next s with
              | NNone s' => (None, s', FEnd)
              | NSome a s' => (Some a, s', FEnd)
              | NBoom s' => (None, s', FBoom)
              end
    end).

(** core::iter::once *)
Definition once_next {A} (o : option A) : inx A (option A) :=
  match o with None => NNone None | Some a => NSome a None end.

(** fill.rs:179-191, the loop of Result over the container in Ok; [inr e]: left with an error *)
Fixpoint result_loop {C A E S} (inner : filler C A) (next : S -> inx (A + E) S) (fuel n : nat) (c : C) (s : S) : (C + E) * S * fend :=
  match n with
  | O => (inl c, s, FMore)
  | Datatypes.S n =>
      match next s with
      | NNone s' => (inl c, s', FEnd)
      | NBoom s' => (inl c, s', FBoom)
      | NSome (inr e) s' => (inr e, s', FEnd)
      | NSome (inl a) s' =>
          match fill inner once_next fuel c (Some a) with
          | (c', _, FEnd) => result_loop inner next fuel n c' s'
          | (c', _, e) => (inl c', s', e)
          end
      end
  end.
(** fill.rs:169-194 Result *)
Definition result_filler {C A} (E : Type) (inner : filler C A) : filler (C + E) (A + E) :=
  MkFiller (fun S next fuel r s =>
    match r with
    | inr e => (inr e, s, FEnd)
    | inl c => result_loop inner next fuel fuel c s
    end).

(** slice::IterMut over the part [mtodo] of a slice; [mbefore] and [mafter] are the parts that it has given out from the two
    ends; [mdropped] the old values dropped by assignments. *)
Record imut (A : Type) := MkImut { mbefore : list A; mtodo : list A; mafter : list A; mdropped : list A }.
Arguments MkImut {A}. Arguments mbefore {A}. Arguments mtodo {A}. Arguments mafter {A}. Arguments mdropped {A}.

(** fill.rs:197-211; the loop decreases the length of the IterMut *)
Fixpoint imut_loop {A S} (next : S -> inx A S) (n : nat) (c : imut A) (s : S) : imut A * S * fend :=
  match n with
  | O => (c, s, FEnd)
  | Datatypes.S n =>
      match next s with
      | NNone s' => (c, s', FEnd)
      | NBoom s' => (c, s', FBoom)
      | NSome a s' =>
          match mtodo c with
          | [] => (c, s', FBoom)                       (* unwrap of None *)
          | old :: todo => imut_loop next n (MkImut (mbefore c ++ [a]) todo (mafter c) (mdropped c ++ [old])) s'
          end
      end
  end.
(** fill.rs:197-211 *)
Definition imut_filler {A} : filler (imut A) A := MkFiller (fun S next fuel c s => imut_loop next (length (mtodo c)) c s).

(** fill.rs:214-228, items are references: positions in some other memory [others] *)
Fixpoint put_nth {A} (i : nat) (x : A) (l : list A) : list A :=
  match l, i with [], _ => [] | _ :: l, O => x :: l | y :: l, Datatypes.S i => y :: put_nth i x l end.
Fixpoint swap_loop {A S} (next : S -> inx nat S) (n : nat) (c : imut A * list A) (s : S) : (imut A * list A) * S * fend :=
  match n with
  | O => (c, s, FEnd)
  | Datatypes.S n =>
      match next s with
      | NNone s' => (c, s', FEnd)
      | NBoom s' => (c, s', FBoom)
      | NSome i s' =>
          let (k, others) := c in
          match mtodo k, nth_error others i with
          | old :: todo, Some x => swap_loop next n (MkImut (mbefore k ++ [x]) todo (mafter k) (mdropped k), put_nth i old others) s'
          | _, _ => (c, s', FBoom)                     (* unwrap of None; references are valid *)
          end
      end
  end.
(** fill.rs:214-228 *)
Definition swap_filler {A} : filler (imut A * list A) nat := MkFiller (fun S next fuel c s => swap_loop next (length (mtodo (fst c))) c s).
