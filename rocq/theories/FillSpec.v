(** * FillSpec *)
From Verif Require Import Base FillModel.

(** [pulls next s items s' how]: starting in [s], the iterator gives [items] one after the other and is then in state [s'];
    [how] tells whether the last call of [next] gave nothing or panicked, or it was not called again. *)
Inductive stop := NotAsked | GaveNone | Panicked.
Inductive pulls {A S} (next : S -> inx A S) : S -> list A -> S -> stop -> Prop :=
| p_not_asked s : pulls next s [] s NotAsked
| p_none s s' : next s = NNone s' -> pulls next s [] s' GaveNone
| p_panic s s' : next s = NBoom s' -> pulls next s [] s' Panicked
| p_item s a s1 items s' how : next s = NSome a s1 -> pulls next s1 items s' how -> pulls next s (a :: items) s' how.

Definition end_of (how : stop) : fend := match how with Panicked => FBoom | _ => FEnd end.

Definition len {A} (xs : list A) : Z := Z.of_nat (length xs).
Definition take {A} (n : Z) (xs : list A) : list A := firstn (Z.to_nat n) xs.
Definition skip {A} (n : Z) (xs : list A) : list A := skipn (Z.to_nat n) xs.

(** What the documentation calls a well-behaved container, for containers satisfying [ok] with place for [room c] more items;
    [put c items] is the container after inserting [items] in order.
    It asks for items only while there is room, inserts all it gets and stops at the first None or panic. *)
Record well_behaved {C A} (f : filler C A) (ok : C -> Prop) (room : C -> Z) (put : C -> list A -> C) : Prop := {
  wb_room : forall c, ok c -> 0 <= room c;
  wb_put_nil : forall c, ok c -> put c [] = c;
  wb_put_app : forall c xs ys, ok c -> len (xs ++ ys) <= room c -> put c (xs ++ ys) = put (put c xs) ys;
  wb_put_room : forall c xs, ok c -> len xs <= room c -> ok (put c xs) /\ room (put c xs) = room c - len xs;
  wb_fill : forall S (next : S -> inx A S) fuel c s, ok c -> (2 <= fuel)%nat ->
    exists items s' how, pulls next s items s' how /\ fill f next fuel c s = (put c items, s', end_of how) /\
      match how with NotAsked => len items = room c | _ => len items < room c end }.

(** The containers. *)
Definition svec_ok {A} (v : svec A) : Prop := len (svitems v) <= svcap v.
Definition svec_room {A} (v : svec A) : Z := svcap v - len (svitems v).
Definition svec_put {A} (v : svec A) (xs : list A) : svec A := MkSvec (svcap v) (svitems v ++ xs) (svmoves v).

Definition opt_room {A} (o : option A) : Z := match o with None => 1 | Some _ => 0 end.
Definition opt_put {A} (o : option A) (xs : list A) : option A := match o, xs with None, x :: _ => Some x | _, _ => o end.

(** The first slots get the items, the old values are dropped, the others are untouched *)
Definition imut_room {A} (c : imut A) : Z := len (mtodo c).
Definition imut_put {A} (c : imut A) (xs : list A) : imut A :=
  MkImut (mbefore c ++ xs) (skip (len xs) (mtodo c)) (mafter c) (mdropped c ++ take (len xs) (mtodo c)).

(** [Result]: the items up to the first Err *)
Fixpoint oks {A E} (xs : list (A + E)) : list A * option E :=
  match xs with
  | [] => ([], None)
  | inl a :: xs => let (r, e) := oks xs in (a :: r, e)
  | inr e :: _ => ([], Some e)
  end.

(** Iterators over lists; an iterator that gives Ok items for ever *)
Definition list_next {A} (l : list A) : inx A (list A) := match l with [] => NNone [] | x :: l => NSome x l end.
Definition calls {A} (items : list A) (how : stop) : Z := len items + match how with NotAsked => 0 | _ => 1 end.

(** [n] calls of next: the answers (a panic, None, an item) and the state *)
Inductive reply (A : Type) := RBoom | RNone | RSome (a : A).
Arguments RBoom {A}. Arguments RNone {A}. Arguments RSome {A}.
Fixpoint asks {A S} (next : S -> inx A S) (n : nat) (s : S) : list (reply A) * S :=
  match n with
  | O => ([], s)
  | S n => match next s with
           | NNone s' => let (r, s2) := asks next n s' in (RNone :: r, s2)
           | NSome a s' => let (r, s2) := asks next n s' in (RSome a :: r, s2)
           | NBoom s' => let (r, s2) := asks next n s' in (RBoom :: r, s2)
           end
  end.
(** ... of an iterator that is not asked again once it gave None; [true] if it did not *)
Fixpoint asks_once {A S} (next : S -> inx A S) (n : nat) (s : S) : list (reply A) * S * bool :=
  match n with
  | O => ([], s, true)
  | S m => match next s with
           | NNone s' => (repeat RNone n, s', false)
           | NSome a s' => let '(r, s2, o) := asks_once next m s' in (RSome a :: r, s2, o)
           | NBoom s' => let '(r, s2, o) := asks_once next m s' in (RBoom :: r, s2, o)
           end
  end.
