(** * OwnRefSpec: owners as independent cells, without memory.

    The reference for [without_alloc::Box] and [static_alloc::leaked::LeakBox]: every owner is a cell that has its value
    itself.  A call looks at and changes one cell only. *)
From Verif Require Import Base Spec SyncMemModel UninitModel UninitSpec OwnModel OwnSpec.

(** [cval] is the value of a cell whose kind has one.  [caddr], [clen]: the memory given to it, for casts. *)
Record cell := MkCell { ckind : okind; cval : list (option Z); clay : layout; csized : bool; caddr : Z; clen : Z }.

Definition as_kind (c : cell) (k : okind) : cell := MkCell k (cval c) (clay c) (csized c) (caddr c) (clen c).
Definition with_new (c : cell) (k : okind) (bs : list (option Z)) : cell := MkCell k bs (clay c) (csized c) (caddr c) (clen c).
Definition as_unsized (c : cell) : cell := MkCell (ckind c) (cval c) (clay c) false (caddr c) (clen c).
Definition as_type (c : cell) (l : layout) : cell := MkCell (ckind c) (cval c) l true (caddr c) (clen c).

(** A coercion is accepted if it attaches one word of metadata and, where that is checked, does not move. *)
Definition coercion_ok (t : target) (d : Z) (ws : list Z) : bool :=
  Nat.eqb (length ws) 1 && (negb (debug t) || (d =? 0)).

(** One call: the cell afterwards, what happened to values, the answer. *)
Definition cell_step (t : target) (c : cell) (o : oop) : cell * list oevent * oanswer :=
  let v := cval c in
  let bad := (c, [], OAInvalid) in
  let move k := (as_kind c k, [], OADone) in
  let put k bs := if csized c && (Z.of_nat (length bs) =? lsize (clay c)) then (with_new c k bs, [OPut bs], OADone) else bad in
  let take k := if csized c then (as_kind c k, [OTook v], OABytes v) else bad in
  match o, ckind c with
  | ONew bs, OUninit => put OBox bs
  | OLNew bs, OUninit => put OLeak bs
  | OLWrite bs, OLeakU => put OLeak bs
  | OTake, OBox => take OUninit
  | OLTake, OLeak => take OGone
  | OIntoRaw, OBox => move OInit
  | OFromRaw, OInit => move OBox
  | OIntoRaw, OLeak => move ORaw
  | OFromRaw, ORaw => move OLeak
  | OLeakTo, (OBox | OLeak) => move ORef
  | OFromMut, ORef => move OLeak
  | OIntoPin, OLeak => move OPin
  | OToLeakBox, OUninit => if csized c then move OLeakU else bad
  | ODrop, (OBox | OLeak | OPin) => (as_kind c OGone, [ODropped v], OADone)
  | ODrop, (OInit | ORaw | ORef) => move OLost
  | ODrop, (OUninit | OLeakU) => move OGone
  | OForget, (OBox | OLeak | OPin | OInit | ORaw | ORef) => move OLost
  | OForget, (OUninit | OLeakU) => move OGone
  | ODeref, (OBox | OLeak | OPin | ORef) => (c, [], OABytes v)
  | OReplace bs, (OBox | OLeak | ORef) =>
      if csized c && (Z.of_nat (length bs) =? lsize (clay c)) then (with_new c (ckind c) bs, [OTook v; OPut bs], OABytes v) else bad
  | OUnsize d ws, OBox =>
      if csized c then (if coercion_ok t d ws then (as_unsized c, [], OADone) else (as_kind c OGone, [ODropped v], OAPanic)) else bad
  | OUnsize d ws, OUninit =>
      if csized c then (if coercion_ok t d ws then (as_unsized c, [], OADone) else (as_kind c OGone, [], OAPanic)) else bad
  | OCast l, OUninit =>
      if csized c then
        (if (lsize l <=? clen c) && (caddr c mod lalign l =? 0) then (as_type c l, [], OADone) else (c, [], OAErr))
      else bad
  | _, _ => bad
  end.

(** What a program does: calls on owners, and writes of anybody to other memory. *)
Inductive oact := OCall (i : nat) (o : oop) | OOther (a : Z) (bs : list (option Z)).

(** The program on the model of the code *)
Definition oact_step (t : target) (s : ostate) (x : oact) : ostate * oanswer :=
  match x with
  | OCall i o => ostep t s (i, o)
  | OOther a bs => (MkO (otoks s) (mem_write (omem s) a bs) (olog s), OADone)
  end.
Fixpoint oact_run (t : target) (s : ostate) (xs : list oact) : ostate * list oanswer :=
  match xs with
  | [] => (s, [])
  | x :: xs' => let (s1, a) := oact_step t s x in let (s2, r) := oact_run t s1 xs' in (s2, a :: r)
  end.

(** The program on the cells *)
Definition cells_step (t : target) (cs : list cell) (x : oact) : list cell * list (nat * oevent) * oanswer :=
  match x with
  | OCall i o =>
      match nth_error cs i with
      | Some c => let '(c', es, a) := cell_step t c o in (upd_nth i c' cs, map (pair i) es, a)
      | None => (cs, [], OAInvalid)
      end
  | OOther _ _ => (cs, [], OADone)
  end.
Fixpoint cells_run (t : target) (cs : list cell) (log : list (nat * oevent)) (xs : list oact)
  : list cell * list (nat * oevent) * list oanswer :=
  match xs with
  | [] => (cs, log, [])
  | x :: xs' =>
      let '(cs1, es, a) := cells_step t cs x in
      let '(cs2, log2, r) := cells_run t cs1 (log ++ es) xs' in (cs2, log2, a :: r)
  end.

Definition cells_init (us : list (uview * layout)) : list cell :=
  map (fun p => MkCell OUninit [] (snd p) true (uptr (fst p)) (ulen (fst p))) us.

(** Casts are to real types; the others stay out of the memory of the owners. *)
Definition oact_ok (t : target) (us : list (uview * layout)) (x : oact) : Prop :=
  match x with
  | OCall _ (OCast l) => type_layout t l
  | OCall _ _ => True
  | OOther a bs => Forall (fun p => disjoint (MkBlock a (Z.of_nat (length bs))) (region (fst p))) us
  end.

(** Memory after the writes of the others alone *)
Fixpoint other_writes (m : mem) (xs : list oact) : mem :=
  match xs with
  | [] => m
  | OCall _ _ :: xs' => other_writes m xs'
  | OOther a bs :: xs' => other_writes (mem_write m a bs) xs'
  end.
