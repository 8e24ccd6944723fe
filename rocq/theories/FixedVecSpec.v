(** * FixedVecSpec: plain bounded lists, the meaning of [FixedVec]. *)
From Verif Require Import Base Spec UninitModel UninitSpec FixedVecModel.

(** A bounded list.  [aparent]: the list it borrows its storage from. *)
Record avec := MkAvec { acap : Z; aitems : list elem; aalive : bool; aparent : option nat }.

(** Several of them, the elements dropped so far (in order), and those leaked. *)
Record astate := MkAstate { apool : list avec; adrops : list elem; alost : list elem }.

Definition len {A} (xs : list A) : Z := Z.of_nat (length xs).
Definition take {A} (n : Z) (xs : list A) : list A := firstn (Z.to_nat n) xs.
Definition skip {A} (n : Z) (xs : list A) : list A := skipn (Z.to_nat n) xs.

(** Drop one after the other, up to and including the first whose destructor panics. *)
Fixpoint drop_seq (boom : elem -> bool) (xs : list elem) : list elem * bool :=
  match xs with
  | [] => ([], false)
  | x :: xs' => if boom x then ([x], true) else let '(d, p) := drop_seq boom xs' in (x :: d, p)
  end.

(** The range of indices [start, end) meant by a pair of bounds, for a list of length [n]. *)
Definition range_start (lo : bound) : Z := match lo with Included n => n | Excluded n => n + 1 | Unbounded => 0 end.
Definition range_end (hi : bound) (n : Z) : Z := match hi with Included n => n + 1 | Excluded n => n | Unbounded => n end.

(** Taking elements from the two ends of a list: answers and what is left. *)
Fixpoint take_ends (xs : list elem) (fronts : list bool) : list (option elem) * list elem :=
  match fronts with
  | [] => ([], xs)
  | b :: fs =>
      let '(x, xs') :=
        match xs with
        | [] => (None, [])
        | y :: ys => if b then (Some y, ys) else (Some (last xs y), removelast xs)
        end in
      let '(r, rest) := take_ends xs' fs in
      (x :: r, rest)
  end.

Definition achild (i : nat) (x : avec) : bool :=
  aalive x && match aparent x with Some k => Nat.eqb k i | None => false end.
Definition ausable (P : list avec) (i : nat) : bool :=
  match nth_error P i with
  | Some x => aalive x && negb (existsb (achild i) P)
  | None => false
  end.

(** Replace the contents of list [i]; [d] is dropped, [z] is lost. *)
Definition aset (a : astate) (i : nat) (x : avec) (cap : Z) (items : list elem) (alive : bool) (d z : list elem) : astate :=
  {| apool := upd_nth i {| acap := cap; aitems := items; aalive := alive; aparent := aparent x |} (apool a);
     adrops := adrops a ++ d; alost := alost a ++ z |}.

Definition aadd (a : astate) (y : avec) : astate :=
  {| apool := apool a ++ [y]; adrops := adrops a; alost := alost a |}.

(** One operation on the bounded list [x] with index [i].  [zst]: elements of size zero need no storage, so that
    splitting does not reduce capacities; [maxcap] is their capacity. *)
Definition ado (zst : bool) (maxcap : Z) (boom : elem -> bool) (a : astate) (x : avec) (o : fop) : astate * fres elem :=
  let i := op_index o in
  let cap := acap x in
  let xs := aitems x in
  let free := cap - len xs in
  match o with
  | FPush _ e =>
      if len xs <? cap then (aset a i x cap (xs ++ [e]) true [] [], FOk) else (a, FRejected e)
  | FPop _ =>
      match xs with
      | [] => (a, FPopped None)
      | y :: _ => (aset a i x cap (removelast xs) true [] [], FPopped (Some (last xs y)))
      end
  | FTruncate _ n =>
      let '(d, p) := drop_seq boom (rev (skip n xs)) in
      (aset a i x cap (take (len xs - len d) xs) true d [], if p then FPanicked else FOk)
  | FClear _ =>
      let '(d, p) := drop_seq boom (rev xs) in
      (aset a i x cap (take (len xs - len d) xs) true d [], if p then FPanicked else FOk)
  | FFill _ items b =>
      (aset a i x cap (xs ++ take free items) true [] [],
       FRest (skip free items) (negb (b && (len items <? free))))
  | FExtend _ items b =>
      let ys := xs ++ take free items in
      match skip free items with
      | [] => (aset a i x cap ys true [] [], FRest [] (negb b))
      | e :: rest => (aset a i x cap ys true [e] [], if boom e then FAborted else FRest rest false)
      end
  | FDrain _ lo hi fronts forget =>
      let s := range_start lo in
      let e := range_end hi (len xs) in
      if (s <=? e) && (e <=? len xs) then
        let '(answers, rest) := take_ends (take (e - s) (skip s xs)) fronts in
        if forget then (aset a i x cap (take s xs) true [] (rest ++ skip e xs), FDrained answers true)
        else
          match drop_seq boom rest with
          | (d, false) => (aset a i x cap (take s xs ++ skip e xs) true d [], FDrained answers true)
          | (d, true) => (aset a i x cap (take s xs) true d (skip (len d) rest ++ skip e xs), FDrained answers false)
          end
      else (a, FPanicked)
  | FShrink _ => (a, FOk)
  | FSplitBorrowed _ n =>
      if n <=? cap then
        (aadd (aset a i x cap (take n xs) true [] [])
              {| acap := if zst then maxcap else cap - n; aitems := skip n xs; aalive := true; aparent := Some i |},
         FPart (length (apool a)))
      else (a, FPanicked)
  | FSplitShrink _ n =>
      if n <=? cap then
        (aadd (aset a i x (if zst then maxcap else n) (take n xs) true [] [])
              {| acap := if zst then maxcap else cap - n; aitems := skip n xs; aalive := true; aparent := aparent x |},
         FPart (length (apool a)))
      else (a, FPanicked)
  | FDropVec _ =>
      match drop_seq boom xs with
      | (d, false) => (aset a i x cap [] false d [], FOk)
      | (d, true) =>
          match drop_seq boom (skip (len d) xs) with
          | (d', false) => (aset a i x cap [] false (d ++ d') [], FPanicked)
          | (d', true) => (aset a i x cap [] false (d ++ d') (skip (len d + len d') xs), FAborted)
          end
      end
  | FForgetVec _ => (aset a i x cap [] false [] xs, FOk)
  | FSlice _ => (a, FItems xs)
  | FReplace _ k e =>
      match nth_error xs (Z.to_nat k) with
      | Some old => (aset a i x cap (upd_nth (Z.to_nat k) e xs) true [] [], FPopped (Some old))
      | None => (a, FPanicked)
      end
  | FSwap _ j k =>
      match nth_error xs (Z.to_nat j), nth_error xs (Z.to_nat k) with
      | Some y, Some z => (aset a i x cap (upd_nth (Z.to_nat k) y (upd_nth (Z.to_nat j) z xs)) true [] [], FOk)
      | _, _ => (a, FPanicked)
      end
  end.

Definition astep (zst : bool) (maxcap : Z) (boom : elem -> bool) (a : astate) (o : fop) : astate * fres elem :=
  if ausable (apool a) (op_index o) then
    match nth_error (apool a) (op_index o) with
    | Some x => ado zst maxcap boom a x o
    | None => (a, FNone)
    end
  else (a, FNone).

Fixpoint arun (zst : bool) (maxcap : Z) (boom : elem -> bool) (a : astate) (os : list fop) : astate * list (fres elem) :=
  match os with
  | [] => (a, [])
  | o :: os' =>
      match astep zst maxcap boom a o with
      | (a', FAborted) => (a', [FAborted])
      | (a', r) => let '(a2, rs) := arun zst maxcap boom a' os' in (a2, r :: rs)
      end
  end.

Definition ainit (cap : Z) : astate :=
  {| apool := [{| acap := cap; aitems := []; aalive := true; aparent := None |}]; adrops := []; alost := [] |}.

(** Answers of the code hold slot contents ([None] = uninitialised memory); the same answer in the two worlds. *)
Definition some_answer (r : fres elem) : fres (option elem) :=
  match r with
  | FNone => FNone
  | FOk => FOk
  | FRejected e => FRejected e
  | FPopped x => FPopped (option_map Some x)
  | FRest rest ok => FRest rest ok
  | FDrained xs ok => FDrained (map (option_map Some) xs) ok
  | FItems xs => FItems (map Some xs)
  | FPart j => FPart j
  | FPanicked => FPanicked
  | FAborted => FAborted
  end.

(** Type-correct calls.  Bounds whose successor does not exist are excluded in builds without overflow
    checks (see C45), and elements of a zero-sized type have only one value. *)
Definition valid_bound (t : target) (lo : bool) (b : bound) : Prop :=
  match b with
  | Included n => is_usize t n /\ (lo = true \/ debug t = true \/ n < usize_max t)
  | Excluded n => is_usize t n /\ (lo = false \/ debug t = true \/ n < usize_max t)
  | Unbounded => True
  end.
Definition op_elems (o : fop) : list elem :=
  match o with FPush _ e | FReplace _ _ e => [e] | FFill _ items _ | FExtend _ items _ => items | _ => [] end.
Definition valid_fop (t : target) (l : layout) (o : fop) : Prop :=
  (lsize l = 0 -> Forall (fun e => e = 0) (op_elems o)) /\
  match o with
  | FTruncate _ n | FSplitBorrowed _ n | FSplitShrink _ n => is_usize t n
  | FReplace _ k _ => is_usize t k
  | FSwap _ j k => is_usize t j /\ is_usize t k
  | FDrain _ lo hi _ _ => valid_bound t true lo /\ valid_bound t false hi
  | _ => True
  end.

(** A vector holds exactly these elements. *)
Definition holds (l : layout) (h : eheap) (v : fvec) (xs : list elem) : Prop := f_as_slice l h v = map Some xs.

(** A well-formed vector over valid memory with these contents. *)
Definition vec_ok (t : target) (l : layout) (h : eheap) (v : fvec) (xs : list elem) : Prop :=
  wf_view t (TSlice l) (funinit v) /\ 0 <= flen v <= f_capacity t l v /\ holds l h v xs.

(** The world after dropping [d], in this order, with memory unchanged. *)
Definition dropped (w : fworld) (d : list elem) : fworld := {| wheap := wheap w; wdrops := wdrops w ++ map Some d |}.

(** Memory agrees outside of a block. *)
Definition same_outside (b : block) (h h' : eheap) : Prop := forall a, ~ in_block b a -> h' a = h a.

Fixpoint somes {X} (xs : list (option X)) : list X :=
  match xs with [] => [] | Some x :: ys => x :: somes ys | None :: ys => somes ys end.

(** The answers to the calls of one end. *)
Fixpoint answers_at (front : bool) (fronts : list bool) (answers : list (option elem)) : list (option elem) :=
  match fronts, answers with
  | b :: fs, x :: xs => if Bool.eqb b front then x :: answers_at front fs xs else answers_at front fs xs
  | _, _ => []
  end.

(** ** Iterators *)

(** [yields next s items s' how]: starting in [s], the iterator gives [items] one after the other and is then in
    state [s']; [how] tells whether the last call of [next] gave nothing or panicked, or there was none. *)
Inductive ending := Unasked | Exhausted | Panicked.
Inductive yields {S} (next : S -> inext S) : S -> list elem -> S -> ending -> Prop :=
| y_unasked s : yields next s [] s Unasked
| y_exhausted s s' : next s = INone s' -> yields next s [] s' Exhausted
| y_panicked s s' : next s = IBoom s' -> yields next s [] s' Panicked
| y_item s e s1 items s' how : next s = ISome e s1 -> yields next s1 items s' how -> yields next s (e :: items) s' how.

(** Once it has given nothing, the iterator gives nothing again. *)
Definition fused {S} (next : S -> inext S) : Prop :=
  forall s s', next s = INone s' -> exists s2, next s' = INone s2.

(** ** Accounting *)

(** The elements that a call took over from the caller, and those it handed out to the caller. *)
Definition taken {X} (o : fop) (r : fres X) : list elem :=
  match o, r with
  | FPush _ e, FNone => []
  | FPush _ e, _ => [e]
  | FReplace _ _ e, FPopped _ => [e]
  | FFill _ items _, FRest rest _ => take (len items - len rest) items
  | FExtend _ items _, FRest rest _ => take (len items - len rest) items
  | _, _ => []
  end.
Definition handed_out (r : fres (option elem)) : list (option elem) :=
  match r with
  | FRejected e => [Some e]
  | FPopped (Some x) => [x]
  | FDrained xs _ => somes xs
  | _ => []
  end.
Fixpoint all_taken {X} (os : list fop) (rs : list (fres X)) : list elem :=
  match os, rs with
  | o :: os', r :: rs' => taken o r ++ all_taken os' rs'
  | _, _ => []
  end.

(** What is in the vectors that are alive *)
Definition live_contents (l : layout) (s : fstate) : list (option elem) :=
  flat_map (fun e => if ealive e then f_as_slice l (wheap (fw s)) (evec e) else []) (fpool s).

(** The two ways to leak: forgetting a vector or drain, and a destructor that panics while a drain is dropped. *)
Definition forgets (o : fop) : Prop :=
  match o with FForgetVec _ => True | FDrain _ _ _ _ forget => forget = true | _ => False end.
Definition drain_panicked {X} (r : fres X) : Prop :=
  match r with FDrained _ ok => ok = false | _ => False end.
