(** * FixedVecMemModel: without-alloc/src/fixed_vec.rs on bytes.

    [FixedVecModel] keeps whole elements in a map from the addresses of slots; here an element is only its bytes, in
    one memory shared with everything else in the program.  Reading, writing and moving elements are
    core::ptr::read, write and copy of size_of::<T>() bytes per element.  Functions that do not access
    elements ([head_tail_mut], [drain], [split_borrowed], ...) are those of FixedVecModel. *)
From Verif Require Import Base Spec UninitModel SyncMemModel FixedVecModel.

(** The bytes of a value of type T *)
Definition bval := list (option Z).

(** Memory and the values whose destructor ran, in order *)
Record yworld := MkYW { ymem : mem; ydrops : list bval }.
(** model only: a destructor runs *)
Definition y_log (w : yworld) (x : bval) : yworld := {| ymem := ymem w; ydrops := ydrops w ++ [x] |}.
(** model only: update of a field *)
Definition y_with (w : yworld) (m : mem) : yworld := {| ymem := m; ydrops := ydrops w |}.

(** core::ptr::read of a T *)
Definition b_read (l : layout) (m : mem) (a : Z) : bval := mem_read m a (lsize l).

(** The [n] elements of a slice at address [a]: fixed_vec.rs:173-188 *)
Definition b_slice (l : layout) (m : mem) (a n : Z) : list bval :=
  map (fun i => b_read l m (a + i * lsize l)) (upto (Z.to_nat n)).
(** fixed_vec.rs:173-179 [as_slice] *)
Definition y_as_slice (l : layout) (m : mem) (v : fvec) : list bval := b_slice l m (slot l v 0) (flen v).

(** [mem::replace(&mut vec[k], e)] and [vec.swap(j, k)] through fixed_vec.rs:181-188 [as_mut_slice], as in FixedVecModel *)
Definition y_replace (l : layout) (m : mem) (v : fvec) (k : Z) (e : bval) : outcome (mem * bval) :=
  oassert k <? flen v orpanic PN_index ;;
  Ret (mem_write m (slot l v k) e, b_read l m (slot l v k)).
(** <[T]>::swap, as in FixedVecModel *)
Definition y_swap (l : layout) (m : mem) (v : fvec) (j k : Z) : outcome mem :=
  oassert j <? flen v orpanic PN_index ;;
  oassert k <? flen v orpanic PN_index ;;
  Ret (mem_write (mem_write m (slot l v j) (b_read l m (slot l v k))) (slot l v k) (b_read l m (slot l v j))).

(** fixed_vec.rs:242-256 [push] *)
Definition y_push (t : target) (l : layout) (m : mem) (v : fvec) (e : bval) : outcome (mem * fvec * option bval) :=
  if flen v =? usize_max t then Ret (m, v, Some e)
  else
    olet ht := f_head_tail t l v in
    olet r := v_split_first t l (snd ht) in
    match snd r with
    | None => Ret (m, v, Some e)
    | Some init => Ret (mem_write m (uptr init) e, {| funinit := funinit v; flen := flen v + 1 |}, None)
    end.

(** fixed_vec.rs:259-272 [pop] *)
Definition y_pop (t : target) (l : layout) (m : mem) (v : fvec) : outcome (fvec * option bval) :=
  if flen v =? 0 then Ret (v, None)
  else
    olet ht := f_head_tail t l v in
    olet r := v_split_last t l (fst ht) in
    olet last := unwrap PN_pop (snd r) in
    Ret ({| funinit := funinit v; flen := flen v - 1 |}, Some (b_read l m (uptr last))).

(** fixed_vec.rs:162-169, the loop of [truncate] *)
Fixpoint y_truncate_loop (boom : bval -> bool) (l : layout) (w : yworld) (n : nat) (ptr local_len : Z) : yworld * Z * bool :=
  match n with
  | O => (w, local_len, false)
  | S n' =>
      let local_len := local_len - 1 in
      let ptr := ptr - lsize l in
      let x := b_read l (ymem w) ptr in
      let w := y_log w x in
      if boom x then (w, local_len, true) else y_truncate_loop boom l w n' ptr local_len
  end.

(** fixed_vec.rs:146-170 [truncate], 195-197 [clear] *)
Definition y_truncate (boom : bval -> bool) (l : layout) (w : yworld) (v : fvec) (len : Z) : yworld * fvec * bool :=
  let '(w', local_len, p) := y_truncate_loop boom l w (Z.to_nat (flen v - len)) (slot l v (flen v)) (flen v) in
  (w', {| funinit := funinit v; flen := local_len |}, p).
(** fixed_vec.rs:195-197 [clear] *)
Definition y_clear (boom : bval -> bool) (l : layout) (w : yworld) (v : fvec) : yworld * fvec * bool := y_truncate boom l w v 0.

(** fixed_vec.rs:347-358, the loop of [fill] over an iterator of the items [s], which may end in a panic *)
Fixpoint y_fill_loop (ends_in_panic : bool) (l : layout) (m : mem) (v : fvec) (unused : nat) (s : list bval)
  : mem * fvec * list bval * bool :=
  match unused with
  | O => (m, v, s, false)
  | S n =>
      match s with
      | [] => (m, v, [], ends_in_panic)
      | e :: s' => y_fill_loop ends_in_panic l (mem_write m (slot l v (flen v)) e) {| funinit := funinit v; flen := flen v + 1 |} n s'
      end
  end.

(** fixed_vec.rs:342-360 [fill] *)
Definition y_fill (b : bool) (t : target) (l : layout) (m : mem) (v : fvec) (s : list bval) : outcome (mem * fvec * list bval * bool) :=
  olet unused := op_sub t PN_cap (f_capacity t l v) (flen v) in
  Ret (y_fill_loop b l m v (Z.to_nat unused) s).

(** fixed_vec.rs:720-728 [extend]; [Some e]: one item more, which is dropped while unwinding *)
Definition y_extend (b : bool) (t : target) (l : layout) (m : mem) (v : fvec) (s : list bval)
  : outcome (mem * fvec * list bval * bool * option bval) :=
  olet r := y_fill b t l m v s in
  let '(m', v', s', p) := r in
  if p then Ret (m', v', s', true, None)
  else match s' with
       | [] => Ret (m', v', [], b, None)
       | e :: s2 => Ret (m', v', s2, true, Some e)
       end.

(** fixed_vec.rs:475-483 [Drain::as_slice], 625-637 [next], 645-657 [next_back] *)
Definition yd_as_slice (l : layout) (m : mem) (d : drain) : list bval := b_slice l m (delements d + dstart d * lsize l) (d_len d).
(** fixed_vec.rs:625-637 [next] *)
Definition yd_next (l : layout) (m : mem) (d : drain) : drain * option bval :=
  if d_is_empty d then (d, None)
  else ({| dstart := dstart d + 1; dend := dend d; dtail := dtail d; dtail_len := dtail_len d; delements := delements d |},
        Some (b_read l m (delements d + dstart d * lsize l))).
(** fixed_vec.rs:645-657 [next_back] *)
Definition yd_next_back (l : layout) (m : mem) (d : drain) : drain * option bval :=
  if d_is_empty d then (d, None)
  else ({| dstart := dstart d; dend := dend d - 1; dtail := dtail d; dtail_len := dtail_len d; delements := delements d |},
        Some (b_read l m (delements d + (dend d - 1) * lsize l))).

(** fixed_vec.rs:670 [self.for_each(drop)] *)
Fixpoint yd_drop_loop (boom : bval -> bool) (l : layout) (w : yworld) (d : drain) (fuel : nat) : yworld * drain * bool :=
  match fuel with
  | O => (w, d, false)
  | S n =>
      match yd_next l (ymem w) d with
      | (d', None) => (w, d', false)
      | (d', Some x) => let w := y_log w x in if boom x then (w, d', true) else yd_drop_loop boom l w d' n
      end
  end.

(** fixed_vec.rs:668-681 [Drop for Drain]: the tail is moved by core::ptr::copy, whose parts may overlap *)
Definition yd_drop (boom : bval -> bool) (l : layout) (w : yworld) (v : fvec) (d : drain) : yworld * fvec * bool :=
  let '(w', d', p) := yd_drop_loop boom l w d (Z.to_nat (d_len d)) in
  if p then (w', v, true)
  else if dtail_len d' =? 0 then (w', v, false)
  else (y_with w' (mem_copy (ymem w') (delements d' + dtail d' * lsize l) (delements d') (dtail_len d' * lsize l)),
        {| funinit := funinit v; flen := flen v + dtail_len d' |}, false).

(** Drop glue of a slice (core), as in FixedVecModel; 523-529 [Drop for FixedVec] *)
Fixpoint y_drop_slice (boom : bval -> bool) (w : yworld) (xs : list bval) (unwinding : bool) : yworld * dres :=
  match xs with
  | [] => (w, if unwinding then DPanic else DOk)
  | x :: xs' =>
      let w := y_log w x in
      if boom x then (if unwinding then (w, DAbort) else y_drop_slice boom w xs' true) else y_drop_slice boom w xs' unwinding
  end.
(** fixed_vec.rs:523-529 [drop] *)
Definition y_drop (boom : bval -> bool) (l : layout) (w : yworld) (v : fvec) : yworld * dres :=
  y_drop_slice boom w (y_as_slice l (ymem w) v) false.

(** ** A client that owns several vectors, as in FixedVecModel; [YElsewhere]: anybody writes [bs] to memory at [a]. *)
Record ystate := MkY { yw : yworld; ypool : list fentry }.

(** the calls of a client, as [fop] in FixedVecModel *)
Inductive yop :=
| YPush (i : nat) (e : bval) | YPop (i : nat) | YTruncate (i : nat) (n : Z) | YClear (i : nat)
| YFill (i : nat) (items : list bval) (ends_in_panic : bool) | YExtend (i : nat) (items : list bval) (ends_in_panic : bool)
| YDrain (i : nat) (lo hi : bound) (fronts : list bool) (forget : bool)
| YShrink (i : nat) | YSplitBorrowed (i : nat) (at_ : Z) | YSplitShrink (i : nat) (at_ : Z)
| YDropVec (i : nat) | YForgetVec (i : nat) | YSlice (i : nat)
| YReplace (i : nat) (k : Z) (e : bval) | YSwap (i : nat) (j k : Z)
| YElsewhere (a : Z) (bs : bval).

(** what the calls return *)
Inductive yres :=
| YNone | YOk | YRejected (e : bval) | YPopped (x : option bval) | YRest (rest : list bval) (ok : bool)
| YDrained (xs : list (option bval)) (ok : bool) | YItems (xs : list bval) | YPart (j : nat) | YPanicked | YAborted.

(** client of the model: next (true) and next_back in some order *)
Fixpoint yd_consume (l : layout) (m : mem) (d : drain) (fronts : list bool) : drain * list (option bval) :=
  match fronts with
  | [] => (d, [])
  | b :: fs =>
      let '(d', x) := if b then yd_next l m d else yd_next_back l m d in
      let '(d2, xs) := yd_consume l m d' fs in
      (d2, x :: xs)
  end.

(** model only: update of a field *)
Definition yput (s : ystate) (w : yworld) (i : nat) (e : fentry) (v : fvec) : ystate :=
  {| yw := w; ypool := upd_nth i {| evec := v; ealive := ealive e; eparent := eparent e |} (ypool s) |}.
(** model only: vector i is gone *)
Definition ykill (s : ystate) (w : yworld) (i : nat) (e : fentry) : ystate :=
  {| yw := w; ypool := upd_nth i {| evec := evec e; ealive := false; eparent := eparent e |} (ypool s) |}.

(** model only: the vector called *)
Definition yop_index (o : yop) : nat :=
  match o with
  | YPush i _ | YPop i | YTruncate i _ | YClear i | YFill i _ _ | YExtend i _ _ | YDrain i _ _ _ _ | YShrink i
  | YSplitBorrowed i _ | YSplitShrink i _ | YDropVec i | YForgetVec i | YSlice i
  | YReplace i _ _ | YSwap i _ _ => i
  | YElsewhere _ _ => O
  end.

(** One call on a usable vector [e]. *)
Definition ydo (t : target) (l : layout) (boom : bval -> bool) (s : ystate) (e : fentry) (o : yop) : ystate * yres :=
  let i := yop_index o in
  let v := evec e in
  let w := yw s in
  match o with
  | YPush _ x =>
      match y_push t l (ymem w) v x with
      | Panic _ => (s, YPanicked)
      | Ret (m, v', None) => (yput s (y_with w m) i e v', YOk)
      | Ret (m, v', Some x') => (yput s (y_with w m) i e v', YRejected x')
      end
  | YPop _ =>
      match y_pop t l (ymem w) v with
      | Panic _ => (s, YPanicked)
      | Ret (v', x) => (yput s w i e v', YPopped x)
      end
  | YTruncate _ n => let '(w', v', p) := y_truncate boom l w v n in (yput s w' i e v', if p then YPanicked else YOk)
  | YClear _ => let '(w', v', p) := y_clear boom l w v in (yput s w' i e v', if p then YPanicked else YOk)
  | YFill _ items b =>
      match y_fill b t l (ymem w) v items with
      | Panic _ => (s, YPanicked)
      | Ret (m, v', rest, p) => (yput s (y_with w m) i e v', YRest rest (negb p))
      end
  | YExtend _ items b =>
      match y_extend b t l (ymem w) v items with
      | Panic _ => (s, YPanicked)
      | Ret (m, v', rest, p, None) => (yput s (y_with w m) i e v', YRest rest (negb p))
      | Ret (m, v', rest, p, Some spill) =>
          (yput s (y_log (y_with w m) spill) i e v', if boom spill then YAborted else YRest rest (negb p))
      end
  | YDrain _ lo hi fronts forget =>
      match f_drain t l v lo hi with
      | Panic _ => (s, YPanicked)
      | Ret (v', d) =>
          let '(d', xs) := yd_consume l (ymem w) d fronts in
          if forget then (yput s w i e v', YDrained xs true)
          else let '(w', v2, p) := yd_drop boom l w v' d' in (yput s w' i e v2, YDrained xs (negb p))
      end
  | YShrink _ =>
      match f_shrink_to_fit t l v with
      | Panic _ => (s, YPanicked)
      | Ret (v', _) => (yput s w i e v', YOk)
      end
  | YSplitBorrowed _ n =>
      match f_split_borrowed t l v n with
      | Panic _ => (s, YPanicked)
      | Ret (v', part) =>
          let s' := yput s w i e v' in
          ({| yw := w; ypool := ypool s' ++ [{| evec := part; ealive := true; eparent := Some i |}] |}, YPart (length (ypool s')))
      end
  | YSplitShrink _ n =>
      match f_split_and_shrink t l v n with
      | Panic _ => (s, YPanicked)
      | Ret (v', part) =>
          let s' := yput s w i e v' in
          ({| yw := w; ypool := ypool s' ++ [{| evec := part; ealive := true; eparent := eparent e |}] |}, YPart (length (ypool s')))
      end
  | YDropVec _ =>
      let '(w', r) := y_drop boom l w v in
      (ykill s w' i e, match r with DOk => YOk | DPanic => YPanicked | DAbort => YAborted end)
  | YForgetVec _ => (ykill s w i e, YOk)
  | YSlice _ => (s, YItems (y_as_slice l (ymem w) v))
  | YReplace _ k x =>
      match y_replace l (ymem w) v k x with
      | Panic _ => (s, YPanicked)
      | Ret (m, old) => (yput s (y_with w m) i e v, YPopped (Some old))
      end
  | YSwap _ j k =>
      match y_swap l (ymem w) v j k with
      | Panic _ => (s, YPanicked)
      | Ret m => (yput s (y_with w m) i e v, YOk)
      end
  | YElsewhere _ _ => (s, YNone)
  end.

(** a call, unless the vector is gone *)
Definition ystep (t : target) (l : layout) (boom : bval -> bool) (s : ystate) (o : yop) : ystate * yres :=
  match o with
  | YElsewhere a bs => ({| yw := y_with (yw s) (mem_write (ymem (yw s)) a bs); ypool := ypool s |}, YOk)
  | _ =>
      if usable (ypool s) (yop_index o) then
        match nth_error (ypool s) (yop_index o) with
        | Some e => ydo t l boom s e o
        | None => (s, YNone)
        end
      else (s, YNone)
  end.

(** A history; nothing happens after an abort. *)
Fixpoint yrun (t : target) (l : layout) (boom : bval -> bool) (s : ystate) (os : list yop) : ystate * list yres :=
  match os with
  | [] => (s, [])
  | o :: os' =>
      match ystep t l boom s o with
      | (s', YAborted) => (s', [YAborted])
      | (s', r) => let '(s2, rs) := yrun t l boom s' os' in (s2, r :: rs)
      end
  end.

(** The client starts with one empty vector over the region [u] of memory [m]. *)
Definition yinit (m : mem) (u : uview) : ystate :=
  {| yw := {| ymem := m; ydrops := [] |}; ypool := [{| evec := f_new u; ealive := true; eparent := None |}] |}.
