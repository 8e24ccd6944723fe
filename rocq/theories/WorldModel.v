(** * WorldModel: a program that creates all kinds of containers from one LocalAlloc, in one memory.

    without-alloc/src/alloc.rs (LocalAllocLeakExt: boxed, fixed_vec, rc, copy_slice) over an arbitrary allocator, with the containers of
    FixedVecMemModel, RcMemModel and OwnModel working on the bytes that they were given.  Nothing separates the containers except the
    addresses the allocator gave out. *)
From Verif Require Import Base Spec UninitModel SyncModel SyncMemModel OwnModel RcModel RcMemModel FixedVecModel AllocModel FixedVecMemModel.

(** model only: a Box with its value, only its memory, or dropped *)
Inductive boxst := BFull | BEmpty | BGone.

(** What the program holds.  [u]: the memory it was created with (used only in claims; a Box uses it as its pointer). *)
Inductive part :=
| PBox (l : layout) (u : uview) (k : boxst)                                      (* Box<T>, or its Uninit<T> after take *)
| PVec (l : layout) (u : uview) (pool : list fentry) (drops : list bval)         (* FixedVec<T> and what was split off *)
| PRc (l : layout) (u : uview) (toks : list token) (dropping : list uview) (log : list event)  (* Rc<T> and its clones, Weaks, ... *)
| PSlice (l : layout) (a n : Z)                                                  (* &mut [T] *)
| PRaw (p : Z) (l : layout).                                                     (* a plain allocation *)

(** model only: state of the program *)
Record world (A : lalloc) := MkWorld { wst : lst A; wmem : mem; wparts : list part }.
Arguments MkWorld {A}. Arguments wst {A}. Arguments wmem {A}. Arguments wparts {A}.

(** the calls on a Box, boxed.rs *)
Inductive bxop := BDeref | BReplace (bs : bval) | BTake | BPut (bs : bval) | BDrop | BForget.

Inductive wop :=
| WBoxed (l : layout) (bs : bval) | WFixedVec (l : layout) (cap : Z) | WRc (l : layout) (bs : bval) | WRaw (l : layout)
| WCopySlice (k i : nat)                      (* copy_slice(&vec[..]) of vector [i] of part [k] *)
| WBox (k : nat) (o : bxop) | WVec (k : nat) (o : yop) | WRcOp (k : nat) (o : xop)
| WSlice (k : nat) | WSliceSet (k : nat) (i : Z) (bs : bval)
| WWrite (k : nat) (off : Z) (bs : bval)      (* into a plain allocation *)
| WElsewhere (a : Z) (bs : bval).             (* into memory that is not the allocator's *)

(** what the calls return *)
Inductive wres :=
| WNoMem | WPart (k : nat) | WOk | WBytes (bs : bval) | WVecAns (r : yres) | WRcAns (a : RcModel.answer) | WItems (xs : list bval)
| WPanic | WInvalid.

(** model only: does the call type check *)
Definition has_size (l : layout) (bs : bval) : bool := Z.of_nat (length bs) =? lsize l.

(** Calls that type check: values have the type of the container. *)
Definition vec_typed (l : layout) (o : yop) : bool :=
  match o with
  | YPush _ e | YReplace _ _ e => has_size l e
  | YFill _ items _ | YExtend _ items _ => forallb (has_size l) items
  | YElsewhere _ _ => false
  | _ => true
  end.
(** model only: does the call type check *)
Definition rc_typed (l : layout) (o : xop) : bool :=
  match o with
  | XNew _ bs l' => (lsize l' =? lsize l) && (lalign l' =? lalign l) && has_size l bs
  | XGetMut _ (Some w) | XRawReplace _ w => has_size l w
  | _ => true
  end.

(** alloc.rs:116-122 [rc] on bytes; rc.rs:101-114 [Rc::new].  The first part: memory, if there is any *)
Definition rc_bytes (code : bval -> rvalue) (t : target) (A : lalloc) (s : lst A) (m : mem) (l : layout) (bs : bval)
  : lst A * mem * outcome (option (uview * xstate)) :=
  match nonzero_from_layout (rc_layout t l) with
  | None => (s, m, Panic PN_arc)
  | Some nl =>
      match alloc_layout A s m nl with
      | (s', m', Ret (Some u)) =>
          match xstep code t (xinit [u] m') (XNew 0 bs l) with
          | (x, ADone) => (s', xmem x, Ret (Some (u, x)))
          | (x, _) => (s', xmem x, Panic PN_rc)
          end
      | (s', m', Ret None) => (s', m', Ret None)
      | (s', m', Panic e) => (s', m', Panic e)
      end
  end.

(** Creations *)
Definition wadd {A} (w : world A) (s : lst A) (m : mem) (p : part) : world A * wres :=
  (MkWorld s m (wparts w ++ [p]), WPart (length (wparts w))).
(** model only: update of a field *)
Definition wkeep {A} (w : world A) (s : lst A) (m : mem) (r : wres) : world A * wres := (MkWorld s m (wparts w), r).

(** A call on a part that needs the memory but not the allocator: boxed.rs (OwnModel), fixed_vec.rs (FixedVecMemModel), rc.rs
    (RcMemModel), and accesses to slices and plain memory. *)
Definition part_step (code : bval -> rvalue) (boom : bval -> bool) (t : target) (m : mem) (p : part) (o : wop) : mem * part * wres :=
  match o, p with
  | WBox _ BDeref, PBox l u BFull => (m, p, WBytes (own_deref m l u))
  | WBox _ (BReplace bs), PBox l u BFull =>
      if has_size l bs then let (m', old) := own_replace m l u bs in (m', p, WBytes old) else (m, p, WInvalid)
  | WBox _ BTake, PBox l u BFull => let (bs, u') := box_take m l u in (m, PBox l u' BEmpty, WBytes bs)
  | WBox _ (BPut bs), PBox l u BEmpty =>
      if has_size l bs then let (m', b) := box_new m u bs in (m', PBox l b BFull, WOk) else (m, p, WInvalid)
  | WBox _ BDrop, PBox l u BFull => (m, PBox l u BGone, WBytes (own_drop m l u))
  | WBox _ BDrop, PBox l u BEmpty => (m, PBox l u BGone, WOk)
  | WBox _ BForget, PBox l u (BFull | BEmpty) => (m, PBox l u BGone, WOk)
  | WVec _ o, PVec l u pool drops =>
      if vec_typed l o then
        let (y, r) := ystep t l boom (MkY (MkYW m drops) pool) o in (ymem (yw y), PVec l u (ypool y) (ydrops (yw y)), WVecAns r)
      else (m, p, WInvalid)
  | WRcOp _ o, PRc l u toks dropping log =>
      if rc_typed l o then
        let (x, a) := xstep code t (MkX toks m dropping log) o in (xmem x, PRc l u (xtoks x) (xdropping x) (xlog x), WRcAns a)
      else (m, p, WInvalid)
  | WSlice _, PSlice l a n => (m, p, WItems (b_slice l m a n))
  | WSliceSet _ i bs, PSlice l a n =>
      if has_size l bs then
        if (0 <=? i) && (i <? n) then (mem_write m (a + i * lsize l) bs, p, WOk) else (m, p, WPanic)
      else (m, p, WInvalid)
  | WWrite _ off bs, PRaw q l =>
      if (0 <=? off) && (off + Z.of_nat (length bs) <=? lsize l) then (mem_write m (q + off) bs, p, WOk) else (m, p, WInvalid)
  | _, _ => (m, p, WInvalid)
  end.

(** model only: the container called *)
Definition wop_part (o : wop) : nat :=
  match o with WBox k _ | WVec k _ | WRcOp k _ | WSlice k | WSliceSet k _ _ | WWrite k _ _ => k | _ => O end.

Definition wstep (code : bval -> rvalue) (boom : bval -> bool) (t : target) (A : lalloc) (w : world A) (o : wop) : world A * wres :=
  let s := wst w in let m := wmem w in
  match o with
  | WBoxed l bs =>      (* alloc.rs:82-85 *)
      match boxed A s m [] l (MkValue 0 bs) with
      | (s', m', _, Ret (Some u)) => wadd w s' m' (PBox l u BFull)
      | (s', m', _, Ret None) => wkeep w s' m' WNoMem
      | (s', m', _, Panic _) => wkeep w s' m' WPanic
      end
  | WFixedVec l cap =>  (* alloc.rs:94-108 *)
      match fixed_vec t A s m l cap with
      | (s', m', Ret (Some v)) => wadd w s' m' (PVec l (funinit v) [{| evec := v; ealive := true; eparent := None |}] [])
      | (s', m', Ret None) => wkeep w s' m' WNoMem
      | (s', m', Panic _) => wkeep w s' m' WPanic
      end
  | WRc l bs =>         (* alloc.rs:116-122 *)
      match rc_bytes code t A s m l bs with
      | (s', m', Ret (Some (u, x))) => wadd w s' m' (PRc l u (xtoks x) (xdropping x) (xlog x))
      | (s', m', Ret None) => wkeep w s' m' WNoMem
      | (s', m', Panic _) => wkeep w s' m' WPanic
      end
  | WRaw l =>           (* alloc-traits/src/local.rs:36-44 *)
      match l_alloc A s m l with
      | (s', m', Ret (Some (p, l'))) => wadd w s' m' (PRaw p l')
      | (s', m', Ret None) => wkeep w s' m' WNoMem
      | (s', m', Panic _) => wkeep w s' m' WPanic
      end
  | WCopySlice k i =>   (* alloc.rs:138-162 of fixed_vec.rs:173-180 *)
      match nth_error (wparts w) k with
      | Some (PVec l u pool drops) =>
          if usable pool i then
            match nth_error pool i with
            | Some e =>
                match copy_slice t A s m l (slot l (evec e) 0) (flen (evec e)) with
                | (s', m', Ret (Some (a, n))) => wadd w s' m' (PSlice l a n)
                | (s', m', Ret None) => wkeep w s' m' WNoMem
                | (s', m', Panic _) => wkeep w s' m' WPanic
                end
            | None => (w, WInvalid)
            end
          else (w, WInvalid)
      | _ => (w, WInvalid)
      end
  | WElsewhere a bs => wkeep w s (mem_write m a bs) WOk
  | _ =>
      match nth_error (wparts w) (wop_part o) with
      | Some p => let '(m', p', r) := part_step code boom t m p o in (MkWorld s m' (upd_nth (wop_part o) p' (wparts w)), r)
      | None => (w, WInvalid)
      end
  end.

(** Histories; an abort ends the program. *)
Fixpoint wrun (code : bval -> rvalue) (boom : bval -> bool) (t : target) (A : lalloc) (w : world A) (os : list wop) : world A * list wres :=
  match os with
  | [] => (w, [])
  | o :: os' =>
      match wstep code boom t A w o with
      | (w1, WVecAns YAborted) => (w1, [WVecAns YAborted])
      | (w1, r) => let (w2, rs) := wrun code boom t A w1 os' in (w2, r :: rs)
      end
  end.
