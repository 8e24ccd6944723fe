(** * WorldSpec: containers as independent abstract objects. *)
From Verif Require Import Base Spec UninitModel UninitSpec SyncModel SyncSpec SyncMemModel RcModel RcSpec RcMemModel RcMemSpec FixedVecModel FixedVecSpec
  AllocModel AllocSpec FixedVecMemModel FixedVecMemSpec WorldModel.

(** There is no memory here: a box holds a value or not; vectors are bounded lists; an Rc is a counted value (RcSpec); a slice is a list.
    Values are named by [code]. *)
Inductive abox := AFull (x : elem) | AEmpty | AGoneBox.
Inductive apart :=
| ABox (l : layout) (c : abox) | AVec (l : layout) (a : astate) | ARc (l : layout) (p : sstate) | ASlice (l : layout) (xs : list elem)
| ARaw (l : layout).

Inductive ares :=
| RNoMem | RPart (k : nat) | ROk | RVal (x : elem) | RVecAns (r : fres elem) | RRcAns (a : RcModel.answer) | RItems (xs : list elem)
| RPanic | RInvalid.

Definition wname (code : bval -> elem) (r : wres) : ares :=
  match r with
  | WNoMem => RNoMem | WPart k => RPart k | WOk => ROk | WBytes bs => RVal (code bs) | WVecAns r => RVecAns (yname code r)
  | WRcAns a => RRcAns a | WItems xs => RItems (map code xs) | WPanic => RPanic | WInvalid => RInvalid
  end.

(** The slice of a vector can be copied if the vector is alive and nothing is split off from it. *)
Definition aslice_of (parts : list apart) (k i : nat) : option (layout * list elem) :=
  match nth_error parts k with
  | Some (AVec l a) => if ausable (apool a) i then match nth_error (apool a) i with Some x => Some (l, aitems x) | None => None end else None
  | _ => None
  end.

(** The memory that a call asks the allocator for; nothing for zero bytes, and nothing if there is no layout of that size. *)
Definition array_request (t : target) (l : layout) (n : Z) : option layout :=
  if n * lsize l =? 0 then None else from_size_align t (n * lsize l) (lalign l).
Definition request (t : target) (parts : list apart) (o : wop) : option layout :=
  match o with
  | WBoxed l _ => if lsize l =? 0 then None else Some l
  | WFixedVec l cap => array_request t l cap
  | WRc l _ => Some (rc_layout t l)
  | WRaw l => Some l
  | WCopySlice k i => match aslice_of parts k i with Some (l, xs) => array_request t l (Z.of_nat (length xs)) | None => None end
  | _ => None
  end.

(** Calls that type check: the values passed are of the type of the container; a new value of an Rc has its type. *)
Definition of_type (l : layout) (vs : list bval) : bool := forallb (fun bs => Z.of_nat (length bs) =? lsize l) vs.
Definition xop_vals (o : xop) : list bval := match o with XNew _ bs _ | XGetMut _ (Some bs) | XRawReplace _ bs => [bs] | _ => [] end.
Definition xop_type (l : layout) (o : xop) : bool := match o with XNew _ _ l' => (lsize l' =? lsize l) && (lalign l' =? lalign l) | _ => true end.

(** A call on one object *)
Definition apart_step (code : bval -> elem) (boom : elem -> bool) (t : target) (p : apart) (o : wop) : apart * ares :=
  match o, p with
  | WBox _ BDeref, ABox l (AFull x) => (p, RVal x)
  | WBox _ (BReplace bs), ABox l (AFull x) => if of_type l [bs] then (ABox l (AFull (code bs)), RVal x) else (p, RInvalid)
  | WBox _ BTake, ABox l (AFull x) => (ABox l AEmpty, RVal x)
  | WBox _ (BPut bs), ABox l AEmpty => if of_type l [bs] then (ABox l (AFull (code bs)), ROk) else (p, RInvalid)
  | WBox _ BDrop, ABox l (AFull x) => (ABox l AGoneBox, RVal x)
  | WBox _ BDrop, ABox l AEmpty => (ABox l AGoneBox, ROk)
  | WBox _ BForget, ABox l (AFull _ | AEmpty) => (ABox l AGoneBox, ROk)
  | WVec _ o, AVec l a =>
      match ynamed code o with
      | Some q => if of_type l (yop_vals o) then let (a', r) := astep (lsize l =? 0) (usize_max t) boom a q in (AVec l a', RVecAns r) else (p, RInvalid)
      | None => (p, RInvalid)
      end
  | WRcOp _ o, ARc l q => if of_type l (xop_vals o) && xop_type l o then let (q', r) := sxstep code t q o in (ARc l q', RRcAns r) else (p, RInvalid)
  | WSlice _, ASlice l xs => (p, RItems xs)
  | WSliceSet _ i bs, ASlice l xs =>
      if of_type l [bs] then
        if (0 <=? i) && (i <? Z.of_nat (length xs)) then (ASlice l (upd_nth (Z.to_nat i) (code bs) xs), ROk) else (p, RPanic)
      else (p, RInvalid)
  | WWrite _ off bs, ARaw l => (p, if (0 <=? off) && (off + Z.of_nat (length bs) <=? lsize l) then ROk else RInvalid)
  | _, _ => (p, RInvalid)
  end.

Definition aadd_part (parts : list apart) (p : apart) : list apart * ares := (parts ++ [p], RPart (length parts)).

(** A call on the program; [g]: the address that the allocator answered with, if it was asked. *)
Definition awstep (code : bval -> elem) (boom : elem -> bool) (t : target) (g : option Z) (parts : list apart) (o : wop) : list apart * ares :=
  match o with
  | WBoxed l bs =>
      if (lsize l =? 0) || match g with Some _ => true | None => false end then aadd_part parts (ABox l (AFull (code bs)))
      else (parts, RNoMem)
  | WFixedVec l cap =>
      match from_size_align t (cap * lsize l) (lalign l) with
      | None => (parts, RNoMem)
      | Some _ =>
          if (cap * lsize l =? 0) || match g with Some _ => true | None => false end
          then aadd_part parts (AVec l (ainit (if lsize l =? 0 then usize_max t else cap)))
          else (parts, RNoMem)
      end
  | WRc l bs =>
      match g with
      | Some p => aadd_part parts (ARc l (MkS [MkST (SStrong 0) Live] [MkSA (code bs) (from_memory p (lsize (rc_layout t l)))] [] [Put (code bs)]))
      | None => (parts, RNoMem)
      end
  | WRaw l => match g with Some _ => aadd_part parts (ARaw l) | None => (parts, RNoMem) end
  | WCopySlice k i =>
      match aslice_of parts k i with
      | Some (l, xs) =>
          if Z.of_nat (length xs) * lsize l =? 0 then aadd_part parts (ASlice l [])
          else match g with Some _ => aadd_part parts (ASlice l xs) | None => (parts, RNoMem) end
      | None => (parts, RInvalid)
      end
  | WElsewhere a bs => (parts, ROk)
  | _ =>
      match nth_error parts (wop_part o) with
      | Some p => let (p', r) := apart_step code boom t p o in (upd_nth (wop_part o) p' parts, r)
      | None => (parts, RInvalid)
      end
  end.

(** A run, given the allocator's answers, one per call (of no meaning for calls that do not ask it) *)
Fixpoint awrun (code : bval -> elem) (boom : elem -> bool) (t : target) (gs : list (option Z)) (parts : list apart) (os : list wop)
  : list apart * list ares :=
  match os with
  | [] => (parts, [])
  | o :: os' =>
      match awstep code boom t (hd None gs) parts o with
      | (p1, RVecAns FAborted) => (p1, [RVecAns FAborted])
      | (p1, r) => let (p2, rs) := awrun code boom t (tl gs) p1 os' in (p2, r :: rs)
      end
  end.

(** A run with a Bump over [st] of which [used] bytes are taken: a request is placed at the first aligned address, if it fits there. *)
Definition bump_grant (st : block) (used : Z) (l : layout) : option Z * Z :=
  let a := align_up (start st + used) (lalign l) in
  if a + lsize l <=? start st + size st then (Some a, a + lsize l - start st) else (None, used).
Fixpoint bwrun (code : bval -> elem) (boom : elem -> bool) (t : target) (st : block) (used : Z) (parts : list apart) (os : list wop)
  : list apart * list ares :=
  match os with
  | [] => (parts, [])
  | o :: os' =>
      let (g, used') := match request t parts o with Some l => bump_grant st used l | None => (None, used) end in
      match awstep code boom t g parts o with
      | (p1, RVecAns FAborted) => (p1, [RVecAns FAborted])
      | (p1, r) => let (p2, rs) := bwrun code boom t st used' p1 os' in (p2, r :: rs)
      end
  end.

(** Calls whose arguments have the types they should have; [own]: the allocator's addresses. *)
Definition wop_ok (t : target) (own : Z -> Prop) (o : wop) : Prop :=
  match o with
  | WBoxed l bs => type_layout t l /\ Z.of_nat (length bs) = lsize l
  | WFixedVec l cap => type_layout t l /\ is_usize t cap
  | WRc l bs => type_layout t l /\ valid_layout t (rc_layout t l) /\ Z.of_nat (length bs) = lsize l
  | WRaw l => valid_layout t l /\ 0 < lsize l
  | WVec _ (YTruncate _ n | YSplitBorrowed _ n | YSplitShrink _ n) => is_usize t n
  | WVec _ (YReplace _ k _) => is_usize t k
  | WVec _ (YSwap _ j k) => is_usize t j /\ is_usize t k
  | WVec _ (YDrain _ lo hi _ _) => valid_bound t true lo /\ valid_bound t false hi
  | WElsewhere a bs => forall x, in_block (MkBlock a (Z.of_nat (length bs))) x -> ~ own x
  | _ => True
  end.

(** What the program wrote outside of the allocator's memory *)
Fixpoint welse (m : mem) (os : list wop) : mem :=
  match os with
  | [] => m
  | WElsewhere a bs :: os' => welse (mem_write m a bs) os'
  | _ :: os' => welse m os'
  end.

(** The memory of a part *)
Definition foot (p : part) : block :=
  match p with
  | PBox l u _ => region u
  | PVec l u _ _ => region u
  | PRc l u _ _ _ => region u
  | PSlice l a n => MkBlock a (n * lsize l)
  | PRaw q l => MkBlock q (lsize l)
  end.

(** The destructors that ran, in order *)
Definition same_drops (code : bval -> elem) (p : part) (a : apart) : Prop :=
  match p, a with
  | PBox _ _ k, ABox _ c => match k, c with BFull, AFull _ | BEmpty, AEmpty | BGone, AGoneBox => True | _, _ => False end
  | PVec _ _ _ drops, AVec _ x => map code drops = adrops x
  | PRc _ _ _ _ log, ARc _ q => log = slog q
  | PSlice _ _ n, ASlice _ xs => n = Z.of_nat (length xs)
  | PRaw _ l, ARaw l' => l = l'
  | _, _ => False
  end.
