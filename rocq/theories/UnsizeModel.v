(** * UnsizeModel: dynamically sized values behind the pointers of without-alloc, static-alloc and core, unsized with the
    pre-built coercions of the crate [unsize].  Unlike OwnModel, sizes and destructors are found through the metadata of the fat
    pointer, as the compiler does. *)
From Verif Require Import Base Spec SyncMemModel OwnModel.

(** Sized types: something with layout [l] and destructor [id], or an array [T; n]. *)
Inductive sty := SAtom (id : nat) (l : layout) | SArray (e : sty) (n : Z).

(** size_of, align_of *)
Fixpoint ssize (s : sty) : Z := match s with SAtom _ l => lsize l | SArray e n => n * ssize e end.
(** align_of *)
Fixpoint salign (s : sty) : Z := match s with SAtom _ l => lalign l | SArray e _ => salign e end.

(** The type behind a pointer: sized, a slice, or a trait object of trait number [tr]. *)
Inductive pty := TSized (s : sty) | TSlice (e : sty) | TDyn (tr : nat).

(** The compiler's tables: a vtable starts with size, alignment and the drop glue (given by the type that it drops). *)
Record vtable := MkVT { vsize : Z; valign : Z; vdrop : sty }.
(** what rustc puts into the binary *)
Record tables := MkTables { vt_of : nat -> sty -> Z; vt_at : Z -> option vtable }.

(** size_of_val and align_of_val ([None]: undefined behaviour, the metadata is not valid) *)
Definition layout_of_val (C : tables) (ty : pty) (meta : list Z) : option layout :=
  match ty, meta with
  | TSized s, _ => Some (MkLayout (ssize s) (salign s))
  | TSlice e, [n] => Some (MkLayout (n * ssize e) (salign e))
  | TDyn _, [w] => match vt_at C w with Some v => Some (MkLayout (vsize v) (valign v)) | None => None end
  | _, _ => None
  end.

(** Drop glue of a sized type at [p]: the destructors that run, in order, with the bytes they see *)
Fixpoint drop_glue (m : mem) (s : sty) (p : Z) : list (nat * list (option Z)) :=
  match s with
  | SAtom id l => [(id, mem_read m p (lsize l))]
  | SArray e n => flat_map (fun i => drop_glue m e (p + Z.of_nat i * ssize e)) (seq 0 (Z.to_nat n))
  end.

(** ptr::drop_in_place of a (fat) pointer *)
Definition drop_in_place (C : tables) (m : mem) (ty : pty) (r : rawptr) : option (list (nat * list (option Z))) :=
  match ty, rwords r with
  | TSized s, _ => Some (drop_glue m s (raddr r))
  | TSlice e, [n] => Some (flat_map (fun i => drop_glue m e (raddr r + Z.of_nat i * ssize e)) (seq 0 (Z.to_nat n)))
  | TDyn _, [w] => match vt_at C w with Some v => Some (drop_glue m (vdrop v) (raddr r)) | None => None end
  | _, _ => None
  end.

(** unsize/src/lib.rs:246-266 [Coercion::to_slice]; the [coerce_to_dyn_trait] macro (:157-194) and the macro [Coercion!]
    (:548-568), for trait [tr]: the compiler's unsizing coercion. *)
Inductive coercion := ToSlice | ToDyn (tr : nat).
Definition coerce (C : tables) (c : coercion) (s : sty) : option ((Z -> rawptr) * pty) :=
  match c, s with
  | ToSlice, SArray e n => Some (fun p => MkRaw p [n], TSlice e)
  | ToSlice, SAtom _ _ => None                                    (* no such method *)
  | ToDyn tr, _ => Some (fun p => MkRaw p [vt_of C tr s], TDyn tr)
  end.

(** What the pointer is: [&mut T], [*mut T], [Pin<&mut T>], without_alloc's [Box] and the [Uninit] from its into_raw,
    [LeakBox]; [KGone]: dropped. *)
Inductive pkind := KRef | KPtr | KPin | KBox | KUninit | KLeak | KGone.
(** unsize/src/lib.rs:36-119, boxed.rs:85-96, uninit.rs:976-1005: which [CoerciblePtr] impl is used *)
Definition coercible (k : pkind) : option ptrkind :=
  match k with
  | KRef => Some PRefMut | KPtr => Some PMut | KPin => Some (PPin PRefMut) | KBox => Some PBox | KUninit => Some PUninit
  | KLeak | KGone => None
  end.

(** [plen]: the [len] of an Uninit or Box *)
Record pstate := MkP { pk : pkind; praw : rawptr; plen : Z; pty_of : pty; pmem : mem }.

(** the calls of a client *)
Inductive pop :=
| PUnsize (c : coercion)
| PIntoRaw | PFromRaw | PLeak | PFromMut | PAsRaw | PMakePin | PDrop
| PDeref | PLayout | PIndex (i : Z) | PReplace (i : Z) (bs : list (option Z)).

(** what the calls return *)
Inductive panswer :=
| PADone | PABytes (bs : list (option Z)) | PALayout (l : layout) | PADrops (ds : list (nat * list (option Z)))
| PAPanic (n : nat) | PAInvalid | PAUndefined.

Definition PN_index : nat := 504.      (* core: index out of bounds *)
Definition PN_null : nat := 505.       (* leaked.rs:239 debug_assert! *)

(** model only: update of a field *)
Definition pwith (s : pstate) (k : pkind) : pstate := MkP k (praw s) (plen s) (pty_of s) (pmem s).

(** An element of a slice or array: its address, if the index is in bounds (core's indexing); [None]: does not type check *)
Definition element (s : pstate) (i : Z) : option (outcome (Z * sty)) :=
  match pty_of s, rwords (praw s) with
  | TSlice e, [n] | TSized (SArray e n), _ =>
      Some (if (0 <=? i) && (i <? n) then Ret (raddr (praw s) + i * ssize e, e) else Panic PN_index)
  | _, _ => None
  end.

(** One call.
    PUnsize: unsize/src/lib.rs:461-470.  PIntoRaw: boxed.rs:136-144, leaked.rs:221-224.  PFromRaw: boxed.rs:126-130,
    leaked.rs:238-244.  PLeak: boxed.rs:150-154, leaked.rs:315-323.  PFromMut: leaked.rs:273-280 [from_mut_unchecked].
    PAsRaw: a reference as raw pointer.  PMakePin: Pin::new_unchecked.  PDrop: boxed.rs:157-163, leaked.rs:515-520.
    PDeref, PIndex, PReplace (mem::replace): boxed.rs:165-181, leaked.rs:499-513.  PLayout: Layout::for_value. *)
Definition pstep (t : target) (C : tables) (s : pstate) (o : pop) : pstate * panswer :=
  let bad := (s, PAInvalid) in
  match o with
  | PUnsize c =>
      match coercible (pk s), pty_of s with
      | Some k, TSized ty =>
          match coerce C c ty with
          | Some (f, ty') =>
              match unsize t k (raddr (praw s)) (plen s) f with
              | Ret (r, n) => (MkP (pk s) r n ty' (pmem s), PADone)
              | Panic e => (pwith s KGone, PAPanic e)
              end
          | None => bad
          end
      | _, _ => bad
      end
  | PIntoRaw => match pk s with KBox => (pwith s KUninit, PADone) | KLeak => (pwith s KPtr, PADone) | _ => bad end
  | PFromRaw => match pk s with KUninit => (pwith s KBox, PADone) | 
      KPtr => if debug t && (raddr (praw s) =? 0) then (pwith s KGone, PAPanic PN_null) else (pwith s KLeak, PADone) | _ => bad end
  | PLeak => match pk s with KBox | KLeak => (pwith s KRef, PADone) | _ => bad end
  | PFromMut => match pk s with KRef => (pwith s KLeak, PADone) | _ => bad end
  | PAsRaw => match pk s with KRef => (pwith s KPtr, PADone) | _ => bad end
  | PMakePin => match pk s with KRef => (pwith s KPin, PADone) | _ => bad end
  | PDrop =>
      match pk s with
      | KBox | KLeak => match drop_in_place C (pmem s) (pty_of s) (praw s) with
                        | Some ds => (pwith s KGone, PADrops ds) | None => (s, PAUndefined) end
      | _ => bad
      end
  | PDeref =>
      match pk s with
      | KBox | KLeak | KRef | KPin =>
          match layout_of_val C (pty_of s) (rwords (praw s)) with
          | Some l => (s, PABytes (mem_read (pmem s) (raddr (praw s)) (lsize l))) | None => (s, PAUndefined) end
      | _ => bad
      end
  | PLayout =>
      match pk s with
      | KBox | KLeak | KRef | KPin =>
          match layout_of_val C (pty_of s) (rwords (praw s)) with Some l => (s, PALayout l) | None => (s, PAUndefined) end
      | _ => bad
      end
  | PIndex i =>
      match pk s with
      | KBox | KLeak | KRef | KPin =>
          match element s i with
          | Some (Ret (p, e)) => (s, PABytes (mem_read (pmem s) p (ssize e)))
          | Some (Panic n) => (s, PAPanic n)
          | None => bad
          end
      | _ => bad
      end
  | PReplace i bs =>
      match pk s with
      | KBox | KLeak | KRef =>
          match element s i with
          | Some (Ret (p, e)) =>
              if Z.of_nat (length bs) =? ssize e
              then (MkP (pk s) (praw s) (plen s) (pty_of s) (mem_write (pmem s) p bs), PABytes (mem_read (pmem s) p (ssize e)))
              else bad
          | Some (Panic n) => (s, PAPanic n)
          | None => bad
          end
      | _ => bad
      end
  end.

(** client of the model: calls in sequence *)
Fixpoint prun (t : target) (C : tables) (s : pstate) (os : list pop) : pstate * list panswer :=
  match os with
  | [] => (s, [])
  | o :: os => let (s1, a) := pstep t C s o in let (s2, r) := prun t C s1 os in (s2, a :: r)
  end.
