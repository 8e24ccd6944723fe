(** * OwnModel: the owning pointers [without_alloc::Box] and [static_alloc::leaked::LeakBox], and the crate [unsize]. *)
From Verif Require Import Base Spec SyncMemModel UninitModel.

Definition PN_fat : nat := 501.        (* unsize/src/lib.rs:503 assert_eq! *)
Definition PN_base : nat := 502.       (* :505 debug_assert_eq! *)
Definition PN_replace : nat := 503.    (* uninit.rs:984, :1002 debug_assert_eq! *)

(** ** unsize/src/lib.rs *)

(** A raw pointer as the compiler represents it: the address, then metadata words ([[]] for a thin pointer). *)
Record rawptr := MkRaw { raddr : Z; rwords : list Z }.

(** unsize/src/lib.rs:495-525 [unsize_with] *)
Definition unsize_with (t : target) (ptr : Z) (coerce : Z -> rawptr) : outcome rawptr :=
  let raw := coerce ptr in
  oassert Nat.eqb (length (rwords raw)) 1 orpanic PN_fat ;;                   (* :503-504 *)
  oassert negb (debug t) || (raddr raw =? ptr) orpanic PN_base ;;             (* :505-506 *)
  Ret {| raddr := ptr; rwords := rwords raw |}.                               (* :508-524 *)

(** The pointers that implement [CoerciblePtr].  [PStd] stands for Box, Rc, Arc and their Weak in
    unsize/src/alloc_impls.rs; the standard library's into_raw and from_raw are taken to keep the address. *)
Inductive ptrkind :=
| PConst | PMut | PRef | PRefMut | PNonNull | PPin (k : ptrkind) | PUninitView | PUninit | PBox | PStd.

(** [as_sized_ptr] of all of them (unsize/src/lib.rs:40-42, 52-54, 64-66, 77-79, 99-101, 112-114;
    alloc_impls.rs:14-18, 49-60, 64-67; uninit.rs:979-981, 995-997; boxed.rs:88-90): the address pointed to. *)
Definition as_sized_ptr (k : ptrkind) (addr : Z) : Z := addr.

(** [replace_ptr] of a pointer of kind [k] to [addr], for Uninit with [len] bytes.
    unsize/src/lib.rs:43-46, 55-58, 67-70, 80-89, 102-106, 115-118; alloc_impls.rs:26-39;
    uninit.rs:982-988, 998-1004; boxed.rs:91-95. *)
Fixpoint replace_ptr (t : target) (k : ptrkind) (addr len : Z) (new : rawptr) : outcome (rawptr * Z) :=
  match k with
  | PConst | PMut | PRef | PRefMut | PStd => olet r := unsize_with t addr (fun _ => new) in Ret (r, len)
  | PNonNull => Ret (new, len)
  | PPin k => replace_ptr t k addr len new
  | PUninitView | PUninit | PBox =>
      oassert negb (debug t) || (addr =? raddr new) orpanic PN_replace ;; Ret (new, len)
  end.

(** unsize/src/lib.rs:461-470 [CoerceUnsized::unsize] *)
Definition unsize (t : target) (k : ptrkind) (addr len : Z) (coerce : Z -> rawptr) : outcome (rawptr * Z) :=
  olet new := unsize_with t (as_sized_ptr k addr) coerce in replace_ptr t k addr len new.

(** ** without-alloc/src/boxed.rs; a box is the view [inner] *)

(** boxed.rs:100-106 [Box::new]: uninit.rs:315-327 [init] writes the value *)
Definition box_new (m : mem) (u : uview) (bs : list (option Z)) : mem * uview := (mem_write m (uptr u) bs, u).

(** boxed.rs:136-144 [Box::into_raw]; [mem::forget]: no destructor *)
Definition box_into_raw (b : uview) : uview := {| uptr := uptr b; ulen := ulen b; umeta := umeta b |}.

(** boxed.rs:126-130 [Box::from_raw] *)
Definition box_from_raw (u : uview) : uview := u.

(** boxed.rs:111-114 [Box::take]: uninit.rs:351-353 [read] *)
Definition box_take (m : mem) (l : layout) (b : uview) : list (option Z) * uview :=
  (mem_read m (uptr b) (lsize l), box_into_raw b).

(** boxed.rs:150-154 [Box::leak]: a reference to the [lsize l] bytes of the value *)
Definition box_leak (l : layout) (b : uview) : uview :=
  let raw := box_into_raw b in {| uptr := uptr raw; ulen := lsize l; umeta := umeta raw |}.

(** boxed.rs:157-163, leaked.rs:515-520 [Drop]: what drop_in_place sees *)
Definition own_drop (m : mem) (l : layout) (b : uview) : list (option Z) := mem_read m (uptr b) (lsize l).

(** boxed.rs:165-181, leaked.rs:499-513 [deref], [deref_mut]; mem::replace through the reference *)
Definition own_deref (m : mem) (l : layout) (b : uview) : list (option Z) := mem_read m (uptr b) (lsize l).
(** core::mem::replace through boxed.rs:175-181, leaked.rs:507-512 [deref_mut] *)
Definition own_replace (m : mem) (l : layout) (b : uview) (bs : list (option Z)) : mem * list (option Z) :=
  (mem_write m (uptr b) bs, mem_read m (uptr b) (lsize l)).

(** ** static-alloc/src/leaked.rs; a LeakBox is its pointer, seen as a view of the bytes of the value *)

(** leaked.rs:168-179 [new_from_raw_non_null] at the address of [u] *)
Definition lb_new (m : mem) (l : layout) (u : uview) (bs : list (option Z)) : mem * uview :=
  (mem_write m (uptr u) bs, {| uptr := uptr u; ulen := lsize l; umeta := 0 |}).

(** leaked.rs:221-224 [into_raw]; :238-244 [from_raw]; :273-280 [from_mut_unchecked]; :441-451 [from_mut];
    :387-393 [into_pin] *)
Definition lb_into_raw (b : uview) : uview := b.
(** leaked.rs:238-244 [from_raw] *)
Definition lb_from_raw (p : uview) : uview := p.
(** leaked.rs:441-451 [from_mut], 273-280 [from_mut_unchecked] *)
Definition lb_from_mut (r : uview) : uview := lb_from_raw r.
(** leaked.rs:387-393 [into_pin] *)
Definition lb_into_pin (b : uview) : uview := b.

(** leaked.rs:315-323 [leak] *)
Definition lb_leak (b : uview) : uview := lb_into_raw b.

(** leaked.rs:426-433 [take]; ManuallyDrop: no destructor *)
Definition lb_take (m : mem) (l : layout) (b : uview) : list (option Z) := mem_read m (uptr b) (lsize l).

(** uninit.rs:338-343 [into_maybe_uninit], then leaked.rs:526-535 [From<&mut MaybeUninit<T>>] *)
Definition lb_from_uninit (l : layout) (u : uview) : uview := lb_from_raw {| uptr := uptr u; ulen := lsize l; umeta := 0 |}.

(** leaked.rs:476-496 [write] with [assume_init]; dropping the LeakBox<MaybeUninit<T>> does nothing *)
Definition lb_write (m : mem) (b : uview) (bs : list (option Z)) : mem * uview :=
  (mem_write m (uptr b) bs, {| uptr := uptr b; ulen := ulen b; umeta := 0 |}).

(** ** A client *)

(** What token [i] of the client is now.  [OInit]: the Uninit from [Box::into_raw] with the value in it; [OLeakU]:
    LeakBox<MaybeUninit<T>>; [ORaw]: the pointer from [LeakBox::into_raw]; [ORef]: the reference from [leak];
    [OLost]: an owner passed to mem::forget, or the memory of a taken LeakBox. *)
Inductive okind := OUninit | OInit | OBox | OLeakU | OLeak | OPin | ORaw | ORef | OLost | OGone.

(** [olay]: layout of the type; [osized]: it is a sized type, the metadata in the view is meaningless. *)
Record otoken := MkOT { okd : okind; oview : uview; olay : layout; osized : bool }.

(** model only: what happens to a value *)
Inductive oevent := OPut (bs : list (option Z)) | ODropped (bs : list (option Z)) | OTook (bs : list (option Z)).

(** [olog]: what happened to values, with the number of the token. *)
Record ostate := MkO { otoks : list otoken; omem : mem; olog : list (nat * oevent) }.

Inductive oop :=
| ONew (bs : list (option Z)) | OTake | OIntoRaw | OFromRaw | OLeakTo | ODrop | OForget | ODeref
| OReplace (bs : list (option Z))
| OUnsize (d : Z) (ws : list Z)      (* with a coercion that moves the pointer by [d] and attaches [ws] *)
| OCast (l : layout)
| OLNew (bs : list (option Z)) | OToLeakBox | OLWrite (bs : list (option Z)) | OLTake | OIntoPin | OFromMut.

(** what the calls return *)
Inductive oanswer := OADone | OABytes (bs : list (option Z)) | OAErr | OAPanic | OAInvalid.

(** model only: update of a token *)
Definition oset (s : ostate) (i : nat) (k : otoken) (m : mem) (es : list oevent) : ostate :=
  MkO (upd_nth i k (otoks s)) m (olog s ++ map (pair i) es).

(** model only: update of a token *)
Definition become (k : otoken) (kd : okind) (v : uview) : otoken :=
  {| okd := kd; oview := v; olay := olay k; osized := osized k |}.

(** model only: does the call type check *)
Definition sized_val (k : otoken) (bs : list (option Z)) : bool := osized k && (Z.of_nat (length bs) =? lsize (olay k)).

(** Call [o] on token [i].  A call that does not type check is [OAInvalid]. *)
Definition ostep (t : target) (s : ostate) (c : nat * oop) : ostate * oanswer :=
  let (i, o) := c in
  match nth_error (otoks s) i with
  | None => (s, OAInvalid)
  | Some k =>
    let m := omem s in let v := oview k in let l := olay k in
    match o, okd k with
    | ONew bs, OUninit =>
        if sized_val k bs then let (m', b) := box_new m v bs in (oset s i (become k OBox b) m' [OPut bs], OADone)
        else (s, OAInvalid)
    | OTake, OBox =>
        if osized k then let (bs, u) := box_take m l v in (oset s i (become k OUninit u) m [OTook bs], OABytes bs)
        else (s, OAInvalid)
    | OIntoRaw, OBox => (oset s i (become k OInit (box_into_raw v)) m [], OADone)
    | OFromRaw, OInit => (oset s i (become k OBox (box_from_raw v)) m [], OADone)
    | OLeakTo, OBox => (oset s i (become k ORef (box_leak l v)) m [], OADone)
    | OIntoRaw, OLeak => (oset s i (become k ORaw (lb_into_raw v)) m [], OADone)
    | OFromRaw, ORaw => (oset s i (become k OLeak (lb_from_raw v)) m [], OADone)
    | OLeakTo, OLeak => (oset s i (become k ORef (lb_leak v)) m [], OADone)
    | OFromMut, ORef => (oset s i (become k OLeak (lb_from_mut v)) m [], OADone)
    | OIntoPin, OLeak => (oset s i (become k OPin (lb_into_pin v)) m [], OADone)
    | ODrop, (OBox | OLeak | OPin) => (oset s i (become k OGone v) m [ODropped (own_drop m l v)], OADone)
    | ODrop, (OUninit | OLeakU) => (oset s i (become k OGone v) m [], OADone)
    | ODrop, (OInit | ORaw | ORef) => (oset s i (become k OLost v) m [], OADone)   (* no destructor: the value stays *)
    | OForget, (OBox | OLeak | OPin | OInit | ORaw | ORef) => (oset s i (become k OLost v) m [], OADone)
    | OForget, (OUninit | OLeakU) => (oset s i (become k OGone v) m [], OADone)
    | ODeref, (OBox | OLeak | OPin | ORef) => (s, OABytes (own_deref m l v))
    | OReplace bs, (OBox | OLeak | ORef) =>
        if sized_val k bs then let (m', old) := own_replace m l v bs in
          (oset s i k m' [OTook old; OPut bs], OABytes old)
        else (s, OAInvalid)
    | OUnsize d ws, OBox =>
        if osized k then
          match unsize t PBox (uptr v) (ulen v) (fun p => MkRaw (p + d) ws) with
          | Ret (r, n) =>
              (oset s i (MkOT OBox (MkView (raddr r) n (hd 0 (rwords r))) l false) m [], OADone)
          | Panic _ => (oset s i (become k OGone v) m [ODropped (own_drop m l v)], OAPanic)   (* unwinding drops [self] *)
          end
        else (s, OAInvalid)
    | OUnsize d ws, OUninit =>
        if osized k then
          match unsize t PUninit (uptr v) (ulen v) (fun p => MkRaw (p + d) ws) with
          | Ret (r, n) => (oset s i (MkOT OUninit (MkView (raddr r) n (hd 0 (rwords r))) l false) m [], OADone)
          | Panic _ => (oset s i (become k OGone v) m [], OAPanic)
          end
        else (s, OAInvalid)
    | OCast l', OUninit =>
        if osized k then
          match v_cast v l' with
          | Some u => (oset s i (MkOT OUninit u l' true) m [], OADone)
          | None => (s, OAErr)
          end
        else (s, OAInvalid)
    | OLNew bs, OUninit =>
        if sized_val k bs then let (m', b) := lb_new m l v bs in (oset s i (become k OLeak b) m' [OPut bs], OADone)
        else (s, OAInvalid)
    | OToLeakBox, OUninit =>
        if osized k then (oset s i (become k OLeakU (lb_from_uninit l v)) m [], OADone) else (s, OAInvalid)
    | OLWrite bs, OLeakU =>
        if sized_val k bs then let (m', b) := lb_write m v bs in (oset s i (become k OLeak b) m' [OPut bs], OADone)
        else (s, OAInvalid)
    | OLTake, OLeak =>
        if osized k then let bs := lb_take m l v in (oset s i (become k OGone v) m [OTook bs], OABytes bs)
        else (s, OAInvalid)
    | _, _ => (s, OAInvalid)
    end
  end.

(** client of the model: calls in sequence *)
Fixpoint orun (t : target) (s : ostate) (cs : list (nat * oop)) : ostate * list oanswer :=
  match cs with
  | [] => (s, [])
  | c :: cs => let (s1, a) := ostep t s c in let (s2, r) := orun t s1 cs in (s2, a :: r)
  end.

(** A client that owns memory for values: [Uninit<T>] with views [u] for types of layout [l]. *)
Definition oinit (us : list (uview * layout)) (m : mem) : ostate :=
  MkO (map (fun p => MkOT OUninit (fst p) (snd p) true) us) m [].
