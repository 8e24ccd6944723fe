(** * UnsyncModel: static-alloc/src/unsync/bump.rs, [Bump<T>] and [MemBump]. *)
From Verif Require Import Base Spec SyncModel.

(** unsync/bump.rs:81-100 [MemBump]: the data region and the value of [index]. *)
Record ubump := MkU { udata : block; uindex : Z }.

(** unsync/bump.rs:252-257 [capacity], 466-468 [level], 474-476 [reset] *)
Definition u_capacity (u : ubump) : Z := size (udata u).
(** unsync/bump.rs:466-468 [level] *)
Definition u_level (u : ubump) : Z := uindex u.
(** unsync/bump.rs:474-476 [reset] *)
Definition u_reset (u : ubump) : ubump := {| udata := udata u; uindex := 0 |}.

(** Panic sites of unsync/bump.rs *)
Definition PU_size : nat := 101.        (* :494 assert!(layout.size() > 0) *)
Definition PU_expect : nat := 102.      (* :505 assert!(expect_consumed <= length) *)
Definition PU_available : nat := 103.   (* :507 checked_sub unwrap *)
Definition PU_offset : nat := 104.      (* :516 assert!(offset < available) *)
Definition PU_add1 : nat := 105.        (* :517 *)
Definition PU_add2 : nat := 106.        (* :518 *)
Definition PU_new : nat := 107.         (* :524 *)
Definition PU_at : nat := 108.          (* :525 *)
Definition PU_bump1 : nat := 109.       (* :552 debug_assert!(consume <= capacity) *)
Definition PU_bump2 : nat := 110.       (* :553 debug_assert!(expect <= consume) *)
Definition PU_null : nat := 111.        (* :545 NonNull::new(aligned).unwrap() *)
Definition PU_unreachable : nat := 112. (* :483-485 unreachable!(..) *)
Definition PU_unchecked : nat := 113.   (* :393 debug_assert!(level < capacity) *)
Definition PU_layout : nat := 114.      (* :128 expect("Bad layout") *)
Definition PU_deref : nat := 115.       (* :575, :590 debug_assert_eq!(from_layout, ..) *)
Definition PU_sub : nat := 116.         (* :186 overflow of mem.len() - header.size() *)
Definition PU_fits : nat := 117.        (* :190 debug_assert!(layout_from_size(..)..) *)

(** debug_assert!(b) *)
Definition debug_ok (t : target) (b : bool) : bool := negb (debug t) || b.

(** unsync/bump.rs:551-561 [bump]: new state and, on failure, the previous index *)
Definition u_bump (t : target) (u : ubump) (expect consume : Z) : ubump * outcome (option Z) :=
  if negb (debug_ok t (consume <=? u_capacity u)) then (u, Panic PU_bump1) else
  if negb (debug_ok t (expect <=? consume)) then (u, Panic PU_bump2) else
  let prev := uindex u in
  if negb (prev =? expect) then (u, Ret (Some prev))
  else ({| udata := udata u; uindex := consume |}, Ret None).

(** [Some(requested) > x], the derived ordering of Option: None is below every Some. *)
Definition some_gt (requested : Z) (x : option Z) : bool :=
  match x with None => true | Some a => a <? requested end.

(** unsync/bump.rs:489-549 [try_alloc_at] *)
Definition u_try_alloc_at (t : target) (u : ubump) (l : layout) (expect : Z)
  : ubump * outcome result :=
  if negb (0 <? lsize l) then (u, Panic PU_size) else
  let length := size (udata u) in
  let base_ptr := start (udata u) in
  let alignment := lalign l in
  let requested := lsize l in
  if negb (expect <=? length) then (u, Panic PU_expect) else
  match checked_sub length expect with
  | None => (u, Panic PU_available)
  | Some available =>
      let ptr_to := wrapping_add t base_ptr expect in
      let offset := align_offset1 ptr_to alignment in
      if some_gt requested (checked_sub available offset) then (u, Ret (RErr Exhausted)) else
      if negb (offset <? available) then (u, Panic PU_offset) else
      match checked_add t expect offset with
      | None => (u, Panic PU_add1)
      | Some at_aligned =>
          match checked_add t at_aligned requested with
          | None => (u, Panic PU_add2)
          | Some new_consumed =>
              if negb (new_consumed <=? length) then (u, Panic PU_new) else
              if negb (at_aligned <? length) then (u, Panic PU_at) else
              match u_bump t u expect new_consumed with
              | (u', Panic m) => (u', Panic m)
              | (u', Ret (Some observed)) => (u', Ret (RErr (Mismatch observed)))
              | (u', Ret None) =>
                  let aligned := base_ptr + at_aligned in
                  if aligned =? 0 then (u', Panic PU_null)
                  else (u', Ret (ROk {| ptr := aligned; alevel := new_consumed |}))
              end
          end
      end
  end.

(** unsync/bump.rs:478-487 [try_alloc] *)
Definition u_try_alloc (t : target) (u : ubump) (l : layout) : ubump * outcome (option allocation) :=
  let consumed := uindex u in
  match u_try_alloc_at t u l consumed with
  | (u', Panic m) => (u', Panic m)
  | (u', Ret (ROk a)) => (u', Ret (Some a))
  | (u', Ret (RErr Exhausted)) => (u', Ret None)
  | (u', Ret (RErr (Mismatch _))) => (u', Panic PU_unreachable)
  end.

(** unsync/bump.rs:434-439 [bump_box] for a type of layout [l]; the box's level is not exposed. *)
Definition u_bump_box (t : target) (u : ubump) (l : layout) : ubump * outcome result :=
  u_try_alloc_at t u l (u_level u).

(** unsync/bump.rs:454-463 [bump_array] of [n] elements of layout [l]: address of the slice of length n *)
Definition u_bump_array (t : target) (u : ubump) (l : layout) (n : Z) : ubump * outcome result :=
  match layout_array t l n with
  | None => (u, Ret (RErr Exhausted))
  | Some la =>
      match u_try_alloc t u la with
      | (u', Panic m) => (u', Panic m)
      | (u', Ret None) => (u', Ret (RErr Exhausted))
      | (u', Ret (Some a)) => (u', Ret (ROk a))
      end
  end.

(** unsync/bump.rs:392-403 [get_unchecked] (the level argument is returned unchanged) *)
Definition u_get_unchecked (t : target) (u : ubump) (lv : Z) : outcome allocation :=
  if negb (debug_ok t (lv <? u_capacity u)) then Panic PU_unchecked
  else Ret {| ptr := start (udata u) + lv; alevel := lv |}.

(** ** The API as a step function.
    [UCall (CAlloc ..)]: alloc (280-282); [CAllocAt]: alloc_at (292-295); [CGet]: get (320-327);
    [CGetAt]: get_at (335-342); unlike the sync bump, get/get_at have no special case for zero-sized
    types. *)
Inductive ucall :=
| UCall (c : call)
| UBumpBox (l : layout)
| UBumpArray (l : layout) (n : Z).

(** a call of the client, through the functions cited above *)
Definition ustep (t : target) (u : ubump) (c : ucall) : ubump * response :=
  match c with
  | UCall (CAlloc l) | UCall (CGet l) => let (u', r) := u_try_alloc t u l in (u', of_option r)
  | UCall (CAllocAt l lv) | UCall (CGetAt l lv) =>
      let (u', r) := u_try_alloc_at t u l lv in (u', of_result r)
  | UCall CLevel => (u, RLevel (u_level u))
  | UCall CReset => (u_reset u, RUnit)
  | UBumpBox l => let (u', r) := u_bump_box t u l in (u', of_result r)
  | UBumpArray l n => let (u', r) := u_bump_array t u l n in (u', of_result r)
  end.

(** model only *)
Definition uevent := (ucall * response)%type.

(** client of the model: calls in sequence *)
Fixpoint urun (t : target) (u : ubump) (cs : list ucall) : ubump * list uevent :=
  match cs with
  | [] => (u, [])
  | c :: cs' => let (u1, r) := ustep t u c in
                let (u2, h) := urun t u1 cs' in (u2, (c, r) :: h)
  end.

(** unsync/bump.rs:106-111 [Bump::uninit], 116-121 [Bump::zeroed] (as seen through Deref) *)
Definition u_fresh (d : block) : ubump := {| udata := d; uindex := 0 |}.

(** ** Representation in memory *)

(** unsync/bump.rs:232-234 [header_layout]: Layout::new::<Cell<usize>>() *)
Definition header_layout (t : target) : layout := {| lsize := word_bytes t; lalign := usize_align t |}.

(** unsync/bump.rs:237-239 [data_layout]: an array of [size] bytes *)
Definition data_layout (t : target) (sz : Z) : option layout :=
  layout_array t {| lsize := 1; lalign := 1 |} sz.

(** unsync/bump.rs:243-247 [layout_from_size] *)
Definition layout_from_size (t : target) (sz : Z) : option layout :=
  match data_layout t sz with
  | None => None
  | Some tail => match layout_extend t (header_layout t) tail with
                 | None => None
                 | Some (l, _) => Some (pad_to_align l)
                 end
  end.

(** A fat pointer to a MemBump: address of the header and length of the data slice (the metadata). *)
Record fat := MkFat { faddr : Z; flen : Z }.

(** repr(C) of MemBump: [index] at offset 0, [data] directly behind it (bytes have alignment 1). *)
Definition fat_data (t : target) (f : fat) : block := MkBlock (faddr f + word_bytes t) (flen f).

(** mem::size_of_val / Layout::for_value of a MemBump *)
Definition fat_layout (t : target) (f : fat) : layout :=
  {| lsize := align_up (word_bytes t + flen f) (usize_align t); lalign := usize_align t |}.

(** A usize stored at [p], little endian (simplification; only zero and unchanged bytes matter to the
    claims), bytes being numbers below 256: [None] if some byte is uninitialised. *)
Fixpoint load_bytes (m : mem) (p : Z) (n : nat) : option Z :=
  match n with
  | O => Some 0
  | S n' => match m p, load_bytes m (p + 1) n' with
            | Some b, Some r => Some (b + 256 * r)
            | _, _ => None
            end
  end.
(** read of a usize *)
Definition load_usize (t : target) (m : mem) (p : Z) : option Z := load_bytes m p (Z.to_nat (word_bytes t)).

(** The allocator that a fat pointer and memory represent; [None] if its index is uninitialised. *)
Definition view (t : target) (m : mem) (f : fat) : option ubump :=
  match load_usize t m (faddr f) with
  | None => None
  | Some i => Some {| udata := fat_data t f; uindex := i |}
  end.

(** unsync/bump.rs:181-197 [from_aligned_mem] of the byte slice [b] *)
Definition from_aligned_mem (t : target) (b : block) : outcome fat :=
  let header := header_layout t in
  olet datasize0 := op_sub t PU_sub (size b) (lsize header) in
  let datasize := datasize0 - datasize0 mod lalign header in
  oassert debug_ok t (match layout_from_size t datasize with
                      | Some l => lsize l <=? size b
                      | None => false
                      end) orpanic PU_fits ;;
  Ret {| faddr := start b; flen := datasize |}.

(** unsync/bump.rs:174-177 [from_mem_unchecked] *)
Definition from_mem_unchecked (t : target) (b : block) : outcome fat := from_aligned_mem t b.

(** unsync/bump.rs:150-159 [from_mem]: memory afterwards, and the allocator ([None] = FromMemError) *)
Definition from_mem (t : target) (m : mem) (b : block) : mem * outcome (option fat) :=
  let header := header_layout t in
  let offset := align_offset1 (start b) (lalign header) in
  if size b <? offset then (m, Ret None)                       (* get_mut(offset..) *)
  else
    let b' := MkBlock (start b + offset) (size b - offset) in
    if size b' <? lsize header then (m, Ret None)               (* get_mut(..header.size()) *)
    else
      let m' := mem_fill m (start b') (lsize header) (Some 0) in
      (m', match from_mem_unchecked t b' with
           | Ret f => Ret (Some f)
           | Panic e => Panic e
           end).

(** unsync/bump.rs:221-225 [into_mem] *)
Definition into_mem (t : target) (f : fat) : block := MkBlock (faddr f) (lsize (fat_layout t f)).

(** unsync/bump.rs:127-133 [MemBump::new]: [heap] is the address returned by alloc::alloc::alloc for the
    layout ([None]: out of memory, which aborts; not modelled as a panic of this code).  The memory is not
    written. *)
Definition membump_new (t : target) (cap : Z) (heap : layout -> Z) : outcome (fat * layout) :=
  match layout_from_size t cap with
  | None => Panic PU_layout
  | Some l => Ret ({| faddr := heap l; flen := cap |}, l)
  end.

(** unsync/bump.rs:65-72 repr(C) layout of [Bump<T>] for T of layout [l]: offset of the storage and
    layout of the struct *)
Definition bump_offset (t : target) (l : layout) : Z := align_up (word_bytes t) (lalign l).
(** layout of [Bump<T>]: unsync/bump.rs:65-72 *)
Definition bump_layout (t : target) (l : layout) : layout :=
  let al := Z.max (usize_align t) (lalign l) in
  {| lsize := align_up (bump_offset t l + lsize l) al; lalign := al |}.

(** model only: decidable equality *)
Definition layout_eqb (a b : layout) : bool := (lsize a =? lsize b) && (lalign a =? lalign b).

(** unsync/bump.rs:564-578 Deref and 580-593 DerefMut of a [Bump<T>] at [base] *)
Definition bump_deref (t : target) (base : Z) (l : layout) : outcome fat :=
  let from_layout := bump_layout t l in
  let f := {| faddr := base; flen := lsize l |} in
  oassert debug_ok t (layout_eqb from_layout (fat_layout t f)) orpanic PU_deref ;;
  Ret f.
