(** * SyncModel: static-alloc/src/bump.rs, the thread safe [Bump<T>], one call at a time.

    The storage [UnsafeCell<MaybeUninit<T>>] is a region of size_of::<T>() bytes at some address. *)
From Verif Require Import Base Spec.

(** bump.rs:244 [Level], bump.rs:250-259 [Allocation] (the lifetime is a compile-time artefact),
    bump.rs:265-277 [Failure]. *)
Record allocation := MkAlloc { ptr : Z; alevel : Z }.
(** bump.rs:265-277 [Failure] *)
Inductive failure := Exhausted | Mismatch (observed : Z).

(** bump.rs:147-158 [Bump<T>]: the region occupied by [storage] and the counter [consumed].
    The contents of the storage are modelled in SyncMemModel.v. *)
Record slab := MkSlab { storage : block; consumed : Z }.

(** bump.rs:283-311 [uninit], [zeroed], [new]: all start with consumed = 0. *)
Definition fresh (st : block) : slab := {| storage := st; consumed := 0 |}.

(** bump.rs:351-353 [reset] *)
Definition reset (s : slab) : slab := {| storage := storage s; consumed := 0 |}.

(** bump.rs:557-559 [level] *)
Definition level (s : slab) : Z := consumed s.

(** Names of the panic sites of bump.rs *)
Definition P_size : nat := 1.          (* :586 assert!(layout.size() > 0) *)
Definition P_expect : nat := 2.        (* :596 assert!(expect_consumed <= length) *)
Definition P_available : nat := 3.     (* :598 checked_sub unwrap *)
Definition P_offset : nat := 4.        (* :607 assert!(offset < available) *)
Definition P_add1 : nat := 5.          (* :608 checked_add unwrap *)
Definition P_add2 : nat := 6.          (* :609 checked_add unwrap *)
Definition P_new : nat := 7.           (* :615 assert!(new_consumed <= length) *)
Definition P_at : nat := 8.            (* :616 assert!(at_aligned < length) *)
Definition P_bump1 : nat := 9.         (* :777 assert!(expect_consumed <= new_consumed) *)
Definition P_bump2 : nat := 10.        (* :778 assert!(new_consumed <= size_of T) *)
Definition P_null : nat := 11.         (* :634 NonNull::new(aligned).unwrap() *)
Definition P_fuel : nat := 99.         (* not in the code: the model's loop bound was exceeded *)

(** What one attempt is going to do to the shared counter. *)
Inductive attempt :=
| AExhausted
| ACas (expect new at_aligned : Z).

(** bump.rs:583-616 [try_alloc_at], everything before the call of [bump], and the two assertions at
    the start of [bump], bump.rs:777-778.  This part reads no shared mutable state. *)
Definition prepare (t : target) (st : block) (l : layout) (expect : Z) : outcome attempt :=
  oassert 0 <? lsize l orpanic P_size ;;
  let length := size st in
  let base_ptr := start st in
  let alignment := lalign l in
  let requested := lsize l in
  oassert expect <=? length orpanic P_expect ;;
  olet available := unwrap P_available (checked_sub length expect) in
  let ptr_to := wrapping_add t base_ptr expect in
  let offset := align_offset1 ptr_to alignment in
  if saturating_sub available offset <? requested then Ret AExhausted else
  oassert offset <? available orpanic P_offset ;;
  olet at_aligned := unwrap P_add1 (checked_add t expect offset) in
  olet new_consumed := unwrap P_add2 (checked_add t at_aligned requested) in
  oassert new_consumed <=? length orpanic P_new ;;
  oassert at_aligned <? length orpanic P_at ;;
  oassert expect <=? new_consumed orpanic P_bump1 ;;
  oassert new_consumed <=? length orpanic P_bump2 ;;
  Ret (ACas expect new_consumed at_aligned).

(** bump.rs:780-786 the [compare_exchange] on the counter: new counter, and the observed value on
    failure. *)
Definition compare_exchange (cur expect new : Z) : Z * option Z :=
  if cur =? expect then (new, None) else (cur, Some cur).

(** bump.rs:627-637 the allocation returned after a successful [bump] *)
Definition finish (st : block) (new at_aligned : Z) : outcome allocation :=
  let aligned := start st + at_aligned in
  oassert negb (aligned =? 0) orpanic P_null ;;
  Ret {| ptr := aligned; alevel := new |}.

(** Results of a call that can fail with a [Failure]: Result<Allocation, Failure> *)
Inductive result := ROk (a : allocation) | RErr (f : failure).

(** bump.rs:583-638 [try_alloc_at] *)
Definition try_alloc_at (t : target) (s : slab) (l : layout) (expect : Z)
  : slab * outcome result :=
  match prepare t (storage s) l expect with
  | Panic m => (s, Panic m)
  | Ret AExhausted => (s, Ret (RErr Exhausted))
  | Ret (ACas e new at_aligned) =>
      match compare_exchange (consumed s) e new with
      | (c, Some observed) =>
          ({| storage := storage s; consumed := c |}, Ret (RErr (Mismatch observed)))
      | (c, None) =>
          ({| storage := storage s; consumed := c |},
           match finish (storage s) new at_aligned with
           | Ret a => Ret (ROk a)
           | Panic m => Panic m
           end)
      end
  end.

(** bump.rs:565-572 the loop of [try_alloc]; [fuel] bounds the number of iterations of the model (never
    reached: sequentially two iterations suffice, see [try_alloc_fuel]; for the concurrent loop see
    ConcModel.v). *)
Fixpoint try_alloc_loop (fuel : nat) (t : target) (s : slab) (l : layout) (guess : Z)
  : slab * outcome (option allocation) :=
  match fuel with
  | O => (s, Panic P_fuel)
  | S fuel' =>
      match try_alloc_at t s l guess with
      | (s', Panic m) => (s', Panic m)
      | (s', Ret (ROk a)) => (s', Ret (Some a))
      | (s', Ret (RErr Exhausted)) => (s', Ret None)
      | (s', Ret (RErr (Mismatch observed))) => try_alloc_loop fuel' t s' l observed
      end
  end.

(** bump.rs:561-573 [try_alloc]: the first guess is zero. *)
Definition try_alloc (t : target) (s : slab) (l : layout) : slab * outcome (option allocation) :=
  try_alloc_loop 2 t s l 0.

(** bump.rs:837-850 [Allocation::for_zst] and bump.rs:759-761 [zst_fake_alloc].  The pointer is the
    address of a promoted empty array, i.e. some aligned non-null address; the model uses the least
    one (simplification: only its alignment is relevant). *)
Definition for_zst (l : layout) (lv : Z) : allocation := {| ptr := lalign l; alevel := lv |}.
(** bump.rs:759-761 [zst_fake_alloc] *)
Definition zst_fake_alloc (s : slab) (l : layout) : allocation := for_zst l (level s).

(** bump.rs:435-448 [get::<V>], where [l] is the layout of V *)
Definition get (t : target) (s : slab) (l : layout) : slab * outcome (option allocation) :=
  if lsize l =? 0 then (s, Ret (Some (zst_fake_alloc s l)))
  else try_alloc t s l.

(** bump.rs:455-476 [get_at::<V>] *)
Definition get_at (t : target) (s : slab) (l : layout) (lv : Z) : slab * outcome result :=
  if lsize l =? 0 then
    let fake := zst_fake_alloc s l in
    if negb (alevel fake =? lv) then (s, Ret (RErr (Mismatch (alevel fake))))
    else (s, Ret (ROk fake))
  else try_alloc_at t s l lv.

(** ** The whole shared API as a step function *)

(** Calls.  [CAlloc]: alloc (bump.rs:363-365), get_layout (393-397) and LocalAlloc::alloc (922-931);
    [CAllocAt]: alloc_at (375-385), get_layout_at (408-412); [CGet]: get, and through it leak and
    leak_box; [CGetAt]: get_at, leak_at, leak_box_at; [CLevel]: level; [CReset]: reset (needs &mut). *)
Inductive call :=
| CAlloc (l : layout)
| CAllocAt (l : layout) (lv : Z)
| CGet (l : layout)
| CGetAt (l : layout) (lv : Z)
| CLevel
| CReset.

Inductive response :=
| RBlock (a : allocation)      (* Some(..) / Ok(..) *)
| RNone                        (* None *)
| RFail (f : failure)          (* Err(..) *)
| RLevel (lv : Z)
| RUnit
| RPanic (m : nat).

(** model only: results as responses *)
Definition of_option (x : outcome (option allocation)) : response :=
  match x with Ret (Some a) => RBlock a | Ret None => RNone | Panic m => RPanic m end.
(** model only: results as responses *)
Definition of_result (x : outcome result) : response :=
  match x with Ret (ROk a) => RBlock a | Ret (RErr f) => RFail f | Panic m => RPanic m end.

(** a call of the client, through the functions cited above *)
Definition step (t : target) (s : slab) (c : call) : slab * response :=
  match c with
  | CAlloc l => let (s', r) := try_alloc t s l in (s', of_option r)
  | CAllocAt l lv => let (s', r) := try_alloc_at t s l lv in (s', of_result r)
  | CGet l => let (s', r) := get t s l in (s', of_option r)
  | CGetAt l lv => let (s', r) := get_at t s l lv in (s', of_result r)
  | CLevel => (s, RLevel (level s))
  | CReset => (reset s, RUnit)
  end.

(** A history: every call with its response, oldest first. *)
Definition event := (call * response)%type.

(** client of the model: calls in sequence *)
Fixpoint run (t : target) (s : slab) (cs : list call) : slab * list event :=
  match cs with
  | [] => (s, [])
  | c :: cs' => let (s1, r) := step t s c in
                let (s2, h) := run t s1 cs' in (s2, (c, r) :: h)
  end.
