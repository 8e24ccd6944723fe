(** * FlakyModel: the allocators on a platform where [align_offset] may give up.

    core's documentation of [align_offset]: "If it is not possible to align the pointer, the implementation returns usize::MAX. ... Only your
    algorithm's performance can depend on getting a usable offset here, not its correctness."  (It happens in constant evaluation and under
    Miri.)  The other models use an [align_offset] that always succeeds; here every call of it has its own answer. *)
From Verif Require Import Base Spec SyncModel UnsyncModel UninitModel ConcModel RelaxedModel.

(** One call of [align_offset]: from address and alignment to the answer. *)
Notation offset_fn := (Z -> Z -> Z).

(** ** static-alloc/src/bump.rs *)

(** bump.rs:583-616 [try_alloc_at] up to the [compare_exchange], as SyncModel.prepare *)
Definition f_prepare (ao : offset_fn) (t : target) (st : block) (l : layout) (expect : Z) : outcome attempt :=
  oassert 0 <? lsize l orpanic P_size ;;
  let length := size st in
  let base_ptr := start st in
  let alignment := lalign l in
  let requested := lsize l in
  oassert expect <=? length orpanic P_expect ;;
  olet available := unwrap P_available (checked_sub length expect) in
  let ptr_to := wrapping_add t base_ptr expect in
  let offset := ao ptr_to alignment in
  if saturating_sub available offset <? requested then Ret AExhausted else
  oassert offset <? available orpanic P_offset ;;
  olet at_aligned := unwrap P_add1 (checked_add t expect offset) in
  olet new_consumed := unwrap P_add2 (checked_add t at_aligned requested) in
  oassert new_consumed <=? length orpanic P_new ;;
  oassert at_aligned <? length orpanic P_at ;;
  oassert expect <=? new_consumed orpanic P_bump1 ;;
  oassert new_consumed <=? length orpanic P_bump2 ;;
  Ret (ACas expect new_consumed at_aligned).

(** bump.rs:583-638 [try_alloc_at] *)
Definition f_try_alloc_at (ao : offset_fn) (t : target) (s : slab) (l : layout) (expect : Z) : slab * outcome result :=
  match f_prepare ao t (storage s) l expect with
  | Panic m => (s, Panic m)
  | Ret AExhausted => (s, Ret (RErr Exhausted))
  | Ret (ACas e new at_aligned) =>
      match compare_exchange (consumed s) e new with
      | (c, Some observed) => ({| storage := storage s; consumed := c |}, Ret (RErr (Mismatch observed)))
      | (c, None) =>
          ({| storage := storage s; consumed := c |},
           match finish (storage s) new at_aligned with Ret a => Ret (ROk a) | Panic m => Panic m end)
      end
  end.

(** bump.rs:565-572 the loop of [try_alloc]; the k-th iteration uses [aos k] *)
Fixpoint f_try_alloc_loop (fuel : nat) (aos : nat -> offset_fn) (k : nat) (t : target) (s : slab) (l : layout) (guess : Z)
  : slab * outcome (option allocation) :=
  match fuel with
  | O => (s, Panic P_fuel)
  | S fuel' =>
      match f_try_alloc_at (aos k) t s l guess with
      | (s', Panic m) => (s', Panic m)
      | (s', Ret (ROk a)) => (s', Ret (Some a))
      | (s', Ret (RErr Exhausted)) => (s', Ret None)
      | (s', Ret (RErr (Mismatch observed))) => f_try_alloc_loop fuel' aos (S k) t s' l observed
      end
  end.
(** bump.rs:561-573 [try_alloc] *)
Definition f_try_alloc (aos : nat -> offset_fn) (t : target) (s : slab) (l : layout) : slab * outcome (option allocation) :=
  f_try_alloc_loop 2 aos 0 t s l 0.

(** bump.rs:363-476, 557-559: the calls, as SyncModel.step *)
Definition f_step (aos : nat -> offset_fn) (t : target) (s : slab) (c : call) : slab * response :=
  match c with
  | CAlloc l => let (s', r) := f_try_alloc aos t s l in (s', of_option r)
  | CAllocAt l lv => let (s', r) := f_try_alloc_at (aos O) t s l lv in (s', of_result r)
  | CGet l =>
      if lsize l =? 0 then (s, of_option (Ret (Some (zst_fake_alloc s l))))
      else let (s', r) := f_try_alloc aos t s l in (s', of_option r)
  | CGetAt l lv =>
      if lsize l =? 0 then (s, of_result (Ret (let fake := zst_fake_alloc s l in if negb (alevel fake =? lv) then RErr (Mismatch (alevel fake)) else ROk fake)))
      else let (s', r) := f_try_alloc_at (aos O) t s l lv in (s', of_result r)
  | CLevel => (s, RLevel (level s))
  | CReset => (reset s, RUnit)
  end.

(** client of the model: calls, each with what [align_offset] answers while it runs *)
Fixpoint f_run (t : target) (s : slab) (cs : list (call * (nat -> offset_fn))) : slab * list event :=
  match cs with
  | [] => (s, [])
  | (c, aos) :: cs' => let (s1, r) := f_step aos t s c in let (s2, h) := f_run t s1 cs' in (s2, (c, r) :: h)
  end.

(** ** Threads, with relaxed accesses (RelaxedModel): every access comes with the answer of the [align_offset] before it. *)
Definition f_raccess (ao : offset_fn) (t : target) (st : block) (m : list Z) (c : call) (guess : Z) (k : nat) (v : Z)
  : option (list Z * nat * tstate) :=
  let try_alloc_at (l : layout) (e : Z) (on_exhausted : response) (on_fail : Z -> tstate) :=
    match f_prepare ao t st l e with
    | Panic msg => Some (m, k, Done c (RPanic msg))
    | Ret AExhausted => Some (m, k, Done c on_exhausted)
    | Ret (ACas e new at_aligned) =>
        match relaxed_cas m k v e new with
        | CasImpossible => None
        | CasFail observed => Some (m, k, on_fail observed)
        | CasOk m' =>
            Some (m', S k, Done c match finish st new at_aligned with Ret a => RBlock a | Panic msg => RPanic msg end)
        end
    end in
  match c with
  | CAlloc l => try_alloc_at l guess RNone (Running c)
  | CAllocAt l lv => try_alloc_at l lv (RFail Exhausted) (fun o => Done c (RFail (Mismatch o)))
  | CGet l =>
      if lsize l =? 0 then Some (m, k, Done c (RBlock (for_zst l v)))
      else try_alloc_at l guess RNone (Running c)
  | CGetAt l lv =>
      if lsize l =? 0 then
        Some (m, k, Done c (if negb (alevel (for_zst l v) =? lv) then RFail (Mismatch (alevel (for_zst l v))) else RBlock (for_zst l v)))
      else try_alloc_at l lv (RFail Exhausted) (fun o => Done c (RFail (Mismatch o)))
  | CLevel => Some (m, k, Done c (RLevel v))
  | CReset => None
  end.

(** client of the model: scheduled actions *)
Inductive faction := FInvoke (i : nat) (c : call) | FAccess (i k : nat) (ao : offset_fn) | FReturn (i : nat).
(** one action, as RelaxedModel.rstep *)
Definition f_rstep (t : target) (st : block) (s : rsys) (a : faction) : rsys :=
  match a with
  | FInvoke i c => rstep t st s (RInvoke i c)
  | FReturn i => rstep t st s (RReturn i)
  | FAccess i k ao =>
      match rthreads s i, nth_error (mo s) k with
      | Running c guess, Some v =>
          if Nat.leb (views s i) k then
            match f_raccess ao t st (mo s) c guess k v with
            | Some (m', k', ts) =>
                {| mo := m'; views := updn (views s) i k'; rthreads := upd (rthreads s) i ts;
                   rhist := match ts with Done c' r => ELin i c' r :: rhist s | _ => rhist s end |}
            | None => s
            end
          else s
      | _, _ => s
      end
  end.
(** client of the model: a schedule *)
Definition f_rrun (t : target) (st : block) (s : rsys) (sched : list faction) : rsys := fold_left (f_rstep t st) sched s.

(** ** static-alloc/src/unsync/bump.rs *)

(** unsync/bump.rs:489-549 [try_alloc_at] *)
Definition f_u_try_alloc_at (ao : offset_fn) (t : target) (u : ubump) (l : layout) (expect : Z) : ubump * outcome result :=
  if negb (0 <? lsize l) then (u, Panic PU_size) else
  let length := size (udata u) in
  let base_ptr := start (udata u) in
  let alignment := lalign l in
  let requested := lsize l in
  if negb (expect <=? length) then (u, Panic PU_expect) else
  match checked_sub length expect with
  | None => (u, Panic PU_available)
  | Some available =>
      let ptr_to := wrapping_add t base_ptr expect in
      let offset := ao ptr_to alignment in
      if some_gt requested (checked_sub available offset) then (u, Ret (RErr Exhausted)) else
      if negb (offset <? available) then (u, Panic PU_offset) else
      match checked_add t expect offset with
      | None => (u, Panic PU_add1)
      | Some at_aligned =>
          match checked_add t at_aligned requested with
          | None => (u, Panic PU_add2)
          | Some new_consumed =>
              if negb (new_consumed <=? length) then (u, Panic PU_new) else
              if negb (at_aligned <? length) then (u, Panic PU_at) else
              match u_bump t u expect new_consumed with
              | (u', Panic m) => (u', Panic m)
              | (u', Ret (Some observed)) => (u', Ret (RErr (Mismatch observed)))
              | (u', Ret None) =>
                  let aligned := base_ptr + at_aligned in
                  if aligned =? 0 then (u', Panic PU_null)
                  else (u', Ret (ROk {| ptr := aligned; alevel := new_consumed |}))
              end
          end
      end
  end.
(** unsync/bump.rs:478-487 [try_alloc] *)
Definition f_u_try_alloc (ao : offset_fn) (t : target) (u : ubump) (l : layout) : ubump * outcome (option allocation) :=
  match f_u_try_alloc_at ao t u l (uindex u) with
  | (u', Panic m) => (u', Panic m)
  | (u', Ret (ROk a)) => (u', Ret (Some a))
  | (u', Ret (RErr Exhausted)) => (u', Ret None)
  | (u', Ret (RErr (Mismatch _))) => (u', Panic PU_unreachable)
  end.
(** unsync/bump.rs:454-463 [bump_array] *)
Definition f_u_bump_array (ao : offset_fn) (t : target) (u : ubump) (l : layout) (n : Z) : ubump * outcome result :=
  match layout_array t l n with
  | None => (u, Ret (RErr Exhausted))
  | Some la =>
      match f_u_try_alloc ao t u la with
      | (u', Panic m) => (u', Panic m)
      | (u', Ret None) => (u', Ret (RErr Exhausted))
      | (u', Ret (Some a)) => (u', Ret (ROk a))
      end
  end.
(** the calls, as UnsyncModel.ustep; each asks [align_offset] once *)
Definition f_ustep (ao : offset_fn) (t : target) (u : ubump) (c : ucall) : ubump * response :=
  match c with
  | UCall (CAlloc l) | UCall (CGet l) => let (u', r) := f_u_try_alloc ao t u l in (u', of_option r)
  | UCall (CAllocAt l lv) | UCall (CGetAt l lv) => let (u', r) := f_u_try_alloc_at ao t u l lv in (u', of_result r)
  | UCall CLevel => (u, RLevel (u_level u))
  | UCall CReset => (u_reset u, RUnit)
  | UBumpBox l => let (u', r) := f_u_try_alloc_at ao t u l (u_level u) in (u', of_result r)
  | UBumpArray l n => let (u', r) := f_u_bump_array ao t u l n in (u', of_result r)
  end.
(** client of the model *)
Fixpoint f_urun (t : target) (u : ubump) (cs : list (ucall * offset_fn)) : ubump * list uevent :=
  match cs with
  | [] => (u, [])
  | (c, ao) :: cs' => let (u1, r) := f_ustep ao t u c in let (u2, h) := f_urun t u1 cs' in (u2, (c, r) :: h)
  end.

(** unsync/bump.rs:150-159 [from_mem] *)
Definition f_from_mem (ao : offset_fn) (t : target) (m : mem) (b : block) : mem * outcome (option fat) :=
  let header := header_layout t in
  let offset := ao (start b) (lalign header) in
  if size b <? offset then (m, Ret None)
  else
    let b' := MkBlock (start b + offset) (size b - offset) in
    if size b' <? lsize header then (m, Ret None)
    else
      let m' := mem_fill m (start b') (lsize header) (Some 0) in
      (m', match from_mem_unchecked t b' with Ret f => Ret (Some f) | Panic e => Panic e end).

(** ** without-alloc/src/uninit.rs *)

(** uninit.rs:892-895 [fits] *)
Definition f_fits (ao : offset_fn) (v : uview) (l : layout) : bool := (ao (uptr v) (lalign l) =? 0) && (lsize l <=? ulen v).
(** uninit.rs:237-241, 734-745 [cast] *)
Definition f_cast (ao : offset_fn) (v : uview) (l : layout) : option uview :=
  if negb (f_fits ao v l) then None else Some {| uptr := uptr v; ulen := ulen v; umeta := 0 |}.
(** uninit.rs:248-252, 658-681 [cast_slice] *)
Definition f_cast_slice (ao : offset_fn) (t : target) (v : uview) (l : layout) : option uview :=
  let empty := {| lsize := 0; lalign := lalign l |} in
  if negb (f_fits ao v empty) then None
  else
    let slice_len := if lsize l =? 0 then usize_max t else ulen v / lsize l in
    Some {| uptr := uptr v; ulen := ulen v; umeta := slice_len |}.

(** uninit.rs:145-148, 561-575 [split_layout], as UninitModel.v_split_layout: the first question is about a pointer to a zero-sized type, the
    second one is the one of [fits] *)
Definition f_split_layout (ao0 ao1 : offset_fn) (v : uview) (l : layout) : outcome (uview * option uview) :=
  let align := ao0 (uptr v) (lalign l) in
  match (match checked_sub (ulen v) align with
         | None => None
         | Some len => checked_sub len (lsize l)
         end) with
  | None => Ret (v, None)
  | Some _ =>
      match v_split_at_byte unit_layout v align with
      | (v', None) => Ret (v', None)
      | (v', Some aligned) => oassert f_fits ao1 aligned l orpanic PN_fits ;; Ret (v', Some aligned)
      end
  end.
(** uninit.rs:166-170, 589-593 [split_cast]: a third question in [cast] *)
Definition f_split_cast (ao0 ao1 ao2 : offset_fn) (v : uview) (l : layout) : outcome (uview * option uview) :=
  olet r := f_split_layout ao0 ao1 v l in
  match r with
  | (v', None) => Ret (v', None)
  | (v', Some s) => olet c := unwrap PN_cast (f_cast ao2 s l) in Ret (v', Some c)
  end.
(** uninit.rs:180-185, 596-601 [split_slice] *)
Definition f_split_slice (ao0 ao1 ao2 : offset_fn) (t : target) (v : uview) (l : layout) : outcome (uview * option uview) :=
  olet r := f_split_layout ao0 ao1 v {| lsize := 0; lalign := lalign l |} in
  match r with
  | (v', None) => Ret (v', None)
  | (v', Some s) => olet c := unwrap PN_cast (f_cast_slice ao2 t s l) in Ret (v', Some c)
  end.
