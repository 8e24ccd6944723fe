(** * SyncMemModel: the contents of a sync [Bump] and everything that writes to it.

    static-alloc/src/bump.rs: GlobalAlloc and LocalAlloc implementations, leak, leak_at, leak_box,
    leak_box_at; core's provided GlobalAlloc::alloc_zeroed; alloc-traits' provided
    LocalAlloc::alloc_zeroed; static-alloc/src/leaked.rs: writing and dropping of a LeakBox. *)
From Verif Require Import Base Spec SyncModel.

(** A slab together with the byte memory of the whole address space. *)
Record mslab := MkM { sl : slab; bytes : mem }.

(** bump.rs:295-300 [zeroed]: consumed = 0 and all
    storage bytes zero.  bump.rs:283-287 [uninit]: any bytes. *)
Definition uninit_slab (st : block) (m : mem) : mslab := {| sl := fresh st; bytes := m |}.
(** bump.rs:295-300 [zeroed] *)
Definition zeroed_slab (st : block) (m : mem) : mslab :=
  {| sl := fresh st; bytes := mem_fill m (start st) (size st) (Some 0) |}.

(** A Rust value of some type V: its identity (used only to track drops) and its byte representation,
    of length size_of::<V>(). *)
Record value := MkValue { vid : nat; vbytes : list (option Z) }.

(** alloc-traits/src/layout.rs:45-51 [NonZeroLayout::from_layout] *)
Definition nonzero_from_layout (l : layout) : option layout :=
  if lsize l =? 0 then None else Some l.

(** bump.rs:910-917 [layout_reallocated]; the inner outcome is the [unwrap] of from_layout. *)
Definition P_layout_unwrap : nat := 20.
(** bump.rs:910-917 [layout_reallocated] *)
Definition layout_reallocated (t : target) (l : layout) (new_size : Z) : option (outcome layout) :=
  match from_size_align t new_size (lalign l) with
  | None => None
  | Some l' => Some (unwrap P_layout_unwrap (nonzero_from_layout l'))
  end.

(** model only: update of a field *)
Definition with_sl (m : mslab) (s : slab) : mslab := {| sl := s; bytes := bytes m |}.
(** model only: update of a field *)
Definition with_bytes (m : mslab) (b : mem) : mslab := {| sl := sl m; bytes := b |}.

(** bump.rs:363-365 [Bump::alloc]: the pointer of the allocation *)
Definition bump_alloc (t : target) (m : mslab) (l : layout) : mslab * outcome (option Z) :=
  match try_alloc t (sl m) l with
  | (s, Ret (Some a)) => (with_sl m s, Ret (Some (ptr a)))
  | (s, Ret None) => (with_sl m s, Ret None)
  | (s, Panic p) => (with_sl m s, Panic p)
  end.

(** bump.rs:872-876 GlobalAlloc::alloc; the null pointer is [None]. *)
Definition ga_alloc (t : target) (m : mslab) (l : layout) : mslab * outcome (option Z) :=
  bump_alloc t m l.

(** core: provided GlobalAlloc::alloc_zeroed (bump.rs does not override it): alloc, then write_bytes
    unless null. *)
Definition ga_alloc_zeroed (t : target) (m : mslab) (l : layout) : mslab * outcome (option Z) :=
  match ga_alloc t m l with
  | (m', Ret (Some p)) => (with_bytes m' (mem_fill (bytes m') p (lsize l) (Some 0)), Ret (Some p))
  | r => r
  end.

(** bump.rs:920-929 LocalAlloc::alloc (through get_layout, 393-397) *)
Definition la_alloc (t : target) (m : mslab) (l : layout) : mslab * outcome (option Z) :=
  bump_alloc t m l.

(** alloc-traits/src/util.rs:27-39 LocalAlloc::alloc_zeroed's default *)
Definition la_alloc_zeroed (t : target) (m : mslab) (l : layout) : mslab * outcome (option Z) :=
  match la_alloc t m l with
  | (m', Ret (Some p)) => (with_bytes m' (mem_fill (bytes m') p (lsize l) (Some 0)), Ret (Some p))
  | r => r
  end.

(** bump.rs:944-969 LocalAlloc::realloc of the allocation (p, l) to layout [l'] *)
Definition la_realloc (t : target) (m : mslab) (p : Z) (l l' : layout) : mslab * outcome (option Z) :=
  if (p mod lalign l' =? 0) && (lsize l' <=? lsize l) then (m, Ret (Some p))
  else
    match la_alloc t m l' with
    | (m', Ret (Some q)) =>
        (with_bytes m' (mem_copy (bytes m') p q (Z.min (lsize l') (lsize l))), Ret (Some q))
    | r => r
    end.

(** bump.rs:878-903 GlobalAlloc::realloc *)
Definition ga_realloc (t : target) (m : mslab) (p : Z) (l : layout) (new_size : Z)
  : mslab * outcome (option Z) :=
  match nonzero_from_layout l with
  | None => (m, Panic P_layout_unwrap)
  | Some cur =>
      match layout_reallocated t cur new_size with
      | None => (m, Ret None)
      | Some (Panic e) => (m, Panic e)
      | Some (Ret tgt) => la_realloc t m p cur tgt
      end
  end.

(** bump.rs:905-907 GlobalAlloc::dealloc and bump.rs:971-973 LocalAlloc::dealloc: empty bodies *)
Definition ga_dealloc (m : mslab) (p : Z) (l : layout) : mslab := m.
(** bump.rs:971-973 [dealloc] *)
Definition la_dealloc (m : mslab) (p : Z) (l : layout) : mslab := m.

(** bump.rs:802-806 [Allocation::leak] and leaked.rs:168-176 [LeakBox::new_from_raw_non_null]:
    core::ptr::write of the value; the moved value is not dropped. *)
Definition write_value (m : mslab) (p : Z) (v : value) : mslab :=
  with_bytes m (mem_write (bytes m) p (vbytes v)).

(** Result of leak: the reference, or LeakError{val, failure} (bump.rs:165-169, 852-866) *)
Inductive leaked := Leaked (a : allocation) | LeakError (v : value) (f : failure).

(** bump.rs:701-707 [leak] *)
Definition leak (t : target) (m : mslab) (l : layout) (v : value) : mslab * outcome leaked :=
  match get t (sl m) l with
  | (s, Panic e) => (with_sl m s, Panic e)
  | (s, Ret None) => (with_sl m s, Ret (LeakError v Exhausted))
  | (s, Ret (Some a)) => (write_value (with_sl m s) (ptr a) v, Ret (Leaked a))
  end.

(** bump.rs:744-756 [leak_at] *)
Definition leak_at (t : target) (m : mslab) (l : layout) (v : value) (lv : Z) : mslab * outcome leaked :=
  match get_at t (sl m) l lv with
  | (s, Panic e) => (with_sl m s, Panic e)
  | (s, Ret (RErr f)) => (with_sl m s, Ret (LeakError v f))
  | (s, Ret (ROk a)) => (write_value (with_sl m s) (ptr a) v, Ret (Leaked a))
  end.

(** Values whose destructor ran: identity and the bytes the destructor saw, oldest first. *)
Definition drop_log := list (nat * list (option Z)).

(** A byte string read from memory *)
Definition mem_read (m : mem) (p n : Z) : list (option Z) :=
  map (fun k => m (p + Z.of_nat k)) (seq 0 (Z.to_nat n)).

(** bump.rs:532-537 [leak_box]: [None] by the [?] operator drops the argument [val] when the function
    returns.  (A panic drops it while unwinding, too.) *)
Definition leak_box (t : target) (m : mslab) (d : drop_log) (l : layout) (v : value)
  : mslab * drop_log * outcome (option allocation) :=
  match get t (sl m) l with
  | (s, Panic e) => (with_sl m s, d ++ [(vid v, vbytes v)], Panic e)
  | (s, Ret None) => (with_sl m s, d ++ [(vid v, vbytes v)], Ret None)
  | (s, Ret (Some a)) => (write_value (with_sl m s) (ptr a) v, d, Ret (Some a))
  end.

(** bump.rs:544-549 [leak_box_at] *)
Definition leak_box_at (t : target) (m : mslab) (d : drop_log) (l : layout) (v : value) (lv : Z)
  : mslab * drop_log * outcome result :=
  match get_at t (sl m) l lv with
  | (s, Panic e) => (with_sl m s, d ++ [(vid v, vbytes v)], Panic e)
  | (s, Ret (RErr f)) => (with_sl m s, d ++ [(vid v, vbytes v)], Ret (RErr f))
  | (s, Ret (ROk a)) => (write_value (with_sl m s) (ptr a) v, d, Ret (ROk a))
  end.

(** leaked.rs:515-520 Drop for LeakBox: drop_in_place of the value at its address *)
Definition leakbox_drop (m : mslab) (d : drop_log) (id : nat) (p : Z) (l : layout) : drop_log :=
  d ++ [(id, mem_read (bytes m) p (lsize l))].

(** ** Clients

    A client that honours the safety contracts of the unsafe methods: it owns handles to blocks it
    obtained and refers to them by their position in the order of creation since the last reset.
    This bookkeeping stands for Rust's ownership and borrow rules and the documented contracts of
    GlobalAlloc/LocalAlloc; it is not code of the repository. *)

Inductive kind :=
| KRaw                (* from alloc / alloc_zeroed / realloc: may be passed to realloc and dealloc *)
| KRef (id : nat)     (* &mut V from leak, leak_at or LeakBox::leak *)
| KBox (id : nat).    (* LeakBox *)

(** model only: what the client holds *)
Record handle := MkHandle { hptr : Z; hlay : layout; hkind : kind; hlive : bool }.

(** model only: state of the client *)
Record client := MkClient { ms : mslab; handles : list handle; drops : drop_log }.

Inductive op :=
| OAlloc (l : layout)                       (* GlobalAlloc::alloc, Bump::alloc, get_layout *)
| OZeroed (l : layout)                      (* GlobalAlloc::alloc_zeroed *)
| OLocalZeroed (l : layout)                 (* LocalAlloc::alloc_zeroed *)
| ORealloc (i : nat) (new_size : Z)         (* GlobalAlloc::realloc *)
| OLocalRealloc (i : nat) (l : layout)      (* LocalAlloc::realloc *)
| ODealloc (i : nat)                        (* GlobalAlloc::dealloc *)
| OLocalDealloc (i : nat)                   (* LocalAlloc::dealloc *)
| OLeak (l : layout) (v : value)
| OLeakAt (l : layout) (v : value) (lv : Z)
| OLeakBox (l : layout) (v : value)
| OLeakBoxAt (l : layout) (v : value) (lv : Z)
| OBoxDrop (i : nat)                        (* drop of a LeakBox *)
| OBoxLeak (i : nat)                        (* LeakBox::leak (leaked.rs:315) / into_raw (221) *)
| OWrite (i : nat) (off : Z) (bs : list (option Z))  (* a store through a live handle *)
| OLevel
| OReset.                                   (* needs &mut: ends all handles *)

Inductive answer :=
| ABlock (p : Z)               (* a block, or a reference, or a box *)
| ANull                        (* null / None *)
| AGiven (v : value) (f : failure)  (* LeakError *)
| AFail (f : failure)
| ALevel (lv : Z)
| AUnit
| APanic (m : nat)
| AIllegal.                    (* the client may not make this call now; nothing happens *)

(** model only: the handle, if it is live *)
Definition live_handle (c : client) (i : nat) : option handle :=
  match nth_error (handles c) i with
  | Some h => if hlive h then Some h else None
  | None => None
  end.

(** model only: list update *)
Fixpoint upd {A} (l : list A) (i : nat) (x : A) : list A :=
  match l, i with
  | [], _ => []
  | _ :: l', O => x :: l'
  | y :: l', S i' => y :: upd l' i' x
  end.

(** model only: update of a field *)
Definition dead (h : handle) : handle :=
  {| hptr := hptr h; hlay := hlay h; hkind := hkind h; hlive := false |}.
(** model only: update of a field *)
Definition as_ref (h : handle) (id : nat) : handle :=
  {| hptr := hptr h; hlay := hlay h; hkind := KRef id; hlive := hlive h |}.

(** model only *)
Definition new_handle (p : Z) (l : layout) (k : kind) : handle :=
  {| hptr := p; hlay := l; hkind := k; hlive := true |}.

(** An allocation request answered with a pointer adds a handle. *)
Definition after_alloc (c : client) (r : mslab * outcome (option Z)) (l : layout) : client * answer :=
  match r with
  | (m, Ret (Some p)) =>
      ({| ms := m; handles := handles c ++ [new_handle p l KRaw]; drops := drops c |}, ABlock p)
  | (m, Ret None) => ({| ms := m; handles := handles c; drops := drops c |}, ANull)
  | (m, Panic e) => ({| ms := m; handles := handles c; drops := drops c |}, APanic e)
  end.

(** A reallocation consumes handle [i] if (and only if) it succeeds. *)
Definition after_realloc (c : client) (i : nat) (h : handle) (r : mslab * outcome (option Z))
  (l : layout) : client * answer :=
  match r with
  | (m, Ret (Some p)) =>
      ({| ms := m; handles := upd (handles c) i (dead h) ++ [new_handle p l KRaw]; drops := drops c |},
       ABlock p)
  | (m, Ret None) => ({| ms := m; handles := handles c; drops := drops c |}, ANull)
  | (m, Panic e) => ({| ms := m; handles := handles c; drops := drops c |}, APanic e)
  end.

(** client of the model: keeps what leak returned *)
Definition after_leak (c : client) (l : layout) (v : value) (r : mslab * outcome leaked)
  : client * answer :=
  match r with
  | (m, Ret (Leaked a)) =>
      ({| ms := m; handles := handles c ++ [new_handle (ptr a) l (KRef (vid v))]; drops := drops c |},
       ABlock (ptr a))
  | (m, Ret (LeakError v' f)) => ({| ms := m; handles := handles c; drops := drops c |}, AGiven v' f)
  | (m, Panic e) => ({| ms := m; handles := handles c; drops := drops c |}, APanic e)
  end.

(** model only *)
Definition is_raw (h : handle) : bool := match hkind h with KRaw => true | _ => false end.

(** a call of the client, through the functions cited above *)
Definition mstep (t : target) (c : client) (o : op) : client * answer :=
  match o with
  | OAlloc l => after_alloc c (ga_alloc t (ms c) l) l
  | OZeroed l => after_alloc c (ga_alloc_zeroed t (ms c) l) l
  | OLocalZeroed l => after_alloc c (la_alloc_zeroed t (ms c) l) l
  | ORealloc i n =>
      match live_handle c i with
      | Some h => if is_raw h
                  then after_realloc c i h (ga_realloc t (ms c) (hptr h) (hlay h) n)
                                     {| lsize := n; lalign := lalign (hlay h) |}
                  else (c, AIllegal)
      | None => (c, AIllegal)
      end
  | OLocalRealloc i l =>
      match live_handle c i with
      | Some h => if is_raw h
                  then after_realloc c i h (la_realloc t (ms c) (hptr h) (hlay h) l) l
                  else (c, AIllegal)
      | None => (c, AIllegal)
      end
  | ODealloc i =>
      match live_handle c i with
      | Some h => if is_raw h
                  then ({| ms := ga_dealloc (ms c) (hptr h) (hlay h);
                           handles := upd (handles c) i (dead h); drops := drops c |}, AUnit)
                  else (c, AIllegal)
      | None => (c, AIllegal)
      end
  | OLocalDealloc i =>
      match live_handle c i with
      | Some h => if is_raw h
                  then ({| ms := la_dealloc (ms c) (hptr h) (hlay h);
                           handles := upd (handles c) i (dead h); drops := drops c |}, AUnit)
                  else (c, AIllegal)
      | None => (c, AIllegal)
      end
  | OLeak l v => after_leak c l v (leak t (ms c) l v)
  | OLeakAt l v lv => after_leak c l v (leak_at t (ms c) l v lv)
  | OLeakBox l v =>
      match leak_box t (ms c) (drops c) l v with
      | (m, d, Ret (Some a)) =>
          ({| ms := m; handles := handles c ++ [new_handle (ptr a) l (KBox (vid v))]; drops := d |},
           ABlock (ptr a))
      | (m, d, Ret None) => ({| ms := m; handles := handles c; drops := d |}, ANull)
      | (m, d, Panic e) => ({| ms := m; handles := handles c; drops := d |}, APanic e)
      end
  | OLeakBoxAt l v lv =>
      match leak_box_at t (ms c) (drops c) l v lv with
      | (m, d, Ret (ROk a)) =>
          ({| ms := m; handles := handles c ++ [new_handle (ptr a) l (KBox (vid v))]; drops := d |},
           ABlock (ptr a))
      | (m, d, Ret (RErr f)) => ({| ms := m; handles := handles c; drops := d |}, AFail f)
      | (m, d, Panic e) => ({| ms := m; handles := handles c; drops := d |}, APanic e)
      end
  | OBoxDrop i =>
      match live_handle c i with
      | Some h => match hkind h with
                  | KBox id => ({| ms := ms c; handles := upd (handles c) i (dead h);
                                   drops := leakbox_drop (ms c) (drops c) id (hptr h) (hlay h) |}, AUnit)
                  | _ => (c, AIllegal)
                  end
      | None => (c, AIllegal)
      end
  | OBoxLeak i =>
      match live_handle c i with
      | Some h => match hkind h with
                  | KBox id => ({| ms := ms c; handles := upd (handles c) i (as_ref h id);
                                   drops := drops c |}, ABlock (hptr h))
                  | _ => (c, AIllegal)
                  end
      | None => (c, AIllegal)
      end
  | OWrite i off bs =>
      match live_handle c i with
      | Some h =>
          if (0 <=? off) && (off + Z.of_nat (length bs) <=? lsize (hlay h))
          then ({| ms := with_bytes (ms c) (mem_write (bytes (ms c)) (hptr h + off) bs);
                   handles := handles c; drops := drops c |}, AUnit)
          else (c, AIllegal)
      | None => (c, AIllegal)
      end
  | OLevel => (c, ALevel (level (sl (ms c))))
  | OReset => ({| ms := with_sl (ms c) (reset (sl (ms c))); handles := []; drops := drops c |}, AUnit)
  end.

(** client of the model: nothing allocated yet *)
Definition start_client (m : mslab) : client := {| ms := m; handles := []; drops := [] |}.

(** client of the model: calls in sequence *)
Fixpoint mrun (t : target) (c : client) (os : list op) : client * list (op * answer) :=
  match os with
  | [] => (c, [])
  | o :: os' => let (c1, a) := mstep t c o in
                let (c2, h) := mrun t c1 os' in (c2, (o, a) :: h)
  end.
