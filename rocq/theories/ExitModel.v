(** * ExitModel: exit-stack/src/lib.rs. *)
From Verif Require Import Base Spec SyncModel SyncMemModel UnsyncModel.

Definition PE_unreachable : nat := 601.   (* exit-stack/src/lib.rs:168 unreachable! *)
Definition PE_destructor : nat := 602.    (* a panic of a pinned value's destructor *)

(** exit-stack/src/lib.rs:69 [ExitHandle]: address of the PinSlot and of the vtable. *)
Definition handle := (Z * Z)%type.

(** exit-stack/src/lib.rs:89-92 [PinSlot<T>] for T of layout [l].  The struct can be unsized, so the compiler keeps
    [value] behind [link]: two words, then the value at the next multiple of its alignment. *)
Definition value_offset (t : target) (l : layout) : Z := align_up (2 * word_bytes t) (lalign l).
(** exit-stack/src/lib.rs:89-92: size and alignment of [PinSlot<T>] *)
Definition pin_layout (t : target) (l : layout) : layout :=
  let al := Z.max (usize_align t) (lalign l) in
  {| lsize := align_up (value_offset t l + lsize l) al; lalign := al |}.

(** A usize as bytes, little endian (as in [load_usize]). *)
Fixpoint usize_bytes (n : nat) (x : Z) : list (option Z) :=
  match n with O => [] | S n => Some (x mod 256) :: usize_bytes n (x / 256) end.
(** write of a usize *)
Definition store_usize (t : target) (m : mem) (p x : Z) : mem := mem_write m p (usize_bytes (Z.to_nat (word_bytes t)) x).

(** Option<NonNull<PinSlot<dyn Drop>>> in memory: the address is 0 for None (the vtable word is then left alone). *)
Definition store_link (t : target) (m : mem) (p : Z) (h : option handle) : mem :=
  match h with
  | None => store_usize t m p 0
  | Some (a, v) => store_usize t (store_usize t m p a) (p + word_bytes t) v
  end.
(** [None]: it is not initialised *)
Definition load_link (t : target) (m : mem) (p : Z) : option (option handle) :=
  match load_usize t m p with
  | None => None
  | Some a => if a =? 0 then Some None else
              match load_usize t m (p + word_bytes t) with None => None | Some v => Some (Some (a, v)) end
  end.

(** What the client holds: a [Slot] ([tpinned = false]) or the [Pin<&mut T>] of a slot it has pinned a value to. *)
Record etoken := MkET { taddr : Z; tvt : Z; tpinned : bool }.

(** What happens to values: pinned; written through the Pin<&mut T>; dropped in place; the argument of [set]
    dropped by unwinding; [pop_all] left by a panic; the memory declared free. *)
Inductive eevent :=
| EvPin (a v : Z) (bs : list (option Z))
| EvWrite (a : Z) (bs : list (option Z))
| EvDrop (a v : Z) (bs : list (option Z))
| EvArg (v : Z) (bs : list (option Z))
| EvUnwound
| EvReset.

(** exit-stack/src/lib.rs:62-67 [ExitStack<Mem>] whose field [memory] is at [ebase]; [emlay] is the layout of Mem,
    [eindex] the index of the Bump.  [egone]: it was dropped. *)
Record estate := MkE { ebase : Z; emlay : layout; eindex : Z; etop : option handle; ebytes : mem;
                       etoks : list etoken; elog : list eevent; egone : bool }.

(** exit-stack/src/lib.rs:98-103 [new] *)
Definition enew (base : Z) (lm : layout) (m : mem) : estate := MkE base lm 0 None m [] [] false.

(** how exit-stack/src/lib.rs:180-208 can end *)
Inductive pop_end := PopDone | PopPanic (k : nat) | PopAbort | PopStuck.

(** exit-stack/src/lib.rs:187-201 drop of [UnwindFlag], :289-308 [AbortOnDrop].  [vt v]: layout of the type with
    vtable [v]; [boom v bs]: its destructor panics on a value [bs].  A destructor is taken to write no pinned
    value but its own.  [n] bounds the number of iterations; running out of it is [PopStuck], as is reading an
    uninitialised link. *)
Fixpoint unwind_loop (t : target) (vt : Z -> layout) (boom : Z -> list (option Z) -> bool) (m : mem) (n : nat)
  (chain : option handle) (log : list eevent) : list eevent * pop_end :=
  match chain with
  | None => (log, PopDone)
  | Some (a, v) =>
    match n with
    | O => (log, PopStuck)
    | S n =>
      let bs := mem_read m (a + value_offset t (vt v)) (lsize (vt v)) in
      if boom v bs then (log ++ [EvDrop a v bs], PopAbort)
      else match load_link t m a with
           | None => (log, PopStuck)
           | Some link => unwind_loop t vt boom m n link (log ++ [EvDrop a v bs])
           end
    end
  end.

(** exit-stack/src/lib.rs:205-211 the loop; [flag.chain.take()] leaves None in the flag while the destructor runs *)
Fixpoint pop_loop (t : target) (vt : Z -> layout) (boom : Z -> list (option Z) -> bool) (m : mem) (n : nat)
  (chain : option handle) (log : list eevent) : list eevent * pop_end :=
  match chain with
  | None => (log, PopDone)
  | Some (a, v) =>
    match n with
    | O => (log, PopStuck)
    | S n =>
      let chain := None in                                                                      (* :205 *)
      let bs := mem_read m (a + value_offset t (vt v)) (lsize (vt v)) in
      if boom v bs then                                                                         (* :209 *)
        match unwind_loop t vt boom m n chain (log ++ [EvDrop a v bs]) with
        | (log, PopDone) => (log, PopPanic PE_destructor)
        | r => r
        end
      else match load_link t m a with                                                           (* :210 *)
           | None => (log, PopStuck)
           | Some link => pop_loop t vt boom m n link (log ++ [EvDrop a v bs])
           end
    end
  end.

(** Deref of [memory]: unsync/bump.rs:564-593 *)
Definition emem_deref (t : target) (s : estate) : outcome fat := bump_deref t (ebase s) (pin_layout t (emlay s)).

(** exit-stack/src/lib.rs:180-215; the references that the client held have ended ([&mut self]).
    At most one iteration for every value ever pinned. *)
Definition inner_pop_all (t : target) (vt : Z -> layout) (boom : Z -> list (option Z) -> bool) (s : estate) : estate * pop_end :=
  let n := length (elog s) in
  let '(log, r) := pop_loop t vt boom (ebytes s) n (etop s) (elog s) in
  let s0 i log := MkE (ebase s) (emlay s) i None (ebytes s) [] log (egone s) in                 (* self.top.take() *)
  match r with
  | PopDone => match emem_deref t s with
               | Panic k => (s0 (eindex s) (log ++ [EvUnwound]), PopPanic k)
               | Ret _ => (s0 0 (log ++ [EvReset]), PopDone)                                    (* :214 reset *)
               end
  | r => (s0 (eindex s) (log ++ [EvUnwound]), r)
  end.

(** exit-stack/src/lib.rs:109-118 [slot]; [Ret None] if there is no room *)
Definition eslot (t : target) (s : estate) (l : layout) : estate * outcome (option Z) :=
  match emem_deref t s with
  | Panic k => (s, Panic k)
  | Ret f =>
    match u_bump_box t {| udata := fat_data t f; uindex := eindex s |} (pin_layout t l) with
    | (_, Panic k) => (s, Panic k)
    | (_, Ret (RErr _)) => (s, Ret None)
    | (u, Ret (ROk a)) => (MkE (ebase s) (emlay s) (uindex u) (etop s) (ebytes s) (etoks s) (elog s) (egone s), Ret (Some (ptr a)))
    end
  end.

(** exit-stack/src/lib.rs:226-246 [Slot::pin] ([pin_local] 254-275 is the same): the slot at [a] for the type with
    vtable [v].  Writing a PinSlot leaves its padding uninitialised. *)
Definition pin_mem (t : target) (vt : Z -> layout) (m : mem) (a v : Z) (link : option handle) (bs : list (option Z)) : mem :=
  let l := vt v in
  mem_write (store_link t (mem_fill m a (lsize (pin_layout t l)) None) a link) (a + value_offset t l) bs.

(** exit-stack/src/lib.rs:226-261 [pin] and [pin_local] *)
Definition epin (t : target) (vt : Z -> layout) (s : estate) (a v : Z) (bs : list (option Z)) (toks : list etoken) : estate :=
  let link := etop s in
  MkE (ebase s) (emlay s) (eindex s) (Some (a, v)) (pin_mem t vt (ebytes s) a v link bs) toks (elog s ++ [EvPin a v bs]) (egone s).

(** model only: update of a field *)
Definition with_toks (s : estate) (ts : list etoken) : estate :=
  MkE (ebase s) (emlay s) (eindex s) (etop s) (ebytes s) ts (elog s) (egone s).

Inductive eop :=
| ESlot (v : Z)                               (* slot() for the type with vtable v *)
| EDropSlot (j : nat)                         (* drop of a Slot that was not used *)
| EPin (j : nat) (bs : list (option Z))       (* token j: Slot::pin *)
| EWrite (j : nat) (bs : list (option Z))     (* token j: overwrite the pinned value *)
| EPeek (j : nat)                             (* token j: look at the pinned value *)
| EPopAll
| ESet (v : Z) (bs : list (option Z))         (* v is the vtable of Mem *)
| EDropStack.

(** what the calls return *)
Inductive eanswer := EADone | EANone | EAPtr (a : Z) | EABytes (bs : list (option Z)) | EAPanic (k : nat) | EAAbort | EAStuck | EAInvalid.

(** model only *)
Definition pop_answer (r : pop_end) : eanswer :=
  match r with PopDone => EADone | PopPanic k => EAPanic k | PopAbort => EAAbort | PopStuck => EAStuck end.

(** [set] is left by the panic [k]: its argument is dropped *)
Definition drop_arg (boom : Z -> list (option Z) -> bool) (s : estate) (v : Z) (bs : list (option Z)) (k : nat) : estate * eanswer :=
  (MkE (ebase s) (emlay s) (eindex s) (etop s) (ebytes s) (etoks s) (elog s ++ [EvArg v bs]) (boom v bs),   (* abort: the end *)
   if boom v bs then EAAbort else EAPanic k).

(** model only: list without entry j *)
Fixpoint remove_nth {A} (j : nat) (l : list A) : list A :=
  match l, j with [], _ => [] | _ :: l, O => l | x :: l, S j => x :: remove_nth j l end.

Definition estep (t : target) (vt : Z -> layout) (boom : Z -> list (option Z) -> bool) (s : estate) (o : eop) : estate * eanswer :=
  if egone s then (s, EAInvalid) else
  match o with
  | ESlot v =>
      match eslot t s (vt v) with
      | (s', Panic k) => (s', EAPanic k)
      | (s', Ret None) => (s', EANone)
      | (s', Ret (Some a)) => (with_toks s' (etoks s' ++ [MkET a v false]), EAPtr a)
      end
  | EDropSlot j =>
      match nth_error (etoks s) j with
      | Some (MkET a v false) => (with_toks s (remove_nth j (etoks s)), EADone)
      | _ => (s, EAInvalid)
      end
  | EPin j bs =>
      match nth_error (etoks s) j with
      | Some (MkET a v false) =>
          if Z.of_nat (length bs) =? lsize (vt v)
          then (epin t vt s a v bs (upd (etoks s) j (MkET a v true)), EAPtr (a + value_offset t (vt v)))
          else (s, EAInvalid)
      | _ => (s, EAInvalid)
      end
  | EWrite j bs =>
      match nth_error (etoks s) j with
      | Some (MkET a v true) =>
          if Z.of_nat (length bs) =? lsize (vt v)
          then (MkE (ebase s) (emlay s) (eindex s) (etop s) (mem_write (ebytes s) (a + value_offset t (vt v)) bs) (etoks s)
                  (elog s ++ [EvWrite a bs]) (egone s), EADone)
          else (s, EAInvalid)
      | _ => (s, EAInvalid)
      end
  | EPeek j =>
      match nth_error (etoks s) j with
      | Some (MkET a v true) => (s, EABytes (mem_read (ebytes s) (a + value_offset t (vt v)) (lsize (vt v))))
      | _ => (s, EAInvalid)
      end
  | EPopAll => let (s', r) := inner_pop_all t vt boom s in (s', pop_answer r)                   (* :173-178 *)
  | ESet v bs =>                                                                                 (* :159-170 *)
      if negb (layout_eqb (vt v) (emlay s) && (Z.of_nat (length bs) =? lsize (vt v))) then (s, EAInvalid) else
      match inner_pop_all t vt boom s with
      | (s1, PopDone) =>
          match eslot t s1 (vt v) with
          | (s2, Ret (Some a)) => (epin t vt s2 a v bs (etoks s2 ++ [MkET a v true]), EAPtr (a + value_offset t (vt v)))
          | (s2, Ret None) => drop_arg boom s2 v bs PE_unreachable
          | (s2, Panic k) => drop_arg boom s2 v bs k
          end
      | (s1, PopPanic k) => drop_arg boom s1 v bs k
      | (s1, r) => (s1, pop_answer r)
      end
  | EDropStack =>                                                                                (* :278-282 *)
      let (s', r) := inner_pop_all t vt boom s in
      (MkE (ebase s') (emlay s') (eindex s') (etop s') (ebytes s') [] (elog s') true, pop_answer r)
  end.

(** client of the model: calls in sequence *)
Fixpoint erun (t : target) (vt : Z -> layout) (boom : Z -> list (option Z) -> bool) (s : estate) (os : list eop) : estate * list eanswer :=
  match os with
  | [] => (s, [])
  | o :: os => let (s1, r) := estep t vt boom s o in let (s2, rs) := erun t vt boom s1 os in (s2, r :: rs)
  end.
