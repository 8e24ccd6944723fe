(** * ExitRefSpec: the ideal ExitStack, a list of values without any memory. *)
From Verif Require Import Base Spec SyncModel SyncMemModel UnsyncModel ExitModel ExitSpec.

(** [iused] bytes of the room are used up; [ivals] are the live values, top first; [itoks] the slots and pinned
    references of the client; [ilog] what happened; [igone]: the stack was dropped. *)
Record ideal := MkIdeal { iused : Z; ivals : list entry; itoks : list etoken; ilog : list eevent; igone : bool }.

Definition ideal_new : ideal := MkIdeal 0 [] [] [] false.

(** With debug assertions the memory of a stack can only be used if Mem is not aligned more strictly than usize. *)
Definition usable_stack (t : target) (lm : layout) : bool := negb (debug t) || (lalign lm <=? usize_align t).

(** The bytes of an ExitStack<Mem> at [base] behind its counter: one slot for a Mem. *)
Definition room (t : target) (base : Z) (lm : layout) : block := MkBlock (base + word_bytes t) (lsize (pin_layout t lm)).

(** A slot for a type of layout [l]: the lowest aligned place behind those given out, if it ends within the room. *)
Definition i_slot (t : target) (base : Z) (lm l : layout) (used : Z) : outcome (option Z) :=
  if negb (usable_stack t lm) then Panic PU_deref else
  let a := align_up (start (room t base lm) + used) (lalign (pin_layout t l)) in
  if a + lsize (pin_layout t l) <=? start (room t base lm) + size (room t base lm) then Ret (Some a) else Ret None.

Definition used_after (t : target) (base : Z) (lm l : layout) (a : Z) : Z := a + lsize (pin_layout t l) - start (room t base lm).

(** The destructors that run: from the top, up to and including the first that panics. *)
Fixpoint i_drops (boom : Z -> list (option Z) -> bool) (vals : list entry) : list eevent * bool :=
  match vals with
  | [] => ([], false)
  | e :: vals => if boom (en_vt e) (en_bytes e) then ([drop_of e], true) else let (es, p) := i_drops boom vals in (drop_of e :: es, p)
  end.

Definition i_pop (t : target) (lm : layout) (boom : Z -> list (option Z) -> bool) (i : ideal) : ideal * pop_end :=
  let (es, p) := i_drops boom (ivals i) in
  if p then (MkIdeal (iused i) [] [] (ilog i ++ es ++ [EvUnwound]) (igone i), PopPanic PE_destructor)
  else if usable_stack t lm then (MkIdeal 0 [] [] (ilog i ++ es ++ [EvReset]) (igone i), PopDone)
  else (MkIdeal (iused i) [] [] (ilog i ++ es ++ [EvUnwound]) (igone i), PopPanic PU_deref).

(** The argument of [set] is dropped while unwinding; if that panics too, the program ends. *)
Definition i_arg (boom : Z -> list (option Z) -> bool) (i : ideal) (v : Z) (bs : list (option Z)) (k : nat) : ideal * eanswer :=
  (MkIdeal (iused i) (ivals i) (itoks i) (ilog i ++ [EvArg v bs]) (boom v bs), if boom v bs then EAAbort else EAPanic k).

Definition i_pin (i : ideal) (a v : Z) (bs : list (option Z)) (toks : list etoken) : ideal :=
  MkIdeal (iused i) (MkEntry a v bs :: ivals i) toks (ilog i ++ [EvPin a v bs]) (igone i).

Definition i_set_bytes (a : Z) (bs : list (option Z)) (vals : list entry) : list entry :=
  map (fun e => if en_addr e =? a then MkEntry a (en_vt e) bs else e) vals.

Definition i_step (t : target) (base : Z) (lm : layout) (vt : Z -> layout) (boom : Z -> list (option Z) -> bool) (i : ideal) (o : eop) : ideal * eanswer :=
  if igone i then (i, EAInvalid) else
  match o with
  | ESlot v =>
      match i_slot t base lm (vt v) (iused i) with
      | Panic k => (i, EAPanic k)
      | Ret None => (i, EANone)
      | Ret (Some a) => (MkIdeal (used_after t base lm (vt v) a) (ivals i) (itoks i ++ [MkET a v false]) (ilog i) false, EAPtr a)
      end
  | EDropSlot j =>
      match nth_error (itoks i) j with
      | Some (MkET _ _ false) => (MkIdeal (iused i) (ivals i) (remove_nth j (itoks i)) (ilog i) false, EADone)
      | _ => (i, EAInvalid)
      end
  | EPin j bs =>
      match nth_error (itoks i) j with
      | Some (MkET a v false) =>
          if Z.of_nat (length bs) =? lsize (vt v)
          then (i_pin i a v bs (upd (itoks i) j (MkET a v true)), EAPtr (a + value_offset t (vt v)))
          else (i, EAInvalid)
      | _ => (i, EAInvalid)
      end
  | EWrite j bs =>
      match nth_error (itoks i) j with
      | Some (MkET a v true) =>
          if Z.of_nat (length bs) =? lsize (vt v)
          then (MkIdeal (iused i) (i_set_bytes a bs (ivals i)) (itoks i) (ilog i ++ [EvWrite a bs]) false, EADone)
          else (i, EAInvalid)
      | _ => (i, EAInvalid)
      end
  | EPeek j =>
      match nth_error (itoks i) j with
      | Some (MkET a v true) =>
          match find (fun e => en_addr e =? a) (ivals i) with Some e => (i, EABytes (en_bytes e)) | None => (i, EAInvalid) end
      | _ => (i, EAInvalid)
      end
  | EPopAll => let (i', r) := i_pop t lm boom i in (i', pop_answer r)
  | ESet v bs =>
      if negb (layout_eqb (vt v) lm && (Z.of_nat (length bs) =? lsize (vt v))) then (i, EAInvalid) else
      match i_pop t lm boom i with
      | (i1, PopDone) =>
          match i_slot t base lm lm (iused i1) with
          | Ret (Some a) =>
              (i_pin (MkIdeal (used_after t base lm lm a) (ivals i1) [] (ilog i1) false) a v bs [MkET a v true], EAPtr (a + value_offset t lm))
          | Ret None => i_arg boom i1 v bs PE_unreachable
          | Panic k => i_arg boom i1 v bs k
          end
      | (i1, PopPanic k) => i_arg boom i1 v bs k
      | (i1, r) => (i1, pop_answer r)
      end
  | EDropStack => let (i', r) := i_pop t lm boom i in (MkIdeal (iused i') (ivals i') [] (ilog i') true, pop_answer r)
  end.

(** A program: calls on the stack, and writes of anyone to memory outside the stack. *)
Inductive xact := XCall (o : eop) | XElsewhere (a : Z) (bs : list (option Z)).

Definition x_step (t : target) (vt : Z -> layout) (boom : Z -> list (option Z) -> bool) (s : estate) (x : xact) : estate * list eanswer :=
  match x with
  | XCall o => let (s', r) := estep t vt boom s o in (s', [r])
  | XElsewhere a bs => (MkE (ebase s) (emlay s) (eindex s) (etop s) (mem_write (ebytes s) a bs) (etoks s) (elog s) (egone s), [])
  end.
Fixpoint x_run (t : target) (vt : Z -> layout) (boom : Z -> list (option Z) -> bool) (s : estate) (xs : list xact) : estate * list eanswer :=
  match xs with
  | [] => (s, [])
  | x :: xs => let (s1, r) := x_step t vt boom s x in let (s2, rs) := x_run t vt boom s1 xs in (s2, r ++ rs)
  end.

(** The ideal stack only sees the calls. *)
Definition calls (xs : list xact) : list eop := flat_map (fun x => match x with XCall o => [o] | XElsewhere _ _ => [] end) xs.
Fixpoint i_run (t : target) (base : Z) (lm : layout) (vt : Z -> layout) (boom : Z -> list (option Z) -> bool) (i : ideal) (os : list eop) : ideal * list eanswer :=
  match os with
  | [] => (i, [])
  | o :: os => let (i1, r) := i_step t base lm vt boom i o in let (i2, rs) := i_run t base lm vt boom i1 os in (i2, r :: rs)
  end.

(** The memory of the whole stack. *)
Definition whole (t : target) (base : Z) (lm : layout) : block := MkBlock base (lsize (bump_layout t (pin_layout t lm))).

Definition xact_ok (t : target) (base : Z) (lm : layout) (vt : Z -> layout) (x : xact) : Prop :=
  match x with XCall o => eop_ok t vt o | XElsewhere a bs => disjoint (MkBlock a (Z.of_nat (length bs))) (whole t base lm) end.

(** The memory if only the writes elsewhere had happened. *)
Definition others (m : mem) (xs : list xact) : mem :=
  fold_left (fun m x => match x with XCall _ => m | XElsewhere a bs => mem_write m a bs end) xs m.
