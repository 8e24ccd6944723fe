(** * MoveModel: programs that move or forget an ExitStack (exit-stack/src/lib.rs).

    The methods of ExitStack take [Pin<&Self>] or [Pin<&mut Self>].  The struct (lib.rs:62-67) has no PhantomPinned field: its fields
    are Unpin if Mem is, so that ExitStack<Mem> is then Unpin, too, and a Pin of it forbids nothing. *)
From Verif Require Import Base Spec SyncModel SyncMemModel UnsyncModel ExitModel.

(** The bytes of the field [memory] of an ExitStack at [base] (exit-stack/src/lib.rs:62-67) *)
Definition place (t : target) (s : estate) : block := MkBlock (ebase s) (lsize (bump_layout t (pin_layout t (emlay s)))).

(** core: a move copies the bytes of the struct, among them the handle in [top], to another place; all borrows have ended *)
Definition emove (t : target) (s : estate) (a : Z) : estate :=
  MkE a (emlay s) (eindex s) (etop s) (mem_copy (ebytes s) (ebase s) a (size (place t s))) [] (elog s) (egone s).

(** core: mem::forget of the stack; no destructor runs, and its place is memory of the client again *)
Definition eforget (s : estate) : estate := MkE (ebase s) (emlay s) (eindex s) (etop s) (ebytes s) [] (elog s) true.

(** client of the model: a write to memory of the client *)
Definition ewrite (s : estate) (p : Z) (bs : list (option Z)) : estate :=
  MkE (ebase s) (emlay s) (eindex s) (etop s) (mem_write (ebytes s) p bs) (etoks s) (elog s) (egone s).

(** client of the model: the stack, and whether a method of it was called (for which it has to be pinned) *)
Record vstate := MkV { vst : estate; vused : bool }.

(** client of the model: a program calls methods of the stack, moves it, forgets it, and writes to memory of its own *)
Inductive vop := VCall (o : eop) | VMove (a : Z) | VForget | VWrite (p : Z) (bs : list (option Z)).

(** model only: does the compiler (and the contract of Pin) let the program move or forget the stack? *)
Definition may_move (unpin : bool) (s : vstate) : bool := negb (egone (vst s)) && (unpin || negb (vused s)).

(** model only: memory that the client may write *)
Definition client_memory (t : target) (s : vstate) (p n : Z) : bool :=
  egone (vst s) || (p + n <=? ebase (vst s)) || (ebase (vst s) + size (place t (vst s)) <=? p).

(** client of the model; [unpin]: Mem is Unpin *)
Definition vstep (t : target) (vt : Z -> layout) (boom : Z -> list (option Z) -> bool) (unpin : bool) (s : vstate) (o : vop) : vstate * eanswer :=
  match o with
  | VCall o => let (e, r) := estep t vt boom (vst s) o in (MkV e true, r)
  | VMove a => if may_move unpin s then (MkV (emove t (vst s) a) (vused s), EADone) else (s, EAInvalid)
  | VForget => if may_move unpin s then (MkV (eforget (vst s)) (vused s), EADone) else (s, EAInvalid)
  | VWrite p bs => if client_memory t s p (Z.of_nat (length bs)) then (MkV (ewrite (vst s) p bs) (vused s), EADone) else (s, EAInvalid)
  end.

(** client of the model: a program *)
Fixpoint vrun (t : target) (vt : Z -> layout) (boom : Z -> list (option Z) -> bool) (unpin : bool) (s : vstate) (os : list vop) : vstate * list eanswer :=
  match os with
  | [] => (s, [])
  | o :: os => let (s1, r) := vstep t vt boom unpin s o in let (s2, rs) := vrun t vt boom unpin s1 os in (s2, r :: rs)
  end.
