(** * RelaxedModel: the same program with every atomic access weakened to [Ordering::Relaxed].

    The documentation (bump.rs:135-145) asks for a formal argument that relaxed accesses would suffice.
    The counter is a single location, modified only by the successful compare_exchange of bump.rs:780-786.
    Its relaxed semantics (C11/Rust, per-location coherence):
    - all writes are in one modification order [mo] (here: oldest first);
    - each thread has a view: it never reads a write older than one it has already read or made;
    - a plain load, and a failing exchange, may read ANY write not older than the view (stale values);
    - a strong exchange fails only if the value read differs from the expected one;
    - a successful exchange is atomic: it reads the newest write and appends the next one.
    Synchronisation between threads by other means only removes behaviours. *)
From Verif Require Import Base Spec SyncModel ConcModel.

Record rsys := MkRsys {
  mo : list Z;                    (* values of the counter, in modification order *)
  views : nat -> nat;             (* index in [mo] below which thread i may not read any more *)
  rthreads : nat -> tstate;
  rhist : list hevent             (* newest first *)
}.

Inductive raction :=
| RInvoke (i : nat) (c : call)
| RAccess (i : nat) (k : nat)     (* the access reads the k-th write *)
| RReturn (i : nat).

(** bump.rs:283-300: one message, the initial 0, which every thread has seen *)
Definition rinit : rsys :=
  {| mo := [0]; views := fun _ => O; rthreads := fun _ => Idle; rhist := [] |}.

(** model only: function update *)
Definition updn (f : nat -> nat) (i : nat) (x : nat) : nat -> nat :=
  fun j => if Nat.eqb j i then x else f j.

(** compare_exchange(e, new) reading write number [k] of value [v]:
    success (new order, new view), failure (observed value), or not allowed by the memory model. *)
Inductive cas_result := CasOk (mo' : list Z) | CasFail (observed : Z) | CasImpossible.

(** the answer of compare_exchange that reads message [k] of value [v] *)
Definition relaxed_cas (m : list Z) (k : nat) (v e new : Z) : cas_result :=
  if v =? e then
    if Nat.eqb (S k) (length m) then CasOk (m ++ [new]) else CasImpossible
  else CasFail v.

(** The access of a call, given the write number [k] with value [v] that it reads; the new modification
    order and view, or [None] if the memory model does not allow it.  Same control flow as
    [ConcModel.access]; bump.rs:363-476, 557-638. *)
Definition raccess (t : target) (st : block) (m : list Z) (c : call) (guess : Z) (k : nat) (v : Z)
  : option (list Z * nat * tstate) :=
  let try_alloc_at (l : layout) (e : Z) (on_exhausted : response) (on_fail : Z -> tstate) :=
    match prepare t st l e with
    | Panic msg => Some (m, k, Done c (RPanic msg))
    | Ret AExhausted => Some (m, k, Done c on_exhausted)
    | Ret (ACas e new at_aligned) =>
        match relaxed_cas m k v e new with
        | CasImpossible => None
        | CasFail observed => Some (m, k, on_fail observed)
        | CasOk m' =>
            Some (m', S k, Done c match finish st new at_aligned with
                                  | Ret a => RBlock a
                                  | Panic msg => RPanic msg
                                  end)
        end
    end in
  match c with
  | CAlloc l => try_alloc_at l guess RNone (Running c)
  | CAllocAt l lv => try_alloc_at l lv (RFail Exhausted) (fun o => Done c (RFail (Mismatch o)))
  | CGet l =>
      if lsize l =? 0 then Some (m, k, Done c (RBlock (for_zst l v)))
      else try_alloc_at l guess RNone (Running c)
  | CGetAt l lv =>
      if lsize l =? 0 then
        Some (m, k, Done c (if negb (alevel (for_zst l v) =? lv)
                            then RFail (Mismatch (alevel (for_zst l v)))
                            else RBlock (for_zst l v)))
      else try_alloc_at l lv (RFail Exhausted) (fun o => Done c (RFail (Mismatch o)))
  | CLevel => Some (m, k, Done c (RLevel v))
  | CReset => None
  end.

(** a thread starts a call, or reads a message and goes on *)
Definition rstep (t : target) (st : block) (s : rsys) (a : raction) : rsys :=
  match a with
  | RInvoke i c =>
      match rthreads s i with
      | Idle => {| mo := mo s; views := views s; rthreads := upd (rthreads s) i (Running c 0);
                   rhist := EInv i c :: rhist s |}
      | _ => s
      end
  | RAccess i k =>
      match rthreads s i, nth_error (mo s) k with
      | Running c guess, Some v =>
          if Nat.leb (views s i) k then
            match raccess t st (mo s) c guess k v with
            | Some (m', k', ts) =>
                {| mo := m'; views := updn (views s) i k'; rthreads := upd (rthreads s) i ts;
                   rhist := match ts with Done c' r => ELin i c' r :: rhist s | _ => rhist s end |}
            | None => s
            end
          else s
      | _, _ => s
      end
  | RReturn i =>
      match rthreads s i with
      | Done c r => {| mo := mo s; views := views s; rthreads := upd (rthreads s) i Idle;
                       rhist := ERet i c r :: rhist s |}
      | _ => s
      end
  end.

(** client of the model: a schedule *)
Definition rrun (t : target) (st : block) (s : rsys) (sched : list raction) : rsys :=
  fold_left (rstep t st) sched s.
