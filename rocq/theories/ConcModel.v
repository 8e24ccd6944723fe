(** * ConcModel: many threads calling the shared-reference API of one [Bump].

    Each action of the schedule is one atomic access to the counter [consumed] (sequentially consistent,
    as in the code) together with the local computation before it.  Local computation reads only
    immutable data (address and size of the storage), so merging it with the access is exact.  The
    schedule also picks which call each thread makes next, so it ranges over all client programs. *)
From Verif Require Import Base Spec SyncModel.

(** What a thread is doing. *)
Inductive tstate :=
| Idle
| Running (c : call) (guess : Z)     (* inside the call; [guess] is the loop variable of try_alloc *)
| Done (c : call) (r : response).    (* the call has its result but has not returned yet *)

(** bump.rs:561-638 one iteration of [try_alloc] with its [compare_exchange] *)
Definition access_alloc (t : target) (st : block) (cur : Z) (c : call) (l : layout) (guess : Z)
  : Z * tstate :=
  match prepare t st l guess with
  | Panic m => (cur, Done c (RPanic m))
  | Ret AExhausted => (cur, Done c RNone)
  | Ret (ACas e new at_aligned) =>
      match compare_exchange cur e new with
      | (cur', Some observed) => (cur', Running c observed)
      | (cur', None) =>
          (cur', Done c match finish st new at_aligned with
                        | Ret a => RBlock a
                        | Panic m => RPanic m
                        end)
      end
  end.

(** bump.rs:583-638 [try_alloc_at] *)
Definition access_alloc_at (t : target) (st : block) (cur : Z) (c : call) (l : layout) (lv : Z)
  : Z * tstate :=
  match prepare t st l lv with
  | Panic m => (cur, Done c (RPanic m))
  | Ret AExhausted => (cur, Done c (RFail Exhausted))
  | Ret (ACas e new at_aligned) =>
      match compare_exchange cur e new with
      | (cur', Some observed) => (cur', Done c (RFail (Mismatch observed)))
      | (cur', None) =>
          (cur', Done c match finish st new at_aligned with
                        | Ret a => RBlock a
                        | Panic m => RPanic m
                        end)
      end
  end.

(** The next atomic access of a call: new value of the counter and of the thread.
    bump.rs:363-476, 557-559 *)
Definition access (t : target) (st : block) (cur : Z) (c : call) (guess : Z) : Z * tstate :=
  match c with
  | CAlloc l => access_alloc t st cur c l guess
  | CAllocAt l lv => access_alloc_at t st cur c l lv
  | CGet l =>
      if lsize l =? 0 then (cur, Done c (RBlock (for_zst l cur)))
      else access_alloc t st cur c l guess
  | CGetAt l lv =>
      if lsize l =? 0 then
        (cur, Done c (if negb (alevel (for_zst l cur) =? lv)
                      then RFail (Mismatch (alevel (for_zst l cur)))
                      else RBlock (for_zst l cur)))
      else access_alloc_at t st cur c l lv
  | CLevel => (cur, Done c (RLevel cur))
  | CReset => (cur, Running c guess)       (* takes &mut self: not callable on a shared slab *)
  end.

(** Events of a concurrent history. [ELin] is invisible to clients: it marks the access at which the call
    got its result. *)
Inductive hevent :=
| EInv (i : nat) (c : call)
| ELin (i : nat) (c : call) (r : response)
| ERet (i : nat) (c : call) (r : response).

Record sys := MkSys { counter : Z; threads : nat -> tstate; hist : list hevent (* newest first *) }.

(** client of the model: what the scheduler lets a thread do *)
Inductive action :=
| Invoke (i : nat) (c : call)
| Access (i : nat)
| Return (i : nat).

(** model only: function update *)
Definition upd (f : nat -> tstate) (i : nat) (x : tstate) : nat -> tstate :=
  fun j => if Nat.eqb j i then x else f j.

(** bump.rs:283-300: the counter of a new Bump is 0, no thread has called *)
Definition sys_init : sys := {| counter := 0; threads := fun _ => Idle; hist := [] |}.

(** One scheduled action; an action that is not enabled does nothing. *)
Definition sys_step (t : target) (st : block) (s : sys) (a : action) : sys :=
  match a with
  | Invoke i c =>
      match threads s i with
      | Idle => {| counter := counter s; threads := upd (threads s) i (Running c 0);
                   hist := EInv i c :: hist s |}
      | _ => s
      end
  | Access i =>
      match threads s i with
      | Running c guess =>
          let (cur', ts) := access t st (counter s) c guess in
          {| counter := cur'; threads := upd (threads s) i ts;
             hist := match ts with Done c' r => ELin i c' r :: hist s | _ => hist s end |}
      | _ => s
      end
  | Return i =>
      match threads s i with
      | Done c r => {| counter := counter s; threads := upd (threads s) i Idle;
                       hist := ERet i c r :: hist s |}
      | _ => s
      end
  end.

(** client of the model: a schedule *)
Definition sys_run (t : target) (st : block) (s : sys) (sched : list action) : sys :=
  fold_left (sys_step t st) sched s.
