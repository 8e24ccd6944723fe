(** * ConcMemModel: static-alloc/src/bump.rs, threads that allocate from one shared slab ([unsafe impl Sync],
    bump.rs:869) and use what they got.  The counter is accessed with [Ordering::Relaxed] as in RelaxedModel (weaker
    than the code's [SeqCst], bump.rs:763-786), so that nothing below leans on synchronisation by the counter. *)
From Verif Require Import Base Spec SyncModel SyncSpec SyncMemModel ConcModel RelaxedModel.

(** What happens to blocks: thread [i] got block number [k]; stored [bs] to it at an offset (this is also how
    [leak], bump.rs:479-520, and [leak_box], 526-546, put the value there); read all of it; gave it to thread [j] by
    some means of its own that synchronises (moving the box through a channel, joining, ..). *)
Inductive mevent :=
| MGot (i k : nat)
| MStore (i k : nat) (off : Z) (bs : list (option Z))
| MLoad (i k : nat) (bs : list (option Z))
| MSend (i k j : nat).

(** [ctoks]: every block returned so far, with the thread that may use it.  [ctrace]: oldest first. *)
Record csys := MkC { cbase : rsys; cmem : mem; ctoks : list (block * nat); ctrace : list mevent }.

(** client of the model: what the scheduler lets a thread do *)
Inductive caction :=
| CBase (a : raction)
| CStore (i k : nat) (off : Z) (bs : list (option Z))
| CLoad (i k : nat)
| CSend (i k j : nat).

(** client of the model: nothing allocated yet *)
Definition cinit (m : mem) : csys := MkC rinit m [] [].

(** The block that a return gives to thread [i]. *)
Definition got (s : rsys) (a : raction) : option (nat * block) :=
  match a with
  | RReturn i => match rthreads s i with
                 | Done c r => match event_block (c, r) with Some b => Some (i, b) | None => None end
                 | _ => None
                 end
  | _ => None
  end.

(** The thread [i] runs its own code (it is not inside a call) and has block [k]. *)
Definition may_use (s : csys) (i k : nat) : option block :=
  match rthreads (cbase s) i, nth_error (ctoks s) k with
  | Idle, Some (b, o) => if Nat.eqb o i then Some b else None
  | _, _ => None
  end.

(** One scheduled action; an action that is not a program (using a block that the thread does not have, or beyond its
    bounds) does nothing. *)
Definition cstep (t : target) (st : block) (s : csys) (a : caction) : csys :=
  match a with
  | CBase a =>
      let s' := rstep t st (cbase s) a in
      match got (cbase s) a with
      | Some (i, b) => MkC s' (cmem s) (ctoks s ++ [(b, i)]) (ctrace s ++ [MGot i (length (ctoks s))])
      | None => MkC s' (cmem s) (ctoks s) (ctrace s)
      end
  | CStore i k off bs =>
      match may_use s i k with
      | Some b => if (0 <=? off) && (off + Z.of_nat (length bs) <=? size b)
                  then MkC (cbase s) (mem_write (cmem s) (start b + off) bs) (ctoks s) (ctrace s ++ [MStore i k off bs])
                  else s
      | None => s
      end
  | CLoad i k =>
      match may_use s i k with
      | Some b => MkC (cbase s) (cmem s) (ctoks s) (ctrace s ++ [MLoad i k (mem_read (cmem s) (start b) (size b))])
      | None => s
      end
  | CSend i k j =>
      match may_use s i k with
      | Some b => MkC (cbase s) (cmem s) (SyncMemModel.upd (ctoks s) k (b, j)) (ctrace s ++ [MSend i k j])
      | None => s
      end
  end.

(** client of the model: a schedule *)
Definition crun (t : target) (st : block) (s : csys) (sched : list caction) : csys := fold_left (cstep t st) sched s.
