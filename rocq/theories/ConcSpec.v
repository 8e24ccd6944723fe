(** * ConcSpec: vocabulary for claims about concurrent histories. *)
From Verif Require Import Base Spec SyncModel SyncSpec ConcModel.

(** Threads only make well-typed calls through a shared reference. *)
Definition valid_action (t : target) (a : action) : Prop :=
  match a with
  | Invoke _ c => valid_call t c /\ is_reset c = false
  | _ => True
  end.

(** The history of a system, oldest event first. *)
Definition history (s : sys) : list hevent := rev (hist s).

(** Blocks returned to clients, by any thread. *)
Fixpoint returned_blocks (h : list hevent) : list block :=
  match h with
  | [] => []
  | ERet _ c r :: h' => match event_block (c, r) with
                        | Some b => b :: returned_blocks h'
                        | None => returned_blocks h'
                        end
  | _ :: h' => returned_blocks h'
  end.

(** ** Linearizability *)

(** What thread [i] has done after a history. *)
Inductive phase := PIdle | PInvoked (c : call) | PDecided (c : call) (r : response).

Definition event_thread (e : hevent) : nat :=
  match e with EInv i _ => i | ELin i _ _ => i | ERet i _ _ => i end.

(** The protocol of one thread: invocation, then one linearization point for that call, then the return
    of that call with the result determined at the linearization point. *)
Inductive follows (i : nat) : phase -> list hevent -> Prop :=
| f_nil p : follows i p []
| f_other p e h : event_thread e <> i -> follows i p h -> follows i p (e :: h)
| f_inv c h : follows i (PInvoked c) h -> follows i PIdle (EInv i c :: h)
| f_lin c r h : follows i (PDecided c r) h -> follows i (PInvoked c) (ELin i c r :: h)
| f_ret c r h : follows i PIdle h -> follows i (PDecided c r) (ERet i c r :: h).

(** The calls in the order of their linearization points with their results. *)
Fixpoint lin_order (h : list hevent) : list event :=
  match h with
  | [] => []
  | ELin _ c r :: h' => (c, r) :: lin_order h'
  | _ :: h' => lin_order h'
  end.

(** What clients see: invocations and returns. *)
Definition visible (e : hevent) : bool := match e with ELin _ _ _ => false | _ => true end.

(** A client-visible history is linearizable if linearization points can be inserted such that every
    thread follows the protocol, and executing the calls one after the other in the order of the points
    on a sequential slab gives exactly the same results. *)
Definition linearizable (t : target) (st : block) (v : list hevent) : Prop :=
  exists h, filter visible h = v /\
            (forall i, follows i PIdle h) /\
            snd (run t (fresh st) (map fst (lin_order h))) = lin_order h.

(** ** Progress *)

(** Number of atomic accesses granted to thread [i] by a schedule. *)
Definition accesses (i : nat) (sched : list action) : Z :=
  Z.of_nat (count (fun a => match a with Access j => Nat.eqb j i | _ => false end) sched).

Definition returns (i : nat) (sched : list action) : Z :=
  Z.of_nat (count (fun a => match a with Return j => Nat.eqb j i | _ => false end) sched).

(** Number of allocations that consumed space. *)
Definition successes (h : list hevent) : Z :=
  Z.of_nat (count (fun e => match e with
                            | ELin _ c (RBlock _) =>
                                match call_layout c with Some l => negb (lsize l =? 0) | None => false end
                            | _ => false
                            end) h).

Definition decided (ts : tstate) : Prop := exists c r, ts = Done c r.
