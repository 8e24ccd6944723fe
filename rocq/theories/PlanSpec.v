(** * PlanSpec: how much memory to provide for a known set of requests. *)
From Verif Require Import Base Spec SyncModel SyncSpec ConcModel RelaxedModel.

(** Worst case of a request when nothing is known about addresses: its size and all but one byte of its alignment. *)
Definition worst (l : layout) : Z := lsize l + lalign l - 1.

(** The size of a request, rounded up to a multiple of [A]. *)
Definition rounded (A : Z) (l : layout) : Z := ((lsize l + A - 1) / A) * A.

(** What a list of calls costs; requests for nothing cost nothing. *)
Definition price (cost : layout -> Z) (c : call) : Z :=
  match call_layout c with Some l => if lsize l =? 0 then 0 else cost l | None => 0 end.
Definition total (cost : layout -> Z) (cs : list call) : Z := fold_right (fun c n => price cost c + n) 0 cs.

(** Calls that ask for memory anywhere in the slab. *)
Definition wants (c : call) : Prop := match c with CAlloc l => 0 < lsize l | CGet _ => True | _ => False end.

(** The calls that a schedule makes. *)
Fixpoint calls_of (sched : list action) : list call :=
  match sched with [] => [] | Invoke _ c :: r => c :: calls_of r | _ :: r => calls_of r end.
Fixpoint rcalls_of (sched : list raction) : list call :=
  match sched with [] => [] | RInvoke _ c :: r => c :: rcalls_of r | _ :: r => rcalls_of r end.

(** Memory for all requests: for a slab at any address, and for a slab at a multiple of [A] if no request is aligned more strictly. *)
Definition enough_anywhere (n : Z) (cs : list call) : Prop := total worst cs <= n.
Definition enough_at (A n : Z) (cs : list call) : Prop :=
  0 < A /\ Forall (fun c => forall l, call_layout c = Some l -> (lalign l | A)) cs /\ total (rounded A) cs <= n.

(** The sum of the sizes of blocks *)
Definition sizes (bs : list block) : Z := fold_right (fun b n => size b + n) 0 bs.
