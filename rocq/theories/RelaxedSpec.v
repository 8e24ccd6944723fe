(** * RelaxedSpec *)
From Verif Require Import Base Spec SyncModel SyncSpec ConcModel ConcSpec RelaxedModel.

Definition valid_raction (t : target) (a : raction) : Prop :=
  match a with
  | RInvoke _ c => valid_call t c /\ is_reset c = false
  | _ => True
  end.

Definition rhistory (s : rsys) : list hevent := rev (rhist s).

(** The newest value of the counter. *)
Definition latest (s : rsys) : Z := last (mo s) 0.

(** Levels that thread [i] learns from its returned calls, in program order. *)
Fixpoint thread_levels (i : nat) (h : list hevent) : list Z :=
  match h with
  | [] => []
  | ERet j c r :: h' =>
      if Nat.eqb j i then
        match event_level (c, r) with Some lv => lv :: thread_levels i h' | None => thread_levels i h' end
      else thread_levels i h'
  | _ :: h' => thread_levels i h'
  end.

Definition nondecreasing (l : list Z) : Prop :=
  forall i j a b, (i < j)%nat -> nth_error l i = Some a -> nth_error l j = Some b -> a <= b.

Definition rreturns (i : nat) (sched : list raction) : Z :=
  Z.of_nat (count (fun a => match a with RReturn j => Nat.eqb j i | _ => false end) sched).

(** The memory model allows thread [i] to perform its next access by reading write [k]. *)
Definition can_access (t : target) (st : block) (s : rsys) (i k : nat) : bool :=
  match rthreads s i, nth_error (mo s) k with
  | Running c guess, Some v =>
      Nat.leb (views s i) k && match raccess t st (mo s) c guess k v with Some _ => true | None => false end
  | _, _ => false
  end.

(** Number of accesses that thread [i] performs along a schedule. *)
Fixpoint performed (t : target) (st : block) (s : rsys) (i : nat) (sched : list raction) : Z :=
  match sched with
  | [] => 0
  | a :: rest =>
      (match a with
       | RAccess j k => if Nat.eqb j i && can_access t st s i k then 1 else 0
       | _ => 0
       end) + performed t st (rstep t st s a) i rest
  end.
