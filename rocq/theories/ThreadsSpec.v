(** * ThreadsSpec *)
From Verif Require Import Base Spec SyncModel UninitModel RcModel FixedVecMemModel WorldModel WorldSpec ThreadsModel.

(** Threads make calls whose arguments have the types they should have. *)
Definition taction_ok (t : target) (st : block) (a : taction) : Prop :=
  match a with TStart _ o => wop_ok t (in_block st) o | _ => True end.

(** What the threads called, what the slab answered and what came back, in the order in which the calls returned. *)
Definition tops (s : tsys) : list wop := map te_op (tlog s).
Definition tgrants (s : tsys) : list (option Z) := map te_grant (tlog s).
Definition tresults (s : tsys) : list wres := map te_res (tlog s).
