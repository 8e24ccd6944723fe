(** * TBorrowSpec: the ideal for threads that share a Bump: each block is an allocation of its own. *)
From Verif Require Import Base Spec SyncModel SyncSpec ConcModel BorrowModel BorrowSpec TBorrowModel.

(** The ideal of BorrowSpec, and what each thread is calling *)
Record jdeal := MkJ { jseq : ideal; jcalls : nat -> option (call * buse) }.

Definition set_call (f : nat -> option (call * buse)) (i : nat) (x : option (call * buse)) : nat -> option (call * buse) :=
  fun j => if Nat.eqb j i then x else f j.

Inductive jstep (t : target) (st : block) : jdeal -> top -> tanswer -> jdeal -> Prop :=
(* accesses, references, reset and functions of the client: as without threads *)
| JPlain s o r s' : (forall i c u, o <> BCall i c u) -> (o = BReset -> forall i, jcalls s i = None) ->
    istep t st (jseq s) o r s' -> jstep t st s (TPlain o) (TAnswer r) (MkJ s' (jcalls s))
| JCallNot s i c u : jstep t st s (TPlain (BCall i c u)) TInvalid s
| JResetNot s i : jcalls s i <> None -> jstep t st s (TPlain BReset) TInvalid s
| JInvoke s i k c u : jcalls s i = None -> (k < ishares (jseq s))%nat -> c <> CReset ->
    jstep t st s (TInvoke i k c u) TMore (MkJ (jseq s) (set_call (jcalls s) i (Some (c, u))))
| JInvokeNot s i k c u : jcalls s i <> None \/ (ishares (jseq s) <= k)%nat \/ c = CReset -> jstep t st s (TInvoke i k c u) TInvalid s
(* a step inside of a call is never undefined behaviour, and nothing happens to the objects *)
| JMore s i : jcalls s i <> None -> jstep t st s (TStep i) TMore s
(* the block is aligned, in the slab, and apart from all others; its first pointer is new *)
| JBlock s i c u a n : jcalls s i = Some (c, u) -> c <> CLevel ->
    let b := MkBlock (ptr a) (lsize (asked c)) in
    inside b st -> aligned (ptr a) (lalign (asked c)) -> Forall (fun o => disjoint b (iblk o)) (iobjs (jseq s)) -> ~ In n (iused (jseq s)) ->
    jstep t st s (TStep i) (TReturn c (RBlock a) (Some n))
      (MkJ (with_objs (jseq s) (iobjs (jseq s) ++ [new_object b n (use_perm u)]) (n :: iused (jseq s))) (set_call (jcalls s) i None))
| JOther s i c u r : jcalls s i = Some (c, u) -> (forall a, r <> RBlock a) ->
    jstep t st s (TStep i) (TReturn c r None) (MkJ (jseq s) (set_call (jcalls s) i None))
| JStepNot s i : jcalls s i = None -> jstep t st s (TStep i) TInvalid s.

Inductive jruns (t : target) (st : block) : jdeal -> list (top * tanswer) -> jdeal -> Prop :=
| JNil s : jruns t st s [] s
| JCons s1 o r s2 h s3 : jstep t st s1 o r s2 -> jruns t st s2 h s3 -> jruns t st s1 ((o, r) :: h) s3.

Definition jdeal_new (owned : bool) : jdeal := MkJ (ideal_new owned) (fun _ => None).

(** The layouts that the client asks for are valid. *)
Definition top_ok (t : target) (o : top) : Prop := match o with TInvoke _ _ c _ => valid_call t c | _ => True end.

(** Undefined behaviour in an answer *)
Definition is_ub (r : tanswer) : bool := match r with TUB | TAnswer BUB => true | _ => false end.

(** Only reads and writes, no references made from references *)
Definition tplain (o : top) : Prop := match o with TPlain o => plain o | _ => True end.

(** What the threads see: the invocations and returns *)
Fixpoint seen (h : list (top * tanswer)) : list hevent :=
  match h with
  | [] => []
  | (TInvoke i _ c _, TMore) :: h => EInv i c :: seen h
  | (TStep i, TReturn c r _) :: h => ERet i c r :: seen h
  | _ :: h => seen h
  end.
Definition no_reset (o : top) : Prop := o <> TPlain BReset.

(** How often thread [i] may step *)
Definition steps (i : nat) (os : list top) : Z :=
  Z.of_nat (length (filter (fun o => match o with TStep j => Nat.eqb j i | _ => false end) os)).
