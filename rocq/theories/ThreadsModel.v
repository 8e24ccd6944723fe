(** * ThreadsModel: threads that create containers (without-alloc/src/alloc.rs) from one shared Bump ([unsafe impl Sync],
    static-alloc/src/bump.rs:869) and use them.

    A call that needs memory is in the middle of [Bump::alloc] (bump.rs:561-638, one atomic access per action, as in RelaxedModel: the
    counter is accessed with [Ordering::Relaxed], which is weaker than the code's [SeqCst]) while other threads run; what it does with the
    memory it gets (writing values and counters, copying) is done in a later action.  Between accesses to the counter, what a call does to
    the memory of its own containers is one action (that no other thread touches that memory meanwhile is C77 and the last part of C84). *)
From Verif Require Import Base Spec SyncModel SyncMemModel UninitModel OwnModel RcModel RcMemModel FixedVecModel AllocModel FixedVecMemModel UnsyncModel WorldModel
  ConcModel RelaxedModel.

(** To find out what a call asks the allocator for (alloc.rs:30-41), it is run with an allocator that writes down the request. *)
Definition asked : lalloc := {|
  lst := option layout;
  l_alloc := fun s m l => (Some l, m, Ret None);
  l_dealloc := fun s m a => (s, m) |}.
(** model only: does the call have to ask the allocator first *)
Definition need (code : bval -> rvalue) (boom : bval -> bool) (t : target) (m : mem) (parts : list part) (o : wop) : option layout :=
  wst (fst (wstep code boom t asked (@MkWorld asked None m parts) o)).

(** The rest of the call is the call with an allocator that gives the answer [Some (l, r)] of the slab to the request [l].
    (It is asked for nothing else: see C84.) *)
Definition answered : lalloc := {|
  lst := option (layout * outcome (option Z));
  l_alloc := fun s m l =>
    match s with
    | Some (l', r) => (None, m, if layout_eqb l l' then match r with Ret (Some p) => Ret (Some (p, l)) | Ret None => Ret None | Panic e => Panic e end
                                else Ret None)
    | None => (None, m, Ret None)
    end;
  l_dealloc := fun s m a => (s, m) |}.

(** bump.rs:393-397, 920-929: what LocalAlloc::alloc makes of the result of [alloc] *)
Definition response_of (r : response) : outcome (option Z) :=
  match r with RBlock a => Ret (Some (ptr a)) | RPanic e => Panic e | _ => Ret None end.

(** What happened: thread, call, the address the slab answered with (None: no memory, or it was not asked), result. *)
Record tentry := MkTE { te_thread : nat; te_op : wop; te_grant : option Z; te_res : wres }.

(** [towner]: the thread that has the part.  [tpend]: the call a thread is in.  [tlog]: calls that returned, oldest first.
    [tdead]: the process was aborted (by a panic in a destructor during unwinding). *)
Record tsys := MkT { tbase : rsys; tmem : mem; tparts : list part; towner : list nat; tpend : nat -> option wop;
                     tlog : list tentry; tdead : bool }.

(** client of the model: nothing allocated yet *)
Definition tinit (m : mem) : tsys := MkT rinit m [] [] (fun _ => None) [] false.

(** The part that a call is about *)
Definition wop_uses (o : wop) : option nat :=
  match o with
  | WBox k _ | WVec k _ | WRcOp k _ | WSlice k | WSliceSet k _ _ | WWrite k _ _ | WCopySlice k _ => Some k
  | _ => None
  end.
(** model only: may thread i use the container *)
Definition has_part (s : tsys) (i : nat) (o : wop) : bool :=
  match wop_uses o with
  | None => true
  | Some k => match nth_error (towner s) k with Some j => Nat.eqb j i | None => false end
  end.

(** model only *)
Definition is_abort (r : wres) : bool := match r with WVecAns YAborted => true | _ => false end.
(** model only: function update *)
Definition upd_pend (f : nat -> option wop) (i : nat) (x : option wop) : nat -> option wop := fun j => if Nat.eqb j i then x else f j.

(** Thread [i] does the rest of the call [o], with the slab's answer, if it was asked. *)
Definition tfinish (code : bval -> rvalue) (boom : bval -> bool) (t : target) (s : tsys) (base : rsys) (i : nat) (o : wop)
    (ans : option (layout * outcome (option Z))) : tsys :=
  let (w, r) := wstep code boom t answered (@MkWorld answered ans (tmem s) (tparts s)) o in
  MkT base (wmem w) (wparts w) (towner s ++ repeat i (length (wparts w) - length (tparts s))) (upd_pend (tpend s) i None)
    (tlog s ++ [MkTE i o (match ans with Some (_, Ret (Some p)) => Some p | _ => None end) r]) (is_abort r).

Inductive taction :=
| TStart (i : nat) (o : wop)       (* thread i calls; if the call needs no memory, it returns at once *)
| TAccess (i k : nat)              (* the next access of thread i to the counter reads the k-th write to it *)
| TFinish (i : nat)                (* the slab has answered thread i: it finishes its call *)
| TSend (i k j : nat).             (* thread i moves part k to thread j *)

(** One scheduled action; an action that is not enabled does nothing. *)
Definition tstep (code : bval -> rvalue) (boom : bval -> bool) (t : target) (st : block) (s : tsys) (a : taction) : tsys :=
  if tdead s then s else
  match a with
  | TStart i o =>
      match tpend s i with
      | Some _ => s
      | None =>
          if has_part s i o then
            match need code boom t (tmem s) (tparts s) o with
            | None => tfinish code boom t s (tbase s) i o None
            | Some l => MkT (rstep t st (tbase s) (RInvoke i (CAlloc l))) (tmem s) (tparts s) (towner s) (upd_pend (tpend s) i (Some o)) (tlog s) false
            end
          else s
      end
  | TAccess i k => MkT (rstep t st (tbase s) (RAccess i k)) (tmem s) (tparts s) (towner s) (tpend s) (tlog s) false
  | TFinish i =>
      match tpend s i, rthreads (tbase s) i with
      | Some o, Done (CAlloc l) r => tfinish code boom t s (rstep t st (tbase s) (RReturn i)) i o (Some (l, response_of r))
      | _, _ => s
      end
  | TSend i k j =>
      match tpend s i, nth_error (towner s) k with
      | None, Some i' => if Nat.eqb i' i then MkT (tbase s) (tmem s) (tparts s) (upd_nth k j (towner s)) (tpend s) (tlog s) false else s
      | _, _ => s
      end
  end.

(** client of the model: a schedule *)
Definition trun (code : bval -> rvalue) (boom : bval -> bool) (t : target) (st : block) (s : tsys) (sched : list taction) : tsys :=
  fold_left (tstep code boom t st) sched s.
