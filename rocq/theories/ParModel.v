(** * ParModel: a Bump as the allocator of a program with threads ([#[global_allocator] static A: Bump<..>], bump.rs:32-60, shared by
    [unsafe impl Sync], bump.rs:869): static-alloc/src/bump.rs, [impl GlobalAlloc] (871-908) and [LocalAlloc::realloc] (944-969).

    Other threads run between any two accesses to the counter (one action per access, with [Ordering::Relaxed] as in RelaxedModel) and
    between any two bytes that alloc_zeroed clears and realloc copies; all accesses to memory are events of ConcMemModel. *)
From Verif Require Import Base Spec SyncModel SyncMemModel ConcModel RelaxedModel ConcMemModel.

(** What a program calls; blocks are called by their number in the order of creation.  [PStore], [PLoad]: the program uses its block;
    [PSend]: it gives it to thread [j] (by a means of its own that synchronises). *)
Inductive parop :=
| PAlloc (l : layout) | PZeroed (l : layout) | PRealloc (h : nat) (n : Z) | PDealloc (h : nat)
| PStore (h : nat) (off : Z) (bs : list (option Z)) | PLoad (h : nat) | PSend (h j : nat).

(** What it sees *)
Inductive parans := PBlock (p : Z) | PNull | PPanicked (e : nat) | PUnit | PBytes (bs : list (option Z)).

(** Where a thread is: in its own code; in the allocation loop (for [o]); writing zeros / copying into the block [k] at [p] that it got for
    layout [l], [d] bytes of which are done. *)
Inductive parphase :=
| PIdle
| PWait (o : parop)
| PZeroing (o : parop) (k : nat) (p : Z) (l : layout) (d : Z)
| PCopying (o : parop) (k : nat) (p : Z) (l : layout) (d : Z).

(** model only: a pointer the program has: the block of ConcMemModel it is into, address, layout it was asked for with, not given up yet *)
Record parptr := MkPtr { pp_tok : nat; pp_addr : Z; pp_lay : layout; pp_live : bool }.

(** model only: a call that returned *)
Record parentry := MkPE { pe_thread : nat; pe_op : parop; pe_ans : parans }.

(** model only: [plog]: the calls that returned, oldest first *)
Record parsys := MkPar { pcs : csys; pphase : nat -> parphase; pptrs : list parptr; plog : list parentry }.

(** client of the model: nothing called yet *)
Definition parinit (m : mem) : parsys := MkPar (cinit m) (fun _ => PIdle) [] [].

(** model only: function update *)
Definition upd_phase (f : nat -> parphase) (i : nat) (x : parphase) : nat -> parphase := fun j => if Nat.eqb j i then x else f j.

(** model only: the pointer, if it is live and thread [i] has it (the contract of realloc, dealloc, and of using memory) *)
Definition par_ptr (s : parsys) (i h : nat) : option parptr :=
  match nth_error (pptrs s) h with
  | Some x => if pp_live x then
                match nth_error (ctoks (pcs s)) (pp_tok x) with
                | Some (_, o) => if Nat.eqb o i then Some x else None
                | None => None
                end
              else None
  | None => None
  end.

(** model only: update of a field *)
Definition gone (x : parptr) : parptr := MkPtr (pp_tok x) (pp_addr x) (pp_lay x) false.
(** model only *)
Definition lose (s : parsys) (h : nat) : list parptr :=
  match nth_error (pptrs s) h with Some x => SyncMemModel.upd (pptrs s) h (gone x) | None => pptrs s end.

(** model only: the call returns *)
Definition par_return (s : parsys) (cs : csys) (i : nat) (o : parop) (ptrs : list parptr) (a : parans) : parsys :=
  MkPar cs (upd_phase (pphase s) i PIdle) ptrs (plog s ++ [MkPE i o a]).
(** model only: the call goes on *)
Definition par_go (s : parsys) (cs : csys) (i : nat) (ph : parphase) : parsys :=
  MkPar cs (upd_phase (pphase s) i ph) (pptrs s) (plog s).

(** [Bump::alloc(self, layout)] (bump.rs:363-365, 873 and, by get_layout, 393-397, 923) begins. *)
Definition par_ask (t : target) (st : block) (s : parsys) (i : nat) (o : parop) (l : layout) : parsys :=
  par_go s (cstep t st (pcs s) (CBase (RInvoke i (CAlloc l)))) i (PWait o).

(** A call begins; those that need no new memory also end. *)
Definition par_start (t : target) (st : block) (s : parsys) (i : nat) (o : parop) : parsys :=
  match o with
  | PAlloc l => par_ask t st s i o l                                   (* bump.rs:872-876 *)
  | PZeroed l => par_ask t st s i o l                                  (* core: GlobalAlloc::alloc_zeroed, not overridden *)
  | PRealloc h n =>                                                    (* bump.rs:878-903 *)
      match par_ptr s i h with
      | None => s
      | Some x =>
          match nonzero_from_layout (pp_lay x) with                    (* 884 *)
          | None => par_return s (pcs s) i o (pptrs s) (PPanicked P_layout_unwrap)
          | Some cur =>
              match layout_reallocated t cur n with                    (* 888-891, 910-917 *)
              | None => par_return s (pcs s) i o (pptrs s) PNull
              | Some (Panic e) => par_return s (pcs s) i o (pptrs s) (PPanicked e)
              | Some (Ret l) =>
                  if (pp_addr x mod lalign l =? 0) && (lsize l <=? lsize cur)                    (* 948-949 *)
                  then par_return s (pcs s) i o (lose s h ++ [MkPtr (pp_tok x) (pp_addr x) l true]) (PBlock (pp_addr x))
                  else par_ask t st s i o l                            (* 962 *)
              end
          end
      end
  | PDealloc h =>                                                      (* bump.rs:905-907 *)
      match par_ptr s i h with
      | Some _ => par_return s (pcs s) i o (lose s h) PUnit
      | None => s
      end
  | PStore h off bs =>                                                 (* the program's own store *)
      match par_ptr s i h with
      | Some x => if (0 <=? off) && (off + Z.of_nat (length bs) <=? lsize (pp_lay x))
                  then par_return s (cstep t st (pcs s) (CStore i (pp_tok x) off bs)) i o (pptrs s) PUnit
                  else s
      | None => s
      end
  | PLoad h =>                                                         (* the program's own loads, of all the bytes *)
      match par_ptr s i h with
      | Some x => par_return s (cstep t st (pcs s) (CLoad i (pp_tok x))) i o (pptrs s)
                    (PBytes (mem_read (cmem (pcs s)) (pp_addr x) (lsize (pp_lay x))))
      | None => s
      end
  | PSend h j =>                                                       (* the program's own hand-over *)
      match par_ptr s i h with
      | Some x => par_return s (cstep t st (pcs s) (CSend i (pp_tok x) j)) i o (pptrs s) PUnit
      | None => s
      end
  end.

(** [Bump::alloc] has its result [r] for layout [l] and returns. *)
Definition par_answered (t : target) (st : block) (s : parsys) (i : nat) (o : parop) (l : layout) (r : response) : parsys :=
  let cs := cstep t st (pcs s) (CBase (RReturn i)) in
  let k := length (ctoks (pcs s)) in
  match r, o with
  | RBlock a, PAlloc _ => par_return s cs i o (pptrs s ++ [MkPtr k (ptr a) l true]) (PBlock (ptr a))      (* bump.rs:873-875 *)
  | RBlock a, PZeroed _ => par_go s cs i (PZeroing o k (ptr a) l 0)                                      (* core, write_bytes *)
  | RBlock a, PRealloc _ _ => par_go s cs i (PCopying o k (ptr a) l 0)                                   (* bump.rs:962 *)
  | RPanic e, _ => par_return s cs i o (pptrs s) (PPanicked e)
  | _, _ => par_return s cs i o (pptrs s) PNull                                                          (* bump.rs:875, 901-902, 962 *)
  end.

(** The next step of a thread that is inside of a call but not in the allocation loop: one byte, or the end.  (A load of ConcMemModel reads
    the whole block: more conflicts than in the code.) *)
Definition par_work (t : target) (st : block) (s : parsys) (i : nat) : parsys :=
  match pphase s i with
  | PIdle => s
  | PWait o =>
      match rthreads (cbase (pcs s)) i with
      | Done (CAlloc l) r => par_answered t st s i o l r
      | _ => s
      end
  | PZeroing o k p l d =>                                              (* core: ptr::write_bytes(ptr, 0, size) *)
      if d <? lsize l
      then par_go s (cstep t st (pcs s) (CStore i k d [Some 0])) i (PZeroing o k p l (d + 1))
      else par_return s (pcs s) i o (pptrs s ++ [MkPtr k p l true]) (PBlock p)
  | PCopying o k p l d =>                                              (* bump.rs:963-966 *)
      match o with
      | PRealloc h n =>
          match nth_error (pptrs s) h with
          | Some x =>
              if d <? Z.min (lsize l) (lsize (pp_lay x))
              then par_go s (cstep t st (cstep t st (pcs s) (CLoad i (pp_tok x)))
                               (CStore i k d [cmem (pcs s) (pp_addr x + d)])) i (PCopying o k p l (d + 1))
              else par_return s (pcs s) i o (lose s h ++ [MkPtr k p l true]) (PBlock p)          (* 968, 900-902 *)
          | None => s
          end
      | _ => s
      end
  end.

(** client of the model: what the scheduler lets happen *)
Inductive paraction :=
| PStart (i : nat) (o : parop)
| PAccess (i k : nat)              (* the next access of thread i to the counter reads the k-th write to it *)
| PWork (i : nat).

(** One scheduled action; an action that is not enabled does nothing. *)
Definition parstep (t : target) (st : block) (s : parsys) (a : paraction) : parsys :=
  match a with
  | PStart i o => match pphase s i with PIdle => par_start t st s i o | _ => s end
  | PAccess i k => MkPar (cstep t st (pcs s) (CBase (RAccess i k))) (pphase s) (pptrs s) (plog s)
  | PWork i => par_work t st s i
  end.

(** client of the model: a schedule *)
Definition parrun (t : target) (st : block) (s : parsys) (sched : list paraction) : parsys := fold_left (parstep t st) sched s.
