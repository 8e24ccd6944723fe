(** * TBorrowModel: threads that share a Bump, under the aliasing rules.

    The stacks of borrows are one for all threads (as in Miri), and the scheduler may switch threads between any two accesses or
    new references: a call is a program whose steps are one new reference, one access to the counter, or one write to a block.
    The counter is accessed by SeqCst operations only (bump.rs:780-786, 557-559), so it has one value at a time. *)
From Verif Require Import Base Spec SyncModel BorrowModel.

(** model only: programs of a thread with result [A] *)
Inductive prog (A : Type) : Type :=
| Fin (a : A)
| Tag (t : nat) (parts : list (rkind * block)) (k : nat -> prog A)       (* a new reference from a pointer with tag t *)
| Load (t : nat) (k : Z -> prog A)                                        (* load the counter *)
| Cas (t : nat) (expect new : Z) (k : option Z -> prog A)                 (* compare_exchange of the counter *)
| Put (t : nat) (b : block) (k : prog A).                                 (* write a value *)
Arguments Fin {A}. Arguments Tag {A}. Arguments Load {A}. Arguments Cas {A}. Arguments Put {A}.

(** model only *)
Fixpoint pbind {A B} (p : prog A) (f : A -> prog B) : prog B :=
  match p with
  | Fin a => f a
  | Tag t parts k => Tag t parts (fun n => pbind (k n) f)
  | Load t k => Load t (fun v => pbind (k v) f)
  | Cas t e n k => Cas t e n (fun v => pbind (k v) f)
  | Put t b k => Put t b (pbind k f)
  end.
Notation "'do' x := p 'in' q" := (pbind p (fun x => q)) (at level 200, x name, p at level 100, q at level 200, right associativity).

(** ** static-alloc/src/bump.rs; [hd] are the bytes of [consumed], [st] those of [storage] (bump.rs:147-158) *)

(** model only: what a call (or one iteration of its loop) ends with: another iteration with a new guess, or the answer and the pointer *)
Inductive out := Again (guess : Z) (self : nat) | Final (r : response) (tag : option nat).

Section Code.
Variables (t : target) (hd st : block) (c : call) (u : buse).

(** bump.rs:147-158 the parameter [&self] of a method *)
Definition p_self (self : nat) : prog nat := Tag self [(RCell, hd); (RCell, st)] Fin.

(** bump.rs:588-590 [self.storage.get()]; [get] has a parameter [&self], too *)
Definition p_storage_get (self : nat) : prog nat :=
  do r := Tag self [(RCell, st)] Fin in Tag r [(RCell, st)] Fin.

(** bump.rs:776-786 [bump] *)
Definition p_bump (self : nat) (expect new : Z) : prog (option Z) :=
  do self := p_self self in do k := Tag self [(RCell, hd)] Fin in Cas k expect new Fin.

(** bump.rs:583-638 [try_alloc_at]; the computations in between are those of SyncModel *)
Definition p_try_alloc_at (l : layout) (expect : Z) (self : nat) : prog (outcome result * nat) :=
  do self := p_self self in
  do base := p_storage_get self in
  match prepare t st l expect with
  | Panic m => Fin (Panic m, base)
  | Ret AExhausted => Fin (Ret (RErr Exhausted), base)
  | Ret (ACas e new at_aligned) =>
      do x := p_bump self e new in
      match x with
      | Some observed => Fin (Ret (RErr (Mismatch observed)), base)
      | None => Fin (match finish st new at_aligned with Ret a => Ret (ROk a) | Panic m => Panic m end, base)
      end
  end.

(** bump.rs:557-559 [level] *)
Definition p_level (self : nat) : prog Z :=
  do self := p_self self in do k := Tag self [(RCell, hd)] Fin in Load k Fin.

(** bump.rs:802-806 [Allocation::leak], 820-825 [boxed]: the use of the block, as in BorrowModel *)
Definition p_use (b : block) (base : nat) : prog nat :=
  match u with
  | URaw => Fin base
  | ULeak => Put base b (Tag base [(RUnique, b)] Fin)
  | UBoxed => Put base b (Fin base)
  end.

(** model only: the end of a call *)
Definition p_done (r : response) (base : nat) : prog out :=
  match r with
  | RBlock a => do tag := p_use (MkBlock (ptr a) (lsize (asked c))) base in Fin (Final r (Some tag))
  | _ => Fin (Final r None)
  end.

(** bump.rs:565-572 one iteration of the loop of [try_alloc] *)
Definition p_iter (l : layout) (guess : Z) (self : nat) : prog out :=
  do x := p_try_alloc_at l guess self in
  match x with
  | (Ret (ROk a), base) => p_done (RBlock a) base
  | (Ret (RErr Exhausted), base) => p_done RNone base
  | (Ret (RErr (Mismatch observed)), _) => Fin (Again observed self)
  | (Panic m, base) => p_done (RPanic m) base
  end.

(** bump.rs:561-573 [try_alloc] *)
Definition p_try_alloc (l : layout) (self : nat) : prog out := do self := p_self self in p_iter l 0 self.

(** bump.rs:701-707 [leak], 744-756 [leak_at], 532-537 [leak_box], 544-549 [leak_box_at] have a parameter [&self], too *)
Definition p_use_self (self : nat) : prog nat := match u with URaw => Fin self | ULeak | UBoxed => p_self self end.

(** bump.rs:363-385 [alloc], [alloc_at]; 435-476 [get], [get_at] with 759-761 [zst_fake_alloc]; 557-559 [level] *)
Definition p_method (self : nat) : prog out :=
  match c with
  | CAlloc l => do self := p_self self in p_try_alloc l self
  | CAllocAt l lv => do self := p_self self in do x := p_try_alloc_at l lv self in p_done (of_result (fst x)) (snd x)
  | CGet l =>
      do self := p_self self in
      if lsize l =? 0 then
        do self := p_self self in do lv := p_level self in p_done (RBlock (for_zst l lv)) self
      else p_try_alloc l self
  | CGetAt l lv =>
      do self := p_self self in
      if lsize l =? 0 then
        do self := p_self self in
        do cur := p_level self in
        if negb (cur =? lv) then p_done (RFail (Mismatch cur)) self else p_done (RBlock (for_zst l cur)) self
      else do x := p_try_alloc_at l lv self in p_done (of_result (fst x)) (snd x)
  | CLevel => do lv := p_level self in p_done (RLevel lv) self
  | CReset => Fin (Final RUnit None)          (* takes &mut self: not callable on a shared slab *)
  end.

(** model only: the whole call *)
Definition p_call (self : nat) : prog out := do self := p_use_self self in p_method self.

(** bump.rs:565-572 the next iteration of the loop *)
Definition settle (p : prog out) : prog out :=
  match p with Fin (Again guess self) => p_iter (asked c) guess self | _ => p end.
End Code.

(** model only: one step of a program; [lv] is the value of the counter *)
Definition pstep {A} (busy : list nat) (hd : block) (lv : Z) (p : prog A) : M (Z * prog A) :=
  match p with
  | Fin a => mret (lv, Fin a)
  | Tag t parts k => n <- m_retag busy t parts ;; mret (lv, k n)
  | Load t k => _ <- m_read busy t hd ;; mret (lv, k lv)
  | Cas t e new k =>
      match compare_exchange lv e new with
      | (lv', None) => _ <- m_write busy t hd ;; mret (lv', k None)
      | (lv', Some v) => _ <- m_read busy t hd ;; mret (lv', k (Some v))
      end
  | Put t b k => _ <- m_write busy t b ;; mret (lv, k)
  end.

(** ** Programs with threads *)

(** client of the model: a call in progress *)
Record running := MkRun { rcall : call; ruse : buse; rprog : prog out }.

(** client of the model: the world of BorrowModel, and the threads that are in a call *)
Record tworld := MkT { tw : bworld; tthreads : list (nat * running) }.

(** model only: the call of a thread *)
Definition lookup (i : nat) (l : list (nat * running)) : option running :=
  match find (fun q => Nat.eqb (fst q) i) l with Some q => Some (snd q) | None => None end.
(** model only *)
Definition remove (i : nat) (l : list (nat * running)) : list (nat * running) := filter (fun q => negb (Nat.eqb (fst q) i)) l.

(** client of the model: what is done in BorrowModel (but calls are not one step), a thread starts a call through reference [s], and a
    step of a thread *)
Inductive top :=
| TPlain (o : bop)
| TInvoke (i s : nat) (c : call) (u : buse)
| TStep (i : nat).

(** client of the model: a step of the client, a step of a call that is not the last one, and the last step of a call with its answer *)
Inductive tanswer := TAnswer (r : banswer) | TMore | TReturn (c : call) (r : response) (tag : option nat) | TUB | TInvalid.

(** client of the model: the world after the client got an answer *)
Definition got (w : bworld) (lv : Z) (b : bstate) (c : call) (r : response) (tag : option nat) : bworld :=
  MkW (MkSlab (storage (wslab w)) lv) b (wowned w) (wshares w)
    (match r, tag with RBlock a, Some n => wobjs w ++ [MkO (MkBlock (ptr a) (lsize (asked c))) [n]] | _, _ => wobjs w end)
    (wbusy w) (wcalls w).

(** client of the model; [reset] needs a unique reference, which there is only if no thread is in a call *)
Definition tstep (t : target) (hd : block) (w : tworld) (o : top) : tworld * tanswer :=
  match o with
  | TPlain (BCall _ _ _) => (w, TInvalid)
  | TPlain BReset =>
      match tthreads w with
      | [] => let (w', r) := bstep t hd (tw w) BReset in (MkT w' [], TAnswer r)
      | _ :: _ => (w, TInvalid)
      end
  | TPlain o => let (w', r) := bstep t hd (tw w) o in (MkT w' (tthreads w), TAnswer r)
  | TInvoke i s c u =>
      match lookup i (tthreads w), nth_error (wshares (tw w)) s, c with
      | Some _, _, _ | _, None, _ | _, _, CReset => (w, TInvalid)
      | None, Some self, _ => (MkT (tw w) ((i, MkRun c u (p_call t hd (storage (wslab (tw w))) c u self)) :: tthreads w), TMore)
      end
  | TStep i =>
      match lookup i (tthreads w) with
      | None => (w, TInvalid)
      | Some r =>
          match pstep (wbusy (tw w)) hd (consumed (wslab (tw w))) (rprog r) (wsb (tw w)) with
          | None => (w, TUB)
          | Some ((lv, p), b) =>
              match settle t hd (storage (wslab (tw w))) (rcall r) (ruse r) p with
              | Fin (Final x tag) => (MkT (got (tw w) lv b (rcall r) x tag) (remove i (tthreads w)), TReturn (rcall r) x tag)
              | p => (MkT (got (tw w) lv b (rcall r) RNone None) ((i, MkRun (rcall r) (ruse r) p) :: remove i (tthreads w)), TMore)
              end
          end
      end
  end.

(** client of the model: a program, in the order of the scheduler *)
Fixpoint trun (t : target) (hd : block) (w : tworld) (os : list top) : tworld * list (top * tanswer) :=
  match os with
  | [] => (w, [])
  | o :: os => let (w1, r) := tstep t hd w o in let (w2, h) := trun t hd w1 os in (w2, (o, r) :: h)
  end.

(** bump.rs:283-310 a new Bump, as in BorrowModel *)
Definition tnew (hd st : block) (owned : bool) : tworld := MkT (bnew hd st owned) [].
