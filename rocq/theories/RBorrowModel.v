(** * RBorrowModel: what without_alloc's Rc and Weak do under the aliasing rules of BorrowModel.

    All handles of a value have the same pointer (rc.rs:23-46), with the tag of the memory that was given to [Rc::new].  The rules are in
    BorrowModel; a reference that a method returns to its caller is made once: to make it again is an action that the client can do. *)
From Verif Require Import Base Spec SyncModel RcModel BorrowModel UBorrowModel.

(** model only: a type: its layout, its parts (relative to the value) and which of them are inside of an UnsafeCell, and if it is Unpin *)
Record qtype := MkQT { q_lay : layout; q_parts : list (bool * block); q_unpin : bool }.

(** rc.rs:58-73 [RcBox]: its address and type, and the tag of the pointers to it.  Padding is left out: nobody has a reference to it. *)
Record qbox := MkQB { q_addr : Z; q_ty : qtype; q_base : nat }.
(** rc.rs:59-63 the field [val] *)
Definition q_val (x : qbox) : block := MkBlock (q_addr x) (lsize (q_lay (q_ty x))).
(** rc.rs:66 the field [strong] *)
Definition q_strong (t : target) (x : qbox) : block := MkBlock (q_addr x + rc_strong_off t (q_lay (q_ty x))) (word_bytes t).
(** rc.rs:72 the field [weak] *)
Definition q_weak (t : target) (x : qbox) : block := MkBlock (q_addr x + rc_weak_off t (q_lay (q_ty x))) (word_bytes t).
(** rc.rs:243-246 all of it *)
Definition q_all (t : target) (x : qbox) : block := MkBlock (q_addr x) (lsize (rc_layout t (q_lay (q_ty x)))).
(** model only: the parts of a reference &T to the value *)
Definition q_refs (x : qbox) : list (rkind * block) :=
  map (fun p : bool * block => (if fst p then RCell else RShared, MkBlock (q_addr x + start (snd p)) (size (snd p)))) (q_parts (q_ty x)).

Section Methods.
Variables (calls : list nat) (t : target) (x : qbox).

(** rc.rs:101-114 [new]: uninit.rs:315-327 [init] writes the box and makes a reference, which is dropped *)
Definition rb_new : M unit :=
  _ <- m_write calls (q_base x) (q_all t x) ;; _ <- one calls (mut_kind (q_unpin (q_ty x))) (q_all t x) (q_base x) ;; mret tt.

(** rc.rs:304-308 [inner]: uninit.rs:764-774 [as_ref], [into_ref]: a reference to the whole RcBox *)
Definition rb_inner : M nat :=
  let parts := q_refs x ++ [(RCell, q_strong t x); (RCell, q_weak t x)] in
  r <- m_retag calls (q_base x) parts ;; m_retag calls r parts.
(** rc.rs:256-258 [strong_count] *)
Definition rb_strong_count : M unit := r <- rb_inner ;; cell_get calls (q_strong t x) r.
(** rc.rs:251-253 [weak_count] *)
Definition rb_weak_count : M unit := r <- rb_inner ;; cell_get calls (q_weak t x) r.
(** rc.rs:329-337 [inc_strong], [dec_strong] *)
Definition rb_set_strong : M unit := _ <- rb_strong_count ;; r <- rb_inner ;; cell_set calls (q_strong t x) r.
(** rc.rs:339-347 [inc_weak], [dec_weak] *)
Definition rb_set_weak : M unit := _ <- rb_weak_count ;; r <- rb_inner ;; cell_set calls (q_weak t x) r.
(** rc.rs:310-312 [is_unique], with the count of strong handles *)
Definition rb_is_unique (strong : nat) : M unit := _ <- rb_strong_count ;; if Nat.eqb strong 1 then rb_weak_count else mret tt.
(** rc.rs:533-539 [deref] *)
Definition rb_deref : M nat := r <- rb_inner ;; m_retag calls r (q_refs x).
(** rc.rs:264-270 [get_mut], with the counts *)
Definition rb_get_mut (strong weak : nat) : M (option nat) :=
  _ <- rb_is_unique strong ;;
  if Nat.eqb strong 1 && Nat.eqb weak 1 then n <- one calls (mut_kind (q_unpin (q_ty x))) (q_val x) (q_base x) ;; mret (Some n) else mret None.
(** rc.rs:520-530 [drop]; the destructor is call [c] and has its &mut self as a protected argument (as in EBorrowModel) *)
Definition rb_drop (strong c : nat) : M (option nat) :=
  _ <- rb_set_strong ;; _ <- rb_strong_count ;;
  if Nat.eqb strong 1 then
    _ <- rb_set_weak ;; d <- m_retag_prot calls (q_base x) [(mut_kind (q_unpin (q_ty x)), q_val x)] (Some c) ;; mret (Some d)
  else mret None.
(** rc.rs:178-190 [try_unwrap] *)
Definition rb_try_unwrap (strong : nat) : M unit :=
  _ <- rb_strong_count ;; if Nat.eqb strong 1 then _ <- rb_set_strong ;; m_read calls (q_base x) (q_val x) else mret tt.

(** rc.rs:469-478 [weak] and [strong] of a Weak: references to one counter only *)
Definition wk_cell (b : block) : M nat := r <- one calls RCell b (q_base x) ;; one calls RCell b r.
(** rc.rs:437-439 [strong_count], 458-460 [weak_count] *)
Definition wk_count (b : block) : M unit := r <- wk_cell b ;; cell_get calls b r.
(** rc.rs:480-488 [inc_weak], [dec_weak] (and :571-576 [drop], :601-606 [clone]) *)
Definition wk_set : M unit := _ <- wk_count (q_weak t x) ;; r <- wk_cell (q_weak t x) ;; cell_set calls (q_weak t x) r.
(** rc.rs:408-416 [upgrade] *)
Definition wk_upgrade (strong : nat) : M unit := _ <- wk_count (q_strong t x) ;; if Nat.eqb strong 0 then mret tt else rb_set_strong.
(** rc.rs:371-384 [Weak::try_unwrap]: the handle is dropped at its end *)
Definition wk_try_unwrap (strong weak : nat) : M unit :=
  _ <- wk_count (q_strong t x) ;;
  if Nat.eqb strong 0 then _ <- wk_count (q_weak t x) ;; if Nat.eqb weak 1 then wk_set else mret tt else mret tt.
End Methods.

(** ** Programs that use Rcs *)

(** client of the model: the value of a box: the client has references with these tags; or its destructor is running; or it is gone *)
Inductive vstatus := QLive (tags : list nat) | QDying (tags : list nat) | QOver.
(** client of the model: a box: type, counters and value *)
Record qcontents := MkQC { c_ty : qtype; c_strong : nat; c_weak : nat; c_val : vstatus }.
(** client of the model: a memory: its block, the tag of the pointer to it, and the box in it if it is not free *)
Record qmem := MkQM { m_blk : block; m_base : nat; m_box : option qcontents }.
(** client of the model: [HRaw] is the Uninit of [into_raw] *)
Inductive hkind := HStrong | HWeak | HRaw | HGone.

(** client of the model; [m] is a memory, [h] a handle *)
Inductive qop :=
| QNew (m : nat) (ty : qtype)                    (* Rc::new *)
| QClone (h : nat)                               (* clone of Rc or Weak *)
| QDowngrade (h : nat) | QUpgrade (h : nat)
| QStrong (h : nat) | QWeak (h : nat)            (* strong_count and weak_count of Rc or Weak *)
| QDrop (h : nat)                                (* drop of Rc (up to its destructor) or Weak *)
| QRet                                           (* the destructor that was started last returns or panics *)
| QDeref (h : nat) | QGetMut (h : nat)
| QTryUnwrap (h : nat)                           (* Rc::try_unwrap *)
| QIntoRaw (h : nat) | QFromRaw (h : nat)
| QTake (h : nat)                                (* Weak::try_unwrap *)
| QAct (m : nat) (a : cact)                      (* an access to the value in memory m *)
| QEnter | QExit (c : nat).                      (* a function of the client starts, and returns *)

(** client of the model; [QNo]: None or Err or a failed assertion *)
Inductive qanswer := QDone | QTag (n : nat) | QNum (n : nat) | QNo | QUB | QInvalid.

(** client of the model; [qhandles]: memory and kind; [qdrops]: the destructors that run, last one first: call, memory, and whether the value
    is still in that memory (its memory may have been taken) *)
Record qworld := MkQW { qsb : bstate; qmems : list qmem; qhandles : list (nat * hkind); qdrops : list (nat * nat * bool); qbusy : list nat; qcalls : nat }.

(** model only: the box in a memory *)
Definition box_at (k : qmem) (ty : qtype) : qbox := MkQB (start (m_blk k)) ty (m_base k).
(** model only *)
Definition put_box (k : qmem) (c : option qcontents) : qmem := MkQM (m_blk k) (m_base k) c.
(** model only *)
Definition put_mem (w : qworld) (m : nat) (k : qmem) (s : bstate) (hs : list (nat * hkind)) : qworld :=
  MkQW s (set_nth (qmems w) m k) hs (qdrops w) (qbusy w) (qcalls w).
(** model only *)
Definition add_tag (v : vstatus) (n : option nat) : vstatus :=
  match v, n with QLive l, Some n => QLive (n :: l) | QDying l, Some n => QDying (n :: l) | _, _ => v end.
(** model only: the tags of a value that can be accessed *)
Definition tags_of (v : vstatus) : option (list nat) := match v with QLive l | QDying l => Some l | QOver => None end.
(** model only: the memory of a destructor was taken *)
Definition detach (m : nat) (l : list (nat * nat * bool)) : list (nat * nat * bool) :=
  map (fun d : nat * nat * bool => if Nat.eqb (snd (fst d)) m then (fst d, false) else d) l.
(** model only: [Rc::layout] fits (rc.rs:102) *)
Definition rc_fits (t : target) (b : block) (l : layout) : bool := (lsize (rc_layout t l) <=? size b) && (start b mod lalign (rc_layout t l) =? 0).

(** client of the model: a call on a handle of kind [kd] of the box [c] in memory [m] *)
Definition qcall (t : target) (w : qworld) (h m : nat) (kd : hkind) (k : qmem) (c : qcontents) (o : qop) : qworld * qanswer :=
  let x := box_at k (c_ty c) in
  let B := qbusy w in
  let box st wk v := put_box k (Some (MkQC (c_ty c) st wk v)) in
  let hs := qhandles w in
  let go {A} (f : M A) (g : A -> bstate -> qworld * qanswer) := match f (qsb w) with Some (a, s) => g a s | None => (w, QUB) end in
  let st := c_strong c in let wk := c_weak c in let v := c_val c in
  match o, kd with
  | QClone _, HStrong => go (rb_set_strong B t x) (fun _ s => (put_mem w m (box (S st) wk v) s (hs ++ [(m, HStrong)]), QDone))
  | QClone _, HWeak => go (wk_set B t x) (fun _ s => (put_mem w m (box st (S wk) v) s (hs ++ [(m, HWeak)]), QDone))
  | QDowngrade _, HStrong => go (rb_set_weak B t x) (fun _ s => (put_mem w m (box st (S wk) v) s (hs ++ [(m, HWeak)]), QDone))
  | QUpgrade _, HWeak => go (wk_upgrade B t x st) (fun _ s =>
      if Nat.eqb st 0 then (put_mem w m k s hs, QNo) else (put_mem w m (box (S st) wk v) s (hs ++ [(m, HStrong)]), QDone))
  | QStrong _, HStrong => go (rb_strong_count B t x) (fun _ s => (put_mem w m k s hs, QNum st))
  | QStrong _, HWeak => go (wk_count B x (q_strong t x)) (fun _ s => (put_mem w m k s hs, QNum st))
  | QWeak _, HStrong => go (rb_weak_count B t x) (fun _ s => (put_mem w m k s hs, QNum wk))
  | QWeak _, HWeak => go (wk_count B x (q_weak t x)) (fun _ s => (put_mem w m k s hs, QNum wk))
  | QDrop _, HStrong => go (rb_drop B t x st (qcalls w)) (fun d s =>
      match d with
      | Some d => (MkQW s (set_nth (qmems w) m (box (pred st) (pred wk) (match tags_of v with Some l => QDying (d :: l) | None => v end)))
                     (set_nth hs h (m, HGone)) ((qcalls w, m, true) :: qdrops w) (qcalls w :: B) (S (qcalls w)), QTag d)
      | None => (put_mem w m (box (pred st) wk v) s (set_nth hs h (m, HGone)), QDone)
      end)
  | QDrop _, HWeak => go (wk_set B t x) (fun _ s => (put_mem w m (box st (pred wk) v) s (set_nth hs h (m, HGone)), QDone))
  | QDeref _, HStrong => go (rb_deref B t x) (fun n s => (put_mem w m (box st wk (add_tag v (Some n))) s hs, QTag n))
  | QGetMut _, HStrong => go (rb_get_mut B t x st wk) (fun n s =>
      match n with Some n => (put_mem w m (box st wk (add_tag v (Some n))) s hs, QTag n) | None => (put_mem w m k s hs, QNo) end)
  | QTryUnwrap _, HStrong => go (rb_try_unwrap B t x st) (fun _ s =>
      if Nat.eqb st 1 then (put_mem w m (box (pred st) wk QOver) s (set_nth hs h (m, HWeak)), QDone) else (put_mem w m k s hs, QNo))
  | QIntoRaw _, HStrong => go (rb_is_unique B t x st) (fun _ s =>
      if Nat.eqb st 1 && Nat.eqb wk 1 then (put_mem w m k s (set_nth hs h (m, HRaw)), QDone) else (put_mem w m k s hs, QNo))
  | QFromRaw _, HRaw => (put_mem w m k (qsb w) (set_nth hs h (m, HStrong)), QDone)
  | QTake _, HWeak => go (wk_try_unwrap B t x st wk) (fun _ s =>
      if Nat.eqb st 0 && Nat.eqb wk 1 then
        (MkQW s (set_nth (qmems w) m (put_box k None)) (set_nth hs h (m, HGone)) (detach m (qdrops w)) (qbusy w) (qcalls w), QDone)
      else (put_mem w m k s hs, QNo))
  | _, _ => (w, QInvalid)
  end.

(** model only: the handle that a call is about *)
Definition handle_of (o : qop) : option nat :=
  match o with
  | QClone h | QDowngrade h | QUpgrade h | QStrong h | QWeak h | QDrop h | QDeref h | QGetMut h | QTryUnwrap h | QIntoRaw h | QFromRaw h | QTake h => Some h
  | _ => None
  end.

(** client of the model *)
Definition qstep (t : target) (w : qworld) (o : qop) : qworld * qanswer :=
  match handle_of o with
  | Some h =>
      match nth_error (qhandles w) h with
      | Some (m, kd) => match nth_error (qmems w) m with
                        | Some k => match m_box k with Some c => qcall t w h m kd k c o | None => (w, QInvalid) end
                        | None => (w, QInvalid)
                        end
      | None => (w, QInvalid)
      end
  | None =>
      match o with
      | QNew m ty =>
          match nth_error (qmems w) m with
          | Some k =>
              match m_box k with
              | None =>
                  if rc_fits t (m_blk k) (q_lay ty) then
                    match rb_new (qbusy w) t (box_at k ty) (qsb w) with
                    | Some (_, s) => (put_mem w m (put_box k (Some (MkQC ty 1 1 (QLive [])))) s (qhandles w ++ [(m, HStrong)]), QDone)
                    | None => (w, QUB)
                    end
                  else (w, QNo)
              | Some _ => (w, QInvalid)
              end
          | None => (w, QInvalid)
          end
      | QRet =>
          match qdrops w, qbusy w with
          | (c, m, here) :: ds, b :: bs =>
              if Nat.eqb b c then
                (MkQW (qsb w) (match nth_error (qmems w) m with
                               | Some k => match m_box k with
                                           | Some x => if here : bool then set_nth (qmems w) m (put_box k (Some (MkQC (c_ty x) (c_strong x) (c_weak x) QOver))) else qmems w
                                           | None => qmems w
                                           end
                               | None => qmems w
                               end) (qhandles w) ds bs (qcalls w), QDone)
              else (w, QInvalid)
          | _, _ => (w, QInvalid)
          end
      | QAct m a =>
          match nth_error (qmems w) m with
          | Some k =>
              match m_box k with
              | Some c =>
                  match tags_of (c_val c) with
                  | Some tags =>
                      if act_ok (MkO (q_val (box_at k (c_ty c))) tags) a then
                        match do_act (qbusy w) a (qsb w) with
                        | Some (n, s) => (put_mem w m (put_box k (Some (MkQC (c_ty c) (c_strong c) (c_weak c) (add_tag (c_val c) n)))) s (qhandles w),
                                          match n with Some n => QTag n | None => QDone end)
                        | None => (w, QUB)
                        end
                      else (w, QInvalid)
                  | None => (w, QInvalid)
                  end
              | None => (w, QInvalid)
              end
          | None => (w, QInvalid)
          end
      | QEnter => (MkQW (qsb w) (qmems w) (qhandles w) (qdrops w) (qcalls w :: qbusy w) (S (qcalls w)), QNum (qcalls w))
      | QExit c =>
          if existsb (fun d : nat * nat * bool => Nat.eqb (fst (fst d)) c) (qdrops w) then (w, QInvalid)
          else (MkQW (qsb w) (qmems w) (qhandles w) (qdrops w) (leave (qbusy w) c) (qcalls w), QDone)
      | _ => (w, QInvalid)
      end
  end.

(** client of the model: a program *)
Fixpoint qrun (t : target) (w : qworld) (os : list qop) : qworld * list (qop * qanswer) :=
  match os with
  | [] => (w, [])
  | o :: os => let (w1, r) := qstep t w o in let (w2, h) := qrun t w1 os in (w2, (o, r) :: h)
  end.

(** model only: each memory is an allocation of its own (claims C99 and C100 are about memory from a Bump), with the tag of its number *)
Definition qmems_new (bs : list block) : list qmem := map (fun p : block * nat => MkQM (fst p) (snd p) None) (combine bs (seq 0 (length bs))).
(** model only: the stacks of the memories *)
Definition stacks_new (ms : list qmem) (x : Z) : stack :=
  match find (fun k => inb (m_blk k) x) ms with Some k => [MkItem (m_base k) SharedRW None] | None => [] end.
(** client of the model: no boxes *)
Definition qnew (bs : list block) : qworld := MkQW (MkB (stacks_new (qmems_new bs)) (length bs)) (qmems_new bs) [] [] [] 0.
