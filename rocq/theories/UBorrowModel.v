(** * UBorrowModel: what the unsync Bump and MemBump do under the aliasing rules of BorrowModel.

    [hd] are the bytes of the field [index] and [st] those of [data] (unsync/bump.rs:65-100): a Cell and an UnsafeCell, so that a
    reference &MemBump (and &Bump<T>) is shared-read-write on all of them.  T is not aligned more strictly than usize (claim C22), so
    that both structs have these fields at the same places; padding at the end is not modelled, nobody accesses it. *)
From Verif Require Import Base Spec SyncModel UnsyncModel BorrowModel.

(** model only: a reference &mut T is unique if T is Unpin; else it follows the rules of raw pointers *)
Definition mut_kind (unpin : bool) : rkind := if unpin then RUnique else RCell.

Section Calls.
Variables (calls : list nat).

(** model only: a reference or pointer to one block *)
Definition one (k : rkind) (b : block) (p : nat) : M nat := m_retag calls p [(k, b)].

(** core: [UnsafeCell::get]: the parameter &self, and its cast to a raw pointer *)
Definition uc_get (b : block) (p : nat) : M nat := self <- one RCell b p ;; one RCell b self.

(** core: [Cell::get]: the parameter &self, and a read through [self.value.get()] *)
Definition cell_get (b : block) (p : nat) : M unit := self <- one RCell b p ;; q <- uc_get b self ;; m_read calls q b.

(** core: [Cell::set], [Cell::replace] and [Cell::take]: [mem::replace(unsafe { &mut *self.value.get() }, val)] *)
Definition cell_set (b : block) (p : nat) : M unit :=
  self <- one RCell b p ;; q <- uc_get b self ;;
  r <- one RUnique b q ;; dest <- one RUnique b r ;; _ <- m_read calls dest b ;; m_write calls dest b.

Section Mem.
Variables (t : target) (hd : block).

(** unsync/bump.rs:466-468 [level] *)
Definition mb_level (u : ubump) (self : nat) : M Z :=
  self <- self_ref calls hd (udata u) self ;; _ <- cell_get hd self ;; mret (u_level u).

(** unsync/bump.rs:252-257 [capacity]: the length of the slice is in the pointer, no memory is read *)
Definition mb_capacity (u : ubump) (self : nat) : M unit :=
  self <- self_ref calls hd (udata u) self ;; _ <- uc_get (udata u) self ;; mret tt.

(** unsync/bump.rs:551-561 [bump]: the new index is stored if it [success]fully compared the old one *)
Definition mb_bump (u : ubump) (self : nat) (success : bool) : M unit :=
  self <- self_ref calls hd (udata u) self ;;
  _ <- (if debug t then mb_capacity u self else mret tt) ;;
  _ <- cell_get hd self ;;
  if success then cell_set hd self else mret tt.

(** unsync/bump.rs:489-549 [try_alloc_at]: state and result are those of UnsyncModel; the pointer has the tag of [data.get()] (:495-499) *)
Definition mb_try_alloc_at (u : ubump) (l : layout) (expect : Z) (self : nat) : M (ubump * outcome result * nat) :=
  self <- self_ref calls hd (udata u) self ;;
  _ <- one RCell (udata u) self ;;                                   (* :495 size_of_val(&self.data) *)
  d <- one RCell (udata u) self ;; d <- one RCell (udata u) d ;; base <- uc_get (udata u) d ;;
  let (u', r) := u_try_alloc_at t u l expect in
  match r with
  | Ret (ROk _) => _ <- mb_bump u self true ;; mret (u', r, base)
  | Ret (RErr (Mismatch _)) => _ <- mb_bump u self false ;; mret (u', r, base)
  | _ => mret (u', r, base)
  end.

(** unsync/bump.rs:478-487 [try_alloc] *)
Definition mb_try_alloc (u : ubump) (l : layout) (self : nat) : M (ubump * outcome (option allocation) * nat) :=
  self <- self_ref calls hd (udata u) self ;;
  _ <- cell_get hd self ;;
  x <- mb_try_alloc_at u l (uindex u) self ;;
  let '(u', r, base) := x in
  mret (u', match r with
            | Panic m => Panic m
            | Ret (ROk a) => Ret (Some a)
            | Ret (RErr Exhausted) => Ret None
            | Ret (RErr (Mismatch _)) => Panic PU_unreachable
            end, base).

(** unsync/bump.rs:280-282 [alloc], 320-327 [get] *)
Definition mb_alloc (u : ubump) (l : layout) (self : nat) : M (ubump * outcome (option allocation) * nat) :=
  self <- self_ref calls hd (udata u) self ;; mb_try_alloc u l self.

(** unsync/bump.rs:292-295 [alloc_at], 335-342 [get_at] *)
Definition mb_alloc_at (u : ubump) (l : layout) (lv : Z) (self : nat) : M (ubump * outcome result * nat) :=
  self <- self_ref calls hd (udata u) self ;; mb_try_alloc_at u l lv self.

(** bump.rs:832-834 [Allocation::uninit] (or unsync/bump.rs:461), and leaked.rs:526-547 [LeakBox::from] *)
Definition leak_box_from (unpin : bool) (b : block) (base : nat) : M nat :=
  r <- one (mut_kind unpin) b base ;; r <- one (mut_kind unpin) b r ;; one RCell b r.

(** bump.rs:802-806 [Allocation::leak] *)
Definition alloc_leak (unpin : bool) (b : block) (base : nat) : M nat :=
  _ <- m_write calls base b ;; one (mut_kind unpin) b base.

(** bump.rs:820-825 [Allocation::boxed] *)
Definition alloc_boxed (b : block) (base : nat) : M nat := _ <- m_write calls base b ;; mret base.

(** unsync/bump.rs:434-439 [bump_box]: up to the pointer of the allocation *)
Definition mb_bump_box (u : ubump) (l : layout) (self : nat) : M (ubump * outcome result * nat) :=
  self <- self_ref calls hd (udata u) self ;;
  lv <- mb_level u self ;; mb_alloc_at u l lv self.

(** unsync/bump.rs:454-463 [bump_array]: up to the pointer of the allocation *)
Definition mb_bump_array (u : ubump) (l : layout) (n : Z) (self : nat) : M (ubump * outcome result * nat) :=
  self <- self_ref calls hd (udata u) self ;;
  match layout_array t l n with
  | None => mret (u, Ret (RErr Exhausted), self)
  | Some la =>
      x <- mb_alloc u la self ;;
      let '(u', r, base) := x in
      mret (u', match r with
                | Panic m => Panic m
                | Ret None => Ret (RErr Exhausted)
                | Ret (Some a) => Ret (ROk a)
                end, base)
  end.

(** unsync/bump.rs:474-476 [reset] of [&mut self] *)
Definition mb_reset (u : ubump) (self : nat) : M ubump :=
  self <- m_retag calls self [(RUnique, hd); (RUnique, udata u)] ;;
  _ <- cell_set hd self ;; mret (u_reset u).

(** unsync/bump.rs:564-578 [Deref]: the parameter &self, and the new reference *)
Definition bump_deref_ref (u : ubump) (self : nat) : M nat :=
  self <- self_ref calls hd (udata u) self ;; self_ref calls hd (udata u) self.

(** unsync/bump.rs:580-593 [DerefMut]: the parameter [&mut self], unique if T is Unpin, and the new reference *)
Definition bump_deref_mut (unpin : bool) (u : ubump) (self : nat) : M nat :=
  self <- m_retag calls self [(mut_kind unpin, hd); (mut_kind unpin, udata u)] ;;
  m_retag calls self [(RUnique, hd); (RUnique, udata u)].
End Mem.
End Calls.

(** ** Programs that use an unsync Bump *)

(** client of the model: what is done with a block: keep the raw pointer, [Allocation::leak], [Allocation::boxed], or (for [bump_box]
    and [bump_array]) a LeakBox of MaybeUninit; [unpin]: is the type of the value Unpin? *)
Inductive xuse := XRaw | XLeak (unpin : bool) | XBoxed | XBox (unpin : bool).

(** client of the model: a [Bump<T>] in a variable, with T: Unpin or not, or a MemBump in a LeakBox *)
Inductive xkind := XVar (unpin : bool) | XPtr.

(** client of the model: as in BorrowModel *)
Inductive xop :=
| XShare (from : option nat)
| XCall (i : nat) (c : ucall) (u : xuse)
| XReset
| XAct (k : nat) (a : cact)
| XEnter
| XExit (c : nat).

(** client of the model; the root of all pointers has tag 0 *)
Record xworld := MkXW { xbump : ubump; xsb : bstate; xshares : list nat; xobjs : list bobj; xbusy : list nat; xcalls : nat }.

(** model only: layout of the block asked for; of an array that is too large there is no block *)
Definition uasked (t : target) (c : ucall) : layout :=
  match c with
  | UCall c => asked c
  | UBumpBox l => l
  | UBumpArray l n => match layout_array t l n with Some la => la | None => MkLayout 0 1 end
  end.

(** model only: the method that is called *)
Definition mb_method (busy : list nat) (t : target) (hd : block) (u : ubump) (c : ucall) (self : nat) : M (ubump * response * nat) :=
  match c with
  | UCall (CAlloc l) | UCall (CGet l) => x <- mb_alloc busy t hd u l self ;; let '(u', r, base) := x in mret (u', of_option r, base)
  | UCall (CAllocAt l lv) | UCall (CGetAt l lv) => x <- mb_alloc_at busy t hd u l lv self ;; let '(u', r, base) := x in mret (u', of_result r, base)
  | UCall CLevel => lv <- mb_level busy hd u self ;; mret (u, RLevel lv, self)
  | UCall CReset => mret (u, RUnit, self)
  | UBumpBox l => x <- mb_bump_box busy t hd u l self ;; let '(u', r, base) := x in mret (u', of_result r, base)
  | UBumpArray l n => x <- mb_bump_array busy t hd u l n self ;; let '(u', r, base) := x in mret (u', of_result r, base)
  end.

(** model only: [bump_box] and [bump_array] return a LeakBox, the other calls not *)
Definition use_ok (c : ucall) (u : xuse) : bool :=
  match c, u with
  | UCall CReset, _ => false
  | UCall _, XBox _ => false
  | UCall _, _ => true
  | _, XBox _ => true
  | _, _ => false
  end.

(** as cited above *)
Definition xuse_block (busy : list nat) (u : xuse) (b : block) (base : nat) : M nat :=
  match u with
  | XRaw => mret base
  | XLeak p => alloc_leak busy p b base
  | XBoxed => alloc_boxed busy b base
  | XBox p => leak_box_from busy p b base
  end.

(** model only: a call through a reference, for a Bump<T> through Deref, and the use of the block *)
Definition x_call (busy : list nat) (t : target) (hd : block) (kind : xkind) (u : ubump) (c : ucall) (us : xuse) (self : nat) : M (ubump * response * option nat) :=
  self <- match kind with XVar _ => bump_deref_ref busy hd u self | XPtr => mret self end ;;
  x <- mb_method busy t hd u c self ;;
  let '(u', r, base) := x in
  match r with
  | RBlock a => tag <- xuse_block busy us (MkBlock (ptr a) (lsize (uasked t c))) base ;; mret (u', r, Some tag)
  | _ => mret (u', r, None)
  end.

(** a reset by the owner: of the variable (through DerefMut), or of the LeakBox (leaked.rs:508-513 DerefMut) *)
Definition x_reset (hd : block) (kind : xkind) (u : ubump) : M ubump :=
  m <- match kind with
       | XVar p => self <- m_retag [] 0 [(mut_kind p, hd); (mut_kind p, udata u)] ;; bump_deref_mut [] hd p u self
       | XPtr => m_retag [] 0 [(RUnique, hd); (RUnique, udata u)]
       end ;;
  mb_reset [] hd u m.

(** client of the model; a reset ends all borrows, so it needs that no function of the client is in progress *)
Definition xstep (t : target) (hd : block) (kind : xkind) (w : xworld) (o : xop) : xworld * banswer :=
  let share self :=
    match self_ref (xbusy w) hd (udata (xbump w)) self (xsb w) with
    | Some (n, b) => (MkXW (xbump w) b (xshares w ++ [n]) (xobjs w) (xbusy w) (xcalls w), BDone)
    | None => (w, BUB)
    end in
  match o with
  | XShare None => share 0%nat
  | XShare (Some i) => match nth_error (xshares w) i with Some self => share self | None => (w, BInvalid) end
  | XCall i c u =>
      match nth_error (xshares w) i, use_ok c u with
      | Some self, true =>
          match x_call (xbusy w) t hd kind (xbump w) c u self (xsb w) with
          | Some ((s', r, tag), b) =>
              (MkXW s' b (xshares w)
                 (match r, tag with RBlock a, Some n => xobjs w ++ [MkO (MkBlock (ptr a) (lsize (uasked t c))) [n]] | _, _ => xobjs w end)
                 (xbusy w) (xcalls w), BResponse r tag)
          | None => (w, BUB)
          end
      | _, _ => (w, BInvalid)
      end
  | XReset =>
      match xbusy w with
      | [] =>
          match x_reset hd kind (xbump w) (xsb w) with
          | Some (s', b) => (MkXW s' b [] [] [] (xcalls w), BDone)
          | None => (w, BUB)
          end
      | _ => (w, BInvalid)
      end
  | XAct k a =>
      match nth_error (xobjs w) k with
      | Some ob =>
          if act_ok ob a then
            match do_act (xbusy w) a (xsb w) with
            | Some (n, b) => (MkXW (xbump w) b (xshares w) (set_nth (xobjs w) k (new_tag ob n)) (xbusy w) (xcalls w), tag_answer n)
            | None => (w, BUB)
            end
          else (w, BInvalid)
      | None => (w, BInvalid)
      end
  | XEnter => (MkXW (xbump w) (xsb w) (xshares w) (xobjs w) (xcalls w :: xbusy w) (S (xcalls w)), BTag (xcalls w))
  | XExit c => (MkXW (xbump w) (xsb w) (xshares w) (xobjs w) (leave (xbusy w) c) (xcalls w), BDone)
  end.

(** client of the model: a program *)
Fixpoint xrun (t : target) (hd : block) (kind : xkind) (w : xworld) (os : list xop) : xworld * list (xop * banswer) :=
  match os with
  | [] => (w, [])
  | o :: os => let (w1, r) := xstep t hd kind w o in let (w2, h) := xrun t hd kind w1 os in (w2, (o, r) :: h)
  end.

(** unsync/bump.rs:106-121 a new Bump in a variable, which has a unique tag; unsync/bump.rs:150-197 [from_mem]: the LeakBox has a raw
    pointer, made from a reference that is not used as long as the LeakBox is *)
Definition xnew (hd st : block) (kind : xkind) : xworld :=
  MkXW (u_fresh st) (MkB (allocated [hd; st] (MkItem 0 (match kind with XVar _ => Unique | XPtr => SharedRW end) None)) 1) [] [] [] 0.
