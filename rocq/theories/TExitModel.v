(** * TExitModel: what exit-stack does under the second proposal for the aliasing rules (Tree Borrows, the rules of TreeModel).

    The functions are those of UBorrowModel and EBorrowModel, with the same references, pointers and accesses; places, slots and the list of
    pinned values are kept as there.  Function arguments are not protected. *)
From Verif Require Import Base Spec SyncModel UnsyncModel ExitModel BorrowModel UBorrowModel EBorrowModel TreeModel.

(** model only: what has a tree of tags as its state; [None] is undefined behaviour *)
Definition F (A : Type) := forest -> option (A * forest).
(** model only *)
Definition fret {A} (a : A) : F A := fun s => Some (a, s).
(** model only *)
Definition fbind {A B} (m : F A) (f : A -> F B) : F B := fun s => match m s with Some (a, s) => f a s | None => None end.
Notation "x <~ m ~; k" := (fbind m (fun x => k)) (at level 61, m at next level, right associativity).

(** model only: a new reference or pointer; [im]: the type behind a unique reference has interior mutability.  (A raw pointer, and &mut T
    where T is not Unpin, have the permissions of a shared reference to an UnsafeCell: all accesses to them are those of the parent.) *)
Definition f_retag (im : bool) (p : nat) (parts : list (rkind * block)) : F nat := fun s =>
  match tree_retag (fresh_tag s) p (as_mutable parts) (as_cells im parts) (nodes s) with
  | Some r => Some (fresh_tag s, MkS r (S (fresh_tag s)))
  | None => None
  end.
(** model only: a read or write *)
Definition f_access (write : bool) (p : nat) (b : block) : F unit := fun s =>
  match tree_access write p b (nodes s) with Some r => Some (tt, MkS r (fresh_tag s)) | None => None end.

(** model only: a reference or pointer to one block *)
Definition f_one (im : bool) (k : rkind) (b : block) (p : nat) : F nat := f_retag im p [(k, b)].

(** core: [UnsafeCell::get]: the parameter &self, and its cast to a raw pointer *)
Definition f_uc_get (b : block) (p : nat) : F nat := self <~ f_one true RCell b p ~; f_one true RCell b self.

(** core: [Cell::get]: the parameter &self, and a read through [self.value.get()] *)
Definition f_cell_get (b : block) (p : nat) : F unit := self <~ f_one true RCell b p ~; q <~ f_uc_get b self ~; f_access false q b.

(** core: [Cell::set], [Cell::replace] and [Cell::take]: [mem::replace(unsafe { &mut *self.value.get() }, val)] *)
Definition f_cell_set (b : block) (p : nat) : F unit :=
  self <~ f_one true RCell b p ~; q <~ f_uc_get b self ~;
  r <~ f_one false RUnique b q ~; dest <~ f_one false RUnique b r ~; _ <~ f_access false dest b ~; f_access true dest b.

(** unsync/bump.rs: a parameter &self of type MemBump or Bump<T> *)
Definition f_self (hd st : block) (self : nat) : F nat := f_retag true self [(RCell, hd); (RCell, st)].

Section Mem.
Variables (t : target) (hd : block).

(** unsync/bump.rs:466-468 [level] *)
Definition f_level (u : ubump) (self : nat) : F Z :=
  self <~ f_self hd (udata u) self ~; _ <~ f_cell_get hd self ~; fret (u_level u).

(** unsync/bump.rs:252-257 [capacity] *)
Definition f_capacity (u : ubump) (self : nat) : F unit :=
  self <~ f_self hd (udata u) self ~; _ <~ f_uc_get (udata u) self ~; fret tt.

(** unsync/bump.rs:551-561 [bump] *)
Definition f_bump (u : ubump) (self : nat) (success : bool) : F unit :=
  self <~ f_self hd (udata u) self ~;
  _ <~ (if debug t then f_capacity u self else fret tt) ~;
  _ <~ f_cell_get hd self ~;
  if success then f_cell_set hd self else fret tt.

(** unsync/bump.rs:489-549 [try_alloc_at] *)
Definition f_try_alloc_at (u : ubump) (l : layout) (expect : Z) (self : nat) : F (ubump * outcome result * nat) :=
  self <~ f_self hd (udata u) self ~;
  _ <~ f_one true RCell (udata u) self ~;
  d <~ f_one true RCell (udata u) self ~; d <~ f_one true RCell (udata u) d ~; base <~ f_uc_get (udata u) d ~;
  let (u', r) := u_try_alloc_at t u l expect in
  match r with
  | Ret (ROk _) => _ <~ f_bump u self true ~; fret (u', r, base)
  | Ret (RErr (Mismatch _)) => _ <~ f_bump u self false ~; fret (u', r, base)
  | _ => fret (u', r, base)
  end.

(** unsync/bump.rs:292-295 [alloc_at] *)
Definition f_alloc_at (u : ubump) (l : layout) (lv : Z) (self : nat) : F (ubump * outcome result * nat) :=
  self <~ f_self hd (udata u) self ~; f_try_alloc_at u l lv self.

(** unsync/bump.rs:461 [Allocation::uninit], and leaked.rs:526-547 [LeakBox::from]; [im]: has the type interior mutability? *)
Definition f_leak_box_from (unpin im : bool) (b : block) (base : nat) : F nat :=
  r <~ f_one im (mut_kind unpin) b base ~; r <~ f_one im (mut_kind unpin) b r ~; f_one true RCell b r.

(** unsync/bump.rs:434-439 [bump_box]: up to the pointer of the allocation *)
Definition f_bump_box (u : ubump) (l : layout) (self : nat) : F (ubump * outcome result * nat) :=
  self <~ f_self hd (udata u) self ~;
  lv <~ f_level u self ~; f_alloc_at u l lv self.

(** unsync/bump.rs:474-476 [reset] of [&mut self] *)
Definition f_reset (u : ubump) (self : nat) : F ubump :=
  self <~ f_retag true self [(RUnique, hd); (RUnique, udata u)] ~;
  _ <~ f_cell_set hd self ~; fret (u_reset u).

(** unsync/bump.rs:564-578 [Deref] *)
Definition f_deref_ref (u : ubump) (self : nat) : F nat :=
  self <~ f_self hd (udata u) self ~; f_self hd (udata u) self.

(** unsync/bump.rs:580-593 [DerefMut] *)
Definition f_deref_mut (unpin : bool) (u : ubump) (self : nat) : F nat :=
  self <~ f_retag true self [(mut_kind unpin, hd); (mut_kind unpin, udata u)] ~;
  f_retag true self [(RUnique, hd); (RUnique, udata u)].
End Mem.

(** model only: a reference to the whole ExitStack *)
Definition f_stack_ref (pl : places) (k : rkind) (p : nat) : F nat := f_retag true p [(k, p_hd pl); (k, p_st pl); (k, p_tp pl)].

(** exit-stack/src/lib.rs:78-84 [Slot], :89-92 [PinSlot]: as in EBorrowModel; [zim]: has T interior mutability? *)
Record zslot := MkZS { zblk : block; zval : block; zlink : block; zunpin : bool; zim : bool; zptr : nat; zslotter : nat }.

(** exit-stack/src/lib.rs:89-92 the places of the fields of a PinSlot at [a] *)
Definition place_zslot (t : target) (l : layout) (unpin im : bool) (a : Z) (p slotter : nat) : zslot :=
  MkZS (MkBlock a (lsize (pin_layout t l))) (MkBlock (a + value_offset t l) (lsize l)) (MkBlock a (2 * word_bytes t)) unpin im p slotter.

(** exit-stack/src/lib.rs:109-118 [slot] *)
Definition f_slot (t : target) (pl : places) (u : ubump) (l : layout) (unpin im : bool) (self : nat) : F (ubump * response * option zslot) :=
  self <~ f_stack_ref pl RCell self ~; this <~ f_stack_ref pl RCell self ~;                 (* self: Pin<&Self>, get_ref *)
  m <~ f_self (p_hd pl) (udata u) this ~;                                                     (* &this.memory *)
  m <~ f_deref_ref (p_hd pl) u m ~;
  x <~ f_bump_box t (p_hd pl) u (pin_layout t l) m ~;
  let '(u', r, base) := x in
  match of_result r with
  | RBlock a =>
      p <~ f_leak_box_from unpin im (MkBlock (ptr a) (lsize (pin_layout t l))) base ~;
      top <~ f_one true RCell (p_tp pl) this ~;                                               (* &this.top *)
      fret (u', RBlock a, Some (place_zslot t l unpin im (ptr a) p top))
  | r => fret (u', r, None)
  end.

(** leaked.rs:476-497 [LeakBox::write]: [as_mut_ptr] of the [DerefMut] (:508-513) of the LeakBox *)
Definition f_leak_box_write (unpin im : bool) (b : block) (p : nat) : F unit :=
  r <~ f_one im (mut_kind unpin) b p ~; r <~ f_one im (mut_kind unpin) b r ~; raw <~ f_one true RCell b r ~; f_access true raw b.

(** exit-stack/src/lib.rs:226-246 [Slot::pin] ([pin_local] 254-275 is the same) *)
Definition f_pin (pl : places) (s : zslot) : F nat :=
  _ <~ f_cell_get (p_tp pl) (zslotter s) ~;                                                   (* :231 *)
  _ <~ f_leak_box_write (zunpin s) (zim s) (zblk s) (zptr s) ~;                               (* :232 *)
  _ <~ f_cell_set (p_tp pl) (zslotter s) ~;                                                   (* :242 *)
  f_one (zim s) (mut_kind (zunpin s)) (zval s) (zptr s).                                      (* :245 *)

(** exit-stack/src/lib.rs:173-178 [pop_all] (and :278-282 [drop]), :203 [self.top.take()]; [unpin]: is Mem Unpin? *)
Definition f_take (pl : places) (unpin : bool) : F nat :=
  self <~ f_stack_ref pl (mut_kind unpin) 0 ~; self <~ f_stack_ref pl (mut_kind unpin) self ~;
  _ <~ f_cell_set (p_tp pl) self ~; fret self.

(** exit-stack/src/lib.rs:205-209: [&mut *exit_handle.as_ptr()] and [&mut slot.value]; dyn Drop is not Unpin.  The destructor has its
    [&mut self].  (A type without a destructor does not even make that reference.) *)
Definition f_start (s : zslot) : F (nat * nat) :=
  slot <~ f_one true RCell (zblk s) (zptr s) ~;
  v <~ f_one true RCell (zval s) slot ~; raw <~ f_one true RCell (zval s) v ~;
  d <~ f_one (zim s) (mut_kind (zunpin s)) (zval s) raw ~; fret (slot, d).

(** exit-stack/src/lib.rs:210 [slot.link] *)
Definition f_link (s : zslot) (slot : nat) : F unit := f_access false slot (zlink s).

(** exit-stack/src/lib.rs:214 [self.memory.reset()] *)
Definition f_finish (pl : places) (unpin : bool) (u : ubump) (self : nat) : F ubump :=
  m <~ f_retag true self [(mut_kind unpin, p_hd pl); (mut_kind unpin, udata u)] ~;
  m <~ f_deref_mut (p_hd pl) unpin u m ~; f_reset (p_hd pl) u m.

(** ** Programs that use an ExitStack *)

(** client of the model: as in EBorrowModel *)
Inductive zop :=
| ZShare (from : option nat)                         (* a new Pin<&ExitStack>: from the variable, or from another one *)
| ZSlot (i : nat) (l : layout) (unpin im : bool)     (* slot, through reference i, for a type of this layout *)
| ZPin (k : nat)                                     (* pin a value to slot k *)
| ZPop                                               (* pop_all, up to the first destructor *)
| ZRet                                               (* the destructor returns *)
| ZPanic                                             (* the destructor panics *)
| ZAct (k : nat) (a : nact).                         (* an access to the value of slot k *)

(** client of the model: done, a new tag, the answer of [slot], undefined behaviour, and programs that do not type check *)
Inductive zanswer := ZDone | ZTag (tag : nat) | ZResponse (r : response) | ZUB | ZInvalid.

(** client of the model; [zchain]: the list of pinned values, last one first; [zdrop]: a destructor is running: the value, the tag of the
    [slot] that contains it, the values that are left in the chain, and the tag of [self] *)
Record zworld := MkZW { zbump : ubump; zforest : forest; zshares : list nat; zslots : list (zslot * sstatus); zchain : list nat;
                        zdrop : option (nat * nat * list nat * nat) }.

(** model only: all borrows of the ExitStack end *)
Definition zend_slots (l : list (zslot * sstatus)) : list (zslot * sstatus) := map (fun p => (fst p, SOver)) l.
(** model only: slots without a value end *)
Definition zend_open (l : list (zslot * sstatus)) : list (zslot * sstatus) :=
  map (fun p => (fst p, match snd p with SOpen => SOver | s => s end)) l.

(** exit-stack/src/lib.rs:205-214 the next value, if there is one; or reset *)
Definition z_go (pl : places) (unpin : bool) (w : zworld) (self : nat) (s : forest) (slots : list (zslot * sstatus)) (chain : list nat) : zworld * zanswer :=
  match chain with
  | [] =>
      match f_finish pl unpin (zbump w) self s with
      | Some (u, s) => (MkZW u s [] [] [] None, ZDone)
      | None => (w, ZUB)
      end
  | k :: chain =>
      match nth_error slots k with
      | Some (z, SPinned tags) =>
          match f_start z s with
          | Some ((slot, d), s) => (MkZW (zbump w) s [] (set_nth slots k (z, SPinned (d :: tags))) [] (Some (k, slot, chain, self)), ZTag d)
          | None => (w, ZUB)
          end
      | _ => (w, ZInvalid)
      end
  end.

(** client of the model *)
Definition zshare (pl : places) (w : zworld) (self : nat) : zworld * zanswer :=
  match f_stack_ref pl RCell self (zforest w) with
  | Some (n, s) => (MkZW (zbump w) s (zshares w ++ [n]) (zslots w) (zchain w) None, ZDone)
  | None => (w, ZUB)
  end.

(** client of the model *)
Definition zstep (t : target) (pl : places) (unpin : bool) (w : zworld) (o : zop) : zworld * zanswer :=
  match o, zdrop w with
  | ZShare None, None => zshare pl w 0
  | ZShare (Some i), None => match nth_error (zshares w) i with Some self => zshare pl w self | None => (w, ZInvalid) end
  | ZSlot i l p im, None =>
      match nth_error (zshares w) i with
      | Some self =>
          match f_slot t pl (zbump w) l p im self (zforest w) with
          | Some ((u, r, z), s) => (MkZW u s (zshares w) (match z with Some z => zslots w ++ [(z, SOpen)] | None => zslots w end) (zchain w) None, ZResponse r)
          | None => (w, ZUB)
          end
      | None => (w, ZInvalid)
      end
  | ZPin k, None =>
      match nth_error (zslots w) k with
      | Some (z, SOpen) =>
          match f_pin pl z (zforest w) with
          | Some (v, s) => (MkZW (zbump w) s (zshares w) (set_nth (zslots w) k (z, SPinned [v])) (k :: zchain w) None, ZTag v)
          | None => (w, ZUB)
          end
      | _ => (w, ZInvalid)
      end
  | ZPop, None =>
      match f_take pl unpin (zforest w) with
      | Some (self, s) => z_go pl unpin w self s (zend_open (zslots w)) (zchain w)
      | None => (w, ZUB)
      end
  | ZRet, Some (k, slot, chain, self) =>
      match nth_error (zslots w) k with
      | Some (z, _) =>
          match f_link z slot (zforest w) with
          | Some (_, s) => z_go pl unpin w self s (zslots w) chain
          | None => (w, ZUB)
          end
      | None => (w, ZInvalid)
      end
  | ZPanic, Some _ => (MkZW (zbump w) (zforest w) [] (zend_slots (zslots w)) [] None, ZDone)   (* :182-201: the flag has no chain *)
  | ZAct k a, _ =>
      match nth_error (zslots w) k with
      | Some (z, SPinned tags) =>
          if nact_ok (MkO (zval z) tags) a then
            let n := fresh_tag (zforest w) in
            match tree_act n a (nodes (zforest w)) with
            | Some r => (MkZW (zbump w) (MkS r (if makes_tag a then S n else n)) (zshares w) (set_nth (zslots w) k (z, SPinned (tags_after n a tags))) (zchain w) (zdrop w),
                         if makes_tag a then ZTag n else ZDone)
            | None => (w, ZUB)
            end
          else (w, ZInvalid)
      | _ => (w, ZInvalid)
      end
  | _, _ => (w, ZInvalid)
  end.

(** client of the model: a program *)
Fixpoint zrun (t : target) (pl : places) (unpin : bool) (w : zworld) (os : list zop) : zworld * list (zop * zanswer) :=
  match os with
  | [] => (w, [])
  | o :: os => let (w1, r) := zstep t pl unpin w o in let (w2, h) := zrun t pl unpin w1 os in (w2, (o, r) :: h)
  end.

(** exit-stack/src/lib.rs:98-103 [new], in a variable: tag 0; no access outside of it is allowed *)
Definition znew (pl : places) : zworld :=
  MkZW (u_fresh (p_st pl)) (MkS (MkTree (fun n => if Nat.eqb n 0 then [0%nat] else [])
    (fun x _ => if existsb (fun b => inb b x) [p_hd pl; p_st pl; p_tp pl] then PActive else PDisabled)) 1) [] [] [] None.
