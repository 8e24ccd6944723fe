(** * EBorrowModel: what exit-stack does under the aliasing rules of BorrowModel.

    An ExitStack is in a variable, the root of all pointers to it (tag 0).  [hd] and [st] are the fields [index] and [data] of its
    [memory] (exit-stack/src/lib.rs:64), [tp] is the field [top] (:66); all are inside of an UnsafeCell.  The list of pinned values is
    kept as a list: that it is the one in memory is the subject of ExitProofs. *)
From Verif Require Import Base Spec SyncModel UnsyncModel ExitModel BorrowModel UBorrowModel.

(** model only: the places of the fields *)
Record places := MkPlaces { p_hd : block; p_st : block; p_tp : block }.

(** model only: a reference to the whole ExitStack *)
Definition stack_ref (calls : list nat) (pl : places) (k : rkind) (p : nat) : M nat :=
  m_retag calls p [(k, p_hd pl); (k, p_st pl); (k, p_tp pl)].

(** exit-stack/src/lib.rs:78-84 [Slot], :89-92 [PinSlot]: its block, that of the value, and that of [link]; is T Unpin?; [spointer] is the
    tag of the pointer in the LeakBox, which is stored as the ExitHandle later, and [sslotter] that of [slotter] *)
Record slotref := MkS { sblk : block; sval : block; slink : block; sunpin : bool; spointer : nat; sslotter : nat }.

(** exit-stack/src/lib.rs:89-92 the places of the fields of a PinSlot at [a] *)
Definition place_slot (t : target) (l : layout) (unpin : bool) (a : Z) (pointer slotter : nat) : slotref :=
  MkS (MkBlock a (lsize (pin_layout t l))) (MkBlock (a + value_offset t l) (lsize l)) (MkBlock a (2 * word_bytes t)) unpin pointer slotter.

(** exit-stack/src/lib.rs:109-118 [slot] *)
Definition e_slot (calls : list nat) (t : target) (pl : places) (u : ubump) (l : layout) (unpin : bool) (self : nat) : M (ubump * response * option slotref) :=
  self <- stack_ref calls pl RCell self ;; this <- stack_ref calls pl RCell self ;;         (* self: Pin<&Self>, get_ref *)
  m <- self_ref calls (p_hd pl) (udata u) this ;;                                             (* &this.memory *)
  m <- bump_deref_ref calls (p_hd pl) u m ;;
  x <- mb_bump_box calls t (p_hd pl) u (pin_layout t l) m ;;
  let '(u', r, base) := x in
  match of_result r with
  | RBlock a =>
      p <- leak_box_from calls unpin (MkBlock (ptr a) (lsize (pin_layout t l))) base ;;
      top <- one calls RCell (p_tp pl) this ;;                                                (* &this.top *)
      mret (u', RBlock a, Some (place_slot t l unpin (ptr a) p top))
  | r => mret (u', r, None)
  end.

(** leaked.rs:476-497 [LeakBox::write]: [as_mut_ptr] of the [DerefMut] (:508-513) of the LeakBox *)
Definition leak_box_write (calls : list nat) (unpin : bool) (b : block) (p : nat) : M unit :=
  r <- one calls (mut_kind unpin) b p ;; r <- one calls (mut_kind unpin) b r ;; raw <- one calls RCell b r ;; m_write calls raw b.

(** exit-stack/src/lib.rs:226-246 [Slot::pin] ([pin_local] 254-275 is the same) *)
Definition e_pin (calls : list nat) (pl : places) (s : slotref) : M nat :=
  _ <- cell_get calls (p_tp pl) (sslotter s) ;;                                               (* :231 *)
  _ <- leak_box_write calls (sunpin s) (sblk s) (spointer s) ;;                               (* :232 *)
  _ <- cell_set calls (p_tp pl) (sslotter s) ;;                                               (* :242 *)
  one calls (mut_kind (sunpin s)) (sval s) (spointer s).                                      (* :245 *)

(** exit-stack/src/lib.rs:173-178 [pop_all] (and :278-282 [drop]), :203 [self.top.take()]; [unpin]: is Mem Unpin? *)
Definition e_take (pl : places) (unpin : bool) : M nat :=
  self <- stack_ref [] pl (mut_kind unpin) 0 ;; self <- stack_ref [] pl (mut_kind unpin) self ;;
  _ <- cell_set [] (p_tp pl) self ;; mret self.

(** exit-stack/src/lib.rs:205-209: [&mut *exit_handle.as_ptr()] and [&mut slot.value]; dyn Drop is not Unpin.  The destructor, call [c], has
    its [&mut self] as a protected argument.  (A type without a destructor does not even make that reference.) *)
Definition e_start (s : slotref) (c : nat) : M (nat * nat) :=
  slot <- one [] RCell (sblk s) (spointer s) ;;
  v <- one [] RCell (sval s) slot ;; raw <- one [] RCell (sval s) v ;;
  d <- m_retag_prot [] raw [(mut_kind (sunpin s), sval s)] (Some c) ;; mret (slot, d).

(** exit-stack/src/lib.rs:210 [slot.link] *)
Definition e_link (s : slotref) (slot : nat) : M unit := m_read [] slot (slink s).

(** exit-stack/src/lib.rs:214 [self.memory.reset()] *)
Definition e_finish (pl : places) (unpin : bool) (u : ubump) (self : nat) : M ubump :=
  m <- m_retag [] self [(mut_kind unpin, p_hd pl); (mut_kind unpin, udata u)] ;;
  m <- bump_deref_mut [] (p_hd pl) unpin u m ;; mb_reset [] (p_hd pl) u m.

(** ** Programs that use an ExitStack *)

(** client of the model: a slot is open until a value is pinned to it; then the client has pointers with these tags to the value.
    It is over when the borrow of the ExitStack has ended. *)
Inductive sstatus := SOpen | SPinned (tags : list nat) | SOver.

(** client of the model *)
Inductive yop :=
| YShare (from : option nat)                      (* a new Pin<&ExitStack>: from the variable, or from another one *)
| YSlot (i : nat) (l : layout) (unpin : bool)     (* slot, through reference i, for a type of this layout *)
| YPin (k : nat)                                  (* pin a value to slot k *)
| YPop                                            (* pop_all, up to the first destructor *)
| YRet                                            (* the destructor returns *)
| YPanic                                          (* the destructor panics *)
| YAct (k : nat) (a : cact)                       (* an access to the value of slot k *)
| YEnter                                          (* a function of the client starts ... *)
| YExit (c : nat).                                (* ... and returns *)

(** client of the model; [ychain]: the list of pinned values, last one first; [ydrop]: a destructor is running: its call, the value,
    the tag of the [slot] that contains it, the values that are left in the chain, and the tag of [self] *)
Record yworld := MkYW { ybump : ubump; ysb : bstate; yshares : list nat; yslots : list (slotref * sstatus); ychain : list nat;
                        ydrop : option (nat * nat * nat * list nat * nat); ybusy : list nat; ycalls : nat }.

(** model only: all borrows of the ExitStack end *)
Definition end_slots (l : list (slotref * sstatus)) : list (slotref * sstatus) := map (fun p => (fst p, SOver)) l.
(** model only: slots without a value end *)
Definition end_open (l : list (slotref * sstatus)) : list (slotref * sstatus) :=
  map (fun p => (fst p, match snd p with SOpen => SOver | s => s end)) l.

(** exit-stack/src/lib.rs:205-214 the next value, if there is one; or reset *)
Definition e_go (pl : places) (unpin : bool) (w : yworld) (self : nat) (b : bstate) (slots : list (slotref * sstatus)) (chain : list nat) : yworld * banswer :=
  match chain with
  | [] =>
      match e_finish pl unpin (ybump w) self b with
      | Some (u, b) => (MkYW u b [] [] [] None [] (ycalls w), BDone)
      | None => (w, BUB)
      end
  | k :: chain =>
      match nth_error slots k with
      | Some (s, SPinned tags) =>
          match e_start s (ycalls w) b with
          | Some ((slot, d), b) =>
              (MkYW (ybump w) b [] (set_nth slots k (s, SPinned (d :: tags))) [] (Some (ycalls w, k, slot, chain, self)) [ycalls w] (S (ycalls w)), BTag d)
          | None => (w, BUB)
          end
      | _ => (w, BInvalid)
      end
  end.

(** client of the model *)
Definition ystep (t : target) (pl : places) (unpin : bool) (w : yworld) (o : yop) : yworld * banswer :=
  let share self :=
    match stack_ref (ybusy w) pl RCell self (ysb w) with
    | Some (n, b) => (MkYW (ybump w) b (yshares w ++ [n]) (yslots w) (ychain w) None (ybusy w) (ycalls w), BDone)
    | None => (w, BUB)
    end in
  match o, ydrop w with
  | YShare None, None => share 0%nat
  | YShare (Some i), None => match nth_error (yshares w) i with Some self => share self | None => (w, BInvalid) end
  | YSlot i l p, None =>
      match nth_error (yshares w) i with
      | Some self =>
          match e_slot (ybusy w) t pl (ybump w) l p self (ysb w) with
          | Some ((u, r, s), b) =>
              (MkYW u b (yshares w) (match s with Some s => yslots w ++ [(s, SOpen)] | None => yslots w end) (ychain w) None (ybusy w) (ycalls w), BResponse r None)
          | None => (w, BUB)
          end
      | None => (w, BInvalid)
      end
  | YPin k, None =>
      match nth_error (yslots w) k with
      | Some (s, SOpen) =>
          match e_pin (ybusy w) pl s (ysb w) with
          | Some (v, b) =>
              (MkYW (ybump w) b (yshares w) (set_nth (yslots w) k (s, SPinned [v])) (k :: ychain w) None (ybusy w) (ycalls w), BTag v)
          | None => (w, BUB)
          end
      | _ => (w, BInvalid)
      end
  | YPop, None =>
      match ybusy w with
      | [] => match e_take pl unpin (ysb w) with
              | Some (self, b) => e_go pl unpin w self b (end_open (yslots w)) (ychain w)
              | None => (w, BUB)
              end
      | _ => (w, BInvalid)
      end
  | YRet, Some (c, k, slot, chain, self) =>
      match ybusy w, nth_error (yslots w) k with
      | [_], Some (s, _) =>
          match e_link s slot (ysb w) with
          | Some (_, b) => e_go pl unpin w self b (yslots w) chain
          | None => (w, BUB)
          end
      | _, _ => (w, BInvalid)
      end
  | YPanic, Some _ => (MkYW (ybump w) (ysb w) [] (end_slots (yslots w)) [] None [] (ycalls w), BDone)   (* :182-201: the flag has no chain *)
  | YAct k a, _ =>
      match nth_error (yslots w) k with
      | Some (s, SPinned tags) =>
          if act_ok (MkO (sval s) tags) a then
            match do_act (ybusy w) a (ysb w) with
            | Some (n, b) => (MkYW (ybump w) b (yshares w) (set_nth (yslots w) k (s, SPinned (otags (new_tag (MkO (sval s) tags) n)))) (ychain w) (ydrop w) (ybusy w) (ycalls w), tag_answer n)
            | None => (w, BUB)
            end
          else (w, BInvalid)
      | _ => (w, BInvalid)
      end
  | YEnter, _ => (MkYW (ybump w) (ysb w) (yshares w) (yslots w) (ychain w) (ydrop w) (ycalls w :: ybusy w) (S (ycalls w)), BTag (ycalls w))
  | YExit c, d =>
      if match d with Some (c', _, _, _, _) => Nat.eqb c c' | None => false end then (w, BInvalid)
      else (MkYW (ybump w) (ysb w) (yshares w) (yslots w) (ychain w) (ydrop w) (leave (ybusy w) c) (ycalls w), BDone)
  | _, _ => (w, BInvalid)
  end.

(** client of the model: a program *)
Fixpoint yrun (t : target) (pl : places) (unpin : bool) (w : yworld) (os : list yop) : yworld * list (yop * banswer) :=
  match os with
  | [] => (w, [])
  | o :: os => let (w1, r) := ystep t pl unpin w o in let (w2, h) := yrun t pl unpin w1 os in (w2, (o, r) :: h)
  end.

(** exit-stack/src/lib.rs:98-103 [new], in a variable; no access outside of it is allowed *)
Definition ynew (pl : places) : yworld :=
  MkYW (u_fresh (p_st pl)) (MkB (allocated [p_hd pl; p_st pl; p_tp pl] (MkItem 0 Unique None)) 1) [] [] [] None [] 0.
