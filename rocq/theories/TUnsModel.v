(** * TUnsModel: what the unsync Bump and MemBump do under the second proposal for the aliasing rules (Tree Borrows, the rules of TreeModel).

    The functions are those of UBorrowModel, with the same references, pointers and accesses, in the same programs; those that exit-stack
    uses too are in TExitModel.  Function arguments are not protected. *)
From Verif Require Import Base Spec SyncModel UnsyncModel BorrowModel UBorrowModel TreeModel TExitModel.

Section Mem.
Variables (t : target) (hd : block).

(** unsync/bump.rs:478-487 [try_alloc] *)
Definition f_try_alloc (u : ubump) (l : layout) (self : nat) : F (ubump * outcome (option allocation) * nat) :=
  self <~ f_self hd (udata u) self ~;
  _ <~ f_cell_get hd self ~;
  x <~ f_try_alloc_at t hd u l (uindex u) self ~;
  let '(u', r, base) := x in
  fret (u', match r with
            | Panic m => Panic m
            | Ret (ROk a) => Ret (Some a)
            | Ret (RErr Exhausted) => Ret None
            | Ret (RErr (Mismatch _)) => Panic PU_unreachable
            end, base).

(** unsync/bump.rs:280-282 [alloc], 320-327 [get] *)
Definition f_alloc (u : ubump) (l : layout) (self : nat) : F (ubump * outcome (option allocation) * nat) :=
  self <~ f_self hd (udata u) self ~; f_try_alloc u l self.

(** unsync/bump.rs:454-463 [bump_array]: up to the pointer of the allocation *)
Definition f_bump_array (u : ubump) (l : layout) (n : Z) (self : nat) : F (ubump * outcome result * nat) :=
  self <~ f_self hd (udata u) self ~;
  match layout_array t l n with
  | None => fret (u, Ret (RErr Exhausted), self)
  | Some la =>
      x <~ f_alloc u la self ~;
      let '(u', r, base) := x in
      fret (u', match r with
                | Panic m => Panic m
                | Ret None => Ret (RErr Exhausted)
                | Ret (Some a) => Ret (ROk a)
                end, base)
  end.

(** bump.rs:802-806 [Allocation::leak] *)
Definition f_alloc_leak (unpin im : bool) (b : block) (base : nat) : F nat :=
  _ <~ f_access true base b ~; f_one im (mut_kind unpin) b base.

(** bump.rs:820-825 [Allocation::boxed] *)
Definition f_alloc_boxed (b : block) (base : nat) : F nat := _ <~ f_access true base b ~; fret base.
End Mem.

(** ** Programs that use an unsync Bump *)

(** client of the model: what is done with a block, as in UBorrowModel; [im]: has the type of the value interior mutability? *)
Inductive txuse := TXRaw | TXLeak (unpin im : bool) | TXBoxed | TXBox (unpin im : bool).

(** client of the model: a new reference to the Bump (from the variable or LeakBox, or from another one), a call through reference [i],
    a reset, and an access to object [k] *)
Inductive txop :=
| TXShare (from : option nat)
| TXCall (i : nat) (c : ucall) (u : txuse)
| TXReset
| TXAct (k : nat) (a : nact).

(** client of the model: done, a new tag, the answer of a call and the tag of the pointer, undefined behaviour, and programs that do not type check *)
Inductive txanswer := TXDone | TXTag (tag : nat) | TXResponse (r : response) (tag : option nat) | TXUB | TXInvalid.

(** client of the model; the root of all pointers has tag 0 *)
Record txworld := MkTX { txbump : ubump; txforest : forest; txshares : list nat; txobjs : list bobj }.

(** model only: the method that is called *)
Definition f_method (t : target) (hd : block) (u : ubump) (c : ucall) (self : nat) : F (ubump * response * nat) :=
  match c with
  | UCall (CAlloc l) | UCall (CGet l) => x <~ f_alloc t hd u l self ~; let '(u', r, base) := x in fret (u', of_option r, base)
  | UCall (CAllocAt l lv) | UCall (CGetAt l lv) => x <~ f_alloc_at t hd u l lv self ~; let '(u', r, base) := x in fret (u', of_result r, base)
  | UCall CLevel => lv <~ f_level hd u self ~; fret (u, RLevel lv, self)
  | UCall CReset => fret (u, RUnit, self)
  | UBumpBox l => x <~ f_bump_box t hd u l self ~; let '(u', r, base) := x in fret (u', of_result r, base)
  | UBumpArray l n => x <~ f_bump_array t hd u l n self ~; let '(u', r, base) := x in fret (u', of_result r, base)
  end.

(** model only: [bump_box] and [bump_array] return a LeakBox, the other calls not *)
Definition tuse_ok (c : ucall) (u : txuse) : bool :=
  match c, u with
  | UCall CReset, _ => false
  | UCall _, TXBox _ _ => false
  | UCall _, _ => true
  | _, TXBox _ _ => true
  | _, _ => false
  end.

(** as cited above *)
Definition f_use (u : txuse) (b : block) (base : nat) : F nat :=
  match u with
  | TXRaw => fret base
  | TXLeak p im => f_alloc_leak p im b base
  | TXBoxed => f_alloc_boxed b base
  | TXBox p im => f_leak_box_from p im b base
  end.

(** model only: a call through a reference, for a Bump<T> through Deref, and the use of the block *)
Definition f_call (t : target) (hd : block) (kind : xkind) (u : ubump) (c : ucall) (us : txuse) (self : nat) : F (ubump * response * option nat) :=
  self <~ match kind with XVar _ => f_deref_ref hd u self | XPtr => fret self end ~;
  x <~ f_method t hd u c self ~;
  let '(u', r, base) := x in
  match r with
  | RBlock a => tag <~ f_use us (MkBlock (ptr a) (lsize (uasked t c))) base ~; fret (u', r, Some tag)
  | _ => fret (u', r, None)
  end.

(** a reset by the owner: of the variable (through DerefMut), or of the LeakBox (leaked.rs:508-513 DerefMut) *)
Definition f_owner_reset (hd : block) (kind : xkind) (u : ubump) : F ubump :=
  m <~ match kind with
       | XVar p => self <~ f_retag true 0 [(mut_kind p, hd); (mut_kind p, udata u)] ~; f_deref_mut hd p u self
       | XPtr => f_retag true 0 [(RUnique, hd); (RUnique, udata u)]
       end ~;
  f_reset hd u m.

(** client of the model; a reset ends all borrows *)
Definition txstep (t : target) (hd : block) (kind : xkind) (w : txworld) (o : txop) : txworld * txanswer :=
  let share self :=
    match f_self hd (udata (txbump w)) self (txforest w) with
    | Some (n, s) => (MkTX (txbump w) s (txshares w ++ [n]) (txobjs w), TXDone)
    | None => (w, TXUB)
    end in
  match o with
  | TXShare None => share 0%nat
  | TXShare (Some i) => match nth_error (txshares w) i with Some self => share self | None => (w, TXInvalid) end
  | TXCall i c u =>
      match nth_error (txshares w) i, tuse_ok c u with
      | Some self, true =>
          match f_call t hd kind (txbump w) c u self (txforest w) with
          | Some ((u', r, tag), s) =>
              (MkTX u' s (txshares w)
                 (match r, tag with RBlock a, Some n => txobjs w ++ [MkO (MkBlock (ptr a) (lsize (uasked t c))) [n]] | _, _ => txobjs w end),
               TXResponse r tag)
          | None => (w, TXUB)
          end
      | _, _ => (w, TXInvalid)
      end
  | TXReset =>
      match f_owner_reset hd kind (txbump w) (txforest w) with
      | Some (u', s) => (MkTX u' s [] [], TXDone)
      | None => (w, TXUB)
      end
  | TXAct k a =>
      match nth_error (txobjs w) k with
      | Some ob =>
          if nact_ok ob a then
            let n := fresh_tag (txforest w) in
            match tree_act n a (nodes (txforest w)) with
            | Some r => (MkTX (txbump w) (MkS r (if makes_tag a then S n else n)) (txshares w) (set_nth (txobjs w) k (MkO (oblk ob) (tags_after n a (otags ob)))),
                         if makes_tag a then TXTag n else TXDone)
            | None => (w, TXUB)
            end
          else (w, TXInvalid)
      | None => (w, TXInvalid)
      end
  end.

(** client of the model: a program *)
Fixpoint txrun (t : target) (hd : block) (kind : xkind) (w : txworld) (os : list txop) : txworld * list (txop * txanswer) :=
  match os with
  | [] => (w, [])
  | o :: os => let (w1, r) := txstep t hd kind w o in let (w2, h) := txrun t hd kind w1 os in (w2, (o, r) :: h)
  end.

(** unsync/bump.rs:106-121 a new Bump in a variable; or unsync/bump.rs:150-197 [from_mem] (the pointer of the LeakBox counts as that of the
    allocation, since nothing else is used to access the memory as long as there is the LeakBox); no access outside of it is allowed *)
Definition txnew (hd st : block) : txworld :=
  MkTX (u_fresh st) (MkS (MkTree (fun n => if Nat.eqb n 0 then [0%nat] else [])
    (fun x _ => if existsb (fun b => inb b x) [hd; st] then PActive else PDisabled)) 1) [] [].
