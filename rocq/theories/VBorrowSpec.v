(** * VBorrowSpec: parts of a memory, and programs that use references as the borrow checker allows. *)
From Verif Require Import Base Spec SyncModel UninitModel UninitSpec FixedVecModel FixedVecSpec BorrowModel UBorrowModel RBorrowModel RBorrowSpec VBorrowModel.

(** A type: its parts are in order and cover it. *)
Definition vtype_ok (t : target) (ty : qtype) : Prop :=
  type_layout t (q_lay ty) /\
  (forall p, In p (q_parts ty) -> 0 <= size (snd p) /\ 0 <= start (snd p) /\ start (snd p) + size (snd p) <= lsize (q_lay ty)) /\
  apart (map (fun p => (RShared, snd p)) (q_parts ty)) = true /\
  (forall i, 0 <= i < lsize (q_lay ty) -> exists p, In p (q_parts ty) /\ in_block (snd p) i).

(** Arguments of the right types.  Two methods are left out, because they give access to bytes of another part: [Uninit<()>::split_at_byte] (at a byte other than 0, claim
    C34) and [Uninit<[T]>::as_mut] (its reference has a stale length after a split, claim C36). *)
Definition vop_ok (t : target) (o : vop) : Prop :=
  match o with
  | VCastSlice _ ty | VInit _ ty | VBoxed _ ty | VWrite _ ty | VUnaligned _ ty => vtype_ok t ty
  | VSplitAt _ n | VSplit _ n | VLend _ n => is_usize t n
  | VByte _ n => n = 0
  | VUninitMut _ => False
  | VDrain _ lo hi => valid_bound t true lo /\ valid_bound t false hi
  | _ => True
  end.

(** The memories that a program starts with *)
Definition memories_ok (t : target) (bs : list block) : Prop := Forall (valid_region t) bs /\ pairwise disjoint bs.

(** The same world with other stacks of borrows *)
Definition with_stacks (w : vworld) (k : Z -> stack) : vworld := MkVWorld (MkB k (nexttag (vsb w))) (vviews w) (vbusy w) (vcalls w).

(** ** Programs that use references as the borrow checker allows *)

(** The values that a region has: the elements of the vector; what is left in the Drain; the element (or the value in the box) whose destructor is running *)
Definition live_blk (k : vview) : block :=
  let a := uptr (w_u k) in
  match w_st k with
  | SRef ty | SBox ty | SBoxDying ty _ => v_elem ty a 0
  | SVec ty n => v_elems ty a n
  | STrunc ty n _ => v_elem ty a n
  | SDrain ty _ d => v_elems ty (delements d + dstart d * lsize (q_lay ty)) (d_len d)
  | SDropping ty _ _ i (Some _) => v_elem ty a (i - 1)
  | _ => MkBlock a 0
  end.
(** The same as parts of a shared reference *)
Definition live_refs (k : vview) : list (rkind * block) :=
  let a := uptr (w_u k) in
  match w_st k with
  | SBox ty => q_refs (MkQB a ty (w_base k))
  | SVec ty n => slice_refs ty (w_base k) a n
  | SDrain ty _ d => slice_refs ty (w_base k) (delements d + dstart d * lsize (q_lay ty)) (d_len d)
  | _ => []
  end.

(** The client uses shared references, of [as_slice] or [deref]; or a unique one, of [as_mut_slice], [deref_mut], [init], [leak] or a destructor.  It uses them inside of
    these values, and through a shared one only bytes inside of an UnsafeCell are written. *)
Definition vallowed (q : qmode) (k : vview) (a : cact) : Prop :=
  match q, a with
  | MShared ns, CRead n b => In n ns /\ inside b (live_blk k)
  | MShared ns, CWrite n b => In n ns /\ exists c, In (RCell, c) (live_refs k) /\ inside b c
  | MExcl n, CRead n' b | MExcl n, CWrite n' b => n = n' /\ inside b (live_blk k)
  | _, CRetag _ _ _ => False
  end.
Definition vpolite_op (w : vworld) (ms : nat -> qmode) (o : vop) : Prop :=
  match o with
  | VAct v a => forall k, usable_at (vviews w) v = Some k -> vallowed (ms v) k a
  | _ => True
  end.
(** After a call: [as_slice] and [deref] end a unique reference; all other calls end all references to the region. *)
Definition vmode_after (w : vworld) (ms : nat -> qmode) (o : vop) (r : vanswer) : nat -> qmode :=
  let set v q := fun v' => if Nat.eqb v' v then q else ms v' in
  match o, r with
  | VAct _ _, _ => ms
  | (VAsSlice v | VDeref v), VTag n => set v (MShared (n :: shared_of (ms v)))
  | (VAsMutSlice v | VDerefMut v | VInit v _ | VLeak v | VTruncate v | VDrop v | VDropElem v), VTag n => set v (MExcl n)
  | _, _ => match view_of o with Some v => set v (MShared []) | None => ms end
  end.
Fixpoint vpolite (t : target) (w : vworld) (ms : nat -> qmode) (os : list vop) : Prop :=
  match os with
  | [] => True
  | o :: os => vpolite_op w ms o /\ vpolite t (fst (vstep t w o)) (vmode_after w ms o (snd (vstep t w o))) os
  end.
