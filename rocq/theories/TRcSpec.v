(** * TRcSpec: which programs use references as the borrow checker allows; the same as in RBorrowSpec, for Tree Borrows. *)
From Verif Require Import Base Spec SyncModel RcModel BorrowModel BorrowSpec UBorrowModel RBorrowModel RBorrowSpec TreeModel TRcModel.

Definition gop_ok (t : target) (o : gop) : Prop := match o with GNew _ ty => qtype_ok t ty | _ => True end.

(** An access of the value through the references that the client may use (see [qmode]); through a shared one only bytes inside of an
    UnsafeCell are written. *)
Definition gallowed (q : qmode) (x : qbox) (a : nact) : Prop :=
  match q, a with
  | MShared ns, NRead n _ => In n ns
  | MShared ns, NWrite n b => In n ns /\ exists c, In (RCell, c) (q_refs x) /\ inside b c
  | MExcl n, NRead n' _ | MExcl n, NWrite n' _ => n = n'
  | _, NRetag _ _ _ => False
  end.
Definition gpolite_op (w : gworld) (ms : nat -> qmode) (o : gop) : Prop :=
  match o with
  | GAct m a => forall k c, nth_error (gmems w) m = Some k -> m_box k = Some c -> gallowed (ms m) (box_at k (c_ty c)) a
  | _ => True
  end.
(** After a call: a method of Rc ends the reference of [get_mut]; those of a Weak do not, except for an [upgrade] that makes an Rc. *)
Definition gmode_after (w : gworld) (ms : nat -> qmode) (o : gop) (r : qanswer) : nat -> qmode :=
  let set m q := fun m' => if Nat.eqb m' m then q else ms m' in
  match o, r with
  | GNew m _, QDone => set m (MShared [])
  | _, _ =>
      match ghandle_of o with
      | Some h =>
          match nth_error (ghandles w) h with
          | Some (m, HStrong) =>
              match o, r with
              | GDeref _, QTag n => set m (MShared (n :: shared_of (ms m)))
              | GGetMut _, QTag n | GDrop _, QTag n => set m (MExcl n)
              | _, _ => set m (MShared (shared_of (ms m)))
              end
          | Some (m, HWeak) => match o, r with GUpgrade _, QDone => set m (MShared (shared_of (ms m))) | _, _ => ms end
          | _ => ms
          end
      | None => ms
      end
  end.
Fixpoint gpolite (t : target) (w : gworld) (ms : nat -> qmode) (os : list gop) : Prop :=
  match os with
  | [] => True
  | o :: os => gpolite_op w ms o /\ gpolite t (fst (gstep t w o)) (gmode_after w ms o (snd (gstep t w o))) os
  end.
