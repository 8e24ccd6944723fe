(** * RBorrowSpec: the ideal for Rc and Weak: there are no counters in memory, and of the calls only a few access the value. *)
From Verif Require Import Base Spec SyncModel RcModel BorrowModel BorrowSpec UBorrowModel RBorrowModel.

(** A memory, and the type and value in it *)
Record jmem := MkJM { jm_blk : block; jm_base : nat; jm_box : option (qtype * vstatus) }.

(** [j_stk]: the stacks of borrows, with the tags of the memories and of the client only; [j_used]: the tags that were given out *)
Record qideal := MkQI { j_stk : Z -> stack; j_mems : list jmem; j_handles : list (nat * hkind); j_drops : list (nat * nat * bool);
                        j_busy : list nat; j_calls : nat; j_used : list nat }.

(** The counters are the numbers of handles; all strong ones count as one weak handle. *)
Definition is_strong (k : hkind) : bool := match k with HStrong | HRaw => true | _ => false end.
Definition is_weak (k : hkind) : bool := match k with HWeak => true | _ => false end.
Definition count_of (p : hkind -> bool) (hs : list (nat * hkind)) (m : nat) : nat := length (filter (fun h => Nat.eqb (fst h) m && p (snd h)) hs).
Definition strong_of (hs : list (nat * hkind)) (m : nat) : nat := count_of is_strong hs m.
Definition weak_of (hs : list (nat * hkind)) (m : nat) : nat := count_of is_weak hs m + if Nat.eqb (strong_of hs m) 0 then 0 else 1.

(** The methods of Rc look at the value: they read the bytes that are not inside of an UnsafeCell, through the pointer of the memory. *)
Fixpoint look (busy : list nat) (base : nat) (parts : list (rkind * block)) (k : Z -> stack) : option (Z -> stack) :=
  match parts with
  | [] => Some k
  | (RShared, b) :: parts => match on_block b (sb_read busy base) k with Some k => look busy base parts k | None => None end
  | _ :: parts => look busy base parts k
  end.

Definition j_put (s : qideal) (m : nat) (b : option (qtype * vstatus)) (k : Z -> stack) (hs : list (nat * hkind)) (used : list nat) : qideal :=
  MkQI k (match nth_error (j_mems s) m with Some x => set_nth (j_mems s) m (MkJM (jm_blk x) (jm_base x) b) | None => j_mems s end) hs (j_drops s) (j_busy s) (j_calls s) used.

(** A call on handle [h] of kind [kd], of the value [v] of type [ty] in the memory [m] at [x]; [n] is the tag of a new reference *)
Definition jcall (t : target) (n : nat) (s : qideal) (h m : nat) (kd : hkind) (x : qbox) (v : vstatus) (o : qop) : qideal * qanswer :=
  let ty := q_ty x in let B := j_busy s in let hs := j_handles s in let st := strong_of hs m in let wk := weak_of hs m in
  let mut := [(mut_kind (q_unpin ty), q_val x)] in
  (* an Rc looks at the value first *)
  let rc (f : (Z -> stack) -> qideal * qanswer) := match look B (q_base x) (q_refs x) (j_stk s) with Some k => f k | None => (s, QUB) end in
  (* a new reference to the value, made from the pointer of the memory *)
  let ref (k : Z -> stack) parts p (f : (Z -> stack) -> qideal * qanswer) :=
    match retag_parts B (q_base x) n p parts k with Some k => f k | None => (s, QUB) end in
  let same k hs := j_put s m (Some (ty, v)) k hs (j_used s) in
  match o, kd with
  | QClone _, HStrong => rc (fun k => (same k (hs ++ [(m, HStrong)]), QDone))
  | QClone _, HWeak => (same (j_stk s) (hs ++ [(m, HWeak)]), QDone)
  | QDowngrade _, HStrong => rc (fun k => (same k (hs ++ [(m, HWeak)]), QDone))
  | QUpgrade _, HWeak => if Nat.eqb st 0 then (same (j_stk s) hs, QNo) else rc (fun k => (same k (hs ++ [(m, HStrong)]), QDone))
  | QStrong _, HStrong => rc (fun k => (same k hs, QNum st))
  | QStrong _, HWeak => (same (j_stk s) hs, QNum st)
  | QWeak _, HStrong => rc (fun k => (same k hs, QNum wk))
  | QWeak _, HWeak => (same (j_stk s) hs, QNum wk)
  | QDrop _, HStrong => rc (fun k =>
      if Nat.eqb st 1 then ref k mut (Some (j_calls s)) (fun k =>
        let s' := j_put s m (Some (ty, match tags_of v with Some l => QDying (n :: l) | None => v end)) k (set_nth hs h (m, HGone)) (n :: j_used s) in
        (MkQI k (j_mems s') (j_handles s') ((j_calls s, m, true) :: j_drops s) (j_calls s :: B) (S (j_calls s)) (n :: j_used s), QTag n))
      else (same k (set_nth hs h (m, HGone)), QDone))
  | QDrop _, HWeak => (same (j_stk s) (set_nth hs h (m, HGone)), QDone)
  | QDeref _, HStrong => ref (j_stk s) (q_refs x) None (fun k => (j_put s m (Some (ty, add_tag v (Some n))) k hs (n :: j_used s), QTag n))
  | QGetMut _, HStrong => rc (fun k =>
      if Nat.eqb st 1 && Nat.eqb wk 1 then ref k mut None (fun k => (j_put s m (Some (ty, add_tag v (Some n))) k hs (n :: j_used s), QTag n))
      else (same k hs, QNo))
  | QTryUnwrap _, HStrong => rc (fun k =>
      if Nat.eqb st 1 then
        match on_block (q_val x) (sb_read B (q_base x)) k with
        | Some k => (j_put s m (Some (ty, QOver)) k (set_nth hs h (m, HWeak)) (j_used s), QDone)
        | None => (s, QUB)
        end
      else (same k hs, QNo))
  | QIntoRaw _, HStrong => rc (fun k => if Nat.eqb st 1 && Nat.eqb wk 1 then (same k (set_nth hs h (m, HRaw)), QDone) else (same k hs, QNo))
  | QFromRaw _, HRaw => (same (j_stk s) (set_nth hs h (m, HStrong)), QDone)
  | QTake _, HWeak =>
      if Nat.eqb st 0 && Nat.eqb wk 1 then
        let s' := j_put s m None (j_stk s) (set_nth hs h (m, HGone)) (j_used s) in
        (MkQI (j_stk s') (j_mems s') (j_handles s') (detach m (j_drops s)) (j_busy s) (j_calls s) (j_used s), QDone)
      else (same (j_stk s) hs, QNo)
  | _, _ => (s, QInvalid)
  end.

(** One step; [n] is the tag of the new reference, if there is one. *)
Definition jstep (t : target) (n : nat) (s : qideal) (o : qop) : qideal * qanswer :=
  match handle_of o with
  | Some h =>
      match nth_error (j_handles s) h with
      | Some (m, kd) => match nth_error (j_mems s) m with
                        | Some (MkJM b base (Some (ty, v))) => jcall t n s h m kd (MkQB (start b) ty base) v o
                        | _ => (s, QInvalid)
                        end
      | None => (s, QInvalid)
      end
  | None =>
      match o with
      | QNew m ty =>
          match nth_error (j_mems s) m with
          | Some (MkJM b base None) =>
              if rc_fits t b (q_lay ty) then
                match on_block (q_all t (MkQB (start b) ty base)) (sb_write (j_busy s) base) (j_stk s) with
                | Some k => (j_put s m (Some (ty, QLive [])) k (j_handles s ++ [(m, HStrong)]) (j_used s), QDone)
                | None => (s, QUB)
                end
              else (s, QNo)
          | _ => (s, QInvalid)
          end
      | QRet =>
          match j_drops s, j_busy s with
          | (c, m, here) :: ds, b :: bs =>
              if Nat.eqb b c then
                let s' := match nth_error (j_mems s) m with
                          | Some (MkJM _ _ (Some (ty, _))) => if here : bool then j_put s m (Some (ty, QOver)) (j_stk s) (j_handles s) (j_used s) else s
                          | _ => s
                          end in
                (MkQI (j_stk s) (j_mems s') (j_handles s) ds bs (j_calls s) (j_used s), QDone)
              else (s, QInvalid)
          | _, _ => (s, QInvalid)
          end
      | QAct m a =>
          match nth_error (j_mems s) m with
          | Some (MkJM b base (Some (ty, v))) =>
              match tags_of v with
              | Some tags =>
                  if act_ok (MkO (q_val (MkQB (start b) ty base)) tags) a then
                    match ideal_act (j_busy s) (MkI b (j_stk s) tags) a n with
                    | Some i => (j_put s m (Some (ty, match a with CRetag _ _ _ => add_tag v (Some n) | _ => v end)) (istk i) (j_handles s) (used_after a n (j_used s)),
                                 match a with CRetag _ _ _ => QTag n | _ => QDone end)
                    | None => (s, QUB)
                    end
                  else (s, QInvalid)
              | None => (s, QInvalid)
              end
          | _ => (s, QInvalid)
          end
      | QEnter => (MkQI (j_stk s) (j_mems s) (j_handles s) (j_drops s) (j_calls s :: j_busy s) (S (j_calls s)) (j_used s), QNum (j_calls s))
      | QExit c =>
          if existsb (fun d : nat * nat * bool => Nat.eqb (fst (fst d)) c) (j_drops s) then (s, QInvalid)
          else (MkQI (j_stk s) (j_mems s) (j_handles s) (j_drops s) (leave (j_busy s) c) (j_calls s) (j_used s), QDone)
      | _ => (s, QInvalid)
      end
  end.

(** A program and its answers *)
Inductive jruns (t : target) : qideal -> list (qop * qanswer) -> qideal -> Prop :=
| JNil s : jruns t s [] s
| JCons s1 o r s2 h s3 n : ~ In n (j_used s1) -> jstep t n s1 o = (s2, r) -> jruns t s2 h s3 -> jruns t s1 ((o, r) :: h) s3.

Definition jmems_new (bs : list block) : list jmem := map (fun p : block * nat => MkJM (fst p) (snd p) None) (combine bs (seq 0 (length bs))).
Definition qideal_new (bs : list block) : qideal := MkQI (stacks_new (qmems_new bs)) (jmems_new bs) [] [] [] 0 (seq 0 (length bs)).

(** A type: its parts are in order and cover it. *)
Definition qtype_ok (t : target) (ty : qtype) : Prop :=
  type_layout t (q_lay ty) /\ type_layout t (rc_layout t (q_lay ty)) /\
  (forall p, In p (q_parts ty) -> 0 <= size (snd p) /\ 0 <= start (snd p) /\ start (snd p) + size (snd p) <= lsize (q_lay ty)) /\
  apart (map (fun p => (RShared, snd p)) (q_parts ty)) = true /\
  (forall i, 0 <= i < lsize (q_lay ty) -> exists p, In p (q_parts ty) /\ in_block (snd p) i).
Definition qop_ok (t : target) (o : qop) : Prop := match o with QNew _ ty => qtype_ok t ty | _ => True end.

(** ** Programs that use references as the borrow checker allows *)

(** What the client may use: shared references of [deref], or a unique one of [get_mut] or a destructor *)
Inductive qmode := MShared (ns : list nat) | MExcl (n : nat).
Definition shared_of (q : qmode) : list nat := match q with MShared ns => ns | MExcl _ => [] end.

(** An access of the value through these references; through a shared one only bytes inside of an UnsafeCell are written. *)
Definition allowed (q : qmode) (x : qbox) (a : cact) : Prop :=
  match q, a with
  | MShared ns, CRead n _ => In n ns
  | MShared ns, CWrite n b => In n ns /\ exists c, In (RCell, c) (q_refs x) /\ inside b c
  | MExcl n, CRead n' _ | MExcl n, CWrite n' _ => n = n'
  | _, CRetag _ _ _ => False
  end.
(** The memory of a value is not used again while its destructor is running. *)
Definition polite_op (w : qworld) (ms : nat -> qmode) (o : qop) : Prop :=
  match o with
  | QAct m a => forall k c, nth_error (qmems w) m = Some k -> m_box k = Some c -> allowed (ms m) (box_at k (c_ty c)) a
  | QNew m _ => forall c here, ~ In (c, m, here) (qdrops w)
  | _ => True
  end.
(** After a call: a method of Rc ends the reference of [get_mut]. *)
Definition mode_after (w : qworld) (ms : nat -> qmode) (o : qop) (r : qanswer) : nat -> qmode :=
  let set m q := fun m' => if Nat.eqb m' m then q else ms m' in
  match o, r with
  | QNew m _, QDone => set m (MShared [])
  | _, _ =>
      match handle_of o with
      | Some h =>
          match nth_error (qhandles w) h with
          | Some (m, HStrong) =>
              match o, r with
              | QDeref _, QTag n => set m (MShared (n :: shared_of (ms m)))
              | QGetMut _, QTag n | QDrop _, QTag n => set m (MExcl n)
              | _, _ => set m (MShared (shared_of (ms m)))
              end
          | Some (m, HWeak) => match o, r with QUpgrade _, QDone => set m (MShared (shared_of (ms m))) | _, _ => ms end
          | _ => ms
          end
      | None => ms
      end
  end.
Fixpoint polite (t : target) (w : qworld) (ms : nat -> qmode) (os : list qop) : Prop :=
  match os with
  | [] => True
  | o :: os => polite_op w ms o /\ polite t (fst (qstep t w o)) (mode_after w ms o (snd (qstep t w o))) os
  end.
