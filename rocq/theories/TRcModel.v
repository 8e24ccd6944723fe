(** * TRcModel: what without_alloc's Rc and Weak do under the second proposal for the aliasing rules (Tree Borrows, the rules of TreeModel).

    The functions are those of RBorrowModel, with the same references, pointers and accesses; boxes, types, counters and handles are kept as
    there.  Function arguments are not protected. *)
From Verif Require Import Base Spec SyncModel RcModel BorrowModel UBorrowModel RBorrowModel TreeModel TExitModel.

Section Methods.
Variables (t : target) (x : qbox).

(** model only: does the type of the value have interior mutability? *)
Definition q_im : bool := existsb fst (q_parts (q_ty x)).

(** rc.rs:101-114 [new]: uninit.rs:315-327 [init] writes the box and makes a reference, which is dropped; an RcBox has Cells *)
Definition g_new : F unit :=
  _ <~ f_access true (q_base x) (q_all t x) ~; _ <~ f_one true (mut_kind (q_unpin (q_ty x))) (q_all t x) (q_base x) ~; fret tt.

(** rc.rs:304-308 [inner]: uninit.rs:764-774 [as_ref], [into_ref]: a reference to the whole RcBox *)
Definition g_inner : F nat :=
  let parts := q_refs x ++ [(RCell, q_strong t x); (RCell, q_weak t x)] in
  r <~ f_retag true (q_base x) parts ~; f_retag true r parts.
(** rc.rs:256-258 [strong_count] *)
Definition g_strong_count : F unit := r <~ g_inner ~; f_cell_get (q_strong t x) r.
(** rc.rs:251-253 [weak_count] *)
Definition g_weak_count : F unit := r <~ g_inner ~; f_cell_get (q_weak t x) r.
(** rc.rs:329-337 [inc_strong], [dec_strong] *)
Definition g_set_strong : F unit := _ <~ g_strong_count ~; r <~ g_inner ~; f_cell_set (q_strong t x) r.
(** rc.rs:339-347 [inc_weak], [dec_weak] *)
Definition g_set_weak : F unit := _ <~ g_weak_count ~; r <~ g_inner ~; f_cell_set (q_weak t x) r.
(** rc.rs:310-312 [is_unique], with the count of strong handles *)
Definition g_is_unique (strong : nat) : F unit := _ <~ g_strong_count ~; if Nat.eqb strong 1 then g_weak_count else fret tt.
(** rc.rs:533-539 [deref] *)
Definition g_deref : F nat := r <~ g_inner ~; f_retag true r (q_refs x).
(** rc.rs:264-270 [get_mut], with the counts *)
Definition g_get_mut (strong weak : nat) : F (option nat) :=
  _ <~ g_is_unique strong ~;
  if Nat.eqb strong 1 && Nat.eqb weak 1 then n <~ f_one q_im (mut_kind (q_unpin (q_ty x))) (q_val x) (q_base x) ~; fret (Some n) else fret None.
(** rc.rs:520-530 [drop]; the destructor gets a &mut self *)
Definition g_drop (strong : nat) : F (option nat) :=
  _ <~ g_set_strong ~; _ <~ g_strong_count ~;
  if Nat.eqb strong 1 then
    _ <~ g_set_weak ~; d <~ f_one q_im (mut_kind (q_unpin (q_ty x))) (q_val x) (q_base x) ~; fret (Some d)
  else fret None.
(** rc.rs:178-190 [try_unwrap] *)
Definition g_try_unwrap (strong : nat) : F unit :=
  _ <~ g_strong_count ~; if Nat.eqb strong 1 then _ <~ g_set_strong ~; f_access false (q_base x) (q_val x) else fret tt.

(** rc.rs:469-478 [weak] and [strong] of a Weak: references to one counter only *)
Definition gw_cell (b : block) : F nat := r <~ f_one true RCell b (q_base x) ~; f_one true RCell b r.
(** rc.rs:437-439 [strong_count], 458-460 [weak_count] *)
Definition gw_count (b : block) : F unit := r <~ gw_cell b ~; f_cell_get b r.
(** rc.rs:480-488 [inc_weak], [dec_weak] (and :571-576 [drop], :601-606 [clone]) *)
Definition gw_set : F unit := _ <~ gw_count (q_weak t x) ~; r <~ gw_cell (q_weak t x) ~; f_cell_set (q_weak t x) r.
(** rc.rs:408-416 [upgrade] *)
Definition gw_upgrade (strong : nat) : F unit := _ <~ gw_count (q_strong t x) ~; if Nat.eqb strong 0 then fret tt else g_set_strong.
(** rc.rs:371-384 [Weak::try_unwrap]: the handle is dropped at its end *)
Definition gw_try_unwrap (strong weak : nat) : F unit :=
  _ <~ gw_count (q_strong t x) ~;
  if Nat.eqb strong 0 then _ <~ gw_count (q_weak t x) ~; if Nat.eqb weak 1 then gw_set else fret tt else fret tt.
End Methods.

(** ** Programs that use Rcs, as in RBorrowModel *)

(** client of the model; [m] is a memory, [h] a handle *)
Inductive gop :=
| GNew (m : nat) (ty : qtype)                    (* Rc::new *)
| GClone (h : nat)                               (* clone of Rc or Weak *)
| GDowngrade (h : nat) | GUpgrade (h : nat)
| GStrong (h : nat) | GWeak (h : nat)            (* strong_count and weak_count of Rc or Weak *)
| GDrop (h : nat)                                (* drop of Rc (up to its destructor) or Weak *)
| GRet                                           (* the destructor that was started last returns or panics *)
| GDeref (h : nat) | GGetMut (h : nat)
| GTryUnwrap (h : nat)                           (* Rc::try_unwrap *)
| GIntoRaw (h : nat) | GFromRaw (h : nat)
| GTake (h : nat)                                (* Weak::try_unwrap *)
| GAct (m : nat) (a : nact).                     (* an access to the value in memory m, or a new reference to a part of it *)

(** client of the model; [gdrops]: the destructors that run, last one first: the memory, and whether the value is still in it.
    The pointers of all memories have tag 0. *)
Record gworld := MkGW { gforest : forest; gmems : list qmem; ghandles : list (nat * hkind); gdrops : list (nat * bool) }.

(** model only *)
Definition gput (w : gworld) (m : nat) (k : qmem) (s : forest) (hs : list (nat * hkind)) : gworld := MkGW s (set_nth (gmems w) m k) hs (gdrops w).
(** model only: the memory of a destructor was taken *)
Definition gdetach (m : nat) (l : list (nat * bool)) : list (nat * bool) := map (fun d : nat * bool => if Nat.eqb (fst d) m then (fst d, false) else d) l.

(** client of the model: a call on handle [h] of kind [kd] of the box [c] in memory [m] *)
Definition gcall (t : target) (w : gworld) (h m : nat) (kd : hkind) (k : qmem) (c : qcontents) (o : gop) : gworld * qanswer :=
  let x := box_at k (c_ty c) in
  let box st wk v := put_box k (Some (MkQC (c_ty c) st wk v)) in
  let hs := ghandles w in
  let go {A} (f : F A) (g : A -> forest -> gworld * qanswer) := match f (gforest w) with Some (a, s) => g a s | None => (w, QUB) end in
  let st := c_strong c in let wk := c_weak c in let v := c_val c in
  match o, kd with
  | GClone _, HStrong => go (g_set_strong t x) (fun _ s => (gput w m (box (S st) wk v) s (hs ++ [(m, HStrong)]), QDone))
  | GClone _, HWeak => go (gw_set t x) (fun _ s => (gput w m (box st (S wk) v) s (hs ++ [(m, HWeak)]), QDone))
  | GDowngrade _, HStrong => go (g_set_weak t x) (fun _ s => (gput w m (box st (S wk) v) s (hs ++ [(m, HWeak)]), QDone))
  | GUpgrade _, HWeak => go (gw_upgrade t x st) (fun _ s =>
      if Nat.eqb st 0 then (gput w m k s hs, QNo) else (gput w m (box (S st) wk v) s (hs ++ [(m, HStrong)]), QDone))
  | GStrong _, HStrong => go (g_strong_count t x) (fun _ s => (gput w m k s hs, QNum st))
  | GStrong _, HWeak => go (gw_count x (q_strong t x)) (fun _ s => (gput w m k s hs, QNum st))
  | GWeak _, HStrong => go (g_weak_count t x) (fun _ s => (gput w m k s hs, QNum wk))
  | GWeak _, HWeak => go (gw_count x (q_weak t x)) (fun _ s => (gput w m k s hs, QNum wk))
  | GDrop _, HStrong => go (g_drop t x st) (fun d s =>
      match d with
      | Some d => (MkGW s (set_nth (gmems w) m (box (pred st) (pred wk) (match tags_of v with Some l => QDying (d :: l) | None => v end)))
                     (set_nth hs h (m, HGone)) ((m, true) :: gdrops w), QTag d)
      | None => (gput w m (box (pred st) wk v) s (set_nth hs h (m, HGone)), QDone)
      end)
  | GDrop _, HWeak => go (gw_set t x) (fun _ s => (gput w m (box st (pred wk) v) s (set_nth hs h (m, HGone)), QDone))
  | GDeref _, HStrong => go (g_deref t x) (fun n s => (gput w m (box st wk (add_tag v (Some n))) s hs, QTag n))
  | GGetMut _, HStrong => go (g_get_mut t x st wk) (fun n s =>
      match n with Some n => (gput w m (box st wk (add_tag v (Some n))) s hs, QTag n) | None => (gput w m k s hs, QNo) end)
  | GTryUnwrap _, HStrong => go (g_try_unwrap t x st) (fun _ s =>
      if Nat.eqb st 1 then (gput w m (box (pred st) wk QOver) s (set_nth hs h (m, HWeak)), QDone) else (gput w m k s hs, QNo))
  | GIntoRaw _, HStrong => go (g_is_unique t x st) (fun _ s =>
      if Nat.eqb st 1 && Nat.eqb wk 1 then (gput w m k s (set_nth hs h (m, HRaw)), QDone) else (gput w m k s hs, QNo))
  | GFromRaw _, HRaw => (gput w m k (gforest w) (set_nth hs h (m, HStrong)), QDone)
  | GTake _, HWeak => go (gw_try_unwrap t x st wk) (fun _ s =>
      if Nat.eqb st 0 && Nat.eqb wk 1 then
        (MkGW s (set_nth (gmems w) m (put_box k None)) (set_nth hs h (m, HGone)) (gdetach m (gdrops w)), QDone)
      else (gput w m k s hs, QNo))
  | _, _ => (w, QInvalid)
  end.

(** model only: the handle that a call is about *)
Definition ghandle_of (o : gop) : option nat :=
  match o with
  | GClone h | GDowngrade h | GUpgrade h | GStrong h | GWeak h | GDrop h | GDeref h | GGetMut h | GTryUnwrap h | GIntoRaw h | GFromRaw h | GTake h => Some h
  | _ => None
  end.

(** client of the model *)
Definition gstep (t : target) (w : gworld) (o : gop) : gworld * qanswer :=
  match ghandle_of o with
  | Some h =>
      match nth_error (ghandles w) h with
      | Some (m, kd) => match nth_error (gmems w) m with
                        | Some k => match m_box k with Some c => gcall t w h m kd k c o | None => (w, QInvalid) end
                        | None => (w, QInvalid)
                        end
      | None => (w, QInvalid)
      end
  | None =>
      match o with
      | GNew m ty =>
          match nth_error (gmems w) m with
          | Some k =>
              match m_box k with
              | None =>
                  if rc_fits t (m_blk k) (q_lay ty) then
                    match g_new t (box_at k ty) (gforest w) with
                    | Some (_, s) => (gput w m (put_box k (Some (MkQC ty 1 1 (QLive [])))) s (ghandles w ++ [(m, HStrong)]), QDone)
                    | None => (w, QUB)
                    end
                  else (w, QNo)
              | Some _ => (w, QInvalid)
              end
          | None => (w, QInvalid)
          end
      | GRet =>
          match gdrops w with
          | (m, here) :: ds =>
              (MkGW (gforest w) (match nth_error (gmems w) m with
                                 | Some k => match m_box k with
                                             | Some x => if here : bool then set_nth (gmems w) m (put_box k (Some (MkQC (c_ty x) (c_strong x) (c_weak x) QOver))) else gmems w
                                             | None => gmems w
                                             end
                                 | None => gmems w
                                 end) (ghandles w) ds, QDone)
          | [] => (w, QInvalid)
          end
      | GAct m a =>
          match nth_error (gmems w) m with
          | Some k =>
              match m_box k with
              | Some c =>
                  match tags_of (c_val c) with
                  | Some tags =>
                      if nact_ok (MkO (q_val (box_at k (c_ty c))) tags) a then
                        let n := fresh_tag (gforest w) in
                        match tree_act n a (nodes (gforest w)) with
                        | Some r => (gput w m (put_box k (Some (MkQC (c_ty c) (c_strong c) (c_weak c) (add_tag (c_val c) (if makes_tag a then Some n else None)))))
                                       (MkS r (if makes_tag a then S n else n)) (ghandles w), if makes_tag a then QTag n else QDone)
                        | None => (w, QUB)
                        end
                      else (w, QInvalid)
                  | None => (w, QInvalid)
                  end
              | None => (w, QInvalid)
              end
          | None => (w, QInvalid)
          end
      | _ => (w, QInvalid)
      end
  end.

(** client of the model: a program *)
Fixpoint grun (t : target) (w : gworld) (os : list gop) : gworld * list (gop * qanswer) :=
  match os with
  | [] => (w, [])
  | o :: os => let (w1, r) := gstep t w o in let (w2, h) := grun t w1 os in (w2, (o, r) :: h)
  end.

(** client of the model: memories that are allocations of their own; no access outside of them is allowed *)
Definition gnew (bs : list block) : gworld :=
  MkGW (MkS (MkTree (fun n => if Nat.eqb n 0 then [0%nat] else []) (fun x _ => if existsb (fun b => inb b x) bs then PActive else PDisabled)) 1)
       (map (fun b => MkQM b 0 None) bs) [] [].
