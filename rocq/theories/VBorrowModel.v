(** * VBorrowModel: what without_alloc's Uninit, Box, FixedVec and Drain, and static_alloc's LeakBox, do under the aliasing rules of BorrowModel.

    All of them have a pointer with the tag of the memory that they were made from (uninit.rs:96-117).  Regions, lengths and results are those of
    UninitModel and FixedVecModel.  A reference that a method returns to its caller is made once: to make it again is an action that the
    client can do.  The counters and pointers of the structs themselves are not in this memory, and methods that only look at them
    ([len], [capacity], [is_empty], [size]) have no effect here.  A [LeakBox<MaybeUninit<T>>] is memory like an Uninit that T fits in, and a
    [LeakBox<T>] does the same as a Box (leaked.rs:139-144 is a pointer, too). *)
From Verif Require Import Base Spec SyncModel UninitModel FixedVecModel BorrowModel UBorrowModel RBorrowModel.

Section Methods.
Variables (calls : list nat) (ty : qtype) (base : nat).

(** fixed_vec.rs:421-432 element [i] of a slice at [a] *)
Definition v_elem (a i : Z) : block := MkBlock (a + i * lsize (q_lay ty)) (lsize (q_lay ty)).
(** model only: all [n] elements *)
Definition v_elems (a n : Z) : block := MkBlock a (n * lsize (q_lay ty)).
(** model only: the parts of a reference &[T] to [n] elements at [a] *)
Definition slice_refs (a n : Z) : list (rkind * block) :=
  flat_map (fun i => q_refs (MkQB (a + i * lsize (q_lay ty)) ty base)) (upto (Z.to_nat n)).
(** model only: the kind of a reference &mut T or &mut [T] *)
Definition v_mut : rkind := mut_kind (q_unpin ty).

(** uninit.rs:315-327 [init] (of a region at [a]): the value is written, and a reference returned *)
Definition vb_init (a : Z) : M nat := _ <- m_write calls base (v_elem a 0) ;; one calls v_mut (v_elem a 0) base.
(** boxed.rs:100-106 [Box::new]: the reference of [init] is dropped *)
Definition vb_box (a : Z) : M unit := _ <- vb_init a ;; mret tt.
(** leaked.rs:476-483 [LeakBox::write]: a reference of [deref_mut] (509-512), core's [MaybeUninit::as_mut_ptr] of it, and a write *)
Definition vb_write (a : Z) : M unit := m <- one calls v_mut (v_elem a 0) base ;; p <- one calls RCell (v_elem a 0) m ;; m_write calls p (v_elem a 0).
(** boxed.rs:165-173 [deref]; leaked.rs:502-505 [deref], 550-552 [as_ref]; uninit.rs:281-283 [as_ref] *)
Definition vb_deref (a : Z) : M nat := m_retag calls base (q_refs (MkQB a ty base)).
(** boxed.rs:175-181 [deref_mut], 150-154 [leak]; leaked.rs:509-512 [deref_mut], 556-558 [as_mut], 315-323 [leak]; uninit.rs:292-294 [as_mut], 308-310 [into_mut] *)
Definition vb_deref_mut (a : Z) : M nat := one calls v_mut (v_elem a 0) base.
(** boxed.rs:111-114 [take]; leaked.rs:426-433 [take]; uninit.rs:350-352 [read] *)
Definition vb_take (a : Z) : M unit := m_read calls base (v_elem a 0).
(** boxed.rs:157-163 [drop]; leaked.rs:516-519 [drop], with the destructor as call [c] that has its &mut self as a protected argument (as in EBorrowModel) *)
Definition vb_drop (a : Z) (c : nat) : M nat := m_retag_prot calls base [(v_mut, v_elem a 0)] (Some c).

(** fixed_vec.rs:173-178 [as_slice] and the traits that use it (511-621); 476-483 that of Drain *)
Definition vb_slice (a n : Z) : M nat := m_retag calls base (slice_refs a n).
(** fixed_vec.rs:181-188 [as_mut_slice] and the traits that use it; 489-497 that of Drain; uninit.rs:292-294 [as_mut] of an [Uninit<[T]>] *)
Definition vb_mut_slice (a n : Z) : M nat := m_retag calls base [(v_mut, v_elems a n)].
(** fixed_vec.rs:242-256 [push], if there is room: uninit.rs:315-327 [init] of the first free element *)
Definition vb_push (v : fvec) : M unit := _ <- vb_init (slot (q_lay ty) v (flen v)) ;; mret tt.
(** fixed_vec.rs:259-272 [pop] of a vector that is not empty *)
Definition vb_pop (v : fvec) : M unit := m_read calls base (v_elem (uptr (funinit v)) (flen v - 1)).
(** fixed_vec.rs:347-358 one item in [fill] and [extend] *)
Definition vb_fill (v : fvec) : M unit := m_write calls base (v_elem (uptr (funinit v)) (flen v)).
(** fixed_vec.rs:162-169 one element in [truncate]; its destructor is call [c] *)
Definition vb_truncate (v : fvec) (c : nat) : M nat := m_retag_prot calls base [(v_mut, v_elem (uptr (funinit v)) (flen v - 1))] (Some c).
(** fixed_vec.rs:523-529 [drop], up to the drop glue of the slice *)
Definition vb_drop_vec (v : fvec) : M nat := vb_mut_slice (uptr (funinit v)) (flen v).
(** core: drop glue of the slice with tag [d]: one element *)
Definition vb_drop_elem (v : fvec) (d : nat) (i : Z) (c : nat) : M nat := m_retag_prot calls d [(v_mut, v_elem (uptr (funinit v)) i)] (Some c).

(** fixed_vec.rs:625-637 [Drain::next] of a Drain that is not empty *)
Definition vb_next (d : drain) : M unit := m_read calls base (v_elem (delements d) (dstart d)).
(** fixed_vec.rs:645-657 [Drain::next_back] *)
Definition vb_next_back (d : drain) : M unit := m_read calls base (v_elem (delements d) (dend d - 1)).
(** fixed_vec.rs:672-679 the end of the drop of a Drain: [ptr::copy] of the tail *)
Definition vb_restore (d : drain) : M unit :=
  if dtail_len d =? 0 then mret tt
  else _ <- m_read calls base (v_elems (delements d + dtail d * lsize (q_lay ty)) (dtail_len d)) ;;
       m_write calls base (v_elems (delements d) (dtail_len d)).
End Methods.

(** ** Programs that use them *)

(** client of the model: what a region is: an [Uninit<()>]; an [Uninit<[T]>]; a value with a reference (of [init] or [leak]); a Box; the same while
    its destructor is running as call [c]; a FixedVec; the same while the destructor of the element behind its end is running ([truncate]); while there is
    a Drain; in its [drop]: the tag of the slice, how many elements were dropped, and the destructor that is running; nothing any more *)
Inductive vst :=
| SRaw | SSlice (ty : qtype) | SRef (ty : qtype) | SBox (ty : qtype) | SBoxDying (ty : qtype) (c : nat)
| SVec (ty : qtype) (n : Z) | STrunc (ty : qtype) (n : Z) (c : nat) | SDrain (ty : qtype) (n : Z) (d : drain)
| SDropping (ty : qtype) (n : Z) (tag : nat) (i : Z) (run : option nat) | SGone.

(** client of the model: a region, the tag of its pointer, the tags that the client has, the region it is borrowed from, and what it is *)
Record vview := MkVW { w_u : uview; w_base : nat; w_tags : list nat; w_parent : option nat; w_st : vst }.

(** client of the model; [v] is a region *)
Inductive vop :=
| VCastSlice (v : nat) (ty : qtype)              (* Uninit<()>::cast_slice *)
| VMemory (v : nat)                              (* Uninit<[T]>::as_memory *)
| VSplitAt (v : nat) (n : Z)                     (* Uninit<[T]>::split_at *)
| VByte (v : nat) (n : Z)                        (* Uninit<()>::split_at_byte *)
| VUninitMut (v : nat)                           (* Uninit<[T]>::as_mut: unsafe, the elements were initialised *)
| VInit (v : nat) (ty : qtype)                   (* Uninit<()>::cast, and init *)
| VBoxed (v : nat) (ty : qtype)                  (* the same and Box::new *)
| VWrite (v : nat) (ty : qtype)                  (* LeakBox<MaybeUninit<T>>::write *)
| VNew (v : nat)                                 (* FixedVec::new of an Uninit<[T]> *)
| VUnaligned (v : nat) (ty : qtype)              (* FixedVec::from_unaligned *)
| VDeref (v : nat) | VDerefMut (v : nat)         (* of a Box *)
| VTake (v : nat) | VIntoRaw (v : nat) | VLeak (v : nat)   (* Box::take, Box::into_raw, Box::leak *)
| VPush (v : nat) | VPop (v : nat) | VFill (v : nat)
| VTruncate (v : nat)                            (* one element in truncate or clear *)
| VAsSlice (v : nat) | VAsMutSlice (v : nat)     (* of a FixedVec or a Drain *)
| VAsPtr (v : nat)                               (* as_ptr, as_mut_ptr *)
| VSplit (v : nat) (n : Z)                       (* split_and_shrink_to *)
| VLend (v : nat) (n : Z)                        (* split_borrowed *)
| VShrink (v : nat)                              (* FixedVec::shrink_to_fit *)
| VDrain (v : nat) (lo hi : bound)
| VNext (v : nat) | VNextBack (v : nat)          (* of a Drain *)
| VRestore (v : nat)                             (* the end of the drop of a Drain: all items were taken *)
| VDrainGone (v : nat)                           (* the Drain was forgotten, or its drop panicked *)
| VDrop (v : nat)                                (* drop of a Box or FixedVec *)
| VDropElem (v : nat)                            (* the drop of a FixedVec goes on *)
| VRet (v : nat)                                 (* a destructor in this region returns or panics *)
| VForget (v : nat)                              (* it is forgotten, or no longer needed *)
| VAct (v : nat) (a : cact)                      (* an access to the region *)
| VEnter | VExit (c : nat).                      (* a function of the client starts, and returns *)

(** client of the model; [VNo]: None or Err *)
Inductive vanswer := VDone | VTag (n : nat) | VNum (n : nat) | VNo | VPanic (m : nat) | VUB | VInvalid.

(** client of the model *)
Record vworld := MkVWorld { vsb : bstate; vviews : list vview; vbusy : list nat; vcalls : nat }.

(** model only *)
Definition gone (k : vview) : bool := match w_st k with SGone => true | _ => false end.
(** model only: a region that is in use and borrowed from region [v] *)
Definition borrows (v : nat) (k : vview) : bool := negb (gone k) && match w_parent k with Some p => Nat.eqb p v | None => false end.
(** model only: a region that the client can use: nothing is borrowed from it *)
Definition usable_at (vs : list vview) (v : nat) : option vview :=
  match nth_error vs v with Some k => if gone k || existsb (borrows v) vs then None else Some k | None => None end.
(** model only: the destructor that is running *)
Definition running (k : vview) : option nat :=
  match w_st k with SBoxDying _ c | STrunc _ _ c => Some c | SDropping _ _ _ _ r => r | _ => None end.
(** model only: the bytes of a region *)
Definition w_blk (k : vview) : block := MkBlock (uptr (w_u k)) (ulen (w_u k)).
(** model only: the vector *)
Definition w_vec (k : vview) (n : Z) : fvec := MkFvec (w_u k) n.

(** model only: a memory for which only the lengths of FixedVecModel matter *)
Definition h_any : eheap := fun _ => Some 0.

(** client of the model: a call on the region [v] *)
Definition vcall (t : target) (w : vworld) (v : nat) (k : vview) (o : vop) : vworld * vanswer :=
  let B := vbusy w in let u := w_u k in let a := uptr u in let base := w_base k in
  (* the new state of the region *)
  let st s := MkVW u base (w_tags k) (w_parent k) s in
  let tag n s := MkVW u base (n :: w_tags k) (w_parent k) s in
  (* what it is now, its bytes, and a new region with other bytes, borrowed from [p] *)
  let cut u1 s u2 s2 p := set_nth (vviews w) v (MkVW u1 base (w_tags k) (w_parent k) s) ++ [MkVW u2 base (w_tags k) p s2] in
  let put b x := MkVWorld b (set_nth (vviews w) v x) B (vcalls w) in
  (* a destructor starts as a call *)
  let start b x := MkVWorld b (set_nth (vviews w) v x) (vcalls w :: B) (S (vcalls w)) in
  let all b vs := MkVWorld b vs B (vcalls w) in
  let go {A} (f : M A) (g : A -> bstate -> vworld * vanswer) := match f (vsb w) with Some (a, s) => g a s | None => (w, VUB) end in
  let out {A} (f : outcome A) (g : A -> vworld * vanswer) := match f with Ret a => g a | Panic m => (w, VPanic m) end in
  match o, w_st k with
  | VCastSlice _ ty, SRaw => match v_cast_slice t u (q_lay ty) with
                             | Some u' => (put (vsb w) (MkVW u' base (w_tags k) (w_parent k) (SSlice ty)), VDone)
                             | None => (w, VNo)
                             end
  | VMemory _, SSlice _ => (put (vsb w) (MkVW (decast u) base (w_tags k) (w_parent k) SRaw), VDone)
  | VSplitAt _ n, SSlice ty => out (v_split_at t (q_lay ty) u n) (fun r => match r with
                               | (u1, Some u2) => (all (vsb w) (cut u1 (SSlice ty) u2 (SSlice ty) (w_parent k)), VDone)
                               | (_, None) => (w, VNo)
                               end)
  | VByte _ n, SRaw => match v_split_at_byte unit_layout u n with
                       | (u1, Some u2) => (all (vsb w) (cut u1 SRaw u2 SRaw (w_parent k)), VDone)
                       | (_, None) => (w, VNo)
                       end
  | VUninitMut _, SSlice ty => go (vb_mut_slice B ty base (fst (v_as_ptr u)) (snd (v_as_ptr u))) (fun n s => (put s (tag n (SSlice ty)), VTag n))
  | VInit _ ty, SRaw => match v_cast u (q_lay ty) with
                        | Some _ => go (vb_init B ty base a) (fun n s => (put s (tag n (SRef ty)), VTag n))
                        | None => (w, VNo)
                        end
  | VBoxed _ ty, SRaw => match v_cast u (q_lay ty) with
                         | Some _ => go (vb_box B ty base a) (fun _ s => (put s (st (SBox ty)), VDone))
                         | None => (w, VNo)
                         end
  | VWrite _ ty, SRaw => match v_cast u (q_lay ty) with
                         | Some _ => go (vb_write B ty base a) (fun _ s => (put s (st (SBox ty)), VDone))
                         | None => (w, VNo)
                         end
  | VNew _, SSlice ty => (put (vsb w) (st (SVec ty (flen (f_new u)))), VDone)
  | VUnaligned _ ty, SRaw => out (f_from_unaligned t (q_lay ty) u) (fun f =>
                               (put (vsb w) (MkVW (funinit f) base (w_tags k) (w_parent k) (SVec ty (flen f))), VDone))
  | VDeref _, SBox ty => go (vb_deref B ty base a) (fun n s => (put s (tag n (SBox ty)), VTag n))
  | VDerefMut _, SBox ty => go (vb_deref_mut B ty base a) (fun n s => (put s (tag n (SBox ty)), VTag n))
  | VTake _, SBox ty => go (vb_take B ty base a) (fun _ s => (put s (st SRaw), VDone))
  | VIntoRaw _, SBox _ => (put (vsb w) (st SRaw), VDone)
  | VLeak _, SBox ty => go (vb_deref_mut B ty base a) (fun n s => (put s (tag n (SRef ty)), VTag n))
  | VDrop _, SBox ty => go (vb_drop B ty base a (vcalls w)) (fun n s => (start s (tag n (SBoxDying ty (vcalls w))), VTag n))
  | VPush _, SVec ty n => out (f_push t (q_lay ty) h_any (w_vec k n) 0) (fun r => match r with
                          | (_, f, None) => go (vb_push B ty base (w_vec k n)) (fun _ s => (put s (st (SVec ty (flen f))), VDone))
                          | (_, _, Some _) => (w, VNo)
                          end)
  | VPop _, SVec ty n => out (f_pop t (q_lay ty) h_any (w_vec k n)) (fun r => match r with
                         | (f, Some _) => go (vb_pop B ty base (w_vec k n)) (fun _ s => (put s (st (SVec ty (flen f))), VDone))
                         | (_, None) => (w, VNo)
                         end)
  | VFill _, SVec ty n => if n <? f_capacity t (q_lay ty) (w_vec k n)
                          then go (vb_fill B ty base (w_vec k n)) (fun _ s => (put s (st (SVec ty (n + 1))), VDone))
                          else (w, VNo)
  | VTruncate _, SVec ty n => if n =? 0 then (w, VNo)
                              else go (vb_truncate B ty base (w_vec k n) (vcalls w)) (fun d s => (start s (tag d (STrunc ty (n - 1) (vcalls w))), VTag d))
  | VAsSlice _, SVec ty n => go (vb_slice B ty base a n) (fun r s => (put s (tag r (SVec ty n)), VTag r))
  | VAsSlice _, SDrain ty n d => go (vb_slice B ty base (delements d + dstart d * lsize (q_lay ty)) (d_len d)) (fun r s => (put s (tag r (SDrain ty n d)), VTag r))
  | VAsMutSlice _, SVec ty n => go (vb_mut_slice B ty base a n) (fun r s => (put s (tag r (SVec ty n)), VTag r))
  | VAsMutSlice _, SDrain ty n d => go (vb_mut_slice B ty base (delements d + dstart d * lsize (q_lay ty)) (d_len d)) (fun r s => (put s (tag r (SDrain ty n d)), VTag r))
  | VAsPtr _, SVec ty n => (put (vsb w) (tag base (SVec ty n)), VTag base)
  | VSplit _ at_, SVec ty n => out (f_split_and_shrink t (q_lay ty) (w_vec k n) at_) (fun r =>
      (all (vsb w) (cut (funinit (fst r)) (SVec ty (flen (fst r))) (funinit (snd r)) (SVec ty (flen (snd r))) (w_parent k)), VDone))
  | VLend _ at_, SVec ty n => out (f_split_borrowed t (q_lay ty) (w_vec k n) at_) (fun r =>
      (all (vsb w) (cut (funinit (fst r)) (SVec ty (flen (fst r))) (funinit (snd r)) (SVec ty (flen (snd r))) (Some v)), VDone))
  | VShrink _, SVec ty n => out (f_shrink_to_fit t (q_lay ty) (w_vec k n)) (fun r =>
      (all (vsb w) (cut (funinit (fst r)) (SVec ty (flen (fst r))) (snd r) SRaw (w_parent k)), VDone))
  | VDrain _ lo hi, SVec ty n => out (f_drain t (q_lay ty) (w_vec k n) lo hi) (fun r => (put (vsb w) (st (SDrain ty (flen (fst r)) (snd r))), VDone))
  | VNext _, SDrain ty n d => match d_next (q_lay ty) h_any d with
                              | (d', Some _) => go (vb_next B ty base d) (fun _ s => (put s (st (SDrain ty n d')), VDone))
                              | (_, None) => (w, VNo)
                              end
  | VNextBack _, SDrain ty n d => match d_next_back (q_lay ty) h_any d with
                                  | (d', Some _) => go (vb_next_back B ty base d) (fun _ s => (put s (st (SDrain ty n d')), VDone))
                                  | (_, None) => (w, VNo)
                                  end
  | VRestore _, SDrain ty n d => if d_is_empty d then go (vb_restore B ty base d) (fun _ s => (put s (st (SVec ty (n + dtail_len d))), VDone)) else (w, VInvalid)
  | VDrainGone _, SDrain ty n _ => (put (vsb w) (st (SVec ty n)), VDone)
  | VDrop _, SVec ty n => go (vb_drop_vec B ty base (w_vec k n)) (fun d s => (put s (st (SDropping ty n d 0 None)), VDone))
  | VDropElem _, SDropping ty n d i None =>
      if i <? n then go (vb_drop_elem B ty (w_vec k n) d i (vcalls w)) (fun r s => (start s (tag r (SDropping ty n d (i + 1) (Some (vcalls w)))), VTag r))
      else (put (vsb w) (st SGone), VDone)
  | VRet _, s =>
      match running k, B with
      | Some c, b :: bs =>
          if Nat.eqb b c then
            (MkVWorld (vsb w) (set_nth (vviews w) v (st match s with
               | STrunc ty n _ => SVec ty n
               | SDropping ty n d i _ => SDropping ty n d i None
               | _ => SGone
               end)) bs (vcalls w), VDone)
          else (w, VInvalid)
      | _, _ => (w, VInvalid)
      end
  | VForget _, (SRaw | SSlice _ | SRef _ | SBox _ | SVec _ _) => (put (vsb w) (st SGone), VDone)
  | VAct _ x, s => if act_ok (MkO (w_blk k) (w_tags k)) x then
                     go (do_act B x) (fun n b => (put b (match n with Some n => tag n s | None => k end), match n with Some n => VTag n | None => VDone end))
                   else (w, VInvalid)
  | _, _ => (w, VInvalid)
  end.

(** model only: the region that a call is about *)
Definition view_of (o : vop) : option nat :=
  match o with
  | VCastSlice v _ | VMemory v | VSplitAt v _ | VByte v _ | VUninitMut v | VInit v _ | VBoxed v _ | VWrite v _ | VNew v | VUnaligned v _ | VDeref v | VDerefMut v | VTake v | VIntoRaw v | VLeak v
  | VPush v | VPop v | VFill v | VTruncate v | VAsSlice v | VAsMutSlice v | VAsPtr v | VSplit v _ | VLend v _ | VShrink v | VDrain v _ _ | VNext v | VNextBack v
  | VRestore v | VDrainGone v | VDrop v | VDropElem v | VRet v | VForget v | VAct v _ => Some v
  | VEnter | VExit _ => None
  end.

(** client of the model *)
Definition vstep (t : target) (w : vworld) (o : vop) : vworld * vanswer :=
  match view_of o with
  | Some v => match usable_at (vviews w) v with Some k => vcall t w v k o | None => (w, VInvalid) end
  | None =>
      match o with
      | VEnter => (MkVWorld (vsb w) (vviews w) (vcalls w :: vbusy w) (S (vcalls w)), VNum (vcalls w))
      | VExit c => if existsb (fun k => match running k with Some d => Nat.eqb d c | None => false end) (vviews w) then (w, VInvalid)
                   else (MkVWorld (vsb w) (vviews w) (leave (vbusy w) c) (vcalls w), VDone)
      | _ => (w, VInvalid)
      end
  end.

(** client of the model: a program *)
Fixpoint vrun (t : target) (w : vworld) (os : list vop) : vworld * list (vop * vanswer) :=
  match os with
  | [] => (w, [])
  | o :: os => let (w1, r) := vstep t w o in let (w2, h) := vrun t w1 os in (w2, (o, r) :: h)
  end.

(** model only: each memory is an allocation of its own, with the tag of its number, and the pointer to it was made to an [Uninit<()>] with
    uninit.rs:133-140 [from_memory] *)
Definition vviews_new (bs : list block) : list vview :=
  map (fun k => MkVW (from_memory (start (m_blk k)) (size (m_blk k))) (m_base k) [] None SRaw) (qmems_new bs).
(** client of the model *)
Definition vnew (bs : list block) : vworld := MkVWorld (MkB (stacks_new (qmems_new bs)) (length bs)) (vviews_new bs) [] 0.
