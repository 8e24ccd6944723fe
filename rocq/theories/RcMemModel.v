(** * RcMemModel: without-alloc/src/rc.rs on bytes.

    [RcModel] keeps whole boxes in a map from addresses; here a box is only bytes of one memory shared by all
    allocations and by the client's own unused regions.  Every function reads and writes the two counters and the
    value at their places in the repr(C) struct [RcBox] (rc.rs:58-73), whatever else lies there.  [code] names a
    value by its bytes (for answers and for the log of drops); the theorems hold for every [code]. *)
From Verif Require Import Base Spec UninitModel SyncMemModel UnsyncModel ExitModel RcModel.

(** A client's tokens are those of [RcModel]. *)
Record xstate := MkX { xtoks : list token; xmem : mem; xdropping : list uview; xlog : list event }.

(** The calls of [RcModel.rop], values given by their bytes, and [XScribble]: the client writes [bs] at offset
    [off] of a region it owns (it may, through Uninit::as_ptr). *)
Inductive xop :=
| XNew (i : nat) (bs : list (option Z)) (l : layout)
| XGetMut (i : nat) (w : option (list (option Z)))
| XRawReplace (i : nat) (w : list (option Z))
| XClone (i : nat) | XDowngrade (i : nat) | XUpgrade (i : nat) | XDrop (i : nat) | XDone | XForget (i : nat)
| XDeref (i : nat) | XIntoRaw (i : nat) | XFromRaw (i : nat) | XRawTake (i : nat) | XTryUnwrap (i : nat)
| XWeakTryUnwrap (i : nat) | XStrongCount (i : nat) | XWeakCount (i : nat) | XPtrEq (i j : nat)
| XScribble (i : nat) (off : Z) (bs : list (option Z)).

(** rc.rs:58-73: the counter cells of the box at [p] for T of layout [l]; reading one that is not initialised
    gives [None]. *)
Definition strong_at (t : target) (l : layout) (p : Z) : Z := p + rc_strong_off t l.
(** rc.rs:58-74: address of [weak] *)
Definition weak_at (t : target) (l : layout) (p : Z) : Z := p + rc_weak_off t l.
(** rc.rs:476-478 [strong] *)
Definition get_strong (t : target) (l : layout) (p : Z) (m : mem) : option Z := load_usize t m (strong_at t l p).
(** rc.rs:469-474 [weak] *)
Definition get_weak (t : target) (l : layout) (p : Z) (m : mem) : option Z := load_usize t m (weak_at t l p).

(** rc.rs:329-347, 480-488: [inc_strong], [dec_strong], [inc_weak], [dec_weak] on the cell at [c]: get, add or
    subtract one, set.  [None]: the cell is not initialised. *)
Definition cell_inc (t : target) (c : Z) (m : mem) : option (outcome mem) :=
  match load_usize t m c with
  | None => None
  | Some n => Some (olet x := op_add t PN_rc n 1 in Ret (store_usize t m c x))
  end.
(** rc.rs:334-337 [dec_strong], 344-347 and 485-488 [dec_weak] *)
Definition cell_dec (t : target) (c : Z) (m : mem) : option (outcome mem) :=
  match load_usize t m c with
  | None => None
  | Some n => Some (olet x := op_sub t PN_rc n 1 in Ret (store_usize t m c x))
  end.

(** rc.rs:533-539 [deref], 318-327 [as_ptr]: the value's bytes, the first field *)
Definition get_value (l : layout) (p : Z) (m : mem) : list (option Z) := mem_read m p (lsize l).

(** rc.rs:310-312 [is_unique]; both counters are read in order, the second only if the first is 1 *)
Definition x_is_unique (t : target) (l : layout) (p : Z) (m : mem) : option bool :=
  match get_strong t l p m with
  | None => None
  | Some n => if n =? 1 then match get_weak t l p m with None => None | Some w => Some (w =? 1) end else Some false
  end.

(** rc.rs:460-462 [is_unique_to_rc_memory] *)
Definition x_is_unique_to_memory (t : target) (l : layout) (p : Z) (m : mem) : option bool :=
  match get_strong t l p m with
  | None => None
  | Some n => if n =? 0 then match get_weak t l p m with None => None | Some w => Some (w =? 1) end else Some false
  end.

(** rc.rs:105-109: [init(RcBox { val, strong: 1, weak: 1 })]; the padding becomes uninitialised *)
Definition write_box (t : target) (l : layout) (p : Z) (bs : list (option Z)) (m : mem) : mem :=
  store_usize t (store_usize t (mem_write (mem_fill m p (lsize (rc_layout t l)) None) p bs) (strong_at t l p) 1)
    (weak_at t l p) 1.

(** rc.rs:520-530 [Drop for Rc]: memory afterwards, and whether drop_in_place is called on the value *)
Definition x_rc_drop (t : target) (l : layout) (p : Z) (m : mem) : option (mem * outcome bool) :=
  match cell_dec t (strong_at t l p) m with
  | None => None
  | Some (Panic e) => Some (m, Panic e)
  | Some (Ret m1) =>
      match get_strong t l p m1 with
      | None => None
      | Some n =>
          if n =? 0 then
            match cell_dec t (weak_at t l p) m1 with
            | None => None
            | Some (Panic e) => Some (m1, Panic e)
            | Some (Ret m2) => Some (m2, Ret true)
            end
          else Some (m1, Ret false)
      end
  end.

(** rc.rs:408-416 [Weak::upgrade]; a panic of [inc_strong] drops the new handle *)
Definition x_upgrade (t : target) (l : layout) (p : Z) (m : mem) : option (mem * outcome bool) :=
  match get_strong t l p m with
  | None => None
  | Some n =>
      if n =? 0 then Some (m, Ret false)
      else match cell_inc t (strong_at t l p) m with
           | None => None
           | Some (Ret m1) => Some (m1, Ret true)
           | Some (Panic e) =>
               match x_rc_drop t l p m with
               | None => None
               | Some (m1, _) => Some (m1, Panic e)
               end
           end
  end.

(** model only: the token, if it is live *)
Definition xtok (s : xstate) (i : nat) : option token :=
  match nth_error (xtoks s) i with
  | Some k => match tstat k with Live => Some k | _ => None end
  | None => None
  end.
(** model only: update of a field *)
Definition xset (s : xstate) (i : nat) (k : token) : xstate :=
  MkX (upd_nth i k (xtoks s)) (xmem s) (xdropping s) (xlog s).
(** model only: update of a field *)
Definition xadd (s : xstate) (k : token) : xstate := MkX (xtoks s ++ [k]) (xmem s) (xdropping s) (xlog s).
(** model only: update of a field *)
Definition xput (s : xstate) (m : mem) : xstate := MkX (xtoks s) m (xdropping s) (xlog s).
(** model only: update of a field *)
Definition xlogs (s : xstate) (es : list event) : xstate := MkX (xtoks s) (xmem s) (xdropping s) (xlog s ++ es).

(** [f] on the live token [i] if it is of kind [kd]; [AInvalid] otherwise *)
Definition with_tok (s : xstate) (i : nat) (f : token -> option (xstate * answer)) : xstate * answer :=
  match xtok s i with
  | Some k => match f k with Some r => r | None => (s, AUb) end
  | None => (s, AInvalid)
  end.

(** model only: address of the box *)
Definition addr (k : token) : Z := uptr (tview k).

(** The client's calls on bytes, each through the function cited.  [None] in the branches: an uninitialised
    counter is read. *)
Definition xstep (code : list (option Z) -> rvalue) (t : target) (s : xstate) (o : xop) : xstate * answer :=
  match o with
  | XNew i bs l =>   (* rc.rs:101-114 *)
      with_tok s i (fun k => Some
        match tkind k with
        | KMem =>
            if v_fits (tview k) (rc_layout t l) then
              match v_cast (tview k) (rc_layout t l) with
              | Some u => (xlogs (xput (xset s i {| tkind := KStrong; tview := u; tlay := l; tstat := Live |})
                             (write_box t l (uptr u) bs (xmem s))) [Put (code bs)], ADone)
              | None => (xlogs (xset s i (restat k Gone)) [Put (code bs); Dropped (code bs)], APanic)
              end
            else (xlogs (xset s i (restat k Gone)) [Put (code bs); Dropped (code bs)], APanic)
        | _ => (s, AInvalid)
        end)
  | XClone i =>      (* :563-568, :601-606 *)
      with_tok s i (fun k =>
        match tkind k with
        | KStrong =>
            match cell_inc t (strong_at t (tlay k) (addr k)) (xmem s) with
            | None => None
            | Some (Ret m) => Some (xadd (xput s m) k, ATok (length (xtoks s)))
            | Some (Panic _) => Some (s, APanic)
            end
        | KWeak =>
            match cell_inc t (weak_at t (tlay k) (addr k)) (xmem s) with
            | None => None
            | Some (Ret m) => Some (xadd (xput s m) k, ATok (length (xtoks s)))
            | Some (Panic _) => Some (s, APanic)
            end
        | _ => Some (s, AInvalid)
        end)
  | XDowngrade i =>  (* :213-216 *)
      with_tok s i (fun k =>
        match tkind k with
        | KStrong =>
            match cell_inc t (weak_at t (tlay k) (addr k)) (xmem s) with
            | None => None
            | Some (Ret m) => Some (xadd (xput s m) (retok k KWeak (tview k)), ATok (length (xtoks s)))
            | Some (Panic _) => Some (s, APanic)
            end
        | _ => Some (s, AInvalid)
        end)
  | XUpgrade i =>    (* :408-416 *)
      with_tok s i (fun k =>
        match tkind k with
        | KWeak =>
            match x_upgrade t (tlay k) (addr k) (xmem s) with
            | None => None
            | Some (m, Ret true) => Some (xadd (xput s m) (retok k KStrong (tview k)), ATok (length (xtoks s)))
            | Some (m, Ret false) => Some (xput s m, ANone)
            | Some (m, Panic _) => Some (xput s m, APanic)
            end
        | _ => Some (s, AInvalid)
        end)
  | XDrop i =>       (* :520-530, :571-576 *)
      with_tok s i (fun k =>
        let s' := xset s i (restat k Gone) in
        match tkind k with
        | KStrong =>
            match x_rc_drop t (tlay k) (addr k) (xmem s) with
            | None => None
            | Some (m, Ret true) =>
                let s1 := xlogs (xput s' m) [Dropped (code (get_value (tlay k) (addr k) m))] in
                Some (MkX (xtoks s1) (xmem s1) (tview k :: xdropping s1) (xlog s1), ADone)
            | Some (m, Ret false) => Some (xput s' m, ADone)
            | Some (m, Panic _) => Some (xput s' m, APanic)
            end
        | KWeak =>
            match cell_dec t (weak_at t (tlay k) (addr k)) (xmem s) with
            | None => None
            | Some (Ret m) => Some (xput s' m, ADone)
            | Some (Panic _) => Some (s', APanic)
            end
        | KMem | KRaw => Some (s', ADone)
        end)
  | XDone =>
      match xdropping s with
      | _ :: d => (MkX (xtoks s) (xmem s) d (xlog s), ADone)
      | [] => (s, AInvalid)
      end
  | XForget i => with_tok s i (fun k => Some (xset s i (restat k Forgot), ADone))
  | XDeref i =>      (* :533-539 *)
      with_tok s i (fun k => Some
        match tkind k with KStrong => (s, AVal (code (get_value (tlay k) (addr k) (xmem s)))) | _ => (s, AInvalid) end)
  | XGetMut i w =>   (* :264-270 *)
      with_tok s i (fun k =>
        match tkind k with
        | KStrong =>
            match x_is_unique t (tlay k) (addr k) (xmem s) with
            | None => None
            | Some true =>
                let v := code (get_value (tlay k) (addr k) (xmem s)) in
                match w with
                | Some bs => Some (xlogs (xput s (mem_write (xmem s) (addr k) bs)) [Put (code bs); Took v], AVal v)
                | None => Some (s, AVal v)
                end
            | Some false => Some (s, ANone)
            end
        | _ => Some (s, AInvalid)
        end)
  | XIntoRaw i =>    (* :156-170 *)
      with_tok s i (fun k =>
        match tkind k with
        | KStrong =>
            match x_is_unique t (tlay k) (addr k) (xmem s) with
            | None => None
            | Some true =>
                match v_cast (from_memory (uptr (tview k)) (ulen (tview k))) (tlay k) with
                | Some u => Some (xset s i (retok k KRaw u), ADone)
                | None => Some (xset s i (restat k Forgot), APanic)
                end
            | Some false => Some (s, AErr)
            end
        | _ => Some (s, AInvalid)
        end)
  | XFromRaw i =>    (* :121-130 *)
      with_tok s i (fun k => Some
        match tkind k with
        | KRaw =>
            match rc_from_raw t (tlay k) (tview k) with
            | Ret u => (xset s i (retok k KStrong u), ADone)
            | Panic _ => (xset s i (restat k Gone), APanic)
            end
        | _ => (s, AInvalid)
        end)
  | XRawReplace i w =>
      with_tok s i (fun k => Some
        match tkind k with
        | KRaw =>
            let v := code (get_value (tlay k) (addr k) (xmem s)) in
            (xlogs (xput s (mem_write (xmem s) (addr k) w)) [Put (code w); Took v], AVal v)
        | _ => (s, AInvalid)
        end)
  | XRawTake i =>
      with_tok s i (fun k => Some
        match tkind k with
        | KRaw =>
            let v := code (get_value (tlay k) (addr k) (xmem s)) in
            (xlogs (xset s i (retok k KMem (decast (tview k)))) [Took v], AVal v)
        | _ => (s, AInvalid)
        end)
  | XTryUnwrap i =>  (* :178-190; the value is read after the counter is decremented *)
      with_tok s i (fun k =>
        match tkind k with
        | KStrong =>
            match get_strong t (tlay k) (addr k) (xmem s) with
            | None => None
            | Some n =>
                if negb (n =? 1) then Some (s, AErr)
                else match cell_dec t (strong_at t (tlay k) (addr k)) (xmem s) with
                     | None => None
                     | Some (Panic _) => Some (s, APanic)
                     | Some (Ret m) =>
                         let v := code (get_value (tlay k) (addr k) m) in
                         Some (xlogs (xput (xset s i (retok k KWeak (tview k))) m) [Took v], AVal v)
                     end
            end
        | _ => Some (s, AInvalid)
        end)
  | XWeakTryUnwrap i => (* :371-384; [self] is dropped at the end of the function *)
      with_tok s i (fun k =>
        match tkind k with
        | KWeak =>
            match x_is_unique_to_memory t (tlay k) (addr k) (xmem s) with
            | None => None
            | Some false => Some (s, AErr)
            | Some true =>
                match cell_dec t (weak_at t (tlay k) (addr k)) (xmem s) with
                | None => None
                | Some (Panic _) => Some (xset s i (restat k Gone), APanic)
                | Some (Ret m) =>
                    Some (xput (xset s i (retok k KMem (from_memory (uptr (tview k)) (ulen (tview k))))) m, ADone)
                end
            end
        | _ => Some (s, AInvalid)
        end)
  | XStrongCount i =>  (* :256-258, :437-439 *)
      with_tok s i (fun k =>
        match tkind k with
        | KStrong | KWeak =>
            match get_strong t (tlay k) (addr k) (xmem s) with None => None | Some n => Some (s, ANum n) end
        | _ => Some (s, AInvalid)
        end)
  | XWeakCount i =>    (* :251-253, :456-458 *)
      with_tok s i (fun k =>
        match tkind k with
        | KStrong | KWeak =>
            match get_weak t (tlay k) (addr k) (xmem s) with None => None | Some n => Some (s, ANum n) end
        | _ => Some (s, AInvalid)
        end)
  | XPtrEq i j =>      (* :296-298 *)
      match xtok s i, xtok s j with
      | Some k, Some k' =>
          match tkind k, tkind k' with
          | KStrong, KStrong => (s, ABool (addr k =? addr k'))
          | _, _ => (s, AInvalid)
          end
      | _, _ => (s, AInvalid)
      end
  | XScribble i off bs =>
      with_tok s i (fun k => Some
        match tkind k with
        | KMem => if (0 <=? off) && (off + Z.of_nat (length bs) <=? ulen (tview k))
                  then (xput s (mem_write (xmem s) (addr k + off) bs), ADone) else (s, AInvalid)
        | _ => (s, AInvalid)
        end)
  end.

(** client of the model: calls in sequence *)
Fixpoint xrun (code : list (option Z) -> rvalue) (t : target) (s : xstate) (os : list xop) : xstate * list answer :=
  match os with
  | [] => (s, [])
  | o :: os => let (s1, a) := xstep code t s o in let (s2, r) := xrun code t s1 os in (s2, a :: r)
  end.

(** A client that owns the regions [us] of memory [m], which contain anything. *)
Definition xinit (us : list uview) (m : mem) : xstate :=
  MkX (map (fun u => {| tkind := KMem; tview := u; tlay := {| lsize := 0; lalign := 1 |}; tstat := Live |}) us) m [] [].
