(** * RcModel: without-alloc/src/rc.rs, [Rc] and [Weak]. *)
From Verif Require Import Base Spec UninitModel.

(** Values are identified by a number; what they are does not matter to the container. *)
Definition rvalue := Z.

(** rc.rs:58-73 [RcBox]: the value and the two counters as they lie in memory.  Simplification: memory holds
    whole boxes, found by the address of the box; the bytes of a box are not modelled (the places of the fields
    are [rc_fields] below). *)
Record rcbox := MkBox { bval : rvalue; bstrong : Z; bweak : Z }.

(** rc.rs:58 [#[repr(C)] struct RcBox { val: T, strong: Cell<usize>, weak: Cell<usize> }] for T of layout [l] *)
Definition usize_layout (t : target) : layout := {| lsize := word_bytes t; lalign := usize_align t |}.
(** rc.rs:58-74: offset of [strong] *)
Definition rc_strong_off (t : target) (l : layout) : Z := align_up (lsize l) (usize_align t).
(** rc.rs:58-74: offset of [weak] *)
Definition rc_weak_off (t : target) (l : layout) : Z :=
  align_up (rc_strong_off t l + word_bytes t) (usize_align t).
(** rc.rs:58-74: alignment *)
Definition rc_align (t : target) (l : layout) : Z := Z.max (lalign l) (usize_align t).

(** rc.rs:243-246 [Rc::layout] = Layout::new::<RcBox<T>>() *)
Definition rc_layout (t : target) (l : layout) : layout :=
  {| lsize := align_up (rc_weak_off t l + word_bytes t) (rc_align t l); lalign := rc_align t l |}.

Definition PN_rc : nat := 401.        (* arithmetic overflow in inc_/dec_, :329-347, :480-488 *)
Definition PN_rc_fits : nat := 402.   (* :102 assert!, :122 debug_assert! *)
Definition PN_rc_cast : nat := 403.   (* :103, :123, :168 unwrap *)

(** rc.rs:329-332 [inc_strong] *)
Definition inc_strong (t : target) (b : rcbox) : outcome rcbox :=
  olet x := op_add t PN_rc (bstrong b) 1 in Ret {| bval := bval b; bstrong := x; bweak := bweak b |}.
(** rc.rs:334-337 [dec_strong] *)
Definition dec_strong (t : target) (b : rcbox) : outcome rcbox :=
  olet x := op_sub t PN_rc (bstrong b) 1 in Ret {| bval := bval b; bstrong := x; bweak := bweak b |}.
(** rc.rs:339-342 and 480-483 [inc_weak] *)
Definition inc_weak (t : target) (b : rcbox) : outcome rcbox :=
  olet x := op_add t PN_rc (bweak b) 1 in Ret {| bval := bval b; bstrong := bstrong b; bweak := x |}.
(** rc.rs:344-347 and 485-488 [dec_weak] *)
Definition dec_weak (t : target) (b : rcbox) : outcome rcbox :=
  olet x := op_sub t PN_rc (bweak b) 1 in Ret {| bval := bval b; bstrong := bstrong b; bweak := x |}.

(** rc.rs:310-312 [Rc::is_unique] *)
Definition is_unique (b : rcbox) : bool := (bstrong b =? 1) && (bweak b =? 1).

(** rc.rs:460-462 [Weak::is_unique_to_rc_memory] *)
Definition is_unique_to_rc_memory (b : rcbox) : bool := (bstrong b =? 0) && (bweak b =? 1).

(** rc.rs:101-114 [Rc::new] in memory [u]: the view of the handle, and the box written *)
Definition rc_new (t : target) (l : layout) (v : rvalue) (u : uview) : outcome (uview * rcbox) :=
  oassert v_fits u (rc_layout t l) orpanic PN_rc_fits ;;
  olet c := unwrap PN_rc_cast (v_cast u (rc_layout t l)) in
  Ret (c, {| bval := v; bstrong := 1; bweak := 1 |}).

(** rc.rs:121-130 [Rc::from_raw] *)
Definition rc_from_raw (t : target) (l : layout) (u : uview) : outcome uview :=
  oassert (negb (debug t) || v_fits u (rc_layout t l)) orpanic PN_rc_fits ;;
  unwrap PN_rc_cast (v_cast u (rc_layout t l)).

(** rc.rs:156-170 [Rc::into_raw]; [Ret None] = Err(rc), the same handle *)
Definition rc_into_raw (l : layout) (u : uview) (b : rcbox) : outcome (option uview) :=
  if negb (is_unique b) then Ret None
  else olet c := unwrap PN_rc_cast (v_cast (from_memory (uptr u) (ulen u)) l) in Ret (Some c).

(** rc.rs:178-190 [Rc::try_unwrap]; [Ret None] = Err(rc); otherwise the value read out, and the handle is a
    [Weak] from now on. *)
Definition rc_try_unwrap (t : target) (b : rcbox) : outcome (option (rvalue * rcbox)) :=
  if negb (bstrong b =? 1) then Ret None
  else olet b' := dec_strong t b in Ret (Some (bval b', b')).

(** rc.rs:520-530 [Drop for Rc]: the box afterwards, and whether drop_in_place is called on the value *)
Definition rc_drop (t : target) (b : rcbox) : rcbox * outcome bool :=
  match dec_strong t b with
  | Panic m => (b, Panic m)
  | Ret b1 =>
      if bstrong b1 =? 0 then
        match dec_weak t b1 with
        | Panic m => (b1, Panic m)
        | Ret b2 => (b2, Ret true)
        end
      else (b1, Ret false)
  end.

(** rc.rs:408-416 [Weak::upgrade].  The [Rc] exists before [inc_strong] runs: when that panics, unwinding
    drops it. *)
Definition weak_upgrade (t : target) (b : rcbox) : rcbox * outcome bool :=
  if bstrong b =? 0 then (b, Ret false)
  else match inc_strong t b with
       | Ret b' => (b', Ret true)
       | Panic m => (fst (rc_drop t b), Panic m)
       end.

(** rc.rs:371-384 [Weak::try_unwrap]; [Ret None] = Err(self); otherwise the memory, after the drop of [self]
    (:571-576) *)
Definition weak_try_unwrap (t : target) (u : uview) (b : rcbox) : outcome (option uview) :=
  if negb (is_unique_to_rc_memory b) then Ret None
  else olet b' := dec_weak t b in Ret (Some (from_memory (uptr u) (ulen u))).

(** ** A client *)

(** What a client can own: memory [Uninit<()>], [Rc<T>], [Weak<T>], and the [Uninit<T>] from [into_raw]. *)
Inductive kind := KMem | KStrong | KWeak | KRaw.

(** [Forgot] = passed to core::mem::forget. *)
Inductive status := Live | Gone | Forgot.

(** [tlay] is the layout of T. *)
Record token := MkTok { tkind : kind; tview : uview; tlay : layout; tstat : status }.

(** What happens to values: given to the container, destructor started, moved out to the caller. *)
Inductive event := Put (v : rvalue) | Dropped (v : rvalue) | Took (v : rvalue).

(** [rheap] maps the address of a box to the box; [rdropping] lists the boxes whose value's destructor is
    running, innermost first. *)
Record rstate := MkR { rtoks : list token; rheap : Z -> option rcbox; rdropping : list uview; rlog : list event }.

(** Calls.  [RDrop] of the last strong handle starts the destructor of the value; the calls up to the matching
    [RDone] are made while it runs, so every history of re-entrant destructors is a list of calls. *)
Inductive rop :=
| RNew (i : nat) (v : rvalue) (l : layout)
| RClone (i : nat)
| RDowngrade (i : nat)
| RUpgrade (i : nat)
| RDrop (i : nat)                          (* any token *)
| RDone
| RForget (i : nat)
| RDeref (i : nat)
| RGetMut (i : nat) (w : option rvalue)    (* get_mut, then mem::replace if [w] is given *)
| RIntoRaw (i : nat)
| RFromRaw (i : nat)
| RRawReplace (i : nat) (w : rvalue)       (* modify the value in the Uninit<T>, as from_raw permits *)
| RRawTake (i : nat)                       (* ptr::read the value, keep the memory *)
| RTryUnwrap (i : nat)
| RWeakTryUnwrap (i : nat)
| RStrongCount (i : nat)
| RWeakCount (i : nat)
| RPtrEq (i j : nat).

(** [AInvalid]: the call is not possible (no such token); [AUb]: a counter or value is accessed where there is
    no box. *)
Inductive answer :=
| ADone | ATok (n : nat) | AVal (v : rvalue) | ANum (z : Z) | ABool (b : bool) | ANone | AErr | APanic | AInvalid | AUb.

(** model only: the token, if it is live *)
Definition tok (s : rstate) (i : nat) : option token :=
  match nth_error (rtoks s) i with
  | Some k => match tstat k with Live => Some k | _ => None end
  | None => None
  end.

(** model only: function update *)
Definition hset (h : Z -> option rcbox) (p : Z) (b : option rcbox) : Z -> option rcbox :=
  fun x => if x =? p then b else h x.

(** model only: update of a field *)
Definition retok (k : token) (kd : kind) (u : uview) : token :=
  {| tkind := kd; tview := u; tlay := tlay k; tstat := Live |}.
(** model only: update of a field *)
Definition restat (k : token) (st : status) : token :=
  {| tkind := tkind k; tview := tview k; tlay := tlay k; tstat := st |}.

(** model only: update of a field *)
Definition set_tok (s : rstate) (i : nat) (k : token) : rstate :=
  MkR (upd_nth i k (rtoks s)) (rheap s) (rdropping s) (rlog s).
(** model only: a new token *)
Definition add_tok (s : rstate) (k : token) : rstate :=
  MkR (rtoks s ++ [k]) (rheap s) (rdropping s) (rlog s).
(** model only: memory write of a whole box *)
Definition set_box (s : rstate) (p : Z) (b : option rcbox) : rstate :=
  MkR (rtoks s) (hset (rheap s) p b) (rdropping s) (rlog s).
(** model only: update of a field *)
Definition logs (s : rstate) (es : list event) : rstate :=
  MkR (rtoks s) (rheap s) (rdropping s) (rlog s ++ es).

(** model only: access to the box of a handle; undefined behaviour if there is none *)
Definition at_box (s : rstate) (k : token) (f : rcbox -> rstate * answer) : rstate * answer :=
  match rheap s (uptr (tview k)) with
  | None => (s, AUb)
  | Some b => f b
  end.

(** The client's calls, each through the function cited. *)
Definition rstep (t : target) (s : rstate) (o : rop) : rstate * answer :=
  match o with
  | RNew i v l =>   (* :101-114; a panic unwinds and drops the argument *)
      match tok s i with
      | Some k =>
          match tkind k with
          | KMem =>
              match rc_new t l v (tview k) with
              | Ret (u, b) =>
                  (logs (set_box (set_tok s i {| tkind := KStrong; tview := u; tlay := l; tstat := Live |})
                           (uptr u) (Some b)) [Put v], ADone)
              | Panic _ => (logs (set_tok s i (restat k Gone)) [Put v; Dropped v], APanic)
              end
          | _ => (s, AInvalid)
          end
      | None => (s, AInvalid)
      end
  | RClone i =>      (* :563-568, :601-606 *)
      match tok s i with
      | Some k =>
          match tkind k with
          | KStrong =>
              at_box s k (fun b =>
                match inc_strong t b with
                | Ret b' => (add_tok (set_box s (uptr (tview k)) (Some b')) k, ATok (length (rtoks s)))
                | Panic _ => (s, APanic)
                end)
          | KWeak =>
              at_box s k (fun b =>
                match inc_weak t b with
                | Ret b' => (add_tok (set_box s (uptr (tview k)) (Some b')) k, ATok (length (rtoks s)))
                | Panic _ => (s, APanic)
                end)
          | _ => (s, AInvalid)
          end
      | None => (s, AInvalid)
      end
  | RDowngrade i =>  (* :213-216 *)
      match tok s i with
      | Some k =>
          match tkind k with
          | KStrong =>
              at_box s k (fun b =>
                match inc_weak t b with
                | Ret b' => (add_tok (set_box s (uptr (tview k)) (Some b')) (retok k KWeak (tview k)), ATok (length (rtoks s)))
                | Panic _ => (s, APanic)
                end)
          | _ => (s, AInvalid)
          end
      | None => (s, AInvalid)
      end
  | RUpgrade i =>    (* :408-416 *)
      match tok s i with
      | Some k =>
          match tkind k with
          | KWeak =>
              at_box s k (fun b =>
                match weak_upgrade t b with
                | (b', Ret true) => (add_tok (set_box s (uptr (tview k)) (Some b')) (retok k KStrong (tview k)), ATok (length (rtoks s)))
                | (b', Ret false) => (set_box s (uptr (tview k)) (Some b'), ANone)
                | (b', Panic _) => (set_box s (uptr (tview k)) (Some b'), APanic)
                end)
          | _ => (s, AInvalid)
          end
      | None => (s, AInvalid)
      end
  | RDrop i =>       (* :520-530, :571-576; Uninit has no destructor *)
      match tok s i with
      | Some k =>
          let s' := set_tok s i (restat k Gone) in
          match tkind k with
          | KStrong =>
              at_box s k (fun b =>
                match rc_drop t b with
                | (b', Ret true) =>
                    let s1 := logs (set_box s' (uptr (tview k)) (Some b')) [Dropped (bval b')] in
                    (MkR (rtoks s1) (rheap s1) (tview k :: rdropping s1) (rlog s1), ADone)
                | (b', Ret false) => (set_box s' (uptr (tview k)) (Some b'), ADone)
                | (b', Panic _) => (set_box s' (uptr (tview k)) (Some b'), APanic)
                end)
          | KWeak =>
              at_box s k (fun b =>
                match dec_weak t b with
                | Ret b' => (set_box s' (uptr (tview k)) (Some b'), ADone)
                | Panic _ => (s', APanic)
                end)
          | KMem | KRaw => (s', ADone)
          end
      | None => (s, AInvalid)
      end
  | RDone =>
      match rdropping s with
      | _ :: d => (MkR (rtoks s) (rheap s) d (rlog s), ADone)
      | [] => (s, AInvalid)
      end
  | RForget i =>
      match tok s i with
      | Some k => (set_tok s i (restat k Forgot), ADone)
      | None => (s, AInvalid)
      end
  | RDeref i =>      (* :533-539 *)
      match tok s i with
      | Some k => match tkind k with KStrong => at_box s k (fun b => (s, AVal (bval b))) | _ => (s, AInvalid) end
      | None => (s, AInvalid)
      end
  | RGetMut i w =>   (* :264-270 *)
      match tok s i with
      | Some k =>
          match tkind k with
          | KStrong =>
              at_box s k (fun b =>
                if is_unique b then
                  match w with
                  | Some v => (logs (set_box s (uptr (tview k)) (Some {| bval := v; bstrong := bstrong b; bweak := bweak b |}))
                                 [Put v; Took (bval b)], AVal (bval b))
                  | None => (s, AVal (bval b))
                  end
                else (s, ANone))
          | _ => (s, AInvalid)
          end
      | None => (s, AInvalid)
      end
  | RIntoRaw i =>    (* :156-170 *)
      match tok s i with
      | Some k =>
          match tkind k with
          | KStrong =>
              at_box s k (fun b =>
                match rc_into_raw (tlay k) (tview k) b with
                | Ret (Some u) => (set_tok s i (retok k KRaw u), ADone)
                | Ret None => (s, AErr)
                | Panic _ => (set_tok s i (restat k Forgot), APanic)
                end)
          | _ => (s, AInvalid)
          end
      | None => (s, AInvalid)
      end
  | RFromRaw i =>    (* :121-130 *)
      match tok s i with
      | Some k =>
          match tkind k with
          | KRaw =>
              match rc_from_raw t (tlay k) (tview k) with
              | Ret u => (set_tok s i (retok k KStrong u), ADone)
              | Panic _ => (set_tok s i (restat k Gone), APanic)
              end
          | _ => (s, AInvalid)
          end
      | None => (s, AInvalid)
      end
  | RRawReplace i w =>
      match tok s i with
      | Some k =>
          match tkind k with
          | KRaw =>
              at_box s k (fun b =>
                (logs (set_box s (uptr (tview k)) (Some {| bval := w; bstrong := bstrong b; bweak := bweak b |}))
                   [Put w; Took (bval b)], AVal (bval b)))
          | _ => (s, AInvalid)
          end
      | None => (s, AInvalid)
      end
  | RRawTake i =>
      match tok s i with
      | Some k =>
          match tkind k with
          | KRaw =>
              at_box s k (fun b =>
                (logs (set_box (set_tok s i (retok k KMem (decast (tview k)))) (uptr (tview k)) None) [Took (bval b)],
                 AVal (bval b)))
          | _ => (s, AInvalid)
          end
      | None => (s, AInvalid)
      end
  | RTryUnwrap i =>  (* :178-190 *)
      match tok s i with
      | Some k =>
          match tkind k with
          | KStrong =>
              at_box s k (fun b =>
                match rc_try_unwrap t b with
                | Ret (Some (v, b')) =>
                    (logs (set_box (set_tok s i (retok k KWeak (tview k))) (uptr (tview k)) (Some b')) [Took v], AVal v)
                | Ret None => (s, AErr)
                | Panic _ => (s, APanic)
                end)
          | _ => (s, AInvalid)
          end
      | None => (s, AInvalid)
      end
  | RWeakTryUnwrap i => (* :371-384 *)
      match tok s i with
      | Some k =>
          match tkind k with
          | KWeak =>
              at_box s k (fun b =>
                match weak_try_unwrap t (tview k) b with
                | Ret (Some u) => (set_box (set_tok s i (retok k KMem u)) (uptr (tview k)) None, ADone)
                | Ret None => (s, AErr)
                | Panic _ => (set_tok s i (restat k Gone), APanic)
                end)
          | _ => (s, AInvalid)
          end
      | None => (s, AInvalid)
      end
  | RStrongCount i =>  (* :256-258, :437-439 *)
      match tok s i with
      | Some k => match tkind k with KStrong | KWeak => at_box s k (fun b => (s, ANum (bstrong b))) | _ => (s, AInvalid) end
      | None => (s, AInvalid)
      end
  | RWeakCount i =>    (* :251-253, :456-458 *)
      match tok s i with
      | Some k => match tkind k with KStrong | KWeak => at_box s k (fun b => (s, ANum (bweak b))) | _ => (s, AInvalid) end
      | None => (s, AInvalid)
      end
  | RPtrEq i j =>      (* :296-298 *)
      match tok s i, tok s j with
      | Some k, Some k' =>
          match tkind k, tkind k' with
          | KStrong, KStrong => (s, ABool (uptr (tview k) =? uptr (tview k')))
          | _, _ => (s, AInvalid)
          end
      | _, _ => (s, AInvalid)
      end
  end.

(** client of the model: calls in sequence *)
Fixpoint rrun (t : target) (s : rstate) (os : list rop) : rstate * list answer :=
  match os with
  | [] => (s, [])
  | o :: os => let (s1, a) := rstep t s o in let (s2, r) := rrun t s1 os in (s2, a :: r)
  end.

(** A client that owns the memory regions [us] and nothing else. *)
Definition rinit (us : list uview) : rstate :=
  MkR (map (fun u => {| tkind := KMem; tview := u; tlay := {| lsize := 0; lalign := 1 |}; tstat := Live |}) us)
      (fun _ => None) [] [].
