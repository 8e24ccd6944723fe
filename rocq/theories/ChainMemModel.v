(** * ChainMemModel: static-alloc/src/unsync/chain.rs on the bytes of a heap.  A link's [next] pointer, its index and
    the memory it hands out all live in one heap allocation, next to those of other links and of everybody else. *)
From Verif Require Import Base Spec SyncModel SyncMemModel UnsyncModel ExitModel MemBumpModel ChainModel.

(** chain.rs:34 [LinkPtr] is [option handle] of ExitModel: an address and a length (two words in memory, the first of
    them zero for None).  chain.rs:48-52: [xroots], the [root] of each chain ever created, [None] once it was
    dropped or moved.  [xheap]: what the global allocator has handed out; [xfrees]: what was given back, in order;
    [xboxes]: the boxes handed out, with the chain that they borrow. *)
Record xworld := MkXW { xmem : mem; xroots : list (option (option handle)); xheap : list (Z * layout);
                        xfrees : list (Z * layout); xboxes : list (nat * block) }.

(** client of the model: nothing allocated yet *)
Definition xempty (m : mem) : xworld := MkXW m [] [] [] [].

(** The allocation that a pointer to a link refers to: Layout::for_value *)
Definition pointee (t : target) (p : handle) : Z * layout := (fst p, link_val_layout t (snd p)).

(** model only: is it the allocation with this address and layout *)
Definition same_alloc (a b : Z * layout) : bool := (fst a =? fst b) && layout_eqb (snd a) (snd b).

(** The link may be used: its memory is allocated.  Everything else is undefined behaviour. *)
Definition xlive (t : target) (s : xworld) (p : handle) : bool := existsb (same_alloc (pointee t p)) (xheap s).

(** model only: update of a field *)
Definition set_mem (s : xworld) (m : mem) : xworld := MkXW m (xroots s) (xheap s) (xfrees s) (xboxes s).
(** model only: update of a field; chain.rs:48-52, the [root] of chain i *)
Definition set_xroot (s : xworld) (i : nat) (r : option (option handle)) : xworld :=
  MkXW (xmem s) (set_nth i r (xroots s)) (xheap s) (xfrees s) (xboxes s).

(** chain.rs:36-43: [next] is at offset 0, [bump] behind it (the last field, being unsized). *)
Definition link_bump (t : target) (p : handle) : fat := MkFat (fst p + 2 * word_bytes t) (snd p).

(** chain.rs:140 [self.next.replace(n)], 147 and 206 [next.take()] for [n] = None: the old pointer *)
Definition replace_next (t : target) (s : xworld) (p : handle) (n : option handle) : option (xworld * option handle) :=
  if xlive t s p then
    match load_link t (xmem s) (fst p) with
    | None => None
    | Some old => Some (set_mem s (store_link t (xmem s) (fst p) n), old)
    end
  else None.

(** alloc::alloc::alloc_zeroed(l) returning [a] *)
Definition heap_alloc (s : xworld) (a : Z) (l : layout) : xworld :=
  MkXW (mem_fill (xmem s) a (lsize l) (Some 0)) (xroots s) ((a, l) :: xheap s) (xfrees s) (xboxes s).

(** alloc::alloc::dealloc of the link behind [p], with the layout of the value (drop of the Box); the bytes are
    then undefined.  [None]: undefined behaviour. *)
Definition heap_dealloc (t : target) (s : xworld) (p : handle) : option xworld :=
  if xlive t s p then
    let l := snd (pointee t p) in
    Some (MkXW (mem_fill (xmem s) (fst p) (lsize l) None) (xroots s)
            (filter (fun q => negb (fst q =? fst p)) (xheap s)) (xfrees s ++ [pointee t p]) (xboxes s))
  else None.

(** chain.rs:211-218 [Drop for Link], then the deallocation of the box; the loop 214-216 is [x_drop_tail]. *)
Fixpoint x_drop_box (t : target) (fuel : nat) (s : xworld) (p : handle) : option xworld :=
  match fuel with
  | O => None
  | S n =>
      match replace_next t s p None with                        (* :213 *)
      | None => None
      | Some (s1, current) =>
          match x_drop_tail t n s1 current with
          | None => None
          | Some s2 => heap_dealloc t s2 p
          end
      end
  end
with x_drop_tail (t : target) (fuel : nat) (s : xworld) (current : option handle) : option xworld :=
  match fuel with
  | O => None
  | S n =>
      match current with
      | None => Some s
      | Some q =>
          match replace_next t s q None with                    (* :215 *)
          | None => None
          | Some (s1, nx) =>
              match x_drop_box t n s1 q with                    (* end of the scope of [link] *)
              | None => None
              | Some s2 => x_drop_tail t n s2 nx
              end
          end
      end
  end.

(** model only: more steps than any drop loop takes *)
Definition xfuel (s : xworld) : nat := length (xheap s) + 5.

(** chain.rs:200-209 [Drop for Chain]: the loop *)
Fixpoint x_drop_loop (t : target) (fuel : nat) (s : xworld) (current : option handle) : option xworld :=
  match fuel with
  | O => None
  | S n =>
      match current with
      | None => Some s
      | Some p =>
          match replace_next t s p None with                    (* :206 *)
          | None => None
          | Some (s1, nx) =>
              match x_drop_box t n s1 p with
              | None => None
              | Some s2 => x_drop_loop t n s2 nx
              end
          end
      end
  end.

(** chain.rs:200-209 [Drop for Chain] *)
Definition x_drop_chain (t : target) (s : xworld) (i : nat) : option xworld :=
  match cell (xroots s) i with
  | None => None
  | Some r => x_drop_loop t (xfuel s) (set_xroot s i None) r
  end.

(** chain.rs:139-143 [set_next] *)
Definition x_set_next (t : target) (s : xworld) (p : handle) (n : option handle) : option xworld :=
  match replace_next t s p n with
  | None => None
  | Some (s1, None) => Some s1
  | Some (s1, Some q) => x_drop_box t (xfuel s) s1 q
  end.

(** chain.rs:77-90 [Chain::chain], with the drop of the moved [new] at its end *)
Definition x_chain (t : target) (s : xworld) (i j : nat) : option xworld :=
  match cell (xroots s) i, cell (xroots s) j with
  | Some self_bump, Some new_root =>
      match new_root with
      | None => x_drop_chain t s j
      | Some root =>
          match x_set_next t s root self_bump with
          | None => None
          | Some s1 => x_drop_chain t (set_xroot (set_xroot s1 i (Some (Some root))) j (Some None)) j
          end
      end
  | _, _ => None
  end.

(** A client: calls on chains, stores to and loads from its boxes; [XWild]: somebody else's store. *)
Inductive xop :=
| XNew (n : Z) (heap : option Z)        (* what alloc_zeroed would answer *)
| XChain (i j : nat)
| XBump (i : nat) (l : layout)
| XCap (i : nat)
| XRem (i : nat)
| XDrop (i : nat)
| XStore (b : nat) (off : Z) (bs : list (option Z))
| XLoad (b : nat)
| XWild (a : Z) (bs : list (option Z)).

(** what the calls return *)
Inductive xans := XANew | XAErr (allocation_size : Z) | XAUnit | XABox (p : Z) | XAFail (f : failure) | XAPanic
                | XASize (n : Z) | XABytes (bs : list (option Z)).

(** The MemBump of the newest link of chain [i], and its state; [Some None]: there is no link. *)
Definition x_root_bump (t : target) (s : xworld) (i : nat) : option (option (fat * ubump)) :=
  match cell (xroots s) i with
  | None => None
  | Some None => Some None
  | Some (Some p) =>
      if xlive t s p then
        match view t (xmem s) (link_bump t p) with Some u => Some (Some (link_bump t p, u)) | None => None end
      else None
  end.

(** The chain that a box borrows must still be there. *)
Definition x_box (s : xworld) (b : nat) : option block :=
  match nth_error (xboxes s) b with
  | Some (i, k) => match cell (xroots s) i with Some _ => Some k | None => None end
  | None => None
  end.

(** One call; [None]: undefined behaviour, or not a program. *)
Definition xstep (t : target) (s : xworld) (o : xop) : option (xworld * xans) :=
  match o with
  | XNew n heap =>                                              (* 57-62, 163-184 *)
      match link_layout_from_size t n with
      | None => Some (s, XAErr n)
      | Some l =>
          match heap with
          | None => Some (s, XAErr (lsize l))
          | Some a => let s1 := heap_alloc s a l in
                      Some (MkXW (xmem s1) (xroots s1 ++ [Some (Some (a, n))]) (xheap s1) (xfrees s1) (xboxes s1), XANew)
          end
      end
  | XChain i j => match x_chain t s i j with Some s' => Some (s', XAUnit) | None => None end
  | XBump i l =>                                                (* 65-70 *)
      match x_root_bump t s i with
      | None => None
      | Some None => Some (s, XAFail Exhausted)
      | Some (Some (f, u)) =>
          let (u', r) := u_bump_box t u l in
          let s1 := set_mem s (bstore t (xmem s) f u u') in
          match r with
          | Ret (ROk a) => Some (MkXW (xmem s1) (xroots s1) (xheap s1) (xfrees s1)
                                   (xboxes s1 ++ [(i, MkBlock (ptr a) (lsize l))]), XABox (ptr a))
          | Ret (RErr e) => Some (s1, XAFail e)
          | Panic _ => Some (s1, XAPanic)
          end
      end
  | XCap i =>                                                   (* 95-100 *)
      match x_root_bump t s i with
      | None => None
      | Some None => Some (s, XASize 0)
      | Some (Some (f, u)) => Some (s, XASize (u_capacity u))
      end
  | XRem i =>                                                   (* 105-110 *)
      match x_root_bump t s i with
      | None => None
      | Some None => Some (s, XASize 0)
      | Some (Some (f, u)) =>
          match op_sub t PC_sub (u_capacity u) (u_level u) with Ret n => Some (s, XASize n) | Panic _ => Some (s, XAPanic) end
      end
  | XDrop i => match x_drop_chain t s i with Some s' => Some (s', XAUnit) | None => None end
  | XStore b off bs =>
      match x_box s b with
      | None => None
      | Some k => Some (set_mem s (mem_write (xmem s) (start k + off) bs), XAUnit)
      end
  | XLoad b =>
      match x_box s b with
      | None => None
      | Some k => Some (s, XABytes (mem_read (xmem s) (start k) (size k)))
      end
  | XWild a bs => Some (set_mem s (mem_write (xmem s) a bs), XAUnit)
  end.

(** client of the model: calls in sequence *)
Fixpoint xrun (t : target) (s : xworld) (os : list xop) : option (xworld * list xans) :=
  match os with
  | [] => Some (s, [])
  | o :: os =>
      match xstep t s o with
      | None => None
      | Some (s1, a) => match xrun t s1 os with None => None | Some (s2, r) => Some (s2, a :: r) end
      end
  end.
