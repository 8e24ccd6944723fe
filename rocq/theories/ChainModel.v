(** * ChainModel: static-alloc/src/unsync/chain.rs (feature nightly_chain). *)
From Verif Require Import Base Spec SyncModel UnsyncModel.

(** chain.rs:35-43 [Link].  Links live on the global heap; a [LinkPtr] is the number of the heap allocation. *)
Record link := MkLink { lnext : option nat; lbump : ubump; lraw : block }.

(** Heap: cell [i] is the [i]-th link ever allocated, [None] once deallocated.  Chains: chain.rs:48-52, the
    [root] of the i-th chain ever created, [None] once dropped or moved from.  [frees]: deallocations in order,
    with the size and alignment passed to dealloc. *)
Record world := MkWorld { store : list (option link); chains : list (option (option nat));
                          frees : list (nat * layout) }.

(** client of the model: nothing allocated yet *)
Definition empty_world : world := {| store := []; chains := []; frees := [] |}.

(** model only: list update *)
Fixpoint set_nth {A} (i : nat) (x : A) (l : list A) : list A :=
  match l, i with
  | [], _ => []
  | _ :: l', O => x :: l'
  | a :: l', S j => a :: set_nth j x l'
  end.

(** model only: the live entry i *)
Definition cell {A} (l : list (option A)) (i : nat) : option A :=
  match nth_error l i with Some (Some k) => Some k | _ => None end.

(** model only: update of a field (chain.rs:36-43) *)
Definition with_next (k : link) (n : option nat) : link :=
  {| lnext := n; lbump := lbump k; lraw := lraw k |}.
(** model only: update of a field (chain.rs:36-43) *)
Definition with_bump (k : link) (b : ubump) : link :=
  {| lnext := lnext k; lbump := b; lraw := lraw k |}.

(** chain.rs:33 [LinkPtr]: [Link] is not Sized (its last field is a slice), so that a pointer to it is an address
    and a length; both have the layout of usize. *)
Definition link_ptr_layout (t : target) : layout := {| lsize := 2 * word_bytes t; lalign := usize_align t |}.

(** chain.rs:157-161 [Link::layout_from_size] *)
Definition link_layout_from_size (t : target) (sz : Z) : option layout :=
  match layout_from_size t sz with
  | None => None
  | Some bl => match layout_extend t (link_ptr_layout t) bl with
               | Some (l, _) => Some l
               | None => None
               end
  end.

(** Layout::for_value of a link whose data slice has length [n]: next pointer, then the MemBump, padded. *)
Definition link_val_layout (t : target) (n : Z) : layout :=
  let b := fat_layout t (MkFat 0 n) in
  {| lsize := align_up (align_up (2 * word_bytes t) (lalign b) + lsize b) (Z.max (usize_align t) (lalign b));
     lalign := Z.max (usize_align t) (lalign b) |}.

(** chain.rs:163-169 [alloc_raw], 171-184 [Link::alloc]: [addr] is what alloc_zeroed returns, [None] for null.
    Zeroed memory is a null [next] and index 0 (Option<NonNull> guarantees null = None).  Errors carry the size. *)
Inductive alloc_link_result := LinkOk (k : link) (l : layout) | LinkErr (allocation_size : Z).
(** chain.rs:171-184 [Link::alloc] *)
Definition link_alloc (t : target) (cap : Z) (addr : option Z) : alloc_link_result :=
  match link_layout_from_size t cap with
  | None => LinkErr cap
  | Some l =>
      match addr with
      | None => LinkErr (lsize l)
      | Some a => LinkOk {| lnext := None; lbump := u_fresh (MkBlock (a + 2 * word_bytes t + word_bytes t) cap);
                            lraw := MkBlock a (lsize l) |} l
      end
  end.

(** Deallocation of box [p] after its destructor ran; [None]: it is not allocated (undefined behaviour). *)
Definition dealloc_link (t : target) (s : world) (p : nat) : option world :=
  match cell (store s) p with
  | None => None
  | Some k => Some {| store := set_nth p None (store s); chains := chains s;
                      frees := frees s ++ [(p, link_val_layout t (size (udata (lbump k))))] |}
  end.

(** model only: memory write of a whole link *)
Definition put (s : world) (p : nat) (k : link) : world :=
  {| store := set_nth p (Some k) (store s); chains := chains s; frees := frees s |}.
(** model only: update of the [root] of chain i (chain.rs:48-52) *)
Definition set_root (s : world) (i : nat) (r : option (option nat)) : world :=
  {| store := store s; chains := set_nth i r (chains s); frees := frees s |}.

(** chain.rs:211-218 [Drop for Link] followed by the deallocation of the box: [drop_box].  The loop is
    [drop_tail]; in it, 146-151 [take_next] empties the link's [next] and the box bound to [link] is dropped at the
    end of each iteration (a nested, then trivial, run of the destructor).  [None] when a dangling pointer is used
    or the fuel runs out; the proofs show that it never happens. *)
Fixpoint drop_box (t : target) (fuel : nat) (s : world) (p : nat) : option world :=
  match fuel with
  | O => None
  | S n =>
      match cell (store s) p with
      | None => None
      | Some k =>
          match drop_tail t n (put s p (with_next k None)) (lnext k) with
          | None => None
          | Some s' => dealloc_link t s' p
          end
      end
  end
with drop_tail (t : target) (fuel : nat) (s : world) (current : option nat) : option world :=
  match fuel with
  | O => None
  | S n =>
      match current with
      | None => Some s
      | Some q =>
          match cell (store s) q with
          | None => None
          | Some k =>
              match drop_box t n (put s q (with_next k None)) q with
              | None => None
              | Some s' => drop_tail t n s' (lnext k)
              end
          end
      end
  end.

(** model only: more steps than any drop loop takes *)
Definition enough (s : world) : nat := length (store s) + 5.

(** chain.rs:200-209 [Drop for Chain], the loop from [current] *)
Fixpoint drop_chain_loop (t : target) (fuel : nat) (s : world) (current : option nat) : option world :=
  match fuel with
  | O => None
  | S n =>
      match current with
      | None => Some s
      | Some p =>
          match cell (store s) p with
          | None => None
          | Some k =>
              match drop_box t n (put s p (with_next k None)) p with
              | None => None
              | Some s' => drop_chain_loop t n s' (lnext k)
              end
          end
      end
  end.

(** chain.rs:200-209 [Drop for Chain] *)
Definition drop_chain (t : target) (s : world) (i : nat) : option world :=
  match cell (chains s) i with
  | None => None
  | Some r => drop_chain_loop t (enough s) (set_root s i None) r
  end.

(** chain.rs:139-143 [set_next]: the old tail is dropped as a box *)
Definition set_next (t : target) (s : world) (p : nat) (nx : option nat) : option world :=
  match cell (store s) p with
  | None => None
  | Some k =>
      let s' := put s p (with_next k nx) in
      match lnext k with
      | None => Some s'
      | Some q => drop_box t (enough s) s' q
      end
  end.

(** chain.rs:77-90 [Chain::chain] of chain [i] with chain [j], which is moved in and dropped at the end (its
    root is then None, so that drop does nothing; in the first case its root is None from the start). *)
Definition chain_chain (t : target) (s : world) (i j : nat) : option world :=
  match cell (chains s) i, cell (chains s) j with
  | Some self_bump, Some new_root =>
      match new_root with
      | None => drop_chain t s j
      | Some root =>
          match set_next t s root self_bump with
          | None => None
          | Some s1 => drop_chain t (set_root (set_root s1 i (Some (Some root))) j (Some None)) j
          end
      end
  | _, _ => None
  end.

(** chain.rs:55-118, the calls of a client *)
Inductive cop :=
| ONew (sz : Z) (addr : option Z)
| OChain (i j : nat)
| OBumpBox (i : nat) (l : layout)
| OCapacity (i : nat)
| ORemaining (i : nat)
| ODrop (i : nat).

(** what the calls return *)
Inductive cans := ANewOk | ANewErr (sz : Z) | AUnit | ABox (r : response) | ASize (n : outcome Z).

Definition PC_sub : nat := 131. (* :108 overflow of capacity - level *)

(** One call; [None] is undefined behaviour, or a call through a chain that the caller does not own. *)
Definition cstep (t : target) (s : world) (o : cop) : option (world * cans) :=
  match o with
  | ONew sz addr =>                                     (* 57-62 *)
      match link_alloc t sz addr with
      | LinkErr n => Some (s, ANewErr n)
      | LinkOk k _ => Some ({| store := store s ++ [Some k];
                               chains := chains s ++ [Some (Some (length (store s)))];
                               frees := frees s |}, ANewOk)
      end
  | OChain i j => match chain_chain t s i j with Some s' => Some (s', AUnit) | None => None end
  | OBumpBox i l =>                                     (* 65-70, 110-115 *)
      match cell (chains s) i with
      | None => None
      | Some None => Some (s, ABox (RFail Exhausted))
      | Some (Some p) =>
          match cell (store s) p with
          | None => None
          | Some k => let (b', r) := u_bump_box t (lbump k) l in
                      Some (put s p (with_bump k b'), ABox (of_result r))
          end
      end
  | OCapacity i =>                                      (* 95-100 *)
      match cell (chains s) i with
      | None => None
      | Some None => Some (s, ASize (Ret 0))
      | Some (Some p) =>
          match cell (store s) p with
          | None => None
          | Some k => Some (s, ASize (Ret (u_capacity (lbump k))))
          end
      end
  | ORemaining i =>                                     (* 105-110 *)
      match cell (chains s) i with
      | None => None
      | Some None => Some (s, ASize (Ret 0))
      | Some (Some p) =>
          match cell (store s) p with
          | None => None
          | Some k => Some (s, ASize (op_sub t PC_sub (u_capacity (lbump k)) (u_level (lbump k))))
          end
      end
  | ODrop i => match drop_chain t s i with Some s' => Some (s', AUnit) | None => None end
  end.

(** client of the model: calls in sequence *)
Fixpoint crun (t : target) (s : world) (os : list cop) : option (world * list (cop * cans)) :=
  match os with
  | [] => Some (s, [])
  | o :: os' =>
      match cstep t s o with
      | None => None
      | Some (s1, a) =>
          match crun t s1 os' with
          | None => None
          | Some (s2, h) => Some (s2, (o, a) :: h)
          end
      end
  end.
