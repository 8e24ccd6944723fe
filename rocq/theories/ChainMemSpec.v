(** * ChainMemSpec: chains without memory.  A chain is a list of links, newest first; a box is an array of bytes. *)
From Verif Require Import Base Spec SyncModel MemBumpSpec ChainModel ChainMemModel.

(** A link: its address, its capacity, and how many bytes of it were handed out. *)
Record rlink := MkRL { kbase : Z; kcap : Z; kused : Z }.

(** [rboxes]: the chain, the address and the content of each box ever handed out. *)
Record rworld := MkRW { rchains : list (option (list rlink)); rfrees : list (Z * layout);
                        rboxes : list (nat * Z * list (option Z)) }.
Definition rempty : rworld := MkRW [] [] [].

(** Memory of a link of capacity [n]: a pointer of two words, the index, and [n] bytes. *)
Definition link_layout (t : target) (n : Z) : layout := MkLayout (align_up (3 * word_bytes t + n) (usize_align t)) (usize_align t).
Definition kraw (t : target) (k : rlink) : block := MkBlock (kbase k) (lsize (link_layout t (kcap k))).
Definition kdata (t : target) (k : rlink) : block := MkBlock (kbase k + 3 * word_bytes t) (kcap k).
Definition kalloc (t : target) (k : rlink) : Z * layout := (kbase k, link_layout t (kcap k)).

(** Link [k] is the [a]-th newest of chain [i]. *)
Definition linked (r : rworld) (i a : nat) (k : rlink) : Prop :=
  exists ls, nth_error (rchains r) i = Some (Some ls) /\ nth_error ls a = Some k.

Definition newest (r : rworld) (i : nat) : option rlink :=
  match nth_error (rchains r) i with Some (Some (k :: _)) => Some k | _ => None end.
Definition with_newest (r : rworld) (i : nat) (k : rlink) : list (option (list rlink)) :=
  match nth_error (rchains r) i with Some (Some (_ :: ls)) => set_nth i (Some (k :: ls)) (rchains r) | _ => rchains r end.
Definition usable (r : rworld) (i : nat) : bool :=
  match nth_error (rchains r) i with Some (Some _) => true | _ => false end.

(** What each call does and answers.  [None]: not a program. *)
Definition rstep (t : target) (r : rworld) (o : xop) : option (rworld * xans) :=
  match o with
  | XNew n heap =>
      if isize_max t <? lsize (link_layout t n) then Some (r, XAErr n) else
      match heap with
      | None => Some (r, XAErr (lsize (link_layout t n)))
      | Some a => Some (MkRW (rchains r ++ [Some [MkRL a n 0]]) (rfrees r) (rboxes r), XANew)
      end
  | XChain i j =>
      match nth_error (rchains r) i, nth_error (rchains r) j with
      | Some (Some ls), Some (Some (k :: old)) =>
          Some (MkRW (set_nth j None (set_nth i (Some (k :: ls)) (rchains r)))
                  (rfrees r ++ map (kalloc t) (match old with [] => [] | q :: qs => qs ++ [q] end)) (rboxes r), XAUnit)
      | _, _ => None
      end
  | XBump i l =>
      match newest r i with
      | None => None
      | Some k =>
          let q := align_up (start (kdata t k) + kused k) (lalign l) in
          if lsize l =? 0 then Some (r, XAPanic)
          else if q + lsize l <=? start (kdata t k) + size (kdata t k) then
            Some (MkRW (with_newest r i (MkRL (kbase k) (kcap k) (q + lsize l - start (kdata t k)))) (rfrees r)
                    (rboxes r ++ [(i, q, repeat (Some 0) (Z.to_nat (lsize l)))]), XABox q)
          else Some (r, XAFail Exhausted)
      end
  | XCap i => match newest r i with Some k => Some (r, XASize (kcap k)) | None => None end
  | XRem i => match newest r i with Some k => Some (r, XASize (kcap k - kused k)) | None => None end
  | XDrop i =>
      match nth_error (rchains r) i with
      | Some (Some ls) => Some (MkRW (set_nth i None (rchains r)) (rfrees r ++ map (kalloc t) ls) (rboxes r), XAUnit)
      | _ => None
      end
  | XStore b off bs =>
      match nth_error (rboxes r) b with
      | Some (i, p, old) =>
          if usable r i then Some (MkRW (rchains r) (rfrees r) (set_nth b (i, p, splice old (Z.to_nat off) bs) (rboxes r)), XAUnit) else None
      | None => None
      end
  | XLoad b =>
      match nth_error (rboxes r) b with
      | Some (i, p, bs) => if usable r i then Some (r, XABytes bs) else None
      | None => None
      end
  | XWild a bs => Some (r, XAUnit)
  end.

Fixpoint rrun (t : target) (r : rworld) (os : list xop) : option (rworld * list xans) :=
  match os with
  | [] => Some (r, [])
  | o :: os =>
      match rstep t r o with
      | None => None
      | Some (r1, a) => match rrun t r1 os with None => None | Some (r2, l) => Some (r2, a :: l) end
      end
  end.

(** Rust's rules and the contract of the global allocator: chains and boxes that are used exist, [chain] takes another
    chain by value, stores stay in their box; new memory exists, is aligned and not in use; others do not write to
    memory of chains. *)
Definition xop_ok (t : target) (r : rworld) (o : xop) : Prop :=
  match o with
  | XNew n heap => is_usize t n /\
      forall a, heap = Some a -> lsize (link_layout t n) <= isize_max t ->
        let b := MkBlock a (lsize (link_layout t n)) in
        valid_region t b /\ aligned a (usize_align t) /\ forall i x k, linked r i x k -> disjoint b (kraw t k)
  | XChain i j => i <> j /\ usable r i = true /\ usable r j = true
  | XBump i l => usable r i = true /\ type_layout t l
  | XCap i | XRem i | XDrop i => usable r i = true
  | XStore b off bs => exists i p old, nth_error (rboxes r) b = Some (i, p, old) /\ usable r i = true /\
      0 <= off /\ off + Z.of_nat (length bs) <= Z.of_nat (length old)
  | XLoad b => exists i p old, nth_error (rboxes r) b = Some (i, p, old) /\ usable r i = true
  | XWild a bs => forall i x k, linked r i x k -> disjoint (MkBlock a (Z.of_nat (length bs))) (kraw t k)
  end.

Fixpoint xhist (t : target) (r : rworld) (os : list xop) : Prop :=
  match os with
  | [] => True
  | o :: os => xop_ok t r o /\ forall r1 a, rstep t r o = Some (r1, a) -> xhist t r1 os
  end.

(** A byte of the memory of chains that exist *)
Definition chain_byte (t : target) (r : rworld) (y : Z) : Prop := exists i a k, linked r i a k /\ in_block (kraw t k) y.

Definition is_wild (o : xop) : bool := match o with XWild _ _ => true | _ => false end.
