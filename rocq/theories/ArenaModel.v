(** * ArenaModel: allocators inside allocators.  A [MemBump] (static-alloc/src/unsync/bump.rs) may be created by [from_mem] in a
    block that another [MemBump] handed out, and so on to any depth. *)
From Verif Require Import Base Spec SyncModel SyncMemModel UnsyncModel UnsyncSpec ExitModel MemBumpModel.

(** unsync/bump.rs:81-100 one [MemBump]: its fat pointer, the blocks that it handed out since its last reset (a block may be lent to
    the allocator of that number, i.e. is mutably borrowed by it), and where it lives: block k of allocator i, or the client's own
    memory.  The index is in memory. *)
Record arena := MkArena { afat : fat; ablocks : list (block * option nat); aparent : option (nat * nat) }.

(** model only: one memory, all allocators that were ever created *)
Record astate := MkAS { amem : mem; arenas : list arena }.

(** client of the model: what Rust's borrow rules allow.  An allocator may be used as long as the block in which it lives is still lent
    to it, and the allocator that owns that block may be used; a [reset] (unsync/bump.rs:474-476, it takes [&mut self]) ends the
    borrows of all blocks.  [fuel] bounds the depth: an allocator lives in one of a smaller number. *)
Fixpoint alive (fuel : nat) (w : list arena) (j : nat) : bool :=
  match fuel with
  | O => false
  | S n =>
      match nth_error w j with
      | None => false
      | Some a =>
          match aparent a with
          | None => true
          | Some (i, k) =>
              match nth_error w i with
              | Some p => match nth_error (ablocks p) k with
                          | Some (_, Some j') => Nat.eqb j' j && alive n w i
                          | _ => false
                          end
              | None => false
              end
          end
      end
  end.

(** model only: the allocator [j], if it may be used *)
Definition arena_at (w : list arena) (j : nat) : option arena :=
  if alive (length w) w j then nth_error w j else None.

(** What clients do: calls, stores and loads in blocks that are not lent, creating an allocator in such a block, and letting an
    allocator go, upon which the block can be used again. *)
Inductive aop :=
| ACall (j : nat) (c : ucall)
| AWrite (j k : nat) (off : Z) (bs : list (option Z))
| ARead (j k : nat)
| ANest (j k : nat)
| AEnd (j : nat).

Inductive aanswer :=
| AResp (r : response)
| ABytes (bs : list (option Z))
| ADone
| ANested (j : nat) (data : block)   (* the number of the new allocator, and where it allocates *)
| ANoRoom                            (* FromMemError *)
| AUninit                            (* undefined behaviour: the index is uninitialised *)
| APanic (k : nat)
| AInvalid.                          (* not a program *)

(** one allocator as in MemBumpModel *)
Definition as_bstate (s : astate) (a : arena) : bstate := MkBS (amem s) (afat a) (map fst (ablocks a)).

(** model only: answers *)
Definition of_banswer (a : banswer) : aanswer :=
  match a with
  | BResp r => AResp r | BBytes bs => ABytes bs | BDone => ADone | BUninit => AUninit | BPanic k => APanic k | BInvalid => AInvalid
  end.

(** unsync/bump.rs:280-342, 434-476: a call on allocator [j]; blocks that were lent stay lent, except by a reset *)
Definition a_call (t : target) (s : astate) (j : nat) (a : arena) (c : ucall) : astate * aanswer :=
  let (s', r) := bstep t (as_bstate s a) (BCall c) in
  let bl := if is_ureset c then [] else ablocks a ++ map (fun b => (b, None)) (skipn (length (ablocks a)) (bblocks s')) in
  (MkAS (bmem s') (upd (arenas s) j (MkArena (afat a) bl (aparent a))), of_banswer r).

(** unsync/bump.rs:150-159 [from_mem] over the block *)
Definition a_nest (t : target) (s : astate) (j k : nat) (a : arena) (b : block) : astate * aanswer :=
  match from_mem t (amem s) b with
  | (m', Ret (Some f)) =>
      let n := length (arenas s) in
      (MkAS m' (upd (arenas s) j (MkArena (afat a) (upd (ablocks a) k (b, Some n)) (aparent a)) ++ [MkArena f [] (Some (j, k))]),
       ANested n (fat_data t f))
  | (m', Ret None) => (MkAS m' (arenas s), ANoRoom)
  | (m', Panic e) => (MkAS m' (arenas s), APanic e)
  end.

(** client of the model: one operation, if Rust allows it *)
Definition astep (t : target) (s : astate) (o : aop) : astate * aanswer :=
  match o with
  | ACall j c =>
      match arena_at (arenas s) j with Some a => a_call t s j a c | None => (s, AInvalid) end
  | AWrite j k off bs =>
      match arena_at (arenas s) j with
      | Some a =>
          match nth_error (ablocks a) k with
          | Some (b, None) => let (s', r) := bstep t (as_bstate s a) (BWrite k off bs) in
                              (MkAS (bmem s') (arenas s), of_banswer r)
          | _ => (s, AInvalid)
          end
      | None => (s, AInvalid)
      end
  | ARead j k =>
      match arena_at (arenas s) j with
      | Some a =>
          match nth_error (ablocks a) k with
          | Some (b, None) => (s, of_banswer (snd (bstep t (as_bstate s a) (BRead k))))
          | _ => (s, AInvalid)
          end
      | None => (s, AInvalid)
      end
  | ANest j k =>
      match arena_at (arenas s) j with
      | Some a =>
          match nth_error (ablocks a) k with
          | Some (b, None) => a_nest t s j k a b
          | _ => (s, AInvalid)
          end
      | None => (s, AInvalid)
      end
  | AEnd j =>
      match arena_at (arenas s) j with
      | Some a =>
          match aparent a with
          | Some (i, k) =>
              match nth_error (arenas s) i with
              | Some p =>
                  match nth_error (ablocks p) k with
                  | Some (b, _) => (MkAS (amem s) (upd (arenas s) i (MkArena (afat p) (upd (ablocks p) k (b, None)) (aparent p))), ADone)
                  | None => (s, AInvalid)
                  end
              | None => (s, AInvalid)
              end
          | None => (s, AInvalid)
          end
      | None => (s, AInvalid)
      end
  end.

(** client of the model: operations in sequence *)
Fixpoint arun (t : target) (s : astate) (os : list aop) : astate * list (aop * aanswer) :=
  match os with
  | [] => (s, [])
  | o :: os => let (s1, r) := astep t s o in let (s2, h) := arun t s1 os in (s2, (o, r) :: h)
  end.

(** unsync/bump.rs:150-159: the first allocator, made by [from_mem] in memory of the client *)
Definition a_start (m : mem) (f : fat) : astate := MkAS m [MkArena f [] None].
