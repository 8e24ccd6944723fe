(** * TreeModel: the second proposal for Rust's aliasing rules that Miri can check (Tree Borrows), and threads that share a Bump under it.

    Every pointer has a tag; the tags form a tree, where a reference is a child of the pointer it was made from, and every tag has a
    permission for every byte.  The rules are those of "Tree Borrows" (PLDI 2025) without protectors (of function arguments); they are not
    part of /repo.  What the library does is the same as in TBorrowModel, with the same programs. *)
From Verif Require Import Base Spec SyncModel BorrowModel TBorrowModel.

(** ** The rules (model only: not code of /repo) *)

(** model only: Tree Borrows; [im]: the type has interior mutability *)
Inductive tperm := PReserved (im : bool) | PActive | PFrozen | PDisabled | PCell.

(** model only: Tree Borrows; an access through the tag itself or a descendant of it; [None] is undefined behaviour *)
Definition child (write : bool) (p : tperm) : option tperm :=
  match p, write with
  | PCell, _ => Some PCell
  | PActive, _ => Some PActive
  | PReserved im, false => Some (PReserved im)
  | PReserved _, true => Some PActive
  | PFrozen, false => Some PFrozen
  | PFrozen, true => None
  | PDisabled, _ => None
  end.

(** model only: Tree Borrows; an access through another tag *)
Definition foreign (write : bool) (p : tperm) : tperm :=
  match p, write with
  | PCell, _ => PCell
  | PReserved true, _ => PReserved true
  | PReserved false, false => PReserved false
  | PActive, false => PFrozen
  | PFrozen, false => PFrozen
  | PDisabled, false => PDisabled
  | _, true => PDisabled
  end.

(** model only: Tree Borrows; for each tag: the tag, its parent, the parent of that and so on; and the permissions of all tags at every byte *)
Record tree := MkTree { line : nat -> list nat; perms : Z -> nat -> tperm }.

(** model only: Tree Borrows; is the tag in the list? *)
Definition among (l : list nat) (n : nat) : bool := existsb (Nat.eqb n) l.

(** model only: Tree Borrows; one byte: the access is allowed if it is for the tag and all tags it comes from ([l]) *)
Definition allowed (write : bool) (l : list nat) (p : nat -> tperm) : bool :=
  forallb (fun n => match child write (p n) with Some _ => true | None => false end) l.
(** model only: Tree Borrows; one byte *)
Definition after (write : bool) (l : list nat) (p : nat -> tperm) : nat -> tperm :=
  fun n => if among l n then match child write (p n) with Some q => q | None => p n end else foreign write (p n).

(** model only: Tree Borrows; an access to the bytes of a block through a pointer with tag [t] *)
Definition tree_access (write : bool) (t : nat) (b : block) (s : tree) : option tree :=
  if forallb (fun x => allowed write (line s t) (perms s x)) (addrs b)
  then Some (MkTree (line s) (fun x => if inb b x then after write (line s t) (perms s x) else perms s x))
  else None.

(** model only: Tree Borrows; permissions of a new reference; [cell]: the byte is in an UnsafeCell *)
Definition initial (mutable cell : bool) : tperm :=
  if mutable then PReserved cell else if cell then PCell else PFrozen.
(** model only: Tree Borrows; the type has parts inside and outside of an UnsafeCell; other bytes count as inside if there is one *)
Definition cell_at (parts : list (bool * block)) (x : Z) : bool :=
  match find (fun p => inb (snd p) x) parts with Some p => fst p | None => existsb fst parts end.

(** model only: Tree Borrows; a new reference counts as a read of all bytes, except those of a shared one in an UnsafeCell *)
Fixpoint tree_reads (t : nat) (mutable : bool) (parts : list (bool * block)) (s : tree) : option tree :=
  match parts with
  | [] => Some s
  | (cell, b) :: parts =>
      if negb mutable && cell then tree_reads t mutable parts s
      else match tree_access false t b s with Some s => tree_reads t mutable parts s | None => None end
  end.
(** model only: Tree Borrows; a new reference with tag [n] from a pointer with tag [t] *)
Definition tree_retag (n t : nat) (mutable : bool) (parts : list (bool * block)) (s : tree) : option tree :=
  match tree_reads t mutable parts s with
  | Some s => Some (MkTree (fun y => if Nat.eqb y n then n :: line s t else line s y)
                           (fun x y => if Nat.eqb y n then initial mutable (cell_at parts x) else perms s x y))
  | None => None
  end.

(** ** static-alloc/src/bump.rs: the programs of TBorrowModel *)

(** model only: the kinds of references of BorrowModel; [im]: the client's type of value has interior mutability *)
Definition as_mutable (parts : list (rkind * block)) : bool := existsb (fun p => match fst p with RUnique => true | _ => false end) parts.
(** model only *)
Definition as_cells (im : bool) (parts : list (rkind * block)) : list (bool * block) :=
  map (fun p => (match fst p with RUnique => im | RShared => false | RCell => true end, snd p)) parts.

(** model only: the tree of all tags, and the next new tag *)
Record forest := MkS { nodes : tree; fresh_tag : nat }.

(** model only: one step of a program; [lv] is the value of the counter *)
Definition nstep {A} (im : bool) (hd : block) (lv : Z) (p : prog A) (s : forest) : option (Z * prog A * forest) :=
  match p with
  | Fin a => Some (lv, Fin a, s)
  | Tag t parts k =>
      match tree_retag (fresh_tag s) t (as_mutable parts) (as_cells im parts) (nodes s) with
      | Some r => Some (lv, k (fresh_tag s), MkS r (S (fresh_tag s)))
      | None => None
      end
  | Load t k => match tree_access false t hd (nodes s) with Some r => Some (lv, k lv, MkS r (fresh_tag s)) | None => None end
  | Cas t e new k =>
      let (lv', v) := compare_exchange lv e new in
      match tree_access (match v with None => true | Some _ => false end) t hd (nodes s) with
      | Some r => Some (lv', k v, MkS r (fresh_tag s))
      | None => None
      end
  | Put t b k => match tree_access true t b (nodes s) with Some r => Some (lv, k, MkS r (fresh_tag s)) | None => None end
  end.

(** bump.rs:351-353 [reset] of a variable with tag [self]: the parameter [&mut self], [self.consumed.get_mut()] with its own parameter
    and its result (a [&mut usize], inside of no UnsafeCell), and a write to it *)
Definition n_reset (hd st : block) (self : nat) (s : forest) : option forest :=
  let n := fresh_tag s in
  match tree_retag n self true [(true, hd); (true, st)] (nodes s) with
  | Some r =>
      match tree_retag (S n) n true [(true, hd)] r with
      | Some r =>
          match tree_retag (S (S n)) (S n) true [(false, hd)] r with
          | Some r =>
              match tree_access true (S (S n)) hd r with
              | Some r => Some (MkS r (S (S (S n))))
              | None => None
              end
          | None => None
          end
      | None => None
      end
  | None => None
  end.

(** ** Programs with threads *)

(** client of the model: accesses through pointers that the client has; [t] is the tag *)
Inductive nact := NRead (t : nat) (b : block) | NWrite (t : nat) (b : block) | NRetag (t : nat) (mutable : bool) (parts : list (bool * block)).

(** client of the model: a call in progress; [nim]: the type of the value that is put in the block has interior mutability *)
Record nrunning := MkNR { ncall : call; nuse : buse; nim : bool; nprog : prog out }.

(** client of the model: a new reference &Bump (from the variable, or from another one), reset, an access to object [k], the start of a
    call of thread [i] through reference [s], and a step of a thread *)
Inductive nop :=
| NShare (from : option nat)
| NReset
| NAct (k : nat) (a : nact)
| NInvoke (i s : nat) (c : call) (u : buse) (im : bool)
| NStep (i : nat).

(** client of the model: done, a new tag, a step of a call that is not its last, the last step of a call with its answer and the pointer's
    tag, undefined behaviour, and programs that do not type check *)
Inductive nanswer := NDone | NTag (tag : nat) | NMore | NReturn (c : call) (r : response) (tag : option nat) | NUB | NInvalid.

(** client of the model *)
Record nworld := MkNW { nslab : slab; nstate : forest; nowned : bool; nshares : list nat; nobjs : list bobj; nthreads : list (nat * nrunning) }.

(** model only: the call of a thread *)
Definition nlookup (i : nat) (l : list (nat * nrunning)) : option nrunning :=
  match find (fun q => Nat.eqb (fst q) i) l with Some q => Some (snd q) | None => None end.
(** model only *)
Definition nremove (i : nat) (l : list (nat * nrunning)) : list (nat * nrunning) := filter (fun q => negb (Nat.eqb (fst q) i)) l.

(** model only: the parts of a type do not overlap; they are listed in order *)
Fixpoint parts_apart (parts : list (bool * block)) : bool :=
  match parts with
  | [] => true
  | (_, b) :: parts => forallb (fun p => start b + size b <=? start (snd p)) parts && parts_apart parts
  end.

(** model only: is the access one through a pointer that the client has to this object, inside of it? *)
Definition nact_ok (o : bobj) (a : nact) : bool :=
  let has t := among (otags o) t in
  let within b := (start (oblk o) <=? start b) && (start b + size b <=? start (oblk o) + size (oblk o)) in
  match a with
  | NRead t b | NWrite t b => has t && within b
  | NRetag t _ parts => has t && forallb (fun p => within (snd p)) parts && parts_apart parts
  end.

(** model only; [n] is the tag of a new reference *)
Definition tree_act (n : nat) (a : nact) (s : tree) : option tree :=
  match a with
  | NRead t b => tree_access false t b s
  | NWrite t b => tree_access true t b s
  | NRetag t mutable parts => tree_retag n t mutable parts s
  end.
(** model only: does the access make a new reference? *)
Definition makes_tag (a : nact) : bool := match a with NRetag _ _ _ => true | _ => false end.
(** client of the model *)
Definition nact_answer (n : nat) (a : nact) : nanswer := if makes_tag a then NTag n else NDone.
(** client of the model *)
Definition tags_after (n : nat) (a : nact) (l : list nat) : list nat := if makes_tag a then n :: l else l.

(** client of the model: a new reference &Bump (bump.rs:147-158) *)
Definition n_share (hd : block) (w : nworld) (self : nat) : nworld * nanswer :=
  let n := fresh_tag (nstate w) in
  match tree_retag n self false [(true, hd); (true, storage (nslab w))] (nodes (nstate w)) with
  | Some r => (MkNW (nslab w) (MkS r (S n)) (nowned w) (nshares w ++ [n]) (nobjs w) (nthreads w), NDone)
  | None => (w, NUB)
  end.

(** client of the model: the world after the client got an answer *)
Definition ngot (w : nworld) (lv : Z) (s : forest) (c : call) (r : response) (tag : option nat) (th : list (nat * nrunning)) : nworld :=
  MkNW (MkSlab (storage (nslab w)) lv) s (nowned w) (nshares w)
    (match r, tag with RBlock a, Some n => nobjs w ++ [MkO (MkBlock (ptr a) (lsize (asked c))) [n]] | _, _ => nobjs w end) th.

(** client of the model; [reset] needs a unique reference, which there is only if no thread is in a call *)
Definition ntstep (t : target) (hd : block) (w : nworld) (o : nop) : nworld * nanswer :=
  match o with
  | NShare None => if nowned w then n_share hd w 0 else (w, NInvalid)
  | NShare (Some i) => match nth_error (nshares w) i with Some self => n_share hd w self | None => (w, NInvalid) end
  | NReset =>
      match nowned w, nthreads w with
      | true, [] =>
          match n_reset hd (storage (nslab w)) 0 (nstate w) with
          | Some s => (MkNW (reset (nslab w)) s true [] [] [], NDone)
          | None => (w, NUB)
          end
      | _, _ => (w, NInvalid)
      end
  | NAct k a =>
      match nth_error (nobjs w) k with
      | Some ob =>
          if nact_ok ob a then
            let n := fresh_tag (nstate w) in
            match tree_act n a (nodes (nstate w)) with
            | Some r => (MkNW (nslab w) (MkS r (if makes_tag a then S n else n)) (nowned w) (nshares w)
                           (set_nth (nobjs w) k (MkO (oblk ob) (tags_after n a (otags ob)))) (nthreads w), nact_answer n a)
            | None => (w, NUB)
            end
          else (w, NInvalid)
      | None => (w, NInvalid)
      end
  | NInvoke i s c u im =>
      match nlookup i (nthreads w), nth_error (nshares w) s, c with
      | Some _, _, _ | _, None, _ | _, _, CReset => (w, NInvalid)
      | None, Some self, _ =>
          (MkNW (nslab w) (nstate w) (nowned w) (nshares w) (nobjs w)
             ((i, MkNR c u im (p_call t hd (storage (nslab w)) c u self)) :: nthreads w), NMore)
      end
  | NStep i =>
      match nlookup i (nthreads w) with
      | None => (w, NInvalid)
      | Some r =>
          match nstep (nim r) hd (consumed (nslab w)) (nprog r) (nstate w) with
          | None => (w, NUB)
          | Some (lv, p, s) =>
              match settle t hd (storage (nslab w)) (ncall r) (nuse r) p with
              | Fin (Final x tag) => (ngot w lv s (ncall r) x tag (nremove i (nthreads w)), NReturn (ncall r) x tag)
              | p => (ngot w lv s (ncall r) RNone None ((i, MkNR (ncall r) (nuse r) (nim r) p) :: nremove i (nthreads w)), NMore)
              end
          end
      end
  end.

(** client of the model: a program, in the order of the scheduler *)
Fixpoint nrun (t : target) (hd : block) (w : nworld) (os : list nop) : nworld * list (nop * nanswer) :=
  match os with
  | [] => (w, [])
  | o :: os => let (w1, r) := ntstep t hd w o in let (w2, h) := nrun t hd w1 os in (w2, (o, r) :: h)
  end.

(** bump.rs:283-310 a new Bump: its two places are what is allocated, and may be accessed in any way through tag 0 -- there is no pointer
    that may access other bytes; of a static there is one reference, with tag 1 *)
Definition nnew (hd st : block) (owned : bool) : nworld :=
  let s0 := MkTree (fun n => if Nat.eqb n 0 then [0%nat] else [])
                   (fun x _ => if existsb (fun b => inb b x) [hd; st] then PActive else PDisabled) in
  let w := MkNW (fresh st) (MkS s0 1) owned [] [] [] in
  if owned then w else fst (n_share hd w 0).
