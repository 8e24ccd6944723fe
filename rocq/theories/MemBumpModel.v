(** * MemBumpModel: static-alloc/src/unsync/bump.rs, a [MemBump] whose index lives in the same bytes as the
    data that it hands out. *)
From Verif Require Import Base Spec SyncModel SyncMemModel UnsyncModel UnsyncSpec ExitModel.

(** unsync/bump.rs:81-100 [MemBump] behind the fat pointer [bfat]; [bblocks]: what the client got from it and may
    still use (a reset, which takes [&mut self], ends all of it). *)
Record bstate := MkBS { bmem : mem; bfat : fat; bblocks : list block }.

(** unsync/bump.rs:559 [self.index.set(consume)], :475 [*self.index.get_mut() = 0].  Simplification: an index that
    does not change is not stored. *)
Definition bstore (t : target) (m : mem) (f : fat) (u u' : ubump) : mem :=
  if uindex u' =? uindex u then m else store_usize t m (faddr f) (uindex u').

(** unsync/bump.rs:221-225 [into_mem] and then 174-177 [from_mem_unchecked] over what it returned. *)
Definition bround (t : target) (f : fat) : outcome fat := from_mem_unchecked t (into_mem t f).

(** A client in safe code, or one that follows the contract of the unsafe functions: it calls the methods of the
    allocator, stores to and loads from blocks that it got, unwraps and rewraps the memory. *)
Inductive bop :=
| BCall (c : ucall)
| BWrite (k : nat) (off : Z) (bs : list (option Z))
| BRead (k : nat)
| BRoundTrip.

Inductive banswer :=
| BResp (r : response)
| BBytes (bs : list (option Z))
| BDone
| BUninit                (* undefined behaviour: the index is uninitialised *)
| BPanic (k : nat)
| BInvalid.              (* not a program: no such block, or out of its bounds *)

(** unsync/bump.rs:280-342, 434-476 on the bytes: every method first reads [index], and [try_alloc_at] and [reset]
    may store it. *)
Definition bstep (t : target) (s : bstate) (o : bop) : bstate * banswer :=
  match o with
  | BCall c =>
      match view t (bmem s) (bfat s) with
      | None => (s, BUninit)
      | Some u =>
          let (u', r) := ustep t u c in
          (MkBS (bstore t (bmem s) (bfat s) u u') (bfat s)
             (if is_ureset c then [] else
              match uevent_block (c, r) with Some b => bblocks s ++ [b] | None => bblocks s end), BResp r)
      end
  | BWrite k off bs =>
      match nth_error (bblocks s) k with
      | Some b => if (0 <=? off) && (off + Z.of_nat (length bs) <=? size b)
                  then (MkBS (mem_write (bmem s) (start b + off) bs) (bfat s) (bblocks s), BDone)
                  else (s, BInvalid)
      | None => (s, BInvalid)
      end
  | BRead k =>
      match nth_error (bblocks s) k with
      | Some b => (s, BBytes (mem_read (bmem s) (start b) (size b)))
      | None => (s, BInvalid)
      end
  | BRoundTrip =>
      match bround t (bfat s) with
      | Ret f => (MkBS (bmem s) f (bblocks s), BDone)
      | Panic k => (s, BPanic k)
      end
  end.

(** client of the model: calls in sequence *)
Fixpoint brun (t : target) (s : bstate) (os : list bop) : bstate * list (bop * banswer) :=
  match os with
  | [] => (s, [])
  | o :: os => let (s1, r) := bstep t s o in let (s2, h) := brun t s1 os in (s2, (o, r) :: h)
  end.
