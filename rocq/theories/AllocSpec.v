(** * AllocSpec: the contract of LocalAlloc (alloc-traits/src/local.rs:32-77), from a client's point of view. *)
From Verif Require Import Base Spec SyncMemModel SyncMemSpec UninitModel UninitSpec RcModel AllocModel.

Definition ablock (a : Z * layout) : block := MkBlock (fst a) (lsize (snd a)).

(** [own] are the addresses the allocator hands out or keeps its own data in. The client may use all others, and the blocks
    it holds. *)
Definition client_may (own : Z -> Prop) (live : list (Z * layout)) (x : Z) : Prop :=
  ~ own x \/ exists a, In a live /\ in_block (ablock a) x.

(** The contract, for an invariant [inv s m live] that relates the state of the allocator, the memory and the allocations
    that the client holds:
    - a successful [alloc] gives a block that exists, is aligned and at least as large as asked for, with a layout that says
      its true size, and of which the client could not use a byte before;
    - neither [alloc] nor [dealloc] changes a byte the client may use;
    - the client may write where it may.
    Note that the returned layout may be larger than asked for. *)
Record honours (t : target) (A : lalloc) (own : Z -> Prop) (inv : lst A -> mem -> list (Z * layout) -> Prop) : Prop := {
  h_write : forall s m live m', inv s m live -> (forall x, ~ client_may own live x -> m' x = m x) -> inv s m' live;
  h_alloc : forall s m live l, inv s m live -> valid_layout t l -> 0 < lsize l ->
    exists s' m' r, l_alloc A s m l = (s', m', Ret r) /\ (forall x, client_may own live x -> m' x = m x) /\
      match r with
      | None => inv s' m' live
      | Some (p, l') => lsize l <= lsize l' /\ aligned p (lalign l) /\ valid_layout t l' /\ valid_region t (MkBlock p (lsize l')) /\
          (forall x, in_block (MkBlock p (lsize l')) x -> own x /\ ~ client_may own live x) /\ inv s' m' ((p, l') :: live)
      end;
  h_dealloc : forall s m before a after, inv s m (before ++ a :: after) ->
    exists s' m', l_dealloc A s m a = (s', m') /\ (forall x, client_may own (before ++ after) x -> m' x = m x) /\
      inv s' m' (before ++ after) }.

(** The new block [u] is the memory of one more allocation, at least as large as [l] and aligned for it; before, the client
    could not use any of it; what the client could use is as before. *)
Definition granted (t : target) {A : lalloc} (own : Z -> Prop) (inv : lst A -> mem -> list (Z * layout) -> Prop)
    (live : list (Z * layout)) (l : layout) (s' : lst A) (m' : mem) (u : block) : Prop :=
  exists l', u = MkBlock (start u) (lsize l') /\ inv s' m' ((start u, l') :: live) /\
    lsize l <= size u /\ aligned (start u) (lalign l) /\ valid_region t u /\ (forall x, in_block u x -> ~ client_may own live x).

(** What the client could use before is unchanged. *)
Definition unchanged (own : Z -> Prop) (live : list (Z * layout)) (m m' : mem) : Prop := forall x, client_may own live x -> m' x = m x.

(** Allocators that return exactly the layout asked for *)
Definition exact (A : lalloc) : Prop := forall s m l s' m' p l', l_alloc A s m l = (s', m', Ret (Some (p, l'))) -> l' = l.
Definition alloc_fails (A : lalloc) (s : lst A) (m : mem) (l : layout) : Prop := exists s' m', l_alloc A s m l = (s', m', Ret None).
