(** * ParSpec: an ideal heap for threads.  Every block is an array of its own that one thread at a time has; there is no memory, and no
    allocator other than that a request may be refused, if [full] says so. *)
From Verif Require Import Base Spec SyncModel SyncMemModel HeapSpec ConcModel RelaxedModel ParModel.

Record parr := MkPA { pa_addr : Z; pa_lay : layout; pa_owner : nat; pa_live : bool; pa_data : list hbyte }.

Definition pa_dead (a : parr) : parr := MkPA (pa_addr a) (pa_lay a) (pa_owner a) false (pa_data a).
(** thread [i] may use the block [h] *)
Definition pa_has (A : list parr) (i h : nat) (a : parr) : Prop := nth_error A h = Some a /\ pa_live a = true /\ pa_owner a = i.

(** A call that returned, and what it did to the arrays. *)
Inductive par_ideal (t : target) (full : layout -> Prop) : list parr -> parentry -> list parr -> Prop :=
| pi_alloc A i l p : 0 < lsize l ->
    par_ideal t full A (MkPE i (PAlloc l) (PBlock p)) (A ++ [MkPA p l i true (anything (lsize l))])
| pi_zeroed A i l p : 0 < lsize l ->
    par_ideal t full A (MkPE i (PZeroed l) (PBlock p)) (A ++ [MkPA p l i true (zeroes (lsize l))])
| pi_alloc_null A i l : full l -> par_ideal t full A (MkPE i (PAlloc l) PNull) A
| pi_zeroed_null A i l : full l -> par_ideal t full A (MkPE i (PZeroed l) PNull) A
(* the documented panic: no size *)
| pi_alloc_panic A i l : lsize l = 0 -> par_ideal t full A (MkPE i (PAlloc l) (PPanicked P_size)) A
| pi_zeroed_panic A i l : lsize l = 0 -> par_ideal t full A (MkPE i (PZeroed l) (PPanicked P_size)) A
| pi_shrink A i h n a : pa_has A i h a -> 0 < n <= lsize (pa_lay a) ->
    par_ideal t full A (MkPE i (PRealloc h n) (PBlock (pa_addr a)))
      (SyncMemModel.upd A h (pa_dead a) ++ [MkPA (pa_addr a) (MkLayout n (lalign (pa_lay a))) i true (resized (pa_data a) n)])
| pi_grow A i h n a p : pa_has A i h a -> lsize (pa_lay a) < n ->
    par_ideal t full A (MkPE i (PRealloc h n) (PBlock p))
      (SyncMemModel.upd A h (pa_dead a) ++ [MkPA p (MkLayout n (lalign (pa_lay a))) i true (resized (pa_data a) n)])
(* the old block stays *)
| pi_grow_null A i h n a : pa_has A i h a -> lsize (pa_lay a) < n ->
    (valid_layout t (MkLayout n (lalign (pa_lay a))) -> full (MkLayout n (lalign (pa_lay a)))) ->
    par_ideal t full A (MkPE i (PRealloc h n) PNull) A
(* against the contract of realloc *)
| pi_realloc_panic A i h a : pa_has A i h a -> par_ideal t full A (MkPE i (PRealloc h 0) (PPanicked P_layout_unwrap)) A
| pi_dealloc A i h a : pa_has A i h a -> par_ideal t full A (MkPE i (PDealloc h) PUnit) (SyncMemModel.upd A h (pa_dead a))
| pi_store A i h a off bs : pa_has A i h a -> 0 <= off -> off + Z.of_nat (length bs) <= lsize (pa_lay a) ->
    par_ideal t full A (MkPE i (PStore h off bs) PUnit)
      (SyncMemModel.upd A h (MkPA (pa_addr a) (pa_lay a) (pa_owner a) true (hsplice (pa_data a) (Z.to_nat off) bs)))
| pi_load A i h a bs : pa_has A i h a -> keeps bs (pa_data a) -> par_ideal t full A (MkPE i (PLoad h) (PBytes bs)) A
| pi_send A i h a j : pa_has A i h a ->
    par_ideal t full A (MkPE i (PSend h j) PUnit) (SyncMemModel.upd A h (MkPA (pa_addr a) (pa_lay a) j true (pa_data a))).

Inductive par_ideals (t : target) (full : layout -> Prop) : list parr -> list parentry -> list parr -> Prop :=
| pis_nil A : par_ideals t full A [] A
| pis_snoc A es B e C : par_ideals t full A es B -> par_ideal t full B e C -> par_ideals t full A (es ++ [e]) C.

(** The blocks that the arrays are at *)
Definition pa_block (a : parr) : block := MkBlock (pa_addr a) (lsize (pa_lay a)).
Definition pa_lives (A : list parr) : list parr := filter pa_live A.

(** Programs ask for layouts that exist, and for sizes that are [usize]. *)
Definition parop_ok (t : target) (o : parop) : Prop :=
  match o with PAlloc l | PZeroed l => valid_layout t l | PRealloc _ n => 0 <= n <= usize_max t | _ => True end.
Definition paraction_ok (t : target) (a : paraction) : Prop := match a with PStart _ o => parop_ok t o | _ => True end.

(** An action of thread [i] *)
Definition par_of (i : nat) (a : paraction) : Prop := match a with PStart j _ | PAccess j _ | PWork j => j = i end.
Definition par_busy (ph : parphase) : option parop :=
  match ph with PIdle => None | PWait o | PZeroing o _ _ _ _ | PCopying o _ _ _ _ => Some o end.
(** Calls about a block are made by the thread that has it, within the block. *)
Definition par_legal (A : list parr) (i : nat) (o : parop) : Prop :=
  match o with
  | PAlloc _ | PZeroed _ => True
  | PRealloc h _ | PDealloc h | PLoad h | PSend h _ => exists a, pa_has A i h a
  | PStore h off bs => exists a, pa_has A i h a /\ 0 <= off /\ off + Z.of_nat (length bs) <= lsize (pa_lay a)
  end.
