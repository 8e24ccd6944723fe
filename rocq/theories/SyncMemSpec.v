(** * SyncMemSpec: vocabulary for claims about the contents of a slab. *)
From Verif Require Import Base Spec SyncModel SyncSpec SyncMemModel.

Definition hblock (h : handle) : block := MkBlock (hptr h) (lsize (hlay h)).

Definition op_value (o : op) : option value :=
  match o with
  | OLeak _ v | OLeakAt _ v _ | OLeakBox _ v | OLeakBoxAt _ v _ => Some v
  | _ => None
  end.

(** Calls that type-check and respect the documented preconditions on sizes and layouts. *)
Definition valid_op (t : target) (o : op) : Prop :=
  match o with
  | OAlloc l | OZeroed l | OLocalZeroed l => valid_layout t l
  | ORealloc _ n => 0 < n <= usize_max t
  | OLocalRealloc _ l => valid_layout t l /\ 0 < lsize l
  | OLeak l v | OLeakBox l v => type_layout t l /\ Z.of_nat (length (vbytes v)) = lsize l
  | OLeakAt l v lv | OLeakBoxAt l v lv =>
      type_layout t l /\ Z.of_nat (length (vbytes v)) = lsize l /\ is_usize t lv
  | _ => True
  end.

Definition is_oreset (o : op) : bool := match o with OReset => true | _ => false end.

(** The call stores through handle [i], gives it away, or invalidates it. *)
Definition touches (o : op) (i : nat) : bool :=
  match o with
  | ORealloc j _ | OLocalRealloc j _ | ODealloc j | OLocalDealloc j | OBoxDrop j | OBoxLeak j
  | OWrite j _ _ => Nat.eqb j i
  | OReset => true
  | _ => false
  end.

(** States a contract-abiding client can reach from a slab over [st] with arbitrary contents. *)
Definition mreach (t : target) (st : block) (c : client) : Prop :=
  exists m os, Forall (valid_op t) os /\ fst (mrun t (start_client (uninit_slab st m)) os) = c.

Definition reads (m : mem) (p : Z) (bs : list (option Z)) : Prop :=
  forall k b, nth_error bs k = Some b -> m (p + Z.of_nat k) = b.

(** No byte differs. *)
Definition same_bytes (m m' : mem) : Prop := forall x, m' x = m x.
Definition same_on (b : block) (m m' : mem) : Prop := forall x, in_block b x -> m' x = m x.
Definition same_outside (b : block) (m m' : mem) : Prop := forall x, ~ in_block b x -> m' x = m x.

(** Identities of the values passed to leak/leak_box in a history. *)
Fixpoint ids (os : list op) : list nat :=
  match os with
  | [] => []
  | o :: os' => match op_value o with Some v => vid v :: ids os' | None => ids os' end
  end.

Definition times_dropped (id : nat) (c : client) : nat :=
  count_occ Nat.eq_dec (map fst (drops c)) id.

(** What a successful reallocation of handle [i] = [h] to layout [l] at address [q] has done *)
Definition realloc_done (st : block) (c : client) (i : nat) (h : handle) (l : layout) (q : Z) (c' : client) : Prop :=
  good_block st l q /\
  live_handle c' (length (handles c)) = Some (new_handle q l KRaw) /\
  live_handle c' i = None /\
  (forall k, 0 <= k < Z.min (lsize l) (lsize (hlay h)) ->
     bytes (ms c') (q + k) = bytes (ms c) (hptr h + k)) /\
  (forall j hj, j <> i -> live_handle c j = Some hj ->
     live_handle c' j = Some hj /\ disjoint (hblock hj) (MkBlock q (lsize l)) /\
     same_on (hblock hj) (bytes (ms c)) (bytes (ms c'))) /\
  same_outside (MkBlock q (lsize l)) (bytes (ms c)) (bytes (ms c')) /\
  drops c' = drops c.

(** Value [v] now lives in a new good block at [p], nothing else changed and nothing was dropped. *)
Definition stored (st : block) (c : client) (l : layout) (v : value) (k : kind) (c' : client) (p : Z) : Prop :=
  good_block st l p /\ live_handle c' (length (handles c)) = Some (new_handle p l k) /\
  reads (bytes (ms c')) p (vbytes v) /\
  same_outside (MkBlock p (lsize l)) (bytes (ms c)) (bytes (ms c')) /\ drops c' = drops c.

(** Calls whose value becomes owned by a box (and is dropped by it, or by the failing call). *)
Definition boxing (o : op) : bool := match o with OLeakBox _ _ | OLeakBoxAt _ _ _ => true | _ => false end.
