(** * ArenaSpec: allocators inside allocators, without memory. *)
From Verif Require Import Base Spec SyncModel SyncSpec SyncMemModel SyncMemSpec UnsyncModel UnsyncSpec MemBumpModel MemBumpSpec ArenaModel.

Definition valid_aop (t : target) (o : aop) : Prop := match o with ACall _ c => valid_ucall t c | _ => True end.

(** A block: where it is, an array of its own with its contents, and the allocator that has it borrowed. *)
Record cell := MkCell { cblock : block; cbytes : list (option Z); clent : option nat }.
(** An allocator whose index is kept apart from all memory. *)
Record iarena := MkIA { iu : ubump; icells : list cell; iparent : option (nat * nat) }.

(** An allocator may be used while the block it lives in is borrowed by it and its owner may be used. *)
Inductive usable (w : list iarena) : nat -> Prop :=
| us_root j a : nth_error w j = Some a -> iparent a = None -> usable w j
| us_child j a i k p c : nth_error w j = Some a -> iparent a = Some (i, k) -> usable w i ->
    nth_error w i = Some p -> nth_error (icells p) k = Some c -> clent c = Some j -> usable w j.

(** What the borrow checker accepts. *)
Definition permitted (w : list iarena) (o : aop) : Prop :=
  match o with
  | ACall j _ => usable w j
  | AWrite j k off bs => exists a c, usable w j /\ nth_error w j = Some a /\ nth_error (icells a) k = Some c /\ clent c = None /\
                           0 <= off /\ off + Z.of_nat (length bs) <= size (cblock c)
  | ARead j k | ANest j k => exists a c, usable w j /\ nth_error w j = Some a /\ nth_error (icells a) k = Some c /\ clent c = None
  | AEnd j => exists a i k, usable w j /\ nth_error w j = Some a /\ iparent a = Some (i, k)
  end.

(** The data region of an allocator made in [b]: behind a header of one word at the first address aligned for it, as much as is left
    rounded down to the alignment of the header.  (As in C20.) *)
Definition carved (t : target) (b d : block) : Prop :=
  exists p, first_aligned (start b) (usize_align t) p /\ start d = p + word_bytes t /\ data_room t p (start b + size b) (size d).

(** The cells of an allocator after a call. *)
Inductive cells_after (c : ucall) (r : response) (old : list cell) : list cell -> Prop :=
| ca_reset : is_ureset c = true -> cells_after c r old []
| ca_new b bs : is_ureset c = false -> uevent_block (c, r) = Some b -> Z.of_nat (length bs) = size b ->
    cells_after c r old (old ++ [MkCell b bs None])
| ca_same : is_ureset c = false -> uevent_block (c, r) = None -> cells_after c r old old.

(** One operation on the allocators: each one behaves as if it were alone, every block is an array of its own. *)
Inductive istep (t : target) (w : list iarena) : aop -> aanswer -> list iarena -> Prop :=
| is_call j c a u r cs : usable w j -> nth_error w j = Some a -> ustep t (iu a) c = (u, r) -> cells_after c r (icells a) cs ->
    istep t w (ACall j c) (AResp r) (upd w j (MkIA u cs (iparent a)))
| is_write j k off bs a c : usable w j -> nth_error w j = Some a -> nth_error (icells a) k = Some c -> clent c = None ->
    0 <= off -> off + Z.of_nat (length bs) <= size (cblock c) ->
    istep t w (AWrite j k off bs) ADone
      (upd w j (MkIA (iu a) (upd (icells a) k (MkCell (cblock c) (splice (cbytes c) (Z.to_nat off) bs) None)) (iparent a)))
| is_read j k a c : usable w j -> nth_error w j = Some a -> nth_error (icells a) k = Some c -> clent c = None ->
    istep t w (ARead j k) (ABytes (cbytes c)) w
| is_nest j k a c d : usable w j -> nth_error w j = Some a -> nth_error (icells a) k = Some c -> clent c = None ->
    carved t (cblock c) d ->
    istep t w (ANest j k) (ANested (length w) d)
      (upd w j (MkIA (iu a) (upd (icells a) k (MkCell (cblock c) [] (Some (length w)))) (iparent a)) ++ [MkIA (u_fresh d) [] (Some (j, k))])
| is_no_room j k a c : usable w j -> nth_error w j = Some a -> nth_error (icells a) k = Some c -> clent c = None ->
    (forall d, ~ carved t (cblock c) d) -> istep t w (ANest j k) ANoRoom w
| is_end j a i k p c bs : usable w j -> nth_error w j = Some a -> iparent a = Some (i, k) ->
    nth_error w i = Some p -> nth_error (icells p) k = Some c -> Z.of_nat (length bs) = size (cblock c) ->
    istep t w (AEnd j) ADone (upd w i (MkIA (iu p) (upd (icells p) k (MkCell (cblock c) bs None)) (iparent p)))
| is_invalid o : ~ permitted w o -> istep t w o AInvalid w.

Inductive iruns (t : target) : list iarena -> list (aop * aanswer) -> list iarena -> Prop :=
| ir_nil w : iruns t w [] w
| ir_cons w o r w1 h w2 : istep t w o r w1 -> iruns t w1 h w2 -> iruns t w ((o, r) :: h) w2.

(** What belongs to an allocator that may be used and to nobody else: its header, which is the word before its data, and its blocks that
    are not borrowed by other allocators. *)
Definition owned (t : target) (w : list iarena) (j : nat) (b : block) : Prop :=
  usable w j /\ exists a, nth_error w j = Some a /\
    (b = MkBlock (start (udata (iu a)) - word_bytes t) (word_bytes t) \/
     exists k c, nth_error (icells a) k = Some c /\ clent c = None /\ b = cblock c).
