(** * MemBumpSpec: vocabulary for claims about an allocator that lives in the memory it hands out. *)
From Verif Require Import Base Spec SyncModel SyncSpec SyncMemModel SyncMemSpec UnsyncModel UnsyncSpec MemBumpModel.

Definition valid_bop (t : target) (o : bop) : Prop := match o with BCall c => valid_ucall t c | _ => True end.

(** The allocator calls of a program, and of a history with what they answered. *)
Fixpoint bcalls (os : list bop) : list ucall :=
  match os with [] => [] | BCall c :: os => c :: bcalls os | _ :: os => bcalls os end.
Fixpoint bresponses (h : list (bop * banswer)) : list uevent :=
  match h with
  | [] => []
  | (BCall c, BResp r) :: h => (c, r) :: bresponses h
  | _ :: h => bresponses h
  end.

(** An allocator over the part [fat_data] of the memory [b], whose contents were [m], in a program's hands. *)
Definition breach (t : target) (b : block) (m : mem) (s : bstate) : Prop :=
  exists f os, snd (from_mem t m b) = Ret (Some f) /\ Forall (valid_bop t) os /\
    s = fst (brun t (MkBS (fst (from_mem t m b)) f []) os).

(** Ideal store: every block is an array of its own.  Stepping it needs no memory. *)
Definition splice (bs : list (option Z)) (off : nat) (new : list (option Z)) : list (option Z) :=
  firstn off bs ++ new ++ skipn (off + length new) bs.

(** [ideal A h A']: the answers [h] are those of independent arrays which contain [A] before and [A'] after.  A new
    block has arbitrary contents of the right length. *)
Inductive ideal : list (list (option Z)) -> list (bop * banswer) -> list (list (option Z)) -> Prop :=
| ideal_nil A : ideal A [] A
| ideal_new A c r b bs h A' : is_ureset c = false -> uevent_block (c, r) = Some b -> Z.of_nat (length bs) = size b ->
    ideal (A ++ [bs]) h A' -> ideal A ((BCall c, BResp r) :: h) A'
| ideal_none A c r h A' : is_ureset c = false -> uevent_block (c, r) = None ->
    ideal A h A' -> ideal A ((BCall c, BResp r) :: h) A'
| ideal_reset A c r h A' : is_ureset c = true -> ideal [] h A' -> ideal A ((BCall c, BResp r) :: h) A'
| ideal_write A k off bs old h A' : nth_error A k = Some old -> 0 <= off -> off + Z.of_nat (length bs) <= Z.of_nat (length old) ->
    ideal (upd A k (splice old (Z.to_nat off) bs)) h A' -> ideal A ((BWrite k off bs, BDone) :: h) A'
| ideal_read A k bs h A' : nth_error A k = Some bs -> ideal A h A' -> ideal A ((BRead k, BBytes bs) :: h) A'
| ideal_round A h A' : ideal A h A' -> ideal A ((BRoundTrip, BDone) :: h) A'
| ideal_bad_write A k off bs h A' :
    (forall old, nth_error A k = Some old -> off < 0 \/ Z.of_nat (length old) < off + Z.of_nat (length bs)) ->
    ideal A h A' -> ideal A ((BWrite k off bs, BInvalid) :: h) A'
| ideal_bad_read A k h A' : nth_error A k = None -> ideal A h A' -> ideal A ((BRead k, BInvalid) :: h) A'.
