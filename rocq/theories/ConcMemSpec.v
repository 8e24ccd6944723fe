(** * ConcMemSpec: vocabulary for claims about the contents of blocks shared between threads. *)
From Verif Require Import Base Spec SyncModel SyncSpec SyncMemModel SyncMemSpec ConcModel ConcSpec RelaxedModel RelaxedSpec
  MemBumpSpec ConcMemModel.

Definition valid_caction (t : target) (a : caction) : Prop := match a with CBase a => valid_raction t a | _ => True end.

Definition actor (e : mevent) : nat := match e with MGot i _ | MStore i _ _ _ | MLoad i _ _ | MSend i _ _ => i end.

(** Happens-before of an execution, by positions in the trace: program order, and from handing over a block to whatever
    the receiver does later.  Accesses to the slab's counter do NOT order anything. *)
Inductive hb (tr : list mevent) : nat -> nat -> Prop :=
| hb_program p q e e' : (p < q)%nat -> nth_error tr p = Some e -> nth_error tr q = Some e' -> actor e = actor e' -> hb tr p q
| hb_send p q i k j e : (p < q)%nat -> nth_error tr p = Some (MSend i k j) -> nth_error tr q = Some e -> actor e = j -> hb tr p q
| hb_trans p q r : hb tr p q -> hb tr q r -> hb tr p r.

(** The bytes that an event reads or writes, given the blocks. *)
Definition touched (toks : list (block * nat)) (e : mevent) : option block :=
  match e with
  | MStore _ k off bs => match nth_error toks k with
                         | Some (b, _) => Some (MkBlock (start b + off) (Z.of_nat (length bs)))
                         | None => None
                         end
  | MLoad _ k _ => match nth_error toks k with Some (b, _) => Some b | None => None end
  | _ => None
  end.
Definition is_store (e : mevent) : bool := match e with MStore _ _ _ _ => true | _ => false end.

(** Two accesses to a common byte, at least one of which is a store. *)
Definition conflict (toks : list (block * nat)) (e e' : mevent) : Prop :=
  (is_store e = true \/ is_store e' = true) /\
  exists b b' x, touched toks e = Some b /\ touched toks e' = Some b' /\ in_block b x /\ in_block b' x.

(** No data race: conflicting accesses are always ordered. *)
Definition race_free (toks : list (block * nat)) (tr : list mevent) : Prop :=
  forall p q e e', (p < q)%nat -> nth_error tr p = Some e -> nth_error tr q = Some e' -> conflict toks e e' -> hb tr p q.

(** [mideal A tr A']: the loads of [tr] are those of independent arrays, one per block, with contents [A] before and
    [A'] after. *)
Inductive mideal : list (list (option Z)) -> list mevent -> list (list (option Z)) -> Prop :=
| mideal_nil A : mideal A [] A
| mideal_got A i k bs tr A' : k = length A -> mideal (A ++ [bs]) tr A' -> mideal A (MGot i k :: tr) A'
| mideal_store A i k off bs old tr A' : nth_error A k = Some old -> 0 <= off -> off + Z.of_nat (length bs) <= Z.of_nat (length old) ->
    mideal (SyncMemModel.upd A k (splice old (Z.to_nat off) bs)) tr A' -> mideal A (MStore i k off bs :: tr) A'
| mideal_load A i k bs tr A' : nth_error A k = Some bs -> mideal A tr A' -> mideal A (MLoad i k bs :: tr) A'
| mideal_send A i k j tr A' : mideal A tr A' -> mideal A (MSend i k j :: tr) A'.
