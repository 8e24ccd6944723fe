(** * DrainMemSpec: calls on a drain and its answers, with values named. *)
From Verif Require Import Base Spec UninitModel SyncMemModel FixedVecModel FixedVecMemModel DrainModel DrainMemModel.

Definition yd_named (code : bval -> elem) (o : ydop) : dop :=
  match o with
  | YDNext => DNext | YDNextBack => DNextBack | YDSlice => DSlice | YDLen => DLen | YDIsEmpty => DIsEmpty | YDHint => DHint
  | YDReplace k e => DReplace k (code e) | YDSwap j k => DSwap j k
  end.

Definition yd_name (code : bval -> elem) (r : dans bval) : dans elem :=
  match r with
  | DItem x => DItem (option_map code x) | DItems xs => DItems (map code xs) | DSize n => DSize n | DBool b => DBool b
  | DBounds lo hi => DBounds lo hi | DOld x => DOld (code x) | DUnit => DUnit | DPanicked => DPanicked
  end.

(** Indices are usizes, and a value of type T has size_of::<T>() bytes. *)
Definition valid_ydop (t : target) (l : layout) (o : ydop) : Prop :=
  match o with YDReplace k e => is_usize t k /\ Z.of_nat (length e) = lsize l | YDSwap j k => is_usize t j /\ is_usize t k | _ => True end.
