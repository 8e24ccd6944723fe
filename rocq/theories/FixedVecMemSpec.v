(** * FixedVecMemSpec: bounded lists (FixedVecSpec) for calls that carry bytes. *)
From Verif Require Import Base Spec UninitModel UninitSpec SyncMemModel FixedVecModel FixedVecSpec FixedVecMemModel.

(** The call with values named by [code]; [None] for writes of others. *)
Definition ynamed (code : bval -> elem) (o : yop) : option fop :=
  match o with
  | YPush i e => Some (FPush i (code e)) | YPop i => Some (FPop i) | YTruncate i n => Some (FTruncate i n) | YClear i => Some (FClear i)
  | YFill i items b => Some (FFill i (map code items) b) | YExtend i items b => Some (FExtend i (map code items) b)
  | YDrain i lo hi fr fo => Some (FDrain i lo hi fr fo) | YShrink i => Some (FShrink i)
  | YSplitBorrowed i n => Some (FSplitBorrowed i n) | YSplitShrink i n => Some (FSplitShrink i n)
  | YDropVec i => Some (FDropVec i) | YForgetVec i => Some (FForgetVec i) | YSlice i => Some (FSlice i)
  | YReplace i k e => Some (FReplace i k (code e)) | YSwap i j k => Some (FSwap i j k)
  | YElsewhere _ _ => None
  end.

Definition yname (code : bval -> elem) (r : yres) : fres elem :=
  match r with
  | YNone => FNone | YOk => FOk | YRejected e => FRejected (code e) | YPopped x => FPopped (option_map code x)
  | YRest rest ok => FRest (map code rest) ok | YDrained xs ok => FDrained (map (option_map code) xs) ok
  | YItems xs => FItems (map code xs) | YPart j => FPart j | YPanicked => FPanicked | YAborted => FAborted
  end.

(** The reference: bounded lists, on which writing elsewhere has no effect. *)
Fixpoint ayrun (code : bval -> elem) (zst : bool) (maxcap : Z) (boom : elem -> bool) (a : astate) (os : list yop) : astate * list (fres elem) :=
  match os with
  | [] => (a, [])
  | o :: os' =>
      match (match ynamed code o with Some r => astep zst maxcap boom a r | None => (a, FOk) end) with
      | (a', FAborted) => (a', [FAborted])
      | (a', r) => let '(a2, rs) := ayrun code zst maxcap boom a' os' in (a2, r :: rs)
      end
  end.

(** Type-correct calls: a value of type T has size_of::<T>() bytes; others write outside of the region [u]. *)
Definition yop_vals (o : yop) : list bval := match o with YPush _ e | YReplace _ _ e => [e] | YFill _ items _ | YExtend _ items _ => items | _ => [] end.
Definition valid_yop (t : target) (l : layout) (u : block) (o : yop) : Prop :=
  Forall (fun e => Z.of_nat (length e) = lsize l) (yop_vals o) /\
  match o with
  | YTruncate _ n | YSplitBorrowed _ n | YSplitShrink _ n => is_usize t n
  | YReplace _ k _ => is_usize t k
  | YSwap _ j k => is_usize t j /\ is_usize t k
  | YDrain _ lo hi _ _ => valid_bound t true lo /\ valid_bound t false hi
  | YElsewhere a bs => disjoint (MkBlock a (Z.of_nat (length bs))) u
  | _ => True
  end.

(** Memory after the writes of others alone *)
Fixpoint others (m : mem) (os : list yop) : mem :=
  match os with
  | [] => m
  | YElsewhere a bs :: os' => others (mem_write m a bs) os'
  | _ :: os' => others m os'
  end.
