(** * DrainSpec: a plain double-ended queue, the meaning of [Drain]. *)
From Verif Require Import Base Spec UninitModel FixedVecModel FixedVecSpec DrainModel.

Definition qstep (q : list elem) (o : dop) : list elem * dans elem :=
  match o with
  | DNext => match q with [] => ([], DItem None) | x :: q' => (q', DItem (Some x)) end
  | DNextBack => match q with [] => ([], DItem None) | x :: _ => (removelast q, DItem (Some (last q x))) end
  | DSlice => (q, DItems q)
  | DLen => (q, DSize (len q))
  | DIsEmpty => (q, DBool (match q with [] => true | _ => false end))
  | DHint => (q, DBounds (len q) (Some (len q)))
  | DReplace k e => match nth_error q (Z.to_nat k) with Some old => (upd_nth (Z.to_nat k) e q, DOld old) | None => (q, DPanicked) end
  | DSwap j k => match nth_error q (Z.to_nat j), nth_error q (Z.to_nat k) with
                 | Some x, Some y => (upd_nth (Z.to_nat k) x (upd_nth (Z.to_nat j) y q), DUnit)
                 | _, _ => (q, DPanicked)
                 end
  end.

Fixpoint qrun (q : list elem) (os : list dop) : list elem * list (dans elem) :=
  match os with
  | [] => (q, [])
  | o :: os' => let '(q1, r) := qstep q o in let '(q2, rs) := qrun q1 os' in (q2, r :: rs)
  end.

(** The same answer, with slots known to be initialised *)
Definition in_slots (a : dans elem) : dans (option elem) :=
  match a with
  | DItem x => DItem (option_map Some x) | DItems xs => DItems (map Some xs) | DSize n => DSize n | DBool b => DBool b
  | DBounds lo hi => DBounds lo hi | DOld x => DOld (Some x) | DUnit => DUnit | DPanicked => DPanicked
  end.

(** Indices are usizes, and the only value of a zero-sized type is 0. *)
Definition valid_dop (t : target) (l : layout) (o : dop) : Prop :=
  match o with DReplace k e => is_usize t k /\ (lsize l = 0 -> e = 0) | DSwap j k => is_usize t j /\ is_usize t k | _ => True end.

(** Elements handed to the program, and by the program, in a run *)
Definition received (a : dans elem) : list elem := match a with DItem (Some x) => [x] | DOld x => [x] | _ => [] end.
Definition handed (o : dop) (a : dans elem) : list elem := match o, a with DReplace _ e, DOld _ => [e] | _, _ => [] end.
Definition all_received (rs : list (dans elem)) : list elem := concat (map received rs).
Definition all_handed (os : list dop) (rs : list (dans elem)) : list elem := concat (map (fun p => handed (fst p) (snd p)) (combine os rs)).
