(** * CmpSpec: equality and order of sequences. *)
From Verif Require Import Base Spec UninitModel FixedVecModel FixedVecSpec RcModel RcSpec CmpModel.

(** Elementwise: same length, and every pair is related. *)
Definition pointwise {A} (R : A -> A -> Prop) (xs ys : list A) : Prop :=
  length xs = length ys /\ forall n x y, nth_error xs n = Some x -> nth_error ys n = Some y -> R x y.

(** The first difference: before position [n] all pairs are related by [same]. *)
Definition agree_before {A} (same : A -> A -> Prop) (n : nat) (xs ys : list A) : Prop :=
  (n <= length xs)%nat /\ (n <= length ys)%nat /\
  forall k x y, (k < n)%nat -> nth_error xs k = Some x -> nth_error ys k = Some y -> same x y.

(** Lexicographic: [xs] is smaller at the first difference, or is a proper beginning of [ys]. *)
Definition lex_below {A} (same less : A -> A -> Prop) (xs ys : list A) : Prop :=
  exists n, agree_before same n xs ys /\
    ((exists x y, nth_error xs n = Some x /\ nth_error ys n = Some y /\ less x y) \/
     (length xs = n /\ (n < length ys)%nat)).

(** The first difference is a pair without an order. *)
Definition lex_unordered {A} (same : A -> A -> Prop) (unordered : A -> A -> Prop) (xs ys : list A) : Prop :=
  exists n x y, agree_before same n xs ys /\ nth_error xs n = Some x /\ nth_error ys n = Some y /\ unordered x y.

(** The laws that Rust's documentation demands of impls of Eq, Ord and Hash. *)
Record lawful {A} (I : impls A) : Prop := {
  l_refl : forall x, e_eq I x x = true;
  l_sym : forall x y, e_eq I x y = e_eq I y x;
  l_trans : forall x y z, e_eq I x y = true -> e_eq I y z = true -> e_eq I x z = true;
  l_ne : forall x y, e_ne I x y = negb (e_eq I x y);
  l_cmp_eq : forall x y, e_cmp I x y = Eq <-> e_eq I x y = true;
  l_cmp_opp : forall x y, e_cmp I x y = CompOpp (e_cmp I y x);
  l_cmp_trans : forall x y z, e_cmp I x y = Lt -> e_cmp I y z = Lt -> e_cmp I x z = Lt;
  l_pcmp : forall x y, e_pcmp I x y = Some (e_cmp I x y);
  l_lt : forall x y, e_lt I x y = match e_cmp I x y with Lt => true | _ => false end;
  l_le : forall x y, e_le I x y = match e_cmp I x y with Gt => false | _ => true end;
  l_gt : forall x y, e_gt I x y = match e_cmp I x y with Gt => true | _ => false end;
  l_ge : forall x y, e_ge I x y = match e_cmp I x y with Lt => false | _ => true end;
  l_hash : forall x y, e_eq I x y = true -> e_hash I x = e_hash I y }.
