(** * CmpModel: comparing, hashing, indexing and borrowing of containers.

    without-alloc/src/fixed_vec.rs:531-620, boxed.rs:183-270, rc.rs:609-690, static-alloc/src/leaked.rs:576-580 (LeakBox: hash only).
    All these impls forward to the contents (`&**self`); for slices the impls of core are modelled. *)
From Verif Require Import Base Spec UninitModel SyncMemModel FixedVecModel OwnModel RcModel.

(** PartialEq, PartialOrd, Ord and Hash of some type [A], as the type's author wrote them; [e_hash] is what is fed
    to the hasher. *)
Record impls (A : Type) := MkImpls {
  e_eq : A -> A -> bool;
  e_ne : A -> A -> bool;
  e_pcmp : A -> A -> option comparison;
  e_lt : A -> A -> bool; e_le : A -> A -> bool; e_gt : A -> A -> bool; e_ge : A -> A -> bool;
  e_cmp : A -> A -> comparison;
  e_hash : A -> list Z }.
Arguments MkImpls {A}. Arguments e_eq {A}. Arguments e_ne {A}. Arguments e_pcmp {A}. Arguments e_lt {A}. Arguments e_le {A}.
Arguments e_gt {A}. Arguments e_ge {A}. Arguments e_cmp {A}. Arguments e_hash {A}.

(** ** core: slices.  An element can be uninitialised memory ([None]); then the outer result is [None]. *)

(** core::slice::cmp, SlicePartialEq::equal: the lengths, then the elements in order up to the first difference *)
Fixpoint eq_loop {A} (I : impls A) (xs ys : list (option A)) : option bool :=
  match xs, ys with
  | x :: xs, y :: ys =>
      match x, y with
      | Some x, Some y => if e_eq I x y then eq_loop I xs ys else Some false
      | _, _ => None
      end
  | _, _ => Some true
  end.
Definition slice_eq {A} (I : impls A) (xs ys : list (option A)) : option bool :=
  if (length xs =? length ys)%nat then eq_loop I xs ys else Some false.
(** PartialEq::ne is not overridden for slices *)
Definition slice_ne {A} (I : impls A) (xs ys : list (option A)) : option bool := option_map negb (slice_eq I xs ys).

(** SlicePartialOrd::partial_compare: up to the shorter length; then by length *)
Fixpoint pcmp_loop {A} (I : impls A) (xs ys : list (option A)) : option (option comparison) :=
  match xs, ys with
  | x :: xs, y :: ys =>
      match x, y with
      | Some x, Some y =>
          match e_pcmp I x y with
          | Some Eq => pcmp_loop I xs ys
          | non_eq => Some non_eq
          end
      | _, _ => None
      end
  | xs, ys => Some (Some (Nat.compare (length xs) (length ys)))
  end.
(** core: PartialOrd::partial_cmp of slices *)
Definition slice_pcmp {A} (I : impls A) (xs ys : list (option A)) := pcmp_loop I xs ys.

(** PartialOrd::lt, le, gt, ge are not overridden for slices *)
Definition slice_lt {A} (I : impls A) xs ys := option_map (fun c => match c with Some Lt => true | _ => false end) (slice_pcmp I xs ys).
(** core: PartialOrd::le, provided *)
Definition slice_le {A} (I : impls A) xs ys :=
  option_map (fun c => match c with Some Lt | Some Eq => true | _ => false end) (slice_pcmp I xs ys).
(** core: PartialOrd::gt, provided *)
Definition slice_gt {A} (I : impls A) xs ys := option_map (fun c => match c with Some Gt => true | _ => false end) (slice_pcmp I xs ys).
(** core: PartialOrd::ge, provided *)
Definition slice_ge {A} (I : impls A) xs ys :=
  option_map (fun c => match c with Some Gt | Some Eq => true | _ => false end) (slice_pcmp I xs ys).

(** SliceOrd::compare *)
Fixpoint cmp_loop {A} (I : impls A) (xs ys : list (option A)) : option comparison :=
  match xs, ys with
  | x :: xs, y :: ys =>
      match x, y with
      | Some x, Some y => match e_cmp I x y with Eq => cmp_loop I xs ys | non_eq => Some non_eq end
      | _, _ => None
      end
  | xs, ys => Some (Nat.compare (length xs) (length ys))
  end.
(** core: Ord::cmp of slices *)
Definition slice_cmp {A} (I : impls A) (xs ys : list (option A)) := cmp_loop I xs ys.

(** Hash for [T]: the length prefix, then every element *)
Fixpoint hash_loop {A} (I : impls A) (xs : list (option A)) : option (list Z) :=
  match xs with
  | [] => Some []
  | Some x :: xs => option_map (app (e_hash I x)) (hash_loop I xs)
  | None :: _ => None
  end.
(** core: Hash::hash of slices *)
Definition slice_hash {A} (I : impls A) (xs : list (option A)) : option (list Z) :=
  option_map (cons (Z.of_nat (length xs))) (hash_loop I xs).

(** SliceIndex for usize and for Range<usize>; the panics are those of core *)
Definition PN_index : nat := 601.
(** core: index by usize *)
Definition slice_index {A} (xs : list A) (i : Z) : outcome A :=
  if i <? Z.of_nat (length xs) then unwrap PN_index (nth_error xs (Z.to_nat i)) else Panic PN_index.
(** core: index by Range<usize> *)
Definition slice_range {A} (xs : list A) (a b : Z) : outcome (list A) :=
  if (a <=? b) && (b <=? Z.of_nat (length xs)) then Ret (firstn (Z.to_nat (b - a)) (skipn (Z.to_nat a) xs)) else Panic PN_index.

(** ** FixedVec: vectors [v], [w] in memories [h], [g] (usually the same) *)

(** fixed_vec.rs:550-559 *)
Definition f_eq I l h v g w := slice_eq I (f_as_slice l h v) (f_as_slice l g w).
Definition f_ne I l h v g w := slice_ne I (f_as_slice l h v) (f_as_slice l g w).
(** fixed_vec.rs:561-582 *)
Definition f_pcmp I l h v g w := slice_pcmp I (f_as_slice l h v) (f_as_slice l g w).
(** fixed_vec.rs:566-568 [lt] *)
Definition f_lt I l h v g w := slice_lt I (f_as_slice l h v) (f_as_slice l g w).
(** fixed_vec.rs:570-572 [le] *)
Definition f_le I l h v g w := slice_le I (f_as_slice l h v) (f_as_slice l g w).
(** fixed_vec.rs:574-576 [ge] *)
Definition f_ge I l h v g w := slice_ge I (f_as_slice l h v) (f_as_slice l g w).
Definition f_gt I l h v g w := slice_gt I (f_as_slice l h v) (f_as_slice l g w).
(** fixed_vec.rs:584-589 *)
Definition f_cmp I l h v g w := slice_cmp I (f_as_slice l h v) (f_as_slice l g w).
(** fixed_vec.rs:593-597 *)
Definition f_hash I l h v := slice_hash I (f_as_slice l h v).
(** fixed_vec.rs:599-621 [Borrow], [AsRef] (and, as slices, the mutable variants) *)
Definition f_borrow (l : layout) (h : eheap) (v : fvec) := f_as_slice l h v.
Definition f_as_ref (l : layout) (h : eheap) (v : fvec) := f_as_slice l h v.
(** fixed_vec.rs:531-539 [Index] by a number and by a range *)
Definition f_index (l : layout) (h : eheap) (v : fvec) (i : Z) : outcome (option elem) := slice_index (f_as_slice l h v) i.
Definition f_index_range (l : layout) (h : eheap) (v : fvec) (a b : Z) : outcome (list (option elem)) := slice_range (f_as_slice l h v) a b.
(** fixed_vec.rs:541-547 [IndexMut]: assignment [v[i] = e] of a type without destructor *)
Definition f_index_set (l : layout) (h : eheap) (v : fvec) (i : Z) (e : elem) : outcome eheap :=
  olet x := slice_index (f_as_slice l h v) i in Ret (h_write l h (slot l v i) e).

(** ** Box, LeakBox: boxes [b], [c] of a type of layout [l] in memory [m]; the type's impls act on its bytes.
    boxed.rs:183-270, leaked.rs:576-580 *)
Definition own_eq I (m : mem) l b c : bool := e_eq I (own_deref m l b) (own_deref m l c).
(** boxed.rs:189-191 [ne] *)
Definition own_ne I (m : mem) l b c : bool := e_ne I (own_deref m l b) (own_deref m l c).
(** boxed.rs:196-198 [partial_cmp] *)
Definition own_pcmp I (m : mem) l b c : option comparison := e_pcmp I (own_deref m l b) (own_deref m l c).
(** boxed.rs:200-202 [lt] *)
Definition own_lt I (m : mem) l b c : bool := e_lt I (own_deref m l b) (own_deref m l c).
(** boxed.rs:204-206 [le] *)
Definition own_le I (m : mem) l b c : bool := e_le I (own_deref m l b) (own_deref m l c).
(** boxed.rs:208-210 [ge] *)
Definition own_ge I (m : mem) l b c : bool := e_ge I (own_deref m l b) (own_deref m l c).
(** boxed.rs:212-214 [gt] *)
Definition own_gt I (m : mem) l b c : bool := e_gt I (own_deref m l b) (own_deref m l c).
(** boxed.rs:219-221 [cmp] *)
Definition own_cmp I (m : mem) l b c : comparison := e_cmp I (own_deref m l b) (own_deref m l c).
(** boxed.rs:226-230 [hash]; leaked.rs:576-580 [hash] *)
Definition own_hash I (m : mem) l b : list Z := e_hash I (own_deref m l b).

(** ** Rc.  rc.rs:609-690: through [Deref] of live strong handles; [None]: not such handles, or no value there *)
Definition rc_value (s : rstate) (i : nat) : option rvalue :=
  match tok s i with
  | Some k => match tkind k with KStrong => option_map bval (rheap s (uptr (tview k))) | _ => None end
  | None => None
  end.
(** model only: both operands *)
Definition rc_two {B} (f : rvalue -> rvalue -> B) (s : rstate) (i j : nat) : option B :=
  match rc_value s i, rc_value s j with Some v, Some w => Some (f v w) | _, _ => None end.
(** rc.rs:611-613 [eq] *)
Definition rc_eq (I : impls rvalue) := rc_two (e_eq I).
(** rc.rs:615-617 [ne] *)
Definition rc_ne (I : impls rvalue) := rc_two (e_ne I).
(** rc.rs:624-626 [partial_cmp] *)
Definition rc_pcmp (I : impls rvalue) := rc_two (e_pcmp I).
(** rc.rs:628-630 [lt] *)
Definition rc_lt (I : impls rvalue) := rc_two (e_lt I).
(** rc.rs:632-634 [le] *)
Definition rc_le (I : impls rvalue) := rc_two (e_le I).
(** rc.rs:636-638 [ge] *)
Definition rc_ge (I : impls rvalue) := rc_two (e_ge I).
(** rc.rs:640-642 [gt] *)
Definition rc_gt (I : impls rvalue) := rc_two (e_gt I).
(** rc.rs:647-649 [cmp] *)
Definition rc_cmp (I : impls rvalue) := rc_two (e_cmp I).
(** rc.rs:653-655 [hash] *)
Definition rc_hash (I : impls rvalue) (s : rstate) (i : nat) : option (list Z) := option_map (e_hash I) (rc_value s i).
