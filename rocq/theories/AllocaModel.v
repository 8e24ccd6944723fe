(** * AllocaModel: static-alloc/src/leaked.rs, [Alloca<T>]. *)
From Verif Require Import Base Spec SyncModel UnsyncModel.

Definition PA_add : nat := 121.     (* :33 and :41 overflow of len + 1 *)
Definition PA_layout : nat := 122.  (* :41 expect("Checked this in the constructor") *)
Definition PA_big : nat := 123.     (* :97 panic!("Stack allocation is too big") *)
Definition PA_unwrap : nat := 124.  (* :106 bump_array(..).unwrap() *)

(** leaked.rs:30-38 [Alloca::new] for elements of layout [l]; the state of an [Alloca] is its [len]. *)
Definition alloca_new (t : target) (l : layout) (len : Z) : outcome (option Z) :=
  olet n1 := op_add t PA_add len 1 in
  Ret (match layout_array t l n1 with Some _ => Some len | None => None end).

(** leaked.rs:40-42 [padded_layout] *)
Definition padded_layout (t : target) (l : layout) (len : Z) : outcome layout :=
  olet n1 := op_add t PA_add len 1 in
  match layout_array t l n1 with Some la => Ret la | None => Panic PA_layout end.

(** leaked.rs:60-98: the cascade of comparisons, in order: bound on the required size and number of u64
    in the stack buffer. *)
Definition alloca_sizes : list (Z * Z) :=
  [(8, 1); (16, 2); (32, 4); (64, 8); (128, 16); (256, 32); (512, 64); (1024, 128); (2048, 256);
   (Z.shiftl 1 12, 512); (Z.shiftl 1 13, Z.shiftl 1 10); (Z.shiftl 1 14, Z.shiftl 1 11);
   (Z.shiftl 1 15, Z.shiftl 1 12); (Z.shiftl 1 16, Z.shiftl 1 13); (Z.shiftl 1 17, Z.shiftl 1 14);
   (Z.shiftl 1 18, Z.shiftl 1 15); (Z.shiftl 1 19, Z.shiftl 1 16); (Z.shiftl 1 20, Z.shiftl 1 17)].

(** leaked.rs:60-98: the branch taken *)
Fixpoint alloca_pick (required : Z) (tbl : list (Z * Z)) : option Z :=
  match tbl with
  | [] => None
  | (bound, k) :: tbl' => if required <=? bound then Some k else alloca_pick required tbl'
  end.

(** [u64; k] on a target where u64 has alignment [ua] *)
Definition u64_array (ua k : Z) : layout := {| lsize := 8 * k; lalign := ua |}.

(** leaked.rs:101-109 [run_with::<[u64; k]>]: [stack] is the address of the local variable [mem] of the given
    layout.  The result is the slice of [len] elements that the closure gets ([LeakBox::leak], 315, keeps the
    address; the closure itself is not modelled). *)
Definition run_with (t : target) (ua : Z) (stack : layout -> Z) (l : layout) (len k : Z) : outcome block :=
  let I := u64_array ua k in
  olet f := bump_deref t (stack (bump_layout t I)) I in
  match u_bump_array t (u_fresh (fat_data t f)) l len with
  | (_, Ret (ROk a)) => Ret (MkBlock (ptr a) (lsize l * len))
  | (_, Ret (RErr _)) => Panic PA_unwrap
  | (_, Panic m) => Panic m
  end.

(** leaked.rs:53-99 [run] *)
Definition alloca_run (t : target) (ua : Z) (stack : layout -> Z) (l : layout) (len : Z) : outcome block :=
  olet la := padded_layout t l len in
  match alloca_pick (lsize la) alloca_sizes with
  | Some k => run_with t ua stack l len k
  | None => Panic PA_big
  end.
