(** * NestModel: containers of without-alloc inside each other: [FixedVec<Box<FixedVec<T>>>] and the like, also of recursive
    types.

    Types are numbers.  For a type, [ty_lay] is its layout and [ty_parts] tells from the bytes of a value what its drop
    glue has to drop, in this order: parts with a destructor of the client (for a type that implements Drop, the value itself
    comes first), boxes and vectors.  How references, lengths and enum tags are encoded is arbitrary. *)
From Verif Require Import Base Spec UninitModel SyncMemModel FixedVecModel FixedVecMemModel ReentModel.

(** client of the model: what the drop glue of a value finds in it.  [PLeaf off y]: at offset [off], the bytes [y] of
    something whose destructor is code of the client; [PBox T a]: a Box (boxed.rs:63-65) of the value of type [T] at address [a];
    [PVec T v]: a FixedVec (fixed_vec.rs:92-95) of elements of type [T]. *)
Inductive part := PLeaf (off : Z) (y : bval) | PBox (T : nat) (a : Z) | PVec (T : nat) (v : fvec).

(** client of the model: the types of the program *)
Record types := MkTypes { ty_lay : nat -> layout; ty_parts : nat -> bval -> list part }.

(** core: drop glue of several parts, each dropped by [one]; after a panic the others are dropped while unwinding *)
Fixpoint n_parts {C A} (one : A -> bool -> rworld C -> rworld C * dres) (unwinding : bool) (ps : list A) (w : rworld C) (panicked : bool)
  : rworld C * dres :=
  match ps with
  | [] => (w, if panicked then DPanic else DOk)
  | p :: ps' =>
      match one p (unwinding || panicked) w with
      | (w', DOk) => n_parts one unwinding ps' w' panicked
      | (w', DPanic) => n_parts one unwinding ps' w' true
      | (w', DAbort) => (w', DAbort)
      end
  end.

(** core::ptr::drop_in_place of a value of type [T] with bytes [x]: boxes are dropped by boxed.rs:157-163, vectors by
    fixed_vec.rs:523-529, whose elements are dropped in turn.  Simplification: the parts are found when the drop of the value
    starts; destructors of the client change no byte of another part.  [fuel] bounds the depth of the recursion. *)
Fixpoint n_drop {C} (D : types) (leaf : dtor C) (fuel : nat) (T : nat) : dtor C := fun unwinding at_ x w =>
  match fuel with
  | O => (w, DAbort)
  | S f =>
      n_parts (fun p u w =>
        match p with
        | PLeaf off y => invoke leaf u (option_map (fun a => a + off) at_) y w
        | PBox T' a => r_box_drop (n_drop D leaf f T') u (ty_lay D T') w a
        | PVec T' v => r_drop (n_drop D leaf f T') u (ty_lay D T') w v
        end) unwinding (ty_parts D T x) w false
  end.
