(** * NestSpec: which memory a value owns, and what has to be dropped with it. *)
From Verif Require Import Base Spec UninitModel UninitSpec SyncMemModel FixedVecModel FixedVecSpec FixedVecMemModel ReentModel ReentSpec NestModel.

(** In memory [m], the value of type [T] with bytes [x] at [p] owns the blocks [fp] outside of itself (boxed values and the
    storage of vectors, at all depths), and [ls] are all the client's destructors have to run on, in order: depth first. *)
Inductive owns (t : target) (D : types) (m : mem) : nat -> option Z -> bval -> list block -> list (option Z * bval) -> Prop :=
| O_val T p x fp ls :
    owns_parts t D m T p (ty_parts D T x) fp ls -> owns t D m T p x fp ls
with owns_parts (t : target) (D : types) (m : mem) : nat -> option Z -> list part -> list block -> list (option Z * bval) -> Prop :=
| O_none T p : owns_parts t D m T p [] [] []
| O_leaf T p off y ps fp ls :
    0 <= off -> off + Z.of_nat (length y) <= lsize (ty_lay D T) ->
    owns_parts t D m T p ps fp ls ->
    owns_parts t D m T p (PLeaf off y :: ps) fp ((option_map (fun a => a + off) p, y) :: ls)
| O_box T p T' a ps fp1 ls1 fp2 ls2 :
    0 <= lsize (ty_lay D T') ->
    owns t D m T' (Some a) (b_read (ty_lay D T') m a) fp1 ls1 ->
    owns_parts t D m T p ps fp2 ls2 ->
    owns_parts t D m T p (PBox T' a :: ps) (MkBlock a (lsize (ty_lay D T')) :: fp1 ++ fp2) (ls1 ++ ls2)
| O_vec T p T' v ps fp1 ls1 fp2 ls2 :
    vec_wf t (ty_lay D T') v ->
    owns_elems t D m T' (uptr (funinit v)) (Z.to_nat (flen v)) fp1 ls1 ->
    owns_parts t D m T p ps fp2 ls2 ->
    owns_parts t D m T p (PVec T' v :: ps) (region (funinit v) :: fp1 ++ fp2) (ls1 ++ ls2)
with owns_elems (t : target) (D : types) (m : mem) : nat -> Z -> nat -> list block -> list (option Z * bval) -> Prop :=
| O_empty T a : owns_elems t D m T a 0 [] []
| O_elem T a n fp1 ls1 fp2 ls2 :
    owns t D m T (Some a) (b_read (ty_lay D T) m a) fp1 ls1 ->
    owns_elems t D m T (a + lsize (ty_lay D T)) n fp2 ls2 ->
    owns_elems t D m T a (S n) (fp1 ++ fp2) (ls1 ++ ls2).

Definition within (F : list block) (y : Z) : Prop := exists b, In b F /\ in_block b y.

(** The blocks [fp] overlap neither each other nor the place [p] of a value of type [T]. *)
Definition separate (D : types) (T : nat) (p : option Z) (fp : list block) : Prop :=
  pairwise disjoint (match p with Some a => [MkBlock a (lsize (ty_lay D T))] | None => [] end ++ fp).

(** Destructors of the client change no memory in [F] but the bytes of their value. *)
Definition keeps {C} (I : rworld C -> Prop) (leaf : dtor C) (F : list block) : Prop :=
  forall unwinding p x w, I w ->
    I (fst (leaf unwinding p x w)) /\
    forall y, within F y -> (forall a, p = Some a -> ~ in_block (MkBlock a (Z.of_nat (length x))) y) ->
      rmem (fst (leaf unwinding p x w)) y = rmem w y.

(** The elements of vector [v], each with the blocks it owns and what is to be dropped with it. *)
Definition elems_own (t : target) (D : types) (m : mem) (T : nat) (v : fvec) (gs : list (list block * list (option Z * bval))) : Prop :=
  len gs = flen v /\
  forall i g, nth_error gs i = Some g ->
    owns t D m T (Some (uptr (funinit v) + Z.of_nat i * lsize (ty_lay D T))) (b_read (ty_lay D T) m (uptr (funinit v) + Z.of_nat i * lsize (ty_lay D T))) (fst g) (snd g).

(** The values [xs], wherever they are, each with the blocks it owns and what is to be dropped with it. *)
Definition each_owns (t : target) (D : types) (m : mem) (T : nat) (xs : list bval) (gs : list (list block * list (option Z * bval))) : Prop :=
  Forall2 (fun x g => owns t D m T None x (fst g) (snd g)) xs gs.

(** Values dropped one after the other, up to and including the first during whose drop a destructor panics; within a value
    the rest is dropped after a panic. *)
Fixpoint drop_groups {C} (leaf : dtor C) (unwinding : bool) (gs : list (list (option Z * bval))) (w : rworld C) : rworld C * Z * dres :=
  match gs with
  | [] => (w, 0, DOk)
  | ls :: gs' =>
      match drop_all leaf unwinding ls w with
      | (w', _, DOk) => let '(w2, k, r) := drop_groups leaf unwinding gs' w' in (w2, k + 1, r)
      | (w', _, r) => (w', 1, r)
      end
  end.
