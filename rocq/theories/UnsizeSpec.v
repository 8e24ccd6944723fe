(** * UnsizeSpec: the pointers to one value, without memory, addresses and metadata. *)
From Verif Require Import Base Spec OwnModel UnsizeModel.

(** Types as rustc accepts them *)
Fixpoint sty_ok (t : target) (s : sty) : Prop :=
  match s with
  | SAtom _ l => type_layout t l
  | SArray e n => sty_ok t e /\ 0 <= n /\ n * ssize e <= isize_max t
  end.

(** Size and alignment of a type: an array of [n] values has [n] times the size of one, and its alignment. *)
Fixpoint layout_of_type (s : sty) : layout :=
  match s with
  | SAtom _ l => l
  | SArray e n => MkLayout (n * lsize (layout_of_type e)) (lalign (layout_of_type e))
  end.

(** A table has size, alignment and drop glue of the type for which it was made *)
Definition true_table (C : tables) (tr : nat) (s : sty) : Prop := vt_at C (vt_of C tr s) = Some (MkVT (lsize (layout_of_type s)) (lalign (layout_of_type s)) s).

(** [n] of the bytes, from [off]; overwriting some of them *)
Definition piece (bs : list (option Z)) (off n : Z) : list (option Z) := firstn (Z.to_nat n) (skipn (Z.to_nat off) bs).
Definition overwrite (bs : list (option Z)) (off : Z) (new : list (option Z)) : list (option Z) :=
  firstn (Z.to_nat off) bs ++ new ++ skipn (Z.to_nat off + length new) bs.

(** Dropping a value of type [s] with bytes [bs]: each destructor once, in order, with the bytes of its part *)
Fixpoint value_drops (s : sty) (bs : list (option Z)) : list (nat * list (option Z)) :=
  match s with
  | SAtom id _ => [(id, bs)]
  | SArray e n => flat_map (fun i => value_drops e (piece bs (Z.of_nat i * ssize e) (ssize e))) (seq 0 (Z.to_nat n))
  end.

(** How the value is seen: with its type, as slice, as trait object *)
Inductive shape := Whole | AsSlice | AsDyn.
Record thing := MkThing { tkind : pkind; tshape : shape; tbytes : list (option Z) }.
Definition tnow (x : thing) (k : pkind) : thing := MkThing k (tshape x) (tbytes x).

Definition readable (k : pkind) : bool := match k with KBox | KLeak | KRef | KPin => true | _ => false end.
Definition writable (k : pkind) : bool := match k with KBox | KLeak | KRef => true | _ => false end.

Definition thing_step (s : sty) (x : thing) (o : pop) : thing * panswer :=
  let bad := (x, PAInvalid) in
  match o with
  | PUnsize c =>
      match tkind x, tshape x with
      | KLeak, _ | KGone, _ => bad
      | _, Whole => match c, s with
                    | ToSlice, SAtom _ _ => bad
                    | ToSlice, SArray _ _ => (MkThing (tkind x) AsSlice (tbytes x), PADone)
                    | ToDyn _, _ => (MkThing (tkind x) AsDyn (tbytes x), PADone)
                    end
      | _, _ => bad
      end
  | PIntoRaw => match tkind x with KBox => (tnow x KUninit, PADone) | KLeak => (tnow x KPtr, PADone) | _ => bad end
  | PFromRaw => match tkind x with KUninit => (tnow x KBox, PADone) | KPtr => (tnow x KLeak, PADone) | _ => bad end
  | PLeak => match tkind x with KBox | KLeak => (tnow x KRef, PADone) | _ => bad end
  | PFromMut => match tkind x with KRef => (tnow x KLeak, PADone) | _ => bad end
  | PAsRaw => match tkind x with KRef => (tnow x KPtr, PADone) | _ => bad end
  | PMakePin => match tkind x with KRef => (tnow x KPin, PADone) | _ => bad end
  | PDrop => match tkind x with KBox | KLeak => (tnow x KGone, PADrops (value_drops s (tbytes x))) | _ => bad end
  | PDeref => if readable (tkind x) then (x, PABytes (tbytes x)) else bad
  | PLayout => if readable (tkind x) then (x, PALayout (layout_of_type s)) else bad
  | PIndex i =>
      if readable (tkind x) then
        match s, tshape x with
        | SArray e n, (Whole | AsSlice) =>
            if (0 <=? i) && (i <? n) then (x, PABytes (piece (tbytes x) (i * ssize e) (ssize e))) else (x, PAPanic PN_index)
        | _, _ => bad
        end
      else bad
  | PReplace i new =>
      if writable (tkind x) then
        match s, tshape x with
        | SArray e n, (Whole | AsSlice) =>
            if (0 <=? i) && (i <? n) then
              if Z.of_nat (length new) =? ssize e
              then (MkThing (tkind x) (tshape x) (overwrite (tbytes x) (i * ssize e) new), PABytes (piece (tbytes x) (i * ssize e) (ssize e)))
              else bad
            else (x, PAPanic PN_index)
        | _, _ => bad
        end
      else bad
  end.

Fixpoint thing_run (s : sty) (x : thing) (os : list pop) : thing * list panswer :=
  match os with
  | [] => (x, [])
  | o :: os => let (x1, a) := thing_step s x o in let (x2, r) := thing_run s x1 os in (x2, a :: r)
  end.
