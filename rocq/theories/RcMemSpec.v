(** * RcMemSpec: the reference of [RcSpec] for calls that carry bytes. *)
From Verif Require Import Base Spec UninitModel UninitSpec SyncMemModel RcModel RcSpec RcMemModel.

(** The call with values named by [code]; [None] for the client's own writes. *)
Definition named (code : list (option Z) -> rvalue) (o : xop) : option rop :=
  match o with
  | XNew i bs l => Some (RNew i (code bs) l)
  | XGetMut i w => Some (RGetMut i (option_map code w))
  | XRawReplace i w => Some (RRawReplace i (code w))
  | XClone i => Some (RClone i) | XDowngrade i => Some (RDowngrade i) | XUpgrade i => Some (RUpgrade i)
  | XDrop i => Some (RDrop i) | XDone => Some RDone | XForget i => Some (RForget i) | XDeref i => Some (RDeref i)
  | XIntoRaw i => Some (RIntoRaw i) | XFromRaw i => Some (RFromRaw i) | XRawTake i => Some (RRawTake i)
  | XTryUnwrap i => Some (RTryUnwrap i) | XWeakTryUnwrap i => Some (RWeakTryUnwrap i)
  | XStrongCount i => Some (RStrongCount i) | XWeakCount i => Some (RWeakCount i) | XPtrEq i j => Some (RPtrEq i j)
  | XScribble _ _ _ => None
  end.

(** The reference: handles are counted, and writing into memory that is not part of any allocation has no effect
    on anything. *)
Definition sxstep (code : list (option Z) -> rvalue) (t : target) (s : sstate) (o : xop) : sstate * answer :=
  match o with
  | XScribble i off bs =>
      match stok s i with
      | Some (SMem u) => (s, if (0 <=? off) && (off + Z.of_nat (length bs) <=? ulen u) then ADone else AInvalid)
      | _ => (s, AInvalid)
      end
  | _ => match named code o with Some r => sstep t s r | None => (s, AInvalid) end
  end.

Fixpoint sxrun (code : list (option Z) -> rvalue) (t : target) (s : sstate) (os : list xop) : sstate * list answer :=
  match os with
  | [] => (s, [])
  | o :: os => let (s1, a) := sxstep code t s o in let (s2, r) := sxrun code t s1 os in (s2, a :: r)
  end.

(** A value of type T has size_of::<T>() bytes; T and RcBox<T> have layouts that Rust accepts. *)
Definition xop_ok (t : target) (o : xop) : Prop :=
  match o with
  | XNew _ bs l => Z.of_nat (length bs) = lsize l /\ type_layout t l /\ valid_layout t (rc_layout t l)
  | _ => True
  end.

(** Values written through [get_mut] or into raw memory are values of the handle's type. *)
Definition op_typed (T : list token) (o : xop) : Prop :=
  forall i w k, (o = XGetMut i (Some w) \/ o = XRawReplace i w) -> nth_error T i = Some k ->
    Z.of_nat (length w) = lsize (tlay k).

Inductive typed (code : list (option Z) -> rvalue) (t : target) : xstate -> list xop -> Prop :=
| typed_nil s : typed code t s []
| typed_cons s o os : op_typed (xtoks s) o -> typed code t (fst (xstep code t s o)) os -> typed code t s (o :: os).

Definition xshort (t : target) (us : list uview) (os : list xop) : Prop :=
  Z.of_nat (length us + length os) < usize_max t.

(** Everything a client with regions [us] of memory [m] can do in fewer than usize::MAX calls. *)
Definition xhistory (code : list (option Z) -> rvalue) (t : target) (us : list uview) (m : mem) (os : list xop) : Prop :=
  memories t us /\ Forall (xop_ok t) os /\ xshort t us os /\ typed code t (xinit us m) os.

(** Number of handles of kind [kd], not dropped or consumed, of the box at address [p]. *)
Definition handles (s : xstate) (kd : kind) (p : Z) : Z :=
  Z.of_nat (count (fun x => match tstat x with Gone => false | _ => true end && kind_eqb (tkind x) kd && (uptr (tview x) =? p))
              (xtoks s)).
