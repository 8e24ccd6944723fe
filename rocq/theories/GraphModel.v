(** * GraphModel: without-alloc/src/rc.rs, values that own [Rc]s and [Weak]s of other values (and by interior mutability also of
    themselves): trees, shared substructures, back references, cycles. *)
From Verif Require Import Base Spec UninitModel SyncMemModel RcModel.

(** An [Rc] or a [Weak] of the allocation of that number. *)
Inductive hnd := HS (n : nat) | HW (n : nat).

(** rc.rs:58-73 one [RcBox], and the handles that its value owns.  Simplifications: every [Rc::new] gets memory of its own, which is not
    reused (what [Weak::try_unwrap] hands out: C51); a dead value owns nothing. *)
Record gnode := MkNode { gbox : rcbox; gkids : list hnd }.

(** client of the model: a variable that holds a handle, was moved out of, or whose handle was passed to core::mem::forget *)
Inductive slot := SHeld (h : hnd) | SGone | SForgot (h : hnd).

(** model only: all allocations, all variables, what happened to values *)
Record gstate := MkG { gnodes : list gnode; gslots : list slot; glog : list event }.

(** model only: how a drop ends; [GUb]: a counter is accessed where there is no box *)
Inductive gres := GOk | GPanic | GAbort | GUb.

(** core: a panic while unwinding ends the process *)
Definition g_raise (unwinding : bool) : gres := if unwinding then GAbort else GPanic.

(** model only: memory write of a node *)
Definition g_set (s : gstate) (n : nat) (x : gnode) : gstate := MkG (upd (gnodes s) n x) (gslots s) (glog s).
(** model only: memory write of a box *)
Definition g_box (s : gstate) (n : nat) (x : gnode) (b : rcbox) : gstate := g_set s n (MkNode b (gkids x)).
(** model only: write of a variable *)
Definition g_slot (s : gstate) (i : nat) (x : slot) : gstate := MkG (gnodes s) (upd (gslots s) i x) (glog s).
(** model only: a new variable *)
Definition g_add (s : gstate) (h : hnd) : gstate := MkG (gnodes s) (gslots s ++ [SHeld h]) (glog s).
(** model only *)
Definition g_logs (s : gstate) (es : list event) : gstate := MkG (gnodes s) (gslots s) (glog s ++ es).

(** core: drop glue of the fields of a value, in order; after a panic the others are dropped while unwinding *)
Fixpoint g_fields (one : hnd -> bool -> gstate -> gstate * gres) (unwinding : bool) (hs : list hnd) (s : gstate) (panicked : bool)
  : gstate * gres :=
  match hs with
  | [] => (s, if panicked then GPanic else GOk)
  | h :: hs' =>
      match one h (unwinding || panicked) s with
      | (s', GOk) => g_fields one unwinding hs' s' panicked
      | (s', GPanic) => g_fields one unwinding hs' s' true
      | (s', r) => (s', r)
      end
  end.

(** rc.rs:520-530 [Drop for Rc] and rc.rs:571-576 [Drop for Weak].  [drop_in_place] of the value: its own destructor, which panics if
    [boom] says so, then its fields.  [fuel] bounds the depth of the recursion; the stack of the machine is not modelled. *)
Fixpoint g_drop (t : target) (boom : rvalue -> bool) (fuel : nat) (h : hnd) (unwinding : bool) (s : gstate) : gstate * gres :=
  match fuel with
  | O => (s, GUb)
  | S f =>
      match h with
      | HW n =>
          match nth_error (gnodes s) n with
          | None => (s, GUb)
          | Some x => match dec_weak t (gbox x) with
                      | Ret b => (g_box s n x b, GOk)
                      | Panic _ => (s, g_raise unwinding)
                      end
          end
      | HS n =>
          match nth_error (gnodes s) n with
          | None => (s, GUb)
          | Some x =>
              match rc_drop t (gbox x) with
              | (b, Panic _) => (g_box s n x b, g_raise unwinding)
              | (b, Ret false) => (g_box s n x b, GOk)
              | (b, Ret true) =>
                  let s1 := g_logs (g_set s n (MkNode b [])) [Dropped (bval b)] in
                  if boom (bval b) then
                    if unwinding then (s1, GAbort) else g_fields (g_drop t boom f) unwinding (gkids x) s1 true
                  else g_fields (g_drop t boom f) unwinding (gkids x) s1 false
              end
          end
      end
  end.

(** rc.rs:563-568 [Clone for Rc], rc.rs:601-606 [Clone for Weak] of a handle wherever it is *)
Definition g_clone (t : target) (s : gstate) (h : hnd) : gstate * answer :=
  match h with
  | HS n =>
      match nth_error (gnodes s) n with
      | None => (s, AUb)
      | Some x => match inc_strong t (gbox x) with
                  | Ret b => (g_add (g_box s n x b) h, ATok (length (gslots s)))
                  | Panic _ => (s, APanic)
                  end
      end
  | HW n =>
      match nth_error (gnodes s) n with
      | None => (s, AUb)
      | Some x => match inc_weak t (gbox x) with
                  | Ret b => (g_add (g_box s n x b) h, ATok (length (gslots s)))
                  | Panic _ => (s, APanic)
                  end
      end
  end.

(** client of the model: what a program does.  [GPut i j] moves the handle in variable j into the value of i, [GTake i k] moves the k-th
    handle of that value out, [GGet i k] clones it; values have interior mutability. *)
Inductive gop :=
| GNew (v : rvalue) | GClone (i : nat) | GGet (i k : nat) | GDowngrade (i : nat) | GUpgrade (i : nat) | GDrop (i : nat) | GForget (i : nat)
| GPut (i j : nat) | GTake (i k : nat) | GUnwrap (i : nat) | GRead (i : nat) | GStrong (i : nat) | GWeak (i : nat).

(** model only: answers; [GAborted]: the process is gone *)
Inductive ganswer := GA (a : answer) | GAborted.

(** client of the model: the handle in a variable *)
Definition g_held (s : gstate) (i : nat) : option hnd := match nth_error (gslots s) i with Some (SHeld h) => Some h | _ => None end.

(** client of the model: one operation, through the function cited *)
Definition gstep (t : target) (boom : rvalue -> bool) (s : gstate) (o : gop) : gstate * ganswer :=
  match o with
  | GNew v =>       (* rc.rs:101-114 *)
      (MkG (gnodes s ++ [MkNode (MkBox v 1 1) []]) (gslots s ++ [SHeld (HS (length (gnodes s)))]) (glog s ++ [Put v]), GA (ATok (length (gslots s))))
  | GClone i =>
      match g_held s i with
      | Some h => let (s', a) := g_clone t s h in (s', GA a)
      | None => (s, GA AInvalid)
      end
  | GGet i k =>     (* rc.rs:533-539 [Deref] *)
      match g_held s i with
      | Some (HS n) =>
          match nth_error (gnodes s) n with
          | None => (s, GA AUb)
          | Some x => match nth_error (gkids x) k with
                      | Some h => let (s', a) := g_clone t s h in (s', GA a)
                      | None => (s, GA AInvalid)
                      end
          end
      | _ => (s, GA AInvalid)
      end
  | GDowngrade i => (* rc.rs:213-216 *)
      match g_held s i with
      | Some (HS n) =>
          match nth_error (gnodes s) n with
          | None => (s, GA AUb)
          | Some x => match inc_weak t (gbox x) with
                      | Ret b => (g_add (g_box s n x b) (HW n), GA (ATok (length (gslots s))))
                      | Panic _ => (s, GA APanic)
                      end
          end
      | _ => (s, GA AInvalid)
      end
  | GUpgrade i =>   (* rc.rs:408-416 *)
      match g_held s i with
      | Some (HW n) =>
          match nth_error (gnodes s) n with
          | None => (s, GA AUb)
          | Some x => match weak_upgrade t (gbox x) with
                      | (b, Ret true) => (g_add (g_box s n x b) (HS n), GA (ATok (length (gslots s))))
                      | (b, Ret false) => (g_box s n x b, GA ANone)
                      | (b, Panic _) => (g_box s n x b, GA APanic)
                      end
          end
      | _ => (s, GA AInvalid)
      end
  | GDrop i =>
      match g_held s i with
      | Some h => match g_drop t boom (S (length (gnodes s))) h false (g_slot s i SGone) with
                  | (s', GOk) => (s', GA ADone)
                  | (s', GPanic) => (s', GA APanic)
                  | (s', GAbort) => (s', GAborted)
                  | (s', GUb) => (s', GA AUb)
                  end
      | None => (s, GA AInvalid)
      end
  | GForget i =>
      match g_held s i with
      | Some h => (g_slot s i (SForgot h), GA ADone)
      | None => (s, GA AInvalid)
      end
  | GPut i j =>
      match g_held s i, g_held s j with
      | Some (HS n), Some h =>
          if Nat.eqb i j then (s, GA AInvalid)
          else match nth_error (gnodes s) n with
               | None => (s, GA AUb)
               | Some x => (g_slot (g_set s n (MkNode (gbox x) (gkids x ++ [h]))) j SGone, GA ADone)
               end
      | _, _ => (s, GA AInvalid)
      end
  | GTake i k =>
      match g_held s i with
      | Some (HS n) =>
          match nth_error (gnodes s) n with
          | None => (s, GA AUb)
          | Some x => match nth_error (gkids x) k with
                      | Some h => (g_add (g_set s n (MkNode (gbox x) (firstn k (gkids x) ++ skipn (S k) (gkids x)))) h, GA (ATok (length (gslots s))))
                      | None => (s, GA AInvalid)
                      end
          end
      | _ => (s, GA AInvalid)
      end
  | GUnwrap i =>    (* rc.rs:178-190 [Rc::try_unwrap]: the value is moved out and its handles to variables; the handle is a Weak then *)
      match g_held s i with
      | Some (HS n) =>
          match nth_error (gnodes s) n with
          | None => (s, GA AUb)
          | Some x =>
              match rc_try_unwrap t (gbox x) with
              | Ret None => (s, GA AErr)
              | Ret (Some (v, b)) =>
                  (MkG (upd (gnodes s) n (MkNode b [])) (upd (gslots s) i (SHeld (HW n)) ++ map SHeld (gkids x)) (glog s ++ [Took v]), GA (AVal v))
              | Panic _ => (s, GA APanic)
              end
          end
      | _ => (s, GA AInvalid)
      end
  | GRead i =>      (* rc.rs:533-539 *)
      match g_held s i with
      | Some (HS n) => match nth_error (gnodes s) n with None => (s, GA AUb) | Some x => (s, GA (AVal (bval (gbox x)))) end
      | _ => (s, GA AInvalid)
      end
  | GStrong i =>    (* rc.rs:256-258, 437-439 *)
      match g_held s i with
      | Some (HS n | HW n) => match nth_error (gnodes s) n with None => (s, GA AUb) | Some x => (s, GA (ANum (bstrong (gbox x)))) end
      | None => (s, GA AInvalid)
      end
  | GWeak i =>      (* rc.rs:251-253, 458-460 *)
      match g_held s i with
      | Some (HS n | HW n) => match nth_error (gnodes s) n with None => (s, GA AUb) | Some x => (s, GA (ANum (bweak (gbox x)))) end
      | None => (s, GA AInvalid)
      end
  end.

(** client of the model: operations in sequence, until the process ends *)
Fixpoint grun (t : target) (boom : rvalue -> bool) (s : gstate) (os : list gop) : gstate * list (gop * ganswer) :=
  match os with
  | [] => (s, [])
  | o :: os =>
      match gstep t boom s o with
      | (s1, GAborted) => (s1, [(o, GAborted)])
      | (s1, a) => let (s2, h) := grun t boom s1 os in (s2, (o, a) :: h)
      end
  end.

(** client of the model: nothing yet *)
Definition g_init : gstate := MkG [] [] [].
