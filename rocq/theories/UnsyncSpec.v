(** * UnsyncSpec *)
From Verif Require Import Base Spec SyncModel SyncSpec UnsyncModel.

Definition valid_ucall (t : target) (c : ucall) : Prop :=
  match c with
  | UCall c => valid_call t c
  | UBumpBox l => type_layout t l
  | UBumpArray l n => type_layout t l /\ is_usize t n
  end.

(** Size and alignment of the block a call asks for. *)
Definition ucall_layout (c : ucall) : option layout :=
  match c with
  | UCall c => call_layout c
  | UBumpBox l => Some l
  | UBumpArray l n => Some {| lsize := lsize l * n; lalign := lalign l |}
  end.

Definition uevent_block (e : uevent) : option block :=
  match e with
  | (c, RBlock a) => match ucall_layout c with
                     | Some l => Some (MkBlock (ptr a) (lsize l))
                     | None => None
                     end
  | _ => None
  end.

Definition is_ureset (c : ucall) : bool := match c with UCall CReset => true | _ => false end.

Fixpoint ublocks_since_reset (acc : list block) (h : list uevent) : list block :=
  match h with
  | [] => acc
  | e :: h' =>
      if is_ureset (fst e) then ublocks_since_reset [] h'
      else match uevent_block e with
           | Some b => ublocks_since_reset (acc ++ [b]) h'
           | None => ublocks_since_reset acc h'
           end
  end.

Definition ureach (t : target) (d : block) (u : ubump) : Prop :=
  exists cs, Forall (valid_ucall t) cs /\ fst (urun t (u_fresh d) cs) = u.

(** Calls for a zero-sized type (or level beyond the capacity) that the unsync bump answers with a panic
    but the sync bump does not. *)
Definition for_zst_type (c : call) : Prop :=
  match c with CGet l | CGetAt l _ => lsize l = 0 | _ => False end.

(** Same answer; panics may come from a different line. *)
Definition same_response (r r' : response) : Prop :=
  match r, r' with RPanic _, RPanic _ => True | _, _ => r = r' end.

Definition same_history (h h' : list event) : Prop :=
  Forall2 (fun e e' => fst e = fst e' /\ same_response (snd e) (snd e')) h h'.

Definition ucalls_history (h : list uevent) (h' : list event) : Prop :=
  Forall2 (fun e e' => fst e = UCall (fst e') /\ same_response (snd e) (snd e')) h h'.

(** [n] is the greatest multiple of the header alignment such that a header at [p] followed by [n] bytes of
    data ends at or before [lim]. *)
Definition data_room (t : target) (p lim n : Z) : Prop :=
  0 <= n /\ (usize_align t | n) /\ p + word_bytes t + n <= lim /\
  lim < p + word_bytes t + n + usize_align t.

(** Memory whose initialised cells are bytes. *)
Definition byte_mem (m : mem) : Prop := forall x b, m x = Some b -> 0 <= b < 256.
