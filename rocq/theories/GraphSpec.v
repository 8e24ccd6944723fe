(** * GraphSpec: graphs of reference counted values, without counters. *)
From Verif Require Import Base Spec SyncMemModel RcModel RcSpec GraphModel.
From Coq Require Import List.

(** A value and the handles that it owns; [None]: it was dropped or moved out. *)
Record inode := MkI { ival : rvalue; ikids : option (list hnd) }.
Record igraph := MkIG { inodes : list inode; islots : list slot; ilog : list event }.

Definition hnd_dec (a b : hnd) : {a = b} + {a <> b}.
Proof. decide equality; apply Nat.eq_dec. Defined.

(** All handles that exist: in variables (forgotten ones exist for ever), and in values that are alive. *)
Definition slot_handles (x : slot) : list hnd := match x with SHeld h | SForgot h => [h] | SGone => [] end.
Definition node_handles (y : inode) : list hnd := match ikids y with Some ks => ks | None => [] end.
Definition handles (w : igraph) : list hnd := flat_map slot_handles (islots w) ++ flat_map node_handles (inodes w).
Definition number (w : igraph) (h : hnd) : Z := Z.of_nat (count_occ hnd_dec (handles w) h).

Definition alive (w : igraph) (n : nat) : Prop := exists v ks, nth_error (inodes w) n = Some (MkI v (Some ks)).
Definition held (w : igraph) (i : nat) (h : hnd) : Prop := nth_error (islots w) i = Some (SHeld h).

(** The destructor of value [n] starts. *)
Definition kill (w : igraph) (n : nat) (v : rvalue) : igraph :=
  MkIG (upd (inodes w) n (MkI v None)) (islots w) (ilog w ++ [Dropped v]).

(** The handles [hs] go away, in this order; [p]: a destructor has panicked.  A value dies with its last strong handle, and then its
    own handles go next, in order. *)
Inductive settles (boom : rvalue -> bool) : igraph -> list hnd -> bool -> igraph -> gres -> Prop :=
| se_nil w p : settles boom w [] p w (if p then GPanic else GOk)
| se_weak w n hs p w' r : settles boom w hs p w' r -> settles boom w (HW n :: hs) p w' r
| se_shared w n hs p w' r : In (HS n) (handles w ++ hs) -> settles boom w hs p w' r -> settles boom w (HS n :: hs) p w' r
| se_last w n hs p v ks w' r : ~ In (HS n) (handles w ++ hs) -> nth_error (inodes w) n = Some (MkI v (Some ks)) ->
    (boom v = true -> p = false) -> settles boom (kill w n v) (ks ++ hs) (p || boom v) w' r -> settles boom w (HS n :: hs) p w' r
| se_abort w n hs v ks : ~ In (HS n) (handles w ++ hs) -> nth_error (inodes w) n = Some (MkI v (Some ks)) ->
    boom v = true -> settles boom w (HS n :: hs) true (kill w n v) GAbort.

Definition with_slot (w : igraph) (i : nat) (x : slot) : igraph := MkIG (inodes w) (upd (islots w) i x) (ilog w).
Definition and_slot (w : igraph) (h : hnd) : igraph := MkIG (inodes w) (islots w ++ [SHeld h]) (ilog w).
Definition with_kids (w : igraph) (n : nat) (v : rvalue) (ks : option (list hnd)) : igraph :=
  MkIG (upd (inodes w) n (MkI v ks)) (islots w) (ilog w).

Definition of_gres (r : gres) : ganswer :=
  match r with GOk => GA ADone | GPanic => GA APanic | GAbort => GAborted | GUb => GA AUb end.

(** What a program can write. *)
Definition gpermitted (w : igraph) (o : gop) : Prop :=
  match o with
  | GNew _ => True
  | GClone i | GDrop i | GForget i | GStrong i | GWeak i => exists h, held w i h
  | GDowngrade i | GUnwrap i | GRead i => exists n, held w i (HS n)
  | GUpgrade i => exists n, held w i (HW n)
  | GGet i k | GTake i k => exists n v ks h, held w i (HS n) /\ nth_error (inodes w) n = Some (MkI v (Some ks)) /\ nth_error ks k = Some h
  | GPut i j => exists n h, held w i (HS n) /\ held w j h /\ i <> j
  end.

Inductive istep (boom : rvalue -> bool) (w : igraph) : gop -> ganswer -> igraph -> Prop :=
| i_new v : istep boom w (GNew v) (GA (ATok (length (islots w))))
    (MkIG (inodes w ++ [MkI v (Some [])]) (islots w ++ [SHeld (HS (length (inodes w)))]) (ilog w ++ [Put v]))
| i_clone i h : held w i h -> istep boom w (GClone i) (GA (ATok (length (islots w)))) (and_slot w h)
| i_get i k n v ks h : held w i (HS n) -> nth_error (inodes w) n = Some (MkI v (Some ks)) -> nth_error ks k = Some h ->
    istep boom w (GGet i k) (GA (ATok (length (islots w)))) (and_slot w h)
| i_down i n : held w i (HS n) -> istep boom w (GDowngrade i) (GA (ATok (length (islots w)))) (and_slot w (HW n))
| i_up i n : held w i (HW n) -> alive w n -> istep boom w (GUpgrade i) (GA (ATok (length (islots w)))) (and_slot w (HS n))
| i_up_dead i n : held w i (HW n) -> ~ alive w n -> istep boom w (GUpgrade i) (GA ANone) w
| i_drop i h w' r : held w i h -> settles boom (with_slot w i SGone) [h] false w' r -> istep boom w (GDrop i) (of_gres r) w'
| i_forget i h : held w i h -> istep boom w (GForget i) (GA ADone) (with_slot w i (SForgot h))
| i_put i j n v ks h : held w i (HS n) -> held w j h -> i <> j -> nth_error (inodes w) n = Some (MkI v (Some ks)) ->
    istep boom w (GPut i j) (GA ADone) (with_slot (with_kids w n v (Some (ks ++ [h]))) j SGone)
| i_take i k n v ks1 h ks2 : held w i (HS n) -> nth_error (inodes w) n = Some (MkI v (Some (ks1 ++ h :: ks2))) -> length ks1 = k ->
    istep boom w (GTake i k) (GA (ATok (length (islots w)))) (and_slot (with_kids w n v (Some (ks1 ++ ks2))) h)
| i_unwrap i n v ks : held w i (HS n) -> nth_error (inodes w) n = Some (MkI v (Some ks)) -> number w (HS n) = 1 ->
    istep boom w (GUnwrap i) (GA (AVal v))
      (MkIG (upd (inodes w) n (MkI v None)) (upd (islots w) i (SHeld (HW n)) ++ map SHeld ks) (ilog w ++ [Took v]))
| i_unwrap_no i n : held w i (HS n) -> number w (HS n) <> 1 -> istep boom w (GUnwrap i) (GA AErr) w
| i_read i n v ks : held w i (HS n) -> nth_error (inodes w) n = Some (MkI v (Some ks)) -> istep boom w (GRead i) (GA (AVal v)) w
| i_strong i n h : held w i h -> h = HS n \/ h = HW n -> istep boom w (GStrong i) (GA (ANum (number w (HS n)))) w
| i_weak i n h : held w i h -> h = HS n \/ h = HW n -> alive w n -> istep boom w (GWeak i) (GA (ANum (number w (HW n) + 1))) w
| i_weak_dead i n h : held w i h -> h = HS n \/ h = HW n -> ~ alive w n -> istep boom w (GWeak i) (GA (ANum (number w (HW n)))) w
| i_invalid o : ~ gpermitted w o -> istep boom w o (GA AInvalid) w.

Inductive iruns (boom : rvalue -> bool) : igraph -> list (gop * ganswer) -> igraph -> Prop :=
| ir_nil w : iruns boom w [] w
| ir_cons w o a w1 h w2 : istep boom w o (GA a) w1 -> iruns boom w1 h w2 -> iruns boom w ((o, GA a) :: h) w2
| ir_abort w o w1 : istep boom w o GAborted w1 -> iruns boom w [(o, GAborted)] w1.

Definition i_init : igraph := MkIG [] [] [].

(** Reachable by strong handles from a variable (or from a forgotten handle). *)
Inductive reachable (w : igraph) : nat -> Prop :=
| re_root i x n : nth_error (islots w) i = Some x -> In (HS n) (slot_handles x) -> reachable w n
| re_kid n v ks m : reachable w n -> nth_error (inodes w) n = Some (MkI v (Some ks)) -> In (HS m) ks -> reachable w m.

(** No cycles of strong handles: owners have smaller ranks. *)
Definition acyclic (w : igraph) : Prop :=
  exists rank : nat -> nat, forall n v ks m, nth_error (inodes w) n = Some (MkI v (Some ks)) -> In (HS m) ks -> (rank n < rank m)%nat.

Definition living (w : igraph) : list rvalue :=
  flat_map (fun y => match ikids y with Some _ => [ival y] | None => [] end) (inodes w).

(** The number of handles that a program can make. *)
Definition few (t : target) (os : list gop) : Prop := Z.of_nat (length os) + 2 <= usize_max t.
