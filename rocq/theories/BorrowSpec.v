(** * BorrowSpec: the ideal that Bump's blocks are compared with: each block is an allocation of its own. *)
From Verif Require Import Base Spec SyncModel SyncSpec BorrowModel.

(** An object of the client: its own stacks of borrows, and the tags of the pointers to it *)
Record iobj := MkI { iblk : block; istk : Z -> stack; itags : list nat }.

(** [iused]: the tags that were given out; [ishares]: the number of references to the Bump *)
Record ideal := MkIdeal { iobjs : list iobj; iused : list nat; iowned : bool; ishares : nat; ibusy : list nat; icalls : nat }.

(** How the client gets the block: a reference is unique, a raw pointer shared. *)
Definition use_perm (u : buse) : perm := match u with ULeak => Unique | URaw | UBoxed => SharedRW end.

(** A new object with a pointer of tag [n]: no other pointer can be used to access it. *)
Definition new_object (b : block) (n : nat) (p : perm) : iobj := MkI b (fun _ => [MkItem n p None]) [n].

Definition with_objs (s : ideal) (os : list iobj) (used : list nat) : ideal :=
  MkIdeal os used (iowned s) (ishares s) (ibusy s) (icalls s).

(** An access to an object by the rules, when only the client's pointers to this object exist *)
Definition ideal_act (busy : list nat) (o : iobj) (a : cact) (n : nat) : option iobj :=
  match a with
  | CRead t b => match on_block b (sb_read busy t) (istk o) with Some k => Some (MkI (iblk o) k (itags o)) | None => None end
  | CWrite t b => match on_block b (sb_write busy t) (istk o) with Some k => Some (MkI (iblk o) k (itags o)) | None => None end
  | CRetag t parts p => match retag_parts busy t n p parts (istk o) with Some k => Some (MkI (iblk o) k (n :: itags o)) | None => None end
  end.

(** The tags that were given out, after an access: a retag gives out a new one. *)
Definition used_after (a : cact) (n : nat) (used : list nat) : list nat := match a with CRetag _ _ _ => n :: used | _ => used end.

Definition act_answer (a : cact) (n : nat) : banswer := match a with CRetag _ _ _ => BTag n | _ => BDone end.

Inductive istep (t : target) (st : block) : ideal -> bop -> banswer -> ideal -> Prop :=
| IShareOwner s : iowned s = true ->
    istep t st s (BShare None) BDone (MkIdeal (iobjs s) (iused s) (iowned s) (S (ishares s)) (ibusy s) (icalls s))
| IShareOwnerNot s : iowned s = false -> istep t st s (BShare None) BInvalid s
| IShare s i : (i < ishares s)%nat ->
    istep t st s (BShare (Some i)) BDone (MkIdeal (iobjs s) (iused s) (iowned s) (S (ishares s)) (ibusy s) (icalls s))
| IShareNot s i : (ishares s <= i)%nat -> istep t st s (BShare (Some i)) BInvalid s
(* the block is aligned, in the slab, and apart from all others; its first pointer is new *)
| ICallBlock s i c u a n : (i < ishares s)%nat -> c <> CReset -> c <> CLevel ->
    let b := MkBlock (ptr a) (lsize (asked c)) in
    inside b st -> aligned (ptr a) (lalign (asked c)) -> Forall (fun o => disjoint b (iblk o)) (iobjs s) -> ~ In n (iused s) ->
    istep t st s (BCall i c u) (BResponse (RBlock a) (Some n)) (with_objs s (iobjs s ++ [new_object b n (use_perm u)]) (n :: iused s))
| ICallOther s i c u r : (i < ishares s)%nat -> c <> CReset -> (forall a, r <> RBlock a) ->
    istep t st s (BCall i c u) (BResponse r None) s
| ICallNot s i c u : (ishares s <= i)%nat \/ c = CReset -> istep t st s (BCall i c u) BInvalid s
| IReset s : iowned s = true -> ibusy s = [] ->
    istep t st s BReset BDone (MkIdeal [] (iused s) (iowned s) 0 [] (icalls s))
| IResetNot s : iowned s = false \/ ibusy s <> [] -> istep t st s BReset BInvalid s
(* accesses follow the rules on the object alone, and are undefined behaviour exactly if they are by these rules *)
| IAct s k a o o' n : nth_error (iobjs s) k = Some o -> act_ok (MkO (iblk o) (itags o)) a = true ->
    ideal_act (ibusy s) o a n = Some o' -> ~ In n (iused s) ->
    istep t st s (BAct k a) (act_answer a n) (with_objs s (set_nth (iobjs s) k o') (used_after a n (iused s)))
| IActUB s k a o n : nth_error (iobjs s) k = Some o -> act_ok (MkO (iblk o) (itags o)) a = true ->
    ideal_act (ibusy s) o a n = None ->
    istep t st s (BAct k a) BUB s
| IActNot s k a : (forall o, nth_error (iobjs s) k = Some o -> act_ok (MkO (iblk o) (itags o)) a = false) -> istep t st s (BAct k a) BInvalid s
| IEnter s : istep t st s BEnter (BTag (icalls s)) (MkIdeal (iobjs s) (iused s) (iowned s) (ishares s) (icalls s :: ibusy s) (S (icalls s)))
| IExit s c : istep t st s (BExit c) BDone (MkIdeal (iobjs s) (iused s) (iowned s) (ishares s) (leave (ibusy s) c) (icalls s)).

(** A program and its answers *)
Inductive iruns (t : target) (st : block) : ideal -> list (bop * banswer) -> ideal -> Prop :=
| INil s : iruns t st s [] s
| ICons s1 o r s2 h s3 : istep t st s1 o r s2 -> iruns t st s2 h s3 -> iruns t st s1 ((o, r) :: h) s3.

Definition ideal_new (owned : bool) : ideal := MkIdeal [] [] owned (if owned then 0 else 1) [] 0.

(** The layouts that the client asks for are valid. *)
Definition bop_ok (t : target) (o : bop) : Prop :=
  match o with BCall _ c _ => valid_call t c | _ => True end.

(** The Bump is somewhere in memory: the counter and the storage are apart. *)
Definition bump_place (t : target) (hd st : block) : Prop := valid_region t st /\ disjoint hd st /\ 0 < size hd.

(** The calls that were made, without the tags *)
Fixpoint calls_of (h : list (bop * banswer)) : list event :=
  match h with
  | [] => []
  | (BCall _ c _, BResponse r _) :: h => (c, r) :: calls_of h
  | (BReset, BDone) :: h => (CReset, RUnit) :: calls_of h
  | _ :: h => calls_of h
  end.

(** Only reads and writes, no references made from references *)
Definition plain (o : bop) : Prop := match o with BAct _ (CRetag _ _ _) => False | _ => True end.

(** The block lies between the first and the last byte of the object. *)
Definition within (o b : block) : Prop := start o <= start b /\ start b + size b <= start o + size o.

(** What a client may try: an access through a pointer that it has to the object, to a part of it; the parts of the type of a reference
    are in the object, in order, and do not overlap. *)
Definition client_access (o : bobj) (a : cact) : Prop :=
  match a with
  | CRead t b | CWrite t b => In t (otags o) /\ within (oblk o) b
  | CRetag t parts _ => In t (otags o) /\ Forall (fun p => within (oblk o) (snd p)) parts /\
      ForallOrdPairs (fun p q => start (snd p) + size (snd p) <= start (snd q)) parts
  end.
