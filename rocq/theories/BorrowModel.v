(** * BorrowModel: the aliasing rules of Rust as checked by Miri (Stacked Borrows), and what static-alloc's Bump does under them.

    Every byte has a stack of items; a pointer carries a tag, and an access through it needs an item with this tag.  The rules are
    those of "Stacked Borrows: An Aliasing Model for Rust" (POPL 2020) with tags for raw pointers: a raw pointer has the tag of the
    reference or pointer it was made from.  They are not part of /repo; everything that is cites it. *)
From Verif Require Import Base Spec SyncModel.

(** ** The rules (model only: not code of /repo) *)

(** model only: Stacked Borrows *)
Inductive perm := Unique | SharedRW | SharedRO | Disabled.

(** model only: Stacked Borrows; [iprot]: the call (if any) whose argument this is *)
Record item := MkItem { itag : nat; iperm : perm; iprot : option nat }.

(** model only: Stacked Borrows; top first *)
Definition stack := list item.

(** model only: Stacked Borrows *)
Definition is_unique (i : item) : bool := match iperm i with Unique => true | _ => false end.
(** model only: Stacked Borrows *)
Definition is_srw (i : item) : bool := match iperm i with SharedRW => true | _ => false end.

(** model only: Stacked Borrows; does the permission allow writes (or reads)? *)
Definition grants (write : bool) (p : perm) : bool :=
  match p with Unique | SharedRW => true | SharedRO => negb write | Disabled => false end.

(** model only: Stacked Borrows; the topmost item with the tag that allows the access, and the items above and below *)
Fixpoint granting (write : bool) (t : nat) (st : stack) : option (stack * item * stack) :=
  match st with
  | [] => None
  | i :: st => if Nat.eqb (itag i) t && grants write (iperm i) then Some ([], i, st)
               else match granting write t st with Some (a, g, b) => Some (i :: a, g, b) | None => None end
  end.

(** model only: Stacked Borrows; is the item an argument of a call in progress? *)
Definition protected (calls : list nat) (i : item) : bool :=
  match iprot i with Some c => existsb (Nat.eqb c) calls | None => false end.

(** model only: Stacked Borrows *)
Definition disable (i : item) : item := if is_unique i then MkItem (itag i) Disabled (iprot i) else i.

(** model only: Stacked Borrows; a read disables the unique items above; [None] is undefined behaviour *)
Definition sb_read (calls : list nat) (t : nat) (st : stack) : option stack :=
  match granting false t st with
  | Some (a, g, b) => if existsb (fun i => is_unique i && protected calls i) a then None else Some (map disable a ++ g :: b)
  | None => None
  end.

(** model only: Stacked Borrows; the items above an item, split into those that are not compatible with a write through it and
    the shared-read-write items adjacent to it *)
Fixpoint split_srw (a : stack) : stack * stack :=
  match a with
  | [] => ([], [])
  | i :: a => let (p, k) := split_srw a in
              match p with [] => if is_srw i then ([], i :: k) else ([i], k) | _ :: _ => (i :: p, k) end
  end.
(** model only: Stacked Borrows *)
Definition incompatible (g : item) (a : stack) : stack * stack := if is_unique g then (a, []) else split_srw a.

(** model only: Stacked Borrows; a write pops the incompatible items above *)
Definition sb_write (calls : list nat) (t : nat) (st : stack) : option stack :=
  match granting true t st with
  | Some (a, g, b) => let (p, k) := incompatible g a in if existsb (protected calls) p then None else Some (k ++ g :: b)
  | None => None
  end.

(** model only: Stacked Borrows; the kinds of references: &mut T, &T, and the bytes of &T inside of an UnsafeCell *)
Inductive rkind := RUnique | RShared | RCell.

(** model only: Stacked Borrows; a new reference with tag [new], made from a pointer with tag [t] *)
Definition sb_retag (calls : list nat) (k : rkind) (t new : nat) (prot : option nat) (st : stack) : option stack :=
  match k with
  | RUnique => match sb_write calls t st with Some st => Some (MkItem new Unique prot :: st) | None => None end
  | RShared => match sb_read calls t st with Some st => Some (MkItem new SharedRO prot :: st) | None => None end
  | RCell => match granting true t st with
             | Some (a, g, b) => let (p, k) := incompatible g a in Some (p ++ MkItem new SharedRW None :: k ++ g :: b)
             | None => None
             end
  end.

(** model only: is the byte in the block? *)
Definition inb (b : block) (x : Z) : bool := (start b <=? x) && (x <? start b + size b).
(** model only: the bytes of a block *)
Definition addrs (b : block) : list Z := map (fun i => start b + Z.of_nat i) (seq 0 (Z.to_nat (size b))).

(** model only: an access to all bytes of a block *)
Definition on_block (b : block) (f : stack -> option stack) (s : Z -> stack) : option (Z -> stack) :=
  if forallb (fun x => match f (s x) with Some _ => true | None => false end) (addrs b)
  then Some (fun x => if inb b x then match f (s x) with Some y => y | None => s x end else s x)
  else None.

(** ** Programs *)

(** model only: the stacks of all bytes, and the next new tag *)
Record bstate := MkB { stk : Z -> stack; nexttag : nat }.

(** model only: computations that may have undefined behaviour ([None]) *)
Definition M (A : Type) := bstate -> option (A * bstate).
(** model only *)
Definition mret {A} (a : A) : M A := fun s => Some (a, s).
(** model only *)
Definition mbind {A B} (m : M A) (f : A -> M B) : M B := fun s => match m s with Some (a, s) => f a s | None => None end.
Notation "x <- m ;; k" := (mbind m (fun x => k)) (at level 61, m at next level, right associativity).

(** model only: read and write through a pointer (no call with protected arguments of the library is in progress: [calls] are those of the client) *)
Definition m_read (calls : list nat) (t : nat) (b : block) : M unit :=
  fun s => match on_block b (sb_read calls t) (stk s) with Some k => Some (tt, MkB k (nexttag s)) | None => None end.
(** model only *)
Definition m_write (calls : list nat) (t : nat) (b : block) : M unit :=
  fun s => match on_block b (sb_write calls t) (stk s) with Some k => Some (tt, MkB k (nexttag s)) | None => None end.
(** model only: a reference made from a pointer, with the kind of each of its parts *)
Fixpoint retag_parts (calls : list nat) (t new : nat) (prot : option nat) (parts : list (rkind * block)) (k : Z -> stack) : option (Z -> stack) :=
  match parts with
  | [] => Some k
  | (kd, b) :: parts => match on_block b (sb_retag calls kd t new prot) k with Some k => retag_parts calls t new prot parts k | None => None end
  end.
(** model only *)
Definition m_retag_prot (calls : list nat) (t : nat) (parts : list (rkind * block)) (prot : option nat) : M nat :=
  fun s => match retag_parts calls t (nexttag s) prot parts (stk s) with Some k => Some (nexttag s, MkB k (S (nexttag s))) | None => None end.
(** model only *)
Definition m_retag (calls : list nat) (t : nat) (parts : list (rkind * block)) : M nat := m_retag_prot calls t parts None.

(** ** static-alloc/src/bump.rs

    [hd] are the bytes of the field [consumed], [st] those of [storage] (bump.rs:147-158); both are UnsafeCells, so that a reference
    &Bump is shared-read-write on all of them.  Every function with a parameter &self makes a new reference at its start. *)
Section Sync.
Variables (calls : list nat) (t : target) (hd : block).

(** bump.rs:147-158 the parameter [&self] of a method *)
Definition self_ref (st : block) (self : nat) : M nat := m_retag calls self [(RCell, hd); (RCell, st)].

(** bump.rs:588-590 [self.storage.get() as *mut T as *mut u8]; the method [get] of UnsafeCell takes a reference, too *)
Definition storage_get (st : block) (self : nat) : M nat :=
  r <- m_retag calls self [(RCell, st)] ;; m_retag calls r [(RCell, st)].

(** bump.rs:776-786 [bump]: the compare_exchange of [consumed] writes if it succeeds *)
Definition b_bump (st : block) (self : nat) (success : bool) : M unit :=
  self <- self_ref st self ;;
  c <- m_retag calls self [(RCell, hd)] ;;
  if success then m_write calls c hd else m_read calls c hd.

(** bump.rs:583-638 [try_alloc_at]: the new state and result are those of SyncModel; the pointer has the tag of [storage.get()] *)
Definition b_try_alloc_at (s : slab) (l : layout) (expect : Z) (self : nat) : M (slab * outcome result * nat) :=
  self <- self_ref (storage s) self ;;
  base <- storage_get (storage s) self ;;
  let (s', r) := try_alloc_at t s l expect in
  match r with
  | Ret (ROk _) => _ <- b_bump (storage s) self true ;; mret (s', r, base)
  | Ret (RErr (Mismatch _)) => _ <- b_bump (storage s) self false ;; mret (s', r, base)
  | _ => mret (s', r, base)
  end.

(** bump.rs:565-572 the loop of [try_alloc] *)
Fixpoint b_try_alloc_loop (fuel : nat) (s : slab) (l : layout) (guess : Z) (self : nat) : M (slab * outcome (option allocation) * nat) :=
  match fuel with
  | O => mret (s, Panic P_fuel, O)
  | S fuel => x <- b_try_alloc_at s l guess self ;;
      match x with
      | (s', Ret (ROk a), base) => mret (s', Ret (Some a), base)
      | (s', Ret (RErr Exhausted), base) => mret (s', Ret None, base)
      | (s', Ret (RErr (Mismatch observed)), _) => b_try_alloc_loop fuel s' l observed self
      | (s', Panic m, base) => mret (s', Panic m, base)
      end
  end.

(** bump.rs:561-573 [try_alloc] *)
Definition b_try_alloc (s : slab) (l : layout) (self : nat) : M (slab * outcome (option allocation) * nat) :=
  self <- self_ref (storage s) self ;; b_try_alloc_loop 2 s l 0 self.

(** bump.rs:557-559 [level] *)
Definition b_level (s : slab) (self : nat) : M Z :=
  self <- self_ref (storage s) self ;;
  c <- m_retag calls self [(RCell, hd)] ;;
  _ <- m_read calls c hd ;; mret (level s).

(** bump.rs:363-365 [alloc], 393-397 [get_layout]; 872-876 and 920-929 the traits *)
Definition b_alloc (s : slab) (l : layout) (self : nat) : M (slab * outcome (option allocation) * nat) :=
  self <- self_ref (storage s) self ;; b_try_alloc s l self.

(** bump.rs:435-448 [get]; 759-761 [zst_fake_alloc] makes a pointer to no bytes, for which the tag does not matter *)
Definition b_get (s : slab) (l : layout) (self : nat) : M (slab * outcome (option allocation) * nat) :=
  self <- self_ref (storage s) self ;;
  if lsize l =? 0 then
    self <- self_ref (storage s) self ;;
    lv <- b_level s self ;; mret (s, Ret (Some (for_zst l lv)), self)
  else b_try_alloc s l self.

(** bump.rs:375-385 [alloc_at], 408-412 [get_layout_at] *)
Definition b_alloc_at (s : slab) (l : layout) (lv : Z) (self : nat) : M (slab * outcome result * nat) :=
  self <- self_ref (storage s) self ;; b_try_alloc_at s l lv self.

(** bump.rs:455-476 [get_at] *)
Definition b_get_at (s : slab) (l : layout) (lv : Z) (self : nat) : M (slab * outcome result * nat) :=
  self <- self_ref (storage s) self ;;
  if lsize l =? 0 then
    self <- self_ref (storage s) self ;;
    cur <- b_level s self ;;
    if negb (cur =? lv) then mret (s, Ret (RErr (Mismatch cur)), self) else mret (s, Ret (ROk (for_zst l cur)), self)
  else b_try_alloc_at s l lv self.

(** bump.rs:802-806 [Allocation::leak]: write the value, and make a reference *)
Definition b_alloc_leak (b : block) (base : nat) : M nat :=
  _ <- m_write calls base b ;; m_retag calls base [(RUnique, b)].

(** leaked.rs: [new_from_raw_non_null] (and bump.rs:820-825 [boxed]): write the value, keep the pointer *)
Definition b_alloc_boxed (b : block) (base : nat) : M nat :=
  _ <- m_write calls base b ;; mret base.

(** bump.rs:351-353 [reset] with the parameter [&mut self]: [self.consumed.get_mut()], and a write to it *)
Definition b_reset (s : slab) (self : nat) : M slab :=
  self <- m_retag calls self [(RUnique, hd); (RUnique, storage s)] ;;
  c <- m_retag calls self [(RUnique, hd)] ;;
  c <- m_retag calls c [(RUnique, hd)] ;;
  _ <- m_write calls c hd ;; mret (reset s).
End Sync.

(** ** Programs that use a Bump *)

(** client of the model: what is done with a block: keep the raw pointer, write a value and make a reference ([leak], [leak_at]), or
    write a value and keep the pointer ([leak_box], [leak_box_at]) *)
Inductive buse := URaw | ULeak | UBoxed.

(** client of the model: accesses through pointers that the client has; [t] is the tag, [prot] the call in progress that has the new
    reference as an argument *)
Inductive cact := CRead (t : nat) (b : block) | CWrite (t : nat) (b : block) | CRetag (t : nat) (parts : list (rkind * block)) (prot : option nat).

(** client of the model *)
Inductive bop :=
| BShare (from : option nat)                    (* a new reference &Bump: from the variable, or from another one *)
| BCall (i : nat) (c : call) (u : buse)         (* a call through reference i *)
| BReset                                        (* reset of the variable *)
| BAct (k : nat) (a : cact)                     (* an access to object k *)
| BEnter                                        (* a function of the client starts ... *)
| BExit (c : nat).                              (* ... and returns *)

(** client of the model *)
Inductive banswer := BResponse (r : response) (tag : option nat) | BTag (tag : nat) | BDone | BUB | BInvalid.

(** client of the model: a block of memory that the client got, and the tags of the pointers to it *)
Record bobj := MkO { oblk : block; otags : list nat }.

(** client of the model; [wowned]: the Bump is a variable of the program (with base tag 0) and not a static, [wbusy]: the calls in progress *)
Record bworld := MkW { wslab : slab; wsb : bstate; wowned : bool; wshares : list nat; wobjs : list bobj; wbusy : list nat; wcalls : nat }.

(** model only: layout of the block asked for *)
Definition asked (c : call) : layout :=
  match c with CAlloc l | CAllocAt l _ | CGet l | CGetAt l _ => l | CLevel | CReset => MkLayout 0 1 end.

(** bump.rs:701-707 [leak], 744-756 [leak_at], 532-537 [leak_box], 544-549 [leak_box_at] have a parameter [&self], too *)
Definition use_self (busy : list nat) (hd : block) (s : slab) (u : buse) (self : nat) : M nat :=
  match u with URaw => mret self | ULeak | UBoxed => self_ref busy hd (storage s) self end.

(** as cited above *)
Definition use_block (busy : list nat) (u : buse) (b : block) (base : nat) : M nat :=
  match u with URaw => mret base | ULeak => b_alloc_leak busy b base | UBoxed => b_alloc_boxed busy b base end.

(** model only: the method that is called *)
Definition b_method (busy : list nat) (t : target) (hd : block) (s : slab) (c : call) (self : nat) : M (slab * response * nat) :=
  match c with
  | CAlloc l => x <- b_alloc busy t hd s l self ;; let '(s', r, base) := x in mret (s', of_option r, base)
  | CAllocAt l lv => x <- b_alloc_at busy t hd s l lv self ;; let '(s', r, base) := x in mret (s', of_result r, base)
  | CGet l => x <- b_get busy t hd s l self ;; let '(s', r, base) := x in mret (s', of_option r, base)
  | CGetAt l lv => x <- b_get_at busy t hd s l lv self ;; let '(s', r, base) := x in mret (s', of_result r, base)
  | CLevel => lv <- b_level busy hd s self ;; mret (s, RLevel lv, self)
  | CReset => mret (s, RUnit, self)
  end.

(** model only: a call through a reference, and the use of the block; the tag of the client's pointer *)
Definition b_call (busy : list nat) (t : target) (hd : block) (s : slab) (c : call) (u : buse) (self : nat) : M (slab * response * option nat) :=
  self <- use_self busy hd s u self ;;
  x <- b_method busy t hd s c self ;;
  let '(s', r, base) := x in
  match r with
  | RBlock a => tag <- use_block busy u (MkBlock (ptr a) (lsize (asked c))) base ;; mret (s', r, Some tag)
  | _ => mret (s', r, None)
  end.

(** model only: the parts of a type do not overlap; they are listed in order *)
Fixpoint apart (parts : list (rkind * block)) : bool :=
  match parts with
  | [] => true
  | (_, b) :: parts => forallb (fun p => start b + size b <=? start (snd p)) parts && apart parts
  end.

(** model only: is the access one through a pointer that the client has to this object, inside of it? *)
Definition act_ok (o : bobj) (a : cact) : bool :=
  let has t := existsb (Nat.eqb t) (otags o) in
  let within b := (start (oblk o) <=? start b) && (start b + size b <=? start (oblk o) + size (oblk o)) in
  match a with
  | CRead t b | CWrite t b => has t && within b
  | CRetag t parts _ => has t && forallb (fun p => within (snd p)) parts && apart parts
  end.

(** model only *)
Definition do_act (busy : list nat) (a : cact) : M (option nat) :=
  match a with
  | CRead t b => _ <- m_read busy t b ;; mret None
  | CWrite t b => _ <- m_write busy t b ;; mret None
  | CRetag t parts p => n <- m_retag_prot busy t parts p ;; mret (Some n)
  end.

(** model only *)
Definition new_tag (o : bobj) (n : option nat) : bobj := match n with Some n => MkO (oblk o) (n :: otags o) | None => o end.
(** model only *)
Definition tag_answer (n : option nat) : banswer := match n with Some n => BTag n | None => BDone end.

(** model only: replace element k of a list *)
Fixpoint set_nth {A} (l : list A) (k : nat) (x : A) : list A :=
  match l, k with
  | [], _ => []
  | _ :: l, O => x :: l
  | y :: l, S k => y :: set_nth l k x
  end.

(** model only: remove a call that has returned *)
Definition leave (busy : list nat) (c : nat) : list nat := filter (fun d => negb (Nat.eqb d c)) busy.

(** client of the model; undefined behaviour is answered by [BUB], and the program is meaningless from there on *)
Definition bstep (t : target) (hd : block) (w : bworld) (o : bop) : bworld * banswer :=
  match o with
  | BShare None =>
      if wowned w then
        match self_ref (wbusy w) hd (storage (wslab w)) 0 (wsb w) with
        | Some (n, b) => (MkW (wslab w) b (wowned w) (wshares w ++ [n]) (wobjs w) (wbusy w) (wcalls w), BDone)
        | None => (w, BUB)
        end
      else (w, BInvalid)
  | BShare (Some i) =>
      match nth_error (wshares w) i with
      | Some self =>
          match self_ref (wbusy w) hd (storage (wslab w)) self (wsb w) with
          | Some (n, b) => (MkW (wslab w) b (wowned w) (wshares w ++ [n]) (wobjs w) (wbusy w) (wcalls w), BDone)
          | None => (w, BUB)
          end
      | None => (w, BInvalid)
      end
  | BCall i c u =>
      match nth_error (wshares w) i, c with
      | None, _ | _, CReset => (w, BInvalid)
      | Some self, _ =>
          match b_call (wbusy w) t hd (wslab w) c u self (wsb w) with
          | Some ((s', r, tag), b) =>
              (MkW s' b (wowned w) (wshares w)
                 (match r, tag with RBlock a, Some n => wobjs w ++ [MkO (MkBlock (ptr a) (lsize (asked c))) [n]] | _, _ => wobjs w end)
                 (wbusy w) (wcalls w), BResponse r tag)
          | None => (w, BUB)
          end
      end
  | BReset =>
      match wowned w, wbusy w with
      | true, [] =>
          match b_reset [] hd (wslab w) 0 (wsb w) with
          | Some (s', b) => (MkW s' b true [] [] [] (wcalls w), BDone)
          | None => (w, BUB)
          end
      | _, _ => (w, BInvalid)
      end
  | BAct k a =>
      match nth_error (wobjs w) k with
      | Some ob =>
          if act_ok ob a then
            match do_act (wbusy w) a (wsb w) with
            | Some (n, b) => (MkW (wslab w) b (wowned w) (wshares w) (set_nth (wobjs w) k (new_tag ob n)) (wbusy w) (wcalls w), tag_answer n)
            | None => (w, BUB)
            end
          else (w, BInvalid)
      | None => (w, BInvalid)
      end
  | BEnter => (MkW (wslab w) (wsb w) (wowned w) (wshares w) (wobjs w) (wcalls w :: wbusy w) (S (wcalls w)), BTag (wcalls w))
  | BExit c => (MkW (wslab w) (wsb w) (wowned w) (wshares w) (wobjs w) (leave (wbusy w) c) (wcalls w), BDone)
  end.

(** client of the model: a program *)
Fixpoint brun (t : target) (hd : block) (w : bworld) (os : list bop) : bworld * list (bop * banswer) :=
  match os with
  | [] => (w, [])
  | o :: os => let (w1, r) := bstep t hd w o in let (w2, h) := brun t hd w1 os in (w2, (o, r) :: h)
  end.

(** model only: the stacks of a new allocation; elsewhere there is no memory, and no access is allowed *)
Definition allocated (bs : list block) (i : item) (x : Z) : stack := if existsb (fun b => inb b x) bs then [i] else [].

(** bump.rs:283-310 a new Bump: as a variable it has a unique base tag; a static is shared, and reference 0 is that of the program *)
Definition bnew (hd st : block) (owned : bool) : bworld :=
  MkW (fresh st) (MkB (allocated [hd; st] (MkItem 0 (if owned then Unique else SharedRW) None)) 1) owned (if owned then [] else [0%nat]) [] [] 0.
