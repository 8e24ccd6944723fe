(** * KBorrowModel: what Chain does under the aliasing rules of BorrowModel.

    Every link is an allocation of its own on the heap, with its own stacks of borrows; the pointer [LinkPtr] to it has tag 0.  All fields of
    a link (chain.rs:35-43) are cells, so that a reference &Link is shared-read-write on all of its bytes.  Padding at the end of a link is
    not modelled, nobody accesses it; the variable that contains the Chain itself (one Cell, chain.rs:48-52) is not modelled either. *)
From Verif Require Import Base Spec SyncModel UnsyncModel ChainModel BorrowModel UBorrowModel.

(** chain.rs:35-43: the bytes of the field [next] *)
Definition lk_next (t : target) (k : link) : block := MkBlock (start (udata (lbump k)) - 3 * word_bytes t) (2 * word_bytes t).
(** chain.rs:35-43: the bytes of the field [index] of the field [bump] *)
Definition lk_index (t : target) (k : link) : block := MkBlock (start (udata (lbump k)) - word_bytes t) (word_bytes t).
(** chain.rs:35-43: all bytes of a link *)
Definition lk_all (t : target) (k : link) : block := MkBlock (start (udata (lbump k)) - 3 * word_bytes t) (3 * word_bytes t + size (udata (lbump k))).

Section Link.
Variables (calls : list nat) (t : target) (k : link).

(** chain.rs:111-116 the new reference of [root], and every parameter [&self] of a method of Link *)
Definition link_ref (p : nat) : M nat := one calls RCell (lk_all t k) p.

(** chain.rs:153-155 [as_bump] *)
Definition lk_as_bump (self : nat) : M nat :=
  self <- link_ref self ;; self_ref calls (lk_index t k) (udata (lbump k)) self.

(** chain.rs:65-70 [bump_box] of the root link; the LeakBox is for a type that is Unpin or not *)
Definition lk_bump_box (l : layout) (unpin : bool) : M (ubump * response * option nat) :=
  root <- link_ref 0 ;; b <- lk_as_bump root ;; x_call calls t (lk_index t k) XPtr (lbump k) (UBumpBox l) (XBox unpin) b.

(** chain.rs:95-100 [capacity] of the root link *)
Definition lk_capacity : M unit :=
  root <- link_ref 0 ;; b <- lk_as_bump root ;; mb_capacity calls (lk_index t k) (lbump k) b.

(** chain.rs:105-110 [remaining_capacity] of the root link *)
Definition lk_remaining : M Z :=
  root <- link_ref 0 ;; _ <- lk_capacity ;; b <- lk_as_bump root ;; mb_level calls (lk_index t k) (lbump k) b.

(** chain.rs:83 [new.root()], 139-143 [set_next]: [self.next.replace(next)] *)
Definition lk_set_next : M unit :=
  root <- link_ref 0 ;; self <- link_ref root ;; cell_set calls (lk_next t k) self.

(** chain.rs:146-151 [take_next]: [self.next.take()] *)
Definition lk_take_next (self : nat) : M unit :=
  self <- link_ref self ;; cell_set calls (lk_next t k) self.

(** chain.rs:206 [link.next.take()] through the box *)
Definition lk_box_take (box : nat) : M unit := cell_set calls (lk_next t k) box.

(** chain.rs:141, 149, 205 [Box::from_raw]: a box is unique *)
Definition lk_from_raw : M nat := one calls RUnique (lk_all t k) 0.

(** chain.rs:211-218 [drop] of a link in a box: its parameter [&mut self] is an argument of call [c] *)
Definition lk_drop (box c : nat) : M nat := m_retag_prot calls box [(RUnique, lk_all t k)] (Some c).

(** core: the box is deallocated, which is a write to all of its bytes *)
Definition lk_dealloc (box : nat) : M unit := m_write calls box (lk_all t k).
End Link.

(** ** Many links *)

(** model only: computations on the stacks of all links *)
Definition KM (A : Type) := list bstate -> option (A * list bstate).
(** model only *)
Definition kret {A} (a : A) : KM A := fun ss => Some (a, ss).
(** model only: undefined behaviour *)
Definition kfail {A} : KM A := fun _ => None.
(** model only *)
Definition kbind {A B} (m : KM A) (f : A -> KM B) : KM B := fun ss => match m ss with Some (a, ss) => f a ss | None => None end.
Notation "x <~ m ;; k" := (kbind m (fun x => k)) (at level 61, m at next level, right associativity).
(** model only: an operation on link [p] *)
Definition k_on {A} (p : nat) (m : M A) : KM A :=
  fun ss => match nth_error ss p with
            | Some s => match m s with Some (a, s') => Some (a, BorrowModel.set_nth ss p s') | None => None end
            | None => None
            end.

(** chain.rs:141, 149, 205 [Box::from_raw] of the link that [next] points to *)
Definition k_from_raw (calls : list nat) (t : target) (s : world) (nx : option nat) : KM (option (nat * nat)) :=
  match nx with
  | None => kret None
  | Some q => match cell (store s) q with
              | None => kfail
              | Some k => box <~ k_on q (lk_from_raw calls t k) ;; kret (Some (q, box))
              end
  end.

(** chain.rs:211-218 [Drop for Link] and the deallocation of the box, as ChainModel.drop_box and drop_tail: link [p] in the box with tag [box];
    the current box of the loop is a link and the tag of its box.  [c] is the number of the call of [drop]; the numbers are used again for
    other links, as a link is freed when its [drop] has returned. *)
Fixpoint k_drop_box (t : target) (fuel : nat) (calls : list nat) (c : nat) (s : world) (p box : nat) : KM world :=
  match fuel with
  | O => kfail
  | S n =>
      match cell (store s) p with
      | None => kfail
      | Some k =>
          self <~ k_on p (lk_drop calls t k box c) ;;
          _ <~ k_on p (lk_take_next (c :: calls) t k self) ;;
          current <~ k_from_raw (c :: calls) t (put s p (with_next k None)) (lnext k) ;;
          s' <~ k_drop_tail t n (c :: calls) (S c) (put s p (with_next k None)) current ;;
          _ <~ k_on p (lk_dealloc calls t k box) ;;
          match dealloc_link t s' p with Some s' => kret s' | None => kfail end
      end
  end
with k_drop_tail (t : target) (fuel : nat) (calls : list nat) (c : nat) (s : world) (current : option (nat * nat)) : KM world :=
  match fuel with
  | O => kfail
  | S n =>
      match current with
      | None => kret s
      | Some (q, box) =>
          match cell (store s) q with
          | None => kfail
          | Some k =>
              _ <~ k_on q (lk_take_next calls t k box) ;;
              next <~ k_from_raw calls t (put s q (with_next k None)) (lnext k) ;;
              s' <~ k_drop_box t n calls c (put s q (with_next k None)) q box ;;
              k_drop_tail t n calls c s' next
          end
      end
  end.

(** chain.rs:200-209 [Drop for Chain], the loop from [current] *)
Fixpoint k_drop_chain_loop (t : target) (fuel : nat) (calls : list nat) (c : nat) (s : world) (current : option nat) : KM world :=
  match fuel with
  | O => kfail
  | S n =>
      match current with
      | None => kret s
      | Some p =>
          match cell (store s) p with
          | None => kfail
          | Some k =>
              box <~ k_on p (lk_from_raw calls t k) ;;
              _ <~ k_on p (lk_box_take calls t k box) ;;
              s' <~ k_drop_box t n calls c (put s p (with_next k None)) p box ;;
              k_drop_chain_loop t n calls c s' (lnext k)
          end
      end
  end.

(** chain.rs:200-209 [Drop for Chain] *)
Definition k_drop_chain (t : target) (calls : list nat) (c : nat) (s : world) (i : nat) : KM world :=
  match cell (chains s) i with
  | None => kfail
  | Some r => k_drop_chain_loop t (enough s) calls c (set_root s i None) r
  end.

(** chain.rs:139-143 [set_next]: the old tail is dropped as a box *)
Definition k_set_next (t : target) (calls : list nat) (c : nat) (s : world) (p : nat) (nx : option nat) : KM world :=
  match cell (store s) p with
  | None => kfail
  | Some k =>
      _ <~ k_on p (lk_set_next calls t k) ;;
      old <~ k_from_raw calls t (put s p (with_next k nx)) (lnext k) ;;
      match old with
      | None => kret (put s p (with_next k nx))
      | Some (q, box) => k_drop_box t (enough s) calls c (put s p (with_next k nx)) q box
      end
  end.

(** chain.rs:77-90 [Chain::chain] *)
Definition k_chain (t : target) (calls : list nat) (c : nat) (s : world) (i j : nat) : KM world :=
  match cell (chains s) i, cell (chains s) j with
  | Some self_bump, Some new_root =>
      match new_root with
      | None => k_drop_chain t calls c s j
      | Some root =>
          s1 <~ k_set_next t calls c s root self_bump ;;
          k_drop_chain t calls c (set_root (set_root s1 i (Some (Some root))) j (Some None)) j
      end
  | _, _ => kfail
  end.

(** model only: an operation on the root link of chain [i]; [none] if it has none (chain.rs:66, 97, 107) *)
Definition k_root {A} (s : world) (i : nat) (none : A) (f : nat -> link -> KM A) : KM A :=
  match cell (chains s) i with
  | None => kfail
  | Some None => kret none
  | Some (Some p) => match cell (store s) p with None => kfail | Some k => f p k end
  end.

(** chain.rs:171-184: the heap returns memory that no other pointer can be used to access; an access outside of the allocation is undefined
    behaviour *)
Definition new_link (k : link) : bstate := MkB (allocated [lraw k] (MkItem 0 SharedRW None)) 1.

(** chain.rs:55-118, a call of the client; a new block comes with its link and the tag of the pointer *)
Definition k_call (t : target) (calls : list nat) (c : nat) (s : world) (o : cop) (unpin : bool) : KM (world * cans * option (nat * nat)) :=
  match o with
  | ONew sz addr =>                                     (* 57-62 *)
      match link_alloc t sz addr with
      | LinkErr n => kret (s, ANewErr n, None)
      | LinkOk k _ => fun ss => Some (({| store := store s ++ [Some k]; chains := chains s ++ [Some (Some (length (store s)))]; frees := frees s |}, ANewOk, None), ss ++ [new_link k])
      end
  | OChain i j => s' <~ k_chain t calls c s i j ;; kret (s', AUnit, None)
  | OBumpBox i l =>                                     (* 65-70 *)
      k_root s i (s, ABox (RFail Exhausted), None) (fun p k =>
        x <~ k_on p (lk_bump_box calls t k l unpin) ;;
        let '(b', r, tag) := x in kret (put s p (with_bump k b'), ABox r, match tag with Some n => Some (p, n) | None => None end))
  | OCapacity i =>                                      (* 95-100 *)
      k_root s i (s, ASize (Ret 0), None) (fun p k =>
        _ <~ k_on p (lk_capacity calls t k) ;; kret (s, ASize (Ret (u_capacity (lbump k))), None))
  | ORemaining i =>                                     (* 105-110 *)
      k_root s i (s, ASize (Ret 0), None) (fun p k =>
        lv <~ k_on p (lk_remaining calls t k) ;; kret (s, ASize (op_sub t PC_sub (u_capacity (lbump k)) lv), None))
  | ODrop i => s' <~ k_drop_chain t calls c s i ;; kret (s', AUnit, None)
  end.

(** ** Programs that use chains *)

(** client of the model: calls, accesses to object [j] of link [p], and functions of the client that start and return *)
Inductive kop := KOp (o : cop) (unpin : bool) | KAct (p j : nat) (a : cact) | KEnter | KExit (c : nat).

(** client of the model; [KBlock a p n]: a block at [a] in link [p], to which the client has a pointer with tag [n] *)
Inductive kanswer := KAns (a : cans) (blk : option (nat * nat)) | KTag (n : nat) | KDone | KUB | KInvalid.

(** client of the model: the chains, and for each link the stacks of its bytes, the blocks that the client got and the calls that have
    references to them as arguments; the calls in progress, and the number of the next one *)
Record kworld := MkK { kw : world; ksbs : list bstate; kobjs : list (list bobj); kprots : list (list nat); kbusy : list nat; kcalls : nat }.

(** model only: an argument belongs to a call in progress *)
Definition prot_ok (busy : list nat) (a : cact) : bool :=
  match a with CRetag _ _ (Some c) => existsb (Nat.eqb c) busy | _ => true end.

(** model only *)
Definition prots_after (a : cact) (l : list nat) : list nat := match a with CRetag _ _ (Some c) => c :: l | _ => l end.

(** model only *)
Definition ktag_answer (n : option nat) : kanswer := match n with Some n => KTag n | None => KDone end.

(** client of the model: the blocks and arguments of link [p] *)
Definition objs_of (w : kworld) (p : nat) : list bobj := nth p (kobjs w) [].
(** client of the model *)
Definition prots_of (w : kworld) (p : nat) : list nat := nth p (kprots w) [].

(** client of the model: the blocks after a call *)
Definition kobjs_after (w : kworld) (o : cop) (r : cans) (blk : option (nat * nat)) : list (list bobj) :=
  match o, r, blk with
  | ONew _ _, ANewOk, _ => kobjs w ++ [[]]
  | OBumpBox _ l, ABox (RBlock a), Some (p, n) => BorrowModel.set_nth (kobjs w) p (objs_of w p ++ [MkO (MkBlock (ptr a) (lsize l)) [n]])
  | _, _, _ => kobjs w
  end.

(** client of the model; accesses to blocks of links that were freed are invalid *)
Definition kstep (t : target) (w : kworld) (o : kop) : kworld * kanswer :=
  match o with
  | KOp o u =>
      match k_call t (kbusy w) (kcalls w) (kw w) o u (ksbs w) with
      | Some ((s', r, blk), ss) =>
          (MkK s' ss (kobjs_after w o r blk) (match o, r with ONew _ _, ANewOk => kprots w ++ [[]] | _, _ => kprots w end) (kbusy w) (kcalls w), KAns r blk)
      | None => (w, KUB)
      end
  | KAct p j a =>
      match cell (store (kw w)) p, nth_error (objs_of w p) j, nth_error (ksbs w) p with
      | Some _, Some ob, Some s =>
          if act_ok ob a && prot_ok (kbusy w) a then
            match do_act (kbusy w) a s with
            | Some (n, s') =>
                (MkK (kw w) (BorrowModel.set_nth (ksbs w) p s') (BorrowModel.set_nth (kobjs w) p (BorrowModel.set_nth (objs_of w p) j (new_tag ob n)))
                   (BorrowModel.set_nth (kprots w) p (prots_after a (prots_of w p))) (kbusy w) (kcalls w), ktag_answer n)
            | None => (w, KUB)
            end
          else (w, KInvalid)
      | _, _, _ => (w, KInvalid)
      end
  | KEnter => (MkK (kw w) (ksbs w) (kobjs w) (kprots w) (kcalls w :: kbusy w) (S (kcalls w)), KTag (kcalls w))
  | KExit c => (MkK (kw w) (ksbs w) (kobjs w) (kprots w) (leave (kbusy w) c) (kcalls w), KDone)
  end.

(** client of the model: a program *)
Fixpoint krun (t : target) (w : kworld) (os : list kop) : kworld * list (kop * kanswer) :=
  match os with
  | [] => (w, [])
  | o :: os => let (w1, r) := kstep t w o in let (w2, h) := krun t w1 os in (w2, (o, r) :: h)
  end.

(** client of the model: nothing allocated yet *)
Definition knew : kworld := MkK empty_world [] [] [] [] 0.
