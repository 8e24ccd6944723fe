(** * RcSpec: what shared ownership means, by counting handles.

    The reference below has no counters and no addresses: an allocation is a number, the client's handles are
    listed with the allocation they belong to, and every answer is found by counting handles. *)
From Verif Require Import Base Spec UninitModel UninitSpec RcModel.

(** A token of the client: memory, or a strong / weak / raw handle of allocation [a]. *)
Inductive skind := SMem (u : uview) | SStrong (a : nat) | SWeak (a : nat) | SRaw (a : nat).

Record stoken := MkST { sk : skind; sst : status }.

(** An allocation: the value put in last, and the memory it occupies. *)
Record salloc := MkSA { aval : rvalue; areg : uview }.

Record sstate := MkS { stoks : list stoken; sallocs : list salloc; sdropping : list nat; slog : list event }.

(** A handle counts from its creation until it is consumed; a forgotten handle counts forever. *)
Definition counts (k : stoken) : bool := match sst k with Gone => false | _ => true end.

Definition is_strong (a : nat) (k : stoken) : bool :=
  counts k && match sk k with SStrong b => Nat.eqb a b | _ => false end.
Definition is_weak (a : nat) (k : stoken) : bool :=
  counts k && match sk k with SWeak b => Nat.eqb a b | _ => false end.

(** Number of strong handles and of weak handles of allocation [a]. *)
Definition strongs (s : sstate) (a : nat) : Z := Z.of_nat (count (is_strong a) (stoks s)).
Definition weaks (s : sstate) (a : nat) : Z := Z.of_nat (count (is_weak a) (stoks s)).

(** Documented (rc.rs:248-250): all strong handles together count as one weak pointer. *)
Definition weak_pointers (s : sstate) (a : nat) : Z := weaks s a + (if 0 <? strongs s a then 1 else 0).

Definition holds (u : uview) (l : layout) : bool := (uptr u mod lalign l =? 0) && (lsize l <=? ulen u).

Definition stok (s : sstate) (i : nat) : option skind :=
  match nth_error (stoks s) i with
  | Some k => match sst k with Live => Some (sk k) | _ => None end
  | None => None
  end.

Definition s_set (s : sstate) (i : nat) (k : skind) (st : status) : sstate :=
  MkS (upd_nth i (MkST k st) (stoks s)) (sallocs s) (sdropping s) (slog s).
Definition s_add (s : sstate) (k : skind) : sstate :=
  MkS (stoks s ++ [MkST k Live]) (sallocs s) (sdropping s) (slog s).
Definition s_log (s : sstate) (es : list event) : sstate :=
  MkS (stoks s) (sallocs s) (sdropping s) (slog s ++ es).
Definition s_val (s : sstate) (a : nat) (v : rvalue) : sstate :=
  match nth_error (sallocs s) a with
  | Some x => MkS (stoks s) (upd_nth a (MkSA v (areg x)) (sallocs s)) (sdropping s) (slog s)
  | None => s
  end.

Definition alloc_of (s : sstate) (a : nat) : salloc := nth a (sallocs s) (MkSA 0 (MkView 0 0 0)).

Definition sstep (t : target) (s : sstate) (o : rop) : sstate * answer :=
  match o with
  | RNew i v l =>
      match stok s i with
      | Some (SMem u) =>
          if holds u (rc_layout t l) then
            (s_log (MkS (upd_nth i (MkST (SStrong (length (sallocs s))) Live) (stoks s))
                        (sallocs s ++ [MkSA v u]) (sdropping s) (slog s)) [Put v], ADone)
          else (s_log (s_set s i (SMem u) Gone) [Put v; Dropped v], APanic)
      | _ => (s, AInvalid)
      end
  | RClone i =>
      match stok s i with
      | Some (SStrong a) =>
          if strongs s a <? usize_max t then (s_add s (SStrong a), ATok (length (stoks s))) else (s, APanic)
      | Some (SWeak a) =>
          if weak_pointers s a <? usize_max t then (s_add s (SWeak a), ATok (length (stoks s))) else (s, APanic)
      | _ => (s, AInvalid)
      end
  | RDowngrade i =>
      match stok s i with
      | Some (SStrong a) =>
          if weak_pointers s a <? usize_max t then (s_add s (SWeak a), ATok (length (stoks s))) else (s, APanic)
      | _ => (s, AInvalid)
      end
  | RUpgrade i =>
      match stok s i with
      | Some (SWeak a) =>
          if strongs s a =? 0 then (s, ANone)
          else if strongs s a <? usize_max t then (s_add s (SStrong a), ATok (length (stoks s))) else (s, APanic)
      | _ => (s, AInvalid)
      end
  | RDrop i =>
      match stok s i with
      | Some (SStrong a) =>
          if strongs s a =? 1 then   (* the last one: the value is dropped *)
            let s1 := s_log (s_set s i (SStrong a) Gone) [Dropped (aval (alloc_of s a))] in
            (MkS (stoks s1) (sallocs s1) (a :: sdropping s1) (slog s1), ADone)
          else (s_set s i (SStrong a) Gone, ADone)
      | Some k => (s_set s i k Gone, ADone)
      | None => (s, AInvalid)
      end
  | RDone =>
      match sdropping s with
      | _ :: d => (MkS (stoks s) (sallocs s) d (slog s), ADone)
      | [] => (s, AInvalid)
      end
  | RForget i =>
      match stok s i with
      | Some k => (s_set s i k Forgot, ADone)
      | None => (s, AInvalid)
      end
  | RDeref i =>
      match stok s i with
      | Some (SStrong a) => (s, AVal (aval (alloc_of s a)))
      | _ => (s, AInvalid)
      end
  | RGetMut i w =>
      match stok s i with
      | Some (SStrong a) =>
          if (strongs s a =? 1) && (weaks s a =? 0) then
            match w with
            | Some v => (s_log (s_val s a v) [Put v; Took (aval (alloc_of s a))], AVal (aval (alloc_of s a)))
            | None => (s, AVal (aval (alloc_of s a)))
            end
          else (s, ANone)
      | _ => (s, AInvalid)
      end
  | RIntoRaw i =>
      match stok s i with
      | Some (SStrong a) =>
          if (strongs s a =? 1) && (weaks s a =? 0) then (s_set s i (SRaw a) Live, ADone) else (s, AErr)
      | _ => (s, AInvalid)
      end
  | RFromRaw i =>
      match stok s i with
      | Some (SRaw a) => (s_set s i (SStrong a) Live, ADone)
      | _ => (s, AInvalid)
      end
  | RRawReplace i w =>
      match stok s i with
      | Some (SRaw a) => (s_log (s_val s a w) [Put w; Took (aval (alloc_of s a))], AVal (aval (alloc_of s a)))
      | _ => (s, AInvalid)
      end
  | RRawTake i =>
      match stok s i with
      | Some (SRaw a) =>
          (s_log (s_set s i (SMem (areg (alloc_of s a))) Live) [Took (aval (alloc_of s a))], AVal (aval (alloc_of s a)))
      | _ => (s, AInvalid)
      end
  | RTryUnwrap i =>
      match stok s i with
      | Some (SStrong a) =>
          if strongs s a =? 1 then
            (s_log (s_set s i (SWeak a) Live) [Took (aval (alloc_of s a))], AVal (aval (alloc_of s a)))
          else (s, AErr)
      | _ => (s, AInvalid)
      end
  | RWeakTryUnwrap i =>
      match stok s i with
      | Some (SWeak a) =>
          if (strongs s a =? 0) && (weaks s a =? 1) then (s_set s i (SMem (areg (alloc_of s a))) Live, ADone)
          else (s, AErr)
      | _ => (s, AInvalid)
      end
  | RStrongCount i =>
      match stok s i with
      | Some (SStrong a) | Some (SWeak a) => (s, ANum (strongs s a))
      | _ => (s, AInvalid)
      end
  | RWeakCount i =>
      match stok s i with
      | Some (SStrong a) | Some (SWeak a) => (s, ANum (weak_pointers s a))
      | _ => (s, AInvalid)
      end
  | RPtrEq i j =>
      match stok s i, stok s j with
      | Some (SStrong a), Some (SStrong b) => (s, ABool (Nat.eqb a b))
      | _, _ => (s, AInvalid)
      end
  end.

Fixpoint srun (t : target) (s : sstate) (os : list rop) : sstate * list answer :=
  match os with
  | [] => (s, [])
  | o :: os => let (s1, a) := sstep t s o in let (s2, r) := srun t s1 os in (s2, a :: r)
  end.

Definition sinit (us : list uview) : sstate := MkS (map (fun u => MkST (SMem u) Live) us) [] [] [].

(** Start: any number of existing, pairwise disjoint memory regions. *)
Definition memories (t : target) (us : list uview) : Prop :=
  Forall (fun u => valid_region t (region u) /\ umeta u = 0) us /\ pairwise disjoint (map region us).

(** The types used exist: T and RcBox<T> have a layout that Rust accepts. *)
Definition rop_ok (t : target) (o : rop) : Prop :=
  match o with RNew _ _ l => type_layout t l /\ valid_layout t (rc_layout t l) | _ => True end.

(** The number of handles ever created cannot reach usize::MAX in such a history. *)
Definition short (t : target) (us : list uview) (os : list rop) : Prop :=
  Z.of_nat (length us + length os) < usize_max t.

(** ** Accounting of values *)

Definition puts (es : list event) : list rvalue :=
  flat_map (fun e => match e with Put v => [v] | _ => [] end) es.
Definition drops (es : list event) : list rvalue :=
  flat_map (fun e => match e with Dropped v => [v] | _ => [] end) es.
Definition tooks (es : list event) : list rvalue :=
  flat_map (fun e => match e with Took v => [v] | _ => [] end) es.

(** An allocation that still contains its value: it has a strong handle, or its value was left in the raw
    memory from [into_raw] (giving up raw memory does not drop the value in it). *)
Definition owned (s : sstate) (a : nat) : bool :=
  existsb (fun k => match sk k with SStrong b => counts k && Nat.eqb a b | SRaw b => Nat.eqb a b | _ => false end) (stoks s).

(** The values of these allocations. *)
Definition alive_values (s : sstate) : list rvalue :=
  map (fun a => aval (alloc_of s a)) (filter (owned s) (seq 0 (length (sallocs s)))).

(** ** Histories *)

(** No call of [upgrade] in the history [os] from [s] panics. *)
Definition upgrades_return (t : target) (s : rstate) (os : list rop) : Prop :=
  forall n i, nth_error os n = Some (RUpgrade i) -> nth_error (snd (rrun t s os)) n <> Some APanic.

(** While the destructor of a value runs, nobody asks a [Weak] of the same allocation for the memory. *)
Inductive calm (t : target) : rstate -> list rop -> Prop :=
| calm_nil s : calm t s []
| calm_cons s o os :
    (forall i k, o = RWeakTryUnwrap i -> nth_error (rtoks s) i = Some k -> ~ In (tview k) (rdropping s)) ->
    calm t (fst (rstep t s o)) os -> calm t s (o :: os).

(** A client token that gives access to memory now. *)
Definition live (k : token) : Prop := tstat k = Live.

(** ** Handles as the client sees them *)

Definition kind_eqb (a b : kind) : bool :=
  match a, b with KMem, KMem | KStrong, KStrong | KWeak, KWeak | KRaw, KRaw => true | _, _ => false end.

(** Number of handles of kind [kd], not dropped or consumed, that point to the same box as token [k]. *)
Definition peers (s : rstate) (kd : kind) (k : token) : Z :=
  Z.of_nat (count (fun x => match tstat x with Gone => false | _ => true end && kind_eqb (tkind x) kd &&
                            (uptr (tview x) =? uptr (tview k))) (rtoks s)).

(** The states a client can reach from disjoint memory regions [us] with fewer than usize::MAX calls. *)
Definition rc_reach (t : target) (us : list uview) (os : list rop) (s : rstate) : Prop :=
  memories t us /\ Forall (rop_ok t) os /\ short t us os /\ s = fst (rrun t (rinit us) os).

(** Nothing a client can observe differs. *)
Definition same_rc (s s' : rstate) : Prop :=
  rtoks s' = rtoks s /\ rdropping s' = rdropping s /\ rlog s' = rlog s /\ forall x, rheap s' x = rheap s x.

(** [k] is the only strong handle and there is no weak one. *)
Definition unique (s : rstate) (k : token) : bool := (peers s KStrong k =? 1) && (peers s KWeak k =? 0).
