(** * SyncSpec: what clients of a [Bump] can write down about a history of calls. *)
From Verif Require Import Base Spec SyncModel.

(** The layout a call asks for. *)
Definition call_layout (c : call) : option layout :=
  match c with
  | CAlloc l | CAllocAt l _ | CGet l | CGetAt l _ => Some l
  | CLevel | CReset => None
  end.

(** Calls that type-check: layouts are valid and levels are usize values. *)
Definition valid_call (t : target) (c : call) : Prop :=
  match c with
  | CAlloc l => valid_layout t l
  | CAllocAt l lv => valid_layout t l /\ is_usize t lv
  | CGet l => type_layout t l
  | CGetAt l lv => type_layout t l /\ is_usize t lv
  | CLevel | CReset => True
  end.

Definition is_reset (c : call) : bool := match c with CReset => true | _ => false end.

(** The block handed out by a call, if any. *)
Definition event_block (e : event) : option block :=
  match e with
  | (c, RBlock a) => match call_layout c with
                     | Some l => Some (MkBlock (ptr a) (lsize l))
                     | None => None
                     end
  | _ => None
  end.

(** Blocks handed out since the last reset, oldest first: [acc] are those known already. *)
Fixpoint blocks_since_reset (acc : list block) (h : list event) : list block :=
  match h with
  | [] => acc
  | e :: h' =>
      if is_reset (fst e) then blocks_since_reset [] h'
      else match event_block e with
           | Some b => blocks_since_reset (acc ++ [b]) h'
           | None => blocks_since_reset acc h'
           end
  end.

(** A block handed out for layout [l] is good. *)
Definition good_block (st : block) (l : layout) (p : Z) : Prop :=
  aligned p (lalign l) /\ inside (MkBlock p (lsize l)) st /\ p <> 0.

(** Levels reported in a history (by level(), by allocations and by mismatches), oldest first. *)
Definition event_level (e : event) : option Z :=
  match snd e with
  | RBlock a => Some (alevel a)
  | RLevel lv => Some lv
  | RFail (Mismatch lv) => Some lv
  | _ => None
  end.

Fixpoint levels (h : list event) : list Z :=
  match h with
  | [] => []
  | e :: h' => match event_level e with Some lv => lv :: levels h' | None => levels h' end
  end.

Definition no_reset (cs : list call) : Prop := Forall (fun c => is_reset c = false) cs.

(** A client that allocates a list of layouts, each at the level returned for the one before, starting
    at level [lv]; it gives up at the first failure. *)
Fixpoint chain_at (t : target) (s : slab) (lv : Z) (ls : list layout)
  : slab * option (list block) :=
  match ls with
  | [] => (s, Some [])
  | l :: ls' =>
      match step t s (CAllocAt l lv) with
      | (s', RBlock a) =>
          match chain_at t s' (alevel a) ls' with
          | (s'', Some bs) => (s'', Some (MkBlock (ptr a) (lsize l) :: bs))
          | (s'', None) => (s'', None)
          end
      | (s', _) => (s', None)
      end
  end.

(** States of a slab over region [st] that some client can bring about. *)
Definition reach (t : target) (st : block) (s : slab) : Prop :=
  exists cs, Forall (valid_call t) cs /\ fst (run t (fresh st) cs) = s.

(** All blocks end at or before the address [lim]. *)
Definition ends_within (lim : Z) (bs : list block) : Prop :=
  Forall (fun b => start b + size b <= lim) bs.
