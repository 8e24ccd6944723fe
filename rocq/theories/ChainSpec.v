(** * ChainSpec *)
From Verif Require Import Base Spec SyncModel SyncSpec UnsyncModel UnsyncSpec ChainModel.

(** The links a chain owns, newest first: following [next] from its root through allocated links. *)
Inductive owns (st : list (option link)) : option nat -> list nat -> Prop :=
| owns_nil : owns st None []
| owns_cons p k ps : nth_error st p = Some (Some k) -> owns st (lnext k) ps -> owns st (Some p) (p :: ps).

(** Chains that still exist (neither dropped nor moved into another one) and what they own. *)
Definition chain_owns (s : world) (i : nat) (ps : list nat) : Prop :=
  exists r, nth_error (chains s) i = Some (Some r) /\ owns (store s) r ps.

Definition chain_alive (s : world) (i : nat) : Prop := exists r, nth_error (chains s) i = Some (Some r).
Definition link_live (s : world) (p : nat) : Prop := exists k, nth_error (store s) p = Some (Some k).

(** The Rust ownership rules for a call: chains used exist, [chain] takes another chain by value; the heap
    returns memory that exists and is aligned for the link. *)
Definition owner_ok (t : target) (s : world) (o : cop) : Prop :=
  match o with
  | ONew sz addr => is_usize t sz /\
      forall a l, addr = Some a -> link_layout_from_size t sz = Some l ->
        valid_region t (MkBlock a (lsize l)) /\ aligned a (lalign l)
  | OChain i j => i <> j /\ chain_alive s i /\ chain_alive s j
  | OBumpBox i l => chain_alive s i /\ type_layout t l
  | OCapacity i | ORemaining i | ODrop i => chain_alive s i
  end.

(** Histories in which each call obeys these rules. *)
Inductive chain_hist (t : target) : world -> list cop -> Prop :=
| hist_nil s : chain_hist t s []
| hist_cons s o os : owner_ok t s o ->
    (forall s' a, cstep t s o = Some (s', a) -> chain_hist t s' os) -> chain_hist t s (o :: os).

Definition chain_reach (t : target) (s : world) : Prop :=
  exists os h, chain_hist t empty_world os /\ crun t empty_world os = Some (s, h).

Definition freed (s : world) : list nat := map fst (frees s).
