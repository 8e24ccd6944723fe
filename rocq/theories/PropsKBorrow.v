(** * PropsKBorrow: Chain follows the aliasing rules (Stacked Borrows), and the blocks of its links are independent allocations. *)
From Verif Require Import Base Spec BaseFacts SyncModel SyncSpec UnsyncModel UnsyncSpec ChainModel ChainSpec ChainProofs BorrowModel BorrowSpec BorrowProofs UBorrowModel UBorrowSpec KBorrowModel KBorrowSpec KBorrowWorld KBorrowLocal PropsSync PropsChain.
Import ChainModel.

(** Whatever a program does with any number of chains, in any order: all of its answers are those of a program whose blocks are separate
    allocations, each gone when its link is freed.  An access of the client is undefined behaviour exactly if it would be with a separate
    allocation. *)
Theorem C104_blocks_are_separate t os : valid_target t -> kprog_ok t knew os -> exists i, kiruns t kideal_new (snd (krun t knew os)) i.
Proof. intros V P. destruct (krun_invb t os V _ _ _ (kinvb_new t) P) as (i & f & R & _). eauto. Qed.

(** The library itself has no undefined behaviour: not in any call, and not when links are freed. *)
Theorem C104_library_never_ub t os : valid_target t -> kprog_ok t knew os -> forall o, In (o, KUB) (snd (krun t knew os)) -> exists p j a, o = KAct p j a.
Proof. intros V P. destruct (C104_blocks_are_separate t os V P) as (i & R). exact (kiruns_ub t _ _ _ R). Qed.

(** Programs that read and write through the pointers they got, in any order and interleaved with calls, have no undefined behaviour. *)
Theorem C104_plain_programs_never_ub t os : valid_target t -> kprog_ok t knew os -> Forall kplain os -> forall o, ~ In (o, KUB) (snd (krun t knew os)).
Proof.
  intros V P Pl. destruct (C104_blocks_are_separate t os V P) as (i & R). apply (kiruns_plain t _ _ _ R).
  - intros [|p]; constructor.
  - rewrite <- (krun_fst t os knew) in Pl. rewrite Forall_map in Pl. exact Pl.
Qed.

(** The calls behave as in the model without tags. *)
Theorem C104_calls_unchanged t os : valid_target t -> kprog_ok t knew os ->
  crun t empty_world (cops_of os) = Some (kw (fst (krun t knew os)), canswers_of (snd (krun t knew os))).
Proof. intros V P. destruct (krun_invb t os V _ _ _ (kinvb_new t) P) as (i & f & _ & _ & E). exact E. Qed.

(** ** The hypotheses can be met *)
Fixpoint walk (n : nat) (st : list (option link)) (r : option nat) : list nat :=
  match n, r with
  | S n, Some p => match cell st p with Some k => p :: walk n st (lnext k) | None => [] end
  | _, _ => []
  end.

Lemma walk_owns st r ps : owns st r ps -> forall n, (length ps <= n)%nat -> walk n st r = ps.
Proof.
  induction 1 as [|p k ps Hk O IH]; intros n L; [destruct n; reflexivity|]. destruct n as [|n]; cbn [length] in L; [lia|].
  cbn [walk]. rewrite (proj2 (cell_iff _ _ _) Hk), IH by lia. reflexivity.
Qed.

Definition links_of (s : world) (i : nat) : list nat := match cell (chains s) i with Some r => walk (length (store s)) (store s) r | None => [] end.

Lemma links_of_owns s i ps : chain_owns s i ps -> ps = links_of s i.
Proof. intros (r & E & O). unfold links_of. rewrite (proj2 (cell_iff _ _ _) E). symmetry. apply walk_owns; [exact O|]. eapply owns_length; eauto. Qed.

Definition ex_free (w : kworld) (ps : list nat) : bool := forallb (fun p => forallb (fun c => negb (existsb (Nat.eqb c) (kbusy w))) (prots_of w p)) ps.
Definition ex_alive (s : world) (i : nat) : bool := match cell (chains s) i with Some _ => true | None => false end.
Definition ex_lay (l : layout) : bool := (lsize l =? 8) && (lalign l =? 8) || (lsize l =? 2) && (lalign l =? 2).

Definition ex_opb (w : kworld) (o : kop) : bool :=
  match o with
  | KOp (ONew sz (Some a)) _ => existsb (Z.eqb sz) [64; 3; 16] && existsb (Z.eqb a) [4096; 8192; 16384]
  | KOp (ONew _ None) _ => false
  | KOp (OChain i j) _ => negb (Nat.eqb i j) && ex_alive (kw w) i && ex_alive (kw w) j && ex_free w (tl (links_of (kw w) j))
  | KOp (OBumpBox i l) _ => ex_alive (kw w) i && ex_lay l
  | KOp (OCapacity i) _ | KOp (ORemaining i) _ => ex_alive (kw w) i
  | KOp (ODrop i) _ => ex_alive (kw w) i && ex_free w (links_of (kw w) i)
  | _ => true
  end.

Lemma ex_free_ok w ps p c : ex_free w ps = true -> In p ps -> In c (prots_of w p) -> ~ In c (kbusy w).
Proof.
  unfold ex_free. rewrite forallb_forall. intros F Hp Hc B. specialize (F p Hp). rewrite forallb_forall in F. specialize (F c Hc). apply negb_true_iff in F.
  assert (X : existsb (Nat.eqb c) (kbusy w) = true) by (apply existsb_exists; exists c; split; [exact B|apply Nat.eqb_refl]). congruence.
Qed.
Lemma ex_alive_ok s i : ex_alive s i = true -> chain_alive s i.
Proof. unfold ex_alive. destruct (cell (chains s) i) as [r|] eqn:E; [|discriminate]. intros _. exists r. apply cell_iff. exact E. Qed.
Lemma ex_lay_ok l : ex_lay l = true -> type_layout (x64 true) l.
Proof.
  unfold ex_lay. rewrite orb_true_iff, !andb_true_iff, !Z.eqb_eq. intros H. apply ex_type. destruct l as [s a]. cbn [lsize lalign] in H. destruct H as [[-> ->]|[-> ->]]; [left|right]; reflexivity.
Qed.
Lemma ex_opb_ok w o : ex_opb w o = true -> kop_ok (x64 true) w o.
Proof.
  destruct o as [[sz [a|]|i j|i l|i|i|i] u| | |]; cbn [ex_opb kop_ok owner_ok]; rewrite ?andb_true_iff; intros H; auto; try discriminate.
  - destruct H as [H1 H2]. apply existsb_exists in H1. destruct H1 as (z & Z1 & Z2). apply Z.eqb_eq in Z2. subst z. apply existsb_exists in H2. destruct H2 as (b & B1 & B2). apply Z.eqb_eq in B2. subst b.
    split; [|exact Logic.I]. split; [|intros a' l [= <-]; apply ex_link_layouts; auto]. assert (64 <= usize_max (x64 true) /\ 0 <= 3) by (vm_compute; split; congruence).
    unfold is_usize. destruct Z1 as [<-|[<-|[<-|[]]]]; lia.
  - destruct H as [[[H1 H2] H3] H4]. apply negb_true_iff, Nat.eqb_neq in H1. split; [split; [exact H1|split; apply ex_alive_ok; assumption]|].
    intros ps p c O Hp. rewrite (links_of_owns _ _ _ O) in Hp. eapply ex_free_ok; eauto.
  - destruct H as [H1 H2]. split; [split; [apply ex_alive_ok; exact H1|apply ex_lay_ok; exact H2]|exact Logic.I].
  - split; [apply ex_alive_ok; exact H|exact Logic.I].
  - split; [apply ex_alive_ok; exact H|exact Logic.I].
  - destruct H as [H1 H2]. split; [apply ex_alive_ok; exact H1|]. intros ps p c O Hp. rewrite (links_of_owns _ _ _ O) in Hp. eapply ex_free_ok; eauto.
Qed.

Fixpoint ex_progb (w : kworld) (os : list kop) : bool := match os with [] => true | o :: os => ex_opb w o && ex_progb (fst (kstep (x64 true) w o)) os end.
Lemma ex_progb_ok os : forall w, ex_progb w os = true -> kprog_ok (x64 true) w os.
Proof. induction os as [|o os IH]; intros w; cbn [ex_progb kprog_ok]; [auto|]. rewrite andb_true_iff. intros [H1 H2]. split; [apply ex_opb_ok; exact H1|apply IH; exact H2]. Qed.

(** Three chains; a block of link 0 is used by a call in progress while other chains are put together and links freed, and the chain grows. *)
Definition ex_kops (a b c : nat) : list kop :=
  [KOp (ONew 64 (Some 4096)) true; KOp (ONew 3 (Some 8192)) true; KOp (ONew 16 (Some 16384)) true; KOp (OBumpBox 0 ex_u64) true; KAct 0 0 (CWrite a (MkBlock 4120 8));
   KEnter; KAct 0 0 (CRetag a [(RUnique, MkBlock 4120 8)] (Some 0%nat)); KOp (OChain 1 2) true; KOp (OChain 0 1) true; KAct 0 0 (CWrite b (MkBlock 4120 4)); KOp (ORemaining 0) true;
   KOp (OBumpBox 0 ex_u16) false; KAct 2 0 (CWrite c (MkBlock 16408 2)); KExit 0; KAct 0 0 (CRead a (MkBlock 4120 8)); KAct 2 0 (CRead c (MkBlock 16408 2)); KAct 0 0 (CRead b (MkBlock 4120 8));
   KOp (OCapacity 0) true; KOp (ODrop 0) true; KAct 0 0 (CRead a (MkBlock 4120 8))].

Example ex_kops_ok : kprog_ok (x64 true) knew (ex_kops 30 31 57).
Proof. apply ex_progb_ok. vm_compute. reflexivity. Qed.

(** The reference of the call is used after its parent, which is the client's fault; accesses after the drop are accesses to freed memory. *)
Example ex_kops_run : map snd (snd (krun (x64 true) knew (ex_kops 30 31 57))) =
  [KAns ANewOk None; KAns ANewOk None; KAns ANewOk None; KAns (ABox (RBlock (MkAlloc 4120 8))) (Some (0, 30)%nat); KDone; KTag 0; KTag 31; KAns AUnit None; KAns AUnit None; KDone;
   KAns (ASize (Ret 16)) None; KAns (ABox (RBlock (MkAlloc 16408 2))) (Some (2, 57)%nat); KDone; KDone; KDone; KDone; KUB; KAns (ASize (Ret 16)) None; KAns AUnit None; KInvalid].
Proof. vm_compute. reflexivity. Qed.

Example ex_kideal : exists i, kiruns (x64 true) kideal_new (snd (krun (x64 true) knew (ex_kops 30 31 57))) i.
Proof. apply C104_blocks_are_separate; [exact ex_target_ok|exact ex_kops_ok]. Qed.

(** The last condition of [kop_ok] is needed: a chain that is dropped while a call in progress has a reference to one of its blocks is undefined behaviour. *)
Example ex_drop_in_call : map snd (snd (krun (x64 true) knew
    [KOp (ONew 64 (Some 4096)) true; KOp (OBumpBox 0 ex_u64) true; KEnter; KAct 0 0 (CRetag 30 [(RUnique, MkBlock 4120 8)] (Some 0%nat)); KOp (ODrop 0) true])) =
  [KAns ANewOk None; KAns (ABox (RBlock (MkAlloc 4120 8))) (Some (0, 30)%nat); KTag 0; KTag 31; KUB].
Proof. vm_compute. reflexivity. Qed.

(** Which accesses are steps of a client: those to a block of a link that was not freed, through a pointer that the client has to the block, to
    a part of the block; an argument belongs to a function that is in progress. *)
Theorem C104_client_accesses t os p j a : valid_target t -> kprog_ok t knew os -> let w := fst (krun t knew os) in
  snd (kstep t w (KAct p j a)) <> KInvalid <->
  link_live (kw w) p /\ exists o, nth_error (nth p (kobjs w) []) j = Some o /\ client_access o a /\ argument_of (kbusy w) a.
Proof.
  intros V KP w. assert (L : length (ksbs w) = length (store (kw w))) by (destruct (krun_invb t os V _ _ _ (kinvb_new t) KP) as (i & f & _ & (ss & I & [R _] & _) & _); exact (eq_trans (eq_sym R) (k_sbs _ _ _ _ I))).
  clearbody w. clear os KP. assert (P : prot_ok (kbusy w) a = true <-> argument_of (kbusy w) a).
  { unfold argument_of. destruct a as [t0 b|t0 b|t0 parts [c|]]; cbn [prot_ok]; try (split; [intros _ ? ? ?; discriminate|reflexivity]).
    rewrite has_tag. split; [intros I1 ? ? ? [= <- <- <-]; exact I1|intros H; eapply H; reflexivity]. }
  cbn [kstep]. unfold objs_of, link_live. destruct (cell (store (kw w)) p) as [c|] eqn:C.
  2:{ split; [intros X; now destruct X|]. intros [[k X] _]. unfold cell in C. rewrite X in C. discriminate. }
  assert (LN : nth_error (store (kw w)) p = Some (Some c)) by (now apply cell_iff).
  assert (LT : (p < length (store (kw w)))%nat) by (apply nth_error_Some; congruence).
  destruct (nth_error (nth p (kobjs w) []) j) as [o|] eqn:O; [|split; [intros X; now destruct X|intros (_ & o & E & _); discriminate]].
  destruct (nth_error (ksbs w) p) as [s|] eqn:S0; [|apply nth_error_None in S0; lia].
  pose proof (act_ok_iff o a) as A. destruct (act_ok o a) eqn:E; cbn [andb].
  2:{ split; [intros X; now destruct X|intros (_ & o' & [= <-] & CA & _); apply A in CA; discriminate]. }
  destruct (prot_ok (kbusy w) a) eqn:PE.
  2:{ split; [intros X; now destruct X|intros (_ & o' & [= <-] & _ & PA); apply P in PA; discriminate]. }
  split; [intros _; split; [now exists c|exists o; split; [reflexivity|split; [now apply A|now apply P]]]|intros _].
  destruct (do_act (kbusy w) a s) as [[n b]|]; [destruct n|]; discriminate.
Qed.

Print Assumptions C104_blocks_are_separate.
Print Assumptions C104_library_never_ub.
Print Assumptions C104_plain_programs_never_ub.
Print Assumptions C104_calls_unchanged.
Print Assumptions C104_client_accesses.
