(** * Claims about owning pointers: without_alloc's Box (C54), LeakBox (C55), unsizing (C56). *)
From Verif Require Import Base Spec BaseFacts SyncModel SyncSpec SyncProofs PropsSync SyncMemModel SyncMemProofs
  UninitModel UninitSpec UninitProofs PropsUninit OwnModel OwnSpec OwnProofs.

(** Example: memory of 16 bytes used for a u32, memory for a u64, and a zero-sized place. *)
Definition ex_own : list (uview * layout) :=
  [(MkView 4096 16 0, ex_u32); (MkView 4112 8 0, ex_u64); (MkView 4120 0 0, MkLayout 0 1)].
Definition ex_b4 (x : Z) : list (option Z) := [Some x; Some 0; Some 0; Some 0].
Definition ex_b8 (x : Z) : list (option Z) := ex_b4 x ++ ex_b4 0.
Definition ex_calls : list (nat * oop) :=
  [(0%nat, ONew (ex_b4 7)); (1%nat, OLNew (ex_b8 9)); (2%nat, ONew []); (0%nat, ODeref); (0%nat, OReplace (ex_b4 8)); (0%nat, OUnsize 0 [77]); (0%nat, OIntoRaw);
   (0%nat, OFromRaw); (0%nat, ODeref); (1%nat, OIntoRaw); (1%nat, OFromRaw); (1%nat, OLeakTo); (1%nat, ODeref); (1%nat, OFromMut); (1%nat, OLTake); (0%nat, ODrop);
   (2%nat, OUnsize 0 []); (0%nat, ODrop)].
Example ex_own_ok : owned_memories (x64 true) ex_own.
Proof.
  split.
  - repeat constructor; cbn; try (vm_compute; congruence); try (exists 2; vm_compute; split; congruence); try (exists 3; vm_compute; split; congruence);
      try (exists 0; vm_compute; split; congruence); try (exists 1024; reflexivity); try (exists 514; reflexivity); try (exists 4120; reflexivity).
    all: apply Z.divide_refl.
  - intros [|[|[|i]]] [|[|[|j]]] x y D N M; cbn in N, M; try congruence; try (destruct i; discriminate); try (destruct j; discriminate);
      injection N as <-; injection M as <-; apply disjoint_intro; cbn; lia.
Qed.
Example ex_calls_ok : Forall (oop_ok (x64 true)) ex_calls.
Proof. unfold ex_calls. repeat constructor. Qed.

(** C54, C55. For every history of Box and LeakBox calls on any number of owners: the life of the value in each
    place is regular (see [life]: put once, then dropped once or moved out once, and the destructor or the receiver
    sees exactly the value put there); a token shows the value that is in its place, and the place is empty iff the
    token is memory only or consumed. *)
Theorem C54_lifecycle : forall t us m cs s i k, own_reach t us m cs s -> nth_error (otoks s) i = Some k ->
  life (events_of i (olog s)) = Some (if with_value (okd k) then Some (mem_read (omem s) (uptr (oview k)) (lsize (olay k))) else None).
Proof. intros t us m cs s i k H N. destruct (own_reach_inv t us m cs s H) as (_ & _ & L & _). exact (L i k N). Qed.
Print Assumptions C54_lifecycle.

Example C54_nonvacuous :
  let (s, a) := orun (x64 true) (oinit ex_own (fun _ => None)) ex_calls in
  a = [OADone; OADone; OADone; OABytes (ex_b4 7); OABytes (ex_b4 7); OADone; OADone; OADone; OABytes (ex_b4 8); OADone; OADone; OADone;
       OABytes (ex_b8 9); OADone; OABytes (ex_b8 9); OADone; OAPanic; OAInvalid] /\
  events_of 0 (olog s) = [OPut (ex_b4 7); OTook (ex_b4 7); OPut (ex_b4 8); ODropped (ex_b4 8)] /\
  events_of 1 (olog s) = [OPut (ex_b8 9); OTook (ex_b8 9)] /\ events_of 2 (olog s) = [OPut []; ODropped []].
Proof. vm_compute. auto. Qed.

(** What each call on a [Box] with value [bs] does: which of them end the life of the value, and how; the box and
    what comes out of it stay at the same place with the same size. *)
Theorem C54_box_calls : forall t us m cs s i k bs, own_reach t us m cs s -> nth_error (otoks s) i = Some k -> okd k = OBox ->
  life (events_of i (olog s)) = Some (Some bs) ->
  let after o := fst (ostep t s (i, o)) in let answer o := snd (ostep t s (i, o)) in
  let now o kd es := exists k', nth_error (otoks (after o)) i = Some k' /\ okd k' = kd /\ uptr (oview k') = uptr (oview k) /\
    olay k' = olay k /\ olog (after o) = olog s ++ map (pair i) es in
  answer ODeref = OABytes bs /\ after ODeref = s /\
  answer ODrop = OADone /\ now ODrop OGone [ODropped bs] /\
  (osized k = true -> answer OTake = OABytes bs /\ now OTake OUninit [OTook bs] /\
     exists k', nth_error (otoks (after OTake)) i = Some k' /\ oview k' = oview k) /\
  answer OIntoRaw = OADone /\ now OIntoRaw OInit [] /\
  (exists k', nth_error (otoks (after OIntoRaw)) i = Some k' /\ oview k' = oview k) /\
  answer OLeakTo = OADone /\ now OLeakTo ORef [] /\
  answer OForget = OADone /\ now OForget OLost [].
Proof.
  intros t us m cs s i k bs H N K L after answer now. destruct (own_reach_inv t us m cs s H) as (_ & _ & LL & _).
  rewrite (LL i k N), K in L. cbn [with_value] in L. injection L as E.
  assert (ST : forall o, ostep t s (i, o) = ostep t s (i, o)) by reflexivity.
  unfold now, after, answer, ostep. rewrite N, K. unfold box_take, box_into_raw, own_deref, own_drop. rewrite E. cbn [fst snd].
  assert (Q : forall k' mm es, nth_error (otoks (oset s i k' mm es)) i = Some k') by (intros; unfold oset; cbn [otoks]; eapply upd_nth_nth_eq; exact N).
  assert (V : MkView (uptr (oview k)) (ulen (oview k)) (umeta (oview k)) = oview k) by (destruct (oview k); reflexivity).
  repeat match goal with
    | |- _ /\ _ => split
    | |- (osized k = true -> _) => intros ->
    | |- exists k', nth_error _ i = Some k' /\ _ => eexists; split; [apply Q|]
    end; cbn; rewrite ?app_nil_r, ?V; reflexivity.
Qed.
Print Assumptions C54_box_calls.

Example C54_box_calls_nonvacuous : exists k, let s := fst (orun (x64 true) (oinit ex_own (fun _ => None)) (firstn 5 ex_calls)) in
  own_reach (x64 true) ex_own (fun _ => None) (firstn 5 ex_calls) s /\
  nth_error (otoks s) 0 = Some k /\ okd k = OBox /\ osized k = true /\ life (events_of 0 (olog s)) = Some (Some (ex_b4 8)).
Proof.
  eexists. split; [split; [exact ex_own_ok|split; [repeat constructor|reflexivity]]|]. split; [vm_compute; reflexivity|]. vm_compute. auto.
Qed.

(** [new] puts the value into the given place, and the box shows it; [from_raw] after [into_raw] is the identity. *)
Theorem C54_new : forall t us m cs s i k bs, own_reach t us m cs s -> nth_error (otoks s) i = Some k -> okd k = OUninit ->
  osized k = true -> Z.of_nat (length bs) = lsize (olay k) ->
  let s' := fst (ostep t s (i, ONew bs)) in
  snd (ostep t s (i, ONew bs)) = OADone /\ olog s' = olog s ++ [(i, OPut bs)] /\
  nth_error (otoks s') i = Some (MkOT OBox (oview k) (olay k) true) /\ snd (ostep t s' (i, ODeref)) = OABytes bs.
Proof.
  intros t us m cs s i k bs H N K SZ LB s'. unfold s', ostep. rewrite N, K. unfold sized_val. rewrite SZ, LB, Z.eqb_refl. cbn [andb box_new fst snd].
  assert (Q : forall k' mm es, nth_error (otoks (oset s i k' mm es)) i = Some k') by (intros; unfold oset; cbn [otoks]; eapply upd_nth_nth_eq; exact N).
  rewrite Q. split; [reflexivity|]. split; [reflexivity|]. split; [unfold become; rewrite SZ; reflexivity|].
  cbn [fst snd oset omem become oview olay okd]. unfold own_deref. rewrite <- LB. f_equal. apply write_read. reflexivity.
Qed.
Print Assumptions C54_new.

Theorem C54_raw_round_trip : forall t us m cs s i k, own_reach t us m cs s -> nth_error (otoks s) i = Some k ->
  okd k = OBox \/ okd k = OLeak -> fst (orun t s [(i, OIntoRaw); (i, OFromRaw)]) = s.
Proof.
  intros t us m cs s i k H N K. cbn [orun]. unfold ostep at 1. rewrite N.
  assert (Q : forall k' mm es, nth_error (otoks (oset s i k' mm es)) i = Some k') by (intros; unfold oset; cbn [otoks]; eapply upd_nth_nth_eq; exact N).
  assert (U : forall k1, upd_nth i k (upd_nth i k1 (otoks s)) = otoks s).
  { clear - N. generalize dependent i. induction (otoks s) as [|x l IH]; intros [|i] N k1; try discriminate; cbn in *; [congruence|f_equal; auto]. }
  destruct K as [K|K]; rewrite K; unfold ostep; rewrite Q; cbn [become okd fst box_into_raw box_from_raw lb_into_raw lb_from_raw oview];
    unfold oset, become; cbn [otoks omem olog map olay osized]; rewrite !app_nil_r.
  - assert (MkOT OBox (box_into_raw (oview k)) (olay k) (osized k) = k) as -> by (destruct k as [? [? ? ?] ? ?]; cbn in *; unfold box_into_raw; cbn; congruence).
    rewrite U. destruct s; reflexivity.
  - assert (MkOT OLeak (lb_into_raw (oview k)) (olay k) (osized k) = k) as -> by (destruct k; cbn in *; unfold lb_into_raw; cbn; congruence). rewrite U. destruct s; reflexivity.
Qed.
Print Assumptions C54_raw_round_trip.

(** Owners never share memory: places of different tokens are disjoint, aligned and large enough. *)
Theorem C54_places : forall t us m cs s i j k k', own_reach t us m cs s -> i <> j ->
  nth_error (otoks s) i = Some k -> nth_error (otoks s) j = Some k' -> okd k <> OGone -> okd k' <> OGone ->
  disjoint (region (oview k)) (region (oview k')) /\ aligned (uptr (oview k)) (lalign (olay k)) /\ lsize (olay k) <= ulen (oview k).
Proof.
  intros t us m cs s i j k k' H D N N' G G'. destruct (own_reach_inv t us m cs s H) as (F & P & _).
  assert (C : forall x, x <> OGone -> claims x = true) by (intros []; congruence || reflexivity).
  split; [apply (P i j k k'); auto|]. rewrite Forall_forall in F. destruct (F k (nth_error_In _ _ N) (C _ G)) as (_ & _ & A & B). auto.
Qed.
Print Assumptions C54_places.

(** C55. What each call on a [LeakBox] with value [bs] does. *)
Theorem C55_leakbox_calls : forall t us m cs s i k bs, own_reach t us m cs s -> nth_error (otoks s) i = Some k -> okd k = OLeak ->
  life (events_of i (olog s)) = Some (Some bs) ->
  let after o := fst (ostep t s (i, o)) in let answer o := snd (ostep t s (i, o)) in
  let now o kd es := exists k', nth_error (otoks (after o)) i = Some k' /\ okd k' = kd /\ oview k' = oview k /\ olay k' = olay k /\
    olog (after o) = olog s ++ map (pair i) es in
  answer ODeref = OABytes bs /\ after ODeref = s /\
  answer ODrop = OADone /\ now ODrop OGone [ODropped bs] /\
  (osized k = true -> answer OLTake = OABytes bs /\ now OLTake OGone [OTook bs]) /\
  answer OIntoRaw = OADone /\ now OIntoRaw ORaw [] /\
  answer OLeakTo = OADone /\ now OLeakTo ORef [] /\
  answer OIntoPin = OADone /\ now OIntoPin OPin [] /\
  answer OForget = OADone /\ now OForget OLost [] /\
  (forall b, osized k = true -> Z.of_nat (length b) = lsize (olay k) ->
     answer (OReplace b) = OABytes bs /\ now (OReplace b) OLeak [OTook bs; OPut b]).
Proof.
  intros t us m cs s i k bs H N K L after answer now. destruct (own_reach_inv t us m cs s H) as (_ & _ & LL & _).
  rewrite (LL i k N), K in L. cbn [with_value] in L. injection L as E.
  unfold now, after, answer, ostep. rewrite N, K. unfold lb_take, own_deref, own_drop, own_replace, sized_val. rewrite E. cbn [fst snd].
  assert (Q : forall k' mm es, nth_error (otoks (oset s i k' mm es)) i = Some k') by (intros; unfold oset; cbn [otoks]; eapply upd_nth_nth_eq; exact N).
  repeat match goal with
    | |- _ /\ _ => split
    | |- (osized k = true -> _) => intros ->
    | |- (forall b, osized k = true -> _ -> _) => intros b -> ->; rewrite Z.eqb_refl; cbn [andb fst snd]
    | |- exists k', nth_error _ i = Some k' /\ _ => eexists; split; [apply Q|]
    end; cbn; rewrite ?app_nil_r, ?K; reflexivity.
Qed.
Print Assumptions C55_leakbox_calls.

(** A pinned LeakBox still drops its value; a reference from [leak] (of either box) does not, and can be made a
    LeakBox again, which drops it then; raw pointers and Uninit memory never drop anything. *)
Theorem C55_others : forall t us m cs s i k, own_reach t us m cs s -> nth_error (otoks s) i = Some k ->
  exists es, olog (fst (ostep t s (i, ODrop))) = olog s ++ map (pair i) es /\
    match okd k with
    | OBox | OLeak | OPin => exists bs, es = [ODropped bs] /\ life (events_of i (olog s)) = Some (Some bs)
    | _ => es = []
    end.
Proof.
  intros t us m cs s i k H N. destruct (own_reach_inv t us m cs s H) as (_ & _ & LL & _). pose proof (LL i k N) as L.
  unfold ostep. rewrite N. destruct (okd k) eqn:K; cbn [fst oset olog with_value] in *;
    try (exists []; split; [cbn; rewrite ?app_nil_r; reflexivity|reflexivity]);
    (eexists; split; [reflexivity|]); eexists; split; [reflexivity|exact L| reflexivity|exact L|reflexivity|exact L].
Qed.
Print Assumptions C55_others.

(** LeakBox::write into memory, and allocation of a LeakBox with a value *)
Theorem C55_write : forall t us m cs s i k bs, own_reach t us m cs s -> nth_error (otoks s) i = Some k ->
  okd k = OLeakU \/ okd k = OUninit -> osized k = true -> Z.of_nat (length bs) = lsize (olay k) ->
  let o := match okd k with OLeakU => OLWrite bs | _ => OLNew bs end in
  let s' := fst (ostep t s (i, o)) in
  snd (ostep t s (i, o)) = OADone /\ olog s' = olog s ++ [(i, OPut bs)] /\ snd (ostep t s' (i, ODeref)) = OABytes bs /\
  exists k', nth_error (otoks s') i = Some k' /\ okd k' = OLeak /\ uptr (oview k') = uptr (oview k).
Proof.
  intros t us m cs s i k bs H N K SZ LB o s'. unfold s', o.
  assert (Q : forall k' mm es, nth_error (otoks (oset s i k' mm es)) i = Some k') by (intros; unfold oset; cbn [otoks]; eapply upd_nth_nth_eq; exact N).
  destruct K as [K|K]; rewrite K; unfold ostep; rewrite N, K; unfold sized_val; rewrite SZ, LB, Z.eqb_refl; cbn [andb lb_new lb_write fst snd]; rewrite Q;
    (split; [reflexivity|]; split; [reflexivity|]; split; [|eexists; split; [reflexivity|]; split; reflexivity]);
    cbn [okd become fst snd oset omem oview olay uptr]; unfold own_deref; rewrite <- LB; f_equal; apply write_read; reflexivity.
Qed.
Print Assumptions C55_write.

Example C55_nonvacuous : exists k, let s := fst (orun (x64 true) (oinit ex_own (fun _ => None)) (firstn 14 ex_calls)) in
  own_reach (x64 true) ex_own (fun _ => None) (firstn 14 ex_calls) s /\
  nth_error (otoks s) 1 = Some k /\ okd k = OLeak /\ osized k = true /\ life (events_of 1 (olog s)) = Some (Some (ex_b8 9)).
Proof.
  eexists. split; [split; [exact ex_own_ok|split; [repeat constructor|reflexivity]]|]. split; [vm_compute; reflexivity|]. vm_compute. auto.
Qed.
Example C55_write_nonvacuous : let s := fst (orun (x64 true) (oinit ex_own (fun _ => None)) [(1%nat, OToLeakBox)]) in
  nth_error (otoks s) 1 = Some (MkOT OLeakU (MkView 4112 8 0) ex_u64 true) /\ Z.of_nat (length (ex_b8 3)) = lsize ex_u64.
Proof. vm_compute. auto. Qed.

(** C56. A coercion that only attaches metadata: unsizing succeeds for every kind of pointer, keeps the address
    and (for Uninit and Box) the size of the memory, and attaches exactly that metadata. *)
Theorem C56_unsize : forall t k addr len coerce w, coerce addr = MkRaw addr [w] -> unsize t k addr len coerce = Ret (MkRaw addr [w], len).
Proof. intros t k addr len coerce w E. rewrite unsize_spec, E. cbn [rwords raddr length]. rewrite Z.eqb_refl, orb_true_r. reflexivity. Qed.
Print Assumptions C56_unsize.

(** Whatever the coercion does, unsizing never returns a different address, memory size or other metadata than
    the coercion's; it panics if the result is not a two-word pointer, and with debug assertions also if the
    coercion moved the pointer. *)
Theorem C56_never_moves : forall t k addr len coerce, match unsize t k addr len coerce with
  | Ret (p, n) => raddr p = addr /\ n = len /\ rwords p = rwords (coerce addr) /\ length (rwords p) = 1%nat /\
                  (debug t = true -> raddr (coerce addr) = addr)
  | Panic _ => length (rwords (coerce addr)) <> 1%nat \/ (debug t = true /\ raddr (coerce addr) <> addr)
  end.
Proof.
  intros t k addr len coerce. rewrite unsize_spec. destruct (Nat.eqb_spec (length (rwords (coerce addr))) 1); [|auto].
  destruct (debug t); cbn [negb orb]; [destruct (Z.eqb_spec (raddr (coerce addr)) addr)|]; cbn; auto.
  repeat split; auto. discriminate.
Qed.
Print Assumptions C56_never_moves.

Example C56_nonvacuous : unsize (x64 true) (PPin PBox) 4096 16 (fun p => MkRaw p [77]) = Ret (MkRaw 4096 [77], 16) /\
  unsize (x64 true) PRef 4096 16 (fun p => MkRaw p []) = Panic PN_fat /\ unsize (x64 true) PStd 4096 16 (fun p => MkRaw (p + 4) [1]) = Panic PN_base /\
  unsize (x64 false) PStd 4096 16 (fun p => MkRaw (p + 4) [1]) = Ret (MkRaw 4096 [1], 16).
Proof. vm_compute. auto. Qed.

(** Unsizing a Box moves no value and drops none: afterwards it is the same owner, shows the same value and drops
    it once; if the coercion makes it panic, the value is dropped once. *)
Theorem C56_box : forall t us m cs s i k bs d ws, own_reach t us m cs s -> nth_error (otoks s) i = Some k -> okd k = OBox ->
  osized k = true -> life (events_of i (olog s)) = Some (Some bs) ->
  let s' := fst (ostep t s (i, OUnsize d ws)) in
  match snd (ostep t s (i, OUnsize d ws)) with
  | OADone => olog s' = olog s /\ omem s' = omem s /\
      (exists k' w, ws = [w] /\ nth_error (otoks s') i = Some k' /\ okd k' = OBox /\
        oview k' = MkView (uptr (oview k)) (ulen (oview k)) w) /\
      snd (ostep t s' (i, ODeref)) = OABytes bs /\ olog (fst (ostep t s' (i, ODrop))) = olog s ++ [(i, ODropped bs)]
  | OAPanic => olog s' = olog s ++ [(i, ODropped bs)] /\ (exists k', nth_error (otoks s') i = Some k' /\ okd k' = OGone) /\
      (length ws <> 1%nat \/ (debug t = true /\ d <> 0))
  | _ => False
  end.
Proof.
  intros t us m cs s i k bs d ws H N K SZ L s'. destruct (own_reach_inv t us m cs s H) as (_ & _ & LL & _).
  rewrite (LL i k N), K in L. cbn [with_value] in L. injection L as E.
  assert (Q : forall k' mm es, nth_error (otoks (oset s i k' mm es)) i = Some k') by (intros; unfold oset; cbn [otoks]; eapply upd_nth_nth_eq; exact N).
  destruct (ostep t s (i, OUnsize d ws)) as [s1 a] eqn:E1. cbn [snd fst] in *. unfold s'. clear s'.
  unfold ostep in E1. rewrite N, K, SZ, unsize_spec in E1. cbn [rwords raddr] in E1.
  destruct (Nat.eqb_spec (length ws) 1) as [LW|LW].
  - destruct (negb (debug t) || (uptr (oview k) + d =? uptr (oview k))) eqn:DD; injection E1 as <- <-.
    + unfold ostep. rewrite Q. cbn [oset olog omem map okd oview olay uptr ulen umeta raddr rwords become fst snd].
      unfold own_deref, own_drop. cbn [uptr]. rewrite E, app_nil_r. split; [reflexivity|]. split; [reflexivity|]. split; [|auto].
      destruct ws as [|w [|? ?]]; try discriminate. exists (MkOT OBox (MkView (uptr (oview k)) (ulen (oview k)) w) (olay k) false), w. auto.
    + unfold own_drop. rewrite E. split; [reflexivity|]. split; [eexists; split; [apply Q|reflexivity]|]. right. destruct (debug t); [|discriminate]. split; [reflexivity|]. cbn in DD. lia.
  - injection E1 as <- <-. unfold own_drop. rewrite E. split; [reflexivity|]. split; [eexists; split; [apply Q|reflexivity]|]. auto.
Qed.
Print Assumptions C56_box.

(** Unsizing memory without a value (Uninit): the same place and size with the attached metadata, still without a
    value; no value is dropped in any case, and no byte changes. *)
Theorem C56_uninit : forall t us m cs s i k d ws, own_reach t us m cs s -> nth_error (otoks s) i = Some k -> okd k = OUninit ->
  osized k = true ->
  let s' := fst (ostep t s (i, OUnsize d ws)) in
  olog s' = olog s /\ omem s' = omem s /\ (forall j, j <> i -> nth_error (otoks s') j = nth_error (otoks s) j) /\
  exists k', nth_error (otoks s') i = Some k' /\
  match snd (ostep t s (i, OUnsize d ws)) with
  | OADone => exists w, ws = [w] /\ k' = MkOT OUninit (MkView (uptr (oview k)) (ulen (oview k)) w) (olay k) false
  | OAPanic => okd k' = OGone /\ (length ws <> 1%nat \/ (debug t = true /\ d <> 0))
  | _ => False
  end.
Proof.
  intros t us m cs s i k d ws H N K SZ s'.
  assert (Q : forall k' mm es, nth_error (otoks (oset s i k' mm es)) i = Some k') by (intros; unfold oset; cbn [otoks]; eapply upd_nth_nth_eq; exact N).
  assert (Q' : forall k' mm es j, j <> i -> nth_error (otoks (oset s i k' mm es)) j = nth_error (otoks s) j).
  { intros k' mm es j D. unfold oset; cbn [otoks]. apply upd_nth_nth_ne. congruence. }
  destruct (ostep t s (i, OUnsize d ws)) as [s1 a] eqn:E1. cbn [snd fst] in *. unfold s'. clear s'.
  unfold ostep in E1. rewrite N, K, SZ, unsize_spec in E1. cbn [rwords raddr] in E1.
  assert (L : forall k' mm, olog (oset s i k' mm []) = olog s) by (intros; unfold oset; cbn; apply app_nil_r).
  destruct (Nat.eqb_spec (length ws) 1) as [LW|LW].
  - destruct (negb (debug t) || (uptr (oview k) + d =? uptr (oview k))) eqn:DD; injection E1 as <- <-.
    + split; [apply L|]. split; [reflexivity|]. split; [intros; apply Q'; assumption|]. eexists. split; [apply Q|]. destruct ws as [|w [|? ?]]; try discriminate.
      exists w. auto.
    + split; [apply L|]. split; [reflexivity|]. split; [intros; apply Q'; assumption|]. eexists. split; [apply Q|]. split; [reflexivity|].
      right. destruct (debug t); [|discriminate]. split; [reflexivity|]. cbn in DD. lia.
  - injection E1 as <- <-. split; [apply L|]. split; [reflexivity|]. split; [intros; apply Q'; assumption|]. eexists. split; [apply Q|]. auto.
Qed.
Print Assumptions C56_uninit.

(** C54. Casting memory (Uninit) to another type succeeds exactly if the memory is large enough and aligned for it;
    the result is the same place with all of its memory, which takes a value of the new type; otherwise the memory
    is given back unchanged. *)
Theorem C54_cast : forall t us m cs s i k l', own_reach t us m cs s -> nth_error (otoks s) i = Some k -> okd k = OUninit ->
  osized k = true -> type_layout t l' ->
  let v := oview k in
  (lsize l' <= ulen v /\ aligned (uptr v) (lalign l') ->
   exists s' k', ostep t s (i, OCast l') = (s', OADone) /\ nth_error (otoks s') i = Some k' /\ okd k' = OUninit /\
     uptr (oview k') = uptr v /\ ulen (oview k') = ulen v /\ olay k' = l' /\ osized k' = true /\
     olog s' = olog s /\ omem s' = omem s /\ (forall j, j <> i -> nth_error (otoks s') j = nth_error (otoks s) j)) /\
  (~ (lsize l' <= ulen v /\ aligned (uptr v) (lalign l')) -> ostep t s (i, OCast l') = (s, OAErr)).
Proof.
  intros t us m cs s i k l' H N K SZ TL v. destruct (v_cast_spec v l' (type_layout_align t l' TL)) as [C1 C2].
  assert (Q : forall k' mm es, nth_error (otoks (oset s i k' mm es)) i = Some k') by (intros; unfold oset; cbn [otoks]; eapply upd_nth_nth_eq; exact N).
  unfold ostep. rewrite N, K, SZ. fold v. split; intros F.
  - rewrite C1 by tauto. do 2 eexists. split; [reflexivity|]. split; [apply Q|]. cbn [okd oview olay osized uptr ulen].
    repeat split. + unfold oset; cbn. apply app_nil_r. + intros j D. unfold oset; cbn [otoks]. apply upd_nth_nth_ne. congruence.
  - rewrite C2 by tauto. reflexivity.
Qed.
Print Assumptions C54_cast.

Example C54_cast_nonvacuous : let s := oinit ex_own (fun _ => None) in
  own_reach (x64 true) ex_own (fun _ => None) [] s /\ type_layout (x64 true) ex_u64 /\
  snd (ostep (x64 true) s (0%nat, OCast ex_u64)) = OADone /\ snd (ostep (x64 true) s (2%nat, OCast ex_u64)) = OAErr /\
  snd (orun (x64 true) s [(0%nat, OCast ex_u64); (0%nat, ONew (ex_b8 5)); (0%nat, OTake)]) = [OADone; OADone; OABytes (ex_b8 5)].
Proof.
  split; [split; [exact ex_own_ok|split; [constructor|reflexivity]]|]. split; [exact ex_u64_type|]. vm_compute. auto.
Qed.
