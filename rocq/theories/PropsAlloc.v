(** * PropsAlloc: C68-C71, containers and provided methods over any allocator; C74, layouts. *)
From Verif Require Import Base Spec BaseFacts SyncModel SyncSpec SyncProofs SyncMemModel SyncMemSpec SyncMemProofs UninitModel UninitSpec UninitProofs OwnModel RcModel FixedVecModel AllocModel AllocSpec AllocProofs PropsSync.

(** The hypotheses are met by the allocator of this repository. *)
Theorem C68_bump_honours : forall t st, valid_target t -> valid_region t st ->
  exists inv, honours t (bump_lalloc t) (in_block st) inv /\ (forall m, inv (fresh st) m []) /\ exact (bump_lalloc t).
Proof.
  intros t st Ht Hs. exists (bump_inv t st). split; [apply bump_honours; assumption|]. split; [|apply bump_exact].
  intros m. split; [apply ok_fresh; exact Hs|]. split; [reflexivity|constructor].
Qed.
Print Assumptions C68_bump_honours.

(** C68. On any allocator that honours the contract, in any state: [alloc_layout] fails iff the allocator does, and otherwise
    gives one whole new block; no byte the client may use changes. *)
Theorem C68_alloc_layout : forall t A own inv s m live l, honours t A own inv -> inv s m live -> valid_layout t l -> 0 < lsize l ->
  (exists s' m', alloc_layout A s m l = (s', m', Ret None) /\ alloc_fails A s m l /\ inv s' m' live /\ unchanged own live m m') \/
  (exists s' m' u, alloc_layout A s m l = (s', m', Ret (Some u)) /\ ~ alloc_fails A s m l /\
     granted t own inv live l s' m' (region u) /\ unchanged own live m m' /\ umeta u = 0 /\ (exact A -> ulen u = lsize l)).
Proof. exact alloc_layout_spec. Qed.
Print Assumptions C68_alloc_layout.

(** [alloc_t] and [boxed]: no unwrap fails; a type of size zero needs no memory; the value is in the box, or was dropped once. *)
Theorem C68_alloc_t : forall t A own inv s m live l, honours t A own inv -> inv s m live -> type_layout t l ->
  (lsize l = 0 -> exists u, alloc_t A s m l = (s, m, Ret (Some u)) /\ uptr u <> 0 /\ aligned (uptr u) (lalign l)) /\
  (0 < lsize l ->
   (exists s' m', alloc_t A s m l = (s', m', Ret None) /\ alloc_fails A s m l /\ inv s' m' live /\ unchanged own live m m') \/
   (exists s' m' u, alloc_t A s m l = (s', m', Ret (Some u)) /\ ~ alloc_fails A s m l /\ granted t own inv live l s' m' (region u) /\
      unchanged own live m m' /\ (exact A -> ulen u = lsize l))).
Proof.
  intros t A own inv s m live l H I V. split; [|apply alloc_t_spec; assumption]. intros Z0. pose proof (type_layout_align t l V).
  unfold alloc_t, nonzero_from_layout. rewrite Z0. cbn [Z.eqb]. rewrite (invent_zst t l V Z0). eexists. split; [reflexivity|]. cbn. split; [lia|apply Z.divide_refl].
Qed.
Print Assumptions C68_alloc_t.

Theorem C68_boxed : forall t A own inv s m d live l v, honours t A own inv -> inv s m live -> type_layout t l -> Z.of_nat (length (vbytes v)) = lsize l ->
  (lsize l = 0 -> exists m' b, boxed A s m d l v = (s, m', d, Ret (Some b)) /\ same_bytes m m' /\ uptr b <> 0 /\ aligned (uptr b) (lalign l)) /\
  (0 < lsize l ->
   (exists s' m', boxed A s m d l v = (s', m', d ++ [(vid v, vbytes v)], Ret None) /\ alloc_fails A s m l /\ inv s' m' live /\ unchanged own live m m') \/
   (exists s' m' b, boxed A s m d l v = (s', m', d, Ret (Some b)) /\ ~ alloc_fails A s m l /\ granted t own inv live l s' m' (region b) /\
      unchanged own live m m' /\ reads m' (uptr b) (vbytes v))).
Proof.
  intros t A own inv s m d live l v H I V LB. destruct (C68_alloc_t t A own inv s m live l H I V) as [Z1 Z2]. unfold boxed. split.
  - intros Z0. destruct (Z1 Z0) as (u & E & U). rewrite E. unfold box_new. do 2 eexists. split; [reflexivity|]. split; [|exact U].
    intros x. apply (mem_write_outside m (uptr u) (vbytes v) 0 ltac:(lia)). unfold in_block. cbn. lia.
  - intros P. destruct (Z2 P) as [(s' & m' & E & R)|(s' & m' & u & E & NF & G & U & X)]; rewrite E; [left; eauto|].
    right. unfold box_new. pose proof G as (l' & E' & I' & L' & A' & _). cbn [region size] in L'.
    assert (W : same_outside (region u) m' (mem_write m' (uptr u) (vbytes v))) by (apply mem_write_outside; lia).
    destruct (granted_write t A own inv live l s' m' _ _ H G W) as [G' U']. do 3 eexists. split; [reflexivity|]. split; [exact NF|]. split; [exact G'|].
    split; [eapply unchanged_trans; eassumption|apply mem_write_reads].
Qed.
Print Assumptions C68_boxed.

(** [rc]: neither the unwraps nor the assertion of [Rc::new] fail, for every type whose box has a layout. *)
Theorem C68_rc : forall t A own inv s m live l v, honours t A own inv -> valid_target t -> inv s m live -> type_layout t l -> type_layout t (rc_layout t l) ->
  (exists s' m', rc t A s m l v = (s', m', [v], Ret None) /\ alloc_fails A s m (rc_layout t l) /\ inv s' m' live /\ unchanged own live m m') \/
  (exists s' m' u, rc t A s m l v = (s', m', [], Ret (Some (u, MkBox v 1 1))) /\ ~ alloc_fails A s m (rc_layout t l) /\
     granted t own inv live (rc_layout t l) s' m' (region u) /\ unchanged own live m m').
Proof. exact rc_spec. Qed.
Print Assumptions C68_rc.

(** An allocator that panics, of which nothing else is assumed: the panic comes through every container function with the state the
    allocator left, no container is made, and a value that was passed in has been dropped exactly once. *)
Theorem C68_allocator_panics : forall t (A : lalloc) (s : lst A) m e,
  (forall l, exists s' m', l_alloc A s m l = (s', m', Panic e)) ->
  (forall l, 0 < lsize l -> exists s' m', l_alloc A s m l = (s', m', Panic e) /\
     alloc_layout A s m l = (s', m', Panic e) /\ alloc_t A s m l = (s', m', Panic e) /\
     default_alloc_zeroed A s m l = (s', m', Panic e) /\ (forall a, default_realloc A s m a l = (s', m', Panic e)) /\
     (forall d v, boxed A s m d l v = (s', m', d ++ [(vid v, vbytes v)], Panic e)) /\
     (forall meta src, copy_dst A s m l meta src = (s', m', Panic e))) /\
  (forall l v, 0 < lsize (rc_layout t l) -> exists s' m', l_alloc A s m (rc_layout t l) = (s', m', Panic e) /\ rc t A s m l v = (s', m', [v], Panic e)) /\
  (forall l n src, 0 < n * lsize l -> n * lsize l <= usize_max t -> valid_layout t (MkLayout (n * lsize l) (lalign l)) ->
     exists s' m', l_alloc A s m (MkLayout (n * lsize l) (lalign l)) = (s', m', Panic e) /\
     fixed_vec t A s m l n = (s', m', Panic e) /\ copy_slice t A s m l src n = (s', m', Panic e)).
Proof.
  intros t A s m e P. split; [|split].
  - intros l L. destruct (P l) as (s' & m' & E). exists s', m'.
    assert (N : nonzero_from_layout l = Some l) by (unfold nonzero_from_layout; destruct (Z.eqb_spec (lsize l) 0); [lia|destruct l; reflexivity]).
    unfold copy_dst, boxed, alloc_t, default_alloc_zeroed, default_realloc. rewrite N. unfold alloc_layout. rewrite E. auto 8.
  - intros l v L. destruct (P (rc_layout t l)) as (s' & m' & E). exists s', m'.
    assert (N : nonzero_from_layout (rc_layout t l) = Some (rc_layout t l)) by (unfold nonzero_from_layout; destruct (Z.eqb_spec (lsize (rc_layout t l)) 0); [lia|destruct (rc_layout t l); reflexivity]).
    unfold rc. rewrite N. unfold alloc_layout. rewrite E. auto.
  - intros l n src L U V. destruct (P (MkLayout (n * lsize l) (lalign l))) as (s' & m' & E). exists s', m'.
    assert (N : nonzero_from_layout (MkLayout (n * lsize l) (lalign l)) = Some (MkLayout (n * lsize l) (lalign l)))
      by (unfold nonzero_from_layout; cbn [lsize]; destruct (Z.eqb_spec (n * lsize l) 0); [lia|reflexivity]).
    split; [exact E|]. split.
    + unfold fixed_vec, checked_mul. rewrite Z.mul_comm in U. destruct (Z.leb_spec (lsize l * n) (usize_max t)); [|lia].
      rewrite (Z.mul_comm (lsize l) n).
      replace (from_size_align t (n * lsize l) (lalign l)) with (Some (MkLayout (n * lsize l) (lalign l))) by (symmetry; apply from_size_align_iff; auto).
      rewrite N. unfold alloc_layout. rewrite E. reflexivity.
    + unfold copy_slice. rewrite N. unfold alloc_layout. rewrite E. reflexivity.
Qed.
Print Assumptions C68_allocator_panics.

(** An allocator that always panics after noting it. *)
Definition grumpy : lalloc := {| lst := Z; l_alloc := fun k m l => (k + 1, m, Panic 99); l_dealloc := fun k m a => (k, m) |}.
Example C68_panics_nonvacuous :
  (forall l, exists s' m', l_alloc grumpy 3 (fun _ => None) l = (s', m', Panic 99)) /\
  boxed grumpy 3 (fun _ => None) [] (MkLayout 2 2) (MkValue 7 [Some 1; Some 2]) = (4, fun _ => None, [(7%nat, [Some 1; Some 2])], Panic 99) /\
  fst (fst (fst (rc (x64 true) grumpy 3 (fun _ => None) (MkLayout 2 2) 5))) = 4.
Proof. split; [intros l; do 2 eexists; reflexivity|]. split; reflexivity. Qed.

(** A pool of four pages of 64 bytes: it gives a whole page for every request, and says so in the layout that it returns. *)
Definition pages : lalloc := {|
  lst := Z;
  l_alloc := fun k m l => if (lsize l <=? 64) && (lalign l <=? 64) && (k <? 4)
                          then (k + 1, m, Ret (Some (4096 + 64 * k, MkLayout 64 (lalign l)))) else (k, m, Ret None);
  l_dealloc := fun k m a => (k, m) |}.
Definition pages_own (x : Z) : Prop := 4096 <= x < 4096 + 256.
Definition pages_inv (k : Z) (m : mem) (live : list (Z * layout)) : Prop :=
  0 <= k <= 4 /\ Forall (fun a => 4096 <= fst a /\ fst a + lsize (snd a) <= 4096 + 64 * k) live.

Lemma pages_honours : honours (x64 false) pages pages_own pages_inv.
Proof.
  split.
  - intros s m live m' H _. exact H.
  - intros s m live l (K & F) V P. cbn [l_alloc pages]. destruct ((lsize l <=? 64) && (lalign l <=? 64) && (s <? 4)) eqn:B.
    + rewrite !andb_true_iff, !Z.leb_le, Z.ltb_lt in B. destruct B as [[B1 B2] B3]. do 3 eexists. split; [reflexivity|]. split; [reflexivity|]. cbn [lsize].
      assert (DV : (lalign l | 64)) by (destruct V as (_ & PW & _); apply pow2_divide; [exact PW|exists 6; split; [lia|reflexivity]|exact B2]).
      assert (AL : 0 < lalign l) by (eapply valid_layout_align; exact V).
      split; [exact B1|]. split; [apply Z.divide_add_r; [apply Z.divide_trans with (1 := DV); exists 64; reflexivity|apply Z.divide_mul_l; exact DV]|].
      split; [|split; [unfold valid_region; cbn [start size]; change (isize_max (x64 false)) with 9223372036854775807; change (addr_space (x64 false)) with 18446744073709551616; lia|]].
      * destruct V as (_ & PW & V3 & _). split; [cbn; lia|]. split; [exact PW|]. split; [exact V3|]. cbn [lsize lalign].
        rewrite align_up_id by assumption. change (isize_max (x64 false)) with 9223372036854775807. lia.
      * split.
        -- intros x X. unfold in_block in X. cbn [start size] in X. split; [unfold pages_own; lia|]. intros [N|(a & Ia & X2)]; [unfold pages_own in N; lia|].
           rewrite Forall_forall in F. specialize (F a Ia). unfold in_block, ablock in X2. cbn [start size] in X2. lia.
        -- split; [lia|]. constructor; [cbn [fst snd lsize]; lia|]. eapply Forall_impl; [|exact F]. cbv beta. intros a Fa. lia.
    + do 3 eexists. split; [reflexivity|]. split; [reflexivity|]. split; [exact K|exact F].
  - intros s m before a after (K & F). exists s, m. split; [reflexivity|]. split; [reflexivity|]. split; [exact K|].
    apply Forall_app in F. destruct F as [F1 F2]. inversion F2; subst. apply Forall_app. auto.
Qed.

Example ex_alloc : exists m', boxed (bump_lalloc (x64 false)) (fresh (MkBlock 4099 32)) (fun _ => None) [] (MkLayout 2 2) (MkValue 7 [Some 1; Some 2]) =
  ({| storage := MkBlock 4099 32; consumed := 3 |}, m', [], Ret (Some (MkView 4100 2 0))) /\ m' 4100 = Some 1 /\ m' 4101 = Some 2.
Proof. eexists. split; [reflexivity|]. split; reflexivity. Qed.
Example ex_alloc_fails : let v := MkValue 7 (repeat (Some 1) 64) in
  snd (fst (boxed (bump_lalloc (x64 false)) (fresh (MkBlock 4099 32)) (fun _ => None) [] (MkLayout 64 8) v)) = [(7%nat, repeat (Some 1) 64)].
Proof. reflexivity. Qed.
Example ex_rc_alloc : match rc (x64 false) (bump_lalloc (x64 false)) (fresh (MkBlock 4099 32)) (fun _ => None) (MkLayout 2 2) 5 with
  | (s, _, d, r) => consumed s = 29 /\ d = [] /\ r = Ret (Some (MkView 4104 24 0, MkBox 5 1 1)) end.
Proof. cbn. auto. Qed.

(** C69. [fixed_vec(n)] fails iff the size is not representable or the allocator fails; otherwise the vector is empty and has room
    for n elements, exactly n if the allocator returns what was asked for. No memory is needed if n = 0 or for elements of
    size zero, of which it holds usize::MAX. *)
Theorem C69_fixed_vec : forall t A own inv s m live l n, honours t A own inv -> valid_target t -> inv s m live -> type_layout t l -> 0 <= n ->
  let lay := {| lsize := n * lsize l; lalign := lalign l |} in
  (n * lsize l > usize_max t \/ ~ valid_layout t lay -> fixed_vec t A s m l n = (s, m, Ret None)) /\
  (valid_layout t lay -> n * lsize l = 0 -> exists v, fixed_vec t A s m l n = (s, m, Ret (Some v)) /\
     flen v = 0 /\ f_capacity t l v = (if lsize l =? 0 then usize_max t else 0)) /\
  (valid_layout t lay -> 0 < n * lsize l ->
     (exists s' m', fixed_vec t A s m l n = (s', m', Ret None) /\ alloc_fails A s m lay /\ inv s' m' live /\ unchanged own live m m') \/
     (exists s' m' v, fixed_vec t A s m l n = (s', m', Ret (Some v)) /\ ~ alloc_fails A s m lay /\
        granted t own inv live lay s' m' (region (funinit v)) /\ unchanged own live m m' /\ flen v = 0 /\
        n <= f_capacity t l v /\ (exact A -> f_capacity t l v = n))).
Proof. exact fixed_vec_spec. Qed.
Print Assumptions C69_fixed_vec.

(** An allocator may give more, and then the vector is larger than asked for. *)
Theorem C69_capacity_refuted : exists t A own inv s m l n v, valid_target t /\ honours t A own inv /\ inv s m [] /\ type_layout t l /\
  snd (fixed_vec t A s m l n) = Ret (Some v) /\ 0 < lsize l /\ f_capacity t l v <> n.
Proof.
  exists (x64 false), pages, pages_own, pages_inv, 0, (fun _ => None), (MkLayout 8 8), 3. eexists. split; [exact ex_target_ok|]. split; [exact pages_honours|].
  split; [split; [lia|constructor]|]. split; [split; [|exists 1; reflexivity]|].
  - split; [cbn; lia|]. split; [exists 3; split; [lia|reflexivity]|]. vm_compute. split; discriminate.
  - split; [reflexivity|]. split; [reflexivity|]. vm_compute. discriminate.
Qed.
Print Assumptions C69_capacity_refuted.

Example ex_fixed_vec : match fixed_vec (x64 false) (bump_lalloc (x64 false)) (fresh (MkBlock 4099 32)) (fun _ => None) (MkLayout 4 4) 3 with
  | (s, _, r) => consumed s = 13 /\ r = Ret (Some (MkFvec (MkView 4100 12 3) 0)) end.
Proof. cbn. auto. Qed.
Example ex_fixed_vec_overflow : snd (fixed_vec (x64 false) (bump_lalloc (x64 false)) (fresh (MkBlock 4099 32)) (fun _ => None) (MkLayout 4 4) (2 ^ 62)) = Ret None.
Proof. reflexivity. Qed.

(** C70. [copy_slice] (and [copy_str], of elements of size and alignment 1) of a slice that the client may read: if it needs no
    memory the result has no elements and no memory changes; else it fails iff the allocator does, or the result starts with a
    copy of the source in a new block, and everything the client could use before, the source included, is unchanged. With an
    allocator that returns what was asked for the result has exactly n elements. *)
Theorem C70_copy_slice : forall t A own inv s m live l src n, honours t A own inv -> valid_target t -> inv s m live -> type_layout t l -> 0 <= n ->
  let lay := {| lsize := n * lsize l; lalign := lalign l |} in
  valid_layout t lay -> (forall x, in_block (MkBlock src (n * lsize l)) x -> client_may own live x) ->
  (n * lsize l = 0 -> exists m', copy_slice t A s m l src n = (s, m', Ret (Some (lalign l, 0))) /\ same_bytes m m') /\
  (0 < n * lsize l ->
     (exists s' m', copy_slice t A s m l src n = (s', m', Ret None) /\ alloc_fails A s m lay /\ inv s' m' live /\ unchanged own live m m') \/
     (exists s' m' q len k, copy_slice t A s m l src n = (s', m', Ret (Some (q, k))) /\ ~ alloc_fails A s m lay /\
        granted t own inv live lay s' m' (MkBlock q len) /\ unchanged own live m m' /\
        k = len / lsize l /\ n <= k /\ (exact A -> k = n) /\ (forall i, 0 <= i < n * lsize l -> m' (q + i) = m (src + i)))).
Proof. exact copy_slice_spec. Qed.
Print Assumptions C70_copy_slice.

Theorem C70_copy_str : forall t A own inv s m live src n, honours t A own inv -> valid_target t -> inv s m live -> exact A -> 0 <= n <= isize_max t ->
  (forall x, in_block (MkBlock src n) x -> client_may own live x) ->
  (n = 0 -> exists m', copy_str t A s m src n = (s, m', Ret (Some (1, 0))) /\ same_bytes m m') /\
  (0 < n ->
     (exists s' m', copy_str t A s m src n = (s', m', Ret None) /\ alloc_fails A s m (MkLayout n 1) /\ inv s' m' live /\ unchanged own live m m') \/
     (exists s' m' q, copy_str t A s m src n = (s', m', Ret (Some (q, n))) /\ ~ alloc_fails A s m (MkLayout n 1) /\
        unchanged own live m m' /\ mem_read m' q n = mem_read m src n /\ disjoint (MkBlock q n) (MkBlock src n))).
Proof.
  intros t A own inv s m live src n H Ht I X N RD. pose proof (isize_lt_usize t Ht) as [_ SZ].
  assert (P1 : is_pow2 1) by (exists 0; split; [lia|reflexivity]).
  assert (TL : type_layout t u8_layout).
  { split; [|apply Z.divide_refl]. split; [cbn; lia|]. split; [exact P1|]. cbn [lsize lalign u8_layout]. split; [lia|]. unfold align_up. rewrite Z.mod_1_r. lia. }
  assert (VL : valid_layout t (MkLayout (n * lsize u8_layout) (lalign u8_layout))).
  { cbn [lsize lalign u8_layout]. rewrite Z.mul_1_r. split; [cbn; lia|]. split; [exact P1|]. cbn [lsize lalign]. split; [lia|]. unfold align_up. rewrite Z.mod_1_r. lia. }
  destruct (copy_slice_spec t A own inv s m live u8_layout src n H Ht I TL (proj1 N) VL) as [C1 C2].
  { cbn [lsize u8_layout]. rewrite Z.mul_1_r. exact RD. }
  cbn [lsize lalign u8_layout] in C1, C2. rewrite Z.mul_1_r in C1, C2. split; [exact C1|].
  intros P. destruct (C2 P) as [F|(s' & m' & q & len & k & E & NF & G & U & _ & _ & K & R)]; [left; exact F|]. specialize (K X). subst k.
  right. exists s', m', q. split; [exact E|]. split; [exact NF|]. split; [exact U|]. split.
  - unfold mem_read. apply map_ext_in. intros i Hi. apply in_seq in Hi. apply R. lia.
  - destruct G as (l' & E' & _ & L & _ & _ & D). cbn [start size lsize] in *. intros x [X1 X2]. apply (D x); [|apply RD; exact X2].
    unfold in_block in *. cbn [start size] in *. lia.
Qed.
Print Assumptions C70_copy_str.

(** Refuted: a copy of n > 0 elements of size zero has no elements. *)
Theorem C70_zst_refuted : forall t A s m l src n, type_layout t l -> lsize l = 0 -> 0 < n ->
  exists m', copy_slice t A s m l src n = (s, m', Ret (Some (lalign l, 0))) /\ 0 <> n.
Proof.
  intros t A s m l src n V Z0 N. unfold copy_slice. rewrite Z0, Z.mul_0_r. cbn [nonzero_from_layout lsize Z.eqb]. eexists. split; [reflexivity|lia].
Qed.
Print Assumptions C70_zst_refuted.

(** Refuted: if the allocator returns a larger block, as it may, the result has more elements than the source, and those
    are whatever was in the memory, here uninitialised. *)
Theorem C70_larger_block_refuted : exists t A own inv s m src n q k m' s', valid_target t /\ honours t A own inv /\ inv s m [] /\
  (forall x, in_block (MkBlock src n) x -> ~ own x) /\
  copy_str t A s m src n = (s', m', Ret (Some (q, k))) /\ n < k /\ m' (q + n) = None.
Proof.
  exists (x64 false), pages, pages_own, pages_inv, 0, (fun x => if (1000 <=? x) && (x <? 1003) then Some 65 else None), 1000, 3. do 4 eexists.
  split; [exact ex_target_ok|]. split; [exact pages_honours|]. split; [split; [lia|constructor]|].
  split; [intros x H; unfold in_block in H; cbn [start size] in H; unfold pages_own; lia|]. split; [reflexivity|]. split; [reflexivity|]. reflexivity.
Qed.
Print Assumptions C70_larger_block_refuted.

(** [copy_dst] (nightly) of an empty value with alignment above 1 makes a misaligned reference; other values are copied. *)
Theorem C70_copy_dst : forall t A own inv s m live l meta src, honours t A own inv -> inv s m live -> valid_layout t l -> 0 < lsize l ->
  (forall x, in_block (MkBlock src (lsize l)) x -> client_may own live x) ->
  (exists s' m', copy_dst A s m l meta src = (s', m', Ret None) /\ alloc_fails A s m l /\ inv s' m' live /\ unchanged own live m m') \/
  (exists s' m' q len, copy_dst A s m l meta src = (s', m', Ret (Some (q, meta))) /\ ~ alloc_fails A s m l /\ granted t own inv live l s' m' (MkBlock q len) /\
     unchanged own live m m' /\ (forall i, 0 <= i < lsize l -> m' (q + i) = m (src + i))).
Proof.
  intros t A own inv s m live l meta src H I V P RD. unfold copy_dst, nonzero_from_layout. destruct (Z.eqb_spec (lsize l) 0); [lia|].
  destruct (alloc_layout_spec t A own inv s m live l H I V P) as [(s' & m' & E & R)|(s' & m' & u & E & NF & G & U & M & X)]; rewrite E; [left; eauto|].
  right. pose proof G as (l' & E' & I' & L' & A' & _). cbn [region size] in L'.
  assert (W : same_outside (region u) m' (mem_copy m' src (uptr u) (lsize l))) by (apply mem_copy_outside; exact L').
  destruct (granted_write t A own inv live l s' m' _ _ H G W) as [G' U'].
  do 4 eexists. split; [reflexivity|]. split; [exact NF|]. split; [exact G'|]. split; [eapply unchanged_trans; eassumption|].
  intros i Hi. rewrite mem_copy_at by lia. apply U. apply RD. unfold in_block. cbn [start size]. lia.
Qed.
Print Assumptions C70_copy_dst.
Theorem C70_copy_dst_empty_refuted : forall t A s m l meta src, valid_layout t l -> lsize l = 0 -> 1 < lalign l ->
  exists m' q, copy_dst A s m l meta src = (s, m', Ret (Some (q, meta))) /\ ~ aligned q (lalign l).
Proof.
  intros t A s m l meta src V Z0 AL. unfold copy_dst, nonzero_from_layout. rewrite Z0. cbn [Z.eqb]. do 2 eexists. split; [reflexivity|].
  cbn [uptr from_memory lalign unit_layout]. intros D. apply Z.divide_pos_le in D; lia.
Qed.
Print Assumptions C70_copy_dst_empty_refuted.

Example ex_copy : match copy_str (x64 false) (bump_lalloc (x64 false)) (fresh (MkBlock 4099 32)) (fun x => Some (x mod 256)) 1000 3 with
  | (s, m', r) => consumed s = 3 /\ r = Ret (Some (4099, 3)) /\ mem_read m' 4099 3 = [Some 232; Some 233; Some 234] end.
Proof. vm_compute. auto. Qed.
Example ex_copy_zst : match copy_slice (x64 false) (bump_lalloc (x64 false)) (fresh (MkBlock 4099 32)) (fun _ => None) (MkLayout 0 1) 1000 3 with
  | (_, _, r) => r = Ret (Some (1, 0)) end.
Proof. reflexivity. Qed.

(** C71. The provided [alloc_zeroed]: every byte of the block, as large as the allocator says it is, is zero. *)
Theorem C71_alloc_zeroed : forall t A own inv s m live l, honours t A own inv -> inv s m live -> valid_layout t l -> 0 < lsize l ->
  (exists s' m', default_alloc_zeroed A s m l = (s', m', Ret None) /\ alloc_fails A s m l /\ inv s' m' live /\ unchanged own live m m') \/
  (exists s' m' p l', default_alloc_zeroed A s m l = (s', m', Ret (Some (p, l'))) /\ ~ alloc_fails A s m l /\ inv s' m' ((p, l') :: live) /\
     granted t own inv live l s' m' (MkBlock p (lsize l')) /\ unchanged own live m m' /\ (forall x, in_block (MkBlock p (lsize l')) x -> m' x = Some 0)).
Proof. exact default_zeroed_spec. Qed.
Print Assumptions C71_alloc_zeroed.

(** The provided [realloc] of a block the client holds: on failure everything is as before, the old block included; on success the
    old block has been released and is no more the client's, the new one is apart from it and starts with its contents, up
    to the smaller of the old size and the size asked for. *)
Theorem C71_realloc : forall t A own inv s m before a after l, honours t A own inv -> inv s m (before ++ a :: after) -> valid_layout t l -> 0 < lsize l ->
  (exists s' m', default_realloc A s m a l = (s', m', Ret None) /\ alloc_fails A s m l /\ inv s' m' (before ++ a :: after) /\ unchanged own (before ++ a :: after) m m') \/
  (exists s' m' q l', default_realloc A s m a l = (s', m', Ret (Some (q, l'))) /\ ~ alloc_fails A s m l /\
     granted t own inv (before ++ after) l s' m' (MkBlock q (lsize l')) /\ inv s' m' ((q, l') :: before ++ after) /\ disjoint (MkBlock q (lsize l')) (ablock a) /\
     unchanged own (before ++ after) m m' /\ (forall i, 0 <= i < Z.min (lsize l) (lsize (snd a)) -> m' (q + i) = m (fst a + i))).
Proof. exact default_realloc_spec. Qed.
Print Assumptions C71_realloc.

(** The documentation promises the prefix of the old block for the size of the returned layout; refuted for allocators that
    return more than was asked for: only the size asked for is copied. *)
Theorem C71_realloc_returned_size_refuted : exists t A own inv s m a l s' m' q l', valid_target t /\ honours t A own inv /\ inv s m [a] /\
  valid_layout t l /\ 0 < lsize l /\ default_realloc A s m a l = (s', m', Ret (Some (q, l'))) /\
  ~ (forall i, 0 <= i < Z.min (lsize l') (lsize (snd a)) -> m' (q + i) = m (fst a + i)).
Proof.
  exists (x64 false), pages, pages_own, pages_inv, 1, (fun x => if x <? 4160 then Some 7 else None), (4096, MkLayout 64 8), (MkLayout 10 8). do 4 eexists.
  split; [exact ex_target_ok|]. split; [exact pages_honours|]. split; [split; [lia|repeat constructor; cbn; lia]|]. split; [|split; [reflexivity|split; [reflexivity|]]].
  - split; [cbn; lia|]. split; [exists 3; split; [lia|reflexivity]|]. vm_compute. split; discriminate.
  - intros K. specialize (K 20 ltac:(cbn; lia)). vm_compute in K. discriminate.
Qed.
Print Assumptions C71_realloc_returned_size_refuted.

Example ex_realloc : match default_realloc (bump_lalloc (x64 false)) (MkSlab (MkBlock 4099 32) 3) (fun x => Some (x mod 256)) (4100, MkLayout 2 2) (MkLayout 8 4) with
  | (s, m', r) => consumed s = 13 /\ r = Ret (Some (4104, MkLayout 8 4)) /\ mem_read m' 4104 3 = [Some 4; Some 5; Some 10] end.
Proof. vm_compute. auto. Qed.

(** C74. [NonZeroLayout::from_layout]; [layout_reallocated], which panics for the size zero that GlobalAlloc forbids. *)
Theorem C74_nonzero_layout : forall l l', nonzero_from_layout l = Some l' <-> lsize l <> 0 /\ lsize l' = lsize l /\ lalign l' = lalign l.
Proof.
  intros [sz al] [sz' al']. unfold nonzero_from_layout. cbn [lsize lalign]. destruct (Z.eqb_spec sz 0).
  - split; [discriminate|]. tauto.
  - split; [intros E; injection E; intros; subst; auto|]. intros (_ & -> & ->). reflexivity.
Qed.
Print Assumptions C74_nonzero_layout.

Theorem C74_layout_reallocated : forall t l n, valid_target t -> valid_layout t l -> 0 <= n ->
  (n = 0 -> layout_reallocated t l n = Some (Panic P_layout_unwrap)) /\
  (0 < n -> (forall l', layout_reallocated t l n = Some (Ret l') <-> l' = MkLayout n (lalign l) /\ valid_layout t l') /\
            (layout_reallocated t l n = None <-> ~ valid_layout t (MkLayout n (lalign l)))).
Proof.
  intros t l n Ht V N. unfold layout_reallocated. destruct (from_size_align t n (lalign l)) as [k|] eqn:F.
  - apply from_size_align_iff in F. destruct F as [-> F]. unfold nonzero_from_layout. cbn [lsize]. split.
    + intros ->. reflexivity.
    + intros P. destruct (Z.eqb_spec n 0); [lia|]. cbn [unwrap]. split.
      * intros l'. split; [intros E; injection E as <-; auto|intros [-> _]; reflexivity].
      * split; [discriminate|]. intros K. contradiction.
  - assert (NV : ~ valid_layout t (MkLayout n (lalign l))).
    { intros K. assert (E : from_size_align t n (lalign l) = Some (MkLayout n (lalign l))) by (apply from_size_align_iff; auto). rewrite E in F. discriminate. }
    split.
    + intros ->. exfalso. apply NV. destruct V as (_ & V2 & V3 & _). split; [cbn; lia|]. split; [exact V2|]. split; [exact V3|]. cbn [lsize lalign].
      pose proof (isize_lt_usize t Ht) as [_ ?]. rewrite align_up_id; [lia|apply pow2_pos; exact V2|apply Z.divide_0_r].
    + intros P. split; [intros l'; split; [discriminate|intros [-> K]; contradiction]|]. split; auto.
Qed.
Print Assumptions C74_layout_reallocated.

Example ex_reallocated : layout_reallocated (x64 true) (MkLayout 3 8) 17 = Some (Ret (MkLayout 17 8)) /\ layout_reallocated (x64 true) (MkLayout 3 8) (2 ^ 63 - 3) = None.
Proof. split; reflexivity. Qed.
