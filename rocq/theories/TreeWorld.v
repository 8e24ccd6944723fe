(** * TreeWorld: programs with threads, compared with the ideal. *)
From Verif Require Import Base Spec BaseFacts SyncModel SyncSpec SyncProofs ConcModel ConcSpec ConcProofs BorrowModel BorrowSpec BorrowProofs BorrowState BorrowWorld
  TBorrowModel TBorrowWp TBorrowFuel TBorrowStep TBorrowWorld TreeModel TreeSpec TreeState TreeAct TreeStep.

(** ** The table of threads *)
Lemma nlookup_cons_same i r l : nlookup i ((i, r) :: l) = Some r.
Proof. unfold nlookup. cbn [find fst]. rewrite Nat.eqb_refl. reflexivity. Qed.
Lemma nlookup_cons_other i j r l : j <> i -> nlookup j ((i, r) :: l) = nlookup j l.
Proof. intros H. unfold nlookup. cbn [find fst]. rewrite (proj2 (Nat.eqb_neq i j)) by congruence. reflexivity. Qed.
Lemma nlookup_remove_same i l : nlookup i (nremove i l) = None.
Proof.
  induction l as [|[j r] l IH]; [reflexivity|]. cbn [nremove filter fst]. destruct (Nat.eqb_spec j i) as [->|N]; cbn [negb]; [exact IH|].
  rewrite nlookup_cons_other by congruence. exact IH.
Qed.
Lemma nlookup_remove_other i j l : j <> i -> nlookup j (nremove i l) = nlookup j l.
Proof.
  intros N. induction l as [|[k r] l IH]; [reflexivity|]. cbn [nremove filter fst]. destruct (Nat.eqb_spec k i) as [->|Nk]; cbn [negb].
  - rewrite nlookup_cons_other by congruence. exact IH.
  - destruct (Nat.eq_dec j k) as [->|Nj]; [rewrite !nlookup_cons_same; reflexivity|]. rewrite !nlookup_cons_other by congruence. exact IH.
Qed.

Record ninv (t : target) (hd st : block) (own : bool) (w : nworld) (j : nideal) (q : sys) (oc : nat -> caps) (s0 : nat -> nat) (cs : caps) : Prop := {
  n_region : valid_region t st;
  n_inv : inv t st q;
  n_slab : nslab w = MkSlab st (counter q);
  n_own : nowned w = own;
  n_iown : niowned j = own;
  n_holds : tholds cs (niobjs j) (nstate w);
  n_objs : map (fun o => MkO (nblk o) (ntags o)) (niobjs j) = nobjs w;
  n_blocks : map nblk (niobjs j) = returned_blocks (history q);
  n_used : forall n, In n (niused j) -> (n < fresh_tag (nstate w))%nat;
  n_count : nishares j = length (nshares w);
  n_sh : forall n, In n (nshares w) -> In (n, [hd; st]) cs;
  n_oc : forall k, incl (oc k) cs;
  n_pos : forall k n, In n (tags (oc k)) -> (1 <= n)%nat;
  n_sep : forall k k' n, k <> k' -> In n (tags (oc k)) -> ~ In n (tags (oc k'));
  n_new : forall k n, In n (tags (oc k)) -> ~ In n (niused j);
  n_thr : forall k, match nlookup k (nthreads w) with
          | None => threads q k = Idle /\ nicalls j k = None
          | Some r => nicalls j k = Some (ncall r, nuse r, nim r) /\ In (s0 k) (nshares w) /\
                      wpo t hd st (ncall r) (nuse r) (s0 k) (nprog r) (oc k) (threads q k) /\ scoped out_has (s0 k :: tags (oc k)) (nprog r)
          end }.

Section World.
Variables (t : target) (hd st : block).
Hypothesis (Ht : valid_target t) (Dj : disjoint hd st).

Lemma nobjs_in own w j q oc s0 cs o x : ninv t hd st own w j q oc s0 cs -> In o (niobjs j) -> in_block (nblk o) x -> in_block st x.
Proof.
  intros I O X. apply (below_in t st q (nblk o)); [apply (n_inv _ _ _ _ _ _ _ _ _ _ I)| |exact X].
  pose proof (inv_ret t st q (n_inv _ _ _ _ _ _ _ _ _ _ I)) as F. rewrite Forall_forall in F. apply F. apply in_ret.
  rewrite <- (n_blocks _ _ _ _ _ _ _ _ _ _ I). apply in_map. exact O.
Qed.

Lemma nobjs_pairwise own w j q oc s0 cs : ninv t hd st own w j q oc s0 cs -> pairwise disjoint (map nblk (niobjs j)).
Proof. intros I. rewrite (n_blocks _ _ _ _ _ _ _ _ _ _ I). apply (ret_pairwise t st). apply (n_inv _ _ _ _ _ _ _ _ _ _ I). Qed.

(** the block of a thread that has its answer *)
Lemma ndone_block q objs i c a : valid_region t st -> inv t st q -> map nblk objs = returned_blocks (history q) -> threads q i = Done c (RBlock a) ->
  c <> CLevel /\ event_block (c, RBlock a) = Some (blk c a) /\ inside (blk c a) st /\ aligned (ptr a) (lalign (asked c)) /\
  Forall (fun o => disjoint (blk c a) (nblk o)) objs.
Proof.
  intros Rg V Eo D.
  destruct (done_place t st q i c a Ht Rg V D) as (A1 & A2 & A3 & A4).
  assert (Eb : event_block (c, RBlock a) = Some (blk c a)) by (cbn [event_block]; rewrite A2; reflexivity).
  pose proof (inv_done_ret t st q V i c (RBlock a) _ D Eb) as F. rewrite Forall_forall in F.
  split; [exact A1|]. split; [exact Eb|]. split; [exact A3|]. split; [exact A4|].
  apply Forall_forall. intros o O. apply F. apply in_ret. rewrite <- Eo. apply in_map. exact O.
Qed.

Lemma root_cap cs objs s bs : tholds cs objs s -> tholds ((0%nat, bs) :: cs) objs s.
Proof.
  intros H. pose proof H as [a b c d e]. split; auto. intros n bs' [[= <- <-]|I]; [|apply d; exact I]. split; [lia|].
  intros b0 x y _ _ Y. rewrite (proj1 b) in Y. destruct Y as [<-|[]]. right. split; [reflexivity|apply b].
Qed.

(** ** The client *)
Lemma nshare_inv own w j q oc s0 cs self : ninv t hd st own w j q oc s0 cs -> over cs self [hd; st] -> (self < fresh_tag (nstate w))%nat ->
  exists w', n_share hd w self = (w', NDone) /\ nthreads w' = nthreads w /\
    ninv t hd st own w' (MkNI (niobjs j) (niused j) (niowned j) (S (nishares j)) (nicalls j)) q oc s0 ((fresh_tag (nstate w), [hd; st]) :: cs).
Proof.
  intros I O L. pose proof I as [a1 a2 a3 a4 a5 a6 a7 a8 a9 a10 b1 b2 b3 b4 b5 b6].
  destruct (cell_retag cs (niobjs j) (nstate w) self [hd; st] a6 L O) as (r & E & H).
  unfold n_share. rewrite a3. cbn [storage]. cbn [map] in E. rewrite E. eexists. split; [reflexivity|]. split; [reflexivity|].
  split; cbn [nslab nstate nowned nshares nobjs nthreads niobjs niused niowned nishares nicalls fresh_tag]; auto.
  - intros m M. specialize (a9 m M). lia.
  - rewrite app_length, a10. cbn. lia.
  - intros m M. apply in_app_or in M. destruct M as [M|[<-|[]]]; [right; auto|left; reflexivity].
  - intros k. apply incl_tl. apply b2.
  - intros k. specialize (b6 k). destruct (nlookup k (nthreads w)) as [r'|]; [|exact b6]. destruct b6 as (c1 & c2 & c3). split; [exact c1|]. split; [apply in_or_app; left; exact c2|exact c3].
Qed.

Lemma nact_inv own w j q oc s0 cs k a : ninv t hd st own w j q oc s0 cs ->
  exists j', nistep st j (NAct k a) (snd (ntstep t hd w (NAct k a))) j' /\ nthreads (fst (ntstep t hd w (NAct k a))) = nthreads w /\
    ninv t hd st own (fst (ntstep t hd w (NAct k a))) j' q oc s0 cs.
Proof.
  intros I. pose proof I as [a1 a2 a3 a4 a5 a6 a7 a8 a9 a10 b1 b2 b3 b4 b5 b6]. cbn [ntstep].
  destruct (nth_error (nobjs w) k) as [ob|] eqn:E.
  2:{ cbn [fst snd]. exists j. split; [|auto]. apply NIActNot. intros o Ho. exfalso. rewrite <- a7, nth_error_map, Ho in E. discriminate. }
  assert (Ho : exists o, nth_error (niobjs j) k = Some o /\ ob = MkO (nblk o) (ntags o)).
  { rewrite <- a7, nth_error_map in E. destruct (nth_error (niobjs j) k) as [o|]; [|discriminate]. cbn in E. injection E as <-. eauto. }
  destruct Ho as (o & Ho & ->). destruct (nact_ok (MkO (nblk o) (ntags o)) a) eqn:A.
  2:{ cbn [fst snd]. exists j. split; [|auto]. apply NIActNot. intros o' Ho'. congruence. }
  pose proof (act_tree cs _ (nstate w) k o a a6 Ho (nobjs_pairwise _ _ _ _ _ _ _ I) A) as C.
  set (n := fresh_tag (nstate w)) in *.
  destruct (tree_act n a (nodes (nstate w))) as [r|] eqn:Er; destruct (tree_act n a (ntree o)) as [r'|] eqn:Er'; try contradiction; cbn [fst snd oblk otags].
  - assert (Nu : ~ In n (niused j)) by (intros K; specialize (a9 _ K); lia).
    eexists. split; [eapply NIAct; eauto|]. split; [reflexivity|].
    assert (Lm : (n <= if makes_tag a then S n else n)%nat) by (destruct (makes_tag a); lia).
    split; cbn [nslab nstate nowned nshares nobjs nthreads niobjs niused niowned nishares nicalls fresh_tag with_nobjs]; auto.
    + rewrite set_nth_map2, a7. reflexivity.
    + rewrite (set_same_map _ k o _ _ Ho). exact a8.
    + intros m M. unfold tags_after in M. destruct (makes_tag a); [destruct M as [<-|M]; [lia|]|]; specialize (a9 m M); lia.
    + intros m x X K. unfold tags_after in K. destruct (makes_tag a); [destruct K as [<-|K]|]; [|exact (b5 m x X K)|exact (b5 m x X K)].
      destruct (tags_caps cs (oc m) n (b2 m) X) as (bs & K). pose proof (proj1 (t_caps _ _ _ a6 _ _ K)). lia.
  - exists j. split; [|auto]. eapply NIActUB; eauto.
Qed.

Lemma nreset_inv own w j q oc s0 cs : ninv t hd st own w j q oc s0 cs ->
  exists j' q' oc' s0' cs', nistep st j NReset (snd (ntstep t hd w NReset)) j' /\ ninv t hd st own (fst (ntstep t hd w NReset)) j' q' oc' s0' cs' /\
    (nthreads w = [] \/ (q' = q /\ nthreads (fst (ntstep t hd w NReset)) = nthreads w)).
Proof.
  intros I. pose proof I as [a1 a2 a3 a4 a5 a6 a7 a8 a9 a10 b1 b2 b3 b4 b5 b6]. cbn [ntstep]. rewrite a4.
  destruct own; [|cbn [fst snd]; exists j, q, oc, s0, cs; split; [apply NIResetNot; left; exact a5|split; [exact I|right; auto]]].
  destruct (nthreads w) as [|[i r] l] eqn:En.
  2:{ cbn [fst snd]. exists j, q, oc, s0, cs. split; [|split; [exact I|right; auto]]. apply NIResetNot. right. exists i. specialize (b6 i). rewrite nlookup_cons_same in b6. destruct b6 as [-> _]. discriminate. }
  destruct (reset_tree hd (storage (nslab w)) _ _ _ a6) as (s' & E & L & H). rewrite E. cbn [fst snd].
  eexists _, sys_init, (fun _ => []), s0, []. split; [apply NIReset; [exact a5|]|].
  { intros i. specialize (b6 i). cbn in b6. apply b6. }
  split; [|left; reflexivity]. split; cbn [nslab nstate nowned nshares nobjs nthreads niobjs niused niowned nishares nicalls]; auto.
  - apply inv_init. exact a1.
  - rewrite a3. reflexivity.
  - intros n M. specialize (a9 n M). lia.
  - intros k. apply incl_nil_l.
  - intros k n [].
  - intros k. specialize (b6 k). cbn in *. split; [reflexivity|apply b6].
Qed.

(** ** A call starts *)
Lemma ninvoke_inv own w j q oc s0 cs i k c u im self : ninv t hd st own w j q oc s0 cs -> nlookup i (nthreads w) = None ->
  nth_error (nshares w) k = Some self -> c <> CReset -> valid_call t c ->
  ninv t hd st own (MkNW (nslab w) (nstate w) (nowned w) (nshares w) (nobjs w) ((i, MkNR c u im (p_call t hd st c u self)) :: nthreads w))
    (MkNI (niobjs j) (niused j) (niowned j) (nishares j) (set_ncall (nicalls j) i (Some (c, u, im))))
    (sys_step t st q (Invoke i c)) (fun m => if Nat.eqb m i then [] else oc m) (fun m => if Nat.eqb m i then self else s0 m) cs.
Proof.
  intros I El Es Nr Vc. pose proof I as [a1 a2 a3 a4 a5 a6 a7 a8 a9 a10 b1 b2 b3 b4 b5 b6].
  pose proof (b6 i) as b6i. rewrite El in b6i. destruct b6i as [Eq Ej].
  destruct (one_invoke t st q i c Eq) as (C1 & C2 & C3 & C4 & C5).
  assert (Ir : is_reset c = false) by (destruct c; try reflexivity; congruence).
  pose proof (inv_step t st q (Invoke i c) Ht a1 (conj Vc Ir) a2) as V'.
  set (q' := sys_step t st q (Invoke i c)) in *.
  split; cbn [nslab nstate nowned nshares nobjs nthreads niobjs niused niowned nishares nicalls]; auto.
  - rewrite C1. exact a3.
  - rewrite a8. unfold history. rewrite !returned_blocks_rev, C4. reflexivity.
  - intros m. destruct (Nat.eqb m i); [apply incl_nil_l|apply b2].
  - intros m n. destruct (Nat.eqb m i); [intros []|apply b3].
  - intros m m' n N. destruct (Nat.eqb m i); [intros []|]. destruct (Nat.eqb m' i); [intros _ []|]. apply b4. exact N.
  - intros m n. destruct (Nat.eqb m i); [intros []|apply b5].
  - intros m. unfold set_ncall. destruct (Nat.eqb_spec m i) as [->|N].
    + rewrite nlookup_cons_same. cbn [ncall nuse nim nprog]. split; [reflexivity|]. split; [eapply nth_error_In; eauto|]. rewrite C2. split; [apply wp_call; auto|apply scoped_call].
    + rewrite nlookup_cons_other by exact N. rewrite (C3 m N). apply b6.
Qed.

(** ** A step of a thread *)
Lemma nmoved_sys q i c lv' ts' : valid_region t st -> inv t st q -> moved t st c (counter q) (threads q i) lv' ts' ->
  exists sched, Forall (valid_action t) sched /\ let q' := sys_run t st q sched in
    inv t st q' /\ counter q' = lv' /\ threads q' i = ts' /\ (forall m, m <> i -> threads q' m = threads q m) /\
    returned_blocks (history q') = returned_blocks (history q) /\ filter visible (history q') = filter visible (history q).
Proof.
  intros Rg V [[-> ->]|(g & Er & Ea)].
  - exists []. split; [constructor|]. cbn. auto 7.
  - exists [Access i]. split; [repeat constructor|]. cbn [sys_run fold_left].
    destruct (one_access t st q i c g lv' ts' Er Ea) as (C1 & C2 & C3 & C4 & C5).
    split; [apply inv_step; auto; exact Logic.I|]. split; [exact C1|]. split; [exact C2|]. split; [exact C3|]. split; [|exact C5].
    unfold history. rewrite !returned_blocks_rev, C4. reflexivity.
Qed.

(** a step inside of a call *)
Lemma nmore_inv own w j q oc s0 cs i r b p' q' oc' cs' :
  ninv t hd st own w j q oc s0 cs -> nlookup i (nthreads w) = Some r -> (fresh_tag (nstate w) <= fresh_tag b)%nat ->
  inv t st q' -> (forall m, m <> i -> threads q' m = threads q m) -> returned_blocks (history q') = returned_blocks (history q) ->
  tholds cs' (niobjs j) b ->
  wpo t hd st (ncall r) (nuse r) (s0 i) p' oc' (threads q' i) -> scoped out_has (s0 i :: tags oc') p' ->
  ((cs' = cs /\ oc' = oc i) \/ exists bs, cs' = (fresh_tag (nstate w), bs) :: cs /\ oc' = (fresh_tag (nstate w), bs) :: oc i) ->
  ninv t hd st own (ngot w (counter q') b (ncall r) RNone None ((i, MkNR (ncall r) (nuse r) (nim r) p') :: nremove i (nthreads w)))
    j q' (fun m => if Nat.eqb m i then oc' else oc m) s0 cs'.
Proof.
  intros I El Nb V' Oth Er H W Sc Cs. pose proof I as [a1 a2 a3 a4 a5 a6 a7 a8 a9 a10 b1 b2 b3 b4 b5 b6].
  pose proof (b6 i) as b6i. rewrite El in b6i. destruct b6i as (c1 & c2 & c3 & c4).
  pose proof (t_next _ _ _ a6) as Pn. set (n := fresh_tag (nstate w)) in *.
  assert (Ic : incl cs cs') by (destruct Cs as [[-> _]|(bs & -> & _)]; [apply incl_refl|apply incl_tl, incl_refl]).
  assert (Io : incl oc' cs').
  { destruct Cs as [[-> ->]|(bs & -> & ->)]; [apply b2|]. intros x [<-|X]; [left; reflexivity|right; apply (b2 i); exact X]. }
  assert (Tg : forall m, In m (tags oc') -> In m (tags (oc i)) \/ m = n).
  { intros m M. destruct Cs as [[_ ->]|(bs & _ & ->)]; [left; exact M|]. destruct M as [M|M]; [right; auto|left; exact M]. }
  assert (Fn : forall m, ~ In n (tags (oc m))).
  { intros m K. destruct (tags_caps cs (oc m) n (b2 m) K) as (bs & K'). pose proof (proj1 (t_caps _ _ _ a6 _ _ K')). lia. }
  split; cbn [ngot nslab nstate nowned nshares nobjs nthreads]; auto.
  - rewrite a3. reflexivity.
  - congruence.
  - intros m M. specialize (a9 m M). lia.
  - intros m. destruct (Nat.eqb m i); [exact Io|]. eapply incl_tran; [apply b2|exact Ic].
  - intros m x. destruct (Nat.eqb m i); [|apply b3]. intros X. destruct (Tg x X) as [X'| ->]; [exact (b3 i x X')|exact Pn].
  - intros m m' x N. destruct (Nat.eqb_spec m i) as [->|Nm]; destruct (Nat.eqb_spec m' i) as [->|Nm']; try congruence.
    + intros X Y. destruct (Tg x X) as [X'| ->]; [exact (b4 i m' x N X' Y)|exact (Fn m' Y)].
    + intros X Y. destruct (Tg x Y) as [Y'| ->]; [exact (b4 m i x N X Y')|exact (Fn m X)].
    + apply b4. exact N.
  - intros m x. destruct (Nat.eqb m i); [|apply b5]. intros X. destruct (Tg x X) as [X'| ->]; [exact (b5 i x X')|]. intros K. specialize (a9 _ K). lia.
  - intros m. destruct (Nat.eqb_spec m i) as [->|N].
    + rewrite nlookup_cons_same. cbn [ncall nuse nim nprog]. auto.
    + rewrite nlookup_cons_other, nlookup_remove_other by exact N. rewrite (Oth m N). apply b6.
Qed.

(** the answer without a block *)
Lemma nother_inv own w j q oc s0 cs i r b x q' cs' :
  ninv t hd st own w j q oc s0 cs -> nlookup i (nthreads w) = Some r -> (fresh_tag (nstate w) <= fresh_tag b)%nat ->
  inv t st q' -> threads q' i = Idle -> (forall m, m <> i -> threads q' m = threads q m) -> returned_blocks (history q') = returned_blocks (history q) ->
  (forall a, x <> RBlock a) -> tholds cs' (niobjs j) b -> incl cs cs' ->
  ninv t hd st own (ngot w (counter q') b (ncall r) x None (nremove i (nthreads w)))
    (MkNI (niobjs j) (niused j) (niowned j) (nishares j) (set_ncall (nicalls j) i None)) q' (fun m => if Nat.eqb m i then [] else oc m) s0 cs.
Proof.
  intros I El Nb V' Ei Oth Er Nx H Ic. pose proof I as [a1 a2 a3 a4 a5 a6 a7 a8 a9 a10 b1 b2 b3 b4 b5 b6].
  split; cbn [ngot nslab nstate nowned nshares nobjs nthreads niobjs niused niowned nishares nicalls]; auto.
  - rewrite a3. reflexivity.
  - eapply tholds_less; [exact Ic|exact H].
  - destruct x; exact a7.
  - congruence.
  - intros m M. specialize (a9 m M). lia.
  - intros m. destruct (Nat.eqb m i); [apply incl_nil_l|apply b2].
  - intros m n. destruct (Nat.eqb m i); [intros []|apply b3].
  - intros m m' n N. destruct (Nat.eqb m i); [intros []|]. destruct (Nat.eqb m' i); [intros _ []|]. apply b4. exact N.
  - intros m n. destruct (Nat.eqb m i); [intros []|apply b5].
  - intros m. unfold set_ncall. destruct (Nat.eqb_spec m i) as [->|N].
    + rewrite nlookup_remove_same. auto.
    + rewrite nlookup_remove_other by exact N. rewrite (Oth m N). apply b6.
Qed.

(** the answer with a block *)
Lemma nblock_inv own w j q oc s0 cs i r b a n q' cs' :
  ninv t hd st own w j q oc s0 cs -> nlookup i (nthreads w) = Some r -> (fresh_tag (nstate w) <= fresh_tag b)%nat ->
  inv t st q' -> threads q' i = Idle -> (forall m, m <> i -> threads q' m = threads q m) ->
  returned_blocks (history q') = returned_blocks (history q) ++ [blk (ncall r) a] ->
  tholds cs' (niobjs j ++ [new_alloc (blk (ncall r) a) n (first_perm (nuse r) (nim r))]) b -> incl cs cs' ->
  (n < fresh_tag b)%nat -> (forall m, m <> i -> ~ In n (tags (oc m))) ->
  ninv t hd st own (ngot w (counter q') b (ncall r) (RBlock a) (Some n) (nremove i (nthreads w)))
    (MkNI (niobjs j ++ [new_alloc (blk (ncall r) a) n (first_perm (nuse r) (nim r))]) (n :: niused j) (niowned j) (nishares j) (set_ncall (nicalls j) i None))
    q' (fun m => if Nat.eqb m i then [] else oc m) s0 cs.
Proof.
  intros I El Nb V' Ei Oth Er H Ic Ln Fo. pose proof I as [a1 a2 a3 a4 a5 a6 a7 a8 a9 a10 b1 b2 b3 b4 b5 b6].
  split; cbn [ngot nslab nstate nowned nshares nobjs nthreads niobjs niused niowned nishares nicalls]; auto.
  - rewrite a3. reflexivity.
  - eapply tholds_less; [exact Ic|exact H].
  - rewrite map_snoc, a7. reflexivity.
  - rewrite map_snoc, a8, Er. reflexivity.
  - intros m [<-|M]; [exact Ln|specialize (a9 m M); lia].
  - intros m. destruct (Nat.eqb m i); [apply incl_nil_l|apply b2].
  - intros m x. destruct (Nat.eqb m i); [intros []|apply b3].
  - intros m m' x N. destruct (Nat.eqb m i); [intros []|]. destruct (Nat.eqb m' i); [intros _ []|]. apply b4. exact N.
  - intros m x. destruct (Nat.eqb_spec m i) as [->|N]; [intros []|]. intros X [<-|K]; [exact (Fo m N X)|exact (b5 m x X K)].
  - intros m. unfold set_ncall. destruct (Nat.eqb_spec m i) as [->|N].
    + rewrite nlookup_remove_same. auto.
    + rewrite nlookup_remove_other by exact N. rewrite (Oth m N). apply b6.
Qed.

(** A step of a thread: it is not undefined behaviour. *)
Lemma nthread_step own w j q oc s0 cs i r : ninv t hd st own w j q oc s0 cs -> nlookup i (nthreads w) = Some r ->
  exists j' q' oc' cs' sched, nistep st j (NStep i) (snd (ntstep t hd w (NStep i))) j' /\
    ninv t hd st own (fst (ntstep t hd w (NStep i))) j' q' oc' s0 cs' /\
    Forall (valid_action t) sched /\ q' = sys_run t st q sched /\
    filter visible (history q') = filter visible (history q) ++ nseen [(NStep i, snd (ntstep t hd w (NStep i)))] /\
    (forall m, m <> i -> threads q' m = threads q m) /\
    (snd (ntstep t hd w (NStep i)) = NMore -> exists r', nlookup i (nthreads (fst (ntstep t hd w (NStep i)))) = Some r' /\
       forall n, within n (nprog r) -> exists n', within n' (nprog r') /\ 0 <= rest st (threads q' i) /\
         Z.of_nat n' + 8 * rest st (threads q' i) < Z.of_nat n + 8 * rest st (threads q i)).
Proof.
  intros I El. pose proof I as [a1 a2 a3 a4 a5 a6 a7 a8 a9 a10 b1 b2 b3 b4 b5 b6].
  pose proof (b6 i) as b6i. rewrite El in b6i. destruct b6i as (c1 & c2 & c3 & c4). cbn [ntstep]. rewrite El, a3. cbn [storage consumed].
  assert (Ia : incl (all hd st (s0 i) (oc i)) cs).
  { intros x [<-|X]; [apply b1; exact c2|apply (b2 i); exact X]. }
  assert (Dh : forall o, In o (niobjs j) -> disjoint hd (nblk o)).
  { intros o O x [X Y]. exact (Dj x (conj X (nobjs_in _ _ _ _ _ _ _ _ _ I O Y))). }
  assert (Db : forall a, threads q i = Done (ncall r) (RBlock a) -> inside (blk (ncall r) a) st /\ forall o, In o (niobjs j) -> disjoint (blk (ncall r) a) (nblk o)).
  { intros a Ea. destruct (ndone_block q (niobjs j) i (ncall r) a a1 a2 a8 Ea) as (_ & _ & A & _ & C). rewrite Forall_forall in C. auto. }
  destruct (nstep_ok (nim r) t hd st (ncall r) (nuse r) (s0 i) cs (niobjs j) (nstate w) (counter q) (nprog r) (oc i) (threads q i)
    Dj c3 c4 a6 Ia (inv_counter t st q a2) Dh Db) as (lv' & p' & b & E1 & Nb & Cases).
  pose proof (t_next _ _ _ a6) as Pn.
  rewrite E1. destruct Cases as [(ts' & cs1 & oc1 & Mv & H & W & Sc & Cs & Ca)|(a & -> & Ets & Eu & -> & Nb1 & H)].
  - destruct (nmoved_sys q i (ncall r) lv' ts' a1 a2 Mv) as (sc1 & F1 & V1 & Q1 & Q2 & Q3 & Q4 & Q5). cbn zeta in *.
    set (q1 := sys_run t st q sc1) in *.
    destruct (wp_settle t hd st (ncall r) (nuse r) (s0 i) p' oc1 ts' Dj W) as [W2 Na].
    pose proof (scoped_settle t hd st (ncall r) (nuse r) _ p' Sc) as Sc2.
    assert (Ic : incl cs cs1) by (destruct Cs as [[-> _]|(bs & -> & _)]; [apply incl_refl|apply incl_tl, incl_refl]).
    assert (Ia1 : incl (all hd st (s0 i) oc1) cs1).
    { destruct Cs as [[-> ->]|(bs & -> & ->)]; [exact Ia|]. intros x [<-|[<-|X]]; [right; apply Ia; left; reflexivity|left; reflexivity|right; apply Ia; right; exact X]. }
    assert (More : forall p2, settle t hd st (ncall r) (nuse r) p' = p2 -> (forall x tag, p2 <> Fin (Final x tag)) ->
      exists j' q' oc' cs' sched, nistep st j (NStep i) NMore j' /\
        ninv t hd st own (ngot w lv' b (ncall r) RNone None ((i, MkNR (ncall r) (nuse r) (nim r) p2) :: nremove i (nthreads w))) j' q' oc' s0 cs' /\
        Forall (valid_action t) sched /\ q' = sys_run t st q sched /\ filter visible (history q') = filter visible (history q) ++ nseen [(NStep i, NMore)] /\
        (forall m, m <> i -> threads q' m = threads q m) /\
        (NMore = NMore -> exists r', nlookup i ((i, MkNR (ncall r) (nuse r) (nim r) p2) :: nremove i (nthreads w)) = Some r' /\
       forall n, within n (nprog r) -> exists n', within n' (nprog r') /\ 0 <= rest st (threads q' i) /\
         Z.of_nat n' + 8 * rest st (threads q' i) < Z.of_nat n + 8 * rest st (threads q i))).
    { intros p2 E2 Nf. exists j, q1, (fun m => if Nat.eqb m i then oc1 else oc m), cs1, sc1. split; [apply NIMore; congruence|]. split.
      - rewrite <- Q1, <- E2. apply (nmore_inv own w j q oc s0 cs i r b _ q1 oc1 cs1 I El Nb V1 Q3 Q4 H); [rewrite Q2; exact W2|exact Sc2|exact Cs].
      - split; [exact F1|]. split; [reflexivity|]. split; [cbn [nseen]; rewrite app_nil_r; exact Q5|]. split; [exact Q3|]. intros _.
        eexists. split; [apply nlookup_cons_same|]. cbn [nprog]. intros n Wn. rewrite Q2.
        assert (Npf : forall x, nprog r <> Fin x).
        { intros x Ex. rewrite Ex in E1, Wn. cbn [nstep] in E1. injection E1 as <- <- <-. destruct x as [g s|x tag]; [exact Wn|].
          cbn [settle] in E2. exact (Nf x tag (eq_sym E2)). }
        assert (Rst : 0 <= rest st ts' <= rest st (threads q i)).
        { destruct Mv as [[_ ->]|(g & Eg & Ea)].
          - destruct (threads q i) as [|c0 g0|c0 r0] eqn:Et; cbn [rest]; try lia. destruct (inv_running t st q a2 i c0 g0 Et) as (_ & _ & Lg). pose proof (inv_counter t st q a2). lia.
          - rewrite Eg. apply (access_rest t st q i (ncall r) g lv' ts' Ht a1 a2 Eg Ea). }
        destruct (nstep_fuel _ _ _ _ _ _ _ _ n E1 Wn Npf) as [(n' & -> & W')|(Ic' & -> & x & ->)].
        + exists n'. split; [|lia]. destruct p' as [[g s|x tag]|? ? ?|? ?|? ? ? ?|? ? ?]; cbn [settle] in E2; try (subst p2; exact W'). destruct W'.
        + destruct W as (Et' & _). destruct (Ca Ic') as (g & Eg & Ea). rewrite Eg. rewrite Et' in Ea.
          destruct (access_rest t st q i (ncall r) g _ _ Ht a1 a2 Eg Ea) as [K1 K2]. specialize (K2 _ _ eq_refl). rewrite <- Et' in K1, K2.
          cbn [settle] in E2. subst p2. exists 8%nat. split; [apply within_iter|]. split; [lia|]. destruct n as [|n]; [destruct (nprog r) as [[|]|? ? ?|? ?|? ? ? ?|? ? ?]; [destruct Wn|exfalso; eapply Npf; reflexivity|destruct Wn|destruct Wn|destruct Wn|destruct Wn]|]. lia. }
    destruct (settle t hd st (ncall r) (nuse r) p') as [[g s|x tag]|n1 parts k|n1 k|n1 e new k|n1 bb k] eqn:Es; cbn [fst snd].
    1:{ exfalso. eapply Na. reflexivity. }
    2,3,4,5: apply More; [reflexivity|discriminate].
    clear More. destruct W2 as [Dc Post]. rewrite <- Q2 in Dc.
    destruct (late_sys t st Ht q1 i (ncall r) x a1 V1 Dc) as (sc2 & F2 & V2 & R1 & R2 & R3 & R4 & R5). cbn zeta in *. set (q2 := sys_run t st q1 sc2) in *.
    destruct (return_sys t st Ht q2 i (ncall r) x a1 V2 R2) as (V3 & S1 & S2 & S3 & S4 & S5). cbn zeta in *. set (q3 := sys_step t st q2 (Return i)) in *.
    assert (Eq3 : q3 = sys_run t st q (sc1 ++ sc2 ++ [Return i])) by (rewrite !sys_run_app; reflexivity).
    assert (Fq : Forall (valid_action t) (sc1 ++ sc2 ++ [Return i])) by (apply Forall_app; split; [exact F1|]; apply Forall_app; split; [exact F2|]; repeat constructor).
    assert (Lv : counter q3 = lv') by congruence.
    assert (Oth : forall m, m <> i -> threads q3 m = threads q m) by (intros m N; rewrite S3, R3, Q3 by exact N; reflexivity).
    assert (Vis : filter visible (history q3) = filter visible (history q) ++ nseen [(NStep i, NReturn (ncall r) x tag)]) by (cbn [nseen]; rewrite S5, R5, Q5; reflexivity).
    assert (Other : (forall a, x <> RBlock a) -> tag = None ->
      exists j' q' oc' cs' sched, nistep st j (NStep i) (NReturn (ncall r) x tag) j' /\
        ninv t hd st own (ngot w lv' b (ncall r) x tag (nremove i (nthreads w))) j' q' oc' s0 cs' /\
        Forall (valid_action t) sched /\ q' = sys_run t st q sched /\ filter visible (history q') = filter visible (history q) ++ nseen [(NStep i, NReturn (ncall r) x tag)] /\
        (forall m, m <> i -> threads q' m = threads q m) /\ (NReturn (ncall r) x tag = NMore -> exists r', nlookup i (nremove i (nthreads w)) = Some r' /\
       forall n, within n (nprog r) -> exists n', within n' (nprog r') /\ 0 <= rest st (threads q' i) /\
         Z.of_nat n' + 8 * rest st (threads q' i) < Z.of_nat n + 8 * rest st (threads q i))).
    { intros Nx ->. eexists _, q3, _, cs, _. split; [eapply NIOther; [exact c1|exact Nx]|]. split.
      - rewrite <- Lv. eapply (nother_inv own w j q oc s0 cs i r b x q3 cs1 I El Nb V3 S2 Oth); auto.
        rewrite S4, R4, Q4. replace (event_block (ncall r, x)) with (@None block) by (destruct x; try reflexivity; exfalso; eapply Nx; reflexivity). apply app_nil_r.
      - split; [exact Fq|]. split; [exact Eq3|]. split; [exact Vis|]. split; [exact Oth|discriminate]. }
    destruct x as [a| |f|lv| |m]; try (apply Other; [discriminate|exact Post]). clear Other.
    destruct Post as (n & -> & Nu & Nt & On).
    assert (Eo2 : map nblk (niobjs j) = returned_blocks (history q2)) by congruence.
    destruct (ndone_block q2 (niobjs j) i (ncall r) a a1 V2 Eo2 R2) as (B1 & B2 & B3 & B4 & B6).
    destruct (tags_caps cs1 oc1 n) as (bs1 & Kn); [intros x X; apply Ia1; right; exact X|exact Nt|].
    assert (Hn : In n (tags (oc i)) \/ n = fresh_tag (nstate w)).
    { destruct Cs as [[_ ->]|(bs & _ & ->)]; [left; exact Nt|]. destruct Nt as [<-|Nt]; [right; reflexivity|left; exact Nt]. }
    assert (L1 : (1 <= n)%nat) by (destruct Hn as [Hn| ->]; [exact (b3 i n Hn)|exact Pn]).
    pose proof (proj1 (t_caps _ _ _ H _ _ Kn)) as L2.
    assert (Ob : over cs1 n [blk (ncall r) a]).
    { intros y z [<-|[]] Z. apply (over_more _ _ _ _ Ia1 On st); [left; reflexivity|]. apply B3. exact Z. }
    pose proof (adopt_tree cs1 (niobjs j) b n (blk (ncall r) a) H L1 L2 Ob) as H2.
    assert (Nused : ~ In n (niused j)).
    { intros K. destruct Hn as [Hn| ->]; [exact (b5 i n Hn K)|specialize (a9 _ K); lia]. }
    eexists _, q3, _, cs, _. split; [apply (NIBlock st j i (ncall r) (nuse r) (nim r) a n c1 B1 B3 B4 B6 Nused)|]. split.
    + rewrite <- Lv. apply (nblock_inv own w j q oc s0 cs i r b a n q3 cs1); auto.
      * rewrite S4, R4, Q4, B2. reflexivity.
      * replace (first_perm (nuse r) (nim r)) with PActive by (destruct (nuse r); [reflexivity|congruence|reflexivity]). exact H2.
      * intros m Nm K. destruct Hn as [Hn| ->]; [exact (b4 m i n Nm K Hn)|]. destruct (tags_caps cs (oc m) _ (b2 m) K) as (bs & Kc). pose proof (proj1 (t_caps _ _ _ a6 _ _ Kc)). lia.
    + split; [exact Fq|]. split; [exact Eq3|]. split; [exact Vis|]. split; [exact Oth|discriminate].
  - cbn [settle fst snd]. destruct (ndone_block q (niobjs j) i (ncall r) a a1 a2 a8 Ets) as (B1 & B2 & B3 & B4 & B6).
    destruct (return_sys t st Ht q i (ncall r) (RBlock a) a1 a2 Ets) as (V3 & S1 & S2 & S3 & S4 & S5). cbn zeta in *. set (q3 := sys_step t st q (Return i)) in *.
    set (n := fresh_tag (nstate w)) in *.
    assert (Nused : ~ In n (niused j)) by (intros K; specialize (a9 _ K); lia).
    eexists _, q3, _, cs, [Return i]. split; [apply (NIBlock st j i (ncall r) (nuse r) (nim r) a n c1 B1 B3 B4 B6 Nused)|]. split.
    + rewrite <- S1. apply (nblock_inv own w j q oc s0 cs i r b a n q3 cs); auto.
      * rewrite S4, B2. reflexivity.
      * rewrite Eu. exact H.
      * apply incl_refl.
      * lia.
      * intros m Nm K. destruct (tags_caps cs (oc m) _ (b2 m) K) as (bs & Kc). pose proof (proj1 (t_caps _ _ _ a6 _ _ Kc)). lia.
    + split; [repeat constructor|]. split; [reflexivity|]. split; [exact S5|]. split; [exact S3|discriminate].
Qed.

(** ** Programs *)
Definition nrel (own : bool) (w : nworld) (j : nideal) (q : sys) : Prop := exists oc s0 cs, ninv t hd st own w j q oc s0 cs.

(** What a step does to a thread that is in a call *)
Definition nkept (w w' : nworld) (q q' : sys) (o : nop) (ans : nanswer) : Prop :=
  forall m r, nlookup m (nthreads w) = Some r ->
    (o <> NStep m -> nlookup m (nthreads w') = Some r /\ threads q' m = threads q m) /\
    (o = NStep m -> ans = NMore -> exists r', nlookup m (nthreads w') = Some r' /\
       forall n, within n (nprog r) -> exists n', within n' (nprog r') /\ 0 <= rest st (threads q' m) /\
         Z.of_nat n' + 8 * rest st (threads q' m) < Z.of_nat n + 8 * rest st (threads q m)).

Lemma nstep_other w i m x : m <> i -> nlookup m (nthreads w) = Some x -> nlookup m (nthreads (fst (ntstep t hd w (NStep i)))) = Some x.
Proof.
  intros N E. cbn [ntstep]. destruct (nlookup i (nthreads w)) as [r|]; [|exact E]. destruct (nstep _ _ _ _ _) as [[[lv p] b]|]; [|exact E].
  destruct (settle _ _ _ _ _ p) as [[g s|y tag]|? ? ?|? ?|? ? ? ?|? ? ?]; cbn [fst ngot nthreads]; rewrite ?nlookup_cons_other, nlookup_remove_other by exact N; exact E.
Qed.

Lemma nact_kept w k a : nthreads (fst (ntstep t hd w (NAct k a))) = nthreads w /\ snd (ntstep t hd w (NAct k a)) <> NMore.
Proof.
  cbn [ntstep]. destruct (nth_error (nobjs w) k) as [o|]; [|split; [reflexivity|discriminate]]. destruct (nact_ok o a); [|split; [reflexivity|discriminate]].
  destruct (tree_act _ _ _); (split; [reflexivity|]); [destruct a|]; discriminate.
Qed.

Lemma ntstep_inv own w j q o : nrel own w j q -> nop_ok t o ->
  exists j' q', nistep st j o (snd (ntstep t hd w o)) j' /\ nrel own (fst (ntstep t hd w o)) j' q' /\ nkept w (fst (ntstep t hd w o)) q q' o (snd (ntstep t hd w o)) /\
    (o <> NReset -> exists sched, Forall (valid_action t) sched /\ q' = sys_run t st q sched /\
       filter visible (history q') = filter visible (history q) ++ nseen [(o, snd (ntstep t hd w o))]).
Proof.
  intros (oc & s0 & cs & I) Ok. pose proof I as [a1 a2 a3 a4 a5 a6 a7 a8 a9 a10 b1 b2 b3 b4 b5 b6].
  assert (Quiet : forall w' r j', nseen [(o, r)] = [] -> (nthreads w' = nthreads w /\ r <> NMore) -> nistep st j o r j' -> nrel own w' j' q -> exists j' q', nistep st j o r j' /\ nrel own w' j' q' /\ nkept w w' q q' o r /\
    (o <> NReset -> exists sched, Forall (valid_action t) sched /\ q' = sys_run t st q sched /\ filter visible (history q') = filter visible (history q) ++ nseen [(o, r)])).
  { intros w' r j' Er [Tw Nm] J R. exists j', q. split; [exact J|]. split; [exact R|]. split; [intros m x Ex; rewrite Tw; split; [auto|congruence]|]. intros _. exists []. split; [constructor|]. split; [reflexivity|]. rewrite Er, app_nil_r. reflexivity. }
  assert (R0 : nrel own w j q) by (exists oc, s0, cs; exact I).
  assert (Tsh : forall self, nthreads (fst (n_share hd w self)) = nthreads w) by (intros self; unfold n_share; destruct (tree_retag _ _ _ _ _); reflexivity).
  Ltac qt := split; [first [reflexivity|match goal with E : n_share hd _ ?x = _, T : forall self, nthreads (fst (n_share hd _ self)) = _ |- _ => let X := fresh in pose proof (T x) as X; rewrite E in X; exact X end]|discriminate].
  destruct o as [[k|]| |k a|i k c u im|i].
  - cbn [ntstep]. destruct (nth_error (nshares w) k) as [self|] eqn:E.
    + pose proof (b1 self (nth_error_In _ _ E)) as Ic.
      destruct (nshare_inv own w j q oc s0 cs self I) as (w' & E1 & _ & I2).
      { intros b x B X. exists [hd; st], b. split; [exact Ic|auto]. }
      { apply (t_caps _ _ _ a6 _ _ Ic). }
      rewrite E1. cbn [fst snd]. eapply Quiet; [reflexivity|qt|apply NIShare|eexists _, _, _; exact I2]. rewrite a10. apply nth_error_Some. congruence.
    + cbn [fst snd]. eapply Quiet; [reflexivity|qt|apply NIShareNot|exact R0]. rewrite a10. apply nth_error_None. exact E.
  - cbn [ntstep]. rewrite a4. destruct own.
    + assert (I' : ninv t hd st true w j q oc s0 ((0%nat, [hd; st]) :: cs)).
      { split; auto; [apply root_cap; exact a6|intros n N; right; auto|intros k; apply incl_tl; apply b2]. }
      destruct (nshare_inv true w j q oc s0 _ 0 I') as (w' & E1 & _ & I2).
      { intros b x B X. exists [hd; st], b. split; [left; reflexivity|auto]. }
      { pose proof (t_next _ _ _ a6). lia. }
      rewrite E1. cbn [fst snd]. eapply Quiet; [reflexivity|qt|apply NIShareOwner; exact a5|eexists _, _, _; exact I2].
    + cbn [fst snd]. eapply Quiet; [reflexivity|qt|apply NIShareOwnerNot; exact a5|exact R0].
  - destruct (nreset_inv own w j q oc s0 cs I) as (j' & q' & oc' & s0' & cs' & J & I2 & K). exists j', q'. split; [exact J|]. split; [eexists _, _, _; exact I2|]. split; [|congruence].
    intros m x Ex. split; [intros _|discriminate]. destruct K as [K|[-> ->]]; [rewrite K in Ex; discriminate|auto].
  - destruct (nact_inv own w j q oc s0 cs k a I) as (j' & J & _ & I2). eapply Quiet; [reflexivity|apply nact_kept|exact J|eexists _, _, _; exact I2].
  - cbn [ntstep]. pose proof (b6 i) as b6i. destruct (nlookup i (nthreads w)) as [r|] eqn:El.
    { cbn [fst snd]. eapply Quiet; [reflexivity|qt| |exact R0]. apply NIInvokeNot. left. destruct b6i as [-> _]. discriminate. }
    destruct b6i as [Ei Ej]. destruct (nth_error (nshares w) k) as [self|] eqn:Ek.
    2:{ cbn [fst snd]. eapply Quiet; [reflexivity|qt| |exact R0]. apply NIInvokeNot. right. left. rewrite a10. apply nth_error_None. exact Ek. }
    assert (Hk : (k < nishares j)%nat) by (rewrite a10; apply nth_error_Some; congruence).
    assert (Cr : c = CReset \/ c <> CReset) by (destruct c; [right|right|right|right|right|left]; congruence). destruct Cr as [->|Nr].
    { cbn [fst snd]. eapply Quiet; [reflexivity|qt| |exact R0]. apply NIInvokeNot. right. right. reflexivity. }
    pose proof (ninvoke_inv own w j q oc s0 cs i k c u im self I El Ek Nr Ok) as I2.
    assert (Es : storage (nslab w) = st) by (rewrite a3; reflexivity).
    set (w' := MkNW (nslab w) (nstate w) (nowned w) (nshares w) (nobjs w) ((i, MkNR c u im (p_call t hd st c u self)) :: nthreads w)) in *.
    assert (E0 : match c with CReset => (w, NInvalid) | _ => (MkNW (nslab w) (nstate w) (nowned w) (nshares w) (nobjs w) ((i, MkNR c u im (p_call t hd (storage (nslab w)) c u self)) :: nthreads w), NMore) end
      = (w', NMore)) by (subst w'; rewrite Es; destruct c; congruence).
    rewrite E0. cbn [fst snd]. eexists _, (sys_step t st q (Invoke i c)). split; [apply NIInvoke; auto|]. split; [eexists _, _, cs; exact I2|].
    split; [intros m x Ex; cbn [w' nthreads]; split; [intros _|discriminate]; destruct (Nat.eq_dec m i) as [->|Nm]; [congruence|]; rewrite nlookup_cons_other by exact Nm; split; [exact Ex|]; destruct (one_invoke t st q i c Ei) as (_ & _ & C3 & _); apply C3; exact Nm|].
    intros _. exists [Invoke i c]. split; [apply Forall_cons; [split; [exact Ok|destruct c; try reflexivity; congruence]|apply Forall_nil]|]. split; [reflexivity|].
    destruct (one_invoke t st q i c Ei) as (_ & _ & _ & _ & C5). exact C5.
  - destruct (nlookup i (nthreads w)) as [r|] eqn:El.
    + destruct (nthread_step own w j q oc s0 cs i r I El) as (j' & q' & oc' & cs' & sched & J & I2 & F & E & Vi & Oth & Mo).
      exists j', q'. split; [exact J|]. split; [exists oc', s0, cs'; exact I2|]. split; [|intros _; exists sched; auto].
      intros m x Ex. split.
      * intros Nm. assert (Nm' : m <> i) by congruence. split; [|apply Oth; exact Nm']. apply nstep_other; assumption.
      * intros [= <-] Et. assert (x = r) by congruence. subst x. apply Mo. exact Et.
    + cbn [ntstep]. rewrite El. cbn [fst snd]. eapply Quiet; [reflexivity|qt|apply NIStepNot|exact R0]. specialize (b6 i). rewrite El in b6. apply b6.
Qed.

Lemma nseen_cons x h : nseen (x :: h) = nseen [x] ++ nseen h.
Proof. destruct x as [[o| |k a|i k c u im|i] [|n| |c' r tag| |]]; reflexivity. Qed.

Lemma nrun_inv own os : forall w j q, nrel own w j q -> Forall (nop_ok t) os ->
  exists j' q', niruns st j (snd (nrun t hd w os)) j' /\ nrel own (fst (nrun t hd w os)) j' q' /\
    (~ In NReset os -> exists sched, Forall (valid_action t) sched /\ q' = sys_run t st q sched /\
       filter visible (history q') = filter visible (history q) ++ nseen (snd (nrun t hd w os))).
Proof.
  induction os as [|o os IH]; intros w j q R F; cbn [nrun].
  - exists j, q. split; [constructor|]. split; [exact R|]. intros _. exists []. split; [constructor|]. split; [reflexivity|]. cbn. rewrite app_nil_r. reflexivity.
  - inversion F as [|? ? F1 F2]; subst. destruct (ntstep_inv own w j q o R F1) as (j1 & q1 & S1 & R1 & _ & H1).
    destruct (ntstep t hd w o) as [w1 r1]. cbn [fst snd] in *. destruct (IH w1 j1 q1 R1 F2) as (j2 & q2 & S2 & R2 & H2).
    destruct (nrun t hd w1 os) as [w2 h]. cbn [fst snd] in *. exists j2, q2. split; [econstructor; eauto|]. split; [exact R2|].
    intros N. destruct H1 as (sc1 & V1 & E1 & T1); [intros ->; apply N; left; reflexivity|]. destruct H2 as (sc2 & V2 & E2 & T2); [intros K; apply N; right; exact K|].
    exists (sc1 ++ sc2). split; [apply Forall_app; auto|]. split; [rewrite sys_run_app, <- E1; exact E2|].
    rewrite T2, T1, (nseen_cons (o, r1) h), app_assoc. reflexivity.
Qed.

(** A Bump as if all addresses were allocated: see TreeLocal *)
Definition nwide (own : bool) : nworld :=
  let s0 := MkTree (fun n => if Nat.eqb n 0 then [0%nat] else []) (fun _ _ => PActive) in
  let w := MkNW (fresh st) (MkS s0 1) own [] [] [] in
  if own then w else fst (n_share hd w 0).

Lemma nnew_inv own : valid_region t st -> nrel own (nwide own) (nideal_new own) sys_init.
Proof.
  intros V. unfold nwide. set (s0 := MkTree (fun n => if Nat.eqb n 0 then [0%nat] else []) (fun _ _ => PActive)).
  assert (I : forall own n, n = O -> ninv t hd st own (MkNW (fresh st) (MkS s0 1) own [] [] []) (MkNI [] [] own n (fun _ => None)) sys_init (fun _ => []) (fun _ => O) [(0%nat, [hd; st])]).
  { intros o n ->. split; cbn [nslab nstate nowned nshares nobjs nthreads niobjs niused niowned nishares nicalls]; auto.
    - apply inv_init. exact V.
    - apply root_cap. split; cbn [nodes fresh_tag s0 line perms]; auto; try (intros n [] ; fail); try (intros; exfalso; lia).
      intros n bs [].
    - intros n [].
    - intros n [].
    - intros k. apply incl_nil_l.
    - intros k n [].
    - intros k. split; reflexivity. }
  destruct own; [exists (fun _ => []), (fun _ => O), [(0%nat, [hd; st])]; apply (I true); reflexivity|].
  specialize (I false O eq_refl). destruct (nshare_inv false _ _ _ _ _ _ 0 I) as (w' & E & _ & I2).
  { intros b x B X. exists [hd; st], b. split; [left; reflexivity|auto]. }
  { cbn [nstate fresh_tag]. lia. }
  rewrite E. cbn [fst]. eexists _, _, _. exact I2.
Qed.
End World.

(** ** Undefined behaviour comes only from the client *)
Lemma niruns_ub st h : forall j j', niruns st j h j' -> forall o, In (o, NUB) h -> exists k a, o = NAct k a.
Proof.
  induction h as [|[o' r'] h IH]; intros j j' R o I; [destruct I|]. inversion R as [|? ? ? s2 ? ? S R']; subst.
  destruct I as [[= <- ->]|I]; [|eauto]. inversion S; subst; eauto.
Qed.

(** Objects with one pointer *)
Definition nsimple (o : nobj) : Prop :=
  exists n, ntags o = [n] /\ line (ntree o) n = [n] /\ forall x, perms (ntree o) x n = PActive \/ exists im, perms (ntree o) x n = PReserved im.

Lemma nsimple_access w n b s : line s n = [n] -> (forall x, perms s x n = PActive \/ exists im, perms s x n = PReserved im) ->
  exists r, tree_access w n b s = Some r /\ line r n = [n] /\ forall x, perms r x n = PActive \/ exists im, perms r x n = PReserved im.
Proof.
  intros L P. destruct (access_some w n b s) as [r E].
  { intros x X. rewrite L. unfold allowed. cbn [forallb]. destruct (P x) as [->|[im ->]]; destruct w; reflexivity. }
  exists r. split; [exact E|]. rewrite (access_line _ _ _ _ _ E). split; [exact L|]. intros x. destruct (inb b x) eqn:B.
  - apply inb_iff in B. destruct (access_in _ _ _ _ _ _ E B) as [_ ->]. unfold after. rewrite L. cbn [among existsb]. rewrite Nat.eqb_refl. cbn [orb].
    destruct (P x) as [->|[im ->]]; destruct w; cbn [child]; eauto.
  - rewrite (access_out _ _ _ _ _ _ E); [apply P|]. rewrite <- inb_iff. congruence.
Qed.

Lemma nsimple_act o a n : nsimple o -> nact_ok (MkO (nblk o) (ntags o)) a = true -> nplain (NAct 0 a) ->
  exists r, tree_act n a (ntree o) = Some r /\ nsimple (MkN (nblk o) r (tags_after n a (ntags o))).
Proof.
  intros (m & Et & L & P) A Pl. destruct a as [t b|t b|t mu parts]; cbn [nact_ok nplain tree_act oblk otags] in *; [| |contradiction].
  - apply andb_prop in A. destruct A as [A _]. rewrite Et in A. apply among_iff in A. destruct A as [<-|[]].
    destruct (nsimple_access false m b (ntree o) L P) as (r & E & L' & P'). exists r. split; [exact E|]. exists m. cbn [ntags ntree tags_after makes_tag]. auto.
  - apply andb_prop in A. destruct A as [A _]. rewrite Et in A. apply among_iff in A. destruct A as [<-|[]].
    destruct (nsimple_access true m b (ntree o) L P) as (r & E & L' & P'). exists r. split; [exact E|]. exists m. cbn [ntags ntree tags_after makes_tag]. auto.
Qed.

Lemma niruns_plain st h : forall j j', niruns st j h j' -> Forall nsimple (niobjs j) -> Forall (fun p => nplain (fst p)) h -> forall o, ~ In (o, NUB) h.
Proof.
  induction h as [|[o r] h IH]; intros j j' R Si Pl o' I; [destruct I|]. inversion R as [|? ? ? s2 ? ? S R']; subst. inversion Pl as [|? ? P1 P2]; subst.
  assert (K : Forall nsimple (niobjs s2) /\ r <> NUB).
  { inversion S; subst; cbn [niobjs with_nobjs] in *; try (split; [assumption|discriminate]); try (split; [constructor|discriminate]).
    - rewrite Forall_forall in Si. destruct (nsimple_act o0 a n (Si o0 (nth_error_In _ _ H)) H0 P1) as (r' & E2 & S2).
      split; [|unfold nact_answer; destruct (makes_tag a); discriminate]. apply Forall_forall. intros y Y. apply set_nth_in in Y. destruct Y as [->|Y]; [|auto]. congruence.
    - rewrite Forall_forall in Si. destruct (nsimple_act o0 a n (Si o0 (nth_error_In _ _ H)) H0 P1) as (r' & E2 & S2). congruence.
    - split; [|discriminate]. apply Forall_app. split; [exact Si|]. constructor; [|constructor]. exists n. cbn [new_alloc ntags ntree line perms]. rewrite Nat.eqb_refl. split; [reflexivity|]. split; [reflexivity|].
      intros x. destruct u; cbn [first_perm]; eauto. }
  destruct K as [K1 K2]. destruct I as [[= <- ->]|I]; [congruence|]. eapply IH; eauto.
Qed.

Lemma nrun_fst t hd os : forall w, map fst (snd (nrun t hd w os)) = os.
Proof.
  induction os as [|o os IH]; intros w; cbn [nrun]; [reflexivity|]. destruct (ntstep t hd w o) as [w1 r]. specialize (IH w1). destruct (nrun t hd w1 os) as [w2 h].
  cbn [snd map fst] in *. rewrite IH. reflexivity.
Qed.

(** ** What the client may try *)

Lemma parts_apart_iff parts : parts_apart parts = true <-> ForallOrdPairs (fun p q : bool * block => start (snd p) + size (snd p) <= start (snd q)) parts.
Proof.
  induction parts as [|[r b] l IH]; [split; [constructor|reflexivity]|].
  cbn [parts_apart]. rewrite andb_true_iff, IH, forallb_forall. split.
  - intros [F R]. constructor; [|exact R]. apply Forall_forall. intros q Q. apply Z.leb_le, F, Q.
  - intros C. inversion C as [|? ? F R]; subst. split; [|exact R]. intros q Q. apply Z.leb_le. rewrite Forall_forall in F. exact (F q Q).
Qed.

Lemma nact_ok_iff o a : nact_ok o a = true <-> nclient_access o a.
Proof.
  destruct a as [t b|t b|t m parts]; cbn [nact_ok nclient_access]; unfold among.
  1, 2: rewrite andb_true_iff, has_tag, within_iff; reflexivity.
  rewrite !andb_true_iff, has_tag, parts_apart_iff, forallb_forall, Forall_forall. setoid_rewrite within_iff. tauto.
Qed.
