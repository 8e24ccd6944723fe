(** * TBorrowWorld: programs with threads, compared with the ideal. *)
From Verif Require Import Base Spec BaseFacts SyncModel SyncSpec SyncProofs ConcModel ConcSpec ConcProofs BorrowModel BorrowSpec BorrowProofs BorrowState BorrowWorld TBorrowModel TBorrowSpec TBorrowWp TBorrowFuel TBorrowStep.

Definition free (hd st : block) (objs : list iobj) (x : Z) : Prop :=
  in_block hd x \/ (in_block st x /\ forall o, In o objs -> ~ in_block (iblk o) x).

Record tinv (t : target) (hd st : block) (own : bool) (w : tworld) (j : jdeal) (q : sys) (oc : nat -> caps) (s0 : nat -> nat) (cs : caps) : Prop := {
  v_region : valid_region t st;
  v_inv : inv t st q;
  v_slab : wslab (tw w) = MkSlab st (counter q);
  v_own : wowned (tw w) = own;
  v_iown : iowned (jseq j) = own;
  v_holds : holds own cs (iobjs (jseq j)) (free hd st (iobjs (jseq j))) (wsb (tw w));
  v_objs : map (fun o => MkO (iblk o) (itags o)) (iobjs (jseq j)) = wobjs (tw w);
  v_blocks : map iblk (iobjs (jseq j)) = returned_blocks (history q);
  v_used : forall n, In n (iused (jseq j)) -> (n < nexttag (wsb (tw w)))%nat;
  v_count : ishares (jseq j) = length (wshares (tw w));
  v_busy : ibusy (jseq j) = wbusy (tw w);
  v_calls : icalls (jseq j) = wcalls (tw w);
  v_sh : forall n, In n (wshares (tw w)) -> In (n, [hd; st]) cs;
  v_oc : forall k, incl (oc k) cs;
  v_pos : forall k n, In n (tags (oc k)) -> (1 <= n)%nat;
  v_sep1 : forall k k' n, k <> k' -> In n (tags (oc k)) -> ~ In n (tags (oc k'));
  v_sep2 : forall k n, In n (tags (oc k)) -> ~ In n (wshares (tw w));
  v_sep3 : forall n bs, In (n, bs) cs -> ~ In n (iused (jseq j));
  v_newtag : forall o n, In o (iobjs (jseq j)) -> In n (itags o) -> In n (iused (jseq j));
  v_thr : forall k, match lookup k (tthreads w) with
          | None => threads q k = Idle /\ jcalls j k = None
          | Some r => jcalls j k = Some (rcall r, ruse r) /\ In (s0 k) (wshares (tw w)) /\
                      wpo t hd st (rcall r) (ruse r) (s0 k) (rprog r) (oc k) (threads q k)
          end }.

Section World.
Variables (t : target) (hd st : block).
Hypothesis (Ht : valid_target t) (Dj : disjoint hd st).

Lemma ret_pairwise q : inv t st q -> pairwise disjoint (returned_blocks (history q)).
Proof. intros V. unfold history. rewrite returned_blocks_rev. apply pairwise_rev. apply (inv_ret_pw t st q V). Qed.

Lemma in_ret q b : In b (returned_blocks (history q)) <-> In b (returned_blocks (hist q)).
Proof. unfold history. rewrite returned_blocks_rev. symmetry. apply in_rev. Qed.

Lemma below_in q b x : inv t st q -> block_below st (counter q) b -> in_block b x -> in_block st x.
Proof.
  intros V [B|[B1 B2]] X; unfold in_block in *; [lia|]. pose proof (inv_counter t st q V). lia.
Qed.

Lemma objs_in own w j q oc s0 cs o x : tinv t hd st own w j q oc s0 cs -> In o (iobjs (jseq j)) -> in_block (iblk o) x -> in_block st x.
Proof.
  intros I O X. apply (below_in q (iblk o)); [apply (v_inv _ _ _ _ _ _ _ _ _ _ I)| |exact X].
  pose proof (inv_ret t st q (v_inv _ _ _ _ _ _ _ _ _ _ I)) as F. rewrite Forall_forall in F. apply F. apply in_ret.
  rewrite <- (v_blocks _ _ _ _ _ _ _ _ _ _ I). apply in_map. exact O.
Qed.

Lemma objs_pairwise own w j q oc s0 cs : tinv t hd st own w j q oc s0 cs -> pairwise disjoint (map iblk (iobjs (jseq j))).
Proof. intros I. rewrite (v_blocks _ _ _ _ _ _ _ _ _ _ I). apply ret_pairwise. apply (v_inv _ _ _ _ _ _ _ _ _ _ I). Qed.

(** the block of a thread that has its answer *)
Lemma done_block q objs i c a : valid_region t st -> inv t st q -> map iblk objs = returned_blocks (history q) -> threads q i = Done c (RBlock a) ->
  c <> CLevel /\ event_block (c, RBlock a) = Some (blk c a) /\ inside (blk c a) st /\ aligned (ptr a) (lalign (asked c)) /\
  (forall x, in_block (blk c a) x -> free hd st objs x) /\ Forall (fun o => disjoint (blk c a) (iblk o)) objs.
Proof.
  intros Rg V Eo D.
  destruct (done_place t st q i c a Ht Rg V D) as (A1 & A2 & A3 & A4).
  assert (Eb : event_block (c, RBlock a) = Some (blk c a)) by (cbn [event_block]; rewrite A2; reflexivity).
  pose proof (inv_done_ret t st q V i c (RBlock a) _ D Eb) as F. rewrite Forall_forall in F.
  assert (Db : Forall (fun o => disjoint (blk c a) (iblk o)) objs).
  { apply Forall_forall. intros o O. apply F. apply in_ret. rewrite <- Eo. apply in_map. exact O. }
  split; [exact A1|]. split; [exact Eb|]. split; [exact A3|]. split; [exact A4|]. split; [|exact Db].
  intros x X. right. split; [apply A3; exact X|]. intros o O X'. rewrite Forall_forall in Db. exact (Db o O x (conj X X')).
Qed.

Lemma share_tinv own w j q oc s0 cs n b : tinv t hd st own w j q oc s0 cs -> n = nexttag (wsb (tw w)) -> nexttag b = S n ->
  holds own ((n, [hd; st]) :: cs) (iobjs (jseq j)) (free hd st (iobjs (jseq j))) b ->
  tinv t hd st own (MkT (MkW (wslab (tw w)) b (wowned (tw w)) (wshares (tw w) ++ [n]) (wobjs (tw w)) (wbusy (tw w)) (wcalls (tw w))) (tthreads w))
    (MkJ (MkIdeal (iobjs (jseq j)) (iused (jseq j)) (iowned (jseq j)) (S (ishares (jseq j))) (ibusy (jseq j)) (icalls (jseq j))) (jcalls j)) q oc s0 ((n, [hd; st]) :: cs).
Proof.
  intros I En Nb H. pose proof I as [a1 a2 a3 a4 a5 a6 a7 a8 a9 a10 a11 a12 b1 b2 b3 b4 b5 b6 b8 b7]. subst n. set (n := nexttag (wsb (tw w))) in *.
  split; cbn [tw tthreads jseq jcalls wslab wsb wowned wshares wobjs wbusy wcalls iobjs iused iowned ishares ibusy icalls]; auto.
  - intros m M. specialize (a9 m M). lia.
  - rewrite app_length, a10. cbn. lia.
  - intros m M. apply in_app_or in M. destruct M as [M|[<-|[]]]; [right; auto|left; reflexivity].
  - intros k. apply incl_tl. apply b2.
  - intros k m M M'. apply in_app_or in M'. destruct M' as [M'|[<-|[]]]; [exact (b5 k m M M')|].
    unfold tags in M. apply in_map_iff in M. destruct M as ([m' bs] & Em & M). cbn in Em. subst m'. pose proof (h_caps _ _ _ _ _ a6 _ _ (b2 k _ M)). subst n. lia.
  - intros m bs [[= <- <-]|M]; [|eauto]. intros K. specialize (a9 _ K). subst n. lia.
  - intros k. specialize (b7 k). destruct (lookup k (tthreads w)) as [r|]; [|exact b7]. destruct b7 as (c1 & c2 & c3). split; [exact c1|]. split; [apply in_or_app; left; exact c2|exact c3].
Qed.

(** ** The client *)
Lemma plain_inv own w j q oc s0 cs o : tinv t hd st own w j q oc s0 cs -> (forall i c u, o <> BCall i c u) -> o <> BReset ->
  exists i' cs', istep t st (jseq j) o (snd (bstep t hd (tw w) o)) i' /\
    tinv t hd st own (MkT (fst (bstep t hd (tw w) o)) (tthreads w)) (MkJ i' (jcalls j)) q oc s0 cs'.
Proof.
  intros I No Nr. pose proof I as [a1 a2 a3 a4 a5 a6 a7 a8 a9 a10 a11 a12 b1 b2 b3 b4 b5 b6 b8 b7].
  assert (I' : tinv t hd st own (MkT (tw w) (tthreads w)) (MkJ (jseq j) (jcalls j)) q oc s0 cs) by (destruct w, j; exact I).
  assert (Es : storage (wslab (tw w)) = st) by (rewrite a3; reflexivity).
  destruct o as [[k|]|k c u| |k a| |c]; cbn [bstep]; [| |exfalso; eapply No; reflexivity|congruence| | |].
  - destruct (nth_error (wshares (tw w)) k) as [self|] eqn:E.
    + assert (Hk : (k < ishares (jseq j))%nat) by (rewrite a10; apply nth_error_Some; congruence).
      destruct (cell (wbusy (tw w)) own _ _ _ self [hd; st] (wsb (tw w)) a6) as (b & E1 & N1 & H1).
      { repeat constructor; exact Dj. }
      { intros b x B X. exists [hd; st], b. split; [apply b1; eapply nth_error_In; eauto|auto]. }
      rewrite Es. change (self_ref (wbusy (tw w)) hd st self) with (m_retag (wbusy (tw w)) self (map (pair RCell) [hd; st])). rewrite E1. cbn [fst snd].
      eexists _, _. split; [apply IShare; exact Hk|]. eapply share_tinv; eauto.
    + cbn [fst snd]. exists (jseq j), cs. split; [apply IShareNot; rewrite a10; apply nth_error_None; exact E|exact I'].
  - rewrite a4. destruct own.
    + destruct (owner_share (wbusy (tw w)) _ _ _ (wsb (tw w)) hd st a6 Dj) as (b & E1 & N1 & H1). rewrite Es, E1. cbn [fst snd].
      eexists _, _. split; [apply IShareOwner; exact a5|]. pose proof (share_tinv true w j q oc s0 cs (nexttag (wsb (tw w))) b) as J. rewrite a4 in J. apply J; auto.
    + cbn [fst snd]. exists (jseq j), cs. split; [apply IShareOwnerNot; exact a5|exact I'].
  - destruct (nth_error (wobjs (tw w)) k) as [ob|] eqn:E.
    2:{ cbn [fst snd]. exists (jseq j), cs. split; [|exact I']. apply IActNot. intros o Ho. exfalso. rewrite <- a7, nth_error_map, Ho in E. discriminate. }
    assert (Ho : exists o, nth_error (iobjs (jseq j)) k = Some o /\ ob = MkO (iblk o) (itags o)).
    { rewrite <- a7, nth_error_map in E. destruct (nth_error (iobjs (jseq j)) k) as [o|]; [|discriminate]. cbn in E. injection E as <-. eauto. }
    destruct Ho as (o & Ho & ->). destruct (act_ok (MkO (iblk o) (itags o)) a) eqn:A.
    2:{ cbn [fst snd]. exists (jseq j), cs. split; [|exact I']. apply IActNot. intros o' Ho'. congruence. }
    pose proof (nth_error_In _ _ Ho) as Io.
    pose proof (client_act own cs _ _ (wsb (tw w)) (wbusy (tw w)) k o a a6 Ho A (objs_pairwise _ _ _ _ _ _ _ I)) as C.
    assert (C1 : forall x, in_block (iblk o) x -> ~ free hd st (iobjs (jseq j)) x).
    { intros x X [F|[_ F]]; [exact (Dj x (conj F (objs_in _ _ _ _ _ _ _ _ _ I Io X)))|exact (F o Io X)]. }
    specialize (C C1 (fun t0 bs K X => b6 t0 bs K (b8 o t0 Io X))).
    destruct (do_act (wbusy (tw w)) a (wsb (tw w))) as [[n b]|] eqn:Ed; destruct (ideal_act (wbusy (tw w)) o a (nexttag (wsb (tw w)))) as [o'|] eqn:Ei; try contradiction.
    + destruct C as (-> & Nb & B1 & B2 & H). cbn [fst snd].
      assert (Nu : ~ In (nexttag (wsb (tw w))) (iused (jseq j))) by (intros K; specialize (a9 _ K); lia).
      exists (with_objs (jseq j) (set_nth (iobjs (jseq j)) k o') (used_after a (nexttag (wsb (tw w))) (iused (jseq j)))), cs. split.
      * replace (tag_answer (ans_after a (nexttag (wsb (tw w))))) with (act_answer a (nexttag (wsb (tw w)))) by (destruct a; reflexivity).
        eapply IAct; eauto. rewrite a11. exact Ei.
      * assert (Ln : (nexttag (wsb (tw w)) <= nexttag b)%nat) by (rewrite Nb; destruct a; cbn; lia).
        split; cbn [tw tthreads jseq jcalls wslab wsb wowned wshares wobjs wbusy wcalls iobjs iused iowned ishares ibusy icalls with_objs]; auto.
        -- eapply holds_fr; [|exact H]. intros x [X|[X1 X2]]; [left; exact X|]. right. split; [exact X1|]. intros o1 O1 X'.
           destruct (In_nth_error _ _ O1) as [m Hm]. destruct (Nat.eq_dec m k) as [->|Nm].
           ++ assert (o1 = o) by congruence. subst o1. apply (X2 o'); [|rewrite B1; exact X'].
              clear -Ho. revert k Ho. generalize (iobjs (jseq j)). intros l. induction l as [|y l IH]; intros [|k] Ho; cbn in *; try discriminate; auto.
           ++ apply (X2 o1); [|exact X']. clear -Hm Nm. revert k m Hm Nm. generalize (iobjs (jseq j)). intros l.
              induction l as [|y l IH]; intros [|k] [|m] Hm Nm; cbn in *; try discriminate; try congruence; auto.
              ** right. eapply nth_error_In; eauto.
              ** left. congruence.
              ** right. eapply IH; [exact Hm|congruence].
        -- rewrite set_nth_map2, a7. f_equal. rewrite B1, B2. destruct a; reflexivity.
        -- rewrite (set_nth_map iblk (iobjs (jseq j)) k o' o Ho B1). exact a8.
        -- intros m M. destruct a; cbn [used_after next_after] in *; [specialize (a9 m M); lia|specialize (a9 m M); lia|].
           destruct M as [<-|M]; [lia|specialize (a9 m M); lia].
        -- intros m bs M K. pose proof (h_caps _ _ _ _ _ a6 _ _ M). destruct a; cbn [used_after] in K; [exact (b6 m bs M K)|exact (b6 m bs M K)|].
           destruct K as [K|K]; [lia|exact (b6 m bs M K)].
        -- intros o1 m O1 M. apply set_nth_in in O1. destruct O1 as [->|O1].
           ++ rewrite B2 in M. destruct a; cbn [tags_after used_after] in *; [eauto|eauto|]. destruct M as [<-|M]; [left; reflexivity|right; eauto].
           ++ destruct a; cbn [used_after]; eauto. right. eauto.
    + cbn [fst snd]. exists (jseq j), cs. split; [|exact I']. eapply IActUB; eauto. rewrite a11. exact Ei.
  - cbn [fst snd]. eexists _, cs. rewrite <- a12. split; [apply IEnter|].
    split; cbn [tw tthreads jseq jcalls wslab wsb wowned wshares wobjs wbusy wcalls iobjs iused iowned ishares ibusy icalls]; auto. rewrite a11. reflexivity.
  - cbn [fst snd]. eexists _, cs. split; [apply IExit|].
    split; cbn [tw tthreads jseq jcalls wslab wsb wowned wshares wobjs wbusy wcalls iobjs iused iowned ishares ibusy icalls]; auto. rewrite a11. reflexivity.
Qed.

(** ** reset *)
Lemma reset_tinv own w j q oc s0 cs : tinv t hd st own w j q oc s0 cs -> tthreads w = [] ->
  exists i' q' oc' s0' cs', istep t st (jseq j) BReset (snd (bstep t hd (tw w) BReset)) i' /\
    tinv t hd st own (MkT (fst (bstep t hd (tw w) BReset)) []) (MkJ i' (jcalls j)) q' oc' s0' cs'.
Proof.
  intros I E0. pose proof I as [a1 a2 a3 a4 a5 a6 a7 a8 a9 a10 a11 a12 b1 b2 b3 b4 b5 b6 b8 b7].
  assert (I' : tinv t hd st own (MkT (tw w) []) (MkJ (jseq j) (jcalls j)) q oc s0 cs) by (rewrite <- E0; destruct w, j; exact I).
  cbn [bstep]. rewrite a4. destruct own; [|cbn [fst snd]; exists (jseq j), q, oc, s0, cs; split; [apply IResetNot; left; exact a5|exact I']].
  destruct (wbusy (tw w)) as [|cc bb] eqn:Eb; [|cbn [fst snd]; exists (jseq j), q, oc, s0, cs; split; [apply IResetNot; right; congruence|exact I']].
  destruct (reset_runs hd (wslab (tw w)) _ _ _ (wsb (tw w)) a6) as (b & E1 & L1 & H1); [rewrite a3; exact Dj|]. rewrite E1. cbn [fst snd].
  eexists _, sys_init, (fun _ => []), s0, []. split; [apply IReset; congruence|].
  split; cbn [tw tthreads jseq jcalls wslab wsb wowned wshares wobjs wbusy wcalls iobjs iused iowned ishares ibusy icalls]; auto.
  - apply inv_init. exact a1.
  - rewrite a3. reflexivity.
  - eapply holds_fr; [|exact H1]. rewrite a3. cbn [storage]. intros x [X|[X _]]; auto.
  - intros n M. specialize (a9 n M). lia.
  - intros k. apply incl_nil_l.
  - intros k n [].
  - intros o n [].
  - intros k. specialize (b7 k). rewrite E0 in b7. cbn [lookup find] in *. split; [reflexivity|apply b7].
Qed.

(** ** A call starts *)
Lemma invoke_tinv own w j q oc s0 cs i k c u self : tinv t hd st own w j q oc s0 cs -> lookup i (tthreads w) = None ->
  nth_error (wshares (tw w)) k = Some self -> c <> CReset -> valid_call t c ->
  tinv t hd st own (MkT (tw w) ((i, MkRun c u (p_call t hd st c u self)) :: tthreads w)) (MkJ (jseq j) (set_call (jcalls j) i (Some (c, u))))
    (sys_step t st q (Invoke i c)) (fun m => if Nat.eqb m i then [] else oc m) (fun m => if Nat.eqb m i then self else s0 m) cs.
Proof.
  intros I El Es Nr Vc. pose proof I as [a1 a2 a3 a4 a5 a6 a7 a8 a9 a10 a11 a12 b1 b2 b3 b4 b5 b6 b8 b7].
  pose proof (b7 i) as b7i. rewrite El in b7i. destruct b7i as [Eq Ej].
  destruct (one_invoke t st q i c Eq) as (C1 & C2 & C3 & C4 & C5).
  assert (Ir : is_reset c = false) by (destruct c; try reflexivity; congruence).
  pose proof (inv_step t st q (Invoke i c) Ht a1 (conj Vc Ir) a2) as V'.
  set (q' := sys_step t st q (Invoke i c)) in *.
  split; cbn [tw tthreads jseq jcalls]; auto.
  - rewrite C1. exact a3.
  - rewrite a8. unfold history. rewrite !returned_blocks_rev, C4. reflexivity.
  - intros m. destruct (Nat.eqb m i); [apply incl_nil_l|apply b2].
  - intros m n. destruct (Nat.eqb m i); [intros []|apply b3].
  - intros m m' n N. destruct (Nat.eqb m i); [intros []|]. destruct (Nat.eqb m' i); [intros _ []|]. apply b4. exact N.
  - intros m n. destruct (Nat.eqb m i); [intros []|apply b5].
  - intros m. unfold set_call. destruct (Nat.eqb_spec m i) as [->|N].
    + rewrite lookup_cons_same. cbn [rcall ruse rprog]. split; [reflexivity|]. split; [eapply nth_error_In; eauto|]. rewrite C2. apply wp_call; auto.
    + rewrite lookup_cons_other by exact N. rewrite (C3 m N). apply b7.
Qed.

(** ** A step of a thread *)
Lemma moved_sys own w j q oc s0 cs i c lv' ts' : tinv t hd st own w j q oc s0 cs -> moved t st c (counter q) (threads q i) lv' ts' ->
  exists sched, Forall (valid_action t) sched /\ let q' := sys_run t st q sched in
    inv t st q' /\ counter q' = lv' /\ threads q' i = ts' /\ (forall m, m <> i -> threads q' m = threads q m) /\
    returned_blocks (history q') = returned_blocks (history q) /\ filter visible (history q') = filter visible (history q).
Proof.
  intros I [[-> ->]|(g & Er & Ea)]; pose proof (v_inv _ _ _ _ _ _ _ _ _ _ I) as V.
  - exists []. split; [constructor|]. cbn. auto 7.
  - exists [Access i]. split; [repeat constructor|]. cbn [sys_run fold_left].
    destruct (one_access t st q i c g lv' ts' Er Ea) as (C1 & C2 & C3 & C4 & C5).
    split; [apply inv_step; auto; [apply (v_region _ _ _ _ _ _ _ _ _ _ I)|exact Logic.I]|]. split; [exact C1|]. split; [exact C2|]. split; [exact C3|]. split; [|exact C5].
    unfold history. rewrite !returned_blocks_rev, C4. reflexivity.
Qed.

Lemma tags_caps (cs oc : caps) n : incl oc cs -> In n (tags oc) -> exists bs, In (n, bs) cs.
Proof. intros I N. unfold tags in N. apply in_map_iff in N. destruct N as ([m bs] & E & N). cbn in E. subst m. eauto. Qed.

(** a step inside of a call *)
Lemma more_tinv own w j q oc s0 cs i r b p' q' oc' cs' :
  tinv t hd st own w j q oc s0 cs -> lookup i (tthreads w) = Some r -> (nexttag (wsb (tw w)) <= nexttag b)%nat ->
  inv t st q' -> (forall m, m <> i -> threads q' m = threads q m) -> returned_blocks (history q') = returned_blocks (history q) ->
  holds own cs' (iobjs (jseq j)) (free hd st (iobjs (jseq j))) b ->
  wpo t hd st (rcall r) (ruse r) (s0 i) p' oc' (threads q' i) ->
  ((cs' = cs /\ oc' = oc i) \/ exists bs, (1 <= nexttag (wsb (tw w)))%nat /\ cs' = (nexttag (wsb (tw w)), bs) :: cs /\ oc' = (nexttag (wsb (tw w)), bs) :: oc i) ->
  tinv t hd st own (MkT (got (tw w) (counter q') b (rcall r) RNone None) ((i, MkRun (rcall r) (ruse r) p') :: remove i (tthreads w)))
    j q' (fun m => if Nat.eqb m i then oc' else oc m) s0 cs'.
Proof.
  intros I El Nb V' Oth Er H W Cs. pose proof I as [a1 a2 a3 a4 a5 a6 a7 a8 a9 a10 a11 a12 b1 b2 b3 b4 b5 b6 b8 b7].
  pose proof (b7 i) as b7i. rewrite El in b7i. destruct b7i as (c1 & c2 & c3).
  set (n := nexttag (wsb (tw w))) in *.
  assert (Ic : incl cs cs') by (destruct Cs as [[-> _]|(bs & _ & -> & _)]; [apply incl_refl|apply incl_tl, incl_refl]).
  assert (Io : incl oc' cs').
  { destruct Cs as [[-> ->]|(bs & _ & -> & ->)]; [apply b2|]. intros x [<-|X]; [left; reflexivity|right; apply (b2 i); exact X]. }
  assert (Tg : forall m, In m (tags oc') -> In m (tags (oc i)) \/ (m = n /\ (1 <= n)%nat)).
  { intros m M. destruct Cs as [[_ ->]|(bs & L & _ & ->)]; [left; exact M|]. destruct M as [M|M]; [right; auto|left; exact M]. }
  assert (Fn : forall m, m <> i -> ~ In n (tags (oc m))).
  { intros m Nm K. destruct (tags_caps cs (oc m) n (b2 m) K) as (bs & K'). pose proof (h_caps _ _ _ _ _ a6 _ _ K'). lia. }
  assert (Fs : ~ In n (wshares (tw w))).
  { intros K. pose proof (h_caps _ _ _ _ _ a6 _ _ (b1 n K)). lia. }
  split; cbn [tw tthreads got wslab wsb wowned wshares wobjs wbusy wcalls]; auto.
  - rewrite a3. reflexivity.
  - congruence.
  - intros m M. specialize (a9 m M). lia.
  - intros m. destruct (Nat.eqb m i); [exact Io|]. eapply incl_tran; [apply b2|exact Ic].
  - intros m x. destruct (Nat.eqb m i); [|apply b3]. intros X. destruct (Tg x X) as [X'|[-> L]]; [exact (b3 i x X')|exact L].
  - intros m m' x N. destruct (Nat.eqb_spec m i) as [->|Nm]; destruct (Nat.eqb_spec m' i) as [->|Nm']; try congruence.
    + intros X Y. destruct (Tg x X) as [X'|[-> _]]; [exact (b4 i m' x N X' Y)|exact (Fn m' Nm' Y)].
    + intros X Y. destruct (Tg x Y) as [Y'|[-> _]]; [exact (b4 m i x N X Y')|exact (Fn m Nm X)].
    + apply b4. exact N.
  - intros m x. destruct (Nat.eqb m i); [|apply b5]. intros X. destruct (Tg x X) as [X'|[-> _]]; [exact (b5 i x X')|exact Fs].
  - intros m bs M K. destruct Cs as [[-> _]|(bs' & _ & -> & _)]; [exact (b6 m bs M K)|].
    destruct M as [[= <- <-]|M]; [|exact (b6 m bs M K)]. specialize (a9 _ K). lia.
  - intros m. destruct (Nat.eqb_spec m i) as [->|N].
    + rewrite lookup_cons_same. cbn [rcall ruse rprog]. auto.
    + rewrite lookup_cons_other, lookup_remove_other by exact N. rewrite (Oth m N). apply b7.
Qed.

(** the answer without a block *)
Lemma other_tinv own w j q oc s0 cs i r b x q' cs' :
  tinv t hd st own w j q oc s0 cs -> lookup i (tthreads w) = Some r -> (nexttag (wsb (tw w)) <= nexttag b)%nat ->
  inv t st q' -> threads q' i = Idle -> (forall m, m <> i -> threads q' m = threads q m) -> returned_blocks (history q') = returned_blocks (history q) ->
  (forall a, x <> RBlock a) -> holds own cs' (iobjs (jseq j)) (free hd st (iobjs (jseq j))) b -> incl cs cs' ->
  tinv t hd st own (MkT (got (tw w) (counter q') b (rcall r) x None) (remove i (tthreads w)))
    (MkJ (jseq j) (set_call (jcalls j) i None)) q' (fun m => if Nat.eqb m i then [] else oc m) s0 cs.
Proof.
  intros I El Nb V' Ei Oth Er Nx H Ic. pose proof I as [a1 a2 a3 a4 a5 a6 a7 a8 a9 a10 a11 a12 b1 b2 b3 b4 b5 b6 b8 b7].
  split; cbn [tw tthreads got wslab wsb wowned wshares wobjs wbusy wcalls jseq jcalls]; auto.
  - rewrite a3. reflexivity.
  - eapply holds_less; [exact Ic|exact H].
  - destruct x; exact a7.
  - congruence.
  - intros m M. specialize (a9 m M). lia.
  - intros m. destruct (Nat.eqb m i); [apply incl_nil_l|apply b2].
  - intros m n. destruct (Nat.eqb m i); [intros []|apply b3].
  - intros m m' n N. destruct (Nat.eqb m i); [intros []|]. destruct (Nat.eqb m' i); [intros _ []|]. apply b4. exact N.
  - intros m n. destruct (Nat.eqb m i); [intros []|apply b5].
  - intros m. unfold set_call. destruct (Nat.eqb_spec m i) as [->|N].
    + rewrite lookup_remove_same. auto.
    + rewrite lookup_remove_other by exact N. rewrite (Oth m N). apply b7.
Qed.

(** the answer with a block *)
Lemma block_tinv own w j q oc s0 cs i r b a n q' cs' :
  tinv t hd st own w j q oc s0 cs -> lookup i (tthreads w) = Some r -> (nexttag (wsb (tw w)) <= nexttag b)%nat ->
  inv t st q' -> threads q' i = Idle -> (forall m, m <> i -> threads q' m = threads q m) ->
  returned_blocks (history q') = returned_blocks (history q) ++ [blk (rcall r) a] ->
  inside (blk (rcall r) a) st ->
  holds own cs' (iobjs (jseq j) ++ [new_object (blk (rcall r) a) n (use_perm (ruse r))]) (fun x => free hd st (iobjs (jseq j)) x /\ ~ in_block (blk (rcall r) a) x) b ->
  incl cs' cs -> (forall m bs, In (m, bs) cs -> m <> n -> In (m, bs) cs') -> (forall bs, ~ In (n, bs) cs') ->
  (forall m, m <> i -> ~ In n (tags (oc m))) -> ~ In n (wshares (tw w)) ->
  tinv t hd st own (MkT (got (tw w) (counter q') b (rcall r) (RBlock a) (Some n)) (remove i (tthreads w)))
    (MkJ (with_objs (jseq j) (iobjs (jseq j) ++ [new_object (blk (rcall r) a) n (use_perm (ruse r))]) (n :: iused (jseq j))) (set_call (jcalls j) i None))
    q' (fun m => if Nat.eqb m i then [] else oc m) s0 cs'.
Proof.
  intros I El Nb V' Ei Oth Er Ib H Ic Kc Nc Fo Fs. pose proof I as [a1 a2 a3 a4 a5 a6 a7 a8 a9 a10 a11 a12 b1 b2 b3 b4 b5 b6 b8 b7].
  split; cbn [tw tthreads got wslab wsb wowned wshares wobjs wbusy wcalls jseq jcalls iobjs iused iowned ishares ibusy icalls with_objs]; auto.
  - rewrite a3. reflexivity.
  - eapply holds_fr; [|exact H]. intros x [X|[X1 X2]].
    + split; [left; exact X|]. intros K. exact (Dj x (conj X (Ib x K))).
    + split; [right; split; [exact X1|]; intros o O; apply X2; apply in_or_app; left; exact O|].
      apply (X2 (new_object (blk (rcall r) a) n (use_perm (ruse r)))). apply in_or_app. right. left. reflexivity.
  - rewrite map_snoc, a7. reflexivity.
  - rewrite map_snoc, a8, Er. reflexivity.
  - intros m [<-|M]; [|specialize (a9 m M); lia].
    pose proof (h_tags _ _ _ _ _ H (new_object (blk (rcall r) a) n (use_perm (ruse r))) n) as K.
    destruct K; [apply in_or_app; right; left; reflexivity|left; reflexivity|assumption].
  - intros m M. apply Kc; [apply b1; exact M|]. intros ->. exact (Fs M).
  - intros m. destruct (Nat.eqb_spec m i) as [->|N]; [apply incl_nil_l|]. intros [y bs] Y. apply Kc; [apply (b2 m); exact Y|].
    intros ->. apply (Fo m N). unfold tags. apply in_map_iff. exists (n, bs). auto.
  - intros m x. destruct (Nat.eqb m i); [intros []|apply b3].
  - intros m m' x N. destruct (Nat.eqb m i); [intros []|]. destruct (Nat.eqb m' i); [intros _ []|]. apply b4. exact N.
  - intros m x. destruct (Nat.eqb m i); [intros []|apply b5].
  - intros m bs M [<-|K]; [exact (Nc bs M)|exact (b6 m bs (Ic _ M) K)].
  - intros o m O M. apply in_app_or in O. destruct O as [O|[<-|[]]]; [right; eauto|]. destruct M as [<-|[]]. left. reflexivity.
  - intros m. unfold set_call. destruct (Nat.eqb_spec m i) as [->|N].
    + rewrite lookup_remove_same. auto.
    + rewrite lookup_remove_other by exact N. rewrite (Oth m N). apply b7.
Qed.

Lemma late_sys q i c x : valid_region t st -> inv t st q -> decides t st c x (threads q i) ->
  exists sched, Forall (valid_action t) sched /\ let q' := sys_run t st q sched in
    inv t st q' /\ counter q' = counter q /\ threads q' i = Done c x /\ (forall m, m <> i -> threads q' m = threads q m) /\
    returned_blocks (history q') = returned_blocks (history q) /\ filter visible (history q') = filter visible (history q).
Proof.
  intros Rg V [E|[(g & Er & Ea) _]].
  - exists []. split; [constructor|]. cbn. auto 7.
  - exists [Access i]. split; [repeat constructor|]. cbn [sys_run fold_left].
    destruct (one_access t st q i c g _ _ Er (Ea _ (inv_counter t st q V))) as (C1 & C2 & C3 & C4 & C5).
    split; [apply inv_step; auto; exact Logic.I|]. split; [exact C1|]. split; [exact C2|]. split; [exact C3|]. split; [|exact C5].
    unfold history. rewrite !returned_blocks_rev, C4. reflexivity.
Qed.

Lemma return_sys q i c x : valid_region t st -> inv t st q -> threads q i = Done c x ->
  let q' := sys_step t st q (Return i) in
  inv t st q' /\ counter q' = counter q /\ threads q' i = Idle /\ (forall m, m <> i -> threads q' m = threads q m) /\
  returned_blocks (history q') = returned_blocks (history q) ++ match event_block (c, x) with Some b => [b] | None => [] end /\
  filter visible (history q') = filter visible (history q) ++ [ERet i c x].
Proof.
  intros Rg V E. destruct (one_return t st q i c x E) as (C1 & C2 & C3 & C4 & C5). cbn zeta.
  split; [apply inv_step; auto; exact Logic.I|]. split; [exact C1|]. split; [exact C2|]. split; [exact C3|]. split; [|exact C5].
  unfold history. rewrite !returned_blocks_rev, C4. destruct (event_block (c, x)); [reflexivity|rewrite app_nil_r; reflexivity].
Qed.

(** A step of a thread: it is not undefined behaviour. *)
Lemma thread_step own w j q oc s0 cs i r : tinv t hd st own w j q oc s0 cs -> lookup i (tthreads w) = Some r ->
  exists j' q' oc' cs' sched, jstep t st j (TStep i) (snd (tstep t hd w (TStep i))) j' /\
    tinv t hd st own (fst (tstep t hd w (TStep i))) j' q' oc' s0 cs' /\
    Forall (valid_action t) sched /\ q' = sys_run t st q sched /\
    filter visible (history q') = filter visible (history q) ++ seen [(TStep i, snd (tstep t hd w (TStep i)))] /\
    (forall m, m <> i -> threads q' m = threads q m) /\
    (snd (tstep t hd w (TStep i)) = TMore -> exists r', lookup i (tthreads (fst (tstep t hd w (TStep i)))) = Some r' /\
       forall n, within n (rprog r) -> exists n', within n' (rprog r') /\ 0 <= rest st (threads q' i) /\
         Z.of_nat n' + 8 * rest st (threads q' i) < Z.of_nat n + 8 * rest st (threads q i)).
Proof.
  intros I El. pose proof I as [a1 a2 a3 a4 a5 a6 a7 a8 a9 a10 a11 a12 b1 b2 b3 b4 b5 b6 b8 b7].
  pose proof (b7 i) as b7i. rewrite El in b7i. destruct b7i as (c1 & c2 & c3). cbn [tstep]. rewrite El, a3. cbn [storage consumed].
  assert (Ia : incl (all hd st (s0 i) (oc i)) cs).
  { intros x [<-|X]; [apply b1; exact c2|apply (b2 i); exact X]. }
  destruct (pstep_ok t hd st (rcall r) (ruse r) (s0 i) own cs (iobjs (jseq j)) (free hd st (iobjs (jseq j))) (wsb (tw w)) (wbusy (tw w)) (counter q) (rprog r) (oc i) (threads q i)
    Dj c3 a6 Ia (inv_counter t st q a2)) as (lv' & p' & b & E1 & Nb & Cases).
  { intros x X. left. exact X. }
  { intros a Ea. destruct (done_block q (iobjs (jseq j)) i (rcall r) a a1 a2 a8 Ea) as (_ & _ & A & _ & B & C). auto. }
  rewrite E1. destruct Cases as [(ts' & cs1 & oc1 & Mv & H & W & Cs & Ca)|(a & -> & Ets & Eu & -> & Nb1 & H)].
  - destruct (moved_sys own w j q oc s0 cs i (rcall r) lv' ts' I Mv) as (sc1 & F1 & V1 & Q1 & Q2 & Q3 & Q4 & Q5). cbn zeta in *.
    set (q1 := sys_run t st q sc1) in *.
    destruct (wp_settle t hd st (rcall r) (ruse r) (s0 i) p' oc1 ts' Dj W) as [W2 Na].
    assert (Pn : (1 <= nexttag (wsb (tw w)))%nat) by apply (h_next _ _ _ _ _ a6).
    assert (Cs' : (cs1 = cs /\ oc1 = oc i) \/ exists bs, (1 <= nexttag (wsb (tw w)))%nat /\ cs1 = (nexttag (wsb (tw w)), bs) :: cs /\ oc1 = (nexttag (wsb (tw w)), bs) :: oc i).
    { destruct Cs as [Cs|(bs & C1 & C2)]; [left; exact Cs|right; exists bs; auto]. }
    assert (Ic : incl cs cs1) by (destruct Cs as [[-> _]|(bs & -> & _)]; [apply incl_refl|apply incl_tl, incl_refl]).
    assert (Ia1 : incl (all hd st (s0 i) oc1) cs1).
    { destruct Cs as [[-> ->]|(bs & -> & ->)]; [exact Ia|]. intros x [<-|[<-|X]]; [right; apply Ia; left; reflexivity|left; reflexivity|right; apply Ia; right; exact X]. }
    assert (More : forall p2, settle t hd st (rcall r) (ruse r) p' = p2 ->
      tinv t hd st own (MkT (got (tw w) lv' b (rcall r) RNone None) ((i, MkRun (rcall r) (ruse r) p2) :: remove i (tthreads w))) j q1 (fun m => if Nat.eqb m i then oc1 else oc m) s0 cs1).
    { intros p2 <-. rewrite <- Q1. apply (more_tinv own w j q oc s0 cs i r b _ q1 oc1 cs1 I El Nb V1 Q3 Q4 H); [rewrite Q2; exact W2|exact Cs']. }
    assert (Fin2 : forall p2, settle t hd st (rcall r) (ruse r) p' = p2 -> (forall x tag, p2 <> Fin (Final x tag)) ->
      exists j' q' oc' cs' sched, jstep t st j (TStep i) TMore j' /\
        tinv t hd st own (MkT (got (tw w) lv' b (rcall r) RNone None) ((i, MkRun (rcall r) (ruse r) p2) :: remove i (tthreads w))) j' q' oc' s0 cs' /\
        Forall (valid_action t) sched /\ q' = sys_run t st q sched /\ filter visible (history q') = filter visible (history q) ++ seen [(TStep i, TMore)] /\
        (forall m, m <> i -> threads q' m = threads q m) /\
        (TMore = TMore -> exists r', lookup i ((i, MkRun (rcall r) (ruse r) p2) :: remove i (tthreads w)) = Some r' /\
           forall n, within n (rprog r) -> exists n', within n' (rprog r') /\ 0 <= rest st (threads q' i) /\
             Z.of_nat n' + 8 * rest st (threads q' i) < Z.of_nat n + 8 * rest st (threads q i))).
    { intros p2 E2 Nf. exists j, q1, (fun m => if Nat.eqb m i then oc1 else oc m), cs1, sc1. split; [apply JMore; congruence|]. split; [apply More; exact E2|].
      split; [exact F1|]. split; [reflexivity|]. split; [cbn [seen]; rewrite app_nil_r; exact Q5|]. split; [exact Q3|]. intros _.
      eexists. split; [apply lookup_cons_same|]. cbn [rprog]. intros n Wn. rewrite Q2.
      assert (Npf : forall x, rprog r <> Fin x).
      { intros x Ex. rewrite Ex in E1, Wn. cbn [pstep] in E1. unfold mret in E1. injection E1 as <- <- <-. destruct x as [g s|x tag]; [exact Wn|].
        cbn [settle] in E2. exact (Nf x tag (eq_sym E2)). }
      assert (Rst : 0 <= rest st ts' <= rest st (threads q i)).
      { destruct Mv as [[_ ->]|(g & Eg & Ea)].
        - destruct (threads q i) as [|c0 g0|c0 r0] eqn:Et; cbn [rest]; try lia. destruct (inv_running t st q a2 i c0 g0 Et) as (_ & _ & Lg). pose proof (inv_counter t st q a2). lia.
        - rewrite Eg. apply (access_rest t st q i (rcall r) g lv' ts' Ht a1 a2 Eg Ea). }
      destruct (pstep_fuel _ _ _ _ _ _ _ _ n E1 Wn Npf) as [(n' & -> & W')|(Ic' & -> & x & ->)].
      - exists n'. split; [|lia]. destruct p' as [[g s|x tag]|? ? ?|? ?|? ? ? ?|? ? ?]; cbn [settle] in E2; try (subst p2; exact W'). destruct W'.
      - destruct W as (Et' & _). destruct (Ca Ic') as (g & Eg & Ea). rewrite Eg. rewrite Et' in Ea.
        destruct (access_rest t st q i (rcall r) g _ _ Ht a1 a2 Eg Ea) as [K1 K2]. specialize (K2 _ _ eq_refl). rewrite <- Et' in K1, K2.
        cbn [settle] in E2. subst p2. exists 8%nat. split; [apply within_iter|]. split; [lia|]. destruct n as [|n]; [destruct (rprog r) as [[|]|? ? ?|? ?|? ? ? ?|? ? ?]; [destruct Wn|exfalso; eapply Npf; reflexivity|destruct Wn|destruct Wn|destruct Wn|destruct Wn]|]. lia. }
    destruct (settle t hd st (rcall r) (ruse r) p') as [[g s|x tag]|n1 parts k|n1 k|n1 e new k|n1 bb k] eqn:Es; cbn [fst snd].
    1:{ exfalso. eapply Na. reflexivity. }
    2,3,4,5: apply Fin2; [reflexivity|discriminate].
    clear More Fin2. destruct W2 as [Dc Post]. rewrite <- Q2 in Dc.
    destruct (late_sys q1 i (rcall r) x a1 V1 Dc) as (sc2 & F2 & V2 & R1 & R2 & R3 & R4 & R5). cbn zeta in *. set (q2 := sys_run t st q1 sc2) in *.
    destruct (return_sys q2 i (rcall r) x a1 V2 R2) as (V3 & S1 & S2 & S3 & S4 & S5). cbn zeta in *. set (q3 := sys_step t st q2 (Return i)) in *.
    assert (Eq3 : q3 = sys_run t st q (sc1 ++ sc2 ++ [Return i])) by (rewrite !sys_run_app; reflexivity).
    assert (Fq : Forall (valid_action t) (sc1 ++ sc2 ++ [Return i])) by (apply Forall_app; split; [exact F1|]; apply Forall_app; split; [exact F2|]; repeat constructor).
    assert (Lv : counter q3 = lv') by congruence.
    assert (Oth : forall m, m <> i -> threads q3 m = threads q m) by (intros m N; rewrite S3, R3, Q3 by exact N; reflexivity).
    assert (Vis : filter visible (history q3) = filter visible (history q) ++ seen [(TStep i, TReturn (rcall r) x tag)]) by (cbn [seen]; rewrite S5, R5, Q5; reflexivity).
    assert (Other : (forall a, x <> RBlock a) -> tag = None ->
      exists j' q' oc' cs' sched, jstep t st j (TStep i) (TReturn (rcall r) x tag) j' /\
        tinv t hd st own (MkT (got (tw w) lv' b (rcall r) x tag) (remove i (tthreads w))) j' q' oc' s0 cs' /\
        Forall (valid_action t) sched /\ q' = sys_run t st q sched /\ filter visible (history q') = filter visible (history q) ++ seen [(TStep i, TReturn (rcall r) x tag)] /\
        (forall m, m <> i -> threads q' m = threads q m) /\ (TReturn (rcall r) x tag = TMore -> exists r', lookup i (remove i (tthreads w)) = Some r' /\
           forall n, within n (rprog r) -> exists n', within n' (rprog r') /\ 0 <= rest st (threads q' i) /\
             Z.of_nat n' + 8 * rest st (threads q' i) < Z.of_nat n + 8 * rest st (threads q i))).
    { intros Nx ->. eexists _, q3, _, cs, _. split; [eapply JOther; [exact c1|exact Nx]|]. split.
      - rewrite <- Lv. eapply (other_tinv own w j q oc s0 cs i r b x q3 cs1 I El Nb V3 S2 Oth); auto.
        rewrite S4, R4, Q4. replace (event_block (rcall r, x)) with (@None block) by (destruct x; try reflexivity; exfalso; eapply Nx; reflexivity). apply app_nil_r.
      - split; [exact Fq|]. split; [exact Eq3|]. split; [exact Vis|]. split; [exact Oth|discriminate]. }
    destruct x as [a| |f|lv| |m]; try (apply Other; [discriminate|exact Post]). clear Other.
    destruct Post as (n & -> & Nu & Nt & On).
    assert (Eo2 : map iblk (iobjs (jseq j)) = returned_blocks (history q2)) by congruence.
    destruct (done_block q2 (iobjs (jseq j)) i (rcall r) a a1 V2 Eo2 R2) as (B1 & B2 & B3 & B4 & B5 & B6).
    destruct (tags_caps cs1 oc1 n) as (bs1 & Kn); [intros x X; apply Ia1; right; exact X|exact Nt|].
    assert (Ln : (1 <= n < nexttag b)%nat).
    { split; [|apply (h_caps _ _ _ _ _ H _ _ Kn)]. destruct Cs as [[_ ->]|(bs & _ & ->)]; [exact (b3 i n Nt)|]. destruct Nt as [<-|Nt]; [exact Pn|exact (b3 i n Nt)]. }
    assert (Ob : over cs1 n [blk (rcall r) a]).
    { intros y z [<-|[]] Z. apply (over_more _ _ _ _ Ia1 On st); [left; reflexivity|]. apply B3. exact Z. }
    pose proof (adopt own cs1 (iobjs (jseq j)) _ b (blk (rcall r) a) n H Ob B5 Ln) as H2.
    assert (Hn : In n (tags (oc i)) \/ n = nexttag (wsb (tw w))).
    { destruct Cs as [[_ ->]|(bs & _ & ->)]; [left; exact Nt|]. destruct Nt as [<-|Nt]; [right; reflexivity|left; exact Nt]. }
    assert (Nused : ~ In n (iused (jseq j))).
    { intros K. destruct Hn as [Hn| ->]; [|specialize (a9 _ K); lia]. destruct (tags_caps cs (oc i) n (b2 i) Hn) as (bs & Kc). exact (b6 n bs Kc K). }
    eexists _, q3, _, (filter (fun e => negb (Nat.eqb (fst e) n)) cs), _. split; [apply (JBlock t st j i (rcall r) (ruse r) a n c1 B1 B3 B4 B6 Nused)|]. split.
    + rewrite <- Lv. apply (block_tinv own w j q oc s0 cs i r b a n q3); auto.
      * rewrite S4, R4, Q4, B2. reflexivity.
      * replace (use_perm (ruse r)) with SharedRW by (destruct (ruse r); [reflexivity|congruence|reflexivity]).
        eapply holds_less; [|eapply holds_fr; [|exact H2]]; [|intros y Y; apply Y].
        intros e Ee. apply filter_In in Ee. apply Ic. apply Ee.
      * intros e Ee. apply filter_In in Ee. apply Ee.
      * intros m bs M N. apply filter_In. split; [exact M|]. cbn [fst]. rewrite (proj2 (Nat.eqb_neq m n) N). reflexivity.
      * intros bs K. apply filter_In in K. destruct K as [_ K]. cbn [fst] in K. rewrite Nat.eqb_refl in K. discriminate.
      * intros m Nm K. destruct Hn as [Hn| ->]; [exact (b4 m i n Nm K Hn)|]. destruct (tags_caps cs (oc m) _ (b2 m) K) as (bs & Kc). pose proof (h_caps _ _ _ _ _ a6 _ _ Kc). lia.
      * intros K. destruct Hn as [Hn| ->]; [exact (b5 i n Hn K)|]. pose proof (h_caps _ _ _ _ _ a6 _ _ (b1 _ K)). lia.
    + split; [exact Fq|]. split; [exact Eq3|]. split; [exact Vis|]. split; [exact Oth|discriminate].
  - cbn [settle fst snd]. destruct (done_block q (iobjs (jseq j)) i (rcall r) a a1 a2 a8 Ets) as (B1 & B2 & B3 & B4 & B5 & B6).
    destruct (return_sys q i (rcall r) (RBlock a) a1 a2 Ets) as (V3 & S1 & S2 & S3 & S4 & S5). cbn zeta in *. set (q3 := sys_step t st q (Return i)) in *.
    set (n := nexttag (wsb (tw w))) in *.
    assert (Nused : ~ In n (iused (jseq j))) by (intros K; specialize (a9 _ K); lia).
    assert (Ncs : forall bs, ~ In (n, bs) cs) by (intros bs K; pose proof (h_caps _ _ _ _ _ a6 _ _ K); lia).
    eexists _, q3, _, cs, [Return i]. split; [apply (JBlock t st j i (rcall r) (ruse r) a n c1 B1 B3 B4 B6 Nused)|]. split.
    + rewrite <- S1. apply (block_tinv own w j q oc s0 cs i r b a n q3); auto.
      * rewrite S4, B2. reflexivity.
      * rewrite Eu. exact H.
      * apply incl_refl.
      * intros m Nm K. destruct (tags_caps cs (oc m) _ (b2 m) K) as (bs & Kc). exact (Ncs bs Kc).
      * intros K. exact (Ncs _ (b1 _ K)).
    + split; [repeat constructor|]. split; [reflexivity|]. split; [exact S5|]. split; [exact S3|discriminate].
Qed.

(** ** Programs *)
Definition rel_to (own : bool) (w : tworld) (j : jdeal) (q : sys) : Prop := exists oc s0 cs, tinv t hd st own w j q oc s0 cs.

(** What a step does to a thread that is in a call *)
Definition kept (w w' : tworld) (q q' : sys) (o : top) (ans : tanswer) : Prop :=
  forall m r, lookup m (tthreads w) = Some r ->
    (o <> TStep m -> lookup m (tthreads w') = Some r /\ threads q' m = threads q m) /\
    (o = TStep m -> ans = TMore -> exists r', lookup m (tthreads w') = Some r' /\
       forall n, within n (rprog r) -> exists n', within n' (rprog r') /\ 0 <= rest st (threads q' m) /\
         Z.of_nat n' + 8 * rest st (threads q' m) < Z.of_nat n + 8 * rest st (threads q m)).

Lemma step_other w i m x : m <> i -> lookup m (tthreads w) = Some x -> lookup m (tthreads (fst (tstep t hd w (TStep i)))) = Some x.
Proof.
  intros N E. cbn [tstep]. destruct (lookup i (tthreads w)) as [r|]; [|exact E]. destruct (pstep _ _ _ _ _) as [[[lv p] b]|]; [|exact E].
  destruct (settle _ _ _ _ _ p) as [[g s|y tag]|? ? ?|? ?|? ? ? ?|? ? ?]; cbn [fst tthreads]; rewrite ?lookup_cons_other, lookup_remove_other by exact N; exact E.
Qed.

Lemma tstep_inv own w j q o : rel_to own w j q -> top_ok t o ->
  exists j' q', jstep t st j o (snd (tstep t hd w o)) j' /\ rel_to own (fst (tstep t hd w o)) j' q' /\ kept w (fst (tstep t hd w o)) q q' o (snd (tstep t hd w o)) /\
    (no_reset o -> exists sched, Forall (valid_action t) sched /\ q' = sys_run t st q sched /\
       filter visible (history q') = filter visible (history q) ++ seen [(o, snd (tstep t hd w o))]).
Proof.
  intros (oc & s0 & cs & I) Ok. pose proof I as [a1 a2 a3 a4 a5 a6 a7 a8 a9 a10 a11 a12 b1 b2 b3 b4 b5 b6 b8 b7].
  assert (Same : forall r, seen [(o, r)] = [] -> r <> TMore -> jstep t st j o r j -> exists j' q', jstep t st j o r j' /\ rel_to own w j' q' /\ kept w w q q' o r /\
    (no_reset o -> exists sched, Forall (valid_action t) sched /\ q' = sys_run t st q sched /\ filter visible (history q') = filter visible (history q) ++ seen [(o, r)])).
  { intros r Er Nm J. exists j, q. split; [exact J|]. split; [exists oc, s0, cs; exact I|]. split; [intros m x Ex; split; [auto|congruence]|]. intros _. exists []. split; [constructor|]. split; [reflexivity|]. rewrite Er, app_nil_r. reflexivity. }
  destruct o as [o|i k c u|i].
  - assert (Plain : (forall i c u, o <> BCall i c u) -> o <> BReset -> tstep t hd w (TPlain o) = (MkT (fst (bstep t hd (tw w) o)) (tthreads w), TAnswer (snd (bstep t hd (tw w) o))) ->
      exists j' q', jstep t st j (TPlain o) (snd (tstep t hd w (TPlain o))) j' /\ rel_to own (fst (tstep t hd w (TPlain o))) j' q' /\ kept w (fst (tstep t hd w (TPlain o))) q q' (TPlain o) (snd (tstep t hd w (TPlain o))) /\
        (no_reset (TPlain o) -> exists sched, Forall (valid_action t) sched /\ q' = sys_run t st q sched /\ filter visible (history q') = filter visible (history q) ++ seen [(TPlain o, snd (tstep t hd w (TPlain o)))])).
    { intros N1 N2 ->. cbn [fst snd]. destruct (plain_inv own w j q oc s0 cs o I N1 N2) as (i' & cs' & St & I2).
      exists (MkJ i' (jcalls j)), q. split; [apply JPlain; [exact N1|congruence|exact St]|]. split; [exists oc, s0, cs'; exact I2|].
      split; [intros m x Ex; cbn [tthreads]; split; [auto|discriminate]|]. intros _. exists []. split; [constructor|]. split; [reflexivity|]. cbn [seen]. rewrite app_nil_r. reflexivity. }
    destruct o as [f|k c u| |k a| |c].
    + apply Plain; [discriminate|discriminate|]. cbn [tstep]. destruct (bstep t hd (tw w) (BShare f)). reflexivity.
    + cbn [tstep fst snd]. apply Same; [reflexivity|discriminate|apply JCallNot].
    + clear Plain. cbn [tstep]. destruct (tthreads w) as [|[i r] l] eqn:E.
      * destruct (reset_tinv own w j q oc s0 cs I E) as (i' & q' & oc' & s0' & cs' & St & I2).
        destruct (bstep t hd (tw w) BReset) as [w' r'] eqn:Eb. cbn [fst snd] in *. exists (MkJ i' (jcalls j)), q'.
        split; [apply JPlain; [discriminate| |exact St]|].
        -- intros _ m. specialize (b7 m). cbn [lookup find] in b7. apply b7.
        -- split; [exists oc', s0', cs'; exact I2|]. split; [intros m x Ex; rewrite E in Ex; discriminate|]. intros N. exfalso. apply N. reflexivity.
      * cbn [fst snd]. apply Same; [reflexivity|discriminate|]. apply (JResetNot t st j i). specialize (b7 i). rewrite lookup_cons_same in b7. destruct b7 as [-> _]. discriminate.
    + apply Plain; [discriminate|discriminate|]. cbn [tstep]. destruct (bstep t hd (tw w) (BAct k a)). reflexivity.
    + apply Plain; [discriminate|discriminate|]. cbn [tstep]. destruct (bstep t hd (tw w) BEnter). reflexivity.
    + apply Plain; [discriminate|discriminate|]. cbn [tstep]. destruct (bstep t hd (tw w) (BExit c)). reflexivity.
  - pose proof (b7 i) as b7i. cbn [tstep]. destruct (lookup i (tthreads w)) as [r|] eqn:El.
    { cbn [fst snd]. apply Same; [reflexivity|discriminate|]. apply JInvokeNot. left. destruct b7i as [-> _]. discriminate. }
    destruct b7i as [Ei Ej]. destruct (nth_error (wshares (tw w)) k) as [self|] eqn:Ek.
    2:{ cbn [fst snd]. apply Same; [reflexivity|discriminate|]. apply JInvokeNot. right. left. rewrite a10. apply nth_error_None. exact Ek. }
    assert (Hk : (k < ishares (jseq j))%nat) by (rewrite a10; apply nth_error_Some; congruence).
    assert (Cr : c = CReset \/ c <> CReset) by (destruct c; [right|right|right|right|right|left]; congruence). destruct Cr as [->|Nr].
    { cbn [fst snd]. apply Same; [reflexivity|discriminate|]. apply JInvokeNot. right. right. reflexivity. }
    pose proof (invoke_tinv own w j q oc s0 cs i k c u self I El Ek Nr Ok) as I2.
    assert (Es : storage (wslab (tw w)) = st) by (rewrite a3; reflexivity).
    assert (E0 : match c with CReset => (w, TInvalid) | _ => (MkT (tw w) ((i, MkRun c u (p_call t hd (storage (wslab (tw w))) c u self)) :: tthreads w), TMore) end
      = (MkT (tw w) ((i, MkRun c u (p_call t hd st c u self)) :: tthreads w), TMore)) by (rewrite Es; destruct c; congruence).
    rewrite E0. cbn [fst snd]. eexists _, (sys_step t st q (Invoke i c)). split; [apply JInvoke; auto|]. split; [eexists _, _, cs; exact I2|].
    split; [intros m x Ex; cbn [tthreads]; split; [intros _|discriminate]; destruct (Nat.eq_dec m i) as [->|Nm]; [congruence|]; rewrite lookup_cons_other by exact Nm; split; [exact Ex|]; destruct (one_invoke t st q i c Ei) as (_ & _ & C3 & _); apply C3; exact Nm|].
    intros _. exists [Invoke i c]. split; [apply Forall_cons; [split; [exact Ok|destruct c; try reflexivity; congruence]|apply Forall_nil]|]. split; [reflexivity|].
    destruct (one_invoke t st q i c Ei) as (_ & _ & _ & _ & C5). exact C5.
  - destruct (lookup i (tthreads w)) as [r|] eqn:El.
    + destruct (thread_step own w j q oc s0 cs i r I El) as (j' & q' & oc' & cs' & sched & J & I2 & F & E & Vi & Oth & Mo).
      exists j', q'. split; [exact J|]. split; [exists oc', s0, cs'; exact I2|]. split; [|].
      { intros m x Ex. split.
        - intros Nm. assert (Nm' : m <> i) by congruence. split; [|apply Oth; exact Nm']. apply step_other; assumption.
        - intros [= <-] Et. assert (x = r) by congruence. subst x. apply Mo. exact Et. }
      intros _. exists sched. auto.
    + cbn [tstep]. rewrite El. cbn [fst snd]. apply Same; [reflexivity|discriminate|]. apply JStepNot. specialize (b7 i). rewrite El in b7. apply b7.
Qed.

Lemma seen_cons x h : seen (x :: h) = seen [x] ++ seen h.
Proof. destruct x as [[o|i k c u|i] [r| |c' r tag| |]]; reflexivity. Qed.

Lemma trun_inv own os : forall w j q, rel_to own w j q -> Forall (top_ok t) os ->
  exists j' q', jruns t st j (snd (trun t hd w os)) j' /\ rel_to own (fst (trun t hd w os)) j' q' /\
    (Forall no_reset os -> exists sched, Forall (valid_action t) sched /\ q' = sys_run t st q sched /\
       filter visible (history q') = filter visible (history q) ++ seen (snd (trun t hd w os))).
Proof.
  induction os as [|o os IH]; intros w j q R F; cbn [trun].
  - exists j, q. split; [constructor|]. split; [exact R|]. intros _. exists []. split; [constructor|]. split; [reflexivity|]. cbn. rewrite app_nil_r. reflexivity.
  - inversion F as [|? ? F1 F2]; subst. destruct (tstep_inv own w j q o R F1) as (j1 & q1 & S1 & R1 & _ & H1).
    destruct (tstep t hd w o) as [w1 r1]. cbn [fst snd] in *. destruct (IH w1 j1 q1 R1 F2) as (j2 & q2 & S2 & R2 & H2).
    destruct (trun t hd w1 os) as [w2 h]. cbn [fst snd] in *. exists j2, q2. split; [econstructor; eauto|]. split; [exact R2|].
    intros N. inversion N as [|? ? N1 N2]; subst. destruct (H1 N1) as (sc1 & V1 & E1 & T1). destruct (H2 N2) as (sc2 & V2 & E2 & T2).
    exists (sc1 ++ sc2). split; [apply Forall_app; auto|]. split; [rewrite sys_run_app, <- E1; exact E2|].
    rewrite T2, T1, (seen_cons (o, r1) h), app_assoc. reflexivity.
Qed.

Lemma step_call w i r : lookup i (tthreads w) = Some r ->
  match snd (tstep t hd w (TStep i)) with
  | TReturn c _ _ => c = rcall r
  | TMore => forall r', lookup i (tthreads (fst (tstep t hd w (TStep i)))) = Some r' -> rcall r' = rcall r
  | _ => True
  end.
Proof.
  intros E. cbn [tstep]. rewrite E. destruct (pstep _ _ _ _ _) as [[[lv p] b]|]; [|exact Logic.I].
  destruct (settle _ _ _ _ _ p) as [[g s|y tag]|? ? ?|? ?|? ? ? ?|? ? ?]; cbn [fst snd tthreads]; try reflexivity; intros r'; rewrite lookup_cons_same; intros [= <-]; reflexivity.
Qed.

(** Calls end. *)
Lemma calls_end own i os : forall w j q r n N, rel_to own w j q -> Forall (top_ok t) os -> lookup i (tthreads w) = Some r -> within n (rprog r) ->
  0 <= rest st (threads q i) -> Z.of_nat n + 8 * rest st (threads q i) <= N -> N < steps i os ->
  exists x tag, In (TStep i, TReturn (rcall r) x tag) (snd (trun t hd w os)).
Proof.
  induction os as [|o os IH]; intros w j q r n N R F El Wn R0 Le Lt; cbn [trun].
  - exfalso. unfold steps in Lt. cbn in Lt. lia.
  - inversion F as [|? ? F1 F2]; subst. destruct (tstep_inv own w j q o R F1) as (j1 & q1 & S1 & R1 & K & _). destruct (K i r El) as [K1 K2]. clear K.
    rewrite steps_cons in Lt. pose proof (step_call w i r El) as Sc.
    destruct (is_step_dec i o) as [[-> Eo]|[No Eo]]; rewrite Eo in Lt; [|clear Sc];
    destruct (tstep t hd w _) as [w1 r1]; cbn [fst snd] in *; pose proof (IH w1 j1 q1) as IH1; destruct (trun t hd w1 os) as [w2 h]; cbn [fst snd] in *.
    + clear K1. destruct r1 as [x| |c x tag| |].
      * inversion S1.
      * destruct (K2 eq_refl eq_refl) as (r' & El' & Kn). destruct (Kn n Wn) as (n' & Wn' & R0' & Le').
        destruct (IH1 r' n' (N - 1) R1 F2 El' Wn' R0') as (x & tag & In_); [lia|lia|]. exists x, tag. right. rewrite <- (Sc r' El'). exact In_.
      * exists x, tag. left. rewrite Sc. reflexivity.
      * inversion S1.
      * exfalso. inversion S1. destruct R as (oc & s0 & cs & I). pose proof (v_thr _ _ _ _ _ _ _ _ _ _ I i) as V. rewrite El in V. destruct V as [V _]. congruence.
    + destruct (K1 No) as [El' Eq']. rewrite <- Eq' in R0, Le. destruct (IH1 r n N R1 F2 El' Wn R0 Le) as (x & tag & In_); [lia|]. exists x, tag. right. exact In_.
Qed.

Lemma invoked own w j q i k c u : rel_to own w j q -> top_ok t (TInvoke i k c u) -> snd (tstep t hd w (TInvoke i k c u)) = TMore ->
  exists j' q' r n, rel_to own (fst (tstep t hd w (TInvoke i k c u))) j' q' /\ lookup i (tthreads (fst (tstep t hd w (TInvoke i k c u)))) = Some r /\
    rcall r = c /\ within n (rprog r) /\ 0 <= rest st (threads q' i) /\ Z.of_nat n + 8 * rest st (threads q' i) <= 8 * size st + 11.
Proof.
  intros (oc & s0 & cs & I) Ok. cbn [tstep]. pose proof (v_thr _ _ _ _ _ _ _ _ _ _ I i) as V. destruct (lookup i (tthreads w)) as [r|] eqn:El; [discriminate|].
  destruct V as [Ei _]. destruct (nth_error (wshares (tw w)) k) as [self|] eqn:Ek; [|discriminate].
  assert (Cr : c = CReset \/ c <> CReset) by (destruct c; [right|right|right|right|right|left]; congruence). destruct Cr as [->|Nr]; [discriminate|]. intros _.
  assert (Es : storage (wslab (tw w)) = st) by (rewrite (v_slab _ _ _ _ _ _ _ _ _ _ I); reflexivity).
  assert (E0 : match c with CReset => (w, TInvalid) | _ => (MkT (tw w) ((i, MkRun c u (p_call t hd (storage (wslab (tw w))) c u self)) :: tthreads w), TMore) end
    = (MkT (tw w) ((i, MkRun c u (p_call t hd st c u self)) :: tthreads w), TMore)) by (rewrite Es; destruct c; congruence).
  rewrite E0. cbn [fst]. pose proof (invoke_tinv own w j q oc s0 cs i k c u self I El Ek Nr Ok) as I2.
  destruct (one_invoke t st q i c Ei) as (_ & C2 & _). eexists _, _, _, 11%nat. split; [eexists _, _, _; exact I2|]. split; [apply lookup_cons_same|].
  split; [reflexivity|]. split; [apply within_call|]. rewrite C2. cbn [rest]. destruct (v_region _ _ _ _ _ _ _ _ _ _ I) as (_ & L & _). lia.
Qed.

(** As [tnew], as if there were memory everywhere *)
Definition twide (own : bool) : tworld := MkT (bwide st own) [].

Lemma tnew_inv own : valid_region t st -> rel_to own (twide own) (jdeal_new own) sys_init.
Proof.
  intros V. exists (fun _ => []), (fun _ => O), (map (fun n => (n, [hd; st])) (if own then [] else [0%nat])).
  split; cbn [tw tthreads twide jdeal_new jseq jcalls ideal_new bwide wslab wsb wowned wshares wobjs wbusy wcalls iobjs iused iowned ishares ibusy icalls]; auto.
  - apply inv_init. exact V.
  - pose proof (w_holds t hd st own _ _ (bnew_inv t hd st own V)) as H. cbn [bwide wshares wsb ideal_new iobjs wslab fresh consumed] in H.
    eapply holds_fr; [|exact H]. intros x [X|[X _]]; [left; exact X|right; split; [exact X|]]. unfold in_block in X. lia.
  - intros n [].
  - destruct own; reflexivity.
  - intros n N. apply (in_map (fun n => (n, [hd; st]))) in N. exact N.
  - intros k. apply incl_nil_l.
  - intros k n [].
  - intros k. cbn [lookup find]. split; reflexivity.
Qed.
End World.

(** ** Undefined behaviour comes only from the client *)
Lemma istep_ub t st i o i' : istep t st i o BUB i' -> exists k a, o = BAct k a.
Proof. intros S. inversion S; subst; eauto; try (destruct a; discriminate). Qed.

Lemma jruns_ub t st h : forall j j', jruns t st j h j' -> forall o r, In (o, r) h -> is_ub r = true -> exists k a, o = TPlain (BAct k a).
Proof.
  induction h as [|[o' r'] h IH]; intros j j' R o r I U; [destruct I|]. inversion R as [|? ? ? s2 ? ? S R']; subst.
  destruct I as [[= <- <-]|I]; [|eauto]. inversion S; subst; cbn in U; try discriminate.
  match goal with K : istep _ _ _ _ ?x _ |- _ => destruct x; try discriminate; destruct (istep_ub _ _ _ _ _ K) as (k & a & ->) end. eauto.
Qed.

Lemma jruns_plain t st h : forall j j', jruns t st j h j' -> Forall simple (iobjs (jseq j)) -> Forall (fun p => tplain (fst p)) h -> forall o r, In (o, r) h -> is_ub r = false.
Proof.
  induction h as [|[o r] h IH]; intros j j' R Si Pl o' r' I; [destruct I|]. inversion R as [|? ? ? s2 ? ? S R']; subst. inversion Pl as [|? ? P1 P2]; subst.
  assert (K : Forall simple (iobjs (jseq s2)) /\ is_ub r = false).
  { inversion S; subst; cbn [jseq iobjs with_objs is_ub] in *; auto.
    - inversion H1; subst; cbn [iobjs with_objs is_ub] in *; auto.
      + split; [apply Forall_app; split; [exact Si|constructor; [|constructor]]|reflexivity]. exists n, (use_perm u). split; [reflexivity|]. split; [destruct u; auto|reflexivity].
      + rewrite Forall_forall in Si. destruct (simple_ok (ibusy (jseq j)) o a (Si o (nth_error_In _ _ H2)) H3 P1 n) as (o2 & E2 & S2).
        split; [|destruct a; reflexivity]. apply Forall_forall. intros y Y. apply set_nth_in in Y. destruct Y as [->|Y]; [|auto]. congruence.
      + rewrite Forall_forall in Si. destruct (simple_ok (ibusy (jseq j)) o a (Si o (nth_error_In _ _ H2)) H3 P1 n) as (o2 & E2 & S2). congruence.
    - split; [apply Forall_app; split; [exact Si|constructor; [|constructor]]|reflexivity]. exists n, (use_perm u). split; [reflexivity|]. split; [destruct u; auto|reflexivity]. }
  destruct K as [K1 K2]. destruct I as [[= <- <-]|I]; [exact K2|]. eapply IH; eauto.
Qed.

Lemma trun_fst t hd os : forall w, map fst (snd (trun t hd w os)) = os.
Proof.
  induction os as [|o os IH]; intros w; cbn [trun]; [reflexivity|]. destruct (tstep t hd w o) as [w1 r]. specialize (IH w1). destruct (trun t hd w1 os) as [w2 h].
  cbn [snd map fst] in *. rewrite IH. reflexivity.
Qed.
