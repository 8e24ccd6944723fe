(** * TUnsWorld: programs that use an unsync Bump or MemBump under Tree Borrows, compared with the ideal. *)
From Verif Require UBorrowWorld BorrowWorld.
From Verif Require Import Base Spec BaseFacts SyncModel SyncSpec SyncProofs UnsyncModel UnsyncSpec UnsyncProofs ConcModel BorrowModel BorrowSpec BorrowProofs BorrowState TBorrowModel
  UBorrowModel EBorrowModel TreeModel TreeSpec TreeState TreeAct TExitModel TExitState TExitOps TUnsModel TUnsSpec TUnsVal.

Section Calls.
Variables (t : target) (hd st : block).
Definition mem2 (x : Z) : Prop := in_block hd x \/ in_block st x.

(** the state and answer of a call, and the pointer of the block: it is new, and nobody can take it away *)
Definition got {A} (lo : nat) (y : ubump * A) (x : ubump * A * nat) (s' : forest) : Prop := fst x = y /\ qt s' (snd x) mem2 /\ (lo <= snd x)%nat.

Lemma chain_fresh p s n s' : chain p s n s' -> (fresh_tag s <= fresh_tag s')%nat.
Proof. intros C. apply (s_fresh _ _ _ (proj1 (c_down _ _ _ _ C))). Qed.

Lemma op_try_alloc u l p s : udata u = st -> wf s -> qt s p mem2 -> op (f_try_alloc t hd u l p) s (fun x s' => down p (in_block hd) s s' /\ got (fresh_tag s) (u_try_alloc t u l) x s').
Proof.
  intros Eu W Q. pose proof (proj1 Q) as L. unfold f_try_alloc. rewrite Eu. apply via; [apply op_self; auto|]. intros n s1 C1. ch C1. pose proof (chain_two hd st _ _ _ _ C1 Q) as Q1. pose proof (chain_fresh _ _ _ _ C1) as F1.
  apply seq0; auto; [apply op_cell_get; [auto|apply (two_hd hd st); exact Q1]|]. intros [] s2 D2. pose proof (down_wf _ _ _ _ D2) as W2. assert (Q2 : qt s2 n mem2) by (eapply step_qt; [|apply D2|exact Q1]; auto).
  pose proof (s_fresh _ _ _ (proj1 D2)) as F2. apply op_bind. eapply op_weaken; [|apply (op_try_alloc_at t hd st u l (uindex u) n s2 Eu W2 Q2)].
  intros [[u' r] base] s3 (D3 & M1 & M2 & M3). cbn [fst snd] in *. apply op_ret. split; [exact D3|]. unfold got. cbn [fst snd]. split; [|split; [exact M2|lia]].
  unfold u_try_alloc. rewrite <- M1. destruct r as [[a|[|ob]]|m]; reflexivity.
Qed.

Lemma op_alloc u l p s : udata u = st -> wf s -> qt s p mem2 -> op (f_alloc t hd u l p) s (fun x s' => down p (in_block hd) s s' /\ got (fresh_tag s) (u_try_alloc t u l) x s').
Proof.
  intros Eu W Q. pose proof (proj1 Q) as L. unfold f_alloc. rewrite Eu. apply via; [apply op_self; auto|]. intros n s1 C1. ch C1. pose proof (chain_two hd st _ _ _ _ C1 Q) as Q1. pose proof (chain_fresh _ _ _ _ C1) as F1.
  eapply op_weaken; [|apply (op_try_alloc u l n s1); auto]. intros x s2 (D & M1 & M2 & M3). split; [exact D|]. split; [exact M1|]. split; [exact M2|lia].
Qed.

Lemma op_alloc_at u l lv p s : udata u = st -> wf s -> qt s p mem2 -> op (f_alloc_at t hd u l lv p) s (fun x s' => down p (in_block hd) s s' /\ got (fresh_tag s) (u_try_alloc_at t u l lv) x s').
Proof.
  intros Eu W Q. pose proof (proj1 Q) as L. unfold f_alloc_at. rewrite Eu. apply via; [apply op_self; auto|]. intros n s1 C1. ch C1. pose proof (chain_two hd st _ _ _ _ C1 Q) as Q1. pose proof (chain_fresh _ _ _ _ C1) as F1.
  eapply op_weaken; [|apply (op_try_alloc_at t hd st u l lv n s1); auto]. intros x s2 (D & M1 & M2 & M3). split; [exact D|]. split; [exact M1|]. split; [exact M2|lia].
Qed.

Lemma op_bump_array u l n p s : udata u = st -> wf s -> qt s p mem2 -> op (f_bump_array t hd u l n p) s (fun x s' => down p (in_block hd) s s' /\ got (fresh_tag s) (u_bump_array t u l n) x s').
Proof.
  intros Eu W Q. pose proof (proj1 Q) as L. unfold f_bump_array, u_bump_array. rewrite Eu. apply via; [apply op_self; auto|]. intros m s1 C1. ch C1. pose proof (chain_two hd st _ _ _ _ C1 Q) as Q1. pose proof (chain_fresh _ _ _ _ C1) as F1.
  destruct (layout_array t l n) as [la|].
  2:{ apply op_ret. split; [apply down_refl; auto|]. split; [reflexivity|]. split; [exact Q1|]. cbn [snd]. pose proof (c_new _ _ _ _ C1). lia. }
  apply op_bind. eapply op_weaken; [|apply (op_alloc u la m s1); auto]. intros [[u' r] base] s2 (D & M1 & M2 & M3). cbn [fst snd] in *. apply op_ret. split; [exact D|]. unfold got. cbn [fst snd].
  split; [|split; [exact M2|lia]]. rewrite <- M1. destruct r as [[a|]|e]; reflexivity.
Qed.

Lemma op_method u c p s : udata u = st -> c <> UCall CReset -> wf s -> qt s p mem2 ->
  op (f_method t hd u c p) s (fun x s' => down p (in_block hd) s s' /\ fst x = ustep t u c /\ (forall a, snd (fst x) = RBlock a -> qt s' (snd x) mem2 /\ (fresh_tag s <= snd x)%nat)).
Proof.
  intros Eu Nc W Q. pose proof (proj1 Q) as L.
  assert (A1 : forall l, op (x <~ f_alloc t hd u l p ~; let '(u', r, base) := x in fret (u', of_option r, base)) s (fun x s' => down p (in_block hd) s s' /\
      fst x = (let (u', r) := u_try_alloc t u l in (u', of_option r)) /\ (forall a, snd (fst x) = RBlock a -> qt s' (snd x) mem2 /\ (fresh_tag s <= snd x)%nat))).
  { intros l. apply op_bind. eapply op_weaken; [|apply (op_alloc u l p s); auto]. intros [[u' r] base] s2 (D & M1 & M2). cbn [fst snd] in *. apply op_ret. rewrite <- M1. auto. }
  assert (A2 : forall l lv, op (x <~ f_alloc_at t hd u l lv p ~; let '(u', r, base) := x in fret (u', of_result r, base)) s (fun x s' => down p (in_block hd) s s' /\
      fst x = (let (u', r) := u_try_alloc_at t u l lv in (u', of_result r)) /\ (forall a, snd (fst x) = RBlock a -> qt s' (snd x) mem2 /\ (fresh_tag s <= snd x)%nat))).
  { intros l lv. apply op_bind. eapply op_weaken; [|apply (op_alloc_at u l lv p s); auto]. intros [[u' r] base] s2 (D & M1 & M2). cbn [fst snd] in *. apply op_ret. rewrite <- M1. auto. }
  destruct c as [[l|l lv|l|l lv| |]|l|l n]; cbn [f_method ustep]; auto; [|congruence| |].
  - apply op_bind. eapply op_weaken; [|apply (op_level hd st u p s); auto]. intros lv s2 [D ->]. apply op_ret. split; [exact D|]. split; [reflexivity|]. cbn [fst snd]. discriminate.
  - apply op_bind. eapply op_weaken; [|apply (op_bump_box t hd st u l p s); auto]. intros [[u' r] base] s2 (D & M1 & M2 & M3). cbn [fst snd] in *. apply op_ret. rewrite <- M1. auto.
  - apply op_bind. eapply op_weaken; [|apply (op_bump_array u l n p s); auto]. intros [[u' r] base] s2 (D & M1 & M2). cbn [fst snd] in *. apply op_ret. rewrite <- M1. auto.
Qed.

(** What a call does to other bytes than those of the new block: only those of the index change. *)
Lemma op_call kind u c us p s : udata u = st -> c <> UCall CReset -> wf s -> qt s p mem2 -> (forall a, snd (ustep t u c) = RBlock a -> inside (MkBlock (ptr a) (lsize (uasked t c))) st) ->
  op (f_call t hd kind u c us p) s (fun x s' => fst x = ustep t u c /\ match snd (ustep t u c) with
    | RBlock a => let b := MkBlock (ptr a) (lsize (uasked t c)) in exists n up, snd x = Some n /\ (fresh_tag s <= n < fresh_tag s')%nat /\
        step (fun y => in_block hd y \/ in_block b y) s s' /\ held (nodes s') (fresh_tag s') (new_alloc b n (txuse_perm us)) n up
    | _ => snd x = None /\ step (in_block hd) s s'
    end).
Proof.
  intros Eu Nc W Q In. pose proof (t_next _ _ _ W) as N1. unfold f_call. apply op_bind.
  assert (U : op (match kind with XVar _ => f_deref_ref hd u p | XPtr => fret p end) s (fun n s1 => step (in_block hd) s s1 /\ wf s1 /\ qt s1 n mem2)).
  { destruct kind; [|apply op_ret; split; [apply step_refl; exact W|auto]]. eapply op_weaken; [|apply (op_deref_ref hd st u p s Eu W (proj1 Q))]. intros n s1 C. ch C.
    split; [|split; [assumption|eapply chain_two; eauto]]. eapply step_more; [|apply (c_down _ _ _ _ C)]. intros x []. }
  eapply op_weaken; [|exact U]. clear U. intros n s1 (K1 & W1 & Q1). pose proof (s_fresh _ _ _ K1) as F1. apply op_bind.
  eapply op_weaken; [|apply (op_method u c n s1 Eu Nc W1 Q1)]. intros [[u' r] base] s2 (D2 & M1 & M2). cbn [fst snd] in *. pose proof (down_wf _ _ _ _ D2) as W2. pose proof (s_fresh _ _ _ (proj1 D2)) as F2.
  assert (K2 : step (in_block hd) s s2) by (eapply step_trans; [exact K1|apply D2]). destruct (ustep t u c) as [u3 r3]. injection M1 as -> ->. cbn [fst snd] in *.
  destruct r3 as [a| |f|lv| |m]; try (apply op_ret; split; [reflexivity|]; split; [reflexivity|exact K2]).
  destruct (M2 a eq_refl) as [M3 M4]. specialize (In a eq_refl). set (b := MkBlock (ptr a) (lsize (uasked t c))) in *. apply op_bind.
  eapply op_weaken; [|apply (op_use us b base s2 W2); [eapply qt_less; [|exact M3]; intros x X; right; apply In; exact X|lia]].
  intros m s3 (K3 & N3 & L3 & up & H3). apply op_ret. split; [reflexivity|]. exists m, up. split; [reflexivity|]. split; [split; [destruct N3; [subst; lia|lia]|exact L3]|].
  split; [|exact H3]. eapply step_trans; [eapply step_more; [|exact K2]; auto|eapply step_more; [|exact K3]; auto].
Qed.

Lemma op_owner_reset kind u s : udata u = st -> wf s -> op (f_owner_reset hd kind u) s (fun u' s' => u' = u_reset u /\ wf s' /\ (fresh_tag s <= fresh_tag s')%nat).
Proof.
  intros Eu W. pose proof (t_next _ _ _ W) as N1. unfold f_owner_reset.
  assert (W0 : wr s 0 mem2).
  { split; [lia|]. intros x y _ Y. rewrite (proj1 (t_root _ _ _ W)) in Y. destruct Y as [<-|[]]. rewrite wf_root by exact W. left. reflexivity. }
  apply op_bind.
  assert (U : op (match kind with XVar p => self <~ f_retag true 0 [(mut_kind p, hd); (mut_kind p, udata u)] ~; f_deref_mut hd p u self | XPtr => f_retag true 0 [(RUnique, hd); (RUnique, udata u)] end) s
      (fun n s' => wf s' /\ wr s' n mem2 /\ (fresh_tag s <= fresh_tag s')%nat)).
  { rewrite Eu. destruct kind as [p|]; [|apply (op_mut hd st true 0 s W W0)].
    apply op_bind. eapply op_weaken; [|apply (op_mut hd st p 0 s W W0)]. intros n1 s1 (W1 & Wr1 & F1). unfold f_deref_mut. rewrite Eu.
    apply op_bind. eapply op_weaken; [|apply (op_mut hd st p n1 s1 W1 Wr1)]. intros n2 s2 (W2 & Wr2 & F2).
    eapply op_weaken; [|apply (op_mut hd st true n2 s2 W2 Wr2)]. intros n3 s3 (W3 & Wr3 & F3). split; [exact W3|]. split; [exact Wr3|lia]. }
  eapply op_weaken; [|exact U]. clear U. intros n1 s1 (W1 & Wr1 & F1). unfold f_reset. rewrite Eu. apply op_bind.
  eapply op_weaken; [|apply (op_mut hd st true n1 s1 W1 Wr1)]. intros n2 s2 (W2 & Wr2 & F2). apply op_bind.
  eapply op_weaken; [|apply (op_cell_set hd n2 s2 W2)].
  - intros [] s3 D3. apply op_ret. cbn beta in D3. pose proof (s_fresh _ _ _ (proj1 D3)). split; [reflexivity|]. split; [eapply down_wf; eauto|lia].
  - eapply wr_less; [|exact Wr2]. left. assumption.
Qed.
End Calls.

(** ** Programs *)
Definition known (s : forest) (o : nobj) : Prop := exists root up, held (nodes s) (fresh_tag s) o root up.

Record txinv (t : target) (hd st : block) (w : txworld) (i : txideal) : Prop := {
  e_ok : uok t (txbump w);
  e_st : udata (txbump w) = st;
  e_wf : wf (txforest w);
  e_shares : Forall (fun n => qt (txforest w) n (mem2 hd st)) (txshares w);
  e_held : Forall (known (txforest w)) (ti_objs i);
  e_objs : map (fun o => MkO (nblk o) (ntags o)) (ti_objs i) = txobjs w;
  e_below : forall o x, In o (ti_objs i) -> in_block (nblk o) x -> in_block st x /\ x < start st + uindex (txbump w);
  e_pair : pairwise disjoint (map nblk (ti_objs i));
  e_used : forall n, In n (ti_used i) -> (n < fresh_tag (txforest w))%nat;
  e_count : ti_shares i = length (txshares w) }.

Lemma known_step B s s' o : step B s s' -> (forall x, in_block (nblk o) x -> ~ B x) -> known s o -> known s' o.
Proof. intros K D (root & up & H). exists root, up. eapply held_step; eauto. Qed.

Section World.
Variables (t : target) (hd st : block) (kind : xkind).
Hypothesis (Ht : valid_target t) (Dj : disjoint hd st).

Lemma share_inv w i self : txinv t hd st w i -> (self < fresh_tag (txforest w))%nat -> qt (txforest w) self (mem2 hd st) ->
  exists n s, f_self hd st self (txforest w) = Some (n, s) /\
    txinv t hd st (MkTX (txbump w) s (txshares w ++ [n]) (txobjs w)) (MkTI (ti_objs i) (ti_used i) (S (ti_shares i))).
Proof.
  intros I L Q. pose proof I as [a1 a2 a3 a4 a5 a6 a7 a8 a9 a10]. destruct (op_some _ _ _ (op_self hd st self (txforest w) a3 L)) as (n & s & E & C). exists n, s. split; [exact E|].
  pose proof (proj1 (c_down _ _ _ _ C)) as K. pose proof (s_fresh _ _ _ K) as F. ch C. split; cbn [txbump txforest txshares txobjs ti_objs ti_used ti_shares]; auto.
  - apply Forall_app. split; [eapply Forall_impl; [|exact a4]; intros m; eapply step_qt; eauto|]. constructor; [|constructor]. eapply chain_qt; eauto.
  - eapply Forall_impl; [|exact a5]. intros o. eapply known_step; [exact K|]. intros x _ [].
  - intros m M. specialize (a9 m M). lia.
  - rewrite app_length, a10. cbn. lia.
Qed.

Lemma tuse_not_reset c u : tuse_ok c u = true -> c <> UCall CReset.
Proof. intros E ->. destruct u; discriminate. Qed.

Lemma call_runs w i c u self k : txinv t hd st w i -> valid_ucall t c -> c <> UCall CReset -> nth_error (txshares w) k = Some self ->
  op (f_call t hd kind (txbump w) c u self) (txforest w) (fun x s' => fst x = ustep t (txbump w) c /\ match snd (ustep t (txbump w) c) with
    | RBlock a => let b := MkBlock (ptr a) (lsize (uasked t c)) in exists n up, snd x = Some n /\ (fresh_tag (txforest w) <= n < fresh_tag s')%nat /\
        step (fun y => in_block hd y \/ in_block b y) (txforest w) s' /\ held (nodes s') (fresh_tag s') (new_alloc b n (txuse_perm u)) n up
    | _ => snd x = None /\ step (in_block hd) (txforest w) s'
    end).
Proof.
  intros I Vc Nr E. pose proof I as [a1 a2 a3 a4 a5 a6 a7 a8 a9 a10]. apply (op_call t hd st kind (txbump w) c u self (txforest w)); auto.
  - rewrite Forall_forall in a4. apply a4. eapply nth_error_In; eauto.
  - intros a Ea. destruct (UBorrowWorld.ustep_place t (txbump w) c a Ht a1 Vc Ea) as (l & _ & El & P1 & _). rewrite El, <- a2. exact P1.
Qed.

Lemma txstep_inv w i o : txinv t hd st w i -> txop_ok t o ->
  exists i', txistep t st i o (snd (txstep t hd kind w o)) i' /\ txinv t hd st (fst (txstep t hd kind w o)) i'.
Proof.
  intros I Oo. pose proof I as [a1 a2 a3 a4 a5 a6 a7 a8 a9 a10].
  assert (Hd : forall o x, In o (ti_objs i) -> in_block (nblk o) x -> ~ in_block hd x).
  { intros ob x Io X Y. apply (Dj x). split; [exact Y|]. apply (a7 ob x Io X). }
  destruct o as [[k|]|k c u| |k a]; cbn [txstep].
  - destruct (nth_error (txshares w) k) as [self|] eqn:E.
    2:{ cbn [fst snd]. exists i. split; [apply TIShareNot; rewrite a10; apply nth_error_None; exact E|exact I]. }
    assert (Hk : (k < ti_shares i)%nat) by (rewrite a10; apply nth_error_Some; congruence). rewrite Forall_forall in a4. pose proof (a4 self (nth_error_In _ _ E)) as Q.
    destruct (share_inv w i self I (proj1 Q) Q) as (n & s & E1 & I1). rewrite a2, E1. cbn [fst snd]. eexists. split; [apply TIShare; exact Hk|exact I1].
  - pose proof (t_next _ _ _ a3) as N1. assert (Q : qt (txforest w) 0 (mem2 hd st)).
    { split; [lia|]. intros x y _ Y. rewrite (proj1 (t_root _ _ _ a3)) in Y. destruct Y as [<-|[]]. right. split; [reflexivity|apply wf_root; exact a3]. }
    destruct (share_inv w i 0%nat I (proj1 Q) Q) as (n & s & E1 & I1). rewrite a2, E1. cbn [fst snd]. eexists. split; [apply TIShareOwner|exact I1].
  - destruct (nth_error (txshares w) k) as [self|] eqn:E.
    2:{ cbn [fst snd]. exists i. split; [apply TICallNot; left; rewrite a10; apply nth_error_None; exact E|exact I]. }
    assert (Hk : (k < ti_shares i)%nat) by (rewrite a10; apply nth_error_Some; congruence).
    destruct (tuse_ok c u) eqn:Eu.
    2:{ cbn [fst snd]. exists i. split; [apply TICallNot; right; exact Eu|exact I]. }
    pose proof (tuse_not_reset c u Eu) as Nr. cbn [txop_ok] in Oo.
    destruct (op_some _ _ _ (call_runs w i c u self k I Oo Nr E)) as ([[u' r] tag] & s & E1 & Y1 & Y2). rewrite E1. cbn [fst snd] in *.
    pose proof (ustep_ok t (txbump w) c Ht a1 Oo) as [S1 S2]. pose proof (UBorrowWorld.ustep_place t (txbump w) c) as SP. pose proof (UBorrowWorld.ustep_same t (txbump w) c Ht a1 Oo Nr) as Mono.
    rewrite <- Y1 in *. cbn [fst snd] in *.
    assert (Other : (forall a, r <> RBlock a) -> tag = None -> step (in_block hd) (txforest w) s ->
      exists i', txistep t st i (TXCall k c u) (TXResponse r tag) i' /\ txinv t hd st (MkTX u' s (txshares w) (txobjs w)) i').
    { intros N -> K. pose proof (s_fresh _ _ _ K) as F. exists i. split; [apply TICallOther; auto|]. rewrite (Mono N). split; cbn [txbump txforest txshares txobjs]; auto.
      - apply (s_wf _ _ _ K).
      - eapply Forall_impl; [|exact a4]. intros m. eapply step_qt; eauto.
      - apply Forall_forall. intros ob Io. rewrite Forall_forall in a5. eapply known_step; [exact K|intros x X; exact (Hd ob x Io X)|auto].
      - intros m M. specialize (a9 m M). lia. }
    destruct r as [a| |f|lv| |m]; try (destruct Y2 as [-> K]; apply Other; [intros ? ?; discriminate|reflexivity|exact K]).
    clear Other Mono. destruct Y2 as (n & up & -> & Ln & K & H). destruct (SP a Ht a1 Oo eq_refl) as (l & Hl & El & P1 & P2 & P3 & P4). clear SP. cbn zeta in *. rewrite El in *.
    set (bl := MkBlock (ptr a) (lsize l)) in *. rewrite a2 in *. pose proof (s_fresh _ _ _ K) as F.
    assert (Db : Forall (fun o => disjoint bl (nblk o)) (ti_objs i)).
    { apply Forall_forall. intros o Io x [X1 X2]. pose proof (P3 x X1). pose proof (a7 o x Io X2). lia. }
    assert (Nu : ~ In n (ti_used i)) by (intros M; specialize (a9 n M); lia).
    eexists. split; [apply (TICallBlock t st i k c u a n l); auto|].
    split; cbn [txbump txforest txshares txobjs ti_objs ti_used ti_shares]; auto.
    + apply (s_wf _ _ _ K).
    + eapply Forall_impl; [|exact a4]. intros m. eapply step_qt; eauto.
    + apply Forall_app. split; [|constructor; [exists n, up; exact H|constructor]]. apply Forall_forall. intros ob Io. rewrite Forall_forall in a5, Db. eapply known_step; [exact K| |auto].
      intros x X [Y|Y]; [exact (Hd ob x Io X Y)|]. exact (Db ob Io x (conj Y X)).
    + rewrite map_app, a6. reflexivity.
    + intros o x O X. apply in_app_or in O. destruct O as [O|[<-|[]]].
      * pose proof (a7 o x O X) as [Q1 Q2]. split; [exact Q1|lia].
      * cbn [new_alloc nblk] in X. split; [apply P1; exact X|]. pose proof (P3 x X). lia.
    + rewrite map_app. cbn [map new_alloc nblk]. apply BorrowWorld.pair_snoc; [exact a8|]. rewrite Forall_map. exact Db.
    + intros m [<-|M]; [lia|]. specialize (a9 m M). lia.
  - destruct (op_some _ _ _ (op_owner_reset hd st kind (txbump w) (txforest w) a2 a3)) as (u' & s & E1 & -> & W1 & F1). rewrite E1. cbn [fst snd].
    eexists. split; [apply TIReset|]. split; cbn [txbump txforest txshares txobjs ti_objs ti_used ti_shares]; auto.
    + destruct a1 as [V C]. split; [exact V|]. cbn. destruct V as (_ & V & _). cbn in V. lia.
    + intros o x [].
    + apply pairwise_nil.
    + intros n M. specialize (a9 n M). lia.
  - destruct (nth_error (txobjs w) k) as [ob|] eqn:E.
    2:{ cbn [fst snd]. exists i. split; [|exact I]. apply TIActNot. intros o Ho. exfalso. rewrite <- a6, nth_error_map, Ho in E. discriminate. }
    assert (Ho : exists o, nth_error (ti_objs i) k = Some o /\ ob = MkO (nblk o) (ntags o)).
    { rewrite <- a6, nth_error_map in E. destruct (nth_error (ti_objs i) k) as [o|]; [|discriminate]. cbn in E. injection E as <-. eauto. }
    destruct Ho as (o & Ho & ->). destruct (nact_ok (MkO (nblk o) (ntags o)) a) eqn:A.
    2:{ cbn [fst snd]. exists i. split; [|exact I]. apply TIActNot. intros o' Ho'. congruence. }
    rewrite Forall_forall in a5. destruct (a5 o (nth_error_In _ _ Ho)) as (root & up & H). pose proof (held_act (txforest w) o root up a a3 H A) as C. cbn zeta in *.
    destruct (tree_act (fresh_tag (txforest w)) a (nodes (txforest w))) as [r|] eqn:Er; destruct (tree_act (fresh_tag (txforest w)) a (ntree o)) as [r'|] eqn:Ei; try contradiction; cbn [fst snd oblk otags].
    2:{ exists i. split; [|exact I]. eapply TIActUB; eauto. }
    destruct C as [K H']. set (s := MkS r (if makes_tag a then S (fresh_tag (txforest w)) else fresh_tag (txforest w))) in *. pose proof (s_fresh _ _ _ K) as F.
    assert (Nu : ~ In (fresh_tag (txforest w)) (ti_used i)) by (intros M; specialize (a9 _ M); lia).
    eexists. split; [eapply TIAct; eauto|]. split; cbn [txbump txforest txshares txobjs ti_objs ti_used ti_shares]; auto.
    + apply (s_wf _ _ _ K).
    + eapply Forall_impl; [|exact a4]. intros m. eapply step_qt; eauto.
    + apply Forall_forall. intros o2 I2. apply (in_set_nth _ _ _ _ _ Ho) in I2. destruct I2 as [->|(m & N & Em)]; [exists root, up; exact H'|].
      eapply known_step; [exact K| |apply a5; eapply nth_error_In; eauto]. intros x X Y. exact (blocks_apart _ k m o o2 a8 Ho Em N x (conj Y X)).
    + rewrite BorrowWorld.set_nth_map2, a6. reflexivity.
    + intros o1 x O1 X. apply BorrowWorld.set_nth_in in O1. destruct O1 as [->|O1]; [exact (a7 o x (nth_error_In _ _ Ho) X)|eauto].
    + rewrite set_same_map by exact Ho. exact a8.
    + intros m M. destruct a; cbn [tags_after] in M; [specialize (a9 m M); lia|specialize (a9 m M); lia|]. destruct M as [<-|M]; [unfold s; cbn [fresh_tag makes_tag]; lia|specialize (a9 m M); lia].
Qed.
End World.
