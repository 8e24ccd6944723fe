(** * KBorrowObjs: one link, its blocks, and the ideal. *)
From Verif Require Import Base Spec BaseFacts SyncModel SyncSpec SyncProofs UnsyncModel UnsyncSpec UnsyncProofs ChainModel ChainSpec ChainProofs BorrowModel BorrowSpec BorrowProofs BorrowState BorrowWorld
  UBorrowModel UBorrowSpec UBorrowSub UBorrowCells UBorrowCalls UBorrowReset UBorrowWorld RBorrowPolite KBorrowModel KBorrowSpec KBorrowLink KBorrowTame.

Definition all_caps (t : target) (k : link) : caps := [(0%nat, [lk_all t k])].

(** The stacks of a link, its blocks and arguments, and the ideal objects *)
Record linv (t : target) (k : link) (s : bstate) (objs : list bobj) (ps : list nat) (os : list iobj) (used : list nat) (Fs : list iobj) : Prop := {
  l_holds : holds false (all_caps t k) Fs (lfree t k) s;
  l_sub : Forall2 (subs (nexttag s)) Fs os;
  l_objs : map (fun o => MkO (iblk o) (itags o)) os = objs;
  l_below : forall o x, In o Fs -> in_block (iblk o) x -> in_block (udata (lbump k)) x /\ x < start (udata (lbump k)) + uindex (lbump k);
  l_pair : pairwise disjoint (map iblk Fs);
  l_used : forall n, In n used -> (n < nexttag s)%nat;
  l_prots : forall y i c, In i (stk s y) -> iprot i = Some c -> In c ps }.

Lemma all_over t k : over (all_caps t k) 0 [lk_all t k].
Proof. intros b x I X. exists [lk_all t k], b. split; [left; reflexivity|auto]. Qed.

Section Link.
Variables (t : target) (k : link).
Hypothesis (V : valid_target t) (U : uok t (lbump k)).

Lemma l_uses s objs ps os used Fs : linv t k s objs ps os used Fs -> forall o x, In o Fs -> in_block (iblk o) x -> ~ lfree t k x.
Proof.
  intros I o x O X. destruct (l_below _ _ _ _ _ _ _ _ I o x O X) as [A B]. intros [K|[K|K]].
  - apply (next_data t k V x). auto.
  - apply (index_data t k x). auto.
  - lia.
Qed.

(** A method that leaves the client's blocks alone *)
Lemma linv_runs {A} (m : M A) s objs ps os used Fs Q : linv t k s objs ps os used Fs -> tame m ->
  (forall pair_ : pairwise disjoint (map iblk Fs), (forall o x, In o Fs -> in_block (iblk o) x -> ~ lfree t k x) -> runs false Fs (lfree t k) m s (all_caps t k) Q) ->
  exists a s' cs n, m s = Some (a, s') /\ Q a cs n /\ linv t k s' objs ps os used Fs.
Proof.
  intros I T R. destruct (R (l_pair _ _ _ _ _ _ _ _ I) (l_uses _ _ _ _ _ _ I)) as (a & s' & cs & E & N & Ic & H & Qa). exists a, s', cs, (nexttag s').
  split; [exact E|]. split; [exact Qa|]. destruct I as [a1 a2 a3 a4 a5 a6 a7]. split; auto.
  - eapply holds_less; eauto.
  - eapply subs_all; eauto.
  - intros n Hn. specialize (a6 n Hn). lia.
  - intros y i c Ii P. destruct (T _ _ _ E y i c Ii P) as (j & J & Pj). eapply a7; eauto.
Qed.

Lemma link_capacity C s objs ps os used Fs : linv t k s objs ps os used Fs -> exists s', lk_capacity C t k s = Some (tt, s') /\ linv t k s' objs ps os used Fs.
Proof.
  intros I. destruct (linv_runs (lk_capacity C t k) s objs ps os used Fs (fun _ _ _ => True) I (tame_capacity C t k)) as ([] & s' & _ & _ & E & _ & I').
  - intros P X. apply run_lk_capacity; auto; [exact (l_holds _ _ _ _ _ _ _ _ I)|apply all_over].
  - eauto.
Qed.
Lemma link_remaining C s objs ps os used Fs : linv t k s objs ps os used Fs -> exists s', lk_remaining C t k s = Some (u_level (lbump k), s') /\ linv t k s' objs ps os used Fs.
Proof.
  intros I. destruct (linv_runs (lk_remaining C t k) s objs ps os used Fs (fun lv _ _ => lv = u_level (lbump k)) I (tame_remaining C t k)) as (lv & s' & _ & _ & E & -> & I').
  - intros P X. apply run_lk_remaining; auto; [exact (l_holds _ _ _ _ _ _ _ _ I)|apply all_over].
  - eauto.
Qed.
Lemma link_set_next C s objs ps os used Fs : linv t k s objs ps os used Fs -> exists s', lk_set_next C t k s = Some (tt, s') /\ linv t k s' objs ps os used Fs.
Proof.
  intros I. destruct (linv_runs (lk_set_next C t k) s objs ps os used Fs (fun _ _ _ => True) I (tame_set_next C t k)) as ([] & s' & _ & _ & E & _ & I').
  - intros P X. apply run_set_next; auto; [exact (l_holds _ _ _ _ _ _ _ _ I)|apply all_over].
  - eauto.
Qed.

(** Freeing *)
Lemma link_can_free s objs ps os used Fs B N : linv t k s objs ps os used Fs -> (forall c, In c ps -> (c < N)%nat /\ ~ In c B) -> can_free t k B N s.
Proof.
  intros I P. split; [apply link_next_in; auto|]. destruct I as [a1 a2 a3 a4 a5 a6 a7]. split; [pose proof (h_next _ _ _ _ _ a1); lia|]. intros y Y. split.
  - destruct (h_byte _ _ _ _ _ a1 y) as (d & E & G & Ub & _). rewrite E. eexists. eapply clean_write; [exact G|]. apply Ub. exists [lk_all t k], (lk_all t k). split; [left; reflexivity|]. split; [left; reflexivity|exact Y].
  - intros i c Ii Ip. apply P. eapply a7; eauto.
Qed.

(** bump_box *)
Lemma link_bump_box C s objs ps os used Fs l u : linv t k s objs ps os used Fs -> type_layout t l ->
  let r := ustep t (lbump k) (UBumpBox l) in
  exists tag s', lk_bump_box C t k l u s = Some ((r, tag), s') /\
    match snd r with
    | RBlock a => exists n F, let b := MkBlock (ptr a) (lsize l) in tag = Some n /\ inside b (udata (lbump k)) /\ aligned (ptr a) (lalign l) /\ Forall (fun o => disjoint b (iblk o)) os /\ ~ In n used /\
        linv t (with_bump k (fst r)) s' (objs ++ [MkO b [n]]) ps (os ++ [new_object b n SharedRW]) (n :: used) (Fs ++ [F])
    | _ => tag = None /\ linv t (with_bump k (fst r)) s' objs ps os used Fs
    end.
Proof.
  intros I Hl r. pose proof (l_uses _ _ _ _ _ _ I) as Us. pose proof I as [a1 a2 a3 a4 a5 a6 a7].
  set (f := fun b => x_call C t (lk_index t k) XPtr (lbump k) (UBumpBox l) (XBox u) b).
  assert (X : runs false Fs (lfree t k) (root <- link_ref C t k 0 ;; lk_as_bump C t k root) s (all_caps t k) (fun n cs _ => over cs n [lk_index t k; udata (lbump k)])).
  { eapply runs_bind; [apply run_ref; [exact a1|apply all_over]|]. intros n s1 cs1 N1 _ H1 [O1 _].
    eapply runs_weaken; [eapply run_as_bump; eauto|]. intros a c n' [A _]. exact A. }
  destruct X as (self & s1 & cs & E1 & N1 & Ic & H1 & O1).
  assert (E : forall z, f self s1 = z -> lk_bump_box C t k l u s = z).
  { intros z <-. unfold lk_bump_box, f. unfold mbind in E1 |- *. destruct (link_ref C t k 0 s) as [[root s0]|]; [|discriminate]. rewrite E1. reflexivity. }
  pose proof (fun a Ea => ustep_place t (lbump k) (UBumpBox l) a V U Hl Ea) as SP. cbn [uasked] in SP.
  assert (Db : forall a, snd r = RBlock a -> let b := MkBlock (ptr a) (lsize l) in inside b (udata (lbump k)) /\ (forall x, in_block b x -> lfree t k x) /\ Forall (fun o => disjoint b (iblk o)) Fs).
  { intros a Ea. destruct (SP a Ea) as (l' & _ & <- & P1 & _ & P2 & _). cbn zeta. split; [exact P1|]. split.
    - intros x Hx. right. right. split; [apply P1; exact Hx|]. apply (P2 x Hx).
    - apply Forall_forall. intros o Io x [X1 X2]. pose proof (P2 x X1). pose proof (a4 o x Io X2). lia. }
  destruct (xcall_runs C t (lk_index t k) (udata (lbump k)) false XPtr Fs (lfree t k) cs s1 (lbump k) (UBumpBox l) (XBox u) self) as (tag & s' & E2 & N2 & R); auto.
  { apply index_data. }
  { intros x Hx. right. left. exact Hx. }
  { discriminate. }
  fold (f self) in E2. apply E in E2 as E3. exists tag, s'. split; [exact E3|].
  assert (Tp : forall y i c, In i (stk s' y) -> iprot i = Some c -> In c ps).
  { intros y i c Ii P. destruct (tame_bump_box C t k l u _ _ _ E3 y i c Ii P) as (j & J & Pj). eapply a7; eauto. }
  assert (Same : (forall a, snd r <> RBlock a) -> fst r = lbump k). { intros Na. apply (ustep_same t (lbump k) (UBumpBox l) V U Hl); [discriminate|exact Na]. }
  fold r in R, SP.
  assert (Other : (forall a, snd r <> RBlock a) -> holds false cs Fs (lfree t k) s' -> linv t (with_bump k (fst r)) s' objs ps os used Fs).
  { intros Na H. rewrite (Same Na). replace (with_bump k (lbump k)) with k by (destruct k; reflexivity). split; auto.
    - eapply holds_less; eauto.
    - eapply subs_all; [|exact a2]. lia.
    - intros n Hn. specialize (a6 n Hn). lia. }
  pose proof (ustep_ok t (lbump k) (UBumpBox l) V U Hl) as [O1' O2]. fold r in O1', O2.
  destruct (snd r) as [a| | | | |] eqn:Er; try (destruct R as [-> R]; split; [reflexivity|apply Other; [discriminate|exact R]]).
  clear Other Same. destruct R as (n & F & rr & -> & Ln & G1 & G2 & G3 & H). cbn [uasked] in *. destruct (SP a eq_refl) as (l' & Hl' & <- & P1 & P2 & P3 & P4). cbn [ucall_layout] in Hl'. clear Hl'.
  destruct (Db a eq_refl) as (_ & Q2 & Q3). set (b := MkBlock (ptr a) (lsize l)) in *. exists n, F.
  assert (Di : Forall (fun o => disjoint b (iblk o)) os).
  { assert (K : Forall (disjoint b) (map iblk Fs)) by (rewrite Forall_map; exact Q3). rewrite (subs_blk _ _ _ a2), Forall_map in K. exact K. }
  split; [reflexivity|]. split; [exact P1|]. split; [exact P2|]. split; [exact Di|]. split; [intros K; specialize (a6 n K); lia|].
  cbn [xuse_perm] in G3. split; cbn [with_bump lbump]; auto.
  - replace (all_caps t (with_bump k (fst r))) with (all_caps t k) by (unfold all_caps, lk_all; cbn [with_bump lbump]; rewrite O2; reflexivity).
    eapply holds_fr; [|eapply holds_less; [exact Ic|exact H]]. unfold lfree, lk_next, lk_index. cbn [with_bump lbump]. rewrite O2. intros x [Y|[Y|[Y1 Y2]]].
    + split; [left; exact Y|]. intros Z0. apply (next_data t k V x). split; [exact Y|apply P1; exact Z0].
    + split; [right; left; exact Y|]. intros Z0. apply (index_data t k x). split; [exact Y|apply P1; exact Z0].
    + split; [right; right; split; [exact Y1|lia]|]. intros Z0. pose proof (P3 x Z0). lia.
  - apply Forall2_app; [eapply subs_all; [|exact a2]; lia|]. constructor; [exists rr; exact G3|constructor].
  - rewrite map_snoc, a3. reflexivity.
  - intros o x Ho X. rewrite O2. apply in_app_or in Ho. destruct Ho as [Ho|[<-|[]]].
    + pose proof (a4 o x Ho X) as [Y1 Y2]. split; [exact Y1|lia].
    + rewrite G1 in X. split; [apply P1; exact X|]. pose proof (P3 x X). lia.
  - rewrite map_snoc, G1. apply pair_snoc; [exact a5|]. rewrite Forall_map. exact Q3.
  - intros m [<-|M]; [lia|]. specialize (a6 m M). lia.
Qed.

(** An access of the client *)
Lemma link_act B s objs ps os used Fs j o a : linv t k s objs ps os used Fs -> nth_error os j = Some o -> act_ok (MkO (iblk o) (itags o)) a = true ->
  match do_act B a s, ideal_act B o a (nexttag s) with
  | Some (n, s'), Some o' => n = ans_after a (nexttag s) /\ exists Fs',
      linv t k s' (BorrowModel.set_nth objs j (new_tag (MkO (iblk o) (itags o)) n)) (prots_after a ps) (BorrowModel.set_nth os j o') (used_after a (nexttag s) used) Fs'
  | None, None => True
  | _, _ => False
  end.
Proof.
  intros I Ho A. pose proof (l_uses _ _ _ _ _ _ I) as Us. pose proof I as [a1 a2 a3 a4 a5 a6 a7].
  destruct (forall2_nth _ _ _ _ _ a2 Ho) as (F & HF & r & S). pose proof (nth_error_In _ _ HF) as IF.
  destruct (sub_act B _ r F o a S A) as [AF M].
  pose proof (client_act false _ _ _ s B j F a a1 HF AF a5) as C.
  assert (C1 : forall x, in_block (iblk F) x -> ~ lfree t k x) by (intros x X; eapply Us; eauto).
  assert (C2 : forall t0 bs, In (t0, bs) (all_caps t k) -> ~ In t0 (itags F)).
  { intros t0 bs [K|[]] K'. injection K as <- <-. pose proof (h_tags _ _ _ _ _ a1 F 0%nat IF K'). lia. }
  specialize (C C1 C2). destruct (do_act B a s) as [[n b]|] eqn:Ed.
  - destruct (ideal_act B F a (nexttag s)) as [F'|] eqn:EF; [|contradiction]. destruct (ideal_act B o a (nexttag s)) as [o'|] eqn:Ei; [|contradiction].
    destruct C as (-> & Nb & B1 & B2 & H). destruct M as (M1 & M2 & M3). split; [reflexivity|].
    assert (Ln : (nexttag s <= nexttag b)%nat) by (rewrite Nb; destruct a; cbn; lia).
    exists (BorrowModel.set_nth Fs j F'). split; auto.
    + apply forall2_set; [eapply subs_all; eauto|]. exists r. rewrite Nb. exact M1.
    + rewrite set_nth_map2, a3. f_equal. rewrite M2, M3. destruct a; reflexivity.
    + intros o1 x O1 X. apply set_nth_in in O1. destruct O1 as [->|O1]; [rewrite B1 in X; eauto|eauto].
    + rewrite (set_nth_map iblk Fs j F' F HF B1). exact a5.
    + intros m Mm. destruct a; cbn [used_after next_after] in *; [specialize (a6 m Mm); lia|specialize (a6 m Mm); lia|].
      destruct Mm as [<-|Mm]; [lia|specialize (a6 m Mm); lia].
    + intros y i c Ii Ip. rewrite do_act_stk in Ed. pose proof (act_does B (MkO (iblk F) (itags F)) a (nexttag s) (stk s) AF) as D. destruct (act_stk B a (nexttag s) (stk s)) as [k'|] eqn:Ek; [|discriminate].
      injection Ed as <-. cbn [stk] in Ii. cbn [does] in D. specialize (D y).
      assert (Y : (exists i0, In i0 (stk s y) /\ iprot i0 = Some c) \/ match a with CRetag _ _ p => p = Some c | _ => False end).
      { destruct (act_at B a (nexttag s) y) as [f|] eqn:Ef; [|left; exists i; rewrite D in Ii; auto]. destruct a; cbn [act_at] in Ef.
        - destruct (inb b y); [|discriminate]. injection Ef as <-. left. apply (read_prots _ _ _ _ D i c Ii Ip).
        - destruct (inb b y); [|discriminate]. injection Ef as <-. left. apply (write_prots _ _ _ _ D i c Ii Ip).
        - destruct (find _ parts) as [[kd c0]|]; [|discriminate]. injection Ef as <-. apply (retag_prots _ _ _ _ _ _ _ D i c Ii Ip). }
      destruct Y as [(i0 & I0 & P0)|Y].
      * specialize (a7 y i0 c I0 P0). destruct a as [| |? ? [?|]]; cbn [prots_after]; [exact a7|exact a7|right; exact a7|exact a7].
      * destruct a as [| |? ? [?|]]; try contradiction; [|discriminate]. injection Y as ->. left. reflexivity.
  - destruct (ideal_act B F a (nexttag s)) as [F'|]; [contradiction|]. destruct (ideal_act B o a (nexttag s)); [contradiction|exact Logic.I].
Qed.

(** A new link, as if all memory were allocated (KBorrowLocal compares it with the model) *)
Definition wide_link : bstate := MkB (fun _ => [MkItem 0 SharedRW None]) 1.
Lemma link_new : uindex (lbump k) = 0 -> linv t k wide_link [] [] [] [] [].
Proof.
  intros Z0. split; auto.
  - split; cbn [wide_link nexttag stk].
    + lia.
    + intros o t0 [].
    + intros t0 bs [K|[]]. injection K as <- <-. lia.
    + intros x. exists (MkDec [] [] [MkItem 0 SharedRW None]). split; [reflexivity|]. split; [|split; [|split]].
      * split; cbn [up garb low]; [repeat constructor|cbn; repeat constructor; intros []|constructor|apply bottom_nil|apply bottom_nil|constructor; [cbn; lia|constructor]].
      * intros t0 (bs & b & [K|[]] & _). injection K as <- <-. split; [left; reflexivity|]. split; intros [].
      * reflexivity.
      * intros o [].
  - intros o x [].
  - apply pairwise_nil.
  - intros n [].
  - intros y i c [<-|[]] K. discriminate.
Qed.
End Link.
