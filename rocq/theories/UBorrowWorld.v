(** * UBorrowWorld: programs that use an unsync Bump or MemBump, compared with the ideal. *)
From Verif Require Import Base Spec BaseFacts SyncModel SyncSpec SyncProofs UnsyncModel UnsyncSpec UnsyncProofs BorrowModel BorrowSpec BorrowProofs BorrowState BorrowWorld
  UBorrowModel UBorrowSpec UBorrowSub UBorrowCells UBorrowCalls UBorrowReset.

(** ** The block of a call *)
Lemma ustep_place t u c a : valid_target t -> uok t u -> valid_ucall t c -> snd (ustep t u c) = RBlock a ->
  exists l, ucall_layout c = Some l /\ uasked t c = l /\ inside (MkBlock (ptr a) (lsize l)) (udata u) /\ aligned (ptr a) (lalign l) /\
  (forall x, in_block (MkBlock (ptr a) (lsize l)) x -> start (udata u) + uindex u <= x < start (udata u) + uindex (fst (ustep t u c))) /\
  uindex u <= uindex (fst (ustep t u c)).
Proof.
  intros Ht Ok Hc E.
  assert (L : forall l, ucall_layout c = Some l -> uasked t c = l).
  { destruct c as [c|l0|l0 n]; cbn [ucall_layout uasked]; [destruct c; cbn; congruence|congruence|]. intros l [= <-].
    cbn [ustep] in E. unfold u_bump_array in E. destruct (layout_array t l0 n) as [la|] eqn:Ea; [|discriminate E].
    apply (layout_array_spec t l0 n la Ht) in Ea. apply Ea. }
  rewrite (ustep_spec t u c Ht Ok Hc) in *. pose proof (uspec_cases t u c Ht Ok Hc) as C. destruct (uspec t u c) as [u' r]. cbn [fst snd] in *. subst r.
  destruct C as [[_ C]|[(l & Hl & Vl & Pl & Fl & _ & -> & [= Ea])|(_ & _ & C)]]; [exfalso; eapply C; reflexivity| |discriminate].
  exists l. destruct (placed_facts t u l Ok Vl Pl Fl) as ((G1 & G2 & _) & G3 & G4 & _). subst a. cbn [placed ptr].
  split; [exact Hl|]. split; [apply L; exact Hl|]. split; [exact G2|]. split; [exact G1|].
  unfold of_slab, bumped. cbn [uindex consumed storage slab_of]. unfold place in *. cbn [storage consumed slab_of] in *. split; [intros x X; unfold in_block in X; cbn [start size] in X; lia|lia].
Qed.

(** ** A call *)
Definition xcaps (kind : xkind) (hd st : block) (shares : list nat) : caps := kind_caps kind hd st ++ map (fun n => (n, [hd; st])) shares.

Lemma xcall_runs busy t hd st own kind objs (fr : Z -> Prop) cs s u k us self :
  disjoint hd st -> (forall x, in_block hd x -> fr x) -> pairwise disjoint (map iblk objs) -> (forall o x, In o objs -> in_block (iblk o) x -> ~ fr x) ->
  udata u = st -> k <> UCall CReset -> holds own cs objs fr s -> over cs self [hd; st] ->
  (forall a, snd (ustep t u k) = RBlock a -> let b := MkBlock (ptr a) (lsize (uasked t k)) in
     inside b st /\ (forall x, in_block b x -> fr x) /\ Forall (fun o => disjoint b (iblk o)) objs) ->
  exists tag s', x_call busy t hd kind u k us self s = Some ((ustep t u k, tag), s') /\ (nexttag s <= nexttag s')%nat /\
    match snd (ustep t u k) with
    | RBlock a => exists n F r, tag = Some n /\ (nexttag s <= n < nexttag s')%nat /\
        let b := MkBlock (ptr a) (lsize (uasked t k)) in
        iblk F = b /\ (forall t, In t (itags F) -> (nexttag s <= t)%nat) /\ sub_obj (nexttag s') r F (new_object b n (xuse_perm us)) /\
        holds own cs (objs ++ [F]) (fun x => fr x /\ ~ in_block b x) s'
    | _ => tag = None /\ holds own cs objs fr s'
    end.
Proof.
  intros Dj Fh Pa Us Eu Nk H O B. unfold x_call.
  assert (U : runs own objs fr (match kind with XVar _ => bump_deref_ref busy hd u self | XPtr => mret self end) s cs (fun n cs' _ => over cs' n [hd; st])).
  { destruct kind; [|apply runs_ret; auto]. unfold bump_deref_ref. rewrite Eu. apply (under busy hd st own objs fr Dj); [exact H|exact O|]. intros self1 s1 cs1 L1 H1 O1 N1.
    eapply runs_weaken; [apply (run_self busy hd st own objs fr Dj s1 cs1 self1 H1 O1)|intros ? ? ? [? _]; assumption]. }
  destruct U as (self1 & s1 & cs1 & E1 & L1 & I1 & H1 & O1). unfold mbind at 1. rewrite E1.
  destruct (run_mb_method busy t hd st own objs fr Dj Fh Pa Us u k s1 cs1 self1 Eu Nk H1 O1) as ([[u' r] base] & s2 & cs2 & E2 & L2 & I2 & H2 & Y1 & Y2).
  unfold mbind at 1. rewrite E2. cbn [fst snd] in *. destruct (ustep t u k) as [u3 r3]. cbn [fst snd] in *. injection Y1 as -> ->.
  assert (I12 : incl cs cs2) by (eapply incl_tran; eauto). pose proof (h_next _ _ _ _ _ H) as N1.
  destruct r3 as [a| |f|lv| |m];
    try (eexists None, s2; split; [reflexivity|]; split; [lia|]; split; [reflexivity|]; eapply holds_less; [exact I12|exact H2]).
  destruct (B a eq_refl) as (B1 & B2 & B3). destruct (Y2 eq_refl) as [Y3 Y4].
  destruct (use_runs busy own cs2 objs fr s2 us (MkBlock (ptr a) (lsize (uasked t k))) base Pa Us H2) as (n & s4 & F & rr & E4 & L4 & M4 & G1 & G2 & G3 & H4); auto; [|lia| |].
  { intros b x [<-|[]] X. apply (Y3 st); [left; reflexivity|]. apply B1. exact X. }
  { intros t0 bs K. exact (h_caps _ _ _ _ _ H2 t0 bs K). }
  unfold mbind. rewrite E4. exists (Some n), s4. split; [reflexivity|]. split; [lia|]. exists n, F, rr. split; [reflexivity|]. split; [lia|].
  cbn zeta. split; [exact G1|]. split; [intros t0 K; specialize (G2 t0 K); lia|]. split; [exact G3|].
  eapply holds_less; [exact I12|exact H4].
Qed.

(** ** Programs *)
Definition subs (n : nat) (F o : iobj) : Prop := exists r, sub_obj n r F o.

Lemma subs_more n n' F o : (n <= n')%nat -> subs n F o -> subs n' F o.
Proof.
  intros L (r & [S1 S2 S3 S4]). exists r. split; auto. intros x X. eapply Forall_impl; [|apply S3; exact X]. cbn. lia.
Qed.

Lemma subs_all n n' Fs os : (n <= n')%nat -> Forall2 (subs n) Fs os -> Forall2 (subs n') Fs os.
Proof. intros L. induction 1; constructor; auto. eapply subs_more; eauto. Qed.

Lemma subs_blk n Fs os : Forall2 (subs n) Fs os -> map iblk Fs = map iblk os.
Proof. induction 1 as [|F o Fs os (r & K) _ IH]; [reflexivity|]. cbn [map]. rewrite IH, (so_blk _ _ _ _ K). reflexivity. Qed.

Lemma forall2_nth {A B} (R : A -> B -> Prop) l m k b : Forall2 R l m -> nth_error m k = Some b -> exists a, nth_error l k = Some a /\ R a b.
Proof.
  intros F. revert k. induction F as [|a0 b0 l m R0 F IH]; intros k; [destruct k; discriminate|]. destruct k; cbn [nth_error]; [intros [= <-]; eauto|apply IH].
Qed.

Lemma forall2_set {A B} (R : A -> B -> Prop) l m k a b : Forall2 R l m -> R a b -> Forall2 R (set_nth l k a) (set_nth m k b).
Proof.
  intros F Rab. revert k. induction F as [|a0 b0 l m R0 F IH]; intros k; [constructor|]. destruct k; cbn [set_nth]; constructor; auto.
Qed.

Record xinv (t : target) (hd st : block) (kind : xkind) (w : xworld) (i : ideal) (Fs : list iobj) : Prop := {
  x_ok : uok t (xbump w);
  x_st : udata (xbump w) = st;
  x_holds : holds (kind_own kind) (xcaps kind hd st (xshares w)) Fs (frees hd st (uindex (xbump w))) (xsb w);
  x_sub : Forall2 (subs (nexttag (xsb w))) Fs (iobjs i);
  x_objs : map (fun o => MkO (iblk o) (itags o)) (iobjs i) = xobjs w;
  x_below : forall o x, In o Fs -> in_block (iblk o) x -> in_block st x /\ x < start st + uindex (xbump w);
  x_pair : pairwise disjoint (map iblk Fs);
  x_sep : forall n o, In n (xshares w) -> In o Fs -> ~ In n (itags o);
  x_used : forall n, In n (iused i) -> (n < nexttag (xsb w))%nat;
  x_count : ishares i = length (xshares w);
  x_busy : ibusy i = xbusy w;
  x_calls : icalls i = xcalls w }.

Lemma xshares_over kind hd st l n : In n l -> over (xcaps kind hd st l) n [hd; st].
Proof. intros I b x B X. exists [hd; st], b. split; [|auto]. apply in_or_app. right. apply in_map_iff. eauto. Qed.

Lemma xshares_lt own kind hd st l objs fr s n : holds own (xcaps kind hd st l) objs fr s -> In n l -> (n < nexttag s)%nat.
Proof. intros H I. apply (h_caps _ _ _ _ _ H n [hd; st]). apply in_or_app. right. apply in_map_iff. eauto. Qed.

Lemma xcaps_sep kind hd st shares o own objs fr s : holds own (xcaps kind hd st shares) objs fr s -> In o objs ->
  (forall n, In n shares -> ~ In n (itags o)) -> forall t0 bs, In (t0, bs) (xcaps kind hd st shares) -> ~ In t0 (itags o).
Proof.
  intros H Io S t0 bs K. apply in_app_or in K. destruct K as [K|K].
  - destruct kind; [destruct K|]. destruct K as [[= <- <-]|[]]. intros Q. pose proof (h_tags _ _ _ _ _ H o _ Io Q). lia.
  - apply in_map_iff in K. destruct K as (m & [= <- <-] & M). auto.
Qed.

Lemma xshare_inv t hd st kind w i Fs n b : xinv t hd st kind w i Fs -> nexttag (xsb w) = n -> nexttag b = S n ->
  holds (kind_own kind) ((n, [hd; st]) :: xcaps kind hd st (xshares w)) Fs (frees hd st (uindex (xbump w))) b ->
  xinv t hd st kind (MkXW (xbump w) b (xshares w ++ [n]) (xobjs w) (xbusy w) (xcalls w))
    (MkIdeal (iobjs i) (iused i) (iowned i) (S (ishares i)) (ibusy i) (icalls i)) Fs.
Proof.
  intros I N1 N2 H. destruct I as [a1 a2 a3 a4 a5 a6 a7 a8 a9 a10 a11 a12]. split; cbn [xbump xsb xshares xobjs xbusy xcalls iobjs iused iowned ishares ibusy icalls]; auto.
  - eapply holds_less; [|exact H]. intros q Q. apply in_app_or in Q. destruct Q as [Q|Q]; [right; apply in_or_app; left; exact Q|].
    apply in_map_iff in Q. destruct Q as (m & <- & Q). apply in_app_or in Q. destruct Q as [Q|[<-|[]]]; [right|left; reflexivity].
    apply in_or_app. right. apply in_map_iff. eauto.
  - eapply subs_all; [|exact a4]. lia.
  - intros m o M O. apply in_app_or in M. destruct M as [M|[<-|[]]]; [eauto|]. intros K. pose proof (h_tags _ _ _ _ _ a3 o n O K). lia.
  - intros m M. specialize (a9 m M). lia.
  - rewrite app_length, a10. cbn. lia.
Qed.

Lemma xuses t hd st kind w i Fs : disjoint hd st -> xinv t hd st kind w i Fs -> forall o x, In o Fs -> in_block (iblk o) x -> ~ frees hd st (uindex (xbump w)) x.
Proof.
  intros Dj I o x Io X [F|[_ F]]; pose proof (x_below _ _ _ _ _ _ _ I o x Io X) as [F1 F2]; [exact (Dj x (conj F F1))|lia].
Qed.

(** What a call does *)
Lemma xcall_inv t hd st kind w i Fs k c u self : valid_target t -> disjoint hd st -> xinv t hd st kind w i Fs -> valid_ucall t c -> c <> UCall CReset ->
  nth_error (xshares w) k = Some self ->
  exists tag b, x_call (xbusy w) t hd kind (xbump w) c u self (xsb w) = Some ((ustep t (xbump w) c, tag), b) /\ (nexttag (xsb w) <= nexttag b)%nat /\
    match snd (ustep t (xbump w) c) with
    | RBlock a => exists n F r, tag = Some n /\ (nexttag (xsb w) <= n < nexttag b)%nat /\
        let bl := MkBlock (ptr a) (lsize (uasked t c)) in
        iblk F = bl /\ (forall t, In t (itags F) -> (nexttag (xsb w) <= t)%nat) /\ sub_obj (nexttag b) r F (new_object bl n (xuse_perm u)) /\
        holds (kind_own kind) (xcaps kind hd st (xshares w)) (Fs ++ [F]) (fun x => frees hd st (uindex (xbump w)) x /\ ~ in_block bl x) b
    | _ => tag = None /\ holds (kind_own kind) (xcaps kind hd st (xshares w)) Fs (frees hd st (uindex (xbump w))) b
    end.
Proof.
  intros Ht Dj I Oo Nr E. pose proof I as [a1 a2 a3 a4 a5 a6 a7 a8 a9 a10 a11 a12].
  apply (xcall_runs (xbusy w) t hd st (kind_own kind) kind Fs (frees hd st (uindex (xbump w))) (xcaps kind hd st (xshares w)) (xsb w) (xbump w) c u self); auto.
  - intros x X. left. exact X.
  - apply (xuses t hd st kind w i Fs Dj I).
  - apply xshares_over. eapply nth_error_In; eauto.
  - intros a Ea. destruct (ustep_place t (xbump w) c a Ht a1 Oo Ea) as (l & _ & El & P1 & _ & P2 & _). rewrite a2 in *. rewrite El. cbn zeta. split; [exact P1|]. split.
    + intros x X. right. split; [apply P1; exact X|]. apply (P2 x X).
    + apply Forall_forall. intros o Io x [X1 X2]. pose proof (P2 x X1). pose proof (a6 o x Io X2). lia.
Qed.

Lemma use_not_reset c u : use_ok c u = true -> c <> UCall CReset.
Proof. intros E ->. destruct u; discriminate. Qed.

Lemma ustep_same t u c : valid_target t -> uok t u -> valid_ucall t c -> c <> UCall CReset -> (forall a, snd (ustep t u c) <> RBlock a) -> fst (ustep t u c) = u.
Proof.
  intros Ht Ok Hc Nr N. rewrite (ustep_spec t u c Ht Ok Hc) in *. pose proof (uspec_cases t u c Ht Ok Hc) as C. destruct (uspec t u c) as [u' r]. cbn [fst snd] in *.
  destruct C as [[-> _]|[(l & _ & _ & _ & _ & _ & _ & ->)|(-> & _)]]; [reflexivity|exfalso; eapply N; reflexivity|congruence].
Qed.

Lemma xstep_inv t hd st kind w i Fs o : valid_target t -> disjoint hd st -> xinv t hd st kind w i Fs -> xop_ok t o ->
  exists i' Fs', xistep t st i o (snd (xstep t hd kind w o)) i' /\ xinv t hd st kind (fst (xstep t hd kind w o)) i' Fs'.
Proof.
  intros Ht Dj I Oo. pose proof I as [a1 a2 a3 a4 a5 a6 a7 a8 a9 a10 a11 a12]. destruct o as [[k|]|k c u| |k a| |c]; cbn [xstep].
  - destruct (nth_error (xshares w) k) as [self|] eqn:E.
    + assert (Hk : (k < ishares i)%nat) by (rewrite a10; apply nth_error_Some; congruence).
      destruct (cell (xbusy w) (kind_own kind) _ _ _ self [hd; st] (xsb w) a3) as (b & E1 & N1 & H1); [repeat constructor; exact Dj|apply xshares_over; eapply nth_error_In; eauto|].
      rewrite a2. change (self_ref (xbusy w) hd st self) with (m_retag (xbusy w) self (map (pair RCell) [hd; st])). rewrite E1. cbn [fst snd].
      eexists _, Fs. split; [apply XIShare; exact Hk|]. eapply xshare_inv; eauto.
    + cbn [fst snd]. exists i, Fs. split; [apply XIShareNot; rewrite a10; apply nth_error_None; exact E|exact I].
  - assert (X : exists b, self_ref (xbusy w) hd st 0 (xsb w) = Some (nexttag (xsb w), b) /\ nexttag b = S (nexttag (xsb w)) /\
      holds (kind_own kind) ((nexttag (xsb w), [hd; st]) :: xcaps kind hd st (xshares w)) Fs (frees hd st (uindex (xbump w))) b).
    { destruct kind; cbn [kind_own] in *; [apply (owner_share (xbusy w) _ _ _ (xsb w) hd st a3 Dj)|].
      apply (cell (xbusy w) false _ _ _ 0 [hd; st] (xsb w) a3); [repeat constructor; exact Dj|]. intros b x B X. exists [hd; st], b. split; [left; reflexivity|auto]. }
    destruct X as (b & E1 & N1 & H1). rewrite a2, E1. cbn [fst snd].
    eexists _, Fs. split; [apply XIShareOwner|]. eapply xshare_inv; eauto.
  - destruct (nth_error (xshares w) k) as [self|] eqn:E.
    2:{ cbn [fst snd]. exists i, Fs. split; [apply XICallNot; left; rewrite a10; apply nth_error_None; exact E|exact I]. }
    assert (Hk : (k < ishares i)%nat) by (rewrite a10; apply nth_error_Some; congruence).
    destruct (use_ok c u) eqn:Eu.
    2:{ cbn [fst snd]. exists i, Fs. split; [apply XICallNot; right; exact Eu|exact I]. }
    pose proof (use_not_reset c u Eu) as Nr. cbn [xop_ok] in Oo.
    destruct (xcall_inv t hd st kind w i Fs k c u self Ht Dj I Oo Nr E) as (tag & b & E1 & L1 & R). rewrite E1.
    pose proof (ustep_ok t (xbump w) c Ht a1 Oo) as [S1 S2]. pose proof (ustep_place t (xbump w) c) as SP.
    pose proof (ustep_same t (xbump w) c Ht a1 Oo Nr) as Mono.
    destruct (ustep t (xbump w) c) as [u' r]. cbn [fst snd] in *.
    assert (Other : (forall a, r <> RBlock a) -> tag = None -> holds (kind_own kind) (xcaps kind hd st (xshares w)) Fs (frees hd st (uindex (xbump w))) b ->
      exists i' Fs', xistep t st i (XCall k c u) (BResponse r tag) i' /\
        xinv t hd st kind (MkXW u' b (xshares w) (xobjs w) (xbusy w) (xcalls w)) i' Fs').
    { intros N -> H. exists i, Fs. split; [apply XICallOther; auto|]. rewrite (Mono N).
      split; cbn [xbump xsb xshares xobjs xbusy xcalls]; auto; [eapply subs_all; eauto|]. intros m M. specialize (a9 m M). lia. }
    destruct r as [a| |f|lv| |m]; try (destruct R as [-> R]; apply Other; [intros ? ?; discriminate|reflexivity|exact R]).
    clear Other Mono. destruct R as (n & F & r & -> & Ln & G1 & G2 & G3 & H). destruct (SP a Ht a1 Oo eq_refl) as (l & Hl & El & P1 & P2 & P3 & P4). clear SP. cbn zeta in *. rewrite El in *.
    set (bl := MkBlock (ptr a) (lsize l)) in *. rewrite a2 in *.
    assert (Db : Forall (fun o => disjoint bl (iblk o)) Fs).
    { apply Forall_forall. intros o Io x [X1 X2]. pose proof (P3 x X1). pose proof (a6 o x Io X2). lia. }
    assert (Di : Forall (fun o => disjoint bl (iblk o)) (iobjs i)).
    { assert (K : Forall (disjoint bl) (map iblk Fs)) by (rewrite Forall_map; exact Db). rewrite (subs_blk _ _ _ a4), Forall_map in K. exact K. }
    assert (Nu : ~ In n (iused i)) by (intros K; specialize (a9 n K); lia).
    exists (with_objs i (iobjs i ++ [new_object bl n (xuse_perm u)]) (n :: iused i)), (Fs ++ [F]). split; [apply (XICallBlock t st i k c u a n l); auto|].
    split; cbn [xbump xsb xshares xobjs xbusy xcalls iobjs iused iowned ishares ibusy icalls with_objs]; auto.
    + eapply holds_fr; [|exact H]. intros x [X|[X1 X2]].
      * split; [left; exact X|]. intros X'. apply (Dj x). split; [exact X|]. apply P1. exact X'.
      * split; [right; split; [exact X1|lia]|]. intros X'. pose proof (P3 x X'). lia.
    + apply Forall2_app; [eapply subs_all; eauto|]. constructor; [exists r; exact G3|constructor].
    + rewrite map_snoc, a5. reflexivity.
    + intros o x O X. apply in_app_or in O. destruct O as [O|[<-|[]]].
      * pose proof (a6 o x O X) as [Q1 Q2]. split; [exact Q1|lia].
      * rewrite G1 in X. split; [apply P1; exact X|]. pose proof (P3 x X). lia.
    + rewrite map_snoc, G1. apply pair_snoc; [exact a7|]. rewrite Forall_map. exact Db.
    + intros m o M O. apply in_app_or in O. destruct O as [O|[<-|[]]]; [eauto|]. intros K. specialize (G2 m K). pose proof (xshares_lt _ _ _ _ _ _ _ _ m a3 M). lia.
    + intros m [<-|M]; [lia|]. specialize (a9 m M). lia.
  - destruct (xbusy w) as [|cc bb] eqn:Eb; [|cbn [fst snd]; exists i, Fs; split; [apply XIResetNot; congruence|exact I]].
    destruct (x_reset_runs kind hd st _ (xbump w) _ _ (xsb w) Dj a2 a3) as (b & E1 & L1 & H1); [apply incl_appl, incl_refl|]. rewrite E1. cbn [fst snd].
    eexists _, []. split; [apply XIReset; congruence|].
    split; cbn [xbump xsb xshares xobjs xbusy xcalls iobjs iused iowned ishares ibusy icalls]; auto.
    + destruct a1 as [V C]. split; [exact V|]. cbn. destruct V as (_ & V & _). cbn in V. lia.
    + unfold xcaps. cbn [u_reset uindex map]. rewrite app_nil_r. eapply holds_fr; [|exact H1]. intros x [X|[X _]]; auto.
    + intros o x [].
    + cbn [map]. apply pairwise_nil.
    + intros n M. specialize (a9 n M). lia.
  - destruct (nth_error (xobjs w) k) as [ob|] eqn:E.
    2:{ cbn [fst snd]. exists i, Fs. split; [|exact I]. apply XIActNot. intros o Ho. exfalso. rewrite <- a5, nth_error_map, Ho in E. discriminate. }
    assert (Ho : exists o, nth_error (iobjs i) k = Some o /\ ob = MkO (iblk o) (itags o)).
    { rewrite <- a5, nth_error_map in E. destruct (nth_error (iobjs i) k) as [o|]; [|discriminate]. cbn in E. injection E as <-. eauto. }
    destruct Ho as (o & Ho & ->). destruct (act_ok (MkO (iblk o) (itags o)) a) eqn:A.
    2:{ cbn [fst snd]. exists i, Fs. split; [|exact I]. apply XIActNot. intros o' Ho'. congruence. }
    destruct (forall2_nth _ _ _ _ _ a4 Ho) as (F & HF & r & S). pose proof (nth_error_In _ _ HF) as IF.
    destruct (sub_act (xbusy w) _ r F o a S A) as [AF M].
    pose proof (client_act (kind_own kind) _ _ _ (xsb w) (xbusy w) k F a a3 HF AF a7) as C.
    assert (C1 : forall x, in_block (iblk F) x -> ~ frees hd st (uindex (xbump w)) x) by (intros x X; eapply xuses; eauto).
    assert (C2 : forall t0 bs, In (t0, bs) (xcaps kind hd st (xshares w)) -> ~ In t0 (itags F)) by (eapply xcaps_sep; eauto).
    specialize (C C1 C2). destruct (do_act (xbusy w) a (xsb w)) as [[n b]|] eqn:Ed.
    + destruct (ideal_act (xbusy w) F a (nexttag (xsb w))) as [F'|] eqn:EF; [|contradiction]. destruct (ideal_act (xbusy w) o a (nexttag (xsb w))) as [o'|] eqn:Ei; [|contradiction].
      destruct C as (-> & Nb & B1 & B2 & H). destruct M as (M1 & M2 & M3). cbn [fst snd].
      assert (Nu : ~ In (nexttag (xsb w)) (iused i)) by (intros K; specialize (a9 _ K); lia).
      assert (Ln : (nexttag (xsb w) <= nexttag b)%nat) by (rewrite Nb; destruct a; cbn; lia).
      exists (with_objs i (set_nth (iobjs i) k o') (used_after a (nexttag (xsb w)) (iused i))), (set_nth Fs k F'). split.
      * replace (tag_answer (ans_after a (nexttag (xsb w)))) with (act_answer a (nexttag (xsb w))) by (destruct a; reflexivity).
        eapply XIAct; eauto. rewrite a11. exact Ei.
      * split; cbn [xbump xsb xshares xobjs xbusy xcalls iobjs iused iowned ishares ibusy icalls with_objs]; auto.
        -- apply forall2_set; [eapply subs_all; eauto|]. exists r. rewrite Nb. exact M1.
        -- rewrite set_nth_map2, a5. f_equal. rewrite M2, M3. destruct a; reflexivity.
        -- intros o1 x O1 X. apply set_nth_in in O1. destruct O1 as [->|O1]; [rewrite B1 in X; eauto|eauto].
        -- rewrite (set_nth_map iblk Fs k F' F HF B1). exact a7.
        -- intros m o1 Mm O1. apply set_nth_in in O1. destruct O1 as [->|O1]; [|eauto]. rewrite B2. intros K.
           pose proof (xshares_lt _ _ _ _ _ _ _ _ m a3 Mm). destruct a; cbn [tags_after] in K; [exact (a8 m F Mm IF K)|exact (a8 m F Mm IF K)|].
           destruct K as [K|K]; [lia|exact (a8 m F Mm IF K)].
        -- intros m Mm. destruct a; cbn [used_after next_after] in *; [specialize (a9 m Mm); lia|specialize (a9 m Mm); lia|].
           destruct Mm as [<-|Mm]; [lia|specialize (a9 m Mm); lia].
    + destruct (ideal_act (xbusy w) F a (nexttag (xsb w))) as [F'|] eqn:EF; [contradiction|]. destruct (ideal_act (xbusy w) o a (nexttag (xsb w))) as [o'|] eqn:Ei; [contradiction|].
      cbn [fst snd]. exists i, Fs. split; [|exact I]. eapply XIActUB; eauto. rewrite a11. exact Ei.
  - cbn [fst snd]. eexists _, Fs. rewrite <- a12. split; [apply XIEnter|].
    split; cbn [xbump xsb xshares xobjs xbusy xcalls iobjs iused iowned ishares ibusy icalls]; auto. rewrite a11. reflexivity.
  - cbn [fst snd]. eexists _, Fs. split; [apply XIExit|].
    split; cbn [xbump xsb xshares xobjs xbusy xcalls iobjs iused iowned ishares ibusy icalls]; auto. rewrite a11. reflexivity.
Qed.

(** As [xnew], as if there were memory everywhere (UBorrowLocal shows that this makes no difference) *)
Definition xwide (st : block) (kind : xkind) : xworld :=
  MkXW (u_fresh st) (MkB (fun _ => [MkItem 0 (match kind with XVar _ => Unique | XPtr => SharedRW end) None]) 1) [] [] [] 0.

Lemma xnew_inv t hd st kind : valid_region t st -> xinv t hd st kind (xwide st kind) xideal_new [].
Proof.
  intros V. split; cbn [xwide xideal_new xbump xsb xshares xobjs xbusy xcalls iobjs iused iowned ishares ibusy icalls]; auto.
  - apply uok_fresh. exact V.
  - split; cbn [nexttag stk].
    + lia.
    + intros o t0 [].
    + unfold xcaps. cbn [map]. rewrite app_nil_r. destruct kind; intros t0 bs K; [destruct K|]. destruct K as [K|[]]. injection K as <- <-. lia.
    + intros x. exists (MkDec [] [] (if kind_own kind then [] else [MkItem 0 SharedRW None])). split; [destruct kind; reflexivity|]. split; [|split; [|split]].
      * split; cbn [up garb low]; [destruct kind; repeat constructor| |constructor|apply bottom_nil|apply bottom_nil|]; [destruct kind; cbn; repeat constructor; intros []|].
        destruct kind; cbn [app kind_own]; [constructor|]. constructor; [cbn; lia|constructor].
      * unfold xcaps. cbn [map]. rewrite app_nil_r. destruct kind; intros t0 (bs & b & K & _); [destruct K|]. destruct K as [K|[]]. injection K as <- <-. split; [left; reflexivity|]. split; intros [].
      * reflexivity.
      * intros o [].
  - intros o x [].
  - cbn. apply pairwise_nil.
  - intros n [].
Qed.

Lemma xrun_inv t hd st kind os : valid_target t -> disjoint hd st -> Forall (xop_ok t) os -> forall w i Fs, xinv t hd st kind w i Fs ->
  exists i' Fs', xiruns t st i (snd (xrun t hd kind w os)) i' /\ xinv t hd st kind (fst (xrun t hd kind w os)) i' Fs'.
Proof.
  intros Ht D F. induction F as [|o os Fo F IH]; intros w i Fs I; cbn [xrun].
  - exists i, Fs. split; [constructor|exact I].
  - destruct (xstep_inv t hd st kind w i Fs o Ht D I Fo) as (i1 & F1 & S1 & I1). destruct (xstep t hd kind w o) as [w1 r]. cbn [fst snd] in *.
    destruct (IH w1 i1 F1 I1) as (i2 & F2 & S2 & I2). destruct (xrun t hd kind w1 os) as [w2 h]. cbn [fst snd] in *. exists i2, F2. split; [econstructor; eauto|exact I2].
Qed.

(** ** The calls are those of the model without tags *)
Lemma urun_app t c1 c2 u : urun t u (c1 ++ c2) = (fst (urun t (fst (urun t u c1)) c2), snd (urun t u c1) ++ snd (urun t (fst (urun t u c1)) c2)).
Proof.
  revert u. induction c1 as [|c c1 IH]; intros u; cbn [app urun]; [cbn [fst snd app]; destruct (urun t u c2); reflexivity|]. destruct (ustep t u c) as [u1 r]. rewrite IH.
  destruct (urun t u1 c1) as [u2 h]. cbn [fst snd]. destruct (urun t u2 c2). reflexivity.
Qed.

Lemma xstep_calls t hd st kind w i Fs o : valid_target t -> disjoint hd st -> xinv t hd st kind w i Fs -> xop_ok t o ->
  urun t (xbump w) (map fst (ucalls_of [(o, snd (xstep t hd kind w o))])) = (xbump (fst (xstep t hd kind w o)), ucalls_of [(o, snd (xstep t hd kind w o))]).
Proof.
  intros Ht Dj I Oo. pose proof I as [a1 a2 a3 a4 a5 a6 a7 a8 a9 a10 a11 a12]. destruct o as [[k|]|k c u| |k a| |c]; cbn [xstep].
  - destruct (nth_error (xshares w) k); [|reflexivity]. destruct (self_ref _ _ _ _ _) as [[? ?]|]; reflexivity.
  - destruct (self_ref _ _ _ _ _) as [[? ?]|]; reflexivity.
  - destruct (nth_error (xshares w) k) as [self|] eqn:E; [|reflexivity]. destruct (use_ok c u) eqn:Eu; [|reflexivity].
    destruct (xcall_inv t hd st kind w i Fs k c u self Ht Dj I Oo (use_not_reset c u Eu) E) as (tag & b & E1 & _). rewrite E1.
    destruct (ustep t (xbump w) c) as [u' r] eqn:Es. cbn [fst snd ucalls_of map urun xbump]. rewrite Es. reflexivity.
  - destruct (xbusy w) as [|cc bb] eqn:Eb; [|reflexivity].
    destruct (x_reset_runs kind hd st _ (xbump w) _ _ (xsb w) Dj a2 a3) as (b & E1 & _); [apply incl_appl, incl_refl|]. rewrite E1. reflexivity.
  - destruct (nth_error (xobjs w) k); [|reflexivity]. destruct (act_ok _ _); [|reflexivity]. destruct (do_act _ _ _) as [[[?|] ?]|]; reflexivity.
  - reflexivity.
  - reflexivity.
Qed.

Lemma ucalls_app h1 h2 : ucalls_of (h1 ++ h2) = ucalls_of h1 ++ ucalls_of h2.
Proof. induction h1 as [|[o r] h IH]; [reflexivity|]. cbn [app]. destruct o, r; cbn [ucalls_of]; rewrite ?IH; reflexivity. Qed.

Lemma xrun_calls t hd st kind os : valid_target t -> disjoint hd st -> Forall (xop_ok t) os -> forall w i Fs, xinv t hd st kind w i Fs ->
  urun t (xbump w) (map fst (ucalls_of (snd (xrun t hd kind w os)))) = (xbump (fst (xrun t hd kind w os)), ucalls_of (snd (xrun t hd kind w os))).
Proof.
  intros Ht D F. induction F as [|o os Fo F IH]; intros w i Fs I; cbn [xrun]; [reflexivity|].
  destruct (xstep_inv t hd st kind w i Fs o Ht D I Fo) as (i1 & F1 & _ & I1). pose proof (xstep_calls t hd st kind w i Fs o Ht D I Fo) as C.
  destruct (xstep t hd kind w o) as [w1 r]. cbn [fst snd] in *. specialize (IH w1 i1 F1 I1). destruct (xrun t hd kind w1 os) as [w2 h]. cbn [fst snd] in *.
  change ((o, r) :: h) with ([(o, r)] ++ h). rewrite ucalls_app, map_app.
  rewrite urun_app. unfold uevent in *. rewrite C. cbn [fst snd]. rewrite IH. reflexivity.
Qed.

(** ** Undefined behaviour comes only from the client *)
Lemma xiruns_ub t st h : forall i i', xiruns t st i h i' -> forall o, In (o, BUB) h -> exists k a, o = XAct k a.
Proof.
  intros i i' R. induction R as [|i o r i1 h i2 St R IH]; intros q Q; [destruct Q|]. destruct Q as [E|Q]; [|auto].
  injection E as -> ->. inversion St; subst; eauto.
Qed.

Lemma xiruns_plain t st h : forall i i', xiruns t st i h i' -> Forall simple (iobjs i) -> Forall (fun p => xplain (fst p)) h -> forall o, ~ In (o, BUB) h.
Proof.
  intros i i' R. induction R as [|i o r i1 h i2 St R IH]; intros F P q Q; [destruct Q|]. inversion P as [|? ? P1 P2]; subst.
  assert (X : Forall simple (iobjs i1) /\ r <> BUB).
  { inversion St; subst; cbn [iobjs with_objs]; try (split; [first [exact F|constructor]|discriminate]).
    - split; [|discriminate]. apply Forall_app. split; [exact F|]. constructor; [|constructor]. exists n, (xuse_perm u). split; [reflexivity|]. split; [destruct u as [|[|]| |]; cbn; auto|reflexivity].
    - split; [|destruct a; discriminate]. rewrite Forall_forall in F. pose proof (F _ (nth_error_In _ _ H)) as So.
      destruct (simple_ok (ibusy i) o0 a So H0) with (n := n) as (o2 & E2 & S2); [destruct a; auto|]. assert (o2 = o') by congruence. subst o2.
      apply Forall_forall. intros y Y. apply set_nth_in in Y. destruct Y as [->|Y]; auto.
    - exfalso. rewrite Forall_forall in F. pose proof (F _ (nth_error_In _ _ H)) as So.
      destruct (simple_ok (ibusy i1) o0 a So H0) with (n := n) as (o2 & E2 & S2); [destruct a; auto|]. congruence. }
  destruct X as [X1 X2]. destruct Q as [E|Q]; [congruence|]. exact (IH X1 P2 q Q).
Qed.

Lemma xrun_fst t hd kind os : forall w, map fst (snd (xrun t hd kind w os)) = os.
Proof.
  induction os as [|o os IH]; intros w; cbn [xrun]; [reflexivity|]. destruct (xstep t hd kind w o) as [w1 r]. specialize (IH w1).
  destruct (xrun t hd kind w1 os) as [w2 h]. cbn [fst snd map] in *. congruence.
Qed.
