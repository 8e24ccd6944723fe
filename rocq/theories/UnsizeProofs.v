(** * UnsizeProofs *)
From Verif Require Import Base Spec BaseFacts SyncMemModel SyncMemSpec SyncMemProofs MemBumpSpec MemBumpProofs OwnModel OwnProofs UnsizeModel UnsizeSpec.

Lemma type_size s : ssize s = lsize (layout_of_type s).
Proof. induction s as [id l|e IH n]; cbn; congruence. Qed.
Lemma type_align s : salign s = lalign (layout_of_type s).
Proof. induction s as [id l|e IH n]; cbn; congruence. Qed.
Lemma type_layout_of s : MkLayout (ssize s) (salign s) = layout_of_type s.
Proof. rewrite type_size, type_align. destruct (layout_of_type s). reflexivity. Qed.
Lemma sty_ok_size t s : sty_ok t s -> 0 <= ssize s.
Proof. induction s as [id l|e IH n]; cbn [sty_ok ssize]; [intros [(H & _) _]; exact H|]. intros (E & N & _). specialize (IH E). nia. Qed.

Lemma piece_read m p N off n : 0 <= off -> 0 <= n -> off + n <= N -> piece (mem_read m p N) off n = mem_read m (p + off) n.
Proof.
  intros Ho Hn HN. apply nth_error_ext_. intros k. unfold piece. rewrite (nth_mem_read m (p + off) n k Hn).
  destruct (Z.ltb_spec (Z.of_nat k) n).
  - rewrite nth_error_firstn_ by lia. rewrite nth_error_skipn_, nth_mem_read by lia. destruct (Z.ltb_spec (Z.of_nat (Z.to_nat off + k)) N); [|lia]. do 2 f_equal. lia.
  - apply nth_error_None. rewrite firstn_length. lia.
Qed.

Lemma glue_drops t m s : sty_ok t s -> forall p, drop_glue m s p = value_drops s (mem_read m p (ssize s)).
Proof.
  induction s as [id l|e IH n]; [reflexivity|]. intros (E & N & _) p. cbn [drop_glue value_drops ssize]. specialize (IH E). pose proof (sty_ok_size t e E) as SE.
  assert (X : forall k, (k <= Z.to_nat n)%nat ->
    flat_map (fun i => drop_glue m e (p + Z.of_nat i * ssize e)) (seq 0 k) =
    flat_map (fun i => value_drops e (piece (mem_read m p (n * ssize e)) (Z.of_nat i * ssize e) (ssize e))) (seq 0 k)).
  { induction k as [|k IHk]; intros K; [reflexivity|]. rewrite seq_S, !flat_map_app, IHk by lia. f_equal. cbn [flat_map plus]. rewrite !app_nil_r, IH.
    rewrite piece_read; [reflexivity|nia|exact SE|nia]. }
  apply X. lia.
Qed.

Definition shape_ok (C : tables) (s : sty) (sh : shape) (ty : pty) (ws : list Z) : Prop :=
  match sh with
  | Whole => ty = TSized s /\ ws = []
  | AsSlice => match s with SArray e n => ty = TSlice e /\ ws = [n] | _ => False end
  | AsDyn => exists tr, ty = TDyn tr /\ ws = [vt_of C tr s] /\ true_table C tr s
  end.

Definition pinv (C : tables) (s : sty) (p len : Z) (x : thing) (st : pstate) : Prop :=
  pk st = tkind x /\ raddr (praw st) = p /\ plen st = len /\ tbytes x = mem_read (pmem st) p (ssize s) /\
  shape_ok C s (tshape x) (pty_of st) (rwords (praw st)).

Lemma layout_shape C s sh ty ws : shape_ok C s sh ty ws -> layout_of_val C ty ws = Some (layout_of_type s).
Proof.
  destruct sh; cbn [shape_ok].
  - intros [-> ->]. cbn [layout_of_val]. rewrite type_layout_of. reflexivity.
  - destruct s; [contradiction|]. intros [-> ->]. cbn [layout_of_val layout_of_type]. rewrite type_size, type_align. reflexivity.
  - intros (tr & -> & -> & T). cbn [layout_of_val]. rewrite T. cbn [vsize valign]. destruct (layout_of_type s). reflexivity.
Qed.

Lemma drop_shape C s sh ty r m : shape_ok C s sh ty (rwords r) -> drop_in_place C m ty r = Some (drop_glue m s (raddr r)).
Proof.
  destruct sh; cbn [shape_ok]; unfold drop_in_place.
  - intros [-> _]. reflexivity.
  - destruct s; [contradiction|]. intros [-> ->]. reflexivity.
  - intros (tr & -> & -> & T). rewrite T. reflexivity.
Qed.

Definition indexable (s : sty) (sh : shape) : option (sty * Z) :=
  match s, sh with SArray e n, (Whole | AsSlice) => Some (e, n) | _, _ => None end.
Lemma element_shape C s p len x st i : pinv C s p len x st ->
  element st i = match indexable s (tshape x) with
                 | Some (e, n) => Some (if (0 <=? i) && (i <? n) then Ret (p + i * ssize e, e) else Panic PN_index)
                 | None => None end.
Proof.
  intros (_ & A & _ & _ & SH). unfold element. destruct (tshape x); cbn [shape_ok indexable] in *.
  - destruct SH as [-> _]. rewrite A. destruct s; reflexivity.
  - destruct s; [contradiction|]. destruct SH as [-> ->]. rewrite A. reflexivity.
  - destruct SH as (tr & -> & _ & _). destruct s; reflexivity.
Qed.

Lemma pstep_ok t C s p len x st o : sty_ok t s -> 0 < p -> (forall tr, o = PUnsize (ToDyn tr) -> true_table C tr s) ->
  pinv C s p len x st ->
  snd (pstep t C st o) = snd (thing_step s x o) /\ pinv C s p len (fst (thing_step s x o)) (fst (pstep t C st o)) /\
  same_outside (MkBlock p (ssize s)) (pmem st) (pmem (fst (pstep t C st o))).
Proof.
  intros OK P TT IN. pose proof IN as (K & A & L & B & SH). pose proof (element_shape C s p len x st) as EL.
  assert (REFL : forall m, same_outside (MkBlock p (ssize s)) m m) by (intros m y _; reflexivity).
  assert (PW : forall k, pinv C s p len (tnow x k) (pwith st k)) by (intros k; unfold pinv, pwith, tnow; cbn [pk praw plen pty_of pmem tkind tbytes tshape]; auto).
  assert (BAD : snd (st, PAInvalid) = snd (x, PAInvalid) /\ pinv C s p len (fst (x, PAInvalid)) (fst (st, PAInvalid)) /\ same_outside (MkBlock p (ssize s)) (pmem st) (pmem (fst (st, PAInvalid))))
    by (cbn [fst snd]; auto).
  destruct o; cbn [pstep thing_step].
  - rewrite <- K. destruct (tshape x) eqn:SX; cbn [shape_ok] in SH.
    + destruct SH as [TY WS]. rewrite TY.
      assert (U : forall w ty', shape_ok C s (match c with ToSlice => AsSlice | ToDyn _ => AsDyn end) ty' [w] ->
        pinv C s p len (MkThing (pk st) (match c with ToSlice => AsSlice | ToDyn _ => AsDyn end) (tbytes x)) (MkP (pk st) (MkRaw p [w]) len ty' (pmem st))).
      { intros w ty' S'. unfold pinv. cbn [pk praw plen pty_of pmem tkind tbytes tshape raddr rwords]. auto. }
      assert (US : forall k w f, f p = MkRaw p [w] -> unsize t k (raddr (praw st)) (plen st) f = Ret (MkRaw p [w], len)).
      { intros k w f F. rewrite A, L, unsize_spec, F. cbn [rwords raddr length Nat.eqb]. rewrite Z.eqb_refl, orb_true_r. reflexivity. }
      destruct (pk st) eqn:PK; cbn [coercible]; try exact BAD; (destruct c as [|tr]; [destruct s as [id l|e n]; [exact BAD|]|]; cbn [coerce];
        rewrite (US _ _ _ eq_refl); cbn [fst snd pmem]; (split; [reflexivity|]); (split; [|apply REFL]); apply U; cbn [shape_ok]; eauto 6).
    + destruct s as [id l|e n]; [contradiction|]. destruct SH as [TY WS]. rewrite TY. destruct (pk st); exact BAD.
    + destruct SH as (tr & TY & WS & _). rewrite TY. destruct (pk st); exact BAD.
  - rewrite <- K. destruct (pk st); try exact BAD; cbn [fst snd pwith pmem]; auto.
  - rewrite <- K. destruct (pk st); try exact BAD; cbn [fst snd pwith pmem]; auto. rewrite A. destruct (Z.eqb_spec p 0); [lia|]. rewrite andb_false_r. cbn [fst snd pwith pmem]. auto.
  - rewrite <- K. destruct (pk st); try exact BAD; cbn [fst snd pwith pmem]; auto.
  - rewrite <- K. destruct (pk st); try exact BAD; cbn [fst snd pwith pmem]; auto.
  - rewrite <- K. destruct (pk st); try exact BAD; cbn [fst snd pwith pmem]; auto.
  - rewrite <- K. destruct (pk st); try exact BAD; cbn [fst snd pwith pmem]; auto.
  - rewrite <- K. rewrite (drop_shape _ _ _ _ _ _ SH), (glue_drops t _ _ OK), A, <- B. destruct (pk st); try exact BAD; cbn [fst snd pwith pmem]; auto.
  - rewrite <- K. rewrite (layout_shape _ _ _ _ _ SH), A. rewrite <- type_size, <- B. destruct (pk st); try exact BAD; cbn [fst snd readable]; auto.
  - rewrite <- K. rewrite (layout_shape _ _ _ _ _ SH). destruct (pk st); try exact BAD; cbn [fst snd readable]; auto.
  - rewrite <- K. rewrite (EL i IN). destruct (readable (pk st)) eqn:RD.
    2: { destruct (pk st); try discriminate RD; exact BAD. }
    assert (G : (let (a, b) := match indexable s (tshape x) with
        | Some (e, n) => if (0 <=? i) && (i <? n) then (st, PABytes (mem_read (pmem st) (p + i * ssize e) (ssize e))) else (st, PAPanic PN_index)
        | None => (st, PAInvalid) end in (a, b)) = (st, snd (thing_step s x (PIndex i))) /\ fst (thing_step s x (PIndex i)) = x).
    { cbn [thing_step]. rewrite <- K, RD. destruct s as [id l|e n]; [split; reflexivity|]. destruct OK as (E & N & _). pose proof (sty_ok_size t e E).
      destruct (tshape x); cbn [indexable]; try (split; reflexivity);
        (destruct (Z.leb_spec 0 i), (Z.ltb_spec i n); cbn [andb]; try (split; reflexivity); rewrite B; cbn [ssize]; rewrite piece_read by nia; split; reflexivity). }
    destruct G as [G1 G2]. cbn [thing_step] in G1, G2. rewrite <- K, RD in G1, G2.
    match goal with |- snd ?X = snd ?Y /\ _ => assert (E1 : X = (st, snd Y)) end.
    { rewrite <- G1. destruct (pk st); try discriminate RD; (destruct (indexable s (tshape x)) as [[e n]|]; [destruct (_ && _); reflexivity|reflexivity]). }
    rewrite E1, G2. cbn [fst snd]. auto.
  - rewrite <- K. rewrite (EL i IN). destruct (writable (pk st)) eqn:WR.
    2: { destruct (pk st); try discriminate WR; exact BAD. }
    destruct s as [id l|e n]; cbn [indexable].
    { destruct (pk st); try discriminate WR; exact BAD. }
    destruct OK as (E & N & _). pose proof (sty_ok_size t e E) as SE.
    assert (GO : forall (Q : pstate * panswer -> Prop) r, Q r -> Q (match pk st with KBox | KLeak | KRef => r | _ => (st, PAInvalid) end)).
    { intros Q r q. destruct (pk st); try discriminate WR; exact q. }
    assert (MAIN : let r := (if (0 <=? i) && (i <? n) then
              if Z.of_nat (length bs) =? ssize e
              then (MkP (pk st) (praw st) (plen st) (pty_of st) (mem_write (pmem st) (p + i * ssize e) bs), PABytes (mem_read (pmem st) (p + i * ssize e) (ssize e)))
              else (st, PAInvalid) else (st, PAPanic PN_index)) in
       let q := (if (0 <=? i) && (i <? n) then
              if Z.of_nat (length bs) =? ssize e
              then (MkThing (pk st) (tshape x) (overwrite (tbytes x) (i * ssize e) bs), PABytes (piece (tbytes x) (i * ssize e) (ssize e)))
              else (x, PAInvalid) else (x, PAPanic PN_index)) in
       snd r = snd q /\ pinv C (SArray e n) p len (fst q) (fst r) /\ same_outside (MkBlock p (ssize (SArray e n))) (pmem st) (pmem (fst r))).
    { cbv zeta. destruct (Z.leb_spec 0 i), (Z.ltb_spec i n); cbn [andb]; try (cbn [fst snd]; auto; fail).
      destruct (Z.eqb_spec (Z.of_nat (length bs)) (ssize e)) as [LB|]; [|exact BAD]. cbn [fst snd pmem].
      assert (IB : 0 <= i * ssize e /\ i * ssize e + ssize e <= n * ssize e) by nia.
      split; [rewrite B; cbn [ssize]; rewrite piece_read by lia; reflexivity|]. split.
      - unfold pinv. cbn [pk praw plen pty_of pmem tkind tbytes tshape]. split; [reflexivity|]. split; [exact A|]. split; [exact L|]. split; [|exact SH].
        cbn [ssize]. rewrite read_spliced by lia. rewrite B. reflexivity.
      - cbn [ssize]. intros y Y. apply (mem_write_outside (pmem st) (p + i * ssize e) bs (Z.of_nat (length bs)) ltac:(lia)).
        intros I'. apply Y. unfold in_block in *. cbn [start size] in *. lia. }
    cbv zeta in MAIN. destruct (tshape x) eqn:SX; cbn [indexable].
    + assert (SW : forall a b : pstate * panswer, a = b -> snd a = snd b) by congruence.
      destruct (pk st) eqn:PK; try discriminate WR; destruct ((0 <=? i) && (i <? n)); try exact MAIN.
    + destruct (pk st) eqn:PK; try discriminate WR; destruct ((0 <=? i) && (i <? n)); try exact MAIN.
    + destruct (pk st); try discriminate WR; exact BAD.
Qed.

Lemma prun_ok t C s p len : sty_ok t s -> 0 < p -> forall os x st, (forall tr, In (PUnsize (ToDyn tr)) os -> true_table C tr s) ->
  pinv C s p len x st ->
  snd (prun t C st os) = snd (thing_run s x os) /\ pinv C s p len (fst (thing_run s x os)) (fst (prun t C st os)) /\
  same_outside (MkBlock p (ssize s)) (pmem st) (pmem (fst (prun t C st os))).
Proof.
  intros OK P. induction os as [|o os IH]; intros x st TT IN; cbn [prun thing_run].
  - cbn [fst snd]. split; [reflexivity|]. split; [exact IN|]. intros y _. reflexivity.
  - destruct (pstep_ok t C s p len x st o OK P) as (E1 & E2 & E3); [intros tr ->; apply TT; left; reflexivity|exact IN|].
    destruct (pstep t C st o) as [st1 a], (thing_step s x o) as [x1 b]. cbn [fst snd] in E1, E2, E3. subst b.
    destruct (IH x1 st1) as (F1 & F2 & F3); [intros tr I'; apply TT; right; exact I'|exact E2|].
    destruct (prun t C st1 os) as [st2 r], (thing_run s x1 os) as [x2 q]. cbn [fst snd] in *. subst q. split; [reflexivity|]. split; [exact F2|].
    intros y Y. rewrite (F3 y Y). apply E3. exact Y.
Qed.
