(** * SyncMemProofs *)
From Verif Require Import Base Spec BaseFacts SyncModel SyncSpec SyncProofs SyncMemModel SyncMemSpec.

(** ** Lists *)

Lemma nth_error_upd_same {A} (l : list A) i x y :
  nth_error l i = Some y -> nth_error (upd l i x) i = Some x.
Proof.
  revert i. induction l as [|z l IH]; intros i H; destruct i; cbn in *; try discriminate; auto.
Qed.

Lemma nth_error_upd_other {A} (l : list A) i j x :
  i <> j -> nth_error (upd l i x) j = nth_error l j.
Proof.
  revert i j. induction l as [|z l IH]; intros i j H; destruct i, j; cbn; try reflexivity; try lia.
  apply IH. lia.
Qed.

Lemma upd_length {A} (l : list A) i x : length (upd l i x) = length l.
Proof. revert i. induction l as [|z l IH]; intros i; destruct i; cbn; congruence. Qed.

(** ** The allocator calls in closed form *)

Lemma with_sl_self m : with_sl m (sl m) = m.
Proof. destruct m; reflexivity. Qed.

Lemma client_eta c : {| ms := ms c; handles := handles c; drops := drops c |} = c.
Proof. destruct c; reflexivity. Qed.

Definition fits_now (m : mslab) (l : layout) : bool := fitsb (storage (sl m)) (consumed (sl m)) l.

Lemma bump_alloc_spec t m l :
  valid_target t -> ok t (sl m) -> valid_layout t l ->
  bump_alloc t m l =
  if lsize l =? 0 then (m, Panic P_size)
  else if fits_now m l then (with_sl m (bumped (sl m) l), Ret (Some (place (sl m) l)))
  else (m, Ret None).
Proof.
  intros Ht Hok Hl. unfold bump_alloc, fits_now.
  assert (0 <= lsize l) by (destruct Hl; lia).
  destruct (Z.eqb_spec (lsize l) 0) as [Hz|Hnz].
  - unfold try_alloc. cbn [try_alloc_loop]. rewrite (alloc_at_zero t (sl m) l 0 Hz).
    rewrite with_sl_self. reflexivity.
  - rewrite (try_alloc_spec t (sl m) l Ht Hok Hl) by lia.
    destruct (fitsb _ _ _); [reflexivity|]. rewrite with_sl_self. reflexivity.
Qed.

Lemma get_spec t s l :
  valid_target t -> ok t s -> type_layout t l ->
  get t s l =
  if lsize l =? 0 then (s, Ret (Some {| ptr := lalign l; alevel := consumed s |}))
  else if fitsb (storage s) (consumed s) l then (bumped s l, Ret (Some (placed s l)))
  else (s, Ret None).
Proof.
  intros Ht Hok [Hl _]. unfold get. destruct (Z.eqb_spec (lsize l) 0); [reflexivity|].
  apply try_alloc_spec; try assumption. destruct Hl; lia.
Qed.

Lemma get_at_spec t s l lv :
  valid_target t -> ok t s -> type_layout t l -> is_usize t lv ->
  get_at t s l lv =
  if lsize l =? 0 then
    (s, Ret (if consumed s =? lv then ROk {| ptr := lalign l; alevel := consumed s |}
             else RErr (Mismatch (consumed s))))
  else if size (storage s) <? lv then (s, Panic P_expect)
  else if fitsb (storage s) lv l then
    if consumed s =? lv then (bumped s l, Ret (ROk (placed s l)))
    else (s, Ret (RErr (Mismatch (consumed s))))
  else (s, Ret (RErr Exhausted)).
Proof.
  intros Ht Hok [Hl _] Hlv. unfold get_at. destruct (Z.eqb_spec (lsize l) 0) as [|Hnz].
  - cbn. unfold level. destruct (consumed s =? lv); reflexivity.
  - assert (0 < lsize l) by (destruct Hl; lia). destruct (Z.ltb_spec (size (storage s)) lv).
    + apply alloc_at_beyond; assumption.
    + apply try_alloc_at_spec; try assumption. destruct Hlv; lia.
Qed.

(** The placed block *)
Lemma place_facts t s l :
  ok t s -> valid_layout t l -> 0 < lsize l -> fitsb (storage s) (consumed s) l = true ->
  good_block (storage s) l (place s l) /\ start (storage s) + consumed s <= place s l /\
  place s l + lsize l = start (storage s) + consumed (bumped s l) /\
  ok t (bumped s l) /\ consumed s <= consumed (bumped s l) /\ storage (bumped s l) = storage s.
Proof.
  intros Hok Hl Hpos Hf. destruct (bumped_ok t s l Hok Hl Hpos Hf) as [Hok' Hgrow].
  pose proof (valid_layout_align t l Hl) as Ha.
  pose proof (align_up_ge (start (storage s) + consumed s) (lalign l) Ha) as Hge.
  pose proof (align_up_aligned (start (storage s) + consumed s) (lalign l) Ha) as Hal.
  fold (place s l) in Hge, Hal. unfold fitsb in Hf. fold (place s l) in Hf.
  destruct Hok as [(H0 & H1 & H2) Hc].
  assert (consumed (bumped s l) = place s l + lsize l - start (storage s)) as He by reflexivity.
  split; [|split; [|split; [|split; [|split]]]]; try assumption; try lia; try reflexivity.
  split; [exact Hal|]. split; [|lia].
  apply inside_intro; cbn; lia.
Qed.

(** ** Effects of a call *)

Definition hsub (hs hs' : list handle) : Prop :=
  Forall2 (fun h h' => hptr h' = hptr h /\ hlay h' = hlay h /\ (hlive h' = true -> hlive h = true) /\
                    (hkind h' = KRaw -> hkind h = KRaw)) hs hs'.

Lemma hsub_refl hs : hsub hs hs.
Proof. induction hs; constructor; auto. Qed.

Lemma hsub_upd hs i h h' :
  nth_error hs i = Some h -> hptr h' = hptr h -> hlay h' = hlay h -> (hlive h' = true -> hlive h = true) ->
  (hkind h' = KRaw -> hkind h = KRaw) ->
  hsub hs (upd hs i h').
Proof.
  revert i. induction hs as [|x hs IH]; intros i Hi H1 H2 H3 H4; destruct i; cbn in *; try discriminate.
  - injection Hi as ->. constructor; [auto|apply hsub_refl].
  - constructor; [auto|]. apply IH; assumption.
Qed.

Lemma live_handle_nth c i h : live_handle c i = Some h -> nth_error (handles c) i = Some h /\ hlive h = true.
Proof.
  unfold live_handle. destruct (nth_error (handles c) i) as [h0|]; [|discriminate].
  destruct (hlive h0) eqn:E; [|discriminate]. intros [= <-]. auto.
Qed.

Inductive effect (t : target) (c : client) (o : op) (c' : client) (a : answer) : Prop :=
| E_quiet :
    sl (ms c') = sl (ms c) -> bytes (ms c') = bytes (ms c) -> hsub (handles c) (handles c') ->
    effect t c o c' a
| E_new hs p l k :
    handles c' = hs ++ [new_handle p l k] -> hsub (handles c) hs -> valid_layout t l ->
    good_block (storage (sl (ms c))) l p -> ok t (sl (ms c')) ->
    storage (sl (ms c')) = storage (sl (ms c)) ->
    consumed (sl (ms c)) <= consumed (sl (ms c')) ->
    (lsize l = 0 \/
     start (storage (sl (ms c))) + consumed (sl (ms c)) <= p /\
     p + lsize l <= start (storage (sl (ms c))) + consumed (sl (ms c'))) ->
    (k = KRaw -> 0 < lsize l) ->
    same_outside (MkBlock p (lsize l)) (bytes (ms c)) (bytes (ms c')) ->
    a = ABlock p ->
    effect t c o c' a
| E_inplace i h l :
    live_handle c i = Some h -> sl (ms c') = sl (ms c) -> bytes (ms c') = bytes (ms c) ->
    handles c' = upd (handles c) i (dead h) ++ [new_handle (hptr h) l KRaw] ->
    valid_layout t l -> aligned (hptr h) (lalign l) -> 0 < lsize l <= lsize (hlay h) ->
    a = ABlock (hptr h) ->
    effect t c o c' a
| E_write i h :
    live_handle c i = Some h -> touches o i = true -> sl (ms c') = sl (ms c) -> handles c' = handles c ->
    same_outside (hblock h) (bytes (ms c)) (bytes (ms c')) ->
    effect t c o c' a
| E_reset : o = OReset -> sl (ms c') = reset (sl (ms c)) -> bytes (ms c') = bytes (ms c) ->
    handles c' = [] -> effect t c o c' a.

Definition hbelow (s : slab) (h : handle) : Prop := below s (hblock h).

Definition minv (t : target) (c : client) : Prop :=
  ok t (sl (ms c)) /\
  Forall (fun h => hbelow (sl (ms c)) h /\ good_block (storage (sl (ms c))) (hlay h) (hptr h) /\
                   valid_layout t (hlay h) /\ (hkind h = KRaw -> 0 < lsize (hlay h))) (handles c) /\
  (forall i j hi hj, i <> j -> live_handle c i = Some hi -> live_handle c j = Some hj ->
     disjoint (hblock hi) (hblock hj)).

Lemma from_size_align_iff t n al l :
  from_size_align t n al = Some l <-> l = {| lsize := n; lalign := al |} /\ valid_layout t l.
Proof.
  unfold from_size_align.
  destruct (is_pow2b al && (al <=? isize_max t) && (0 <=? n) && (align_up n al <=? isize_max t)) eqn:E.
  - rewrite !andb_true_iff in E. destruct E as [[[E1 E2] E3] E4]. apply is_pow2b_iff in E1.
    split.
    + intros [= <-]. split; [reflexivity|]. unfold valid_layout. cbn. repeat split; try lia; try assumption.
    + intros [-> _]. reflexivity.
  - split; [discriminate|]. intros [-> (H1 & H2 & H3 & H4)]. cbn in *.
    apply is_pow2b_iff in H2. rewrite H2 in E. lia.
Qed.

Lemma mem_write_outside m p bs n :
  Z.of_nat (length bs) <= n -> same_outside (MkBlock p n) m (mem_write m p bs).
Proof.
  intros H x Hx. unfold mem_write, in_block in *. cbn in Hx.
  destruct (Z.leb_spec p x), (Z.ltb_spec x (p + Z.of_nat (length bs))); cbn; try reflexivity. lia.
Qed.

Lemma mem_fill_outside m p n b : same_outside (MkBlock p n) m (mem_fill m p n b).
Proof.
  intros x Hx. unfold mem_fill, in_block in *. cbn in Hx.
  destruct (Z.leb_spec p x), (Z.ltb_spec x (p + n)); cbn; try reflexivity. lia.
Qed.

Lemma mem_copy_outside m p q n k : k <= n -> same_outside (MkBlock q n) m (mem_copy m p q k).
Proof.
  intros Hk x Hx. unfold mem_copy, in_block in *. cbn in Hx.
  destruct (Z.leb_spec q x), (Z.ltb_spec x (q + k)); cbn; try reflexivity. lia.
Qed.

Lemma mem_write_reads m p bs : reads (mem_write m p bs) p bs.
Proof.
  intros k b Hk. unfold mem_write. pose proof (nth_error_Some bs k) as Hs. rewrite Hk in Hs.
  assert (k < length bs)%nat by (apply Hs; discriminate).
  destruct (Z.leb_spec p (p + Z.of_nat k)), (Z.ltb_spec (p + Z.of_nat k) (p + Z.of_nat (length bs))); cbn; try lia.
  replace (Z.to_nat (p + Z.of_nat k - p)) with k by lia. apply nth_error_nth. exact Hk.
Qed.

Lemma live_handle_facts t c i h :
  minv t c -> live_handle c i = Some h ->
  hbelow (sl (ms c)) h /\ good_block (storage (sl (ms c))) (hlay h) (hptr h) /\
  valid_layout t (hlay h) /\ (hkind h = KRaw -> 0 < lsize (hlay h)).
Proof.
  intros (_ & Hf & _) Hi. destruct (live_handle_nth c i h Hi) as [Hn _].
  rewrite Forall_forall in Hf. apply Hf. eapply nth_error_In; exact Hn.
Qed.

Lemma is_raw_iff h : is_raw h = true <-> hkind h = KRaw.
Proof. unfold is_raw. destruct (hkind h); split; congruence. Qed.

(** Reallocation through LocalAlloc in closed form *)
Lemma la_realloc_spec t m p l l' :
  valid_target t -> ok t (sl m) -> valid_layout t l' -> 0 < lsize l' ->
  la_realloc t m p l l' =
  if (p mod lalign l' =? 0) && (lsize l' <=? lsize l) then (m, Ret (Some p))
  else if fits_now m l' then
    (with_bytes (with_sl m (bumped (sl m) l'))
       (mem_copy (bytes m) p (place (sl m) l') (Z.min (lsize l') (lsize l))),
     Ret (Some (place (sl m) l')))
  else (m, Ret None).
Proof.
  intros Ht Hok Hl Hpos. unfold la_realloc. destruct ((p mod lalign l' =? 0) && _); [reflexivity|].
  unfold la_alloc. rewrite (bump_alloc_spec t m l' Ht Hok Hl).
  destruct (Z.eqb_spec (lsize l') 0); [lia|]. destruct (fits_now m l'); reflexivity.
Qed.

Lemma ga_realloc_spec t m p l n :
  0 < lsize l -> 0 < n ->
  ga_realloc t m p l n =
  match from_size_align t n (lalign l) with
  | None => (m, Ret None)
  | Some l' => la_realloc t m p l l'
  end.
Proof.
  intros Hl Hn. unfold ga_realloc, nonzero_from_layout. destruct (Z.eqb_spec (lsize l) 0); [lia|].
  unfold layout_reallocated. destruct (from_size_align t n (lalign l)) as [l'|] eqn:E; [|reflexivity].
  apply from_size_align_iff in E. destruct E as [-> _]. unfold nonzero_from_layout. cbn [lsize].
  destruct (Z.eqb_spec n 0); [lia|]. reflexivity.
Qed.

Lemma realloc_effect t c o i h l :
  valid_target t -> minv t c -> live_handle c i = Some h -> hkind h = KRaw ->
  valid_layout t l -> 0 < lsize l ->
  let r := after_realloc c i h (la_realloc t (ms c) (hptr h) (hlay h) l) l in
  effect t c o (fst r) (snd r).
Proof.
  intros Ht Hinv Hi Hk Hl Hpos. cbv zeta. pose proof Hinv as (Hok & _ & _).
  rewrite (la_realloc_spec t (ms c) (hptr h) (hlay h) l Ht Hok Hl Hpos).
  destruct (live_handle_nth c i h Hi) as [Hn Hlv].
  destruct ((hptr h mod lalign l =? 0) && (lsize l <=? lsize (hlay h))) eqn:E.
  - apply andb_true_iff in E. destruct E as [E1 E2]. cbn.
    eapply (E_inplace t c o _ _ i h l); cbn; try reflexivity; try assumption; try lia.
    apply Z.mod_divide; [|lia]. pose proof (valid_layout_align t l Hl). lia.
  - destruct (fits_now (ms c) l) eqn:Ef.
    + destruct (place_facts t (sl (ms c)) l Hok Hl Hpos Ef) as (H1 & H2 & H3 & H4 & H5 & H6).
      cbn. eapply (E_new t c o _ _ (upd (handles c) i (dead h)) (place (sl (ms c)) l) l KRaw); cbn;
        try reflexivity; try assumption; try lia.
      * eapply hsub_upd; [exact Hn|reflexivity|reflexivity|cbn; discriminate|cbn; congruence].
      * apply mem_copy_outside. lia.
    + cbn. apply E_quiet; cbn; try reflexivity. apply hsub_refl.
Qed.

Lemma alloc_effect t c o l (z : bool) :
  valid_target t -> minv t c -> valid_layout t l ->
  let r := after_alloc c (if z then ga_alloc_zeroed t (ms c) l else ga_alloc t (ms c) l) l in
  effect t c o (fst r) (snd r).
Proof.
  intros Ht (Hok & _) Hl. cbv zeta. unfold ga_alloc_zeroed, ga_alloc.
  rewrite (bump_alloc_spec t (ms c) l Ht Hok Hl).
  assert (0 <= lsize l) by (destruct Hl; lia).
  destruct (Z.eqb_spec (lsize l) 0) as [Hz|Hnz].
  { replace (if z then _ else _) with (ms c, @Panic (option Z) P_size) by (destruct z; reflexivity).
    cbn. apply E_quiet; cbn; try reflexivity. apply hsub_refl. }
  destruct (fits_now (ms c) l) eqn:Ef.
  - destruct (place_facts t (sl (ms c)) l Hok Hl ltac:(lia) Ef) as (H1 & H2 & H3 & H4 & H5 & H6).
    destruct z; cbn; eapply (E_new t c o _ _ (handles c) (place (sl (ms c)) l) l KRaw); cbn;
      try reflexivity; try assumption; try lia; try apply hsub_refl.
    + apply mem_fill_outside.
    + intros x _; reflexivity.
  - replace (if z then _ else _) with (ms c, @Ret (option Z) None) by (destruct z; reflexivity).
    cbn. apply E_quiet; cbn; try reflexivity. apply hsub_refl.
Qed.

Lemma good_zst t st l : type_layout t l -> lsize l = 0 -> good_block st l (lalign l).
Proof.
  intros [Hl _] Hz. pose proof (valid_layout_align t l Hl). split; [apply Z.divide_refl|]. split; [|lia].
  intros x Hx. unfold in_block in Hx. cbn in Hx. lia.
Qed.

(** Storing a value into a block obtained by get/get_at *)
Lemma store_effect t c o l v a s d k :
  valid_target t -> minv t c -> type_layout t l -> Z.of_nat (length (vbytes v)) = lsize l ->
  (lsize l = 0 /\ s = sl (ms c) /\ ptr a = lalign l \/
   0 < lsize l /\ s = bumped (sl (ms c)) l /\ ptr a = place (sl (ms c)) l /\ fits_now (ms c) l = true) ->
  k <> KRaw ->
  effect t c o
    {| ms := write_value (with_sl (ms c) s) (ptr a) v;
       handles := handles c ++ [new_handle (ptr a) l k]; drops := d |} (ABlock (ptr a)).
Proof.
  intros Ht (Hok & _) Hl Hlen Hcase Hk.
  destruct Hcase as [(Hz & -> & Hp)|(Hpos & -> & Hp & Hf)].
  - eapply (E_new t c o _ _ (handles c) (ptr a) l k); cbn; try reflexivity; try lia; try apply hsub_refl.
    + apply Hl.
    + rewrite Hp. eapply good_zst; eassumption.
    + exact Hok.
    + congruence.
    + apply mem_write_outside. lia.
  - destruct (place_facts t (sl (ms c)) l Hok (proj1 Hl) Hpos Hf) as (H1 & H2 & H3 & H4 & H5 & H6).
    eapply (E_new t c o _ _ (handles c) (ptr a) l k); cbn; try reflexivity; try apply hsub_refl; try assumption.
    + apply Hl.
    + rewrite Hp. exact H1.
    + rewrite Hp. right. split; [exact H2|]. cbn in H3. lia.
    + congruence.
    + apply mem_write_outside. lia.
Qed.

Lemma quiet_same t c o a d : effect t c o {| ms := ms c; handles := handles c; drops := d |} a.
Proof. apply E_quiet; cbn; try reflexivity. apply hsub_refl. Qed.

Lemma mstep_effect t c o :
  valid_target t -> minv t c -> valid_op t o ->
  effect t c o (fst (mstep t c o)) (snd (mstep t c o)).
Proof.
  intros Ht Hinv Hv. pose proof Hinv as (Hok & _).
  assert (Hill : forall a, effect t c o c a).
  { intros a. apply E_quiet; [reflexivity|reflexivity|apply hsub_refl]. }
  destruct o as [l|l|l|i n|i l|i|i|l v|l v lv|l v|l v lv|i|i|i off bs| |]; cbn [mstep valid_op] in *.
  - apply (alloc_effect t c _ l false Ht Hinv Hv).
  - apply (alloc_effect t c _ l true Ht Hinv Hv).
  - apply (alloc_effect t c _ l true Ht Hinv Hv).
  - destruct (live_handle c i) as [h|] eqn:Hi; [|apply Hill].
    destruct (is_raw h) eqn:Hr; [|apply Hill]. apply is_raw_iff in Hr.
    destruct (live_handle_facts t c i h Hinv Hi) as (_ & _ & Hl & Hpos).
    rewrite (ga_realloc_spec t (ms c) (hptr h) (hlay h) n (Hpos Hr)) by lia.
    destruct (from_size_align t n (lalign (hlay h))) as [l'|] eqn:E.
    + apply from_size_align_iff in E. destruct E as [-> El].
      apply (realloc_effect t c _ i h _ Ht Hinv Hi Hr El). cbn. lia.
    + cbn. apply quiet_same.
  - destruct (live_handle c i) as [h|] eqn:Hi; [|apply Hill].
    destruct (is_raw h) eqn:Hr; [|apply Hill]. apply is_raw_iff in Hr.
    apply (realloc_effect t c _ i h _ Ht Hinv Hi Hr (proj1 Hv) (proj2 Hv)).
  - destruct (live_handle c i) as [h|] eqn:Hi; [|apply Hill].
    destruct (is_raw h); [|apply Hill]. destruct (live_handle_nth c i h Hi) as [Hn _]. cbn.
    apply E_quiet; cbn; try reflexivity. eapply hsub_upd; [exact Hn|reflexivity|reflexivity|cbn; discriminate|cbn; congruence].
  - destruct (live_handle c i) as [h|] eqn:Hi; [|apply Hill].
    destruct (is_raw h); [|apply Hill]. destruct (live_handle_nth c i h Hi) as [Hn _]. cbn.
    apply E_quiet; cbn; try reflexivity. eapply hsub_upd; [exact Hn|reflexivity|reflexivity|cbn; discriminate|cbn; congruence].
  - destruct Hv as [Hl Hlen]. unfold leak. rewrite (get_spec t (sl (ms c)) l Ht Hok Hl).
    assert (0 <= lsize l) by (destruct Hl as [[]]; lia).
    destruct (Z.eqb_spec (lsize l) 0) as [Hz|Hnz].
    + cbn [after_leak fst snd]. apply store_effect; auto. discriminate.
    + destruct (fitsb _ _ _) eqn:Ef.
      * cbn [after_leak fst snd]. apply store_effect; auto; [|discriminate]. right. repeat split; auto. lia.
      * rewrite with_sl_self. apply quiet_same.
  - destruct Hv as (Hl & Hlen & Hlv). unfold leak_at. rewrite (get_at_spec t (sl (ms c)) l lv Ht Hok Hl Hlv).
    assert (0 <= lsize l) by (destruct Hl as [[]]; lia).
    destruct (Z.eqb_spec (lsize l) 0) as [Hz|Hnz].
    + destruct (consumed (sl (ms c)) =? lv); cbn [after_leak fst snd].
      * apply store_effect; auto. discriminate.
      * rewrite with_sl_self. apply quiet_same.
    + destruct (size (storage (sl (ms c))) <? lv); [rewrite with_sl_self; apply quiet_same|].
      destruct (fitsb _ _ _) eqn:Ef; [|rewrite with_sl_self; apply quiet_same].
      destruct (Z.eqb_spec (consumed (sl (ms c))) lv) as [<-|]; [|rewrite with_sl_self; apply quiet_same].
      cbn [after_leak fst snd]. apply store_effect; auto; [|discriminate]. right. repeat split; auto. lia.
  - destruct Hv as [Hl Hlen]. unfold leak_box. rewrite (get_spec t (sl (ms c)) l Ht Hok Hl).
    assert (0 <= lsize l) by (destruct Hl as [[]]; lia).
    destruct (Z.eqb_spec (lsize l) 0) as [Hz|Hnz].
    + cbn [fst snd]. apply store_effect; auto. discriminate.
    + destruct (fitsb _ _ _) eqn:Ef.
      * cbn [fst snd]. apply store_effect; auto; [|discriminate]. right. repeat split; auto. lia.
      * rewrite with_sl_self. apply quiet_same.
  - destruct Hv as (Hl & Hlen & Hlv). unfold leak_box_at. rewrite (get_at_spec t (sl (ms c)) l lv Ht Hok Hl Hlv).
    assert (0 <= lsize l) by (destruct Hl as [[]]; lia).
    destruct (Z.eqb_spec (lsize l) 0) as [Hz|Hnz].
    + destruct (consumed (sl (ms c)) =? lv); cbn [fst snd].
      * apply store_effect; auto. discriminate.
      * rewrite with_sl_self. apply quiet_same.
    + destruct (size (storage (sl (ms c))) <? lv); [rewrite with_sl_self; apply quiet_same|].
      destruct (fitsb _ _ _) eqn:Ef; [|rewrite with_sl_self; apply quiet_same].
      destruct (Z.eqb_spec (consumed (sl (ms c))) lv) as [<-|]; [|rewrite with_sl_self; apply quiet_same].
      cbn [fst snd]. apply store_effect; auto; [|discriminate]. right. repeat split; auto. lia.
  - destruct (live_handle c i) as [h|] eqn:Hi; [|apply Hill].
    destruct (hkind h); try apply Hill. destruct (live_handle_nth c i h Hi) as [Hn _]. cbn.
    apply E_quiet; cbn; try reflexivity. eapply hsub_upd; [exact Hn|reflexivity|reflexivity|cbn; discriminate|cbn; congruence].
  - destruct (live_handle c i) as [h|] eqn:Hi; [|apply Hill].
    destruct (hkind h); try apply Hill. destruct (live_handle_nth c i h Hi) as [Hn Hl]. cbn.
    apply E_quiet; cbn; try reflexivity. eapply hsub_upd; [exact Hn|reflexivity|reflexivity|cbn; auto|cbn; discriminate].
  - destruct (live_handle c i) as [h|] eqn:Hi; [|apply Hill].
    destruct ((0 <=? off) && (off + Z.of_nat (length bs) <=? lsize (hlay h))) eqn:E; [|apply Hill].
    cbn. eapply (E_write t c _ _ _ i h); cbn; try reflexivity; [exact Hi|apply Nat.eqb_refl|].
    apply andb_true_iff in E. destruct E as [E1 E2].
    intros x Hx. unfold mem_write. unfold hblock, in_block in Hx. cbn in Hx.
    destruct (Z.leb_spec (hptr h + off) x), (Z.ltb_spec x (hptr h + off + Z.of_nat (length bs))); cbn; try reflexivity.
    lia.
  - apply Hill.
  - cbn. apply E_reset; reflexivity.
Qed.

(** ** Invariant *)

Lemma below_mono s s' b :
  storage s' = storage s -> consumed s <= consumed s' -> below s b -> below s' b.
Proof. unfold below. intros -> Hc [H|H]; [left; exact H|right; lia]. Qed.

Lemma hsub_nth hs hs' i h' :
  hsub hs hs' -> nth_error hs' i = Some h' ->
  exists h, nth_error hs i = Some h /\ hptr h' = hptr h /\ hlay h' = hlay h /\
            (hlive h' = true -> hlive h = true) /\ (hkind h' = KRaw -> hkind h = KRaw).
Proof.
  intros H. revert i. induction H as [|x y hs hs' Hxy H IH]; intros i Hi; destruct i; cbn in *; try discriminate.
  - injection Hi as <-. eauto.
  - apply IH. exact Hi.
Qed.

Lemma hsub_nth' hs hs' i h :
  hsub hs hs' -> nth_error hs i = Some h ->
  exists h', nth_error hs' i = Some h' /\ hptr h' = hptr h /\ hlay h' = hlay h.
Proof.
  intros H. revert i. induction H as [|x y hs hs' Hxy H IH]; intros i Hi; destruct i; cbn in *; try discriminate.
  - injection Hi as <-. destruct Hxy as (? & ? & ? & ?). eauto.
  - apply IH. exact Hi.
Qed.


Lemma live_handle_intro c i h : nth_error (handles c) i = Some h -> hlive h = true -> live_handle c i = Some h.
Proof. unfold live_handle. intros -> ->. reflexivity. Qed.

Lemma hblock_eq h h' : hptr h' = hptr h -> hlay h' = hlay h -> hblock h' = hblock h.
Proof. unfold hblock. intros -> ->. reflexivity. Qed.

(** A block that is below the level is disjoint from one that starts at it *)
Lemma fresh_disjoint s b p n :
  below s b -> n = 0 \/ start (storage s) + consumed s <= p -> disjoint b (MkBlock p n).
Proof.
  intros Hb Hp. unfold disjoint, in_block. cbn. intros x [H1 H2]. destruct Hb as [Hb|Hb]; lia.
Qed.

Lemma disjoint_sub a b c : disjoint a b -> start b <= start c -> start c + size c <= start b + size b -> disjoint a c.
Proof. unfold disjoint, in_block. intros H H1 H2 x Hx. apply (H x). lia. Qed.

Lemma live_hsub c hs i h' :
  hsub (handles c) hs -> nth_error hs i = Some h' -> hlive h' = true ->
  exists h, live_handle c i = Some h /\ hblock h' = hblock h.
Proof.
  intros Hs Hn Hl. destruct (hsub_nth _ _ _ _ Hs Hn) as (h & H1 & H2 & H3 & H4 & H5).
  exists h. split; [apply live_handle_intro; auto|apply hblock_eq; assumption].
Qed.

Definition hgood (t : target) (s : slab) (h : handle) : Prop :=
  hbelow s h /\ good_block (storage s) (hlay h) (hptr h) /\ valid_layout t (hlay h) /\
  (hkind h = KRaw -> 0 < lsize (hlay h)).

Lemma hgood_mono t s s' h : storage s' = storage s -> consumed s <= consumed s' -> hgood t s h -> hgood t s' h.
Proof.
  unfold hgood. intros Hs Hc (H1 & H2 & H3 & H4). rewrite Hs.
  split; [|split; [|split]]; try assumption. eapply below_mono; eassumption.
Qed.

Lemma hgood_hsub t s hs hs' : hsub hs hs' -> Forall (hgood t s) hs -> Forall (hgood t s) hs'.
Proof.
  intros H. induction H as [|h h' hs hs' Hh H IH]; intros Hg; constructor; inversion Hg; subst.
  - destruct Hh as (E1 & E2 & _ & E3). destruct H2 as (G1 & G2 & G3 & G4).
    unfold hgood, hbelow. rewrite (hblock_eq h h' E1 E2), E1, E2.
    split; [|split; [|split]]; auto.
  - apply IH. assumption.
Qed.

Lemma nth_error_snoc {A} (l : list A) (x : A) i y :
  nth_error (l ++ [x]) i = Some y -> nth_error l i = Some y \/ (i = length l /\ y = x).
Proof.
  destruct (Nat.lt_ge_cases i (length l)) as [H|H].
  - rewrite nth_error_app1 by exact H. auto.
  - rewrite nth_error_app2 by exact H. destruct (i - length l)%nat as [|k] eqn:E; cbn.
    + intros [= <-]. right. split; [lia|reflexivity].
    + destruct k; discriminate.
Qed.

Definition live_disjoint (hs : list handle) : Prop :=
  forall i j hi hj, i <> j -> nth_error hs i = Some hi -> nth_error hs j = Some hj ->
    hlive hi = true -> hlive hj = true -> disjoint (hblock hi) (hblock hj).

Lemma minv_alt t c :
  minv t c <-> ok t (sl (ms c)) /\ Forall (hgood t (sl (ms c))) (handles c) /\ live_disjoint (handles c).
Proof.
  unfold minv, live_disjoint. split; intros (H1 & H2 & H3); split; [assumption|split; [exact H2|]|assumption|split; [exact H2|]].
  - intros i j hi hj Hij Hi Hj Li Lj. apply (H3 i j); auto using live_handle_intro.
  - intros i j hi hj Hij Hi Hj. apply live_handle_nth in Hi, Hj. apply (H3 i j); tauto.
Qed.

Lemma live_disjoint_hsub hs hs' : hsub hs hs' -> live_disjoint hs -> live_disjoint hs'.
Proof.
  intros Hs Hd i j hi hj Hij Hi Hj Li Lj.
  destruct (hsub_nth _ _ _ _ Hs Hi) as (h & A1 & A2 & A3 & A4 & _).
  destruct (hsub_nth _ _ _ _ Hs Hj) as (h' & B1 & B2 & B3 & B4 & _).
  rewrite (hblock_eq h hi A2 A3), (hblock_eq h' hj B2 B3). apply (Hd i j); auto.
Qed.

Lemma live_disjoint_snoc hs h :
  live_disjoint hs -> (forall h', In h' hs -> hlive h' = true -> disjoint (hblock h') (hblock h)) ->
  live_disjoint (hs ++ [h]).
Proof.
  intros Hd Hn i j hi hj Hij Hi Hj Li Lj.
  apply nth_error_snoc in Hi, Hj. destruct Hi as [Hi|[Hi ->]], Hj as [Hj|[Hj ->]].
  - apply (Hd i j); auto.
  - apply Hn; [eapply nth_error_In; exact Hi|exact Li].
  - apply disjoint_sym. apply Hn; [eapply nth_error_In; exact Hj|exact Lj].
  - lia.
Qed.

Lemma effect_minv t c o c' a : minv t c -> effect t c o c' a -> minv t c'.
Proof.
  rewrite !minv_alt. intros (Hok & Hg & Hd) He.
  destruct He as [Hs Hb Hh|hs p l k Hh Hsub Hl Hgb Hok' Hst Hc Hfr Hk Hout _
                 |i h l Hi Hs Hb Hh Hl Hal Hsz _|i h Hi Ht Hs Hh Hout|_ Hs Hb Hh].
  - rewrite Hs. split; [exact Hok|]. split; [eapply hgood_hsub; eassumption|eapply live_disjoint_hsub; eassumption].
  - split; [exact Hok'|]. rewrite Hh. pose proof (hgood_hsub t _ _ _ Hsub Hg) as Hg'. split.
    + apply Forall_app. split.
      * eapply Forall_impl; [|exact Hg']. intros h. apply hgood_mono; assumption.
      * constructor; [|constructor]. unfold hgood, hbelow, below. cbn. rewrite Hst.
        split; [|split; [|split]]; auto.
        destruct Hgb as (_ & _ & _). destruct Hok as [[? _] [? _]]. lia.
    + apply live_disjoint_snoc; [eapply live_disjoint_hsub; eassumption|].
      intros h' Hin _. eapply fresh_disjoint; [|].
      * rewrite Forall_forall in Hg'. apply (Hg' h' Hin).
      * cbn. lia.
  - rewrite Hs, Hh. split; [exact Hok|].
    destruct (live_handle_nth c i h Hi) as [Hn Hlv].
    assert (Hsub : hsub (handles c) (upd (handles c) i (dead h))).
    { eapply hsub_upd; [exact Hn|reflexivity|reflexivity|cbn; discriminate|cbn; congruence]. }
    pose proof (hgood_hsub t _ _ _ Hsub Hg) as Hg'. rewrite Forall_forall in Hg.
    pose proof (Hg h (nth_error_In _ _ Hn)) as (G1 & G2 & G3 & G4). split.
    + apply Forall_app. split; [exact Hg'|]. constructor; [|constructor].
      unfold hgood, hbelow, below in *. cbn. split; [|split; [|split]]; auto.
      * destruct G1 as [G1|G1]; cbn in G1; lia.
      * destruct G2 as (A1 & A2 & A3). split; [exact Hal|]. split; [|exact A3].
        intros x Hx. apply A2. unfold in_block in *. cbn in *. lia.
      * lia.
    + apply live_disjoint_snoc; [eapply live_disjoint_hsub; eassumption|].
      intros h' Hin Hlv'. apply In_nth_error in Hin. destruct Hin as [j Hj].
      destruct (Nat.eq_dec i j) as [<-|Hij].
      { rewrite (nth_error_upd_same _ _ _ _ Hn) in Hj. injection Hj as <-. discriminate. }
      rewrite nth_error_upd_other in Hj by exact Hij.
      pose proof (Hd j i h' h ltac:(lia) Hj Hn Hlv' Hlv) as Hdis.
      eapply disjoint_sub; [exact Hdis| |]; cbn; lia.
  - rewrite Hs, Hh. auto.
  - rewrite Hs, Hh. split; [|split; [constructor|]].
    + destruct Hok as [H1 H2]. split; [exact H1|]. destruct H1 as (_ & ? & _). cbn. lia.
    + intros i j hi hj _ Hi. destruct i; discriminate.
Qed.

Lemma mstep_minv t c o : valid_target t -> minv t c -> valid_op t o -> minv t (fst (mstep t c o)).
Proof. intros Ht Hi Hv. eapply effect_minv; [exact Hi|apply mstep_effect; assumption]. Qed.

Lemma effect_storage t c o c' a : effect t c o c' a -> storage (sl (ms c')) = storage (sl (ms c)).
Proof. destruct 1; try congruence. rewrite H0. reflexivity. Qed.

Lemma mrun_minv t c os : valid_target t -> minv t c -> Forall (valid_op t) os ->
  minv t (fst (mrun t c os)) /\ storage (sl (ms (fst (mrun t c os)))) = storage (sl (ms c)).
Proof.
  intros Ht. revert c. induction os as [|o os IH]; intros c Hi Hv; cbn [mrun]; [auto|].
  inversion Hv; subst. pose proof (mstep_minv t c o Ht Hi ltac:(assumption)) as H'.
  pose proof (effect_storage _ _ _ _ _ (mstep_effect t c o Ht Hi ltac:(assumption))) as Hs.
  destruct (mstep t c o) as [c1 a]. cbn [fst] in *.
  destruct (IH c1 H' ltac:(assumption)) as [G1 G2]. destruct (mrun t c1 os) as [c2 h]. cbn [fst] in *.
  split; [exact G1|congruence].
Qed.

Lemma minv_start t st m : valid_region t st -> minv t (start_client (uninit_slab st m)).
Proof.
  intros H. rewrite minv_alt. cbn. split; [apply ok_fresh; exact H|]. split; [constructor|].
  intros i j hi hj _ Hi. destruct i; discriminate.
Qed.

Lemma mreach_minv t st c : valid_target t -> valid_region t st -> mreach t st c ->
  minv t c /\ storage (sl (ms c)) = st.
Proof.
  intros Ht Hst (m & os & Hv & <-). apply (mrun_minv t _ os Ht (minv_start t st m Hst) Hv).
Qed.

(** ** Handles that a call does not touch *)

Lemma live_handle_app c c' h' i h :
  handles c' = handles c ++ [h'] -> live_handle c i = Some h -> live_handle c' i = Some h.
Proof.
  intros E Hi. destruct (live_handle_nth c i h Hi) as [Hn Hl]. apply live_handle_intro; [|exact Hl].
  rewrite E, nth_error_app1; [exact Hn|]. apply nth_error_Some. congruence.
Qed.

Lemma live_handle_eq c c' i h :
  handles c' = handles c -> live_handle c i = Some h -> live_handle c' i = Some h.
Proof. unfold live_handle. intros -> H. exact H. Qed.

Lemma live_handle_upd c c' j x i h :
  handles c' = upd (handles c) j x -> j <> i -> live_handle c i = Some h -> live_handle c' i = Some h.
Proof.
  intros E Hij Hi. destruct (live_handle_nth c i h Hi) as [Hn Hl]. apply live_handle_intro; [|exact Hl].
  rewrite E, nth_error_upd_other by exact Hij. exact Hn.
Qed.

Lemma live_handle_upd_app c c' j x h' i h :
  handles c' = upd (handles c) j x ++ [h'] -> j <> i -> live_handle c i = Some h -> live_handle c' i = Some h.
Proof.
  intros E Hij Hi. destruct (live_handle_nth c i h Hi) as [Hn Hl]. apply live_handle_intro; [|exact Hl].
  rewrite E, nth_error_app1.
  - rewrite nth_error_upd_other by exact Hij. exact Hn.
  - rewrite upd_length. apply nth_error_Some. congruence.
Qed.

Lemma mstep_untouched t c o i h :
  touches o i = false -> live_handle c i = Some h -> live_handle (fst (mstep t c o)) i = Some h.
Proof.
  intros Ht Hi.
  destruct o as [l|l|l|j n|j l|j|j|l v|l v lv|l v|l v lv|j|j|j off bs| |]; cbn [mstep touches] in *;
    try apply Nat.eqb_neq in Ht; try discriminate.
  1-3: match goal with |- context [after_alloc _ ?r _] => destruct r as [m [[p|]|e]] end; cbn;
       [eapply live_handle_app; [reflexivity|exact Hi] | exact Hi | exact Hi].
  1-2: destruct (live_handle c j) as [hj|] eqn:Hj; [|exact Hi]; destruct (is_raw hj); [|exact Hi];
       match goal with |- context [after_realloc _ _ _ ?r _] => destruct r as [m [[p|]|e]] end; cbn;
       [eapply live_handle_upd_app; [reflexivity|exact Ht|exact Hi] | exact Hi | exact Hi].
  1-2: destruct (live_handle c j) as [hj|] eqn:Hj; [|exact Hi]; destruct (is_raw hj); [|exact Hi]; cbn;
       eapply live_handle_upd; [reflexivity|exact Ht|exact Hi].
  1-2: match goal with |- context [after_leak _ _ _ ?r] => destruct r as [m [[p|]|e]] end; cbn;
       [eapply live_handle_app; [reflexivity|exact Hi] | exact Hi | exact Hi].
  1-2: match goal with |- context [match ?r with (_, _) => _ end] => destruct r as [[m d] [[p|]|e]] end; cbn;
       [eapply live_handle_app; [reflexivity|exact Hi] | exact Hi | exact Hi].
  1-2: destruct (live_handle c j) as [hj|] eqn:Hj; [|exact Hi]; destruct (hkind hj); try exact Hi; cbn;
       eapply live_handle_upd; [reflexivity|exact Ht|exact Hi].
  - destruct (live_handle c j) as [hj|] eqn:Hj; [|exact Hi].
    destruct ((0 <=? off) && _); [|exact Hi]. exact Hi.
  - exact Hi.
Qed.

Lemma mstep_bytes t c o i h :
  valid_target t -> minv t c -> valid_op t o -> touches o i = false -> live_handle c i = Some h ->
  same_on (hblock h) (bytes (ms c)) (bytes (ms (fst (mstep t c o)))).
Proof.
  intros Ht Hinv Hv Htch Hi x Hx.
  pose proof (live_handle_facts t c i h Hinv Hi) as (Hb & _).
  destruct (mstep_effect t c o Ht Hinv Hv) as
    [Hs Hby Hh|hs p l k Hh Hsub Hl Hgb Hok' Hst Hc Hfr Hk Hout _
    |j hj l Hj Hs Hby Hh Hl Hal Hsz _|j hj Hj Htj Hs Hh Hout|_ Hs Hby Hh]; try congruence.
  - apply Hout. intros Hx'. assert (D : disjoint (hblock h) (MkBlock p (lsize l))).
    { eapply fresh_disjoint; [exact Hb|lia]. }
    apply (D x). auto.
  - apply Hout. intros Hx'. assert (Hij : i <> j) by congruence.
    destruct Hinv as (_ & _ & Hd). apply (Hd i j h hj Hij Hi Hj x). auto.
Qed.

Lemma mrun_frame t c os i h :
  valid_target t -> minv t c -> Forall (valid_op t) os -> Forall (fun o => touches o i = false) os ->
  live_handle c i = Some h ->
  live_handle (fst (mrun t c os)) i = Some h /\
  same_on (hblock h) (bytes (ms c)) (bytes (ms (fst (mrun t c os)))).
Proof.
  intros Ht. revert c. induction os as [|o os IH]; intros c Hinv Hv Htch Hi; cbn [mrun].
  { split; [exact Hi|intros x _; reflexivity]. }
  inversion Hv; inversion Htch; subst.
  pose proof (mstep_minv t c o Ht Hinv ltac:(assumption)) as Hinv1.
  pose proof (mstep_untouched t c o i h ltac:(assumption) Hi) as Hi1.
  pose proof (mstep_bytes t c o i h Ht Hinv ltac:(assumption) ltac:(assumption) Hi) as Hb1.
  destruct (mstep t c o) as [c1 a]. cbn [fst] in *.
  destruct (IH c1 Hinv1 ltac:(assumption) ltac:(assumption) Hi1) as [G1 G2].
  destruct (mrun t c1 os) as [c2 hh]. cbn [fst] in *. split; [exact G1|].
  intros x Hx. rewrite (G2 x Hx). apply Hb1. exact Hx.
Qed.

(** ** Reallocation *)

Lemma mem_copy_at m p q n k : 0 <= k < n -> mem_copy m p q n (q + k) = m (p + k).
Proof.
  intros H. unfold mem_copy. destruct (Z.leb_spec q (q + k)), (Z.ltb_spec (q + k) (q + n)); cbn; try lia.
  f_equal. lia.
Qed.

Lemma realloc_exact t c i h l :
  valid_target t -> minv t c -> live_handle c i = Some h -> hkind h = KRaw ->
  valid_layout t l -> 0 < lsize l ->
  let st := storage (sl (ms c)) in
  let r := after_realloc c i h (la_realloc t (ms c) (hptr h) (hlay h) l) l in
  let keep := aligned (hptr h) (lalign l) /\ lsize l <= lsize (hlay h) in
  (keep -> snd r = ABlock (hptr h) /\ ms (fst r) = ms c /\ realloc_done st c i h l (hptr h) (fst r)) /\
  (~ keep -> fits_in st (level (sl (ms c))) l ->
     exists q, snd r = ABlock q /\ q <> hptr h /\ first_aligned (start st + level (sl (ms c))) (lalign l) q /\
               realloc_done st c i h l q (fst r)) /\
  (~ keep -> ~ fits_in st (level (sl (ms c))) l -> r = (c, ANull)).
Proof.
  intros Ht Hinv Hi Hk Hl Hpos. cbv zeta. pose proof Hinv as (Hok & _ & Hd).
  rewrite (la_realloc_spec t (ms c) (hptr h) (hlay h) l Ht Hok Hl Hpos).
  destruct (live_handle_nth c i h Hi) as [Hn Hlv].
  destruct (live_handle_facts t c i h Hinv Hi) as (Hbel & Hgb & Hlh & Hpk). specialize (Hpk Hk).
  pose proof (valid_layout_align t l Hl) as Hal.
  assert (Hcond : (hptr h mod lalign l =? 0) && (lsize l <=? lsize (hlay h)) = true <->
                  aligned (hptr h) (lalign l) /\ lsize l <= lsize (hlay h)).
  { rewrite andb_true_iff, Z.eqb_eq, Z.leb_le. unfold aligned. rewrite <- Z.mod_divide by lia. tauto. }
  assert (Hlen : length (upd (handles c) i (dead h)) = length (handles c)) by apply upd_length.
  assert (Hnew : forall m q, live_handle
      {| ms := m; handles := upd (handles c) i (dead h) ++ [new_handle q l KRaw]; drops := drops c |}
      (length (handles c)) = Some (new_handle q l KRaw)).
  { intros m q. apply live_handle_intro; [|reflexivity]. cbn. rewrite nth_error_app2 by lia.
    rewrite Hlen, Nat.sub_diag. reflexivity. }
  assert (Hdead : forall m q, live_handle
      {| ms := m; handles := upd (handles c) i (dead h) ++ [new_handle q l KRaw]; drops := drops c |}
      i = None).
  { intros m q. unfold live_handle. cbn. rewrite nth_error_app1.
    - rewrite (nth_error_upd_same _ _ _ _ Hn). reflexivity.
    - rewrite Hlen. apply nth_error_Some. congruence. }
  destruct ((hptr h mod lalign l =? 0) && (lsize l <=? lsize (hlay h))) eqn:E.
  - assert (Hkeep : aligned (hptr h) (lalign l) /\ lsize l <= lsize (hlay h)) by (apply Hcond; reflexivity).
    split; [|split; intros Hn'; contradiction]. intros _. cbn [after_realloc fst snd ms].
    split; [reflexivity|]. split; [reflexivity|].
    split; [|split; [apply Hnew|split; [apply Hdead|split; [|split; [|split]]]]]; cbn [ms].
    + destruct Hgb as (A1 & A2 & A3). split; [apply Hkeep|]. split; [|exact A3].
      intros x Hx. apply A2. unfold in_block in *. cbn in *. lia.
    + intros; reflexivity.
    + intros j hj Hij Hj. split; [|split].
      * eapply live_handle_upd_app; [reflexivity| |exact Hj]. congruence.
      * eapply disjoint_sub; [apply (Hd j i hj h Hij Hj Hi)| |]; cbn; lia.
      * intros x _; reflexivity.
    + intros x _; reflexivity.
    + reflexivity.
  - assert (Hnk : ~ (aligned (hptr h) (lalign l) /\ lsize l <= lsize (hlay h))).
    { intros Hx. apply Hcond in Hx. congruence. }
    split; [intros; contradiction|]. pose proof (fitsb_iff t (storage (sl (ms c))) (consumed (sl (ms c))) l Hl) as Hfi.
    unfold fits_now. destruct (fitsb _ _ l) eqn:Ef.
    + split; [|intros _ Hno; exfalso; apply Hno; apply Hfi; reflexivity]. intros _ _.
      destruct (place_facts t (sl (ms c)) l Hok Hl Hpos Ef) as (H1 & H2 & H3 & H4 & H5 & H6).
      exists (place (sl (ms c)) l). cbn [after_realloc fst snd ms bytes with_bytes].
      split; [reflexivity|]. split.
      { unfold hbelow, below in Hbel. cbn in Hbel. lia. }
      split; [apply align_up_first; exact Hal|].
      split; [exact H1|]. split; [apply Hnew|]. split; [apply Hdead|]. cbn [ms bytes with_bytes].
      split; [|split; [|split]].
      * intros k Hk'. apply mem_copy_at. exact Hk'.
      * intros j hj Hij Hj.
        assert (Hdj : disjoint (hblock hj) (MkBlock (place (sl (ms c)) l) (lsize l))).
        { eapply fresh_disjoint; [apply (live_handle_facts t c j hj Hinv Hj)|lia]. }
        split; [|split; [exact Hdj|]].
        -- eapply live_handle_upd_app; [reflexivity| |exact Hj]. congruence.
        -- intros x Hx. apply (mem_copy_outside (bytes (ms c)) (hptr h) _ (lsize l)); [lia|].
           intros Hx'. apply (Hdj x). auto.
      * apply mem_copy_outside. lia.
      * reflexivity.
    + split; [intros _ Hno; exfalso|intros _ _].
      * apply Hfi in Hno. discriminate.
      * cbn [after_realloc]. rewrite client_eta. reflexivity.
Qed.

Lemma ga_realloc_step t c i h n :
  valid_target t -> minv t c -> live_handle c i = Some h -> hkind h = KRaw -> 0 < n ->
  mstep t c (ORealloc i n) =
  match from_size_align t n (lalign (hlay h)) with
  | None => (c, ANull)
  | Some l => after_realloc c i h (la_realloc t (ms c) (hptr h) (hlay h) l) l
  end.
Proof.
  intros Ht Hinv Hi Hk Hn. cbn [mstep]. rewrite Hi.
  destruct (live_handle_facts t c i h Hinv Hi) as (_ & _ & _ & Hpk).
  unfold is_raw. rewrite Hk. rewrite ga_realloc_spec by auto.
  destruct (from_size_align _ _ _) as [l|] eqn:E.
  - apply from_size_align_iff in E. destruct E as [-> _]. reflexivity.
  - cbn [after_realloc]. rewrite client_eta. reflexivity.
Qed.

Lemma la_realloc_step t c i h l :
  live_handle c i = Some h -> hkind h = KRaw ->
  mstep t c (OLocalRealloc i l) = after_realloc c i h (la_realloc t (ms c) (hptr h) (hlay h) l) l.
Proof. intros Hi Hk. cbn [mstep]. rewrite Hi. unfold is_raw. rewrite Hk. reflexivity. Qed.

(** ** Deallocated blocks are not reused *)

Definition avoided (b : block) (c : client) : Prop :=
  below (sl (ms c)) b /\ forall j hj, live_handle c j = Some hj -> disjoint (hblock hj) b.

Lemma effect_avoided t c o c' a b :
  minv t c -> effect t c o c' a -> is_oreset o = false -> avoided b c -> avoided b c'.
Proof.
  intros Hinv He Hr [Hb Hd].
  destruct He as [Hs Hby Hh|hs p l k Hh Hsub Hl Hgb Hok' Hst Hc Hfr Hk Hout _
                 |i h l Hi Hs Hby Hh Hl Hal Hsz _|i h Hi Ht Hs Hh Hout| -> Hs Hby Hh]; [| | | |discriminate].
  - split; [rewrite Hs; exact Hb|]. intros j hj Hj. apply live_handle_nth in Hj. destruct Hj as [Hj Lj].
    destruct (live_hsub c _ j hj Hh Hj Lj) as (h & H1 & ->). apply (Hd j h H1).
  - split; [eapply below_mono; eassumption|]. intros j hj Hj. apply live_handle_nth in Hj. destruct Hj as [Hj Lj].
    rewrite Hh in Hj. apply nth_error_snoc in Hj. destruct Hj as [Hj|[_ ->]].
    + destruct (live_hsub c _ j hj Hsub Hj Lj) as (h & H1 & ->). apply (Hd j h H1).
    + apply disjoint_sym. eapply fresh_disjoint; [exact Hb|]. cbn. lia.
  - split; [rewrite Hs; exact Hb|]. intros j hj Hj. apply live_handle_nth in Hj. destruct Hj as [Hj Lj].
    rewrite Hh in Hj. apply nth_error_snoc in Hj. destruct (live_handle_nth c i h Hi) as [Hn Hlv].
    destruct Hj as [Hj|[_ ->]].
    + destruct (Nat.eq_dec i j) as [<-|Hij].
      { rewrite (nth_error_upd_same _ _ _ _ Hn) in Hj. injection Hj as <-. discriminate. }
      rewrite nth_error_upd_other in Hj by exact Hij. apply (Hd j hj). apply live_handle_intro; assumption.
    + apply disjoint_sym. eapply disjoint_sub; [apply disjoint_sym; apply (Hd i h Hi)| |]; cbn; lia.
  - split; [rewrite Hs; exact Hb|]. intros j hj Hj. unfold live_handle in Hj. rewrite Hh in Hj. apply (Hd j hj Hj).
Qed.

Lemma mrun_avoided t c os b :
  valid_target t -> minv t c -> Forall (valid_op t) os -> Forall (fun o => is_oreset o = false) os ->
  avoided b c -> avoided b (fst (mrun t c os)).
Proof.
  intros Ht. revert c. induction os as [|o os IH]; intros c Hinv Hv Hr Ha; cbn [mrun]; [exact Ha|].
  inversion Hv; inversion Hr; subst.
  pose proof (mstep_minv t c o Ht Hinv ltac:(assumption)) as Hinv1.
  pose proof (effect_avoided t c o _ _ b Hinv (mstep_effect t c o Ht Hinv ltac:(assumption)) ltac:(assumption) Ha) as Ha1.
  destruct (mstep t c o) as [c1 a]. cbn [fst] in *.
  pose proof (IH c1 Hinv1 ltac:(assumption) ltac:(assumption) Ha1) as G.
  destruct (mrun t c1 os) as [c2 hh]. exact G.
Qed.

Lemma dealloc_avoided t c i h (o : op) :
  minv t c -> live_handle c i = Some h -> hkind h = KRaw -> o = ODealloc i \/ o = OLocalDealloc i ->
  ms (fst (mstep t c o)) = ms c /\ snd (mstep t c o) = AUnit /\
  avoided (hblock h) (fst (mstep t c o)).
Proof.
  intros Hinv Hi Hk Ho.
  assert (E : mstep t c o = ({| ms := ms c; handles := upd (handles c) i (dead h); drops := drops c |}, AUnit)).
  { destruct Ho as [->| ->]; cbn [mstep]; rewrite Hi; unfold is_raw; rewrite Hk; reflexivity. }
  rewrite E. cbn. split; [reflexivity|]. split; [reflexivity|]. split; cbn.
  - apply (live_handle_facts t c i h Hinv Hi).
  - intros j hj Hj. apply live_handle_nth in Hj. cbn in Hj. destruct Hj as [Hj Lj].
    destruct (live_handle_nth c i h Hi) as [Hn _]. destruct (Nat.eq_dec i j) as [<-|Hij].
    { rewrite (nth_error_upd_same _ _ _ _ Hn) in Hj. injection Hj as <-. discriminate. }
    rewrite nth_error_upd_other in Hj by exact Hij. destruct Hinv as (_ & _ & Hd).
    apply (Hd j i); auto using live_handle_intro.
Qed.

(** ** Zeroed allocation *)

Lemma mem_fill_at m p n b x : p <= x < p + n -> mem_fill m p n b x = b.
Proof. intros H. unfold mem_fill. destruct (Z.leb_spec p x), (Z.ltb_spec x (p + n)); cbn; try lia. reflexivity. Qed.

Lemma zeroed_exact t c l o :
  valid_target t -> minv t c -> valid_layout t l -> o = OZeroed l \/ o = OLocalZeroed l ->
  sl (ms (fst (mstep t c o))) = sl (ms (fst (mstep t c (OAlloc l)))) /\
  snd (mstep t c o) = snd (mstep t c (OAlloc l)) /\
  handles (fst (mstep t c o)) = handles (fst (mstep t c (OAlloc l))) /\
  match snd (mstep t c o) with
  | ABlock p =>
      (forall x, in_block (MkBlock p (lsize l)) x -> bytes (ms (fst (mstep t c o))) x = Some 0) /\
      same_outside (MkBlock p (lsize l)) (bytes (ms c)) (bytes (ms (fst (mstep t c o))))
  | _ => fst (mstep t c o) = c
  end.
Proof.
  intros Ht Hinv Hl Ho. pose proof Hinv as (Hok & _).
  assert (E : mstep t c o = after_alloc c (ga_alloc_zeroed t (ms c) l) l) by (destruct Ho as [->| ->]; reflexivity).
  rewrite E. cbn [mstep]. unfold ga_alloc_zeroed, ga_alloc. rewrite (bump_alloc_spec t (ms c) l Ht Hok Hl).
  destruct (Z.eqb_spec (lsize l) 0) as [Hz|Hnz].
  { cbn. split; [reflexivity|]. split; [reflexivity|]. split; [reflexivity|]. apply client_eta. }
  destruct (fits_now (ms c) l) eqn:Ef; cbn.
  - split; [reflexivity|]. split; [reflexivity|]. split; [reflexivity|]. split.
    + intros x Hx. unfold in_block in Hx. cbn in Hx. apply mem_fill_at. exact Hx.
    + apply mem_fill_outside.
  - split; [reflexivity|]. split; [reflexivity|]. split; [reflexivity|]. apply client_eta.
Qed.

(** ** Zero-initialised slabs *)

Definition zero_above (c : client) : Prop :=
  forall x, start (storage (sl (ms c))) + consumed (sl (ms c)) <= x <
            start (storage (sl (ms c))) + size (storage (sl (ms c))) -> bytes (ms c) x = Some 0.

Lemma effect_zero_above t c o c' a :
  minv t c -> effect t c o c' a -> is_oreset o = false -> zero_above c -> zero_above c'.
Proof.
  intros Hinv He Hr Hz x. pose proof Hinv as (Hok & Hg & _).
  destruct He as [Hs Hby Hh|hs p l k Hh Hsub Hl Hgb Hok' Hst Hc Hfr Hk Hout _
                 |i h l Hi Hs Hby Hh Hl Hal Hsz _|i h Hi Ht Hs Hh Hout| -> Hs Hby Hh]; [| | | |discriminate].
  - rewrite Hs, Hby. apply Hz.
  - rewrite Hst. intros Hx. rewrite Hout; [apply Hz; lia|]. unfold in_block. cbn. lia.
  - rewrite Hs, Hby. apply Hz.
  - rewrite Hs. intros Hx. rewrite Hout; [apply Hz; lia|].
    destruct (live_handle_facts t c i h Hinv Hi) as (Hb & _).
    unfold hbelow, below in Hb. unfold in_block. lia.
Qed.

Lemma zeroed_start st m : zero_above (start_client (zeroed_slab st m)).
Proof. intros x Hx. cbn in *. apply mem_fill_at. lia. Qed.

Lemma mrun_zero_above t c os :
  valid_target t -> minv t c -> Forall (valid_op t) os -> Forall (fun o => is_oreset o = false) os ->
  zero_above c -> zero_above (fst (mrun t c os)).
Proof.
  intros Ht. revert c. induction os as [|o os IH]; intros c Hinv Hv Hr Ha; cbn [mrun]; [exact Ha|].
  inversion Hv; inversion Hr; subst.
  pose proof (mstep_minv t c o Ht Hinv ltac:(assumption)) as Hinv1.
  pose proof (effect_zero_above t c o _ _ Hinv (mstep_effect t c o Ht Hinv ltac:(assumption)) ltac:(assumption) Ha) as Ha1.
  destruct (mstep t c o) as [c1 a]. cbn [fst] in *.
  pose proof (IH c1 Hinv1 ltac:(assumption) ltac:(assumption) Ha1) as G.
  destruct (mrun t c1 os) as [c2 hh]. exact G.
Qed.

Lemma zeroed_alloc_reads_zero t st m os l p :
  valid_target t -> valid_region t st -> Forall (valid_op t) os ->
  Forall (fun o => is_oreset o = false) os -> valid_layout t l ->
  let c := fst (mrun t (start_client (zeroed_slab st m)) os) in
  snd (mstep t c (OAlloc l)) = ABlock p ->
  forall x, in_block (MkBlock p (lsize l)) x -> bytes (ms (fst (mstep t c (OAlloc l)))) x = Some 0.
Proof.
  intros Ht Hst Hv Hr Hl c Ha x Hx.
  assert (Hinv : minv t c).
  { apply mrun_minv; [exact Ht| |exact Hv]. apply (minv_start t st (mem_fill m (start st) (size st) (Some 0)) Hst). }
  assert (Hz : zero_above c).
  { apply mrun_zero_above; [exact Ht| |exact Hv|exact Hr|apply zeroed_start].
    apply (minv_start t st (mem_fill m (start st) (size st) (Some 0)) Hst). }
  pose proof Hinv as (Hok & _). cbn [mstep] in *. unfold ga_alloc in *.
  rewrite (bump_alloc_spec t (ms c) l Ht Hok Hl) in *.
  destruct (Z.eqb_spec (lsize l) 0) as [E|E]; [discriminate|].
  destruct (fits_now (ms c) l) eqn:Ef; [|discriminate]. cbn in *. injection Ha as <-.
  assert (Hp : 0 < lsize l) by (destruct Hl; lia).
  destruct (place_facts t (sl (ms c)) l Hok Hl Hp Ef) as (H1 & H2 & H3 & H4 & H5 & H6).
  apply Hz. unfold in_block in Hx. cbn in Hx. destruct H1 as (_ & Hin & _).
  apply inside_elim in Hin; cbn in *; lia.
Qed.

(** ** Leaking values *)

Lemma leak_exact t c l v :
  valid_target t -> minv t c -> type_layout t l -> Z.of_nat (length (vbytes v)) = lsize l ->
  let r := mstep t c (OLeak l v) in
  drops (fst r) = drops c /\
  ((exists p, snd r = ABlock p /\ good_block (storage (sl (ms c))) l p /\
      live_handle (fst r) (length (handles c)) = Some (new_handle p l (KRef (vid v))) /\
      reads (bytes (ms (fst r))) p (vbytes v) /\
      same_outside (MkBlock p (lsize l)) (bytes (ms c)) (bytes (ms (fst r)))) /\
   (lsize l = 0 \/ fits_in (storage (sl (ms c))) (level (sl (ms c))) l)
   \/
   r = (c, AGiven v Exhausted) /\ 0 < lsize l /\ ~ fits_in (storage (sl (ms c))) (level (sl (ms c))) l).
Proof.
  intros Ht Hinv Hl Hlen. cbv zeta. pose proof Hinv as (Hok & _). cbn [mstep]. unfold leak.
  rewrite (get_spec t (sl (ms c)) l Ht Hok Hl). assert (0 <= lsize l) by (destruct Hl as [[]]; lia).
  assert (Hnew : forall m q k, live_handle
      {| ms := m; handles := handles c ++ [new_handle q l k]; drops := drops c |}
      (length (handles c)) = Some (new_handle q l k)).
  { intros m q k. apply live_handle_intro; [|reflexivity]. cbn. rewrite nth_error_app2, Nat.sub_diag by lia. reflexivity. }
  destruct (Z.eqb_spec (lsize l) 0) as [Hz|Hnz].
  - cbn [after_leak fst snd ptr drops]. split; [reflexivity|]. left. split; [|left; exact Hz].
    exists (lalign l). split; [reflexivity|]. split; [eapply good_zst; eassumption|]. split; [apply Hnew|]. cbn.
    split; [apply mem_write_reads|]. apply mem_write_outside. lia.
  - pose proof (fitsb_iff t (storage (sl (ms c))) (consumed (sl (ms c))) l (proj1 Hl)) as Hfi.
    destruct (fitsb _ _ l) eqn:Ef.
    + destruct (place_facts t (sl (ms c)) l Hok (proj1 Hl) ltac:(lia) Ef) as (H1 & _).
      cbn [after_leak fst snd ptr placed drops]. split; [reflexivity|]. left. split; [|right; apply Hfi; reflexivity].
      exists (place (sl (ms c)) l). split; [reflexivity|]. split; [exact H1|]. split; [apply Hnew|]. cbn.
      split; [apply mem_write_reads|]. apply mem_write_outside. lia.
    + rewrite with_sl_self. cbn [after_leak fst]. rewrite client_eta. split; [reflexivity|]. right.
      split; [reflexivity|]. split; [lia|]. intros Hf. apply Hfi in Hf. discriminate.
Qed.

Lemma store_stored t c l v k s p :
  valid_target t -> minv t c -> type_layout t l -> Z.of_nat (length (vbytes v)) = lsize l ->
  (lsize l = 0 /\ p = lalign l \/
   0 < lsize l /\ p = place (sl (ms c)) l /\ fits_now (ms c) l = true) ->
  stored (storage (sl (ms c))) c l v k
    {| ms := write_value (with_sl (ms c) s) p v; handles := handles c ++ [new_handle p l k]; drops := drops c |} p.
Proof.
  intros Ht (Hok & _) Hl Hlen Hcase. split; [|split; [|split; [|split]]]; cbn.
  - destruct Hcase as [(Hz & ->)|(Hp & -> & Hf)]; [eapply good_zst; eassumption|].
    apply (place_facts t (sl (ms c)) l Hok (proj1 Hl) Hp Hf).
  - apply live_handle_intro; [|reflexivity]. cbn. rewrite nth_error_app2, Nat.sub_diag by lia. reflexivity.
  - apply mem_write_reads.
  - apply mem_write_outside. lia.
  - reflexivity.
Qed.

Lemma leak_at_exact t c l v lv :
  valid_target t -> minv t c -> type_layout t l -> Z.of_nat (length (vbytes v)) = lsize l ->
  is_usize t lv -> (lsize l = 0 \/ lv <= size (storage (sl (ms c)))) ->
  let r := mstep t c (OLeakAt l v lv) in
  (exists p, snd r = ABlock p /\ stored (storage (sl (ms c))) c l v (KRef (vid v)) (fst r) p) \/
  (exists f, r = (c, AGiven v f)).
Proof.
  intros Ht Hinv Hl Hlen Hlv Hle. cbv zeta. pose proof Hinv as (Hok & _). cbn [mstep]. unfold leak_at.
  rewrite (get_at_spec t (sl (ms c)) l lv Ht Hok Hl Hlv). assert (0 <= lsize l) by (destruct Hl as [[]]; lia).
  destruct (Z.eqb_spec (lsize l) 0) as [Hz|Hnz].
  - destruct (consumed (sl (ms c)) =? lv).
    + cbn [after_leak fst snd ptr]. left. eexists; split; [reflexivity|]. apply (store_stored t); auto.
    + cbn [after_leak]. rewrite with_sl_self, client_eta. eauto.
  - destruct (Z.ltb_spec (size (storage (sl (ms c)))) lv); [lia|].
    destruct (fitsb _ _ l) eqn:Ef; [destruct (Z.eqb_spec (consumed (sl (ms c))) lv) as [<-|]|].
    + cbn [after_leak fst snd ptr placed]. left. eexists; split; [reflexivity|].
      apply (store_stored t); auto. right. repeat split; auto. lia.
    + cbn [after_leak]. rewrite with_sl_self, client_eta. eauto.
    + cbn [after_leak]. rewrite with_sl_self, client_eta. eauto.
Qed.

Lemma leak_box_exact t c l v :
  valid_target t -> minv t c -> type_layout t l -> Z.of_nat (length (vbytes v)) = lsize l ->
  let r := mstep t c (OLeakBox l v) in
  (exists p, snd r = ABlock p /\ stored (storage (sl (ms c))) c l v (KBox (vid v)) (fst r) p) \/
  (snd r = ANull /\ ms (fst r) = ms c /\ handles (fst r) = handles c /\
   drops (fst r) = drops c ++ [(vid v, vbytes v)]).
Proof.
  intros Ht Hinv Hl Hlen. cbv zeta. pose proof Hinv as (Hok & _). cbn [mstep]. unfold leak_box.
  rewrite (get_spec t (sl (ms c)) l Ht Hok Hl). assert (0 <= lsize l) by (destruct Hl as [[]]; lia).
  destruct (Z.eqb_spec (lsize l) 0) as [Hz|Hnz].
  - cbn [fst snd ptr]. left. eexists; split; [reflexivity|]. apply (store_stored t); auto.
  - destruct (fitsb _ _ l) eqn:Ef.
    + cbn [fst snd ptr placed]. left. eexists; split; [reflexivity|].
      apply (store_stored t); auto. right. repeat split; auto. lia.
    + cbn. rewrite with_sl_self. right. auto.
Qed.

Lemma leak_box_at_exact t c l v lv :
  valid_target t -> minv t c -> type_layout t l -> Z.of_nat (length (vbytes v)) = lsize l ->
  is_usize t lv ->
  let r := mstep t c (OLeakBoxAt l v lv) in
  (exists p, snd r = ABlock p /\ stored (storage (sl (ms c))) c l v (KBox (vid v)) (fst r) p) \/
  ((forall p, snd r <> ABlock p) /\ ms (fst r) = ms c /\ handles (fst r) = handles c /\
   drops (fst r) = drops c ++ [(vid v, vbytes v)]).
Proof.
  intros Ht Hinv Hl Hlen Hlv. cbv zeta. pose proof Hinv as (Hok & _). cbn [mstep]. unfold leak_box_at.
  rewrite (get_at_spec t (sl (ms c)) l lv Ht Hok Hl Hlv). assert (0 <= lsize l) by (destruct Hl as [[]]; lia).
  destruct (Z.eqb_spec (lsize l) 0) as [Hz|Hnz].
  - destruct (consumed (sl (ms c)) =? lv).
    + cbn [fst snd ptr]. left. eexists; split; [reflexivity|]. apply (store_stored t); auto.
    + cbn. rewrite with_sl_self. right. repeat split; discriminate.
  - destruct (size (storage (sl (ms c))) <? lv).
    { cbn. rewrite with_sl_self. right. repeat split; discriminate. }
    destruct (fitsb _ _ l) eqn:Ef; [destruct (Z.eqb_spec (consumed (sl (ms c))) lv) as [<-|]|].
    + cbn [fst snd ptr placed]. left. eexists; split; [reflexivity|].
      apply (store_stored t); auto. right. repeat split; auto. lia.
    + cbn. rewrite with_sl_self. right. repeat split; discriminate.
    + cbn. rewrite with_sl_self. right. repeat split; discriminate.
Qed.

(** ** Every value is dropped at most once *)

Fixpoint boxids (hs : list handle) : list nat :=
  match hs with
  | [] => []
  | h :: hs' => match hkind h, hlive h with
                | KBox id, true => id :: boxids hs'
                | _, _ => boxids hs'
                end
  end.

Definition cnt (id : nat) (l : list nat) : nat := count_occ Nat.eq_dec l id.

Lemma cnt_app id a b : cnt id (a ++ b) = (cnt id a + cnt id b)%nat.
Proof. apply count_occ_app. Qed.

Lemma cnt_cons id x l : cnt id (x :: l) = ((if Nat.eqb x id then 1 else 0) + cnt id l)%nat.
Proof.
  unfold cnt. cbn. destruct (Nat.eq_dec x id) as [->|H]; [rewrite Nat.eqb_refl; reflexivity|].
  apply Nat.eqb_neq in H. rewrite H. reflexivity.
Qed.

Arguments cnt : simpl never.
Lemma cnt_nil id : cnt id [] = 0%nat.
Proof. reflexivity. Qed.

Lemma boxids_app a b : boxids (a ++ b) = boxids a ++ boxids b.
Proof.
  induction a as [|h a IH]; cbn; [reflexivity|]. destruct (hkind h), (hlive h); cbn; rewrite IH; reflexivity.
Qed.

Definition is_live_box (h : handle) (id : nat) : nat :=
  match hkind h, hlive h with KBox j, true => if Nat.eqb j id then 1 else 0 | _, _ => 0 end%nat.

Lemma boxids_upd id hs i h h' :
  nth_error hs i = Some h ->
  (cnt id (boxids (upd hs i h')) + is_live_box h id = cnt id (boxids hs) + is_live_box h' id)%nat.
Proof.
  revert i. induction hs as [|x hs IH]; intros i Hi; destruct i; cbn [upd nth_error] in *; try discriminate.
  - injection Hi as ->. unfold is_live_box. cbn [boxids].
    destruct (hkind h), (hlive h), (hkind h'), (hlive h'); rewrite ?cnt_cons; lia.
  - specialize (IH i Hi). cbn [boxids]. destruct (hkind x), (hlive x); rewrite ?cnt_cons; lia.
Qed.

Definition owned (id : nat) (c : client) : nat :=
  (cnt id (map fst (drops c)) + cnt id (boxids (handles c)))%nat.
Definition op_cnt (o : op) (id : nat) : nat :=
  match op_value o with Some v => if Nat.eqb (vid v) id then 1 else 0 | None => 0 end%nat.

Lemma cnt_map_snoc id (d : drop_log) i b :
  cnt id (map fst (d ++ [(i, b)])) = (cnt id (map fst d) + (if Nat.eqb i id then 1 else 0))%nat.
Proof. rewrite map_app, cnt_app. cbn. rewrite cnt_cons, cnt_nil. lia. Qed.

Lemma mstep_owned t c o id : (owned id (fst (mstep t c o)) <= owned id c + op_cnt o id)%nat.
Proof.
  unfold owned. destruct o as [l|l|l|i n|i l|i|i|l v|l v lv|l v|l v lv|i|i|i off bs| |];
    cbn [mstep op_cnt op_value]; try (cbn; lia).
  1-3: match goal with |- context [after_alloc _ ?r _] => destruct r as [m [[p|]|e]] end; cbn;
       rewrite ?boxids_app, ?app_nil_r; cbn; rewrite ?app_nil_r; lia.
  1-2: destruct (live_handle c i) as [h|] eqn:Hi; [|cbn; lia]; destruct (is_raw h) eqn:Hr; [|cbn; lia];
       apply live_handle_nth in Hi; destruct Hi as [Hn Hl]; apply is_raw_iff in Hr;
       pose proof (boxids_upd id (handles c) i h (dead h) Hn) as Hu;
       match goal with |- context [after_realloc _ _ _ ?r _] => destruct r as [m [[p|]|e]] end; cbn;
       rewrite ?boxids_app; cbn; rewrite ?app_nil_r;
       unfold is_live_box in Hu; cbn in Hu; rewrite Hr in Hu; lia.
  1-2: destruct (live_handle c i) as [h|] eqn:Hi; [|cbn; lia]; destruct (is_raw h) eqn:Hr; [|cbn; lia];
       apply live_handle_nth in Hi; destruct Hi as [Hn Hl]; apply is_raw_iff in Hr;
       pose proof (boxids_upd id (handles c) i h (dead h) Hn) as Hu; cbn;
       unfold is_live_box in Hu; cbn in Hu; rewrite Hr in Hu; lia.
  1-2: match goal with |- context [after_leak _ _ _ ?r] => destruct r as [m [[p|]|e]] end; cbn;
       rewrite ?boxids_app, ?app_nil_r; cbn; rewrite ?app_nil_r; lia.
  - unfold leak_box. destruct (get t (sl (ms c)) l) as [s [[a|]|e]]; cbn.
    + rewrite boxids_app, cnt_app. cbn. rewrite cnt_cons, cnt_nil. lia.
    + rewrite cnt_map_snoc. lia.
    + rewrite cnt_map_snoc. lia.
  - unfold leak_box_at. destruct (get_at t (sl (ms c)) l lv) as [s [[a|]|e]]; cbn.
    + rewrite boxids_app, cnt_app. cbn. rewrite cnt_cons, cnt_nil. lia.
    + rewrite cnt_map_snoc. lia.
    + rewrite cnt_map_snoc. lia.
  - destruct (live_handle c i) as [h|] eqn:Hi; [|cbn; lia]. destruct (hkind h) eqn:Hk; try (cbn; lia).
    apply live_handle_nth in Hi. destruct Hi as [Hn Hl].
    pose proof (boxids_upd id (handles c) i h (dead h) Hn) as Hu.
    cbn. unfold leakbox_drop. rewrite cnt_map_snoc. unfold is_live_box in Hu. cbn in Hu. rewrite Hk, Hl in Hu.
    lia.
  - destruct (live_handle c i) as [h|] eqn:Hi; [|cbn; lia]. destruct (hkind h) eqn:Hk; try (cbn; lia).
    apply live_handle_nth in Hi. destruct Hi as [Hn Hl].
    pose proof (boxids_upd id (handles c) i h (as_ref h id0) Hn) as Hu.
    cbn. unfold is_live_box in Hu. cbn in Hu. rewrite Hk, Hl in Hu. lia.
  - destruct (live_handle c i) as [h|]; [|cbn; lia]. destruct ((0 <=? off) && _); cbn; lia.
  - cbn. rewrite cnt_nil. lia.
Qed.

Lemma ids_cons o os id : cnt id (ids (o :: os)) = (op_cnt o id + cnt id (ids os))%nat.
Proof. unfold op_cnt. cbn [ids]. destruct (op_value o); [apply cnt_cons|reflexivity]. Qed.

Lemma mrun_owned t c os id :
  (owned id (fst (mrun t c os)) <= owned id c + cnt id (ids os))%nat.
Proof.
  revert c. induction os as [|o os IH]; intros c; cbn [mrun]; [cbn [fst]; lia|].
  rewrite ids_cons. pose proof (mstep_owned t c o id) as H1.
  destruct (mstep t c o) as [c1 a]. cbn [fst] in H1. specialize (IH c1). destruct (mrun t c1 os) as [c2 h].
  cbn [fst] in *. lia.
Qed.

Lemma owned_start id m : owned id (start_client m) = 0%nat.
Proof. reflexivity. Qed.

Lemma dropped_at_most_once t m os id :
  NoDup (ids os) -> (times_dropped id (fst (mrun t (start_client m) os)) <= 1)%nat.
Proof.
  intros Hn. pose proof (mrun_owned t (start_client m) os id) as H.
  assert (cnt id (ids os) <= 1)%nat by (unfold cnt; apply NoDup_count_occ; exact Hn).
  rewrite owned_start in H. unfold owned in H. unfold times_dropped. unfold cnt in *. lia.
Qed.

(** A live box is not dropped yet *)
Lemma boxids_in hs i h id : nth_error hs i = Some h -> hkind h = KBox id -> hlive h = true ->
  (1 <= cnt id (boxids hs))%nat.
Proof.
  intros Hn Hk Hl. pose proof (boxids_upd id hs i h (dead h) Hn) as Hu.
  unfold is_live_box in Hu. cbn in Hu. rewrite Hk, Hl, Nat.eqb_refl in Hu. lia.
Qed.

Lemma live_box_not_dropped t m os i h id :
  NoDup (ids os) -> let c := fst (mrun t (start_client m) os) in
  live_handle c i = Some h -> hkind h = KBox id -> times_dropped id c = 0%nat.
Proof.
  intros Hn c Hi Hk. pose proof (mrun_owned t (start_client m) os id) as H. fold c in H.
  assert (cnt id (ids os) <= 1)%nat by (unfold cnt; apply NoDup_count_occ; exact Hn).
  apply live_handle_nth in Hi. destruct Hi as [Hi Hl]. pose proof (boxids_in _ _ _ _ Hi Hk Hl).
  rewrite owned_start in H. unfold owned in H. unfold times_dropped. unfold cnt in *. lia.
Qed.

(** Values given to leak/leak_at are never dropped by the allocator: their identity can not enter the
    log if it enters the history through leak or leak_at only. *)
Definition bop_cnt (o : op) (id : nat) : nat := if boxing o then op_cnt o id else 0%nat.

Lemma mstep_owned_box t c o id : (owned id (fst (mstep t c o)) <= owned id c + bop_cnt o id)%nat.
Proof.
  destruct (boxing o) eqn:E; unfold bop_cnt; rewrite E; [apply mstep_owned|].
  pose proof (mstep_owned t c o id) as H.
  destruct o as [l|l|l|i n|i l|i|i|l v|l v lv|l v|l v lv|i|i|i off bs| |]; cbn [op_cnt op_value] in H;
    try discriminate; try exact H.
  - clear H. unfold owned. cbn [mstep].
    match goal with |- context [after_leak _ _ _ ?r] => destruct r as [m [[p|]|e]] end; cbn;
       rewrite ?boxids_app, ?app_nil_r; cbn; rewrite ?app_nil_r; lia.
  - clear H. unfold owned. cbn [mstep].
    match goal with |- context [after_leak _ _ _ ?r] => destruct r as [m [[p|]|e]] end; cbn;
       rewrite ?boxids_app, ?app_nil_r; cbn; rewrite ?app_nil_r; lia.
Qed.

Lemma leaked_never_dropped t m os id :
  (forall o v, In o os -> boxing o = true -> op_value o = Some v -> vid v <> id) ->
  times_dropped id (fst (mrun t (start_client m) os)) = 0%nat.
Proof.
  intros Hb.
  assert (G : forall c, (owned id (fst (mrun t c os)) <= owned id c)%nat).
  { induction os as [|o os IH]; intros c; cbn [mrun]; [cbn; lia|].
    pose proof (mstep_owned_box t c o id) as H1.
    assert (bop_cnt o id = 0%nat) as E.
    { unfold bop_cnt, op_cnt. destruct (boxing o) eqn:Eb; [|reflexivity].
      destruct (op_value o) as [v|] eqn:Ev; [|reflexivity].
      pose proof (Hb o v (or_introl eq_refl) Eb Ev) as Hne. apply Nat.eqb_neq in Hne. rewrite Hne. reflexivity. }
    destruct (mstep t c o) as [c1 a]. cbn [fst] in H1.
    assert (Hb' : forall o v, In o os -> boxing o = true -> op_value o = Some v -> vid v <> id).
    { intros o' v' Hin. apply Hb. right. exact Hin. }
    specialize (IH Hb' c1). destruct (mrun t c1 os) as [c2 h]. cbn [fst] in *. lia. }
  specialize (G (start_client m)). rewrite owned_start in G. unfold owned in G. unfold times_dropped.
  unfold cnt in *. lia.
Qed.

Lemma mem_read_same m m' p n :
  (forall x, p <= x < p + n -> m' x = m x) -> mem_read m' p n = mem_read m p n.
Proof.
  intros H. unfold mem_read. apply map_ext_in. intros k Hk. apply in_seq in Hk. apply H. lia.
Qed.

Lemma nth_error_ext {A} (l l' : list A) : (forall k, nth_error l k = nth_error l' k) -> l = l'.
Proof.
  revert l'. induction l as [|x l IH]; intros l' H; destruct l' as [|y l'].
  - reflexivity.
  - specialize (H 0%nat). discriminate.
  - specialize (H 0%nat). discriminate.
  - pose proof (H 0%nat) as H0. cbn in H0. injection H0 as ->. f_equal. apply IH. intros k. apply (H (S k)).
Qed.

Lemma reads_mem_read m p bs : reads m p bs -> mem_read m p (Z.of_nat (length bs)) = bs.
Proof.
  intros H. unfold mem_read. rewrite Nat2Z.id. apply nth_error_ext. intros k.
  destruct (nth_error bs k) as [b|] eqn:E.
  - rewrite nth_error_map. assert (k < length bs)%nat by (apply nth_error_Some; congruence).
    rewrite (nth_error_nth' (seq 0 (length bs)) 0%nat) by (rewrite seq_length; lia).
    rewrite seq_nth by lia. cbn. f_equal. apply H. exact E.
  - apply nth_error_None in E. rewrite nth_error_map.
    assert (nth_error (seq 0 (length bs)) k = None) as ->; [|reflexivity].
    apply nth_error_None. rewrite seq_length. exact E.
Qed.

Lemma box_drop_sees t c l v os p i :
  valid_target t -> minv t c -> Forall (valid_op t) os ->
  let k := length (handles c) in
  forall o, o = OLeakBox l v \/ (exists lv, o = OLeakBoxAt l v lv) -> valid_op t o ->
  snd (mstep t c o) = ABlock p -> i = k ->
  Forall (fun o => touches o i = false) os ->
  let c1 := fst (mstep t c o) in
  let c2 := fst (mrun t c1 os) in
  snd (mstep t c2 (OBoxDrop i)) = AUnit /\
  drops (fst (mstep t c2 (OBoxDrop i))) = drops c2 ++ [(vid v, vbytes v)].
Proof.
  intros Ht Hinv Hos k o Ho Hv Ha -> Htch c1 c2.
  assert (Hst : stored (storage (sl (ms c))) c l v (KBox (vid v)) c1 p /\ Z.of_nat (length (vbytes v)) = lsize l).
  { destruct Ho as [->|[lv ->]].
    - destruct Hv as [Hl Hlen]. split; [|exact Hlen].
      destruct (leak_box_exact t c l v Ht Hinv Hl Hlen) as [(q & E & H)|(E & _)]; [|congruence].
      rewrite Ha in E. injection E as <-. exact H.
    - destruct Hv as (Hl & Hlen & Hlv). split; [|exact Hlen].
      destruct (leak_box_at_exact t c l v lv Ht Hinv Hl Hlen Hlv) as [(q & E & H)|(E & _)].
      + rewrite Ha in E. injection E as <-. exact H.
      + exfalso. apply (E p). exact Ha. }
  destruct Hst as [(_ & Hh & Hr & _ & _) Hlen].
  pose proof (mstep_minv t c o Ht Hinv Hv) as Hinv1. fold c1 in Hinv1.
  destruct (mrun_frame t c1 os k _ Ht Hinv1 Hos Htch Hh) as [Hh2 Hb2]. fold c2 in Hh2, Hb2.
  cbn [mstep]. rewrite Hh2. cbn. split; [reflexivity|]. unfold leakbox_drop. f_equal. f_equal. f_equal.
  rewrite <- Hlen. etransitivity; [|apply reads_mem_read; exact Hr].
  apply mem_read_same. intros x Hx. apply Hb2. unfold hblock, in_block. cbn. lia.
Qed.
