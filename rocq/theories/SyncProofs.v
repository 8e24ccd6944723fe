(** * Proofs about the sequential behaviour of the thread-safe bump. *)
From Verif Require Import Base Spec BaseFacts SyncModel SyncSpec.

Lemma valid_layout_align t l : valid_layout t l -> 0 < lalign l.
Proof. intros (_ & H & _). apply pow2_pos; exact H. Qed.

Lemma align_divides_space t l : valid_target t -> valid_layout t l -> (lalign l | addr_space t).
Proof.
  intros Ht (_ & Hp & Hle & _). apply pow2_divide; [exact Hp| |].
  - exists (8 * word_bytes t). split; [destruct Ht as ([H|[H|H]] & _); lia|reflexivity].
  - pose proof (isize_lt_usize t Ht). lia.
Qed.

(** The wrapping pointer arithmetic computes the exact padding. *)
Lemma align_offset_wrapped t l x :
  valid_target t -> valid_layout t l ->
  align_offset1 (wrap t x) (lalign l) = align_up x (lalign l) - x.
Proof.
  intros Ht Hl. unfold align_offset1, align_up, wrap.
  pose proof (valid_layout_align t l Hl) as Ha.
  destruct (align_divides_space t l Ht Hl) as [k Hk].
  pose proof (addr_space_pos t Ht) as Hs.
  replace (- (x mod addr_space t)) with (- x + (x / addr_space t * k) * lalign l).
  - rewrite Z.mod_add by lia. lia.
  - pose proof (Z.div_mod x (addr_space t) ltac:(lia)) as Hd.
    rewrite <- Z.mul_assoc, <- Hk. lia.
Qed.

Definition fitsb (st : block) (used : Z) (l : layout) : bool :=
  align_up (start st + used) (lalign l) + lsize l <=? start st + size st.

Lemma fitsb_iff t st used l : valid_layout t l -> fitsb st used l = true <-> fits_in st used l.
Proof.
  intros Hl. rewrite (fits_in_iff st used l) by (eapply valid_layout_align; eassumption).
  unfold fitsb. apply Z.leb_le.
Qed.

Lemma prepare_spec t st l e :
  valid_target t -> valid_region t st -> valid_layout t l -> 0 < lsize l -> 0 <= e <= size st ->
  prepare t st l e =
  let a := align_up (start st + e) (lalign l) in
  if fitsb st e l
  then Ret (ACas e (a + lsize l - start st) (a - start st))
  else Ret AExhausted.
Proof.
  intros Ht (Hst1 & Hst2 & Hst3) Hl Hpos He. cbv zeta. unfold fitsb.
  pose proof (valid_layout_align t l Hl) as Ha.
  pose proof (isize_lt_usize t Ht) as Hsz.
  pose proof (align_up_ge (start st + e) (lalign l) Ha) as Hup.
  unfold prepare. unfold wrapping_add. rewrite (align_offset_wrapped t l _ Ht Hl).
  set (a := align_up (start st + e) (lalign l)) in *.
  destruct (Z.ltb_spec 0 (lsize l)) as [_|?]; [|lia].
  destruct (Z.leb_spec e (size st)) as [_|?]; [|lia].
  unfold checked_sub. destruct (Z.leb_spec e (size st)) as [_|?]; [|lia].
  cbn [unwrap obind]. unfold saturating_sub.
  destruct (Z.leb_spec (a + lsize l) (start st + size st)) as [Hfit|Hno].
  - destruct (Z.leb_spec (a - (start st + e)) (size st - e)) as [_|?]; [|lia].
    destruct (Z.ltb_spec (size st - e - (a - (start st + e))) (lsize l)) as [?|_]; [lia|].
    destruct (Z.ltb_spec (a - (start st + e)) (size st - e)) as [_|?]; [|lia].
    unfold checked_add, usize_max.
    destruct (Z.leb_spec (e + (a - (start st + e))) (addr_space t - 1)) as [_|?]; [|lia].
    cbn [unwrap obind].
    destruct (Z.leb_spec (e + (a - (start st + e)) + lsize l) (addr_space t - 1)) as [_|?]; [|lia].
    cbn [unwrap obind].
    destruct (Z.leb_spec (e + (a - (start st + e)) + lsize l) (size st)) as [_|?]; [|lia].
    destruct (Z.ltb_spec (e + (a - (start st + e))) (size st)) as [_|?]; [|lia].
    destruct (Z.leb_spec e (e + (a - (start st + e)) + lsize l)) as [_|?]; [|lia].
    f_equal. f_equal; lia.
  - destruct (Z.leb_spec (a - (start st + e)) (size st - e)) as [?|?].
    + destruct (Z.ltb_spec (size st - e - (a - (start st + e))) (lsize l)) as [_|?]; [reflexivity|lia].
    + destruct (Z.ltb_spec 0 (lsize l)) as [_|?]; [reflexivity|lia].
Qed.

Lemma prepare_panics t st l e :
  valid_target t -> valid_region t st -> valid_layout t l -> 0 <= e ->
  (lsize l = 0 \/ size st < e) -> exists m, prepare t st l e = Panic m.
Proof.
  intros Ht Hst Hl He [H|H]; unfold prepare.
  - rewrite H. exists P_size. reflexivity.
  - destruct (0 <? lsize l); [|eauto].
    destruct (Z.leb_spec e (size st)); [lia|]. eauto.
Qed.

(** ** Invariant *)
Definition ok (t : target) (s : slab) : Prop :=
  valid_region t (storage s) /\ 0 <= consumed s <= size (storage s).

Lemma ok_fresh t st : valid_region t st -> ok t (fresh st).
Proof. intros H. split; [exact H|]. destruct H as (_ & H & _). cbn. lia. Qed.

(** The atomic sequential specification: where an allocation in state [s] goes. *)
Definition place (s : slab) (l : layout) : Z := align_up (start (storage s) + consumed s) (lalign l).
Definition bumped (s : slab) (l : layout) : slab :=
  {| storage := storage s; consumed := place s l + lsize l - start (storage s) |}.
Definition placed (s : slab) (l : layout) : allocation :=
  {| ptr := place s l; alevel := place s l + lsize l - start (storage s) |}.

Lemma slab_eta s c : c = consumed s -> {| storage := storage s; consumed := c |} = s.
Proof. intros ->. destruct s; reflexivity. Qed.

Lemma try_alloc_at_spec t s l e :
  valid_target t -> ok t s -> valid_layout t l -> 0 < lsize l -> 0 <= e <= size (storage s) ->
  try_alloc_at t s l e =
  if fitsb (storage s) e l then
    if consumed s =? e then (bumped s l, Ret (ROk (placed s l)))
    else (s, Ret (RErr (Mismatch (consumed s))))
  else (s, Ret (RErr Exhausted)).
Proof.
  intros Ht [Hst Hc] Hl Hpos He. unfold try_alloc_at.
  rewrite (prepare_spec t _ l e Ht Hst Hl Hpos He). cbv zeta.
  destruct (fitsb (storage s) e l) eqn:Hf; [|reflexivity].
  unfold compare_exchange.
  destruct (Z.eqb_spec (consumed s) e) as [<-|Hne].
  - unfold finish, bumped, placed, place.
    pose proof (align_up_ge (start (storage s) + consumed s) (lalign l) (valid_layout_align t l Hl)).
    destruct Hst as (Hst1 & _).
    replace (start (storage s) + (align_up (start (storage s) + consumed s) (lalign l) - start (storage s)))
      with (align_up (start (storage s) + consumed s) (lalign l)) by lia.
    destruct (Z.eqb_spec (align_up (start (storage s) + consumed s) (lalign l)) 0) as [?|_]; [lia|].
    reflexivity.
  - rewrite slab_eta; reflexivity.
Qed.

Lemma try_alloc_at_panic t s l e :
  valid_target t -> ok t s -> valid_layout t l -> 0 <= e ->
  (lsize l = 0 \/ size (storage s) < e) ->
  exists m, try_alloc_at t s l e = (s, Panic m).
Proof.
  intros Ht [Hst Hc] Hl He Hbad. unfold try_alloc_at.
  destruct (prepare_panics t _ l e Ht Hst Hl He Hbad) as [m ->]. eauto.
Qed.

Lemma fitsb_antimono st u u' l : 0 < lalign l -> u <= u' -> fitsb st u' l = true -> fitsb st u l = true.
Proof.
  unfold fitsb. intros Ha Hu H. pose proof (align_up_mono (start st + u) (start st + u') (lalign l) Ha). lia.
Qed.

Lemma try_alloc_fuel t s l n :
  valid_target t -> ok t s -> valid_layout t l -> 0 < lsize l ->
  try_alloc_loop (S (S n)) t s l 0 =
  if fitsb (storage s) (consumed s) l then (bumped s l, Ret (Some (placed s l)))
  else (s, Ret None).
Proof.
  intros Ht Hok Hl Hpos.
  assert (0 <= 0 <= size (storage s)) as H0 by (destruct Hok as [_ Hc]; lia).
  assert (0 <= consumed s <= size (storage s)) as Hc by (destruct Hok as [_ Hc]; lia).
  cbn [try_alloc_loop].
  rewrite (try_alloc_at_spec t s l 0 Ht Hok Hl Hpos H0).
  destruct (fitsb (storage s) 0 l) eqn:Hf0.
  - destruct (Z.eqb_spec (consumed s) 0) as [Hz|Hnz].
    + rewrite Hz, Hf0. reflexivity.
    + rewrite (try_alloc_at_spec t s l (consumed s) Ht Hok Hl Hpos Hc).
      destruct (fitsb (storage s) (consumed s) l) eqn:Hf; [|reflexivity].
      rewrite Z.eqb_refl. reflexivity.
  - destruct (fitsb (storage s) (consumed s) l) eqn:Hf; [|reflexivity].
    assert (fitsb (storage s) 0 l = true) as Hcontra; [|congruence].
    eapply fitsb_antimono; [eapply valid_layout_align; eassumption| |exact Hf]. lia.
Qed.

Lemma try_alloc_spec t s l :
  valid_target t -> ok t s -> valid_layout t l -> 0 < lsize l ->
  try_alloc t s l =
  if fitsb (storage s) (consumed s) l then (bumped s l, Ret (Some (placed s l)))
  else (s, Ret None).
Proof. intros. unfold try_alloc. apply try_alloc_fuel; assumption. Qed.

Lemma try_alloc_panic t s l :
  valid_target t -> ok t s -> valid_layout t l -> lsize l = 0 ->
  exists m, try_alloc t s l = (s, Panic m).
Proof.
  intros Ht Hok Hl Hz. unfold try_alloc. cbn [try_alloc_loop].
  destruct (try_alloc_at_panic t s l 0 Ht Hok Hl) as [m ->]; [lia|left; exact Hz|]. eauto.
Qed.

(** ** The step function against the atomic specification *)
Definition spec_step (t : target) (s : slab) (c : call) : slab * response :=
  match c with
  | CAlloc l =>
      if lsize l =? 0 then (s, RPanic P_size)
      else if fitsb (storage s) (consumed s) l then (bumped s l, RBlock (placed s l)) else (s, RNone)
  | CGet l =>
      if lsize l =? 0 then (s, RBlock {| ptr := lalign l; alevel := consumed s |})
      else if fitsb (storage s) (consumed s) l then (bumped s l, RBlock (placed s l)) else (s, RNone)
  | CAllocAt l lv =>
      if lsize l =? 0 then (s, RPanic P_size)
      else if size (storage s) <? lv then (s, RPanic P_expect)
      else if fitsb (storage s) lv l then
             if consumed s =? lv then (bumped s l, RBlock (placed s l))
             else (s, RFail (Mismatch (consumed s)))
           else (s, RFail Exhausted)
  | CGetAt l lv =>
      if lsize l =? 0 then
        if consumed s =? lv then (s, RBlock {| ptr := lalign l; alevel := consumed s |})
        else (s, RFail (Mismatch (consumed s)))
      else if size (storage s) <? lv then (s, RPanic P_expect)
      else if fitsb (storage s) lv l then
             if consumed s =? lv then (bumped s l, RBlock (placed s l))
             else (s, RFail (Mismatch (consumed s)))
           else (s, RFail Exhausted)
  | CLevel => (s, RLevel (consumed s))
  | CReset => ({| storage := storage s; consumed := 0 |}, RUnit)
  end.

Lemma alloc_at_zero t s l lv : lsize l = 0 -> try_alloc_at t s l lv = (s, Panic P_size).
Proof. intros Hz. unfold try_alloc_at, prepare. rewrite Hz. reflexivity. Qed.

Lemma alloc_at_beyond t s l lv : 0 < lsize l -> size (storage s) < lv ->
  try_alloc_at t s l lv = (s, Panic P_expect).
Proof.
  intros Hp Hlv. unfold try_alloc_at, prepare.
  destruct (Z.ltb_spec 0 (lsize l)); [|lia]. destruct (Z.leb_spec lv (size (storage s))); [lia|].
  reflexivity.
Qed.

Lemma step_spec t s c :
  valid_target t -> ok t s -> valid_call t c -> step t s c = spec_step t s c.
Proof.
  intros Ht Hok Hc. destruct c as [l|l lv|l|l lv| |]; cbn [step spec_step valid_call] in *.
  - assert (0 <= lsize l) by (destruct Hc; lia).
    destruct (Z.eqb_spec (lsize l) 0) as [Hz|Hnz].
    + unfold try_alloc. cbn [try_alloc_loop]. rewrite (alloc_at_zero t s l 0 Hz). reflexivity.
    + rewrite (try_alloc_spec t s l Ht Hok Hc) by lia.
      destruct (fitsb _ _ _); reflexivity.
  - destruct Hc as [Hl Hlv]. assert (0 <= lsize l) by (destruct Hl; lia).
    unfold is_usize in Hlv.
    destruct (Z.eqb_spec (lsize l) 0) as [Hz|Hnz].
    + rewrite (alloc_at_zero t s l lv Hz). reflexivity.
    + destruct (Z.ltb_spec (size (storage s)) lv) as [Hb|Hb].
      * rewrite alloc_at_beyond by lia. reflexivity.
      * rewrite (try_alloc_at_spec t s l lv Ht Hok Hl) by lia.
        destruct (fitsb _ _ _); [|reflexivity]. destruct (_ =? _); reflexivity.
  - destruct Hc as [Hl _]. assert (0 <= lsize l) by (destruct Hl; lia).
    unfold get. destruct (Z.eqb_spec (lsize l) 0) as [Hz|Hnz]; [reflexivity|].
    rewrite (try_alloc_spec t s l Ht Hok Hl) by lia. destruct (fitsb _ _ _); reflexivity.
  - destruct Hc as [[Hl _] Hlv]. assert (0 <= lsize l) by (destruct Hl; lia).
    unfold is_usize in Hlv. unfold get_at.
    destruct (Z.eqb_spec (lsize l) 0) as [Hz|Hnz].
    + cbn [zst_fake_alloc for_zst alevel]. unfold level.
      destruct (consumed s =? lv); reflexivity.
    + destruct (Z.ltb_spec (size (storage s)) lv) as [Hb|Hb].
      * rewrite alloc_at_beyond by lia. reflexivity.
      * rewrite (try_alloc_at_spec t s l lv Ht Hok Hl) by lia.
        destruct (fitsb _ _ _); [|reflexivity]. destruct (_ =? _); reflexivity.
  - reflexivity.
  - reflexivity.
Qed.

(** ** Consequences of the specification for one step *)
Lemma bumped_ok t s l : ok t s -> valid_layout t l -> 0 < lsize l ->
  fitsb (storage s) (consumed s) l = true -> ok t (bumped s l) /\ consumed s + lsize l <= consumed (bumped s l).
Proof.
  intros [Hst Hc] Hl Hpos Hf. unfold ok, bumped, place. cbn [storage consumed].
  unfold fitsb in Hf. pose proof (align_up_ge (start (storage s) + consumed s) (lalign l) (valid_layout_align t l Hl)).
  split; [split; [exact Hst|]|]; lia.
Qed.

(** Case analysis on a step: it either leaves the state alone or bumps it for the layout of the call,
    or resets. *)
Lemma spec_step_cases t s c :
  let (s', r) := spec_step t s c in
  (s' = s /\ (forall a, r = RBlock a -> exists l, call_layout c = Some l /\ lsize l = 0 /\
                        ptr a = lalign l /\ alevel a = consumed s)) \/
  (exists l, call_layout c = Some l /\ lsize l <> 0 /\ fitsb (storage s) (consumed s) l = true /\
             s' = bumped s l /\ r = RBlock (placed s l)) \/
  (c = CReset /\ s' = reset s /\ r = RUnit).
Proof.
  destruct c as [l|l lv|l|l lv| |]; cbn [spec_step].
  - destruct (Z.eqb_spec (lsize l) 0); [left; split; [reflexivity|discriminate]|].
    destruct (fitsb _ _ _) eqn:Hf.
    + right; left. exists l. repeat split; auto.
    + left; split; [reflexivity|discriminate].
  - destruct (Z.eqb_spec (lsize l) 0); [left; split; [reflexivity|discriminate]|].
    destruct (_ <? _); [left; split; [reflexivity|discriminate]|].
    destruct (fitsb _ _ _) eqn:Hf.
    + destruct (Z.eqb_spec (consumed s) lv) as [<-|?].
      * right; left. exists l. repeat split; auto.
      * left; split; [reflexivity|discriminate].
    + left; split; [reflexivity|discriminate].
  - destruct (Z.eqb_spec (lsize l) 0).
    + left. split; [reflexivity|]. intros a [= <-]. exists l. auto.
    + destruct (fitsb _ _ _) eqn:Hf.
      * right; left. exists l. repeat split; auto.
      * left; split; [reflexivity|discriminate].
  - destruct (Z.eqb_spec (lsize l) 0).
    + destruct (Z.eqb_spec (consumed s) lv) as [<-|?].
      * left. split; [reflexivity|]. intros a [= <-]. exists l. auto.
      * left; split; [reflexivity|discriminate].
    + destruct (_ <? _); [left; split; [reflexivity|discriminate]|].
      destruct (fitsb _ _ _) eqn:Hf.
      * destruct (Z.eqb_spec (consumed s) lv) as [<-|?].
        -- right; left. exists l. repeat split; auto.
        -- left; split; [reflexivity|discriminate].
      * left; split; [reflexivity|discriminate].
  - left; split; [reflexivity|discriminate].
  - right; right. auto.
Qed.

Lemma valid_call_layout t c l : valid_call t c -> call_layout c = Some l -> valid_layout t l.
Proof.
  destruct c; cbn; intros H [= <-]; try exact H; try (apply H).
Qed.

Lemma step_ok t s c : valid_target t -> ok t s -> valid_call t c ->
  ok t (fst (step t s c)) /\ storage (fst (step t s c)) = storage s.
Proof.
  intros Ht Hok Hc. rewrite (step_spec t s c Ht Hok Hc).
  pose proof (spec_step_cases t s c) as Hcases. destruct (spec_step t s c) as [s' r]. cbn [fst].
  destruct Hcases as [[-> _]|[(l & Hl & Hnz & Hf & -> & _)|(_ & -> & _)]].
  - split; [exact Hok|reflexivity].
  - pose proof (valid_call_layout t c l Hc Hl) as Hv.
    split; [|reflexivity]. apply bumped_ok; auto. destruct Hv; lia.
  - split; [|reflexivity]. destruct Hok as [Hst Hcc]. split; [exact Hst|]. cbn. destruct Hst; lia.
Qed.

Lemma run_ok t s cs : valid_target t -> ok t s -> Forall (valid_call t) cs ->
  ok t (fst (run t s cs)) /\ storage (fst (run t s cs)) = storage s.
Proof.
  intros Ht. revert s. induction cs as [|c cs IH]; intros s Hok Hcs; cbn [run].
  - split; [exact Hok|reflexivity].
  - inversion Hcs as [|? ? Hc Hcs']; subst.
    destruct (step_ok t s c Ht Hok Hc) as [Hok1 Hst1].
    destruct (step t s c) as [s1 r]. cbn [fst] in *.
    specialize (IH s1 Hok1 Hcs'). destruct (run t s1 cs) as [s2 h]. cbn [fst] in *.
    destruct IH as [IH1 IH2]. split; [exact IH1|congruence].
Qed.

Lemma run_app t s cs1 cs2 :
  run t s (cs1 ++ cs2) =
  let (s1, h1) := run t s cs1 in let (s2, h2) := run t s1 cs2 in (s2, h1 ++ h2).
Proof.
  revert s. induction cs1 as [|c cs1 IH]; intros s; cbn [app run].
  - destruct (run t s cs2) as [s2 h2]. reflexivity.
  - destruct (step t s c) as [s1 r]. rewrite IH.
    destruct (run t s1 cs1) as [s2 h2]. destruct (run t s2 cs2) as [s3 h3]. reflexivity.
Qed.

(** ** C01 *)

(** Everything handed out since the last reset ends at or below the current level. *)
Definition below (s : slab) (b : block) : Prop :=
  size b = 0 \/
  (start (storage s) <= start b /\ start b + size b <= start (storage s) + consumed s).

Lemma disjoint_empty a b : size a <= 0 -> disjoint a b.
Proof. unfold disjoint, in_block. intros H x [H1 H2]. lia. Qed.

Lemma run_disjoint t s cs acc :
  valid_target t -> ok t s -> Forall (valid_call t) cs ->
  Forall (below s) acc -> pairwise disjoint acc ->
  pairwise disjoint (blocks_since_reset acc (snd (run t s cs))).
Proof.
  intros Ht. revert s acc. induction cs as [|c cs IH]; intros s acc Hok Hcs Hb Hd; cbn [run].
  { cbn. exact Hd. }
  inversion Hcs as [|? ? Hc Hcs']; subst.
  destruct (step_ok t s c Ht Hok Hc) as [Hok1 Hst1].
  rewrite (step_spec t s c Ht Hok Hc) in *.
  pose proof (spec_step_cases t s c) as Hcases.
  destruct (spec_step t s c) as [s1 r] eqn:Hstep. cbn [fst] in *.
  specialize (IH s1). destruct (run t s1 cs) as [s2 h]. cbn [snd] in *.
  cbn [blocks_since_reset fst].
  destruct Hcases as [[-> Hr]|[(l & Hl & Hnz & Hf & -> & ->)|(-> & -> & ->)]].
  - assert (is_reset c = false \/ c = CReset) as [Hres|Hres] by (destruct c; auto).
    + rewrite Hres. destruct (event_block (c, r)) as [b|] eqn:Hblk.
      * unfold event_block in Hblk. destruct r as [a| | | | |]; try discriminate.
        destruct (Hr a eq_refl) as (l & Hl & Hz & Hp & _). rewrite Hl in Hblk. injection Hblk as <-.
        apply IH; try assumption.
        -- apply Forall_app; split; [exact Hb|]. constructor; [|constructor]. left. exact Hz.
        -- apply pairwise_app; auto using disjoint_sym.
           ++ apply pairwise_cons; auto using disjoint_sym, pairwise_nil.
           ++ intros x y _ [<-|[]]. apply disjoint_sym. apply disjoint_empty. cbn; lia.
      * apply IH; assumption.
    + subst c. cbn. apply IH; try assumption; [constructor|apply pairwise_nil].
  - assert (is_reset c = false) as Hres by (destruct c; cbn in Hl |- *; congruence).
    rewrite Hres. unfold event_block. rewrite Hl. cbn [placed ptr].
    pose proof (valid_call_layout t c l Hc Hl) as Hv.
    assert (0 < lsize l) as Hpos by (destruct Hv; lia).
    destruct (bumped_ok t s l Hok Hv Hpos Hf) as [_ Hinc].
    pose proof (align_up_ge (start (storage s) + consumed s) (lalign l) (valid_layout_align t l Hv)) as Hup.
    fold (place s l) in Hup.
    assert (consumed (bumped s l) = place s l + lsize l - start (storage s)) as Hcb by reflexivity.
    apply IH; try assumption.
    + apply Forall_app; split.
      * eapply Forall_impl; [|exact Hb]. intros b [Hz|[H1 H2]]; [left; exact Hz|].
        right. rewrite Hst1. lia.
      * constructor; [|constructor]. right. rewrite Hst1. cbn [start size].
        destruct Hok as [_ Hcc]. lia.
    + apply pairwise_app; auto using disjoint_sym.
      * apply pairwise_cons; auto using disjoint_sym, pairwise_nil.
      * intros x y Hx [<-|[]]. rewrite Forall_forall in Hb. destruct (Hb x Hx) as [Hz|[H1 H2]].
        -- apply disjoint_empty. lia.
        -- apply disjoint_intro. cbn [start size]. left. lia.
  - cbn [is_reset]. apply IH; try assumption; [constructor|apply pairwise_nil].
Qed.

Lemma step_block_good t s c a l :
  valid_target t -> ok t s -> valid_call t c ->
  snd (step t s c) = RBlock a -> call_layout c = Some l ->
  good_block (storage s) l (ptr a).
Proof.
  intros Ht Hok Hc Hr Hl. rewrite (step_spec t s c Ht Hok Hc) in Hr.
  pose proof (spec_step_cases t s c) as Hcases. destruct (spec_step t s c) as [s' r]. cbn [snd] in Hr.
  subst r. pose proof (valid_call_layout t c l Hc Hl) as Hv.
  pose proof (valid_layout_align t l Hv) as Ha.
  destruct Hcases as [[-> Hr]|[(l' & Hl' & Hnz & Hf & -> & [= ->])|(_ & _ & [=])]].
  - destruct (Hr a eq_refl) as (l' & Hl' & Hz & Hp & _).
    assert (l' = l) as -> by congruence. unfold good_block. rewrite Hp. split; [|split].
    + apply Z.divide_refl.
    + unfold inside, in_block. cbn [start size]. intros x Hx. lia.
    + lia.
  - assert (l' = l) as -> by congruence. unfold good_block, placed. cbn [ptr].
    pose proof (align_up_ge (start (storage s) + consumed s) (lalign l) Ha) as Hup.
    unfold fitsb in Hf. unfold place. destruct Hok as [(Hs1 & Hs2 & Hs3) Hcc]. split; [|split].
    + apply align_up_aligned. exact Ha.
    + apply inside_intro; cbn [start size]; lia.
    + lia.
Qed.

Lemma run_blocks_good t s cs :
  valid_target t -> ok t s -> Forall (valid_call t) cs ->
  forall c a l, In (c, RBlock a) (snd (run t s cs)) -> call_layout c = Some l ->
  good_block (storage s) l (ptr a).
Proof.
  intros Ht. revert s. induction cs as [|c0 cs IH]; intros s Hok Hcs c a l Hin Hl; cbn [run] in Hin.
  { destruct Hin. }
  inversion Hcs as [|? ? Hc Hcs']; subst.
  destruct (step_ok t s c0 Ht Hok Hc) as [Hok1 Hst1].
  pose proof (step_block_good t s c0) as Hg.
  destruct (step t s c0) as [s1 r]. cbn [fst snd] in *.
  specialize (IH s1 Hok1 Hcs' c a l). destruct (run t s1 cs) as [s2 h]. cbn [snd] in *.
  destruct Hin as [[= -> ->]|Hin].
  - apply Hg; auto.
  - rewrite <- Hst1. apply IH; assumption.
Qed.

Lemma bump_history_sound t st cs :
  valid_target t -> valid_region t st -> Forall (valid_call t) cs ->
  let h := snd (run t (fresh st) cs) in
  (forall c a l, In (c, RBlock a) h -> call_layout c = Some l -> good_block st l (ptr a)) /\
  pairwise disjoint (blocks_since_reset [] h).
Proof.
  intros Ht Hst Hcs. cbv zeta. split.
  - intros c a l. apply (run_blocks_good t (fresh st) cs Ht (ok_fresh t st Hst) Hcs).
  - apply run_disjoint; auto using ok_fresh, pairwise_nil.
Qed.

(** ** C03, C05, C11, C17: exact outcomes *)

Lemma reach_ok t st s : valid_target t -> valid_region t st -> reach t st s ->
  ok t s /\ storage s = st.
Proof.
  intros Ht Hst (cs & Hcs & <-). destruct (run_ok t (fresh st) cs Ht (ok_fresh t st Hst) Hcs) as [H1 H2].
  split; [exact H1|]. rewrite H2. reflexivity.
Qed.

Lemma alloc_exact t st s l :
  valid_target t -> valid_region t st -> reach t st s -> valid_layout t l -> 0 < lsize l ->
  (fits_in st (level s) l ->
   exists p, first_aligned (start st + level s) (lalign l) p /\
     step t s (CAlloc l) =
       ({| storage := st; consumed := p + lsize l - start st |},
        RBlock {| ptr := p; alevel := p + lsize l - start st |})) /\
  (~ fits_in st (level s) l -> step t s (CAlloc l) = (s, RNone)).
Proof.
  intros Ht Hst Hr Hl Hpos. destruct (reach_ok t st s Ht Hst Hr) as [Hok Hs].
  rewrite (step_spec t s (CAlloc l) Ht Hok Hl). cbn [spec_step]. unfold level.
  destruct (Z.eqb_spec (lsize l) 0) as [?|_]; [lia|].
  rewrite Hs. rewrite <- (fitsb_iff t st (consumed s) l Hl). split.
  - intros Hf. rewrite Hf. exists (place s l). split.
    + unfold place. rewrite Hs. apply align_up_first. eapply valid_layout_align; eassumption.
    + unfold bumped, placed. rewrite Hs. reflexivity.
  - intros Hf. destruct (fitsb st (consumed s) l); [exfalso; auto|reflexivity].
Qed.

Lemma get_exact t st s l :
  valid_target t -> valid_region t st -> reach t st s -> type_layout t l -> 0 < lsize l ->
  step t s (CGet l) = step t s (CAlloc l).
Proof.
  intros Ht Hst Hr Hl Hpos. destruct (reach_ok t st s Ht Hst Hr) as [Hok Hs].
  rewrite (step_spec t s (CGet l) Ht Hok Hl). rewrite (step_spec t s (CAlloc l) Ht Hok (proj1 Hl)).
  cbn [spec_step]. destruct (Z.eqb_spec (lsize l) 0) as [?|_]; [lia|]. reflexivity.
Qed.

Lemma alloc_at_exact t st s l lv :
  valid_target t -> valid_region t st -> reach t st s -> valid_layout t l -> is_usize t lv ->
  let r := step t s (CAllocAt l lv) in
  ((exists m, snd r = RPanic m) <-> (lsize l = 0 \/ size st < lv)) /\
  (0 < lsize l -> lv <= size st ->
     (lv = level s /\ fits_in st lv l -> r = step t s (CAlloc l) /\ exists a, snd r = RBlock a) /\
     (lv <> level s /\ fits_in st lv l -> r = (s, RFail (Mismatch (level s)))) /\
     (~ fits_in st lv l -> r = (s, RFail Exhausted))).
Proof.
  intros Ht Hst Hr Hl Hlv. destruct (reach_ok t st s Ht Hst Hr) as [Hok Hs]. cbv zeta.
  rewrite (step_spec t s (CAllocAt l lv) Ht Hok (conj Hl Hlv)).
  rewrite (step_spec t s (CAlloc l) Ht Hok Hl).
  unfold level. cbn [spec_step]. rewrite <- (fitsb_iff t st lv l Hl). rewrite Hs.
  assert (0 <= lsize l) by (destruct Hl; lia).
  destruct (Z.eqb_spec (lsize l) 0) as [Hz|Hnz].
  { split; [|lia]. split; [auto|]. intros _. eexists; reflexivity. }
  destruct (Z.ltb_spec (size st) lv) as [Hb|Hb].
  { split; [|lia]. split; [auto|]. intros _. eexists; reflexivity. }
  destruct (fitsb st lv l) eqn:Hf.
  - destruct (Z.eqb_spec (consumed s) lv) as [<-|Hne].
    + split.
      * split; [intros [m Hm]; discriminate|lia].
      * intros _ _. split; [|split]; [| |intros Hn; exfalso; apply Hn; reflexivity].
        -- intros _. rewrite Hf. split; [reflexivity|]. eexists; reflexivity.
        -- intros [H1 _]. congruence.
    + split.
      * split; [intros [m Hm]; discriminate|lia].
      * intros _ _. split; [|split]; [| |intros Hn; exfalso; apply Hn; reflexivity].
        -- intros [H1 _]. congruence.
        -- auto.
  - split.
    + split; [intros [m Hm]; discriminate|lia].
    + intros _ _. repeat split; intros; try (destruct H0; discriminate); reflexivity.
Qed.

Lemma zst_exact t st s l lv :
  valid_target t -> valid_region t st -> reach t st s -> type_layout t l -> lsize l = 0 -> is_usize t lv ->
  (exists a, step t s (CGet l) = (s, RBlock a) /\ aligned (ptr a) (lalign l) /\ ptr a <> 0 /\
             alevel a = level s) /\
  (lv = level s -> exists a, step t s (CGetAt l lv) = (s, RBlock a) /\ aligned (ptr a) (lalign l) /\
             ptr a <> 0 /\ alevel a = level s) /\
  (lv <> level s -> step t s (CGetAt l lv) = (s, RFail (Mismatch (level s)))).
Proof.
  intros Ht Hst Hr Hl Hz Hlv. destruct (reach_ok t st s Ht Hst Hr) as [Hok Hs].
  rewrite (step_spec t s (CGet l) Ht Hok Hl).
  rewrite (step_spec t s (CGetAt l lv) Ht Hok (conj Hl Hlv)).
  cbn [spec_step]. rewrite Hz. cbn [Z.eqb]. unfold level.
  pose proof (valid_layout_align t l (proj1 Hl)) as Ha.
  split; [|split].
  - eexists. split; [reflexivity|]. cbn. repeat split; [apply Z.divide_refl|lia].
  - intros <-. rewrite Z.eqb_refl. eexists. split; [reflexivity|]. cbn. repeat split; [apply Z.divide_refl|lia].
  - intros Hne. destruct (Z.eqb_spec (consumed s) lv); [congruence|reflexivity].
Qed.

Lemma no_hidden_panic t st s c :
  valid_target t -> valid_region t st -> reach t st s -> valid_call t c ->
  (exists m, snd (step t s c) = RPanic m) <->
  match c with
  | CAlloc l => lsize l = 0
  | CAllocAt l lv => lsize l = 0 \/ size st < lv
  | CGetAt l lv => lsize l <> 0 /\ size st < lv
  | _ => False
  end.
Proof.
  intros Ht Hst Hr Hc. destruct (reach_ok t st s Ht Hst Hr) as [Hok Hs].
  rewrite (step_spec t s c Ht Hok Hc).
  destruct c as [l|l lv|l|l lv| |]; cbn [spec_step valid_call] in *; try rewrite Hs.
  all: try destruct (Z.eqb_spec (lsize l) 0) as [Hz|Hnz].
  all: try destruct (Z.ltb_spec (size st) lv) as [Hb|Hb].
  all: repeat match goal with |- context [if ?b then _ else _] => destruct b end.
  all: cbn [snd]; split; [intros [m Hm]; try discriminate Hm; auto; lia|].
  all: intros Hcase; try (eexists; reflexivity); exfalso; try destruct Hcase; try contradiction; lia.
Qed.

(** ** C04 *)
Lemma step_level t s c :
  valid_target t -> ok t s -> valid_call t c -> is_reset c = false ->
  let (s', r) := step t s c in
  level s <= level s' <= size (storage s) /\
  (forall a l, r = RBlock a -> call_layout c = Some l ->
      level s' = alevel a /\
      (0 < lsize l -> level s' = ptr a + lsize l - start (storage s) /\
                      start (storage s) + level s <= ptr a < start (storage s) + level s + lalign l) /\
      (lsize l = 0 -> level s' = level s)) /\
  ((forall a, r <> RBlock a) -> s' = s) /\
  (forall lv, event_level (c, r) = Some lv -> lv = level s').
Proof.
  intros Ht Hok Hc Hres. destruct (step_ok t s c Ht Hok Hc) as [Hok1 Hst1].
  rewrite (step_spec t s c Ht Hok Hc) in *.
  pose proof (spec_step_cases t s c) as Hcases.
  assert (forall lv, event_level (c, snd (spec_step t s c)) = Some lv ->
                     lv = level (fst (spec_step t s c))) as Hlev.
  { intros lv. destruct c as [l|l lv'|l|l lv'| |]; cbn [spec_step]; unfold event_level;
    repeat match goal with |- context [if ?b then _ else _] => destruct b end;
    cbn; intros [= <-]; reflexivity. }
  destruct (spec_step t s c) as [s' r] eqn:Hstep. cbn [fst snd] in *. unfold level in *.
  destruct Hok1 as [Hst' Hc']. rewrite Hst1 in Hc'.
  destruct Hcases as [[-> Hr]|[(l & Hl & Hnz & Hf & -> & ->)|(-> & _)]]; [| |discriminate].
  - split; [lia|]. split; [|split; [reflexivity|exact Hlev]].
    intros a l Ha Hl. destruct (Hr a Ha) as (l' & Hl' & Hz & Hp & Hlv).
    assert (l' = l) as -> by congruence. repeat split; try lia.
  - pose proof (valid_call_layout t c l Hc Hl) as Hv.
    assert (0 < lsize l) as Hpos by (destruct Hv; lia).
    destruct (bumped_ok t s l Hok Hv Hpos Hf) as [_ Hinc].
    split; [lia|]. split; [|split; [intros Hn; exfalso; eapply Hn; reflexivity|exact Hlev]].
    intros a l' [= <-] Hl'. assert (l' = l) as -> by congruence.
    unfold bumped, placed. cbn [consumed alevel ptr].
    pose proof (align_up_ge (start (storage s) + consumed s) (lalign l) (valid_layout_align t l Hv)) as Hup.
    fold (place s l) in Hup. repeat split; lia.
Qed.

Lemma run_level_mono t s cs :
  valid_target t -> ok t s -> Forall (valid_call t) cs -> no_reset cs ->
  level s <= level (fst (run t s cs)).
Proof.
  intros Ht. revert s. induction cs as [|c cs IH]; intros s Hok Hcs Hnr; cbn [run]; [cbn; lia|].
  inversion Hcs as [|? ? Hc Hcs']; subst. inversion Hnr as [|? ? Hn Hnr']; subst.
  destruct (step_ok t s c Ht Hok Hc) as [Hok1 _].
  pose proof (step_level t s c Ht Hok Hc Hn) as Hl.
  destruct (step t s c) as [s1 r]. cbn [fst] in *. specialize (IH s1 Hok1 Hcs' Hnr').
  destruct (run t s1 cs) as [s2 h]. cbn [fst] in *. lia.
Qed.

Lemma levels_ge t s cs lv :
  valid_target t -> ok t s -> Forall (valid_call t) cs -> no_reset cs ->
  In lv (levels (snd (run t s cs))) -> level s <= lv <= level (fst (run t s cs)).
Proof.
  intros Ht. revert s. induction cs as [|c cs IH]; intros s Hok Hcs Hnr; cbn [run]; [cbn; tauto|].
  inversion Hcs as [|? ? Hc Hcs']; subst. inversion Hnr as [|? ? Hn Hnr']; subst.
  destruct (step_ok t s c Ht Hok Hc) as [Hok1 _].
  pose proof (step_level t s c Ht Hok Hc Hn) as Hl.
  destruct (step t s c) as [s1 r]. cbn [fst] in *.
  pose proof (run_level_mono t s1 cs Ht Hok1 Hcs' Hnr') as Hm.
  specialize (IH s1 Hok1 Hcs' Hnr').
  destruct (run t s1 cs) as [s2 h]. cbn [fst snd] in *. cbn [levels].
  destruct Hl as (Hl1 & _ & _ & Hl4).
  destruct (event_level (c, r)) as [lv'|].
  - specialize (Hl4 lv' eq_refl). intros [<-|Hin]; [lia|]. specialize (IH Hin). lia.
  - intros Hin. specialize (IH Hin). lia.
Qed.

Lemma levels_sorted t s cs :
  valid_target t -> ok t s -> Forall (valid_call t) cs -> no_reset cs ->
  forall i j a b, (i < j)%nat -> nth_error (levels (snd (run t s cs))) i = Some a ->
  nth_error (levels (snd (run t s cs))) j = Some b -> a <= b.
Proof.
  intros Ht. revert s. induction cs as [|c cs IH]; intros s Hok Hcs Hnr; cbn [run].
  { intros i j a b _ Hi. destruct i; discriminate. }
  inversion Hcs as [|? ? Hc Hcs']; subst. inversion Hnr as [|? ? Hn Hnr']; subst.
  destruct (step_ok t s c Ht Hok Hc) as [Hok1 _].
  pose proof (step_level t s c Ht Hok Hc Hn) as Hl.
  destruct (step t s c) as [s1 r]. cbn [fst] in *.
  pose proof (fun lv => levels_ge t s1 cs lv Ht Hok1 Hcs' Hnr') as Hge.
  specialize (IH s1 Hok1 Hcs' Hnr').
  destruct (run t s1 cs) as [s2 h]. cbn [fst snd] in *. cbn [levels].
  destruct Hl as (Hl1 & _ & _ & Hl4).
  destruct (event_level (c, r)) as [lv'|].
  - specialize (Hl4 lv' eq_refl). intros i j a b Hij Hi Hj.
    destruct j as [|j]; [lia|]. destruct i as [|i].
    + cbn in Hi, Hj. injection Hi as <-. apply nth_error_In in Hj. specialize (Hge b Hj). lia.
    + apply (IH i j); auto. lia.
  - exact IH.
Qed.

(** ** C06 *)
Lemma chain_at_sound t s lv ls s' bs :
  valid_target t -> ok t s -> Forall (valid_layout t) ls -> is_usize t lv ->
  chain_at t s lv ls = (s', Some bs) ->
  reprC (start (storage s)) lv ls bs.
Proof.
  intros Ht. revert s lv s' bs. induction ls as [|l ls IH]; intros s lv s' bs Hok Hls Hlv; cbn [chain_at].
  - intros [= <- <-]. constructor.
  - inversion Hls as [|? ? Hl Hls']; subst.
    destruct (step_ok t s (CAllocAt l lv) Ht Hok (conj Hl Hlv)) as [Hok1 Hst1].
    rewrite (step_spec t s (CAllocAt l lv) Ht Hok (conj Hl Hlv)) in *. cbn [spec_step] in *.
    destruct (Z.eqb_spec (lsize l) 0) as [Hz|Hnz]; [intros [=]|].
    destruct (Z.ltb_spec (size (storage s)) lv) as [?|Hle]; [intros [=]|].
    destruct (fitsb (storage s) lv l) eqn:Hf; [|intros [=]].
    destruct (Z.eqb_spec (consumed s) lv) as [Heq|?]; [|intros [=]].
    destruct (chain_at t (bumped s l) (alevel (placed s l)) ls) as [s2 [bs'|]] eqn:Hch; [|intros [=]].
    intros [= <- <-]. cbn [fst] in *. cbn [ptr placed].
    apply reprC_cons.
    + unfold place. rewrite Heq. apply align_up_first. eapply valid_layout_align; eassumption.
    + apply (IH _ _ _ _ Hok1 Hls') in Hch.
      * exact Hch.
      * assert (alevel (placed s l) = consumed (bumped s l)) as -> by reflexivity.
        destruct Hok1 as [(H1 & H2 & H3) H4]. pose proof (isize_lt_usize t Ht).
        rewrite Hst1 in *. unfold is_usize, usize_max. lia.
Qed.

Lemma chain_at_complete t s lv ls bs :
  valid_target t -> ok t s -> Forall (fun l => valid_layout t l /\ 0 < lsize l) ls ->
  lv = level s -> reprC (start (storage s)) lv ls bs ->
  ends_within (start (storage s) + size (storage s)) bs ->
  exists s', chain_at t s lv ls = (s', Some bs).
Proof.
  intros Ht. revert s lv bs. induction ls as [|l ls IH]; intros s lv bs Hok Hls Hlv Hc He; inversion Hc; subst.
  - exists s. reflexivity.
  - inversion Hls as [|? ? [Hl Hpos] Hls']; subst.
    inversion He as [|? ? Hend He']; subst. cbn [start size] in Hend.
    cbn [chain_at].
    assert (is_usize t (level s)) as Hlv.
    { destruct Hok as [(H1' & H2' & H3') H4']. pose proof (isize_lt_usize t Ht).
      unfold is_usize, usize_max, level. lia. }
    pose proof (valid_layout_align t l Hl) as Ha.
    match goal with H : first_aligned _ _ _ |- _ =>
      pose proof (first_aligned_unique _ _ _ _ H (align_up_first _ _ Ha)) as Heq end.
    subst a. unfold level in Hend.
    destruct (step_ok t s (CAllocAt l (level s)) Ht Hok (conj Hl Hlv)) as [Hok1 Hst1].
    rewrite (step_spec t s (CAllocAt l (level s)) Ht Hok (conj Hl Hlv)) in *. cbn [spec_step] in *.
    destruct (Z.eqb_spec (lsize l) 0) as [?|_]; [lia|].
    destruct (Z.ltb_spec (size (storage s)) (level s)) as [?|_]; [destruct Hok; unfold level in *; lia|].
    assert (fitsb (storage s) (level s) l = true) as Hf.
    { unfold fitsb, level. apply Z.leb_le. exact Hend. }
    rewrite Hf in *. unfold level in *. rewrite Z.eqb_refl in *. cbn [fst] in *.
    destruct (IH (bumped s l) (alevel (placed s l)) bs0 Hok1 Hls' eq_refl) as [s'' Hs''].
    + rewrite Hst1. cbn [alevel placed]. unfold place. assumption.
    + rewrite Hst1. exact He'.
    + rewrite Hs''. exists s''. reflexivity.
Qed.

(** ** C07 *)
Lemma exhausted_stable t s l lv cs :
  valid_target t -> ok t s -> valid_layout t l -> 0 < lsize l -> 0 <= lv <= level s ->
  Forall (valid_call t) cs -> no_reset cs ->
  snd (step t s (CAllocAt l lv)) = RFail Exhausted \/ snd (step t s (CAlloc l)) = RNone ->
  snd (step t (fst (run t s cs)) (CAlloc l)) = RNone /\
  (forall lv', is_usize t lv' -> level s <= lv' <= size (storage s) ->
      snd (step t (fst (run t s cs)) (CAllocAt l lv')) = RFail Exhausted).
Proof.
  intros Ht Hok Hl Hpos Hlv Hcs Hnr Hex.
  assert (fitsb (storage s) (consumed s) l = false) as Hno.
  { unfold level in *. destruct Hex as [Hex|Hex].
    - assert (is_usize t lv) as Hus.
      { destruct Hok as [(H1 & H2 & H3) H4]. pose proof (isize_lt_usize t Ht).
        unfold is_usize, usize_max. lia. }
      rewrite (step_spec t s (CAllocAt l lv) Ht Hok (conj Hl Hus)) in Hex. cbn [spec_step] in Hex.
      destruct (Z.eqb_spec (lsize l) 0); [lia|].
      destruct (Z.ltb_spec (size (storage s)) lv); [discriminate|].
      destruct (fitsb (storage s) lv l) eqn:Hf.
      + destruct (_ =? _); discriminate.
      + destruct (fitsb (storage s) (consumed s) l) eqn:Hf2; [|reflexivity].
        rewrite (fitsb_antimono (storage s) lv (consumed s) l) in Hf; try discriminate; try assumption; try lia.
        eapply valid_layout_align; eassumption.
    - rewrite (step_spec t s (CAlloc l) Ht Hok Hl) in Hex. cbn [spec_step] in Hex.
      destruct (Z.eqb_spec (lsize l) 0); [lia|].
      destruct (fitsb (storage s) (consumed s) l); [discriminate|reflexivity]. }
  pose proof (run_level_mono t s cs Ht Hok Hcs Hnr) as Hm.
  destruct (run_ok t s cs Ht Hok Hcs) as [Hok2 Hst2].
  destruct (run t s cs) as [s2 h]. cbn [fst] in *. unfold level in *.
  split.
  - rewrite (step_spec t s2 (CAlloc l) Ht Hok2 Hl). cbn [spec_step]. rewrite Hst2.
    destruct (Z.eqb_spec (lsize l) 0); [lia|].
    destruct (fitsb (storage s) (consumed s2) l) eqn:Hf2; [|reflexivity].
    rewrite (fitsb_antimono (storage s) (consumed s) (consumed s2) l) in Hno; try discriminate; try assumption.
    eapply valid_layout_align; eassumption.
  - intros lv' Hus Hlv'. rewrite (step_spec t s2 (CAllocAt l lv') Ht Hok2 (conj Hl Hus)). cbn [spec_step].
    rewrite Hst2. destruct (Z.eqb_spec (lsize l) 0); [lia|].
    destruct (Z.ltb_spec (size (storage s)) lv'); [lia|].
    destruct (fitsb (storage s) lv' l) eqn:Hf2; [|reflexivity].
    rewrite (fitsb_antimono (storage s) (consumed s) lv' l) in Hno; try discriminate; try assumption; try lia.
    eapply valid_layout_align; eassumption.
Qed.

Lemma exhausted_any t s l lv cs c :
  valid_target t -> ok t s -> valid_layout t l -> 0 < lsize l -> 0 <= lv <= level s ->
  Forall (valid_call t) cs -> no_reset cs ->
  snd (step t s (CAllocAt l lv)) = RFail Exhausted \/ snd (step t s (CAlloc l)) = RNone ->
  valid_call t c -> call_layout c = Some l ->
  fst (step t (fst (run t s cs)) c) = fst (run t s cs) /\ forall a, snd (step t (fst (run t s cs)) c) <> RBlock a.
Proof.
  intros Ht Hok Hl Hpos Hlv Hcs Hnr Hex Hv Hc.
  destruct (exhausted_stable t s l lv cs Ht Hok Hl Hpos Hlv Hcs Hnr Hex) as (E & _).
  destruct (run_ok t s cs Ht Hok Hcs) as [Hok2 Hst2]. destruct (run t s cs) as [s2 h]. cbn [fst] in *.
  rewrite (step_spec t s2 (CAlloc l) Ht Hok2 Hl) in E. cbn [spec_step] in E.
  destruct (Z.eqb_spec (lsize l) 0) as [|NZ]; [lia|]. destruct (fitsb (storage s2) (consumed s2) l) eqn:F; [discriminate|].
  rewrite (step_spec t s2 c Ht Hok2 Hv).
  destruct c as [l'|l' lv'|l'|l' lv'| |]; cbn [call_layout] in Hc; try discriminate; injection Hc as ->; cbn [spec_step];
    (destruct (Z.eqb_spec (lsize l) 0); [lia|]); rewrite ?F; cbn [fst snd]; try (split; [reflexivity|discriminate]).
  all: destruct (size (storage s2) <? lv'); [split; [reflexivity|discriminate]|].
  all: destruct (fitsb (storage s2) lv' l) eqn:F2; [|split; [reflexivity|discriminate]].
  all: destruct (Z.eqb_spec (consumed s2) lv') as [<-|]; [congruence|]; split; [reflexivity|discriminate].
Qed.

(** ** C09 *)
Lemma reset_fresh t st s cs :
  valid_target t -> valid_region t st -> reach t st s ->
  snd (step t s CReset) = RUnit /\ run t (fst (step t s CReset)) cs = run t (fresh st) cs.
Proof.
  intros Ht Hst Hr. destruct (reach_ok t st s Ht Hst Hr) as [_ <-]. split; reflexivity.
Qed.
