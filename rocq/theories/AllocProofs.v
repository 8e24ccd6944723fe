(** * AllocProofs *)
From Verif Require Import Base Spec BaseFacts SyncModel SyncSpec SyncProofs SyncMemModel SyncMemSpec SyncMemProofs UninitModel UninitSpec UninitProofs OwnModel RcModel RcSpec RcProofs FixedVecModel AllocModel AllocSpec.

Lemma client_may_cons own live a x : client_may own live x -> client_may own (a :: live) x.
Proof. intros [H|(b & H & K)]; [left; exact H|right; exists b; split; [right; exact H|exact K]]. Qed.
Lemma client_may_new own live p l x : in_block (MkBlock p (lsize l)) x -> client_may own ((p, l) :: live) x.
Proof. intros H. right. exists (p, l). split; [left; reflexivity|exact H]. Qed.

(** Writing in the new block only *)
Lemma granted_write t A own inv live l s m m' u : honours t A own inv -> granted t own inv live l s m u -> same_outside u m m' ->
  granted t own inv live l s m' u /\ unchanged own live m m'.
Proof.
  intros H (l' & E & I & R) W. split.
  - exists l'. split; [exact E|]. split; [|exact R]. apply (h_write t A own inv H s m); [exact I|]. intros x N. apply W. intros K. apply N.
    apply client_may_new. rewrite <- E. exact K.
  - intros x C. apply W. intros K. destruct R as (_ & _ & _ & R). exact (R x K C).
Qed.

Lemma unchanged_trans own live m m' m2 : unchanged own live m m' -> unchanged own live m' m2 -> unchanged own live m m2.
Proof. intros H K x C. rewrite (K x C). apply H. exact C. Qed.

Lemma alloc_layout_spec t A own inv s m live l : honours t A own inv -> inv s m live -> valid_layout t l -> 0 < lsize l ->
  (exists s' m', alloc_layout A s m l = (s', m', Ret None) /\ alloc_fails A s m l /\ inv s' m' live /\ unchanged own live m m') \/
  (exists s' m' u, alloc_layout A s m l = (s', m', Ret (Some u)) /\ ~ alloc_fails A s m l /\ granted t own inv live l s' m' (region u) /\
     unchanged own live m m' /\ umeta u = 0 /\ (exact A -> ulen u = lsize l)).
Proof.
  intros H I V P. destruct (h_alloc t A own inv H s m live l I V P) as (s' & m' & r & E & U & R). unfold alloc_layout. rewrite E.
  destruct r as [[p l']|].
  - right. exists s', m', (from_memory p (lsize l')). split; [reflexivity|]. split; [intros (s2 & m2 & F); rewrite F in E; discriminate|].
    destruct R as (R1 & R2 & R3 & R4 & R5 & R6). split; [|split; [exact U|split; [reflexivity|]]].
    + exists l'. cbn [region start size uptr ulen from_memory]. split; [reflexivity|]. split; [exact R6|]. split; [exact R1|]. split; [exact R2|]. split; [exact R4|].
      intros x K. apply R5. exact K.
    + intros X. cbn. f_equal. eapply X. exact E.
  - left. exists s', m'. split; [reflexivity|]. split; [exists s', m'; exact E|]. auto.
Qed.

Lemma alloc_t_spec t A own inv s m live l : honours t A own inv -> inv s m live -> type_layout t l -> 0 < lsize l ->
  (exists s' m', alloc_t A s m l = (s', m', Ret None) /\ alloc_fails A s m l /\ inv s' m' live /\ unchanged own live m m') \/
  (exists s' m' u, alloc_t A s m l = (s', m', Ret (Some u)) /\ ~ alloc_fails A s m l /\ granted t own inv live l s' m' (region u) /\
     unchanged own live m m' /\ (exact A -> ulen u = lsize l)).
Proof.
  intros H I V P. unfold alloc_t, nonzero_from_layout. destruct (Z.eqb_spec (lsize l) 0); [lia|].
  destruct (alloc_layout_spec t A own inv s m live l H I (proj1 V) P) as [(s' & m' & E & R)|(s' & m' & u & E & NF & G & U & M & X)].
  - left. exists s', m'. rewrite E. auto.
  - right. rewrite E. pose proof G as (l' & E' & I' & L' & A' & _). destruct (v_cast_spec u l (type_layout_align t l V)) as [C _].
    unfold lk_cast. rewrite C by (split; assumption). exists s', m', {| uptr := uptr u; ulen := ulen u; umeta := 0 |}. cbn [unwrap obind]. auto.
Qed.

Lemma invent_zst t l : type_layout t l -> lsize l = 0 -> v_invent_for_zst l = Ret {| uptr := lalign l; ulen := 0; umeta := 0 |}.
Proof.
  intros V Z0. unfold v_invent_for_zst. rewrite Z0. cbv iota. destruct (v_cast_spec (from_memory (lalign l) 0) l (type_layout_align t l V)) as [C _].
  cbn [Z.eqb]. rewrite C; [reflexivity|]. cbn [uptr ulen from_memory]. split; [apply Z.divide_refl|lia].
Qed.

Lemma checked_mul_spec t a b : checked_mul t a b = if a * b <=? usize_max t then Some (a * b) else None.
Proof. reflexivity. Qed.

Lemma capacity_ge l n len : 0 < lsize l -> n * lsize l <= len -> n <= len / lsize l.
Proof. intros P H. apply Z.div_le_lower_bound; lia. Qed.
Lemma capacity_eq t l n u : 0 < lsize l -> ulen u = n * lsize l -> v_capacity t l u = n.
Proof. intros P H. unfold v_capacity. destruct (Z.eqb_spec (lsize l) 0); [lia|]. rewrite H. apply Z.div_mul. lia. Qed.

Lemma fixed_vec_spec t A own inv s m live l n : honours t A own inv -> valid_target t -> inv s m live -> type_layout t l -> 0 <= n ->
  let lay := {| lsize := n * lsize l; lalign := lalign l |} in
  (n * lsize l > usize_max t \/ ~ valid_layout t lay -> fixed_vec t A s m l n = (s, m, Ret None)) /\
  (valid_layout t lay -> n * lsize l = 0 -> exists v, fixed_vec t A s m l n = (s, m, Ret (Some v)) /\
     flen v = 0 /\ f_capacity t l v = (if lsize l =? 0 then usize_max t else 0)) /\
  (valid_layout t lay -> 0 < n * lsize l ->
     (exists s' m', fixed_vec t A s m l n = (s', m', Ret None) /\ alloc_fails A s m lay /\ inv s' m' live /\ unchanged own live m m') \/
     (exists s' m' v, fixed_vec t A s m l n = (s', m', Ret (Some v)) /\ ~ alloc_fails A s m lay /\
        granted t own inv live lay s' m' (region (funinit v)) /\ unchanged own live m m' /\ flen v = 0 /\
        n <= f_capacity t l v /\ (exact A -> f_capacity t l v = n))).
Proof.
  intros H Ht I V N lay. pose proof (isize_lt_usize t Ht) as SZ. pose proof (type_layout_align t l V) as AP.
  assert (VB : valid_layout t lay -> n * lsize l <= usize_max t).
  { intros (_ & _ & _ & B). change (align_up (n * lsize l) (lalign l) <= isize_max t) in B. pose proof (align_up_ge (n * lsize l) (lalign l) AP). unfold usize_max. lia. }
  unfold fixed_vec. rewrite checked_mul_spec, (Z.mul_comm (lsize l) n).
  split; [|split].
  - intros [B|B]; [destruct (Z.leb_spec (n * lsize l) (usize_max t)); [lia|reflexivity]|].
    destruct (Z.leb_spec (n * lsize l) (usize_max t)); [|reflexivity].
    destruct (from_size_align t (n * lsize l) (lalign l)) as [k|] eqn:F; [|reflexivity].
    apply from_size_align_iff in F. destruct F as [-> F]. contradiction.
  - intros VL Z0. specialize (VB VL). destruct (Z.leb_spec (n * lsize l) (usize_max t)); [|lia].
    assert (F : from_size_align t (n * lsize l) (lalign l) = Some lay) by (apply from_size_align_iff; split; [reflexivity|exact VL]).
    rewrite F. unfold nonzero_from_layout. cbn [lsize lay]. rewrite Z0. cbn [Z.eqb]. exists (f_new (v_empty l)). split; [reflexivity|]. split; [reflexivity|].
    unfold f_capacity, v_capacity. cbn [funinit f_new ulen v_empty]. destruct (Z.eqb_spec (lsize l) 0); [reflexivity|]. apply Z.div_0_l. assumption.
  - intros VL P. specialize (VB VL). destruct (Z.leb_spec (n * lsize l) (usize_max t)); [|lia].
    assert (F : from_size_align t (n * lsize l) (lalign l) = Some lay) by (apply from_size_align_iff; split; [reflexivity|exact VL]).
    rewrite F. unfold nonzero_from_layout. cbn [lsize lay]. destruct (Z.eqb_spec (n * lsize l) 0); [lia|]. fold lay.
    assert (LP : 0 < lsize l) by (destruct V as [(V0 & _) _]; nia).
    destruct (alloc_layout_spec t A own inv s m live lay H I VL P) as [(s' & m' & E & R)|(s' & m' & u & E & NF & G & U & M & X)]; rewrite E.
    + left. exists s', m'. auto.
    + right. pose proof G as (l' & E' & I' & L' & A' & VR & _). cbn [region size start lsize lalign lay] in L', A'.
      destruct (v_cast_slice_spec t u l AP ltac:(nia)) as [C _]. unfold lk_cast_slice. rewrite (C A'). cbn [unwrap obind].
      exists s', m', (f_new {| uptr := uptr u; ulen := ulen u; umeta := v_capacity t l u |}). split; [reflexivity|]. split; [exact NF|]. split; [exact G|].
      split; [exact U|]. split; [reflexivity|]. unfold f_capacity. cbn [funinit f_new]. split.
      * unfold v_capacity. destruct (Z.eqb_spec (lsize l) 0); [lia|]. apply capacity_ge; assumption.
      * intros EX. apply capacity_eq; [exact LP|exact (X EX)].
Qed.

Lemma rc_layout_pos t l : valid_target t -> type_layout t l -> 0 < lsize (rc_layout t l).
Proof.
  intros V TL. destruct (rc_layout_facts t l V TL) as (F1 & F2 & F3 & F4 & F5 & F6 & F7 & F8). pose proof (type_layout_size t l TL). pose proof (RcProofs.word_pos t V). lia.
Qed.

Lemma rc_spec t A own inv s m live l v : honours t A own inv -> valid_target t -> inv s m live -> type_layout t l -> type_layout t (rc_layout t l) ->
  (exists s' m', rc t A s m l v = (s', m', [v], Ret None) /\ alloc_fails A s m (rc_layout t l) /\ inv s' m' live /\ unchanged own live m m') \/
  (exists s' m' u, rc t A s m l v = (s', m', [], Ret (Some (u, MkBox v 1 1))) /\ ~ alloc_fails A s m (rc_layout t l) /\
     granted t own inv live (rc_layout t l) s' m' (region u) /\ unchanged own live m m').
Proof.
  intros H Ht I V VR. pose proof (rc_layout_pos t l Ht V) as P. unfold rc, nonzero_from_layout. destruct (Z.eqb_spec (lsize (rc_layout t l)) 0); [lia|].
  destruct (alloc_layout_spec t A own inv s m live _ H I (proj1 VR) P) as [(s' & m' & E & R)|(s' & m' & u & E & NF & G & U & M & X)]; rewrite E.
  - left. exists s', m'. auto.
  - right. pose proof G as (l' & E' & I' & L' & A' & _). pose proof (type_layout_align t _ VR) as AP. destruct (v_cast_spec u _ AP) as [C _].
    unfold rc_new. assert (FT : v_fits u (rc_layout t l) = true) by (apply v_fits_iff; [exact AP|split; assumption]). rewrite FT.
    rewrite C by (split; assumption). cbn [unwrap obind]. exists s', m', {| uptr := uptr u; ulen := ulen u; umeta := 0 |}. auto.
Qed.

Lemma mem_copy_zero m p q : same_bytes m (mem_copy m p q 0).
Proof. intros x. apply (mem_copy_outside m p q 0 0 ltac:(lia)). unfold in_block. cbn. lia. Qed.

Lemma copy_slice_spec t A own inv s m live l src n : honours t A own inv -> valid_target t -> inv s m live -> type_layout t l -> 0 <= n ->
  let lay := {| lsize := n * lsize l; lalign := lalign l |} in
  valid_layout t lay -> (forall x, in_block (MkBlock src (n * lsize l)) x -> client_may own live x) ->
  (n * lsize l = 0 -> exists m', copy_slice t A s m l src n = (s, m', Ret (Some (lalign l, 0))) /\ same_bytes m m') /\
  (0 < n * lsize l ->
     (exists s' m', copy_slice t A s m l src n = (s', m', Ret None) /\ alloc_fails A s m lay /\ inv s' m' live /\ unchanged own live m m') \/
     (exists s' m' q len k, copy_slice t A s m l src n = (s', m', Ret (Some (q, k))) /\ ~ alloc_fails A s m lay /\
        granted t own inv live lay s' m' (MkBlock q len) /\ unchanged own live m m' /\
        k = len / lsize l /\ n <= k /\ (exact A -> k = n) /\ (forall i, 0 <= i < n * lsize l -> m' (q + i) = m (src + i)))).
Proof.
  intros H Ht I V N lay VL RD. pose proof (type_layout_align t l V) as AP. unfold copy_slice. fold lay. split.
  - intros Z0. unfold nonzero_from_layout. cbn [lsize lay]. rewrite Z0. cbn [Z.eqb]. eexists. split; [reflexivity|]. apply mem_copy_zero.
  - intros P. unfold nonzero_from_layout. cbn [lsize lay]. destruct (Z.eqb_spec (n * lsize l) 0); [lia|]. fold lay.
    assert (LP : 0 < lsize l) by (destruct V as [(V0 & _) _]; nia).
    destruct (alloc_layout_spec t A own inv s m live lay H I VL P) as [(s' & m' & E & R)|(s' & m' & u & E & NF & G & U & M & X)]; rewrite E.
    + left. exists s', m'. auto.
    + right. pose proof G as (l' & E' & I' & L' & A' & VR & _). cbn [region size start lsize lalign lay] in L', A'.
      destruct (v_cast_slice_spec t u l AP ltac:(nia)) as [C _]. unfold lk_cast_slice. rewrite (C A'). cbn [unwrap obind uptr v_as_ptr umeta].
      assert (W : same_outside (region u) m' (mem_copy m' src (uptr u) (n * lsize l))) by (apply mem_copy_outside; exact L').
      destruct (granted_write t A own inv live lay s' m' _ _ H G W) as [G' U'].
      do 5 eexists. split; [reflexivity|]. split; [exact NF|]. split; [exact G'|]. split; [eapply unchanged_trans; eassumption|].
      assert (VC : v_capacity t l u = ulen u / lsize l) by (unfold v_capacity; destruct (Z.eqb_spec (lsize l) 0); [lia|reflexivity]).
      split; [exact VC|]. split; [rewrite VC; apply capacity_ge; assumption|]. split; [intros EX; apply capacity_eq; [exact LP|exact (X EX)]|].
      intros i Hi. rewrite mem_copy_at by lia. apply U. apply RD. unfold in_block. cbn [start size]. lia.
Qed.

(** ** The provided methods *)
Lemma default_zeroed_spec t A own inv s m live l : honours t A own inv -> inv s m live -> valid_layout t l -> 0 < lsize l ->
  (exists s' m', default_alloc_zeroed A s m l = (s', m', Ret None) /\ alloc_fails A s m l /\ inv s' m' live /\ unchanged own live m m') \/
  (exists s' m' p l', default_alloc_zeroed A s m l = (s', m', Ret (Some (p, l'))) /\ ~ alloc_fails A s m l /\ inv s' m' ((p, l') :: live) /\
     granted t own inv live l s' m' (MkBlock p (lsize l')) /\ unchanged own live m m' /\ (forall x, in_block (MkBlock p (lsize l')) x -> m' x = Some 0)).
Proof.
  intros H I V P. destruct (h_alloc t A own inv H s m live l I V P) as (s' & m' & r & E & U & R). unfold default_alloc_zeroed. rewrite E. destruct r as [[p l']|].
  - right. destruct R as (R1 & R2 & R3 & R4 & R5 & R6).
    assert (G : granted t own inv live l s' m' (MkBlock p (lsize l'))).
    { exists l'. cbn [start size]. split; [reflexivity|]. split; [exact R6|]. split; [exact R1|]. split; [exact R2|]. split; [exact R4|]. intros x K. apply R5. exact K. }
    destruct (granted_write t A own inv live l s' m' _ _ H G (mem_fill_outside m' p (lsize l') (Some 0))) as [G' U'].
    do 4 eexists. split; [reflexivity|]. split; [intros (s2 & m2 & F); rewrite F in E; discriminate|].
    assert (I' : inv s' (mem_fill m' p (lsize l') (Some 0)) ((p, l') :: live)).
    { apply (h_write t A own inv H s' m'); [exact R6|]. intros x N. apply mem_fill_outside. intros K. apply N. apply client_may_new. exact K. }
    split; [exact I'|]. split; [exact G'|]. split; [eapply unchanged_trans; eassumption|]. intros x K. apply mem_fill_at. exact K.
  - left. exists s', m'. split; [reflexivity|]. split; [exists s', m'; exact E|]. auto.
Qed.

Lemma client_may_app own before a after x : client_may own (before ++ after) x -> client_may own (before ++ a :: after) x.
Proof. intros [K|(b & K & B)]; [left; exact K|right; exists b; split; [|exact B]]. apply in_app_iff in K. apply in_app_iff. cbn. tauto. Qed.

Lemma default_realloc_spec t A own inv s m before a after l : honours t A own inv -> inv s m (before ++ a :: after) -> valid_layout t l -> 0 < lsize l ->
  (exists s' m', default_realloc A s m a l = (s', m', Ret None) /\ alloc_fails A s m l /\ inv s' m' (before ++ a :: after) /\ unchanged own (before ++ a :: after) m m') \/
  (exists s' m' q l', default_realloc A s m a l = (s', m', Ret (Some (q, l'))) /\ ~ alloc_fails A s m l /\
     granted t own inv (before ++ after) l s' m' (MkBlock q (lsize l')) /\ inv s' m' ((q, l') :: before ++ after) /\ disjoint (MkBlock q (lsize l')) (ablock a) /\
     unchanged own (before ++ after) m m' /\ (forall i, 0 <= i < Z.min (lsize l) (lsize (snd a)) -> m' (q + i) = m (fst a + i))).
Proof.
  intros H I V P. destruct (h_alloc t A own inv H s m _ l I V P) as (s' & m' & r & E & U & R). unfold default_realloc. rewrite E. destruct r as [[q l']|].
  - right. destruct R as (R1 & R2 & R3 & R4 & R5 & R6). set (m1 := mem_copy m' (fst a) q (Z.min (lsize l) (lsize (snd a)))).
    assert (W : same_outside (MkBlock q (lsize l')) m' m1) by (apply mem_copy_outside; lia).
    assert (I1 : inv s' m1 ((q, l') :: before ++ a :: after)).
    { apply (h_write t A own inv H s' m'); [exact R6|]. intros x N. apply W. intros K. apply N. apply client_may_new. exact K. }
    destruct (h_dealloc t A own inv H s' m1 ((q, l') :: before) a after I1) as (s2 & m2 & D & U2 & I2). rewrite D.
    exists s2, m2, q, l'. split; [reflexivity|]. split; [intros (s3 & m3 & F); rewrite F in E; discriminate|]. split; [|split; [exact I2|split; [|split]]].
    + exists l'. cbn [start size]. split; [reflexivity|]. split; [exact I2|]. split; [exact R1|]. split; [exact R2|]. split; [exact R4|].
      intros x K C. apply (proj2 (R5 x K)). apply client_may_app. exact C.
    + intros x [K1 K2]. apply (proj2 (R5 x K1)). right. exists a. split; [apply in_app_iff; cbn; auto|exact K2].
    + intros x C. rewrite (U2 x (client_may_cons _ _ _ _ C)). rewrite W; [apply U; apply client_may_app; exact C|]. intros K. apply (proj2 (R5 x K)). apply client_may_app. exact C.
    + intros i Hi. rewrite U2 by (apply client_may_new; unfold in_block; cbn [start size]; lia). unfold m1. rewrite mem_copy_at by lia. apply U. right. exists a.
      split; [apply in_app_iff; cbn; auto|]. unfold in_block, ablock. cbn [start size]. lia.
  - left. exists s', m'. split; [reflexivity|]. split; [exists s', m'; exact E|]. auto.
Qed.

(** ** The Bump honours the contract *)
Definition bump_inv (t : target) (st : block) (s : slab) (m : mem) (live : list (Z * layout)) : Prop :=
  ok t s /\ storage s = st /\ Forall (fun a => start st <= fst a /\ fst a + lsize (snd a) <= start st + consumed s) live.

Lemma bump_honours t st : valid_target t -> valid_region t st -> honours t (bump_lalloc t) (in_block st) (bump_inv t st).
Proof.
  intros Ht Hs. split.
  - intros s m live m' I _. exact I.
  - intros s m live l (OK & ST & F) V P. cbn [l_alloc bump_lalloc]. unfold la_alloc. rewrite (bump_alloc_spec t (MkM s m) l Ht OK V). cbn [sl bytes].
    destruct (Z.eqb_spec (lsize l) 0); [lia|]. unfold fits_now. cbn [sl]. destruct (fitsb (storage s) (consumed s) l) eqn:B.
    + destruct (place_facts t s l OK V P B) as ((G1 & G2 & _) & B1 & B2 & B3 & B4 & B5). rewrite ST in *.
      exists (bumped s l), m, (Some (place s l, l)). split; [reflexivity|]. split; [reflexivity|].
      destruct B3 as [[C1 [C2 C3]] C4]. rewrite B5 in *. destruct OK as [_ OK]. rewrite ST in OK.
      split; [lia|]. split; [exact G1|]. split; [exact V|].
      assert (IN : forall x, in_block (MkBlock (place s l) (lsize l)) x -> in_block st x) by exact G2.
      split; [unfold valid_region; cbn [start size]; pose proof (isize_lt_usize t Ht); lia|]. split.
      * intros x K. split; [apply IN; exact K|]. intros [N|(a & Ia & K2)]; [apply N, IN; exact K|]. rewrite Forall_forall in F. specialize (F a Ia).
        unfold in_block, ablock in *. cbn [start size] in *. lia.
      * split; [split; [split; [|split]; rewrite ?B5; auto; lia|]|].
        -- rewrite B5. exact C4.
        -- split; [exact B5|]. constructor; [cbn [fst snd]; lia|]. eapply Forall_impl; [|exact F]. cbv beta. intros a Fa. lia.
    + exists s, m, None. split; [reflexivity|]. split; [reflexivity|]. split; [exact OK|]. split; [exact ST|exact F].
  - intros s m before a after (OK & ST & F). exists s, m. split; [reflexivity|]. split; [reflexivity|]. split; [exact OK|]. split; [exact ST|].
    apply Forall_app in F. destruct F as [F1 F2]. inversion F2; subst. apply Forall_app. auto.
Qed.

Lemma bump_exact t : exact (bump_lalloc t).
Proof.
  intros s m l s' m' p l' E. cbn [l_alloc bump_lalloc] in E. destruct (la_alloc t _ l) as [b [[q|]|e]]; injection E; congruence.
Qed.
