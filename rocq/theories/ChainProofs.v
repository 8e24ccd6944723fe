(** * ChainProofs *)
From Verif Require Import Base Spec BaseFacts SyncModel SyncSpec SyncProofs UnsyncModel UnsyncSpec UnsyncProofs
  ChainModel ChainSpec.

(** ** Lists *)

Lemma set_nth_length {A} i (x : A) l : length (set_nth i x l) = length l.
Proof. revert i. induction l as [|a l IH]; intros [|i]; cbn; auto. Qed.

Lemma nth_set_nth_eq {A} i (x : A) l : (i < length l)%nat -> nth_error (set_nth i x l) i = Some x.
Proof. revert i. induction l as [|a l IH]; intros [|i] H; cbn in *; try lia; auto. apply IH. lia. Qed.

Lemma nth_set_nth_ne {A} i j (x : A) l : i <> j -> nth_error (set_nth i x l) j = nth_error l j.
Proof. revert i j. induction l as [|a l IH]; intros [|i] [|j] H; cbn; auto; try lia. Qed.

Lemma set_set_nth {A} i (x y : A) l : set_nth i x (set_nth i y l) = set_nth i x l.
Proof. revert i. induction l as [|a l IH]; intros [|i]; cbn; auto. rewrite IH. reflexivity. Qed.

Lemma set_nth_id {A} i (x : A) l : nth_error l i = Some x -> set_nth i x l = l.
Proof. revert i. induction l as [|a l IH]; intros [|i] H; cbn in *; try discriminate; [congruence|]. rewrite IH; auto. Qed.

Lemma nth_lt {A} (l : list A) i x : nth_error l i = Some x -> (i < length l)%nat.
Proof. intros H. apply nth_error_Some. congruence. Qed.

Lemma cell_iff {A} (l : list (option A)) i k : cell l i = Some k <-> nth_error l i = Some (Some k).
Proof.
  unfold cell. destruct (nth_error l i) as [[x|]|]; split; intros H; try discriminate; congruence.
Qed.

Lemma NoDup_app_intro {A} (l l' : list A) :
  NoDup l -> NoDup l' -> (forall x, In x l -> ~ In x l') -> NoDup (l ++ l').
Proof.
  induction 1 as [|a l Ha Hl IH]; intros H' Hd; cbn; [exact H'|]. constructor.
  - intros Hin. apply in_app_or in Hin. destruct Hin as [Hin|Hin]; [exact (Ha Hin)|]. apply (Hd a); [left; reflexivity|exact Hin].
  - apply IH; [exact H'|]. intros x Hx. apply Hd. right. exact Hx.
Qed.

(** ** Ownership *)

Lemma owns_det st r ps qs : owns st r ps -> owns st r qs -> ps = qs.
Proof.
  intros H. revert qs. induction H as [|p k ps Hp Ho IH]; intros qs Hq; inversion Hq; subst; [reflexivity|].
  f_equal. apply IH. assert (k0 = k) by congruence. subst. assumption.
Qed.

Lemma owns_mid st r ps a p b : owns st r ps -> ps = a ++ p :: b -> owns st (Some p) (p :: b).
Proof.
  intros H. revert a. induction H as [|q k ps Hq Ho IH]; intros a E.
  - destruct a; discriminate.
  - destruct a as [|x a]; cbn in E; injection E as -> ->; [econstructor; eauto|]. apply (IH a eq_refl).
Qed.

Lemma owns_nodup st r ps : owns st r ps -> NoDup ps.
Proof.
  induction 1 as [|p k ps Hp Ho IH]; constructor; [|exact IH].
  intros Hin. apply in_split in Hin. destruct Hin as (a & b & ->).
  pose proof (owns_mid st (lnext k) _ a p b Ho eq_refl) as H1.
  assert (H2 : owns st (Some p) (p :: a ++ p :: b)) by (econstructor; eauto).
  pose proof (owns_det _ _ _ _ H1 H2) as E. apply (f_equal (@length nat)) in E.
  cbn in E. rewrite app_length in E. cbn in E. lia.
Qed.

Lemma owns_live st r ps p : owns st r ps -> In p ps -> exists k, nth_error st p = Some (Some k).
Proof. induction 1; intros []; subst; eauto. Qed.

Lemma owns_ext st st' r ps :
  owns st r ps ->
  (forall p k, In p ps -> nth_error st p = Some (Some k) ->
     exists k', nth_error st' p = Some (Some k') /\ lnext k' = lnext k) ->
  owns st' r ps.
Proof.
  induction 1 as [|p k ps Hp Ho IH]; intros H; [constructor|].
  destruct (H p k (or_introl eq_refl) Hp) as (k' & Hk' & E). econstructor; [exact Hk'|].
  rewrite E. apply IH. intros q kq Hq. apply H. right. exact Hq.
Qed.

Lemma owns_same st st' r ps :
  owns st r ps -> (forall p, In p ps -> nth_error st' p = nth_error st p) -> owns st' r ps.
Proof.
  intros Ho H. apply (owns_ext st); [exact Ho|]. intros p k Hp E. exists k. rewrite H by exact Hp. auto.
Qed.

Lemma owns_length st r ps : owns st r ps -> (length ps <= length st)%nat.
Proof.
  intros H. rewrite <- (seq_length (length st) 0). apply NoDup_incl_length; [apply (owns_nodup _ _ _ H)|].
  intros p Hp. apply in_seq. destruct (owns_live _ _ _ _ H Hp) as [k Hk]. apply nth_lt in Hk. lia.
Qed.

(** ** Freeing *)

Definition dealloc_of (t : target) (st : list (option link)) (p : nat) : layout :=
  match cell st p with
  | Some k => link_val_layout t (size (udata (lbump k)))
  | None => MkLayout 0 1
  end.

Definition killed (t : target) (s : world) (ps : list nat) (s' : world) : Prop :=
  chains s' = chains s /\ length (store s') = length (store s) /\
  (forall p, In p ps -> nth_error (store s') p = Some None) /\
  (forall p, ~ In p ps -> nth_error (store s') p = nth_error (store s) p) /\
  frees s' = frees s ++ map (fun p => (p, dealloc_of t (store s) p)) ps.

Lemma killed_nil t s : killed t s [] s.
Proof. split; [reflexivity|]. split; [reflexivity|]. split; [intros p []|]. split; [reflexivity|]. cbn. rewrite app_nil_r. reflexivity. Qed.

Lemma killed_app t s ps qs s1 s2 :
  killed t s ps s1 -> killed t s1 qs s2 -> (forall p, In p ps -> ~ In p qs) -> killed t s (ps ++ qs) s2.
Proof.
  intros (A1 & A2 & A3 & A4 & A5) (B1 & B2 & B3 & B4 & B5) Hd.
  split; [congruence|]. split; [congruence|]. split; [|split].
  - intros p Hp. apply in_app_or in Hp. destruct Hp as [Hp|Hp]; [|auto].
    rewrite B4; [auto|]. apply Hd. exact Hp.
  - intros p Hp. rewrite B4, A4; auto; intros H; apply Hp, in_or_app; auto.
  - rewrite B5, A5, <- app_assoc, map_app. f_equal. f_equal. apply map_ext_in. intros p Hp.
    f_equal. unfold dealloc_of, cell. rewrite A4; [reflexivity|]. intros H. exact (Hd p H Hp).
Qed.

Lemma drop_box_leaf t n s p k :
  nth_error (store s) p = Some (Some k) -> lnext k = None ->
  exists s', drop_box t (S (S n)) s p = Some s' /\ killed t s [p] s'.
Proof.
  intros Hp Hn. cbn [drop_box drop_tail]. rewrite (proj2 (cell_iff _ _ _) Hp), Hn.
  unfold dealloc_link. cbn [store put].
  rewrite (proj2 (cell_iff _ _ (with_next k None))) by (apply nth_set_nth_eq, nth_lt with (1 := Hp)).
  eexists. split; [reflexivity|]. cbn [store frees chains lbump with_next]. rewrite set_set_nth.
  pose proof (nth_lt _ _ _ Hp) as Hlt.
  split; [reflexivity|]. split; [apply set_nth_length|]. split; [|split].
  - intros q [<-|[]]. apply nth_set_nth_eq. exact Hlt.
  - intros q Hq. apply nth_set_nth_ne. intros ->. apply Hq. left. reflexivity.
  - cbn [map frees store put]. unfold dealloc_of. rewrite (proj2 (cell_iff _ _ _) Hp). reflexivity.
Qed.

(** Taking [next] out of a link, then freeing it, is freeing it. *)
Lemma killed_put t s p k s' :
  nth_error (store s) p = Some (Some k) -> killed t (put s p (with_next k None)) [p] s' -> killed t s [p] s'.
Proof.
  intros Hp (A1 & A2 & A3 & A4 & A5). pose proof (nth_lt _ _ _ Hp) as Hlt.
  split; [exact A1|]. split; [rewrite A2; apply set_nth_length|]. split; [exact A3|]. split.
  - intros q Hq. rewrite A4 by exact Hq. apply nth_set_nth_ne. intros ->. apply Hq. left. reflexivity.
  - rewrite A5. cbn [map frees put]. unfold dealloc_of. cbn [store put].
    rewrite (proj2 (cell_iff _ _ (with_next k None))) by (apply nth_set_nth_eq; exact Hlt).
    rewrite (proj2 (cell_iff _ _ _) Hp). reflexivity.
Qed.

Lemma free_one t n s p k :
  nth_error (store s) p = Some (Some k) ->
  exists s', drop_box t (S (S n)) (put s p (with_next k None)) p = Some s' /\ killed t s [p] s'.
Proof.
  intros Hp. pose proof (nth_lt _ _ _ Hp) as Hlt.
  destruct (drop_box_leaf t n (put s p (with_next k None)) p (with_next k None)) as (s' & E & K).
  { cbn. apply nth_set_nth_eq. exact Hlt. }
  { reflexivity. }
  exists s'. split; [exact E|]. apply (killed_put t s p k s' Hp K).
Qed.

Lemma loop_spec (loop : target -> nat -> world -> option nat -> option world) t :
  (forall n s, loop t (S n) s None = Some s) ->
  (forall n s q k, cell (store s) q = Some k ->
     loop t (S n) s (Some q) = match drop_box t n (put s q (with_next k None)) q with
                               | None => None
                               | Some s' => loop t n s' (lnext k)
                               end) ->
  forall ps s r fuel, owns (store s) r ps -> (length ps + 3 <= fuel)%nat ->
  exists s', loop t fuel s r = Some s' /\ killed t s ps s'.
Proof.
  intros H0 H1. induction ps as [|p ps IH]; intros s r fuel Ho Hf.
  - inversion Ho; subst. destruct fuel as [|n]; [cbn in Hf; lia|]. exists s. split; [apply H0|apply killed_nil].
  - inversion Ho as [|p' k ps' Hp Ho']; subst. cbn [length] in Hf.
    destruct fuel as [|[|[|n]]]; [lia|lia|lia|]. rewrite (H1 _ _ _ k) by (apply cell_iff; exact Hp).
    destruct (free_one t n s p k Hp) as (s1 & E & K). rewrite E.
    pose proof (owns_nodup _ _ _ Ho) as Hnd. inversion Hnd as [|? ? Hnin Hnd']; subst.
    destruct (IH s1 (lnext k) (S (S n))) as (s2 & E2 & K2).
    { apply (owns_same (store s)); [exact Ho'|]. intros q Hq. apply K. intros [->|[]]. exact (Hnin Hq). }
    { lia. }
    exists s2. split; [exact E2|]. change (p :: ps) with ([p] ++ ps).
    apply (killed_app t s [p] ps s1 s2 K K2). intros q [<-|[]] H. exact (Hnin H).
Qed.

Lemma drop_tail_spec t ps s r fuel :
  owns (store s) r ps -> (length ps + 3 <= fuel)%nat ->
  exists s', drop_tail t fuel s r = Some s' /\ killed t s ps s'.
Proof.
  apply (loop_spec drop_tail t).
  - reflexivity.
  - intros n s0 q k H. cbn [drop_tail]. rewrite H. reflexivity.
Qed.

Lemma drop_chain_loop_spec t ps s r fuel :
  owns (store s) r ps -> (length ps + 3 <= fuel)%nat ->
  exists s', drop_chain_loop t fuel s r = Some s' /\ killed t s ps s'.
Proof.
  apply (loop_spec drop_chain_loop t).
  - reflexivity.
  - intros n s0 q k H. cbn [drop_chain_loop]. rewrite H. reflexivity.
Qed.

(** Dropping a box with a tail: the tail is freed first. *)
Lemma drop_box_spec t p ps s fuel :
  owns (store s) (Some p) (p :: ps) -> (length ps + 4 <= fuel)%nat ->
  exists s', drop_box t fuel s p = Some s' /\ killed t s (ps ++ [p]) s'.
Proof.
  intros Ho Hf. pose proof (owns_nodup _ _ _ Ho) as Hnd. inversion Hnd as [|? ? Hnin Hnd']; subst.
  inversion Ho as [|p' k ps' Hp Ho']; subst. destruct fuel as [|n]; [lia|]. cbn [drop_box].
  rewrite (proj2 (cell_iff _ _ _) Hp). pose proof (nth_lt _ _ _ Hp) as Hlt.
  destruct (drop_tail_spec t ps (put s p (with_next k None)) (lnext k) n) as (s1 & E & K).
  { apply (owns_same (store s)); [exact Ho'|]. intros q Hq. apply nth_set_nth_ne. intros ->. exact (Hnin Hq). }
  { lia. }
  rewrite E. destruct K as (K1 & K2 & K3 & K4 & K5).
  assert (Hp1 : nth_error (store s1) p = Some (Some (with_next k None))).
  { rewrite K4 by exact Hnin. apply nth_set_nth_eq. exact Hlt. }
  unfold dealloc_link. rewrite (proj2 (cell_iff _ _ _) Hp1). eexists. split; [reflexivity|].
  cbn [store put] in K2. rewrite set_nth_length in K2.
  split; [exact K1|]. cbn [store frees]. split; [rewrite set_nth_length; exact K2|]. split; [|split].
  - intros q Hq. apply in_app_or in Hq. destruct (Nat.eq_dec q p) as [->|Hne].
    + apply nth_set_nth_eq. lia.
    + rewrite nth_set_nth_ne by congruence. apply K3. destruct Hq as [Hq|[Hq|[]]]; [exact Hq|congruence].
  - intros q Hq. assert (q <> p) by (intros ->; apply Hq, in_or_app; right; left; reflexivity).
    rewrite nth_set_nth_ne by congruence.
    rewrite K4 by (intros H1; apply Hq, in_or_app; auto). apply nth_set_nth_ne. congruence.
  - rewrite K5, map_app, <- app_assoc. cbn [frees put map lbump with_next]. f_equal. f_equal.
    + apply map_ext_in. intros q Hq. f_equal. unfold dealloc_of, cell. cbn [store put].
      rewrite nth_set_nth_ne; [reflexivity|]. intros ->. exact (Hnin Hq).
    + unfold dealloc_of. rewrite (proj2 (cell_iff _ _ _) Hp). reflexivity.
Qed.

(** ** Layout of links *)

Lemma link_layout_spec t sz l :
  valid_target t -> 0 <= sz -> link_layout_from_size t sz = Some l ->
  l = link_val_layout t sz /\ 2 * word_bytes t + word_bytes t + sz <= lsize l.
Proof.
  intros Ht Hsz. unfold link_layout_from_size. destruct (layout_from_size t sz) as [bl|] eqn:E; [|discriminate].
  apply (layout_from_size_spec t sz bl Ht Hsz) in E. destruct E as [-> Hi]. cbn [lsize] in Hi.
  unfold layout_extend, link_ptr_layout. cbn [lsize lalign]. unfold link_val_layout, fat_layout. cbn [lsize lalign flen].
  pose proof (usize_align_pos t Ht) as Ha. pose proof (word_pos t Ht) as Hw.
  pose proof (align_up_ge (word_bytes t + sz) (usize_align t) Ha) as Hge.
  pose proof (align_up_aligned (word_bytes t + sz) (usize_align t) Ha) as Hal.
  assert (Hwa : align_up (2 * word_bytes t) (usize_align t) = 2 * word_bytes t).
  { apply align_up_id; [exact Ha|]. apply Z.divide_mul_r. apply Ht. }
  rewrite Hwa, Z.max_id.
  assert (Hw2 : (usize_align t | 2 * word_bytes t)) by (apply Z.divide_mul_r; apply Ht).
  assert (Hw3 : 0 < 2 * word_bytes t) by lia.
  remember (2 * word_bytes t) as w2 eqn:Ew2. remember (align_up (word_bytes t + sz) (usize_align t)) as u eqn:Eu.
  clear Eu. unfold checked_add. destruct (Z.leb_spec (w2 + u) (usize_max t)) as [Hm|Hm]; [|discriminate].
  destruct (from_size_align t (w2 + u) (usize_align t)) as [l'|] eqn:El; [|discriminate].
  apply from_size_align_spec in El. destruct El as [-> _]. intros E. assert (El : l = MkLayout (w2 + u) (usize_align t)) by congruence.
  subst l. cbn [lsize lalign]. split; [|lia].
  f_equal. symmetry. apply align_up_id; [exact Ha|]. apply Z.divide_add_r; [exact Hw2|exact Hal].
Qed.

(** ** Invariant *)

Definition link_ok (t : target) (k : link) : Prop :=
  uok t (lbump k) /\ inside (udata (lbump k)) (lraw k) /\
  link_layout_from_size t (size (udata (lbump k))) = Some (link_val_layout t (size (udata (lbump k)))) /\
  size (lraw k) = lsize (link_val_layout t (size (udata (lbump k)))).

(** [f i] are the links owned by chain [i]; [orphans] are links owned by nobody that are about to be freed. *)
Record cinv (t : target) (s : world) (f : nat -> list nat) (orphans : list nat) : Prop := {
  ci_own : forall i r, nth_error (chains s) i = Some (Some r) -> owns (store s) r (f i);
  ci_uniq : forall i j p, chain_alive s i -> chain_alive s j -> In p (f i) -> In p (f j) -> i = j;
  ci_live : forall p, link_live s p -> (exists i, chain_alive s i /\ In p (f i)) \/ In p orphans;
  ci_orph : forall p i, In p orphans -> link_live s p /\ (chain_alive s i -> ~ In p (f i));
  ci_nodup : NoDup orphans;
  ci_freed : NoDup (freed s);
  ci_freed_iff : forall p, In p (freed s) <-> nth_error (store s) p = Some None;
  ci_links : forall p k, nth_error (store s) p = Some (Some k) -> link_ok t k }.

Lemma killed_freed t s ps s' : killed t s ps s' -> freed s' = freed s ++ ps.
Proof.
  intros (_ & _ & _ & _ & E). unfold freed. rewrite E, map_app, map_map. cbn. rewrite map_id. reflexivity.
Qed.

Lemma cinv_kill t s f ps s' : cinv t s f ps -> killed t s ps s' -> cinv t s' f [].
Proof.
  intros [H1 H2 H3 H4 H5 H6 H7 H8] K. pose proof (killed_freed _ _ _ _ K) as Ef.
  destruct K as (K1 & K2 & K3 & K4 & K5).
  assert (Hal : forall i, chain_alive s' i <-> chain_alive s i) by (intros i; unfold chain_alive; rewrite K1; tauto).
  assert (Hnl : forall p k, nth_error (store s') p = Some (Some k) -> ~ In p ps /\ nth_error (store s) p = Some (Some k)).
  { intros p k E. destruct (in_dec Nat.eq_dec p ps) as [Hi|Hn]; [rewrite K3 in E by exact Hi; discriminate|].
    split; [exact Hn|]. rewrite <- K4; assumption. }
  constructor.
  - intros i r E. rewrite K1 in E. apply (owns_same (store s)); [apply H1; exact E|].
    intros p Hp. apply K4. intros Hin. destruct (H4 p i Hin) as [_ Hno]. apply Hno; [exists r; exact E|exact Hp].
  - intros i j p Hi Hj. rewrite Hal in Hi, Hj. apply H2; assumption.
  - intros p (k & E). destruct (Hnl p k E) as [Hn E']. left.
    destruct (H3 p (ex_intro _ k E')) as [(i & Hi & Hp)|Hc]; [|contradiction].
    exists i. rewrite Hal. auto.
  - intros p i [].
  - constructor.
  - rewrite Ef. apply NoDup_app_intro.
    + exact H6.
    + exact H5.
    + intros p Hp Hq. apply H7 in Hp. destruct (H4 p 0%nat Hq) as [[k E] _]. congruence.
  - intros p. rewrite Ef. rewrite in_app_iff, H7. destruct (in_dec Nat.eq_dec p ps) as [Hi|Hn].
    + split; [intros _; apply K3; exact Hi|auto].
    + rewrite K4 by exact Hn. tauto.
  - intros p k E. destruct (Hnl p k E). eauto.
Qed.

Lemma alive_set_root s i r j :
  chain_alive s i -> chain_alive (set_root s i r) j <-> (j = i /\ r <> None) \/ (j <> i /\ chain_alive s j).
Proof.
  intros [ri Hi]. pose proof (nth_lt _ _ _ Hi) as Hlt. unfold chain_alive. cbn [chains set_root].
  destruct (Nat.eq_dec j i) as [->|Hne].
  - rewrite nth_set_nth_eq by exact Hlt. split.
    + intros [x [= ->]]. left. split; [reflexivity|discriminate].
    + intros [[_ H]|[H _]]; [|congruence]. destruct r; [eauto|congruence].
  - rewrite nth_set_nth_ne by congruence. split; [auto|]. intros [[H _]|[_ H]]; [congruence|exact H].
Qed.

Lemma cinv_release t s f i :
  cinv t s f [] -> chain_alive s i -> cinv t (set_root s i None) f (f i).
Proof.
  intros [H1 H2 H3 H4 H5 H6 H7 H8] Hi. pose proof (fun j => alive_set_root s i None j Hi) as Hal.
  destruct Hi as [ri Hri]. constructor; cbn [store chains set_root freed frees]; auto.
  - intros j r E. destruct (Nat.eq_dec j i) as [->|Hne].
    + rewrite nth_set_nth_eq in E by (apply nth_lt with (1 := Hri)). discriminate.
    + rewrite nth_set_nth_ne in E by congruence. auto.
  - intros j j' p Hj Hj'. apply Hal in Hj, Hj'. destruct Hj as [[_ H]|[_ Hj]]; [congruence|].
    destruct Hj' as [[_ H]|[_ Hj']]; [congruence|]. apply H2; assumption.
  - intros p Hp. destruct (H3 p Hp) as [(j & Hj & Hin)|[]].
    destruct (Nat.eq_dec j i) as [->|Hne]; [right; exact Hin|]. left. exists j. split; [|exact Hin].
    apply Hal. right. auto.
  - intros p j Hin. split; [apply (owns_live _ _ _ _ (H1 i ri Hri) Hin)|].
    intros Hj Hinj. apply Hal in Hj. destruct Hj as [[_ H]|[Hne Hj]]; [congruence|].
    apply Hne. apply (H2 j i p Hj); [exists ri; exact Hri|exact Hinj|exact Hin].
  - apply (owns_nodup _ _ _ (H1 i ri Hri)).
Qed.

Lemma drop_chain_spec t s f i :
  cinv t s f [] -> chain_alive s i ->
  exists s', drop_chain t s i = Some s' /\ killed t (set_root s i None) (f i) s' /\ cinv t s' f [] .
Proof.
  intros Hc Hi. destruct Hi as [r Hr]. unfold drop_chain. rewrite (proj2 (cell_iff _ _ _) Hr).
  pose proof (ci_own _ _ _ _ Hc i r Hr) as Ho.
  destruct (drop_chain_loop_spec t (f i) (set_root s i None) r (enough s)) as (s' & E & K).
  { exact Ho. }
  { unfold enough. pose proof (owns_length _ _ _ Ho). lia. }
  exists s'. split; [exact E|]. split; [exact K|].
  apply (cinv_kill t (set_root s i None) f (f i)); [|exact K]. apply cinv_release; [exact Hc|exists r; exact Hr].
Qed.

Definition chained (f : nat -> list nat) (i root : nat) : nat -> list nat :=
  fun x => if Nat.eqb x i then root :: f i else f x.

Lemma cinv_chained t s f i j root tl ps ri k :
  cinv t s f [] -> i <> j ->
  nth_error (chains s) i = Some (Some ri) -> nth_error (chains s) j = Some (Some (Some root)) ->
  f j = root :: tl -> nth_error (store s) root = Some (Some k) ->
  (forall p, In p ps <-> In p tl) -> NoDup ps ->
  cinv t (set_root (set_root (put s root (with_next k ri)) i (Some (Some root))) j None) (chained f i root) ps.
Proof.
  intros [H1 H2 H3 H4 H5 H6 H7 H8] Hij Hi Hj Hfj Hroot Hps Hnd.
  pose proof (nth_lt _ _ _ Hi) as Hli. pose proof (nth_lt _ _ _ Hj) as Hlj. pose proof (nth_lt _ _ _ Hroot) as Hlr.
  assert (Ai : chain_alive s i) by (eexists; exact Hi). assert (Aj : chain_alive s j) by (eexists; exact Hj).
  assert (Hch : forall x, chain_alive (set_root (set_root (put s root (with_next k ri)) i (Some (Some root))) j None) x <->
                          x <> j /\ chain_alive s x).
  { intros x. rewrite alive_set_root.
    - split.
      + intros [[_ H]|[Hx H]]; [congruence|]. split; [exact Hx|].
        apply alive_set_root in H; [|exact Ai]. destruct H as [[-> _]|[_ H]]; [exact Ai|exact H].
      + intros [Hx H]. right. split; [exact Hx|]. apply alive_set_root; [exact Ai|].
        destruct (Nat.eq_dec x i); [left; split; [auto|discriminate]|right; auto].
    - apply alive_set_root; [exact Ai|]. right. split; [congruence|exact Aj]. }
  assert (Hndj : NoDup (root :: tl)) by (rewrite <- Hfj; apply (owns_nodup _ _ _ (H1 _ _ Hj))).
  inversion Hndj as [|? ? Hrt Htl]; subst.
  assert (Hrj : In root (f j)) by (rewrite Hfj; left; reflexivity).
  assert (Hrx : forall x, chain_alive s x -> x <> j -> ~ In root (f x)).
  { intros x Hx Hne Hin. apply Hne. apply (H2 x j root Hx Aj Hin Hrj). }
  constructor; cbn [store chains set_root put freed frees]; auto.
  - intros x r E. destruct (Nat.eq_dec x j) as [->|Hxj].
    { rewrite nth_set_nth_eq in E by (rewrite set_nth_length; exact Hlj). discriminate. }
    rewrite nth_set_nth_ne in E by congruence. unfold chained. destruct (Nat.eqb_spec x i) as [->|Hxi].
    + rewrite nth_set_nth_eq in E by exact Hli. injection E as <-. econstructor.
      * apply nth_set_nth_eq. exact Hlr.
      * cbn [lnext with_next]. apply (owns_same (store s)); [apply (H1 i ri Hi)|].
        intros p Hp. apply nth_set_nth_ne. intros ->. exact (Hrx i Ai ltac:(congruence) Hp).
    + rewrite nth_set_nth_ne in E by congruence. apply (owns_same (store s)); [apply (H1 x r E)|].
      intros p Hp. apply nth_set_nth_ne. intros ->. exact (Hrx x (ex_intro _ r E) Hxj Hp).
  - intros x y p Hx Hy. apply Hch in Hx, Hy. destruct Hx as [Xx Hx], Hy as [Xy Hy]. unfold chained.
    destruct (Nat.eqb_spec x i) as [->|Hxi], (Nat.eqb_spec y i) as [->|Hyi]; try congruence.
    + intros [<-|P1] P2; [exfalso; exact (Hrx y Hy Xy P2)|]. symmetry. apply (H2 y i p Hy Ai P2 P1).
    + intros P1 [<-|P2]; [exfalso; exact (Hrx x Hx Xx P1)|]. apply (H2 x i p Hx Ai P1 P2).
    + intros P1 P2. apply (H2 x y p Hx Hy P1 P2).
  - intros p [kp E]. cbn [store set_root put] in E.
    assert (Hlp : link_live s p).
    { destruct (Nat.eq_dec p root) as [->|Hne]; [eexists; exact Hroot|].
      rewrite nth_set_nth_ne in E by congruence. eexists; exact E. }
    destruct (H3 p Hlp) as [(x & Hx & Hin)|[]]. destruct (Nat.eq_dec x j) as [->|Hxj].
    + rewrite Hfj in Hin. destruct Hin as [<-|Hin].
      * left. exists i. split; [apply Hch; auto|]. unfold chained. rewrite Nat.eqb_refl. left. reflexivity.
      * right. apply Hps. exact Hin.
    + left. exists x. split; [apply Hch; auto|]. unfold chained. destruct (Nat.eqb_spec x i) as [->|]; [right|]; exact Hin.
  - intros p x Hin. apply Hps in Hin. assert (Hinj : In p (f j)) by (rewrite Hfj; right; exact Hin).
    assert (p <> root) by (intros ->; exact (Hrt Hin)). split.
    + destruct (owns_live _ _ _ _ (H1 j _ Hj) Hinj) as [kp Ekp]. exists kp. cbn [store set_root put].
      rewrite nth_set_nth_ne by congruence. exact Ekp.
    + intros Hx Hix. apply Hch in Hx. destruct Hx as [Xx Hx]. unfold chained in Hix.
      destruct (Nat.eqb_spec x i) as [->|Hxi].
      * destruct Hix as [E|Hix]; [congruence|]. apply Hij. apply (H2 i j p Ai Aj Hix Hinj).
      * apply Xx. apply (H2 x j p Hx Aj Hix Hinj).
  - intros p. change (freed (set_root (set_root (put s root (with_next k ri)) i (Some (Some root))) j None)) with (freed s).
    rewrite H7. destruct (Nat.eq_dec p root) as [->|Hne].
    + rewrite nth_set_nth_eq by exact Hlr. split; intros E; [congruence|discriminate].
    + rewrite nth_set_nth_ne by congruence. tauto.
  - intros p kp E. destruct (Nat.eq_dec p root) as [->|Hne].
    + rewrite nth_set_nth_eq in E by exact Hlr. injection E as <-. exact (H8 root k Hroot).
    + rewrite nth_set_nth_ne in E by congruence. eauto.
Qed.

Lemma set_root_comm_put s i r p k : set_root (put s p k) i r = put (set_root s i r) p k.
Proof. reflexivity. Qed.

Lemma killed_set_root t s ps s' i r :
  killed t s ps s' -> killed t (set_root s i r) ps (set_root s' i r).
Proof.
  intros (K1 & K2 & K3 & K4 & K5). split; [cbn; rewrite K1; reflexivity|]. auto.
Qed.

Lemma chain_chain_spec t s f i j :
  cinv t s f [] -> i <> j -> chain_alive s i -> chain_alive s j ->
  exists s', chain_chain t s i j = Some s' /\
    match f j with
    | [] => cinv t s' f [] /\ killed t (set_root s j None) [] s'
    | root :: tl =>
        cinv t s' (chained f i root) [] /\
        exists ps k ri, (forall p, In p ps <-> In p tl) /\ NoDup ps /\
          nth_error (store s) root = Some (Some k) /\ nth_error (chains s) i = Some (Some ri) /\
          killed t (set_root (set_root (put s root (with_next k ri)) i (Some (Some root))) j None) ps s'
    end.
Proof.
  intros Hc Hij [ri Hi] [rj Hj]. unfold chain_chain.
  rewrite (proj2 (cell_iff _ _ _) Hi), (proj2 (cell_iff _ _ _) Hj).
  pose proof (ci_own _ _ _ _ Hc j rj Hj) as Hoj. pose proof (ci_own _ _ _ _ Hc i ri Hi) as Hoi.
  inversion Hoj as [E0 E1|root k tl Hroot Htl E0 E1].
  - subst rj. destruct (drop_chain_spec t s f j Hc (ex_intro _ None Hj)) as (s' & E & K & Hc').
    exists s'. split; [exact E|]. rewrite <- E1 in K. auto.
  - subst rj. symmetry in E1.
    pose proof (nth_lt _ _ _ Hi) as Hli. pose proof (nth_lt _ _ _ Hj) as Hlj. pose proof (nth_lt _ _ _ Hroot) as Hlr.
    assert (Hnd : NoDup (root :: tl)) by (rewrite <- E1; apply (owns_nodup _ _ _ Hoj)).
    inversion Hnd as [|? ? Hrt Hnd']; subst.
    unfold set_next. rewrite (proj2 (cell_iff _ _ _) Hroot).
    assert (Hsub : exists s1 ps, match lnext k with
                   | None => Some (put s root (with_next k ri))
                   | Some q => drop_box t (enough s) (put s root (with_next k ri)) q
                   end = Some s1 /\ (forall p, In p ps <-> In p tl) /\ NoDup ps /\
                   killed t (put s root (with_next k ri)) ps s1).
    { assert (Htl' : owns (store (put s root (with_next k ri))) (lnext k) tl).
      { apply (owns_same (store s)); [exact Htl|]. intros p Hp. apply nth_set_nth_ne. intros ->. exact (Hrt Hp). }
      inversion Htl' as [X0 X1|q kq qs Hq Hqs X0 X1].
      - exists (put s root (with_next k ri)), []. split; [reflexivity|]. split; [tauto|]. split; [constructor|apply killed_nil].
      - destruct (drop_box_spec t q qs (put s root (with_next k ri)) (enough s)) as (s1 & E & K).
        { econstructor; eauto. }
        { unfold enough. rewrite <- X0, <- X1 in Htl'. pose proof (owns_length _ _ _ Htl') as Hlen. cbn [store put length] in Hlen.
          rewrite set_nth_length in Hlen. lia. }
        exists s1, (qs ++ [q]). split; [exact E|]. split; [|split; [|exact K]].
        + intros p. rewrite in_app_iff. cbn. tauto.
        + subst tl. inversion Hnd' as [|? ? Hqn Hqnd]; subst. apply NoDup_app_intro; [exact Hqnd|repeat constructor; auto|].
          intros x Hx [<-|[]]. exact (Hqn Hx). }
    destruct Hsub as (s1 & ps & -> & Hps & Hndps & K).
    set (s2 := set_root (set_root s1 i (Some (Some root))) j (Some None)).
    assert (Hch1 : chains s1 = chains s) by (destruct K as (K1 & _); exact K1).
    assert (E2 : nth_error (chains s2) j = Some (Some None)).
    { unfold s2. cbn [chains set_root]. apply nth_set_nth_eq. rewrite set_nth_length, Hch1. exact Hlj. }
    unfold drop_chain. rewrite (proj2 (cell_iff _ _ _) E2). unfold enough.
    rewrite Nat.add_comm. cbn [Nat.add drop_chain_loop].
    assert (Efin : set_root s2 j None = set_root (set_root s1 i (Some (Some root))) j None).
    { unfold s2, set_root. cbn. rewrite set_set_nth. reflexivity. }
    rewrite Efin. eexists. split; [reflexivity|].
    pose proof (cinv_chained t s f i j root tl ps ri k Hc Hij Hi Hj E1 Hroot Hps Hndps) as HcA.
    assert (KA : killed t (set_root (set_root (put s root (with_next k ri)) i (Some (Some root))) j None) ps
                   (set_root (set_root s1 i (Some (Some root))) j None)).
    { apply killed_set_root, killed_set_root. exact K. }
    split; [apply (cinv_kill t _ _ _ _ HcA KA)|].
    exists ps, k, ri. auto.
Qed.

(** ** One call *)

Definition no_frees (s s' : world) : Prop := frees s' = frees s.

Lemma cinv_put_bump t s f p k b :
  cinv t s f [] -> nth_error (store s) p = Some (Some k) -> link_ok t (with_bump k b) ->
  cinv t (put s p (with_bump k b)) f [].
Proof.
  intros [H1 H2 H3 H4 H5 H6 H7 H8] Hp Hok. pose proof (nth_lt _ _ _ Hp) as Hlt.
  constructor; cbn [store chains put freed frees]; auto.
  - intros i r E. apply (owns_ext (store s)); [apply H1; exact E|]. intros q kq _ Eq.
    destruct (Nat.eq_dec q p) as [->|Hne].
    + exists (with_bump k b). rewrite nth_set_nth_eq by exact Hlt. split; [reflexivity|].
      assert (kq = k) by congruence. subst. reflexivity.
    + exists kq. rewrite nth_set_nth_ne by congruence. auto.
  - intros q [kq Eq]. cbn [store put] in Eq. apply H3. destruct (Nat.eq_dec q p) as [->|Hne].
    + exists k. exact Hp.
    + exists kq. rewrite nth_set_nth_ne in Eq by congruence. exact Eq.
  - intros q i [].
  - intros q. change (freed (put s p (with_bump k b))) with (freed s). rewrite H7.
    destruct (Nat.eq_dec q p) as [->|Hne].
    + rewrite nth_set_nth_eq by exact Hlt. split; intros E; [congruence|discriminate].
    + rewrite nth_set_nth_ne by congruence. tauto.
  - intros q kq Eq. destruct (Nat.eq_dec q p) as [->|Hne].
    + rewrite nth_set_nth_eq in Eq by exact Hlt. injection Eq as <-. exact Hok.
    + rewrite nth_set_nth_ne in Eq by congruence. eauto.
Qed.

Lemma bump_box_link_ok t k l b' r :
  valid_target t -> link_ok t k -> type_layout t l -> u_bump_box t (lbump k) l = (b', r) ->
  link_ok t (with_bump k b').
Proof.
  intros Ht (K1 & K2 & K3 & K4) Hl E.
  pose proof (ustep_ok t (lbump k) (UBumpBox l) Ht K1 Hl) as [O1 O2]. cbn [ustep] in O1, O2. rewrite E in O1, O2.
  cbn [fst] in *. unfold link_ok. cbn [lbump lraw with_bump]. rewrite O2. auto.
Qed.

Lemma alive_app s r x : chain_alive {| store := store s ++ [r]; chains := chains s ++ [Some (Some (length (store s)))]; frees := frees s |} x <->
  chain_alive s x \/ x = length (chains s).
Proof.
  unfold chain_alive. cbn [chains]. split.
  - intros [y E]. destruct (Nat.lt_ge_cases x (length (chains s))) as [Hlt|Hge].
    + rewrite nth_error_app1 in E by exact Hlt. left. eauto.
    + right. assert (Hx : (x < length (chains s) + 1)%nat).
      { apply nth_lt in E. rewrite app_length in E. exact E. }
      lia.
  - intros [[y E]| ->].
    + exists y. rewrite nth_error_app1; [exact E|]. apply nth_lt with (1 := E).
    + eexists. rewrite nth_error_app2, Nat.sub_diag by lia. reflexivity.
Qed.

Lemma cinv_new t s f k :
  cinv t s f [] -> lnext k = None -> link_ok t k ->
  cinv t {| store := store s ++ [Some k]; chains := chains s ++ [Some (Some (length (store s)))]; frees := frees s |}
    (fun x => if Nat.eqb x (length (chains s)) then [length (store s)] else f x) [].
Proof.
  intros [H1 H2 H3 H4 H5 H6 H7 H8] Hn Hok.
  assert (Hlt : forall x, chain_alive s x -> (x < length (chains s))%nat).
  { intros x [y E]. apply nth_lt with (1 := E). }
  assert (Hfl : forall x p, chain_alive s x -> In p (f x) -> (p < length (store s))%nat).
  { intros x p [y E] Hp. destruct (owns_live _ _ _ _ (H1 x y E) Hp) as [kp Ek]. apply nth_lt with (1 := Ek). }
  assert (Hend : nth_error (store s ++ [Some k]) (length (store s)) = Some (Some k)).
  { rewrite nth_error_app2, Nat.sub_diag by lia. reflexivity. }
  constructor; cbn [store chains freed frees]; auto.
  - intros i r E. destruct (Nat.eqb_spec i (length (chains s))) as [->|Hne].
    + rewrite nth_error_app2, Nat.sub_diag in E by lia. injection E as <-.
      econstructor; [exact Hend|]. rewrite Hn. constructor.
    + assert (Hl : (i < length (chains s))%nat).
      { apply nth_lt in E. rewrite app_length in E. cbn in E. lia. }
      rewrite nth_error_app1 in E by exact Hl. apply (owns_same (store s)); [apply H1; exact E|].
      intros p Hp. apply nth_error_app1. apply (Hfl i p); [exists r; exact E|exact Hp].
  - intros i j p Hi Hj Pi Pj. apply (alive_app s (Some k)) in Hi, Hj.
    destruct (Nat.eqb_spec i (length (chains s))) as [->|Hi'], (Nat.eqb_spec j (length (chains s))) as [->|Hj']; auto.
    + destruct Hj as [Hj|]; [|congruence]. destruct Pi as [<-|[]]. pose proof (Hfl _ _ Hj Pj). lia.
    + destruct Hi as [Hi|]; [|congruence]. destruct Pj as [<-|[]]. pose proof (Hfl _ _ Hi Pi). lia.
    + destruct Hi as [Hi|]; [|congruence]. destruct Hj as [Hj|]; [|congruence]. apply (H2 i j p); assumption.
  - intros p [kp E]. cbn [store] in E. left. destruct (Nat.eq_dec p (length (store s))) as [->|Hne].
    + exists (length (chains s)). split; [apply (alive_app s (Some k)); auto|]. rewrite Nat.eqb_refl. left. reflexivity.
    + assert (Hl : (p < length (store s))%nat).
      { apply nth_lt in E. rewrite app_length in E. cbn in E. lia. }
      rewrite nth_error_app1 in E by exact Hl. destruct (H3 p (ex_intro _ kp E)) as [(i & Hi & Hp)|[]].
      exists i. split; [apply (alive_app s (Some k)); auto|].
      destruct (Nat.eqb_spec i (length (chains s))); [pose proof (Hlt i Hi); lia|exact Hp].
  - intros p i [].
  - intros p. change (In p (freed s) <-> nth_error (store s ++ [Some k]) p = Some None). rewrite H7.
    destruct (Nat.lt_ge_cases p (length (store s))) as [Hl|Hl].
    + rewrite nth_error_app1 by exact Hl. tauto.
    + split; intros E.
      * apply nth_lt in E. lia.
      * destruct (Nat.eq_dec p (length (store s))) as [->|Hne]; [congruence|].
        apply nth_lt in E. rewrite app_length in E. cbn in E. lia.
  - intros p kp E. destruct (Nat.eq_dec p (length (store s))) as [->|Hne].
    + assert (kp = k) by congruence. subst. exact Hok.
    + assert (Hl : (p < length (store s))%nat).
      { apply nth_lt in E. rewrite app_length in E. cbn in E. lia. }
      rewrite nth_error_app1 in E by exact Hl. eauto.
Qed.

Lemma link_alloc_ok t sz a k l :
  valid_target t -> is_usize t sz -> link_alloc t sz (Some a) = LinkOk k l ->
  valid_region t (MkBlock a (lsize l)) -> link_ok t k /\ lnext k = None /\ lraw k = MkBlock a (lsize l) /\
  l = link_val_layout t sz /\ size (udata (lbump k)) = sz /\ uindex (lbump k) = 0.
Proof.
  intros Ht Hsz E (R1 & R2 & R3). unfold link_alloc in E.
  destruct (link_layout_from_size t sz) as [l'|] eqn:El; [|discriminate].
  remember (a + 2 * word_bytes t + word_bytes t) as d eqn:Ed. injection E as <- <-.
  destruct Hsz as [Hs0 Hs1]. destruct (link_layout_spec t sz l' Ht Hs0 El) as [-> Hle].
  pose proof (word_pos t Ht) as Hw. cbn [start size] in *. split; [|repeat split].
  split; [|split; [|split]]; cbn [lbump lraw udata u_fresh size].
  - apply uok_fresh. unfold valid_region. cbn [start size]. lia.
  - apply inside_intro; cbn [start size]; lia.
  - exact El.
  - reflexivity.
Qed.

Lemma cstep_ok t s f o :
  valid_target t -> cinv t s f [] -> owner_ok t s o ->
  exists s' a f', cstep t s o = Some (s', a) /\ cinv t s' f' [] /\
  match o with
  | ONew _ _ => frees s' = frees s /\ forall i, chain_alive s i -> chain_alive s' i /\ f' i = f i
  | OChain i j =>
      frees s' = frees s ++ map (fun p => (p, dealloc_of t (store s) p)) (skipn (length (freed s)) (freed s')) /\
      (forall p, In p (skipn (length (freed s)) (freed s')) <-> In p (List.tl (f j))) /\
      freed s' = freed s ++ skipn (length (freed s)) (freed s') /\
      (forall x, chain_alive s' x <-> x <> j /\ chain_alive s x) /\
      f' i = firstn 1 (f j) ++ f i /\ (forall x, x <> i -> f' x = f x)
  | ODrop i =>
      frees s' = frees s ++ map (fun p => (p, dealloc_of t (store s) p)) (f i) /\
      (forall x, chain_alive s' x <-> x <> i /\ chain_alive s x) /\ (forall x, f' x = f x)
  | OBumpBox _ _ | OCapacity _ | ORemaining _ =>
      frees s' = frees s /\ chains s' = chains s /\ (forall x, f' x = f x)
  end.
Proof.
  intros Ht Hc Ho. destruct o as [sz addr|i j|i l|i|i|i]; cbn [cstep owner_ok] in *.
  - destruct Ho as [Hsz Haddr]. destruct (link_alloc t sz addr) as [k l|n] eqn:E.
    + assert (exists a, addr = Some a) as [a ->].
      { unfold link_alloc in E. destruct (link_layout_from_size t sz); [|discriminate]. destruct addr; [eauto|discriminate]. }
      assert (El : link_layout_from_size t sz = Some l).
      { unfold link_alloc in E. destruct (link_layout_from_size t sz); [|discriminate]. congruence. }
      destruct (Haddr a l eq_refl El) as [Hr _].
      destruct (link_alloc_ok t sz a k l Ht Hsz E Hr) as (K1 & K2 & _).
      do 3 eexists. split; [reflexivity|]. split; [apply (cinv_new t s f k Hc K2 K1)|].
      split; [reflexivity|]. intros i Hi. split; [apply (alive_app s (Some k)); auto|].
      destruct Hi as [r Hi]. destruct (Nat.eqb_spec i (length (chains s))); [|reflexivity].
      apply nth_lt in Hi. lia.
    + exists s, (ANewErr n), f. split; [reflexivity|]. split; [exact Hc|]. split; [reflexivity|auto].
  - destruct Ho as (Hij & Hi & Hj). destruct (chain_chain_spec t s f i j Hc Hij Hi Hj) as (s' & E & H).
    rewrite E. destruct (f j) as [|root tl] eqn:Efj.
    + destruct H as [Hc' K]. exists s', AUnit, f. split; [reflexivity|]. split; [exact Hc'|].
      pose proof (killed_freed _ _ _ _ K) as Ef. rewrite app_nil_r in Ef.
      change (freed (set_root s j None)) with (freed s) in Ef. rewrite Ef, skipn_all. cbn [map List.tl firstn app].
      destruct K as (K1 & _ & _ & _ & K5). split; [rewrite K5; reflexivity|]. split; [tauto|].
      split; [rewrite app_nil_r; reflexivity|]. split; [|auto].
      intros x. unfold chain_alive at 1. rewrite K1. change (chain_alive (set_root s j None) x <-> x <> j /\ chain_alive s x).
      rewrite (alive_set_root s j None x Hj). split; [intros [[_ H]|H]; [congruence|exact H]|auto].
    + destruct H as (Hc' & ps & k & ri & Hps & Hnd & Hroot & Hri & K).
      exists s', AUnit, (chained f i root). split; [reflexivity|]. split; [exact Hc'|].
      pose proof (killed_freed _ _ _ _ K) as Ef.
      change (freed (set_root (set_root (put s root (with_next k ri)) i (Some (Some root))) j None)) with (freed s) in Ef.
      assert (Esk : skipn (length (freed s)) (freed s') = ps).
      { rewrite Ef, skipn_app, skipn_all, Nat.sub_diag. reflexivity. }
      rewrite Esk. destruct K as (K1 & _ & _ & _ & K5). cbn [List.tl].
      assert (Hndj : NoDup (root :: tl)).
      { destruct Hj as [rj Hj]. rewrite <- Efj. apply (owns_nodup _ _ _ (ci_own _ _ _ _ Hc j rj Hj)). }
      inversion Hndj as [|? ? Hrt _]; subst.
      split.
      { rewrite K5. cbn [frees set_root put store]. f_equal. apply map_ext_in. intros p Hp. f_equal.
        unfold dealloc_of, cell. rewrite nth_set_nth_ne; [reflexivity|]. intros ->. apply Hrt, Hps, Hp. }
      split; [exact Hps|]. split; [exact Ef|]. split; [|split].
      * intros x. unfold chain_alive at 1. rewrite K1.
        change (chain_alive (set_root (set_root (put s root (with_next k ri)) i (Some (Some root))) j None) x <-> x <> j /\ chain_alive s x).
        rewrite alive_set_root.
        -- split.
           ++ intros [[_ H]|[Hx H]]; [congruence|]. split; [exact Hx|].
              apply alive_set_root in H; [|exact Hi]. destruct H as [[-> _]|[_ H]]; [exact Hi|exact H].
           ++ intros [Hx H]. right. split; [exact Hx|]. apply alive_set_root; [exact Hi|].
              destruct (Nat.eq_dec x i); [left; split; [auto|discriminate]|right; auto].
        -- apply alive_set_root; [exact Hi|]. right. split; [congruence|exact Hj].
      * unfold chained. rewrite Nat.eqb_refl. reflexivity.
      * intros x Hx. unfold chained. destruct (Nat.eqb_spec x i); [congruence|reflexivity].
  - destruct Ho as [[r Hr] Hl]. rewrite (proj2 (cell_iff _ _ _) Hr). destruct r as [p|].
    + pose proof (ci_own _ _ _ _ Hc i _ Hr) as Hown. inversion Hown as [|p' k ps Hp Hps]; subst.
      rewrite (proj2 (cell_iff _ _ _) Hp). destruct (u_bump_box t (lbump k) l) as [b' r] eqn:E.
      do 3 eexists. split; [reflexivity|]. split; [|split; [reflexivity|split; [reflexivity|intros x; reflexivity]]].
      apply cinv_put_bump; [exact Hc|exact Hp|].
      apply (bump_box_link_ok t k l b' r Ht (ci_links _ _ _ _ Hc p k Hp) Hl E).
    + exists s. do 2 eexists. split; [reflexivity|]. split; [exact Hc|]. auto.
  - destruct Ho as [r Hr]. rewrite (proj2 (cell_iff _ _ _) Hr). destruct r as [p|].
    + pose proof (ci_own _ _ _ _ Hc i _ Hr) as Hown. inversion Hown as [|p' k ps Hp Hps]; subst.
      rewrite (proj2 (cell_iff _ _ _) Hp). do 3 eexists. split; [reflexivity|]. split; [exact Hc|]. auto.
    + do 3 eexists. split; [reflexivity|]. split; [exact Hc|]. auto.
  - destruct Ho as [r Hr]. rewrite (proj2 (cell_iff _ _ _) Hr). destruct r as [p|].
    + pose proof (ci_own _ _ _ _ Hc i _ Hr) as Hown. inversion Hown as [|p' k ps Hp Hps]; subst.
      rewrite (proj2 (cell_iff _ _ _) Hp). do 3 eexists. split; [reflexivity|]. split; [exact Hc|]. auto.
    + do 3 eexists. split; [reflexivity|]. split; [exact Hc|]. auto.
  - destruct (drop_chain_spec t s f i Hc Ho) as (s' & E & K & Hc'). rewrite E.
    exists s', AUnit, f. split; [reflexivity|]. split; [exact Hc'|]. destruct K as (K1 & _ & _ & _ & K5).
    split; [exact K5|]. split; [|auto]. intros x. unfold chain_alive at 1. rewrite K1.
    change (chain_alive (set_root s i None) x <-> x <> i /\ chain_alive s x).
    rewrite (alive_set_root s i None x Ho). split; [intros [[_ H]|H]; [congruence|exact H]|auto].
Qed.

Lemma cinv_empty t : cinv t empty_world (fun _ => []) [].
Proof.
  constructor; cbn; try (intros; contradiction).
  - intros i r E. destruct i; discriminate.
  - intros p [k E]. destruct p; discriminate.
  - constructor.
  - constructor.
  - intros p. split; [intros []|destruct p; discriminate].
  - intros p k E. destruct p; discriminate.
Qed.

Lemma crun_ok t s f os :
  valid_target t -> cinv t s f [] -> chain_hist t s os ->
  exists s' h f', crun t s os = Some (s', h) /\ cinv t s' f' [].
Proof.
  intros Ht. revert s f. induction os as [|o os IH]; intros s f Hc Hh; cbn [crun].
  - eauto.
  - inversion Hh as [|? ? ? Ho Hn]; subst.
    destruct (cstep_ok t s f o Ht Hc Ho) as (s1 & a & f1 & E & Hc1 & _). rewrite E.
    destruct (IH s1 f1 Hc1 (Hn s1 a E)) as (s2 & h & f2 & E2 & Hc2). rewrite E2. eauto.
Qed.

Lemma chain_reach_inv t s : valid_target t -> chain_reach t s -> exists f, cinv t s f [].
Proof.
  intros Ht (os & h & Hh & E). destruct (crun_ok t empty_world _ os Ht (cinv_empty t) Hh) as (s' & h' & f & E' & Hc).
  rewrite E in E'. injection E' as <- <-. eauto.
Qed.

Lemma chain_owns_iff t s f i ps : cinv t s f [] -> chain_owns s i ps <-> chain_alive s i /\ ps = f i.
Proof.
  intros Hc. split.
  - intros (r & Hr & Ho). split; [exists r; exact Hr|]. apply (owns_det _ _ _ _ Ho (ci_own _ _ _ _ Hc i r Hr)).
  - intros [[r Hr] ->]. exists r. split; [exact Hr|]. apply (ci_own _ _ _ _ Hc i r Hr).
Qed.

(** ** Chains always own a link *)

Definition rooted (s : world) : Prop := forall i, nth_error (chains s) i <> Some (Some None).

Lemma rooted_f t s f : cinv t s f [] -> (rooted s <-> forall i, chain_alive s i -> f i <> []).
Proof.
  intros Hc. split.
  - intros Hr i [r Hi] E. pose proof (ci_own _ _ _ _ Hc i r Hi) as Ho. rewrite E in Ho. inversion Ho; subst. exact (Hr i Hi).
  - intros Hf i Hi. apply (Hf i); [exists None; exact Hi|]. pose proof (ci_own _ _ _ _ Hc i None Hi) as Ho. inversion Ho. reflexivity.
Qed.

Lemma cstep_rooted t s f o s' a :
  valid_target t -> cinv t s f [] -> owner_ok t s o -> rooted s -> cstep t s o = Some (s', a) -> rooted s'.
Proof.
  intros Ht Hc Ho Hr E. destruct (cstep_ok t s f o Ht Hc Ho) as (s1 & a1 & f' & E1 & Hc' & H).
  rewrite E in E1. injection E1 as <- <-. pose proof (proj1 (rooted_f t s f Hc) Hr) as Hf.
  assert (Hsame : chains s' = chains s -> rooted s').
  { intros X i. rewrite X. apply Hr. }
  destruct o as [sz addr|i j|i l|i|i|i]; try (apply Hsame; apply H).
  - cbn [cstep] in E. destruct (link_alloc t sz addr) as [k l|n]; injection E as <- <-; [|exact Hr].
    intros i. cbn [chains]. destruct (Nat.lt_ge_cases i (length (chains s))) as [Hl|Hl].
    + rewrite nth_error_app1 by exact Hl. apply Hr.
    + rewrite nth_error_app2 by exact Hl. destruct (i - length (chains s))%nat as [|[|n]]; discriminate.
  - apply (rooted_f t s' f' Hc'). destruct H as (_ & _ & _ & H4 & H5 & H6). destruct Ho as (_ & Hi & _).
    intros x Hx. apply H4 in Hx. destruct (Nat.eq_dec x i) as [->|Hne].
    + rewrite H5. intros E0. apply app_eq_nil in E0. exact (Hf i Hi (proj2 E0)).
    + rewrite H6 by exact Hne. apply Hf. apply Hx.
  - apply (rooted_f t s' f' Hc'). destruct H as (_ & H2 & H3). intros x Hx. apply H2 in Hx. rewrite H3. apply Hf. apply Hx.
Qed.

Lemma crun_rooted t s f os s' h :
  valid_target t -> cinv t s f [] -> rooted s -> chain_hist t s os -> crun t s os = Some (s', h) -> rooted s'.
Proof.
  intros Ht. revert s f h. induction os as [|o os IH]; intros s f h Hc Hr Hh; cbn [crun].
  - intros [= <- _]. exact Hr.
  - inversion Hh as [|? ? ? Ho Hn]; subst.
    destruct (cstep_ok t s f o Ht Hc Ho) as (s1 & a & f1 & E & Hc1 & _). rewrite E.
    destruct (crun t s1 os) as [[s2 h2]|] eqn:E2; [|discriminate]. intros [= <- _].
    apply (IH s1 f1 h2 Hc1 (cstep_rooted t s f o s1 a Ht Hc Ho Hr E) (Hn s1 a E) E2).
Qed.

Lemma reach_rooted t s : valid_target t -> chain_reach t s -> rooted s.
Proof.
  intros Ht (os & h & Hh & E). apply (crun_rooted t empty_world _ os s h Ht (cinv_empty t)); [|exact Hh|exact E].
  intros [|i]; discriminate.
Qed.

Lemma link_layout_iff t sz :
  valid_target t -> 0 <= sz ->
  (align_up (3 * word_bytes t + sz) (usize_align t) <= isize_max t ->
     link_layout_from_size t sz = Some (MkLayout (align_up (3 * word_bytes t + sz) (usize_align t)) (usize_align t))) /\
  (isize_max t < align_up (3 * word_bytes t + sz) (usize_align t) -> link_layout_from_size t sz = None).
Proof.
  intros Ht Hsz. pose proof (usize_align_pos t Ht) as Ha. pose proof (word_pos t Ht) as Hw.
  pose proof (isize_lt_usize t Ht) as Hi.
  pose proof (layout_from_size_spec t sz) as Hs.
  assert (Hw2 : (usize_align t | 2 * word_bytes t)) by (apply Z.divide_mul_r; apply Ht).
  assert (Hsum : align_up (3 * word_bytes t + sz) (usize_align t) = 2 * word_bytes t + align_up (word_bytes t + sz) (usize_align t)).
  { unfold align_up. replace (- (3 * word_bytes t + sz)) with (- (word_bytes t + sz) + (- 2 * word_bytes t)) by lia.
    destruct Hw2 as [q Hq]. replace (- 2 * word_bytes t) with ((- q) * usize_align t) by lia.
    rewrite Z_mod_plus_full. lia. }
  rewrite Hsum. pose proof (align_up_ge (word_bytes t + sz) (usize_align t) Ha) as Hge.
  pose proof (align_up_aligned (word_bytes t + sz) (usize_align t) Ha) as Hal.
  unfold link_layout_from_size. destruct (layout_from_size t sz) as [bl|] eqn:E.
  - apply (layout_from_size_spec t sz bl Ht Hsz) in E. destruct E as [-> Hb]. cbn [lsize] in Hb.
    unfold layout_extend, link_ptr_layout. cbn [lsize lalign].
    rewrite (align_up_id (2 * word_bytes t)) by assumption. rewrite Z.max_id.
    assert (Hw3 : 0 < 2 * word_bytes t) by lia. revert Hw2 Hw3. generalize (2 * word_bytes t). intros w2 Hw2 Hw3. clear Hsum.
    revert Hal Hb Hge. generalize (align_up (word_bytes t + sz) (usize_align t)). intros u Hal Hb Hge.
    assert (Hid : align_up (w2 + u) (usize_align t) = w2 + u).
    { apply align_up_id; [exact Ha|]. apply Z.divide_add_r; assumption. }
    unfold checked_add. split; intros H.
    + destruct (Z.leb_spec (w2 + u) (usize_max t)); [|unfold usize_max in *; lia].
      assert (El : from_size_align t (w2 + u) (usize_align t) = Some (MkLayout (w2 + u) (usize_align t))).
      { apply from_size_align_spec. split; [reflexivity|]. unfold valid_layout. cbn [lsize lalign].
        destruct Ht as (H1 & H2 & H3). split; [lia|]. split; [exact H2|]. split; [|lia].
        apply Z.divide_pos_le in H3; [|lia]. lia. }
      rewrite El. reflexivity.
    + destruct (Z.leb_spec (w2 + u) (usize_max t)); [|reflexivity].
      unfold from_size_align. rewrite Hid. destruct (Z.leb_spec (w2 + u) (isize_max t)); [lia|]. rewrite andb_false_r. reflexivity.
  - split; [|reflexivity]. intros H. exfalso.
    assert (None = Some (MkLayout (align_up (word_bytes t + sz) (usize_align t)) (usize_align t))); [|discriminate].
    rewrite <- E. apply (layout_from_size_spec t sz _ Ht Hsz). cbn [lsize]. split; [reflexivity|lia].
Qed.
