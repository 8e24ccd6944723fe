(** * HeapProofs: a Bump refines the ideal heap. *)
From Verif Require Import Base Spec BaseFacts SyncModel SyncSpec SyncProofs SyncMemModel SyncMemSpec SyncMemProofs FixedVecPool HeapSpec.

Definition agrees (m : mem) (p n : Z) (data : list hbyte) : Prop :=
  Z.of_nat (length data) = n /\ forall k b, nth_error data k = Some (Some b) -> m (p + Z.of_nat k) = b.

Definition arr_rel (m : mem) (h : handle) (a : harr) : Prop :=
  hptr h = aaddr a /\ hlay h = alay a /\ hkind h = akind a /\ hlive h = alive a /\
  (hlive h = true -> agrees m (hptr h) (lsize (hlay h)) (adata a)).

Definition drop_rel (d : nat * list (option Z)) (e : nat * list hbyte) : Prop := fst d = fst e /\ keeps (snd d) (snd e).

Definition hrel (t : target) (st : block) (c : client) (h : heap) : Prop :=
  minv t c /\ storage (sl (ms c)) = st /\ consumed (sl (ms c)) = hused h /\
  Forall2 (arr_rel (bytes (ms c))) (handles c) (harrs h) /\ Forall2 drop_rel (drops c) (hdropped h).

Lemma agrees_keeps m p n data : agrees m p n data -> keeps (mem_read m p n) data.
Proof.
  intros (L & A). unfold keeps, mem_read. subst n. rewrite Nat2Z.id.
  apply Forall2_nth_iff; [rewrite map_length, seq_length; reflexivity|].
  intros i b d N1 N2. assert (LT : (i < length data)%nat) by (apply nth_error_Some; rewrite N2; discriminate).
  rewrite nth_error_map in N1. rewrite (nth_error_nth' (seq 0 (length data)) 0%nat) in N1 by (rewrite seq_length; exact LT).
  rewrite seq_nth in N1 by exact LT. cbn in N1. injection N1 as <-. destruct d as [b'|]; [|exact I]. apply A. exact N2.
Qed.

Lemma keeps_specified bs : keeps bs (map Some bs).
Proof. unfold keeps. induction bs; cbn; constructor; auto. Qed.

Lemma agrees_same m m' p n data : agrees m p n data -> (forall x, p <= x < p + n -> m' x = m x) -> agrees m' p n data.
Proof.
  intros (L & A) S. split; [exact L|]. intros k b N. assert (k < length data)%nat by (apply nth_error_Some; rewrite N; discriminate).
  rewrite S by lia. apply A. exact N.
Qed.

Lemma agrees_anything m p n : 0 <= n -> agrees m p n (anything n).
Proof.
  intros H. split; [unfold anything; rewrite repeat_length; lia|]. intros k b N. apply nth_error_In in N. apply repeat_spec in N. discriminate.
Qed.
Lemma agrees_zeroes m p n : 0 <= n -> agrees (mem_fill m p n (Some 0)) p n (zeroes n).
Proof.
  intros H. split; [unfold zeroes; rewrite repeat_length; lia|]. intros k b N. assert (k < length (zeroes n))%nat by (apply nth_error_Some; rewrite N; discriminate).
  unfold zeroes in *. rewrite repeat_length in *. apply nth_error_In in N. apply repeat_spec in N. injection N as ->. apply mem_fill_at. lia.
Qed.
Lemma agrees_written m p bs n : Z.of_nat (length bs) = n -> agrees (mem_write m p bs) p n (map Some bs).
Proof.
  intros L. split; [rewrite map_length; exact L|]. intros k b N. rewrite nth_error_map in N. destruct (nth_error bs k) eqn:E; [|discriminate].
  injection N as <-. apply (mem_write_reads m p bs k _ E).
Qed.

Lemma nth_firstn {A} (l : list A) n k : nth_error (firstn n l) k = if (k <? n)%nat then nth_error l k else None.
Proof.
  revert n k. induction l as [|x l IH]; intros [|n] [|k]; cbn; auto.
  - match goal with |- _ = if ?x then _ else _ => destruct x end; reflexivity.
  - rewrite IH. reflexivity.
Qed.
Lemma nth_skipn {A} (l : list A) n k : nth_error (skipn n l) k = nth_error l (n + k).
Proof. revert n. induction l as [|x l IH]; intros [|n]; cbn; auto. destruct k; reflexivity. Qed.

(** Contents copied to a block of another size *)
Lemma agrees_resized m m' p q old n n' : agrees m p n old -> 0 <= n' ->
  (forall k, 0 <= k < Z.min n' n -> m' (q + k) = m (p + k)) -> agrees m' q n' (resized old n').
Proof.
  intros (L & A) P C. unfold resized, anything. split.
  - rewrite app_length, firstn_length, repeat_length. lia.
  - intros k b N. destruct (Nat.lt_ge_cases k (length (firstn (Z.to_nat n') old))) as [LT|GE].
    + rewrite nth_error_app1 in N by exact LT. rewrite firstn_length in LT. rewrite nth_firstn in N.
      destruct (Nat.ltb_spec k (Z.to_nat n')); [|discriminate]. rewrite C by lia. apply A. exact N.
    + rewrite nth_error_app2 in N by exact GE. apply nth_error_In in N. apply repeat_spec in N. discriminate.
Qed.

Lemma agrees_splice m p n data off bs : agrees m p n data -> 0 <= off -> off + Z.of_nat (length bs) <= n ->
  agrees (mem_write m (p + off) bs) p n (hsplice data (Z.to_nat off) bs).
Proof.
  intros (L & A) O B. unfold hsplice. split.
  - rewrite !app_length, firstn_length, map_length, skipn_length. lia.
  - intros k b N. assert (LF : length (firstn (Z.to_nat off) data) = Z.to_nat off) by (rewrite firstn_length; lia).
    destruct (Nat.lt_ge_cases k (Z.to_nat off)) as [LT|GE].
    + rewrite nth_error_app1 in N by lia. rewrite nth_firstn in N. destruct (Nat.ltb_spec k (Z.to_nat off)); [|lia].
      unfold mem_write. destruct (Z.leb_spec (p + off) (p + Z.of_nat k)); [lia|]. cbn [andb]. apply A. exact N.
    + rewrite nth_error_app2 in N by lia. rewrite LF in N. destruct (Nat.lt_ge_cases (k - Z.to_nat off) (length bs)) as [LT2|GE2].
      * rewrite nth_error_app1 in N by (rewrite map_length; exact LT2). rewrite nth_error_map in N.
        destruct (nth_error bs (k - Z.to_nat off)) eqn:E; [|discriminate]. injection N as <-.
        replace (p + Z.of_nat k) with (p + off + Z.of_nat (k - Z.to_nat off)) by lia. apply (mem_write_reads m (p + off) bs _ _ E).
      * rewrite nth_error_app2 in N by (rewrite map_length; exact GE2). rewrite map_length, nth_skipn in N.
        replace (Z.to_nat off + length bs + (k - Z.to_nat off - length bs))%nat with k in N by lia.
        unfold mem_write. destruct (Z.ltb_spec (p + Z.of_nat k) (p + off + Z.of_nat (length bs))); [lia|]. rewrite andb_false_r. apply A. exact N.
Qed.

(** ** Lists of blocks *)

Lemma arrs_same m m' hs as_ : Forall2 (arr_rel m) hs as_ ->
  (forall h, In h hs -> hlive h = true -> forall x, in_block (hblock h) x -> m' x = m x) -> Forall2 (arr_rel m') hs as_.
Proof.
  intros F. induction F as [|h a hs as_ R F IH]; intros S; constructor.
  - destruct R as (R1 & R2 & R3 & R4 & R5). repeat (split; [assumption|]). intros L. eapply agrees_same; [exact (R5 L)|].
    intros x X. apply (S h (or_introl eq_refl) L). exact X.
  - apply IH. intros h' I. apply S. right. exact I.
Qed.

Lemma F2_upd {A B} (R : A -> B -> Prop) l l' i a b : Forall2 R l l' -> R a b -> Forall2 R (upd l i a) (upd l' i b).
Proof. intros F H. revert i. induction F; intros [|i]; cbn; constructor; auto. Qed.

(** [x] for the block of handle [i] only *)
Lemma arrs_upd m m' hs as_ i h a h' a' : Forall2 (arr_rel m) hs as_ -> nth_error hs i = Some h -> nth_error as_ i = Some a ->
  arr_rel m' h' a' ->
  (forall j hj, j <> i -> nth_error hs j = Some hj -> hlive hj = true -> forall x, in_block (hblock hj) x -> m' x = m x) ->
  Forall2 (arr_rel m') (upd hs i h') (upd as_ i a').
Proof.
  intros F N M R S. apply Forall2_nth_iff.
  { rewrite !upd_length. exact (Forall2_length _ _ _ F). }
  intros j x y X Y. destruct (Nat.eq_dec j i) as [-> | D].
  - rewrite (nth_error_upd_same _ _ _ _ N) in X. rewrite (nth_error_upd_same _ _ _ _ M) in Y. congruence.
  - rewrite nth_error_upd_other in X by auto. rewrite nth_error_upd_other in Y by auto.
    destruct (Forall2_nth _ _ _ _ _ F X) as (y' & Y' & (R1 & R2 & R3 & R4 & R5)). assert (y' = y) by congruence. subst y'.
    repeat (split; [assumption|]). intros L. eapply agrees_same; [exact (R5 L)|]. intros z Z. exact (S j x D X L z Z).
Qed.

Lemma rel_at t st c h i : hrel t st c h ->
  match live_handle c i with
  | Some x => exists a, harr_at h i = Some a /\ nth_error (handles c) i = Some x /\ nth_error (harrs h) i = Some a /\ arr_rel (bytes (ms c)) x a /\ hlive x = true
  | None => harr_at h i = None
  end.
Proof.
  intros (_ & _ & _ & F & _). unfold live_handle, harr_at. destruct (nth_error (handles c) i) as [x|] eqn:N.
  - destruct (Forall2_nth _ _ _ _ _ F N) as (a & A & R). rewrite A. pose proof R as (_ & _ & _ & R4 & _). rewrite <- R4.
    destruct (hlive x) eqn:L; [|reflexivity]. exists a. auto.
  - assert (nth_error (harrs h) i = None) as ->; [|reflexivity].
    apply nth_error_None. rewrite <- (Forall2_length _ _ _ F). apply nth_error_None. exact N.
Qed.

(** New blocks are away from all others *)
Lemma new_frame t st c h p n m' : hrel t st c h -> (n = 0 \/ start st + consumed (sl (ms c)) <= p) ->
  same_outside (MkBlock p n) (bytes (ms c)) m' -> Forall2 (arr_rel m') (handles c) (harrs h).
Proof.
  intros (I & S & _ & F & _) P O. eapply arrs_same; [exact F|]. intros x Hx L y Hy. apply O. intros Q.
  destruct I as (_ & B & _). rewrite Forall_forall in B. destruct (B x Hx) as (Bx & _).
  assert (D : disjoint (hblock x) (MkBlock p n)) by (eapply fresh_disjoint; [exact Bx|rewrite S; lia]). apply (D y). auto.
Qed.

Definition hstep_rel (t : target) (st : block) (c : client) (r : client * answer) (q : heap * answer) : Prop :=
  snd r = snd q /\ hrel t st (fst r) (fst q) /\ (forall x, ~ in_block st x -> bytes (ms (fst r)) x = bytes (ms c) x).

Lemma hstep_id t st c h a : hrel t st c h -> hstep_rel t st c (c, a) (h, a).
Proof. intros R. split; [reflexivity|]. split; [exact R|]. reflexivity. Qed.

Lemma hplace_fits st s l : storage s = st -> hplace st (consumed s) l = if fitsb (storage s) (consumed s) l then Some (place s l) else None.
Proof. intros <-. reflexivity. Qed.

(** Adding a block *)
Lemma hrel_new t st c h c' hs' as_' p l k data :
  hrel t st c h -> minv t c' -> storage (sl (ms c')) = st ->
  consumed (sl (ms c')) = (if lsize l =? 0 then hused h else p + lsize l - start st) ->
  handles c' = hs' ++ [new_handle p l k] -> drops c' = drops c ->
  Forall2 (arr_rel (bytes (ms c'))) hs' as_' -> agrees (bytes (ms c')) p (lsize l) data ->
  hrel t st c' (hnew st (MkHeap (hused h) as_' (hdropped h)) p l k data).
Proof.
  intros (_ & _ & _ & _ & D) I S C H DR F A. split; [exact I|]. split; [exact S|]. split; [exact C|]. split.
  - rewrite H. cbn [hnew harrs]. apply Forall2_app; [exact F|]. constructor; [|constructor].
    repeat (split; [reflexivity|]). intros _. exact A.
  - rewrite DR. exact D.
Qed.

Lemma heap_eta h : MkHeap (hused h) (harrs h) (hdropped h) = h.
Proof. destruct h; reflexivity. Qed.

Lemma in_slab t st c h l : hrel t st c h -> valid_layout t l -> 0 < lsize l -> fitsb st (hused h) l = true ->
  inside (MkBlock (place (sl (ms c)) l) (lsize l)) st /\ start st + consumed (sl (ms c)) <= place (sl (ms c)) l.
Proof.
  intros (I & S & C & _) V P F. destruct I as (OK & _). rewrite <- C, <- S in F.
  destruct (place_facts t (sl (ms c)) l OK V P F) as (G & G2 & _). rewrite S in G, G2. split; [apply G|exact G2].
Qed.

(** alloc, alloc_zeroed *)
Lemma alloc_rel t st c h l (z : bool) : valid_target t -> hrel t st c h -> valid_layout t l ->
  let o := if z then OZeroed l else OAlloc l in
  minv t (fst (mstep t c o)) ->
  hstep_rel t st c (mstep t c o) (hstep t st h o).
Proof.
  intros V R VL o I'. pose proof R as (I & S & C & F & D). pose proof (proj1 I) as OK.
  assert (P0 : 0 <= lsize l) by apply VL.
  assert (E : mstep t c o =
     if lsize l =? 0 then (c, APanic P_size)
     else if fitsb st (hused h) l then
       (MkClient (with_bytes (with_sl (ms c) (bumped (sl (ms c)) l))
          (if z then mem_fill (bytes (ms c)) (place (sl (ms c)) l) (lsize l) (Some 0) else bytes (ms c)))
          (handles c ++ [new_handle (place (sl (ms c)) l) l KRaw]) (drops c), ABlock (place (sl (ms c)) l))
     else (c, ANull)).
  { unfold o. destruct z; cbn [mstep]; unfold ga_alloc_zeroed, ga_alloc; rewrite (bump_alloc_spec t (ms c) l V OK VL); unfold fits_now; rewrite S, C;
      destruct (lsize l =? 0); cbn; rewrite ?client_eta; try reflexivity; destruct (fitsb st (hused h) l); cbn; rewrite ?client_eta; reflexivity. }
  assert (H : hstep t st h o = if lsize l =? 0 then (h, APanic P_size) else
     if fitsb st (hused h) l then (hnew st h (place (sl (ms c)) l) l KRaw (if z then zeroes (lsize l) else anything (lsize l)), ABlock (place (sl (ms c)) l)) else (h, ANull)).
  { unfold o. destruct z; cbn [hstep]; rewrite <- C, (hplace_fits st (sl (ms c)) l S), S; destruct (lsize l =? 0); try reflexivity;
      destruct (fitsb st (consumed (sl (ms c))) l); reflexivity. }
  rewrite E in I' |- *. rewrite H. destruct (Z.eqb_spec (lsize l) 0) as [Z|NZ]; [apply hstep_id, R|].
  destruct (fitsb st (hused h) l) eqn:FT; [|apply hstep_id, R].
  destruct (in_slab t st c h l R VL ltac:(lia) FT) as (IN & AB).
  assert (SO : same_outside (MkBlock (place (sl (ms c)) l) (lsize l)) (bytes (ms c))
     (if z then mem_fill (bytes (ms c)) (place (sl (ms c)) l) (lsize l) (Some 0) else bytes (ms c))).
  { destruct z; [apply mem_fill_outside|intros x _; reflexivity]. }
  split; [reflexivity|]. split.
  - cbn [fst] in *. rewrite <- (heap_eta h) at 1. eapply hrel_new; [exact R|exact I'|exact S| |reflexivity|reflexivity| |].
    + cbn. rewrite S. destruct (Z.eqb_spec (lsize l) 0); [lia|reflexivity].
    + cbn [ms with_bytes bytes]. eapply new_frame; [exact R|right; exact AB|exact SO].
    + cbn [ms with_bytes bytes]. destruct z; [apply agrees_zeroes; lia|apply agrees_anything; lia].
  - intros x X. cbn [fst ms with_bytes bytes]. apply SO. intros Q. apply X, IN, Q.
Qed.

(** realloc *)
Lemma resize_rel t st c h i x a l : valid_target t -> hrel t st c h -> valid_layout t l -> 0 < lsize l ->
  nth_error (handles c) i = Some x -> nth_error (harrs h) i = Some a -> arr_rel (bytes (ms c)) x a -> hlive x = true ->
  let r := after_realloc c i x (la_realloc t (ms c) (hptr x) (hlay x) l) l in
  minv t (fst r) -> hstep_rel t st c r (hresize st h i a l).
Proof.
  intros V R VL P N NA AR LV r I'. pose proof R as (I & S & C & F & D). pose proof (proj1 I) as OK.
  pose proof AR as (A1 & A2 & A3 & A4 & A5). specialize (A5 LV).
  assert (DEAD : forall m, arr_rel m (dead x) (hdead a)).
  { intros m. do 4 (split; [assumption || reflexivity || (cbn; congruence)|]). intros Q. discriminate Q. }
  unfold r in *. rewrite (la_realloc_spec t (ms c) _ _ l V OK VL P) in *. unfold fits_now, hresize in *. rewrite <- A1, <- A2 in *.
  destruct ((hptr x mod lalign l =? 0) && (lsize l <=? lsize (hlay x))) eqn:K.
  - cbn [after_realloc] in *. split; [reflexivity|]. split; [|reflexivity]. cbn [fst] in *. split; [exact I'|]. split; [exact S|]. split; [exact C|].
    split; [|exact D]. cbn [ms handles harrs hset]. apply Forall2_app; [apply F2_upd; auto|]. constructor; [|constructor].
    repeat (split; [reflexivity|]). intros _. eapply agrees_resized; [exact A5|cbn; lia|reflexivity].
  - rewrite <- C, (hplace_fits st _ l S). rewrite S in *. destruct (fitsb st (consumed (sl (ms c))) l) eqn:FT.
    2: { cbn [after_realloc] in *. rewrite client_eta in *. apply hstep_id, R. }
    cbn [after_realloc fst] in *.
    assert (FT' : fitsb st (hused h) l = true) by (rewrite <- C; exact FT).
    destruct (in_slab t st c h l R VL P FT') as (IN & AB).
    pose proof (mem_copy_outside (bytes (ms c)) (hptr x) (place (sl (ms c)) l) (lsize l) (Z.min (lsize l) (lsize (hlay x))) ltac:(lia)) as SO.
    split; [reflexivity|]. split.
    + cbn [fst]. unfold hset. eapply hrel_new; [exact R|exact I'|exact S| |reflexivity|reflexivity| |].
      * cbn. rewrite S. destruct (Z.eqb_spec (lsize l) 0); [lia|reflexivity].
      * cbn [ms with_bytes bytes]. apply F2_upd; [|apply DEAD]. eapply new_frame; [exact R|right; exact AB|exact SO].
      * cbn [ms with_bytes bytes]. eapply agrees_resized; [exact A5|lia|]. intros k Q. apply mem_copy_at. exact Q.
    + intros y Y. cbn [fst ms with_bytes bytes]. apply SO. intros Q. apply Y, IN, Q.
Qed.

(** get, get_at in terms of [hroom] *)
Definition room_of (s : slab) (l : layout) (r : room) : slab * outcome result :=
  match r with
  | RoomAt p => (if lsize l =? 0 then s else bumped s l, Ret (ROk (MkAlloc p (if lsize l =? 0 then consumed s else p + lsize l - start (storage s)))))
  | RoomFail f => (s, Ret (RErr f))
  | RoomPanic => (s, Panic P_expect)
  end.

Lemma get_at_room t s l lv : valid_target t -> ok t s -> type_layout t l -> is_usize t lv ->
  get_at t s l lv = room_of s l (hroom (storage s) (consumed s) l (Some lv)).
Proof.
  intros V OK TL U. rewrite (get_at_spec t s l lv V OK TL U). unfold hroom, room_of.
  destruct (lsize l =? 0) eqn:Z.
  - destruct (Z.eqb_spec (consumed s) lv); reflexivity.
  - destruct (size (storage s) <? lv); [reflexivity|]. unfold hplace. fold (fitsb (storage s) lv l).
    destruct (fitsb (storage s) lv l); [|reflexivity]. destruct (Z.eqb_spec (consumed s) lv) as [<- |]; [|reflexivity]. reflexivity.
Qed.

Definition opt_of (r : slab * outcome result) : slab * outcome (option allocation) :=
  match r with (s, Ret (ROk a)) => (s, Ret (Some a)) | (s, Ret (RErr _)) => (s, Ret None) | (s, Panic m) => (s, Panic m) end.

Lemma get_room t s l : valid_target t -> ok t s -> type_layout t l ->
  get t s l = opt_of (room_of s l (hroom (storage s) (consumed s) l None)) /\
  hroom (storage s) (consumed s) l None <> RoomPanic /\
  (forall f, hroom (storage s) (consumed s) l None = RoomFail f -> f = Exhausted).
Proof.
  intros V OK TL. rewrite (get_spec t s l V OK TL). unfold hroom, room_of, opt_of.
  destruct (lsize l =? 0) eqn:Z; [split; [reflexivity|]; split; discriminate|].
  destruct OK as (_ & Q). destruct (Z.ltb_spec (size (storage s)) (consumed s)); [lia|].
  unfold hplace. fold (fitsb (storage s) (consumed s) l).
  destruct (fitsb (storage s) (consumed s) l); [split; [reflexivity|]; split; discriminate|]. split; [reflexivity|].
  split; [discriminate|]. intros f E. congruence.
Qed.

(** A value stored in the room found *)
Lemma store_rel t st c h l v k lv p :
  valid_target t -> hrel t st c h -> type_layout t l -> Z.of_nat (length (vbytes v)) = lsize l ->
  hroom st (hused h) l lv = RoomAt p ->
  let s := fst (room_of (sl (ms c)) l (RoomAt p)) in
  let c' := MkClient (write_value (with_sl (ms c) s) p v) (handles c ++ [new_handle p l k]) (drops c) in
  minv t c' -> hstep_rel t st c (c', ABlock p) (hnew st h p l k (specified v), ABlock p).
Proof.
  intros V R TL LB RM s c' I'. pose proof R as (I & S & C & F & D). pose proof (proj1 I) as OK. destruct TL as (VL & _).
  assert (P0 : 0 <= lsize l) by apply VL.
  assert (B : (lsize l = 0 \/ start st + consumed (sl (ms c)) <= p) /\ (0 < lsize l -> inside (MkBlock p (lsize l)) st) /\
     storage s = st /\ consumed s = if lsize l =? 0 then hused h else p + lsize l - start st).
  { unfold s, hroom, room_of in *. destruct (Z.eqb_spec (lsize l) 0) as [Z|NZ]; [cbn; repeat split; auto; lia|]. cbn [fst].
    destruct (size st <? _); [discriminate|]. unfold hplace in RM.
    destruct (align_up (start st + match lv with Some z => z | None => hused h end) (lalign l) + lsize l <=? start st + size st) eqn:FT; [|discriminate].
    assert (U : match lv with Some z => z | None => hused h end = hused h /\ p = place (sl (ms c)) l).
    { destruct lv as [z|].
      - destruct (Z.eqb_spec (hused h) z) as [<- |]; [|discriminate]. split; [reflexivity|]. unfold place. rewrite S, C. congruence.
      - split; [reflexivity|]. unfold place. rewrite S, C. congruence. }
    destruct U as (U & ->). rewrite U in FT. destruct (in_slab t st c h l R VL ltac:(lia) FT) as (IN & AB).
    split; [auto|]. split; [auto|]. split; [exact S|]. cbn. rewrite S. reflexivity. }
  destruct B as (B1 & B2 & B3 & B4).
  pose proof (mem_write_outside (bytes (ms c)) p (vbytes v) (lsize l) ltac:(lia)) as SO.
  split; [reflexivity|]. split.
  - cbn [fst]. rewrite <- (heap_eta h) at 1. eapply hrel_new; [exact R|exact I'|exact B3|exact B4|reflexivity|reflexivity| |].
    + cbn. eapply new_frame; [exact R|exact B1|exact SO].
    + cbn. apply agrees_written. exact LB.
  - intros x X. cbn. apply SO. intros Q. apply X. assert (0 < lsize l) by (unfold in_block in Q; cbn in Q; lia). apply (B2 H x). exact Q.
Qed.

Lemma with_sl_same t st c h l r : hrel t st c h -> (forall p, r <> RoomAt p) -> with_sl (ms c) (fst (room_of (sl (ms c)) l r)) = ms c.
Proof. intros _ N. destruct r; [destruct (N p eq_refl)|apply with_sl_self..]. Qed.

Lemma drop_rel_add t st c h id bs data : hrel t st c h -> keeps bs data ->
  hrel t st (MkClient (ms c) (handles c) (drops c ++ [(id, bs)])) (hdrop h id data).
Proof.
  intros (I & S & C & F & D) K. split; [exact I|]. split; [exact S|]. split; [exact C|]. split; [exact F|].
  apply Forall2_app; [exact D|]. constructor; [|constructor]. split; [reflexivity|exact K].
Qed.

Lemma op_rel t st c h o : valid_target t -> hrel t st c h -> valid_op t o -> hstep_rel t st c (mstep t c o) (hstep t st h o).
Proof.
  intros V R VO. pose proof R as (I & S & C & F & D). pose proof (proj1 I) as OK.
  pose proof (mstep_minv t c o V I VO) as I'.
  assert (AT := fun i => rel_at t st c h i R).
  destruct o as [l|l|l|i n|i l|i|i|l v|l v lv|l v|l v lv|i|i|i off bs| |].
  - exact (alloc_rel t st c h l false V R VO I').
  - exact (alloc_rel t st c h l true V R VO I').
  - exact (alloc_rel t st c h l true V R VO I').
  - cbn [mstep hstep] in *. specialize (AT i). destruct (live_handle c i) as [x|] eqn:LH; [|rewrite AT; apply hstep_id, R].
    destruct AT as (a & -> & N & NA & AR & LV). pose proof AR as (A1 & A2 & A3 & A4 & A5). unfold is_raw in *. rewrite <- A3.
    destruct (hkind x) eqn:HK; [|apply hstep_id, R..]. rewrite <- A2.
    destruct (live_handle_facts t c i x I LH) as (_ & _ & VX & PX). specialize (PX HK).
    rewrite (ga_realloc_spec t (ms c) (hptr x) (hlay x) n PX) in * by (apply VO).
    destruct (from_size_align t n (lalign (hlay x))) as [l|] eqn:FS.
    + apply from_size_align_iff in FS. destruct FS as (-> & VL). apply resize_rel; auto. cbn. apply VO.
    + cbn [after_realloc] in *. rewrite client_eta in *. apply hstep_id, R.
  - cbn [mstep hstep] in *. specialize (AT i). destruct (live_handle c i) as [x|] eqn:LH; [|rewrite AT; apply hstep_id, R].
    destruct AT as (a & -> & N & NA & AR & LV). pose proof AR as (A1 & A2 & A3 & A4 & A5). unfold is_raw in *. rewrite <- A3.
    destruct (hkind x) eqn:HK; [|apply hstep_id, R..]. apply resize_rel; auto; apply VO.
  - cbn [mstep hstep] in *. specialize (AT i). destruct (live_handle c i) as [x|] eqn:LH; [|rewrite AT; apply hstep_id, R].
    destruct AT as (a & -> & N & NA & AR & LV). pose proof AR as (A1 & A2 & A3 & A4 & A5). unfold is_raw in *. rewrite <- A3.
    destruct (hkind x) eqn:HK; [|apply hstep_id, R..]. split; [reflexivity|]. split; [|reflexivity]. cbn [fst] in *.
    split; [exact I'|]. split; [exact S|]. split; [exact C|]. split; [|exact D]. cbn. apply F2_upd; [exact F|].
    do 4 (split; [assumption || reflexivity || (cbn; congruence)|]). intros Q. discriminate Q.
  - cbn [mstep hstep] in *. specialize (AT i). destruct (live_handle c i) as [x|] eqn:LH; [|rewrite AT; apply hstep_id, R].
    destruct AT as (a & -> & N & NA & AR & LV). pose proof AR as (A1 & A2 & A3 & A4 & A5). unfold is_raw in *. rewrite <- A3.
    destruct (hkind x) eqn:HK; [|apply hstep_id, R..]. split; [reflexivity|]. split; [|reflexivity]. cbn [fst] in *.
    split; [exact I'|]. split; [exact S|]. split; [exact C|]. split; [|exact D]. cbn. apply F2_upd; [exact F|].
    do 4 (split; [assumption || reflexivity || (cbn; congruence)|]). intros Q. discriminate Q.
  - cbn [mstep hstep] in *. destruct VO as (TL & LB). unfold leak in *. destruct (get_room t (sl (ms c)) l V OK TL) as (G & NP & EX).
    rewrite G in *. rewrite S, C in *. destruct (hroom st (hused h) l None) as [p|f|] eqn:RM; [| |destruct (NP eq_refl)].
    + cbn [room_of opt_of after_leak] in *. apply (store_rel t st c h l v _ None p V R TL LB RM). exact I'.
    + cbn. rewrite with_sl_self, client_eta, (EX f eq_refl). apply hstep_id, R.
  - cbn [mstep hstep] in *. destruct VO as (TL & LB & U). unfold leak_at in *. pose proof (get_at_room t (sl (ms c)) l lv V OK TL U) as G.
    rewrite G in *. rewrite S, C in *. destruct (hroom st (hused h) l (Some lv)) as [p|f|] eqn:RM.
    + cbn [room_of after_leak] in *. apply (store_rel t st c h l v _ (Some lv) p V R TL LB RM). exact I'.
    + cbn. rewrite with_sl_self, client_eta. apply hstep_id, R.
    + cbn. rewrite with_sl_self, client_eta. apply hstep_id, R.
  - cbn [mstep hstep] in *. destruct VO as (TL & LB). unfold leak_box in *. destruct (get_room t (sl (ms c)) l V OK TL) as (G & NP & EX).
    rewrite G in *. rewrite S, C in *. destruct (hroom st (hused h) l None) as [p|f|] eqn:RM; [| |destruct (NP eq_refl)].
    + cbn [room_of opt_of] in *. apply (store_rel t st c h l v _ None p V R TL LB RM). exact I'.
    + cbn. rewrite with_sl_self. split; [reflexivity|]. split; [|reflexivity]. apply drop_rel_add; [exact R|apply keeps_specified].
  - cbn [mstep hstep] in *. destruct VO as (TL & LB & U). unfold leak_box_at in *. pose proof (get_at_room t (sl (ms c)) l lv V OK TL U) as G.
    rewrite G in *. rewrite S, C in *. destruct (hroom st (hused h) l (Some lv)) as [p|f|] eqn:RM.
    + cbn [room_of] in *. apply (store_rel t st c h l v _ (Some lv) p V R TL LB RM). exact I'.
    + cbn. rewrite with_sl_self. split; [reflexivity|]. split; [|reflexivity]. apply drop_rel_add; [exact R|apply keeps_specified].
    + cbn. rewrite with_sl_self. split; [reflexivity|]. split; [|reflexivity]. apply drop_rel_add; [exact R|apply keeps_specified].
  - cbn [mstep hstep] in *. specialize (AT i). destruct (live_handle c i) as [x|] eqn:LH; [|rewrite AT; apply hstep_id, R].
    destruct AT as (a & -> & N & NA & AR & LV). pose proof AR as (A1 & A2 & A3 & A4 & A5). rewrite <- A3.
    destruct (hkind x) eqn:HK; [apply hstep_id, R..|]. split; [reflexivity|]. split; [|reflexivity]. cbn [fst] in *.
    split; [exact I'|]. split; [exact S|]. split; [exact C|]. split.
    + cbn. apply F2_upd; [exact F|]. rewrite <- HK in *. do 4 (split; [assumption || reflexivity || (cbn; congruence)|]). intros Q. discriminate Q.
    + cbn. apply Forall2_app; [exact D|]. constructor; [|constructor]. split; [reflexivity|]. cbn. apply agrees_keeps. exact (A5 LV).
  - cbn [mstep hstep] in *. specialize (AT i). destruct (live_handle c i) as [x|] eqn:LH; [|rewrite AT; apply hstep_id, R].
    destruct AT as (a & -> & N & NA & AR & LV). pose proof AR as (A1 & A2 & A3 & A4 & A5). rewrite <- A3, <- A1.
    destruct (hkind x) eqn:HK; [apply hstep_id, R..|]. split; [reflexivity|]. split; [|reflexivity]. cbn [fst] in *.
    split; [exact I'|]. split; [exact S|]. split; [exact C|]. split; [|exact D]. cbn. apply F2_upd; [exact F|].
    split; [reflexivity|]. split; [exact A2|]. split; [reflexivity|]. split; [exact LV|exact A5].
  - cbn [mstep hstep] in *. specialize (AT i). destruct (live_handle c i) as [x|] eqn:LH; [|rewrite AT; apply hstep_id, R].
    destruct AT as (a & -> & N & NA & AR & LV). pose proof AR as (A1 & A2 & A3 & A4 & A5). rewrite <- A2.
    destruct ((0 <=? off) && (off + Z.of_nat (length bs) <=? lsize (hlay x))) eqn:B; [|apply hstep_id, R].
    apply andb_true_iff in B. destruct B as (B1 & B2). apply Z.leb_le in B1, B2. cbn [fst] in *.
    assert (OUT : forall y, ~ in_block (hblock x) y -> mem_write (bytes (ms c)) (hptr x + off) bs y = bytes (ms c) y).
    { intros y Y. unfold mem_write. destruct (Z.leb_spec (hptr x + off) y); [|reflexivity].
      destruct (Z.ltb_spec y (hptr x + off + Z.of_nat (length bs))); [|reflexivity]. destruct Y. unfold in_block, hblock. cbn. lia. }
    split; [reflexivity|]. split.
    + split; [exact I'|]. split; [exact S|]. split; [exact C|]. split; [|exact D]. cbn.
      assert (U : upd (handles c) i x = handles c).
      { clear - N. revert i N. induction (handles c) as [|y l IH]; intros [|i] N; cbn in *; try discriminate; [congruence|]. f_equal. auto. }
      rewrite <- U. eapply arrs_upd; [exact F|exact N|exact NA| |].
      * split; [exact A1|]. split; [cbn; congruence|]. split; [exact A3|]. split; [exact LV|]. intros _. apply agrees_splice; auto.
      * intros j hj J NJ LJ y Y. apply OUT. intros Q. destruct I as (_ & _ & DJ).
        apply (DJ i j x hj (not_eq_sym J) LH (live_handle_intro c j hj NJ LJ) y). auto.
    + intros y Y. cbn. apply OUT. intros Q. destruct (live_handle_facts t c i x I LH) as (_ & (_ & G & _) & _). rewrite S in G. apply Y, G, Q.
  - cbn [mstep hstep]. unfold level. rewrite C. apply hstep_id, R.
  - split; [reflexivity|]. split; [|reflexivity]. cbn in *. split; [exact I'|]. split; [exact S|]. split; [reflexivity|]. split; [constructor|exact D].
Qed.

Lemma gop_rel t st c h g : valid_target t -> hrel t st c h -> gop_ok st (valid_op t) g ->
  same_answer (snd (gstep t c g)) (snd (hgstep t st h g)) /\ hrel t st (fst (gstep t c g)) (fst (hgstep t st h g)).
Proof.
  intros V R OK. destruct g as [o|i|a bs].
  - pose proof (op_rel t st c h o V R OK) as (A & B & M). cbn [gstep hgstep]. destruct (mstep t c o), (hstep t st h o). cbn [fst snd] in *. auto.
  - pose proof (rel_at t st c h i R) as AT. cbn [gstep hgstep]. destruct (live_handle c i) as [x|].
    + destruct AT as (y & -> & _ & _ & (A1 & A2 & A3 & A4 & A5) & LV). cbn [fst snd same_answer]. split; [apply agrees_keeps, (A5 LV)|]. auto.
    + rewrite AT. cbn. auto.
  - cbn [gop_ok] in OK. cbn [gstep hgstep fst snd same_answer]. split; [exact Logic.I|].
    destruct R as (I & S & C & F & D). split.
    { destruct I as (I1 & I2 & I3). split; [exact I1|]. split; [exact I2|exact I3]. }
    split; [exact S|]. split; [exact C|]. split; [|exact D]. cbn. eapply arrs_same; [exact F|].
    intros x Hx L y Y. unfold mem_write. destruct (Z.leb_spec a y); [|reflexivity].
    destruct (Z.ltb_spec y (a + Z.of_nat (length bs))); [|reflexivity]. exfalso.
    destruct I as (_ & B & _). rewrite Forall_forall in B. destruct (B x Hx) as (_ & (_ & G & _) & _). rewrite S in G.
    apply (OK y). split; [unfold in_block; cbn; lia|apply G; exact Y].
Qed.

Lemma grun_rel t st gs : valid_target t -> forall c h, hrel t st c h -> Forall (gop_ok st (valid_op t)) gs ->
  Forall2 same_answer (snd (grun t c gs)) (snd (hgrun t st h gs)) /\ hrel t st (fst (grun t c gs)) (fst (hgrun t st h gs)).
Proof.
  intros V. induction gs as [|g gs IH]; intros c h R F; cbn [grun hgrun]; [split; [constructor|exact R]|].
  inversion F; subst. destruct (gop_rel t st c h g V R H1) as (A & B). destruct (gstep t c g) as [c1 a], (hgstep t st h g) as [h1 b]. cbn [fst snd] in *.
  destruct (IH c1 h1 B H2) as (A' & B'). destruct (grun t c1 gs), (hgrun t st h1 gs). cbn [fst snd] in *. split; [constructor; assumption|exact B'].
Qed.

Lemma grun_frame t st gs : valid_target t -> forall c h m x, hrel t st c h -> Forall (gop_ok st (valid_op t)) gs -> ~ in_block st x ->
  bytes (ms c) x = m x -> bytes (ms (fst (grun t c gs))) x = others m gs x.
Proof.
  intros V. induction gs as [|g gs IH]; intros c h m x R F X E; cbn [grun others]; [exact E|].
  inversion F; subst. destruct (gop_rel t st c h g V R H1) as (_ & B).
  assert (E' : bytes (ms (fst (gstep t c g))) x = match g with GOther a bs => mem_write m a bs x | _ => m x end).
  { destruct g as [o|i|a bs].
    - pose proof (op_rel t st c h o V R H1) as (_ & _ & M). cbn [gstep]. destruct (mstep t c o). cbn [fst] in *. rewrite M by exact X. exact E.
    - cbn [gstep]. destruct (live_handle c i); exact E.
    - cbn. unfold mem_write. rewrite E. reflexivity. }
  destruct (gstep t c g) as [c1 a]. cbn [fst] in *. specialize (fun m' => IH c1 _ m' x B H2 X).
  destruct (grun t c1 gs) as [c2 r]. cbn [fst] in *. destruct g; apply IH; exact E'.
Qed.

Lemma hrel_start t st m : valid_region t st -> hrel t st (start_client (uninit_slab st m)) hempty.
Proof.
  intros VR. split; [apply minv_start; exact VR|]. split; [reflexivity|]. split; [reflexivity|]. split; constructor.
Qed.
