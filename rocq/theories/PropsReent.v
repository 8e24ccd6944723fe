(** * Claims about operations that run destructors and iterators with effects (C92). *)
From Verif Require Import Base Spec SyncModel SyncSpec PropsSync SyncMemModel UninitModel UninitSpec PropsUninit FixedVecModel FixedVecSpec
  FixedVecProofs PropsFixedVec FixedVecMemModel PropsFixedVecMem ReentModel ReentSpec ReentProofs.

(** Example: elements at 4096; the destructor appends the bytes of the value to another vector with three places
    at 8192 and overwrites the value; it panics when the other vector is full.  The iterator counts, and writes
    to memory at 9000. *)
Definition ex_other : fvec := {| funinit := {| uptr := 8192; ulen := 24; umeta := 3 |}; flen := 0 |}.
Definition ex_dt : dtor (fvec * Z) := fun unwinding p x w =>
  match y_push (x64 false) ex_u64 (rmem w) (fst (rcl w)) x with
  | Ret (m, v', None) => (MkRW (v', snd (rcl w)) (match p with Some a => mem_write m a (u64_bytes 255) | None => m end), DOk)
  | _ => (w, DPanic)
  end.
Definition ex_next : rnext (fvec * Z) := fun unwinding w =>
  (MkRW (fst (rcl w), snd (rcl w) + 1) (mem_write (rmem w) 9000 (u64_bytes (snd (rcl w)))),
   if snd (rcl w) =? 33 then INone else ISome (u64_bytes (snd (rcl w)))).
Definition ex_close : rclose (fvec * Z) := fun unwinding w => (MkRW (fst (rcl w), 0) (mem_write (rmem w) 9000 (u64_bytes 0)), DOk).
Definition ex_mem3 : mem := mem_write (fun _ => None) 4096 (u64_bytes 11 ++ u64_bytes 13 ++ u64_bytes 14).
Definition ex_rw : rworld (fvec * Z) := MkRW (ex_other, 30) ex_mem3.

Example ex_fv_wf n : 0 <= n <= 5 -> vec_wf (x64 false) ex_u64 {| funinit := ex_u; flen := n |}.
Proof. intros N. split; [apply ex_u_ok|]. vm_compute f_capacity. exact N. Qed.

Lemma ex_push_other : forall m x, (forall n, 0 <= n < 3 ->
  y_push (x64 false) ex_u64 m {| funinit := funinit ex_other; flen := n |} x = Ret (mem_write m (8192 + 8 * n) x, {| funinit := funinit ex_other; flen := n + 1 |}, None)) /\
  y_push (x64 false) ex_u64 m {| funinit := funinit ex_other; flen := 3 |} x = Ret (m, {| funinit := funinit ex_other; flen := 3 |}, Some x).
Proof. intros m x. split; [|reflexivity]. intros n N. assert (H : n = 0 \/ n = 1 \/ n = 2) by lia. destruct H as [-> | [-> | ->]]; reflexivity. Qed.

(** What the example's code relies on: its own vector is what it is. *)
Definition ex_I (w : rworld (fvec * Z)) : Prop := exists n, 0 <= n <= 3 /\ fst (rcl w) = {| funinit := funinit ex_other; flen := n |}.
Lemma bytes_len k : length (u64_bytes k) = 8%nat. Proof. reflexivity. Qed.

Lemma ex_dt_cases unw p x w : ex_I w ->
  ex_dt unw p x w = (w, DPanic) \/
  exists n, 0 <= n < 3 /\ ex_dt unw p x w =
    (MkRW ({| funinit := funinit ex_other; flen := n + 1 |}, snd (rcl w))
       (match p with Some a => mem_write (mem_write (rmem w) (8192 + 8 * n) x) a (u64_bytes 255) | None => mem_write (rmem w) (8192 + 8 * n) x end), DOk).
Proof.
  intros (n & N & E). unfold ex_dt. rewrite E. destruct (ex_push_other (rmem w) x) as (P1 & P2).
  destruct (Z.eq_dec n 3) as [-> | D]; [left; rewrite P2; reflexivity|]. right. exists n. split; [lia|]. rewrite P1 by lia. reflexivity.
Qed.

Example ex_respects : forall xs, Forall (fun x => length x = 8%nat) xs -> respects ex_I ex_dt ex_u64 (region ex_u) xs.
Proof.
  intros xs FX u p x w IW IN. rewrite Forall_forall in FX. specialize (FX x IN).
  destruct (ex_dt_cases u p x w IW) as [-> | (n & N & ->)]; cbn [fst]; [auto|]. split; [exists (n + 1); split; [lia|reflexivity]|].
  intros y Y P. unfold in_block in Y. cbn in Y. cbn [rmem].
  assert (W1 : mem_write (rmem w) (8192 + 8 * n) x y = rmem w y) by (unfold mem_write; destruct (Z.leb_spec (8192 + 8 * n) y); [lia|reflexivity]).
  destruct p as [a|]; [|exact W1]. rewrite <- W1. unfold mem_write at 1. rewrite bytes_len. specialize (P a eq_refl). unfold in_block in P. cbn in P.
  destruct (Z.leb_spec a y), (Z.ltb_spec y (a + Z.of_nat 8)); cbn [andb]; try reflexivity. lia.
Qed.
Example ex_next_apart : forall u, apart ex_I (region ex_u) (ex_next u).
Proof.
  intros u. split.
  - intros w w' IW (E & M). unfold ex_next. rewrite E. cbn [fst snd]. split; [|reflexivity]. split; [reflexivity|]. intros y Y. cbn [rmem]. unfold mem_write.
    destruct ((9000 <=? y) && (y <? 9000 + Z.of_nat (length (u64_bytes (snd (rcl w)))))); [reflexivity|]. apply M, Y.
  - intros w (n & N & E). split; [exists n; auto|]. intros y Y. unfold in_block in Y. cbn in Y. cbn [fst rmem ex_next]. unfold mem_write. destruct (Z.leb_spec 9000 y); [lia|reflexivity].
Qed.
Example ex_close_apart : forall u, apart ex_I (region ex_u) (ex_close u).
Proof.
  intros u. split.
  - intros w w' IW (E & M). unfold ex_close. rewrite E. cbn [fst snd]. split; [|reflexivity]. split; [reflexivity|]. intros y Y. cbn [rmem]. unfold mem_write.
    destruct ((9000 <=? y) && (y <? 9000 + Z.of_nat (length (u64_bytes 0)))); [reflexivity|]. apply M, Y.
  - intros w (n & N & E). split; [exists n; auto|]. intros y Y. unfold in_block in Y. cbn in Y. cbn [fst rmem ex_close]. unfold mem_write. destruct (Z.leb_spec 9000 y); [lia|reflexivity].
Qed.
Example ex_dt_apart : forall u x, apart ex_I (region ex_u) (ex_dt u None x).
Proof.
  intros u x. split.
  - intros w w' IW (E & M). unfold ex_dt. rewrite E. destruct IW as (n & N & E0). rewrite E0.
    destruct (ex_push_other (rmem w) x) as (P1 & P2). destruct (ex_push_other (rmem w') x) as (P1' & P2').
    destruct (Z.eq_dec n 3) as [-> | D]; [rewrite P2, P2'; split; [split; auto|reflexivity]|]. rewrite P1, P1' by lia. cbn [fst snd]. split; [|reflexivity]. split; [reflexivity|].
    intros y Y. cbn [rmem]. unfold mem_write. destruct ((8192 + 8 * n <=? y) && (y <? 8192 + 8 * n + Z.of_nat (length x))); [reflexivity|]. apply M, Y.
  - intros w IW. destruct (ex_dt_cases u None x w IW) as [-> | (n & N & ->)]; cbn [fst]; [auto|]. split; [exists (n + 1); split; [lia|reflexivity]|].
    intros y Y. unfold in_block in Y. cbn in Y. cbn [rmem]. unfold mem_write. destruct (Z.leb_spec (8192 + 8 * n) y); [lia|reflexivity].
Qed.
Example ex_I_stable : stable (region ex_u) ex_I.
Proof. intros w w' (E & _) (n & N & E0). exists n. rewrite E. auto. Qed.
Example ex_sizes : items_of_size ex_I ex_next ex_u64.
Proof. intros u w x _. unfold ex_next. cbn [snd]. destruct (snd (rcl w) =? 33); [discriminate|]. intros [= <-]. reflexivity. Qed.

(** C92.  [truncate] and [clear]: the destructors run on the values as they were, at their places, the last element first, each
    in the world the one before left; the elements whose destructor did not run stay as they were, and nothing else happens to
    memory. *)
Theorem C92_truncate : forall C (I : rworld C -> Prop) (dt : dtor C) t unwinding l w v n,
  valid_target t -> vec_wf t l v -> is_usize t n -> I w ->
  let xs := y_as_slice l (rmem w) v in
  respects I dt l (region (funinit v)) xs ->
  exists w' v' k r, r_truncate dt unwinding l w v n = (w', v', r) /\
    drop_each dt unwinding (rev (skip n (at_places l (uptr (funinit v)) xs))) w = (w', k, r) /\
    funinit v' = funinit v /\ vec_wf t l v' /\ y_as_slice l (rmem w') v' = take (len xs - k) xs /\
    0 <= k <= Z.max 0 (len xs - n) /\ (r = DOk -> k = Z.max 0 (len xs - n)).
Proof. intros C I dt t u l w v n V W (N & _) IW. apply truncate_full; assumption. Qed.
Print Assumptions C92_truncate.

Theorem C92_clear : forall C (I : rworld C -> Prop) (dt : dtor C) t unwinding l w v,
  valid_target t -> vec_wf t l v -> I w ->
  let xs := y_as_slice l (rmem w) v in
  respects I dt l (region (funinit v)) xs ->
  exists w' v' k r, r_clear dt unwinding l w v = (w', v', r) /\
    drop_each dt unwinding (rev (at_places l (uptr (funinit v)) xs)) w = (w', k, r) /\
    funinit v' = funinit v /\ vec_wf t l v' /\ y_as_slice l (rmem w') v' = take (len xs - k) xs /\
    (r = DOk -> y_as_slice l (rmem w') v' = []).
Proof.
  intros C I dt t u l w v V W IW xs R. destruct (truncate_full I dt t u l w v 0 V W ltac:(lia) IW R) as (w' & v' & k & r & E1 & E2 & E3 & E4 & E5 & E6 & E7).
  exists w', v', k, r. rewrite skip_neg in E2 by lia. split; [exact E1|]. split; [exact E2|]. split; [exact E3|]. split; [exact E4|]. split; [exact E5|].
  intros Q. rewrite E5. apply take_neg. specialize (E7 Q). pose proof (len_nonneg xs). unfold xs in *. lia.
Qed.
Print Assumptions C92_clear.

Theorem C92_drop : forall C (I : rworld C -> Prop) (dt : dtor C) t unwinding l w v,
  valid_target t -> vec_wf t l v -> I w ->
  let xs := y_as_slice l (rmem w) v in
  respects I dt l (region (funinit v)) xs ->
  exists w' k r, r_drop dt unwinding l w v = (w', r) /\
    drop_all dt unwinding (at_places l (uptr (funinit v)) xs) w = (w', k, r) /\ (r <> DAbort -> k = len xs).
Proof. intros C I dt t u l w v V W IW xs R. exact (drop_full I dt t u l w v V W IW R). Qed.
Print Assumptions C92_drop.

(** Dropping a [Drain] whose client did anything to other memory since it was created. *)
Theorem C92_drain : forall C (I : rworld C -> Prop) (dt : dtor C) t unwinding l (m : mem) v lo hi v1 d fronts d' answers (w : rworld C),
  valid_target t -> vec_wf t l v -> valid_bound t true lo -> valid_bound t false hi -> I w ->
  f_drain t l v lo hi = Ret (v1, d) -> yd_consume l m d fronts = (d', answers) ->
  (forall y, in_block (region (funinit v)) y -> rmem w y = m y) ->
  let xs := y_as_slice l m v in let rest := yd_as_slice l m d' in
  respects I dt l (region (funinit v)) rest ->
  exists w' v' w2 k r, r_drain_drop dt unwinding l w v1 d' = (w', v', r) /\
    drop_each dt unwinding (as_locals rest) w = (w2, k, r) /\ same_but (region (funinit v)) w2 w' /\
    funinit v' = funinit v /\ vec_wf t l v' /\
    y_as_slice l (rmem w') v' = take (range_start lo) xs ++ match r with DOk => skip (range_end hi (len xs)) xs | _ => [] end.
Proof. intros C I dt t u l m v lo hi v1 d fronts d' answers w V W B1 B2 IW E1 E2 M xs rest R. exact (drain_full I dt t u l m v lo hi v1 d fronts d' answers w V W B1 B2 IW E1 E2 M R). Qed.
Print Assumptions C92_drain.

(** [fill] and [extend]: the iterator is asked exactly as if the items were only collected, and these become the new elements. *)
Theorem C92_fill : forall C (I : rworld C -> Prop) (next : rnext C) (close : rclose C) t unwinding l w v,
  valid_target t -> vec_wf t l v -> I w -> stable (region (funinit v)) I -> items_of_size I next l ->
  (forall u, apart I (region (funinit v)) (next u)) -> (forall u, apart I (region (funinit v)) (close u)) ->
  let xs := y_as_slice l (rmem w) v in
  let '(w2, items, r) := filled next close unwinding (Z.to_nat (f_capacity t l v - len xs)) w in
  exists w' v', r_fill next close unwinding t l w v = Ret (w', v', r) /\ same_but (region (funinit v)) w2 w' /\ funinit v' = funinit v /\
    vec_wf t l v' /\ y_as_slice l (rmem w') v' = xs ++ items.
Proof. intros. apply (fill_full I); assumption. Qed.
Print Assumptions C92_fill.

Theorem C92_extend : forall C (I : rworld C -> Prop) (dt : dtor C) (next : rnext C) (close : rclose C) t unwinding l w v,
  valid_target t -> vec_wf t l v -> I w -> stable (region (funinit v)) I -> items_of_size I next l ->
  (forall u, apart I (region (funinit v)) (next u)) -> (forall u, apart I (region (funinit v)) (close u)) ->
  (forall u x, apart I (region (funinit v)) (dt u None x)) ->
  let xs := y_as_slice l (rmem w) v in
  let '(w2, items, r) := extended dt next close unwinding (Z.to_nat (f_capacity t l v - len xs)) w in
  exists w' v', r_extend dt next close unwinding t l w v = Ret (w', v', r) /\ same_but (region (funinit v)) w2 w' /\ funinit v' = funinit v /\
    vec_wf t l v' /\ y_as_slice l (rmem w') v' = xs ++ items.
Proof. intros. apply (extend_full I); assumption. Qed.
Print Assumptions C92_extend.

(** Non-vacuity: the example's vector holds 11, 13, 14. *)
Definition ex_other_items (w : rworld (fvec * Z)) : list bval := y_as_slice ex_u64 (rmem w) (fst (rcl w)).
Definition ex_five : rworld (fvec * Z) := MkRW (ex_other, 30) (mem_write ex_mem3 4120 (u64_bytes 15 ++ u64_bytes 16)).
Definition ex_fv5 : fvec := {| funinit := ex_u; flen := 5 |}.
Example C92_nonvacuous :
  vec_wf (x64 false) ex_u64 ex_fv /\ ex_I ex_rw /\ y_as_slice ex_u64 (rmem ex_rw) ex_fv = map u64_bytes [11; 13; 14] /\
  (forall xs, Forall (fun x => length x = 8%nat) xs -> respects ex_I ex_dt ex_u64 (region ex_u) xs) /\
  (let '(w', v', r) := r_truncate ex_dt false ex_u64 ex_rw ex_fv 1 in
   r = DOk /\ flen v' = 1 /\ ex_other_items w' = map u64_bytes [14; 13] /\ y_as_slice ex_u64 (rmem w') v' = [u64_bytes 11] /\
   b_read ex_u64 (rmem w') 4104 = u64_bytes 255) /\
  (let '(w', r) := r_drop ex_dt false ex_u64 ex_five ex_fv5 in r = DAbort /\ ex_other_items w' = map u64_bytes [11; 13; 14]) /\
  (let '(w', v', r) := r_clear ex_dt false ex_u64 ex_five ex_fv5 in
   r = DPanic /\ y_as_slice ex_u64 (rmem w') v' = [u64_bytes 11] /\ ex_other_items w' = map u64_bytes [16; 15; 14]).
Proof.
  split; [apply (ex_fv_wf 3); lia|]. split; [exists 0; split; [lia|reflexivity]|]. split; [reflexivity|]. split; [apply ex_respects|].
  split; [|split]; vm_compute; auto 8.
Qed.
Example C92_drain_nonvacuous :
  exists v1 d, f_drain (x64 false) ex_u64 ex_fv (Included 0) (Excluded 2) = Ret (v1, d) /\
    let '(w', v', r) := r_drain_drop ex_dt false ex_u64 ex_rw v1 d in
    r = DOk /\ y_as_slice ex_u64 (rmem w') v' = [u64_bytes 14] /\ ex_other_items w' = map u64_bytes [11; 13].
Proof. do 2 eexists. split; [reflexivity|]. vm_compute. auto. Qed.
Example C92_fill_nonvacuous :
  stable (region ex_u) ex_I /\ items_of_size ex_I ex_next ex_u64 /\ (forall u, apart ex_I (region ex_u) (ex_next u)) /\
  (forall u, apart ex_I (region ex_u) (ex_close u)) /\ (forall u x, apart ex_I (region ex_u) (ex_dt u None x)) /\
  match r_fill ex_next ex_close false (x64 false) ex_u64 ex_rw ex_fv with
  | Ret (w', v', r) => r = DOk /\ y_as_slice ex_u64 (rmem w') v' = map u64_bytes [11; 13; 14; 30; 31] /\ snd (rcl w') = 32
  | Panic _ => False
  end /\
  match r_extend ex_dt ex_next ex_close false (x64 false) ex_u64 ex_rw ex_fv with
  | Ret (w', v', r) => r = DPanic /\ y_as_slice ex_u64 (rmem w') v' = map u64_bytes [11; 13; 14; 30; 31] /\ snd (rcl w') = 0 /\
                       ex_other_items w' = [u64_bytes 32]
  | Panic _ => False
  end.
Proof.
  split; [apply ex_I_stable|]. split; [apply ex_sizes|]. split; [apply ex_next_apart|]. split; [apply ex_close_apart|]. split; [apply ex_dt_apart|].
  split; vm_compute; auto.
Qed.
