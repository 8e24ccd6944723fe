(** * Claims about containers inside containers (C93). *)
From Verif Require Import Base Spec BaseFacts SyncModel SyncSpec PropsSync SyncMemModel UninitModel UninitSpec PropsUninit FixedVecModel FixedVecSpec
  FixedVecProofs PropsFixedVec FixedVecMemModel PropsFixedVecMem ReentModel ReentSpec NestModel NestSpec NestProofs.

(** Example.  Type 0 is the [List] of the documentation of Box (boxed.rs:24-28), over values with a destructor: a tag (1: Cons), the
    value at offset 8, the box at offset 16.  Type 1 is a struct with a FixedVec of lists: pointer, length of the storage, length. *)
Definition word (x : bval) : Z := fold_right (fun b acc => match b with Some z => z | None => 0 end + 256 * acc) 0 x.
Definition field (x : bval) (off : nat) : bval := firstn 8 (skipn off x).
Definition ex_list : layout := {| lsize := 24; lalign := 8 |}.
Definition ex_D : types := MkTypes (fun _ => ex_list) (fun T x =>
  match T with
  | O => if word (field x 0) =? 1 then [PLeaf 8 (field x 8); PBox 0 (word (field x 16))] else []
  | _ => [PVec 0 {| funinit := {| uptr := word (field x 0); ulen := word (field x 8); umeta := word (field x 8) / 24 |}; flen := word (field x 16) |}]
  end).
Fixpoint bytes_of (n : nat) (z : Z) : list (option Z) := match n with O => [] | S n' => Some (z mod 256) :: bytes_of n' (z / 256) end.
Definition ex_cons (v a : Z) : bval := bytes_of 8 1 ++ bytes_of 8 v ++ bytes_of 8 a.
Definition ex_nil : bval := bytes_of 8 0 ++ repeat None 16.

(** The vector at 4096 has room for three lists; the first of its two lists has the values 11 and 12, the second 13.  The struct is at 9000. *)
Definition ex_nm : mem :=
  mem_write (mem_write (mem_write (mem_write (mem_write (mem_write (fun _ => None)
    4096 (ex_cons 11 8192)) 4120 (ex_cons 13 8256)) 8192 (ex_cons 12 8224)) 8224 ex_nil) 8256 ex_nil)
    9000 (bytes_of 8 4096 ++ bytes_of 8 72 ++ bytes_of 8 2).
Definition ex_nv : fvec := {| funinit := {| uptr := 4096; ulen := 72; umeta := 3 |}; flen := 2 |}.
(** Logs the value, overwrites it and panics if it is 12. *)
Definition ex_leaf : dtor (list Z) := fun unwinding p x w =>
  (MkRW (rcl w ++ [word x]) (match p with Some a => mem_write (rmem w) a (repeat (Some 255) (length x)) | None => rmem w end),
   if word x =? 12 then DPanic else DOk).
Definition ex_nw : rworld (list Z) := MkRW [] ex_nm.

Ltac own_val := constructor; match goal with |- owns_parts _ _ _ _ _ ?ps _ _ => let q := eval vm_compute in ps in change ps with q end.
Definition ex_A : list block * list (option Z * bval) := ([MkBlock 8192 24; MkBlock 8224 24], [(Some 4104, bytes_of 8 11); (Some 8200, bytes_of 8 12)]).
Definition ex_B : list block * list (option Z * bval) := ([MkBlock 8256 24], [(Some 4128, bytes_of 8 13)]).
Lemma ex_ownA p : owns (x64 false) ex_D ex_nm 0 p (b_read ex_list ex_nm 4096) (fst ex_A) [(option_map (fun a => a + 8) p, bytes_of 8 11); (Some 8200, bytes_of 8 12)].
Proof.
  own_val. change (fst ex_A) with (MkBlock 8192 24 :: [MkBlock 8224 24] ++ []).
  apply O_leaf; [lia|cbn; lia|]. apply (O_box (x64 false) ex_D ex_nm 0 p 0 8192 [] [MkBlock 8224 24] [(Some 8200, bytes_of 8 12)] [] []); [cbn; lia| |constructor].
  own_val. apply (O_leaf (x64 false) ex_D ex_nm 0 (Some 8192) 8 (bytes_of 8 12)); [lia|cbn; lia|]. apply (O_box (x64 false) ex_D ex_nm 0 (Some 8192) 0 8224 [] [] [] [] []); [cbn; lia| |constructor]. own_val. constructor.
Qed.
Lemma ex_ownB p : owns (x64 false) ex_D ex_nm 0 p (b_read ex_list ex_nm 4120) (fst ex_B) [(option_map (fun a => a + 8) p, bytes_of 8 13)].
Proof.
  own_val. apply O_leaf; [lia|cbn; lia|]. apply (O_box (x64 false) ex_D ex_nm 0 p 0 8256 [] [] [] [] []); [cbn; lia| |constructor]. own_val. constructor.
Qed.
Example ex_nv_wf : vec_wf (x64 false) ex_list ex_nv.
Proof.
  split; [|vm_compute; split; discriminate]. split; [unfold valid_region; vm_compute; repeat split; congruence|]. split; [|exists 512; reflexivity].
  split; [|exists 3; reflexivity]. unfold valid_layout, ex_list. cbn [lsize lalign]. split; [lia|]. split; [exists 3; split; [lia|reflexivity]|vm_compute; split; congruence].
Qed.
Example ex_elems : owns_elems (x64 false) ex_D ex_nm 0 4096 2 (fst ex_A ++ fst ex_B ++ []) (snd ex_A ++ snd ex_B ++ []).
Proof. apply O_elem; [exact (ex_ownA (Some 4096))|]. apply O_elem; [exact (ex_ownB (Some 4120))|constructor]. Qed.
Example ex_owns : owns (x64 false) ex_D ex_nm 1 (Some 9000) (b_read ex_list ex_nm 9000) (MkBlock 4096 72 :: fst ex_A ++ fst ex_B) (snd ex_A ++ snd ex_B).
Proof. own_val. apply (O_vec (x64 false) ex_D ex_nm 1 (Some 9000) 0 ex_nv [] (fst ex_A ++ fst ex_B) (snd ex_A ++ snd ex_B) [] []); [exact ex_nv_wf|exact ex_elems|constructor]. Qed.

Ltac dj := repeat (apply pairwise_cons; [intros a c Q z (Q1 & Q2); exact (Q z (conj Q2 Q1))|repeat constructor; intros z; unfold in_block; cbn; lia|]); apply pairwise_nil.
Example ex_separate : separate ex_D 1 (Some 9000) (MkBlock 4096 72 :: fst ex_A ++ fst ex_B).
Proof. unfold separate. cbn [app fst ex_A ex_B]. dj. Qed.
Example ex_keeps : forall F, keeps (fun _ => True) ex_leaf F.
Proof.
  intros F u p x w _. split; [exact Logic.I|]. intros y _ P. unfold ex_leaf. cbn [fst rmem]. destruct p as [a|]; [|reflexivity]. specialize (P a eq_refl).
  unfold mem_write. rewrite repeat_length. unfold in_block in P. cbn in P. destruct (Z.leb_spec a y), (Z.ltb_spec y (a + Z.of_nat (length x))); cbn [andb]; try reflexivity. lia.
Qed.

(** C93.  Dropping a value drops everything in it, boxed values and elements of vectors at any depth: each destructor
    of the client runs once, on the bytes that were there, depth first; after a panic the rest is dropped while
    unwinding.  ([n_drop] terminates: all large [fuel] agree.) *)
Theorem C93_drop : forall C t D (leaf : dtor C) (I : rworld C -> Prop) T p x owned ls w,
  valid_target t -> owns t D (rmem w) T p x owned ls -> separate D T p owned -> keeps I leaf owned -> I w ->
  exists n0, forall fuel, (n0 <= fuel)%nat -> forall unwinding, exists w' k r,
    n_drop D leaf fuel T unwinding p x w = (w', r) /\ drop_all leaf unwinding ls w = (w', k, r) /\ (r <> DAbort -> k = len ls).
Proof. intros C t D leaf I T p x fp ls w V O S0 K IW. exact (nest_drop t D leaf I T p x fp ls w V O S0 K IW). Qed.
Print Assumptions C93_drop.

(** The same for a vector of such values. *)
Theorem C93_vec_drop : forall C t D (leaf : dtor C) (I : rworld C -> Prop) T v owned ls w,
  valid_target t -> vec_wf t (ty_lay D T) v -> owns_elems t D (rmem w) T (uptr (funinit v)) (Z.to_nat (flen v)) owned ls ->
  pairwise disjoint (region (funinit v) :: owned) -> keeps I leaf (region (funinit v) :: owned) -> I w ->
  exists n0, forall fuel, (n0 <= fuel)%nat -> forall unwinding, exists w' k r,
    r_drop (n_drop D leaf fuel T) unwinding (ty_lay D T) w v = (w', r) /\ drop_all leaf unwinding ls w = (w', k, r) /\ (r <> DAbort -> k = len ls).
Proof. intros C t D leaf I T v fp ls w V W O P K IW. exact (nest_vec_drop t D leaf I T v fp ls w V W O P K IW). Qed.
Print Assumptions C93_vec_drop.

(** [truncate] (and [clear]: n = 0) drops the removed elements, the last first, each with all it owns; the elements that stay, also
    after a panic, are as before and own what they owned. *)
Theorem C93_truncate : forall C t D (leaf : dtor C) (I : rworld C -> Prop) T v groups w n,
  valid_target t -> vec_wf t (ty_lay D T) v -> is_usize t n -> elems_own t D (rmem w) T v groups ->
  pairwise disjoint (region (funinit v) :: concat (map fst groups)) -> keeps I leaf (region (funinit v) :: concat (map fst groups)) -> I w ->
  let xs := y_as_slice (ty_lay D T) (rmem w) v in
  exists n0, forall fuel, (n0 <= fuel)%nat -> forall unwinding, exists w' v' k r,
    r_truncate (n_drop D leaf fuel T) unwinding (ty_lay D T) w v n = (w', v', r) /\
    drop_groups leaf unwinding (rev (skip n (map snd groups))) w = (w', k, r) /\
    funinit v' = funinit v /\ vec_wf t (ty_lay D T) v' /\ y_as_slice (ty_lay D T) (rmem w') v' = take (len xs - k) xs /\
    elems_own t D (rmem w') T v' (take (len xs - k) groups) /\ 0 <= k <= Z.max 0 (len xs - n) /\ (r = DOk -> k = Z.max 0 (len xs - n)).
Proof. intros C t D leaf I T v gs w n V W (N & _) O P K IW. exact (nest_truncate t D leaf I T v gs w n V W N O P K IW). Qed.
Print Assumptions C93_truncate.

(** Dropping a [Drain] drops the items not taken with all they own; the elements before the range, and those after it unless there
    was a panic, are the vector and own what they owned. *)
Theorem C93_drain : forall C t D (leaf : dtor C) (I : rworld C -> Prop) T v lo hi v1 d fronts d' answers before rest after (w : rworld C),
  let l := ty_lay D T in
  valid_target t -> vec_wf t l v -> valid_bound t true lo -> valid_bound t false hi -> I w ->
  f_drain t l v lo hi = Ret (v1, d) -> yd_consume l (rmem w) d fronts = (d', answers) ->
  let xs := y_as_slice l (rmem w) v in
  each_owns t D (rmem w) T (take (range_start lo) xs) before -> each_owns t D (rmem w) T (yd_as_slice l (rmem w) d') rest ->
  each_owns t D (rmem w) T (skip (range_end hi (len xs)) xs) after ->
  pairwise disjoint (region (funinit v) :: concat (map fst (before ++ rest ++ after))) ->
  keeps I leaf (region (funinit v) :: concat (map fst (before ++ rest ++ after))) ->
  exists n0, forall fuel, (n0 <= fuel)%nat -> forall unwinding, exists w' v' w2 k r,
    r_drain_drop (n_drop D leaf fuel T) unwinding l w v1 d' = (w', v', r) /\
    drop_groups leaf unwinding (map snd rest) w = (w2, k, r) /\ same_but (region (funinit v)) w2 w' /\
    funinit v' = funinit v /\ vec_wf t l v' /\
    y_as_slice l (rmem w') v' = take (range_start lo) xs ++ match r with DOk => skip (range_end hi (len xs)) xs | _ => [] end /\
    each_owns t D (rmem w') T (y_as_slice l (rmem w') v') (before ++ match r with DOk => after | _ => [] end).
Proof.
  intros C t D leaf I T v lo hi v1 d fronts d' ans fs rs ts w l V W Vl Vh IW ED EC xs Of Or Ot P K.
  exact (nest_drain t D leaf I T v lo hi v1 d fronts d' ans fs rs ts w V W Vl Vh IW ED EC Of Or Ot P K).
Qed.
Print Assumptions C93_drain.

(** Moving a value (its bytes; nothing it owns) changes neither what it owns nor what will be dropped with it. *)
Theorem C93_move : forall t D m T p x owned ls p', owns t D m T p x owned ls ->
  exists ls', owns t D m T p' x owned ls' /\ map snd ls' = map snd ls.
Proof. intros t D m T p x fp ls p' O. exact (nest_move t D m T p x fp ls p' O). Qed.
Print Assumptions C93_move.

(** What a value owns depends on no other memory: changes elsewhere do not matter. *)
Theorem C93_frame : forall t D m m' T p x owned ls, valid_target t -> owns t D m T p x owned ls ->
  (forall b y, In b owned -> in_block b y -> m' y = m y) -> owns t D m' T p x owned ls.
Proof. intros t D m m' T p x fp ls V O E. apply (owns_ext t D m m' V); [exact O|]. intros y (b & B & Y). exact (E b y B Y). Qed.
Print Assumptions C93_frame.

(** The struct is dropped: all three destructors run, although the second panics. *)
Example ex_nest_drop : exists n0, forall fuel, (n0 <= fuel)%nat -> exists w', n_drop ex_D ex_leaf fuel 1 false (Some 9000) (b_read ex_list ex_nm 9000) ex_nw = (w', DPanic) /\ rcl w' = [11; 12; 13].
Proof.
  destruct (C93_drop _ (x64 false) ex_D ex_leaf (fun _ => True) 1 (Some 9000) _ _ _ ex_nw ex_target_ok ex_owns ex_separate (ex_keeps _) Logic.I) as (n0 & H).
  exists n0. intros fuel N. destruct (H fuel N false) as (w' & k & r & E1 & E2 & _). exists w'. rewrite E1.
  apply (f_equal (fun z => (rcl (fst (fst z)), snd z))) in E2. vm_compute in E2. injection E2 as Q1 <-. split; [reflexivity|]. symmetry. exact Q1.
Qed.
Example ex_groups : elems_own (x64 false) ex_D ex_nm 0 ex_nv [ex_A; ex_B].
Proof. split; [reflexivity|]. intros [|[|[|i]]] g; cbn [nth_error]; intros [= <-]; [exact (ex_ownA (Some 4096))|exact (ex_ownB (Some 4120))]. Qed.
Example ex_groups_disjoint : pairwise disjoint (region (funinit ex_nv) :: concat (map fst [ex_A; ex_B])).
Proof. cbn [concat map fst app ex_A ex_B]. dj. Qed.
(** [clear] drops the second list, then the first. *)
Example ex_nest_clear : exists n0, forall fuel, (n0 <= fuel)%nat -> exists w' v',
  r_truncate (n_drop ex_D ex_leaf fuel 0) false ex_list ex_nw ex_nv 0 = (w', v', DPanic) /\ rcl w' = [13; 11; 12] /\ flen v' = 0.
Proof.
  destruct (C93_truncate _ (x64 false) ex_D ex_leaf (fun _ => True) 0 ex_nv [ex_A; ex_B] ex_nw 0 ex_target_ok ex_nv_wf ltac:(vm_compute; split; congruence) ex_groups ex_groups_disjoint (ex_keeps _) Logic.I) as (n0 & H).
  exists n0. intros fuel N. destruct (H fuel N false) as (w' & v' & k & r & E1 & E2 & E3 & E4 & (E5 & E6)). exists w', v'. change (ty_lay ex_D 0) with ex_list in *. rewrite E1.
  apply (f_equal (fun z => (rcl (fst (fst z)), snd (fst z), snd z))) in E2. vm_compute in E2. injection E2 as Q1 <- <-. split; [reflexivity|]. split; [symmetry; exact Q1|].
  apply (f_equal (@length bval)) in E5. unfold y_as_slice at 1 in E5. rewrite ReentProofs.slice_len in E5.
  assert (Q : length (take (len (y_as_slice ex_list (rmem ex_nw) ex_nv) - 2) (y_as_slice ex_list (rmem ex_nw) ex_nv)) = 0%nat) by reflexivity.
  rewrite Q in E5. destruct E4 as (_ & E4). lia.
Qed.
(** A drain of the first list, not taken. *)
Example ex_drain_hyps : exists v1 d, f_drain (x64 false) ex_list ex_nv (Included 0) (Excluded 1) = Ret (v1, d) /\
  each_owns (x64 false) ex_D ex_nm 0 (take 0 (y_as_slice ex_list ex_nm ex_nv)) [] /\
  (exists A, fst A = fst ex_A /\ each_owns (x64 false) ex_D ex_nm 0 (yd_as_slice ex_list ex_nm d) [A]) /\
  (exists B, fst B = fst ex_B /\ each_owns (x64 false) ex_D ex_nm 0 (skip 1 (y_as_slice ex_list ex_nm ex_nv)) [B]).
Proof.
  eexists _, _. split; [vm_compute; reflexivity|]. split; [constructor|]. split.
  - exists (fst ex_A, [(None, bytes_of 8 11); (Some 8200, bytes_of 8 12)]). split; [reflexivity|]. constructor; [exact (ex_ownA None)|constructor].
  - exists (fst ex_B, [(None, bytes_of 8 13)]). split; [reflexivity|]. constructor; [exact (ex_ownB None)|constructor].
Qed.
