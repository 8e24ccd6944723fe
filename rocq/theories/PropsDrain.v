(** * PropsDrain: a [Drain] is a double-ended queue of the drained elements (C87). *)
From Coq Require Import Permutation.
From Verif Require Import Base Spec BaseFacts SyncModel SyncSpec SyncProofs PropsSync
  UninitModel UninitSpec UninitProofs PropsUninit FixedVecModel FixedVecSpec FixedVecProofs FixedVecPool FixedVecAcct FixedVecIter PropsFixedVec DrainModel DrainSpec DrainProofs
  SyncMemModel SyncMemSpec RcMemSpec PropsRcMem FixedVecMemModel FixedVecMemSpec FixedVecMemProofs PropsFixedVecMem DrainMemModel DrainMemSpec DrainMemProofs.

(** C87: all calls on a drain of the part [mid] are answered as by a queue of [mid], also after changes through [as_mut_slice].
    Forgotten at any time, the drain leaves the elements before it in the vector.  Dropped, it drops what is left of the queue, in order,
    and leaves the elements before and after it - only those before it, if a destructor panics.  No other memory is changed. *)
Theorem C87_drain_is_queue : forall t l boom w v pre mid post lo hi os,
  valid_target t -> vec_ok t l (wheap w) v (pre ++ mid ++ post) ->
  valid_bound t true lo -> valid_bound t false hi ->
  range_start lo = len pre -> range_end hi (len (pre ++ mid ++ post)) = len pre + len mid ->
  Forall (valid_dop t l) os ->
  exists v1 d, f_drain t l v lo hi = Ret (v1, d) /\
    let '(h, d', answers) := drun l (wheap w) d os in
    let '(rest, answers') := qrun mid os in
    answers = map in_slots answers' /\
    vec_ok t l h v1 pre /\ funinit v1 = funinit v /\ FixedVecSpec.same_outside (region (funinit v)) (wheap w) h /\
    let '(dd, p) := drop_seq boom rest in
    exists w' v', d_drop boom l {| wheap := h; wdrops := wdrops w |} v1 d' = (w', v', p) /\ funinit v' = funinit v /\
      wdrops w' = wdrops w ++ map Some dd /\ FixedVecSpec.same_outside (region (funinit v)) (wheap w) (wheap w') /\
      vec_ok t l (wheap w') v' (if p then pre else pre ++ post).
Proof.
  intros t l boom w v pre mid post lo hi os Ht Hok Hlo Hhi HS HE Hos. pose proof (ok_rep _ _ _ _ _ Hok) as Hr.
  destruct (session_start t l w v _ pre mid post lo hi Ht Hr Hlo Hhi HS HE) as (d & E & S).
  do 2 eexists. split; [exact E|]. destruct (drun_spec t l v _ pre mid post os Ht _ _ _ S Hos) as (h & d' & E' & S' & F). rewrite E'.
  destruct (qrun mid os) as [rest rs]. cbn [fst snd] in *. split; [reflexivity|].
  split; [apply (rep_ok _ _ _ _ _ _ Ht (session_forget _ _ _ _ _ _ _ _ _ _ S'))|]. split; [reflexivity|]. split; [exact F|].
  pose proof (session_drop t boom l v _ pre mid post {| wheap := h; wdrops := wdrops w |} d' rest Ht S') as D.
  destruct (drop_seq boom rest) as [dd p]. destruct D as (w' & v' & D1 & D2 & D3 & D4 & D5). exists w', v'.
  split; [exact D1|]. split; [exact D2|]. split; [exact D3|]. split; [|apply (rep_ok _ _ _ _ _ _ Ht D5)].
  intros z Z. rewrite (D4 z Z). apply (F z Z).
Qed.

(** C87: no element is lost or doubled: what the program received and what is left is what was drained and what the program put in. *)
Theorem C87_every_element_once : forall mid os,
  let '(rest, answers) := qrun mid os in Permutation (all_received answers ++ rest) (mid ++ all_handed os answers).
Proof. intros mid os. exact (qrun_perm os mid). Qed.

(** Satisfiable: [11; 13; 14] drained from index 1, used and dropped, and with a destructor that panics. *)
Definition ex_dops : list dop :=
  [DLen; DSwap 0 1; DNext; DReplace 0 20; DSlice; DHint; DReplace 1 21; DNextBack; DNext; DIsEmpty; DHint].
Definition ex_dops2 : list dop := [DReplace 1 22; DSwap 1 2; DSwap 0 1].

Example ex_dops_ok :
  vec_ok (x64 false) ex_u64 ex_h3 ex_fv ([11] ++ [13; 14] ++ []) /\ vec_ok (x64 false) ex_u64 ex_h3 ex_fv ([] ++ [11; 13] ++ [14]) /\
  Forall (valid_dop (x64 false) ex_u64) ex_dops /\ Forall (valid_dop (x64 false) ex_u64) ex_dops2 /\
  range_start (Included 1) = len [11] /\ range_end Unbounded (len [11; 13; 14]) = len [11] + len [13; 14] /\
  range_start Unbounded = len (@nil elem) /\ range_end (Excluded 2) (len [11; 13; 14]) = len (@nil elem) + len [11; 13] /\
  qrun [13; 14] ex_dops =
    ([], [DSize 2; DUnit; DItem (Some 14); DOld 13; DItems [20]; DBounds 1 (Some 1); DPanicked; DItem (Some 20); DItem None; DBool true;
          DBounds 0 (Some 0)]) /\
  qrun [11; 13] ex_dops2 = ([22; 11], [DOld 13; DPanicked; DUnit]) /\
  match f_drain (x64 false) ex_u64 ex_fv Unbounded (Excluded 2) with
  | Ret (v1, d) =>
      let '(h, d', answers) := drun ex_u64 ex_h3 d ex_dops2 in
      answers = [DOld (Some 13); DPanicked; DUnit] /\
      let '(w', v', p) := d_drop (fun e => e =? 22) ex_u64 {| wheap := h; wdrops := [] |} v1 d' in
      p = true /\ wdrops w' = [Some 22] /\ f_as_slice ex_u64 (wheap w') v' = [] /\
      let '(w', v', p) := d_drop (fun e => false) ex_u64 {| wheap := h; wdrops := [] |} v1 d' in
      p = false /\ wdrops w' = [Some 22; Some 11] /\ f_as_slice ex_u64 (wheap w') v' = [Some 14]
  | Panic _ => False
  end.
Proof.
  split; [apply ex_fv_ok|]. split; [apply ex_fv_ok|].
  split; [repeat constructor; cbn; unfold is_usize; try (vm_compute; congruence)|].
  split; [repeat constructor; cbn; unfold is_usize; try (vm_compute; congruence)|]. vm_compute. repeat split.
Qed.

Print Assumptions C87_drain_is_queue.
Print Assumptions C87_every_element_once.

(** C87, on bytes: the same with elements that are only their bytes in the program's memory, for every naming of byte strings. *)
Theorem C87_drain_bytes : forall code t l boom w v pre mid post lo hi os,
  valid_target t -> wf_view t (TSlice l) (funinit v) -> 0 <= flen v <= f_capacity t l v -> (lsize l = 0 -> code [] = 0) ->
  map code (y_as_slice l (ymem w) v) = pre ++ mid ++ post ->
  valid_bound t true lo -> valid_bound t false hi ->
  range_start lo = len pre -> range_end hi (len (pre ++ mid ++ post)) = len pre + len mid ->
  Forall (valid_ydop t l) os ->
  exists v1 d, f_drain t l v lo hi = Ret (v1, d) /\
    let '(m, d', answers) := ydrun l (ymem w) d os in
    let '(rest, answers') := qrun mid (map (yd_named code) os) in
    map (yd_name code) answers = answers' /\
    map code (y_as_slice l m v1) = pre /\ funinit v1 = funinit v /\ SyncMemSpec.same_outside (region (funinit v)) (ymem w) m /\
    let '(dd, p) := drop_seq boom rest in
    exists w' v', yd_drop (fun b => boom (code b)) l {| ymem := m; ydrops := ydrops w |} v1 d' = (w', v', p) /\ funinit v' = funinit v /\
      map code (ydrops w') = map code (ydrops w) ++ dd /\ SyncMemSpec.same_outside (region (funinit v)) (ymem w) (ymem w') /\
      map code (y_as_slice l (ymem w') v') = (if p then pre else pre ++ post).
Proof.
  intros code t l boom w v pre mid post lo hi os Ht W F C E Hlo Hhi HS HE Hos.
  set (h := heap_of code l (ymem w)). set (fw := MkW h (map (fun b => Some (code b)) (ydrops w))).
  pose proof (heap_of_ok code t l (ymem w) v Ht C W F) as VO. rewrite E in VO. fold h in VO.
  assert (L : 0 <= lsize l) by (apply (type_layout_size t); apply W).
  assert (VD : Forall (valid_dop t l) (map (yd_named code) os)).
  { apply Forall_forall. intros o O. apply in_map_iff in O as (y & <- & O). rewrite Forall_forall in Hos. specialize (Hos y O).
    destruct y; cbn in *; auto. destruct Hos as (K & LE). split; [exact K|]. intros Z0. rewrite Z0 in LE. destruct e; [auto|cbn in LE; lia]. }
  destruct (C87_drain_is_queue t l boom fw v pre mid post lo hi _ Ht VO Hlo Hhi HS HE VD) as (v1 & d & ED & K). exists v1, d. split; [exact ED|].
  assert (G : vgood t l (funinit v) h v) by (split; [apply vfit_self|eexists; eexists; apply (ok_rep _ _ _ _ _ VO)]).
  destruct (drain_good t l (funinit v) h v lo hi v1 d Ht G Hlo Hhi ED) as (F1 & DG).
  pose proof (ydrun_sim code t l (funinit v) L C os (ymem w) h d (heap_of_agree code l _ _) DG Hos) as SIM.
  destruct (ydrun l (ymem w) d os) as [[m d'] answers]. destruct SIM as (h' & ER & A' & DG' & S'). change (wheap fw) with h in K. rewrite ER in K.
  destruct (qrun mid (map (yd_named code) os)) as [rest answers']. destruct K as (K1 & K2 & K3 & K4 & K5).
  assert (FV : forall x, funinit x = funinit v -> vfit l (funinit v) x) by (intros x <-; apply vfit_self).
  split. { apply map_in_slots_inj. rewrite <- K1. unfold yd_slots. rewrite map_map. reflexivity. }
  split; [exact (slice_named code t l (funinit v) m h' v1 pre Ht C A' (FV _ K3) K2)|]. split; [exact K3|]. split; [exact S'|].
  destruct (drop_seq boom rest) as [dd p]. destruct K5 as (w' & v' & D1 & D2 & D3 & D4 & D5).
  assert (WR : wrel code l (funinit v) {| ymem := m; ydrops := ydrops w |} {| wheap := h'; wdrops := wdrops fw |}) by (split; [exact A'|reflexivity]).
  pose proof (d_drop_sim code boom t l (funinit v) _ _ v1 d' Ht L C WR DG') as SD. rewrite D1 in SD.
  destruct (yd_drop _ l _ v1 d') as [[yw' yv'] yp]. destruct SD as (-> & -> & WR' & FI & SO).
  exists yw', yv'. split; [reflexivity|]. split; [exact D2|]. split.
  - destruct WR' as (_ & WD). rewrite D3 in WD. cbn [fw wdrops] in WD. rewrite !map_code, <- map_app in WD. symmetry. apply map_Some_inj. exact WD.
  - split; [intros x X; rewrite (SO x X); apply (S' x X)|].
    exact (slice_named code t l (funinit v) (ymem yw') (wheap w') yv' _ Ht C (proj1 WR') (FV _ D2) D5).
Qed.

(** Satisfiable: three u64 at address 4096, the last two drained, swapped, replaced and dropped. *)
Definition ex_yw : yworld := {| ymem := mem_write (fun _ => None) 4096 (u64_bytes 11 ++ u64_bytes 13 ++ u64_bytes 14); ydrops := [] |}.
Definition ex_ydops : list ydop := [YDSwap 0 1; YDSlice; YDReplace 0 (u64_bytes 20); YDNextBack; YDSlice; YDReplace 1 (u64_bytes 21)].

Example ex_drain_bytes :
  wf_view (x64 false) (TSlice ex_u64) (funinit ex_fv) /\ 0 <= flen ex_fv <= f_capacity (x64 false) ex_u64 ex_fv /\
  Forall (valid_ydop (x64 false) ex_u64) ex_ydops /\
  y_as_slice ex_u64 (ymem ex_yw) ex_fv = map u64_bytes [11; 13; 14] /\
  match f_drain (x64 false) ex_u64 ex_fv Unbounded (Excluded 2) with
  | Ret (v1, d) =>
      let '(m, d', answers) := ydrun ex_u64 (ymem ex_yw) d ex_ydops in
      answers = [DUnit; DItems (map u64_bytes [13; 11]); DOld (u64_bytes 13); DItem (Some (u64_bytes 11)); DItems (map u64_bytes [20]); DPanicked] /\
      let '(w', v', p) := yd_drop (fun b => false) ex_u64 {| ymem := m; ydrops := [] |} v1 d' in
      ydrops w' = map u64_bytes [20] /\ y_as_slice ex_u64 (ymem w') v' = map u64_bytes [14]
  | Panic _ => False
  end.
Proof.
  destruct ex_fv_ok as ((V1 & V2 & _) & _). split; [exact V1|]. split; [exact V2|]. split; [repeat constructor; cbn; unfold is_usize; try (vm_compute; congruence)|].
  split; [vm_compute; reflexivity|]. vm_compute. auto.
Qed.
Print Assumptions C87_drain_bytes.
