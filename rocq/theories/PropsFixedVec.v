(** * Claims about FixedVec (C37-C46). *)
From Coq Require Import Permutation.
From Verif Require Import Base Spec BaseFacts SyncModel SyncSpec SyncProofs PropsSync
  UninitModel UninitSpec UninitProofs PropsUninit
  FixedVecModel FixedVecSpec FixedVecProofs FixedVecPool FixedVecAcct FixedVecIter.

(** Example: 44 bytes for u64 (five elements); the destructor of element 13 panics. *)
Definition ex_u : uview := {| uptr := 4096; ulen := 44; umeta := 5 |}.
Definition ex_boom (e : elem) : bool := e =? 13.
Definition ex_heap : eheap := fun _ => None.
Example ex_u_ok : wf_view (x64 false) (TSlice ex_u64) ex_u.
Proof.
  split; [unfold valid_region; vm_compute; repeat split; congruence|]. split; [apply ex_u64_type|].
  exists 512. reflexivity.
Qed.
Definition ex_ops : list fop :=
  [FPush 0 11; FPush 0 12; FPush 0 10; FPop 0; FFill 0 [14; 15; 16; 17] false; FPush 0 18;
   FSplitBorrowed 0 3; FPush 0 19; FPop 1; FPush 1 20; FDropVec 1;
   FDrain 0 (Included 1) (Excluded 2) [true; false] false; FSlice 0;
   FSplitShrink 0 2; FPush 2 13; FTruncate 2 0; FExtend 0 [21; 22] false; FSlice 0;
   FReplace 0 0 23; FSwap 0 1 0; FReplace 0 2 24; FSwap 0 0 2; FSlice 0; FDropVec 0].

(** C37. Every history of calls gives exactly the answers of plain lists bounded by their capacity: the same
    results, the same destructors run in the same order, and in the end every vector that is alive holds
    the same elements and has the same capacity.  In particular no uninitialised memory is ever read. *)
Theorem C37_bounded_lists : forall t l boom h u os,
  valid_target t -> wf_view t (TSlice l) u -> Forall (valid_fop t l) os ->
  let '(s, rs) := frun t l boom (finit h u) os in
  let '(a, rs') := arun (lsize l =? 0) (usize_max t) boom (ainit (v_capacity t l u)) os in
  rs = map some_answer rs' /\ wdrops (fw s) = map Some (adrops a) /\
  Forall2 (fun e x => ealive e = aalive x /\
     (aalive x = true -> vec_ok t l (wheap (fw s)) (evec e) (aitems x) /\ f_capacity t l (evec e) = acap x))
    (fpool s) (apool a).
Proof.
  intros t l boom h u os Ht Hw Hv. pose proof (run_rel t l _ _ boom os _ _ Ht (init_rel t l h u Ht Hw) Hv) as H.
  destruct (frun t l boom (finit h u) os) as [s rs], (arun _ _ _ _ os) as [a rs']. destruct H as [-> R].
  split; [reflexivity|]. split; [apply (r_drops _ _ _ _ _ _ R)|]. pose proof (r_pool _ _ _ _ _ _ R) as F.
  induction F as [|e x P Q Hex _ IH]; constructor; [|exact IH]. destruct Hex as (E1 & E2 & E3). split; [exact E1|].
  intros Ha. destruct (rep_ok t l _ _ _ _ Ht (E3 ltac:(congruence))) as (O1 & O2 & _). auto.
Qed.
Print Assumptions C37_bounded_lists.

Example C37_nonvacuous :
  Forall (valid_fop (x64 false) ex_u64) ex_ops /\
  snd (frun (x64 false) ex_u64 ex_boom (finit ex_heap ex_u) ex_ops) =
    [FOk; FOk; FOk; FPopped (Some (Some 10)); FRest [17] true; FRejected 18;
     FPart 1; FNone; FPopped (Some (Some 16)); FOk; FOk;
     FDrained [Some (Some 12); None] true; FItems [Some 11; Some 14];
     FPart 2; FOk; FPanicked; FRest [22] false; FItems [Some 11; Some 14];
     FPopped (Some (Some 11)); FOk; FPanicked; FPanicked; FItems [Some 14; Some 23]; FOk] /\
  wdrops (fw (fst (frun (x64 false) ex_u64 ex_boom (finit ex_heap ex_u) ex_ops))) =
    map Some [15; 20; 13; 21; 14; 23].
Proof.
  split.
  - unfold ex_ops. repeat constructor; cbn; try discriminate; try lia; vm_compute; congruence.
  - split; vm_compute; reflexivity.
Qed.

(** C37, memory: no history writes outside of the region that the first vector was created with. *)
Theorem C37_writes_inside : forall t l boom h u os,
  valid_target t -> wf_view t (TSlice l) u -> Forall (valid_fop t l) os ->
  same_outside (region u) h (wheap (fw (fst (frun t l boom (finit h u) os)))).
Proof.
  intros t l boom h u os Ht Hw Hv. pose proof (run_rel t l _ _ boom os _ _ Ht (init_rel t l h u Ht Hw) Hv) as H.
  destruct (frun t l boom (finit h u) os) as [s rs], (arun _ _ _ _ os) as [a rs']. apply (r_frame _ _ _ _ _ _ (proj2 H)).
Qed.
Print Assumptions C37_writes_inside.

(** C38. push succeeds iff there is room; otherwise it gives the same value back and changes nothing. *)
Theorem C38_push : forall t l h v xs e,
  valid_target t -> vec_ok t l h v xs -> (lsize l = 0 -> e = 0) ->
  (len xs < f_capacity t l v -> exists h' v',
     f_push t l h v e = Ret (h', v', None) /\ vec_ok t l h' v' (xs ++ [e]) /\
     funinit v' = funinit v /\ same_outside (region (funinit v)) h h') /\
  (f_capacity t l v <= len xs -> f_push t l h v e = Ret (h, v, Some e)).
Proof.
  intros t l h v xs e Ht Hok He. pose proof (push_spec t l h v _ xs e Ht (ok_rep _ _ _ _ _ Hok) He) as Hp.
  destruct (Z.ltb_spec (len xs) (f_capacity t l v)) as [Hlt|Hge]; (split; [intros H|intros H]); try lia.
  - destruct Hp as (h' & v' & E & R & U & F). exists h', v'. split; [exact E|]. split; [apply (rep_ok _ _ _ _ _ _ Ht R)|]. auto.
  - exact Hp.
Qed.
Print Assumptions C38_push.

(** pop gives the last element, or nothing if there is none. *)
Theorem C38_pop : forall t l h v xs,
  valid_target t -> vec_ok t l h v xs ->
  (xs = [] -> f_pop t l h v = Ret (v, None)) /\
  (forall ys y, xs = ys ++ [y] -> exists v', f_pop t l h v = Ret (v', Some (Some y)) /\
     vec_ok t l h v' ys /\ funinit v' = funinit v).
Proof.
  intros t l h v xs Ht Hok. pose proof (pop_spec t l h v _ xs Ht (ok_rep _ _ _ _ _ Hok)) as Hp.
  split.
  - intros ->. exact Hp.
  - intros ys y ->. destruct (ys ++ [y]) as [|z zs] eqn:E; [destruct ys; discriminate|].
    destruct Hp as (v' & Ep & R & U). exists v'. rewrite <- E in Ep, R. rewrite last_app_single in Ep.
    rewrite removelast_last in R. split; [exact Ep|]. split; [apply (rep_ok _ _ _ _ _ _ Ht R)|exact U].
Qed.
Print Assumptions C38_pop.

(** Elements are also changed in place, through the slice of the vector: replacing one gives the old value out and
    puts the new one at the same position, exchanging two exchanges them, and all other elements stay;
    an index that is not below the length panics. *)
Theorem C38_replace : forall t l h v xs ys y zs k e,
  valid_target t -> vec_ok t l h v xs -> (lsize l = 0 -> e = 0) ->
  (xs = ys ++ [y] ++ zs -> k = len ys -> exists h', f_replace l h v k e = Ret (h', Some y) /\
     vec_ok t l h' v (ys ++ [e] ++ zs) /\ same_outside (region (funinit v)) h h') /\
  (len xs <= k -> exists m, f_replace l h v k e = Panic m).
Proof.
  intros t l h v xs ys y zs k e Ht Hok He. pose proof (ok_rep _ _ _ _ _ Hok) as Hr. split.
  - intros -> ->. pose proof (replace_spec t l h v _ _ (len ys) e Ht Hr (len_nonneg ys) He) as K.
    unfold len in K at 1 2. rewrite Nat2Z.id, nth_error_app2, Nat.sub_diag in K by lia. cbn [nth_error app] in K.
    destruct K as (h' & E & R & F). exists h'. split; [exact E|]. split; [|exact F].
    replace (ys ++ [e] ++ zs) with (upd_nth (Z.to_nat (len ys)) e (ys ++ y :: zs))
      by (unfold len; rewrite Nat2Z.id; clear; induction ys as [|? ys IH]; cbn in *; [reflexivity|f_equal; exact IH]).
    apply (rep_ok _ _ _ _ _ _ Ht R).
  - intros Hk. pose proof (len_nonneg xs). pose proof (replace_spec t l h v _ _ k e Ht Hr ltac:(lia) He) as K.
    replace (nth_error xs (Z.to_nat k)) with (@None elem) in K by (symmetry; apply nth_error_None; unfold len in Hk; lia). eauto.
Qed.
Print Assumptions C38_replace.

Theorem C38_swap : forall t l h v as_ y bs z cs j k,
  valid_target t -> vec_ok t l h v (as_ ++ [y] ++ bs ++ [z] ++ cs) -> j = len as_ -> k = len (as_ ++ [y] ++ bs) ->
  (exists h', f_swap l h v j k = Ret h' /\ vec_ok t l h' v (as_ ++ [z] ++ bs ++ [y] ++ cs) /\ same_outside (region (funinit v)) h h') /\
  (exists h', f_swap l h v k j = Ret h' /\ vec_ok t l h' v (as_ ++ [z] ++ bs ++ [y] ++ cs) /\ same_outside (region (funinit v)) h h').
Proof.
  intros t l h v as_ y bs z cs j k Ht Hok -> ->. pose proof (ok_rep _ _ _ _ _ Hok) as Hr.
  assert (N1 : nth_error (as_ ++ [y] ++ bs ++ [z] ++ cs) (Z.to_nat (len as_)) = Some y).
  { unfold len. rewrite Nat2Z.id, nth_error_app2, Nat.sub_diag by lia. reflexivity. }
  assert (N2 : nth_error (as_ ++ [y] ++ bs ++ [z] ++ cs) (Z.to_nat (len (as_ ++ [y] ++ bs))) = Some z).
  { replace (as_ ++ [y] ++ bs ++ [z] ++ cs) with ((as_ ++ [y] ++ bs) ++ z :: cs) by (rewrite <- !app_assoc; reflexivity).
    unfold len. rewrite Nat2Z.id, nth_error_app2, Nat.sub_diag by lia. reflexivity. }
  assert (U : forall xs (a : elem) ys b, upd_nth (Z.to_nat (len xs)) b (xs ++ [a] ++ ys) = xs ++ [b] ++ ys).
  { intros xs a ys b. unfold len. rewrite Nat2Z.id. induction xs; cbn; [reflexivity|]. f_equal. assumption. }
  assert (A : forall a b, as_ ++ [a] ++ bs ++ [b] ++ cs = (as_ ++ [a] ++ bs) ++ [b] ++ cs) by (intros; rewrite <- !app_assoc; reflexivity).
  assert (L : forall a, len (as_ ++ [y] ++ bs) = len (as_ ++ [a] ++ bs)) by (intros; unfold len; rewrite !app_length; reflexivity).
  split.
  - pose proof (swap_spec t l h v _ _ (len as_) (len (as_ ++ [y] ++ bs)) Ht Hr (len_nonneg _) (len_nonneg _)) as K.
    rewrite N1, N2, U, (L z), A, U, <- A, <- (L z) in K. destruct K as (h' & E & R & F). exists h'. split; [exact E|]. split; [apply (rep_ok _ _ _ _ _ _ Ht R)|exact F].
  - pose proof (swap_spec t l h v _ _ (len (as_ ++ [y] ++ bs)) (len as_) Ht Hr (len_nonneg _) (len_nonneg _)) as K.
    rewrite N1, N2, A, U, <- A, U in K. destruct K as (h' & E & R & F). exists h'. split; [exact E|]. split; [apply (rep_ok _ _ _ _ _ _ Ht R)|exact F].
Qed.
Print Assumptions C38_swap.

(** C38. ... swapping an element with itself changes no element, and an index not below the length panics. *)
Theorem C38_swap_bounds : forall t l h v xs j k,
  valid_target t -> vec_ok t l h v xs -> 0 <= j -> 0 <= k ->
  ((exists h', f_swap l h v j k = Ret h') <-> j < len xs /\ k < len xs) /\
  (len xs <= j \/ len xs <= k -> exists m, f_swap l h v j k = Panic m) /\
  (j < len xs -> j = k -> exists h', f_swap l h v j k = Ret h' /\ vec_ok t l h' v xs /\ same_outside (region (funinit v)) h h').
Proof.
  intros t l h v xs j k Ht Hok Hj Hk. pose proof (ok_rep _ _ _ _ _ Hok) as Hr.
  assert (FL : flen v = len xs) by apply Hr.
  assert (P : len xs <= j \/ len xs <= k -> exists m, f_swap l h v j k = Panic m).
  { intros O. unfold f_swap. rewrite FL. destruct (Z.ltb_spec j (len xs)); [|eexists; reflexivity]. destruct (Z.ltb_spec k (len xs)); [lia|eexists; reflexivity]. }
  split; [|split; [exact P|]].
  - split.
    + intros (h' & E). destruct (Z.ltb_spec j (len xs)), (Z.ltb_spec k (len xs)); try (split; assumption); destruct P as (m & E'); try lia; congruence.
    + intros (J & K). unfold f_swap. rewrite FL. destruct (Z.ltb_spec j (len xs)); [|lia]. destruct (Z.ltb_spec k (len xs)); [|lia]. eexists; reflexivity.
  - intros J <-. pose proof (swap_spec t l h v _ xs j j Ht Hr Hj Hj) as K.
    destruct (nth_error xs (Z.to_nat j)) as [y|] eqn:N.
    + assert (U : forall zs (n : nat), nth_error zs n = Some y -> upd_nth n y zs = zs).
      { intros zs. induction zs as [|z zs IH]; intros [|n] E; cbn in *; try discriminate; [injection E as ->; reflexivity|]. f_equal. apply IH. exact E. }
      rewrite !U in K by (rewrite ?U by exact N; exact N). destruct K as (h' & E & R & F). exists h'. split; [exact E|]. split; [apply (rep_ok _ _ _ _ _ _ Ht R)|exact F].
    + exfalso. apply nth_error_None in N. unfold len in J. lia.
Qed.
Print Assumptions C38_swap_bounds.

(** Example vector: three elements 11, 13, 14 *)
Definition ex_fv : fvec := {| funinit := ex_u; flen := 3 |}.
Definition ex_h3 : eheap := fun a => if a =? 4096 then Some 11 else if a =? 4104 then Some 13 else if a =? 4112 then Some 14 else None.
Example ex_fv_ok : vec_ok (x64 false) ex_u64 ex_h3 ex_fv [11; 13; 14] /\ f_capacity (x64 false) ex_u64 ex_fv = 5.
Proof.
  split; [|reflexivity]. split; [exact ex_u_ok|]. split; [vm_compute; split; congruence|reflexivity].
Qed.

(** C38, non-vacuity *)
Example C38_nonvacuous :
  vec_ok (x64 false) ex_u64 ex_h3 ex_fv ([11] ++ [13] ++ [14]) /\ vec_ok (x64 false) ex_u64 ex_h3 ex_fv ([] ++ [11] ++ [13] ++ [14] ++ []) /\
  (exists h, f_replace ex_u64 ex_h3 ex_fv 1 5 = Ret (h, Some 13) /\ f_as_slice ex_u64 h ex_fv = map Some [11; 5; 14]) /\
  (exists h, f_swap ex_u64 ex_h3 ex_fv 0 2 = Ret h /\ f_as_slice ex_u64 h ex_fv = map Some [14; 13; 11]) /\
  f_replace ex_u64 ex_h3 ex_fv 3 5 = Panic PN_index.
Proof.
  split; [apply ex_fv_ok|]. split; [apply ex_fv_ok|]. split; [eexists; split; reflexivity|]. split; [eexists; split; reflexivity|reflexivity].
Qed.

(** C39. Every element that the vectors took over is handed out, dropped, or still in a living vector, exactly
    once; what is missing was leaked, and nothing is leaked unless a vector or drain is forgotten or a
    destructor panics while a drain is dropped.  (A second panic during unwinding aborts the process.) *)
Theorem C39_accounting : forall t l boom h u os s rs,
  valid_target t -> wf_view t (TSlice l) u -> Forall (valid_fop t l) os ->
  frun t l boom (finit h u) os = (s, rs) -> ~ In FAborted rs ->
  exists lost,
    Permutation (map Some (all_taken os rs))
                (flat_map handed_out rs ++ wdrops (fw s) ++ live_contents l s ++ map Some lost) /\
    (Forall (fun o => ~ forgets o) os -> Forall (fun r => ~ drain_panicked r) rs -> lost = []).
Proof.
  intros t l boom h u os s rs Ht Hw Hv E Hna.
  pose proof (run_rel t l _ _ boom os _ _ Ht (init_rel t l h u Ht Hw) Hv) as H. rewrite E in H.
  destruct (arun _ _ _ _ os) as [a rs'] eqn:Ea. destruct H as [-> R].
  assert (Hna' : ~ In FAborted rs').
  { intros Hin. apply Hna. apply (in_map some_answer) in Hin. exact Hin. }
  assert (Hst : Forall (fun o => 0 <= op_start o) os) by (eapply Forall_impl; [intros o; apply (valid_start t l)|exact Hv]).
  destruct (acct_run _ _ _ _ _ _ _ Hst Ea Hna') as [P L]. cbn [ainit contents apool adrops alost flat_map aitems app] in P, L.
  exists (alost a). split.
  - rewrite all_taken_some.
    assert (D : dead_empty a).
    { replace a with (fst (arun (lsize l =? 0) (usize_max t) boom (ainit (v_capacity t l u)) os)) by (rewrite Ea; reflexivity).
      apply dead_run. constructor; [discriminate|constructor]. }
    rewrite (live_rel _ _ _ _ _ _ R D), (r_drops _ _ _ _ _ _ R).
    assert (Hh : flat_map handed_out (map some_answer rs') = map Some (flat_map ahanded rs')).
    { clear. induction rs' as [|r rs' IH]; cbn; [reflexivity|]. rewrite map_app, handed_some, IH. reflexivity. }
    rewrite Hh, <- !map_app. apply Permutation_map. rewrite app_nil_r in P. rewrite P.
    apply Permutation_app_head. apply Permutation_app_swap_app.
  - intros Hf Hp. apply L; [exact Hf|]. apply Forall_forall. intros r Hr. rewrite Forall_forall in Hp.
    specialize (Hp _ (in_map some_answer _ _ Hr)). destruct r; cbn in *; tauto.
Qed.
Print Assumptions C39_accounting.

(** C39. With distinct elements: none is dropped twice, or dropped and handed out, or in a vector after it
    was dropped; and only elements that were put in are ever dropped or handed out. *)
Theorem C39_exactly_once : forall t l boom h u os s rs,
  valid_target t -> wf_view t (TSlice l) u -> Forall (valid_fop t l) os ->
  frun t l boom (finit h u) os = (s, rs) -> ~ In FAborted rs -> NoDup (all_taken os rs) ->
  NoDup (flat_map handed_out rs ++ wdrops (fw s) ++ live_contents l s) /\
  (forall x, In x (flat_map handed_out rs ++ wdrops (fw s) ++ live_contents l s) ->
     exists e, x = Some e /\ In e (all_taken os rs)).
Proof.
  intros t l boom h u os s rs Ht Hw Hv E Hna Hnd.
  destruct (C39_accounting t l boom h u os s rs Ht Hw Hv E Hna) as (lost & P & _).
  rewrite !app_assoc in P. split.
  - apply (FinFun.Injective_map_NoDup (f := @Some elem)) in Hnd; [|intros a b [= ->]; reflexivity].
    apply (Permutation_NoDup P) in Hnd. apply NoDup_app_remove_r in Hnd. rewrite <- !app_assoc in Hnd. exact Hnd.
  - intros x Hx. assert (In x (map Some (all_taken os rs))) as Hin.
    { apply (Permutation_in _ (Permutation_sym P)). apply in_or_app. left. rewrite <- !app_assoc. exact Hx. }
    apply in_map_iff in Hin as (e & <- & He). eauto.
Qed.
Print Assumptions C39_exactly_once.

Example C39_nonvacuous :
  let '(s, rs) := frun (x64 false) ex_u64 ex_boom (finit ex_heap ex_u) ex_ops in
  ~ In FAborted rs /\ all_taken ex_ops rs = [11; 12; 10; 14; 15; 16; 18; 20; 13; 21; 23] /\ NoDup (all_taken ex_ops rs) /\
  flat_map handed_out rs = map Some [10; 18; 16; 12; 11] /\ live_contents ex_u64 s = [] /\
  Forall (fun o => ~ forgets o) ex_ops /\ Forall (fun r => ~ drain_panicked r) rs.
Proof.
  assert (E : snd (frun (x64 false) ex_u64 ex_boom (finit ex_heap ex_u) ex_ops) = _) by apply C37_nonvacuous.
  destruct (frun (x64 false) ex_u64 ex_boom (finit ex_heap ex_u) ex_ops) as [s rs] eqn:Ef.
  cbn [snd] in E. subst rs. split; [cbn; intuition discriminate|]. split; [reflexivity|].
  split; [vm_compute; repeat constructor; cbn; intuition discriminate|]. split; [reflexivity|].
  split.
  - replace s with (fst (frun (x64 false) ex_u64 ex_boom (finit ex_heap ex_u) ex_ops)) by (rewrite Ef; reflexivity). vm_compute. reflexivity.
  - split; repeat constructor; cbn; try tauto; discriminate.
Qed.

(** C40. truncate drops exactly the elements from the end, one by one, down to the wanted length; if a
    destructor panics, the elements not yet dropped are exactly the contents afterwards, and the one that
    panicked is not among them. *)
Theorem C40_truncate : forall t l boom w v xs n,
  valid_target t -> vec_ok t l (wheap w) v xs -> is_usize t n ->
  exists keep d p v',
    f_truncate boom l w v n = (dropped w d, v', p) /\ vec_ok t l (wheap w) v' keep /\ funinit v' = funinit v /\
    xs = keep ++ rev d /\
    (p = false -> len keep = Z.min n (len xs) /\ Forall (fun e => boom e = false) d) /\
    (p = true -> n <= len keep /\ exists d0 y, d = d0 ++ [y] /\ boom y = true /\ Forall (fun e => boom e = false) d0).
Proof.
  intros t l boom w v xs n Ht Hok [Hn _]. pose proof (ok_rep _ _ _ _ _ Hok) as Hr.
  pose proof (truncate_spec t boom l w v _ xs n Hr Hn) as Hp.
  destruct (drop_seq boom (rev (skip n xs))) as [d p] eqn:Ed. destruct Hp as (v' & E & R & U).
  exists (take (len xs - len d) xs), d, p, v'. split; [exact E|]. split; [apply (rep_ok _ _ _ _ _ _ Ht R)|]. split; [exact U|].
  pose proof (drop_seq_split _ _ _ _ Ed) as Hd. apply (f_equal (@rev elem)) in Hd.
  rewrite rev_involutive, rev_app_distr in Hd. set (s2 := rev (skip (len d) (rev (skip n xs)))) in *. clearbody s2.
  assert (Hxs : xs = (take n xs ++ s2) ++ rev d).
  { rewrite <- app_assoc, <- Hd. symmetry. apply take_skip. }
  assert (Hlr : len (rev d) = len d) by (unfold len; rewrite rev_length; reflexivity).
  assert (Hk : take (len xs - len d) xs = take n xs ++ s2).
  { set (ys := take n xs ++ s2) in *. clearbody ys. rewrite <- Hlr. rewrite Hxs. apply take_len_app. }
  rewrite Hk. split; [exact Hxs|]. split.
  - intros ->. pose proof (drop_seq_all boom (rev (skip n xs))) as Hall. rewrite Ed in Hall. cbn in Hall. specialize (Hall eq_refl).
    assert (s2 = []) as ->.
    { apply (f_equal (@length elem)) in Hd. rewrite app_length, rev_length, Hall, rev_length in Hd. destruct s2; [reflexivity|cbn in Hd; lia]. }
    rewrite app_nil_r. split.
    + destruct (Z.le_gt_cases n (len xs)).
      * rewrite len_take by lia. lia.
      * rewrite take_all by lia. lia.
    + eapply drop_seq_ok, Ed.
  - intros ->. split.
    + rewrite len_app. destruct (Z.le_gt_cases n (len xs)).
      * rewrite len_take by lia. pose proof (len_nonneg s2). lia.
      * exfalso. rewrite skip_all in Ed by lia. discriminate.
    + eapply drop_seq_boom, Ed.
Qed.
Print Assumptions C40_truncate.

(** C40, non-vacuity: the destructor of 13 panics; 14 and 13 were dropped, 11 stays.  And [clear]. *)
Example C40_nonvacuous :
  f_truncate ex_boom ex_u64 {| wheap := ex_h3; wdrops := [] |} ex_fv 0 =
    ({| wheap := ex_h3; wdrops := [Some 14; Some 13] |}, {| funinit := ex_u; flen := 1 |}, true) /\
  f_clear ex_boom ex_u64 {| wheap := ex_h3; wdrops := [] |} {| funinit := ex_u; flen := 1 |} =
    ({| wheap := ex_h3; wdrops := [Some 11] |}, {| funinit := ex_u; flen := 0 |}, false).
Proof. split; reflexivity. Qed.

(** C41. A drain of the middle part of a vector: it shows and yields exactly that part, from both ends in any
    interleaving; if it is leaked the vector keeps the elements before it; if it is dropped, the elements
    not yet taken are dropped in order and the vector keeps those before and after it, in order; when a
    destructor panics, the vector keeps the elements before it.  Memory of others is not touched. *)
Theorem C41_drain : forall t l boom w v pre mid post lo hi fronts,
  valid_target t -> vec_ok t l (wheap w) v (pre ++ mid ++ post) ->
  valid_bound t true lo -> valid_bound t false hi ->
  range_start lo = len pre -> range_end hi (len (pre ++ mid ++ post)) = len pre + len mid ->
  exists v1 d, f_drain t l v lo hi = Ret (v1, d) /\
    vec_ok t l (wheap w) v1 pre /\ funinit v1 = funinit v /\
    d_as_slice l (wheap w) d = map Some mid /\ d_len d = len mid /\
    let '(answers, rest) := take_ends mid fronts in
    exists d', d_consume l (wheap w) d fronts = (d', map (option_map Some) answers) /\
      d_as_slice l (wheap w) d' = map Some rest /\ d_len d' = len rest /\
      let '(dd, p) := drop_seq boom rest in
      exists w' v', d_drop boom l w v1 d' = (w', v', p) /\ funinit v' = funinit v /\
        wdrops w' = wdrops w ++ map Some dd /\ same_outside (region (funinit v)) (wheap w) (wheap w') /\
        vec_ok t l (wheap w') v' (if p then pre else pre ++ post).
Proof.
  intros t l boom w v pre mid post lo hi fronts Ht Hok Hlo Hhi Hs He.
  pose proof (ok_rep _ _ _ _ _ Hok) as Hr.
  destruct (drain_spec t boom l w v _ _ lo hi fronts Ht Hr Hlo Hhi) as [_ D].
  rewrite Hs, He in D. rewrite !len_app in D.
  pose proof (len_nonneg pre). pose proof (len_nonneg mid). pose proof (len_nonneg post).
  specialize (D ltac:(lia)). destruct D as (v1 & d & E & U & R1 & Rd & Rest).
  assert (Hpre : take (len pre) (pre ++ mid ++ post) = pre).
  { unfold take, len. rewrite Nat2Z.id, firstn_app, Nat.sub_diag, firstn_all. cbn. apply app_nil_r. }
  assert (Hsk : skip (len pre) (pre ++ mid ++ post) = mid ++ post).
  { unfold skip, len. rewrite Nat2Z.id, skipn_app, Nat.sub_diag, skipn_all. reflexivity. }
  assert (Hmid : take (len pre + len mid - len pre) (mid ++ post) = mid).
  { unfold take. replace (Z.to_nat _) with (length mid) by (unfold len; lia).
    rewrite firstn_app, Nat.sub_diag, firstn_all. cbn. apply app_nil_r. }
  assert (Hpost : skip (len pre + len mid) (pre ++ mid ++ post) = post).
  { rewrite app_assoc. unfold skip. replace (Z.to_nat _) with (length (pre ++ mid)) by (rewrite app_length; unfold len; lia).
    rewrite skipn_app, Nat.sub_diag, skipn_all. reflexivity. }
  rewrite Hsk, Hmid in Rd, Rest. rewrite Hpre in R1.
  assert (Hshow : forall d ys, drain_rep l (wheap w) d ys -> d_as_slice l (wheap w) d = map Some ys /\ d_len d = len ys).
  { intros d1 ys [S1 S2]. assert (Hl : d_len d1 = len ys) by (unfold d_len; lia). split; [|exact Hl].
    unfold d_as_slice. rewrite Hl. apply read_slots_eq, S1. }
  exists v1, d. split; [exact E|]. split; [apply (rep_ok _ _ _ _ _ _ Ht R1)|]. split; [exact U|].
  split; [apply Hshow, Rd|]. split; [apply Hshow, Rd|].
  destruct (take_ends mid fronts) as [answers rest]. destruct Rest as (d' & Ec & Rd' & Rest).
  exists d'. split; [exact Ec|]. split; [apply Hshow, Rd'|]. split; [apply Hshow, Rd'|].
  destruct (drop_seq boom rest) as [dd p]. destruct Rest as (w' & v' & E' & U' & W' & F' & R').
  exists w', v'. split; [exact E'|]. split; [exact U'|]. split; [exact W'|]. split; [exact F'|].
  rewrite Hpre, Hpost in R'. apply (rep_ok _ _ _ _ _ _ Ht R').
Qed.
Print Assumptions C41_drain.

(** C41, the order: the answers of [next] are the first elements in order, those of [next_back] the last ones in
    reverse order, and what is left lies between them. *)
Theorem C41_both_ends : forall mid fronts,
  let '(answers, rest) := take_ends mid fronts in
  length answers = length fronts /\
  mid = somes (answers_at true fronts answers) ++ rest ++ rev (somes (answers_at false fronts answers)).
Proof. intros mid fronts. apply take_ends_answers. Qed.
Print Assumptions C41_both_ends.

Example C41_nonvacuous :
  vec_ok (x64 false) ex_u64 ex_h3 ex_fv ([] ++ [11; 13] ++ [14]) /\
  range_start Unbounded = len (@nil elem) /\ range_end (Included 1) (len [11; 13; 14]) = len (@nil elem) + len [11; 13] /\
  take_ends [11; 13] [false] = ([Some 13], [11]) /\ drop_seq ex_boom [11] = ([11], false) /\
  take_ends [1; 2; 3; 4; 5] [true; false; true] = ([Some 1; Some 5; Some 2], [3; 4]).
Proof. split; [apply ex_fv_ok|]. repeat split. Qed.

(** C42. fill, for an arbitrary iterator: the items it takes are appended in order; it stops exactly when the
    vector is full (without asking for another item), or the iterator gives no item or panics; the
    iterator is returned in the state after the last item taken. *)
Theorem C42_fill : forall S (next : S -> inext S) t l h v xs s,
  valid_target t -> (lsize l = 0 -> forall s e s', next s = ISome e s' -> e = 0) -> vec_ok t l h v xs ->
  exists items s' how h' v', yields next s items s' how /\
    f_fill next t l h v s = Ret (h', v', s', match how with Panicked => true | _ => false end) /\
    vec_ok t l h' v' (xs ++ items) /\ funinit v' = funinit v /\ same_outside (region (funinit v)) h h' /\
    (how = Unasked <-> len items = f_capacity t l v - len xs).
Proof. intros. apply f_fill_gen; assumption. Qed.
Print Assumptions C42_fill.

(** Non-vacuity: an infinite iterator that counts *)
Definition count_next (s : Z) : inext Z := ISome s (s + 1).
Example C42_nonvacuous :
  yields count_next 7 [7; 8] 9 Unasked /\
  match f_fill count_next (x64 false) ex_u64 ex_h3 ex_fv 7 with
  | Ret (h, v, s, b) => f_as_slice ex_u64 h v = map Some [11; 13; 14; 7; 8] /\ s = 9 /\ b = false
  | Panic _ => False
  end.
Proof. split; [repeat econstructor|]. vm_compute. repeat split. Qed.

(** C43. split_borrowed and split_and_shrink_to panic iff the position is beyond the capacity.  Otherwise the
    elements are distributed in order at that position; the part's storage lies behind it, disjoint
    from that of the shrunk vector and from the elements which the borrowed vector still holds. *)
Theorem C43_split : forall t l h v xs n,
  valid_target t -> vec_ok t l h v xs -> is_usize t n ->
  (f_capacity t l v < n -> (exists m, f_split_borrowed t l v n = Panic m) /\ (exists m, f_split_and_shrink t l v n = Panic m)) /\
  (n <= f_capacity t l v ->
   (exists v' part, f_split_borrowed t l v n = Ret (v', part) /\
      vec_ok t l h v' (take n xs) /\ vec_ok t l h part (skip n xs) /\ funinit v' = funinit v /\
      region (funinit part) = MkBlock (uptr (funinit v) + n * lsize l) (ulen (funinit v) - n * lsize l) /\
      (0 < lsize l -> f_capacity t l part = f_capacity t l v - n)) /\
   (exists v' part, f_split_and_shrink t l v n = Ret (v', part) /\
      vec_ok t l h v' (take n xs) /\ vec_ok t l h part (skip n xs) /\
      cut (funinit v) (n * lsize l) (funinit v') (funinit part) /\ disjoint (region (funinit v')) (region (funinit part)) /\
      (0 < lsize l -> f_capacity t l v' = n /\ f_capacity t l part = f_capacity t l v - n))).
Proof.
  intros t l h v xs n Ht Hok Hn. pose proof (ok_rep _ _ _ _ _ Hok) as Hr. unfold f_split_borrowed, f_split_and_shrink.
  split; intros H.
  - destruct (Z.leb_spec n (f_capacity t l v)); [lia|]. cbn. split; eexists; reflexivity.
  - destruct (Z.leb_spec n (f_capacity t l v)); [|lia].
    destruct (split_common t l h v _ xs n Ht Hr Hn H) as (a & b & E & Hc & R1 & R2 & R3). rewrite E. cbn [obind snd fst unwrap].
    assert (Hcap : forall w c ys, vec_rep t l h w (if lsize l =? 0 then usize_max t else c) ys -> 0 < lsize l -> f_capacity t l w = c).
    { intros w c ys Hw Hp. destruct (rep_ok _ _ _ _ _ _ Ht Hw) as (_ & Hcw & _). destruct (Z.eqb_spec (lsize l) 0); [lia|exact Hcw]. }
    split; do 2 eexists; (split; [reflexivity|]).
    + split; [apply (rep_ok _ _ _ _ _ _ Ht R1)|]. split; [apply (rep_ok _ _ _ _ _ _ Ht R3)|]. split; [reflexivity|].
      split; [apply Hc|]. intros Hp. eapply Hcap; eassumption.
    + split; [apply (rep_ok _ _ _ _ _ _ Ht R2)|]. split; [apply (rep_ok _ _ _ _ _ _ Ht R3)|]. split; [exact Hc|].
      split; [apply (cut_pair _ _ _ _ Hc)|]. intros Hp. split; eapply Hcap; eassumption.
Qed.
Print Assumptions C43_split.

Example C43_nonvacuous :
  f_split_borrowed (x64 false) ex_u64 ex_fv 2 =
    Ret ({| funinit := ex_u; flen := 2 |}, {| funinit := {| uptr := 4112; ulen := 28; umeta := 3 |}; flen := 1 |}) /\
  f_split_and_shrink (x64 false) ex_u64 ex_fv 4 =
    Ret ({| funinit := {| uptr := 4096; ulen := 32; umeta := 5 |}; flen := 3 |},
         {| funinit := {| uptr := 4128; ulen := 12; umeta := 1 |}; flen := 0 |}) /\
  f_split_borrowed (x64 false) ex_u64 ex_fv 6 = Panic PN_at.
Proof. repeat split; reflexivity. Qed.

(** C44. extend with an arbitrary fused iterator: returns normally iff the iterator is exhausted within the
    free space (and does not panic); otherwise the vector is filled with the first items, and the call
    panics.  In every case the items taken are appended in order. *)
Theorem C44_extend : forall S (next : S -> inext S) t l h v xs s,
  valid_target t -> (lsize l = 0 -> forall s e s', next s = ISome e s' -> e = 0) -> fused next -> vec_ok t l h v xs ->
  exists items how s1 h' v' s' r, yields next s items s1 how /\
    f_extend next t l h v s = Ret (h', v', s', r) /\
    vec_ok t l h' v' (xs ++ items) /\ funinit v' = funinit v /\ same_outside (region (funinit v)) h h' /\
    match how with
    | Exhausted => r = XOk
    | Panicked => r = XPanic /\ s' = s1
    | Unasked => len (xs ++ items) = f_capacity t l v /\ exists e, next s1 = ISome e s' /\ r = XFull e
    end.
Proof.
  intros S next t l h v xs s Ht Hz Hfu Hok.
  destruct (f_fill_gen next t l h v xs s Ht Hz Hok) as (items & s1 & how & h' & v' & Y & E & O & U & F & Hh).
  unfold f_extend. rewrite E. cbn [obind].
  destruct how.
  - (* stopped because full: ask once more *)
    assert (Hfull : len (xs ++ items) = f_capacity t l v) by (rewrite len_app; pose proof (proj1 Hh eq_refl); lia).
    destruct (next s1) as [s2|e s2|s2] eqn:En.
    + exists items, Exhausted, s2, h', v', s2, XOk.
      split; [eapply yields_then; [exact Y|constructor; exact En]|]. repeat (split; [reflexivity || assumption|]). reflexivity.
    + exists items, Unasked, s1, h', v', s2, (XFull e). split; [exact Y|]. repeat (split; [reflexivity || assumption|]).
      exists e. auto.
    + exists items, Panicked, s2, h', v', s2, XPanic.
      split; [eapply yields_then; [exact Y|constructor; exact En]|]. repeat (split; [reflexivity || assumption|]). reflexivity.
  - destruct (yields_exhausted next s items s1 Y) as [s0 Hs0]. destruct (Hfu _ _ Hs0) as [s2 E2]. rewrite E2.
    exists items, Exhausted, s1, h', v', s2, XOk. split; [exact Y|]. repeat (split; [reflexivity || assumption|]). reflexivity.
  - exists items, Panicked, s1, h', v', s1, XPanic. split; [exact Y|]. repeat (split; [reflexivity || assumption|]). reflexivity.
Qed.
Print Assumptions C44_extend.

Example C44_nonvacuous :
  fused (list_next false) /\ fused count_next /\
  match f_extend (list_next false) (x64 false) ex_u64 ex_h3 ex_fv [1; 2] with
  | Ret (h, v, s, r) => f_as_slice ex_u64 h v = map Some [11; 13; 14; 1; 2] /\ s = [] /\ r = XOk
  | Panic _ => False
  end /\
  match f_extend count_next (x64 false) ex_u64 ex_h3 ex_fv 7 with
  | Ret (h, v, s, r) => f_as_slice ex_u64 h v = map Some [11; 13; 14; 7; 8] /\ s = 10 /\ r = XFull 9
  | Panic _ => False
  end.
Proof.
  split.
  - intros s s'. destruct s; cbn; [intros [= <-]; exists []; reflexivity|discriminate].
  - split; [intros s s'; discriminate|]. split; vm_compute; repeat split.
Qed.

(** C44, finding: extend asks a finished iterator again.  For an iterator that is not fused it can panic
    although there is room: here after no item at all. *)
Definition stutter_next (s : Z) : inext Z := if s =? 0 then INone 1 else if s =? 1 then ISome 5 2 else INone s.
Theorem C44_unfused_refuted :
  ~ (forall S (next : S -> inext S) t l h v xs s items s1,
       valid_target t -> vec_ok t l h v xs -> (lsize l = 0 -> forall s e s', next s = ISome e s' -> e = 0) ->
       yields next s items s1 Exhausted -> len (xs ++ items) <= f_capacity t l v ->
       exists h' v' s', f_extend next t l h v s = Ret (h', v', s', XOk)).
Proof.
  intros H. destruct (H Z stutter_next (x64 false) ex_u64 ex_h3 ex_fv [11; 13; 14] 0 [] 1) as (h' & v' & s' & E).
  - apply ex_target_ok.
  - apply ex_fv_ok.
  - discriminate.
  - constructor. reflexivity.
  - vm_compute. congruence.
  - apply (f_equal (fun o => match o with Ret (_, _, _, r) => r | Panic _ => XPanic end)) in E. vm_compute in E. discriminate.
Qed.
Print Assumptions C44_unfused_refuted.

(** C45. drain accepts exactly the ranges with start <= end <= length, and panics otherwise, if the bounds have a
    successor or overflow checks are on. *)
Theorem C45_drain_bounds : forall t l h v xs lo hi,
  valid_target t -> vec_ok t l h v xs -> valid_bound t true lo -> valid_bound t false hi ->
  ((exists r, f_drain t l v lo hi = Ret r) <-> range_start lo <= range_end hi (len xs) <= len xs) /\
  (~ range_start lo <= range_end hi (len xs) <= len xs -> exists m, f_drain t l v lo hi = Panic m).
Proof.
  intros t l h v xs lo hi Ht Hok Hlo Hhi. pose proof (ok_rep _ _ _ _ _ Hok) as Hr.
  destruct (drain_spec t (fun _ => false) l {| wheap := h; wdrops := [] |} v _ _ lo hi [] Ht Hr Hlo Hhi) as [D1 D2].
  split; [split|exact D1].
  - intros [r E]. destruct (Z.le_gt_cases (range_start lo) (range_end hi (len xs))) as [H1|H1];
      [destruct (Z.le_gt_cases (range_end hi (len xs)) (len xs)) as [H2|H2]; [auto|]|];
      destruct D1 as [m Em]; try lia; congruence.
  - intros H. destruct (D2 H) as (v1 & d & E & _). eauto.
Qed.
Print Assumptions C45_drain_bounds.

(** C45, finding: without overflow checks [..=usize::MAX] is accepted on every vector, as the empty range at
    0; and a range that starts after usize::MAX is taken to start at 0. *)
Theorem C45_release_wraps_refuted : forall t l h v xs,
  valid_target t -> debug t = false -> vec_ok t l h v xs ->
  is_usize t (usize_max t) /\ ~ range_end (Included (usize_max t)) (len xs) <= len xs /\
  (exists d, f_drain t l v Unbounded (Included (usize_max t)) = Ret ({| funinit := funinit v; flen := 0 |}, d) /\ d_len d = 0) /\
  ~ range_start (Excluded (usize_max t)) <= len xs /\
  (exists d, f_drain t l v (Excluded (usize_max t)) Unbounded = Ret ({| funinit := funinit v; flen := 0 |}, d) /\ d_len d = len xs).
Proof.
  intros t l h v xs Ht Hd Hok. pose proof (ok_rep _ _ _ _ _ Hok) as Hr.
  pose proof (rep_facts _ _ _ _ _ _ Ht Hr) as (_ & F2 & _). destruct Hr as (_ & _ & Hl & Hle & _). pose proof (len_nonneg xs).
  pose proof (addr_space_pos t Ht). unfold usize_max in *. unfold is_usize. cbn [range_end range_start].
  assert (Hw : op_add t PN_bound (addr_space t - 1) 1 = Ret 0).
  { unfold op_add, usize_max. destruct (Z.leb_spec (addr_space t - 1 + 1) (addr_space t - 1)); [lia|]. rewrite Hd.
    unfold wrap. replace (addr_space t - 1 + 1) with (addr_space t) by lia. rewrite Z.mod_same by lia. reflexivity. }
  split; [unfold usize_max; lia|]. split; [lia|]. split.
  - eexists. unfold f_drain. rewrite Hw. cbn [obind]. rewrite Z.leb_refl. cbv iota.
    destruct (Z.leb_spec 0 (flen v)); [|lia]. split; reflexivity.
  - split; [lia|]. eexists. unfold f_drain. rewrite Hw. cbn [obind]. destruct (Z.leb_spec 0 (flen v)); [|lia].
    cbn. rewrite Z.leb_refl. cbn. split; [reflexivity|]. unfold d_len. cbn. lia.
Qed.
Print Assumptions C45_release_wraps_refuted.

Example C45_nonvacuous :
  f_drain (x64 false) ex_u64 ex_fv (Included 1) (Included 2) =
    Ret ({| funinit := ex_u; flen := 1 |}, {| dstart := 0; dend := 2; dtail := 2; dtail_len := 0; delements := 4104 |}) /\
  f_drain (x64 false) ex_u64 ex_fv (Included 1) (Included 3) = Panic PN_end /\
  f_drain (x64 false) ex_u64 ex_fv (Included 2) (Excluded 1) = Panic PN_order /\
  f_drain (x64 true) ex_u64 ex_fv Unbounded (Included (usize_max (x64 true))) = Panic PN_bound /\
  debug (x64 false) = false.
Proof. repeat split; reflexivity. Qed.

(** C46. from_unaligned: for aligned memory the vector has all whole elements that fit; otherwise (finding) it
    is empty with capacity 0, unless the elements have size 0. *)
Theorem C46_from_unaligned : forall t l u h,
  valid_target t -> type_layout t l -> valid_region t (region u) ->
  exists v, f_from_unaligned t l u = Ret v /\ flen v = 0 /\
    (aligned (uptr u) (lalign l) -> vec_ok t l h v [] /\ region (funinit v) = region u /\
       (0 < lsize l -> whole_elements (lsize l) (ulen u) (f_capacity t l v))) /\
    (~ aligned (uptr u) (lalign l) -> ulen (funinit v) = 0 /\ (0 < lsize l -> f_capacity t l v = 0)).
Proof.
  intros t l u h Ht Hl Hr. pose proof (type_layout_align t l Hl) as Ha. pose proof (type_layout_size t l Hl) as Hs.
  assert (Hlen : 0 <= ulen u) by (destruct Hr as (_ & R2 & _); cbn in R2; lia).
  unfold f_from_unaligned, v_split_slice.
  assert (Hw : wf_view t TRaw (decast u)) by (split; [exact Hr|exact I]).
  destruct (v_split_layout_spec t (decast u) {| lsize := 0; lalign := lalign l |} Ht Hw Ha ltac:(cbn; lia)) as [L1 L2].
  cbn [lsize lalign decast uptr ulen] in L1, L2.
  destruct (Znumtheory.Zdivide_dec (lalign l) (uptr u)) as [Hal|Hal].
  - rewrite L1 by (split; [exact Hal|lia]). cbn [obind].
    destruct (v_cast_slice_spec t (from_memory (uptr u) (ulen u)) l Ha Hlen) as [S1 _].
    rewrite S1 by exact Hal. cbn [obind unwrap snd]. eexists. split; [reflexivity|]. split; [reflexivity|].
    split; [intros _|intros H; elim H; exact Hal].
    match goal with |- vec_ok _ _ _ (f_new ?s) _ /\ _ => assert (Wv : wf_view t (TSlice l) s) end.
    { split; [exact Hr|]. split; [exact Hl|exact Hal]. }
    split; [|split; [reflexivity|]].
    + apply (rep_ok _ _ _ _ _ _ Ht (new_rep t l h _ Ht Wv)).
    + intros Hp. exact (capacity_whole t l _ Wv Hp).
  - rewrite L2 by tauto. cbn [obind snd]. eexists. split; [reflexivity|]. split; [reflexivity|].
    split; [intros H; elim Hal; exact H|]. intros _. split; [reflexivity|].
    intros Hp. unfold f_capacity, v_capacity, f_new, v_empty. cbn [funinit ulen]. destruct (Z.eqb_spec (lsize l) 0); [lia|]. reflexivity.
Qed.
Print Assumptions C46_from_unaligned.

(** C46, the documented expectation "splits off unaligned bytes" fails: at 4100 with 44 bytes, four u64 fit,
    but the vector has no capacity. *)
Theorem C46_unaligned_refuted :
  ~ (forall t l u v n, valid_target t -> type_layout t l -> valid_region t (region u) -> 0 < n ->
       fits_in (region u) 0 (MkLayout (n * lsize l) (lalign l)) ->
       f_from_unaligned t l u = Ret v -> n <= f_capacity t l v).
Proof.
  intros H. specialize (H (x64 false) ex_u64 {| uptr := 4100; ulen := 44; umeta := 0 |} (f_new (v_empty ex_u64)) 4).
  assert (4 <= 0); [|lia]. apply H.
  - apply ex_target_ok.
  - apply ex_u64_type.
  - unfold valid_region. vm_compute. repeat split; congruence.
  - lia.
  - apply fits_in_iff; vm_compute; [reflexivity|congruence].
  - reflexivity.
Qed.
Print Assumptions C46_unaligned_refuted.

Example C46_nonvacuous :
  f_from_unaligned (x64 false) ex_u64 ex_u = Ret {| funinit := ex_u; flen := 0 |} /\
  f_capacity (x64 false) ex_u64 {| funinit := ex_u; flen := 0 |} = 5.
Proof. split; reflexivity. Qed.
