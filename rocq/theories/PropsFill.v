(** * PropsFill: C62-C67, the Fill trait. *)
From Verif Require Import Base Spec BaseFacts FillModel FillSpec FillProofs PropsSync.
From Coq Require Import Permutation.

(** C62. An Option asks for an item only if it is empty, at most once, and keeps what it got. *)
Theorem C62_option : forall A, well_behaved (@option_filler A) (fun _ => True) opt_room opt_put.
Proof. intros A. apply option_wb. Qed.
Print Assumptions C62_option.

Theorem C62_option_calls : forall A S (next : S -> inx A S) fuel (o : option A) s, exists items s' how,
  pulls next s items s' how /\ fill option_filler next fuel o s = (match o with Some x => Some x | None => hd_error items end, s', end_of how) /\
  calls items how = match o with Some _ => 0 | None => 1 end.
Proof.
  intros A S next fuel [x|] s.
  - exists [], s, NotAsked. split; [constructor|]. split; reflexivity.
  - cbn. destruct (next s) as [s'|a s'|s'] eqn:E.
    + exists [], s', GaveNone. split; [constructor; exact E|]. split; reflexivity.
    + exists [a], s', NotAsked. split; [econstructor; [exact E|constructor]|]. split; reflexivity.
    + exists [], s', Panicked. split; [constructor; exact E|]. split; reflexivity.
Qed.
Print Assumptions C62_option_calls.

Example ex_option : fill option_filler list_next 2 None [5; 6] = (Some 5, [6], FEnd) /\ fill option_filler list_next 2 (Some 1) [5; 6] = (Some 1, [5; 6], FEnd).
Proof. split; reflexivity. Qed.

(** C63. A vector or queue with spare capacity takes items from any iterator until it is full or the iterator gives None (or
    panics), in order, never reallocating; of a list it takes exactly the items for which there is room. *)
Theorem C63_vec : forall A (f : filler (svec A) A), f = vec_filler \/ f = deque_filler ->
  well_behaved f svec_ok svec_room svec_put /\
  (forall S (next : S -> inx A S) fuel v s, len (svitems v) <= svcap v -> exists items s' how,
     pulls next s items s' how /\ fill f next fuel v s = (MkSvec (svcap v) (svitems v ++ items) (svmoves v), s', end_of how) /\
     len (svitems v) + calls items how <= svcap v /\ (how = NotAsked -> len (svitems v) + len items = svcap v)) /\
  (forall fuel v xs, len (svitems v) <= svcap v ->
     let n := Z.min (svcap v - len (svitems v)) (len xs) in
     fill f list_next fuel v xs = (MkSvec (svcap v) (svitems v ++ take n xs) (svmoves v), skip n xs, FEnd)).
Proof.
  intros A f Hf. assert (W : well_behaved f svec_ok svec_room svec_put) by (destruct Hf as [-> | ->]; [apply vec_wb|apply deque_wb]).
  assert (NF : forall S (next : S -> inx A S) fuel v s, fill f next fuel v s = fill f next 2 v s) by (intros; destruct Hf as [-> | ->]; reflexivity).
  split; [exact W|]. split.
  - intros S next fuel v s K. rewrite NF. destruct (wb_fill _ _ _ _ W S next 2%nat v s K (le_n 2)) as (items & s' & how & Y & E & L).
    exists items, s', how. split; [exact Y|]. split; [exact E|]. unfold svec_room, calls in *. destruct how; split; intros; try lia; discriminate.
  - intros fuel v xs K n. rewrite NF, (fill_list f _ _ _ W 2%nat v xs K (le_n 2)). unfold svec_put. unfold n, svec_room. pose proof (len_nonneg xs).
    unfold svec_ok in K. destruct (Z.min_spec (svcap v - len (svitems v)) (len xs)) as [[? ->] | [? ->]]; [reflexivity|].
    rewrite !(take_all _ xs), !(skip_all _ xs) by lia. reflexivity.
Qed.
Print Assumptions C63_vec.

Example ex_vec : fill vec_filler list_next 2 (MkSvec 3 [1; 2] 0) [5; 6] = (MkSvec 3 [1; 2; 5] 0, [6], FEnd) /\
  fill deque_filler list_next 2 (MkSvec 5 [1; 2] 0) [5; 6] = (MkSvec 5 [1; 2; 5; 6] 0, [], FEnd).
Proof. split; reflexivity. Qed.

(** C64. The remaining slots of an IterMut get the items in order; the old values are dropped, each once, the other slots and
    those given out before are untouched. *)
Theorem C64_iter_mut : forall A, well_behaved (@imut_filler A) (fun _ => True) imut_room imut_put /\
  (forall S (next : S -> inx A S) fuel c s, exists items s' how,
     pulls next s items s' how /\
     fill imut_filler next fuel c s =
       (MkImut (mbefore c ++ items) (skip (len items) (mtodo c)) (mafter c) (mdropped c ++ take (len items) (mtodo c)), s', end_of how) /\
     calls items how <= len (mtodo c) /\ (how = NotAsked -> len items = len (mtodo c))).
Proof.
  intros A. split; [apply imut_wb|]. intros S next fuel c s.
  destruct (wb_fill _ _ _ _ (@imut_wb A) S next 2%nat c s Logic.I (le_n 2)) as (items & s' & how & Y & E & L).
  exists items, s', how. split; [exact Y|]. split; [exact E|]. unfold imut_room, calls in *. destruct how; split; intros; try lia; discriminate.
Qed.
Print Assumptions C64_iter_mut.

(** With an iterator of references (to distinct valid places, as Rust guarantees) each slot is exchanged with the place referred to by its item;
    no value is dropped or duplicated, not even if the iterator panics. *)
Theorem C64_iter_mut_swap : forall A S (next : S -> inx nat S) fuel (k : imut A) others s,
  (forall idxs s' how, pulls next s idxs s' how -> NoDup idxs /\ Forall (fun i => (i < length others)%nat) idxs) ->
  exists idxs s' how k' others', pulls next s idxs s' how /\
    fill swap_filler next fuel (k, others) s = ((k', others'), s', end_of how) /\
    calls idxs how <= len (mtodo k) /\ (how = NotAsked -> len idxs = len (mtodo k)) /\
    (exists xs, mbefore k' = mbefore k ++ xs /\ length xs = length idxs /\
       (forall j i, nth_error idxs j = Some i -> nth_error xs j = nth_error others i /\ nth_error others' i = nth_error (mtodo k) j)) /\
    mtodo k' = skip (len idxs) (mtodo k) /\ mafter k' = mafter k /\ mdropped k' = mdropped k /\
    (forall i, ~ In i idxs -> nth_error others' i = nth_error others i) /\
    Permutation ((mbefore k ++ mtodo k ++ mafter k) ++ others) ((mbefore k' ++ mtodo k' ++ mafter k') ++ others').
Proof.
  intros A S next fuel k others s V. destruct (swap_loop_spec next (length (mtodo k)) k others s eq_refl V) as
    (idxs & s' & how & k' & o' & Y & F & L & (xs & B & LX & Q) & T & A' & D & O & LO).
  exists idxs, s', how, k', o'. split; [exact Y|]. split; [exact F|]. split; [unfold calls; destruct how; fold (len (mtodo k)) in L; lia|].
  split; [intros ->; exact L|]. split; [|split; [exact T|split; [exact A'|split; [exact D|split; [exact O|eapply swap_loop_perm; exact F]]]]].
  exists xs. split; [exact B|]. split; [exact LX|]. intros j i H. destruct (Q j i H) as [-> ->]. auto.
Qed.
Print Assumptions C64_iter_mut_swap.

Example ex_imut : fill imut_filler list_next 2 (MkImut [0] [1; 2; 3] [4] []) [7; 8] = (MkImut [0; 7; 8] [3] [4] [1; 2], [], FEnd) /\
  fill swap_filler list_next 2 (MkImut [0] [1; 2] [] [], [10; 11; 12]) [2%nat; 0%nat; 1%nat] = ((MkImut [0; 12; 10] [] [] [], [2; 11; 1]), [1%nat], FEnd).
Proof. split; reflexivity. Qed.

(** C65. Filling a Result: items that are Ok go into the container as far as there is room, but all of them are taken from
    the iterator, up to its first None (or panic): what does not fit is lost. *)
Theorem C65_result_ok : forall C A E (f : filler C A) ok room put, well_behaved f ok room put ->
  forall S (next : S -> inx (A + E) S) fuel c s xs s' how, ok c -> (length xs + 2 <= fuel)%nat -> pulls next s (map inl xs) s' how -> how <> NotAsked ->
  fill (result_filler E f) next fuel (inl c) s = (inl (put c (take (room c) xs)), s', end_of how).
Proof.
  intros C A E f ok room put W S next fuel c s xs s' how K F Y N. cbn [fill result_filler].
  pose proof (result_loop_spec f ok room put fuel W ltac:(lia) S next xs s s' how c fuel K Y ltac:(lia)) as P. destruct how; [congruence|exact P|exact P].
Qed.
Print Assumptions C65_result_ok.

(** The first Err replaces the container, and nothing after it is taken; a Result that already is an Err asks for nothing. *)
Theorem C65_result_err : forall C A E (f : filler C A) ok room put, well_behaved f ok room put ->
  forall S (next : S -> inx (A + E) S) fuel,
  (forall c s xs e s1 s', ok c -> (length xs + 2 <= fuel)%nat -> pulls next s (map inl xs) s1 NotAsked -> next s1 = NSome (inr e) s' ->
     fill (result_filler E f) next fuel (inl c) s = (inr e, s', FEnd)) /\
  (forall e s, fill (result_filler E f) next fuel (inr e) s = (inr e, s, FEnd)).
Proof.
  intros C A E f ok room put W S next fuel. split; [|reflexivity]. intros c s xs e s1 s' K F Y N. cbn [fill result_filler].
  exact (result_loop_error f ok room put fuel W ltac:(lia) S next xs e s s1 s' c fuel K Y N ltac:(lia)).
Qed.
Print Assumptions C65_result_err.

(** Against the documentation of Fill, a full container keeps asking: it takes an item, which is lost, and it never returns if
    the iterator never ends. So no notion of room makes it well-behaved. *)
Theorem C65_result_full_refuted : forall C A E (f : filler C A) ok room put, well_behaved f ok room put -> forall c, ok c -> room c = 0 ->
  (forall a fuel, (3 <= fuel)%nat -> fill (result_filler E f) list_next fuel (inl c) [inl a] = (inl c, [], FEnd)) /\
  (forall S (next : S -> inx (A + E) S), (forall s, exists a s', next s = NSome (inl a) s') ->
     forall fuel s, (2 <= fuel)%nat -> snd (fill (result_filler E f) next fuel (inl c) s) = FMore).
Proof.
  intros C A E f ok room put W c K R. split.
  - intros a fuel F. rewrite (C65_result_ok C A E f ok room put W _ list_next fuel c [inl a] [a] [] GaveNone K ltac:(cbn; lia)).
    + rewrite R, take_0, (wb_put_nil _ _ _ _ W c K). reflexivity.
    + econstructor; [reflexivity|]. constructor. reflexivity.
    + discriminate.
  - intros S next Inf fuel s F. cbn [fill result_filler]. eapply result_loop_forever; eassumption.
Qed.
Print Assumptions C65_result_full_refuted.

Theorem C65_result_not_well_behaved : forall C A E (f : filler C A) ok room put, well_behaved f ok room put -> forall (a : A) c, ok c ->
  forall (ok' : C + E -> Prop) room' put', ok' (inl c) -> ~ well_behaved (result_filler E f) ok' room' put'.
Proof.
  intros C A E f ok room put W a c K ok' room' put' K' W'.
  destruct (wb_fill _ _ _ _ W' unit (fun _ => NSome (inl a) tt) 2%nat (inl c) tt K' (le_n 2)) as (items & s' & how & _ & F & _).
  pose proof (result_loop_forever (E := E) f ok room put 2%nat W (le_n 2) unit (fun _ => NSome (inl a) tt) ltac:(eauto) 2%nat c tt K) as M.
  cbn [fill result_filler] in F. rewrite F in M. destruct how; discriminate M.
Qed.
Print Assumptions C65_result_not_well_behaved.

Example ex_result :
  fill (result_filler nat (@option_filler Z)) list_next 9 (inl None) [inl 1; inl 2; inl 3] = (inl (Some 1), [], FEnd) /\
  fill (result_filler nat (@option_filler Z)) list_next 9 (inl None) [inl 1; inr 7%nat; inl 3] = (inr 7%nat, [inl 3], FEnd) /\
  opt_room (Some 1) = 0.
Proof. repeat split; reflexivity. Qed.

(** Example: an iterator that goes on after None *)
Definition count_down (s : Z) : inx Z Z := if s =? 0 then NNone (s - 1) else NSome s (s - 1).

(** C66. [checked_fill] on a well-behaved container, any iterator: it stores exactly the items taken from the iterator; the
    iterator is dropped iff it gave None while there was room, and returned, not asked again, iff the container is full. *)
Theorem C66_checked_fill : forall C A (f : filler C A) ok room put, well_behaved f ok room put ->
  forall S (next : S -> inx A S) fuel c s, ok c -> (2 <= fuel)%nat ->
  exists items s' how, pulls next s items s' how /\
    checked_fill f next fuel c s = (put c items, s', match how with GaveNone => false | _ => true end, end_of how) /\
    (how = NotAsked <-> room (put c items) = 0).
Proof.
  intros C A f ok room put W S next fuel c s K F. destruct (checked_fill_wb f ok room put W S next fuel c s K F) as (items & s' & how & Y & E & L).
  exists items, s', how. split; [exact Y|]. split; [exact E|]. destruct (wb_put_room _ _ _ _ W c items K) as [_ R]; [destruct how; lia|].
  rewrite R. destruct how; split; intros; try lia; try discriminate; reflexivity.
Qed.
Print Assumptions C66_checked_fill.

(** For an iterator over a list: returned iff the list has at least as many items as there is room. *)
Theorem C66_checked_fill_list : forall C A (f : filler C A) ok room put, well_behaved f ok room put ->
  forall fuel c xs, ok c -> (2 <= fuel)%nat ->
  checked_fill f list_next fuel c xs = (put c (take (room c) xs), skip (room c) xs, (room c <=? len xs), FEnd).
Proof.
  intros C A f ok room put W fuel c xs K F. destruct (checked_fill_wb f ok room put W _ list_next fuel c xs K F) as (items & s' & how & Y & E & L).
  rewrite E. apply list_pulls_inv in Y. destruct Y as (-> & NP & N). pose proof (wb_room _ _ _ _ W c K). pose proof (len_nonneg items). pose proof (len_nonneg s').
  destruct how; [| |congruence].
  - rewrite len_app. destruct (Z.leb_spec (room c) (len items + len s')); [|lia]. rewrite <- L. unfold take, skip, len.
    rewrite Nat2Z.id, firstn_app, Nat.sub_diag, firstn_all, skipn_app, Nat.sub_diag, skipn_all, app_nil_r. reflexivity.
  - rewrite (N eq_refl), app_nil_r. destruct (Z.leb_spec (room c) (len items)); [lia|]. rewrite take_all, skip_all by lia. reflexivity.
Qed.
Print Assumptions C66_checked_fill_list.

(** Containers that are not well-behaved: however often the iterator that [checked_fill] hands to the container is asked, the
    caller's iterator is not asked again once it gave None, and then it counts as exhausted, and never otherwise. *)
Theorem C66_fused : forall A S (next : S -> inx A S) n s,
  asks (overflow_next (fuse_next next)) n (true, (false, s)) =
  let '(r, s', o) := asks_once next n s in (r, (o, (negb o, s'))).
Proof. exact @asks_adapter. Qed.
Print Assumptions C66_fused.
Example ex_fused : asks (overflow_next (fuse_next count_down)) 4 (true, (false, 2)) = ([RSome 2; RSome 1; RNone; RNone], (false, (true, -1))) /\
  fst (asks count_down 4 2) = [RSome 2; RSome 1; RNone; RSome (-1)].
Proof. split; reflexivity. Qed.

Example ex_checked : checked_fill vec_filler list_next 2 (MkSvec 3 [1; 2] 0) [5; 6] = (MkSvec 3 [1; 2; 5] 0, [6], true, FEnd) /\
  checked_fill vec_filler list_next 2 (MkSvec 3 [1; 2] 0) [] = (MkSvec 3 [1; 2] 0, [], false, FEnd) /\
  checked_fill option_filler list_next 2 (Some 1) [] = (Some 1, [], true, FEnd).
Proof. repeat split; reflexivity. Qed.

(** C67. [fill_count] on a well-behaved container returns the number of items stored. *)
Theorem C67_fill_count : forall t C A (f : filler C A) ok room put, valid_target t -> well_behaved f ok room put ->
  forall S (next : S -> inx A S) fuel c s, ok c -> (2 <= fuel)%nat -> room c <= usize_max t ->
  exists items s' how, pulls next s items s' how /\ fill_count t f next fuel c s = (put c items, s', len items, end_of how) /\
    room (put c items) = room c - len items /\ (how = NotAsked <-> room (put c items) = 0).
Proof.
  intros t C A f ok room put Ht W S next fuel c s K F R. destruct (fill_count_wb t f ok room put Ht W S next fuel c s K F R) as (items & s' & how & Y & E & L).
  exists items, s', how. split; [exact Y|]. split; [exact E|]. destruct (wb_put_room _ _ _ _ W c items K) as [_ R']; [destruct how; lia|].
  split; [exact R'|]. rewrite R'. destruct how; split; intros; try lia; try discriminate; reflexivity.
Qed.
Print Assumptions C67_fill_count.

(** For [()] it counts all items up to the first None; for Result it also counts the items that were lost. *)
Theorem C67_fill_count_unit_result : forall t S,
  (forall (next : S -> inx unit S) s items s' fuel, pulls next s items s' GaveNone -> len items <= usize_max t -> (length items < fuel)%nat ->
     fill_count t unit_filler next fuel tt s = (tt, s', len items, FEnd)) /\
  (forall C A E (f : filler C A) ok room put, well_behaved f ok room put ->
     forall (next : S -> inx (A + E) S) fuel c s xs s', ok c -> (length xs + 2 <= fuel)%nat -> len xs <= usize_max t -> pulls next s (map inl xs) s' GaveNone ->
     fill_count t (result_filler E f) next fuel (inl c) s = (inl (put c (take (room c) xs)), s', len xs, FEnd)).
Proof.
  intros t S. split.
  - intros next s items s' fuel Y B L. pose proof (inspect_pulls_conv t next _ _ _ _ Y 0 ltac:(lia) ltac:(lia)) as P.
    unfold fill_count. cbn [fill unit_filler]. rewrite (unit_loop_spec _ _ _ _ _ P ltac:(discriminate) fuel L). cbn. reflexivity.
  - intros C A E f ok room put W next fuel c s xs s' K L B Y. pose proof (inspect_pulls_conv t next _ _ _ _ Y 0 ltac:(lia)) as P.
    unfold fill_count. rewrite (C65_result_ok C A E f ok room put W _ (inspect_next t next) fuel c (0, s) xs (0 + len (map (@inl A E) xs), s') GaveNone K L).
    + unfold len. rewrite map_length. reflexivity.
    + apply P. unfold len in *. rewrite map_length. lia.
    + discriminate.
Qed.
Print Assumptions C67_fill_count_unit_result.

Example ex_count : fill_count (x64 true) vec_filler list_next 2 (MkSvec 3 [1] 0) [5; 6; 7] = (MkSvec 3 [1; 5; 6] 0, [7], 2, FEnd) /\
  fill_count (x64 true) unit_filler list_next 9 tt [tt; tt; tt] = (tt, [], 3, FEnd) /\
  fill_count (x64 true) (result_filler nat (@option_filler Z)) list_next 9 (inl None) [inl 1; inl 2; inl 3] = (inl (Some 1), [], 3, FEnd).
Proof. repeat split; reflexivity. Qed.
