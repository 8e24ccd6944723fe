(** * FillProofs *)
From Verif Require Import Base FillModel FillSpec.
From Coq Require Import Permutation.

Lemma len_nonneg {A} (xs : list A) : 0 <= len xs.
Proof. unfold len. lia. Qed.
Lemma len_app {A} (xs ys : list A) : len (xs ++ ys) = len xs + len ys.
Proof. unfold len. rewrite app_length. lia. Qed.
Lemma len_cons {A} (x : A) xs : len (x :: xs) = 1 + len xs.
Proof. unfold len. cbn [length]. lia. Qed.
Lemma take_all {A} n (xs : list A) : len xs <= n -> take n xs = xs.
Proof. unfold take, len. intros H. apply firstn_all2. lia. Qed.
Lemma take_len {A} n (xs : list A) : 0 <= n <= len xs -> len (take n xs) = n.
Proof. unfold take, len. intros H. rewrite firstn_length. lia. Qed.
Lemma skip_len {A} n (xs : list A) : 0 <= n <= len xs -> len (skip n xs) = len xs - n.
Proof. unfold skip, len. intros H. rewrite skipn_length. lia. Qed.
Lemma skip_all {A} n (xs : list A) : len xs <= n -> skip n xs = [].
Proof. unfold skip, len. intros H. apply skipn_all2. lia. Qed.
Lemma take_skip {A} n (xs : list A) : take n xs ++ skip n xs = xs.
Proof. apply firstn_skipn. Qed.
Lemma take_cons {A} n (x : A) xs : 0 < n -> take n (x :: xs) = x :: take (n - 1) xs.
Proof. intros H. unfold take. replace (Z.to_nat n) with (S (Z.to_nat (n - 1))) by lia. reflexivity. Qed.
Lemma skip_cons {A} n (x : A) xs : 0 < n -> skip n (x :: xs) = skip (n - 1) xs.
Proof. intros H. unfold skip. replace (Z.to_nat n) with (S (Z.to_nat (n - 1))) by lia. reflexivity. Qed.
Lemma take_0 {A} (xs : list A) : take 0 xs = [].
Proof. reflexivity. Qed.
Lemma skip_0 {A} (xs : list A) : skip 0 xs = xs.
Proof. reflexivity. Qed.
Lemma skip_skip {A} a b (xs : list A) : 0 <= a -> 0 <= b -> skip b (skip a xs) = skip (a + b) xs.
Proof.
  intros Ha Hb. unfold skip. rewrite Z2Nat.inj_add by lia. revert xs. induction (Z.to_nat a) as [|n IH]; intros xs; cbn [skipn Nat.add]; [reflexivity|].
  destruct xs; [apply skipn_nil|apply IH].
Qed.
Lemma take_plus {A} a b (xs : list A) : 0 <= a -> 0 <= b -> take (a + b) xs = take a xs ++ take b (skip a xs).
Proof.
  intros Ha Hb. unfold take, skip. rewrite Z2Nat.inj_add by lia. revert xs. induction (Z.to_nat a) as [|n IH]; intros xs; cbn [firstn skipn Nat.add app]; [reflexivity|].
  destruct xs; [rewrite firstn_nil; reflexivity|]. cbn [app]. f_equal. apply IH.
Qed.

(** ** Vec, VecDeque *)
Lemma push_loop_spec {A S} (next : S -> inx A S) : forall n (v : svec A) s, svec_room v = Z.of_nat n ->
  exists items s' how, pulls next s items s' how /\ push_loop spush next n v s = (svec_put v items, s', end_of how) /\
    match how with NotAsked => len items = Z.of_nat n | _ => len items < Z.of_nat n end.
Proof.
  induction n as [|n IH]; intros v s R; cbn [push_loop].
  - exists [], s, NotAsked. split; [constructor|]. unfold svec_put. rewrite app_nil_r. destruct v; auto.
  - destruct (next s) as [s'|a s'|s'] eqn:E.
    + exists [], s', GaveNone. split; [constructor; exact E|]. unfold svec_put. rewrite app_nil_r. split; [destruct v; reflexivity|]. unfold len. cbn [length]. lia.
    + assert (P : spush v a = svec_put v [a]).
      { unfold spush, svec_put. unfold svec_room, len in R. destruct (Z.ltb_spec (Z.of_nat (length (svitems v))) (svcap v)); [reflexivity|lia]. }
      destruct (IH (spush v a) s') as (items & s2 & how & Y & F & L).
      { rewrite P. unfold svec_room, svec_put in *. cbn [svcap svitems]. rewrite len_app. change (len [a]) with 1. lia. }
      exists (a :: items), s2, how. split; [econstructor; [exact E|exact Y]|]. rewrite F, P. split.
      * unfold svec_put. cbn [svcap svitems svmoves]. rewrite <- app_assoc. reflexivity.
      * rewrite len_cons. destruct how; lia.
    + exists [], s', Panicked. split; [constructor; exact E|]. unfold svec_put. rewrite app_nil_r. split; [destruct v; reflexivity|]. unfold len. cbn [length]. lia.
Qed.

Lemma svec_laws {A} : (forall c : svec A, svec_ok c -> 0 <= svec_room c) /\ (forall c : svec A, svec_ok c -> svec_put c [] = c) /\
  (forall (c : svec A) xs ys, svec_put c (xs ++ ys) = svec_put (svec_put c xs) ys) /\
  (forall (c : svec A) xs, svec_ok c -> len xs <= svec_room c -> svec_ok (svec_put c xs) /\ svec_room (svec_put c xs) = svec_room c - len xs).
Proof.
  unfold svec_ok, svec_room, svec_put. split; [intros; lia|]. split; [intros c _; rewrite app_nil_r; destruct c; reflexivity|]. split.
  - intros. cbn [svcap svitems svmoves]. rewrite app_assoc. reflexivity.
  - intros c xs H L. cbn [svcap svitems]. rewrite len_app. split; lia.
Qed.

Lemma vec_wb {A} : well_behaved (@vec_filler A) svec_ok svec_room svec_put.
Proof.
  destruct (@svec_laws A) as (L1 & L2 & L3 & L4). constructor; auto.
  intros S next fuel c s K _. cbn [fill vec_filler]. specialize (L1 c K).
  destruct (push_loop_spec next (Z.to_nat (svec_room c)) c s) as (items & s' & how & Y & F & L); [lia|].
  exists items, s', how. split; [exact Y|]. split; [exact F|]. rewrite Z2Nat.id in L by lia. exact L.
Qed.

Lemma deque_wb {A} : well_behaved (@deque_filler A) svec_ok svec_room svec_put.
Proof.
  destruct (@svec_laws A) as (L1 & L2 & L3 & L4). constructor; auto.
  intros S next fuel c s K _. cbn [fill deque_filler]. specialize (L1 c K).
  destruct (push_loop_spec next (Z.to_nat (svec_room c)) c s) as (items & s' & how & Y & F & L); [lia|].
  exists items, s', how. split; [exact Y|]. split; [exact F|]. rewrite Z2Nat.id in L by lia. exact L.
Qed.

(** ** Option *)
Lemma option_wb {A} : well_behaved (@option_filler A) (fun _ => True) opt_room opt_put.
Proof.
  constructor.
  - intros [] _; cbn; lia.
  - intros [] _; reflexivity.
  - intros [x|] xs ys _ L; cbn [opt_put]; [reflexivity|]. destruct xs as [|x xs]; [reflexivity|reflexivity].
  - intros [x|] xs _ L; cbn [opt_room] in L; split; auto.
    + destruct xs; [reflexivity|]. rewrite len_cons in L. pose proof (len_nonneg xs). lia.
    + destruct xs as [|y xs]; [reflexivity|]. rewrite len_cons in *. pose proof (len_nonneg xs). cbn [opt_put opt_room]. lia.
  - intros S next fuel [x|] s _ _; cbn [fill option_filler].
    + exists [], s, NotAsked. split; [constructor|auto].
    + destruct (next s) as [s'|a s'|s'] eqn:E.
      * exists [], s', GaveNone. split; [constructor; exact E|]. split; [reflexivity|]. cbn. lia.
      * exists [a], s', NotAsked. split; [econstructor; [exact E|constructor]|auto].
      * exists [], s', Panicked. split; [constructor; exact E|]. split; [reflexivity|]. cbn. lia.
Qed.

(** ** IterMut *)
Lemma imut_put_nil {A} (c : imut A) : imut_put c [] = c.
Proof. unfold imut_put. change (len []) with 0. rewrite skip_0, take_0, !app_nil_r. destruct c; reflexivity. Qed.

Lemma imut_put_app {A} (c : imut A) xs ys : imut_put c (xs ++ ys) = imut_put (imut_put c xs) ys.
Proof.
  unfold imut_put. cbn [mbefore mtodo mafter mdropped]. pose proof (len_nonneg xs). pose proof (len_nonneg ys).
  rewrite len_app, skip_skip, take_plus by lia. rewrite <- !app_assoc. reflexivity.
Qed.

Lemma imut_put_room {A} (c : imut A) xs : len xs <= imut_room c -> imut_room (imut_put c xs) = imut_room c - len xs.
Proof. intros L. unfold imut_room, imut_put in *. cbn [mtodo]. pose proof (len_nonneg xs). rewrite skip_len by lia. reflexivity. Qed.

Lemma imut_loop_spec {A S} (next : S -> inx A S) : forall n (c : imut A) s, length (mtodo c) = n ->
  exists items s' how, pulls next s items s' how /\ imut_loop next n c s = (imut_put c items, s', end_of how) /\
    match how with NotAsked => len items = Z.of_nat n | _ => len items < Z.of_nat n end.
Proof.
  induction n as [|n IH]; intros c s R; cbn [imut_loop].
  - exists [], s, NotAsked. rewrite imut_put_nil. split; [constructor|auto].
  - destruct (next s) as [s'|a s'|s'] eqn:E.
    + exists [], s', GaveNone. rewrite imut_put_nil. split; [constructor; exact E|]. split; [reflexivity|]. cbn. lia.
    + destruct (mtodo c) as [|old todo] eqn:T; [discriminate R|].
      assert (P : MkImut (mbefore c ++ [a]) todo (mafter c) (mdropped c ++ [old]) = imut_put c [a]) by (unfold imut_put; rewrite T; reflexivity).
      rewrite P. destruct (IH (imut_put c [a]) s') as (items & s2 & how & Y & F & L).
      { unfold imut_put. cbn [mtodo]. rewrite T. change (length todo = n). cbn [length] in R. lia. }
      exists (a :: items), s2, how. split; [econstructor; [exact E|exact Y]|]. rewrite F.
      split; [rewrite <- imut_put_app; reflexivity|]. rewrite len_cons. destruct how; lia.
    + exists [], s', Panicked. rewrite imut_put_nil. split; [constructor; exact E|]. split; [reflexivity|]. cbn. lia.
Qed.

Lemma imut_wb {A} : well_behaved (@imut_filler A) (fun _ => True) imut_room imut_put.
Proof.
  constructor.
  - intros c _. apply len_nonneg.
  - intros c _. apply imut_put_nil.
  - intros c xs ys _ _. apply imut_put_app.
  - intros c xs _ L. split; [exact I|]. apply imut_put_room. exact L.
  - intros S next fuel c s _ _. apply (imut_loop_spec next (length (mtodo c)) c s eq_refl).
Qed.

(** ** Swap *)
Lemma put_nth_length {A} i (x : A) l : length (put_nth i x l) = length l.
Proof. revert i. induction l as [|y l IH]; intros [|i]; cbn; auto. Qed.
Lemma put_nth_eq {A} (l : list A) : forall i x, (i < length l)%nat -> nth_error (put_nth i x l) i = Some x.
Proof. induction l as [|y l IH]; intros [|i] x H; cbn in *; try lia; [reflexivity|]. apply IH. lia. Qed.
Lemma put_nth_ne {A} (l : list A) : forall i j x, i <> j -> nth_error (put_nth i x l) j = nth_error l j.
Proof. induction l as [|y l IH]; intros [|i] [|j] x H; cbn; try congruence; try reflexivity. apply IH. congruence. Qed.

Lemma put_nth_perm {A} (l : list A) : forall i x old, nth_error l i = Some old -> Permutation (x :: l) (old :: put_nth i x l).
Proof.
  induction l as [|y l IH]; intros [|i] x old N; try discriminate; cbn in *.
  - injection N as ->. apply perm_swap.
  - eapply Permutation_trans; [apply perm_swap|]. eapply Permutation_trans; [apply perm_skip; apply (IH i x old N)|]. apply perm_swap.
Qed.

(** [swapped others todo idxs xs others']: for each k, the item xs_k is that at place idxs_k, which got todo_k *)
Lemma swap_loop_spec {A S} (next : S -> inx nat S) : forall n (k : imut A) others s, length (mtodo k) = n ->
  (forall idxs s' how, pulls next s idxs s' how -> NoDup idxs /\ Forall (fun i => (i < length others)%nat) idxs) ->
  exists idxs s' how k' others', pulls next s idxs s' how /\ swap_loop next n (k, others) s = ((k', others'), s', end_of how) /\
    match how with NotAsked => len idxs = Z.of_nat n | _ => len idxs < Z.of_nat n end /\
    (exists xs, mbefore k' = mbefore k ++ xs /\ length xs = length idxs /\
       (forall j i, nth_error idxs j = Some i -> nth_error others i = nth_error xs j /\ nth_error others' i = nth_error (mtodo k) j)) /\
    mtodo k' = skip (len idxs) (mtodo k) /\ mafter k' = mafter k /\ mdropped k' = mdropped k /\
    (forall i, ~ In i idxs -> nth_error others' i = nth_error others i) /\ length others' = length others.
Proof.
  induction n as [|n IH]; intros k others s R V; cbn [swap_loop].
  - exists [], s, NotAsked, k, others. split; [constructor|]. split; [reflexivity|]. split; [reflexivity|]. split; [|auto].
    exists []. rewrite app_nil_r. split; [reflexivity|]. split; [reflexivity|]. intros [|j] i H; discriminate H.
  - destruct (next s) as [s'|i s'|s'] eqn:E.
    + exists [], s', GaveNone, k, others. split; [constructor; exact E|]. split; [reflexivity|]. split; [cbn; lia|]. split; [|auto].
      exists []. rewrite app_nil_r. split; [reflexivity|]. split; [reflexivity|]. intros [|j] x H; discriminate H.
    + destruct (mtodo k) as [|old todo] eqn:T; [discriminate R|].
      assert (VI : (i < length others)%nat).
      { destruct (V [i] s' NotAsked) as [_ F]; [econstructor; [exact E|constructor]|]. inversion F; assumption. }
      destruct (nth_error others i) as [x|] eqn:X; [|apply nth_error_None in X; lia].
      destruct (IH (MkImut (mbefore k ++ [x]) todo (mafter k) (mdropped k)) (put_nth i old others) s') as
        (idxs & s2 & how & k' & o' & Y & F & L & (xs & B & LX & Q) & T' & A' & D' & O' & LO).
      * cbn in R |- *. lia.
      * intros idxs s2 how Y. destruct (V (i :: idxs) s2 how) as [ND FA]; [econstructor; [exact E|exact Y]|].
        inversion ND; subst. inversion FA; subst. split; [assumption|]. rewrite put_nth_length. assumption.
      * destruct (V (i :: idxs) s2 how) as [ND _]; [econstructor; [exact E|exact Y]|]. inversion ND as [|? ? NI ND']; subst.
        cbn [mbefore mtodo mafter mdropped] in *. exists (i :: idxs), s2, how, k', o'. split; [econstructor; [exact E|exact Y]|]. split; [exact F|].
        split; [rewrite len_cons; destruct how; lia|]. split; [|split; [|split; [exact A'|split; [exact D'|split]]]].
        -- exists (x :: xs). split; [rewrite B, <- app_assoc; reflexivity|]. split; [cbn; lia|]. intros [|j] i' H; cbn [nth_error] in H |- *.
           ++ injection H as <-. split; [exact X|]. rewrite O' by exact NI. apply put_nth_eq. exact VI.
           ++ destruct (Q j i' H) as [Q1 Q2]. split; [|exact Q2]. rewrite <- Q1. symmetry. apply put_nth_ne. intros ->. apply NI. eapply nth_error_In; exact H.
        -- rewrite T'. rewrite len_cons. pose proof (len_nonneg idxs). rewrite skip_cons by lia. f_equal. lia.
        -- intros j NJ. cbn in NJ. rewrite O' by tauto. apply put_nth_ne. intros ->. apply NJ. left. reflexivity.
        -- rewrite LO, put_nth_length. reflexivity.
    + exists [], s', Panicked, k, others. split; [constructor; exact E|]. split; [reflexivity|]. split; [cbn; lia|]. split; [|auto].
      exists []. rewrite app_nil_r. split; [reflexivity|]. split; [reflexivity|]. intros [|j] x H; discriminate H.
Qed.

Lemma swap_loop_perm {A S} (next : S -> inx nat S) : forall n (k : imut A) others s k' others' s' e,
  swap_loop next n (k, others) s = ((k', others'), s', e) ->
  Permutation ((mbefore k ++ mtodo k ++ mafter k) ++ others) ((mbefore k' ++ mtodo k' ++ mafter k') ++ others').
Proof.
  induction n as [|n IH]; intros k others s k' o' s' e H; cbn [swap_loop] in H.
  - injection H as <- <- <- <-. reflexivity.
  - destruct (next s) as [s1|i s1|s1]; try (injection H as <- <- <- <-; reflexivity).
    destruct (mtodo k) as [|old todo] eqn:T; [injection H as <- <- <- <-; rewrite T; reflexivity|].
    destruct (nth_error others i) as [x|] eqn:X; [|injection H as <- <- <- <-; rewrite T; reflexivity].
    apply IH in H. eapply Permutation_trans; [|exact H]. cbn [mbefore mtodo mafter]. rewrite <- !app_assoc. apply Permutation_app_head.
    change ([x] ++ todo ++ mafter k ++ put_nth i old others) with (x :: (todo ++ mafter k ++ put_nth i old others)).
    change ((old :: todo) ++ mafter k ++ others) with (old :: (todo ++ mafter k ++ others)). rewrite !app_assoc.
    eapply Permutation_trans; [apply (Permutation_middle (todo ++ mafter k) others old)|].
    eapply Permutation_trans; [|apply Permutation_sym; apply (Permutation_middle (todo ++ mafter k) (put_nth i old others) x)].
    apply Permutation_app_head. apply put_nth_perm. exact X.
Qed.

(** ** () *)
Lemma unit_loop_spec {S} (next : S -> inx unit S) s items s' how : pulls next s items s' how -> how <> NotAsked ->
  forall fuel, (length items < fuel)%nat -> unit_loop next fuel s = (s', end_of how).
Proof.
  intros H. induction H as [s|s s' E|s s' E|s a s1 items s' how E Y IH]; intros N fuel L; [congruence| | |];
    destruct fuel as [|fuel]; try (cbn in L; lia); cbn [unit_loop]; rewrite E; [reflexivity|reflexivity|].
  destruct a. apply IH; [exact N|cbn in L; lia].
Qed.

(** ** Adapters *)
Lemma fuse_done_none {A S} (next : S -> inx A S) s : fuse_next next (true, s) = NNone (true, s).
Proof. reflexivity. Qed.

Lemma checked_pulls {A S} (next : S -> inx A S) : forall st items st' how, pulls (overflow_next (fuse_next next)) st items st' how ->
  forall s, st = (true, (false, s)) -> exists s', st' = (match how with GaveNone => false | _ => true end, (match how with GaveNone => true | _ => false end, s')) /\ pulls next s items s' how.
Proof.
  induction 1 as [st|st st' E|st st' E|st a st1 items st' how E Y IH]; intros s ->.
  - exists s. split; [reflexivity|constructor].
  - unfold overflow_next, fuse_next in E. destruct (next s) as [s'|a s'|s'] eqn:N; try discriminate. injection E as <-. exists s'. split; [reflexivity|constructor; exact N].
  - unfold overflow_next, fuse_next in E. destruct (next s) as [s'|a s'|s'] eqn:N; try discriminate. injection E as <-. exists s'. split; [reflexivity|constructor; exact N].
  - unfold overflow_next, fuse_next in E. destruct (next s) as [s'|b s'|s'] eqn:N; try discriminate. injection E as <- <-.
    destruct (IH s' eq_refl) as (s2 & -> & P). exists s2. split; [reflexivity|]. econstructor; [exact N|exact P].
Qed.

Lemma checked_fill_wb {C A} (f : filler C A) ok room put : well_behaved f ok room put -> forall S (next : S -> inx A S) fuel c s, ok c -> (2 <= fuel)%nat ->
  exists items s' how, pulls next s items s' how /\
    checked_fill f next fuel c s = (put c items, s', match how with GaveNone => false | _ => true end, end_of how) /\
    match how with NotAsked => len items = room c | _ => len items < room c end.
Proof.
  intros W S next fuel c s K F. destruct (wb_fill _ _ _ _ W _ (overflow_next (fuse_next next)) fuel c (true, (false, s)) K F) as (items & st & how & Y & E & L).
  destruct (checked_pulls next _ _ _ _ Y s eq_refl) as (s' & -> & P). exists items, s', how. split; [exact P|].
  unfold checked_fill, fill_and_keep_tail. rewrite E. auto.
Qed.

Lemma inspect_pulls (t : target) {A S} (next : S -> inx A S) : valid_target t -> forall st items st' how, pulls (inspect_next t next) st items st' how ->
  forall n s b, st = (n, s) -> 0 <= n -> b <= usize_max t -> n + len items <= b -> (how = Panicked -> n + len items < b) ->
  exists s', st' = (n + len items, s') /\ pulls next s items s' how.
Proof.
  intros Ht. induction 1 as [st|st st' E|st st' E|st a st1 items st' how E Y IH]; intros n s b -> Hn Hb L LP; try change (len []) with 0 in *; try rewrite Z.add_0_r in *.
  - exists s. split; [reflexivity|constructor].
  - unfold inspect_next in E. destruct (next s) as [s'|a s'|s'] eqn:N; [|destruct (op_add t PF_count n 1); discriminate|discriminate].
    injection E as <-. exists s'. split; [reflexivity|constructor; exact N].
  - unfold inspect_next in E. destruct (next s) as [s'|a s'|s'] eqn:N; try discriminate.
    + exfalso. specialize (LP eq_refl). unfold op_add in E. destruct (Z.leb_spec (n + 1) (usize_max t)); [|lia]. discriminate.
    + injection E as <-. exists s'. split; [reflexivity|constructor; exact N].
  - rewrite len_cons in *. pose proof (len_nonneg items). unfold inspect_next in E. destruct (next s) as [s'|x s'|s'] eqn:N; try discriminate.
    assert (O : op_add t PF_count n 1 = Ret (n + 1)) by (unfold op_add; destruct (Z.leb_spec (n + 1) (usize_max t)); [reflexivity|lia]).
    rewrite O in E. injection E as <- <-. destruct (IH (n + 1) s' b eq_refl) as (s2 & -> & P); try lia.
    exists s2. split; [f_equal; lia|]. econstructor; [exact N|exact P].
Qed.

Lemma fill_count_wb t {C A} (f : filler C A) ok room put : valid_target t -> well_behaved f ok room put ->
  forall S (next : S -> inx A S) fuel c s, ok c -> (2 <= fuel)%nat -> room c <= usize_max t ->
  exists items s' how, pulls next s items s' how /\ fill_count t f next fuel c s = (put c items, s', len items, end_of how) /\
    match how with NotAsked => len items = room c | _ => len items < room c end.
Proof.
  intros Ht W S next fuel c s K F R. destruct (wb_fill _ _ _ _ W _ (inspect_next t next) fuel c (0, s) K F) as (items & st & how & Y & E & L).
  destruct (inspect_pulls t next Ht _ _ _ _ Y 0 s (room c) eq_refl) as (s' & -> & P); try lia; [destruct how; lia|intros ->; lia|].
  exists items, s', how. split; [exact P|]. unfold fill_count. rewrite E. auto.
Qed.

(** ** Result *)
Lemma once_fill {C A} (f : filler C A) ok room put c a fuel : well_behaved f ok room put -> ok c -> (2 <= fuel)%nat ->
  exists o, fill f once_next fuel c (Some a) = (put c (take (room c) [a]), o, FEnd).
Proof.
  intros W K F. destruct (wb_fill _ _ _ _ W _ once_next fuel c (Some a) K F) as (items & o & how & Y & E & L). rewrite E. pose proof (wb_room _ _ _ _ W c K) as R.
  assert (Q : items = take (room c) [a] /\ how <> Panicked).
  { inversion Y as [|s s' N|s s' N|s b s1 its s' h N Y']; subst; [|discriminate N|discriminate N|].
    - change (len (@nil A)) with 0 in L. rewrite <- L. split; [reflexivity|discriminate].
    - injection N as <- <-. inversion Y' as [|s s' N|s s' N|s b s1 its' s' h N Y2]; subst; [|injection N as <-|discriminate N|discriminate N].
      + rewrite take_all by lia. split; [reflexivity|discriminate].
      + rewrite take_all by lia. split; [reflexivity|discriminate]. }
  destruct Q as [-> Q]. exists o. destruct how; [reflexivity|reflexivity|congruence].
Qed.

Lemma put_step {C A} (f : filler C A) ok room put c a xs : well_behaved f ok room put -> ok c ->
  ok (put c (take (room c) [a])) /\ put (put c (take (room c) [a])) (take (room (put c (take (room c) [a]))) xs) = put c (take (room c) (a :: xs)).
Proof.
  intros W K. pose proof (wb_room _ _ _ _ W c K) as R. destruct (Z.eq_dec (room c) 0) as [Z0|Z0].
  - rewrite Z0, !take_0, !(wb_put_nil _ _ _ _ W c K). split; [exact K|]. rewrite Z0, take_0, (wb_put_nil _ _ _ _ W c K). reflexivity.
  - assert (T : take (room c) [a] = [a]) by (rewrite take_cons by lia; f_equal; apply take_all; change (len (@nil A)) with 0; lia). rewrite T.
    destruct (wb_put_room _ _ _ _ W c [a] K) as [K' R']; [change (len [a]) with 1; lia|]. change (len [a]) with 1 in R'. split; [exact K'|]. rewrite R', take_cons by lia.
    rewrite <- (wb_put_app _ _ _ _ W c [a] (take (room c - 1) xs)); [reflexivity|exact K|].
    rewrite len_app. change (len [a]) with 1. unfold take, len. rewrite firstn_length. lia.
Qed.

Lemma result_loop_spec {C A E} (f : filler C A) ok room put fuel : well_behaved f ok room put -> (2 <= fuel)%nat ->
  forall S (next : S -> inx (A + E) S) xs s s1 how c n, ok c -> pulls next s (map inl xs) s1 how -> (length xs < n)%nat ->
  let c' := put c (take (room c) xs) in
  match how with
  | GaveNone => result_loop f next fuel n c s = (inl c', s1, FEnd)
  | Panicked => result_loop f next fuel n c s = (inl c', s1, FBoom)
  | NotAsked => result_loop f next fuel n c s = result_loop f next fuel (n - length xs) c' s1
  end.
Proof.
  intros W F S next. induction xs as [|a xs IH]; intros s s1 how c n K Y L c'.
  - unfold c'. assert (T : @take A (room c) [] = []) by (unfold take; apply firstn_nil). rewrite T, (wb_put_nil _ _ _ _ W c K). clear c' T.
    destruct n as [|n]; [cbn in L; lia|]. cbn [map] in Y. inversion Y as [|? ? N|? ? N|]; subst; cbn [result_loop length]; try rewrite N; reflexivity.
  - destruct n as [|n]; [cbn in L; lia|]. cbn [map] in Y. inversion Y as [| | |? ? s2 ? ? ? N Y']; subst. cbn [result_loop]. rewrite N.
    destruct (once_fill f ok room put c a fuel W K F) as [o ->]. destruct (put_step f ok room put c a xs W K) as [K' P].
    cbn [length] in L. specialize (IH s2 s1 how _ n K' Y' ltac:(lia)). cbv zeta in IH. rewrite P in IH. unfold c'. destruct how; exact IH.
Qed.

Lemma result_loop_error {C A E} (f : filler C A) ok room put fuel : well_behaved f ok room put -> (2 <= fuel)%nat ->
  forall S (next : S -> inx (A + E) S) xs e s s1 s2 c n, ok c -> pulls next s (map inl xs) s1 NotAsked -> next s1 = NSome (inr e) s2 -> (length xs < n)%nat ->
  result_loop f next fuel n c s = (inr e, s2, FEnd).
Proof.
  intros W F S next xs e s s1 s2 c n K Y N L. pose proof (result_loop_spec f ok room put fuel W F S next xs s s1 NotAsked c n K Y L) as P. cbv zeta iota beta in P. rewrite P.
  destruct (n - length xs)%nat as [|k] eqn:D; [lia|]. cbn [result_loop]. rewrite N. reflexivity.
Qed.

Lemma result_loop_forever {C A E} (f : filler C A) ok room put fuel : well_behaved f ok room put -> (2 <= fuel)%nat ->
  forall S (next : S -> inx (A + E) S), (forall s, exists a s', next s = NSome (inl a) s') ->
  forall n c s, ok c -> snd (result_loop f next fuel n c s) = FMore.
Proof.
  intros W F S next Inf. induction n as [|n IH]; intros c s K; [reflexivity|]. cbn [result_loop]. destruct (Inf s) as (a & s' & ->).
  destruct (once_fill f ok room put c a fuel W K F) as [o ->]. apply IH. exact (proj1 (put_step f ok room put c a [] W K)).
Qed.

Lemma inspect_pulls_conv (t : target) {A S} (next : S -> inx A S) : forall s items s' how, pulls next s items s' how ->
  forall n, 0 <= n -> n + len items <= usize_max t -> pulls (inspect_next t next) (n, s) items (n + len items, s') how.
Proof.
  induction 1 as [s|s s' E|s s' E|s a s1 items s' how E Y IH]; intros n Hn L; try change (len []) with 0; try rewrite Z.add_0_r.
  - constructor.
  - constructor. unfold inspect_next. rewrite E. reflexivity.
  - constructor. unfold inspect_next. rewrite E. reflexivity.
  - rewrite len_cons in *. pose proof (len_nonneg items). apply p_item with (s1 := (n + 1, s1)).
    + unfold inspect_next. rewrite E. unfold op_add. destruct (Z.leb_spec (n + 1) (usize_max t)); [reflexivity|lia].
    + replace (n + (1 + len items)) with (n + 1 + len items) by lia. apply IH; lia.
Qed.

(** Lists as iterators *)
Lemma list_pulls {A} (xs ys : list A) : pulls list_next (xs ++ ys) xs ys NotAsked.
Proof. induction xs as [|x xs IH]; [constructor|]. econstructor; [reflexivity|exact IH]. Qed.
Lemma list_pulls_inv {A} (s items s' : list A) how : pulls list_next s items s' how -> s = items ++ s' /\ how <> Panicked /\ (how = GaveNone -> s' = []).
Proof.
  induction 1 as [s|s s' E|s s' E|s a s1 items s' how E Y IH].
  - split; [reflexivity|]. split; discriminate.
  - destruct s; [|discriminate]. injection E as <-. split; [reflexivity|]. split; [discriminate|reflexivity].
  - destruct s; discriminate.
  - destruct s as [|x s]; [discriminate|]. injection E as <- <-. destruct IH as (-> & I2 & I3). split; [reflexivity|]. auto.
Qed.

Lemma fill_list {C A} (f : filler C A) ok room put : well_behaved f ok room put -> forall fuel c xs, ok c -> (2 <= fuel)%nat ->
  fill f list_next fuel c xs = (put c (take (room c) xs), skip (room c) xs, FEnd).
Proof.
  intros W fuel c xs K F. destruct (wb_fill _ _ _ _ W _ list_next fuel c xs K F) as (items & s' & how & Y & E & L). rewrite E.
  apply list_pulls_inv in Y. destruct Y as (-> & NP & N). pose proof (wb_room _ _ _ _ W c K). pose proof (len_nonneg items).
  destruct how; [| |congruence].
  - rewrite <- L. unfold take, skip, len. rewrite Nat2Z.id, firstn_app, Nat.sub_diag, firstn_all, skipn_app, Nat.sub_diag, skipn_all, app_nil_r. reflexivity.
  - rewrite (N eq_refl), app_nil_r. rewrite take_all, skip_all by lia. reflexivity.
Qed.

Lemma asks_done {A S} (next : S -> inx A S) n s : asks (overflow_next (fuse_next next)) n (false, (true, s)) = (repeat RNone n, (false, (true, s))).
Proof. induction n as [|n IH]; cbn [asks repeat]; [reflexivity|]. unfold overflow_next at 1. cbn [fuse_next andb]. rewrite IH. reflexivity. Qed.
Lemma asks_adapter {A S} (next : S -> inx A S) n : forall s,
  asks (overflow_next (fuse_next next)) n (true, (false, s)) =
  let '(r, s', o) := asks_once next n s in (r, (o, (negb o, s'))).
Proof.
  induction n as [|n IH]; intros s; cbn [asks asks_once]; [reflexivity|]. unfold overflow_next at 1. cbn [fuse_next].
  destruct (next s) as [s'|a s'|s']; cbn [andb].
  - rewrite asks_done. reflexivity.
  - rewrite IH. destruct (asks_once next n s') as [[r s2] o]. reflexivity.
  - rewrite IH. destruct (asks_once next n s') as [[r s2] o]. reflexivity.
Qed.
