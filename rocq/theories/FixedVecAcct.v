(** * FixedVecAcct: every element is accounted for *)
From Coq Require Import Permutation.
From Verif Require Import Base Spec BaseFacts SyncProofs UninitModel UninitSpec UninitProofs
  FixedVecModel FixedVecSpec FixedVecProofs FixedVecPool.

Definition contents (a : astate) : list elem := flat_map aitems (apool a).
Definition ahanded (r : fres elem) : list elem :=
  match r with
  | FRejected e => [e]
  | FPopped (Some x) => [x]
  | FDrained xs _ => somes xs
  | _ => []
  end.

Lemma somes_map {A B} (f : A -> B) xs : somes (map (option_map f) xs) = map f (somes xs).
Proof. induction xs as [|[x|] xs IH]; cbn; [reflexivity| |]; rewrite IH; reflexivity. Qed.

Lemma handed_some r : handed_out (some_answer r) = map Some (ahanded r).
Proof. destruct r as [| | |[x|]| |xs ok| | | |]; cbn; try reflexivity. apply somes_map. Qed.

Lemma taken_some o r : taken o (some_answer r) = taken o r.
Proof. destruct o; try reflexivity; destruct r as [| | |[x|]| |xs ok| | | |]; reflexivity. Qed.

Lemma all_taken_some os : forall rs, all_taken os (map some_answer rs) = all_taken os rs.
Proof. induction os as [|o os IH]; intros [|r rs]; cbn; try reflexivity. rewrite taken_some, IH. reflexivity. Qed.

Lemma contents_upd a i x cap items alive d z : nth_error (apool a) i = Some x ->
  exists rest, Permutation (contents a) (aitems x ++ rest) /\
    Permutation (contents (aset a i x cap items alive d z)) (items ++ rest).
Proof.
  unfold contents, aset. cbn [apool]. set (y := {| acap := cap; aitems := items; aalive := alive; aparent := aparent x |}).
  change items with (aitems y). clearbody y. revert i. induction (apool a) as [|b P IH]; intros [|i] H; cbn in *; try discriminate.
  - injection H as ->. exists (flat_map aitems P). split; reflexivity.
  - destruct (IH i H) as (rest & H1 & H2). exists (aitems b ++ rest). split.
    + rewrite H1. apply Permutation_app_swap_app.
    + rewrite H2. apply Permutation_app_swap_app.
Qed.

(** What one step does, in terms of one list *)
Lemma acct_aset a i x cap items alive d z tk hd : nth_error (apool a) i = Some x ->
  Permutation (tk ++ aitems x) (hd ++ items ++ d ++ z) ->
  let a' := aset a i x cap items alive d z in
  Permutation (tk ++ contents a ++ adrops a ++ alost a) (hd ++ contents a' ++ adrops a' ++ alost a').
Proof.
  intros Hx H a'. destruct (contents_upd a i x cap items alive d z Hx) as (rest & H1 & H2). fold a' in H2.
  rewrite H1, H2. unfold a', aset; cbn [adrops alost].
  rewrite (app_assoc tk), (app_assoc tk). rewrite H.
  rewrite !app_assoc_reverse. apply Permutation_app_head. apply Permutation_app_head.
  rewrite (app_assoc d z). rewrite (app_assoc (adrops a)).
  transitivity (rest ++ (d ++ z) ++ adrops a ++ alost a); [apply Permutation_app_swap_app|].
  apply Permutation_app_head. rewrite !app_assoc_reverse.
  transitivity (d ++ adrops a ++ z ++ alost a).
  - apply Permutation_app_head. apply Permutation_app_swap_app.
  - transitivity (adrops a ++ d ++ z ++ alost a); [apply Permutation_app_swap_app|].
    apply Permutation_app_head, Permutation_app_head. apply Permutation_app_comm.
Qed.

Lemma acct_same a : Permutation ([] ++ contents a ++ adrops a ++ alost a) ([] ++ contents a ++ adrops a ++ alost a).
Proof. reflexivity. Qed.

Lemma contents_aadd a y : contents (aadd a y) = contents a ++ aitems y.
Proof. unfold contents, aadd. cbn [apool]. rewrite flat_map_app. cbn. rewrite app_nil_r. reflexivity. Qed.

Lemma drop_seq_split boom xs d p : drop_seq boom xs = (d, p) -> xs = d ++ skip (len d) xs.
Proof.
  intros E. destruct (drop_seq_prefix boom xs) as [ys Hy]. rewrite E in Hy. cbn in Hy. rewrite Hy at 2.
  unfold skip, len. rewrite Nat2Z.id, skipn_app, skipn_all, Nat.sub_diag. cbn. exact Hy.
Qed.

Lemma take_ends_perm fronts : forall ys, Permutation ys (somes (fst (take_ends ys fronts)) ++ snd (take_ends ys fronts)).
Proof.
  induction fronts as [|b fs IH]; intros ys; cbn [take_ends].
  - reflexivity.
  - destruct ys as [|y ys'].
    + specialize (IH []). destruct (take_ends [] fs) as [r rest]. cbn in *. exact IH.
    + destruct b.
      * specialize (IH ys'). destruct (take_ends ys' fs) as [r rest]. cbn in *. constructor. exact IH.
      * specialize (IH (removelast (y :: ys'))). destruct (take_ends (removelast (y :: ys')) fs) as [r rest]. cbn [fst snd somes] in *.
        rewrite (app_removelast_last y (l := y :: ys')) at 1 by discriminate.
        rewrite Permutation_app_comm. cbn [app]. constructor. exact IH.
Qed.

Lemma take_skip_len {A} (f : Z) (items : list A) : take (len items - len (skip f items)) items = take f items.
Proof.
  destruct (Z.le_gt_cases f 0) as [H|H].
  - rewrite skip_neg, take_neg, take_neg by lia. reflexivity.
  - destruct (Z.le_gt_cases f (len items)) as [H1|H1].
    + rewrite len_skip by lia. f_equal. lia.
    + rewrite skip_all by lia. change (len (@nil A)) with 0. rewrite !take_all by lia. reflexivity.
Qed.

Lemma skip_cons_tail {A} f (items : list A) e rest : skip f items = e :: rest ->
  take (len items - len rest) items = take f items ++ [e].
Proof.
  intros E. pose proof (take_skip f items) as H. rewrite E in H. rewrite <- H at 1 2.
  rewrite len_app, len_cons. unfold take at 1. unfold len at 1. 
  replace (Z.to_nat _) with (length (take f items) + 1)%nat.
  2:{ unfold len. lia. }
  change (take f items ++ e :: rest) with (take f items ++ [e] ++ rest). rewrite app_assoc.
  rewrite firstn_app. rewrite app_length. cbn [length]. rewrite Nat.sub_diag. cbn [firstn]. rewrite app_nil_r.
  apply firstn_all2. rewrite app_length. cbn. lia.
Qed.

Lemma take_len_app {A} (xs ys : list A) : take (len (xs ++ ys) - len ys) (xs ++ ys) = xs.
Proof.
  rewrite len_app. unfold take. replace (Z.to_nat _) with (length xs) by (unfold len; lia).
  rewrite firstn_app, Nat.sub_diag, firstn_all. cbn. apply app_nil_r.
Qed.

Lemma truncate_perm boom n (xs : list elem) d p : drop_seq boom (rev (skip n xs)) = (d, p) ->
  Permutation xs (take (len xs - len d) xs ++ d).
Proof.
  intros E. pose proof (drop_seq_split _ _ _ _ E) as Hd. apply (f_equal (@rev elem)) in Hd.
  rewrite rev_involutive, rev_app_distr in Hd. set (s2 := rev (skip (len d) (rev (skip n xs)))) in *. clearbody s2.
  assert (Hxs : xs = (take n xs ++ s2) ++ rev d).
  { rewrite <- app_assoc, <- Hd. symmetry. apply take_skip. }
  set (ys := take n xs ++ s2) in *. clearbody ys. 
  replace (len d) with (len (rev d)) by (unfold len; rewrite rev_length; reflexivity).
  rewrite Hxs at 1. rewrite Hxs. rewrite take_len_app. apply Permutation_app_head. symmetry. apply Permutation_rev.
Qed.

Lemma acct_split a i x c1 n y : nth_error (apool a) i = Some x -> aitems y = skip n (aitems x) ->
  let a' := aadd (aset a i x c1 (take n (aitems x)) true [] []) y in
  Permutation ([] ++ contents a ++ adrops a ++ alost a) ([] ++ contents a' ++ adrops a' ++ alost a').
Proof.
  intros Hx Hy a'. cbn [app]. unfold a'. rewrite contents_aadd, Hy.
  destruct (contents_upd a i x c1 (take n (aitems x)) true [] [] Hx) as (rest & H1 & H2).
  rewrite H1, H2. cbn [aadd aset adrops alost]. rewrite !app_nil_r. apply Permutation_app_tail.
  rewrite <- (take_skip n (aitems x)) at 1. rewrite <- !app_assoc. apply Permutation_app_head, Permutation_app_comm.
Qed.

Definition op_start (o : fop) : Z := match o with FDrain _ lo _ _ _ => range_start lo | _ => 0 end.

Lemma upd_nth_perm {A} k (x old : A) xs : nth_error xs k = Some old -> Permutation (x :: xs) (old :: upd_nth k x xs).
Proof.
  revert k. induction xs as [|y xs IH]; intros [|k] H; cbn in *; try discriminate.
  - injection H as ->. apply perm_swap.
  - rewrite perm_swap, (IH k H). apply perm_swap.
Qed.

Lemma swap_perm {A} j k (y z : A) xs : nth_error xs j = Some y -> nth_error xs k = Some z ->
  Permutation xs (upd_nth k y (upd_nth j z xs)).
Proof.
  intros Hj Hk. apply (Permutation_cons_inv (a := z)). rewrite (upd_nth_perm j z y xs Hj).
  destruct (Nat.eq_dec j k) as [<-|N].
  - assert (z = y) by congruence. subst z. rewrite (upd_nth_perm j y y (upd_nth j y xs)); [reflexivity|]. eapply upd_nth_nth_eq, Hj.
  - apply upd_nth_perm. rewrite upd_nth_nth_ne by exact N. exact Hk.
Qed.

Lemma acct_step zst m boom a o a' r : 0 <= op_start o -> astep zst m boom a o = (a', r) -> r <> FAborted ->
  Permutation (taken o r ++ contents a ++ adrops a ++ alost a) (ahanded r ++ contents a' ++ adrops a' ++ alost a').
Proof.
  intros Hop. unfold astep. destruct (ausable (apool a) (op_index o)).
  2:{ intros [= <- <-] _. destruct o; reflexivity. }
  destruct (nth_error (apool a) (op_index o)) as [x|] eqn:Hx.
  2:{ intros [= <- <-] _. destruct o; reflexivity. }
  assert (K : forall cap items alive d z tk hd a1, aset a (op_index o) x cap items alive d z = a1 ->
     Permutation (tk ++ aitems x) (hd ++ items ++ d ++ z) ->
     Permutation (tk ++ contents a ++ adrops a ++ alost a) (hd ++ contents a1 ++ adrops a1 ++ alost a1)).
  { intros cap items alive d z tk hd a1 <-. apply acct_aset, Hx. }
  unfold ado. destruct o as [i q|i|i n|i|i items b|i items b|i lo hi fronts forget|i|i n|i n|i|i|i|i k q|i j k]; cbn [op_index] in *.
  - destruct (len (aitems x) <? acap x); intros [= <- <-] _; cbn [taken ahanded].
    + eapply K; [reflexivity|]. cbn. rewrite !app_nil_r. apply Permutation_cons_append.
    + reflexivity.
  - destruct (aitems x) as [|y ys] eqn:Ei; intros [= <- <-] _; cbn [taken ahanded]; [reflexivity|].
    eapply K; [reflexivity|]. rewrite !app_nil_r. cbn [app].
    rewrite (app_removelast_last y (l := y :: ys)) at 1 by discriminate. symmetry. apply Permutation_cons_append.
  - destruct (drop_seq boom (rev (skip n (aitems x)))) as [d p] eqn:E. intros [= <- <-] _.
    replace (ahanded (if p then FPanicked else FOk)) with (@nil elem) by (destruct p; reflexivity).
    eapply K; [reflexivity|]. cbn [taken app]. rewrite app_nil_r. 
    apply (truncate_perm _ _ _ _ _ E).
  - destruct (drop_seq boom (rev (aitems x))) as [d p] eqn:E. intros [= <- <-] _.
    replace (ahanded (if p then FPanicked else FOk)) with (@nil elem) by (destruct p; reflexivity).
    eapply K; [reflexivity|]. cbn [taken app]. rewrite app_nil_r.
    apply (truncate_perm boom 0 _ _ p). rewrite skip_neg by lia. exact E.
  - intros [= <- <-] _. cbn [taken ahanded]. eapply K; [reflexivity|]. rewrite !app_nil_r. cbn [app].
    rewrite take_skip_len. apply Permutation_app_comm.
  - destruct (skip (acap x - len (aitems x)) items) as [|q rest] eqn:Esk.
    + intros [= <- <-] _. cbn [taken ahanded]. eapply K; [reflexivity|]. rewrite !app_nil_r. cbn [app].
      rewrite <- Esk, take_skip_len. apply Permutation_app_comm.
    + destruct (boom q); intros [= <- <-] Hna; [congruence|]. cbn [taken ahanded]. eapply K; [reflexivity|].
      rewrite app_nil_r. cbn [app]. rewrite (skip_cons_tail _ _ _ _ Esk). rewrite <- app_assoc.
      transitivity (take (acap x - len (aitems x)) items ++ aitems x ++ [q]).
      * apply Permutation_app_head. apply (Permutation_app_comm [q]).
      * rewrite <- (app_assoc (aitems x)). apply Permutation_app_swap_app.
  - destruct ((range_start lo <=? range_end hi (len (aitems x))) && (range_end hi (len (aitems x)) <=? len (aitems x))) eqn:Eb.
    2:{ intros [= <- <-] _. reflexivity. }
    apply andb_true_iff in Eb as [B1 B2]. apply Z.leb_le in B1, B2.
    change (0 <= range_start lo) in Hop. set (st := range_start lo) in *. set (en := range_end hi (len (aitems x))) in *.
    pose proof (range_split st en (aitems x) ltac:(lia) ltac:(lia)) as Hsp.
    set (M := take (en - st) (skip st (aitems x))) in *.
    pose proof (take_ends_perm fronts M) as HM. destruct (take_ends M fronts) as [answers rest]. cbn [fst snd] in HM.
    destruct forget; [|destruct (drop_seq boom rest) as [d [|]] eqn:Ed]; intros [= <- <-] _; cbn [taken ahanded];
      (eapply K; [reflexivity|]); cbn [app].
    + rewrite Hsp at 1. rewrite HM. rewrite <- !app_assoc. cbn [app]. apply Permutation_app_swap_app.
    + rewrite Hsp at 1. rewrite HM. rewrite (drop_seq_split _ _ _ _ Ed) at 1. rewrite <- !app_assoc. apply Permutation_app_swap_app.
    + rewrite Hsp at 1. rewrite HM. pose proof (drop_seq_all boom rest) as Hall. rewrite Ed in Hall. cbn in Hall.
      rewrite (Hall eq_refl). rewrite app_nil_r, <- !app_assoc.
      rewrite Permutation_app_swap_app. apply Permutation_app_head, Permutation_app_head, Permutation_app_comm.
  - intros [= <- <-] _. reflexivity.
  - destruct (n <=? acap x); intros [= <- <-] _; [|reflexivity]. cbn [taken ahanded].
    apply acct_split; [exact Hx|reflexivity].
  - destruct (n <=? acap x); intros [= <- <-] _; [|reflexivity]. cbn [taken ahanded].
    apply acct_split; [exact Hx|reflexivity].
  - destruct (drop_seq boom (aitems x)) as [d [|]] eqn:Ed.
    + destruct (drop_seq boom (skip (len d) (aitems x))) as [d' [|]] eqn:Ed'; intros [= <- <-] Hna; [congruence|].
      cbn [taken ahanded]. eapply K; [reflexivity|]. cbn [app]. rewrite app_nil_r.
      pose proof (drop_seq_all boom (skip (len d) (aitems x))) as Hall. rewrite Ed' in Hall. cbn in Hall.
      rewrite (Hall eq_refl). rewrite <- (drop_seq_split _ _ _ _ Ed). reflexivity.
    + intros [= <- <-] _. cbn [taken ahanded]. eapply K; [reflexivity|]. cbn [app]. rewrite app_nil_r.
      pose proof (drop_seq_all boom (aitems x)) as Hall. rewrite Ed in Hall. cbn in Hall. rewrite (Hall eq_refl). reflexivity.
  - intros [= <- <-] _. cbn [taken ahanded]. eapply K; [reflexivity|]. reflexivity.
  - intros [= <- <-] _. reflexivity.
  - destruct (nth_error (aitems x) (Z.to_nat k)) as [old|] eqn:E; intros [= <- <-] _; cbn [taken ahanded]; [|reflexivity].
    eapply K; [reflexivity|]. rewrite !app_nil_r. cbn [app]. apply (upd_nth_perm _ _ _ _ E).
  - destruct (nth_error (aitems x) (Z.to_nat j)) as [y|] eqn:E1; [destruct (nth_error (aitems x) (Z.to_nat k)) as [z|] eqn:E2|]; intros [= <- <-] _; cbn [taken ahanded]; try reflexivity.
    eapply K; [reflexivity|]. rewrite !app_nil_r. cbn [app]. apply (swap_perm _ _ _ _ _ E1 E2).
Qed.

Lemma acct_lost zst m boom a o a' r : astep zst m boom a o = (a', r) -> r <> FAborted ->
  ~ forgets o -> ~ drain_panicked r -> alost a' = alost a.
Proof.
  unfold astep. destruct (ausable (apool a) (op_index o)); [|congruence].
  destruct (nth_error (apool a) (op_index o)) as [x|]; [|congruence].
  unfold ado, aset, aadd.
  destruct o as [i q|i|i n|i|i items b|i items b|i lo hi fronts forget|i|i n|i n|i|i|i|i k q|i j k];
    repeat match goal with
    | |- context [match ?e with _ => _ end] => destruct e
    end; intros [= <- <-] Hna Hf Hp; cbn [alost]; rewrite ?app_nil_r; try reflexivity; try congruence; cbn in *; try tauto;
    exfalso; auto.
Qed.

Lemma acct_run zst m boom os : forall a a' rs, Forall (fun o => 0 <= op_start o) os ->
  arun zst m boom a os = (a', rs) -> ~ In FAborted rs ->
  Permutation (all_taken os rs ++ contents a ++ adrops a ++ alost a)
              (flat_map ahanded rs ++ contents a' ++ adrops a' ++ alost a') /\
  (Forall (fun o => ~ forgets o) os -> Forall (fun r => ~ drain_panicked r) rs -> alost a' = alost a).
Proof.
  induction os as [|o os IH]; intros a a' rs Hop; cbn [arun].
  - intros [= <- <-] _. split; reflexivity.
  - apply Forall_cons_iff in Hop as [Ho Hop]. destruct (astep zst m boom a o) as [a1 r] eqn:Es.
    intros E Hna.
    assert (Hr : r <> FAborted /\ exists rs', rs = r :: rs' /\ arun zst m boom a1 os = (a', rs')).
    { destruct r; try (destruct (arun zst m boom a1 os) as [a2 rs']; injection E as <- <-;
        split; [discriminate|]; eexists; split; reflexivity).
      injection E as <- <-. exfalso. apply Hna. left. reflexivity. }
    destruct Hr as (Hr & rs' & -> & E'). clear E.
    assert (Hna' : ~ In FAborted rs') by (intros H; apply Hna; right; exact H).
    destruct (IH a1 a' rs' Hop E' Hna') as [P1 L1]. pose proof (acct_step _ _ _ _ _ _ _ Ho Es Hr) as P2.
    split.
    + cbn [all_taken flat_map]. rewrite <- !app_assoc.
      rewrite Permutation_app_swap_app. rewrite P2. rewrite Permutation_app_swap_app. rewrite P1. reflexivity.
    + intros Hf Hp. apply Forall_cons_iff in Hf as [Hf1 Hf2]. apply Forall_cons_iff in Hp as [Hp1 Hp2].
      rewrite (L1 Hf2 Hp2). eapply acct_lost; eassumption.
Qed.

(** Dead vectors are empty. *)
Definition dead_empty (a : astate) : Prop := Forall (fun x => aalive x = false -> aitems x = []) (apool a).

Lemma dead_step zst m boom a o : dead_empty a -> dead_empty (fst (astep zst m boom a o)).
Proof.
  intros D. unfold astep. destruct (ausable (apool a) (op_index o)); [|exact D].
  destruct (nth_error (apool a) (op_index o)) as [x|]; [|exact D].
  assert (K : forall i cap items alive d z, (alive = false -> items = []) -> dead_empty (aset a i x cap items alive d z)).
  { intros i cap items alive d z H. unfold dead_empty, aset. cbn [apool]. apply Forall_forall. intros y Hy.
    apply upd_nth_In in Hy as [->|Hy]; [exact H|]. unfold dead_empty in D. rewrite Forall_forall in D. exact (D y Hy). }
  assert (K2 : forall a y, dead_empty a -> aalive y = true -> dead_empty (aadd a y)).
  { intros a0 y H Hy. unfold dead_empty, aadd. cbn [apool]. apply Forall_app. split; [exact H|].
    constructor; [congruence|constructor]. }
  unfold ado.
  destruct o as [i q|i|i n|i|i items b|i items b|i lo hi fronts forget|i|i n|i n|i|i|i|i k q|i j k]; cbn [op_index];
    repeat match goal with
    | |- context [match ?e with _ => _ end] => destruct e
    end; cbn [fst]; try exact D; try (apply K; (discriminate || reflexivity));
    (apply K2; [apply K; discriminate|reflexivity]).
Qed.

Lemma dead_run zst m boom os : forall a, dead_empty a -> dead_empty (fst (arun zst m boom a os)).
Proof.
  induction os as [|o os IH]; intros a D; cbn [arun]; [exact D|].
  pose proof (dead_step zst m boom a o D) as D1. destruct (astep zst m boom a o) as [a1 r]. cbn [fst] in D1.
  specialize (IH a1 D1). destruct (arun zst m boom a1 os) as [a2 rs]. destruct r; assumption.
Qed.

Lemma live_rel t l B h0 s a : rel t l B h0 s a -> dead_empty a -> live_contents l s = map Some (contents a).
Proof.
  intros [F _ _ _ _] D. unfold live_contents, contents. unfold dead_empty in D.
  induction F as [|e x P Q Hex _ IH]; cbn; [reflexivity|]. apply Forall_cons_iff in D as [D1 D2].
  rewrite map_app, (IH D2). f_equal. destruct Hex as (E1 & _ & E3). destruct (ealive e).
  - apply (holds_rep t l _ _ _ _ (E3 eq_refl)).
  - rewrite (D1 (eq_sym E1)). reflexivity.
Qed.

Lemma valid_start t l o : valid_fop t l o -> 0 <= op_start o.
Proof. intros [_ H]. destruct o; cbn; try lia. apply (range_start_nonneg t), H. Qed.

Lemma drop_seq_ok boom : forall xs d, drop_seq boom xs = (d, false) -> Forall (fun e => boom e = false) d.
Proof.
  induction xs as [|x xs IH]; intros d; cbn.
  - intros [= <-]. constructor.
  - destruct (boom x) eqn:E; [discriminate|]. destruct (drop_seq boom xs) as [d' p]. intros [= <- ->].
    constructor; [exact E|apply IH; reflexivity].
Qed.

Lemma drop_seq_boom boom : forall xs d, drop_seq boom xs = (d, true) ->
  exists d0 y, d = d0 ++ [y] /\ boom y = true /\ Forall (fun e => boom e = false) d0.
Proof.
  induction xs as [|x xs IH]; intros d; cbn; [discriminate|].
  destruct (boom x) eqn:E.
  - intros [= <-]. exists [], x. auto.
  - destruct (drop_seq boom xs) as [d' p]. intros [= <- ->]. destruct (IH d' eq_refl) as (d0 & y & -> & Hy & Hf).
    exists (x :: d0), y. split; [reflexivity|]. split; [exact Hy|]. constructor; assumption.
Qed.

Lemma NoDup_app_remove_r {A} (xs ys : list A) : NoDup (xs ++ ys) -> NoDup xs.
Proof.
  induction xs as [|x xs IH]; cbn; intros H; [constructor|]. inversion H as [|? ? Hn Hd]; subst.
  constructor; [|apply IH, Hd]. intros Hx. apply Hn, in_or_app. auto.
Qed.

Lemma take_ends_answers fronts : forall ys,
  let '(answers, rest) := take_ends ys fronts in
  length answers = length fronts /\
  ys = somes (answers_at true fronts answers) ++ rest ++ rev (somes (answers_at false fronts answers)).
Proof.
  induction fronts as [|b fs IH]; intros ys; cbn [take_ends].
  - split; [reflexivity|]. cbn. rewrite app_nil_r. reflexivity.
  - destruct ys as [|y ys'].
    + specialize (IH []). destruct (take_ends [] fs) as [r rest]. destruct IH as [H1 H2]. split; [cbn; congruence|].
      destruct b; cbn; exact H2.
    + destruct b.
      * specialize (IH ys'). destruct (take_ends ys' fs) as [r rest]. destruct IH as [H1 H2]. split; [cbn; congruence|].
        cbn. f_equal. exact H2.
      * specialize (IH (removelast (y :: ys'))). destruct (take_ends (removelast (y :: ys')) fs) as [r rest]. destruct IH as [H1 H2].
        split; [cbn [length]; congruence|]. cbn [answers_at Bool.eqb somes].
        rewrite (app_removelast_last y (l := y :: ys')) at 1 by discriminate. rewrite H2 at 1. cbn [rev].
        rewrite <- !app_assoc. reflexivity.
Qed.
