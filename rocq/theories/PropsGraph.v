(** * PropsGraph: C96, values that own [Rc]s and [Weak]s of each other. *)
From Verif Require Import Base Spec BaseFacts SyncMemModel RcModel RcSpec GraphModel GraphSpec GraphProofs.
From Coq Require Import List Permutation.

(** C96. Whatever graph a program builds from [Rc] and [Weak] handles, the counters behave as in the specification, which has none: a value
    is destroyed exactly when its last strong handle goes, then the handles that it owned go in order, recursively; [strong_count] and
    [weak_count] are the numbers of handles in the whole graph; [upgrade] works iff the value is there; a destructor that panics does not
    keep the rest of the graph from being dropped; a second panic during that ends the process. *)
Theorem C96_graphs_refine : forall t boom os, valid_target t -> few t os ->
  let r := grun t boom g_init os in
  exists w, iruns boom i_init (snd r) w /\ glog (fst r) = ilog w.
Proof.
  intros t boom os Ht F. destruct (grun_sim t boom os Ht g_init i_init g_init_rel) as (w & S & L & _); [unfold few in F; cbn [handles i_init inodes islots flat_map app length] in *; lia|].
  exists w. auto.
Qed.
Print Assumptions C96_graphs_refine.

(** C96: the specification says for each operation what the answer is and what the graph is afterwards. *)
Theorem C96_specification_determines : forall boom w o a1 w1 a2 w2,
  istep boom w o a1 w1 -> istep boom w o a2 w2 -> a1 = a2 /\ w1 = w2.
Proof. exact istep_det. Qed.
Print Assumptions C96_specification_determines.

(** C96, no dangling handle: what can be reached from variables by strong handles is alive, unless the process was aborted. *)
Theorem C96_reachable_values_are_alive : forall t boom os w, valid_target t -> few t os ->
  let r := grun t boom g_init os in
  (forall o, ~ In (o, GAborted) (snd r)) -> iruns boom i_init (snd r) w ->
  forall n, reachable w n -> alive w n.
Proof.
  intros t boom os w Ht F r N S. destruct (grun_sim t boom os Ht g_init i_init g_init_rel) as (w' & S' & L & K); [unfold few in F; cbn [handles i_init inodes islots flat_map app length] in *; lia|].
  rewrite (iruns_det _ _ _ _ S _ S'). apply reachable_alive. apply (grel_sound (fst r)). apply K. exact N.
Qed.
Print Assumptions C96_reachable_values_are_alive.

(** C96, no leak without a cycle or forget: if strong handles form no cycle, what is alive is reachable from a variable. *)
Theorem C96_only_cycles_leak : forall t boom os w, valid_target t -> few t os ->
  let r := grun t boom g_init os in
  (forall o, ~ In (o, GAborted) (snd r)) -> iruns boom i_init (snd r) w -> acyclic w ->
  forall n, alive w n -> reachable w n.
Proof.
  intros t boom os w Ht F r N S. destruct (grun_sim t boom os Ht g_init i_init g_init_rel) as (w' & S' & L & K); [unfold few in F; cbn [handles i_init inodes islots flat_map app length] in *; lia|].
  rewrite (iruns_det _ _ _ _ S _ S'). apply alive_reachable. apply (grel_sound (fst r)). apply K. exact N.
Qed.
Print Assumptions C96_only_cycles_leak.

(** C96: each value that was ever put into an [Rc] was dropped once, or moved out once, or is still alive. *)
Theorem C96_every_value_once : forall t boom os w, valid_target t -> few t os ->
  let r := grun t boom g_init os in
  iruns boom i_init (snd r) w ->
  Permutation (puts (glog (fst r))) (drops (glog (fst r)) ++ tooks (glog (fst r)) ++ living w).
Proof.
  intros t boom os w Ht F r S. destruct (C96_graphs_refine t boom os Ht F) as (w' & S' & L). cbv zeta in S', L. fold r in S', L.
  rewrite L. rewrite <- (iruns_det _ _ _ _ S _ S'). apply (iruns_bal boom i_init (snd r) w S). apply Permutation_refl.
Qed.
Print Assumptions C96_every_value_once.

(** C96: no counter is ever touched where there is no box and none over- or underflows; without a destructor that panics nothing does. *)
Theorem C96_counters_never_fail : forall t boom os, valid_target t -> few t os ->
  let r := grun t boom g_init os in
  (forall o, ~ In (o, GA AUb) (snd r)) /\
  (forall o, In (o, GA APanic) (snd r) -> exists i, o = GDrop i) /\
  ((forall v, boom v = false) -> forall o, ~ In (o, GA APanic) (snd r) /\ ~ In (o, GAborted) (snd r)).
Proof.
  intros t boom os Ht F r. destruct (C96_graphs_refine t boom os Ht F) as (w & S & _). fold r in S. cbv zeta in S.
  assert (ST : forall w hs p w' r, settles boom w hs p w' r -> r <> GUb /\ ((forall v, boom v = false) -> p = false -> r = GOk)).
  { clear. intros w hs p w' r H. induction H as [w p|w n hs p w' r Q IH|w n hs p w' r I Q IH|w n hs p v ks w' r I E B Q IH|w n hs v ks I E B]; auto.
    - split; [destruct p; discriminate|]. intros _ ->. reflexivity.
    - split; [apply IH|]. intros N ->. apply IH; [exact N|]. cbn. apply N.
    - split; discriminate. }
  assert (O : forall w h w', iruns boom w h w' -> forall o a, In (o, a) h -> exists w1 w2, istep boom w1 o a w2).
  { clear. intros w h w' H. induction H as [|w o a w1 h w2 H1 H2 IH|w o w1 H1]; intros o' a' Hin; [contradiction| |].
    - destruct Hin as [Q|Hin]; [|exact (IH _ _ Hin)]. injection Q as <- <-. eauto.
    - destruct Hin as [Q|[]]. injection Q as <- <-. eauto. }
  split; [|split].
  - intros o Hin. destruct (O _ _ _ S _ _ Hin) as (w1 & w2 & H). inversion H; subst. destruct (ST _ _ _ _ _ ltac:(eassumption)). destruct r0; try discriminate. congruence.
  - intros o Hin. destruct (O _ _ _ S _ _ Hin) as (w1 & w2 & H). inversion H; subst. eauto.
  - intros N o. split; intros Hin; destruct (O _ _ _ S _ _ Hin) as (w1 & w2 & H); inversion H; subst;
      match goal with A : settles _ _ _ _ _ ?r0 |- _ => destruct (ST _ _ _ _ _ A) as (_ & Q); rewrite (Q N eq_refl) in *; discriminate end.
Qed.
Print Assumptions C96_counters_never_fail.

(** A parent, a child that points back with a [Weak] and whose destructor panics, a shared grandchild; a cycle that leaks; an [upgrade]
    after the end; a value moved out with its handle; two destructors that panic in one drop. *)
Example C96_nonvacuous :
  let t := x64 true in let boom v := v =? 2 in
  let os := [GNew 1; GNew 2; GNew 3; GClone 2; GDowngrade 0; GPut 1 2; GPut 1 4; GPut 0 1; GGet 0 0; GStrong 5; GWeak 0; GDrop 5; GDrop 0; GRead 3; GStrong 3;
             GNew 7; GClone 6; GPut 6 7; GDowngrade 6; GDrop 6; GUpgrade 8; GTake 9 0; GUnwrap 9; GDrop 10; GUnwrap 9; GUpgrade 8; GRead 9;
             GNew 2; GPut 3 11; GNew 2; GPut 3 12; GDrop 3] in
  valid_target t /\ few t os /\
  map snd (snd (grun t boom g_init os)) =
  [GA (ATok 0); GA (ATok 1); GA (ATok 2); GA (ATok 3); GA (ATok 4); GA ADone; GA ADone; GA ADone; GA (ATok 5); GA (ANum 2); GA (ANum 2); GA ADone;
   GA APanic; GA (AVal 3); GA (ANum 1);
   GA (ATok 6); GA (ATok 7); GA ADone; GA (ATok 8); GA ADone; GA (ATok 9); GA (ATok 10); GA AErr; GA ADone; GA (AVal 7); GA ANone; GA AInvalid;
   GA (ATok 11); GA ADone; GA (ATok 12); GA ADone; GAborted] /\
  glog (fst (grun t boom g_init os)) =
  [Put 1; Put 2; Put 3; Dropped 1; Dropped 2; Put 7; Took 7; Put 2; Put 2; Dropped 3; Dropped 2; Dropped 2].
Proof. cbv zeta. split; [split; [cbn; auto|split; [exists 3; split; [lia|reflexivity]|exists 1; reflexivity]]|]. split; [unfold few, usize_max, addr_space; cbn; lia|]. split; reflexivity. Qed.

(** A leaked cycle: alive, not reachable, and the graph is not acyclic; a tree: acyclic. *)
Example C96_cycle :
  let os := [GNew 7; GClone 0; GPut 0 1; GDrop 0] in
  exists w, iruns (fun _ => false) i_init (snd (grun (x64 true) (fun _ => false) g_init os)) w /\ alive w 0 /\ ~ reachable w 0 /\ ~ acyclic w.
Proof.
  exists (MkIG [MkI 7 (Some [HS 0])] [SGone; SGone] [Put 7]). split; [|split; [|split]].
  - change (snd (grun (x64 true) (fun _ => false) g_init [GNew 7; GClone 0; GPut 0 1; GDrop 0])) with
      [(GNew 7, GA (ATok 0)); (GClone 0, GA (ATok 1)); (GPut 0 1, GA ADone); (GDrop 0, GA ADone)].
    pose (b := fun _ : rvalue => false). fold b.
    set (w1 := MkIG [MkI 7 (Some [])] [SHeld (HS 0)] [Put 7]). set (w2 := MkIG [MkI 7 (Some [])] [SHeld (HS 0); SHeld (HS 0)] [Put 7]).
    set (w3 := MkIG [MkI 7 (Some [HS 0])] [SHeld (HS 0); SGone] [Put 7]).
    apply (ir_cons b i_init _ _ w1); [exact (i_new b i_init 7)|]. apply (ir_cons b w1 _ _ w2); [exact (i_clone b w1 0 (HS 0) eq_refl)|].
    apply (ir_cons b w2 _ _ w3); [exact (i_put b w2 0 1 0 7 [] (HS 0) eq_refl eq_refl ltac:(discriminate) eq_refl)|].
    eapply ir_cons; [apply (i_drop b w3 0 (HS 0) (MkIG [MkI 7 (Some [HS 0])] [SGone; SGone] [Put 7]) GOk eq_refl)|apply ir_nil].
    apply se_shared; [left; reflexivity|]. apply (se_nil _ _ false).
  - exists 7, [HS 0]. reflexivity.
  - assert (N : forall n, ~ reachable (MkIG [MkI 7 (Some [HS 0])] [SGone; SGone] [Put 7]) n); [|apply N].
    intros n H. induction H as [i x n E I|n v ks m R IH E I]; [|exact IH].
    destruct i as [|[|i]]; cbn in E; try (injection E as <-; contradiction). destruct i; discriminate.
  - intros (rank & A). specialize (A 0%nat 7 [HS 0] 0%nat eq_refl ltac:(left; reflexivity)). lia.
Qed.
