(** * EBorrowWorld: programs that use an ExitStack. *)
From Verif Require Import Base Spec BaseFacts SyncModel SyncSpec UnsyncModel UnsyncSpec UnsyncProofs ExitModel ExitProofs BorrowModel BorrowSpec BorrowProofs BorrowState BorrowWorld
  UBorrowModel UBorrowSpec UBorrowSub UBorrowCells UBorrowCalls UBorrowReset UBorrowWorld EBorrowModel EBorrowSpec EBorrowBase EBorrowSlot EBorrowOps.

(** ** Slots *)
Definition status_ok (n : nat) (used ex : list nat) (s : slotref) (x : sstatus) (y : istatus) (F : iobj) : Prop :=
  match x, y with
  | SOver, IOver => True
  | SOpen, IOpen => In (spointer s) (itags F) /\ ~ In (spointer s) used /\ sobj n (fun _ => [spointer s]) (spointer s) bare [] (fun _ => []) F
  | SPinned tags, IPinned o base => base = spointer s /\ iblk o = sval s /\ itags o = tags /\ incl (spointer s :: tags) (itags F) /\
      sobj n (fun _ => ex ++ [spointer s]) (spointer s) (in_block (iblk o)) (itags o) (istk o) F
  | _, _ => False
  end.

Record slot_ok (n : nat) (used ex : list nat) (p : slotref * sstatus) (v : islot) (F : iobj) : Prop := {
  q_blk : sblk (fst p) = is_blk v;
  q_F : iblk F = sblk (fst p);
  q_unp : sunpin (fst p) = is_unpin v;
  q_val : within (sval (fst p)) (sblk (fst p));
  q_link : within (slink (fst p)) (sblk (fst p));
  q_dis : disjoint (slink (fst p)) (sval (fst p));
  q_size : size (sval (fst p)) = lsize (is_lay v);
  q_al : aligned (start (sval (fst p))) (lalign (is_lay v));
  q_pos : 0 < size (sblk (fst p));
  q_ptr : (spointer (fst p) < n)%nat;
  q_st : status_ok n used ex (fst p) (snd p) (is_status v) F }.

Lemma status_more n n' used used' ex ex' s x y F : (n <= n')%nat -> (~ In (spointer s) used -> ~ In (spointer s) used') -> incl ex' ex -> status_ok n used ex s x y F -> status_ok n' used' ex' s x y F.
Proof.
  intros L U X. destruct x as [|tags|], y as [|o base|]; cbn [status_ok]; auto.
  - intros (A & B & C). split; [exact A|]. split; [auto|]. eapply sobj_more; [exact L|intros; apply incl_refl|exact C].
  - intros (A & B & C & D & E). split; [exact A|]. split; [exact B|]. split; [exact C|]. split; [exact D|]. eapply sobj_more; [exact L| |exact E]. intros z _ h K. apply in_app_or in K. apply in_or_app. destruct K; auto.
Qed.
Lemma slot_more n n' used used' ex ex' p v F : (n <= n')%nat -> (~ In (spointer (fst p)) used -> ~ In (spointer (fst p)) used') -> incl ex' ex -> slot_ok n used ex p v F -> slot_ok n' used' ex' p v F.
Proof. intros L U X []. split; auto; [lia|]. eapply status_more; eauto. Qed.

(** another state of a slot *)
Lemma slot_status n n' used used' ex ex' s x x' v y F F' : (n <= n')%nat -> iblk F' = iblk F -> slot_ok n used ex (s, x) v F -> status_ok n' used' ex' s x' y F' -> slot_ok n' used' ex' (s, x') (with_status v y) F'.
Proof. intros L B [] S. cbn [fst snd] in *. split; cbn [fst snd with_status is_blk is_unpin is_lay is_status]; auto; [congruence|lia]. Qed.

Record slots_ok (n : nat) (used : list nat) (ex : nat -> list nat) (ys : list (slotref * sstatus)) (js : list islot) (Fs : list iobj) : Prop := {
  r_ys : length ys = length Fs;
  r_js : length js = length Fs;
  r_at : forall k p v F, nth_error ys k = Some p -> nth_error js k = Some v -> nth_error Fs k = Some F -> slot_ok n used (ex k) p v F;
  r_ptr : NoDup (map (fun p => spointer (fst p)) ys) }.

Lemma nth_some {A B} (l : list A) (m : list B) k x : length l = length m -> nth_error l k = Some x -> exists y, nth_error m k = Some y.
Proof. intros L E. destruct (nth_error m k) eqn:M; [eauto|]. apply nth_error_None in M. rewrite <- L in M. apply nth_error_None in M. congruence. Qed.

Lemma slots_more n n' used used' ex ex' ys js Fs : (n <= n')%nat -> (forall p, In p ys -> ~ In (spointer (fst p)) used -> ~ In (spointer (fst p)) used') -> (forall k, incl (ex' k) (ex k)) ->
  slots_ok n used ex ys js Fs -> slots_ok n' used' ex' ys js Fs.
Proof.
  intros L U X [a b c d]. split; auto. intros k p v F E1 E2 E3. apply (slot_more n n' used used' (ex k) (ex' k) p v F L); auto. apply U. eapply nth_error_In; eauto.
Qed.

Lemma slots_set n n' used used' ex ex' ys js Fs k s x x' v y F F' : slots_ok n used ex ys js Fs -> (n <= n')%nat ->
  nth_error ys k = Some (s, x) -> nth_error js k = Some v -> nth_error Fs k = Some F ->
  iblk F' = iblk F -> status_ok n' used' (ex' k) s x' y F' ->
  (forall j, j <> k -> incl (ex' j) (ex j)) -> (forall j p, j <> k -> nth_error ys j = Some p -> ~ In (spointer (fst p)) used -> ~ In (spointer (fst p)) used') ->
  slots_ok n' used' ex' (set_nth ys k (s, x')) (set_nth js k (with_status v y)) (set_nth Fs k F').
Proof.
  intros [a b c d] L E1 E2 E3 B S X U. split.
  - rewrite !set_nth_length. exact a.
  - rewrite !set_nth_length. exact b.
  - intros j p w G N1 N2 N3. destruct (Nat.eq_dec j k) as [->|Nj].
    + rewrite (set_nth_nth _ _ _ _ E1) in N1. rewrite (set_nth_nth _ _ _ _ E2) in N2. rewrite (set_nth_nth _ _ _ _ E3) in N3. injection N1 as <-. injection N2 as <-. injection N3 as <-.
      eapply slot_status; eauto.
    + rewrite set_nth_ne in N1 by exact Nj. rewrite set_nth_ne in N2 by exact Nj. rewrite set_nth_ne in N3 by exact Nj. eapply slot_more; [exact L| | |eauto]; eauto.
  - rewrite (set_nth_map (fun p => spointer (fst p)) ys k (s, x') (s, x) E1 eq_refl). exact d.
Qed.

Definition pinned (ys : list (slotref * sstatus)) (k : nat) : Prop := exists s tags, nth_error ys k = Some (s, SPinned tags).

Lemma pinned_set ys k s tags x j : nth_error ys k = Some (s, x) -> pinned ys j -> pinned (set_nth ys k (s, SPinned tags)) j.
Proof.
  intros E (s' & t' & E'). destruct (Nat.eq_dec j k) as [->|N]; [exists s, tags; eapply set_nth_nth; eauto|]. exists s', t'. rewrite set_nth_ne by exact N. exact E'.
Qed.

Definition extra (d : option (nat * nat * nat * list nat * nat)) (k : nat) : list nat :=
  match d with Some (_, k', slot, _, _) => if Nat.eqb k k' then [slot] else [] | None => [] end.

Lemma nth_snoc {A} (l : list A) x j y : nth_error (l ++ [x]) j = Some y -> nth_error l j = Some y \/ y = x.
Proof.
  intros E. destruct (Nat.lt_ge_cases j (length l)) as [L|L]; [rewrite nth_error_app1 in E by exact L; auto|]. rewrite nth_error_app2 in E by exact L.
  destruct (j - length l)%nat as [|m]; cbn in E; [injection E as ->; auto|destruct m; discriminate].
Qed.
Lemma nodup_snoc {A} (l : list A) x : NoDup l -> ~ In x l -> NoDup (l ++ [x]).
Proof. intros N I. apply NoDup_Add with (a := x) (l := l); [|auto]. replace l with (l ++ []) at 1 by apply app_nil_r. apply Add_app. Qed.

(** ** The invariant *)
Section World.
Variables (t : target) (hd st tp : block) (unpin : bool).
Hypothesis (Ht : valid_target t) (d1 : disjoint hd st) (d2 : disjoint hd tp) (d3 : disjoint st tp).
Let pl := MkPlaces hd st tp.

Definition efree (c : Z) (x : Z) : Prop := frees hd st c x \/ in_block tp x.

Record drop_ok (w : yworld) (cs : caps) (Fs : list iobj) (c k slot : nat) (chain : list nat) (self : nat) : Prop := {
  o_unp : unpin = false;
  o_shares : yshares w = [];
  o_chain : ychain w = [];
  o_busy : In c (ybusy w);
  o_self : over cs self [hd; st; tp];
  o_pin : Forall (pinned (yslots w)) chain;
  o_open : forall k s, nth_error (yslots w) k <> Some (s, SOpen);
  o_this : pinned (yslots w) k;
  o_slot : forall F, nth_error Fs k = Some F -> In slot (itags F) }.

Record yinv (w : yworld) (i : yideal) (cs : caps) (Fs : list iobj) : Prop := {
  y_ok : uok t (ybump w);
  y_st : udata (ybump w) = st;
  y_holds : holds true cs Fs (efree (uindex (ybump w))) (ysb w);
  y_free : Forall (free_tags cs) Fs;
  y_shares : Forall (fun n => over cs n [hd; st; tp]) (yshares w);
  y_open : forall k s, nth_error (yslots w) k = Some (s, SOpen) -> over cs (sslotter s) [tp];
  y_slots : slots_ok (nexttag (ysb w)) (j_used i) (extra (ydrop w)) (yslots w) (j_slots i) Fs;
  y_below : forall o x, In o Fs -> in_block (iblk o) x -> in_block st x /\ x < start st + uindex (ybump w);
  y_pair : pairwise disjoint (map iblk Fs);
  y_used : forall n, In n (j_used i) -> (n < nexttag (ysb w))%nat;
  y_count : j_shares i = length (yshares w);
  y_chain : j_chain i = ychain w;
  y_pin : Forall (pinned (yslots w)) (ychain w);
  y_drop : j_drop i = match ydrop w with Some (c, _, _, chain, _) => Some (chain, c) | None => None end;
  y_dropok : match ydrop w with Some (c, k, slot, chain, self) => drop_ok w cs Fs c k slot chain self | None => True end;
  y_busy : j_busy i = ybusy w;
  y_calls : j_calls i = ycalls w }.

Lemma yuses c Fs : (forall o x, In o Fs -> in_block (iblk o) x -> in_block st x /\ x < start st + c) -> forall o x, In o Fs -> in_block (iblk o) x -> ~ efree c x.
Proof.
  intros B o x Io X [[F|[_ F]]|F]; pose proof (B o x Io X) as [F1 F2]; [exact (d1 x (conj F F1))|lia|exact (d3 x (conj F1 F))].
Qed.
Lemma tp_free c x : in_block tp x -> efree c x.
Proof. right. assumption. Qed.
Lemma hd_free c x : in_block hd x -> efree c x.
Proof. left. left. assumption. Qed.

Lemma below_set Fs k F F' (c : Z) : nth_error Fs k = Some F -> iblk F' = iblk F -> (forall o x, In o Fs -> in_block (iblk o) x -> in_block st x /\ x < c) ->
  forall o x, In o (set_nth Fs k F') -> in_block (iblk o) x -> in_block st x /\ x < c.
Proof. intros E B H o x O X. apply set_nth_in in O. destruct O as [->|O]; [rewrite B in X; apply (H F x); [eapply nth_error_In; eauto|exact X]|eauto]. Qed.
Lemma free_set cs Fs k F' : Forall (free_tags cs) Fs -> free_tags cs F' -> Forall (free_tags cs) (set_nth Fs k F').
Proof. intros A B. apply Forall_forall. intros o O. apply set_nth_in in O. destruct O as [->|O]; [exact B|]. rewrite Forall_forall in A. auto. Qed.
Lemma pair_set (Fs : list iobj) k F F' : nth_error Fs k = Some F -> iblk F' = iblk F -> pairwise disjoint (map iblk Fs) -> pairwise disjoint (map iblk (set_nth Fs k F')).
Proof. intros E B P. rewrite (set_nth_map iblk Fs k F' F E B). exact P. Qed.

(** *** A new shared reference *)
Lemma share_inv w i cs Fs n b : yinv w i cs Fs -> ydrop w = None -> nexttag (ysb w) = n -> nexttag b = S n -> holds true ((n, [hd; st; tp]) :: cs) Fs (efree (uindex (ybump w))) b ->
  yinv (MkYW (ybump w) b (yshares w ++ [n]) (yslots w) (ychain w) None (ybusy w) (ycalls w)) (MkYI (j_slots i) (j_used i) (S (j_shares i)) (j_chain i) None (j_busy i) (j_calls i)) ((n, [hd; st; tp]) :: cs) Fs.
Proof.
  intros I Nd N1 N2 H. destruct I as [a1 a2 a3 a4 a5 a6 a7 a8 a9 a10 a11 a12 a13 a14 a15 a16 a17]. rewrite Nd in *.
  assert (Inc : forall m bs, over cs m bs -> over ((n, [hd; st; tp]) :: cs) m bs) by (intros m bs; apply over_more; intros q Q; right; exact Q).
  split; cbn [ybump ysb yshares yslots ychain ydrop ybusy ycalls j_slots j_used j_shares j_chain j_drop j_busy j_calls]; auto.
  - apply Forall_forall. intros F IF t0 bs [[= <- <-]|K]; [|rewrite Forall_forall in a4; exact (a4 F IF t0 bs K)]. intros K. pose proof (h_tags _ _ _ _ _ a3 F _ IF K). lia.
  - apply Forall_app. split; [eapply Forall_impl; [|exact a5]; auto|]. constructor; [|constructor]. intros b0 x B X. exists [hd; st; tp], b0. split; [left; reflexivity|auto].
  - intros k s E. apply Inc. eauto.
  - eapply slots_more; [| | |exact a7]; [lia|auto|intros; apply incl_refl].
  - intros m M. specialize (a10 m M). lia.
  - rewrite app_length, a11. cbn. lia.
Qed.

(** *** The next destructor *)
Lemma go_inv w i cs Fs b self slots js chain ex : unpin = false ->
  uok t (ybump w) -> udata (ybump w) = st -> holds true cs Fs (efree (uindex (ybump w))) b -> Forall (free_tags cs) Fs -> over cs self [hd; st; tp] ->
  slots_ok (nexttag b) (j_used i) ex slots js Fs -> (forall o x, In o Fs -> in_block (iblk o) x -> in_block st x /\ x < start st + uindex (ybump w)) -> pairwise disjoint (map iblk Fs) ->
  (forall n, In n (j_used i) -> (n < nexttag b)%nat) -> (forall k s, nth_error slots k <> Some (s, SOpen)) -> Forall (pinned slots) chain -> j_calls i = ycalls w ->
  exists i' cs' Fs', igo i js chain (snd (e_go pl false w self b slots chain)) i' /\ yinv (fst (e_go pl false w self b slots chain)) i' cs' Fs'.
Proof.
  intros Eu a1 a2 a3 a4 Os a7 a8 a9 a10 a6 Pc a17. destruct chain as [|k chain]; cbn [e_go].
  - destruct (e_finish_cell hd st tp d1 d2 d3 Fs _ cs b (ybump w) self (tp_free _) a2 a3 Os) as (b' & E1 & L1 & H1). fold pl in E1. rewrite E1. cbn [fst snd].
    exists (j_reset i), [], []. split; [constructor|].
    split; cbn [ybump ysb yshares yslots ychain ydrop ybusy ycalls j_reset j_slots j_used j_shares j_chain j_drop j_busy j_calls]; auto.
    + destruct a1 as [V C]. split; [exact V|]. cbn. destruct V as (_ & V & _). cbn in V. lia.
    + eapply holds_fr; [|exact H1]. unfold all_free. intros x [[X|[X _]]|X]; auto.
    + intros k s E. destruct k; discriminate.
    + split; [reflexivity|reflexivity| |constructor]. intros k p v F E. destruct k; discriminate.
    + intros o x [].
    + apply pairwise_nil.
    + intros n M. specialize (a10 n M). lia.
  - inversion Pc as [|? ? (s & tags & Ek) Pc']; subst. rewrite Ek. destruct (nth_some _ _ _ _ (r_ys _ _ _ _ _ _ a7) Ek) as [F EF].
    destruct (nth_some _ _ _ _ (eq_sym (r_js _ _ _ _ _ _ a7)) EF) as [v Ev]. pose proof (r_at _ _ _ _ _ _ a7 _ _ _ _ Ek Ev EF) as Sk. pose proof Sk as [q1 q2 q3 q4 q5 q6 q7 q8 q9 q10 q11]. cbn [fst snd] in *.
    destruct (is_status v) as [|o base|] eqn:Es; cbn [status_ok] in q11; try contradiction. destruct q11 as (-> & Bo & To & Io & So).
    pose proof (nth_error_In _ _ EF) as IF. assert (Fk : free_tags cs F) by (rewrite Forall_forall in a4; auto).
    destruct (e_start_runs Fs _ cs b k F s (ycalls w) o (ex k ++ [spointer s]) EF a9 (yuses _ _ a8) a3 Fk q2 q4) as (slot & d & b' & F' & o' & E1 & L1 & B1 & I1 & M1 & Bo' & To' & So' & H1 & Fr1).
    { apply Io. left. reflexivity. } { apply in_or_app. right. left. reflexivity. } { exact Bo. } { rewrite To. intros z Z0. apply Io. right. exact Z0. } { exact So. }
    rewrite E1. cbn [fst snd]. rewrite <- a17.
    assert (Nd : ~ In d (j_used i)) by (intros K; specialize (a10 d K); lia).
    exists (MkYI (set_nth js k (with_status v (IPinned o' (spointer s)))) (d :: j_used i) 0 [] (Some (chain, j_calls i)) [j_calls i] (S (j_calls i))), cs, (set_nth Fs k F'). split.
    { rewrite q3 in M1. apply (IGo i js k chain v o (spointer s) d o'); auto. rewrite a17. exact M1. }
    split; cbn [ybump ysb yshares yslots ychain ydrop ybusy ycalls j_slots j_used j_shares j_chain j_drop j_busy j_calls]; auto.
    + apply free_set; assumption.
    + intros j s' Ej. exfalso. destruct (Nat.eq_dec j k) as [->|Nj]; [rewrite (set_nth_nth _ _ _ _ Ek) in Ej; discriminate|]. rewrite set_nth_ne in Ej by exact Nj. exact (a6 j s' Ej).
    + eapply (slots_set (nexttag b) (nexttag b') (j_used i) _ ex _ slots js Fs k s (SPinned tags) _ v _ F F' a7); auto; [lia| | |].
      * cbn [status_ok extra]. rewrite Nat.eqb_refl. split; [reflexivity|]. split; [congruence|]. split; [congruence|]. split; [|exact So'].
        intros z [<-|[<-|Z0]]; apply I1; [right; right; apply Io; left; reflexivity|left; reflexivity|right; right; apply Io; right; exact Z0].
      * intros j Nj. cbn [extra]. apply Nat.eqb_neq in Nj. rewrite Nj. intros z [].
      * intros j p Nj Ej Nu [K|K]; [|auto]. destruct (nth_some _ _ _ _ (r_ys _ _ _ _ _ _ a7) Ej) as [Fj EFj].
        destruct (nth_some _ _ _ _ (eq_sym (r_js _ _ _ _ _ _ a7)) EFj) as [vj Evj]. pose proof (q_ptr _ _ _ _ _ _ (r_at _ _ _ _ _ _ a7 _ _ _ _ Ej Evj EFj)). lia.
    + apply (below_set Fs k F F' _ EF B1 a8).
    + apply (pair_set Fs k F F' EF B1 a9).
    + intros m [<-|M]; [lia|]. specialize (a10 m M). lia.
    + split; cbn [yshares ychain ybusy yslots]; auto.
      * left. reflexivity.
      * eapply Forall_impl; [|exact Pc']. intros j. apply (pinned_set slots k s (d :: tags) (SPinned tags)). exact Ek.
      * intros j s'. destruct (Nat.eq_dec j k) as [->|Nj]; [rewrite (set_nth_nth _ _ _ _ Ek); discriminate|]. rewrite set_nth_ne by exact Nj. apply a6.
      * exists s, (d :: tags). eapply set_nth_nth; eauto.
      * intros F0 E0. rewrite (set_nth_nth _ _ _ _ EF) in E0. injection E0 as <-. apply I1. right. left. reflexivity.
Qed.

(** *** Slots end *)
Lemma slots_map n used ex ys js Fs (f : slotref * sstatus -> slotref * sstatus) (g : islot -> islot) : slots_ok n used ex ys js Fs -> (forall p, fst (f p) = fst p) ->
  (forall e p v F, slot_ok n used e p v F -> slot_ok n used e (f p) (g v) F) -> slots_ok n used ex (map f ys) (map g js) Fs.
Proof.
  intros [a b c d] E G. split.
  - rewrite map_length. exact a.
  - rewrite map_length. exact b.
  - intros k p v F E1 E2 E3. rewrite nth_error_map in E1, E2. destruct (nth_error ys k) as [p0|] eqn:K1; [|discriminate]. destruct (nth_error js k) as [v0|] eqn:K2; [|discriminate].
    cbn [option_map] in E1, E2. injection E1 as <-. injection E2 as <-. apply G. apply (c k); assumption.
  - rewrite map_map. erewrite map_ext; [exact d|]. intros p. cbn beta. rewrite E. reflexivity.
Qed.
Lemma slots_over n used ex ys js Fs : slots_ok n used ex ys js Fs -> slots_ok n used ex (end_slots ys) (map over_all js) Fs.
Proof. intros H. apply (slots_map _ _ _ _ _ _ (fun p => (fst p, SOver)) over_all H); [reflexivity|]. intros e p v F []. split; cbn [fst snd over_all with_status is_blk is_unpin is_lay is_status]; auto. exact Logic.I. Qed.
Lemma slots_open n used ex ys js Fs : slots_ok n used ex ys js Fs -> slots_ok n used ex (end_open ys) (map over_open js) Fs.
Proof.
  intros H. apply (slots_map _ _ _ _ _ _ (fun p => (fst p, match snd p with SOpen => SOver | s => s end)) over_open H); [reflexivity|]. intros e [s x] v F S. pose proof S as []. cbn [fst snd] in *.
  unfold over_open. destruct x as [|tags|], (is_status v) as [|o base|] eqn:E; cbn [status_ok] in q_st0; try contradiction; try exact S. split; cbn [fst snd with_status is_blk is_unpin is_lay is_status]; auto. exact Logic.I.
Qed.
Lemma pinned_open ys k : pinned ys k -> pinned (end_open ys) k.
Proof. intros (s & tags & E). exists s, tags. unfold end_open. rewrite nth_error_map, E. reflexivity. Qed.
Lemma no_open ys k s : nth_error (end_open ys) k <> Some (s, SOpen).
Proof. unfold end_open. rewrite nth_error_map. destruct (nth_error ys k) as [[s0 [|tags|]]|]; cbn; congruence. Qed.
Lemma no_over ys k s : nth_error (end_slots ys) k <> Some (s, SOpen).
Proof. unfold end_slots. rewrite nth_error_map. destruct (nth_error ys k) as [[s0 [|tags|]]|]; cbn; congruence. Qed.

(** the slot of an index *)
Lemma slot_at n used ex ys js Fs k p : slots_ok n used ex ys js Fs -> nth_error ys k = Some p -> exists v F, nth_error js k = Some v /\ nth_error Fs k = Some F /\ slot_ok n used (ex k) p v F.
Proof.
  intros H E. destruct (nth_some _ _ _ _ (r_ys _ _ _ _ _ _ H) E) as [F EF]. destruct (nth_some _ _ _ _ (eq_sym (r_js _ _ _ _ _ _ H)) EF) as [v Ev]. exists v, F. split; [exact Ev|]. split; [exact EF|].
  apply (r_at _ _ _ _ _ _ H k); assumption.
Qed.
Lemma slot_of n used ex ys js Fs k v : slots_ok n used ex ys js Fs -> nth_error js k = Some v -> exists p F, nth_error ys k = Some p /\ nth_error Fs k = Some F /\ slot_ok n used (ex k) p v F.
Proof.
  intros H E. destruct (nth_some _ _ _ _ (r_js _ _ _ _ _ _ H) E) as [F EF]. destruct (nth_some _ _ _ _ (eq_sym (r_ys _ _ _ _ _ _ H)) EF) as [p Ep]. exists p, F. split; [exact Ep|]. split; [exact EF|].
  apply (r_at _ _ _ _ _ _ H k); assumption.
Qed.

Lemma place_geo l a : type_layout t l -> aligned a (lalign (pin_layout t l)) -> forall p top unp, let s := place_slot t l unp a p top in
  within (sval s) (sblk s) /\ within (slink s) (sblk s) /\ disjoint (slink s) (sval s) /\ size (sval s) = lsize l /\ aligned (start (sval s)) (lalign l) /\ 0 < size (sblk s).
Proof.
  intros Hl A p top unp. cbn zeta. destruct (voff_facts t l Ht Hl) as (V1 & V2 & V3 & V4). destruct (tl_pos t l Hl) as [P1 P2]. pose proof (word_pos t Ht). unfold place_slot. cbn [sval sblk slink].
  split; [|split; [|split; [|split; [|split]]]].
  - unfold within. cbn [start size]. lia.
  - unfold within. cbn [start size]. lia.
  - intros x [X Y]. unfold in_block in *. cbn [start size] in *. lia.
  - reflexivity.
  - cbn [start]. unfold aligned in *. apply Z.divide_add_r; [|exact V2]. eapply Z.divide_trans; [|exact A]. unfold pin_layout. cbn [lalign].
    apply pow2_divide; [apply Hl| |lia]. destruct (Z.max_spec (usize_align t) (lalign l)) as [[_ ->]|[_ ->]]; [apply Hl|apply Ht].
  - cbn [size]. exact V4.
Qed.

(** *** One step *)
Lemma ystep_inv w i cs Fs o : yinv w i cs Fs -> yop_ok t o ->
  exists i' cs' Fs', yistep t st unpin i o (snd (ystep t pl unpin w o)) i' /\ yinv (fst (ystep t pl unpin w o)) i' cs' Fs'.
Proof.
  intros I Oo. pose proof I as [a1 a2 a3 a4 a5 a6 a7 a8 a9 a10 a11 a12 a13 a14 a15 a16 a17]. destruct o as [[k|]|k l p|k| | | |k a| |c]; cbn [ystep].
  - destruct (ydrop w) as [[[[[c0 k0] sl0] ch0] se0]|] eqn:Ed.
    { cbn [fst snd]. exists i, cs, Fs. split; [apply YIShareNot; left; rewrite a14; discriminate|exact I]. }
    destruct (nth_error (yshares w) k) as [self|] eqn:E.
    + assert (Hk : (k < j_shares i)%nat) by (rewrite a11; apply nth_error_Some; congruence).
      assert (Os : over cs self [hd; st; tp]) by (rewrite Forall_forall in a5; apply a5; eapply nth_error_In; eauto).
      destruct (cell (ybusy w) true cs Fs _ self [hd; st; tp] (ysb w) a3 (three hd st tp d1 d2 d3) Os) as (b & E1 & N1 & H1).
      unfold stack_ref. cbn [p_hd p_st p_tp pl]. cbn [map] in E1. rewrite E1. cbn [fst snd].
      eexists _, _, Fs. split; [apply YIShare; [exact a14|exact Hk]|]. eapply share_inv; eauto.
    + cbn [fst snd]. exists i, cs, Fs. split; [apply YIShareNot; right; exists k; split; [reflexivity|]; rewrite a11; apply nth_error_None; exact E|exact I].
  - destruct (ydrop w) as [[[[[c0 k0] sl0] ch0] se0]|] eqn:Ed.
    { cbn [fst snd]. exists i, cs, Fs. split; [apply YIShareNot; left; rewrite a14; discriminate|exact I]. }
    destruct (owner_cells (ybusy w) Fs _ cs (ysb w) [hd; st; tp] a3 (three hd st tp d1 d2 d3)) as (b & E1 & N1 & H1).
    unfold stack_ref. cbn [p_hd p_st p_tp pl]. cbn [map] in E1. rewrite E1. cbn [fst snd].
    eexists _, _, Fs. split; [apply YIShareOwner; exact a14|]. eapply share_inv; eauto.
  - (* slot *)
    destruct (ydrop w) as [[[[[c0 k0] sl0] ch0] se0]|] eqn:Ed.
    { cbn [fst snd]. exists i, cs, Fs. split; [apply YISlotNot; left; rewrite a14; discriminate|exact I]. }
    destruct (nth_error (yshares w) k) as [self|] eqn:E.
    2:{ cbn [fst snd]. exists i, cs, Fs. split; [apply YISlotNot; right; rewrite a11; apply nth_error_None; exact E|exact I]. }
    assert (Hk : (k < j_shares i)%nat) by (rewrite a11; apply nth_error_Some; congruence).
    assert (Os : over cs self [hd; st; tp]) by (rewrite Forall_forall in a5; apply a5; eapply nth_error_In; eauto).
    cbn [yop_ok] in Oo. destruct Oo as [Ol Op]. assert (Vc : valid_ucall t (UBumpBox (pin_layout t l))) by exact Op.
    pose proof (ustep_ok t (ybump w) (UBumpBox (pin_layout t l)) Ht a1 Vc) as [S1 S2]. pose proof (ustep_place t (ybump w) (UBumpBox (pin_layout t l))) as SP.
    pose proof (ustep_same t (ybump w) (UBumpBox (pin_layout t l)) Ht a1 Vc ltac:(discriminate)) as Mono.
    destruct (e_slot_runs hd st tp d1 d2 d3 (ybusy w) t Fs _ cs (ysb w) (ybump w) l p self (hd_free _) (tp_free _) a9 (yuses _ _ a8) a2 a3 Os) as (so & b & E1 & L1 & R).
    { intros a Ea. destruct (SP a Ht a1 Vc Ea) as (l' & El & _ & P1 & P2 & P3 & P4). cbn [ucall_layout] in El. injection El as <-. rewrite a2 in *. cbn zeta. split; [exact P1|]. split.
      - intros x X. left. right. split; [apply P1; exact X|]. apply (P3 x X).
      - apply Forall_forall. intros o Io x [X1 X2]. pose proof (P3 x X1). pose proof (a8 o x Io X2). lia. }
    fold pl in E1. rewrite E1. destruct (ustep t (ybump w) (UBumpBox (pin_layout t l))) as [u' r]. cbn [fst snd] in *.
    assert (Other : (forall a, r <> RBlock a) -> so = None -> holds true cs Fs (efree (uindex (ybump w))) b ->
      exists i' cs' Fs', yistep t st unpin i (YSlot k l p) (BResponse r None) i' /\
        yinv (MkYW u' b (yshares w) (match so with Some s => yslots w ++ [(s, SOpen)] | None => yslots w end) (ychain w) None (ybusy w) (ycalls w)) i' cs' Fs').
    { intros N -> H. exists i, cs, Fs. split; [apply YISlotOther; auto|]. rewrite (Mono N).
      split; cbn [ybump ysb yshares yslots ychain ydrop ybusy ycalls]; auto.
      - eapply slots_more; [exact L1| |intros; apply incl_refl|exact a7]. auto.
      - intros m M. specialize (a10 m M). lia. }
    destruct r as [a| |f|lv| |m]; try (destruct R as [-> R]; apply Other; [intros ? ?; discriminate|reflexivity|exact R]).
    clear Other Mono. destruct R as (pp & top & F & -> & Lp & Lt & G1 & G2 & G3 & G4 & H). destruct (SP a Ht a1 Vc eq_refl) as (l' & El & _ & P1 & P2 & P3 & P4). clear SP. cbn zeta in *. cbn [ucall_layout] in El. injection El as <-.
    set (bl := MkBlock (ptr a) (lsize (pin_layout t l))) in *. rewrite a2 in *.
    assert (Db : Forall (fun o => disjoint bl (iblk o)) Fs).
    { apply Forall_forall. intros o Io x [X1 X2]. pose proof (P3 x X1). pose proof (a8 o x Io X2). lia. }
    assert (Di : Forall (fun v => disjoint bl (is_blk v)) (j_slots i)).
    { apply Forall_forall. intros v Iv. apply In_nth_error in Iv. destruct Iv as [j Ej]. destruct (slot_of _ _ _ _ _ _ _ _ a7 Ej) as (p0 & F0 & _ & EF & [q1 q2 _ _ _ _ _ _ _ _ _]).
      rewrite <- q1, <- q2. rewrite Forall_forall in Db. apply Db. eapply nth_error_In; eauto. }
    exists (MkYI (j_slots i ++ [MkIS bl l p IOpen]) (j_used i) (j_shares i) (j_chain i) None (j_busy i) (j_calls i)), ((top, [tp]) :: cs), (Fs ++ [F]).
    split; [apply (YISlot t st unpin i k l p a); auto|].
    assert (Inc : forall m bs, over cs m bs -> over ((top, [tp]) :: cs) m bs) by (intros m bs; apply over_more; intros q Q; right; exact Q).
    destruct (place_geo l (ptr a) Ol P2 pp top p) as (g1 & g2 & g3 & g4 & g5 & g6).
    split; cbn [ybump ysb yshares yslots ychain ydrop ybusy ycalls j_slots j_used j_shares j_chain j_drop j_busy j_calls]; auto.
    + eapply holds_fr; [|exact H]. intros x [[X|[X1 X2]]|X].
      * split; [left; left; exact X|]. intros X'. apply (d1 x). split; [exact X|]. apply P1. exact X'.
      * split; [left; right; split; [exact X1|lia]|]. intros X'. pose proof (P3 x X'). lia.
      * split; [right; exact X|]. intros X'. apply (d3 x). split; [|exact X]. apply P1. exact X'.
    + apply Forall_app. split.
      * apply Forall_forall. intros F0 I0 t0 bs [[= <- <-]|K]; [|rewrite Forall_forall in a4; exact (a4 F0 I0 t0 bs K)]. intros K. pose proof (h_tags _ _ _ _ _ a3 F0 _ I0 K). lia.
      * constructor; [|constructor]. intros t0 bs [[= <- <-]|K] Q; specialize (G2 _ Q); [lia|]. pose proof (h_caps _ _ _ _ _ a3 t0 bs K). lia.
    + eapply Forall_impl; [|exact a5]. auto.
    + intros j s Ej. apply nth_snoc in Ej. destruct Ej as [Ej|[= ->]]; [apply Inc; eauto|]. cbn [place_slot sslotter]. intros b0 x B X. exists [tp], b0. split; [left; reflexivity|auto].
    + split.
      * rewrite !app_length, (r_ys _ _ _ _ _ _ a7). reflexivity.
      * rewrite !app_length, (r_js _ _ _ _ _ _ a7). reflexivity.
      * intros j p0 v F0 E4 E5 E6.
        destruct (Nat.lt_trichotomy j (length Fs)) as [Lj|[->|Lj]].
        -- rewrite nth_error_app1 in E4 by (rewrite (r_ys _ _ _ _ _ _ a7); exact Lj). rewrite nth_error_app1 in E5 by (rewrite (r_js _ _ _ _ _ _ a7); exact Lj). rewrite nth_error_app1 in E6 by exact Lj.
           eapply slot_more; [exact L1| |apply incl_refl|apply (r_at _ _ _ _ _ _ a7 j); eassumption]. auto.
        -- rewrite <- (r_ys _ _ _ _ _ _ a7), nth_last in E4. rewrite <- (r_js _ _ _ _ _ _ a7), nth_last in E5. rewrite nth_last in E6. injection E4 as <-. injection E5 as <-. injection E6 as <-.
           split; cbn [fst snd is_blk is_unpin is_lay is_status status_ok]; auto; [cbn [place_slot spointer]; lia|]. cbn [place_slot spointer]. split; [exact G3|]. split; [|exact G4]. intros K. specialize (a10 _ K). lia.
        -- exfalso. assert (Z0 : nth_error (Fs ++ [F]) j = None) by (apply nth_error_None; rewrite app_length; cbn; lia). congruence.
      * rewrite map_app. cbn [map fst place_slot spointer]. apply nodup_snoc; [exact (r_ptr _ _ _ _ _ _ a7)|]. intros K. apply in_map_iff in K. destruct K as (p0 & Ep & K). apply In_nth_error in K. destruct K as [j Ej].
        destruct (slot_at _ _ _ _ _ _ _ _ a7 Ej) as (v0 & F0 & _ & _ & Sj). pose proof (q_ptr _ _ _ _ _ _ Sj). lia.
    + intros o x O X. apply in_app_or in O. destruct O as [O|[<-|[]]].
      * pose proof (a8 o x O X) as [Q1 Q2]. split; [exact Q1|lia].
      * rewrite G1 in X. split; [apply P1; exact X|]. pose proof (P3 x X). lia.
    + rewrite map_snoc, G1. apply pair_snoc; [exact a9|]. rewrite Forall_map. exact Db.
    + intros m M. specialize (a10 m M). lia.
    + eapply Forall_impl; [|exact a13]. intros j (s & tags & Ej). exists s, tags. rewrite nth_error_app1; [exact Ej|]. apply nth_error_Some. congruence.
  - (* pin *)
    destruct (ydrop w) as [[[[[c0 k0] sl0] ch0] se0]|] eqn:Ed.
    { cbn [fst snd]. exists i, cs, Fs. split; [apply YIPinNot; left; rewrite a14; discriminate|exact I]. }
    assert (Not : (forall s, nth_error (yslots w) k <> Some (s, SOpen)) -> yistep t st unpin i (YPin k) BInvalid i).
    { intros N. apply YIPinNot. right. intros v Ev Sv. destruct (slot_of _ _ _ _ _ _ _ _ a7 Ev) as ([s x] & F & Ep & _ & [_ _ _ _ _ _ _ _ _ _ q]). cbn [fst snd] in q. rewrite Sv in q.
      destruct x; cbn [status_ok] in q; try contradiction. exact (N s Ep). }
    destruct (nth_error (yslots w) k) as [[s [|tags|]]|] eqn:Ek;
      try (cbn [fst snd]; exists i, cs, Fs; split; [apply Not; congruence|exact I]). clear Not.
    destruct (slot_at _ _ _ _ _ _ _ _ a7 Ek) as (v & F & Ev & EF & Sk). pose proof Sk as [q1 q2 q3 q4 q5 q6 q7 q8 q9 q10 q11]. cbn [fst snd] in *.
    destruct (is_status v) as [|o base|] eqn:Es; cbn [status_ok] in q11; try contradiction. destruct q11 as (Ip & Nu & So).
    pose proof (nth_error_In _ _ EF) as IF. assert (Fk : free_tags cs F) by (rewrite Forall_forall in a4; auto).
    destruct (e_pin_runs hd st tp (ybusy w) Fs _ cs (ysb w) k F s EF a9 (yuses _ _ a8) (tp_free _) a3 Fk q2 q4 Ip (a6 k s Ek) So) as (n & b & F' & o & E1 & L1 & B1 & I1 & M1 & Bo & To & So' & H1 & Fr1).
    fold pl in E1. rewrite E1. cbn [fst snd].
    assert (Nn : ~ In n (j_used i)) by (intros K; specialize (a10 n K); lia).
    exists (MkYI (set_nth (j_slots i) k (with_status v (IPinned o (spointer s)))) (n :: spointer s :: j_used i) (j_shares i) (k :: j_chain i) None (j_busy i) (j_calls i)), cs, (set_nth Fs k F'). split.
    { rewrite q3 in M1. apply (YIPin t st unpin i k v (sval s) (spointer s) n o); auto; [|lia]. rewrite <- q1. intros x X. apply (within_in _ _ _ q4 X). }
    split; cbn [ybump ysb yshares yslots ychain ydrop ybusy ycalls j_slots j_used j_shares j_chain j_drop j_busy j_calls]; auto.
    + apply free_set; assumption.
    + intros j s' Ej. destruct (Nat.eq_dec j k) as [->|Nj]; [rewrite (set_nth_nth _ _ _ _ Ek) in Ej; discriminate|]. rewrite set_nth_ne in Ej by exact Nj. exact (a6 j s' Ej).
    + eapply (slots_set (nexttag (ysb w)) (nexttag b) (j_used i) _ _ _ _ _ Fs k s SOpen _ v _ F F' a7); auto; [lia| | |].
      * cbn [status_ok extra app]. split; [reflexivity|]. split; [exact Bo|]. split; [exact To|]. split; [|rewrite Bo, To; exact So'].
        intros z [<-|[<-|[]]]; apply I1; [right; exact Ip|left; reflexivity].
      * intros j Nj. apply incl_refl.
      * intros j p Nj Ej Nu' [K|[K|K]]; [| |auto].
        -- destruct (slot_at _ _ _ _ _ _ _ _ a7 Ej) as (vj & Fj & _ & _ & Sj). pose proof (q_ptr _ _ _ _ _ _ Sj). lia.
        -- apply Nj. pose proof (r_ptr _ _ _ _ _ _ a7) as ND. rewrite NoDup_nth_error in ND. apply ND; [rewrite map_length; apply nth_error_Some; congruence|]. rewrite !nth_error_map, Ek, Ej. cbn. congruence.
    + apply (below_set Fs k F F' _ EF B1 a8).
    + apply (pair_set Fs k F F' EF B1 a9).
    + intros m [<-|[<-|M]]; [lia|lia|]. specialize (a10 m M). lia.
    + rewrite a12. reflexivity.
    + constructor; [exists s, [n]; eapply set_nth_nth; eauto|]. eapply Forall_impl; [|exact a13]. intros j. apply (pinned_set (yslots w) k s [n] SOpen). exact Ek.
  - (* pop *)
    destruct (ydrop w) as [[[[[c0 k0] sl0] ch0] se0]|] eqn:Ed.
    { cbn [fst snd]. exists i, cs, Fs. split; [apply YIPopNot; left; rewrite a14; discriminate|exact I]. }
    destruct (ybusy w) as [|cc bb] eqn:Eb; [|cbn [fst snd]; exists i, cs, Fs; split; [apply YIPopNot; right; rewrite a16; discriminate|exact I]].
    destruct unpin eqn:Eu.
    + destruct (e_take_unique hd st tp d1 d2 d3 Fs _ cs (ysb w) a3) as (self & b & E1 & L1 & P1 & T1 & S1). fold pl in E1. rewrite E1. pose proof (h_next _ _ _ _ _ a3) as N0.
      destruct (ychain w) as [|k chain] eqn:Ec; cbn [e_go].
      * destruct (e_finish_unique hd st tp d1 d2 d3 (ybump w) b self (nexttag (ysb w)) a2 N0 L1 P1 T1) as (b' & E2 & L2 & H2). fold pl in E2. rewrite E2. cbn [fst snd].
        exists (j_reset i), [], []. split; [apply YIPop; auto; rewrite a12; constructor|].
        split; cbn [ybump ysb yshares yslots ychain ydrop ybusy ycalls j_reset j_slots j_used j_shares j_chain j_drop j_busy j_calls]; auto.
        -- destruct a1 as [V C]. split; [exact V|]. cbn. destruct V as (_ & V & _). cbn in V. lia.
        -- eapply holds_fr; [|exact H2]. unfold all_free. intros x [[X|[X _]]|X]; auto.
        -- intros k s E. destruct k; discriminate.
        -- split; [reflexivity|reflexivity| |constructor]. intros k p v F E. destruct k; discriminate.
        -- intros o x [].
        -- apply pairwise_nil.
        -- intros n M. specialize (a10 n M). lia.
      * inversion a13 as [|? ? (s & tags & Ek) Pc]; subst. unfold end_open. rewrite nth_error_map, Ek. cbn [option_map fst snd].
        destruct (slot_at _ _ _ _ _ _ _ _ a7 Ek) as (v & F & Ev & EF & Sk). pose proof Sk as [q1 q2 q3 q4 q5 q6 q7 q8 q9 q10 q11]. cbn [fst snd] in *.
        destruct (is_status v) as [|o base|] eqn:Es; cbn [status_ok] in q11; try contradiction. destruct q11 as (-> & Bo & To & Io & So).
        pose proof (nth_error_In _ _ EF) as IF.
        rewrite (e_start_ub st s (ycalls w) b self (nexttag (ysb w))); [|intros x X; rewrite <- q2 in X; apply (a8 F x IF X)|exact q9|apply (h_tags _ _ _ _ _ a3 F _ IF); apply Io; left; reflexivity|lia|exact S1].
        cbn [fst snd]. exists i, cs, Fs. split; [|exact I]. apply YIPopUB; auto. rewrite a12. discriminate.
    + destruct (e_take_cell hd st tp d1 d2 d3 Fs _ cs (ysb w) a9 (yuses _ _ a8) (tp_free _) a3) as (self & b & E1 & L1 & H1). fold pl in E1. rewrite E1.
      destruct (go_inv w i [(self, [hd; st; tp])] Fs b self (end_open (yslots w)) (map over_open (j_slots i)) (ychain w) (extra None)) as (i' & cs' & Fs' & R1 & R2); auto.
      * apply Forall_forall. intros F IF t0 bs [[= <- <-]|[]] K. pose proof (h_tags _ _ _ _ _ a3 F _ IF K). lia.
      * intros b0 x B X. exists [hd; st; tp], b0. split; [left; reflexivity|auto].
      * apply slots_open. eapply slots_more; [| | |exact a7]; [lia|auto|intros; apply incl_refl].
      * intros n M. specialize (a10 n M). lia.
      * intros k s. apply no_open.
      * eapply Forall_impl; [|exact a13]. apply pinned_open.
      * exists i', cs', Fs'. split; [|exact R2]. apply YIPop; auto. rewrite a12. exact R1.
  - (* a destructor returns *)
    destruct (ydrop w) as [[[[[c k] slot] chain] self]|] eqn:Ed.
    2:{ cbn [fst snd]. exists i, cs, Fs. split; [apply YIRetNot; intros ch c E; rewrite a14 in E; discriminate|exact I]. }
    destruct a15 as [o1 o2 o3 o4 o5 o6 o7 (s & tags & Ek) o8].
    destruct (ybusy w) as [|c1 [|c2 bb]] eqn:Eb; [destruct o4| |cbn [fst snd]; exists i, cs, Fs; split; [apply YIRetNot; intros ch c' E; rewrite a16; discriminate|exact I]].
    destruct o4 as [->|[]]. rewrite Ek. destruct (slot_at _ _ _ _ _ _ _ _ a7 Ek) as (v & F & Ev & EF & Sk). pose proof Sk as [q1 q2 q3 q4 q5 q6 q7 q8 q9 q10 q11]. cbn [fst snd] in *.
    destruct (is_status v) as [|o base|] eqn:Es; cbn [status_ok] in q11; try contradiction. destruct q11 as (-> & Bo & To & Io & So). cbn [extra] in So. rewrite Nat.eqb_refl in So.
    pose proof (nth_error_In _ _ EF) as IF. assert (Fk : free_tags cs F) by (rewrite Forall_forall in a4; auto).
    destruct (e_link_runs Fs _ cs (ysb w) k F s slot o ([slot] ++ [spointer s]) EF a9 (yuses _ _ a8) a3 Fk q2 q5 q6 (o8 F EF) (or_introl eq_refl) Bo So) as (b & F' & E1 & N1 & B1 & T1 & So' & H1 & Fr1).
    rewrite E1. 
    destruct (go_inv w i cs (set_nth Fs k F') b self (yslots w) (j_slots i) chain (extra (Some (c, k, slot, chain, self)))) as (i' & cs' & Fs' & R1 & R2); auto.
    + apply free_set; assumption.
    + replace (yslots w) with (set_nth (yslots w) k (s, SPinned tags)) by (apply set_nth_same; exact Ek).
      replace (j_slots i) with (set_nth (j_slots i) k (with_status v (IPinned o (spointer s)))) by (apply set_nth_same; rewrite Ev; f_equal; destruct v; cbn in *; subst; reflexivity).
      eapply (slots_set (nexttag (ysb w)) (nexttag b) (j_used i) _ _ _ _ _ Fs k s (SPinned tags) _ v _ F F' a7); auto; [lia| |].
      * cbn [status_ok extra]. rewrite Nat.eqb_refl. split; [reflexivity|]. split; [exact Bo|]. split; [exact To|]. split; [rewrite T1; exact Io|]. exact So'.
      * intros j Nj. apply incl_refl.
    + apply (below_set Fs k F F' _ EF B1 a8).
    + apply (pair_set Fs k F F' EF B1 a9).
    + rewrite N1. exact a10.
    + exists i', cs', Fs'. rewrite o1 in *. split; [|exact R2]. apply (YIRet t st false i chain c); [exact a14|exact a16|]. exact R1.
  - (* ... or panics *)
    destruct (ydrop w) as [[[[[c k] slot] chain] self]|] eqn:Ed.
    2:{ cbn [fst snd]. exists i, cs, Fs. split; [apply YIPanicNot; exact a14|exact I]. }
    cbn [fst snd]. eexists _, [], Fs. split; [apply YIPanic; rewrite a14; discriminate|].
    split; cbn [ybump ysb yshares yslots ychain ydrop ybusy ycalls j_slots j_used j_shares j_chain j_drop j_busy j_calls]; auto.
    + eapply holds_less; [|exact a3]. intros q [].
    + apply Forall_forall. intros F IF t0 bs [].
    + intros k0 s E. exfalso. exact (no_over _ _ _ E).
    + apply slots_over. eapply slots_more; [| | |exact a7]; [lia|auto|]. intros j z [].
  - (* an access *)
    assert (Not : (forall s tags, nth_error (yslots w) k = Some (s, SPinned tags) -> act_ok (MkO (sval s) tags) a = false) -> yistep t st unpin i (YAct k a) BInvalid i).
    { intros N. apply YIActNot. intros v o base Ev Sv. destruct (slot_of _ _ _ _ _ _ _ _ a7 Ev) as ([s x] & F & Ep & _ & [_ _ _ _ _ _ _ _ _ _ q]). cbn [fst snd] in q. rewrite Sv in q.
      destruct x; cbn [status_ok] in q; try contradiction. destruct q as (_ & -> & -> & _). apply N. exact Ep. }
    destruct (nth_error (yslots w) k) as [[s [|tags|]]|] eqn:Ek;
      try (destruct (ydrop w); cbn [fst snd]; exists i, cs, Fs; (split; [apply Not; congruence|exact I])).
    destruct (act_ok (MkO (sval s) tags) a) eqn:A.
    2:{ destruct (ydrop w); cbn [fst snd]; exists i, cs, Fs; (split; [apply Not; intros s' t' [= <- <-]; exact A|exact I]). }
    clear Not. destruct (slot_at _ _ _ _ _ _ _ _ a7 Ek) as (v & F & Ev & EF & Sk). pose proof Sk as [q1 q2 q3 q4 q5 q6 q7 q8 q9 q10 q11]. cbn [fst snd] in *.
    destruct (is_status v) as [|o base|] eqn:Es; cbn [status_ok] in q11; try contradiction. destruct q11 as (-> & Bo & To & Io & So).
    pose proof (nth_error_In _ _ EF) as IF. assert (Fk : free_tags cs F) by (rewrite Forall_forall in a4; auto).
    assert (A0 : atk true cs Fs (efree (uindex (ybump w))) k F (ysb w) F) by (split; [rewrite (set_nth_same _ _ _ EF); exact a3|split; [reflexivity|exact Fk]]).
    rewrite <- Bo, <- To in A.
    assert (C1 : within (iblk o) (iblk F)) by (rewrite Bo, q2; exact q4). assert (C2 : incl (itags o) (itags F)) by (rewrite To; intros z Z0; apply Io; right; exact Z0).
    pose proof (so_act true cs Fs _ k F EF a9 (yuses _ _ a8) (ybusy w) (ysb w) F o a (fun _ => extra (ydrop w) k ++ [spointer s]) (spointer s) A0 A C1 C2 So) as C.
    assert (G : (if true then match do_act (ybusy w) a (ysb w) with
            | Some (n, b) => (MkYW (ybump w) b (yshares w) (set_nth (yslots w) k (s, SPinned (otags (new_tag (MkO (sval s) tags) n)))) (ychain w) (ydrop w) (ybusy w) (ycalls w), tag_answer n)
            | None => (w, BUB)
            end else (w, BInvalid)) = match do_act (ybusy w) a (ysb w) with
            | Some (n, b) => (MkYW (ybump w) b (yshares w) (set_nth (yslots w) k (s, SPinned (otags (new_tag (MkO (sval s) tags) n)))) (ychain w) (ydrop w) (ybusy w) (ycalls w), tag_answer n)
            | None => (w, BUB)
            end) by reflexivity.
    match goal with |- context [snd ?X] => replace X with (match do_act (ybusy w) a (ysb w) with
            | Some (n, b) => (MkYW (ybump w) b (yshares w) (set_nth (yslots w) k (s, SPinned (otags (new_tag (MkO (sval s) tags) n)))) (ychain w) (ydrop w) (ybusy w) (ycalls w), tag_answer n)
            | None => (w, BUB)
            end) by (destruct (ydrop w); reflexivity) end. clear G.
    destruct (do_act (ybusy w) a (ysb w)) as [[n b]|] eqn:Edo; destruct (ideal_act (ybusy w) o a (nexttag (ysb w))) as [o'|] eqn:Ei; try contradiction; cbn [fst snd].
    2:{ exists i, cs, Fs. split; [|exact I]. eapply YIActUB; eauto. rewrite a16. exact Ei. }
    destruct C as (-> & Nb & Bo' & To' & F' & A1 & TF & So').
    assert (Nu : ~ In (nexttag (ysb w)) (j_used i)) by (intros K; specialize (a10 _ K); lia).
    assert (Ln : (nexttag (ysb w) <= nexttag b)%nat) by (rewrite Nb; destruct a; cbn; lia).
    assert (BF : iblk F' = iblk F) by apply A1. assert (HF : holds true cs (set_nth Fs k F') (efree (uindex (ybump w))) b) by apply A1. assert (FF : free_tags cs F') by exact (proj2 (proj2 A1)).
    assert (Et : otags (new_tag (MkO (sval s) tags) (ans_after a (nexttag (ysb w)))) = itags o') by (rewrite To', To; destruct a; reflexivity).
    exists (MkYI (set_nth (j_slots i) k (with_status v (IPinned o' (spointer s)))) (used_after a (nexttag (ysb w)) (j_used i)) (j_shares i) (j_chain i) (j_drop i) (j_busy i) (j_calls i)), cs, (set_nth Fs k F'). split.
    { replace (tag_answer (ans_after a (nexttag (ysb w)))) with (act_answer a (nexttag (ysb w))) by (destruct a; reflexivity). eapply YIAct; eauto. rewrite a16. exact Ei. }
    rewrite Et. assert (IncF : incl (itags F) (itags F')) by (rewrite TF; destruct a; cbn [tags_after]; intros z Z0; cbn; auto).
    split; cbn [ybump ysb yshares yslots ychain ydrop ybusy ycalls j_slots j_used j_shares j_chain j_drop j_busy j_calls]; auto.
    + apply free_set; assumption.
    + intros j s' Ej. destruct (Nat.eq_dec j k) as [->|Nj]; [rewrite (set_nth_nth _ _ _ _ Ek) in Ej; discriminate|]. rewrite set_nth_ne in Ej by exact Nj. exact (a6 j s' Ej).
    + eapply (slots_set (nexttag (ysb w)) (nexttag b) (j_used i) _ _ _ _ _ Fs k s (SPinned tags) _ v _ F F' a7); auto.
      * cbn [status_ok]. split; [reflexivity|]. split; [congruence|]. split; [reflexivity|]. split; [|rewrite Bo'; exact So'].
        intros z [<-|Z0]; [apply IncF; apply Io; left; reflexivity|]. rewrite To' in Z0. rewrite TF. destruct a; cbn [tags_after] in *; auto. destruct Z0 as [<-|Z0]; [left; reflexivity|right; auto].
      * intros j Nj. apply incl_refl.
      * intros j p Nj Ej Nu'. destruct (slot_at _ _ _ _ _ _ _ _ a7 Ej) as (vj & Fj & _ & _ & Sj). pose proof (q_ptr _ _ _ _ _ _ Sj). destruct a; cbn [used_after]; auto. intros [K|K]; [lia|auto].
    + apply (below_set Fs k F F' _ EF BF a8).
    + apply (pair_set Fs k F F' EF BF a9).
    + intros m Mm. destruct a; cbn [used_after next_after] in *; [specialize (a10 m Mm); lia|specialize (a10 m Mm); lia|]. destruct Mm as [<-|Mm]; [lia|specialize (a10 m Mm); lia].
    + eapply Forall_impl; [|exact a13]. intros j. apply (pinned_set (yslots w) k s (itags o') (SPinned tags)). exact Ek.
    + destruct (ydrop w) as [[[[[c0 k0] sl0] ch0] se0]|]; [|exact Logic.I]. destruct a15 as [o1 o2 o3 o4 o5 o6 o7 o9 o8]. split; cbn [yshares ychain ybusy yslots]; auto.
      * eapply Forall_impl; [|exact o6]. intros j. apply (pinned_set (yslots w) k s (itags o') (SPinned tags)). exact Ek.
      * intros j s'. destruct (Nat.eq_dec j k) as [->|Nj]; [rewrite (set_nth_nth _ _ _ _ Ek); discriminate|]. rewrite set_nth_ne by exact Nj. apply o7.
      * eapply (pinned_set (yslots w) k s (itags o') (SPinned tags)); eauto.
      * intros F0 E0. destruct (Nat.eq_dec k0 k) as [->|Nj]; [rewrite (set_nth_nth _ _ _ _ EF) in E0; injection E0 as <-; auto|]. rewrite set_nth_ne in E0 by exact Nj. auto.
  - destruct (ydrop w) as [[[[[c0 k0] sl0] ch0] se0]|] eqn:Ed; cbn [fst snd]; rewrite <- a17; eexists _, cs, Fs; (split; [apply YIEnter|]).
    + split; cbn [ybump ysb yshares yslots ychain ydrop ybusy ycalls j_slots j_used j_shares j_chain j_drop j_busy j_calls]; auto; [|rewrite a16; reflexivity].
      destruct a15 as [o1 o2 o3 o4 o5 o6 o7 o9 o8]. split; cbn [yshares ychain ybusy yslots]; auto. right. exact o4.
    + split; cbn [ybump ysb yshares yslots ychain ydrop ybusy ycalls j_slots j_used j_shares j_chain j_drop j_busy j_calls]; auto. rewrite a16. reflexivity.
  - destruct (ydrop w) as [[[[[c0 k0] sl0] ch0] se0]|] eqn:Ed.
    + destruct (Nat.eqb c c0) eqn:Ec.
      * apply Nat.eqb_eq in Ec. subst c0. cbn [fst snd]. exists i, cs, Fs. split; [eapply YIExitNot; exact a14|exact I].
      * apply Nat.eqb_neq in Ec. cbn [fst snd]. eexists _, cs, Fs. split; [apply YIExit; intros ch E; rewrite a14 in E; congruence|].
        split; cbn [ybump ysb yshares yslots ychain ydrop ybusy ycalls j_slots j_used j_shares j_chain j_drop j_busy j_calls]; auto; [|rewrite a16; reflexivity].
        destruct a15 as [o1 o2 o3 o4 o5 o6 o7 o9 o8]. split; cbn [yshares ychain ybusy yslots]; auto. unfold leave. apply filter_In. split; [exact o4|]. apply negb_true_iff, Nat.eqb_neq. congruence.
    + cbn [fst snd]. eexists _, cs, Fs. split; [apply YIExit; intros ch E; rewrite a14 in E; congruence|].
      split; cbn [ybump ysb yshares yslots ychain ydrop ybusy ycalls j_slots j_used j_shares j_chain j_drop j_busy j_calls]; auto. rewrite a16; reflexivity.
Qed.

(** As if all memory were allocated (EBorrowLocal compares it with [ynew]) *)
Definition ywide : yworld := MkYW (u_fresh st) (MkB (fun _ => [MkItem 0 Unique None]) 1) [] [] [] None [] 0.
Lemma ynew_inv : valid_region t st -> yinv ywide yideal_new [] [].
Proof.
  intros V. split; cbn [ywide yideal_new ybump ysb yshares yslots ychain ydrop ybusy ycalls j_slots j_used j_shares j_chain j_drop j_busy j_calls]; auto.
  - apply uok_fresh. exact V.
  - split; cbn [nexttag stk].
    + lia.
    + intros o t0 [].
    + intros t0 bs [].
    + intros x. exists (MkDec [] [] []). split; [reflexivity|]. split; [|split; [|split]].
      * split; cbn [up garb low map app]; try constructor; apply bottom_nil.
      * intros t0 (bs & b & [] & _).
      * reflexivity.
      * intros o [].
  - intros k s E. destruct k; discriminate.
  - split; [reflexivity|reflexivity| |constructor]. intros k p v F E. destruct k; discriminate.
  - intros o x [].
  - apply pairwise_nil.
  - intros n [].
Qed.

Lemma yrun_inv os : Forall (yop_ok t) os -> forall w i cs Fs, yinv w i cs Fs ->
  exists i' cs' Fs', yiruns t st unpin i (snd (yrun t pl unpin w os)) i' /\ yinv (fst (yrun t pl unpin w os)) i' cs' Fs'.
Proof.
  intros F. induction F as [|o os Fo F IH]; intros w i cs Fs I; cbn [yrun].
  - exists i, cs, Fs. split; [constructor|exact I].
  - destruct (ystep_inv w i cs Fs o I Fo) as (i1 & c1 & F1 & S1 & I1). destruct (ystep t pl unpin w o) as [w1 r]. cbn [fst snd] in *.
    destruct (IH w1 i1 c1 F1 I1) as (i2 & c2 & F2 & S2 & I2). destruct (yrun t pl unpin w1 os) as [w2 h]. cbn [fst snd] in *. exists i2, c2, F2. split; [econstructor; eauto|exact I2].
Qed.

(** ** The calls of the memory *)
Lemma finish_calls u self b u' b' : e_finish pl unpin u self b = Some (u', b') -> u' = u_reset u.
Proof.
  unfold e_finish, bump_deref_mut, mb_reset, mbind, mret. intros E.
  repeat match type of E with match ?m with Some _ => _ | None => _ end = _ => destruct m as [[? ?]|]; [|discriminate] end. injection E. auto.
Qed.

Lemma go_calls w self b slots chain : urun t (ybump w) (map fst (ecalls_of t [(YPop, snd (e_go pl unpin w self b slots chain))])) =
  (ybump (fst (e_go pl unpin w self b slots chain)), ecalls_of t [(YPop, snd (e_go pl unpin w self b slots chain))]).
Proof.
  destruct chain as [|k chain]; cbn [e_go].
  - destruct (e_finish pl unpin (ybump w) self b) as [[u b']|] eqn:E; [|reflexivity]. rewrite (finish_calls _ _ _ _ _ E). reflexivity.
  - destruct (nth_error slots k) as [[s [|tags|]]|]; try reflexivity. destruct (e_start s (ycalls w) b) as [[[? ?] ?]|]; reflexivity.
Qed.

Lemma ystep_calls w i cs Fs o : yinv w i cs Fs -> yop_ok t o ->
  urun t (ybump w) (map fst (ecalls_of t [(o, snd (ystep t pl unpin w o))])) = (ybump (fst (ystep t pl unpin w o)), ecalls_of t [(o, snd (ystep t pl unpin w o))]).
Proof.
  intros I Oo. pose proof I as [a1 a2 a3 a4 a5 a6 a7 a8 a9 a10 a11 a12 a13 a14 a15 a16 a17]. destruct o as [[k|]|k l p|k| | | |k a| |c]; cbn [ystep].
  - destruct (ydrop w); [reflexivity|]. destruct (nth_error (yshares w) k); [|reflexivity]. destruct (stack_ref _ _ _ _ _) as [[? ?]|]; reflexivity.
  - destruct (ydrop w); [reflexivity|]. destruct (stack_ref _ _ _ _ _) as [[? ?]|]; reflexivity.
  - destruct (ydrop w); [reflexivity|]. destruct (nth_error (yshares w) k) as [self|] eqn:E; [|reflexivity].
    assert (Os : over cs self [hd; st; tp]) by (rewrite Forall_forall in a5; apply a5; eapply nth_error_In; eauto).
    cbn [yop_ok] in Oo. destruct Oo as [Ol Op]. assert (Vc : valid_ucall t (UBumpBox (pin_layout t l))) by exact Op.
    destruct (e_slot_runs hd st tp d1 d2 d3 (ybusy w) t Fs _ cs (ysb w) (ybump w) l p self (hd_free _) (tp_free _) a9 (yuses _ _ a8) a2 a3 Os) as (so & b & E1 & L1 & R).
    { intros a Ea. destruct (ustep_place t (ybump w) (UBumpBox (pin_layout t l)) a Ht a1 Vc Ea) as (l' & El & _ & P1 & P2 & P3 & P4). cbn [ucall_layout] in El. injection El as <-. rewrite a2 in *. cbn zeta. split; [exact P1|]. split.
      - intros x X. left. right. split; [apply P1; exact X|]. apply (P3 x X).
      - apply Forall_forall. intros o Io x [X1 X2]. pose proof (P3 x X1). pose proof (a8 o x Io X2). lia. }
    fold pl in E1. rewrite E1. destruct (ustep t (ybump w) (UBumpBox (pin_layout t l))) as [u' r] eqn:Es. cbn [fst snd ecalls_of map urun ybump]. rewrite Es. reflexivity.
  - destruct (ydrop w); [reflexivity|]. destruct (nth_error (yslots w) k) as [[s [|tags|]]|]; try reflexivity. destruct (e_pin _ _ _ _) as [[? ?]|]; reflexivity.
  - destruct (ydrop w); [reflexivity|]. destruct (ybusy w); [|reflexivity]. destruct (e_take _ _ _) as [[self b]|]; [|reflexivity]. apply go_calls.
  - destruct (ydrop w) as [[[[[c k] slot] chain] self]|]; [|reflexivity]. destruct (ybusy w) as [|c1 [|c2 bb]]; try reflexivity. destruct (nth_error (yslots w) k) as [[s x]|]; [|reflexivity].
    destruct (e_link s slot (ysb w)) as [[u b]|]; [|reflexivity]. exact (go_calls w self b (yslots w) chain).
  - destruct (ydrop w) as [[[[[c k] slot] chain] self]|]; reflexivity.
  - destruct (nth_error (yslots w) k) as [[s [|tags|]]|]; try (destruct (ydrop w); reflexivity). destruct (act_ok _ _); [|destruct (ydrop w); reflexivity].
    destruct (do_act _ _ _) as [[[?|] ?]|]; destruct (ydrop w); reflexivity.
  - destruct (ydrop w); reflexivity.
  - destruct (ydrop w) as [[[[[c0 k] slot] chain] self]|]; [destruct (Nat.eqb c c0)|]; reflexivity.
Qed.

Lemma ecalls_app h1 h2 : ecalls_of t (h1 ++ h2) = ecalls_of t h1 ++ ecalls_of t h2.
Proof. induction h1 as [|[o r] h IH]; [reflexivity|]. cbn [app]. destruct o, r; cbn [ecalls_of app]; rewrite ?IH; reflexivity. Qed.

Lemma yrun_calls os : Forall (yop_ok t) os -> forall w i cs Fs, yinv w i cs Fs ->
  urun t (ybump w) (map fst (ecalls_of t (snd (yrun t pl unpin w os)))) = (ybump (fst (yrun t pl unpin w os)), ecalls_of t (snd (yrun t pl unpin w os))).
Proof.
  intros F. induction F as [|o os Fo F IH]; intros w i cs Fs I; cbn [yrun]; [reflexivity|].
  destruct (ystep_inv w i cs Fs o I Fo) as (i1 & c1 & F1 & _ & I1). pose proof (ystep_calls w i cs Fs o I Fo) as C.
  destruct (ystep t pl unpin w o) as [w1 r]. cbn [fst snd] in *. specialize (IH w1 i1 c1 F1 I1). destruct (yrun t pl unpin w1 os) as [w2 h]. cbn [fst snd] in *.
  change ((o, r) :: h) with ([(o, r)] ++ h). rewrite ecalls_app, map_app. rewrite urun_app. unfold uevent in *. rewrite C. cbn [fst snd]. rewrite IH. reflexivity.
Qed.

(** ** Undefined behaviour comes only from the client *)
Lemma igo_ub i js chain r i' : igo i js chain r i' -> r <> BUB.
Proof. intros G. inversion G; subst; discriminate. Qed.

Lemma yiruns_ub h : forall i i', yiruns t st false i h i' -> forall o, In (o, BUB) h -> exists k a, o = YAct k a.
Proof.
  intros i i' R. induction R as [|i o r i1 h i2 St R IH]; intros q Q; [destruct Q|]. destruct Q as [E|Q]; [|auto].
  injection E as -> ->. inversion St; subst; eauto; try discriminate; exfalso; eapply igo_ub; eauto.
Qed.

(** *** ... and not from one that uses the last reference *)
Definition top_ok (v : islot) : Prop := match is_status v with
  | IPinned o _ => exists n T, itags o = n :: T /\ forall x, in_block (iblk o) x -> exists p pr K, istk o x = MkItem n p pr :: K /\ (p = Unique \/ p = SharedRW) /\
      (is_unpin v = false -> Forall (fun i => is_srw i = true) (istk o x))
  | _ => True
  end.

Lemma top_read busy n p pr K : p = Unique \/ p = SharedRW -> sb_read busy n (MkItem n p pr :: K) = Some (MkItem n p pr :: K).
Proof. intros P. unfold sb_read. cbn [granting itag]. rewrite Nat.eqb_refl. destruct P as [-> | ->]; reflexivity. Qed.
Lemma top_write busy n p pr K : p = Unique \/ p = SharedRW -> sb_write busy n (MkItem n p pr :: K) = Some (MkItem n p pr :: K).
Proof. intros P. unfold sb_write. cbn [granting itag]. rewrite Nat.eqb_refl. destruct P as [-> | ->]; reflexivity. Qed.


Lemma cell_top base n pr L L' : Forall (fun i => is_srw i = true) L -> sb_retag [] RCell base n pr L = Some L' -> exists K, L' = MkItem n SharedRW None :: K /\ Forall (fun i => is_srw i = true) L'.
Proof.
  intros F E. cbn [sb_retag] in E. destruct (granting true base L) as [[[a g] b]|] eqn:G; [|discriminate]. destruct (granting_spec _ _ _ _ _ _ G) as (-> & _). apply Forall_app in F. destruct F as [Fa Fb]. inversion Fb as [|? ? Fg Fb']; subst.
  unfold incompatible in E. replace (is_unique g) with false in E by (unfold is_unique, is_srw in *; destruct (iperm g); auto; discriminate). rewrite (split_srw_low a Fa) in E. injection E as <-. cbn [app]. eexists. split; [reflexivity|].
  constructor; [reflexivity|]. apply Forall_app. auto.
Qed.

Lemma ref_top o base unp pr n o' v : make_ref o base unp pr n o' -> (unp = false -> forall x, in_block (iblk o) x -> Forall (fun i => is_srw i = true) (istk o x)) -> is_unpin v = unp -> top_ok (with_status v (IPinned o' base)).
Proof.
  unfold make_ref. cbn [ideal_act retag_parts]. intros E F U. destruct (on_block (iblk o) _ (istk o)) as [k|] eqn:B; [|discriminate]. injection E as <-.
  unfold top_ok. cbn [with_status is_status is_unpin itags iblk istk]. exists n, (itags o). split; [reflexivity|]. intros x X. pose proof (proj1 (on_block_spec _ _ _ _ B x) X) as Q. rewrite U. destruct unp; cbn [mut_kind] in Q.
  - cbn [sb_retag] in Q. destruct (sb_write [] base (istk o x)) as [K|]; [|discriminate]. injection Q as <-. eexists Unique, pr, K. split; [reflexivity|]. split; [auto|discriminate].
  - destruct (cell_top _ _ _ _ _ (F eq_refl x X) Q) as (K & E1 & E2). eexists SharedRW, None, K. auto.
Qed.

Lemma set_forall {A} (P : A -> Prop) l k x : Forall P l -> P x -> Forall P (set_nth l k x).
Proof. intros F X. apply Forall_forall. intros y Y. apply set_nth_in in Y. destruct Y as [->|Y]; [exact X|]. rewrite Forall_forall in F. auto. Qed.

Lemma over_top (f : islot -> islot) js : (f = over_open \/ f = over_all) -> Forall top_ok js -> Forall top_ok (map f js).
Proof.
  intros E F. rewrite Forall_map. eapply Forall_impl; [|exact F]. intros v V. destruct E as [-> | ->]; [|exact Logic.I]. unfold over_open. destruct (is_status v) eqn:S; [exact Logic.I|exact V|exact V].
Qed.

Lemma igo_top i js chain r i' : igo i js chain r i' -> Forall top_ok js -> Forall top_ok (j_slots i').
Proof.
  intros G F. inversion G as [|k ch v o base d o' E1 E2 E3 E4]; subst; cbn [j_reset j_slots]; [constructor|]. apply set_forall; [exact F|].
  apply (ref_top o base (is_unpin v) _ d o' v E3); [|reflexivity]. intros U x X. rewrite Forall_forall in F. pose proof (F v (nth_error_In _ _ E1)) as V. unfold top_ok in V. rewrite E2 in V. destruct V as (n & T & _ & V).
  destruct (V x X) as (p & pr & K & Q1 & Q2 & Q3). auto.
Qed.

Lemma step_top w i cs Fs o r i' : yinv w i cs Fs -> Forall top_ok (j_slots i) -> latest w o -> yistep t st false i o r i' -> r <> BUB /\ Forall top_ok (j_slots i').
Proof.
  intros I F La St.
  assert (Ac : forall k a v ob base, o = YAct k a -> nth_error (j_slots i) k = Some v -> is_status v = IPinned ob base -> act_ok (MkO (iblk ob) (itags ob)) a = true ->
    exists n T b, itags ob = n :: T /\ (a = CRead n b \/ a = CWrite n b) /\ (forall x, in_block b x -> in_block (iblk ob) x) /\
      forall x, in_block (iblk ob) x -> sb_read (j_busy i) n (istk ob x) = Some (istk ob x) /\ sb_write (j_busy i) n (istk ob x) = Some (istk ob x)).
  { intros k a v ob base -> E1 E2 E3. cbn [latest] in La. destruct La as (s & n & tags & b & La & Ea). destruct (slot_of _ _ _ _ _ _ _ _ (y_slots _ _ _ _ I) E1) as (p & F0 & E4 & E5 & [_ _ _ _ _ _ _ _ _ _ q]).
    rewrite La in E4. injection E4 as <-. cbn [fst snd] in q. rewrite E2 in q. cbn [status_ok] in q. destruct q as (_ & _ & Et & _).
    exists n, tags, b. split; [exact Et|]. split; [exact Ea|]. split.
    - intros x X. assert (W : (start (iblk ob) <=? start b) && (start b + size b <=? start (iblk ob) + size (iblk ob)) = true).
      { destruct Ea as [-> | ->]; cbn [act_ok oblk otags] in E3; apply andb_true_iff in E3; apply E3. }
      apply andb_true_iff in W. rewrite !Z.leb_le in W. unfold in_block in *. lia.
    - intros x X. rewrite Forall_forall in F. pose proof (F v (nth_error_In _ _ E1)) as V. unfold top_ok in V. rewrite E2 in V. destruct V as (n' & T & Et' & V). assert (n' = n) by congruence. subst n'.
      destruct (V x X) as (p & pr & K & Q1 & Q2 & Q3). rewrite Q1. split; [apply top_read; exact Q2|apply top_write; exact Q2]. }
  inversion St; subst; try (split; [discriminate|]); cbn [j_slots]; auto.
  - apply Forall_app. split; [exact F|]. constructor; [exact Logic.I|constructor].
  - apply set_forall; [exact F|]. match goal with M : make_ref _ _ _ _ _ _ |- _ => apply (ref_top _ _ _ _ _ _ _ M); [|reflexivity] end. intros _ x _. cbn [raw_object istk]. repeat constructor.
  - match goal with G : igo _ _ _ _ _ |- _ => split; [eapply igo_ub; exact G|apply (igo_top _ _ _ _ _ G)] end. apply over_top; auto.
  - match goal with G : igo _ _ _ _ _ |- _ => split; [eapply igo_ub; exact G|apply (igo_top _ _ _ _ _ G)] end. exact F.
  - apply over_top; auto.
  - match goal with H1 : nth_error _ k = Some v, H2 : is_status v = _, H3 : act_ok _ _ = true, H4 : ideal_act _ _ _ _ = Some _ |- _ => destruct (Ac k a v _ base eq_refl H1 H2 H3) as (n0 & T & b & Et & Ea & Wb & Sb); rename H4 into Ei; rename H1 into E1; rename H2 into E2 end.
    split; [destruct a; discriminate|]. apply set_forall; [exact F|].
    rewrite Forall_forall in F. pose proof (F v (nth_error_In _ _ E1)) as V. unfold top_ok in *. rewrite E2 in V. cbn [with_status is_status is_unpin]. destruct V as (n' & T' & Et' & V).
    assert (X : itags o' = itags o0 /\ iblk o' = iblk o0 /\ forall x, in_block (iblk o0) x -> istk o' x = istk o0 x).
    { destruct Ea as [-> | ->]; cbn [ideal_act] in Ei; (destruct (on_block b _ (istk o0)) as [k'|] eqn:B; [|discriminate]); injection Ei as <-; cbn [itags iblk istk]; (split; [reflexivity|split; [reflexivity|]]); intros x X;
        destruct (on_block_spec _ _ _ _ B x) as [Y1 Y2]; (destruct (inb b x) eqn:Z0; [apply inb_iff in Z0; specialize (Y1 Z0); destruct (Sb x X) as [S1 S2]; congruence|apply Y2; intros Q; apply inb_iff in Q; congruence]). }
    destruct X as (X1 & X2 & X3). exists n', T'. rewrite X1, X2. split; [exact Et'|]. intros x X. rewrite (X3 x X). auto.
  - exfalso. match goal with H1 : nth_error _ k = Some v, H2 : is_status v = _, H3 : act_ok _ _ = true, H4 : ideal_act _ _ _ _ = None |- _ => destruct (Ac k a v _ base eq_refl H1 H2 H3) as (n0 & T & b & Et & Ea & Wb & Sb); rename H4 into Ei end.
    destruct Ea as [-> | ->]; cbn [ideal_act] in Ei; (destruct (on_block b _ (istk o0)) as [k'|] eqn:B; [discriminate|]); apply on_block_none in B; destruct B as (x & X & Q); destruct (Sb x (Wb x X)) as [S1 S2]; congruence.
Qed.

End World.

Lemma yrun_top t hd st tp os : valid_target t -> disjoint hd st -> disjoint hd tp -> disjoint st tp -> Forall (yop_ok t) os -> forall w i cs Fs, yinv t hd st tp false w i cs Fs -> Forall top_ok (j_slots i) ->
  all_latest t (MkPlaces hd st tp) false w os -> forall o, ~ In (o, BUB) (snd (yrun t (MkPlaces hd st tp) false w os)).
Proof.
  intros Ht D1 D2 D3 F. induction F as [|o os Fo F IH]; intros w i cs Fs I T L q; cbn [yrun all_latest] in *; [intros []|]. destruct L as [L1 L2].
  destruct (ystep_inv t hd st tp false Ht D1 D2 D3 w i cs Fs o I Fo) as (i1 & c1 & F1 & S1 & I1). destruct (step_top t hd st tp false w i cs Fs o _ i1 I T L1 S1) as [N T1].
  destruct (ystep t (MkPlaces hd st tp) false w o) as [w1 r]. cbn [fst snd] in *. specialize (IH w1 i1 c1 F1 I1 T1 L2 q). destruct (yrun t (MkPlaces hd st tp) false w1 os) as [w2 h]. cbn [snd] in *.
  intros [E|K]; [|exact (IH K)]. injection E as -> ->. congruence.
Qed.
