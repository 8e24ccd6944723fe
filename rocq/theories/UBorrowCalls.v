(** * UBorrowCalls: the methods of the unsync MemBump on the stacks of all bytes. *)
From Verif Require Import Base Spec BaseFacts SyncModel SyncSpec UnsyncModel UnsyncSpec BorrowModel BorrowSpec BorrowProofs BorrowState BorrowWorld UBorrowModel UBorrowSub UBorrowCells.

Section Lib.
Variables (c : list nat) (t : target) (hd st : block) (own : bool) (objs : list iobj) (fr : Z -> Prop).
Hypothesis (apart_ : disjoint hd st) (hd_free : forall x, in_block hd x -> fr x)
  (pair_ : pairwise disjoint (map iblk objs)) (used_ : forall o x, In o objs -> in_block (iblk o) x -> ~ fr x).

(** one more reference &self *)
Lemma under {A} (f : nat -> M A) s cs self Q : holds own cs objs fr s -> over cs self [hd; st] ->
  (forall self s' cs', (nexttag s <= nexttag s')%nat -> holds own cs' objs fr s' -> over cs' self [hd; st] -> (nexttag s <= self < nexttag s')%nat -> runs own objs fr (f self) s' cs' Q) ->
  runs own objs fr (x <- self_ref c hd st self ;; f x) s cs Q.
Proof. intros H O K. apply (run_under c hd st own objs fr apart_ st f s cs self Q eq_refl H O K). Qed.

Lemma run_mb_level u s cs self : udata u = st -> holds own cs objs fr s -> over cs self [hd; st] ->
  runs own objs fr (mb_level c hd u self) s cs (fun lv _ _ => lv = u_level u).
Proof.
  intros E H O. unfold mb_level. rewrite E. apply under; [exact H|exact O|]. intros self1 s1 cs1 L1 H1 O1 N1.
  eapply runs_bind; [apply (run_get c own objs fr s1 cs1 self1 hd H1 (over_hd hd st _ _ O1) hd_free)|]. cbn beta. intros [] s2 cs2 L2 I2 H2 _. apply runs_ret; auto.
Qed.

Lemma run_mb_capacity u s cs self : udata u = st -> holds own cs objs fr s -> over cs self [hd; st] ->
  runs own objs fr (mb_capacity c hd u self) s cs (fun _ _ _ => True).
Proof.
  intros E H O. unfold mb_capacity. rewrite E. apply under; [exact H|exact O|]. intros self1 s1 cs1 L1 H1 O1 N1.
  eapply runs_bind; [apply (run_uc c own objs fr s1 cs1 self1 st H1 (over_st hd st _ _ O1))|]. cbn beta. intros q s2 cs2 L2 I2 H2 _. apply runs_ret; auto.
Qed.

Lemma run_mb_bump u s cs self b : udata u = st -> holds own cs objs fr s -> over cs self [hd; st] ->
  runs own objs fr (mb_bump c t hd u self b) s cs (fun _ _ _ => True).
Proof.
  intros E H O. unfold mb_bump. rewrite E. apply under; [exact H|exact O|]. intros self1 s1 cs1 L1 H1 O1 N1.
  eapply runs_bind with (Q := fun _ _ _ => True).
  { destruct (debug t); [apply (run_mb_capacity u s1 cs1 self1 E H1 O1)|apply runs_ret; auto]. }
  cbn beta. intros _ s2 cs2 L2 I2 H2 _. pose proof (over_more _ _ _ _ I2 O1) as O2.
  eapply runs_bind; [apply (run_get c own objs fr s2 cs2 self1 hd H2 (over_hd hd st _ _ O2) hd_free)|]. cbn beta. intros [] s3 cs3 L3 I3 H3 _.
  pose proof (over_more _ _ _ _ I3 O2) as O3.
  destruct b; [|apply runs_ret; auto].
  apply (run_set c own objs fr pair_ used_ s3 cs3 self1 hd H3 (over_hd hd st _ _ O3) hd_free).
Qed.

(** The result is that of the model without tags, and the pointer can be used in the data region. *)
Definition usame {A} (x : ubump * A) (good_ : A -> bool) (s : bstate) : ubump * A * nat -> caps -> nat -> Prop :=
  fun y cs' n' => fst y = x /\ (good_ (snd x) = true -> fresh_over s [st] (snd y) cs' n').

Lemma usame_later {A} (x : ubump * A) g s s' y cs' n : (nexttag s <= nexttag s')%nat -> usame x g s' y cs' n -> usame x g s y cs' n.
Proof. intros L [E F]. split; [exact E|]. intros K. destruct (F K) as [F1 F2]. split; [exact F1|lia]. Qed.

Lemma run_mb_try_alloc_at u l e s cs self : udata u = st -> holds own cs objs fr s -> over cs self [hd; st] ->
  runs own objs fr (mb_try_alloc_at c t hd u l e self) s cs (usame (u_try_alloc_at t u l e) ok_result s).
Proof.
  intros E H O. unfold mb_try_alloc_at. rewrite E. apply under; [exact H|exact O|]. intros self1 s1 cs1 L1 H1 O1 N1.
  eapply runs_bind; [apply (run_one c own objs fr s1 cs1 self1 st H1 (over_st hd st _ _ O1))|]. cbn beta. intros q0 s2 cs2 L2 I2 H2 _.
  pose proof (over_more _ _ _ _ I2 O1) as O2.
  eapply runs_bind; [apply (run_one c own objs fr s2 cs2 self1 st H2 (over_st hd st _ _ O2))|]. cbn beta. intros q s3 cs3 L3 I3 H3 [P3 N3].
  pose proof (over_more _ _ _ _ I3 O2) as O3.
  eapply runs_bind; [apply (run_one c own objs fr s3 cs3 q st H3 P3)|]. cbn beta. intros q' s4 cs4 L4 I4 H4 [P4 N4].
  pose proof (over_more _ _ _ _ I4 O3) as O4.
  eapply runs_bind; [apply (run_uc c own objs fr s4 cs4 q' st H4 P4)|]. cbn beta. intros base s5 cs5 L5 I5 H5 [P5 N5].
  pose proof (over_more _ _ _ _ I5 O4) as O5.
  destruct (u_try_alloc_at t u l e) as [u' r].
  assert (P : forall (b : bool), runs own objs fr (_ <- mb_bump c t hd u self1 b ;; mret (u', r, base)) s5 cs5 (usame (u', r) ok_result s)).
  { intros b. eapply runs_bind; [apply (run_mb_bump u s5 cs5 self1 b E H5 O5)|]. cbn beta. intros _ s6 cs6 L6 I6 H6 _.
    apply runs_ret; [exact H6|]. split; [reflexivity|]. intros _. cbn [snd]. split; [eapply over_more; eauto|lia]. }
  assert (P2 : runs own objs fr (mret (u', r, base)) s5 cs5 (usame (u', r) ok_result s)).
  { apply runs_ret; [exact H5|]. split; [reflexivity|]. intros _. cbn [snd]. split; [exact P5|lia]. }
  destruct r as [[a|[|ob]]|m]; first [apply (P true)|apply (P false)|exact P2].
Qed.

Lemma run_mb_try_alloc u l s cs self : udata u = st -> holds own cs objs fr s -> over cs self [hd; st] ->
  runs own objs fr (mb_try_alloc c t hd u l self) s cs (usame (u_try_alloc t u l) ok_option s).
Proof.
  intros E H O. unfold mb_try_alloc. rewrite E. apply under; [exact H|exact O|]. intros self1 s1 cs1 L1 H1 O1 N1.
  eapply runs_bind; [apply (run_get c own objs fr s1 cs1 self1 hd H1 (over_hd hd st _ _ O1) hd_free)|]. cbn beta. intros [] s2 cs2 L2 I2 H2 _.
  eapply runs_bind; [apply (run_mb_try_alloc_at u l (uindex u) s2 cs2 self1 E H2 (over_more _ _ _ _ I2 O1))|]. cbn beta.
  intros [[u' r] base] s3 cs3 L3 I3 H3 [Y1 Y2]. unfold u_try_alloc. destruct (u_try_alloc_at t u l (uindex u)) as [u1 r1]. cbn [fst snd] in *. injection Y1 as -> ->.
  apply runs_ret; [exact H3|]. split; [cbn [fst]; destruct r1 as [[a|[|ob]]|m]; reflexivity|]. cbn [snd]. intros K.
  assert (K' : ok_result r1 = true) by (destruct r1 as [[a|[|ob]]|m]; [reflexivity|discriminate K..]). destruct (Y2 K') as [Y3 Y4]. split; [exact Y3|lia].
Qed.

Lemma run_mb_alloc u l s cs self : udata u = st -> holds own cs objs fr s -> over cs self [hd; st] ->
  runs own objs fr (mb_alloc c t hd u l self) s cs (usame (u_try_alloc t u l) ok_option s).
Proof.
  intros E H O. unfold mb_alloc. rewrite E. apply under; [exact H|exact O|]. intros self1 s1 cs1 L1 H1 O1 N1.
  eapply runs_weaken; [apply (run_mb_try_alloc u l s1 cs1 self1 E H1 O1)|]. intros y c0 n Y. exact (usame_later _ _ s s1 _ _ _ ltac:(lia) Y).
Qed.

Lemma run_mb_alloc_at u l lv s cs self : udata u = st -> holds own cs objs fr s -> over cs self [hd; st] ->
  runs own objs fr (mb_alloc_at c t hd u l lv self) s cs (usame (u_try_alloc_at t u l lv) ok_result s).
Proof.
  intros E H O. unfold mb_alloc_at. rewrite E. apply under; [exact H|exact O|]. intros self1 s1 cs1 L1 H1 O1 N1.
  eapply runs_weaken; [apply (run_mb_try_alloc_at u l lv s1 cs1 self1 E H1 O1)|]. intros y c0 n Y. exact (usame_later _ _ s s1 _ _ _ ltac:(lia) Y).
Qed.

Lemma run_mb_method u k s cs self : udata u = st -> k <> UCall CReset -> holds own cs objs fr s -> over cs self [hd; st] ->
  runs own objs fr (mb_method c t hd u k self) s cs (usame (ustep t u k) is_block s).
Proof.
  intros E Nk H O.
  assert (A1 : forall l, runs own objs fr (x <- mb_alloc c t hd u l self ;; let '(u', r, base) := x in mret (u', of_option r, base)) s cs
      (usame (let (u', r) := u_try_alloc t u l in (u', of_option r)) is_block s)).
  { intros l. eapply runs_bind; [apply (run_mb_alloc u l s cs self E H O)|]. cbn beta. intros [[u' r] base] s3 cs3 L3 I3 H3 [Y1 Y2].
    destruct (u_try_alloc t u l) as [u1 r1]. cbn [fst snd] in *. injection Y1 as -> ->. apply runs_ret; [exact H3|]. split; [reflexivity|]. cbn [snd]. intros K.
    apply Y2. destruct r1 as [[?|]|]; [reflexivity|discriminate K..]. }
  assert (A2 : forall l lv, runs own objs fr (x <- mb_alloc_at c t hd u l lv self ;; let '(u', r, base) := x in mret (u', of_result r, base)) s cs
      (usame (let (u', r) := u_try_alloc_at t u l lv in (u', of_result r)) is_block s)).
  { intros l lv. eapply runs_bind; [apply (run_mb_alloc_at u l lv s cs self E H O)|]. cbn beta. intros [[u' r] base] s3 cs3 L3 I3 H3 [Y1 Y2].
    destruct (u_try_alloc_at t u l lv) as [u1 r1]. cbn [fst snd] in *. injection Y1 as -> ->. apply runs_ret; [exact H3|]. split; [reflexivity|]. cbn [snd]. intros K.
    apply Y2. destruct r1 as [[?|[|?]]|]; [reflexivity|discriminate K..]. }
  destruct k as [[l|l lv|l|l lv| |]|l|l n]; cbn [mb_method ustep]; auto; [|congruence| |].
  - eapply runs_bind; [apply (run_mb_level u s cs self E H O)|]. cbn beta. intros lv s1 cs1 L1 I1 H1 ->. apply runs_ret; [exact H1|]. split; [reflexivity|discriminate].
  - unfold mb_bump_box, u_bump_box.
    eapply runs_bind with (Q := usame (u_try_alloc_at t u l (u_level u)) ok_result s).
    + rewrite E. apply under; [exact H|exact O|]. intros self1 s1 cs1 L1 H1 O1 N1.
      eapply runs_bind; [apply (run_mb_level u s1 cs1 self1 E H1 O1)|]. cbn beta. intros lv s2 cs2 L2 I2 H2 ->.
      eapply runs_weaken; [apply (run_mb_alloc_at u l (u_level u) s2 cs2 self1 E H2 (over_more _ _ _ _ I2 O1))|]. intros y c0 n Y. exact (usame_later _ _ s s2 _ _ _ ltac:(lia) Y).
    + cbn beta. intros [[u' r] base] s3 cs3 L3 I3 H3 [Y1 Y2]. destruct (u_try_alloc_at t u l (u_level u)) as [u1 r1]. cbn [fst snd] in *. injection Y1 as -> ->.
      apply runs_ret; [exact H3|]. split; [reflexivity|]. cbn [snd]. intros K. apply Y2. destruct r1 as [[?|[|?]]|]; [reflexivity|discriminate K..].
  - unfold mb_bump_array.
    eapply runs_bind with (Q := usame (u_bump_array t u l n) ok_result s).
    + rewrite E. apply under; [exact H|exact O|]. intros self1 s1 cs1 L1 H1 O1 N1. unfold u_bump_array. destruct (layout_array t l n) as [la|].
      2:{ apply runs_ret; [exact H1|]. split; [reflexivity|discriminate]. }
      eapply runs_bind; [apply (run_mb_alloc u la s1 cs1 self1 E H1 O1)|]. cbn beta. intros [[u' r] base] s3 cs3 L3 I3 H3 [Y1 Y2].
      destruct (u_try_alloc t u la) as [u1 r1]. cbn [fst snd] in *. injection Y1 as -> ->.
      apply runs_ret; [exact H3|]. split; [destruct r1 as [[?|]|]; reflexivity|]. cbn [snd]. intros K.
      assert (K' : ok_option r1 = true) by (destruct r1 as [[?|]|]; [reflexivity|discriminate K..]). destruct (Y2 K') as [Y3 Y4]. split; [exact Y3|lia].
    + cbn beta. intros [[u' r] base] s3 cs3 L3 I3 H3 [Y1 Y2]. destruct (u_bump_array t u l n) as [u1 r1]. cbn [fst snd] in *. injection Y1 as -> ->.
      apply runs_ret; [exact H3|]. split; [reflexivity|]. cbn [snd]. intros K. apply Y2. destruct r1 as [[?|[|?]]|]; [reflexivity|discriminate K..].
Qed.
End Lib.
