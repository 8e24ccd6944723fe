(** * UBorrowCells: objects of the library (temporary references), and what it does with its cells. *)
From Verif Require Import Base Spec BaseFacts SyncModel SyncSpec BorrowModel BorrowSpec BorrowProofs BorrowState BorrowWorld UBorrowModel UBorrowSub.

(** ** An access to one object, given its effect on every byte *)
Lemma act_gives busy o a n (K : Z -> stack) : act_ok (MkO (iblk o) (itags o)) a = true ->
  (forall x, in_block (iblk o) x -> match act_at busy a n x with Some f => f (istk o x) = Some (K x) | None => K x = istk o x end) ->
  exists o', ideal_act busy o a n = Some o' /\ iblk o' = iblk o /\ itags o' = tags_after a n (itags o) /\
    (forall x, in_block (iblk o) x -> istk o' x = K x).
Proof.
  intros A H. rewrite ideal_act_stk. pose proof (act_does busy _ a n (istk o) A) as D. destruct (act_stk busy a n (istk o)) as [k|]; cbn [does] in D.
  - eexists. split; [reflexivity|]. cbn [iblk itags istk]. split; [reflexivity|]. split; [reflexivity|]. intros x X. specialize (D x). specialize (H x X).
    destruct (act_at busy a n x) as [f|]; congruence.
  - exfalso. destruct D as (x & f & F1 & F2). pose proof (act_inside busy _ a n x f A F1) as X. cbn [oblk] in X. specialize (H x X). rewrite F1 in H. congruence.
Qed.

Lemma obj_act own cs objs fr s busy k o a (K : Z -> stack) :
  holds own cs objs fr s -> nth_error objs k = Some o -> act_ok (MkO (iblk o) (itags o)) a = true ->
  pairwise disjoint (map iblk objs) -> (forall x, in_block (iblk o) x -> ~ fr x) -> (forall t bs, In (t, bs) cs -> ~ In t (itags o)) ->
  (forall x, in_block (iblk o) x -> match act_at busy a (nexttag s) x with Some f => f (istk o x) = Some (K x) | None => K x = istk o x end) ->
  exists s' o', do_act busy a s = Some (ans_after a (nexttag s), s') /\ nexttag s' = next_after a (nexttag s) /\
    iblk o' = iblk o /\ itags o' = tags_after a (nexttag s) (itags o) /\ (forall x, in_block (iblk o) x -> istk o' x = K x) /\
    holds own cs (set_nth objs k o') fr s'.
Proof.
  intros H Ho A P NF NC HK. destruct (act_gives busy o a (nexttag s) K A HK) as (o' & E & B1 & B2 & B3).
  pose proof (client_act own cs objs fr s busy k o a H Ho A P NF NC) as C. rewrite E in C. destruct (do_act busy a s) as [[n s']|]; [|contradiction].
  destruct C as (-> & C1 & _ & C2 & C3). exists s', o'. auto 8.
Qed.

Lemma set_last {A} (l : list A) x y : set_nth (l ++ [x]) (length l) y = l ++ [y].
Proof. induction l as [|z l IH]; [reflexivity|]. cbn [app length set_nth]. rewrite IH. reflexivity. Qed.

Lemma nth_last {A} (l : list A) x : nth_error (l ++ [x]) (length l) = Some x.
Proof. rewrite nth_error_app2 by lia. rewrite Nat.sub_diag. reflexivity. Qed.

(** ** An object that is not used any more *)
Lemma retire own cs objs o (fr : Z -> Prop) s : holds own cs (objs ++ [o]) fr s -> Forall (fun o' => disjoint (iblk o) (iblk o')) objs ->
  (forall x, in_block (iblk o) x -> Forall garb_item (istk o x)) -> holds own cs objs (fun x => fr x \/ in_block (iblk o) x) s.
Proof.
  intros H D Pr. destruct H as [h1 h2 h3 h4]. split; [exact h1| |exact h3|].
  - intros o' t I. apply h2. apply in_or_app. left. exact I.
  - intros x. destruct (h4 x) as (d & E & G & U & F & R). destruct (inb (iblk o) x) eqn:X.
    + apply inb_iff in X. pose proof (R o ltac:(apply in_or_app; right; left; reflexivity) X) as [R1 R2 R3].
      exists (MkDec [] (up d ++ garb d) (low d)). split; [rewrite E; unfold whole; cbn [up garb low app]; napp; reflexivity|].
      pose proof (lt_parts _ _ _ G) as (L1 & L2 & L3). pose proof (Pr x X) as Px. rewrite R3 in Px. apply Forall_app in Px. destruct Px as [Px _].
      split; [|split; [|split]].
      * destruct G. split; cbn [up garb low app]; auto; [apply Forall_app; auto|apply bottom_up_garb; auto|apply bottom_nil|].
        rewrite !Forall_app. auto.
      * intros t C. destruct (U t C) as (U1 & U2 & U3). split; [exact U1|]. cbn [up garb]. split; [intros []|]. rewrite map_app. intros K. apply in_app_or in K. destruct K; auto.
      * reflexivity.
      * intros o' I' X'. exfalso. rewrite Forall_forall in D. apply (D o' I' x). auto.
    + exists d. split; [exact E|]. split; [exact G|]. split; [exact U|]. split.
      * intros [K|K]; [auto|]. apply inb_iff in K. congruence.
      * intros o' I'. apply R. apply in_or_app. left. exact I'.
Qed.

(** ** Accesses to the whole of an object *)
Section Last.
Variables (busy : list nat) (own : bool) (cs : caps) (objs : list iobj) (fr : Z -> Prop).
Hypothesis (pair_ : pairwise disjoint (map iblk objs)).

(** the last object, whose bytes have the same stack, and which only the library knows *)
Definition tmp (s : bstate) (o : iobj) (st : stack) : Prop :=
  holds own cs (objs ++ [o]) fr s /\ Forall (fun o' => disjoint (iblk o) (iblk o')) objs /\ (forall x, in_block (iblk o) x -> ~ fr x) /\
  (forall t bs, In (t, bs) cs -> ~ In t (itags o)) /\ (forall x, in_block (iblk o) x -> istk o x = st).

Lemma tmp_act s o st a st' b :
  tmp s o st -> iblk o = b -> act_ok (MkO b (itags o)) a = true ->
  (forall x, in_block b x -> exists f, act_at busy a (nexttag s) x = Some f /\ f st = Some st') ->
  exists s' o', do_act busy a s = Some (ans_after a (nexttag s), s') /\ nexttag s' = next_after a (nexttag s) /\
    iblk o' = b /\ itags o' = tags_after a (nexttag s) (itags o) /\ tmp s' o' st'.
Proof.
  intros (H & D & F & C & U) <- A HK.
  assert (P : pairwise disjoint (map iblk (objs ++ [o]))).
  { rewrite map_app. cbn [map]. apply pair_snoc; [exact pair_|]. apply Forall_map. exact D. }
  destruct (obj_act own cs (objs ++ [o]) fr s busy (length objs) o a (fun _ => st') H (nth_last objs o) A P F C) as (s' & o' & E1 & E2 & E3 & E4 & E5 & E6).
  { intros x X. destruct (HK x X) as (f & -> & Ef). rewrite (U x X). exact Ef. }
  rewrite set_last in E6. exists s', o'. split; [exact E1|]. split; [exact E2|]. split; [exact E3|]. split; [exact E4|].
  split; [exact E6|]. rewrite E3. split; [exact D|]. split; [exact F|]. split; [|intros x X; apply E5; exact X].
  intros t bs I. rewrite E4. pose proof (h_caps _ _ _ _ _ H t bs I) as Lt. destruct a; cbn [tags_after]; [eauto|eauto|]. intros [K|K]; [lia|]. exact (C t bs I K).
Qed.

Lemma has_tag (t : nat) l : In t l -> existsb (Nat.eqb t) l = true.
Proof. intros I. apply existsb_exists. exists t. rewrite Nat.eqb_refl. auto. Qed.

Lemma within_self (b : block) : (start b <=? start b) && (start b + size b <=? start b + size b) = true.
Proof. rewrite !Z.leb_refl. reflexivity. Qed.

Lemma tmp_read s o st st' t b : tmp s o st -> iblk o = b -> In t (itags o) -> sb_read busy t st = Some st' ->
  exists s' o', m_read busy t b s = Some (tt, s') /\ nexttag s' = nexttag s /\ iblk o' = b /\ itags o' = itags o /\ tmp s' o' st'.
Proof.
  intros T B It E. destruct (tmp_act s o st (CRead t b) st' b T B) as (s' & o' & E1 & E2 & E3 & E4 & E5).
  - cbn [act_ok oblk otags]. rewrite (has_tag _ _ It), within_self. reflexivity.
  - intros x X. cbn [act_at]. rewrite (proj2 (inb_iff b x) X). eauto.
  - exists s', o'. split; [|auto]. cbn [do_act] in E1. unfold mbind in E1. destruct (m_read busy t b s) as [[[] s1]|]; [|discriminate]. cbn in E1. injection E1 as <-. reflexivity.
Qed.

Lemma tmp_write s o st st' t b : tmp s o st -> iblk o = b -> In t (itags o) -> sb_write busy t st = Some st' ->
  exists s' o', m_write busy t b s = Some (tt, s') /\ nexttag s' = nexttag s /\ iblk o' = b /\ itags o' = itags o /\ tmp s' o' st'.
Proof.
  intros T B It E. destruct (tmp_act s o st (CWrite t b) st' b T B) as (s' & o' & E1 & E2 & E3 & E4 & E5).
  - cbn [act_ok oblk otags]. rewrite (has_tag _ _ It), within_self. reflexivity.
  - intros x X. cbn [act_at]. rewrite (proj2 (inb_iff b x) X). eauto.
  - exists s', o'. split; [|auto]. cbn [do_act] in E1. unfold mbind in E1. destruct (m_write busy t b s) as [[[] s1]|]; [|discriminate]. cbn in E1. injection E1 as <-. reflexivity.
Qed.

Lemma tmp_retag s o st st' k t b : tmp s o st -> iblk o = b -> In t (itags o) -> sb_retag busy k t (nexttag s) None st = Some st' ->
  exists s' o', one busy k b t s = Some (nexttag s, s') /\ nexttag s' = S (nexttag s) /\ iblk o' = b /\ itags o' = nexttag s :: itags o /\ tmp s' o' st'.
Proof.
  intros T B It E. destruct (tmp_act s o st (CRetag t [(k, b)] None) st' b T B) as (s' & o' & E1 & E2 & E3 & E4 & E5).
  - cbn [act_ok oblk otags forallb snd apart]. rewrite (has_tag _ _ It), within_self. reflexivity.
  - intros x X. cbn [act_at find snd]. rewrite (proj2 (inb_iff b x) X). eauto.
  - exists s', o'. split; [|auto]. cbn [do_act] in E1. unfold mbind in E1. unfold one, m_retag. destruct (m_retag_prot busy t [(k, b)] None s) as [[n s1]|]; [|discriminate].
    cbn in E1. injection E1 as -> ->. reflexivity.
Qed.
End Last.

(** ** Stacks of one unique item and what is above it *)
Lemma u_top w n p st : granting w n (MkItem n Unique p :: st) = Some ([], MkItem n Unique p, st).
Proof. cbn [granting itag iperm]. rewrite Nat.eqb_refl. destruct w; reflexivity. Qed.

Lemma u_read c n st : sb_read c n (MkItem n Unique None :: st) = Some (MkItem n Unique None :: st).
Proof. unfold sb_read. rewrite u_top. reflexivity. Qed.
Lemma u_write c n st : sb_write c n (MkItem n Unique None :: st) = Some (MkItem n Unique None :: st).
Proof. unfold sb_write. rewrite u_top. reflexivity. Qed.
Lemma u_unique c n m st : sb_retag c RUnique n m None (MkItem n Unique None :: st) = Some (MkItem m Unique None :: MkItem n Unique None :: st).
Proof. cbn [sb_retag]. rewrite u_write. reflexivity. Qed.
Lemma u_cell c n m st : sb_retag c RCell n m None (MkItem n Unique None :: st) = Some (MkItem m SharedRW None :: MkItem n Unique None :: st).
Proof. cbn [sb_retag]. rewrite u_top. reflexivity. Qed.
Lemma s_top w n st : granting w n (MkItem n SharedRW None :: st) = Some ([], MkItem n SharedRW None, st).
Proof. cbn [granting itag iperm]. rewrite Nat.eqb_refl. destruct w; reflexivity. Qed.
Lemma s_cell c n m st : sb_retag c RCell n m None (MkItem n SharedRW None :: st) = Some (MkItem m SharedRW None :: MkItem n SharedRW None :: st).
Proof. cbn [sb_retag]. rewrite s_top. reflexivity. Qed.
Lemma s_unique c n m st : sb_retag c RUnique n m None (MkItem n SharedRW None :: st) = Some (MkItem m Unique None :: MkItem n SharedRW None :: st).
Proof. cbn [sb_retag]. unfold sb_write. rewrite s_top. reflexivity. Qed.
Lemma s_write c n st : sb_write c n (MkItem n SharedRW None :: st) = Some (MkItem n SharedRW None :: st).
Proof. unfold sb_write. rewrite s_top. reflexivity. Qed.

(** [Cell::set] of a cell that belongs to a temporary reference *)
Lemma tmp_set busy own cs objs fr (P : pairwise disjoint (map iblk objs)) s o st t p b :
  (p = Unique \/ p = SharedRW) -> tmp own cs objs fr s o (MkItem t p None :: st) -> iblk o = b -> In t (itags o) -> Forall garb_item st ->
  exists s' o' st', cell_set busy b t s = Some (tt, s') /\ (nexttag s <= nexttag s')%nat /\ iblk o' = b /\ tmp own cs objs fr s' o' st' /\ Forall garb_item st'.
Proof.
  intros Hp T B It G. unfold cell_set, uc_get.
  destruct (tmp_retag busy own cs objs fr P s o _ (MkItem (nexttag s) SharedRW None :: MkItem t p None :: st) RCell t b T B It) as (s1 & o1 & E1 & N1 & B1 & I1 & T1);
    [destruct Hp as [-> | ->]; [apply u_cell|apply s_cell]|].
  destruct (tmp_retag busy own cs objs fr P s1 o1 _ (MkItem (nexttag s1) SharedRW None :: MkItem (nexttag s) SharedRW None :: MkItem t p None :: st) RCell (nexttag s) b T1 B1 ltac:(rewrite I1; left; reflexivity)) as (s2 & o2 & E2 & N2 & B2 & I2 & T2);
    [apply s_cell|].
  destruct (tmp_retag busy own cs objs fr P s2 o2 _ (MkItem (nexttag s2) SharedRW None :: MkItem (nexttag s1) SharedRW None :: MkItem (nexttag s) SharedRW None :: MkItem t p None :: st) RCell (nexttag s1) b T2 B2 ltac:(rewrite I2; left; reflexivity)) as (s3 & o3 & E3 & N3 & B3 & I3 & T3);
    [apply s_cell|].
  set (st3 := MkItem (nexttag s2) SharedRW None :: MkItem (nexttag s1) SharedRW None :: MkItem (nexttag s) SharedRW None :: MkItem t p None :: st) in *.
  destruct (tmp_retag busy own cs objs fr P s3 o3 _ (MkItem (nexttag s3) Unique None :: st3) RUnique (nexttag s2) b T3 B3 ltac:(rewrite I3; left; reflexivity)) as (s4 & o4 & E4 & N4 & B4 & I4 & T4);
    [apply s_unique|].
  destruct (tmp_retag busy own cs objs fr P s4 o4 _ (MkItem (nexttag s4) Unique None :: MkItem (nexttag s3) Unique None :: st3) RUnique (nexttag s3) b T4 B4 ltac:(rewrite I4; left; reflexivity)) as (s5 & o5 & E5 & N5 & B5 & I5 & T5);
    [apply u_unique|].
  destruct (tmp_read busy own cs objs fr P s5 o5 _ (MkItem (nexttag s4) Unique None :: MkItem (nexttag s3) Unique None :: st3) (nexttag s4) b T5 B5 ltac:(rewrite I5; left; reflexivity)) as (s6 & o6 & E6 & N6 & B6 & I6 & T6);
    [apply u_read|].
  destruct (tmp_write busy own cs objs fr P s6 o6 _ (MkItem (nexttag s4) Unique None :: MkItem (nexttag s3) Unique None :: st3) (nexttag s4) b T6 B6 ltac:(rewrite I6, I5; left; reflexivity)) as (s7 & o7 & E7 & N7 & B7 & I7 & T7);
    [apply u_write|].
  exists s7, o7, (MkItem (nexttag s4) Unique None :: MkItem (nexttag s3) Unique None :: st3).
  split; [unfold mbind; rewrite E1, E2, E3, E4, E5, E6; exact E7|]. split; [lia|]. split; [exact B7|]. split; [exact T7|].
  unfold st3. repeat constructor. exact G.
Qed.

(** ** Cells, through shared references *)
Section Cells.
Variables (c : list nat) (own : bool) (objs : list iobj) (fr : Z -> Prop).
Hypothesis (pair_ : pairwise disjoint (map iblk objs)) (used_ : forall o x, In o objs -> in_block (iblk o) x -> ~ fr x).

Lemma run_one s cs p b : holds own cs objs fr s -> over cs p [b] -> runs own objs fr (one c RCell b p) s cs (fresh_over s [b]).
Proof. intros H O. apply (runs_new c own objs fr s cs p [b] H); auto. repeat constructor. Qed.

Lemma run_uc s cs p b : holds own cs objs fr s -> over cs p [b] -> runs own objs fr (uc_get c b p) s cs (fresh_over s [b]).
Proof.
  intros H O. unfold uc_get. eapply runs_bind; [apply (run_one s cs p b H O)|]. cbn beta. intros r s1 cs1 L1 I1 H1 [O1 N1].
  eapply runs_weaken; [apply (run_one s1 cs1 r b H1 O1)|]. intros a c0 n [A B]. split; [exact A|lia].
Qed.

Lemma run_get s cs p b : holds own cs objs fr s -> over cs p [b] -> (forall x, in_block b x -> fr x) -> runs own objs fr (cell_get c b p) s cs (fun _ _ _ => True).
Proof.
  intros H O F. unfold cell_get. eapply runs_bind; [apply (run_one s cs p b H O)|]. cbn beta. intros r s1 cs1 L1 I1 H1 [O1 N1].
  eapply runs_bind; [apply (run_uc s1 cs1 r b H1 O1)|]. cbn beta. intros q s2 cs2 L2 I2 H2 [O2 N2].
  eapply runs_weaken; [apply (runs_rd own objs fr c q b s2 cs2 H2 O2 F)|]. auto.
Qed.

Lemma run_set s cs p b : holds own cs objs fr s -> over cs p [b] -> (forall x, in_block b x -> fr x) -> runs own objs fr (cell_set c b p) s cs (fun _ _ _ => True).
Proof.
  intros H O F. unfold cell_set. eapply runs_bind; [apply (run_one s cs p b H O)|]. cbn beta. intros r s1 cs1 L1 I1 H1 [O1 N1].
  eapply runs_bind; [apply (run_uc s1 cs1 r b H1 O1)|]. cbn beta. intros q s2 cs2 L2 I2 H2 [O2 N2].
  assert (D : Forall (fun o => disjoint b (iblk o)) objs).
  { apply Forall_forall. intros o Io x [X1 X2]. exact (used_ o x Io X2 (F x X1)). }
  destruct (leak_new c own cs2 objs fr s2 b q H2 O2 F D) as (s3 & E3 & N3 & H3).
  assert (T3 : tmp own cs2 objs (fun x => fr x /\ ~ in_block b x) s3 (new_object b (nexttag s2) Unique) [MkItem (nexttag s2) Unique None]).
  { split; [exact H3|]. split; [exact D|]. split; [cbn [new_object iblk]; tauto|]. split; [|reflexivity].
    intros t bs I. cbn [new_object itags]. intros [K|[]]. pose proof (h_caps _ _ _ _ _ H2 t bs I). lia. }
  destruct (tmp_retag c own cs2 objs _ pair_ s3 _ _ [MkItem (nexttag s3) Unique None; MkItem (nexttag s2) Unique None] RUnique (nexttag s2) b T3 eq_refl ltac:(left; reflexivity)) as (s4 & o4 & E4 & N4 & B4 & I4 & T4);
    [apply u_unique|].
  destruct (tmp_read c own cs2 objs _ pair_ s4 o4 _ [MkItem (nexttag s3) Unique None; MkItem (nexttag s2) Unique None] (nexttag s3) b T4 B4 ltac:(rewrite I4; left; reflexivity)) as (s5 & o5 & E5 & N5 & B5 & I5 & T5);
    [apply u_read|].
  destruct (tmp_write c own cs2 objs _ pair_ s5 o5 _ [MkItem (nexttag s3) Unique None; MkItem (nexttag s2) Unique None] (nexttag s3) b T5 B5 ltac:(rewrite I5, I4; left; reflexivity)) as (s6 & o6 & E6 & N6 & B6 & I6 & T6);
    [apply u_write|].
  destruct T6 as (H6 & D6 & _ & _ & U6).
  exists tt, s6, cs2. split; [unfold mbind; change (one c RUnique b q s2) with (m_retag c q [(RUnique, b)] s2); rewrite E3, E4, E5; exact E6|].
  split; [lia|]. split; [apply incl_refl|]. split; [|exact Logic.I].
  eapply holds_fr; [|apply (retire own cs2 objs o6 _ s6 H6 D6)].
  - cbn beta. intros x X. rewrite B6. destruct (inb b x) eqn:Q; [right; apply inb_iff; exact Q|left]. split; [exact X|]. rewrite <- inb_iff. congruence.
  - intros x X. rewrite (U6 x X). repeat constructor.
Qed.
End Cells.
