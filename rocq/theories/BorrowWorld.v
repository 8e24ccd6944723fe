(** * BorrowWorld: programs that use a Bump, compared with the ideal. *)
From Verif Require Import Base Spec BaseFacts SyncModel SyncSpec SyncProofs BorrowModel BorrowSpec BorrowProofs BorrowState.

(** ** The client's accesses *)
Definition act_at (busy : list nat) (a : cact) (n : nat) (x : Z) : option (stack -> option stack) :=
  match a with
  | CRead t b => if inb b x then Some (sb_read busy t) else None
  | CWrite t b => if inb b x then Some (sb_write busy t) else None
  | CRetag t parts p => match find (fun q => inb (snd q) x) parts with Some (kd, _) => Some (sb_retag busy kd t n p) | None => None end
  end.

Definition act_stk (busy : list nat) (a : cact) (n : nat) (k : Z -> stack) : option (Z -> stack) :=
  match a with
  | CRead t b => on_block b (sb_read busy t) k
  | CWrite t b => on_block b (sb_write busy t) k
  | CRetag t parts p => retag_parts busy t n p parts k
  end.

Definition does (A : Z -> option (stack -> option stack)) (k : Z -> stack) (r : option (Z -> stack)) : Prop :=
  match r with
  | Some k' => forall x, match A x with Some f => f (k x) = Some (k' x) | None => k' x = k x end
  | None => exists x f, A x = Some f /\ f (k x) = None
  end.

Lemma on_block_does b f k : does (fun x => if inb b x then Some f else None) k (on_block b f k).
Proof.
  destruct (on_block b f k) as [k'|] eqn:E; cbn [does].
  - intros x. destruct (inb b x) eqn:X; apply (on_block_spec _ _ _ _ E x); [apply inb_iff; exact X|rewrite <- inb_iff; congruence].
  - destruct (on_block_none _ _ _ E) as (x & X & F). exists x, f. rewrite (proj2 (inb_iff b x) X). auto.
Qed.

Lemma apart_not kd b parts x : apart ((kd, b) :: parts) = true -> inb b x = true -> find (fun q : rkind * block => inb (snd q) x) parts = None.
Proof.
  cbn [apart]. rewrite andb_true_iff. intros [F _] X. rewrite forallb_forall in F. destruct (find _ parts) as [[kd' b']|] eqn:E; [|reflexivity]. exfalso.
  apply find_some in E. destruct E as [I Y]. specialize (F _ I). cbn [snd] in *. apply inb_iff in X. apply inb_iff in Y. unfold in_block in *. lia.
Qed.

Lemma retag_does busy t n p parts : forall k, apart parts = true ->
  does (fun x => match find (fun q => inb (snd q) x) parts with Some (kd, _) => Some (sb_retag busy kd t n p) | None => None end) k (retag_parts busy t n p parts k).
Proof.
  induction parts as [|[kd b] parts IH]; intros k P; cbn [retag_parts]; [cbn; auto|].
  assert (P2 : apart parts = true) by (cbn [apart] in P; apply andb_true_iff in P; apply P).
  pose proof (on_block_does b (sb_retag busy kd t n p) k) as D. destruct (on_block b _ k) as [k1|]; cbn [does] in D.
  - specialize (IH k1 P2). destruct (retag_parts _ _ _ _ parts k1) as [k2|]; cbn [does] in IH |- *.
    + intros x. specialize (IH x). specialize (D x). cbn [find snd]. destruct (inb b x) eqn:X.
      * rewrite (apart_not _ _ _ _ P X) in IH. congruence.
      * destruct (find _ parts) as [[kd' b']|]; congruence.
    + destruct IH as (x & f & F1 & F2). exists x, f. cbn [find snd]. specialize (D x). destruct (inb b x) eqn:X.
      * rewrite (apart_not _ _ _ _ P X) in F1. discriminate.
      * rewrite D in F2. auto.
  - destruct D as (x & f & F1 & F2). exists x, f. cbn [find snd]. destruct (inb b x); [auto|discriminate].
Qed.

Lemma act_does busy o a n k : act_ok o a = true -> does (act_at busy a n) k (act_stk busy a n k).
Proof.
  intros A. destruct a as [t b|t b|t parts p]; cbn [act_at act_stk]; try apply on_block_does. apply retag_does. cbn [act_ok] in A. apply andb_true_iff in A. apply A.
Qed.

Definition next_after (a : cact) (n : nat) : nat := match a with CRetag _ _ _ => S n | _ => n end.
Definition tags_after (a : cact) (n : nat) (T : list nat) : list nat := match a with CRetag _ _ _ => n :: T | _ => T end.
Definition ans_after (a : cact) (n : nat) : option nat := match a with CRetag _ _ _ => Some n | _ => None end.

Lemma act_inside busy o a n x f : act_ok o a = true -> act_at busy a n x = Some f -> in_block (oblk o) x.
Proof.
  destruct a as [t b|t b|t parts p]; cbn [act_ok act_at]; rewrite ?andb_true_iff, ?Z.leb_le.
  - intros [_ W]. destruct (inb b x) eqn:X; [|discriminate]. intros _. apply inb_iff in X. unfold in_block in *. lia.
  - intros [_ W]. destruct (inb b x) eqn:X; [|discriminate]. intros _. apply inb_iff in X. unfold in_block in *. lia.
  - intros [[_ W] _]. destruct (find _ parts) as [[kd b]|] eqn:F; [|discriminate]. intros _. apply find_some in F. destruct F as [I X].
    rewrite forallb_forall in W. specialize (W _ I). cbn [snd] in *. rewrite andb_true_iff, !Z.leb_le in W. apply inb_iff in X. unfold in_block in *. lia.
Qed.

Definition act_tag (a : cact) : nat := match a with CRead t _ | CWrite t _ | CRetag t _ _ => t end.

Lemma act_has o a : act_ok o a = true -> In (act_tag a) (otags o).
Proof.
  destruct a as [t b|t b|t parts p]; cbn [act_ok act_tag]; rewrite ?andb_true_iff; intros A; [destruct A as [A _]|destruct A as [A _]|destruct A as [[A _] _]];
    apply existsb_exists in A; destruct A as (y & Y & E); apply Nat.eqb_eq in E; subst; exact Y.
Qed.

Lemma act_both busy own n T d ist a x f : good own n d -> rel T d ist -> In (act_tag a) T -> act_tag a <> 0%nat -> (1 <= n)%nat ->
  act_at busy a n x = Some f -> both own (next_after a n) (tags_after a n T) (ans_after a n) d (f (whole own d)) (f ist).
Proof.
  intros G R Ht N L. destruct a as [t b|t b|t parts p]; cbn [act_at act_tag next_after tags_after ans_after] in *.
  - destruct (inb b x); [|discriminate]. intros [= <-]. apply client_read; auto.
  - destruct (inb b x); [|discriminate]. intros [= <-]. apply client_write; auto.
  - destruct (find _ parts) as [[kd b]|]; [|discriminate]. intros [= <-]. apply client_retag; auto. apply lo_le. exact L.
Qed.

Lemma do_act_stk busy a s : do_act busy a s =
  match act_stk busy a (nexttag s) (stk s) with Some k => Some (ans_after a (nexttag s), MkB k (next_after a (nexttag s))) | None => None end.
Proof.
  destruct a as [t b|t b|t parts p]; cbn [do_act act_stk ans_after next_after]; unfold mbind, m_read, m_write, m_retag_prot, mret;
    [destruct (on_block _ _ _)|destruct (on_block _ _ _)|destruct (retag_parts _ _ _ _ _ _)]; reflexivity.
Qed.

Lemma ideal_act_stk busy o a n : ideal_act busy o a n =
  match act_stk busy a n (istk o) with Some k => Some (MkI (iblk o) k (tags_after a n (itags o))) | None => None end.
Proof. destruct a as [t b|t b|t parts p]; reflexivity. Qed.

(** ** Lists *)
Lemma set_nth_in {A} (l : list A) k x y : In y (set_nth l k x) -> y = x \/ In y l.
Proof.
  revert k. induction l as [|z l IH]; intros k; [intros []|]. destruct k; cbn [set_nth].
  - intros [<-|H]; [left|right; right]; auto.
  - intros [<-|H]; [right; left; reflexivity|]. destruct (IH _ H); [left|right; right]; auto.
Qed.

Lemma set_nth_other {A} (l : list A) k x y : In y (set_nth l k x) -> y = x \/ exists j, j <> k /\ nth_error l j = Some y.
Proof.
  revert k. induction l as [|z l IH]; intros k; [intros []|]. destruct k; cbn [set_nth].
  - intros [<-|H]; [left; auto|right]. apply In_nth_error in H. destruct H as [j H]. exists (S j). split; [lia|exact H].
  - intros [<-|H]; [right; exists O; split; [lia|reflexivity]|]. destruct (IH _ H) as [->|(j & J1 & J2)]; [left; reflexivity|right].
    exists (S j). split; [lia|exact J2].
Qed.

Lemma set_nth_map {A B} (f : A -> B) l k x o : nth_error l k = Some o -> f x = f o -> map f (set_nth l k x) = map f l.
Proof.
  revert k. induction l as [|z l IH]; intros k; [destruct k; discriminate|]. destruct k; cbn [nth_error set_nth map].
  - intros [= ->] ->. reflexivity.
  - intros H E. rewrite (IH _ H E). reflexivity.
Qed.

Lemma set_nth_map2 {A B} (f : A -> B) l k x : map f (set_nth l k x) = set_nth (map f l) k (f x).
Proof. revert k. induction l as [|z l IH]; intros k; [reflexivity|]. destruct k; cbn [set_nth map]; [reflexivity|]. rewrite IH. reflexivity. Qed.

(** ** An access of the client *)
Lemma client_act own cs objs fr s busy k o a :
  holds own cs objs fr s -> nth_error objs k = Some o -> act_ok (MkO (iblk o) (itags o)) a = true ->
  pairwise disjoint (map iblk objs) -> (forall x, in_block (iblk o) x -> ~ fr x) ->
  (forall t bs, In (t, bs) cs -> ~ In t (itags o)) ->
  match do_act busy a s, ideal_act busy o a (nexttag s) with
  | Some (n, s'), Some o' => n = ans_after a (nexttag s) /\ nexttag s' = next_after a (nexttag s) /\ iblk o' = iblk o /\ itags o' = tags_after a (nexttag s) (itags o) /\
      holds own cs (set_nth objs k o') fr s'
  | None, None => True
  | _, _ => False
  end.
Proof.
  intros H Ho A P NF NC. rewrite do_act_stk, ideal_act_stk. pose proof (act_does busy _ a (nexttag s) (stk s) A) as D1. pose proof (act_does busy _ a (nexttag s) (istk o) A) as D2.
  pose proof (h_next _ _ _ _ _ H) as N1. pose proof (act_has _ _ A) as HT. cbn [otags] in HT. pose proof (nth_error_In _ _ Ho) as Io.
  pose proof (h_tags _ _ _ _ _ H o _ Io HT) as HT1.
  assert (B : forall x f d, act_at busy a (nexttag s) x = Some f -> byte own (nexttag s) cs objs fr x d ->
    both own (next_after a (nexttag s)) (tags_after a (nexttag s) (itags o)) (ans_after a (nexttag s)) d (f (whole own d)) (f (istk o x))).
  { intros x f d E (G & U & F & R). eapply act_both; eauto; [|lia]. apply R; [exact Io|]. exact (act_inside busy (MkO (iblk o) (itags o)) a (nexttag s) x f A E). }
  destruct (act_stk busy a (nexttag s) (stk s)) as [k1|]; destruct (act_stk busy a (nexttag s) (istk o)) as [k2|]; cbn [does] in D1, D2; [|exfalso|exfalso|exact Logic.I].
  - cbn [nexttag iblk itags]. do 4 (split; [reflexivity|]).
    assert (NL : (nexttag s <= next_after a (nexttag s))%nat) by (destruct a; cbn; lia).
    assert (TL : forall t, In t (tags_after a (nexttag s) (itags o)) -> (1 <= t < next_after a (nexttag s))%nat).
    { intros t. destruct a; cbn [tags_after next_after]; [intros K; pose proof (h_tags _ _ _ _ _ H o t Io K); lia|intros K; pose proof (h_tags _ _ _ _ _ H o t Io K); lia|].
      intros [<-|K]; [lia|]. pose proof (h_tags _ _ _ _ _ H o t Io K). lia. }
    constructor; cbn [nexttag stk].
    + lia.
    + intros o' t K1 K2. apply set_nth_in in K1. destruct K1 as [->|K1]; [apply TL; exact K2|]. pose proof (h_tags _ _ _ _ _ H o' t K1 K2). lia.
    + intros t bs K. pose proof (h_caps _ _ _ _ _ H t bs K). lia.
    + intros x. destruct (h_byte _ _ _ _ _ H x) as (d & E & Bd). specialize (D1 x). specialize (D2 x).
      destruct (act_at busy a (nexttag s) x) as [f|] eqn:F.
      * pose proof (act_inside busy (MkO (iblk o) (itags o)) a (nexttag s) x f A F) as X. cbn [oblk] in X.
        pose proof (B x f d F Bd) as Bo. destruct Bd as (G & U & Fr & R). rewrite E in D1. rewrite D1, D2 in Bo. cbn [both] in Bo. destruct Bo as (d' & -> & G' & R' & K1 & K2 & K3 & K4).
        exists d'. split; [reflexivity|]. split; [exact G'|]. split; [|split].
        -- intros t C. destruct (U t C) as (U1 & U2 & U3). destruct C as (bs & b & C1 & C2). split; [|split].
           ++ rewrite in_map_iff in *. destruct U1 as (i & E1 & I1). exists i. auto.
           ++ intros I1. apply in_map_iff in I1. destruct I1 as (i & E1 & I1). rewrite Forall_forall in K3. specialize (K3 i I1). rewrite E1 in K3.
              pose proof (h_caps _ _ _ _ _ H t bs C1) as Lt. apply (NC t bs C1). destruct a; cbn [tags_after] in K3; [exact K3|exact K3|]. destruct K3 as [K3|K3]; [lia|exact K3].
           ++ intros I1. apply U3. apply K2. exact I1.
        -- intros Z0. exfalso. eapply NF; eauto.
        -- intros o' I' X'. apply set_nth_other in I'. destruct I' as [->|(j & J1 & J2)]; [cbn [itags istk]; exact R'|]. exfalso.
           refine (P j k (iblk o') (iblk o) J1 _ _ x _); [rewrite nth_error_map, J2; reflexivity|rewrite nth_error_map, Ho; reflexivity|auto].
      * exists d. split; [congruence|]. destruct Bd as (G & U & Fr & R). split; [eapply good_more; eauto|]. split; [exact U|]. split; [exact Fr|].
        intros o' I' X'. apply set_nth_in in I'. destruct I' as [->|I']; [|auto]. cbn [itags istk iblk] in *. rewrite D2.
        destruct a; cbn [tags_after]; auto. eapply rel_new; eauto.
  - destruct D2 as (x & f & F1 & F2). specialize (D1 x). rewrite F1 in D1. destruct (h_byte _ _ _ _ _ H x) as (d & E & Bd). pose proof (B x f d F1 Bd) as Bo.
    rewrite E in D1. rewrite D1, F2 in Bo. exact Bo.
  - destruct D1 as (x & f & F1 & F2). specialize (D2 x). rewrite F1 in D2. destruct (h_byte _ _ _ _ _ H x) as (d & E & Bd). pose proof (B x f d F1 Bd) as Bo.
    rewrite E in F2. rewrite D2, F2 in Bo. exact Bo.
Qed.

(** ** New objects *)
Lemma filter_one t l : Forall low_item l -> NoDup (map itag l) -> In t (map itag l) -> filter (mine [t]) l = [MkItem t SharedRW None].
Proof.
  induction l as [|i l IH]; intros F N I; [destruct I|]. inversion F as [|? ? [F1 F2] F3]; subst. cbn [map] in N. inversion N as [|? ? N1 N2]; subst.
  cbn [filter]. destruct (mine [t] i) eqn:M.
  - apply mine_iff in M. destruct M as [E|[]]. subst t. assert (K : filter (mine [itag i]) l = []).
    { assert (Z : forall l', ~ In (itag i) (map itag l') -> filter (mine [itag i]) l' = []); [|apply Z; exact N1]. induction l' as [|j l' IH']; [reflexivity|]. intros Q. cbn [filter].
      destruct (mine [itag i] j) eqn:M; [apply mine_iff in M; destruct M as [M|[]]; exfalso; apply Q; left; auto|]. apply IH'. intros K. apply Q. right. exact K. }
    rewrite K. destruct i as [a b c]. cbn in *. subst. reflexivity.
  - destruct I as [E|I]; [|apply IH; auto]. exfalso. apply not_true_iff_false in M. apply M. apply mine_iff. left. auto.
Qed.

Lemma filter_none (l : stack) : filter (mine []) l = [].
Proof. induction l as [|i l IH]; [reflexivity|exact IH]. Qed.

Lemma adopt own cs objs fr s b base : holds own cs objs fr s -> over cs base [b] -> (forall x, in_block b x -> fr x) -> (1 <= base < nexttag s)%nat ->
  holds own cs (objs ++ [new_object b base SharedRW]) fr s.
Proof.
  intros H O F L. destruct H as [h1 h2 h3 h4]. split; [exact h1| |exact h3|].
  - intros o t I K. apply in_app_or in I. destruct I as [I|[<-|[]]]; [exact (h2 o t I K)|]. destruct K as [<-|[]]. exact L.
  - intros x. destruct (h4 x) as (d & E & G & U & Fr & R). exists d. split; [exact E|]. split; [exact G|]. split; [exact U|]. split; [exact Fr|].
    intros o I X. apply in_app_or in I. destruct I as [I|[<-|[]]]; [auto|]. cbn [new_object itags istk iblk] in *.
    destruct (U base) as (U1 & U2 & U3); [apply (O b); [left; reflexivity|exact X]|]. pose proof (Fr (F x X)) as Eu. constructor.
    + rewrite Eu. constructor.
    + rewrite Forall_forall. intros i I [K|[]]. apply U3. rewrite K. apply in_map. exact I.
    + rewrite Eu. cbn [app]. symmetry. apply filter_one; [apply G|apply G|exact U1].
Qed.

Lemma leak_new c own cs objs fr s b base : holds own cs objs fr s -> over cs base [b] -> (forall x, in_block b x -> fr x) ->
  Forall (fun o => disjoint b (iblk o)) objs ->
  exists s', m_retag c base [(RUnique, b)] s = Some (nexttag s, s') /\ nexttag s' = S (nexttag s) /\
    holds own cs (objs ++ [new_object b (nexttag s) Unique]) (fun x => fr x /\ ~ in_block b x) s'.
Proof.
  intros H O F Dj. pose proof (h_next _ _ _ _ _ H) as N1. unfold m_retag, m_retag_prot.
  assert (W : forall x d, in_block b x -> byte own (nexttag s) cs objs fr x d -> sb_retag c RUnique base (nexttag s) None (whole own d) =
    Some (whole own (MkDec [MkItem (nexttag s) Unique None] [] (low d)))).
  { intros x d X (G & U & Fr & R). cbn [sb_retag]. pose proof (Fr (F x X)) as Eu. rewrite (lib_write c own (nexttag s) d base); auto; [|apply U; apply (O b); [left; reflexivity|exact X]].
    unfold whole, drop_garb. cbn [up garb low]. rewrite Eu. reflexivity. }
  destruct (retag_parts_disj c base (nexttag s) None [(RUnique, b)] (stk s)) as (k' & K & S1 & S2).
  - constructor; constructor.
  - intros kd b0 x [[= <- <-]|[]] X. destruct (h_byte _ _ _ _ _ H x) as (d & E & B). rewrite E, (W x d X B). discriminate.
  - rewrite K. eexists. split; [reflexivity|]. cbn [nexttag]. split; [reflexivity|]. constructor; cbn [nexttag stk].
    + lia.
    + intros o t0 I1 I2. apply in_app_or in I1. destruct I1 as [I1|[<-|[]]]; [pose proof (h_tags _ _ _ _ _ H o t0 I1 I2); lia|]. destruct I2 as [<-|[]]. lia.
    + intros t0 bs0 I. pose proof (h_caps _ _ _ _ _ H t0 bs0 I). lia.
    + intros x. destruct (h_byte _ _ _ _ _ H x) as (d & E & B). pose proof B as (G & U & Fr & R). destruct (inb b x) eqn:X.
      * apply inb_iff in X. pose proof (S1 RUnique b x (or_introl eq_refl) X) as P. rewrite E, (W x d X B) in P. injection P as P.
        pose proof (lt_parts _ _ _ G) as (L1 & L2 & L3).
        eexists. split; [symmetry; exact P|]. split; [|split; [|split]].
        -- pose proof (good_more own (nexttag s) (S (nexttag s)) d ltac:(lia) G) as G'. pose proof (lt_parts _ _ _ G') as (M1 & M2 & M3). destruct G'. split; cbn [up garb low]; auto.
           ++ apply bottom_nil.
           ++ apply bottom_all. constructor; [reflexivity|constructor].
           ++ cbn [app]. constructor; [|exact M3]. cbn. pose proof (lo_le own (nexttag s) N1). lia.
        -- intros t0 C0. destruct (U t0 C0) as (U1 & U2 & U3). split; [exact U1|]. cbn [up garb map itag]. split; [|intros []].
           intros [K0|[]]. destruct C0 as (bs & b0 & C1 & _). pose proof (h_caps _ _ _ _ _ H t0 bs C1). lia.
        -- intros [_ Z0]. contradiction.
        -- intros o I X'. apply in_app_or in I. destruct I as [I|[<-|[]]].
           ++ exfalso. rewrite Forall_forall in Dj. apply (Dj o I x). auto.
           ++ cbn [new_object itags istk iblk]. split; cbn [up garb low]; [constructor; [left; reflexivity|constructor]|constructor|].
              rewrite (filter_new own (nexttag s) [] (low d) L3). rewrite filter_none. reflexivity.
      * assert (X' : ~ in_block b x) by (rewrite <- inb_iff; congruence). rewrite S2; [|intros kd b0 [[= <- <-]|[]]; exact X'].
        exists d. split; [exact E|]. split; [eapply good_more; [|exact G]; lia|]. split; [exact U|]. split; [intros [Z0 _]; auto|].
        intros o I X0. apply in_app_or in I. destruct I as [I|[<-|[]]]; [auto|]. contradiction.
Qed.

Lemma holds_fr own cs objs (fr fr' : Z -> Prop) s : (forall x, fr' x -> fr x) -> holds own cs objs fr s -> holds own cs objs fr' s.
Proof.
  intros I H. destruct H as [h1 h2 h3 h4]. split; [exact h1|exact h2|exact h3|]. intros x. destruct (h4 x) as (d & E & G & U & F & R). exists d. split; [exact E|]. split; [exact G|]. auto.
Qed.

Lemma use_new c own cs objs fr s u b base : holds own cs objs fr s -> over cs base [b] -> (forall x, in_block b x -> fr x) ->
  (1 <= base < nexttag s)%nat -> Forall (fun o => disjoint b (iblk o)) objs ->
  exists n s', use_block c u b base s = Some (n, s') /\ (nexttag s <= nexttag s')%nat /\ (base <= n < nexttag s')%nat /\
    holds own cs (objs ++ [new_object b n (use_perm u)]) (fun x => fr x /\ ~ in_block b x) s'.
Proof.
  intros H O F L D. destruct u; cbn [use_block use_perm].
  - exists base, s. split; [reflexivity|]. split; [lia|]. split; [lia|]. eapply holds_fr; [|apply adopt; eauto]. tauto.
  - unfold b_alloc_leak. destruct (wr c own cs objs fr base b s H) as (s1 & E1 & N1 & H1).
    { intros x X. split; [apply (O b); [left; reflexivity|exact X]|auto]. }
    destruct (leak_new c own cs objs fr s1 b base H1 O F D) as (s2 & E2 & N2 & H2). exists (nexttag s1), s2.
    unfold mbind. rewrite E1. split; [exact E2|]. split; [lia|]. split; [lia|exact H2].
  - unfold b_alloc_boxed. destruct (wr c own cs objs fr base b s H) as (s1 & E1 & N1 & H1).
    { intros x X. split; [apply (O b); [left; reflexivity|exact X]|auto]. }
    exists base, s1. unfold mbind. rewrite E1. split; [reflexivity|]. split; [lia|]. split; [lia|].
    eapply holds_fr; [|apply adopt; eauto; lia]. tauto.
Qed.

(** ** A call *)
Lemma call_runs busy t hd st own objs (fr : Z -> Prop) cs s s0 k u self :
  disjoint hd st -> (forall x, in_block hd x -> fr x) -> storage s0 = st -> k <> CReset -> holds own cs objs fr s -> over cs self [hd; st] ->
  (forall a, snd (step t s0 k) = RBlock a -> let b := MkBlock (ptr a) (lsize (asked k)) in
     inside b st /\ (forall x, in_block b x -> fr x) /\ Forall (fun o => disjoint b (iblk o)) objs) ->
  exists tag s', b_call busy t hd s0 k u self s = Some ((step t s0 k, tag), s') /\ (nexttag s <= nexttag s')%nat /\
    match snd (step t s0 k) with
    | RBlock a => exists n, tag = Some n /\ (nexttag s <= n < nexttag s')%nat /\
        let b := MkBlock (ptr a) (lsize (asked k)) in
        holds own cs (objs ++ [new_object b n (use_perm u)]) (fun x => fr x /\ ~ in_block b x) s'
    | _ => tag = None /\ holds own cs objs fr s'
    end.
Proof.
  intros Dj Fh Es Nk H O B. unfold b_call.
  assert (U : runs own objs fr (use_self busy hd s0 u self) s cs (fun n cs' _ => over cs' n [hd; st])).
  { destruct u; cbn [use_self]; [apply runs_ret; auto| |]; rewrite Es;
      (eapply runs_weaken; [apply (run_self busy hd st own objs fr Dj s cs self H O)|intros ? ? ? [? _]; assumption]). }
  destruct U as (self1 & s1 & cs1 & E1 & L1 & I1 & H1 & O1). unfold mbind at 1. rewrite E1.
  destruct (run_method busy t hd st own objs fr Dj Fh s0 k s1 cs1 self1 Es Nk H1 O1) as ([[s0' r] base] & s2 & cs2 & E2 & L2 & I2 & H2 & Y1 & Y2).
  unfold mbind at 1. rewrite E2. cbn [fst snd] in *. destruct (step t s0 k) as [s3 r3]. cbn [fst snd] in *. injection Y1 as -> ->.
  assert (I12 : incl cs cs2) by (eapply incl_tran; eauto). pose proof (h_next _ _ _ _ _ H) as N1.
  destruct r3 as [a| |f|lv| |m];
    try (eexists None, s2; split; [reflexivity|]; split; [lia|]; split; [reflexivity|]; eapply holds_less; [exact I12|exact H2]).
  destruct (B a eq_refl) as (B1 & B2 & B3). destruct (Y2 eq_refl) as [Y3 Y4].
  destruct (use_new busy own cs2 objs fr s2 u (MkBlock (ptr a) (lsize (asked k))) base H2) as (n & s4 & E4 & L4 & M4 & H4); auto; [|lia|].
  { intros b x [<-|[]] X. apply (Y3 st); [left; reflexivity|]. apply B1. exact X. }
  unfold mbind. rewrite E4. exists (Some n), s4. split; [reflexivity|]. split; [lia|]. exists n. split; [reflexivity|]. split; [lia|].
  eapply holds_less; [exact I12|exact H4].
Qed.

(** ** A reference from the variable *)
Lemma whole_owner w n d : good true n d -> granting w 0 (whole true d) = Some (up d ++ garb d ++ low d, MkItem 0 Unique None, []).
Proof.
  intros G. unfold whole. rewrite !app_assoc. rewrite granting_app.
  - cbn. destruct w; cbn; rewrite app_nil_r; reflexivity.
  - rewrite <- app_assoc. eapply Forall_impl; [|exact (g_lt _ _ _ G)]. cbn. lia.
Qed.

Definition low_end (d : dec) (n : nat) : dec := MkDec (up d) (garb d) (low d ++ [MkItem n SharedRW None]).

Lemma owner_retag c n d new : good true n d -> sb_retag c RCell 0 new None (whole true d) = Some (whole true (low_end d new)).
Proof.
  intros G. cbn [sb_retag]. rewrite (whole_owner true n d G). unfold incompatible. cbn. unfold whole, low_end. cbn [up garb low bel]. napp. reflexivity.
Qed.

Lemma good_end n d : good true n d -> (1 <= n)%nat -> good true (S n) (low_end d n).
Proof.
  intros G L. pose proof (lt_parts _ _ _ G) as (L1 & L2 & L3). pose proof (good_more true n (S n) d ltac:(lia) G) as G'. pose proof (lt_parts _ _ _ G') as (M1 & M2 & M3).
  destruct G as [g1 g2 g3 g4 g5]. split; cbn [low_end up garb low]; auto.
  - apply Forall_app. split; [exact g1|]. constructor; [split; reflexivity|constructor].
  - rewrite map_app. cbn [map itag].
    assert (K : ~ In n (map itag (low d))).
    { intros K. apply in_map_iff in K. destruct K as (i & E & K). rewrite Forall_forall in L3. specialize (L3 i K). cbn in L3. lia. }
    clear - g2 K. induction (map itag (low d)) as [|x l IH]; cbn [app]; [constructor; [intros []|constructor]|].
    inversion g2; subst. constructor.
    + rewrite in_app_iff. cbn in *. intuition.
    + apply IH; auto. intros Q. apply K. right. exact Q.
  - rewrite !Forall_app. split; [exact M1|]. split; [exact M2|]. split; [exact M3|]. constructor; [cbn; lia|constructor].
Qed.

Lemma owner_share c objs fr cs s hd st : holds true cs objs fr s -> disjoint hd st ->
  exists s', self_ref c hd st 0 s = Some (nexttag s, s') /\ nexttag s' = S (nexttag s) /\ holds true ((nexttag s, [hd; st]) :: cs) objs fr s'.
Proof.
  intros H D. pose proof (h_next _ _ _ _ _ H) as N1. unfold self_ref, m_retag, m_retag_prot.
  destruct (retag_parts_disj c 0 (nexttag s) None [(RCell, hd); (RCell, st)] (stk s)) as (k' & K & S1 & S2).
  - repeat constructor. exact D.
  - intros kd b x I X. assert (kd = RCell) by (destruct I as [[= <- <-]|[[= <- <-]|[]]]; reflexivity). subst kd.
    destruct (h_byte _ _ _ _ _ H x) as (d & E & G & _). rewrite E, (owner_retag c _ d _ G). discriminate.
  - rewrite K. eexists. split; [reflexivity|]. cbn [nexttag]. split; [reflexivity|]. split; cbn [nexttag stk].
    + lia.
    + intros o t0 I1 I2. pose proof (h_tags _ _ _ _ _ H o t0 I1 I2). lia.
    + intros t0 bs0 [E|I]; [injection E as <- <-; lia|]. pose proof (h_caps _ _ _ _ _ H t0 bs0 I). lia.
    + intros x. destruct (h_byte _ _ _ _ _ H x) as (d & E & G & U & F & R). destruct (dec_in [hd; st] x) as [(b & B & X)|NX].
      * assert (I : In (RCell, b) [(RCell, hd); (RCell, st)]) by (destruct B as [<-|[<-|[]]]; cbn; auto).
        pose proof (S1 RCell b x I X) as P. rewrite E, (owner_retag c _ d _ G) in P. injection P as P.
        pose proof (lt_parts _ _ _ G) as (L1 & L2 & L3). rewrite Forall_forall in L1, L2.
        exists (low_end d (nexttag s)). split; [auto|]. split; [apply good_end; auto|]. split; [|split].
        -- intros t0 (bs0 & b0 & [E0|I0] & B0 & X0).
           ++ injection E0 as <- <-. split; [cbn [low_end low]; rewrite map_app; apply in_or_app; right; left; reflexivity|]. cbn [low_end up garb].
              split; intros Z0; apply in_map_iff in Z0; destruct Z0 as (i & Z1 & Z2); [specialize (L1 i Z2)|specialize (L2 i Z2)]; cbn in *; lia.
           ++ destruct (U t0) as (U1 & U2); [exists bs0, b0; auto|]. split; [cbn [low_end low]; rewrite map_app; apply in_or_app; left; exact U1|exact U2].
        -- exact F.
        -- intros o O1 O2. destruct (R o O1 O2) as [R1 R2 R3]. split; cbn [low_end up garb low]; auto. rewrite filter_app. cbn [filter].
           assert (M : mine (itags o) (MkItem (nexttag s) SharedRW None) = false).
           { apply not_true_iff_false. rewrite mine_iff. cbn. intros Z0. pose proof (h_tags _ _ _ _ _ H o _ O1 Z0). lia. }
           rewrite M, app_nil_r. exact R3.
      * rewrite S2; [|intros kd b I X; apply NX; exists b; split; [destruct I as [[= <- <-]|[[= <- <-]|[]]]; cbn; auto|exact X]].
        exists d. split; [exact E|]. apply byte_more with (nexttag s); [lia|]. split; [exact G|]. split; [|auto].
        intros t0 (bs0 & b0 & [E0|I0] & B0 & X0); [injection E0 as <- <-; exfalso; apply NX; eauto|]. apply U. exists bs0, b0. auto.
Qed.

(** ** reset *)
Lemma no_protected l : existsb (protected []) l = false.
Proof. induction l as [|i l IH]; [reflexivity|]. cbn [existsb]. rewrite IH. unfold protected. destruct (iprot i); reflexivity. Qed.

Lemma owner_unique n d new : good true n d -> sb_retag [] RUnique 0 new None (whole true d) = Some [MkItem new Unique None; MkItem 0 Unique None].
Proof.
  intros G. cbn [sb_retag]. unfold sb_write. rewrite (whole_owner true n d G). unfold incompatible. cbn [is_unique iperm]. rewrite no_protected. reflexivity.
Qed.

Lemma one_retag c t new b s : (forall x, in_block b x -> sb_retag c RUnique t new None (stk s x) <> None) -> new = nexttag s ->
  exists s', m_retag c t [(RUnique, b)] s = Some (new, s') /\ nexttag s' = S new /\
    (forall x, in_block b x -> sb_retag c RUnique t new None (stk s x) = Some (stk s' x)) /\ (forall x, ~ in_block b x -> stk s' x = stk s x).
Proof.
  intros H ->. unfold m_retag, m_retag_prot. cbn [retag_parts]. destruct (on_block_ok b (sb_retag c RUnique t (nexttag s) None) (stk s) H) as [k K]. rewrite K.
  eexists. split; [reflexivity|]. split; [reflexivity|]. cbn [stk]. pose proof (on_block_spec _ _ _ _ K) as S1. split; intros x X; apply (S1 x); exact X.
Qed.

Lemma reset_runs hd s0 cs objs fr s : holds true cs objs fr s -> disjoint hd (storage s0) ->
  exists s', b_reset [] hd s0 0 s = Some (reset s0, s') /\ (nexttag s <= nexttag s')%nat /\
    holds true [] [] (fun x => in_block hd x \/ in_block (storage s0) x) s'.
Proof.
  intros H D. pose proof (h_next _ _ _ _ _ H) as N1. set (n := nexttag s) in *. unfold b_reset, mbind, m_retag at 1, m_retag_prot.
  destruct (retag_parts_disj [] 0 n None [(RUnique, hd); (RUnique, storage s0)] (stk s)) as (k1 & K1 & S1 & S2).
  - repeat constructor. exact D.
  - intros kd b x I X. assert (kd = RUnique) by (destruct I as [[= <- <-]|[[= <- <-]|[]]]; reflexivity). subst kd.
    destruct (h_byte _ _ _ _ _ H x) as (d & E & G & _). rewrite E, (owner_unique _ d _ G). discriminate.
  - fold n. rewrite K1. set (base := MkItem 0 Unique None) in *. set (u1 := MkItem n Unique None). set (u2 := MkItem (S n) Unique None). set (u3 := MkItem (S (S n)) Unique None).
    assert (A1 : forall b x, In b [hd; storage s0] -> in_block b x -> k1 x = [u1; base]).
    { intros b x I X. assert (I' : In (RUnique, b) [(RUnique, hd); (RUnique, storage s0)]) by (destruct I as [<-|[<-|[]]]; cbn; auto).
      pose proof (S1 RUnique b x I' X) as P. destruct (h_byte _ _ _ _ _ H x) as (d & E & G & _). rewrite E, (owner_unique _ d _ G) in P. injection P as P. auto. }
    assert (W2 : sb_retag [] RUnique n (S n) None [u1; base] = Some [u2; u1; base]).
    { cbn [sb_retag]. unfold sb_write. cbn [granting]. unfold u1 at 1 2. cbn [itag iperm]. rewrite Nat.eqb_refl. cbn. reflexivity. }
    assert (W3 : sb_retag [] RUnique (S n) (S (S n)) None [u2; u1; base] = Some [u3; u2; u1; base]).
    { cbn [sb_retag]. unfold sb_write. cbn [granting]. unfold u2 at 1 2. cbn [itag iperm]. rewrite Nat.eqb_refl. cbn. reflexivity. }
    assert (W4 : sb_write [] (S (S n)) [u3; u2; u1; base] = Some [u3; u2; u1; base]).
    { unfold sb_write. cbn [granting]. unfold u3 at 1 2. cbn [itag iperm]. rewrite Nat.eqb_refl. cbn. reflexivity. }
    destruct (one_retag [] n (S n) hd (MkB k1 (S n))) as (s2 & E2 & N2 & T2 & O2); [cbn [stk]; intros x X; rewrite (A1 hd x) by (cbn; auto); rewrite W2; discriminate|reflexivity|].
    rewrite E2. cbn [stk] in *.
    assert (A2 : forall x, in_block hd x -> stk s2 x = [u2; u1; base]).
    { intros x X. pose proof (T2 x X) as P. rewrite (A1 hd x) in P by (cbn; auto). rewrite W2 in P. injection P as P. auto. }
    destruct (one_retag [] (S n) (S (S n)) hd s2) as (s3 & E3 & N3 & T3 & O3); [intros x X; rewrite (A2 x X), W3; discriminate|auto|].
    rewrite E3.
    assert (A3 : forall x, in_block hd x -> stk s3 x = [u3; u2; u1; base]).
    { intros x X. pose proof (T3 x X) as P. rewrite (A2 x X), W3 in P. injection P as P. auto. }
    unfold m_write. destruct (on_block_ok hd (sb_write [] (S (S n))) (stk s3)) as [k4 K4]; [intros x X; rewrite (A3 x X), W4; discriminate|]. rewrite K4.
    pose proof (on_block_spec _ _ _ _ K4) as S4. unfold mret. eexists. split; [reflexivity|]. cbn [nexttag stk]. split; [lia|]. split; cbn [nexttag stk].
    + lia.
    + intros o t0 [].
    + intros t0 bs [].
    + intros x.
      assert (Q : forall g, Forall garb_item g -> Forall (fun i => is_srw i = false) g -> Forall (fun i => (1 <= itag i < nexttag s3)%nat) g -> byte true (nexttag s3) [] [] (fun x => in_block hd x \/ in_block (storage s0) x) x (MkDec [] g [])).
      { intros g G1 G0 G2. split; [|split; [|split]].
        - split; cbn [up garb low map]; [constructor|constructor|exact G1|apply bottom_all; exact G0|apply bottom_nil|]. cbn [app]. rewrite app_nil_r. exact G2.
        - intros t0 (bs & b & [] & _).
        - reflexivity.
        - intros o []. }
      destruct (inb hd x) eqn:X.
      * apply inb_iff in X. pose proof (proj1 (S4 x) X) as P. rewrite (A3 x X), W4 in P. injection P as P.
        exists (MkDec [] [u3; u2; u1] []). split; [rewrite <- P; reflexivity|]. apply Q; repeat constructor; cbn; lia.
      * assert (X' : ~ in_block hd x) by (rewrite <- inb_iff; congruence). rewrite (proj2 (S4 x) X'), (O3 x X'), (O2 x X').
        destruct (inb (storage s0) x) eqn:Y.
        -- apply inb_iff in Y. rewrite (A1 (storage s0) x) by (cbn; auto). exists (MkDec [] [u1] []). split; [reflexivity|]. apply Q; repeat constructor; cbn; lia.
        -- assert (Y' : ~ in_block (storage s0) x) by (rewrite <- inb_iff; congruence). rewrite S2.
           ++ destruct (h_byte _ _ _ _ _ H x) as (d & E & G & _). exists d. split; [exact E|]. split; [eapply good_more; [|exact G]; fold n; lia|].
              split; [intros t0 (bs & b & [] & _)|]. split; [tauto|intros o []].
           ++ intros kd b I X0. destruct I as [[= <- <-]|[[= <- <-]|[]]]; contradiction.
Qed.

(** ** Programs *)
Definition frees (hd st : block) (c : Z) (x : Z) : Prop := in_block hd x \/ (in_block st x /\ start st + c <= x).

Record winv (t : target) (hd st : block) (own : bool) (w : bworld) (i : ideal) : Prop := {
  w_ok : ok t (wslab w);
  w_st : storage (wslab w) = st;
  w_own : wowned w = own;
  w_iown : iowned i = own;
  w_holds : holds own (map (fun n => (n, [hd; st])) (wshares w)) (iobjs i) (frees hd st (consumed (wslab w))) (wsb w);
  w_objs : map (fun o => MkO (iblk o) (itags o)) (iobjs i) = wobjs w;
  w_below : forall o x, In o (iobjs i) -> in_block (iblk o) x -> in_block st x /\ x < start st + consumed (wslab w);
  w_pair : pairwise disjoint (map iblk (iobjs i));
  w_sep : forall n o, In n (wshares w) -> In o (iobjs i) -> ~ In n (itags o);
  w_used : forall n, In n (iused i) -> (n < nexttag (wsb w))%nat;
  w_count : ishares i = length (wshares w);
  w_busy : ibusy i = wbusy w;
  w_calls : icalls i = wcalls w }.

Lemma shares_over hd st l n : In n l -> over (map (fun n => (n, [hd; st])) l) n [hd; st].
Proof. intros I b x B X. exists [hd; st], b. split; [|auto]. apply in_map_iff. eauto. Qed.

Lemma shares_lt own hd st l objs fr s n : holds own (map (fun n => (n, [hd; st])) l) objs fr s -> In n l -> (n < nexttag s)%nat.
Proof. intros H I. apply (h_caps _ _ _ _ _ H n [hd; st]). apply in_map_iff. eauto. Qed.

Lemma asked_layout c : match call_layout c with Some l => asked c = l | None => asked c = MkLayout 0 1 end.
Proof. destruct c; reflexivity. Qed.

(** The block of a call *)
Lemma step_place t s c a : valid_target t -> ok t s -> valid_call t c -> snd (step t s c) = RBlock a ->
  c <> CLevel /\ inside (MkBlock (ptr a) (lsize (asked c))) (storage s) /\ aligned (ptr a) (lalign (asked c)) /\
  (forall x, in_block (MkBlock (ptr a) (lsize (asked c))) x -> start (storage s) + consumed s <= x < start (storage s) + consumed (fst (step t s c))) /\
  consumed s <= consumed (fst (step t s c)).
Proof.
  intros Ht Ok Hc E.
  assert (L : exists l, call_layout c = Some l /\ asked c = l).
  { destruct c; cbn in E |- *; try discriminate; eauto. }
  destruct L as (l & Hl & ->). pose proof (step_block_good t s c a l Ht Ok Hc E Hl) as (G1 & G2 & _).
  split; [intros ->; discriminate|]. split; [exact G2|]. split; [exact G1|].
  rewrite (step_spec t s c Ht Ok Hc) in *. pose proof (spec_step_cases t s c) as C. destruct (spec_step t s c) as [s' r]. cbn [fst snd] in *. subst r.
  destruct C as [[-> C]|[(l0 & Hl0 & Hnz & Hf & -> & Ha)|(_ & _ & C)]]; [| |discriminate].
  - destruct (C a eq_refl) as (l0 & Hl0 & Z0 & _). assert (l0 = l) by congruence. subst l0. split; [|lia]. unfold in_block. cbn [start size]. lia.
  - assert (l0 = l) by congruence. subst l0. injection Ha as ->. pose proof (valid_call_layout t c l Hc Hl) as Hv.
    pose proof (valid_layout_align t l Hv) as Ap. pose proof (align_up_first (start (storage s) + consumed s) (lalign l) Ap) as (F1 & _).
    unfold placed, bumped, place, in_block. cbn [ptr consumed start size]. assert (0 <= lsize l) by (destruct Hv; lia). split; [intros x X; lia|lia].
Qed.

Lemma map_snoc {A B} (f : A -> B) l x : map f (l ++ [x]) = map f l ++ [f x].
Proof. apply map_app. Qed.

Lemma pair_snoc bs b : pairwise disjoint bs -> Forall (disjoint b) bs -> pairwise disjoint (bs ++ [b]).
Proof.
  intros P F. apply pairwise_app; [apply disjoint_sym|exact P| |].
  - apply pairwise_cons; [apply disjoint_sym|constructor|apply pairwise_nil].
  - intros x y X [<-|[]]. rewrite Forall_forall in F. apply disjoint_sym. auto.
Qed.

Lemma share_inv t hd st own w i n b : winv t hd st own w i -> nexttag (wsb w) = n -> nexttag b = S n ->
  holds own ((n, [hd; st]) :: map (fun n => (n, [hd; st])) (wshares w)) (iobjs i) (frees hd st (consumed (wslab w))) b ->
  winv t hd st own (MkW (wslab w) b (wowned w) (wshares w ++ [n]) (wobjs w) (wbusy w) (wcalls w))
    (MkIdeal (iobjs i) (iused i) (iowned i) (S (ishares i)) (ibusy i) (icalls i)).
Proof.
  intros I N1 N2 H. destruct I as [a1 a2 a3 a4 a5 a6 a7 a8 a9 a10 a11 a12 a13]. split; cbn [wslab wsb wowned wshares wobjs wbusy wcalls iobjs iused iowned ishares ibusy icalls]; auto.
  - eapply holds_less; [|exact H]. intros q Q. apply in_map_iff in Q. destruct Q as (m & <- & Q). apply in_app_or in Q. destruct Q as [Q|[<-|[]]]; [right|left; reflexivity].
    apply in_map_iff. eauto.
  - intros m o M O. apply in_app_or in M. destruct M as [M|[<-|[]]]; [eauto|]. intros K. pose proof (h_tags _ _ _ _ _ a5 o n O K). lia.
  - intros m M. specialize (a10 m M). lia.
  - rewrite app_length, a11. cbn. lia.
Qed.

Lemma bstep_inv t hd st own w i o : valid_target t -> disjoint hd st -> winv t hd st own w i -> bop_ok t o ->
  exists i', istep t st i o (snd (bstep t hd w o)) i' /\ winv t hd st own (fst (bstep t hd w o)) i'.
Proof.
  intros Ht Dj I Oo. pose proof I as [a1 a2 a3 a4 a5 a6 a7 a8 a9 a10 a11 a12 a13]. destruct o as [[k|]|k c u| |k a| |c]; cbn [bstep].
  - destruct (nth_error (wshares w) k) as [self|] eqn:E.
    + assert (Hk : (k < ishares i)%nat) by (rewrite a11; apply nth_error_Some; congruence).
      destruct (cell (wbusy w) own _ _ _ self [hd; st] (wsb w) a5) as (b & E1 & N1 & H1); [repeat constructor; exact Dj|apply shares_over; eapply nth_error_In; eauto|].
      rewrite a2. change (self_ref (wbusy w) hd st self) with (m_retag (wbusy w) self (map (pair RCell) [hd; st])). rewrite E1. cbn [fst snd].
      eexists. split; [apply IShare; exact Hk|]. eapply share_inv; eauto.
    + cbn [fst snd]. exists i. split; [apply IShareNot; rewrite a11; apply nth_error_None; exact E|exact I].
  - rewrite a3. destruct own.
    + destruct (owner_share (wbusy w) _ _ _ (wsb w) hd st a5 Dj) as (b & E1 & N1 & H1). rewrite a2, E1. cbn [fst snd].
      eexists. split; [apply IShareOwner; exact a4|]. pose proof (share_inv t hd st true w i _ b I eq_refl N1 H1) as J. rewrite a3 in J. exact J.
    + cbn [fst snd]. exists i. split; [apply IShareOwnerNot; exact a4|exact I].
  - destruct (nth_error (wshares w) k) as [self|] eqn:E.
    2:{ cbn [fst snd]. exists i. split; [apply ICallNot; left; rewrite a11; apply nth_error_None; exact E|exact I]. }
    assert (Hk : (k < ishares i)%nat) by (rewrite a11; apply nth_error_Some; congruence).
    assert (Cr : c = CReset \/ c <> CReset) by (destruct c; [right|right|right|right|right|left]; congruence). destruct Cr as [->|Nr].
    { cbn [fst snd]. exists i. split; [apply ICallNot; right; reflexivity|exact I]. }
    assert (X : exists tag b, b_call (wbusy w) t hd (wslab w) c u self (wsb w) = Some ((step t (wslab w) c, tag), b) /\ (nexttag (wsb w) <= nexttag b)%nat /\
      match snd (step t (wslab w) c) with
      | RBlock a => exists n, tag = Some n /\ (nexttag (wsb w) <= n < nexttag b)%nat /\
          let bl := MkBlock (ptr a) (lsize (asked c)) in
          holds own (map (fun n => (n, [hd; st])) (wshares w)) (iobjs i ++ [new_object bl n (use_perm u)]) (fun x => frees hd st (consumed (wslab w)) x /\ ~ in_block bl x) b
      | _ => tag = None /\ holds own (map (fun n => (n, [hd; st])) (wshares w)) (iobjs i) (frees hd st (consumed (wslab w))) b
      end).
    { apply (call_runs (wbusy w) t hd st); auto.
      - intros x X. left. exact X.
      - apply shares_over. eapply nth_error_In; eauto.
      - intros a Ea. destruct (step_place t (wslab w) c a Ht a1 Oo Ea) as (_ & P1 & _ & P2 & _). rewrite a2 in *. cbn zeta. split; [exact P1|]. split.
        + intros x X. right. split; [apply P1; exact X|]. apply (P2 x X).
        + apply Forall_forall. intros o Io x [X1 X2]. pose proof (P2 x X1). pose proof (a7 o x Io X2). lia. }
    destruct X as (tag & b & E1 & L1 & R).
    assert (Nst : forall P : Prop, (match c with CReset => (w, BInvalid) | _ =>
          match b_call (wbusy w) t hd (wslab w) c u self (wsb w) with
          | Some ((s', r, tag), b) =>
              (MkW s' b (wowned w) (wshares w)
                 (match r, tag with RBlock a, Some n => wobjs w ++ [MkO (MkBlock (ptr a) (lsize (asked c))) [n]] | _, _ => wobjs w end)
                 (wbusy w) (wcalls w), BResponse r tag)
          | None => (w, BUB) end end =
          match b_call (wbusy w) t hd (wslab w) c u self (wsb w) with
          | Some ((s', r, tag), b) =>
              (MkW s' b (wowned w) (wshares w)
                 (match r, tag with RBlock a, Some n => wobjs w ++ [MkO (MkBlock (ptr a) (lsize (asked c))) [n]] | _, _ => wobjs w end)
                 (wbusy w) (wcalls w), BResponse r tag)
          | None => (w, BUB) end -> P) -> P) by (intros P Q; apply Q; destruct c; congruence).
    apply Nst. clear Nst. intros ->. rewrite E1.
    pose proof (step_ok t (wslab w) c Ht a1 Oo) as [S1 S2]. pose proof (step_place t (wslab w) c) as SP.
    assert (Mono : (forall a, snd (step t (wslab w) c) <> RBlock a) -> fst (step t (wslab w) c) = wslab w).
    { intros N. rewrite (step_spec t (wslab w) c Ht a1 Oo) in *. pose proof (spec_step_cases t (wslab w) c) as C. destruct (spec_step t (wslab w) c) as [s' r]. cbn [fst snd] in *.
      destruct C as [[-> _]|[(l & _ & _ & _ & _ & ->)|(-> & _)]]; [reflexivity|exfalso; eapply N; reflexivity|congruence]. }
    destruct (step t (wslab w) c) as [s' r]. cbn [fst snd] in *.
    assert (Other : (forall a, r <> RBlock a) -> tag = None -> holds own (map (fun n => (n, [hd; st])) (wshares w)) (iobjs i) (frees hd st (consumed (wslab w))) b ->
      exists i', istep t st i (BCall k c u) (BResponse r tag) i' /\
        winv t hd st own (MkW s' b (wowned w) (wshares w) (wobjs w) (wbusy w) (wcalls w)) i').
    { intros N -> H. exists i. split; [apply ICallOther; auto|]. rewrite (Mono N).
      split; cbn [wslab wsb wowned wshares wobjs wbusy wcalls]; auto. intros m M. specialize (a10 m M). lia. }
    destruct r as [a| |f|lv| |m]; try (destruct R as [-> R]; apply Other; [intros ? ?; discriminate|reflexivity|exact R]).
    clear Other Mono. destruct R as (n & -> & Ln & H). destruct (SP a Ht a1 Oo eq_refl) as (Nl & P1 & P2 & P3 & P4). clear SP. cbn zeta in H.
    set (bl := MkBlock (ptr a) (lsize (asked c))) in *. rewrite a2 in *.
    assert (Db : Forall (fun o => disjoint bl (iblk o)) (iobjs i)).
    { apply Forall_forall. intros o Io x [X1 X2]. pose proof (P3 x X1). pose proof (a7 o x Io X2). lia. }
    assert (Nu : ~ In n (iused i)) by (intros K; specialize (a10 n K); lia).
    exists (with_objs i (iobjs i ++ [new_object bl n (use_perm u)]) (n :: iused i)). split; [apply ICallBlock; auto|].
    split; cbn [wslab wsb wowned wshares wobjs wbusy wcalls iobjs iused iowned ishares ibusy icalls with_objs]; auto.
    + eapply holds_fr; [|exact H]. intros x [X|[X1 X2]].
      * split; [left; exact X|]. intros X'. apply (Dj x). split; [exact X|]. apply P1. exact X'.
      * split; [right; split; [exact X1|lia]|]. intros X'. pose proof (P3 x X'). lia.
    + rewrite map_snoc, a6. reflexivity.
    + intros o x O X. apply in_app_or in O. destruct O as [O|[<-|[]]].
      * pose proof (a7 o x O X). split; [apply H0|lia].
      * split; [apply P1; exact X|]. pose proof (P3 x X). lia.
    + rewrite map_snoc. apply pair_snoc; [exact a8|]. rewrite Forall_map. exact Db.
    + intros m o M O. apply in_app_or in O. destruct O as [O|[<-|[]]]; [eauto|]. intros [K|[]]. cbn in K. pose proof (shares_lt _ _ _ _ _ _ _ m a5 M). lia.
    + intros m [<-|M]; [lia|]. specialize (a10 m M). lia.
  - rewrite a3. destruct own; [|cbn [fst snd]; exists i; split; [apply IResetNot; left; exact a4|exact I]].
    destruct (wbusy w) as [|cc bb] eqn:Eb; [|cbn [fst snd]; exists i; split; [apply IResetNot; right; congruence|exact I]].
    destruct (reset_runs hd (wslab w) _ _ _ (wsb w) a5) as (b & E1 & L1 & H1); [rewrite a2; exact Dj|]. rewrite E1. cbn [fst snd].
    eexists. split; [apply IReset; congruence|].
    split; cbn [wslab wsb wowned wshares wobjs wbusy wcalls iobjs iused iowned ishares ibusy icalls]; auto.
    + destruct a1 as [V C]. split; [exact V|]. cbn. destruct V as (_ & V & _). lia.
    + cbn [reset consumed map]. rewrite <- a2. eapply holds_fr; [|exact H1]. intros x [X|[X _]]; auto.
    + intros o x [].
    + cbn [map]. apply pairwise_nil.
    + intros n M. specialize (a10 n M). lia.
  - destruct (nth_error (wobjs w) k) as [ob|] eqn:E.
    2:{ cbn [fst snd]. exists i. split; [|exact I]. apply IActNot. intros o Ho. exfalso. rewrite <- a6, nth_error_map, Ho in E. discriminate. }
    assert (Ho : exists o, nth_error (iobjs i) k = Some o /\ ob = MkO (iblk o) (itags o)).
    { rewrite <- a6, nth_error_map in E. destruct (nth_error (iobjs i) k) as [o|]; [|discriminate]. cbn in E. injection E as <-. eauto. }
    destruct Ho as (o & Ho & ->). destruct (act_ok (MkO (iblk o) (itags o)) a) eqn:A.
    2:{ cbn [fst snd]. exists i. split; [|exact I]. apply IActNot. intros o' Ho'. congruence. }
    pose proof (nth_error_In _ _ Ho) as Io.
    pose proof (client_act own _ _ _ (wsb w) (wbusy w) k o a a5 Ho A a8) as C.
    assert (C1 : forall x, in_block (iblk o) x -> ~ frees hd st (consumed (wslab w)) x).
    { intros x X [F|[_ F]]; pose proof (a7 o x Io X) as [F1 F2]; [exact (Dj x (conj F F1))|lia]. }
    assert (C2 : forall t0 bs, In (t0, bs) (map (fun n => (n, [hd; st])) (wshares w)) -> ~ In t0 (itags o)).
    { intros t0 bs K. apply in_map_iff in K. destruct K as (m & [= <- <-] & M). eauto. }
    specialize (C C1 C2). destruct (do_act (wbusy w) a (wsb w)) as [[n b]|] eqn:Ed; destruct (ideal_act (wbusy w) o a (nexttag (wsb w))) as [o'|] eqn:Ei; try contradiction.
    + destruct C as (-> & Nb & B1 & B2 & H). cbn [fst snd].
      assert (Nu : ~ In (nexttag (wsb w)) (iused i)) by (intros K; specialize (a10 _ K); lia).
      exists (with_objs i (set_nth (iobjs i) k o') (used_after a (nexttag (wsb w)) (iused i))). split.
      * replace (tag_answer (ans_after a (nexttag (wsb w)))) with (act_answer a (nexttag (wsb w))) by (destruct a; reflexivity).
        eapply IAct; eauto. rewrite a12. exact Ei.
      * assert (Ln : (nexttag (wsb w) <= nexttag b)%nat) by (rewrite Nb; destruct a; cbn; lia).
        split; cbn [wslab wsb wowned wshares wobjs wbusy wcalls iobjs iused iowned ishares ibusy icalls with_objs]; auto.
        -- rewrite set_nth_map2, a6. f_equal. rewrite B1, B2. destruct a; reflexivity.
        -- intros o1 x O1 X. apply set_nth_in in O1. destruct O1 as [->|O1]; [rewrite B1 in X; eauto|eauto].
        -- rewrite (set_nth_map iblk (iobjs i) k o' o Ho B1). exact a8.
        -- intros m o1 M O1. apply set_nth_in in O1. destruct O1 as [->|O1]; [|eauto]. rewrite B2. intros K.
           pose proof (shares_lt _ _ _ _ _ _ _ m a5 M). destruct a; cbn [tags_after] in K; [exact (a9 m o M Io K)|exact (a9 m o M Io K)|].
           destruct K as [K|K]; [lia|exact (a9 m o M Io K)].
        -- intros m M. destruct a; cbn [used_after next_after] in *; [specialize (a10 m M); lia|specialize (a10 m M); lia|].
           destruct M as [<-|M]; [lia|specialize (a10 m M); lia].
    + cbn [fst snd]. exists i. split; [|exact I]. eapply IActUB; eauto. rewrite a12. exact Ei.
  - cbn [fst snd]. eexists. rewrite <- a13. split; [apply IEnter|].
    split; cbn [wslab wsb wowned wshares wobjs wbusy wcalls iobjs iused iowned ishares ibusy icalls]; auto. rewrite a12. reflexivity.
  - cbn [fst snd]. eexists. split; [apply IExit|].
    split; cbn [wslab wsb wowned wshares wobjs wbusy wcalls iobjs iused iowned ishares ibusy icalls]; auto. rewrite a12. reflexivity.
Qed.

(** As [bnew], as if there were memory everywhere (BorrowLocal shows that this makes no difference) *)
Definition bwide (st : block) (owned : bool) : bworld :=
  MkW (fresh st) (MkB (fun _ => [MkItem 0 (if owned then Unique else SharedRW) None]) 1) owned (if owned then [] else [0%nat]) [] [] 0.

Lemma bnew_inv t hd st own : valid_region t st -> winv t hd st own (bwide st own) (ideal_new own).
Proof.
  intros V. split; cbn [bwide ideal_new wslab wsb wowned wshares wobjs wbusy wcalls iobjs iused iowned ishares ibusy icalls]; auto.
  - apply ok_fresh. exact V.
  - split; cbn [nexttag stk].
    + lia.
    + intros o t0 [].
    + destruct own; intros t0 bs K; [destruct K|]. destruct K as [K|[]]. injection K as <- <-. lia.
    + intros x. exists (MkDec [] [] (if own then [] else [MkItem 0 SharedRW None])). split; [destruct own; reflexivity|]. split; [|split; [|split]].
      * split; cbn [up garb low]; [destruct own; repeat constructor| |constructor|apply bottom_nil|apply bottom_nil|]; [destruct own; cbn; repeat constructor; intros []|].
        destruct own; cbn [app]; [constructor|]. constructor; [cbn; lia|constructor].
      * destruct own; intros t0 (bs & b & K & _); [destruct K|]. destruct K as [K|[]]. injection K as <- <-. split; [left; reflexivity|]. split; intros [].
      * reflexivity.
      * intros o [].
  - intros o x [].
  - cbn. apply pairwise_nil.
  - intros n [].
  - destruct own; reflexivity.
Qed.

Lemma brun_inv t hd st own os : valid_target t -> disjoint hd st -> Forall (bop_ok t) os -> forall w i, winv t hd st own w i ->
  exists i', iruns t st i (snd (brun t hd w os)) i' /\ winv t hd st own (fst (brun t hd w os)) i'.
Proof.
  intros Ht D F. induction F as [|o os Fo F IH]; intros w i I; cbn [brun].
  - exists i. split; [constructor|exact I].
  - destruct (bstep_inv t hd st own w i o Ht D I Fo) as (i1 & S1 & I1). destruct (bstep t hd w o) as [w1 r]. cbn [fst snd] in *.
    destruct (IH w1 i1 I1) as (i2 & S2 & I2). destruct (brun t hd w1 os) as [w2 h]. cbn [fst snd] in *. exists i2. split; [econstructor; eauto|exact I2].
Qed.

(** ** The calls are those of the model without tags *)
Lemma bstep_calls t hd st own w i o : valid_target t -> disjoint hd st -> winv t hd st own w i -> bop_ok t o ->
  run t (wslab w) (map fst (calls_of [(o, snd (bstep t hd w o))])) = (wslab (fst (bstep t hd w o)), calls_of [(o, snd (bstep t hd w o))]).
Proof.
  intros Ht Dj I Oo. pose proof I as [a1 a2 a3 a4 a5 a6 a7 a8 a9 a10 a11 a12 a13]. destruct o as [[k|]|k c u| |k a| |c]; cbn [bstep].
  - destruct (nth_error (wshares w) k); [|reflexivity]. destruct (self_ref _ _ _ _ _) as [[? ?]|]; reflexivity.
  - destruct (wowned w); [|reflexivity]. destruct (self_ref _ _ _ _ _) as [[? ?]|]; reflexivity.
  - destruct (nth_error (wshares w) k) as [self|] eqn:E; [|reflexivity].
    assert (Cr : c = CReset \/ c <> CReset) by (destruct c; [right|right|right|right|right|left]; congruence). destruct Cr as [->|Nr]; [reflexivity|].
    assert (X : exists tag b, b_call (wbusy w) t hd (wslab w) c u self (wsb w) = Some ((step t (wslab w) c, tag), b)).
    { destruct (call_runs (wbusy w) t hd st own (iobjs i) (frees hd st (consumed (wslab w))) (map (fun n => (n, [hd; st])) (wshares w)) (wsb w) (wslab w) c u self) as (tag & b & E1 & _); eauto.
      - intros x X. left. exact X.
      - apply shares_over. eapply nth_error_In; eauto.
      - intros a Ea. destruct (step_place t (wslab w) c a Ht a1 Oo Ea) as (_ & P1 & _ & P2 & _). rewrite a2 in *. cbn zeta. split; [exact P1|]. split.
        + intros x X. right. split; [apply P1; exact X|]. apply (P2 x X).
        + apply Forall_forall. intros o Io x [X1 X2]. pose proof (P2 x X1). pose proof (a7 o x Io X2). lia. }
    destruct X as (tag & b & E1). destruct (step t (wslab w) c) as [s' r] eqn:Es.
    destruct c; try congruence; rewrite E1; cbn [fst snd calls_of map run wslab]; rewrite Es; reflexivity.
  - destruct (wowned w) eqn:Ew; [|reflexivity]. destruct (wbusy w) as [|cc bb] eqn:Eb; [|reflexivity]. assert (own = true) by congruence. subst own.
    destruct (reset_runs hd (wslab w) _ _ _ (wsb w) a5) as (b & E1 & L1 & H1); [rewrite a2; exact Dj|]. rewrite E1. reflexivity.
  - destruct (nth_error (wobjs w) k); [|reflexivity]. destruct (act_ok _ _); [|reflexivity]. destruct (do_act _ _ _) as [[[?|] ?]|]; reflexivity.
  - reflexivity.
  - reflexivity.
Qed.

Lemma calls_app h1 h2 : calls_of (h1 ++ h2) = calls_of h1 ++ calls_of h2.
Proof.
  induction h1 as [|[o r] h IH]; [reflexivity|]. cbn [app]. destruct o, r; cbn [calls_of]; rewrite ?IH; reflexivity.
Qed.

Lemma brun_calls t hd st own os : valid_target t -> disjoint hd st -> Forall (bop_ok t) os -> forall w i, winv t hd st own w i ->
  run t (wslab w) (map fst (calls_of (snd (brun t hd w os)))) = (wslab (fst (brun t hd w os)), calls_of (snd (brun t hd w os))).
Proof.
  intros Ht D F. induction F as [|o os Fo F IH]; intros w i I; cbn [brun]; [reflexivity|].
  destruct (bstep_inv t hd st own w i o Ht D I Fo) as (i1 & _ & I1). pose proof (bstep_calls t hd st own w i o Ht D I Fo) as C.
  destruct (bstep t hd w o) as [w1 r]. cbn [fst snd] in *. specialize (IH w1 i1 I1). destruct (brun t hd w1 os) as [w2 h]. cbn [fst snd] in *.
  change ((o, r) :: h) with ([(o, r)] ++ h). rewrite calls_app, map_app.
  rewrite run_app. unfold event in *. rewrite C, IH. reflexivity.
Qed.

(** ** Undefined behaviour comes only from the client *)
Lemma iruns_ub t st h : forall i i', iruns t st i h i' -> forall o, In (o, BUB) h -> exists k a, o = BAct k a.
Proof.
  intros i i' R. induction R as [|i o r i1 h i2 St R IH]; intros q Q; [destruct Q|]. destruct Q as [E|Q]; [|auto].
  injection E as -> ->. inversion St; subst; eauto.
Qed.

Definition simple (o : iobj) : Prop := exists n p, itags o = [n] /\ (p = Unique \/ p = SharedRW) /\ forall x, istk o x = [MkItem n p None].

Lemma simple_ok busy o a : simple o -> act_ok (MkO (iblk o) (itags o)) a = true -> (match a with CRetag _ _ _ => False | _ => True end) ->
  forall n, exists o', ideal_act busy o a n = Some o' /\ simple o'.
Proof.
  intros (m & p & T & P & K) A Pl n. pose proof (act_has _ _ A) as Ht. cbn [otags] in Ht. rewrite T in Ht. destruct Ht as [Ht|[]].
  assert (R : sb_read busy m [MkItem m p None] = Some [MkItem m p None]).
  { unfold sb_read. cbn [granting itag iperm]. rewrite Nat.eqb_refl. destruct P as [-> | ->]; reflexivity. }
  assert (W : sb_write busy m [MkItem m p None] = Some [MkItem m p None]).
  { unfold sb_write. cbn [granting itag iperm]. rewrite Nat.eqb_refl. destruct P as [-> | ->]; reflexivity. }
  rewrite ideal_act_stk. destruct a as [t b|t b|t parts q]; [| |destruct Pl]; cbn [act_tag act_stk tags_after] in *; subst t.
  - destruct (on_block_ok b (sb_read busy m) (istk o)) as [k E]; [intros x _; rewrite K, R; discriminate|]. rewrite E. eexists. split; [reflexivity|].
    exists m, p. split; [exact T|]. split; [exact P|]. intros x. cbn [istk]. pose proof (on_block_spec _ _ _ _ E x) as [S1 S2]. destruct (inb b x) eqn:X.
    + apply inb_iff in X. specialize (S1 X). rewrite K, R in S1. congruence.
    + rewrite S2; [apply K|rewrite <- inb_iff; congruence].
  - destruct (on_block_ok b (sb_write busy m) (istk o)) as [k E]; [intros x _; rewrite K, W; discriminate|]. rewrite E. eexists. split; [reflexivity|].
    exists m, p. split; [exact T|]. split; [exact P|]. intros x. cbn [istk]. pose proof (on_block_spec _ _ _ _ E x) as [S1 S2]. destruct (inb b x) eqn:X.
    + apply inb_iff in X. specialize (S1 X). rewrite K, W in S1. congruence.
    + rewrite S2; [apply K|rewrite <- inb_iff; congruence].
Qed.

Lemma iruns_plain t st h : forall i i', iruns t st i h i' -> Forall simple (iobjs i) -> Forall (fun p => plain (fst p)) h -> forall o, ~ In (o, BUB) h.
Proof.
  intros i i' R. induction R as [|i o r i1 h i2 St R IH]; intros F P q Q; [destruct Q|]. inversion P as [|? ? P1 P2]; subst.
  assert (X : Forall simple (iobjs i1) /\ r <> BUB).
  { inversion St; subst; cbn [iobjs with_objs]; try (split; [first [exact F|constructor]|discriminate]).
    - split; [|discriminate]. apply Forall_app. split; [exact F|]. constructor; [|constructor]. exists n, (use_perm u). split; [reflexivity|]. split; [destruct u; cbn; auto|reflexivity].
    - split; [|destruct a; discriminate]. rewrite Forall_forall in F. pose proof (F _ (nth_error_In _ _ H)) as So.
      destruct (simple_ok (ibusy i) o0 a So H0) with (n := n) as (o2 & E2 & S2); [destruct a; auto|]. assert (o2 = o') by congruence. subst o2.
      apply Forall_forall. intros y Y. apply set_nth_in in Y. destruct Y as [->|Y]; auto.
    - exfalso. rewrite Forall_forall in F. pose proof (F _ (nth_error_In _ _ H)) as So.
      destruct (simple_ok (ibusy i1) o0 a So H0) with (n := n) as (o2 & E2 & S2); [destruct a; auto|]. congruence. }
  destruct X as [X1 X2]. destruct Q as [E|Q]; [congruence|]. exact (IH X1 P2 q Q).
Qed.

Lemma brun_fst t hd os : forall w, map fst (snd (brun t hd w os)) = os.
Proof.
  induction os as [|o os IH]; intros w; cbn [brun]; [reflexivity|]. destruct (bstep t hd w o) as [w1 r]. specialize (IH w1).
  destruct (brun t hd w1 os) as [w2 h]. cbn [fst snd map] in *. congruence.
Qed.
