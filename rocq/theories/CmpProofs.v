(** * CmpProofs *)
From Verif Require Import Base Spec BaseFacts UninitModel FixedVecModel FixedVecSpec RcModel RcSpec CmpModel CmpSpec.

Lemma eq_loop_spec {A} (I : impls A) xs ys : length xs = length ys ->
  exists b, eq_loop I (map Some xs) (map Some ys) = Some b /\ (b = true <-> pointwise (fun x y => e_eq I x y = true) xs ys).
Proof.
  revert ys. induction xs as [|x xs IH]; intros [|y ys] L; try discriminate; cbn [map eq_loop].
  - exists true. split; [reflexivity|]. split; [|auto]. intros _. split; [reflexivity|]. intros [|n]; discriminate.
  - cbn in L. injection L as L. destruct (IH ys L) as (b & E & B). destruct (e_eq I x y) eqn:Q.
    + exists b. split; [exact E|]. rewrite B. split; intros (P1 & P2).
      * split; [cbn; congruence|]. intros [|n] u w U W; cbn in U, W; [injection U as <-; injection W as <-; exact Q|exact (P2 n u w U W)].
      * split; [exact L|]. intros n u w U W. exact (P2 (S n) u w U W).
    + exists false. split; [reflexivity|]. split; [discriminate|]. intros (_ & P). specialize (P O x y eq_refl eq_refl). congruence.
Qed.

Lemma slice_eq_spec {A} (I : impls A) xs ys :
  exists b, slice_eq I (map Some xs) (map Some ys) = Some b /\ (b = true <-> pointwise (fun x y => e_eq I x y = true) xs ys).
Proof.
  unfold slice_eq. rewrite !map_length. destruct (Nat.eqb_spec (length xs) (length ys)) as [L|L].
  - apply eq_loop_spec. exact L.
  - exists false. split; [reflexivity|]. split; [discriminate|]. intros (P & _). contradiction.
Qed.

Lemma agree_cons {A} (same : A -> A -> Prop) n x y xs ys : same x y -> agree_before same n xs ys -> agree_before same (S n) (x :: xs) (y :: ys).
Proof.
  intros S (L1 & L2 & P). cbn [length]. split; [cbn [length]; lia|]. split; [cbn [length]; lia|]. intros [|k] u w K U W; cbn in U, W; [congruence|].
  apply (P k u w); auto. lia.
Qed.
Lemma agree_uncons {A} (same : A -> A -> Prop) n x y xs ys : agree_before same (S n) (x :: xs) (y :: ys) -> agree_before same n xs ys /\ same x y.
Proof.
  intros (L1 & L2 & P). cbn [length] in *. split; [|apply (P O x y); auto; lia]. split; [lia|]. split; [lia|]. intros k u w K U W. apply (P (S k) u w); auto. lia.
Qed.
Lemma agree_zero {A} (same : A -> A -> Prop) xs ys : agree_before same 0 xs ys.
Proof. split; [lia|]. split; [lia|]. intros. lia. Qed.

Lemma lex_cons {A} (same less : A -> A -> Prop) x y xs ys : same x y -> ~ less x y ->
  (lex_below same less (x :: xs) (y :: ys) <-> lex_below same less xs ys).
Proof.
  intros S NL. split.
  - intros ([|n] & AG & H).
    + exfalso. destruct H as [(u & w & U & W & L)|(L & _)]; [cbn in U, W; injection U as <-; injection W as <-; contradiction|discriminate].
    + apply agree_uncons in AG. destruct AG as (AG & _). exists n. split; [exact AG|]. destruct H as [(u & w & U & W & L)|(L & L2)]; [left; eauto|right].
      cbn [length] in *. lia.
  - intros (n & AG & H). exists (Datatypes.S n). split; [apply agree_cons; auto|]. destruct H as [(u & w & U & W & L)|(L & L2)]; [left; eauto|right].
    cbn [length]. lia.
Qed.
Lemma lex_head {A} (same less : A -> A -> Prop) x y xs ys : ~ same x y -> (lex_below same less (x :: xs) (y :: ys) <-> less x y).
Proof.
  intros S. split.
  - intros ([|n] & AG & H); [|apply agree_uncons in AG; destruct AG; contradiction].
    destruct H as [(u & w & U & W & L)|(L & _)]; [cbn in U, W; injection U as <-; injection W as <-; exact L|discriminate].
  - intros L. exists O. split; [apply agree_zero|]. left. exists x, y. auto.
Qed.
Lemma lex_nil_r {A} (same less : A -> A -> Prop) xs : ~ lex_below same less xs [].
Proof. intros (n & _ & [(u & w & _ & W & _)|(_ & L)]); [destruct n; discriminate|cbn in L; lia]. Qed.
Lemma lex_nil_l {A} (same less : A -> A -> Prop) y ys : lex_below same less [] (y :: ys).
Proof. exists O. split; [apply agree_zero|]. right. cbn. lia. Qed.
Lemma pw_cons {A} (R : A -> A -> Prop) x y xs ys : pointwise R (x :: xs) (y :: ys) <-> R x y /\ pointwise R xs ys.
Proof.
  split.
  - intros (L & P). split; [apply (P O); reflexivity|]. split; [cbn in L; congruence|]. intros n u w U W. exact (P (S n) u w U W).
  - intros (Q & L & P). split; [cbn; congruence|]. intros [|n] u w U W; cbn in U, W; [congruence|exact (P n u w U W)].
Qed.
Lemma pw_nil {A} (R : A -> A -> Prop) : pointwise R [] [].
Proof. split; [reflexivity|]. intros [|n]; discriminate. Qed.
Lemma un_cons {A} (same un : A -> A -> Prop) x y xs ys : same x y -> ~ un x y -> (lex_unordered same un (x :: xs) (y :: ys) <-> lex_unordered same un xs ys).
Proof.
  intros S NU. split.
  - intros ([|n] & u & w & AG & U & W & L); [cbn in U, W; injection U as <-; injection W as <-; contradiction|].
    apply agree_uncons in AG. exists n, u, w. split; [apply AG|auto].
  - intros (n & u & w & AG & U & W & L). exists (Datatypes.S n), u, w. split; [apply agree_cons; auto|auto].
Qed.
Lemma un_head {A} (same un : A -> A -> Prop) x y xs ys : ~ same x y -> (lex_unordered same un (x :: xs) (y :: ys) <-> un x y).
Proof.
  intros S. split.
  - intros ([|n] & u & w & AG & U & W & L); [cbn in U, W; injection U as <-; injection W as <-; exact L|apply agree_uncons in AG; destruct AG; contradiction].
  - intros L. exists O, x, y. split; [apply agree_zero|auto].
Qed.

(** The four answers of partial_cmp *)
Lemma slice_pcmp_spec {A} (I : impls A) xs ys :
  let same x y := e_pcmp I x y = Some Eq in
  exists c, slice_pcmp I (map Some xs) (map Some ys) = Some c /\
    (c = Some Lt <-> lex_below same (fun x y => e_pcmp I x y = Some Lt) xs ys) /\
    (c = Some Eq <-> pointwise same xs ys) /\
    (c = Some Gt <-> lex_below (fun y x => same x y) (fun y x => e_pcmp I x y = Some Gt) ys xs) /\
    (c = None <-> lex_unordered same (fun x y => e_pcmp I x y = None) xs ys).
Proof.
  cbn zeta. unfold slice_pcmp. revert ys. induction xs as [|x xs IH]; intros [|y ys]; cbn [map pcmp_loop].
  - exists (Some Eq). split; [reflexivity|]. split; [|split; [|split]]; split; intros H; try discriminate; try apply pw_nil.
    + exfalso. eapply lex_nil_r. exact H.
    + reflexivity.
    + exfalso. eapply lex_nil_r. exact H.
    + destruct H as ([|n] & u & w & _ & U & _); discriminate.
  - exists (Some Lt). cbn [length Nat.compare]. split; [reflexivity|]. split; [|split; [|split]]; split; intros H; try discriminate; try reflexivity.
    + apply lex_nil_l.
    + destruct H as (L & _). discriminate.
    + exfalso. eapply lex_nil_r. exact H.
    + destruct H as ([|n] & u & w & _ & U & _); discriminate.
  - exists (Some Gt). cbn [length Nat.compare]. split; [reflexivity|]. split; [|split; [|split]]; split; intros H; try discriminate; try reflexivity.
    + exfalso. eapply lex_nil_r. exact H.
    + destruct H as (L & _). discriminate.
    + apply lex_nil_l.
    + destruct H as ([|n] & u & w & _ & _ & W & _); discriminate.
  - destruct (e_pcmp I x y) as [[| |]|] eqn:E.
    + destruct (IH ys) as (c & Q & C1 & C2 & C3 & C4). exists c. split; [exact Q|].
      rewrite C1, C2, C3, C4. split; [|split; [|split]]; symmetry.
      * apply lex_cons; [exact E|congruence].
      * rewrite pw_cons. tauto.
      * apply lex_cons; [exact E|congruence].
      * apply un_cons; [exact E|congruence].
    + exists (Some Lt). split; [reflexivity|]. rewrite pw_cons, !lex_head, un_head, E by congruence.
      split; [|split; [|split]]; split; intros H; try discriminate; try reflexivity; destruct H; discriminate.
    + exists (Some Gt). split; [reflexivity|]. rewrite pw_cons, !lex_head, un_head, E by congruence.
      split; [|split; [|split]]; split; intros H; try discriminate; try reflexivity; destruct H; discriminate.
    + exists None. split; [reflexivity|]. rewrite pw_cons, !lex_head, un_head, E by congruence.
      split; [|split; [|split]]; split; intros H; try discriminate; try reflexivity; destruct H; discriminate.
Qed.

Lemma slice_cmp_spec {A} (I : impls A) xs ys :
  let same x y := e_cmp I x y = Eq in
  exists c, slice_cmp I (map Some xs) (map Some ys) = Some c /\
    (c = Lt <-> lex_below same (fun x y => e_cmp I x y = Lt) xs ys) /\
    (c = Eq <-> pointwise same xs ys) /\
    (c = Gt <-> lex_below (fun y x => same x y) (fun y x => e_cmp I x y = Gt) ys xs).
Proof.
  cbn zeta. unfold slice_cmp. revert ys. induction xs as [|x xs IH]; intros [|y ys]; cbn [map cmp_loop].
  - exists Eq. split; [reflexivity|]. split; [|split]; split; intros H; try discriminate; try apply pw_nil; try reflexivity; exfalso; eapply lex_nil_r; exact H.
  - exists Lt. cbn [length Nat.compare]. split; [reflexivity|]. split; [|split]; split; intros H; try discriminate; try reflexivity.
    + apply lex_nil_l.
    + destruct H as (L & _). discriminate.
    + exfalso. eapply lex_nil_r. exact H.
  - exists Gt. cbn [length Nat.compare]. split; [reflexivity|]. split; [|split]; split; intros H; try discriminate; try reflexivity.
    + exfalso. eapply lex_nil_r. exact H.
    + destruct H as (L & _). discriminate.
    + apply lex_nil_l.
  - destruct (e_cmp I x y) eqn:E.
    + destruct (IH ys) as (c & Q & C1 & C2 & C3). exists c. split; [exact Q|].
      rewrite C1, C2, C3. split; [|split]; symmetry.
      * apply lex_cons; [exact E|congruence].
      * rewrite pw_cons. tauto.
      * apply lex_cons; [exact E|congruence].
    + exists Lt. split; [reflexivity|]. rewrite pw_cons, !lex_head, E by congruence.
      split; [|split]; split; intros H; try discriminate; try reflexivity; destruct H; discriminate.
    + exists Gt. split; [reflexivity|]. rewrite pw_cons, !lex_head, E by congruence.
      split; [|split]; split; intros H; try discriminate; try reflexivity; destruct H; discriminate.
Qed.

Lemma hash_loop_spec {A} (I : impls A) xs : hash_loop I (map Some xs) = Some (flat_map (e_hash I) xs).
Proof. induction xs as [|x xs IH]; cbn [map hash_loop flat_map]; [reflexivity|]. rewrite IH. reflexivity. Qed.

Lemma slice_hash_spec {A} (I : impls A) xs : slice_hash I (map Some xs) = Some (Z.of_nat (length xs) :: flat_map (e_hash I) xs).
Proof. unfold slice_hash. rewrite hash_loop_spec, map_length. reflexivity. Qed.

(** The slice's own impls *)
Definition oflt {B} (d : B) (x : option B) : B := match x with Some b => b | None => d end.
Definition slice_impls {A} (I : impls A) : impls (list A) := {|
  e_eq xs ys := oflt false (slice_eq I (map Some xs) (map Some ys));
  e_ne xs ys := oflt false (slice_ne I (map Some xs) (map Some ys));
  e_pcmp xs ys := oflt None (slice_pcmp I (map Some xs) (map Some ys));
  e_lt xs ys := oflt false (slice_lt I (map Some xs) (map Some ys));
  e_le xs ys := oflt false (slice_le I (map Some xs) (map Some ys));
  e_gt xs ys := oflt false (slice_gt I (map Some xs) (map Some ys));
  e_ge xs ys := oflt false (slice_ge I (map Some xs) (map Some ys));
  e_cmp xs ys := oflt Eq (slice_cmp I (map Some xs) (map Some ys));
  e_hash xs := oflt [] (slice_hash I (map Some xs)) |}.

Fixpoint lcmp {A} (I : impls A) (xs ys : list A) : comparison :=
  match xs, ys with
  | x :: xs, y :: ys => match e_cmp I x y with Eq => lcmp I xs ys | c => c end
  | xs, ys => Nat.compare (length xs) (length ys)
  end.
Lemma slice_cmp_l {A} (I : impls A) xs ys : slice_cmp I (map Some xs) (map Some ys) = Some (lcmp I xs ys).
Proof.
  unfold slice_cmp. revert ys. induction xs as [|x xs IH]; intros [|y ys]; cbn [map cmp_loop lcmp]; try reflexivity; cbn [length]; rewrite ?map_length; try reflexivity.
  destruct (e_cmp I x y); auto.
Qed.
Lemma slice_pcmp_l {A} (I : impls A) xs ys : lawful I -> slice_pcmp I (map Some xs) (map Some ys) = Some (Some (lcmp I xs ys)).
Proof.
  intros L. unfold slice_pcmp. revert ys. induction xs as [|x xs IH]; intros [|y ys]; cbn [map pcmp_loop lcmp]; try reflexivity; cbn [length]; rewrite ?map_length; try reflexivity.
  rewrite (l_pcmp I L). destruct (e_cmp I x y); auto.
Qed.

Lemma lcmp_opp {A} (I : impls A) : lawful I -> forall xs ys, lcmp I xs ys = CompOpp (lcmp I ys xs).
Proof.
  intros L. induction xs as [|x xs IH]; intros [|y ys]; cbn [lcmp]; try reflexivity.
  rewrite (l_cmp_opp I L y x). destruct (e_cmp I x y) eqn:E; cbn [CompOpp]; auto.
Qed.
Lemma cmp_eq_l {A} (I : impls A) : lawful I -> forall x y z, e_cmp I x y = Eq -> e_cmp I x z = e_cmp I y z.
Proof.
  intros L x y z E. pose proof (proj1 (l_cmp_eq I L x y) E) as Q.
  destruct (e_cmp I y z) eqn:C.
  - apply (l_cmp_eq I L) in C. apply (l_cmp_eq I L). eapply (l_trans I L); eauto.
  - destruct (e_cmp I x z) eqn:D; [| reflexivity|].
    + exfalso. apply (l_cmp_eq I L) in D. assert (e_eq I y z = true) by (eapply (l_trans I L); [rewrite (l_sym I L); exact Q|exact D]). apply (l_cmp_eq I L) in H. congruence.
    + exfalso. rewrite (l_cmp_opp I L) in D. destruct (e_cmp I z x) eqn:F; try discriminate.
      pose proof (l_cmp_trans I L y z x C F) as G. rewrite (l_cmp_opp I L), E in G. discriminate.
  - destruct (e_cmp I x z) eqn:D; [| |reflexivity].
    + exfalso. apply (l_cmp_eq I L) in D. assert (e_eq I y z = true) by (eapply (l_trans I L); [rewrite (l_sym I L); exact Q|exact D]). apply (l_cmp_eq I L) in H. congruence.
    + exfalso. rewrite (l_cmp_opp I L) in C. destruct (e_cmp I z y) eqn:F; try discriminate.
      pose proof (l_cmp_trans I L x z y D F) as G. rewrite E in G. discriminate.
Qed.
Lemma cmp_eq_r {A} (I : impls A) : lawful I -> forall x y z, e_cmp I y z = Eq -> e_cmp I x y = e_cmp I x z.
Proof.
  intros L x y z E. rewrite (l_cmp_opp I L x y), (l_cmp_opp I L x z). f_equal. apply cmp_eq_l; assumption.
Qed.
Lemma lcmp_trans {A} (I : impls A) : lawful I -> forall xs ys zs, lcmp I xs ys = Lt -> lcmp I ys zs = Lt -> lcmp I xs zs = Lt.
Proof.
  intros L. induction xs as [|x xs IH]; intros [|y ys] [|z zs] A1 A2; cbn [lcmp] in *; try discriminate; try reflexivity.
  destruct (e_cmp I x y) eqn:E1; try discriminate; destruct (e_cmp I y z) eqn:E2; try discriminate.
  - rewrite (cmp_eq_l I L x y z E1), E2. eauto.
  - rewrite (cmp_eq_l I L x y z E1), E2. reflexivity.
  - rewrite <- (cmp_eq_r I L x y z E2), E1. reflexivity.
  - rewrite (l_cmp_trans I L x y z E1 E2). reflexivity.
Qed.

Lemma pw_iff {A} (R S : A -> A -> Prop) xs ys : (forall x y, R x y <-> S x y) -> (pointwise R xs ys <-> pointwise S xs ys).
Proof. intros H. unfold pointwise. split; intros (L & P); (split; [exact L|]); intros n x y X Y; apply H; exact (P n x y X Y). Qed.

Lemma slice_lawful {A} (I : impls A) : lawful I -> lawful (slice_impls I).
Proof.
  intros L.
  assert (EQ : forall xs ys, e_eq (slice_impls I) xs ys = true <-> pointwise (fun x y => e_eq I x y = true) xs ys).
  { intros xs ys. destruct (slice_eq_spec I xs ys) as (b & Q & B). cbn [slice_impls e_eq]. rewrite Q. exact B. }
  assert (CM : forall xs ys, e_cmp (slice_impls I) xs ys = lcmp I xs ys) by (intros; cbn [slice_impls e_cmp]; rewrite slice_cmp_l; reflexivity).
  assert (PC : forall xs ys, slice_pcmp I (map Some xs) (map Some ys) = Some (Some (lcmp I xs ys))) by (intros; apply slice_pcmp_l; exact L).
  constructor.
  - intros xs. apply EQ. split; [reflexivity|]. intros n x y X Y. rewrite X in Y. injection Y as <-. apply (l_refl I L).
  - intros xs ys. apply Bool.eq_iff_eq_true. rewrite !EQ. split; intros (P & Q); (split; [congruence|]); intros n x y X Y; rewrite (l_sym I L); exact (Q n y x Y X).
  - intros xs ys zs. rewrite !EQ. intros (P1 & Q1) (P2 & Q2). split; [congruence|]. intros n x z X Z.
    destruct (nth_error ys n) as [y|] eqn:Y; [exact (l_trans I L x y z (Q1 n x y X Y) (Q2 n y z Y Z))|].
    exfalso. apply nth_error_None in Y. assert (n < length xs)%nat by (apply nth_error_Some; congruence). lia.
  - intros xs ys. cbn [slice_impls e_ne e_eq]. unfold slice_ne. destruct (slice_eq_spec I xs ys) as (b & -> & _). reflexivity.
  - intros xs ys. rewrite EQ. destruct (slice_cmp_spec I xs ys) as (c & C & _ & C2 & _). cbn [slice_impls e_cmp]. rewrite C. cbn [oflt]. rewrite C2.
    apply pw_iff. apply (l_cmp_eq I L).
  - intros. rewrite !CM. apply lcmp_opp. exact L.
  - intros xs ys zs. rewrite !CM. apply lcmp_trans. exact L.
  - intros. rewrite CM. cbn [slice_impls e_pcmp]. rewrite PC. reflexivity.
  - intros. rewrite CM. cbn [slice_impls e_lt]. unfold slice_lt. rewrite PC. cbn. destruct (lcmp I x y); reflexivity.
  - intros. rewrite CM. cbn [slice_impls e_le]. unfold slice_le. rewrite PC. cbn. destruct (lcmp I x y); reflexivity.
  - intros. rewrite CM. cbn [slice_impls e_gt]. unfold slice_gt. rewrite PC. cbn. destruct (lcmp I x y); reflexivity.
  - intros. rewrite CM. cbn [slice_impls e_ge]. unfold slice_ge. rewrite PC. cbn. destruct (lcmp I x y); reflexivity.
  - intros xs ys E. apply EQ in E. cbn [slice_impls e_hash]. rewrite !slice_hash_spec. cbn [oflt]. destruct E as (LN & P). rewrite LN. f_equal.
    revert ys LN P. induction xs as [|x xs IH]; intros [|y ys] LN P; try discriminate; [reflexivity|]. cbn [flat_map]. f_equal.
    + apply (l_hash I L). apply (P O); reflexivity.
    + apply IH; [cbn in LN; congruence|]. intros n u w. exact (P (S n) u w).
Qed.
