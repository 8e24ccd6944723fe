(** * EBorrowBase: the stack of a byte of a slot: items of the client, of the library, and below those the pointer that the ExitStack keeps. *)
From Verif Require Import Base Spec BaseFacts SyncModel SyncSpec BorrowModel BorrowSpec BorrowProofs BorrowState BorrowWorld UBorrowModel UBorrowSub UBorrowCells
  UBorrowSpec UBorrowCalls UBorrowReset.

(** ** Accesses do not depend on what is below *)
Definition under_ (R : stack) (o : option stack) : option stack := match o with Some a => Some (a ++ R) | None => None end.

Lemma frame_granting w t A R : Forall (fun i => itag i <> t) R ->
  granting w t (A ++ R) = match granting w t A with Some (x, g, y) => Some (x, g, y ++ R) | None => None end.
Proof.
  intros N. destruct (granting w t A) as [[[x g] y]|] eqn:E; [apply granting_left; exact E|]. rewrite (granting_none w t A R E), (granting_out w t R N). reflexivity.
Qed.

Lemma frame_read c t A R : Forall (fun i => itag i <> t) R -> sb_read c t (A ++ R) = under_ R (sb_read c t A).
Proof.
  intros N. unfold sb_read. rewrite (frame_granting false t A R N). destruct (granting false t A) as [[[x g] y]|]; [|reflexivity]. destruct (existsb _ x); [reflexivity|]. cbn [under_]. napp. reflexivity.
Qed.
Lemma frame_write c t A R : Forall (fun i => itag i <> t) R -> sb_write c t (A ++ R) = under_ R (sb_write c t A).
Proof.
  intros N. unfold sb_write. rewrite (frame_granting true t A R N). destruct (granting true t A) as [[[x g] y]|]; [|reflexivity]. destruct (incompatible g x) as [p k].
  destruct (existsb _ p); [reflexivity|]. cbn [under_]. napp. reflexivity.
Qed.
Lemma frame_retag c k t n pr A R : Forall (fun i => itag i <> t) R -> sb_retag c k t n pr (A ++ R) = under_ R (sb_retag c k t n pr A).
Proof.
  intros N. destruct k; cbn [sb_retag].
  - rewrite (frame_write c t A R N). destruct (sb_write c t A); reflexivity.
  - rewrite (frame_read c t A R N). destruct (sb_read c t A); reflexivity.
  - rewrite (frame_granting true t A R N). destruct (granting true t A) as [[[x g] y]|]; [|reflexivity]. destruct (incompatible g x) as [p q]. cbn [under_]. napp. reflexivity.
Qed.

Lemma frame_at busy a n x f A R : act_at busy a n x = Some f -> Forall (fun i => itag i <> act_tag a) R -> f (A ++ R) = under_ R (f A).
Proof.
  destruct a as [t b|t b|t parts p]; cbn [act_at act_tag].
  - destruct (inb b x); [|discriminate]. intros [= <-]. apply frame_read.
  - destruct (inb b x); [|discriminate]. intros [= <-]. apply frame_write.
  - destruct (find _ parts) as [[kd b]|]; [|discriminate]. intros [= <-]. apply frame_retag.
Qed.

(** ** A byte of a slot *)
Definition bot (base : nat) : item := MkItem base SharedRW None.
Definition wb (d : dec) (base : nat) : dec := MkDec (up d) (garb d) (low d ++ [bot base]).

(** The library can use the tags [hs]; nothing below [base] is used. *)
Record sbyte (n : nat) (hs : list nat) (base : nat) (d : dec) (r K : stack) : Prop := {
  sb_eq : K = whole false (wb d base) ++ r;
  sb_good : good false n (wb d base);
  sb_hs : forall h, In h hs -> usable (wb d base) h;
  sb_r : Forall (fun i => ~ In (itag i) hs) r;
  sb_lt : Forall (fun i => (itag i < n)%nat) r }.

(** What the client has: [T] are its tags. *)
Record crel (hs : list nat) (base : nat) (T : list nat) (d : dec) (r ist : stack) : Prop := {
  c_rel : exists A, rel T d A /\ ist = A ++ [bot base];
  c_base : ~ In base T;
  c_hs : forall h, In h hs -> ~ In h T;
  c_r : Forall (fun i => ~ In (itag i) T) r }.

Lemma whole_wb d base r : whole false (wb d base) ++ r = whole false d ++ bot base :: r.
Proof. unfold whole, wb. cbn [up garb low bel]. rewrite !app_nil_r. napp. reflexivity. Qed.

Lemma good_wb n d base : good false n (wb d base) -> good false n d /\ ~ In base (map itag (low d)) /\ (base < n)%nat.
Proof.
  intros [g1 g2 g3 g4 g5 g6]. cbn [wb up garb low] in *. apply Forall_app in g1. rewrite map_app in g2. rewrite !app_assoc in g6. apply Forall_app in g6. rewrite <- !app_assoc in g6.
  cbn [map itag] in g2. destruct (NoDup_remove (map itag (low d)) [] base g2) as [n1 n2]. rewrite app_nil_r in n1, n2.
  split; [split; try assumption; [apply g1|apply g6]|]. split; [exact n2|]. destruct g6 as [_ g6]. inversion g6 as [|? ? Q]. cbn in Q. lia.
Qed.
Lemma wb_good n d base : good false n d -> ~ In base (map itag (low d)) -> (base < n)%nat -> good false n (wb d base).
Proof.
  intros [g1 g2 g3 g4 g5 g6] N L. split; cbn [wb up garb low]; auto.
  - apply Forall_app. split; [exact g1|]. repeat constructor.
  - rewrite map_app. cbn [map itag]. apply NoDup_Add with (a := base) (l := map itag (low d)); [|auto]. replace (map itag (low d)) with (map itag (low d) ++ []) at 1 by apply app_nil_r. apply Add_app.
  - rewrite !app_assoc, Forall_app. rewrite app_assoc in g6. split; [exact g6|]. repeat constructor; cbn; lia.
Qed.

Lemma sbyte_more n n' hs hs' base d r K : (n <= n')%nat -> incl hs' hs -> sbyte n hs base d r K -> sbyte n' hs' base d r K.
Proof.
  intros L I [s1 s2 s3 s4 s5]. split; [exact s1|eapply good_more; eauto|auto| |].
  - eapply Forall_impl; [|exact s4]. cbn. auto.
  - eapply Forall_impl; [|exact s5]. cbn. lia.
Qed.
Lemma crel_less hs hs' base T d r ist : incl hs' hs -> crel hs base T d r ist -> crel hs' base T d r ist.
Proof. intros I [c1 c2 c3 c4]. split; auto. Qed.

Lemma r_not hs (r : stack) h : Forall (fun i => ~ In (itag i) hs) r -> In h hs -> Forall (fun i => itag i <> h) r.
Proof. intros F I. eapply Forall_impl; [|exact F]. cbn. intros i N E. apply N. rewrite E. exact I. Qed.
Lemma r_new n (r : stack) hs : Forall (fun i => (itag i < n)%nat) r -> Forall (fun i => ~ In (itag i) hs) r -> Forall (fun i => ~ In (itag i) (n :: hs)) r.
Proof. rewrite !Forall_forall. intros A B i I [E|K]; [specialize (A i I); lia|exact (B i I K)]. Qed.
Lemma r_lt n (r : stack) : Forall (fun i => (itag i < n)%nat) r -> Forall (fun i => (itag i < S n)%nat) r.
Proof. intros F. eapply Forall_impl; [|exact F]. cbn. lia. Qed.

(** *** The library *)
Lemma b_cell c n hs base d r K h pr : sbyte n hs base d r K -> In h hs ->
  exists K', sb_retag c RCell h n pr K = Some K' /\ sbyte (S n) (n :: hs) base (add_low d n) r K'.
Proof.
  intros [-> G U F L] I. rewrite (frame_retag c RCell h n pr _ r (r_not hs r h F I)).
  change (sb_retag c RCell h n pr (whole false (wb d base))) with (sb_retag c RCell h n None (whole false (wb d base))). rewrite (lib_retag c false n _ h n G (U h I)). cbn [under_].
  eexists. split; [reflexivity|]. pose proof (good_add false n (wb d base) n G (Nat.le_0_l n) (le_n n)) as G'. pose proof (lt_parts _ _ _ G) as (L1 & L2 & _). rewrite Forall_forall in L1, L2.
  split; [reflexivity|exact G'| |apply r_new; assumption|apply r_lt; exact L].
  intros k [<-|Ik]; [|destruct (U k Ik) as (U1 & U2 & U3); split; [right; exact U1|split; assumption]].
  split; [left; reflexivity|]. split; intros Z; apply in_map_iff in Z; destruct Z as (i & Z1 & Z2); [specialize (L1 i Z2)|specialize (L2 i Z2)]; cbn in *; lia.
Qed.

Lemma usable_low n d base hs : good false n (wb d base) -> (forall h, In h hs -> usable (wb d base) h) -> forall u g, Forall (fun i => ~ In (itag i) hs) u -> Forall (fun i => ~ In (itag i) hs) g ->
  forall h, In h hs -> usable (wb (MkDec u g (low d)) base) h.
Proof.
  intros G U u g Fu Fg h I. destruct (U h I) as (U1 & _). split; [exact U1|]. cbn [wb up garb].
  split; intros Z; apply in_map_iff in Z; destruct Z as (i & E & Z); rewrite Forall_forall in Fu, Fg; [apply (Fu i Z)|apply (Fg i Z)]; rewrite E; exact I.
Qed.
Lemma good_parts n d base u g : good false n (wb d base) -> Forall garb_item g -> bottom_ok g -> bottom_ok u -> Forall (fun i => (itag i < n)%nat) (u ++ g) ->
  good false n (wb (MkDec u g (low d)) base).
Proof.
  intros G F1 F2 F3 F4. pose proof (lt_parts _ _ _ G) as (_ & _ & L3). destruct G as [g1 g2 g3 g4 g5 g6]. split; cbn [wb up garb low] in *; auto.
  rewrite app_assoc. apply Forall_app. split; [eapply Forall_impl; [|exact F4]; cbn; lia|exact L3].
Qed.

Lemma lt_not n hs (l : stack) : Forall (fun i => (n <= itag i)%nat) l -> (forall h, In h hs -> (h < n)%nat) -> Forall (fun i => ~ In (itag i) hs) l.
Proof. intros F H. eapply Forall_impl; [|exact F]. cbn. intros i L I. specialize (H _ I). lia. Qed.
Lemma sbyte_hs n hs base d r K : sbyte n hs base d r K -> forall h, In h hs -> (h < n)%nat.
Proof.
  intros [_ G U _ _] h I. destruct (U h I) as (U1 & _). pose proof (lt_parts _ _ _ G) as (_ & _ & L). apply in_map_iff in U1. destruct U1 as (i & <- & Ii). rewrite Forall_forall in L. specialize (L i Ii). lia.
Qed.

(** items [u] and [g] above the shared ones *)
Lemma b_above n n' hs base d r K u g : sbyte n hs base d r K -> (n <= n')%nat -> Forall garb_item g -> bottom_ok g -> bottom_ok u -> Forall (fun i => (n <= itag i < n')%nat) (u ++ g) ->
  sbyte n' hs base (MkDec u g (low d)) r (u ++ g ++ low d ++ bot base :: r).
Proof.
  intros S L F1 F2 F3 F4. pose proof (sbyte_hs _ _ _ _ _ _ S) as H. destruct S as [_ G U F Lr].
  assert (N : Forall (fun i => ~ In (itag i) hs) (u ++ g)) by (apply (lt_not n); [eapply Forall_impl; [|exact F4]; cbn; lia|exact H]). apply Forall_app in N. split.
  - rewrite whole_wb. unfold whole. cbn [up garb low bel]. rewrite app_nil_r. napp. reflexivity.
  - apply good_parts; auto; [eapply good_more; eauto|]. eapply Forall_impl; [|exact F4]. cbn. lia.
  - apply (usable_low n); auto; apply N.
  - exact F.
  - eapply Forall_impl; [|exact Lr]. cbn. lia.
Qed.

Lemma b_write c n hs base d r K h : sbyte n hs base d r K -> In h hs -> up d = [] \/ c = [] ->
  sb_write c h K = Some (low d ++ bot base :: r) /\ sbyte n hs base (MkDec [] [] (low d)) r (low d ++ bot base :: r).
Proof.
  intros S I E. split.
  - destruct S as [-> G U F L]. rewrite (frame_write c h _ r (r_not hs r h F I)).
    assert (Q : sb_write c h (whole false (wb d base)) = Some (whole false (MkDec [] [] (low (wb d base))))).
    { destruct E as [E| ->]; [|apply (clean_write false n); auto]. rewrite (lib_write c false n _ h G (U h I) E). unfold drop_garb. cbn [wb up]. rewrite E. reflexivity. }
    rewrite Q. cbn [under_ whole up garb low wb app bel]. rewrite app_nil_r, <- app_assoc. reflexivity.
  - apply (b_above n n hs base d r K [] [] S); try apply bottom_nil; try lia; constructor.
Qed.

Lemma bottom_one i : is_srw i = false -> bottom_ok [i].
Proof. intros E. apply bottom_all. repeat constructor. exact E. Qed.

Lemma b_unique c n hs base d r K h pr : sbyte n hs base d r K -> In h hs -> up d = [] \/ c = [] ->
  sb_retag c RUnique h n pr K = Some (MkItem n Unique pr :: low d ++ bot base :: r) /\ sbyte (S n) hs base (MkDec [MkItem n Unique pr] [] (low d)) r (MkItem n Unique pr :: low d ++ bot base :: r).
Proof.
  intros S I E. split; [cbn [sb_retag]; rewrite (proj1 (b_write c n hs base d r K h S I E)); reflexivity|].
  apply (b_above n (Datatypes.S n) hs base d r K [MkItem n Unique pr] [] S); auto using bottom_nil; [apply bottom_one; reflexivity|]. repeat constructor; cbn; lia.
Qed.

Lemma b_read c n hs base d r K h : sbyte n hs base d r K -> In h hs -> up d = [] ->
  exists K' d', sb_read c h K = Some K' /\ sbyte n hs base d' r K' /\ up d' = [].
Proof.
  intros [-> G U F L] I E. rewrite (frame_read c h _ r (r_not hs r h F I)). rewrite (lib_read c false n _ h G (U h I) E). cbn [under_]. eexists. exists (dis_garb d). split; [reflexivity|]. split; [|exact E].
  split; [reflexivity|exact (good_dis false n (wb d base) G)| |exact F|exact L]. intros k Ik. destruct (U k Ik) as (U1 & U2 & U3). split; [exact U1|]. split; [exact U2|]. cbn [wb dis_garb garb]. rewrite disable_tag. exact U3.
Qed.

(** *** What the client sees of it *)
Lemma c_add n hs base T d r ist : good false n (wb d base) -> (forall t, In t T -> (t < n)%nat) -> crel hs base T d r ist -> crel (n :: hs) base T (add_low d n) r ist.
Proof.
  intros G LT [(A & R & E) C1 C2 C3]. apply good_wb in G. split; [|exact C1| |exact C3].
  - exists A. split; [|exact E]. apply (rel_add T false n); auto; [apply G|]. intros K. specialize (LT n K). lia.
  - intros h [<-|I]; [intros K; specialize (LT n K); lia|auto].
Qed.

Lemma mine_new n T i : (itag i < n)%nat -> mine (n :: T) i = mine T i.
Proof. intros L. unfold mine. cbn [existsb]. destruct (Nat.eqb_spec (itag i) n); [lia|reflexivity]. Qed.

Lemma ideal_good n T base d : good false n (wb d base) -> good false n (wb (MkDec (up d) [] (filter (mine T) (low d))) base).
Proof.
  intros G. destruct (good_wb n d base G) as (G0 & N & L). apply wb_good; [|intros K; apply N; apply in_map_iff in K; destruct K as (i & <- & K); apply filter_In in K; apply in_map; apply K|exact L].
  pose proof (lt_parts _ _ _ G0) as (L1 & _ & L3). destruct G0 as [g1 g2 g3 g4 g5 g6]. split; cbn [up garb low]; auto using bottom_nil.
  - apply filter_low. exact g1.
  - clear - g2. induction (low d) as [|i l IH]; cbn [filter]; [constructor|]. cbn [map] in g2. inversion g2 as [|? ? q1 q2]. destruct (mine T i); [|auto]. cbn [map]. constructor; [|auto].
    intros K. apply q1. apply in_map_iff in K. destruct K as (j & <- & K). apply filter_In in K. apply in_map. apply K.
  - cbn [app]. apply Forall_app. split; [exact L1|]. rewrite Forall_forall in *. intros i I. apply filter_In in I. apply L3. apply I.
Qed.
Lemma ideal_eq T base d A : rel T d A -> A ++ [bot base] = whole false (wb (MkDec (up d) [] (filter (mine T) (low d))) base) ++ [].
Proof. intros [_ _ ->]. rewrite whole_wb. unfold whole. cbn [up garb low bel app]. rewrite app_nil_r. reflexivity. Qed.
Lemma usable_base n T base d A : good false n (wb d base) -> rel T d A -> ~ In base T -> usable (wb (MkDec (up d) [] (filter (mine T) (low d))) base) base.
Proof.
  intros G R N. split; [cbn [wb low]; rewrite map_app; apply in_or_app; right; left; reflexivity|]. cbn [wb up garb]. split; [|intros []].
  intros K. apply in_map_iff in K. destruct K as (i & E & K). destruct R as [R1 _ _]. rewrite Forall_forall in R1. apply N. rewrite <- E. auto.
Qed.

(** a reference for the client, made from a pointer of the library: the same is made from [base] *)
Lemma c_give_cell c n hs base T d r ist pr : good false n (wb d base) -> (forall h, In h hs -> (h < n)%nat) -> (forall t, In t T -> (t < n)%nat) -> Forall (fun i => (itag i < n)%nat) r ->
  crel hs base T d r ist -> exists ist', sb_retag c RCell base n pr ist = Some ist' /\ crel hs base (n :: T) (add_low d n) r ist'.
Proof.
  intros G Lh Lt Lr [(A & R & ->) C1 C2 C3]. destruct (good_wb n d base G) as (G0 & N & L). rewrite (ideal_eq T base d A R), app_nil_r.
  change (sb_retag c RCell base n pr ?x) with (sb_retag c RCell base n None x). rewrite (lib_retag c false n _ base n (ideal_good n T base d G) (usable_base n T base d A G R C1)). eexists. split; [reflexivity|].
  pose proof (rel_new false n T d A G0 R) as [R1 R2 R3]. split.
  - exists (up d ++ MkItem n SharedRW None :: filter (mine T) (low d)). split; [|unfold whole, add_low, wb; cbn [up garb low bel app]; rewrite app_nil_r; napp; reflexivity].
    split; cbn [add_low up garb low]; auto. cbn [filter]. replace (mine (n :: T) (MkItem n SharedRW None)) with true by (symmetry; apply mine_iff; left; reflexivity).
    rewrite (filter_new false n T (low d)); [reflexivity|]. apply (lt_parts _ _ _ G0).
  - intros [E|K]; [lia|contradiction].
  - intros h I [E|K]; [specialize (Lh h I); lia|exact (C2 h I K)].
  - apply r_new; assumption.
Qed.

Lemma c_give_unique n hs base T d r ist pr : good false n (wb d base) -> (forall h, In h hs -> (h < n)%nat) -> (forall t, In t T -> (t < n)%nat) -> Forall (fun i => (itag i < n)%nat) r ->
  crel hs base T d r ist -> exists ist', sb_retag [] RUnique base n pr ist = Some ist' /\ crel hs base (n :: T) (MkDec [MkItem n Unique pr] [] (low d)) r ist'.
Proof.
  intros G Lh Lt Lr [(A & R & ->) C1 C2 C3]. destruct (good_wb n d base G) as (G0 & N & L). rewrite (ideal_eq T base d A R), app_nil_r. cbn [sb_retag].
  rewrite (clean_write false n _ base (ideal_good n T base d G) (usable_base n T base d A G R C1)). eexists. split; [reflexivity|]. split.
  - exists (MkItem n Unique pr :: filter (mine T) (low d)). split; [|unfold whole, wb; cbn [up garb low bel app]; rewrite app_nil_r; reflexivity].
    split; cbn [up garb low app]; [repeat constructor|constructor|]. rewrite (filter_new false n T (low d)); [reflexivity|]. apply (lt_parts _ _ _ G0).
  - intros [E|K]; [lia|contradiction].
  - intros h I [E|K]; [specialize (Lh h I); lia|exact (C2 h I K)].
  - apply r_new; assumption.
Qed.

(** *** The client *)
Lemma b_act busy n hs base T d r K ist a x f : sbyte n hs base d r K -> crel hs base T d r ist -> (forall t, In t T -> (1 <= t < n)%nat) -> In (act_tag a) T ->
  act_at busy a n x = Some f ->
  match f K, f ist with
  | Some K', Some ist' => exists d', sbyte (next_after a n) hs base d' r K' /\ crel hs base (tags_after a n T) d' r ist'
  | None, None => True
  | _, _ => False
  end.
Proof.
  intros S [(A & R & ->) C1 C2 C3] LT It Ef. pose proof (sbyte_hs _ _ _ _ _ _ S) as Lh. destruct S as [-> G U F L]. destruct (good_wb n d base G) as (G0 & Nb & Lb). rewrite whole_wb.
  assert (N1 : (1 <= n)%nat) by (specialize (LT _ It); lia).
  rewrite (frame_at busy a n x f (whole false d) (bot base :: r) Ef), (frame_at busy a n x f A [bot base] Ef).
  2:{ constructor; [|constructor]. cbn. intros E. apply C1. rewrite E. exact It. }
  2:{ constructor; [cbn; intros E; apply C1; rewrite E; exact It|]. eapply Forall_impl; [|exact C3]. cbn. intros i Q E. apply Q. rewrite E. exact It. }
  pose proof (act_both busy false n T d A a x f G0 R It ltac:(specialize (LT _ It); lia) N1 Ef) as B. unfold both in B.
  destruct (f (whole false d)) as [K'|], (f A) as [A'|]; cbn [under_]; auto. destruct B as (d' & -> & G' & R' & K1 & K2 & K3 & K4).
  assert (LN : (n <= next_after a n)%nat) by (destruct a; cbn [next_after]; lia).
  assert (LA : forall i, In i (low d') -> In i (low d) \/ itag i = n) by (intros i I; destruct (K4 i I) as [Q|Q]; [auto|]; right; destruct a; cbn [ans_after] in Q; congruence).
  exists d'. split; [split|split].
  - rewrite whole_wb. reflexivity.
  - apply wb_good; [exact G'| |lia]. intros Z. apply in_map_iff in Z. destruct Z as (i & E & Z). destruct (LA i Z) as [Q|Q]; [|lia]. apply Nb. rewrite <- E. apply in_map. exact Q.
  - intros h I. destruct (U h I) as (U1 & U2 & U3). cbn [wb up garb low] in *. split; [|split].
    + cbn [wb low]. rewrite map_app in *. apply in_or_app. apply in_app_or in U1. destruct U1 as [U1|U1]; [left|right; exact U1]. apply in_map_iff in U1. destruct U1 as (i & <- & U1). apply in_map. apply K1. exact U1.
    + cbn [wb up]. intros Z. apply in_map_iff in Z. destruct Z as (i & E & Z). rewrite Forall_forall in K3. specialize (K3 i Z). rewrite E in K3. pose proof (Lh h I) as LL.
      destruct a; cbn [tags_after] in K3; try (exact (C2 h I K3)). destruct K3 as [K3|K3]; [lia|exact (C2 h I K3)].
    + cbn [wb garb]. intros Z. apply U3. apply K2. exact Z.
  - exact F.
  - eapply Forall_impl; [|exact L]. cbn. lia.
  - exists A'. split; [exact R'|reflexivity].
  - destruct a; cbn [tags_after]; auto. intros [E|E]; [lia|auto].
  - intros h I. pose proof (Lh h I). destruct a; cbn [tags_after]; auto. intros [E|E]; [lia|exact (C2 h I E)].
  - destruct a; cbn [tags_after]; auto. apply r_new; auto.
Qed.

(** ** References from the variable *)
Lemma owner_cells c objs fr cs s bs : holds true cs objs fr s -> ForallOrdPairs disjoint bs ->
  exists s', m_retag c 0 (map (pair RCell) bs) s = Some (nexttag s, s') /\ nexttag s' = S (nexttag s) /\ holds true ((nexttag s, bs) :: cs) objs fr s'.
Proof.
  intros H D. pose proof (h_next _ _ _ _ _ H) as N1. unfold m_retag, m_retag_prot.
  destruct (retag_parts_disj c 0 (nexttag s) None (map (pair RCell) bs) (stk s)) as (k' & K & S1 & S2).
  - apply cell_pairs. exact D.
  - intros kd b x I X. apply in_map_iff in I. destruct I as (b0 & [= <- <-] & I).
    destruct (h_byte _ _ _ _ _ H x) as (d & E & G & _). rewrite E, (owner_retag c _ d _ G). discriminate.
  - rewrite K. eexists. split; [reflexivity|]. cbn [nexttag]. split; [reflexivity|]. split; cbn [nexttag stk].
    + lia.
    + intros o t0 I1 I2. pose proof (h_tags _ _ _ _ _ H o t0 I1 I2). lia.
    + intros t0 bs0 [E|I]; [injection E as <- <-; lia|]. pose proof (h_caps _ _ _ _ _ H t0 bs0 I). lia.
    + intros x. destruct (h_byte _ _ _ _ _ H x) as (d & E & G & U & F & R). destruct (dec_in bs x) as [(b & B & X)|NX].
      * assert (I : In (RCell, b) (map (pair RCell) bs)) by (apply in_map; exact B).
        pose proof (S1 RCell b x I X) as P. rewrite E, (owner_retag c _ d _ G) in P. injection P as P.
        pose proof (lt_parts _ _ _ G) as (L1 & L2 & L3). rewrite Forall_forall in L1, L2.
        exists (low_end d (nexttag s)). split; [auto|]. split; [apply good_end; auto|]. split; [|split].
        -- intros t0 (bs0 & b0 & [E0|I0] & B0 & X0).
           ++ injection E0 as <- <-. split; [cbn [low_end low]; rewrite map_app; apply in_or_app; right; left; reflexivity|]. cbn [low_end up garb].
              split; intros Z0; apply in_map_iff in Z0; destruct Z0 as (i & Z1 & Z2); [specialize (L1 i Z2)|specialize (L2 i Z2)]; cbn in *; lia.
           ++ destruct (U t0) as (U1 & U2); [exists bs0, b0; auto|]. split; [cbn [low_end low]; rewrite map_app; apply in_or_app; left; exact U1|exact U2].
        -- exact F.
        -- intros o O1 O2. destruct (R o O1 O2) as [R1 R2 R3]. split; cbn [low_end up garb low]; auto. rewrite filter_app. cbn [filter].
           destruct (mine (itags o) (MkItem (nexttag s) SharedRW None)) eqn:M; [|rewrite app_nil_r; exact R3].
           apply mine_iff in M. pose proof (h_tags _ _ _ _ _ H o _ O1 M). cbn in *. lia.
      * rewrite S2; [|intros kd b I X; apply in_map_iff in I; destruct I as (b0 & [= <- <-] & I); apply NX; eauto].
        exists d. split; [exact E|]. split; [eapply good_more; [|exact G]; lia|]. split; [|split; [exact F|exact R]].
        intros t0 (bs0 & b0 & [E0|I0] & B0 & X0); [injection E0 as <- <-; exfalso; apply NX; eauto|]. apply U. exists bs0, b0. auto.
Qed.
