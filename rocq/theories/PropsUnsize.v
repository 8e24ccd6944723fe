(** * PropsUnsize: C89, values behind unsized pointers. *)
From Verif Require Import Base Spec BaseFacts SyncMemModel SyncMemSpec SyncMemProofs MemBumpProofs OwnModel UnsizeModel UnsizeSpec UnsizeProofs PropsSync.

(** C89. A value of any type [s] at an address [p], behind a pointer of any kind; any program that unsizes the pointer with the
    pre-built coercions and converts it to other kinds.  Everything that is seen through the pointer - layout, bytes, elements,
    index checks - is that of the value, and dropping runs exactly the destructors of the value; this is what [thing_run] says, which knows
    neither memory nor metadata.  The pointer never moves, keeps the size of its memory, and no byte outside the value changes. *)
Theorem C89_unsized_values : forall t C s p len k m os st answers, sty_ok t s -> 0 < p ->
  (forall tr, In (PUnsize (ToDyn tr)) os -> true_table C tr s) ->
  prun t C (MkP k (MkRaw p []) len (TSized s) m) os = (st, answers) ->
  exists x, thing_run s (MkThing k Whole (mem_read m p (ssize s))) os = (x, answers) /\
    pk st = tkind x /\ mem_read (pmem st) p (ssize s) = tbytes x /\ raddr (praw st) = p /\ plen st = len /\
    same_outside (MkBlock p (ssize s)) m (pmem st).
Proof.
  intros t C s p len k m os st answers OK P TT R.
  destruct (prun_ok t C s p len OK P os (MkThing k Whole (mem_read m p (ssize s))) (MkP k (MkRaw p []) len (TSized s) m) TT) as (E & I & O).
  { unfold pinv. cbn [pk praw plen pty_of pmem tkind tbytes tshape raddr rwords shape_ok]. auto 8. }
  rewrite R in *. cbn [fst snd pmem] in *. destruct (thing_run s _ os) as [x a]. cbn [fst snd] in *. subst a.
  exists x. split; [reflexivity|]. destruct I as (I1 & I2 & I3 & I4 & _). auto 6.
Qed.
Print Assumptions C89_unsized_values.

(** So with honest tables no program of this kind panics, except by an index out of bounds, and none is undefined. *)
Theorem C89_no_panic : forall t C s p len k m os st answers, sty_ok t s -> 0 < p ->
  (forall tr, In (PUnsize (ToDyn tr)) os -> true_table C tr s) ->
  prun t C (MkP k (MkRaw p []) len (TSized s) m) os = (st, answers) ->
  ~ In PAUndefined answers /\ (forall n, In (PAPanic n) answers -> n = PN_index).
Proof.
  intros t C s p len k m os st answers OK P TT R.
  destruct (C89_unsized_values t C s p len k m os st answers OK P TT R) as (x & T & _). clear R TT.
  revert x answers T. generalize (MkThing k Whole (mem_read m p (ssize s))). induction os as [|o os IH]; intros y x answers T; cbn [thing_run] in T.
  - injection T as <- <-. split; [intros []|intros n []].
  - destruct (thing_step s y o) as [y1 a] eqn:E. destruct (thing_run s y1 os) as [x2 r] eqn:R. injection T as <- <-. destruct (IH y1 x2 r R) as [U Q].
    assert (A : a <> PAUndefined /\ forall n, a = PAPanic n -> n = PN_index).
    { unfold thing_step in E.
      repeat match type of E with
      | (match ?z with _ => _ end) = _ => destruct z
      | (if ?b then _ else _) = _ => destruct b
      | (_, _) = _ => injection E as <- <-
      end; split; try discriminate; intros nn; try discriminate; intros [= <-]; reflexivity. }
    destruct A as [A1 A2]. split; [intros [K|K]; [exact (A1 K)|exact (U K)]|]. intros n [K|K]; [exact (A2 n K)|exact (Q n K)].
Qed.
Print Assumptions C89_no_panic.

(** Dropping through the unsized pointer is dropping the elements, first to last, each once. *)
Theorem C89_drop_elements : forall id l n bs, value_drops (SArray (SAtom id l) n) bs =
  map (fun i => (id, piece bs (Z.of_nat i * lsize l) (lsize l))) (seq 0 (Z.to_nat n)).
Proof. intros. cbn [value_drops ssize]. induction (seq 0 (Z.to_nat n)) as [|i q IH]; [reflexivity|]. cbn [flat_map map app]. rewrite IH. reflexivity. Qed.
Print Assumptions C89_drop_elements.

Definition ex_arr : sty := SArray (SAtom 5 (MkLayout 2 2)) 3.
Definition ex_tables : tables := MkTables (fun tr _ => 9000 + 24 * Z.of_nat tr) (fun a => if (a =? 9000) || (a =? 9024) then Some (MkVT 6 2 ex_arr) else None).
Definition ex_pmem (x : Z) : option Z := Some (x mod 256).
Definition ex_pops : list pop :=
  [PLayout; PUnsize ToSlice; PLayout; PIndex 2; PReplace 1 [Some 77; Some 78]; PIndex 3; PUnsize (ToDyn 1); PIntoRaw; PFromRaw; PDeref; PDrop; PDeref].
Definition ex_pops2 : list pop := [PIntoRaw; PUnsize (ToDyn 1); PFromRaw; PLayout; PIndex 0; PLeak; PFromMut; PIntoRaw; PFromRaw; PDrop].
Example ex_arr_ok : sty_ok (x64 true) ex_arr /\ (forall tr, In (PUnsize (ToDyn tr)) (ex_pops ++ ex_pops2) -> true_table ex_tables tr ex_arr).
Proof.
  split.
  - split; [|cbn; lia]. split; [|apply Z.divide_refl]. split; [cbn; lia|]. split; [exists 1; split; [lia|reflexivity]|]. vm_compute. split; discriminate.
  - intros tr H. cbn in H. repeat (destruct H as [H|H]; [try discriminate H; injection H as <-; reflexivity|]). contradiction.
Qed.
Example ex_unsized_slice : snd (prun (x64 true) ex_tables (MkP KBox (MkRaw 4100 []) 8 (TSized ex_arr) ex_pmem) ex_pops) =
  [PALayout (MkLayout 6 2); PADone; PALayout (MkLayout 6 2); PABytes [Some 8; Some 9]; PABytes [Some 6; Some 7]; PAPanic PN_index; PAInvalid; PADone; PADone;
   PABytes [Some 4; Some 5; Some 77; Some 78; Some 8; Some 9]; PADrops [(5%nat, [Some 4; Some 5]); (5%nat, [Some 77; Some 78]); (5%nat, [Some 8; Some 9])]; PAInvalid].
Proof. vm_compute. reflexivity. Qed.
Example ex_unsized_dyn : snd (prun (x64 true) ex_tables (MkP KBox (MkRaw 4100 []) 8 (TSized ex_arr) ex_pmem) ex_pops2) =
  [PADone; PADone; PADone; PALayout (MkLayout 6 2); PAInvalid; PADone; PADone; PADone; PADone;
   PADrops [(5%nat, [Some 4; Some 5]); (5%nat, [Some 6; Some 7]); (5%nat, [Some 8; Some 9])]].
Proof. vm_compute. reflexivity. Qed.
