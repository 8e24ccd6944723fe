(** * HeapSpec: an ideal heap, for programs that use a [Bump] as their (global) allocator.

    Every block is an array of its own; there is no memory.  Only the placement rule is the Bump's. *)
From Verif Require Import Base Spec SyncModel SyncMemModel.

(** A byte of a block: [None] if nothing is promised about it, else what it is. *)
Notation hbyte := (option (option Z)).

Record harr := MkArr { aaddr : Z; alay : layout; akind : kind; alive : bool; adata : list hbyte }.

(** [hused]: bytes of the slab in use; the blocks handed out since the last reset, oldest first; values dropped. *)
Record heap := MkHeap { hused : Z; harrs : list harr; hdropped : list (nat * list hbyte) }.

Definition hempty : heap := MkHeap 0 [] [].

(** A block for layout [l] goes to the first aligned address of the free rest, if it fits there. *)
Definition hplace (st : block) (used : Z) (l : layout) : option Z :=
  let a := align_up (start st + used) (lalign l) in
  if a + lsize l <=? start st + size st then Some a else None.

Definition anything (n : Z) : list hbyte := repeat None (Z.to_nat n).
Definition zeroes (n : Z) : list hbyte := repeat (Some (Some 0)) (Z.to_nat n).

(** The contents of a block of [old] contents after it was made [n] bytes long. *)
Definition resized (old : list hbyte) (n : Z) : list hbyte :=
  firstn (Z.to_nat n) old ++ anything (n - Z.of_nat (length old)).

(** [bs] written over [data] at offset [off] *)
Definition hsplice (data : list hbyte) (off : nat) (bs : list (option Z)) : list hbyte :=
  firstn off data ++ map Some bs ++ skipn (off + length bs) data.

Definition harr_at (h : heap) (i : nat) : option harr :=
  match nth_error (harrs h) i with Some a => if alive a then Some a else None | None => None end.
Definition hset (h : heap) (i : nat) (a : harr) : heap := MkHeap (hused h) (upd (harrs h) i a) (hdropped h).
Definition hdead (a : harr) : harr := MkArr (aaddr a) (alay a) (akind a) false (adata a).
Definition hdrop (h : heap) (id : nat) (data : list hbyte) : heap := MkHeap (hused h) (harrs h) (hdropped h ++ [(id, data)]).

(** One more block at [p], for layout [l]; blocks of no size take no room. *)
Definition hnew (st : block) (h : heap) (p : Z) (l : layout) (k : kind) (data : list hbyte) : heap :=
  MkHeap (if lsize l =? 0 then hused h else p + lsize l - start st) (harrs h ++ [MkArr p l k true data]) (hdropped h).

Definition hresize (st : block) (h : heap) (i : nat) (a : harr) (l : layout) : heap * answer :=
  let h1 := hset h i (hdead a) in
  let data := resized (adata a) (lsize l) in
  if (aaddr a mod lalign l =? 0) && (lsize l <=? lsize (alay a))
  then (MkHeap (hused h) (harrs h1 ++ [MkArr (aaddr a) l KRaw true data]) (hdropped h), ABlock (aaddr a))
  else match hplace st (hused h) l with
       | Some p => (hnew st h1 p l KRaw data, ABlock p)
       | None => (h, ANull)
       end.

(** Room for a value of a type with layout [l]: its address, or why not.  [lv]: the level demanded, if any. *)
Inductive room := RoomAt (p : Z) | RoomFail (f : failure) | RoomPanic.
Definition hroom (st : block) (used : Z) (l : layout) (lv : option Z) : room :=
  let observed f := match lv with None => f | Some lv => if used =? lv then f else RoomFail (Mismatch used) end in
  if lsize l =? 0 then observed (RoomAt (lalign l))
  else let at_ := match lv with Some lv => lv | None => used end in
       if size st <? at_ then RoomPanic
       else match hplace st at_ l with
            | Some p => observed (RoomAt p)
            | None => RoomFail Exhausted
            end.

Definition specified (v : value) : list hbyte := map Some (vbytes v).

Definition hstep (t : target) (st : block) (h : heap) (o : op) : heap * answer :=
  let alloc l data :=
    if lsize l =? 0 then (h, APanic P_size)
    else match hplace st (hused h) l with
         | Some p => (hnew st h p l KRaw data, ABlock p)
         | None => (h, ANull)
         end in
  let leak l v lv :=
    match hroom st (hused h) l lv with
    | RoomAt p => (hnew st h p l (KRef (vid v)) (specified v), ABlock p)
    | RoomFail f => (h, AGiven v f)
    | RoomPanic => (h, APanic P_expect)
    end in
  match o with
  | OAlloc l => alloc l (anything (lsize l))
  | OZeroed l | OLocalZeroed l => alloc l (zeroes (lsize l))
  | ORealloc i n =>
      match harr_at h i with
      | Some a => match akind a with
                  | KRaw => match from_size_align t n (lalign (alay a)) with
                            | Some l => hresize st h i a l
                            | None => (h, ANull)
                            end
                  | _ => (h, AIllegal)
                  end
      | None => (h, AIllegal)
      end
  | OLocalRealloc i l =>
      match harr_at h i with
      | Some a => match akind a with KRaw => hresize st h i a l | _ => (h, AIllegal) end
      | None => (h, AIllegal)
      end
  | ODealloc i | OLocalDealloc i =>
      match harr_at h i with
      | Some a => match akind a with KRaw => (hset h i (hdead a), AUnit) | _ => (h, AIllegal) end
      | None => (h, AIllegal)
      end
  | OLeak l v => leak l v None
  | OLeakAt l v lv => leak l v (Some lv)
  | OLeakBox l v =>
      match hroom st (hused h) l None with
      | RoomAt p => (hnew st h p l (KBox (vid v)) (specified v), ABlock p)
      | RoomFail _ => (hdrop h (vid v) (specified v), ANull)
      | RoomPanic => (hdrop h (vid v) (specified v), APanic P_expect)
      end
  | OLeakBoxAt l v lv =>
      match hroom st (hused h) l (Some lv) with
      | RoomAt p => (hnew st h p l (KBox (vid v)) (specified v), ABlock p)
      | RoomFail f => (hdrop h (vid v) (specified v), AFail f)
      | RoomPanic => (hdrop h (vid v) (specified v), APanic P_expect)
      end
  | OBoxDrop i =>
      match harr_at h i with
      | Some a => match akind a with KBox id => (hdrop (hset h i (hdead a)) id (adata a), AUnit) | _ => (h, AIllegal) end
      | None => (h, AIllegal)
      end
  | OBoxLeak i =>
      match harr_at h i with
      | Some a => match akind a with
                  | KBox id => (hset h i (MkArr (aaddr a) (alay a) (KRef id) true (adata a)), ABlock (aaddr a))
                  | _ => (h, AIllegal)
                  end
      | None => (h, AIllegal)
      end
  | OWrite i off bs =>
      match harr_at h i with
      | Some a => if (0 <=? off) && (off + Z.of_nat (length bs) <=? lsize (alay a))
                  then (hset h i (MkArr (aaddr a) (alay a) (akind a) true (hsplice (adata a) (Z.to_nat off) bs)), AUnit)
                  else (h, AIllegal)
      | None => (h, AIllegal)
      end
  | OLevel => (h, ALevel (hused h))
  | OReset => (MkHeap 0 [] (hdropped h), AUnit)
  end.

(** A program also reads its blocks, and others write outside of the slab. *)
Inductive gop := GOp (o : op) | GRead (i : nat) | GOther (a : Z) (bs : list (option Z)).
Inductive ganswer := GAns (a : answer) | GBytes (bs : list (option Z)) | GBad | GDone.

(** The program on the model of the code *)
Definition gstep (t : target) (c : client) (g : gop) : client * ganswer :=
  match g with
  | GOp o => let (c', a) := mstep t c o in (c', GAns a)
  | GRead i => match live_handle c i with
               | Some h => (c, GBytes (mem_read (bytes (ms c)) (hptr h) (lsize (hlay h))))
               | None => (c, GBad)
               end
  | GOther a bs => (MkClient (with_bytes (ms c) (mem_write (bytes (ms c)) a bs)) (handles c) (drops c), GDone)
  end.
Fixpoint grun (t : target) (c : client) (gs : list gop) : client * list ganswer :=
  match gs with
  | [] => (c, [])
  | g :: gs' => let (c1, a) := gstep t c g in let (c2, r) := grun t c1 gs' in (c2, a :: r)
  end.

(** Its answers on the ideal heap; a read gives what is promised. *)
Inductive hanswer := HAns (a : answer) | HBytes (data : list hbyte) | HBad | HDone.
Definition hgstep (t : target) (st : block) (h : heap) (g : gop) : heap * hanswer :=
  match g with
  | GOp o => let (h', a) := hstep t st h o in (h', HAns a)
  | GRead i => match harr_at h i with Some a => (h, HBytes (adata a)) | None => (h, HBad) end
  | GOther _ _ => (h, HDone)
  end.
Fixpoint hgrun (t : target) (st : block) (h : heap) (gs : list gop) : heap * list hanswer :=
  match gs with
  | [] => (h, [])
  | g :: gs' => let (h1, a) := hgstep t st h g in let (h2, r) := hgrun t st h1 gs' in (h2, a :: r)
  end.

(** These bytes keep the promises. *)
Definition keeps (bs : list (option Z)) (data : list hbyte) : Prop :=
  Forall2 (fun b d => match d with None => True | Some b' => b = b' end) bs data.
Definition same_answer (a : ganswer) (h : hanswer) : Prop :=
  match a, h with
  | GAns a, HAns a' => a = a'
  | GBytes bs, HBytes data => keeps bs data
  | GBad, HBad | GDone, HDone => True
  | _, _ => False
  end.

(** Valid calls; the others do not write to the slab. *)
Definition gop_ok (st : block) (valid : op -> Prop) (g : gop) : Prop :=
  match g with GOp o => valid o | GRead _ => True | GOther a bs => disjoint (MkBlock a (Z.of_nat (length bs))) st end.

(** Memory after the writes of the others alone *)
Fixpoint others (m : mem) (gs : list gop) : mem :=
  match gs with
  | [] => m
  | GOther a bs :: gs' => others (mem_write m a bs) gs'
  | _ :: gs' => others m gs'
  end.
