(** * AllocModel: without-alloc/src/alloc.rs over an arbitrary LocalAlloc, and the provided methods of LocalAlloc. *)
From Verif Require Import Base Spec SyncModel SyncMemModel UninitModel OwnModel RcModel FixedVecModel.

(** alloc-traits/src/local.rs:36-48: the required methods of an implementation of LocalAlloc; an allocation is its pointer and
    its layout. Implementations may read and write memory. *)
Record lalloc := MkLA {
  lst : Type;
  l_alloc : lst -> mem -> layout -> lst * mem * outcome (option (Z * layout));
  l_dealloc : lst -> mem -> Z * layout -> lst * mem }.

(** alloc-traits/src/util.rs:27-39 [defaults::local::alloc_zeroed] *)
Definition default_alloc_zeroed (A : lalloc) (s : lst A) (m : mem) (l : layout) : lst A * mem * outcome (option (Z * layout)) :=
  match l_alloc A s m l with
  | (s', m', Ret (Some (p, l'))) => (s', mem_fill m' p (lsize l') (Some 0), Ret (Some (p, l')))
  | r => r
  end.

(** alloc-traits/src/util.rs:51-67 [defaults::local::realloc] of the allocation [a] to layout [l] *)
Definition default_realloc (A : lalloc) (s : lst A) (m : mem) (a : Z * layout) (l : layout) : lst A * mem * outcome (option (Z * layout)) :=
  match l_alloc A s m l with
  | (s', m', Ret (Some (q, l'))) =>
      let (s2, m2) := l_dealloc A s' (mem_copy m' (fst a) q (Z.min (lsize l) (lsize (snd a)))) a in
      (s2, m2, Ret (Some (q, l')))
  | r => r
  end.

Definition PN_acast : nat := 801.     (* alloc.rs:70 unwrap of cast *)
Definition PN_aslice : nat := 802.    (* alloc.rs:102, 144 unwrap of cast_slice *)
Definition PN_arc : nat := 803.       (* alloc.rs:119 unwrap of from_layout *)

(** alloc.rs:30-41 [alloc_layout]: memory of the size the allocator returned *)
Definition alloc_layout (A : lalloc) (s : lst A) (m : mem) (l : layout) : lst A * mem * outcome (option uview) :=
  match l_alloc A s m l with
  | (s', m', Ret (Some (p, l'))) => (s', m', Ret (Some (from_memory p (lsize l'))))
  | (s', m', Ret None) => (s', m', Ret None)
  | (s', m', Panic e) => (s', m', Panic e)
  end.

(** alloc.rs:266-270 [LeakedAllocation::cast] and 272-276 [cast_slice] *)
Definition lk_cast (u : uview) (l : layout) : option uview := v_cast u l.
(** alloc.rs:272-276 [cast_slice] *)
Definition lk_cast_slice (t : target) (u : uview) (l : layout) : option uview := v_cast_slice t u l.

(** alloc.rs:65-74 [alloc_t] of a type of layout [l]; 258-262 [zst_fake_alloc] *)
Definition alloc_t (A : lalloc) (s : lst A) (m : mem) (l : layout) : lst A * mem * outcome (option uview) :=
  match nonzero_from_layout l with
  | None => (s, m, olet u := v_invent_for_zst l in Ret (Some u))
  | Some nl =>
      match alloc_layout A s m nl with
      | (s', m', Ret (Some u)) => (s', m', olet c := unwrap PN_acast (lk_cast u l) in Ret (Some c))
      | r => r
      end
  end.

(** alloc.rs:82-85 [boxed]; if there is no memory (or on a panic) the argument is dropped *)
Definition boxed (A : lalloc) (s : lst A) (m : mem) (d : drop_log) (l : layout) (v : value)
  : lst A * mem * drop_log * outcome (option uview) :=
  match alloc_t A s m l with
  | (s', m', Ret (Some u)) => let (m2, b) := box_new m' u (vbytes v) in (s', m2, d, Ret (Some b))
  | (s', m', Ret None) => (s', m', d ++ [(vid v, vbytes v)], Ret None)
  | (s', m', Panic e) => (s', m', d ++ [(vid v, vbytes v)], Panic e)
  end.

(** alloc.rs:94-108 [fixed_vec] of elements of layout [l] *)
Definition fixed_vec (t : target) (A : lalloc) (s : lst A) (m : mem) (l : layout) (cap : Z) : lst A * mem * outcome (option fvec) :=
  match checked_mul t (lsize l) cap with
  | None => (s, m, Ret None)
  | Some sz =>
      match from_size_align t sz (lalign l) with
      | None => (s, m, Ret None)
      | Some lay =>
          match nonzero_from_layout lay with
          | None => (s, m, Ret (Some (f_new (v_empty l))))
          | Some nl =>
              match alloc_layout A s m nl with
              | (s', m', Ret (Some u)) => (s', m', olet c := unwrap PN_aslice (lk_cast_slice t u l) in Ret (Some (f_new c)))
              | (s', m', Ret None) => (s', m', Ret None)
              | (s', m', Panic e) => (s', m', Panic e)
              end
          end
      end
  end.

(** alloc.rs:116-122 [rc] of a value [v] of layout [l]: handle, box written, and the values dropped *)
Definition rc (t : target) (A : lalloc) (s : lst A) (m : mem) (l : layout) (v : rvalue)
  : lst A * mem * list rvalue * outcome (option (uview * rcbox)) :=
  match nonzero_from_layout (rc_layout t l) with
  | None => (s, m, [v], Panic PN_arc)
  | Some nl =>
      match alloc_layout A s m nl with
      | (s', m', Ret (Some u)) =>
          match rc_new t l v u with
          | Ret h => (s', m', [], Ret (Some h))
          | Panic e => (s', m', [v], Panic e)
          end
      | (s', m', Ret None) => (s', m', [v], Ret None)
      | (s', m', Panic e) => (s', m', [v], Panic e)
      end
  end.

(** alloc.rs:138-162 [copy_slice] of [n] elements of layout [l] at [src]: address and element count of the resulting slice,
    which are those of the fat pointer in the Uninit (uninit.rs:265-311). *)
Definition copy_slice (t : target) (A : lalloc) (s : lst A) (m : mem) (l : layout) (src n : Z) : lst A * mem * outcome (option (Z * Z)) :=
  let lay := {| lsize := n * lsize l; lalign := lalign l |} in
  let '(s', m', r) :=
    match nonzero_from_layout lay with
    | None => (s, m, Ret (Some (v_empty l)))
    | Some nl =>
        match alloc_layout A s m nl with
        | (s', m', Ret (Some u)) => (s', m', olet c := unwrap PN_aslice (lk_cast_slice t u l) in Ret (Some c))
        | r => r
        end
    end in
  match r with
  | Ret (Some u) => (s', mem_copy m' src (uptr u) (n * lsize l), Ret (Some (v_as_ptr u)))
  | Ret None => (s', m', Ret None)
  | Panic e => (s', m', Panic e)
  end.

(** alloc.rs:177-184 [copy_str]: as copy_slice of u8 *)
Definition u8_layout : layout := {| lsize := 1; lalign := 1 |}.
(** alloc.rs:177-184 [copy_str] *)
Definition copy_str (t : target) (A : lalloc) (s : lst A) (m : mem) (src n : Z) : lst A * mem * outcome (option (Z * Z)) :=
  copy_slice t A s m u8_layout src n.

(** alloc.rs:224-247 [copy_dst] (feature nightly_set_ptr_value) of a value of layout [l] and pointer metadata [meta] at [src].
    For size 0 the memory is [Uninit::invent_for_zst] of the type [()]. *)
Definition copy_dst (A : lalloc) (s : lst A) (m : mem) (l : layout) (meta : Z) (src : Z) : lst A * mem * outcome (option (Z * Z)) :=
  let '(s', m', r) :=
    match nonzero_from_layout l with
    | None => (s, m, olet u := v_invent_for_zst unit_layout in Ret (Some u))
    | Some nl => alloc_layout A s m nl
    end in
  match r with
  | Ret (Some u) => (s', mem_copy m' src (uptr u) (lsize l), Ret (Some (uptr u, meta)))
  | Ret None => (s', m', Ret None)
  | Panic e => (s', m', Panic e)
  end.

(** bump.rs:919-973: the Bump as such an allocator (alloc 920-929, dealloc 971-973); it returns the layout asked for. *)
Definition bump_lalloc (t : target) : lalloc := {|
  lst := slab;
  l_alloc := fun s m l =>
    match la_alloc t {| sl := s; bytes := m |} l with
    | (b, Ret (Some p)) => (sl b, bytes b, Ret (Some (p, l)))
    | (b, Ret None) => (sl b, bytes b, Ret None)
    | (b, Panic e) => (sl b, bytes b, Panic e)
    end;
  l_dealloc := fun s m a => let b := la_dealloc {| sl := s; bytes := m |} (fst a) (snd a) in (sl b, bytes b) |}.
