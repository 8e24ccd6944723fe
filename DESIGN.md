# Formal model of HeroicKatora/static-alloc in Rocq (Coq 8.16.1)

## 1. Approach

Every component is a small set of total, computable Gallina functions (`theories/*Model.v`), one per
Rust function, each with a comment citing file and lines in /repo and naming simplifications.
Independent specifications (intervals, disjointness, `repr(C)` placement, bounded lists, stacks,
reference-counting semantics, allocator contracts, ...) are in `theories/*Spec.v`.  Proofs are in
`*Proofs.v` (and `FixedVec{Acct,Iter,Pool}.v`, `Rc{Acct,More,Refine}.v`); the claims are in `Props*.v`,
which contain the statements, short proofs, non-vacuity `Example`s on concrete non-trivial data, and
`Print Assumptions` for every claim.

* Machine integers are `Z` with explicit bounds and explicit wrapping or checking according to a
  `target` record: word size 2, 4 or 8 bytes, alignment of `usize`, `debug` (debug assertions and
  overflow checks).  Every theorem quantifies over all valid targets unless it says otherwise.
* Panics are values (`Panic site`), never omitted; every `assert!`, `unwrap`, checked arithmetic
  operation and slice index of the modelled code is a numbered site.
* Addresses are `Z`; a region (`valid_region`) is an interval of non-null addresses that does not wrap
  around and is at most `isize::MAX` long, as Rust guarantees for every object.
* Memory contents are functions from addresses to bytes, `None` = uninitialised.
* Histories: a component is a step function `state -> call -> state * answer`; claims quantify over
  all finite lists of calls.  A call that Rust's type system or the documented contract of an `unsafe`
  method excludes is answered `Invalid`/`Illegal` and changes nothing.
* Concurrency: interleavings of atomic accesses chosen by an arbitrary schedule, any number of threads,
  arbitrary clients (the schedule chooses each call).  A second model gives the atomics relaxed
  (coherent) semantics only.
* Re-entrancy (destructors that use other handles) is modelled by letting the history continue between
  the start and the end of a destructor.
* Iterators given by the client are arbitrary state machines that may panic or resume after `None`.
* Where the code violates what its documentation promises, a `..._refuted` theorem gives a witness and
  positive theorems give the exact extent to which the claim holds.

## 2. Plan per property

| Properties | Files | What is modelled and how it is proved |
|---|---|---|
| C01, C03-C07, C09, C11, C17 | SyncModel, SyncSpec, SyncProofs, PropsSync | `Bump` one call at a time; exact characterisation of one attempt by the independent `fits_in`, invariant by induction on histories |
| C02, C08, C10 | Conc* | threads `Idle/Running/Done`, one atomic access per step; inductive invariant over schedules; linearizability by an explicit linearization point carried in the history |
| C73 | Relaxed* | per-thread views of the modification order of the counter; inductive invariant; blocks good and disjoint, calls non-blocking |
| C09, C12-C16, C72 | SyncMem* | `Bump` + byte memory + client handles: alloc, zeroed, realloc, dealloc, leak, LeakBox; separation invariant over histories |
| C18-C25 | Unsync* | `unsync::Bump`/`MemBump`: refinement to the sync machine; header and data layout in memory; from_mem/into_mem |
| C26 | Alloca* | `Alloca::run` for all addresses of the stack buffer, all lengths and layouts |
| C27, C28 | Chain* | heap of links, any number of chains; ownership invariant over histories; each link freed exactly once with the layout of its allocation |
| C29-C36, C75 | Uninit* | `Uninit`/`UninitView` as address, byte length, fat pointer metadata; a client owning many regions |
| C37-C46 | FixedVec* | slots + length; refinement to bounded lists for clients with many (also borrowed) vectors; drop log; panicking destructors and iterators; in-place mutation through the slice |
| C47-C53 | Rc* | boxes with two counters, tokens; refinement to a reference semantics that counts handles; destructor re-entrancy |
| C54-C56 | Own* | `Box`, `LeakBox`, `unsize` coercions: tokens + byte memory + log of values |
| C57-C60 | Exit* | `ExitStack` at byte level: links and vtables lie in the slots; independent stack specification (`history`) |
| C62-C67 | Fill* | every `Fill` implementation over arbitrary iterators |
| C68-C71, C74 | Alloc* | arbitrary `LocalAlloc` honouring its contract (`honours`, a parameter of the theorems), the extension trait over it, the provided methods; `Bump` proved to be an instance |
| C76 | MemBump* | `MemBump` with its index stored in the same bytes as the data; clients store arbitrary bytes in their blocks; refinement to Unsync* and to independent arrays (`ideal`) |
| C77 | ConcMem* | threads of the relaxed model with memory; a trace with happens-before from program order and hand-overs only (`hb`, `race_free`, `mideal`) |
| C78 | RcMem* | Rc again, boxes being only bytes of one memory that the client also writes to; simulation to the boxes of Rc*, hence to the counting reference (`sxrun`), plus frame and stored counters; values are named by an arbitrary function of their bytes |
| C79 | FixedVecMem* | FixedVec again, elements being only size_of::<T>() bytes each of one memory (ptr::read/write/copy), with foreign writes in between; simulation to the slots of FixedVec*, hence to bounded lists named by an arbitrary function of the bytes, plus frame |
| C80 | Cmp* | PartialEq/PartialOrd/Ord/Hash/Index of FixedVec, Box, LeakBox, Rc over arbitrary user impls (`impls`), with core's slice impls written out as loops over possibly uninitialised slots; lexicographic order stated by the position of the first difference; laws by one lawful set of functions on sequences (`C80_laws`) |
| C106 | Tree* (over TBorrow*, Conc*) | the programs of TBorrow* on a tree of tags with permissions per byte; the library's tags are never disabled (shared references inside of UnsafeCells), the client's tags form one subtree per block, whose permissions are those of a tree of its own; an invariant relates all threads, trees and the system of ConcModel; the bound on the remaining steps as in C105; by induction over schedules |
| C107 | TExit* (over Tree*, EBorrow*) | the programs of EBorrow* on a tree of tags with permissions per byte; the pointer of each value is the root of a subtree whose permissions are those of a tree of its own; the unique references of pop_all (Unpin memory) read, which freezes the values whose own references were unique, and never disable, as nothing but them is written through; by induction over programs |
| C108 | TUns* (over Tree*, TExit*, UBorrow*) | the programs of UBorrow* on a tree of tags with permissions per byte; the first pointer of each block is the root of a subtree whose permissions on the block are those of a tree of its own; calls through shared references write only to the index and make new tags without taking any permission; by induction over programs |
| C109 | TRc* (over Tree*, TExit*, RBorrow*) | the programs of RBorrow* on a tree of tags with permissions per byte; the pointer of each memory is the root; Rcs only read the value and keep every Frozen and Cell permission there, Weaks touch the bytes of the counters only; invariant over all programs and, for the polite ones, of the references that may be used |
| C81 | World* | composition: all containers of the preceding rows (OwnModel, FixedVecMem*, RcMem*) created through AllocModel's functions over an arbitrary `honours` allocator, in one memory; simulation to a list of abstract objects (`awrun`), each container's relation being stable under writes outside of its block; deterministic over a Bump (`bwrun`) |
| C82 | Chain* | layout arithmetic of `Link::layout_from_size` (a fat `next` pointer), error sizes, invariant that roots are never null |
| C83 | ChainMem* | `chain.rs` on bytes: `next` (two words) and index are loaded from and stored to the heap allocations whose rest is handed out; refinement to lists of links with boxes as byte arrays (`rstep`); `None` of `xstep` is undefined behaviour |
| C84 | Threads* | World* run by many threads over the relaxed slab of Relaxed*: a call that asks for memory is interrupted at each access to the counter; what it asks for is found by running the call with a recording allocator (`asked`), its rest is the call with the slab's answer (`answered`); invariant: the calls returned so far are a run of the abstract program of C81 with the slab's answers, and no other thread can change what a waiting call asked for |
| C85 | OwnRef* | the client of Own* interleaved with writes of others refines a pool of cells without memory; simulation relation: the invariant of Own* plus, for each token, the cell of the same kind, type and place whose value is what the log of the place says |
| C86 | Heap* | the client of SyncMem* with loads and foreign writes refines a heap of separate byte arrays (`HeapSpec.hstep`, in which a byte may be unspecified); forward simulation: the invariant of SyncMem* plus, for each handle, the array of the same address, layout, kind and liveness whose specified bytes are in memory |
| C87 | Drain*, DrainMem* | any sequence of calls on one drain, with mutation through `as_mut_slice`; simulation to a list used as a queue: the vector before the drain still represents (before ++ (taken ++ queue ++ taken) ++ after); on bytes by simulation with the map of named elements |
| C88 | ExitRef* | ideal stack (a list of entries, a byte count) in ExitRefSpec; simulation relation: the invariant of Exit* with the list as its values; foreign writes as extra actions; frame by step |
| C89 | Unsize* | typed values: sized types are atoms and arrays, pointers are fat, size_of_val and drop_in_place go through the metadata (slice length, vtable contents); simulation to a value that knows neither memory nor metadata (`UnsizeSpec.thing_run`) |
| C90 | Plan* (over Sync*, Conc*, Relaxed*) | price of a call; invariant: level + price of pending calls <= price of all calls so far (relaxed model, SC executions embed); pigeonhole on addresses for the upper bound; a bad address for tightness |
| C91 | Flaky* | the functions again with an answer of align_offset per use; each use agrees or refuses; weeding of histories; the invariant of the Relaxed model is kept by a refusal |
| C92 | Reent* | operations on bytes with arbitrary effectful callbacks and a client invariant; the run equals a run of the callbacks alone (loop invariants: storage not yet visited is unchanged) |
| C93 | Nest* | drop glue by recursion over types with arbitrary decoding of values; ownership as a mutual inductive predicate over memory; induction over it shows the run equals the run of the leaf destructors over the flattened tree |
| C94 | Stamp* (over Conc*, Relaxed*) | invariant over relaxed schedules: the modification order of the counter is 0 followed by the ends of the granted allocations, which are stacked; SC schedules embed; real-time order from linearization points between invocation and return |
| C95 | Arena* | simulation of all allocators in one memory by separate indices and arrays; geometry invariant: an allocator lies in one block lent by its owner, so two of them are nested in a lent block or apart |
| C96 | Graph* | simulation of counters by counting handles in an explicit graph; the recursive drop against a work list, with pending handles; reachability and acyclicity arguments |
| C97 | Par* | invariant over the byte-granular system (pointers to blocks, calls in flight, contents) on top of ConcMem's; log of calls as a run of the ideal heap; progress by counting own steps |
| C98 | Move* | Exit*'s invariant for programs that also move, forget and overwrite; both kinds of Mem; refuted for Unpin Mem by a theorem about every such program with a live value |
| C99 | Borrow* (over Sync*) | each byte's stack of borrows is split in the client's items, dead items and shared items; refinement of the machine to one machine per block, by induction over programs |
| C100 | UBorrow* (over Borrow*, Unsync*) | as C99, with temporary objects for the references inside Cell::set, and a second simulation that hides the references below a LeakBox's pointer; reset clears each stack down to the items of the owner |
| C101 | EBorrow* (over UBorrow*, Borrow*, Exit*) | as C100, with a status per slot; an invariant on the item that the stored pointers have in each stack, kept by the (not unique) references of pop_all; for Mem: Unpin the unique retag is shown to remove it |
| C102 | RBorrow* (over UBorrow*, Borrow*, Rc*) | simulation: each byte's stack without the library's tags is that of an ideal without counters, under an invariant on where items of the library can be; then an invariant for polite clients over the ideal (no protected item above, the groups of shared items of cells, the unique item) |
| C103 | VBorrow* (over Uninit*, FixedVec*, Borrow*) | invariant on the tree of regions (in use and overlapping only if one was lent by the other), every method as a state transformer that only looks at bytes of its region, an invariant on the stack of each byte for polite clients, and induction over programs; the findings by a program |
| C104 | KBorrow* (over Chain*, UBorrow*) | an invariant on the stacks of each link (as for C100), a separate one for links being freed (the box on top of the stacks of all its bytes), by induction over the lists of links and over programs |
| C105 | TBorrow* (over Borrow*, Conc*) | each call is a program of single steps with a precondition for each step (proved once per function); an invariant relates all threads to the stacks of all bytes and to the system of ConcModel, whose theorems give the blocks and linearizability; a bound on the remaining steps of a call, that steps of other threads keep, gives that it returns; by induction over schedules |

All of these can be expressed in the model; nothing in properties.jsonl is `not_applicable`.

## 3. Trusted base

* **Coq 8.16.1's kernel** (including its VM, used by `vm_compute` in examples and refutations).
* **Axioms.** `Print Assumptions` is run for every theorem listed in MANIFEST.json and answers
  "Closed under the global context" for each: no axiom is used, neither the standard library's nor any
  other.  No file declares an axiom, parameter, section-less variable, functor or module type; no
  `Admitted`, `admit`, or switched-off check.  (The standard library file `ZifyBool`, loaded by `lia`'s
  preprocessing, itself loads `Coq.ssr.ssrunder`, which declares a module type with parameters
  (`Under_rel` ...); they show up in a listing of the loaded library context but in no theorem.)
* **The faithfulness of the model**: no code of /repo was run.  The definitions cite the lines they
  model so that they can be compared.
* **Rust semantics assumed**: objects never wrap around the address space or exceed `isize::MAX` bytes;
  `repr(C)` field placement; `align_offset` of a `*u8` gives the least offset and of a pointer to a
  zero-sized type 0 or `usize::MAX`; the compiler's layout of the unsized `PinSlot` (fields in order);
  `Option<NonNull<_>>` uses null for `None`; little endian (only matters for representing links and
  indices in bytes); unwinding runs destructors of live locals; a panic while unwinding aborts.
* **Rust's type system**: borrow checking and ownership are built into the client machines (a token can
  be used while it is owned and not borrowed).

## 4. What is modelled, and what is not

| Crate/file | Modelled | Not modelled |
|---|---|---|
| static-alloc/src/bump.rs | all of `Bump`, `Allocation`, `LeakError`, GlobalAlloc, LocalAlloc | `Debug`, `Error` impls; `Sync` as a trait (its content is C02/C10/C73) |
| static-alloc/src/unsync/bump.rs | all | `data_ptr`'s provenance |
| static-alloc/src/unsync/chain.rs | all (Chain*: links on an abstract heap; ChainMem*: on bytes) | |
| static-alloc/src/leaked.rs | `Alloca`, `LeakBox` | formatting |
| static-alloc/src/inline_vec.rs, alloc-traits/src/global.rs | - | not part of any crate (no `mod` declaration) |
| alloc-traits | layouts, `LocalAlloc` with its provided methods, `util` | lifetimes (`AllocTime`, `Invariant`) |
| without-alloc/src/uninit.rs | all splitting, casting, initialising functions | `Debug` |
| without-alloc/src/fixed_vec.rs | all of `FixedVec` and `Drain`, comparisons, hash and indexing (Cmp*) | `Debug` |
| without-alloc/src/rc.rs, boxed.rs | all of `Rc`, `Weak`, `Box` | formatting |
| without-alloc/src/alloc.rs | all | - |
| unsize | `unsize_with`, all `CoerciblePtr` impls, `CoerceUnsized::unsize`; the pre-built coercions as the compiler's unsizing (Unsize*), elsewhere coercions are arbitrary functions | comparisons and hash of `Coercion` |
| exit-stack | all | the rest of `core::pin` |
| fill | all `Fill` impls and provided methods | trait forwarding for references |

Components that are about more than one function or type:

* **Client code inside of calls.** Reent* (C92) lets destructors and iterators be arbitrary functions of the memory and a client
  state. Nest* (C93) models drop glue over trees of boxes and vectors; its leaf destructors may do anything but change owned memory
  other than the bytes of their value, the parts of a value are found when its drop starts, and a panic while unwinding ends the
  process at once.
* **Structures built out of the crates' types.** World* (C81) and Threads* (C84) put all containers into one memory. Arena* (C95)
  nests allocators in blocks of other allocators on one memory. Graph* (C96) lets values own handles of each other; every box has
  memory of its own there, destructors run their own code first (it may panic and does nothing else) and then drop the fields in
  order. Move* (C98) adds moving, forgetting and writes of the client to Exit*.
* **Threads.** Conc* (C02, C08, C10) and Relaxed* (C73) are about the counter, ConcMem* (C77) about races on contents. Par* (C97)
  runs the GlobalAlloc methods of one shared Bump by threads, byte by byte, on ConcMem*'s memory. Stamp* (C94) relates the levels of
  concurrent allocations.
* **Aliasing** (C99 - C109): the rules that Miri checks, Stacked Borrows (POPL 2020), with tagged raw pointers and protectors for the
  client's function arguments; `&mut T` is unique if T is Unpin and like a raw pointer otherwise, as in Miri. The rules are Rust's
  proposed ones and not code of /repo: they are trusted as the statement of what "undefined behaviour" means there. Every method with
  `&self` makes a new reference, `UnsafeCell::get`, the atomics' methods and `Allocation::leak` theirs. Left out: two-phase borrows,
  the protectors of the library's own arguments (the only ones that would matter are `reset`'s, whose call has no other access).
  A byte outside of the allocations has an empty stack, so that no access to it is allowed (C99 - C105; under Tree Borrows, C106 - C109, no pointer can access it); the proofs show that the
  code's answers depend on the stacks of its own memory only (BorrowLocal, UBorrowLocal, EBorrowLocal, KBorrowLocal, TBorrowLocal, TreeLocal, TExitLocal, TUnsLocal, TRcLocal).
  Tree* (C106), TExit* (C107: ExitStack), TUns* (C108: the unsync Bump) and TRc* (C109: Rc and Weak) are about the other rules that Miri can check, Tree Borrows (PLDI 2025), without protectors.
  Borrow* (C99) is about the sync `Bump`, UBorrow* (C100) the unsync one, EBorrow* (C101) ExitStack, RBorrow* (C102) Rc and Weak,
  VBorrow* (C103) Uninit, Box, LeakBox, FixedVec and Drain, KBorrow* (C104) Chain, TBorrow* (C105) threads that share a Bump. In C101
  the chain of pinned values is a list (Exit* has the one in memory), `set` is left to its parts (`pop_all`, `slot`, `pin`), drop is
  `pop_all`, and every value has a destructor that takes a reference. The aliasing behaviour of other types is not claimed except
  where a property says so.

Not expressible in this model and not claimed: pointer provenance across allocations (address exposure),
lifetimes and variance (checked by rustc), and performance.

## 5. Findings (places where the code breaks its documentation)

| Claim | Finding |
|---|---|
| C16 | `Bump::zeroed` hands out old bytes after `reset`, although documented to be zeroed |
| C22 | `unsync::Bump<T>` with T aligned more strictly than usize: deref panics (debug) or uses bytes outside of the storage field (release) |
| C23 | `MemBump::new` never initialises the index |
| C24 | `get_unchecked` ignores alignment padding |
| C26 | `Alloca::run` panics for `n = 0`, for zero-sized types, and (debug) for `n = usize::MAX` |
| C28 | `Chain::capacity`/`remaining` report the newest link only |
| C30, C75 | `Uninit::split_at_byte` advances by `k * size_of::<T>()` bytes: out of bounds and overlapping regions from safe code |
| C35 | `split_layout`/`split_cast`/`split_slice` never skip padding (they call `align_offset` on a `*()`), so they fail on misaligned memory |
| C36 | the slice length in the fat pointer is stale after `split_at`: `as_ref`/`as_mut` cover the other part, too |
| C44 | `FixedVec::extend` with an iterator that resumes after `None` panics although there is room |
| C45 | `drain(..=usize::MAX)` without overflow checks is an empty range |
| C46 | `FixedVec::from_unaligned` on misaligned memory has capacity 0 |
| C51 | a destructor holding a `Weak` of its own allocation can take the memory through `Weak::try_unwrap` while the destructor still uses it |
| C52 | `Weak::upgrade` at the maximal count: the panic drops an uncounted handle (debug); the counter wraps (release) |
| C58 | a panicking destructor in `ExitStack::pop_all` loses the values below; their memory can be reused without their destructor having run (`Pin` guarantee broken) |
| C59 | `ExitStack<Mem>` with over-aligned `Mem`: `set` panics; with debug assertions dropping the stack panics |
| C98 | `ExitStack<Mem>` is `Unpin` if `Mem` is: safe code can move it with pinned values (destructors then run on the old place) or forget it (`Pin` guarantee broken) |
| C101 | `ExitStack<Mem>` with `Mem: Unpin` (such as `[u8; N]`): `pop_all` and drop with a pinned value are undefined behaviour under Stacked Borrows (the unique `&mut` to the stack invalidates the stored pointers) |
| C107 | the same under Tree Borrows: `pop_all` itself is fine, but it freezes the values that are `Unpin`, so that every write of a destructor to one of those is undefined behaviour; with a `Mem` that is not `Unpin` there is none |
| C102 | memory that a `Weak` takes (`Weak::try_unwrap`) inside of the destructor of the last `Rc` can be given to a new `Rc` at once, which is undefined behaviour under Stacked Borrows for every `Unpin` type that is not zero-sized (the destructor's reference is protected) |
| C103 | values put in both parts of `Uninit<()>::split_at_byte` are undefined behaviour under Stacked Borrows, in a safe program; and the unsafe `as_mut` of the first part of `Uninit<[T]>::split_at` ends references to the other part |
| C65 | filling a `Result` consumes items after its container is full, and does not terminate on infinite iterators |
| C69, C70 | with allocators that return more than asked for, `fixed_vec(n)` has room for more than n elements and `copy_slice` returns a longer slice with an uninitialised tail |
| C70 | `copy_slice` of zero-sized elements returns an empty slice; `copy_dst` of an empty over-aligned value is misaligned |
| C71 | the provided `realloc` preserves the contents up to the requested size only, not up to the returned one |
