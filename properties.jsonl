{"id": "C01", "title": "Sequential allocations are aligned, in bounds and pairwise disjoint", "statement": "For every sequence of allocation calls (alloc, alloc_at, get, get_at, leak, ...) on one `Bump`, every block handed out has the requested size, is aligned as requested, lies inside the slab's storage, and no two blocks handed out since the last reset overlap.", "quantifier": "all targets, slab addresses and sizes, all call histories of any length with any layouts and any levels", "why_tests_cant": "the number of histories and of (address, alignment, size) combinations is unbounded", "anchors": ["static-alloc/src/bump.rs: Bump::alloc, alloc_at, get_layout, get, get_at, try_alloc, try_alloc_at, bump"]}
{"id": "C02", "title": "Concurrent allocations never overlap", "statement": "For any number of threads calling the shared-reference API of one `Bump` under any interleaving, every block returned to any thread is in bounds, aligned, of the requested size, and disjoint from every block returned to any thread.", "quantifier": "all numbers of threads, all client programs, all schedules of any length", "why_tests_cant": "tests exercise a handful of schedules; the claim ranges over all of them", "anchors": ["static-alloc/src/bump.rs: Bump::try_alloc, try_alloc_at, bump, impl Sync for Bump"]}
{"id": "C03", "title": "alloc fails only when the request does not fit", "statement": "In any reachable state `alloc(layout)` with non-zero size returns a block iff padding + size fits in the bytes remaining after the current level; it returns None otherwise; there is no spurious failure, and the block is the first aligned address at or after the current level.", "quantifier": "all slabs, all reachable levels, all layouts", "why_tests_cant": "boundary cases (last byte, padding that crosses the end, huge alignment) depend on the run-time address of the slab", "anchors": ["static-alloc/src/bump.rs: Bump::alloc, try_alloc, try_alloc_at"]}
{"id": "C04", "title": "Level accounting is exact and monotone", "statement": "The level observed on a shared slab never decreases; a successful allocation raises it exactly by padding plus size, to the level reported in the allocation; failing calls leave it unchanged; it never exceeds the slab size.", "quantifier": "all histories without reset", "why_tests_cant": "must hold after every prefix of every history", "anchors": ["static-alloc/src/bump.rs: Bump::level, try_alloc_at, bump, Level"]}
{"id": "C05", "title": "alloc_at has exactly three outcomes", "statement": "`alloc_at(layout, level)` (non-zero size, level not above the slab size) never panics: it succeeds iff `level` equals the current level and the request fits there; it returns Exhausted iff the request does not fit at `level`; otherwise Mismatch carrying the current level. It panics iff the size is zero or the level exceeds the slab size.", "quantifier": "all states, layouts and levels (including levels of other slabs)", "why_tests_cant": "the decision depends on address arithmetic over the whole input space", "anchors": ["static-alloc/src/bump.rs: Bump::alloc_at, get_layout_at, try_alloc_at, bump, Failure"]}
{"id": "C06", "title": "Chained level allocations follow repr(C) placement", "statement": "A sequence of allocations, each made at the level returned by the previous one, is placed like the members of a repr(C) struct: each block starts at the end of the previous one rounded up to its alignment, and nothing else.", "quantifier": "all layout sequences and starting levels", "why_tests_cant": "sequence length and layouts are unbounded", "anchors": ["static-alloc/src/bump.rs: Bump::leak_at, alloc_at, Level"]}
{"id": "C07", "title": "Exhausted is stable", "statement": "If allocating a layout at any level previously observed on this slab (or through alloc) reports exhaustion, then the same layout fails on every later call until the slab is reset, no matter what happens in between.", "quantifier": "all histories and continuations without reset", "why_tests_cant": "ranges over all futures of all histories", "anchors": ["static-alloc/src/bump.rs: Bump::try_alloc, try_alloc_at, Failure::Exhausted"]}
{"id": "C08", "title": "alloc is wait-free", "statement": "Under any schedule a call to `alloc` completes after at most slab-size + 2 of its own atomic steps, and after at most 2 + (number of successful allocations of other threads during the call).", "quantifier": "all schedules, any number of threads", "why_tests_cant": "a test cannot enumerate unfair or adversarial schedules", "anchors": ["static-alloc/src/bump.rs: Bump::try_alloc, bump"]}
{"id": "C09", "title": "reset gives a fresh slab and keeps the bytes", "statement": "After `reset` every later history of calls has exactly the results it would have on a newly created slab at the same address, and no byte of the storage is altered by reset.", "quantifier": "all states, all continuations", "why_tests_cant": "equivalence over all continuations", "anchors": ["static-alloc/src/bump.rs: Bump::reset, uninit, zeroed, new"]}
{"id": "C10", "title": "Bump is linearizable", "statement": "Every concurrent history of calls on a `Bump` has, for each call, a point between invocation and return such that the calls behave like an atomic sequential allocator in the order of these points.", "quantifier": "all schedules and client programs, any number of threads", "why_tests_cant": "linearizability quantifies over all interleavings", "anchors": ["static-alloc/src/bump.rs: Bump::try_alloc, try_alloc_at, level, get, get_at, bump"]}
{"id": "C11", "title": "Zero-sized values never consume space nor fail", "statement": "`get`/`leak` for a zero-sized type always succeed with an aligned pointer, even on a full or zero-sized slab, and do not change the level; `get_at`/`leak_at` for a zero-sized type succeed iff the level is current, otherwise Mismatch, never Exhausted.", "quantifier": "all states, all zero-sized layouts", "why_tests_cant": "must hold in every reachable state", "anchors": ["static-alloc/src/bump.rs: Bump::get, get_at, leak, leak_at, zst_fake_alloc, Allocation::for_zst"]}
{"id": "C12", "title": "leak never loses or drops a value", "statement": "`leak(v)` and `leak_at(v)` either store v in the slab, where later allocations and stores through other handles never alter it, or give v back in the error; in neither case is v dropped. `leak_box` either stores the value, to be dropped exactly once by the box, or drops it exactly once.", "quantifier": "all histories, all value types", "why_tests_cant": "conservation over arbitrary histories", "anchors": ["static-alloc/src/bump.rs: Bump::leak, leak_at, leak_box, leak_box_at, LeakError, Allocation::leak"]}
{"id": "C13", "title": "realloc preserves contents and isolation", "statement": "Reallocating a live block either fails, changing nothing, or returns a block of the new size and alignment whose first min(old,new) bytes equal the old contents, and no byte of any other live block changes; it returns the same block exactly when the block is already suitably aligned and not growing, in which case nothing is consumed.", "quantifier": "all histories of alloc/realloc/dealloc/write, all layouts", "why_tests_cant": "contents and aliasing over unbounded histories", "anchors": ["static-alloc/src/bump.rs: GlobalAlloc::realloc, LocalAlloc::realloc, layout_reallocated"]}
{"id": "C14", "title": "dealloc frees nothing", "statement": "Deallocating never changes the level or any byte: the slab never hands out again a deallocated block before reset.", "quantifier": "all histories", "why_tests_cant": "negative claim over all futures", "anchors": ["static-alloc/src/bump.rs: GlobalAlloc::dealloc, LocalAlloc::dealloc"]}
{"id": "C15", "title": "alloc_zeroed zeroes exactly its block", "statement": "A successful zeroed allocation reads as all-zero and no byte outside of the block changes, independent of earlier contents (e.g. after reset).", "quantifier": "all memories, histories and layouts", "why_tests_cant": "depends on arbitrary previous contents", "anchors": ["static-alloc/src/bump.rs: impl GlobalAlloc (provided alloc_zeroed)", "alloc-traits/src/util.rs: alloc_zeroed"]}
{"id": "C16", "title": "Zero-initialised slabs hand out zero bytes until first reset", "statement": "Every block obtained from a slab made by `zeroed()` reads as zero when it is handed out, as long as the slab was never reset and users only write into their own blocks; after a reset this stops being true (bytes of old blocks reappear).", "quantifier": "all histories without reset; existence of a counterexample with reset", "why_tests_cant": "all histories of writes and allocations", "anchors": ["static-alloc/src/bump.rs: Bump::zeroed", "static-alloc/src/unsync/bump.rs: Bump::zeroed"]}
{"id": "C17", "title": "No hidden panics in the allocator", "statement": "With non-zero size, `alloc` never panics in any state: none of the internal assertions or unwraps can fire, and no arithmetic overflows; it panics exactly when the size is zero.", "quantifier": "all targets, slab addresses, sizes, levels and layouts", "why_tests_cant": "overflow cases need extreme addresses and sizes that a test cannot set up", "anchors": ["static-alloc/src/bump.rs: try_alloc_at, bump"]}
{"id": "C18", "title": "The single-threaded bump behaves like the shared one", "statement": "Every sequential history of alloc/alloc_at/level/reset on the unsync `Bump`/`MemBump` yields exactly the outcomes of the sync `Bump` over the same data region (so C01, C03-C07 hold for it as well).", "quantifier": "all histories, layouts, levels", "why_tests_cant": "equivalence over all histories", "anchors": ["static-alloc/src/unsync/bump.rs: MemBump::alloc, alloc_at, get, get_at, try_alloc, try_alloc_at, bump, level, reset"]}
{"id": "C19", "title": "The single-threaded retry is unreachable", "statement": "`alloc`, `get`, `bump_box` and `bump_array` on the unsync bump never reach their `unreachable!()` branch and never report a level mismatch.", "quantifier": "all states and layouts", "why_tests_cant": "absence of a panic for all inputs", "anchors": ["static-alloc/src/unsync/bump.rs: MemBump::try_alloc, bump_box, bump_array"]}
{"id": "C20", "title": "MemBump over borrowed memory stays inside it", "statement": "`from_mem` skips to the first address aligned for the header and succeeds iff the header fits behind it; the resulting allocator's header and data region lie inside the given memory and are disjoint, capacity is the remaining length rounded down to the header alignment, the level is zero, and only the header bytes are written.", "quantifier": "all addresses and lengths, all targets", "why_tests_cant": "all address/length combinations", "anchors": ["static-alloc/src/unsync/bump.rs: MemBump::from_mem, from_mem_unchecked, from_aligned_mem, header_layout"]}
{"id": "C21", "title": "MemBump memory round trip", "statement": "`into_mem` returns a prefix of the memory the allocator was created from that contains header and data, and re-creating an allocator with from_mem_unchecked from it has the same capacity and keeps the level.", "quantifier": "all memories and histories", "why_tests_cant": "all lengths and histories", "anchors": ["static-alloc/src/unsync/bump.rs: MemBump::into_mem, from_mem_unchecked, from_aligned_mem"]}
{"id": "C22", "title": "Bump<T> used as a MemBump covers exactly its storage", "statement": "The data region seen through the deref of unsync `Bump<T>` equals T's storage iff align_of T divides size_of usize; else it starts before the storage (finding) but stays inside the struct. With debug assertions the deref panics exactly for T aligned more than usize.", "quantifier": "all type layouts and targets", "why_tests_cant": "all (size, align, target) combinations", "anchors": ["static-alloc/src/unsync/bump.rs: Deref for Bump, DerefMut for Bump, MemBump"]}
{"id": "C23", "title": "Heap-created MemBump starts empty only by luck", "statement": "`MemBump::new(cap)` has the initial level equal to whatever bytes the heap returned (finding: the index is never written); it behaves like an empty allocator of that capacity iff these bytes are zero.", "quantifier": "all heap contents", "why_tests_cant": "heap contents are usually zero in tests, hiding the problem", "anchors": ["static-alloc/src/unsync/bump.rs: MemBump::new, layout_from_size"]}
{"id": "C24", "title": "get_unchecked address", "statement": "`get_unchecked(level)` returns for the level stored before an allocation the address of this allocation iff no padding was needed at that level; with padding it is strictly lower and misaligned (finding).", "quantifier": "all levels, layouts, slabs", "why_tests_cant": "depends on the slab address", "anchors": ["static-alloc/src/unsync/bump.rs: MemBump::get_unchecked, get_at"]}
{"id": "C25", "title": "bump_array", "statement": "`bump_array(n)` for n>0 elements of non-zero size succeeds iff n*size does not overflow a layout and fits, giving room for exactly n elements in one aligned block; otherwise it fails with no effect; n=0 or zero-sized elements panic.", "quantifier": "all n, element layouts, states", "why_tests_cant": "overflow region needs astronomically large n", "anchors": ["static-alloc/src/unsync/bump.rs: MemBump::bump_array"]}
{"id": "C26", "title": "Alloca::run always provides n elements up to the limit", "statement": "`Alloca::run` gives the closure a slice of exactly n aligned elements for every n>=1 and non-zero-sized T with padded size at most 1 MiB, never panicking (on targets where u64 is not aligned more than usize, or in release builds); it panics for larger ones, and (finding) also for n=0 and for zero-sized T, and (finding) always in debug builds on 32-bit targets with 8-byte-aligned u64.", "quantifier": "all element layouts, all n, all stack addresses", "why_tests_cant": "success depends on the stack address of the temporary buffer", "anchors": ["static-alloc/src/leaked.rs: Alloca::new, padded_layout, run, run_with"]}
{"id": "C27", "title": "Chain links are freed exactly once and never while reachable", "statement": "For any history of chain/bump_box/drop on `Chain`s, each link is owned by exactly one chain, every link is freed exactly once, and no link that a live chain can reach is freed.", "quantifier": "all histories and chain lengths", "why_tests_cant": "ownership over unbounded histories", "anchors": ["static-alloc/src/unsync/chain.rs: Chain::chain, Drop for Chain, Drop for Link, set_next, take_next"]}
{"id": "C28", "title": "Chain allocates only from its newest bump", "statement": "`Chain::bump_box` succeeds iff the newest link has room, regardless of space in older links, and `capacity`/`remaining_capacity` report the newest link only (finding with respect to 'total capacity' documentation).", "quantifier": "all chains", "why_tests_cant": "all chain shapes", "anchors": ["static-alloc/src/unsync/chain.rs: Chain::bump_box, capacity, remaining_capacity"]}
{"id": "C29", "title": "split_at partitions an uninitialized slice", "statement": "Splitting an `Uninit<[T]>` at i succeeds iff i elements fit, gives two disjoint adjacent regions that together are the original bytes, the first with exactly i elements; on failure nothing changes.", "quantifier": "all lengths, element sizes, indices", "why_tests_cant": "overflow and zero-size corner cases", "anchors": ["without-alloc/src/uninit.rs: UninitView::split_at, Uninit::split_at"]}
{"id": "C30", "title": "split_at_byte is sound exactly for byte-sized pointees", "statement": "Splitting off the bytes from k on yields the adjacent remainder iff size_of T = 1 or k = 0; otherwise the remainder pointer is off by k*(size_of T - 1) bytes: out of bounds for larger types, overlapping for zero-sized ones (finding).", "quantifier": "all element sizes, lengths and k", "why_tests_cant": "depends on element size and on address arithmetic", "anchors": ["without-alloc/src/uninit.rs: split_at_byte, split_to_fit, cast"]}
{"id": "C31", "title": "Uninit casts are exact", "statement": "`cast::<U>` (and into/from conversions via `fits`) succeeds iff the region is large enough and its address aligned for U; it keeps address and byte length, and fails giving back the same region otherwise.", "quantifier": "all addresses, lengths, layouts", "why_tests_cant": "all address combinations", "anchors": ["without-alloc/src/uninit.rs: cast, fits, cast_slice, from_maybe_uninit"]}
{"id": "C32", "title": "Slice capacity", "statement": "The capacity of an uninitialised slice is the number of whole elements that fit in its bytes (unbounded for zero-sized elements) and every index below it lies in bounds.", "quantifier": "all lengths and element sizes", "why_tests_cant": "division/rounding and zero sizes", "anchors": ["without-alloc/src/uninit.rs: capacity, cast_slice"]}
{"id": "C33", "title": "split_first and split_last", "statement": "split_first/split_last succeed iff at least one element fits; they give a region for exactly one aligned element at the front (resp. the last whole element and everything after it), disjoint from the rest which keeps all other elements.", "quantifier": "all lengths, sizes", "why_tests_cant": "all lengths", "anchors": ["without-alloc/src/uninit.rs: split_first, split_last"]}
{"id": "C34", "title": "shrink_to_fit keeps capacity and drops only slack", "statement": "shrink_to_fit keeps address and capacity, returns less than one element of slack adjacent to the kept region, and is idempotent.", "quantifier": "all lengths, sizes", "why_tests_cant": "all lengths", "anchors": ["without-alloc/src/uninit.rs: shrink_to_fit"]}
{"id": "C35", "title": "split_layout/split_cast/split_slice on raw memory", "statement": "Splitting raw memory for a layout succeeds iff its address is already aligned and the size fits; then it hands over the whole region and leaves an empty remainder; it never skips padding even when enough room for it exists (finding).", "quantifier": "all addresses, lengths, layouts", "why_tests_cant": "depends on run-time address", "anchors": ["without-alloc/src/uninit.rs: split_layout, split_cast, split_slice"]}
{"id": "C36", "title": "Pointer metadata after split_at is stale", "statement": "After split_at(i) the raw slice pointer of the first half still carries the original element count, so a user of as_ptr/into_mut for the slice sees more elements than the region owns (finding), whereas the capacity reported is correct.", "quantifier": "all lengths", "why_tests_cant": "only visible via raw metadata", "anchors": ["without-alloc/src/uninit.rs: split_at, as_ptr, into_maybe_uninit_slice"]}
{"id": "C37", "title": "FixedVec behaves like a bounded list", "statement": "Every history of FixedVec operations (push, pop, truncate, clear, fill, drain, extend, shrink, split, drop, and replacing or swapping elements through the mutable slice) on any number of vectors obtained by splitting yields the results, destructor calls and contents of plain lists bounded by their capacities, and writes no memory outside the original region.", "quantifier": "all histories of any length, all capacities and element types", "why_tests_cant": "refinement over all histories", "anchors": ["without-alloc/src/fixed_vec.rs: push, pop, truncate, clear, fill, drain, split_borrowed, shrink_to_fit, as_slice, as_mut_slice, deref_mut, index_mut"]}
{"id": "C38", "title": "push fails only when full and gives the value back; pop, replace and swap are those of lists", "statement": "push succeeds iff len < capacity; otherwise it returns the very same value and the vector is unchanged. pop takes the last element; replacing an element through the mutable slice gives out the old value at that position and changes no other, swapping exchanges exactly two; an index not below the length panics.", "quantifier": "all reachable vectors", "why_tests_cant": "all states", "anchors": ["without-alloc/src/fixed_vec.rs: push, pop, as_mut_slice, deref_mut, index_mut"]}
{"id": "C39", "title": "Elements are dropped or moved out exactly once", "statement": "Over any history ending with dropping the vector, each element pushed is either returned to the caller or dropped, exactly once; none is dropped twice and, unless a drain is leaked, none is leaked.", "quantifier": "all histories", "why_tests_cant": "exactly-once over all histories", "anchors": ["without-alloc/src/fixed_vec.rs: truncate, pop, Drain, Drop for FixedVec, Drop for Drain"]}
{"id": "C40", "title": "Panicking destructors in truncate/clear cannot double drop", "statement": "If an element destructor panics during truncate/clear, no element is dropped twice, the vector's remaining contents are exactly the elements not yet attempted, and its length is consistent.", "quantifier": "all vectors, all panicking positions", "why_tests_cant": "all crash points", "anchors": ["without-alloc/src/fixed_vec.rs: truncate, clear"]}
{"id": "C41", "title": "drain semantics", "statement": "Draining start..end yields exactly these elements in order when consumed from front and/or back in any interleaving; dropping it drops the rest of the range and closes the gap preserving the order of the others; leaking it leaves the prefix and drops nothing.", "quantifier": "all vectors, ranges and consumption patterns", "why_tests_cant": "all interleavings of next/next_back", "anchors": ["without-alloc/src/fixed_vec.rs: drain, Drain::next, next_back, Drop for Drain"]}
{"id": "C42", "title": "fill", "statement": "fill moves exactly the first min(free space, items) items of the iterator in order to the end of the vector and returns the iterator with all and only the remaining items.", "quantifier": "all iterators and vectors (finite or infinite iterators)", "why_tests_cant": "all iterators", "anchors": ["without-alloc/src/fixed_vec.rs: fill"]}
{"id": "C43", "title": "Splitting a FixedVec", "statement": "split_borrowed(at)/split_and_shrink_to(at) panic iff at > capacity. Otherwise the first vector keeps the first min(at,len) elements and the new part gets the other elements in order, with the storage behind position at as its own; split_and_shrink_to leaves the first vector a capacity of exactly at and disjoint storage, split_borrowed leaves its storage alone but its remaining elements are outside the part's storage.", "quantifier": "all vectors and split points", "why_tests_cant": "all split points", "anchors": ["without-alloc/src/fixed_vec.rs: split_borrowed, split_and_shrink_to"]}
{"id": "C44", "title": "extend panics rather than lose items", "statement": "Extending with an iterator that stays exhausted once it is exhausted returns normally iff all its items fit; otherwise the vector is filled to capacity with the first items, and the call panics. (Finding: for an iterator that resumes after None, extend can panic although there is room.)", "quantifier": "all iterators and vectors", "why_tests_cant": "all iterators", "anchors": ["without-alloc/src/fixed_vec.rs: Extend"]}
{"id": "C45", "title": "drain range bounds", "statement": "drain accepts exactly ranges with start <= end <= len; every other range panics - except ranges whose bound is usize::MAX when overflow checks are off, where an inclusive end of usize::MAX is accepted as an empty range (finding).", "quantifier": "all range bounds, all lengths, both profiles", "why_tests_cant": "overflow boundary", "anchors": ["without-alloc/src/fixed_vec.rs: drain"]}
{"id": "C46", "title": "FixedVec::from_unaligned", "statement": "from_unaligned gives all whole elements that fit if the memory is already aligned, but for misaligned memory it gives a vector of capacity zero even if aligned elements would fit (finding).", "quantifier": "all addresses and lengths", "why_tests_cant": "depends on run-time address", "anchors": ["without-alloc/src/fixed_vec.rs: from_unaligned"]}
{"id": "C47", "title": "Rc counts equal live handles", "statement": "At any point of any history strong_count reported by any handle equals the number of Rc handles of that allocation that exist (forgotten ones included), and weak_count the number of Weak handles plus one if there is an Rc (documented: all Rc together count as one weak pointer).", "quantifier": "all histories of clone/downgrade/upgrade/drop/unwrap", "why_tests_cant": "all histories", "anchors": ["without-alloc/src/rc.rs: new, clone, downgrade, upgrade, drop, strong_count, weak_count"]}
{"id": "C48", "title": "Shared value dropped exactly once, at the last strong handle", "statement": "The value in an Rc is dropped exactly when the last strong handle is dropped, never before, never twice; if it is moved out by try_unwrap/into_raw it is not dropped.", "quantifier": "all histories", "why_tests_cant": "all histories", "anchors": ["without-alloc/src/rc.rs: Drop for Rc, try_unwrap, into_raw"]}
{"id": "C49", "title": "upgrade succeeds iff the value is alive", "statement": "Weak::upgrade returns a strong handle iff at least one strong handle exists.", "quantifier": "all histories", "why_tests_cant": "all histories", "anchors": ["without-alloc/src/rc.rs: Weak::upgrade"]}
{"id": "C50", "title": "Exclusive access only when unique", "statement": "get_mut and into_raw succeed iff the handle is the only strong one and no weak exists; try_unwrap succeeds iff it is the only strong one; failing calls change no count.", "quantifier": "all histories", "why_tests_cant": "all histories", "anchors": ["without-alloc/src/rc.rs: get_mut, into_raw, try_unwrap, is_unique"]}
{"id": "C51", "title": "Memory is returned only when nobody uses it", "statement": "Weak::try_unwrap returns the memory iff it is the last handle and no strong handle exists, hence no other handle and no live value refers to it - provided value destructors do not run Weak operations on their own allocation; a destructor which does can obtain the memory while its value is still being dropped (finding).", "quantifier": "all histories; existential for the reentrant case", "why_tests_cant": "reentrancy and history dependent", "anchors": ["without-alloc/src/rc.rs: Weak::try_unwrap, Drop for Rc"]}
{"id": "C52", "title": "Counter overflow", "statement": "With overflow checks, handle counts never wrap in clone, downgrade and drop: the call panics instead, for histories of any length; Weak::upgrade is an exception, its panic drops a handle that was never counted, and later the value is dropped while a handle exists (finding). Without overflow checks 2^bits clones wrap the counter and the value is dropped while handles exist (finding).", "quantifier": "all histories including mem::forget", "why_tests_cant": "needs 2^bits operations", "anchors": ["without-alloc/src/rc.rs: inc_strong, inc_weak, dec_strong, dec_weak"]}
{"id": "C53", "title": "Rc memory layout round trip", "statement": "Rc::into_raw returns exactly the memory region given to Rc::new together with the live value, and from_raw on it gives back an equivalent unique Rc; new panics iff the region is too small or misaligned.", "quantifier": "all regions and type layouts", "why_tests_cant": "all layouts", "anchors": ["without-alloc/src/rc.rs: new, from_raw, into_raw, layout"]}
{"id": "C54", "title": "Box ownership", "statement": "without_alloc Box drops its value exactly once, or not at all if taken or leaked; take/into_raw return the value and the region it was created from.", "quantifier": "all histories", "why_tests_cant": "all histories", "anchors": ["without-alloc/src/boxed.rs: new, take, from_raw, into_raw, leak, Drop for Box"]}
{"id": "C55", "title": "LeakBox ownership", "statement": "LeakBox drops its value exactly once unless leaked/taken/converted; conversions keep the address and value; take gives value without drop.", "quantifier": "all histories", "why_tests_cant": "all histories", "anchors": ["static-alloc/src/leaked.rs: LeakBox::leak, take, into_raw, from_raw, from_mut, write, assume_init, Drop for LeakBox"]}
{"id": "C56", "title": "unsize keeps the pointee", "statement": "Unsizing a smart pointer keeps address, ownership and drop behaviour, and only attaches metadata produced by the coercion.", "quantifier": "all pointers and coercions", "why_tests_cant": "all pointers", "anchors": ["unsize/src/lib.rs: Coercion, unsize_with, CoerciblePtr", "without-alloc/src/boxed.rs: CoerciblePtr for Box", "without-alloc/src/uninit.rs: CoerciblePtr for Uninit"]}
{"id": "C57", "title": "ExitStack drops every pinned value once in LIFO order", "statement": "For any history of slot/pin/set/pop_all/drop with non-panicking destructors, each pinned value is dropped exactly once, in reverse order of pinning, before its memory is reused.", "quantifier": "all histories", "why_tests_cant": "all histories", "anchors": ["exit-stack/src/lib.rs: slot, set, pop_all, inner_pop_all, Slot::pin, Drop"]}
{"id": "C58", "title": "ExitStack with a panicking destructor", "statement": "If a destructor panics while popping, no value is dropped twice, but (finding) all values pinned earlier are never dropped, although their memory goes away: the Pin drop guarantee is broken.", "quantifier": "all stacks, all panicking positions", "why_tests_cant": "all crash points", "anchors": ["exit-stack/src/lib.rs: inner_pop_all, UnwindFlag"]}
{"id": "C59", "title": "ExitStack::set always has room for one value", "statement": "ExitStack::set never fails when align_of Mem <= align_of usize; for over-aligned Mem it panics (finding).", "quantifier": "all type layouts, addresses, histories", "why_tests_cant": "depends on type alignment", "anchors": ["exit-stack/src/lib.rs: set, slot"]}
{"id": "C60", "title": "ExitStack slots are disjoint and in bounds", "statement": "All simultaneously live slots of one ExitStack are aligned, inside its memory, and pairwise disjoint.", "quantifier": "all histories", "why_tests_cant": "all histories", "anchors": ["exit-stack/src/lib.rs: slot, Slot::pin"]}
{"id": "C62", "title": "Filling an Option", "statement": "Filling an Option takes one item iff it was empty, and asks the iterator for at most one item.", "quantifier": "all iterators", "why_tests_cant": "iterator side effects", "anchors": ["fill/src/fill.rs: Fill for Option"]}
{"id": "C63", "title": "Filling Vec and VecDeque never reallocates", "statement": "Filling takes exactly min(spare capacity, items) items in order; capacity is unchanged; the remainder is returned untouched.", "quantifier": "all iterators, lengths, capacities", "why_tests_cant": "all iterators", "anchors": ["fill/src/fill.rs: Fill for Vec, Fill for VecDeque"]}
{"id": "C64", "title": "Filling through slice iterators", "statement": "Filling an IterMut writes items into the first slots in order, advances the iterator exactly by the number written and leaves the others untouched.", "quantifier": "all slices and iterators", "why_tests_cant": "all iterators", "anchors": ["fill/src/fill.rs: Fill for slice::IterMut"]}
{"id": "C65", "title": "Filling a Result loses items", "statement": "Filling Result<C, E> puts the Ok items into C as far as there is room but consumes the iterator up to its first None even after C is full: the surplus items are lost and the call never returns on an endless iterator of Ok items, against the documentation (finding). The first Err replaces the container and nothing after it is taken.", "quantifier": "all iterators", "why_tests_cant": "all iterators", "anchors": ["fill/src/fill.rs: Fill for Result"]}
{"id": "C66", "title": "checked_fill reports overflow exactly", "statement": "On a container that asks only while it has room, checked_fill stores exactly the items it takes from the iterator; it returns None iff the iterator gave None while the container still had room, otherwise Some(rest) with the container full and the iterator advanced exactly by the stored items (also when the items fit exactly). Whatever the container does, the iterator is not asked again after it gave None.", "quantifier": "all containers and iterators", "why_tests_cant": "all iterators", "anchors": ["fill/src/fill.rs: checked_fill, Overflow"]}
{"id": "C67", "title": "fill_count counts exactly the stored items", "statement": "fill_count returns the number of items moved into the container for well behaved containers.", "quantifier": "all containers and iterators", "why_tests_cant": "all iterators", "anchors": ["fill/src/fill.rs: fill_count"]}
{"id": "C68", "title": "Containers on any contract-abiding allocator", "statement": "boxed/rc/fixed_vec/copy_slice/copy_str over any allocator honouring the LocalAlloc contract never hit their internal unwraps or assertions, place the value in a region of sufficient size and alignment, and fail exactly when the allocator does.", "quantifier": "all allocators satisfying the contract, all layouts", "why_tests_cant": "quantifies over all allocators", "anchors": ["without-alloc/src/alloc.rs: alloc_layout, alloc_t, boxed, rc, fixed_vec, copy_slice, copy_str"]}
{"id": "C69", "title": "fixed_vec(n) has room for exactly n elements", "statement": "fixed_vec(n) fails iff n*size_of is not representable as a layout or the allocator fails; otherwise it returns an empty vector with room for n elements, exactly n if the allocator returns the layout asked for (it may return more, and then the capacity is larger); for zero-sized elements or n = 0 it needs no memory.", "quantifier": "all n and layouts", "why_tests_cant": "overflow region", "anchors": ["without-alloc/src/alloc.rs: fixed_vec"]}
{"id": "C70", "title": "copy_slice copies faithfully, except zero-sized elements", "statement": "copy_slice/copy_str return a new slice equal to the source and disjoint from it, leaving everything else unchanged, on allocators that return exactly the layout asked for; findings: slices of zero-sized elements are copied to a slice of length zero, an allocator that returns a larger block (as the contract allows) makes the result longer than the source with an uninitialised tail, and copy_dst of an empty over-aligned value makes a misaligned reference.", "quantifier": "all sources", "why_tests_cant": "all sources", "anchors": ["without-alloc/src/alloc.rs: copy_slice, copy_str"]}
{"id": "C71", "title": "Default LocalAlloc methods are correct for every allocator", "statement": "The provided alloc_zeroed and realloc defaults keep the allocator contract: zeroed block for the whole returned layout; contents preserved up to the smaller of the old and the requested size (not the returned size, as documented: finding); old block released exactly once and only on success.", "quantifier": "all contract-abiding allocators, all memories", "why_tests_cant": "quantifies over all allocators", "anchors": ["alloc-traits/src/util.rs: local::alloc_zeroed, realloc", "alloc-traits/src/local.rs: LocalAlloc"]}
{"id": "C72", "title": "Disjoint users of one slab do not interfere", "statement": "Any number of clients writing only within blocks they got from one Bump never observe changes caused by other clients' allocations, reallocations or writes.", "quantifier": "all interleaved histories", "why_tests_cant": "all interleavings", "anchors": ["static-alloc/src/bump.rs: Bump", "alloc-traits/src/local.rs: LocalAlloc"]}
{"id": "C73", "title": "Relaxed ordering would suffice for disjointness", "statement": "Even if every atomic access had Relaxed ordering (loads and failed exchanges may return stale values consistent with coherence), all blocks remain in bounds, aligned, disjoint, alloc has no spurious failure, and each thread observes non-decreasing levels.", "quantifier": "all relaxed executions of any number of threads", "why_tests_cant": "weak-memory behaviours do not show on test hardware", "anchors": ["static-alloc/src/bump.rs: Bump (documentation on Ordering), bump, level"]}
{"id": "C74", "title": "NonZeroLayout conversions", "statement": "NonZeroLayout::from_layout succeeds iff the size is non-zero and keeps size and alignment; layout_reallocated yields the layout of the new size with the same alignment iff that is representable.", "quantifier": "all layouts, all targets", "why_tests_cant": "overflow boundary", "anchors": ["alloc-traits/src/layout.rs: NonZeroLayout::from_layout", "static-alloc/src/bump.rs: layout_reallocated"]}
{"id": "C75", "title": "Regions obtained by splitting never overlap", "statement": "Whatever sequence of casts and splits a program applies to one uninitialised region, the regions it holds afterwards are well-formed, inside the original and pairwise disjoint, and no call panics - provided it never splits at a byte through a type whose size is not 1 (for which the claim is refuted, finding).", "quantifier": "all finite sequences of split/cast operations with arbitrary arguments, all regions", "why_tests_cant": "ranges over all operation histories", "anchors": ["without-alloc/src/uninit.rs: Uninit, UninitView"]}
{"id": "C76", "title": "An allocator living inside its own memory cannot be corrupted", "statement": "A MemBump created by from_mem keeps its level in the first bytes of the very memory it hands out. Whatever a client stores into the blocks it got (initialised or not), and however often it unwraps (into_mem) and rewraps (from_mem_unchecked) the memory, every call answers as an allocator whose level is kept elsewhere would, no call reads an uninitialised level, blocks since the last reset behave as independent byte arrays, allocator calls write only the header, and nothing outside the given memory changes.", "quantifier": "all memories, all targets, all finite histories of calls, stores, loads and round trips", "why_tests_cant": "ranges over all store patterns and histories", "anchors": ["static-alloc/src/unsync/bump.rs: MemBump::from_mem, into_mem, from_mem_unchecked, alloc, get, bump_box, bump_array, reset"]}
{"id": "C77", "title": "Threads sharing a slab never race on contents", "statement": "Threads that allocate from one shared Bump and store to, load from and hand over only blocks they own never have a data race, even if the accesses to the slab's counter were relaxed: conflicting accesses are ordered by program order and hand-overs alone. Every load returns exactly what was stored to that block, and no byte outside the slab changes.", "quantifier": "all schedules of any number of threads, all relaxed-memory behaviours of the counter, all store patterns", "why_tests_cant": "ranges over all interleavings and weak-memory outcomes", "anchors": ["static-alloc/src/bump.rs: unsafe impl Sync for Bump, alloc, get, leak, leak_box"]}
{"id": "C78", "title": "Rc works on raw bytes in shared memory", "statement": "Rc and Weak, represented only by bytes of memory that also holds other allocations and regions the client scribbles over, answer every history of calls exactly like a reference that counts handles and remembers the values put in. The counters stored behind each value always hold the handle counts, values come back byte for byte, and no byte outside the regions handed over is ever written.", "quantifier": "all histories of fewer than usize::MAX calls over any set of disjoint regions with any initial contents, all value types and byte patterns, all targets", "why_tests_cant": "ranges over all histories, layouts and memory contents", "anchors": ["without-alloc/src/rc.rs: RcBox, Rc::new, clone, drop, downgrade, upgrade, try_unwrap, into_raw, from_raw, get_mut, strong_count, weak_count", "without-alloc/src/uninit.rs: init, from_memory, cast"]}
{"id": "C79", "title": "FixedVec keeps the bytes of its elements", "statement": "FixedVec, represented only by bytes of memory that others also write to, answers every history of push, pop, truncate, clear, fill, extend, drain, shrink, splits, drops and in-place replacement or swaps exactly like bounded lists of values: values come back byte for byte, also after a drain moved the tail over itself, destructors run on exactly the bytes put in, spare capacity and stale bytes are never observed, and no byte outside the region it was created with is changed.", "quantifier": "all histories of calls and foreign writes elsewhere, all regions and initial memory contents, all element layouts (also zero-sized), all byte patterns, all panicking destructors and iterators, all targets", "why_tests_cant": "ranges over all histories, element sizes and memory contents; overlapping moves and stale bytes only show for particular ones", "anchors": ["without-alloc/src/fixed_vec.rs: FixedVec push, pop, truncate, clear, fill, extend, drain, shrink_to_fit, split_borrowed, split_and_shrink_to, as_slice, Drop; Drain next, next_back, Drop", "without-alloc/src/uninit.rs: split_at_byte, init"]}
{"id": "C80", "title": "Containers compare, hash and index as their contents", "statement": "FixedVecs are equal iff their contents have the same length and equal elements in order; they are ordered lexicographically by the first pair of elements that is not equal in order (unordered if that pair is), a proper beginning being smaller; lt/le/gt/ge agree with partial_cmp; the hash is that of the borrowed slice. The answers depend on the contents only - not on address, capacity or stale memory - and satisfy the laws of Eq, Ord and Hash if the elements' do. v[i] and v[a..b] give exactly the elements or panic exactly when out of bounds, never reaching into spare capacity, and v[i] = x replaces that element only. Boxes and Rcs compare and hash as the values last put into them, after any history of calls.", "quantifier": "all vectors reachable by any history (C37), all element types with any (even unlawful) impls, all indices, all histories of Box, LeakBox and Rc calls", "why_tests_cant": "ranges over all contents, all user-written comparison functions and all histories", "anchors": ["without-alloc/src/fixed_vec.rs: PartialEq, PartialOrd, Ord, Hash, Index, IndexMut, Borrow, AsRef for FixedVec", "without-alloc/src/boxed.rs: PartialEq, PartialOrd, Ord, Hash for Box", "without-alloc/src/rc.rs: PartialEq, PartialOrd, Ord, Hash for Rc, ptr_eq", "static-alloc/src/leaked.rs: Hash for LeakBox"]}
{"id": "C81", "title": "Containers sharing one allocator behave as independent objects", "statement": "A program that creates boxes, fixed vectors, reference counted values, slice copies and plain blocks from one LocalAlloc, and uses them in any order while others write to memory the allocator does not own, gets exactly the answers of a program whose objects are independent abstract values without any memory. Only whether there was memory for a creation depends on the allocator; over a Bump even that is determined by the sequence of sizes and alignments asked for, and not by what was in memory. The same destructors run in the same order, the objects' memories never overlap, and no byte outside of the allocator's memory is changed.", "quantifier": "all allocators that honour LocalAlloc's contract and return the layout asked for, all interleavings of calls on all containers (up to usize::MAX calls), all values, all initial memories, all panicking destructors", "why_tests_cant": "ranges over all allocators, all interleaved histories of all containers and all byte values", "anchors": ["without-alloc/src/alloc.rs: LocalAllocLeakExt::boxed, fixed_vec, rc, copy_slice", "without-alloc/src/boxed.rs: Box", "without-alloc/src/fixed_vec.rs: FixedVec, Drain", "without-alloc/src/rc.rs: Rc, Weak", "static-alloc/src/bump.rs: impl LocalAlloc for Bump"]}
{"id": "C82", "title": "Chain::new: exact conditions, reported sizes, and chains are never empty", "statement": "`Chain::new(n)` asks the heap for `n` bytes plus a fat pointer and the index, rounded up to the alignment of usize. It fails with `allocation_size() == n` if that is larger than isize::MAX, whatever the heap would answer, and with the size asked for if the heap refuses; a failure changes nothing. Otherwise the new chain owns one link inside of the memory obtained, with capacity exactly `n` and all of it remaining, and other chains are unaffected. After any history every existing chain owns at least one link.", "quantifier": "all sizes, targets, heap answers, histories of chain calls", "why_tests_cant": "all sizes up to usize::MAX on all targets, after all histories", "anchors": ["static-alloc/src/unsync/chain.rs: Chain::new, Link::alloc, Link::layout_from_size, TryNewError::allocation_size"]}
{"id": "C83", "title": "Chains on heap bytes: boxes cannot damage the chain, nothing leaks, nothing outside is written", "statement": "A chain's links keep their `next` pointer and index in the same heap allocations from which boxes are handed out. Whatever clients store in their boxes (and others in memory that is not the chains'), and however chains are created, joined with `chain` and dropped: no call reads a damaged pointer or index, uses or frees memory that is not an allocated link, or fails to end; all answers, the values loaded from boxes (zero at first, then what was last stored, also after the chain was extended by others), and the address, layout and order of all deallocations are those of chains that are plain lists of links and boxes that are plain arrays. Allocated at any time are exactly the links of existing chains. A call changes no byte outside of the memory of chains existing before or after it.", "quantifier": "all targets, initial memories, histories of chain calls, stores, loads and foreign writes, answers of the heap", "why_tests_cant": "all histories and all stored bytes; heap layouts and addresses are chosen by the allocator", "anchors": ["static-alloc/src/unsync/chain.rs: Chain::{new,bump_box,chain,capacity,remaining_capacity}, Link::{alloc,set_next,take_next,as_bump}, Drop for Chain, Drop for Link"]}
{"id": "C84", "title": "Threads using containers in one shared Bump behave like a sequential program over independent objects", "statement": "Any number of threads create boxes, vectors, counted values, slices and plain blocks from one shared `Bump`, use them and move them to each other, in any interleaving (a call may be anywhere inside the slab's allocation loop, even with relaxed memory ordering, while others allocate and use their containers). In the order in which they return, the calls have exactly the results of a sequential program whose objects are independent abstract values; the slab only decides whether there is memory and where. The same destructors run in the same order. At any time the memories of the containers lie in the slab and are disjoint, and nothing outside of the slab is changed by them. No thread waits for another: unless the process was aborted, a thread can finish its call, or make any call on a container it has, by at most four actions of its own.", "quantifier": "all targets, slabs, numbers of threads, schedules, client programs, values, reads of stale counter values", "why_tests_cant": "interleavings of the allocation loop with container code cannot be enumerated; races show rarely", "anchors": ["static-alloc/src/bump.rs: unsafe impl Sync for Bump, try_alloc, LocalAlloc for Bump", "without-alloc/src/alloc.rs: LocalAllocLeakExt::{boxed,fixed_vec,rc,copy_slice}"]}
{"id": "C85", "title": "Owning pointers behave like independent cells", "statement": "A program that uses any number of `Box`es (without-alloc) and `LeakBox`es over disjoint memories - new, take, into_raw, from_raw, leak, from_mut, into_pin, deref, mem::replace through the reference, unsize, cast of the empty memory, write/assume_init, drop, forget - while anybody writes to all other memory, has exactly the answers of a program in which every owner is a cell holding its value itself: no call sees another owner, the address, or anybody's writes. The same values are put, moved out and dropped in the same order; at the end the memory given to each owner with a value holds that value; no other memory has been changed by the owners.", "quantifier": "all targets, placements of the memories, values, histories of calls on any number of owners, writes of others", "why_tests_cant": "raw-pointer round trips and unsizing in all histories and placements cannot be enumerated", "anchors": ["without-alloc/src/boxed.rs: Box", "static-alloc/src/leaked.rs: LeakBox", "unsize/src/lib.rs: CoerceUnsized::unsize"]}
{"id": "C86", "title": "A Bump behaves like an ideal heap", "statement": "A program that takes its memory from a `Bump` (as global or local allocator: alloc, alloc_zeroed, realloc, dealloc; leak, leak_at, leak_box, leak_box_at, LeakBox::leak and drop, level, reset), writes into its blocks and reads them back - while anybody writes to memory outside of the slab - has exactly the answers of the same program on an ideal heap in which every block is a byte array of its own: no block sees writes to another, realloc keeps the common prefix, zeroed blocks read as zero, a leaked value reads back as itself until overwritten, the same values are dropped with the bytes they had, and a block is refused or placed only as the first-aligned-address rule says. Outside of the slab memory is exactly as if the program had not run.", "quantifier": "all targets, slabs, initial memories, layouts, histories of calls, stores and loads, and writes of others", "why_tests_cant": "the equality is about every history over unboundedly many blocks and about every placement and memory content", "anchors": ["static-alloc/src/bump.rs: Bump, GlobalAlloc for Bump", "static-alloc/src/leaked.rs: LeakBox", "alloc-traits/src/local.rs: LocalAlloc::realloc, alloc_zeroed", "alloc-traits/src/layout.rs: NonZeroLayout"]}
{"id": "C87", "title": "A Drain is a double-ended queue, also when changed through its slice", "statement": "A `Drain` over a part of a `FixedVec` answers every sequence of calls (next, next_back, as_slice, as_mut_slice with replacing and swapping, len, is_empty, size_hint) as a double-ended queue of the drained elements would. Forgotten at any point, it leaves exactly the elements before the range in the vector; dropped, it drops what is left in order and leaves the elements before and after the range (only those before it if a destructor panics). Every drained or newly put element is received by the program or left in the queue exactly once; no other memory changes.", "quantifier": "all targets, element types (also zero-sized), vectors, ranges, sequences of calls, panicking destructors", "why_tests_cant": "the queue equality is over all sequences of calls, mutations and all ranges", "anchors": ["without-alloc/src/fixed_vec.rs: Drain::as_mut_slice, Drain::as_slice, Drain::len, Drain::is_empty, Iterator for Drain, DoubleEndedIterator for Drain, Drop for Drain, FixedVec::drain"]}
{"id": "C88", "title": "An ExitStack cannot be told from a list of values", "statement": "For every sequence of calls on an `ExitStack` (slot, dropping a slot, pin, writing and reading through the pinned reference, pop_all, set, drop), whichever destructors panic and whatever anyone writes to memory outside the stack, all answers, all values pinned and dropped with their bytes and their order, and the slots and references held are those of an ideal stack that is a plain list of values. `slot` succeeds exactly if an aligned place for the link and the value, behind the places given out since the memory was last freed, lies within the room of one Mem slot, and gives the lowest such place. Memory outside the stack only changes by the writes of others; the initial memory has no influence.", "quantifier": "all targets and build profiles, Mem types, value types, panicking destructors, initial memories, sequences of calls and foreign writes", "why_tests_cant": "refinement over all histories; links are in memory next to values of arbitrary layout", "anchors": ["exit-stack/src/lib.rs: ExitStack::slot, Slot::pin, Slot::pin_local, ExitStack::set, ExitStack::pop_all, Drop for ExitStack"]}
{"id": "C89", "title": "Unsized pointers describe exactly the original value", "statement": "For a value of any sized type (arrays of any nesting included) behind a reference, raw pointer, Pin, Box, Uninit or LeakBox, and any program that unsizes the pointer with the pre-built coercions (to_slice, to_debug/to_any/to_fn/..., Coercion!) and converts it between these kinds (into_raw, from_raw, leak, from_mut_unchecked): the layout found through the metadata, the bytes, the elements and the index checks are those of the value, and a drop runs exactly the destructors of the value, in order, each once; the address and the size of the memory are kept and no other byte changes; nothing panics but an index out of bounds.", "quantifier": "all types, addresses, memories, kinds of pointers, coercions and sequences of conversions", "why_tests_cant": "all types and histories; size and destructor are found through metadata at run time", "anchors": ["unsize/src/lib.rs: CoerceUnsized::unsize, unsize_with, Coercion::to_slice, coerce_to_dyn_trait!, Coercion!", "without-alloc/src/boxed.rs: Drop, Deref, into_raw, from_raw, leak, CoerciblePtr", "static-alloc/src/leaked.rs: LeakBox"]}
{"id": "C90", "title": "Enough memory by the sum of the requests is enough for every placement and schedule", "statement": "If the free bytes of a Bump are at least the sum, over all requests made (by any threads, in any interleaving), of size + align - 1, then no alloc/get/leak is ever refused; if the slab starts at a multiple of A (as a Bump<T> with align_of::<T>() = A does) and no request is aligned more strictly, the sum of the sizes rounded up to A is enough. A Bump<[T; n]> serves any n requests for a T and never more than n. size + align - 1 cannot be improved: with one byte less there is an address of the slab where even a single request is refused.", "quantifier": "all targets, slab addresses and sizes, request sequences, thread counts and schedules (also with Relaxed accesses)", "why_tests_cant": "The address of a static is chosen by the linker and the interleaving by the scheduler; a test sees one of each.", "anchors": ["static-alloc/src/bump.rs:561-638 try_alloc", "static-alloc/src/bump.rs:69-91 (documentation of sizes)", "static-alloc/src/doc/pinned.md (REQUIRED_TO_GUARANTEE)", "static-alloc/tests/threaded.rs"]}
{"id": "C91", "title": "Correctness does not depend on align_offset giving a usable answer", "statement": "core allows align_offset to give up (usize::MAX) at any call. Then every allocation call on Bump and on the single-threaded bump, at each of its uses, either does and answers exactly what it does when align_offset works, or it changes nothing and reports exhaustion; every history is one of a working platform with some refused calls added; blocks are still aligned, inside and disjoint, also with any number of threads and Relaxed accesses. from_mem works as usual or refuses without writing a byte; cast/cast_slice give the usual view or the pointer back; split_* give the usual result, leave the view as it is, or panic.", "quantifier": "all targets, slabs, calls and histories, schedules, and every pattern of align_offset giving up (chosen per call, adversarially)", "why_tests_cant": "On the usual targets align_offset never gives up at run time; where it may (constant evaluation, Miri with symbolic alignment), no test can force a pattern of failures.", "anchors": ["static-alloc/src/bump.rs:583-638 try_alloc_at", "static-alloc/src/unsync/bump.rs:150-159 from_mem", "static-alloc/src/unsync/bump.rs:489-549 try_alloc_at", "without-alloc/src/uninit.rs:561-575 split_layout", "without-alloc/src/uninit.rs:892-895 fits"]}
{"id": "C92", "title": "Destructors and iterators may have any effect on other memory while a vector operation runs", "statement": "truncate, clear, drop of a FixedVec, drop of a Drain, fill and extend call code of the client in the middle of the operation. Whatever this code does to memory other than the storage of the vector (push into other vectors, allocate, write logs), whatever it keeps as state, and however it panics: destructors are called exactly once on each value removed, with its bytes as they were, at its place (in reverse order by truncate/clear, front to back by drop and Drain), each in the world the previous one left; iterators are asked exactly as often as if the items were only collected; the elements that stay are intact, the items given become the new elements, and outside of the vector memory is changed by the client's code alone. A panic leaves the documented contents; a second one ends the process.", "quantifier": "all targets, element types, vectors, memory contents, client states and client code (arbitrary functions of state and memory that leave the vector's storage alone), unwinding or not", "why_tests_cant": "The client's code is arbitrary; tests use a few destructors and iterators.", "anchors": ["without-alloc/src/fixed_vec.rs:146-170 truncate", "without-alloc/src/fixed_vec.rs:195-197 clear", "without-alloc/src/fixed_vec.rs:342-360 fill", "without-alloc/src/fixed_vec.rs:523-529 Drop", "without-alloc/src/fixed_vec.rs:667-681 Drop for Drain", "without-alloc/src/fixed_vec.rs:720-728 extend"]}
{"id": "C93", "title": "Boxes and vectors inside each other are dropped completely, once, in order", "statement": "A value may contain Boxes and FixedVecs, whose contents contain boxes and vectors again, to any depth, also for recursive types such as the List of the documentation of Box. Dropping such a value, a vector of such values, truncating or clearing the vector, or dropping a Drain of it runs the destructor of every value of the client in the tree exactly once, on the bytes it had, depth first (elements in the order of the vector operation), and terminates; after a panic the rest of the value is still dropped. Elements that stay in the vector, also after a panic, are unchanged and still own exactly what they owned. Moving a value or changing other memory does not change what it owns.", "quantifier": "all types (layouts and drop glue), all finite trees of values in memory whose owned blocks do not overlap, all destructors of leaves that change no owned memory but the bytes of their value, all memory contents and client states, unwinding or not", "why_tests_cant": "Trees of values are unbounded in depth and width and destructors are arbitrary.", "anchors": ["without-alloc/src/boxed.rs:157-163 Drop for Box", "without-alloc/src/boxed.rs:20-41 List example", "without-alloc/src/fixed_vec.rs:523-529 Drop", "without-alloc/src/fixed_vec.rs:146-170 truncate", "without-alloc/src/fixed_vec.rs:667-681 Drop for Drain"]}
{"id": "C94", "title": "Levels are stamps: one winner per level, contiguous extension, mismatches mean progress", "statement": "Threads share one Bump and allocate in any way, some at levels (alloc_at, get_at, leak_at, leak_box_at). All allocations of at least one byte ever granted form one chain, laid out like the members of a repr(C) struct in the order of the decisions; a call that names a level is granted only if that level is the end of its predecessor, so that at most one call of any thread ever succeeds at a given level and nothing that anybody got lies between the level and the block. Levels reported never decrease in real time across threads. A mismatch reports another level, which is the end of an allocation that was granted (or 0), and a greater one if the named level had been reported before the call was made. With relaxed accesses the same holds for levels known to the same thread.", "quantifier": "all schedules, all numbers of threads, all client programs, all storage regions, layouts and levels", "why_tests_cant": "Schedules and histories are unbounded; a race test sees only few of them.", "anchors": ["static-alloc/src/bump.rs:375-385 alloc_at", "static-alloc/src/bump.rs:455-476 get_at", "static-alloc/src/bump.rs:583-638 try_alloc_at", "static-alloc/src/bump.rs:235-277 Level, Allocation, Failure"]}
{"id": "C95", "title": "Allocators inside allocators", "statement": "A MemBump may be created with from_mem in a block that another MemBump handed out, to any depth. However such allocators are created, used interleaved, dropped (after which the block can be used again) and reset, as far as the borrow rules of safe code allow, each allocator answers every call as if it were the only one and its index were kept apart from all memory; each block that is not borrowed by a nested allocator is an array of its own; a new allocator gets exactly the rounded rest of its block behind its header, or fails with FromMemError iff not even the header fits; what the usable allocators own (headers and unborrowed blocks) is pairwise disjoint and inside the outermost memory; no index is ever lost or uninitialised, and nothing outside the outermost memory changes.", "quantifier": "all targets, outermost memories and contents, and all finite sequences of allocator calls, stores, loads, nestings and ends at any depth", "why_tests_cant": "Depth and interleaving of nested allocators are unbounded; damage to an inner index by an outer block (or the reverse) would show only for particular contents and addresses.", "anchors": ["static-alloc/src/unsync/bump.rs: MemBump::{from_mem, from_mem_unchecked, alloc, alloc_at, get, get_at, get_unchecked, bump_box, bump_array, reset, level}"]}
{"id": "C96", "title": "Graphs of reference counted values", "statement": "Values in Rcs may own Rcs and Weaks of other values (and of themselves). However a program builds and changes such a graph, moves values out of it, forgets handles and drops handles: a value is destroyed exactly when the last strong handle to it anywhere goes, and then the handles that it owned go in order, recursively; strong_count and weak_count are the numbers of handles in the whole graph (plus one for weak while the value is there); upgrade succeeds iff the value is there; every value reachable by strong handles is alive; only cycles of strong handles (or forgotten handles) leak; each value is dropped or moved out at most once; a destructor that panics does not keep the rest of its part of the graph from being dropped, and a second such panic while unwinding aborts; no counter over- or underflows and no freed box is touched.", "quantifier": "all targets, all choices of which destructors panic, and all finite sequences of operations on graphs of any shape (up to usize::MAX handles)", "why_tests_cant": "Shapes and orders are unbounded, and the counters must be right at each moment inside a recursive drop, also while unwinding.", "anchors": ["without-alloc/src/rc.rs: Rc::{new, try_unwrap, downgrade, strong_count, weak_count, clone, drop, deref}, Weak::{upgrade, strong_count, weak_count, clone, drop}"]}
{"id": "C97", "title": "A Bump as the global allocator of a program with threads", "statement": "Threads allocate (zeroed or not), reallocate and free blocks of one shared Bump through GlobalAlloc, store to and load from their blocks and give them to each other. Under every schedule (other threads run between any two accesses to the counter and any two bytes written by alloc_zeroed or realloc) the calls have the results and effects of an ideal heap of independent arrays: new blocks are as large as asked for, zeroed if asked so, aligned, in the slab and apart from all live blocks; realloc keeps the address iff the block does not grow, and always the contents; a refused realloc leaves the block intact; null means there is no room; loads give what was stored. Program and allocator together have no data race, no byte outside of the slab changes, and no thread ever has to wait for another.", "quantifier": "all targets, slabs, initial memories, numbers of threads, programs and schedules, with relaxed accesses to the counter", "why_tests_cant": "Schedules, programs and data are unbounded; the copying and zeroing must be right whatever runs in between.", "anchors": ["static-alloc/src/bump.rs: <Bump as GlobalAlloc>::{alloc, realloc, dealloc}, <Bump as LocalAlloc>::{alloc, realloc, dealloc}, layout_reallocated, Bump::{alloc, get_layout, try_alloc}, unsafe impl Sync for Bump"]}
{"id": "C98", "title": "Moving or forgetting an ExitStack", "statement": "If Mem is not Unpin an ExitStack<Mem> cannot be moved or forgotten after its first use, and in every program its live values are inside the stack with the bytes last put there, and destructors run on these values. If Mem is Unpin the same holds in programs that move or forget the stack only while no value is pinned to it. But the stack is then Unpin itself, and safe code may move it with values: whatever the value on top is, its old place is memory of the client again, and the stack runs the destructor there on whatever bytes the client wrote. Safe code may also forget the stack: then the values are never dropped although their memory can be overwritten, which breaks the guarantee of Pin.", "quantifier": "all targets, layouts of Mem, types and bytes of values, destructors (that may panic), places to move to, and programs of calls, moves and writes", "why_tests_cant": "The bug is in the type (no PhantomPinned): a test that pins the stack passes, and the safe programs need all programs.", "anchors": ["exit-stack/src/lib.rs: struct ExitStack, ExitStack::{new, slot, set, pop_all}, Slot::pin, <ExitStack as Drop>::drop"]}
{"id": "C99", "title": "Bump's blocks follow the aliasing rules", "statement": "Under the aliasing rules that Miri checks (Stacked Borrows), no call of a Bump through shared references, no new shared reference to it and no reset has undefined behaviour, whatever references and pointers to earlier blocks are alive, reborrowed, frozen or arguments of functions in progress. For the client each block is as good as an allocation of its own: an access, reborrow or function argument through a pointer to a block is undefined behaviour exactly if it would be when the block were a separate allocation and nothing else had happened; in particular programs that read and write all their blocks in any order, between any calls, never have undefined behaviour.", "quantifier": "all targets, slabs, Bumps that are variables or statics, calls and uses of the block (raw, leak, leak_box), and programs that share the Bump, call it, reset it, read, write and reborrow blocks (mutable, shared, with UnsafeCells), and enter and leave functions with protected arguments", "why_tests_cant": "Miri checks the programs it runs; that references into one slab never invalidate each other must hold for all interleavings of library and client accesses.", "anchors": ["static-alloc/src/bump.rs: Bump::{alloc, alloc_at, get, get_at, get_layout, get_layout_at, leak, leak_at, leak_box, leak_box_at, level, reset}, Allocation::{leak, boxed}"]}
{"id": "C100", "title": "The unsync Bump's blocks follow the aliasing rules", "statement": "Under the aliasing rules that Miri checks (Stacked Borrows), no call of an unsync Bump or MemBump through shared references, no new shared reference to it and no reset has undefined behaviour, whatever references, LeakBoxes and pointers to earlier blocks are alive, reborrowed, frozen or arguments of functions in progress. This holds for a Bump<T> in a variable, whether T is Unpin (so that &mut Bump<T> is a unique reference) or not, and for a MemBump in a LeakBox. For the client each block is as good as an allocation of its own: an access, reborrow or function argument through a pointer to a block is undefined behaviour exactly if it would be when the block were a separate allocation; in particular programs that read and write all their blocks in any order, between any calls, never have undefined behaviour.", "quantifier": "all targets, data regions, kinds of owner, calls and uses of the block (raw, leak, boxed, bump_box, bump_array; of types that are Unpin or not), and programs that share the Bump, call it, reset it, read, write and reborrow blocks, and enter and leave functions with protected arguments", "why_tests_cant": "Miri checks the programs it runs; that the Cell's temporary unique reference, DerefMut and the references into one data region never invalidate each other must hold for all interleavings of library and client accesses.", "anchors": ["static-alloc/src/unsync/bump.rs: Bump Deref/DerefMut, MemBump::{alloc, alloc_at, get, get_at, bump_box, bump_array, level, reset, try_alloc, try_alloc_at, bump}", "static-alloc/src/leaked.rs: LeakBox::from", "static-alloc/src/bump.rs: Allocation::{leak, boxed, uninit}"]}
{"id": "C101", "title": "ExitStack's pinned values follow the aliasing rules, if Mem is not Unpin", "statement": "Under the aliasing rules that Miri checks (Stacked Borrows), an ExitStack<Mem> whose Mem is not Unpin has no undefined behaviour of its own: not in slot, not in pin, and not in pop_all or drop, whatever references to the stack, to its slots and to the pinned values are alive or were made from each other. Each pinned value is as good as an allocation of its own of which the stack keeps a raw pointer: pin returns a reference made from that pointer, each destructor gets a new one, last value first, and an access of the client is undefined behaviour exactly if it would be with separate allocations. A program that uses each value only through the last of these references has no undefined behaviour. If Mem is Unpin (such as an array of bytes), pop_all and drop of a stack with a pinned value always have undefined behaviour: the unique reference to the stack invalidates the stored pointers.", "quantifier": "all targets, places of the stack, layouts of values (Unpin or not), and programs that share the stack, make slots, pin values in any order, access them, run pop_all with destructors that access any value, return or panic, and start over", "why_tests_cant": "Miri checks the programs it runs; that the references made by slot, pin, pop_all and the destructors never invalidate the stored pointers must hold for every interleaving with client accesses.", "anchors": ["exit-stack/src/lib.rs: ExitStack::{new, slot, pop_all, pop_all_with}, Slot::{pin, pin_local}, Drop for ExitStack", "static-alloc/src/unsync/bump.rs: Bump Deref/DerefMut, MemBump::{bump_box, reset}", "static-alloc/src/leaked.rs: LeakBox::{from, write}"]}
{"id": "C102", "title": "Rc and Weak follow the aliasing rules, and a Weak never touches the value", "statement": "Under the aliasing rules that Miri checks (Stacked Borrows), Rc and Weak add nothing to the client's references: all answers, and whether an access is undefined behaviour, are as if each value were an allocation of its own with the pointer of its memory and the references that the client made, without counters. Of the calls, those of a Weak never touch the value (except for an upgrade that succeeds) and are never undefined behaviour, also inside of the value's destructor; those of an Rc read the value where it is not inside of an UnsafeCell, and only deref, get_mut, try_unwrap and the drop of the last Rc do more. A program that uses references as the borrow checker allows (shared ones of deref, with writes to cells only, or the unique one of get_mut or of the destructor until the next call on the Rc) has no undefined behaviour, if it doesn't put a new Rc in memory that was taken by Weak::try_unwrap inside of the destructor of the value that was there; that one is always undefined behaviour if the type of that value is Unpin and not zero-sized.", "quantifier": "all targets, memories apart from each other, types (with any parts inside of an UnsafeCell, Unpin or not), and programs of new, clone, downgrade, upgrade, the counts, drop, deref, get_mut, try_unwrap, into_raw, from_raw, Weak::try_unwrap, accesses through all references that the client has or makes from them, and calls with protected arguments", "why_tests_cant": "Miri checks the programs it runs; that the references made in each method (to the whole RcBox in those of Rc, to one counter in those of Weak) never invalidate another one must hold for every interleaving with client accesses.", "anchors": ["without-alloc/src/rc.rs: Rc, Weak, all methods and impls of Clone, Drop and Deref", "without-alloc/src/uninit.rs: Uninit::{init, as_ref, into_ref}"]}
{"id": "C103", "title": "Uninit, Box, LeakBox, FixedVec and Drain follow the aliasing rules", "statement": "Under the aliasing rules that Miri checks (Stacked Borrows), a program that splits memory into Uninits, and puts values, Boxes, LeakBoxes and FixedVecs (with Drains) in them, and uses references as the borrow checker allows (shared ones of deref or as_slice, with writes to cells only; or the unique one of deref_mut, as_mut_slice, init, leak or of a destructor, until the next call on the same region) never has undefined behaviour. No other client access, allowed or not, to one region has an effect on another: a call on a region changes only the borrows of its own bytes, its answer depends only on these, and no other region that can be used has a byte in it (what was lent by split_borrowed can't be used by the vector until it is dropped). Two methods are excluded, and each is shown to break this: Uninit<()>::split_at_byte (its parts overlap, C34), after which such a program has undefined behaviour, and as_mut of the first part of Uninit<[T]>::split_at (its length is stale, C36), which ends references to the other part.", "quantifier": "all targets, memories apart from each other, types (with any parts inside of an UnsafeCell, Unpin or not), and programs of cast_slice, as_memory, split_at, cast and init, Box::{new, deref, deref_mut, take, into_raw, leak, drop}, LeakBox::{write, deref, deref_mut, take, into_raw, leak, drop}, FixedVec::{new, from_unaligned, push, pop, fill, extend, truncate, clear, as_slice, as_mut_slice, as_ptr, split_borrowed, split_and_shrink_to, shrink_to_fit, drain, drop}, Drain::{next, next_back, as_slice, as_mut_slice, drop}, destructors that return or panic, accesses through references, and calls with protected arguments", "why_tests_cant": "Miri checks the programs it runs; that the reference or raw pointer that each method makes stays inside of its part, and never ends one that the client still may use, must hold for every history of splits, borrows and calls.", "anchors": ["without-alloc/src/uninit.rs: Uninit", "without-alloc/src/boxed.rs: Box", "without-alloc/src/fixed_vec.rs: FixedVec, Drain", "static-alloc/src/leaked.rs: LeakBox"]}
{"id": "C104", "title": "Chain follows the aliasing rules, and its blocks are separate allocations", "statement": "Under the aliasing rules that Miri checks (Stacked Borrows), no call of Chain has undefined behaviour: not new, bump_box, capacity, remaining_capacity, and not chain or drop, which make Boxes of links again from raw pointers and free whole lists of links while other links are in use. Every program with any number of chains gets the answers it would get if each block were an allocation of its own, which is gone when its link is freed: an access through a pointer to one block never ends a pointer to another, whatever calls come in between. In particular, plain reads and writes through pointers from bump_box are never undefined behaviour as long as the link exists.", "quantifier": "all targets, heaps, histories of any length of new, chain, bump_box, capacity, remaining_capacity and drop of any number of chains, with reads, writes, new references and calls with protected arguments of the client in between", "why_tests_cant": "Miri checks the programs it runs; that the Boxes made from raw pointers on the way down a list never end a reference to a block of a link that stays must hold for every shape of the lists and every order of calls.", "anchors": ["static-alloc/src/unsync/chain.rs: Chain, Link"]}
{"id": "C105", "title": "Threads sharing a Bump follow the aliasing rules", "statement": "Under the aliasing rules that Miri checks (Stacked Borrows), threads that share a Bump (a static, or a variable lent to them) never cause undefined behaviour inside of the library, however the scheduler orders their steps: a switch may come between any two references that a call makes, before and after its access to the counter, and between the write of a value and the reference to it. Every program gets the answers it would get if each block were an allocation of its own: an access to one block never ends a pointer to another, whatever the other threads are doing. Plain reads and writes through the pointers that the threads got are never undefined behaviour. The calls, with all of these steps in between, are linearizable. Every call returns after a number of its own steps bounded by the size of the slab, whatever the other threads do.", "quantifier": "all targets, places of the Bump, numbers of threads, calls (alloc, alloc_at, get, get_at, level, leak, leak_at, leak_box, leak_box_at), schedules of any length at the grain of single references and accesses, and accesses, new references, protected calls and reset of the client in between", "why_tests_cant": "Miri runs one schedule of one program; that no interleaving of the references made by concurrent calls ends a pointer another thread is using must hold for all of them.", "anchors": ["static-alloc/src/bump.rs: Bump, Bump::try_alloc_at, Bump::try_alloc, Bump::bump, Bump::leak, Bump::leak_at, Bump::leak_box, Bump::level, Allocation::leak, Allocation::boxed"]}
{"id": "C106", "title": "Threads sharing a Bump follow Tree Borrows too", "statement": "Under the other proposal for Rust's aliasing rules (Tree Borrows, which Miri also checks), threads that share a Bump never cause undefined behaviour inside of the library, in a new reference to the Bump, in reset, or in any step of any call, however the scheduler orders their steps. Every program gets the answers it would get if each block were an allocation of its own with a tree of pointers of its own: an access to one block never changes what may be done through a pointer to another, and an access of the client is undefined behaviour exactly if it is by the rules on the block alone. Plain reads and writes through the pointers that the threads got are never undefined behaviour. The calls are linearizable. Every call returns after a number of its own steps bounded by the size of the slab, whatever the other threads do.", "quantifier": "all targets, places of the Bump, numbers of threads, calls (alloc, alloc_at, get, get_at, level, leak, leak_at, leak_box, leak_box_at), types with and without interior mutability, schedules of any length at the grain of single references and accesses, and accesses, new references to parts of values and reset of the client in between", "why_tests_cant": "Miri runs one schedule of one program under one of the two models; that the library is sound under both, for every client, must hold for all of them.", "anchors": ["static-alloc/src/bump.rs: Bump, Bump::try_alloc_at, Bump::try_alloc, Bump::bump, Bump::leak, Bump::leak_at, Bump::leak_box, Bump::level, Bump::reset, Allocation::leak, Allocation::boxed"]}
{"id": "C107", "title": "ExitStack under Tree Borrows", "statement": "Under the other proposal for Rust's aliasing rules (Tree Borrows), programs that use an ExitStack get the answers they would get if each pinned value were an allocation of its own, of which the stack keeps a raw pointer: the destructors run last value first, each with a new reference to its value; an access of the client is undefined behaviour exactly if it is by the rules on the value alone. slot, pin and pop_all themselves are never undefined behaviour, whether the memory type is Unpin or not, and neither are reads and writes through the last reference to each value. There is one exception: if the memory type is Unpin (such as an array of bytes), pop_all freezes the values that are Unpin, so that every write to one of those by a destructor is undefined behaviour; reads are not.", "quantifier": "all targets, places of the ExitStack, memory types (Unpin or not), layouts of values, each Unpin or not and with or without interior mutability, programs of any length of new references, slot, pin, pop_all (or drop), accesses and new references to parts of values by the client and by destructors, destructors that return or panic, and all placements", "why_tests_cant": "Miri runs one program under one of the two models; which programs are fine with which memory type must be known for all of them.", "anchors": ["exit-stack/src/lib.rs: ExitStack::slot, Slot::pin, Slot::pin_local, ExitStack::pop_all, ExitStack::inner_pop_all_with_unsafe_self_and_pinned", "static-alloc/src/unsync/bump.rs: Bump::bump_box, Bump::reset, Deref, DerefMut", "static-alloc/src/leaked.rs: LeakBox::from, LeakBox::write"]}
{"id": "C108", "title": "Unsync Bump and MemBump under Tree Borrows", "statement": "Under the other proposal for Rust's aliasing rules (Tree Borrows), programs that use an unsync Bump (a variable, of a type that is Unpin or not) or a MemBump in a LeakBox get the answers they would get if each block were an allocation of its own: an access of the client is undefined behaviour exactly if it is by the rules on the block alone. The calls themselves (alloc, get, get_at, alloc_at, bump_box, bump_array, level, reset, and what an allocation is turned into: a leaked reference, a LeakBox, a Box) are never undefined behaviour, and programs that only read and write through the pointers they got have none at all, however the accesses and calls are interleaved.", "quantifier": "all targets, places of the Bump, kinds (Unpin or not, or a MemBump), layouts and types of values (Unpin or not, with or without interior mutability), programs of any length of new references to the Bump, calls, resets, accesses and new references to parts of blocks, and all interleavings of them", "why_tests_cant": "Miri runs one program under one of the two models; undefined behaviour has to be ruled out for all of them.", "anchors": ["static-alloc/src/unsync/bump.rs: Bump::new, MemBump::from_mem, alloc, get, get_at, alloc_at, bump_box, bump_array, try_alloc, level, reset, Deref, DerefMut", "static-alloc/src/bump.rs: Allocation::leak, Allocation::boxed", "static-alloc/src/leaked.rs: LeakBox::from, DerefMut"]}
{"id": "C109", "title": "Rc and Weak under Tree Borrows", "statement": "Under the other proposal for Rust's aliasing rules (Tree Borrows), whatever programs do with without_alloc's Rcs and Weaks, no call of the library (new, clone, downgrade, upgrade, strong_count, weak_count, deref, get_mut, try_unwrap, into_raw, from_raw, drop) is undefined behaviour, and programs whose accesses use references as the borrow checker allows have none at all, also in destructors and if the memory of a value is used for another Rc while its destructor runs. The counts are those of the handles, upgrade fails exactly if there is no strong one, get_mut and into_raw succeed exactly for the only handle, try_unwrap and the destructor on drop exactly for the last strong one, and the other calls of a Weak leave the permissions of all references at all bytes of all values alone.", "quantifier": "all targets, sets of memories apart from each other, types of values (with or without interior mutability in any of their parts, Unpin or not), programs of any length of calls on any handles, returns of destructors, accesses and new references to parts of values, and all interleavings of them", "why_tests_cant": "Miri runs one program under one of the two models; undefined behaviour has to be ruled out for all of them.", "anchors": ["without-alloc/src/rc.rs: Rc::new, Rc::clone, Rc::downgrade, Rc::try_unwrap, Rc::into_raw, Rc::from_raw, Rc::get_mut, Rc::strong_count, Rc::weak_count, Deref, Drop, Weak::upgrade, Weak::try_unwrap, Weak::clone, Weak::drop", "without-alloc/src/uninit.rs: Uninit::init, Uninit::as_ref, Uninit::into_ref"]}
