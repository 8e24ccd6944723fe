{"claims": [
{"property": "C01", "status": "proved", "theorems": ["C01_blocks_good_and_disjoint"], "note": ""},
{"property": "C02", "status": "proved", "theorems": ["C02_concurrent_blocks_good_and_disjoint"], "note": ""},
{"property": "C03", "status": "proved", "theorems": ["C03_alloc_iff_fits", "C03_get_is_alloc"], "note": ""},
{"property": "C04", "status": "proved", "theorems": ["C04_levels_monotone", "C04_level_accounting"], "note": ""},
{"property": "C05", "status": "proved", "theorems": ["C05_alloc_at_outcomes"], "note": ""},
{"property": "C06", "status": "proved", "theorems": ["C06_chain_is_reprC", "C06_chain_complete"], "note": ""},
{"property": "C07", "status": "proved", "theorems": ["C07_exhausted_is_stable", "C07_no_later_call_succeeds"], "note": ""},
{"property": "C08", "status": "proved", "theorems": ["C08_alloc_is_wait_free"], "note": ""},
{"property": "C09", "status": "proved", "theorems": ["C09_reset_is_fresh", "C09_reset_keeps_bytes"], "note": ""},
{"property": "C10", "status": "proved", "theorems": ["C10_bump_is_linearizable"], "note": ""},
{"property": "C11", "status": "proved", "theorems": ["C11_zst_never_consumes"], "note": ""},
{"property": "C12", "status": "proved", "theorems": ["C12_leak_stores_or_returns", "C12_leak_at_stores_or_returns", "C12_leak_box_stores_or_drops", "C12_leak_box_at_stores_or_drops", "C12_box_drop_sees_its_value", "C12_values_dropped_at_most_once"], "note": ""},
{"property": "C13", "status": "proved", "theorems": ["C13_realloc", "C13_local_realloc"], "note": ""},
{"property": "C14", "status": "proved", "theorems": ["C14_dealloc_frees_nothing"], "note": ""},
{"property": "C15", "status": "proved", "theorems": ["C15_zeroed_is_zero_and_local"], "note": ""},
{"property": "C16", "status": "proved", "theorems": ["C16_zeroed_slab_hands_out_zeroes", "C16_zeroed_after_reset_refuted"], "note": "The documented claim fails after reset of written memory; refuted by an explicit history."},
{"property": "C17", "status": "proved", "theorems": ["C17_panics_exactly_when_documented"], "note": ""},
{"property": "C18", "status": "proved", "theorems": ["C18_unsync_matches_sync", "C18_unsync_zst_panics", "C18_unsync_blocks_good_and_disjoint", "C18_unsync_alloc_iff_fits"], "note": ""},
{"property": "C19", "status": "proved", "theorems": ["C19_unsync_no_unreachable", "C19_bump_box_is_alloc"], "note": ""},
{"property": "C20", "status": "proved", "theorems": ["C20_from_mem"], "note": ""},
{"property": "C21", "status": "proved", "theorems": ["C21_memory_round_trip"], "note": ""},
{"property": "C22", "status": "proved", "theorems": ["C22_deref_data_region", "C22_deref_covers_storage_refuted"], "note": "Finding: over-aligned T panics in debug and misplaces the data region in release."},
{"property": "C23", "status": "proved", "theorems": ["C23_membump_new_fresh_iff_zeroed", "C23_new_is_empty_refuted"], "note": "Finding: MemBump::new never initialises the index."},
{"property": "C24", "status": "proved", "theorems": ["C24_get_unchecked_address", "C24_get_unchecked_refuted", "C24_get_unchecked_panics"], "note": "Finding: get_unchecked ignores alignment padding."},
{"property": "C25", "status": "proved", "theorems": ["C25_bump_array"], "note": ""},
{"property": "C26", "status": "proved", "theorems": ["C26_alloca_run", "C26_alloca_new", "C26_alloca_small_enough_refuted"], "note": ""},
{"property": "C27", "status": "proved", "theorems": ["C27_no_dangling_link", "C27_each_link_owned_or_freed_once", "C27_no_leak", "C27_effects", "C27_dealloc_layout"], "note": ""},
{"property": "C28", "status": "proved", "theorems": ["C28_newest_link_only", "C28_total_capacity_refuted"], "note": ""},
{"property": "C29", "status": "proved", "theorems": ["C29_split_at_partition"], "note": ""},
{"property": "C30", "status": "proved", "theorems": ["C30_split_at_byte", "C30_split_to_fit_in_bounds_refuted"], "note": "Finding: split_at_byte advances by k*size_of T bytes; in-bounds claim refuted for split_to_fit of a u32."},
{"property": "C31", "status": "proved", "theorems": ["C31_cast_exact", "C31_from_places"], "note": ""},
{"property": "C32", "status": "proved", "theorems": ["C32_capacity"], "note": ""},
{"property": "C33", "status": "proved", "theorems": ["C33_split_first", "C33_split_last"], "note": ""},
{"property": "C34", "status": "proved", "theorems": ["C34_shrink_to_fit"], "note": ""},
{"property": "C35", "status": "proved", "theorems": ["C35_split_layout_exact", "C35_split_cast_slice_exact", "C35_split_layout_skips_padding_refuted"], "note": "Finding: split_layout never skips padding, as align_offset is called on a pointer to ()."},
{"property": "C36", "status": "proved", "theorems": ["C36_stale_slice_pointer"], "note": "Finding: stale slice length in the fat pointer after split_at."},
{"property": "C37", "status": "proved", "theorems": ["C37_bounded_lists", "C37_writes_inside"], "note": ""},
{"property": "C38", "status": "proved", "theorems": ["C38_push", "C38_pop", "C38_replace", "C38_swap", "C38_swap_bounds"], "note": ""},
{"property": "C39", "status": "proved", "theorems": ["C39_accounting", "C39_exactly_once"], "note": ""},
{"property": "C40", "status": "proved", "theorems": ["C40_truncate"], "note": ""},
{"property": "C41", "status": "proved", "theorems": ["C41_drain", "C41_both_ends"], "note": ""},
{"property": "C42", "status": "proved", "theorems": ["C42_fill"], "note": ""},
{"property": "C43", "status": "proved", "theorems": ["C43_split"], "note": ""},
{"property": "C44", "status": "proved", "theorems": ["C44_extend", "C44_unfused_refuted"], "note": "Proved for fused iterators; finding: an iterator that resumes after None makes extend panic although there is room."},
{"property": "C45", "status": "proved", "theorems": ["C45_drain_bounds", "C45_release_wraps_refuted"], "note": "Exact for bounds with a successor or with overflow checks; finding: without overflow checks ..=usize::MAX is accepted as an empty range."},
{"property": "C46", "status": "proved", "theorems": ["C46_from_unaligned", "C46_unaligned_refuted"], "note": "Finding: misaligned memory gives capacity 0."},
{"property": "C47", "status": "proved", "theorems": ["C47_reference", "C47_counts"], "note": ""},
{"property": "C48", "status": "proved", "theorems": ["C48_exactly_once", "C48_last_strong", "C48_only_drop"], "note": ""},
{"property": "C49", "status": "proved", "theorems": ["C49_upgrade"], "note": ""},
{"property": "C50", "status": "proved", "theorems": ["C50_unique"], "note": ""},
{"property": "C51", "status": "proved", "theorems": ["C51_memory", "C51_calm", "C51_reentrant_refuted"], "note": "C51_memory and C51_calm prove the claim; C51_reentrant_refuted is the finding for destructors that use a Weak of their own allocation."},
{"property": "C52", "status": "proved", "theorems": ["C52_checked", "C52_upgrade_refuted", "C52_release_refuted"], "note": "C52_checked excludes only histories in which upgrade panics; C52_upgrade_refuted and C52_release_refuted are the findings, for every target and type layout."},
{"property": "C53", "status": "proved", "theorems": ["C53_new", "C53_round_trip", "C53_layout"], "note": ""},
{"property": "C54", "status": "proved", "theorems": ["C54_lifecycle", "C54_box_calls", "C54_new", "C54_raw_round_trip", "C54_places", "C54_cast"], "note": "Any sequence of Box calls by a client owning several Uninit places; the log of put/dropped/taken values for each place alternates, so each value is dropped at most once and never after being taken."},
{"property": "C55", "status": "proved", "theorems": ["C55_leakbox_calls", "C55_others", "C55_write"], "note": "Same client machine, LeakBox calls; forget/into_raw/leak keep the value undropped."},
{"property": "C56", "status": "proved", "theorems": ["C56_unsize", "C56_never_moves", "C56_box", "C56_uninit"], "note": "unsize for every pointer kind, arbitrary coercion function; includes the debug/release difference on a coercion that moves the address."},
{"property": "C57", "status": "proved", "theorems": ["C57_history", "C57_pop_all", "C57_pinned"], "note": "Byte-level model: links and vtable pointers are stored in the slots. history (ExitSpec) is the independent stack specification."},
{"property": "C58", "status": "proved", "theorems": ["C58_panicking_destructor", "C58_no_abort_in_pop", "C58_pin_guarantee_refuted"], "note": "Finding: values below a panicking one are lost and their memory is reused (C58_pin_guarantee_refuted); the abort loop of UnwindFlag never runs."},
{"property": "C59", "status": "proved", "theorems": ["C59_set", "C59_set_overaligned"], "note": "Finding for Mem aligned more strictly than usize: set panics (and in debug builds even dropping the stack panics)."},
{"property": "C60", "status": "proved", "theorems": ["C60_slots"], "note": ""},
{"property": "C62", "status": "proved", "theorems": ["C62_option", "C62_option_calls"], "note": ""},
{"property": "C63", "status": "proved", "theorems": ["C63_vec"], "note": ""},
{"property": "C64", "status": "proved", "theorems": ["C64_iter_mut", "C64_iter_mut_swap"], "note": ""},
{"property": "C65", "status": "proved", "theorems": ["C65_result_ok", "C65_result_err", "C65_result_full_refuted", "C65_result_not_well_behaved"], "note": "C65_result_full_refuted / C65_result_not_well_behaved: the documented behaviour ('a result is full if ... the container in Ok is full', 'iterator should be dropped and not exhausted when no more items can be pushed') is refuted of the code."},
{"property": "C66", "status": "proved", "theorems": ["C66_checked_fill", "C66_checked_fill_list", "C66_fused"], "note": ""},
{"property": "C67", "status": "proved", "theorems": ["C67_fill_count", "C67_fill_count_unit_result"], "note": ""},
{"property": "C68", "status": "proved", "theorems": ["C68_bump_honours", "C68_alloc_layout", "C68_alloc_t", "C68_boxed", "C68_rc", "C68_allocator_panics"], "note": ""},
{"property": "C69", "status": "proved", "theorems": ["C69_fixed_vec", "C69_capacity_refuted"], "note": "C69_capacity_refuted: 'exactly n' fails for allocators that return a larger layout than asked for, which the contract allows."},
{"property": "C70", "status": "proved", "theorems": ["C70_copy_slice", "C70_copy_str", "C70_zst_refuted", "C70_larger_block_refuted", "C70_copy_dst", "C70_copy_dst_empty_refuted"], "note": "Refuted parts: C70_zst_refuted (copies of zero-sized elements lose their length), C70_larger_block_refuted (uninitialised tail with over-allocating allocators), C70_copy_dst_empty_refuted (misaligned reference)."},
{"property": "C71", "status": "proved", "theorems": ["C71_alloc_zeroed", "C71_realloc", "C71_realloc_returned_size_refuted"], "note": "C71_realloc_returned_size_refuted: the documented guarantee for the size of the returned layout fails for over-allocating allocators."},
{"property": "C72", "status": "proved", "theorems": ["C72_clients_do_not_interfere"], "note": ""},
{"property": "C73", "status": "proved", "theorems": ["C73_relaxed_blocks_good_and_disjoint", "C73_relaxed_decisions_exact", "C73_relaxed_nonblocking", "C73_relaxed_wait_free"], "note": ""},
{"property": "C74", "status": "proved", "theorems": ["C74_nonzero_layout", "C74_layout_reallocated"], "note": ""},
{"property": "C75", "status": "proved", "theorems": ["C75_regions_disjoint", "C75_split_at_byte_overlap_refuted"], "note": "Proved for histories without the defective byte splits; overlap for those shown by a concrete history."},
{"property": "C76", "status": "proved", "theorems": ["C76_client_cannot_corrupt_index", "C76_blocks_are_independent_arrays", "C76_calls_write_only_the_header"], "note": ""},
{"property": "C77", "status": "proved", "theorems": ["C77_no_data_races", "C77_values_stay_intact"], "note": ""},
{"property": "C78", "status": "proved", "theorems": ["C78_bytes_reference", "C78_frame", "C78_counters"], "note": ""},
{"property": "C79", "status": "proved", "theorems": ["C79_bytes_reference", "C79_frame"], "note": ""},
{"property": "C80", "status": "proved", "theorems": ["C80_equal", "C80_partial_order", "C80_order", "C80_laws", "C80_hash", "C80_index", "C80_index_set", "C80_box", "C80_rc"], "note": "slice impls of core are modelled; element impls are arbitrary functions"},
{"property": "C81", "status": "proved", "theorems": ["C81_independent_objects", "C81_frame", "C81_bump_deterministic"], "note": ""},
{"property": "C82", "status": "proved", "theorems": ["C82_new", "C82_never_empty"], "note": "exact conditions and error sizes of Chain::new; live chains own at least one link"},
{"property": "C83", "status": "proved", "theorems": ["C83_reference", "C83_live_heap", "C83_boxes", "C83_frame"], "note": "chain.rs refined to byte memory: pointers, index and boxes in one heap block"},
{"property": "C84", "status": "proved", "theorems": ["C84_threads_independent_objects", "C84_separate_memories", "C84_threads_never_wait"], "note": "composition of C73 (relaxed slab) and C81 (containers); container code between accesses to the counter is one action, justified by disjointness (C84_separate_memories) and C77"},
{"property": "C85", "status": "proved", "theorems": ["C85_cells", "C85_frame"], "note": "The reference (OwnRefSpec.cell_step) has no memory; others may write anywhere outside of the memories handed to the owners."},
{"property": "C86", "status": "proved", "theorems": ["C86_ideal_heap", "C86_others_unaffected", "C86_no_influence"], "note": "The ideal heap (HeapSpec.v) shares with the model only layouts, `align_up`, the names of calls and answers, and `from_size_align`. A byte never written (or grown by realloc) is unspecified. A `LeakError` of leak gives the value back itself; leak_box* drop it on failure, as the code does (bump.rs:532-549)."},
{"property": "C87", "status": "proved", "theorems": ["C87_drain_is_queue", "C87_every_element_once", "C87_drain_bytes"], "note": "C87_drain_is_queue on elements (FixedVecModel), C87_drain_bytes on bytes (FixedVecMemModel). A caught panic of an out-of-range index leaves the drain usable, as in the code."},
{"property": "C88", "status": "proved", "theorems": ["C88_ideal_stack", "C88_others_unaffected", "C88_slot_exact", "C88_initial_memory"], "note": "As in C57: destructors are taken to change no pinned value but their own. Vtables are numbers that determine the layout of the type."},
{"property": "C89", "status": "proved", "theorems": ["C89_unsized_values", "C89_no_panic", "C89_drop_elements"], "note": "The compiler is trusted for the vtable of a type holding its size, alignment and drop glue (the hypothesis true_table), and for the coercion functions of the macros doing what an unsizing coercion does."},
{"property": "C90", "status": "proved", "theorems": ["C90_one_thread", "C90_threads_relaxed", "C90_sequentially_consistent_is_relaxed", "C90_threads", "C90_tight", "C90_array_of_T"], "note": "C90_one_thread from any reachable state; C90_threads(_relaxed) for any schedule; C90_array_of_T exact for arrays; C90_tight: one byte less can fail."},
{"property": "C91", "status": "proved", "theorems": ["C91_calls_work_or_refuse", "C91_unsync_calls_work_or_refuse", "C91_sequential", "C91_unsync", "C91_threads", "C91_from_mem", "C91_casts", "C91_splits"], "note": "C91_threads is for the relaxed machine of C73 with an adversarial answer at each access. Functions that unwrap a cast (alloc_t, Rc, invent_for_zst) would panic; not part of the claim."},
{"property": "C92", "status": "proved", "theorems": ["C92_truncate", "C92_clear", "C92_drop", "C92_drain", "C92_fill", "C92_extend"], "note": "respects/apart are the borrow rules: the vector is borrowed mutably during the call. A panic while the thread unwinds ends the process at once, as rust_panic_with_hook did at the time of the pinned commit."},
{"property": "C93", "status": "proved", "theorems": ["C93_drop", "C93_vec_drop", "C93_truncate", "C93_drain", "C93_move", "C93_frame"], "note": "Leaf destructors are effectful but may not change other owned memory (they could only do so through unsafe code or interior mutability). n_drop takes fuel: the theorem says that all large fuel agrees, i.e. it terminates."},
{"property": "C94", "status": "proved", "theorems": ["C94_one_chain", "C94_one_winner_per_level", "C94_nothing_in_between", "C94_levels_in_real_time", "C94_mismatch_means_progress", "C94_relaxed"], "note": "Decisions (ELin) are the points at which calls get their result; returned calls are a subset of them."},
{"property": "C95", "status": "proved", "theorems": ["C95_nested_allocators_refine", "C95_no_index_is_lost"], "note": "Interleaving of any number of nested allocators; the borrow rules are part of the model (operations that they forbid answer 'invalid')."},
{"property": "C96", "status": "proved", "theorems": ["C96_graphs_refine", "C96_specification_determines", "C96_reachable_values_are_alive", "C96_only_cycles_leak", "C96_every_value_once", "C96_counters_never_fail"], "note": "Memory of the boxes is separate per value here (C51, C52 are about it); the depth of the stack is not modelled."},
{"property": "C97", "status": "proved", "theorems": ["C97_concurrent_ideal_heap", "C97_no_data_races", "C97_never_waits"], "note": "alloc_zeroed is the default of core's GlobalAlloc, taken as alloc and then write_bytes."},
{"property": "C98", "status": "proved", "theorems": ["C98_not_unpin", "C98_moved_while_empty", "C98_moved_with_value_refuted", "C98_unpin_refuted", "C98_forgotten_refuted"], "note": "The sound cases are theorems; that moving or forgetting with live values breaks the stack is proved as `_refuted` theorems."},
{"property": "C99", "status": "proved", "theorems": ["C99_blocks_are_separate", "C99_library_never_ub", "C99_plain_programs_never_ub", "C99_calls_unchanged", "C99_client_accesses"], "note": "The rules of Stacked Borrows are part of the model (BorrowModel), as they are the specification; SyncModel's results are proved unchanged."},
{"property": "C100", "status": "proved", "theorems": ["C100_blocks_are_separate", "C100_library_never_ub", "C100_plain_programs_never_ub", "C100_calls_unchanged", "C100_client_steps"], "note": "The rules are those of BorrowModel; UnsyncModel's results are proved unchanged. Padding at the end of Bump<T> is not modelled."},
{"property": "C101", "status": "proved", "theorems": ["C101_values_are_separate", "C101_library_never_ub", "C101_last_reference_never_ub", "C101_unpin_memory_ub", "C101_calls_unchanged", "C101_any_memory_never_ub_refuted"], "note": "Simplifications: the chain of pinned values is a list (that it is the list in memory is C57 and C88), ExitStack::drop is pop_all, and Slot::pin's place in the chain is a read and a write of top. The last sentence is a finding (DESIGN section 5)."},
{"property": "C102", "status": "proved", "theorems": ["C102_values_are_separate", "C102_polite_never_ub", "C102_weak_never_ub", "C102_reuse_in_destructor_ub", "C102_new_needs_room"], "note": "Simplifications: a reference that a method returns is made once (the client can make it again), padding is left out (nobody has a reference to it), every value has a destructor, overflow of counters is C52, the Uninit of into_raw is not accessed until from_raw, and a destructor does not access the value after its memory was taken. The last sentence of the statement is a finding (DESIGN section 5; without the aliasing rules it is C51)."},
{"property": "C103", "status": "proved", "theorems": ["C103_polite_never_ub", "C103_calls_are_local", "C103_byte_split_ub", "C103_stale_slice_ub", "C103_vector_lengths"], "note": "Simplifications: a reference that a method returns is made once (the client can make it again), the pointer of an Uninit has the tag of its memory as a SharedRW item (from_maybe_uninit's own reference is not made), counters and pointers of the structs are not in memory, values are not in memory (only borrows), and every value has a destructor. The excluded methods are findings (DESIGN section 5; without the aliasing rules they are C34 and C36). A LeakBox is one over memory from a Bump (a raw pointer); one made from a &mut has that reference below its pointer and nobody uses it."},
{"property": "C104", "status": "proved", "theorems": ["C104_blocks_are_separate", "C104_library_never_ub", "C104_plain_programs_never_ub", "C104_calls_unchanged", "C104_client_accesses"], "note": "Simplifications: padding at the end of a link and the variable of the Chain itself (one Cell) are not modelled; the type in a LeakBox is Unpin or not but has no cells inside. The borrow checker's rule that a chain is not dropped or moved while a call in progress has a reference to one of its blocks is a hypothesis, and an example shows that it is needed."},
{"property": "C105", "status": "proved", "theorems": ["C105_blocks_are_separate", "C105_library_never_ub", "C105_plain_programs_never_ub", "C105_linearizable", "C105_calls_return"], "note": "The counter has one value at a time (all accesses are SeqCst; C73 treats weaker orderings, C77 the races on contents). The references made from arguments of the library have no protectors, as they are shared and inside of UnsafeCells. Linearizability is stated for programs without reset, which needs that no thread is in a call."},
{"property": "C106", "status": "proved", "theorems": ["C106_blocks_are_separate", "C106_library_never_ub", "C106_plain_programs_never_ub", "C106_linearizable", "C106_calls_return", "C106_client_accesses"], "note": "Without protectors. The counter has one value at a time (as in C105). The rules are those of the Tree Borrows paper, with the treatment of interior mutability per byte of the reference's type."},
{"property": "C107", "status": "proved", "theorems": ["C107_values_are_separate", "C107_library_never_ub", "C107_last_reference_never_ub", "C107_unpin_memory_destructors_cannot_write", "C107_calls_unchanged", "C107_destructors_may_write_refuted"], "note": "Without protectors; same programs as C101. With a Mem that is not Unpin nothing is excluded. C107_destructors_may_write_refuted: with an Unpin Mem a destructor's write to its own (Unpin) value is undefined behaviour."},
{"property": "C108", "status": "proved", "theorems": ["C108_blocks_are_separate", "C108_library_never_ub", "C108_plain_programs_never_ub", "C108_calls_unchanged", "C108_client_steps"], "note": "Without protectors; same programs as C100, without the calls that protect their arguments."},
{"property": "C109", "status": "proved", "theorems": ["C109_library_never_ub", "C109_polite_never_ub", "C109_counts", "C109_uniqueness", "C109_weak_never_touches"], "note": "Without protectors of function arguments; same programs as C102 without the client's functions."}
]}
