{
 "claims": [
  {
   "property": "C01",
   "status": "proved",
   "theorems": [
    "C01_success_atomic",
    "C01_refines_indivisible_helpers"
   ],
   "note": "all architectures; per call and as a refinement of the whole program"
  },
  {
   "property": "C02",
   "status": "proved",
   "theorems": [
    "C02_mismatch"
   ],
   "note": ""
  },
  {
   "property": "C03",
   "status": "proved",
   "theorems": [
    "C03_abort_never_publishes",
    "C03_results"
   ],
   "note": ""
  },
  {
   "property": "C04",
   "status": "proved",
   "theorems": [
    "C04_exclusion",
    "C04_interrupted_aborts",
    "C04_handler_never_inside"
   ],
   "note": ""
  },
  {
   "property": "C05",
   "status": "proved",
   "theorems": [
    "C05_wrong_cpu",
    "C05_writes_on_right_cpu"
   ],
   "note": ""
  },
  {
   "property": "C06",
   "status": "partial",
   "theorems": [
    "C06_unregistered_mm_cid_refuted",
    "C06_unregistered_partial"
   ],
   "note": "refuted for mm_cid with cpu argument 0; proved for every other cpu argument"
  },
  {
   "property": "C07",
   "status": "proved",
   "theorems": [
    "C07_error_exits_unreachable"
   ],
   "note": ""
  },
  {
   "property": "C08",
   "status": "proved",
   "theorems": [
    "C08_never_killed",
    "C08_descriptors"
   ],
   "note": ""
  },
  {
   "property": "C09",
   "status": "proved",
   "theorems": [
    "C09_every_architecture"
   ],
   "note": ""
  },
  {
   "property": "C10",
   "status": "proved",
   "theorems": [
    "C10_progress"
   ],
   "note": ""
  },
  {
   "property": "C11",
   "status": "proved",
   "theorems": [
    "C11_counter_sum",
    "C11_counter_test"
   ],
   "note": ""
  },
  {
   "property": "C12",
   "status": "proved",
   "theorems": [
    "C12_lock_excludes"
   ],
   "note": ""
  },
  {
   "property": "C13",
   "status": "proved",
   "theorems": [
    "C13_list_conserved",
    "C13_racy_loads"
   ],
   "note": ""
  },
  {
   "property": "C14",
   "status": "proved",
   "theorems": [
    "C14_buffers_are_stacks",
    "C14_racy_loads"
   ],
   "note": ""
  },
  {
   "property": "C15",
   "status": "proved",
   "theorems": [
    "C15_records_are_whole",
    "C15_racy_loads"
   ],
   "note": ""
  },
  {
   "property": "C16",
   "status": "proved",
   "theorems": [
    "C16_dispatch"
   ],
   "note": ""
  },
  {
   "property": "C17",
   "status": "proved",
   "theorems": [
    "C17_not_through_old",
    "C17_not_through_old_all",
    "C17_list_stable",
    "C17_list_stable_all",
    "C17_without_barrier_refuted"
   ],
   "note": "for CPU_ID builds with the barrier on one CPU, and for both builds with the barrier on all CPUs; also for the counters of the membarrier test; a refuted theorem shows that the barrier is needed"
  },
  {
   "property": "C18",
   "status": "proved",
   "theorems": [
    "C18_release",
    "C18_release_contents",
    "C18_release_reads",
    "C18_relaxed_tso",
    "C18_relaxed_refuted"
   ],
   "note": "proved for the RELEASE variants on all architectures and for all variants where stores stay in order; a refuted theorem shows a run of the relaxed variants on each other architecture where they do not"
  },
  {
   "property": "C19",
   "status": "proved",
   "theorems": [
    "C19_prepared",
    "C19_never_called",
    "C19_unload_safe"
   ],
   "note": ""
  },
  {
   "property": "C20",
   "status": "proved",
   "theorems": [
    "C20_live_items_listed_once",
    "C20_live_items_disjoint",
    "C20_apart_from_bookkeeping"
   ],
   "note": ""
  },
  {
   "property": "C21",
   "status": "proved",
   "theorems": [
    "C21_aligned_and_mapped",
    "C21_one_place_per_item_and_cpu",
    "C21_overflow_detected_refuted",
    "C21_narrow_overflow_detected_refuted"
   ],
   "note": "sizes whose products overflow size_t are excluded (fits) from the positive theorems; C21_overflow_detected_refuted shows the code does not detect them; the refuted statements show sizes whose product overflows size_t, in a 64-bit program with a huge stride and in a 32-bit one with the default stride and 65537 CPUs"
  },
  {
   "property": "C22",
   "status": "proved",
   "theorems": [
    "C22_zmalloc_zeroes",
    "C22_zmalloc_zeroes_concurrently",
    "C22_call_is_allocation_then_fill"
   ],
   "note": ""
  },
  {
   "property": "C23",
   "status": "proved",
   "theorems": [
    "C23_malloc_init_content",
    "C23_malloc_init_concurrently",
    "C23_too_long"
   ],
   "note": ""
  },
  {
   "property": "C24",
   "status": "proved",
   "theorems": [
    "C24_live_items_keep_their_bytes"
   ],
   "note": ""
  },
  {
   "property": "C25",
   "status": "proved",
   "theorems": [
    "C25_capacity_never_exceeded",
    "C25_null_when_full",
    "C25_null_only_when_full",
    "C25_room_is_usable"
   ],
   "note": ""
  },
  {
   "property": "C26",
   "status": "proved",
   "theorems": [
    "C26_last_freed_first",
    "C26_fresh_otherwise"
   ],
   "note": ""
  },
  {
   "property": "C27",
   "status": "proved",
   "theorems": [
    "C27_double_free_aborts",
    "C27_free_of_a_live_item_succeeds"
   ],
   "note": ""
  },
  {
   "property": "C28",
   "status": "proved",
   "theorems": [
    "C28_leak_aborts",
    "C28_destroy_aborts_iff_leak"
   ],
   "note": ""
  },
  {
   "property": "C29",
   "status": "proved",
   "theorems": [
    "C29_free_poisons",
    "C29_write_to_freed_item_aborts"
   ],
   "note": ""
  },
  {
   "property": "C30",
   "status": "proved",
   "theorems": [
    "C30_no_false_alarm"
   ],
   "note": ""
  },
  {
   "property": "C31",
   "status": "proved",
   "theorems": [
    "C31_corrupt_links_detected",
    "C31_links_are_there"
   ],
   "note": "a link at a misaligned address may be read outside of the mapping (Undef in the theorem)"
  },
  {
   "property": "C32",
   "status": "proved",
   "theorems": [
    "C32_others_give_EINVAL",
    "C32_created_pool",
    "C32_every_length_validated_refuted",
    "C32_accepted_does_not_abort_refuted"
   ],
   "note": "32- and 64-bit programs; refuted for item lengths over half of size_t, where the code shifts by the width of the type, and for a 64-bit stride of 2^63, which is accepted and aborts; sizes whose products overflow size_t are excluded (fits) from C32_created_pool"
  },
  {
   "property": "C33",
   "status": "proved",
   "theorems": [
    "C33_aligned_mapping",
    "C33_other_arguments_refused"
   ],
   "note": ""
  },
  {
   "property": "C34",
   "status": "proved",
   "theorems": [
    "C34_malloc_smallest_with_room",
    "C34_zmalloc_smallest_with_room",
    "C34_no_false_alarm",
    "C34_add_pool",
    "C34_entries_are_pools",
    "C34_destroy",
    "C34_destroy_after_all_freed"
   ],
   "note": ""
  },
  {
   "property": "C35",
   "status": "partial",
   "theorems": [
    "C35_malloc_init_zeroes_instead",
    "C35_malloc_init_content_refuted"
   ],
   "note": "the property is refuted by a concrete history; proved instead: the item is zero-filled and otherwise served as C34 says"
  },
  {
   "property": "C36",
   "status": "partial",
   "theorems": [
    "C36_destroy_unmaps",
    "C36_unmap_failure_reported_refuted"
   ],
   "note": "on success everything is unmapped; refuted for failures of munmap, which are not reported"
  },
  {
   "property": "C37",
   "status": "proved",
   "theorems": [
    "C37_child_sees_only_headers",
    "C37_destroy_in_child",
    "C37_destroy_always_possible_in_child_refuted"
   ],
   "note": "refuted as an unconditional statement: the leak check of a robust pool aborts in the child"
  },
  {
   "property": "C38",
   "status": "partial",
   "theorems": [
    "C38_reads_as_initialised_partial",
    "C38_no_false_report_partial",
    "C38_stores_kept",
    "C38_reads_as_initialised_refuted",
    "C38_no_false_report_refuted"
   ],
   "note": "the program's own stores are kept on every kernel; the initialised content is read on every CPU in COW_ZERO pools, and in COW_INIT pools if the kernel does not let threads read a page while copying it; refuted otherwise: a stale copy is installed after the comparison (and malloc then reports a corruption that did not happen)"
  },
  {
   "property": "C39",
   "status": "proved",
   "theorems": [
    "C39_idle_cpu",
    "C39_idle_part"
   ],
   "note": "for whole CPUs, and for any part of whole pages and whole items: an item that spans several pages is stored as a whole, so its untouched pages are written too"
  },
  {
   "property": "C40",
   "status": "proved",
   "theorems": [
    "C40_numa",
    "C40_invalid",
    "C40_distinct"
   ],
   "note": ""
  },
  {
   "property": "C41",
   "status": "proved",
   "theorems": [
    "C41_count_order",
    "C41_fls_u64",
    "C41_fls_u32",
    "C41_is_pow2",
    "C41_offset_align",
    "C41_align",
    "C41_hweight"
   ],
   "note": ""
  },
  {
   "property": "C42",
   "status": "proved",
   "theorems": [
    "C42_array_len",
    "C42_cached",
    "C42_long_masks_refuted"
   ],
   "note": "masks that do not fit the 4095-byte buffer are refuted (the result comes from a fallback or a truncated number); the concurrent update of the cached value is not modelled"
  },
  {
   "property": "C43",
   "status": "partial",
   "theorems": [
    "C43_fallback_partial",
    "C43_never_negative",
    "C43_unrepresentable_ignored",
    "C43_overflow_refuted",
    "C43_forgets_directories_refuted",
    "C43_sysconf_twice_refuted"
   ],
   "note": "refuted as an unconditional statement: a directory or sysconf value of INT_MAX overflows int, directory numbers outside int are dropped or truncated, sysconf is called twice"
  },
  {
   "property": "C44",
   "status": "proved",
   "theorems": [
    "C44_once",
    "C44_visible"
   ],
   "note": "threads race under a release/acquire memory model"
  },
  {
   "property": "C45",
   "status": "partial",
   "theorems": [
    "C45_results",
    "C45_fails_without_kernel",
    "C45_aborts_only_on_double",
    "C45_size",
    "C45_unregister_partial",
    "C45_unregister_refuted"
   ],
   "note": "every thread can unregister only if the feature size of the kernel is at most 32; refuted otherwise (the first thread registers 32 bytes and unregisters with the feature size)"
  },
  {
   "property": "C46",
   "status": "partial",
   "theorems": [
    "C46_fields",
    "C46_fields_uninitialised",
    "C46_libc_query_partial",
    "C46_kernel_query",
    "C46_other_query",
    "C46_libc_query_refuted"
   ],
   "note": "the query about libc is right for threads that initialisation happened before; refuted before rseq_init and after rseq_exit"
  },
  {
   "property": "C47",
   "status": "proved",
   "theorems": [
    "C47_init",
    "C47_list_add",
    "C47_list_add_tail",
    "C47_list_del",
    "C47_list_del_init",
    "C47_list_move_same",
    "C47_list_move_other",
    "C47_list_replace",
    "C47_list_replace_init",
    "C47_list_replace_head",
    "C47_list_replace_init_empty_refuted",
    "C47_list_splice",
    "C47_list_empty",
    "C47_list_first",
    "C47_other_lists"
   ],
   "note": "list_replace_init on an empty list is refuted: the new head is left pointing to the old one"
  },
  {
   "property": "C48",
   "status": "proved",
   "theorems": [
    "C48_for_each",
    "C48_for_each_prev",
    "C48_for_each_safe",
    "C48_for_each_safe_from",
    "C48_for_each_prev_safe",
    "C48_removal_body"
   ],
   "note": ""
  },
  {
   "property": "C49",
   "status": "partial",
   "theorems": [
    "C49_setters_documented",
    "C49_setters_exactly",
    "C49_results",
    "C49_only_documented_refuted",
    "C49_max_nr_cpus",
    "C49_new_object"
   ],
   "note": "proved for every sequence of setters and every attribute, except that rseq_mempool_attr_set_init also resets the populate policy (refuted theorem); rseq_mempool_create copies its attributes, so the model takes them by value"
  },
  {
   "property": "C50",
   "status": "proved",
   "theorems": [
    "C50_operands_preserved"
   ],
   "note": ""
  },
  {
   "property": "C51",
   "status": "partial",
   "theorems": [
    "C51_cpu_start",
    "C51_current_cpu_raw",
    "C51_validation",
    "C51_current_cpu",
    "C51_ids",
    "C51_node_guarded",
    "C51_node_answers",
    "C51_fallback_node",
    "C51_node_unregistered_refuted"
   ],
   "note": "proved for registered threads and, where it applies, unregistered ones; a refuted theorem shows that rseq_current_node_id() gives node 0 in an unregistered thread on another node"
  },
  {
   "property": "C52",
   "status": "proved",
   "theorems": [
    "C52_on_cpu",
    "C52_ordered"
   ],
   "note": "proved: where accesses happen, and the context switch between two accesses for one index"
  },
  {
   "property": "C53",
   "status": "proved",
   "theorems": [
    "C53_sequential",
    "C53_includes",
    "C53_counter",
    "C53_lists",
    "C53_buffers",
    "C53_records"
   ],
   "note": "for clients that follow the ownership discipline of ViewSpec.v, with the counters, lists and buffers as instances; loads do not return stores made later; the spinlock is C54"
  },
  {
   "property": "C54",
   "status": "proved",
   "theorems": [
    "C54_lock",
    "C54_includes",
    "C54_no_acquire_refuted",
    "C54_no_release_refuted"
   ],
   "note": "for zeroed locks; the effect of the release store and the acquire fence is that of their documentation, the instructions behind them are not modelled; the refuted theorems leave out one of them"
  },
  {
   "property": "C55",
   "status": "partial",
   "theorems": [
    "C55_branch_targets_partial",
    "C55_stepping_over",
    "C55_failures_recorded",
    "C55_recorded_are_failures",
    "C55_copy_teardown_refuted"
   ],
   "note": "the branch targets of the copies of four architectures (x86-64, LoongArch, MIPS, s390) are not recorded as documented, see C55_copy_teardown_refuted; that a debugger regains control is proved for all helpers"
  },
  {
   "property": "C56",
   "status": "partial",
   "theorems": [
    "C56_served",
    "C56_item",
    "C56_histories",
    "C56_steps_bounded",
    "C56_no_false_alarm",
    "C56_fails_only_without_room_refuted"
   ],
   "note": "the claim about failures holds for each size at its own instant of the call; that there is one instant for all sizes is refuted; the rest is proved"
  },
  {
   "property": "C57",
   "status": "proved",
   "theorems": [
    "C57_descriptors",
    "C57_descriptor_copies",
    "C57_descriptor_array",
    "C57_pointer_array",
    "C57_exit_point_array",
    "C57_signature",
    "C57_trap",
    "C57_pointer",
    "C57_fields",
    "C57_index"
   ],
   "note": ""
  },
  {
   "property": "C58",
   "status": "proved",
   "theorems": [
    "C58_never_fails",
    "C58_all_counted",
    "C58_without_barrier_refuted",
    "C58_one_cpu_for_mm_cid_refuted"
   ],
   "note": "x86-TSO store buffers, both index modes; the refuted theorems leave out the barrier, or use the one-CPU barrier in an mm_cid build"
  },
  {
   "property": "C59",
   "status": "proved",
   "theorems": [
    "C59_release_acquire",
    "C59_write_read_barriers",
    "C59_full_barrier",
    "C59_store_buffering",
    "C59_without_release_refuted",
    "C59_without_acquire_refuted",
    "C59_without_full_barrier_refuted",
    "C59_after_ctrl_dep_without_branch_refuted"
   ],
   "note": "all nine architectures (x86-64 and i386 counted apart); memory models as listed in DESIGN.md; the refuted theorems leave out release, acquire, the full barrier, or the branch"
  },
  {
   "property": "C60",
   "status": "partial",
   "theorems": [
    "C60_own_area",
    "C60_areas_differ",
    "C60_aligned",
    "C60_kernel_writes_partial",
    "C60_kernel_writes_1024",
    "C60_kernel_writes_refuted"
   ],
   "note": "own area, distinctness and alignment are proved in full; that the kernel stays inside the object is proved for feature sizes up to 32 and refuted for larger ones (the object has 32 bytes, not 1024)"
  },
  {
   "property": "C61",
   "status": "proved",
   "theorems": [
    "C61_structures_compose",
    "C61_shared_bytes_refuted"
   ],
   "note": ""
  },
  {
   "property": "C62",
   "status": "proved",
   "theorems": [
    "C62_structures_in_pools",
    "C62_pools_keep_theirs",
    "C62_stores_in_bounds",
    "C62_calls_possible",
    "C62_zeroed_words",
    "C62_refilled_item_refuted"
   ],
   "note": "proved for programs that leave the items in use alone; the refuted theorem fills such an item again"
  },
  {
   "property": "C63",
   "status": "proved",
   "theorems": [
    "C63_returned_was_computed",
    "C63_zero_after_own_failure",
    "C63_never_back_to_zero",
    "C63_same_for_all",
    "C63_first_call_fixes",
    "C63_may_change_refuted"
   ],
   "note": "the cache is a plain int read and written without a lock; its races have the meaning given in DESIGN.md. C63_may_change_refuted: without the two conditions of the statement, a thread can get two different lengths"
  },
  {
   "property": "C64",
   "status": "proved",
   "theorems": [
    "C64_no_misuse",
    "C64_descriptors_closed",
    "C64_nothing_leaks",
    "C64_all_given_back",
    "C64_failed_create",
    "C64_destroy_frees",
    "C64_unmap_failure_leaks_refuted",
    "C64_same_results",
    "C64_mutexes_exclude",
    "C64_no_deadlock",
    "C64_cpu_count_closes"
   ],
   "note": "the calls are those of the other pool theorems (C64_same_results). C64_unmap_failure_leaks_refuted: when munmap fails, rseq_mempool_destroy returns 0 and the pool stays allocated. Exclusion and progress are about the traces of calls, each from any reachable state"
  },
  {
   "property": "C65",
   "status": "proved",
   "theorems": [
    "C65_no_undefined_step",
    "C65_no_abort",
    "C65_no_item_held_twice",
    "C65_items_aligned_and_mapped",
    "C65_items_disjoint",
    "C65_allocation",
    "C65_items_keep_their_bytes",
    "C65_one_thread_inside",
    "C65_no_deadlock",
    "C65_calls_end",
    "C65_no_item_lost"
   ],
   "note": "sequentially consistent memory; making a range, creating and destroying a pool and each program store are one step; the other steps are single accesses"
  },
  {
   "property": "C66",
   "status": "proved",
   "theorems": [
    "C66_child_goes_on",
    "C66_child_items",
    "C66_child_sees_the_same",
    "C66_own_memory_is_the_same",
    "C66_inherited_pool_destroyed",
    "C66_goes_on_after_destroy",
    "C66_items_with_initial_values_usable_refuted"
   ],
   "note": "fork between calls of one thread; the refuted theorem is the documented restriction that items of pools with initial values are not usable in the child"
  },
  {
   "property": "C67",
   "status": "partial",
   "theorems": [
    "C67_other_calls_defined",
    "C67_free_defined_partial",
    "C67_zero_poison_defined",
    "C67_small_words_defined",
    "C67_free_defined_refuted",
    "C67_report_defined_refuted"
   ],
   "note": "proved for all calls but freeing (up to those that abort), and for freeing items from whose words the poison can be subtracted; refuted for the rest: rseq_cmp_item subtracts intptr_t and overflows"
  },
  {
   "property": "C68",
   "status": "proved",
   "theorems": [
    "C68_child_goes_on",
    "C68_child_finds_pools",
    "C68_items_in_the_child",
    "C68_abandoned_pool_blocks",
    "C68_all_pools_usable_refuted"
   ],
   "note": "the child is modelled with the pools it can use; that the others block is proved of the state exactly as fork leaves it"
  },
  {
   "property": "C69",
   "status": "partial",
   "theorems": [
    "C69_names_never_fault",
    "C69_file_names_fit",
    "C69_created_with",
    "C69_later_files_named",
    "C69_short_names_in_full",
    "C69_growing_makes_file",
    "C69_messages_show_name",
    "C69_first_file_anonymous",
    "C69_all_files_named_refuted"
   ],
   "note": "proved except that the first file of a pool carries its name, which is refuted: it is made before the name is copied and is always called <anonymous>:rseq-mempool"
  },
  {
   "property": "C70",
   "status": "proved",
   "theorems": [
    "C70_no_unmapped_access",
    "C70_walks_visit_all",
    "C70_first_is_newest",
    "C70_ranges_distinct",
    "C70_destroy",
    "C70_unmapped_once",
    "C70_gone_leaves_no_range"
   ],
   "note": "links of ranges only; the sizes and contents of ranges are in the pool model"
  },
  {
   "property": "C71",
   "status": "partial",
   "theorems": [
    "C71_own_memory_only",
    "C71_others_memory_kept",
    "C71_made_has_exactly",
    "C71_nothing_left",
    "C71_holes_refuted"
   ],
   "note": "proved when a failing mmap with MAP_FIXED leaves the old mapping; refuted when it leaves a hole, as POSIX allows"
  },
  {
   "property": "C72",
   "status": "proved",
   "theorems": [
    "C72_fill_test"
   ],
   "note": "the library's test as the program; a trim or the last unmap that fails is excluded, see C32 and C30"
  },
  {
   "property": "C73",
   "status": "proved",
   "theorems": [
    "C73_misuse_aborts",
    "C73_robust_suite",
    "C73_harness"
   ],
   "note": ""
  },
  {
   "property": "C74",
   "status": "proved",
   "theorems": [
    "C74_child_destroys",
    "C74_fork_destroy_test"
   ],
   "note": ""
  },
  {
   "property": "C75",
   "status": "proved",
   "theorems": [
    "C75_fork_after_call",
    "C75_symbols",
    "C75_no_deadlock",
    "C75_calls_bounded",
    "C75_calls_complete",
    "C75_registered_size",
    "C75_registration_survives",
    "C75_registers_once",
    "C75_fork_inside_init"
   ],
   "note": "Exact: forks that leave the child usable, and the forks after which no call in the child returns. The library runs its initialisation as a constructor, so an unsettled fork needs threads before or during that constructor."
  },
  {
   "property": "C76",
   "status": "partial",
   "theorems": [
    "C76_checks_exact",
    "C76_unregistered_test",
    "C76_no_syscall_test",
    "C76_basic_test",
    "C76_basic_test_ends_partial",
    "C76_basic_test_ends_refuted"
   ],
   "note": "The last step of basic_test.c (unregister returns 0) holds for feature sizes up to 32 bytes and is refuted for more (C76_basic_test_ends_refuted). Everything else is proved in full."
  }
 ]
}