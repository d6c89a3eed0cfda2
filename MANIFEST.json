{
 "claims": [
  {
   "property": "C01",
   "status": "proved",
   "theorems": [
    "coarse_live_disjoint",
    "coarse_calls_complete",
    "coarse_live_disjoint_oom_refuted",
    "coarse_overlapping_regions_refuted"
   ],
   "note": "debug and release builds, all three strategies, any callback answers; internal OOM while splitting a block is excluded and shown to break the claim"
  },
  {
   "property": "C02",
   "status": "proved",
   "theorems": [
    "coarse_alloc_correct"
   ],
   "note": ""
  },
  {
   "property": "C03",
   "status": "proved",
   "theorems": [
    "coarse_accounting"
   ],
   "note": ""
  },
  {
   "property": "C04",
   "status": "proved",
   "theorems": [
    "coarse_coalesces"
   ],
   "note": ""
  },
  {
   "property": "C05",
   "status": "proved",
   "theorems": [
    "coarse_bad_free_rejected",
    "coarse_bad_free_uninitialised_refuted",
    "coarse_free_error_released_refuted"
   ],
   "note": "assumes bookkeeping memory is available and recycled memory reads zero in block_t.used; both assumptions are shown necessary"
  },
  {
   "property": "C06",
   "status": "proved",
   "theorems": [
    "coarse_split_merge",
    "coarse_merge_exact"
   ],
   "note": ""
  },
  {
   "property": "C07",
   "status": "proved",
   "theorems": [
    "coarse_alloc_finds",
    "coarse_alloc_fastest_refuted",
    "coarse_alloc_crash_refuted"
   ],
   "note": "assumes size-class creation never runs out of memory; shown necessary"
  },
  {
   "property": "C08",
   "status": "proved",
   "theorems": [
    "critnib_is_finite_map"
   ],
   "note": "Sequential critnib.c, arbitrary operation sequences and allocation failures."
  },
  {
   "property": "C09",
   "status": "proved",
   "theorems": [
    "critnib_neighbours"
   ],
   "note": "All five search directions, all 64-bit keys."
  },
  {
   "property": "C10",
   "status": "partial",
   "theorems": [
    "critnib_iter_exact_partial",
    "critnib_iter_sound",
    "critnib_iter_range_refuted"
   ],
   "note": "Exact for min = 0; for any range, what is visited is in the map and the range, in order, once, and nothing follows a stop. The full statement is false: the lower-bound pruning at critnib.c:800 skips subtrees that contain keys in range (witness proved)."
  },
  {
   "property": "C11",
   "status": "proved",
   "theorems": [
    "ravl_is_ordered_set"
   ],
   "note": "Any total-preorder comparator, any history, allocation failures included; asserts never fail."
  },
  {
   "property": "C12",
   "status": "proved",
   "theorems": [
    "ravl_height_logarithmic"
   ],
   "note": "Stronger than stated: the bound holds with removals interleaved (potential argument of rank-balanced trees)."
  },
  {
   "property": "C13",
   "status": "proved",
   "theorems": [
    "tracker_lookup_innermost"
   ],
   "note": "All 8 critnib levels, child counters, any pools. Merges only of regions not inside another region."
  },
  {
   "property": "C14",
   "status": "partial",
   "theorems": [
    "tracker_freed_region_gone_partial",
    "tracker_freed_region_stays_refuted",
    "tracker_legal_merge_asserts_refuted",
    "tracker_legal_merge_undefined_refuted"
   ],
   "note": "Holds when merged regions are not nested; false otherwise: the parent's child counter is not decremented by a merge, so the freed parent stays in the tracker, and later legal merges assert or are undefined."
  },
  {
   "property": "C15",
   "status": "partial",
   "theorems": [
    "tracker_refused_unchanged_partial",
    "tracker_failed_call_unchanged",
    "tracker_refused_free_forgets_refuted",
    "tracker_failed_split_undone_refuted"
   ],
   "note": "Holds when the record of a refused free can be put back; false otherwise. A split whose bookkeeping fails is not undone upstream."
  },
  {
   "property": "C16",
   "status": "proved",
   "theorems": [
    "umfFree_to_owner"
   ],
   "note": "Over the tracker of C13."
  },
  {
   "property": "C17",
   "status": "partial",
   "theorems": [
    "ipc_handle_describes_region",
    "ipc_round_trip",
    "ipc_handle_describes_region_refuted"
   ],
   "note": "Proved when memory whose handle was taken is not split or merged while the handle is out; refuted without that (the handle then carries provider data for the old, smaller region). Closing gives up exactly that open's hold; the unmapping itself is C18/C19."
  },
  {
   "property": "C18",
   "status": "partial",
   "theorems": [
    "ipc_held_mapping_stays_open",
    "ipc_reopen_same_mapping",
    "ipc_closes_only_open_mappings",
    "ipc_close",
    "ipc_held_mapping_stays_open_refuted"
   ],
   "note": "Proved for all histories in which no second handle for the same remote address is opened while an older one is held (and, with a limit, one provider); refuted without that: a re-used remote address unmaps memory in use."
  },
  {
   "property": "C19",
   "status": "partial",
   "theorems": [
    "ipc_cache_bounded",
    "ipc_evicts_least_recent_idle",
    "ipc_destroy_closes_own",
    "ipc_cache_limit_refuted",
    "ipc_failed_open_pins_refuted",
    "ipc_closes_only_open_mappings_refuted"
   ],
   "note": "LRU victim, single close and bound max(limit, peak held) proved for one provider per limit; the literal limit, eviction after failed opens, and several providers are refuted."
  },
  {
   "property": "C20",
   "status": "proved",
   "theorems": [
    "disjoint_class_tightest",
    "disjoint_malloc_class"
   ],
   "note": "For max_poolable_size up to the largest class (2 GB); above it see disjoint_total_refuted."
  },
  {
   "property": "C21",
   "status": "proved",
   "theorems": [
    "disjoint_live_apart",
    "disjoint_total"
   ],
   "note": "disjoint_total_refuted: without the bound on max_poolable_size a request indexes behind the bucket table."
  },
  {
   "property": "C22",
   "status": "partial",
   "theorems": [
    "disjoint_free_routed",
    "disjoint_free_routed_refuted"
   ],
   "note": "Holds for alignments up to the page size or slab_min_size (or requests above the poolable size). Refuted beyond: free hands the provider a pointer it never gave out."
  },
  {
   "property": "C23",
   "status": "proved",
   "theorems": [
    "disjoint_kept_bounded",
    "disjoint_keep_rule",
    "disjoint_shared_limit"
   ],
   "note": "Sequential pool invariant in terms of unused regions; interleaved step system for the shared counter."
  },
  {
   "property": "C24",
   "status": "partial",
   "theorems": [
    "disjoint_aligned",
    "disjoint_aligned_refuted"
   ],
   "note": "Holds while size + alignment does not exceed 2^64 and the alignment is one of C22's; refuted near 2^64, where rounding overflows."
  },
  {
   "property": "C25",
   "status": "proved",
   "theorems": [
    "ba_live_apart",
    "ba_calls_defined",
    "ba_grows_when_full",
    "ba_destroy_releases"
   ],
   "note": "All histories of the chunk pool; each call one atomic step under the pool's mutex."
  },
  {
   "property": "C26",
   "status": "proved",
   "theorems": [
    "linear_live_apart",
    "linear_alloc_defined",
    "linear_free_releases_empty",
    "linear_foreign_rejected",
    "linear_contains_pointer",
    "linear_destroy_releases"
   ],
   "note": "All histories; sizes above 2^64 minus two pages: see C56."
  },
  {
   "property": "C27",
   "status": "proved",
   "theorems": [
    "global_live_apart",
    "global_alloc_defined",
    "global_free_exact"
   ],
   "note": "All histories with size, metadata and alignment below 2^32 together; above: see C56."
  },
  {
   "property": "C28",
   "status": "proved",
   "theorems": [
    "os_alloc_exact",
    "os_alloc_asserts",
    "os_alloc_wrap_refuted"
   ],
   "note": "Holds whenever size + alignment + page size <= 2^63; os_alloc_wrap_refuted shows that a size + alignment that wraps makes the call succeed and unmap foreign pages."
  },
  {
   "property": "C29",
   "status": "proved",
   "theorems": [
    "numa_split_exact"
   ],
   "note": "Exact node set of every page for all weights and lengths with pages*weight < 2^64 and weight sum <= 2^63, after any history."
  },
  {
   "property": "C30",
   "status": "proved",
   "theorems": [
    "numa_interleave_exact",
    "numa_other_modes"
   ],
   "note": "Exact node of every byte; histories of less than 2^64 bytes in total."
  },
  {
   "property": "C31",
   "status": "proved",
   "theorems": [
    "stats_counter_exact",
    "stats_peak_exact"
   ],
   "note": "Sequentially consistent interleaving of the atomic operations."
  },
  {
   "property": "C32",
   "status": "partial",
   "theorems": [
    "file_ranges_partial",
    "file_asserts_partial",
    "file_alignment_outside_refuted",
    "file_alignment_alias_refuted"
   ],
   "note": "Proved for alignments up to the page size, all histories of API calls; false above the page size (unmapped memory is returned, or two live allocations share file bytes)."
  },
  {
   "property": "C33",
   "status": "partial",
   "theorems": [
    "os_ipc_same_bytes_partial",
    "os_ipc_overaligned_refuted",
    "os_ipc_merge_refuted",
    "file_ipc_same_bytes_partial",
    "file_alignment_alias_refuted",
    "file_ipc_failed_mmap_refuted",
    "file_ipc_adjacent_refuted",
    "file_ipc_fsdax_refuted"
   ],
   "note": "OS provider: true for alignments up to the page size and merges that undo splits; false otherwise. File provider: true for alignments up to the page size, no failing mmap (or whole-page sizes), non-adjacent mappings; each of the other cases is refuted."
  },
  {
   "property": "C34",
   "status": "partial",
   "theorems": [
    "provider_create",
    "provider_calls_partial",
    "provider_destroy",
    "last_failed_ipc_refuted"
   ],
   "note": "Argument checks, default operations, forwarding and results for all calls; the last failed provider is not set by failing IPC calls nor by argument checks (refuted for IPC)."
  },
  {
   "property": "C35",
   "status": "partial",
   "theorems": [
    "pool_calls_partial",
    "pool_resources_partial",
    "pool_finalize_once_partial",
    "pool_failed_create_partial",
    "pool_all_destroyed_partial",
    "pool_tracking_leak_refuted",
    "pool_ipc_cache_null_refuted"
   ],
   "note": "All histories of provider and pool creation and destruction with any failure, except failure to allocate the IPC cache (NULL dereference at destroy, refuted) and, for the resource counts, failure to allocate the tracking provider (leak, refuted)."
  },
  {
   "property": "C36",
   "status": "partial",
   "theorems": [
    "libumf_state_partial",
    "libumf_init_partial",
    "libumf_teardown",
    "libumf_kept_partial",
    "libumf_kept_tracker_partial",
    "libumf_after_failure_refuted",
    "libumf_extra_teardown_refuted",
    "libumf_periods_refuted",
    "libumf_early_return_refuted",
    "libumf_overlap_refuted"
   ],
   "note": "Balanced sequential histories with any failures, and concurrent callers while the library is kept initialised. Refuted: success after a failed init, extra teardown, more than 100 periods, overlapping first init, overlapping teardown and init."
  },
  {
   "property": "C37",
   "status": "partial",
   "theorems": [
    "C37_query_resolves",
    "C37_os_queries",
    "C37_beyond_leaf_refuted",
    "C37_nested_handle_refuted",
    "C37_unknown_name_refuted",
    "C37_indexes_lost",
    "C37_indexes_refuted",
    "C37_unknown_path",
    "C37_null"
   ],
   "note": "For every tree and name: a query calls exactly the callback its name leads to, or fails; the four OS provider queries arrive. Refuted: a name that goes on after a leaf dereferences NULL, by_handle within by_handle confuses private data with a handle, unknown names succeed, and index values never reach the callback."
  },
  {
   "property": "C38",
   "status": "partial",
   "theorems": [
    "C38_config_runs",
    "C38_config_crash",
    "C38_no_context_refuted",
    "C38_malformed_refuted",
    "C38_file",
    "C38_file_refused"
   ],
   "note": "With a context, the pairs are run in order up to the first malformed or failing one, for every string. Refuted without a context (failures are ignored) and for pairs with doubled or outer separators (accepted)."
  },
  {
   "property": "C39",
   "status": "partial",
   "theorems": [
    "C39_history_tidy",
    "C39_history_sets",
    "C39_step_safe",
    "C39_add",
    "C39_remove",
    "C39_clone",
    "C39_from_numa",
    "C39_destroy",
    "C39_sort",
    "C39_filter",
    "C39_filter_targets",
    "C39_filter_by_id",
    "C39_select",
    "C39_best_bandwidth",
    "C39_best_latency",
    "C39_remove_last",
    "C39_remove_refuted",
    "C39_empty_refuted",
    "C39_empty_sort_refuted",
    "C39_filter_everything",
    "C39_filter_refuted",
    "C39_filter_failure_refuted",
    "C39_duplicates_refuted",
    "C39_from_numa_refuted",
    "C39_highest_capacity_refuted",
    "C39_filter_by_capacity"
   ],
   "note": "Proved for all spaces, all histories and all allocation failures: exact members after add, remove, clone, sort, filter, select, no leak, no sharing. Refuted: the last target cannot be removed, empty spaces cannot be cloned, sorted or filtered, a filter that rejects everything (or runs out of memory half-way) uses destroyed targets, duplicates from node ids, use after free and leak on failure."
  },
  {
   "property": "C40",
   "status": "partial",
   "theorems": [
    "C40_apart",
    "C40_malloc",
    "C40_calloc",
    "C40_aligned",
    "C40_free",
    "C40_realloc_edges",
    "C40_realloc",
    "C40_usable",
    "C40_defined",
    "C40_calloc_refuted",
    "C40_pool_calloc_refuted",
    "C40_aligned_refuted",
    "C40_copy_refuted",
    "C40_usable_refuted",
    "C40_no_memory_refuted",
    "C40_destroyed_refuted"
   ],
   "note": "For all histories: free, realloc and usable size go to the allocator that produced the block, blocks never overlap, sizes hold when the arithmetic does not overflow. False as stated and refuted: calloc with an overflowing product returns a short block (bootstrap and pool), aligned_alloc wraps, memcpy on overlapping areas, usable size 0 for bootstrap blocks, pool blocks given to the system after the pool is destroyed, no memory for the bootstrap allocator."
  },
  {
   "property": "C41",
   "status": "proved",
   "theorems": [
    "alignment_tests_exact",
    "align_down_exact",
    "align_up_safe_exact",
    "ptr_up_size_down_inner",
    "ptr_down_size_up_outer"
   ],
   "note": "All words, all power-of-two alignments."
  },
  {
   "property": "C42",
   "status": "proved",
   "theorems": [
    "translate_flags_exact",
    "protection_flags_exact",
    "translate_flags_large_max_diverges"
   ],
   "note": "Generic loop with any one-flag translator and limit <= 2^31, plus the protection-flag table. The limit > 2^31 case is shown to diverge."
  },
  {
   "property": "C43",
   "status": "partial",
   "theorems": [
    "C43_found_partial",
    "C43_found_listed",
    "C43_listed_found",
    "C43_argument_partial",
    "C43_argument_given",
    "C43_listed_refuted",
    "C43_given_refuted",
    "C43_anywhere",
    "C43_anywhere_refuted",
    "C43_threshold_partial",
    "C43_no_threshold",
    "C43_threshold_refuted"
   ],
   "note": "What is found is listed, and what is listed is found unless an earlier element contains it (exact characterisation, all strings). False in general: a listed option is missed after an element that contains it; proxy options are found anywhere in the text, also inside longer words."
  },
  {
   "property": "C44",
   "status": "partial",
   "theorems": [
    "provider_creation_partial",
    "provider_creation_refuted",
    "devdax_params_any_path",
    "devdax_protection_setter"
   ],
   "note": "Proved for paths shorter than PATH_MAX: every failure point reports an error with no provider and everything given back once; success comes with valid parameters and a provider managing exactly its memory, and finalize gives back what is held from any later state. Refuted for longer paths: devdax_initialize and file_initialize reach their error labels with ret = SUCCESS, so umfMemoryProviderCreate succeeds with an indeterminate provider pointer."
  },
  {
   "property": "C45",
   "status": "proved",
   "theorems": [
    "tag_linearizable",
    "tag_no_race",
    "tag_progress"
   ],
   "note": "Any number of threads, every interleaving: refinement to an atomic register; mutual exclusion; progress. Sequentially consistent steps."
  },
  {
   "property": "C46",
   "status": "proved",
   "theorems": [
    "get_linearizable",
    "no_crash",
    "get_finishes"
   ],
   "note": "critnib_get against any sequence of inserts and removes, store by store, free lists and recycling included, under sequentially consistent memory and fewer than 2^64 - 16 writer steps: every answer is what the map held under the key at one moment of the call, and the moments of effect are the same for all readers. Ordered lookups are C70, where the same claim fails."
  },
  {
   "property": "C47",
   "status": "proved",
   "theorems": [
    "coarse_delete_returns_all"
   ],
   "note": ""
  },
  {
   "property": "C48",
   "status": "proved",
   "theorems": [
    "coarse_callbacks_consistent",
    "coarse_split_callback_oom_refuted"
   ],
   "note": "Under the stated condition that internal allocations after an answered callback succeed; without it the claim is refuted."
  },
  {
   "property": "C49",
   "status": "proved",
   "theorems": [
    "coarse_alloc_best_fit"
   ],
   "note": "When size-class creation never runs out of memory."
  },
  {
   "property": "C50",
   "status": "proved",
   "theorems": [
    "tracked_alloc_all_or_nothing"
   ],
   "note": ""
  },
  {
   "property": "C51",
   "status": "proved",
   "theorems": [
    "tracked_split_exact",
    "tracked_merge_exact"
   ],
   "note": ""
  },
  {
   "property": "C52",
   "status": "proved",
   "theorems": [
    "ipc_handle_ids"
   ],
   "note": "Same environment as C17: memory whose handle was taken is not split or merged."
  },
  {
   "property": "C53",
   "status": "proved",
   "theorems": [
    "disjoint_reuse"
   ],
   "note": ""
  },
  {
   "property": "C54",
   "status": "proved",
   "theorems": [
    "disjoint_destroy",
    "disjoint_destroy_refuted"
   ],
   "note": "For slab_min_size > 0. disjoint_destroy_refuted: with slab_min_size = 0, which the API accepts, memory is freed twice."
  },
  {
   "property": "C55",
   "status": "partial",
   "theorems": [
    "disjoint_limit_lost_partial",
    "disjoint_limit_released_refuted"
   ],
   "note": "False of the code: destroying a pool leaves its share of the counter reserved. Proved instead: the counter is exactly kept + announced + lost bytes, so the limit is fully usable while destroyed buckets kept nothing."
  },
  {
   "property": "C56",
   "status": "partial",
   "theorems": [
    "internal_refusals_partial",
    "ba_create_size_refuted",
    "linear_alloc_size_refuted",
    "global_large_refuted",
    "global_out_of_memory_refuted"
   ],
   "note": "False of the code: four witnesses. Proved: which sizes every state refuses, and that chunk and linear allocators answer NULL without OS memory. What holds below the overflow is C25-C27."
  },
  {
   "property": "C57",
   "status": "partial",
   "theorems": [
    "linear_memory_bounded_partial",
    "linear_memory_bounded_refuted"
   ],
   "note": "False of the code: a region emptied while active is kept until destroy. Proved instead: the bound is exceeded by at most the number of regions given up that way."
  },
  {
   "property": "C58",
   "status": "partial",
   "theorems": [
    "numa_interleave_stream_partial",
    "numa_interleave_stream_refuted",
    "numa_small_parts_refuted"
   ],
   "note": "Holds if page size divides part size and part size divides every earlier allocation; refuted otherwise. With part size 1 and two nodes, one-page allocations never leave the first node."
  },
  {
   "property": "C59",
   "status": "partial",
   "theorems": [
    "numa_params_accepted",
    "numa_split_huge_refuted"
   ],
   "note": "Acceptance is exact and total; the second half is refuted: pages*weight wraps for a 32 TiB allocation with weights 2^31 and the iterator runs past the table."
  },
  {
   "property": "C60",
   "status": "proved",
   "theorems": [
    "os_history_exact"
   ],
   "note": "One call at a time; splits at page boundaries (C63)."
  },
  {
   "property": "C61",
   "status": "proved",
   "theorems": [
    "os_shared_no_alias"
   ],
   "note": ""
  },
  {
   "property": "C62",
   "status": "partial",
   "theorems": [
    "os_shared_pages_partial",
    "os_shared_odd_size_refuted"
   ],
   "note": "False in general: after one allocation whose size is not a multiple of the page size every later page-multiple allocation fails, because mmap gets an unaligned file offset. True while the shared file has grown by allocations of whole pages only: then an allocation of any size asks for a legal offset and succeeds at any free pages the kernel offers."
  },
  {
   "property": "C63",
   "status": "partial",
   "theorems": [
    "os_split_free_partial",
    "os_split_inside_page_refuted"
   ],
   "note": "True for split points that are multiples of the page size, false for others, which the provider accepts."
  },
  {
   "property": "C64",
   "status": "partial",
   "theorems": [
    "stats_reset_race_refuted",
    "stats_peak_exact"
   ],
   "note": "False: a reset that loads the counter before and stores it after a concurrent allocation leaves the peak below the counter. True if resets do not overlap other calls."
  },
  {
   "property": "C65",
   "status": "proved",
   "theorems": [
    "file_finalize_unmaps"
   ],
   "note": "The critnib of mappings is an ordered map (C08, C09)."
  },
  {
   "property": "C66",
   "status": "partial",
   "theorems": [
    "C66_config_values",
    "C66_garbage_refuted",
    "C66_extra_words_refuted",
    "C66_smallest_refuted"
   ],
   "note": "Accepted exactly if each field denotes a value in range, for every text; numbers in three bases are specified independently. Refuted: trailing text after a number and extra words are ignored; the smallest long long is refused."
  },
  {
   "property": "C67",
   "status": "partial",
   "theorems": [
    "C67_settings_partial",
    "C67_vocabulary",
    "C67_buffer",
    "C67_settings_refuted",
    "C67_order_refuted"
   ],
   "note": "Proved for every text in which no element hides a known word, in particular any sequence of known words; the buffer bound for all texts. Refuted when a file name contains a known word; 'no' never overrides 'yes'."
  },
  {
   "property": "C68",
   "status": "proved",
   "theorems": [
    "C68_line",
    "C68_quiet",
    "C68_unmarked",
    "C68_name",
    "C68_name_refuted"
   ],
   "note": "For function names up to 8190 characters (any C identifier in the code); a longer name would overflow, which is proved too. The debug assertion that the message is not empty is not modelled."
  },
  {
   "property": "C69",
   "status": "partial",
   "theorems": [
    "devdax_ipc_same_bytes_partial",
    "devdax_ipc_same_bytes_refuted"
   ],
   "note": "Proved for allocations at 2 MB boundaries of a mapping that starts at one. Refuted for the second half of an allocation split elsewhere: the consumer gets the start of the 2 MB page instead of the allocation, and close unmaps less than was mapped."
  },
  {
   "property": "C70",
   "status": "proved",
   "theorems": [
    "find_le_stable",
    "find_no_crash"
   ],
   "note": "FIND_LE (and FIND_L, the same search for the key below), load by load beside any writers, sequentially consistent memory, fewer than 2^64 - 16 writer steps. find_ge and find_successor (single-threaded teardown only) are not covered, nor that the lookup ends. The stronger promise of the code's comment is C71."
  },
  {
   "property": "C71",
   "status": "partial",
   "theorems": [
    "find_le_misses_refuted",
    "find_le_linearizable_refuted",
    "find_le_stable"
   ],
   "note": "False of the code. With keys 16 and 24, a lookup of 47 during the removal of 24 finds nothing although 16 is in the map all the time (find_predecessor loads the child a second time and returns NULL); a lookup of 37 answers 24 although 36 was in the map whenever 24 was. What holds is C70."
  },
  {
   "property": "C72",
   "status": "partial",
   "theorems": [
    "cuda_answers",
    "cuda_history",
    "cuda_alloc_call",
    "cuda_create",
    "cuda_message",
    "cuda_leak_refuted",
    "cuda_params_leak_refuted"
   ],
   "note": "Proved except two leaks, both refuted: misaligned memory whose free fails is kept although the allocation fails; params creation without the library keeps its block."
  },
  {
   "property": "C73",
   "status": "partial",
   "theorems": [
    "cuda_context",
    "cuda_context_refuted",
    "cuda_ipc_context_refuted"
   ],
   "note": "Proved for allocation, free and opening when the context calls succeed. Refuted: a failed restore is reported as SUCCESS with the thread in the provider's context; exporting and closing use whatever context is current."
  },
  {
   "property": "C74",
   "status": "partial",
   "theorems": [
    "level_zero_answers",
    "level_zero_history",
    "level_zero_alloc_call",
    "level_zero_leak_refuted"
   ],
   "note": "Proved except that memory which cannot be made resident on a device leaks (level_zero_leak_refuted)."
  },
  {
   "property": "C75",
   "status": "partial",
   "theorems": [
    "level_zero_create_partial",
    "level_zero_created",
    "level_zero_create_refuted",
    "level_zero_policy_refuted"
   ],
   "note": "Proved whenever creation comes back. Refuted: a failed page-size probe finalizes the caller's out-pointer instead of the provider (undefined), also reached by an unset memory type; a policy without zeMemFreeExt calls NULL."
  },
  {
   "property": "C76",
   "status": "partial",
   "theorems": [
    "level_zero_free",
    "level_zero_open",
    "level_zero_free_refuted"
   ],
   "note": "Proved except for a non-default policy on a driver without zeMemFreeExt, which calls NULL."
  },
  {
   "property": "C77",
   "status": "proved",
   "theorems": [
    "C77_one_handle",
    "C77_back_unused",
    "C77_accounted",
    "C77_two_rounds",
    "C77_no_error"
   ],
   "note": "Calls and frees of one pool interleaved step by step; freeing memory while a handle of it is being got is outside the claim. Sequentially consistent interleavings; critnib operations atomic (C46; writers hold the mutex)."
  },
  {
   "property": "C78",
   "status": "partial",
   "theorems": [
    "C78_stays_mapped_partial",
    "C78_shared_partial",
    "C78_unmap_unused_partial",
    "C78_close_succeeds_partial",
    "C78_accounted_partial",
    "C78_progress",
    "C78_stays_mapped_refuted"
   ],
   "note": "Proved for one tracking provider whose cache is not destroyed while in use, under the stated discipline; without it the claim is false (refuted). Missing: several providers sharing the global cache limit (eviction then closes through the wrong provider, see C19), mutex creation failing."
  },
  {
   "property": "C79",
   "status": "partial",
   "theorems": [
    "C79_lookup_partial",
    "C79_remove_partial",
    "C79_exact_partial",
    "C79_progress",
    "C79_lookup_refuted",
    "C79_remove_refuted",
    "C79_nested_refuted",
    "C79_nested_remove_refuted"
   ],
   "note": "Proved for all executions of any number of threads when no pool takes its memory from another and a record is given back to its allocator only when no call still reads it; C79_progress shows that this waiting cannot block everybody. Both assumptions are needed: with records given back at once, as the code does, an allocation can be entered as a child of an unrelated one and is then neither found nor removable (C79_lookup_refuted, C79_remove_refuted); with nested pools a count of n_children, which is incremented without atomics or a lock, can be lost, after which a lookup answers with the parent and the child cannot be removed (C79_nested_refuted, C79_nested_remove_refuted). Splitting and merging by several threads: C88."
  },
  {
   "property": "C80",
   "status": "partial",
   "theorems": [
    "C80_error_kept_partial",
    "C80_other_pool_refuted",
    "C80_other_scalable_pool_refuted",
    "C80_usable_size_refuted",
    "C80_free_refuted",
    "C80_zero_size_refuted"
   ],
   "note": "Proved for requests of at least one byte, until the same thread calls a pool of the same manager again. The full statement is false: the error is one thread-local per manager, so another pool of the same manager, a usable-size query (proxy) or a failing free (disjoint) overwrites it, and a disjoint pool asked for no bytes returns NULL without storing an error."
  },
  {
   "property": "C81",
   "status": "partial",
   "theorems": [
    "C81_calls_partial",
    "C81_cuda_calls_partial",
    "C81_refs_partial",
    "C81_same_outcome",
    "C81_available_partial",
    "C81_tbb_msize_refuted",
    "C81_free_ext_refuted",
    "C81_tbb_closed_twice_refuted",
    "C81_second_period_refuted",
    "C81_available_refuted"
   ],
   "note": "Proved for one life of the library, functions that are required or tested before use, and (for TBB) a library with all required functions. False otherwise: pool_msize and zeMemFreeExt are called without having been checked, an incomplete TBB is closed twice, the once-flags survive umfTearDown so a second life uses stale pointers, and a provider created before its library is loaded makes all later creations fail."
  },
  {
   "property": "C82",
   "status": "partial",
   "theorems": [
    "C82_failed_create_partial",
    "C82_failed_create_bounded_partial",
    "C82_life_partial",
    "C82_disjoint_loses_one",
    "C82_disjoint_leak_refuted",
    "C82_tracking_leak_refuted",
    "C82_null_cache_refuted"
   ],
   "note": "Proved except for the following, which are false: every disjoint pool loses its array of buckets; when the tracking provider's handle or data cannot be allocated its two IPC caches are lost; when the cache of opened handles cannot be allocated the pool is created with a NULL cache and destroying it dereferences it."
  },
  {
   "property": "C83",
   "status": "partial",
   "theorems": [
    "C83_own_provider_partial",
    "C83_all_returned_partial",
    "C83_place",
    "C83_overlap_refuted",
    "C83_refused_refuted"
   ],
   "note": "Proved when no arena index is used again before the destroying thread has reset its entry of pool_by_arena_index; the second theorem also needs providers that take back what is freed. Refuted without: op_finalize destroys the arena before it resets the entry, so a pool created in between with the same index loses its entry and its hooks dereference NULL. Refuted too: memory refused by the provider during arena destruction stays given out."
  },
  {
   "property": "C84",
   "status": "partial",
   "theorems": [
    "C84_placed_partial",
    "C84_inside",
    "C84_clean",
    "C84_accepted_partial",
    "C84_highest_capacity_refuted",
    "C84_partitions_kept_refuted",
    "C84_many_partitions_refuted"
   ],
   "note": "Proved end to end (space, policy, parameters, bind calls) for fewer than 2^32 nodes and partitions, split products below 2^64, and the first node only for the space of highest capacity. Refuted: a split naming other nodes of the space of highest capacity is refused; the policy keeps the address of the caller's partition array instead of a copy; the number of partitions is cut to 32 bits."
  },
  {
   "property": "C85",
   "status": "partial",
   "theorems": [
    "C85_pooled_partial",
    "C85_settled_partial",
    "C85_stale_slab_refuted",
    "C85_reused_slab_refuted",
    "C85_threads_refuted"
   ],
   "note": "Proved for all interleavings when nothing bypasses the buckets, and with direct allocations when no slab is freed between another thread's lookup and its reading of it. Refuted otherwise: freeing a direct allocation reads the description of a destroyed slab; if it was reused, the usable size reported is that of another slab. critnib lookups are taken as atomic (C70)."
  },
  {
   "property": "C86",
   "status": "partial",
   "theorems": [
    "C86_safe_partial",
    "C86_clean",
    "C86_live",
    "C86_same",
    "C86_available_partial",
    "C86_twice_refuted",
    "C86_asked_refuted",
    "C86_latency_refuted",
    "C86_sticky_refuted"
   ],
   "note": "Partial: safety of the tear-down needs that each period asks for the description; availability does not hold for the space of the lowest latency, nor after a failure of hwloc (all refuted). Allocations do not fail here; one thread."
  },
  {
   "property": "C87",
   "status": "partial",
   "theorems": [
    "C87_all",
    "C87_capacity",
    "C87_bandwidth_partial",
    "C87_latency_partial",
    "C87_bandwidth_refuted",
    "C87_gap_refuted"
   ],
   "note": "Partial: best bandwidth and latency only if the system numbers nodes in logical order; refuted otherwise."
  },
  {
   "property": "C88",
   "status": "partial",
   "theorems": [
    "C88_lookup_partial",
    "C88_remove_partial",
    "C88_exact_partial",
    "C88_records_partial",
    "C88_upstream_partial",
    "C88_failure_partial",
    "C88_success_partial",
    "C88_progress",
    "C88_lookup_refuted",
    "C88_merge_refuted"
   ],
   "note": "Proved for all executions of any number of threads when no pool takes its memory from another and a record is given back to its allocator only when no call still reads it; C88_progress shows that neither this waiting nor the mutex blocks everybody. The lookup clause holds except for the second part of an allocation that is being split: the split first shortens the entry and only then adds the second, so a lookup (for instance by umfFree) finds nothing there although the memory is allocated throughout (C88_lookup_refuted). With records given back at once, as the code does, a lookup beside a merge can answer with the pool and size of an unrelated allocation (C88_merge_refuted). Release build: a refused merge returns an error instead of aborting. Nested pools: C79_nested_refuted and the sequential refutations of the tracker."
  },
  {
   "property": "C89",
   "status": "partial",
   "theorems": [
    "C89_own_provider_partial",
    "C89_objects_partial",
    "C89_all_returned_partial",
    "C89_create",
    "C89_policy",
    "C89_free_result",
    "C89_null_error",
    "C89_null_explained",
    "C89_size_partial",
    "C89_hidden_refusal_refuted",
    "C89_refused_refuted"
   ],
   "note": "Proved for all interleavings of calls and callbacks, assuming that TBB gives back only raw memory it holds without live objects and returns objects inside held memory, and that providers give out disjoint memory. Refuted: TBB's free succeeds although the provider refused the memory (the callback returns nothing), so umfFree reports success, and destroying all pools then leaves memory given out. Not modelled: contents and alignment of objects (they come from TBB)."
  },
  {
   "property": "C90",
   "status": "partial",
   "theorems": [
    "os_failed_free_partial",
    "os_failed_free_refuted"
   ],
   "note": "False of the code for the allocation itself: its file offset is forgotten before munmap is tried, so it has no IPC handle and cannot be split. Everything else is proved for every state."
  },
  {
   "property": "C91",
   "status": "partial",
   "theorems": [
    "native_last_error_partial",
    "native_error_stays_defined",
    "native_error_fresh_refuted",
    "native_last_error_refuted",
    "native_error_recorded_refuted",
    "native_file_record_refuted",
    "native_level_zero_message_refuted"
   ],
   "note": "False of the code in five ways: a thread without a failure reads outside the table of texts; an OS allocation whose node set cannot be allocated gives the error but writes no record; one where binding is not implemented succeeds but writes it; a file allocation that fails with another error writes it too; Level Zero never sets the message. For all other calls it is proved over every history of every number of threads."
  },
  {
   "property": "C92",
   "status": "partial",
   "theorems": [
    "last_failed_exact",
    "last_failed_usable_partial",
    "last_failed_pool_create_refuted",
    "last_failed_reused_refuted",
    "last_failed_handle_refuted"
   ],
   "note": "The exact handle is proved for every history, and that it answers for the user's failed provider until it is freed. False of the code after a failed umfPoolCreate or a umfPoolDestroy: the reported tracking provider has been freed, and its address may belong to a provider that never failed."
  },
  {
   "property": "C93",
   "status": "partial",
   "theorems": [
    "anonymous_handle_opens",
    "named_handle_opens_partial",
    "opened_file_origin",
    "named_handle_twice_refuted",
    "named_handle_file_refuted",
    "shared_create_code_refuted",
    "shared_create_code_partial"
   ],
   "note": "Proved without a name for every history, and with a name for the first opening while no provider with the same name is made. False of the code otherwise: the first opening removes the name, so a second consumer fails; a second provider with the same name silently takes it over, and the first one's handles then show the second one's memory; creation returns -1 if the named file cannot be made."
  }
 ]
}