{"id": "C01", "title": "Live allocations of a coarse-backed provider never overlap", "statement": "For a fixed/devdax/file provider, after any sequence of alloc, free, allocation-split, allocation-merge and add-memory calls (successful or not), the address ranges of all live allocations are pairwise disjoint and each lies completely inside memory the provider was given, provided the regions handed in do not overlap and the internal bookkeeping allocations of a block split succeed. (When one of those fails, the guarantee is lost.)", "quantifier": "every sequence of provider operations with any arguments, every allocation strategy, every starting region, every answer of the underlying callbacks", "why_tests_cant": "Tests run a few dozen fixed sequences; overlap needs a particular interleaving of padding splits, merges and best-fit choices.", "anchors": ["src/coarse/coarse.c: coarse_alloc, coarse_free, coarse_split, coarse_merge, coarse_add_memory_fixed, coarse_add_memory_from_provider", "src/provider/provider_fixed_memory.c"]}
{"id": "C02", "title": "A successful coarse allocation is big enough and aligned", "statement": "Whenever allocation of (size, alignment) from a coarse-backed provider succeeds, the returned pointer is a multiple of the page size and of the requested alignment, the bytes [ptr, ptr + size) were not part of any live allocation before the call, and they belong to the provider's memory. An alignment that is neither 0 nor a power of two is rejected without any effect.", "quantifier": "every reachable provider state, every size and alignment, all three allocation strategies", "why_tests_cant": "Alignment padding depends on the block the search happens to return; tests see a handful of block layouts.", "anchors": ["src/coarse/coarse.c: coarse_alloc, find_free_block, create_aligned_block, split_current_block"]}
{"id": "C03", "title": "Coarse accounting is exact", "statement": "At every moment the reported used size equals the sum of the sizes of live allocations, the reported allocated size equals the amount of memory handed to the provider, blocks tile that memory exactly (nothing lost, nothing counted twice), and the reported free-block count equals the number of free blocks (never exceeds it if size-class bookkeeping ran out of memory).", "quantifier": "every sequence of operations, every callback outcome", "why_tests_cant": "A byte lost on one error path is invisible in a test that does not visit precisely that path and then audit the totals.", "anchors": ["src/coarse/coarse.c: coarse_get_stats, debug_check, coarse_alloc, coarse_free"]}
{"id": "C04", "title": "Freed memory is coalesced and becomes fully reusable", "statement": "After a successful free, the freed block is merged with every mergeable free neighbour, so with an always-agreeing merge callback no two adjacent blocks are both free; in particular once everything is freed a single-region provider is back to one free block covering its whole region.", "quantifier": "every history of operations", "why_tests_cant": "Fragmentation left by one particular order of frees only shows after many operations.", "anchors": ["src/coarse/coarse.c: coarse_free, coarse_merge_with_prev/next (merge_with_prev, merge_with_next), user_block_merge"]}
{"id": "C05", "title": "Bad frees are rejected and change nothing", "statement": "Freeing a pointer that is not the start of a live allocation (unknown pointer, interior pointer, double free) or passing a non-zero size that differs from the allocation's size returns an invalid-argument error and leaves the set of live allocations and all statistics unchanged.", "quantifier": "every reachable state, every pointer and size", "why_tests_cant": "Tests try one or two bad pointers; the guarantee must hold for all 2^64 pointers in all states.", "anchors": ["src/coarse/coarse.c: coarse_free", "src/provider/provider_fixed_memory.c: fixed_free"]}
{"id": "C06", "title": "Allocation split and merge are inverse and affect only their range", "statement": "Splitting a live allocation yields exactly two live allocations covering the same bytes; merging two adjacent live allocations yields exactly one; split followed by merge restores the original live set; invalid arguments are rejected without changing anything; no other allocation is affected.", "quantifier": "every reachable state, every pointer, total size and first size, every callback answer", "why_tests_cant": "The number of (state, size) pairs is unbounded.", "anchors": ["src/coarse/coarse.c: coarse_split, coarse_merge, user_block_merge"]}
{"id": "C07", "title": "Coarse allocation succeeds whenever a suitable free block exists", "statement": "If some free block is large enough for the size plus alignment slack (or, with a strategy other than the fastest one, the free blocks are suitably aligned and one has at least the requested size), allocation does not ask the callback for more memory and does not fail for lack of memory. With the fastest strategy an exactly fitting block is not found.", "quantifier": "every reachable state, size, alignment and strategy", "why_tests_cant": "Completeness of a search can be refuted by a test but only a proof can establish it.", "anchors": ["src/coarse/coarse.c: find_free_block, free_blocks_rm_ge", "src/ravl/ravl.c: ravl_find"]}
{"id": "C08", "title": "The radix map behaves like a finite map", "statement": "After any sequence of inserts (with or without update), removes and lookups, lookup of a key returns exactly the value most recently stored under that key and not removed since; inserting an existing key without update reports 'exists' and changes nothing; removing a missing key returns nothing and changes nothing.", "quantifier": "every sequence of operations over all 64-bit keys", "why_tests_cant": "A path-compressed radix tree has key-pattern dependent cases (divergence at each of 16 nibbles, root replacement, node collapse) that random tests of a few thousand keys do not enumerate.", "anchors": ["src/critnib/critnib.c: critnib_insert, critnib_remove, critnib_get"]}
{"id": "C09", "title": "Ordered lookups in the radix map return the true neighbour", "statement": "For every map contents and every 64-bit key: find-less-or-equal/less/greater-or-equal/greater/equal return exactly the entry with the largest/smallest key satisfying the relation, and report 'none' exactly when no such key exists.", "quantifier": "all map contents reachable by inserts and removes, all keys including 0 and 2^64-1, all five directions", "why_tests_cant": "Boundary keys and sparse/dense nibble patterns form an astronomically large space.", "anchors": ["src/critnib/critnib.c: critnib_find_le, find_le, find_predecessor, critnib_find, find_ge, find_successor"]}
{"id": "C10", "title": "Range iteration over the radix map visits exactly the keys in range", "statement": "Iterating over [min, max] calls the callback exactly once for each stored key in that interval, in increasing order, until the callback asks to stop.", "quantifier": "all map contents, all min and max", "why_tests_cant": "Every caller in the code base iterates with min = 0, so tests never exercise the lower-bound pruning.", "anchors": ["src/critnib/critnib.c: iter, critnib_iter"]}
{"id": "C11", "title": "The balanced tree behaves like an ordered set", "statement": "After any sequence of inserts and removals the tree contains exactly the inserted-and-not-removed elements in order; inserting a duplicate is refused; lookups (equal, less, greater, less-equal, greater-equal) and first/last return the true neighbour.", "quantifier": "every operation sequence, every total order comparator", "why_tests_cant": "Rotation and double-rotation paths depend on insertion order; there are unboundedly many trees.", "anchors": ["src/ravl/ravl.c: ravl_emplace, ravl_balance, ravl_rotate, ravl_find, ravl_remove, ravl_foreach"]}
{"id": "C12", "title": "The balanced tree stays balanced under insertion", "statement": "The height of the tree after any sequence of inserts is logarithmic in the number of inserts, and removals never increase it.", "quantifier": "every operation sequence", "why_tests_cant": "Worst-case height is a property of the worst insertion order.", "anchors": ["src/ravl/ravl.c: ravl_balance, ravl_node_promote/demote, ravl_rotate"]}
{"id": "C13", "title": "Pool lookup by pointer finds the innermost owner", "statement": "For any set of tracked allocations (including nested ones) produced by any history in which merged allocations do not lie inside another one, looking up any address returns the base, size and pool of the innermost tracked allocation containing it, and 'none' when no tracked allocation contains it; no assertion fails. (With nested merges see C14.)", "quantifier": "every such history of tracked allocations/frees/splits/merges by any number of pools, every address", "why_tests_cant": "Nesting up to eight levels times arbitrary layouts cannot be enumerated.", "anchors": ["src/provider/provider_tracking.c: umfMemoryTrackerAdd, umfMemoryTrackerRemove, umfMemoryTrackerGetAllocInfo, umfMemoryTrackerGetPool", "src/memory_pool.c: umfPoolByPtr"]}
{"id": "C14", "title": "Freed allocations disappear from the tracker", "statement": "Once a tracked allocation has been freed (and nothing nested inside it is still tracked) it is no longer reported by pool lookup, even if it was split and merged in between.", "quantifier": "every history of alloc/split/merge/free", "why_tests_cant": "The bookkeeping counter involved only goes wrong after split+merge of a nested allocation, a combination no test performs.", "anchors": ["src/provider/provider_tracking.c: umfMemoryTrackerRemove, trackingAllocationSplit, trackingAllocationMerge"]}
{"id": "C15", "title": "A failed upstream operation leaves tracking unchanged", "statement": "If the upstream provider refuses a free, split or merge, every address is still attributed to the same pool with the same base and size as before the call.", "quantifier": "every tracker state, every argument, every upstream error", "why_tests_cant": "Needs fault injection at every call in every state.", "anchors": ["src/provider/provider_tracking.c: trackingFree, trackingAllocationSplit, trackingAllocationMerge"]}
{"id": "C16", "title": "umfFree returns memory to the pool it came from", "statement": "umfFree(p) hands p to the pool that owns the innermost tracked allocation containing p, and to no other pool; for untracked pointers no pool is called.", "quantifier": "every history with any number of pools in which merged allocations do not lie inside another one, every pointer", "why_tests_cant": "Number of pool/pointer histories is unbounded.", "anchors": ["src/memory_pool.c: umfFree, umfPoolFree, umfPoolByPtr", "src/provider/provider_tracking.c"]}
{"id": "C17", "title": "IPC handle get/open round trip preserves the offset", "statement": "If a handle obtained for pointer p inside a tracked allocation [b, b+s) is opened, and the provider maps the base at b', the returned pointer is b' + (p - b), lies inside the mapping, and closing that pointer closes exactly that mapping.", "quantifier": "all allocations, all interior pointers, all mapping addresses", "why_tests_cant": "Tests open a few pointers in one process.", "anchors": ["src/ipc.c: umfGetIPCHandle, umfOpenIPCHandle, umfCloseIPCHandle", "src/provider/provider_tracking.c: trackingGetIpcHandle, trackingOpenIpcHandle, trackingCloseIpcHandle"]}
{"id": "C18", "title": "An opened IPC mapping is never closed while still in use", "statement": "While a handle has been opened more often than closed, its mapping is not unmapped by cache eviction, and re-opening the same handle returns the same mapping.", "quantifier": "every sequence of open/close calls on any number of handles and providers, every cache size limit", "why_tests_cant": "Needs eviction pressure, key reuse and reference counts to line up.", "anchors": ["src/ipc_cache.c: umfIpcOpenedCacheGet, umfIpcHandleMappedCacheRelease", "src/provider/provider_tracking.c: ipcOpenedCacheEvictionCallback"]}
{"id": "C19", "title": "IPC cache respects its size limit and evicts only idle, least-recently-used entries through their own provider", "statement": "The number of cached mappings exceeds the configured limit only by mappings that are in use; the victim is the least recently used idle one; the evicted mapping is closed through the provider that opened it, exactly once.", "quantifier": "every sequence of open/close calls, every limit", "why_tests_cant": "Same as above; multi-provider eviction is not covered by any test.", "anchors": ["src/ipc_cache.c: umfIpcOpenedCacheGet", "src/provider/provider_tracking.c: ipcOpenedCacheEvictionCallback"]}
{"id": "C20", "title": "Size class selection picks the tightest class", "statement": "For every request from 1 byte up to the largest class, the size class used by the disjoint pool exists, is at least as large as the request, and no smaller class would do.", "quantifier": "every size and every minimum bucket size", "why_tests_cant": "2^31 sizes times configurations.", "anchors": ["src/pool/pool_disjoint.c: disjoint_pool_find_bucket, size_to_idx, disjoint_pool_initialize"]}
{"id": "C21", "title": "Chunks handed out by the disjoint pool never overlap", "statement": "After any sequence of malloc/aligned malloc/free, the usable bytes of live allocations are pairwise disjoint, each range lies in memory obtained from the provider, and its size is at least the requested size. No call fails an assertion or leaves an array's bounds.", "quantifier": "every sequence of operations (alignments up to the provider's page size or the slab size, or requests above the poolable size), every pool configuration with a positive slab size and a poolable size of at most 2 GB, every provider answer", "why_tests_cant": "State space unbounded.", "anchors": ["src/pool/pool_disjoint.c: slab_get_chunk, slab_free_chunk, bucket_get_free_chunk, bucket_free_chunk, disjoint_pool_allocate, disjoint_pool_free"]}
{"id": "C22", "title": "A chunk is returned to the slab it came from", "statement": "For every pointer the disjoint pool returned from (aligned) malloc, free finds the slab that produced it and marks exactly that chunk free; nothing allocated from a slab is ever handed to the provider's free on its own.", "quantifier": "every pool configuration, size, alignment and slab address", "why_tests_cant": "Needs particular combination of slab address and alignment.", "anchors": ["src/pool/pool_disjoint.c: disjoint_pool_free, slab_get_end, disjoint_pool_aligned_malloc"]}
{"id": "C23", "title": "Pooling limits hold", "statement": "The number of empty slabs a bucket keeps never exceeds its capacity, and the total memory kept by all pools sharing a limit never exceeds that limit, for any interleaving of threads.", "quantifier": "every history and every interleaving of the reserve/rollback steps of any number of threads", "why_tests_cant": "Race windows between fetch-add and rollback.", "anchors": ["src/pool/pool_disjoint.c: bucket_can_pool, bucket_decrement_pool, bucket_free_chunk, bucket_get_avail_slab"]}
{"id": "C24", "title": "Aligned allocation from the disjoint pool is aligned and large enough", "statement": "disjoint-pool aligned_malloc(size, alignment) returns NULL or a pointer that is a multiple of alignment with at least size usable bytes behind it.", "quantifier": "all sizes and alignments (full 64-bit range), all states", "why_tests_cant": "Wrap-around at the top of the size range.", "anchors": ["src/pool/pool_disjoint.c: disjoint_pool_aligned_malloc, disjoint_pool_malloc_usable_size"]}
{"id": "C25", "title": "Internal fixed-size allocator hands out disjoint chunks", "statement": "Chunks handed out by the internal fixed-size allocator and not yet returned are pairwise disjoint, suitably aligned, inside memory obtained from the OS, and at least as large as the configured chunk size.", "quantifier": "every sequence of alloc/free, every chunk size for which 128 chunks and the headers fit into 64 bits, every OS answer", "why_tests_cant": "State space unbounded.", "anchors": ["src/base_alloc/base_alloc.c: umf_ba_create, umf_ba_divide_memory_into_chunks, umf_ba_alloc, umf_ba_free"]}
{"id": "C26", "title": "Internal linear allocator hands out disjoint memory and releases a page run only when it is empty", "statement": "Every block handed out by the linear allocator has the requested size, does not overlap another live block and lies within memory obtained from the OS; an OS region is released only when none of its blocks is live.", "quantifier": "every sequence of alloc/free, all sizes up to 2^64 minus two pages, every OS answer", "why_tests_cant": "Wrap-around of very large sizes is reachable only with sizes near 2^64.", "anchors": ["src/base_alloc/base_alloc_linear.c: umf_ba_linear_create, umf_ba_linear_alloc, umf_ba_linear_free, umf_ba_linear_pool_contains_pointer"]}
{"id": "C27", "title": "Internal general allocator metadata round-trips", "statement": "For every size and alignment accepted, the block returned is aligned, usable size is at least the request, blocks (with the metadata in front of them) are pairwise disjoint, and free gives back exactly the memory of the block: to its size class, or as one whole OS region.", "quantifier": "every sequence of alloc/free, all sizes and alignments that fit into 32 bits together, all OS addresses, any subset of the size classes missing", "why_tests_cant": "Bit packing of size and offset has 2^64 cases.", "anchors": ["src/base_alloc/base_alloc_global.c: add_metadata_and_align, get_original_alloc, size_to_idx, umf_ba_global_aligned_alloc, umf_ba_global_free"]}
{"id": "C28", "title": "Aligned OS mapping keeps exactly the requested range", "statement": "An aligned allocation of the OS provider returns an aligned address; the mapping left behind covers the requested length; every address unmapped during trimming belonged to the mapping just created.", "quantifier": "all sizes, alignments, page sizes and addresses chosen by the kernel", "why_tests_cant": "The kernel picks the address; tests see one.", "anchors": ["src/provider/provider_os_memory.c: utils_mmap_aligned, os_alloc", "src/utils/utils_common.c: utils_align_ptr_up_size_down, utils_align_ptr_down_size_up"]}
{"id": "C29", "title": "NUMA split mode distributes every page exactly once and in proportion", "statement": "In split mode the sequence of bind calls covers the whole allocation contiguously, each page once; a page is bound to exactly the nodes of the partitions whose proportional share of the allocation (P*(w_0+..+w_(i-1))/W to P*(w_0+..+w_i)/W pages) touches it, as long as pages times weight fits in 64 bits.", "quantifier": "all partition and node lists, weights, allocation lengths and earlier allocations", "why_tests_cant": "Rounding behaviour for arbitrary weights.", "anchors": ["src/provider/provider_os_memory.c: initializePartitions, nextBind, membindFirst, membindNext, validatePartitions"]}
{"id": "C30", "title": "NUMA interleave mode covers the allocation round-robin", "statement": "In interleave mode with a part size the bind calls cover the whole allocation contiguously in parts of the part size rounded up to pages; part k of an allocation goes to node number s/part_size + k of the list, cyclically, s being the bytes allocated before; every other mode binds the whole allocation to the listed nodes in one call.", "quantifier": "all node lists, part sizes, lengths and allocation histories of less than 2^64 bytes", "why_tests_cant": "Unbounded lengths and histories.", "anchors": ["src/provider/provider_os_memory.c: nextBind, membindFirst, membindNext"]}
{"id": "C31", "title": "OS provider statistics are exact under concurrency", "statement": "With any number of threads allocating and freeing, and resets at moments when no other call runs, when all calls have completed the allocated-memory statistic equals the sum of the live sizes, and the peak statistic is at least every value the counter ever had since the last reset and is a value it actually had.", "quantifier": "every interleaving of atomic steps of any number of threads", "why_tests_cant": "Race outcomes cannot be enumerated by running.", "anchors": ["src/provider/provider_os_memory.c: os_alloc, os_free, peak_memory/allocated_memory ctl handlers"]}
{"id": "C32", "title": "File provider allocations use disjoint file ranges inside the mapping", "statement": "Distinct live allocations of a file provider refer to disjoint byte ranges of the file, and every returned range lies inside a mapping the provider owns.", "quantifier": "all sequences of allocations with any sizes and alignments, all addresses chosen by the kernel", "why_tests_cant": "Depends on the address chosen by mmap relative to the alignment.", "anchors": ["src/provider/provider_file_memory.c: file_mmap_aligned, file_alloc_aligned, file_alloc_cb"]}
{"id": "C33", "title": "IPC handles of file- and fd-backed memory denote the same bytes", "statement": "The file offset stored in an IPC handle for an allocation is the offset at which that allocation's memory is really mapped, so a consumer sees the producer's bytes.", "quantifier": "all sizes, alignments and mapping addresses", "why_tests_cant": "Only visible when the kernel returns an address that is not already aligned.", "anchors": ["src/provider/provider_file_memory.c: file_alloc_cb, file_get_ipc_handle", "src/provider/provider_os_memory.c: utils_mmap_aligned, os_get_ipc_handle"]}
{"id": "C34", "title": "Provider front-end rejects invalid calls before they reach the provider and reports the failing provider", "statement": "Calls with NULL/invalid arguments return invalid-argument without invoking the provider; for valid calls the provider's result is returned unchanged, and the 'last failed provider' is the provider of the most recent failing call on this thread.", "quantifier": "all argument combinations, all provider results, all call sequences", "why_tests_cant": "Cartesian product of arguments and results over histories.", "anchors": ["src/memory_provider.c: umfMemoryProviderCreate, umfMemoryProviderAlloc, umfMemoryProviderFree, umfMemoryProviderAllocationSplit, umfMemoryProviderAllocationMerge, umfMemoryProviderPurgeLazy, umfGetLastFailedMemoryProvider"]}
{"id": "C35", "title": "Pool create/destroy releases each resource exactly once", "statement": "Creating and destroying a pool (any flags, any failure point) destroys the upstream provider exactly once if and only if the pool owns it, destroys the tracking wrapper exactly once if it was created, and after a failed create everything acquired is released and the caller's provider is untouched.", "quantifier": "all flag combinations, all failure points", "why_tests_cant": "Failure points need fault injection.", "anchors": ["src/memory_pool.c: umfPoolCreateInternal, umfPoolDestroy"]}
{"id": "C36", "title": "Library init/teardown is reference counted", "statement": "The global state exists exactly while successful inits outnumber teardowns; it is created once and destroyed once per such period; extra teardowns are harmless; a successful return from init means the tracker exists.", "quantifier": "every sequence of init/teardown calls and every failure of the underlying creation", "why_tests_cant": "Failure of the tracker creation is not testable; sequences unbounded.", "anchors": ["src/libumf.c: umfInit, umfTearDown"]}
{"id": "C37", "title": "Control queries resolve names safely and deliver indexes", "statement": "For every query string, name resolution either finds the unique matching node or returns an error, never accesses memory outside the tree; and a handler of an indexed node receives the index values written in the name.", "quantifier": "all query strings and all trees", "why_tests_cant": "Strings are unbounded; the crashing ones are not in the test-suite.", "anchors": ["src/ctl/ctl.c: ctl_find_node, ctl_query, ctl_exec_query_runnable, ctl_register_module_node"]}
{"id": "C38", "title": "Configuration strings are processed query by query", "statement": "Loading a configuration string executes exactly the name=value pairs separated by ';' in order, stops at the first failing one and reports it; malformed pairs are rejected. A configuration file is loaded as its text without comments ('#' to the end of the line) and blanks, and refused if longer than a megabyte.", "quantifier": "all strings", "why_tests_cant": "Strings are unbounded.", "anchors": ["src/ctl/ctl.c: ctl_parse_query, ctl_load_config, ctl_load_config_from_string, ctl_load_config_from_file"]}
{"id": "C39", "title": "Memory space operations are exact set operations", "statement": "Adding to, removing from, cloning, sorting and filtering a memory space yield exactly the expected members (duplicates refused, order preserved or descending by attribute, filter keeps exactly the accepted targets), and every failure leaves the memory space unchanged.", "quantifier": "all memory spaces, all filters, all failure points", "why_tests_cant": "Empty and all-rejected cases and failure points are not covered by tests.", "anchors": ["src/memspace.c: umfMemspaceMemtargetAdd, umfMemspaceMemtargetRemove, umfMemspaceClone, umfMemspaceSortDesc, umfMemspaceFilter, umfMemspaceUserFilter, umfMemspaceFilterHelper"]}
{"id": "C40", "title": "malloc replacement frees every pointer with the allocator that produced it", "statement": "In the malloc-replacement library every pointer passed to free/realloc/usable_size is handled by the allocator (system allocator, pool, or bootstrap allocator) that produced it, and calloc either fails or returns at least nmemb*size bytes.", "quantifier": "all call sequences, all sizes, with and without a size threshold, before/after pool creation", "why_tests_cant": "Bootstrap phase and overflow combinations cannot be enumerated.", "anchors": ["src/proxy_lib/proxy_lib.c: malloc, calloc, free, realloc, aligned_alloc, malloc_usable_size, ba_leak_*", "src/pool/pool_scalable.c: tbb_calloc", "src/pool/pool_jemalloc.c: op_calloc"]}
{"id": "C41", "title": "Alignment helpers round correctly or report overflow", "statement": "Rounding helpers return the least multiple not below (greatest not above) their argument, the overflow-safe form returns 0 exactly when no such value is representable, and the pointer/size adjusting helpers keep the (inner/outer) range property.", "quantifier": "all 64-bit values, all power-of-two alignments", "why_tests_cant": "2^64 x 64 cases.", "anchors": ["src/utils/utils_common.h: ALIGN_UP, ALIGN_UP_SAFE, ALIGN_DOWN, IS_ALIGNED, IS_POWER_OF_2", "src/utils/utils_common.c: utils_align_ptr_up_size_down, utils_align_ptr_down_size_up"]}
{"id": "C42", "title": "Flag translation is exact and rejects unknown flags", "statement": "Translating protection/visibility flags yields exactly the union of the translations of the set bits and fails exactly when an unknown bit is set.", "quantifier": "all 2^32 flag words", "why_tests_cant": "2^32 inputs and arbitrary translation tables.", "anchors": ["src/utils/utils_common.c: utils_translate_flags", "src/utils/utils_posix_common.c: utils_translate_mem_protection_one_flag, utils_translate_mem_protection_flags"]}
{"id": "C43", "title": "Option strings: an option is found whenever it is listed", "statement": "Parsing an environment variable of the form 'a;b;c' finds an option exactly when it is one of the ';'-separated elements (followed by ',' and an argument for options that take one).", "quantifier": "all strings", "why_tests_cant": "Options that are substrings of other elements are not in the tests.", "anchors": ["src/utils/utils_common.c: utils_parse_var", "src/utils/utils_posix_common.c: utils_get_size_threshold"]}
{"id": "C44", "title": "Provider creation reports failure", "statement": "If creating a devdax/file/fixed provider fails (bad path, too long a path, bad parameters), the call returns an error and no provider is produced; if it returns success a usable provider is produced.", "quantifier": "all parameters, all failure points", "why_tests_cant": "Path length boundaries and fault points.", "anchors": ["src/provider/provider_file_memory.c: file_initialize", "src/provider/provider_devdax_memory.c: devdax_initialize"]}
{"id": "C45", "title": "Pool tags behave like an atomic register", "statement": "Set-tag returns the previously stored tag and get-tag returns the last stored one, in every interleaving of concurrent callers.", "quantifier": "every interleaving of any number of threads", "why_tests_cant": "Schedules cannot be enumerated.", "anchors": ["src/memory_pool.c: umfPoolSetTag, umfPoolGetTag"]}
{"id": "C46", "title": "Lock-free readers of the radix map see consistent data", "statement": "A lookup running concurrently with inserts and removes returns a value that was stored under the requested key at some moment during the lookup, or reports absence only if the key was absent at some moment, and never uses memory that has been recycled.", "quantifier": "every interleaving of a reader with any sequence of writer operations", "why_tests_cant": "The race window (16 removes during one lookup) is practically never hit by tests.", "anchors": ["src/critnib/critnib.c: critnib_get, critnib_find_le, critnib_insert, critnib_remove, free_node, free_leaf"]}
{"id": "C47", "title": "Destroying a coarse allocator returns all memory exactly once", "statement": "When a coarse allocator is destroyed no internal assertion fails, and if it has a free callback the ranges passed to it are pairwise disjoint and together cover exactly the memory the allocator had obtained.", "quantifier": "every reachable allocator state, including states with live allocations", "why_tests_cant": "A range returned twice or not at all depends on the block structure left by the whole history.", "anchors": ["src/coarse/coarse.c: coarse_delete, coarse_ravl_cb_rm_all_blocks_node"]}
{"id": "C48", "title": "The coarse allocator tells its callbacks the truth", "statement": "Every split, merge and free callback names pieces of memory that exist according to the earlier callback calls, with their exact sizes; the pieces known to the callbacks partition the memory the allocator holds, every live allocation is exactly one piece, memory obtained but not usable is given back, and destruction frees every piece once.", "quantifier": "every history of calls in which the internal allocations following an answered callback succeed", "why_tests_cant": "A wrong pointer or size passed to a callback is harmless for most providers and only shows in later IPC or unmapping after particular histories.", "anchors": ["src/coarse/coarse.c: user_block_merge, create_aligned_block, split_current_block, coarse_alloc, coarse_split, coarse_merge, coarse_delete"]}
{"id": "C49", "title": "The coarse allocator takes the best-fitting free block", "statement": "An allocation served from free memory begins at the first suitably aligned address of a free block that is no larger than any free block able to serve the request at any alignment; when free blocks are aligned (or, with the check-all-size strategy, when one block of the smallest sufficient size is) the block used has the smallest sufficient size, and no new memory is requested.", "quantifier": "every reachable state, size, alignment and strategy", "why_tests_cant": "Tests check that an allocation succeeds, not which of arbitrarily many free blocks is taken.", "anchors": ["src/coarse/coarse.c: find_free_block, free_blocks_rm_ge, node_list_rm_first, node_list_rm_with_alignment, coarse_alloc"]}
{"id": "C50", "title": "Tracked allocation is all-or-nothing", "statement": "An allocation through a pool's tracked provider either succeeds, returning the upstream pointer, or fails returning no pointer, giving the upstream memory back with the same address and size and leaving all lookups unchanged; it succeeds whenever the upstream allocation does, bookkeeping memory is available and fewer than eight tracked allocations contain the address, and is refused when eight do.", "quantifier": "every reachable tracker state, every request, every upstream answer and every bookkeeping failure", "why_tests_cant": "Needs fault injection and deep nesting in arbitrary states.", "anchors": ["src/provider/provider_tracking.c: trackingAlloc, umfMemoryTrackerAdd, umfMemoryTrackerAddAtLevel"]}
{"id": "C51", "title": "Tracked split and merge change exactly their range", "statement": "A split that reports success was applied to an existing allocation of exactly the stated size with nothing tracked inside it; afterwards every address of its two parts is attributed to the right part and every other address as before. Likewise a successful merge joins two existing, adjacent allocations of one pool whose sizes add up to the stated size (allocations not lying inside another one).", "quantifier": "every reachable tracker state, every argument, every address", "why_tests_cant": "Off-by-one and neighbour effects show only for particular layouts.", "anchors": ["src/provider/provider_tracking.c: trackingAllocationSplit, trackingAllocationMerge", "src/memory_provider.c: umfMemoryProviderAllocationSplit, umfMemoryProviderAllocationMerge"]}
{"id": "C52", "title": "IPC handle ids identify memory", "statement": "Two handles issued by a process with the same id describe the same memory. A handle that had to be obtained from the provider anew has an id no earlier handle has, so memory at a re-used address never shares an id with the memory that was there before. Provider handles are obtained once per allocation and given back once, before the memory is freed.", "quantifier": "every sequence of tracked calls and umfGetIPCHandle calls, every address, every allocation failure", "why_tests_cant": "Id re-use shows only after long histories with address re-use.", "anchors": ["src/provider/provider_tracking.c: trackingGetIpcHandle, trackingFree", "src/ipc.c: umfGetIPCHandle"]}
{"id": "C53", "title": "The disjoint pool asks the provider for memory only when it must", "statement": "A malloc or aligned malloc served from a size class asks the provider for memory only if every chunk of every slab of that class is in use.", "quantifier": "every reachable state, every request", "why_tests_cant": "Depends on the state of every slab.", "anchors": ["src/pool/pool_disjoint.c: bucket_get_avail_slab, bucket_get_free_chunk"]}
{"id": "C54", "title": "Destroying a disjoint pool returns its slabs exactly once", "statement": "Destroying the pool hands every region obtained for slabs back to the provider, exactly once and with its original address and size, and nothing else.", "quantifier": "every reachable state", "why_tests_cant": "Double frees depend on the history.", "anchors": ["src/pool/pool_disjoint.c: disjoint_pool_finalize, destroy_bucket, destroy_slab"]}
{"id": "C55", "title": "Destroying a pool releases its share of the shared limit", "statement": "If no pool that shares a limit keeps more memory than leaves room for another slab, a slab can be kept; in particular, memory of destroyed pools no longer counts.", "quantifier": "every sequence of creating, using and destroying pools that share a limit", "why_tests_cant": "Needs sequences of pool lifetimes.", "anchors": ["src/pool/pool_disjoint.c: destroy_bucket, bucket_can_pool"]}
{"id": "C56", "title": "Internal allocators reject sizes whose arithmetic overflows", "statement": "A request to an internal allocator whose size cannot be represented after rounding, headers and metadata is refused (NULL), and running out of OS memory is reported as NULL.", "quantifier": "all 64-bit sizes, every reachable state", "why_tests_cant": "Needs sizes near 2^64 or memory exhaustion.", "anchors": ["src/base_alloc/base_alloc.c: umf_ba_create", "src/base_alloc/base_alloc_linear.c: umf_ba_linear_alloc", "src/base_alloc/base_alloc_global.c: umf_ba_global_aligned_alloc, add_metadata_and_align"]}
{"id": "C57", "title": "Internal linear allocator's memory is bounded by what is live", "statement": "The number of OS regions a linear allocator holds is at most two more than the number of its live blocks.", "quantifier": "every sequence of alloc/free", "why_tests_cant": "The leak needs a particular alternation of sizes and frees.", "anchors": ["src/base_alloc/base_alloc_linear.c: umf_ba_linear_alloc, umf_ba_linear_free"]}
{"id": "C58", "title": "NUMA interleaving continues across allocations", "statement": "In interleave mode all allocations together are interleaved: the part of the concatenated allocations that byte y lies in decides its node.", "quantifier": "all node lists, part sizes, lengths and allocation histories", "why_tests_cant": "Needs the page placement of long allocation histories.", "anchors": ["src/provider/provider_os_memory.c: membindFirst, membindNext"]}
{"id": "C59", "title": "NUMA binding works for every accepted configuration", "statement": "NUMA parameters are accepted exactly when they are consistent, and for accepted parameters no allocation size leads to an access outside the partition table.", "quantifier": "all parameters, all allocation sizes", "why_tests_cant": "The failing sizes are tens of terabytes of address space.", "anchors": ["src/provider/provider_os_memory.c: translate_params, validatePartitions, validatePartSize, initializePartitions, nextBind"]}
{"id": "C60", "title": "Live allocations of the OS provider are disjoint, mapped and counted", "statement": "In every history of allocations, frees, splits at page boundaries and merges on an OS provider, the pages of distinct live allocations are disjoint, every live byte is mapped, and the allocated-memory statistic equals the sum of the live sizes.", "quantifier": "all histories, sizes, alignments, page sizes, kernel answers and failures of munmap or bind", "why_tests_cant": "The kernel's choices of addresses and the interplay of trimming, splitting and freeing are unbounded; tests see one kernel's placement.", "anchors": ["src/provider/provider_os_memory.c: os_alloc, os_free, os_allocation_split, os_allocation_merge, utils_mmap_aligned"]}
{"id": "C61", "title": "Shared OS memory never aliases", "statement": "With shared visibility, two distinct bytes of live allocations are always backed by two distinct bytes of the provider's file.", "quantifier": "all histories, all alignments and kernel answers", "why_tests_cant": "Aliasing shows only if both allocations are live and written, and depends on how many bytes each earlier call reserved in the file.", "anchors": ["src/provider/provider_os_memory.c: utils_mmap_aligned, os_alloc, os_free"]}
{"id": "C62", "title": "An allocation of any size leaves a shared OS provider usable", "statement": "After a successful allocation of any size, a shared OS provider can still serve allocations of whole pages as long as the kernel has memory.", "quantifier": "all sizes of earlier allocations", "why_tests_cant": "Tests that use sizes that are multiples of the page size never see the misaligned file offset.", "anchors": ["src/provider/provider_os_memory.c: utils_mmap_aligned (fd_size += extended_length)"]}
{"id": "C63", "title": "Freeing one part of a split allocation keeps the other", "statement": "After a successful split, freeing the first part leaves every byte of the second part mapped.", "quantifier": "all split points accepted by the provider", "why_tests_cant": "Tests split at page boundaries; the code checks no boundary.", "anchors": ["src/provider/provider_os_memory.c: os_allocation_split, os_free", "src/memory_provider.c: umfMemoryProviderAllocationSplit"]}
{"id": "C64", "title": "A statistics reset may run at any time", "statement": "When no call is running, the peak-memory statistic is at least the allocated-memory statistic, also if resets overlapped allocations.", "quantifier": "every interleaving of allocations, frees and resets", "why_tests_cant": "The window is two instructions wide.", "anchors": ["src/provider/provider_os_memory.c: CTL_RUNNABLE_HANDLER(reset), os_alloc"]}
{"id": "C65", "title": "Destroying a file provider unmaps exactly its mappings", "statement": "When a file provider is destroyed, every memory mapping it ever made is unmapped, each exactly once, and no other mapping of the process is touched.", "quantifier": "all histories of allocations (any alignment), frees, splits, merges and failing kernel calls, all addresses chosen by the kernel", "why_tests_cant": "Leaked mappings are not visible to a test, and the set of mappings depends on the addresses chosen by the kernel.", "anchors": ["src/provider/provider_file_memory.c: file_finalize, file_mmap_aligned", "src/critnib/critnib.c: critnib_find"]}
{"id": "C66", "title": "Values in a configuration are read exactly", "statement": "For every value text and every list of argument fields, loading a configuration gives the handler exactly the numbers, truth values and strings that the comma-separated words denote, within the range of each field and never truncated; a text that does not denote such values is rejected and no handler is called.", "quantifier": "all value texts and all lists of fields", "why_tests_cant": "Texts are unbounded, and the interesting ones lie at the limits of three integer widths, three number bases and buffer sizes.", "anchors": ["src/ctl/ctl.c: ctl_parse_args, ctl_arg_integer, ctl_arg_boolean, ctl_arg_string"]}
{"id": "C67", "title": "Logger configuration: the log settings are those listed in UMF_LOG", "statement": "When UMF_LOG is read, the output is the one listed (stdout before stderr before a file that can be opened), each setting (timestamp, pid, level, flush level) is the one listed or its default, logging stays off with default settings if there is no usable output, and the file name never overruns its buffer.", "quantifier": "all values of UMF_LOG and all outcomes of opening the file", "why_tests_cant": "Words inside file names, repeated or contradictory words and very long paths are not tested.", "anchors": ["src/utils/utils_log.c: utils_log_init", "src/utils/utils_common.c: utils_parse_var"]}
{"id": "C68", "title": "A log line is complete or marked as truncated, and never overruns its buffers", "statement": "Every log call that is to be heard (output set or fatal, level at least the one configured) writes exactly one line with the header, the level, and either the whole message with the text of the error, or a beginning of at least 8190 characters of it and the mark [truncated...]; no byte outside the line buffers is written; other calls write nothing.", "quantifier": "all messages of any length, error texts, function names, levels and configurations", "why_tests_cant": "The boundary cases within two bytes of the buffer's end, where the error text is dropped or loses its terminator, need exact lengths.", "anchors": ["src/utils/utils_log.c: utils_log_internal"]}
{"id": "C69", "title": "A devdax allocation opened through IPC shows the same bytes", "statement": "Opening the IPC handle of a devdax allocation in another process yields an address at which byte i is byte i of the allocation, for its whole length; closing it unmaps exactly what opening mapped; a failed open leaves nothing mapped.", "quantifier": "all allocations of a devdax provider, all histories of allocation, split and merge", "why_tests_cant": "Tests use allocations of whole 2 MB pages; allocations split off a page boundary are not exported.", "anchors": ["src/provider/provider_devdax_memory.c: devdax_get_ipc_handle, devdax_open_ipc_handle, devdax_close_ipc_handle"]}
{"id": "C70", "title": "Ordered lock-free lookups find the stable neighbour", "statement": "A lookup of the largest key not above a given one, running beside inserts and removes, answers only with an entry that was in the map at some moment of the call; if the nearest key is the same during the whole call it answers with that key and a value it had then; if there is no such key during the whole call it finds nothing.", "quantifier": "every interleaving of an ordered lookup with any sequence of inserts and removes, all keys and values", "why_tests_cant": "The windows are a few loads wide and need particular key patterns; umfPoolByPtr and every IPC call depend on them.", "anchors": ["src/critnib/critnib.c: find_predecessor, find_le, critnib_find, critnib_find_le", "src/provider/provider_tracking.c: umfMemoryTrackerGetAllocInfo"]}
{"id": "C71", "title": "Ordered lock-free lookups answer with a state of the map", "statement": "As the comment in critnib.c promises for get and find_le alike, the answer of an ordered lookup running beside inserts and removes is the right answer for the map as it was at some moment of the call.", "quantifier": "every interleaving of an ordered lookup with any sequence of inserts and removes", "why_tests_cant": "The counterexamples need a writer to act between two particular loads.", "anchors": ["src/critnib/critnib.c: comment at DELETED_LIFE, find_predecessor, find_le, critnib_find"]}
{"id": "C72", "title": "CUDA provider: allocations aligned, accounted for, of the provider's type", "statement": "umfMemoryProviderAlloc on a CUDA provider returns SUCCESS only with memory of the provider's type, in its context, of the asked size, aligned as asked, not NULL and not handed out before. Any other result leaves the caller holding exactly what it held. After any sequence of calls the driver holds exactly the memory the callers hold: failed calls keep none. Creation succeeds exactly for valid parameters when the driver answers, and failures give everything back. The last native error's text always fits its buffer.", "quantifier": "every sequence of requests to any number of providers in any contexts, and every answer (success or any error code, any address) the driver gives to each call", "why_tests_cant": "The error paths need driver failures at chosen calls, which no test can order from a real GPU driver.", "anchors": ["src/provider/provider_cuda.c: cu_memory_provider_initialize", "src/provider/provider_cuda.c: cu_memory_provider_alloc", "src/provider/provider_cuda.c: cu_memory_provider_free", "src/provider/provider_cuda.c: umfCUDAMemoryProviderParamsCreate", "src/provider/provider_cuda.c: cu_memory_provider_get_last_native_error"]}
{"id": "C73", "title": "CUDA calls act in the provider's context and leave the caller's as it was", "statement": "Every request to a CUDA provider performs its driver calls with the provider's context current on the calling thread, and on return the thread's current context is the one it had before, whether the request succeeded or not.", "quantifier": "every request, every context current before it, every answer of the driver", "why_tests_cant": "Needs several contexts and failures of cuCtxSetCurrent at chosen moments.", "anchors": ["src/provider/provider_cuda.c: set_context", "src/provider/provider_cuda.c: cu_memory_provider_alloc", "src/provider/provider_cuda.c: cu_memory_provider_free", "src/provider/provider_cuda.c: cu_memory_provider_get_ipc_handle", "src/provider/provider_cuda.c: cu_memory_provider_open_ipc_handle", "src/provider/provider_cuda.c: cu_memory_provider_close_ipc_handle"]}
{"id": "C74", "title": "Level Zero provider: allocations accounted for, resident, of the provider's type", "statement": "umfMemoryProviderAlloc on a Level Zero provider asks the driver only for the provider's type of memory, with the size limit relaxed exactly for sizes above it. SUCCESS means memory of the asked size, not NULL, not handed out before and resident on every listed device. Any other result means a driver call failed and leaves the caller holding what it held. After any sequence of requests the driver holds exactly the memory the callers hold, and no descriptor is left open.", "quantifier": "every sequence of requests to any number of providers, and every answer of the driver to each call", "why_tests_cant": "Failures of zeContextMakeMemoryResident cannot be ordered from a real driver.", "anchors": ["src/provider/provider_level_zero.c: ze_memory_provider_alloc_helper", "src/provider/provider_level_zero.c: use_relaxed_allocation", "src/provider/provider_level_zero.c: ze_memory_provider_free_helper"]}
{"id": "C75", "title": "Level Zero provider creation is faithful or clean", "statement": "umfMemoryProviderCreate with Level Zero parameters returns SUCCESS exactly when the parameters are valid and the driver answers. The provider then has the context, device, memory type, resident devices, ordinal and free policy of the parameters, and the memory used to find the page size is given back. Otherwise it returns an error, and no memory is kept.", "quantifier": "every set of parameters, every answer of the driver, every failure of the base allocator", "why_tests_cant": "The failure path of the page-size probe needs a driver that is out of memory.", "anchors": ["src/provider/provider_level_zero.c: ze_memory_provider_initialize", "src/provider/provider_level_zero.c: query_min_page_size", "src/provider/provider_level_zero.c: ze_memory_provider_finalize"]}
{"id": "C76", "title": "Level Zero provider: freeing policy and foreign handles", "statement": "Memory is freed with the driver function for the provider's free policy, whichever driver is installed. A handle exported by this process is opened itself; a handle of another process is opened through a descriptor duplicated from that process, and that descriptor is closed before the call returns, whether or not the open succeeded.", "quantifier": "every provider and policy, every handle, every answer of the driver and the system", "why_tests_cant": "Needs drivers with and without zeMemFreeExt and failing opens across processes.", "anchors": ["src/provider/provider_level_zero.c: ze_memory_provider_free_helper", "src/provider/provider_level_zero.c: init_ze_global_state", "src/provider/provider_level_zero.c: ze_memory_provider_open_ipc_handle"]}
{"id": "C77", "title": "Concurrent umfGetIPCHandle calls agree", "statement": "However many threads call umfGetIPCHandle on one pool at the same time, and however their steps interleave: all calls for one allocation that succeed before it is freed return the same handle (same upstream data, same handle number); calls for different allocations return different ones; a handle given back to the upstream provider is one no caller received; when no call is in progress, the upstream handles not given back are exactly the cached ones, one per allocation, plus any the upstream provider refused to take back; each call goes round its retry loop at most twice, and fails only if an allocation or an upstream call it makes fails.", "quantifier": "all numbers of threads, all interleavings of atomic steps, all failures of allocations and upstream calls, all histories of calls and frees", "why_tests_cant": "The race needs two threads to miss the cache for one pointer at the same moment; a test hits that window by luck and never covers all interleavings or failure combinations.", "anchors": ["src/provider/provider_tracking.c:896-971", "src/provider/provider_tracking.c:743-755", "src/ipc.c:53-103"]}
{"id": "C78", "title": "Concurrent opening and closing of IPC handles keeps mappings alive", "statement": "However many threads open and close IPC handles through one pool at the same time, as long as two different handles of the same memory are not in use together: an address returned by umfOpenIPCHandle stays mapped until its holder's umfCloseIPCHandle has dropped the reference, even when the cache is full and evicts; holders of the same handle share one mapping and different memory has different mappings; the upstream provider is only told to unmap what nobody holds; closing a held address never fails; when no call is in progress the mappings are exactly those of cached entries; and the calls never deadlock.", "quantifier": "all numbers of threads and handles, all cache limits, all interleavings of atomic steps, all failures of allocations, tracker insertions and upstream opens", "why_tests_cant": "Needs eviction, a second opener and a closer to meet inside windows of a few instructions; tests cover a handful of schedules with one cache limit.", "anchors": ["src/ipc_cache.c:178-290", "src/provider/provider_tracking.c:982-1126", "src/ipc.c:130-168"]}
{"id": "C79", "title": "Lookups stay right while other threads allocate and free", "statement": "When several threads allocate from and free to pools whose memory is tracked, looking up an address inside an allocation that its holder keeps meanwhile (umfPoolByPtr and the lookups behind umfFree and the IPC calls) answers with that allocation and its pool; freeing always finds the allocation in the tracker; and when all calls have returned the tracker holds exactly the allocations that are held.", "quantifier": "All executions: any number of threads, any interleaving of the tracker's accesses, any addresses the upstream providers may return, insertions failing at any moment.", "why_tests_cant": "The schedules that break it need a record to be freed and reused between two adjacent reads of another thread, or two unsynchronised increments to overlap; tests cannot enumerate interleavings of unboundedly many threads.", "anchors": ["src/provider/provider_tracking.c:umfMemoryTrackerAdd", "src/provider/provider_tracking.c:umfMemoryTrackerAddAtLevel", "src/provider/provider_tracking.c:umfMemoryTrackerRemove", "src/provider/provider_tracking.c:get_most_nested_alloc_segment", "src/provider/provider_tracking.c:umfMemoryTrackerGetAllocInfo"]}
{"id": "C80", "title": "The last allocation error of a pool explains its last failed allocation", "statement": "When an allocation call on a pool returns NULL, umfPoolGetLastAllocationError, called by the same thread on the same pool, returns an error other than success that fits the failure (the provider's error where the manager passes it on); calls made meanwhile by other threads, on other pools, or that allocate nothing (umfFree, umfPoolMallocUsableSize) do not change it.", "quantifier": "All histories of calls by any threads on any number of disjoint, proxy, jemalloc and scalable pools, with any answers of the provider and the underlying allocator.", "why_tests_cant": "The error is a thread-local shared by all pools of a manager (or a field of no pool); which sequences disturb it depends on unbounded histories across pools and threads, and tests only read the error right after the failure.", "anchors": ["src/pool/pool_disjoint.c:disjoint_pool_get_last_allocation_error", "src/pool/pool_proxy.c:proxy_get_last_allocation_error", "src/pool/pool_jemalloc.c:op_get_last_allocation_error", "src/pool/pool_scalable.c:tbb_get_last_allocation_error", "src/memory_pool.c:umfPoolGetLastAllocationError"]}
{"id": "C81", "title": "Libraries loaded at run time are there whenever they are called", "statement": "While a scalable pool, a CUDA provider or a Level Zero provider exists, every function of TBB, CUDA or Level Zero it calls is one the library has and the library is mapped, whatever the application loads or unloads itself; all creations have the same outcome, and succeed if the library is available; tearing UMF down gives back exactly the references it took.", "quantifier": "All histories of loading and unloading by the application, creations, uses, destructions and tear-downs; all sets of functions a library may have; dlopen and dlclose failing at any time.", "why_tests_cant": "The failures need an incomplete or old version of a third-party library, or a second life of UMF after a tear-down; tests run with one complete version and one life.", "anchors": ["src/pool/pool_scalable.c:init_tbb_callbacks_once", "src/pool/pool_scalable.c:fini_tbb_global_state", "src/provider/provider_cuda.c:init_cu_global_state", "src/provider/provider_cuda.c:fini_cu_global_state", "src/provider/provider_level_zero.c:init_ze_global_state", "src/provider/provider_level_zero.c:fini_ze_global_state", "src/libumf.c:umfTearDown", "src/utils/utils_load_library.c"]}
{"id": "C82", "title": "Creating and destroying pools costs nothing in the end", "statement": "A pool creation that fails gives back all the library memory, mutexes, arenas and TBB pools it took; a pool that is created, used in any way and destroyed leaves nothing of its own behind, gives nothing back twice, and takes its provider with it exactly when it owns it.", "quantifier": "All pool managers, with or without tracking, any number of buckets, any use in between, any request for memory or a mutex failing.", "why_tests_cant": "Each failure path needs one particular request to fail, and a leak of internal memory is invisible to functional tests; tests cannot fail every request in every configuration.", "anchors": ["src/memory_pool.c:umfPoolCreateInternal", "src/memory_pool.c:umfPoolDestroy", "src/memory_provider.c:umfMemoryProviderCreate", "src/provider/provider_tracking.c:umfTrackingMemoryProviderCreate", "src/pool/pool_disjoint.c:disjoint_pool_initialize", "src/pool/pool_disjoint.c:disjoint_pool_finalize", "src/pool/pool_jemalloc.c:op_initialize", "src/pool/pool_scalable.c:tbb_pool_initialize", "src/pool/pool_proxy.c:proxy_pool_initialize", "src/critnib/critnib.c:critnib_new", "src/critnib/critnib.c:critnib_delete"]}
{"id": "C83", "title": "A jemalloc pool's memory comes from its own provider and goes back to it", "statement": "At any moment of any run in which several threads create, use and destroy jemalloc pools, what a provider has given out through such pools is what the arenas of its live pools hold. A pool's calls always reach that pool's provider. An extent wanted at an address is at that address. Once every pool is destroyed nothing is left given out.", "quantifier": "all histories of arena creations, table updates, extent hooks (allocate, free, destroy, split, merge) and destructions, interleaved in any way, with every answer of the providers", "why_tests_cant": "jemalloc chooses the arena index and the moment of each hook; the failing order needs a pool to be created between two instructions of another pool's destruction and to be given the same index", "anchors": ["src/pool/pool_jemalloc.c:get_pool_by_arena_index", "src/pool/pool_jemalloc.c:arena_extent_alloc", "src/pool/pool_jemalloc.c:arena_extent_destroy", "src/pool/pool_jemalloc.c:arena_extent_dalloc", "src/pool/pool_jemalloc.c:arena_extent_split", "src/pool/pool_jemalloc.c:arena_extent_merge", "src/pool/pool_jemalloc.c:op_initialize", "src/pool/pool_jemalloc.c:op_finalize"]}
{"id": "C84", "title": "A provider made from a memory space uses the nodes of that space, as the policy says", "statement": "A provider created from a memory space and a policy binds every page of every allocation to nodes of that space only, and to those the policy asks for: all of them (bind, preferred), one after the other by parts (interleave), or in proportion to the caller's partitions (split). It is created exactly when the policy makes sense for the space, and its creation leaves no memory of the library behind.", "quantifier": "all memory spaces of NUMA nodes, all policies, all page sizes, all histories of allocations, every refused request for memory during the creation", "why_tests_cant": "placement needs a machine with several NUMA nodes, and depends on everything allocated before; refused requests for memory during creation are not produced by tests", "anchors": ["src/memspace.c:umfMemoryProviderCreateFromMemspace", "src/memspace.c:memoryTargetHandlesToPriv", "src/mempolicy.c:umfMempolicyCreate", "src/mempolicy.c:umfMempolicySetCustomSplitPartitions", "src/memtargets/memtarget_numa.c:numa_memory_provider_create_from_memspace", "src/provider/provider_os_memory.c:umfOsMemoryProviderParamsSetNumaList", "src/provider/provider_os_memory.c:umfOsMemoryProviderParamsSetPartitions"]}
{"id": "C85", "title": "A disjoint pool may be used by several threads at once", "statement": "Whatever threads allocate, free and ask for usable sizes at the same time, the disjoint pool never reads a slab that was destroyed, live allocations never overlap and lie in memory obtained from the provider, every free marks the chunk its pointer is in or goes to the provider the pointer came from, usable sizes are at least the sizes asked for and never reach into other allocations, a thread that holds a bucket's lock can always go on, and with no call under way every slab and all memory is accounted for.", "quantifier": "all interleavings of any number of threads, all bucket sizes, all choices of slabs and chunks, every reuse of freed addresses by the provider and by the allocator of slab descriptions, every failed slab creation", "why_tests_cant": "the dangerous interleavings are a few instructions wide: a thread must find a slab in the map and be delayed until another has destroyed it; tests with threads almost never hit this, and the freed description usually still looks right", "anchors": ["src/pool/pool_disjoint.c:disjoint_pool_free", "src/pool/pool_disjoint.c:disjoint_pool_malloc_usable_size", "src/pool/pool_disjoint.c:disjoint_pool_aligned_malloc", "src/pool/pool_disjoint.c:bucket_free_chunk", "src/pool/pool_disjoint.c:bucket_create_slab", "src/pool/pool_disjoint.c:destroy_slab"]}
{"id": "C86", "title": "Predefined memory spaces live through any number of initialisations", "statement": "In every history of initialisations, tear-downs and requests, in which no allocation fails: a request never crashes; the space returned exists and shares no target with the others; until the library is torn down the answer and its targets stay the same; the last tear-down leaves no space, target, memory or description of the machine; and no history crashes in which the description is asked for before each tear-down. If hwloc never fails, the spaces of all nodes, of the highest capacity and (if bandwidths are known) of the highest bandwidth are there after any history. Refuted: tearing down never crashes (the description is destroyed twice if a period does not use it, also if each period asks for the space of the lowest latency); that space is there in each period (only in the first); a failure of hwloc ends with its period.", "quantifier": "all machines, all histories of umfInit, umfTearDown, umfMemspace*Get and queries, all behaviours of hwloc", "why_tests_cant": "Needs several periods within one process and failures of hwloc at chosen moments; tests initialise once.", "anchors": ["src/topology.c:umfDestroyTopology", "src/topology.c:umfGetTopology", "src/memspaces/memspace_host_all.c:umfMemspaceHostAllGet", "src/memspaces/memspace_highest_capacity.c:umfMemspaceHighestCapacityDestroy", "src/memspaces/memspace_highest_bandwidth.c:umfMemspaceHighestBandwidthDestroy", "src/memspaces/memspace_lowest_latency.c:umfMemspaceLowestLatencyDestroy", "src/libumf.c:umfTearDown"]}
{"id": "C87", "title": "Predefined memory spaces contain the nodes they promise", "statement": "The space of all nodes has each NUMA node once, in logical order; that of the highest capacity has all nodes, those with more memory first; those of the highest bandwidth and of the lowest latency have, for each node, a node than which none is better for it by hwloc's values, and no other nodes and none twice, if the system numbers the nodes in logical order. Refuted without that: the number of a node is taken for its logical index, so the wrong node is chosen, or there is no space at all.", "quantifier": "all machines (any number of nodes, numbers, memory sizes, CPU sets, attribute values), all histories", "why_tests_cant": "Depends on machines whose system numbers differ from hwloc's logical ones, and on attribute tables a test machine does not have.", "anchors": ["src/memtargets/memtarget_numa.c:query_attribute_value", "src/memtargets/memtarget_numa.c:numa_get_capacity", "src/memspaces/memspace_highest_bandwidth.c:umfMemspaceHighestBandwidthCreate", "src/memspaces/memspace_lowest_latency.c:umfMemspaceLowestLatencyCreate", "src/memspaces/memspace_highest_capacity.c:umfMemspaceHighestCapacityCreate", "src/memspaces/memspace_host_all.c:umfMemspaceHostAllCreate"]}
{"id": "C88", "title": "Splits and merges by several threads keep the tracker right", "statement": "While several threads allocate, free, look up, split and merge memory through tracking providers: a lookup inside memory that stays allocated answers with an allocation of its pool that contains the address; frees find what splits and merges produced; a split or merge reports success only when its result is in place, and 'invalid argument' only when the allocations it was given are not there; the upstream provider is asked only about allocations that exist; when all calls have returned the tracker's entries are exactly the allocations as the callers were told, and no record of the tracker is lost or in two places; and no set of unfinished calls blocks itself.", "quantifier": "All interleavings of any number of threads, allocations, splits and merges; all answers of the upstream provider and of the record allocator (merges accepted only of adjacent memory).", "why_tests_cant": "The window between shortening the entry and adding the second one, and the reuse of a record between its lookup and its read, are a few instructions long; tests split and merge from one thread.", "anchors": ["src/provider/provider_tracking.c:trackingAllocationSplit", "src/provider/provider_tracking.c:trackingAllocationMerge", "src/provider/provider_tracking.c:get_most_nested_alloc_segment", "src/provider/provider_tracking.c:umfMemoryTrackerAddAtLevel", "src/provider/provider_tracking.c:umfMemoryTrackerGetAllocInfo"]}
{"id": "C89", "title": "A scalable pool's memory comes from its own provider and goes back to it", "statement": "At any moment of any run in which several threads create, use and destroy scalable pools, what a provider has given out through such pools is what TBB holds for them. Every object lies in memory of its own pool's provider and no two objects overlap. TBB gets the parameters last accepted. umfFree fails only with an error of this call, and if it succeeds the provider has taken back what it was offered. A failed creation leaves nothing; once every pool is destroyed nothing is left given out.", "quantifier": "all histories of creations, allocations, reallocations, frees and destructions by any threads on any number of pools, with callbacks by TBB at any moment and every answer of TBB and the providers", "why_tests_cant": "TBB decides when raw memory is asked for and given back, so failures of the provider hit calls that have nothing to do with it; tests see neither the callbacks nor what the provider still holds", "anchors": ["src/pool/pool_scalable.c:tbb_raw_alloc_wrapper", "src/pool/pool_scalable.c:tbb_raw_free_wrapper", "src/pool/pool_scalable.c:tbb_pool_initialize", "src/pool/pool_scalable.c:tbb_pool_finalize", "src/pool/pool_scalable.c:tbb_free", "src/pool/pool_scalable.c:tbb_realloc", "src/pool/pool_scalable.c:umfScalablePoolParamsSetGranularity"]}
{"id": "C90", "title": "A failed free by the OS provider changes nothing", "statement": "If umfMemoryProviderFree of an OS provider fails because munmap fails, the memory stays mapped, the statistics are unchanged, the free can be repeated, and an IPC handle of every live allocation, including this one, can still be obtained.", "quantifier": "every provider state, address and size; every later call", "why_tests_cant": "Tests cannot make munmap fail on valid memory.", "anchors": ["src/provider/provider_os_memory.c: os_free, os_get_ipc_handle, os_allocation_split"]}
{"id": "C91", "title": "The last native error is the thread's own last failure", "statement": "After a call on an OS, devdax, file or fixed provider has returned UMF_RESULT_ERROR_MEMORY_PROVIDER_SPECIFIC, umfMemoryProviderGetLastNativeError called in the same thread gives the header's code and the message of what went wrong in that call, with the system's text for its errno if it has one, until the thread's next such failure on a provider of the same kind. Calls of other threads, on other kinds of providers, or with other results change nothing; reading is always defined; and every provider sets the message.", "quantifier": "every history of calls of any number of threads on providers of the four kinds, every answer of the kernel and of hwloc, every errno", "why_tests_cant": "Tests provoke single failures in one thread and compare the code; the wrong and the undefined readings need a failing node set allocation, a kernel without mbind, or a thread without a failure.", "anchors": ["include/umf/memory_provider.h:81-97", "src/provider/provider_os_memory.c: os_store_last_native_error, os_get_last_native_error, os_alloc, os_free, os_purge_lazy, os_purge_force, os_open_ipc_handle, os_close_ipc_handle", "src/provider/provider_devdax_memory.c: devdax_get_last_native_error", "src/provider/provider_file_memory.c: file_get_last_native_error, file_alloc_cb", "src/provider/provider_fixed_memory.c: fixed_get_last_native_error", "src/provider/provider_level_zero.c: ze_memory_provider_get_last_native_error"]}
{"id": "C92", "title": "The reported failing provider can be asked about its failure", "statement": "umfGetLastFailedMemoryProvider gives the handle of the last provider that returned a failure in the calling thread. While the client has not destroyed the provider, that handle is valid, and umfMemoryProviderGetName and umfMemoryProviderGetLastNativeError on it answer for the user's provider that failed, also when a pool made the failing call.", "quantifier": "every history of creating, using and destroying providers and pools, tracked or not, by any number of threads; every result of the providers; every placement of new handles", "why_tests_cant": "Tests ask right after a failing call on a pool that still exists; they never ask after a failed pool creation or after destroying the pool, and a freed handle usually still reads well.", "anchors": ["include/umf/memory_provider.h:224-233", "src/memory_provider.c: checkErrorAndSetLastProvider, umfGetLastFailedMemoryProvider", "src/memory_pool.c: umfPoolCreateInternal, umfPoolDestroy", "src/provider/provider_tracking.c: trackingGetLastError, trackingName"]}
{"id": "C93", "title": "An IPC handle of shared OS memory opens the memory it was made for", "statement": "Opening an IPC handle of an OS provider with shared visibility, in any process and any number of times, maps the file of the provider that made the handle, with a shared memory name or without; and creating such a provider returns a umf_result_t code.", "quantifier": "every history of creating and destroying providers and opening handles by any number of processes; every name; every answer of the kernel", "why_tests_cant": "Tests open each handle once, in one consumer, with a fresh name; a second consumer, a second provider with the same name and a failing shm_open are not tried.", "anchors": ["src/provider/provider_os_memory.c: create_fd_for_mmap, os_get_ipc_handle, os_open_ipc_handle, os_finalize", "src/utils/utils_linux_common.c: utils_shm_create, utils_shm_open, utils_shm_unlink, utils_create_anonymous_fd", "src/utils/utils_posix_common.c: utils_duplicate_fd"]}
