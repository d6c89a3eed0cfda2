# Formal model of UMF: design

`/repo` is read as text. The model is Gallina (Coq 8.16.1, stdlib only), under `rocq/theories`.

## Layout

* `Model_*.v` – executable model, one file per component, every definition cites file and lines. No proofs.
* `Spec*.v`   – small independent specifications used in the statements.
* `Proof_*.v` – lemmas.
* `Properties_*.v` – only theorem statements closed by `exact`, `Print Assumptions` below each, and examples showing the hypotheses are met.

## Conventions

* Machine words are `Z`; where the C type can wrap the model applies `mod 2^64` explicitly.
* External behaviour (OS, upstream providers, callbacks, allocation failures) is an oracle: an argument or an entry of the operation.
* Undefined behaviour, failed asserts and crashes are explicit outcomes, not totalised away.
* If the code violates a property, the theorem is `..._refuted` with a concrete witness, beside the strongest positive theorem.

## Plan per property

* **C01** Live allocations of a coarse-backed provider never overlap — Model coarse.c over ordered block lists (the two ravl trees appear as their ordered-set interface, justified by C11). `step` for alloc/free/split/merge/add_memory; callbacks are oracles. Invariant by induction over op lists.
* **C02** A successful coarse allocation is big enough and aligned — Same model; post-condition of `coarse_alloc` from the invariant.
* **C03** Coarse accounting is exact — Same model; sums over the block list; tiling invariant.
* **C04** Freed memory is coalesced and becomes fully reusable — Same model; no-adjacent-free-blocks invariant with accepting merge callback.
* **C05** Bad frees are rejected and change nothing — Same model; case analysis of `coarse_free`.
* **C06** Allocation split and merge are inverse and affect only their range — Same model; equational laws.
* **C07** Coarse allocation succeeds whenever a suitable free block exists — Same model; completeness of the search under the no-OOM oracle.
* **C08** The radix map behaves like a finite map — Model critnib.c as an inductive 16-ary tree with path/shift, refinement to a finite map.
* **C09** Ordered lookups in the radix map return the true neighbour — Same tree; neighbour specification over the set of stored keys.
* **C10** Range iteration over the radix map visits exactly the keys in range — Same tree; `iter` with its lower-bound pruning exactly as written. Expected: refuted in general, proved for min=0.
* **C11** The balanced tree behaves like an ordered set — Model ravl.c as an inductive ranked tree; bottom-up balance expressed as a function on zippers; refinement to a sorted list.
* **C12** The balanced tree stays balanced under insertion — Same tree; rank invariants, Fibonacci-like lower bound on size per rank.
* **C13** Pool lookup by pointer finds the innermost owner — Model the 8-level tracker over ordered maps; nesting invariant; innermost owner specification.
* **C14** Freed allocations disappear from the tracker — Same; expected refutation for split+merge of a nested region, positive theorem otherwise.
* **C15** A failed upstream operation leaves tracking unchanged — Same with upstream result oracles.
* **C16** umfFree returns memory to the pool it came from — Corollary of C13 on the pool front-end model.
* **C17** IPC handle get/open round trip preserves the offset — Model ipc.c/provider_tracking.c handle arithmetic; round-trip law.
* **C18** An opened IPC mapping is never closed while still in use — Model ipc_cache.c as hash + LRU state machine with ref counts.
* **C19** IPC cache respects its size limit and evicts only idle, least-recently-used entries through their own provider — Same; expected refutations for foreign-provider eviction.
* **C20** Size class selection picks the tightest class — Model bucket table construction and size_to_idx; arithmetic proof with msb.
* **C21** Chunks handed out by the disjoint pool never overlap — Model slabs/buckets; invariant by induction over op lists.
* **C22** A chunk is returned to the slab it came from — Same; positive under slab_min_size condition, refuted otherwise.
* **C23** Pooling limits hold — Sequential bucket invariant, plus interleaved step system for the shared limit.
* **C24** Aligned allocation from the disjoint pool is aligned and large enough — Word-arithmetic model of aligned_malloc; positive below the wrap, refuted above.
* **C25** Internal fixed-size allocator hands out disjoint chunks — Model of base_alloc.c pools and free list.
* **C26** Internal linear allocator hands out disjoint memory and releases a page run only when it is empty — Model of base_alloc_linear.c; positive below the wrap, refuted above.
* **C27** Internal general allocator metadata round-trips — Word-arithmetic model of metadata packing, composed with the five chunk pools.
* **C28**, **C60**–**C63** OS provider: aligned mapping, live allocations, shared memory, splits — Model of mmap/munmap events with the kernel's answers as input (Model_OsProvider); the address space is a function from addresses to what they show; invariant over histories of calls (Proof_OsHistory); refutations by concrete histories, whole-page histories keep a shared provider usable (Proof_OsPaged) and, for C62, by induction over all later attempts.
* **C29** NUMA split mode distributes every page exactly once and in proportion — Model of the parameter translation and the nextBind/membind iterator (Model_OsNuma); invariant on the iterator: after d pages the current partition starts at or before d and ends after leftover pages plus rest/W.
* **C30**, **C58**, **C59** NUMA interleave mode; interleaving across allocations; every accepted configuration works — Same model, induction over the bind calls and over the allocation history; refutations by concrete histories.
* **C31**, **C64** OS provider statistics are exact under concurrency — Interleaved step system of atomic operations; ghost history.
* **C32** File provider allocations use disjoint file ranges inside the mapping — Model of file_mmap_aligned/file_alloc_aligned; refuted for alignment > page size, proved for page alignment.
* **C33** IPC handles of file- and fd-backed memory denote the same bytes — Same plus utils_mmap_aligned.
* **C65** Destroying a file provider unmaps exactly its mappings — Invariant: the provider's map of mappings equals the mappings made, which are disjoint; the finalize loop visits them in ascending order.
* **C34** Provider front-end rejects invalid calls before they reach the provider and reports the failing provider — Every entry point as a function to a list of calls and a result, the provider an oracle (Model_ProviderApi); the last-failed-provider slot is part of the state.
* **C35** Pool create/destroy releases each resource exactly once — Resource accounts (providers, pools, tags, blocks) over histories of creations and destructions with failure inputs; the leaks of the error paths are refutations.
* **C36** Library init/teardown is reference counted — Step system over the atomic operations of umfInit/umfTearDown by any number of threads; refuted for races between teardown and init.
* **C37** Control queries resolve names safely and deliver indexes — Node trees with NULL children as values; paths in a tree as an inductive specification; UB is an explicit outcome.
* **C38**, **C66** Configuration strings are processed query by query; values are read exactly — Model of strtok_r, strtol and of the argument parsers; numerals specified inductively, independent of the parser.
* **C39** Memory space operations are exact set operations — List model of memspace with allocation oracle; UB (use after free) explicit.
* **C40** malloc replacement frees every pointer with the allocator that produced it — Routing model of proxy_lib.c with address-range ownership.
* **C41** Alignment helpers round correctly or report overflow — Word arithmetic.
* **C42** Flag translation is exact and rejects unknown flags — Loop over bits modelled as recursion on bit index.
* **C43** Option strings: an option is found whenever it is listed — Strings as ascii lists; strstr modelled; refuted for substrings, positive for prefix-safe lists.
* **C44** Provider creation reports failure — Control-flow model with failure oracle.
* **C45** Pool tags behave like an atomic register — Interleaved step system with a lock; every history has a linearization.
* **C46** Lock-free readers of the radix map see consistent data — Heap of numbered nodes and leaves, the writer's plan as a list of single stores, the reader as a machine of single loads; every node and leaf has a ghost status (fresh, live, retired at count M, freed, private) and the reader's position is on the key's path through live and recently retired nodes.
* **C47** Destroying a coarse allocator returns all memory exactly once — Same model as C01; the free callbacks of `coarse_delete` are the block list, which tiles the given memory.
* **C48** The coarse allocator tells its callbacks the truth — Spec: a callback-side map of pieces folded over the callback log; walk over the model showing the map always equals the block map.
* **C49** The coarse allocator takes the best-fitting free block — Same model; search lemmas over the size classes.
* **C50** Tracked allocation is all-or-nothing — Same model as C13; reply and event list of `trackingAlloc`.
* **C51** Tracked split and merge change exactly their range — Same model as C13; lookups before and after.
* **C52** IPC handle ids identify memory — Same model as C17; invariant over issued handles and the id counter.
* **C53** The disjoint pool asks the provider for memory only when it must — Same model as C21; counts of live allocations per region.
* **C54** Destroying a disjoint pool returns its slabs exactly once — Same model; the bucket lists partition the slabs. Refuted for a slab size of 0.
* **C55** Destroying a pool releases its share of the shared limit — Step system of C23; refuted, with an exact account of the bytes that are lost (disjoint_limit_lost_partial).
* **C56** Internal allocators reject sizes whose arithmetic overflows — Refuted: witnesses for the three allocators and for exhausted OS memory. The sizes that every state refuses, and NULL without OS memory, are proved (internal_refusals_partial).
* **C57** Internal linear allocator's memory is bounded by what is live — Refuted: a region emptied while active stays; the bound plus the number of such regions is proved by induction (Proof_BaseAllocWaste).
* **C67** Logger configuration: the log settings are those listed in UMF_LOG — Direct model of utils_log_init over the option search of C43; specification by elements of the text; refuted when a file name contains a known word.
* **C68** A log line is complete or marked as truncated, and never overruns its buffers — Buffers as lengths and contents; snprintf results are inputs of the right length; refuted for function names longer than any in the code.
* **C69** A devdax allocation opened through IPC shows the same bytes — Direct model of the three IPC functions over the coarse model; refuted for split allocations.
* **C70** Ordered lock-free lookups find the stable neighbour — The recursive find_le as a machine with an explicit stack of (node, nib); invariant: every node visited covers a live or recently retired place, every leaf returned was in the map during the call; for a stable neighbour, its place is still ahead of the search.
* **C71** Ordered lock-free lookups answer with a state of the map — Refuted by two witness runs, for every choice of the moments of effect.
* **C72** CUDA provider: allocations aligned, accounted for, of the provider's type — Driver as an oracle per call with a log; step lemma per request, then induction over histories with a permutation between driver memory and holdings plus leaks.
* **C73** CUDA calls act in the provider's context — Each logged call carries the context current when it was made; two refutations.
* **C74** Level Zero provider: allocations accounted for, resident, of the provider's type — Same method as C72; leak after a failed make-resident refuted.
* **C75** Level Zero provider creation is faithful or clean — Case split over the creation path; undefined behaviour is a distinct outcome, reached in two refutations.
* **C76** Level Zero provider: freeing policy and foreign handles — Log of calls per request.
* **C77** Concurrent umfGetIPCHandle calls agree — Threads as program counters over a shared cache and upstream; invariant: outstanding upstream handles are a permutation of cached, in-flight and refused ones.
* **C78** Concurrent opening and closing of IPC handles keeps mappings alive — Threads as program counters; invariant: reference counts dominate the number of calls using an entry, mappings are a permutation of entry mappings and those in the hands of a thread, each lock has at most one holder.
* **C79** Lookups stay right while other threads allocate and free — Threads as program counters over the level maps and the records; invariant without nesting: map entries and tracked allocations correspond, records are partitioned between map, threads and free list. Refute with the record allocator the code uses, and with nested pools.
* **C80** The last allocation error explains the last failed allocation — Thread-locals per manager as a function of thread; each call either leaves other threads' and other managers' errors alone or stores one that explains its own failure; induction over the calls after it. Refute for pools that share a manager, usable-size queries, frees and empty requests.
* **C81** Libraries loaded at run time are there when called — One description per library (functions taken, required, tested), linker references counted; invariant: while an object lives UMF holds a reference and every pointer belongs to the present mapping. Refute unchecked functions, the second close of TBB, a second life after umfTearDown.
* **C82** Creating and destroying pools costs nothing in the end — Resources as a multiset, each request answered by an oracle; every function shown to turn the multiset it owns into the one it leaves. Refute the bucket array, the tracking provider's caches, and the unchecked cache of opened handles.
* **C83** A jemalloc pool's memory comes from its own provider and goes back to it — Arenas and the table as a transition system; jemalloc a client that may reuse indices. Invariant: the table names the pool of every live arena, and what providers gave out is the extents mapped through it. Refute a creation during the end of a destruction, and memory refused at destruction.
* **C84** A provider made from a memory space uses the nodes of that space, as the policy says — Compose the models of spaces and of NUMA binding through the creation code; characterise the parameters passed on, reuse C29/C30; a separate invariant (every node set in the provider's state lies in the space) for the unconditional half. Refute for the space of highest capacity, the uncopied partition array, and 2^32 partitions.
* **C85** A disjoint pool may be used by several threads at once — Step system with any number of threads (lookup, unlocked read of the slab found, lock, chunk, unregister, provider, free of the slab's description); invariant by frame lemma: an allocated chunk keeps its slab registered, an unregistered slab belongs to one thread. Two restrictions give the full guarantee (nothing bypasses the buckets; slabs settle before they are freed); refute without.
* **C86** The library's predefined memory spaces and its description of the machine live through any number of initialisations and tear-downs — State machine over once flags, pointers and the memory model of C39; invariant (a space exists only with its description; a flag fired without a space means the description failed) by induction over histories. Refuted: the pointer to the description survives its destruction (destroyed twice), the lowest-latency flag is never reset, failures stick.
* **C87** The predefined memory spaces contain the nodes they promise — Contents carried in the same invariant as views of the targets; translated to hwloc's values when the system numbers nodes in logical order. Refuted otherwise: the number of a node is taken for its place.
* **C88** Splits and merges by several threads keep the tracker right — Adds both calls and splitMergeMutex to the threads of C79; invariant: map entries are the allocations held, corrected for the one split or merge that is in its middle; records are owned by map, calls or free list. Refute lookups in the second part of a split in progress, and lookups beside a merge with the record allocator the code uses.
* **C89** A scalable pool's memory comes from its own provider and goes back to it — Threads inside calls and TBB's callbacks as steps; invariant: blocks, TBB pools and creating or destroying threads match one to one, what the providers gave out is what TBB holds plus what they refused, objects lie in held memory. Refute that a successful free means the provider took the memory, and that destroying every pool leaves nothing given out.
* **C90** A failed free by the OS provider changes nothing — Per call, for every provider state (Model_OsProvider); the allocation's own IPC handle is refuted by a history.
* **C91** The last native error is the thread's own last failure — Induction over histories of calls of several threads (Model_NativeError); five exceptions are refuted by witnesses.
* **C92** The reported failing provider can be asked about its failure — Invariant over histories of creating, using and destroying providers and pools, with handle addresses as inputs (Model_LastFailed); freed handles are refuted by witnesses.
* **C93** An IPC handle of shared OS memory opens the memory it was made for — Model of the kernel's names and descriptors and of what provider_os_memory.c and utils_linux_common.c do to them (Model_SharedFile); invariant over histories of several processes; three refutations by witnesses.

## Trusted base

What has to be believed for the theorems to say something about the library:

1. **Coq 8.16.1's kernel** (re-checked by coqchk), with no kernel check switched off, no plugin and no axiom added here.
2. **Axioms.** `Print Assumptions` below every theorem of the `Properties_*.v` files reports "Closed under the global context": no theorem uses an axiom, not even one of the standard library. coqchk also lists the abstract constants `Coq.ssr.ssrunder.Under_rel.*` (`Under_rel`, `Under_relE`, `Under_rel_from_rel`, `over_rel`, `over_rel_done`, `under_rel_done`, …) because the standard library's `ssreflect` file, loaded through `Lia`/`Zify`, seals them in a module; no theorem depends on them.
3. **The reading of the C code** in the `Model_*.v` files: each definition names the file and lines it renders and where it simplifies. Nothing was compiled or run; the correspondence is by inspection.
4. **The specifications** in `Spec_*.v`.

### Modelled code

| Files in /repo/src | Model | Left out |
| --- | --- | --- |
| utils/utils_common.c, utils_math, utils_posix_common.c (alignment, flags, option strings) | Model_Utils, Model_Parse | file helpers beyond the path copy |
| utils/utils_log.c (configuration, one line) | Model_Parse, Model_LogLine | printf formatting, strftime and strerror_r (inputs), the debug assertions on printf results |
| critnib/critnib.c | Model_Critnib (one caller at a time) | the free lists (in Model_CritnibConc) |
| critnib/critnib.c: insert, remove, get with concurrent callers | Model_CritnibConc (store by store and load by load; free lists, pending lists, remove_count) | weak memory: every load sees the latest store (sequential consistency); critnib_new/delete; iter (takes the mutex) |
| critnib/critnib.c: critnib_find with FIND_LE (find_le, find_predecessor) beside concurrent writers | Model_CritnibFind (load by load) | find_ge and find_successor with concurrent callers; weak memory |
| provider/provider_cuda.c: initialize, alloc, free, page sizes, IPC, last native error text, params creation | Model_Cuda | loading of the library; the driver itself (oracle); threads (one thread's current context); setters of the params |
| provider/provider_level_zero.c: initialize, alloc and residency, free policy, page sizes, IPC | Model_LevelZero | loading of the library (a flag, with two optional functions); the driver itself (oracle); setters of the params; allocation_split/merge and purge stubs; last native error |
| ravl/ravl.c | Model_Ravl | allocation of nodes |
| coarse/coarse.c, provider_fixed/devdax use of it | Model_Coarse | locking (one lock around every operation) |
| provider/provider_tracking.c | Model_Tracker, Model_Ipc; Model_IpcGetConc (concurrent get), Model_IpcConc (concurrent open and close); Model_TrackerConc (concurrent add, remove and lookup); Model_TrackerSplit (concurrent splitting and merging) | concurrent splitting and merging in nested pools; failures of splitMergeMutex; the assert(0) after a refused merge (release build) in Model_TrackerSplit |
| ipc.c, ipc_cache.c | Model_Ipc, Model_IpcCache; Model_IpcConc (threads interleaved) | several providers with concurrent callers; failure of utils_mutex_init |
| pool/pool_disjoint.c | Model_Disjoint* | per-bucket locks except where the shared limits are used |
| pool/pool_{disjoint,proxy,jemalloc,scalable}.c: error reporting | Model_PoolError | everything else of the pools; the provider and the underlying allocators are oracles |
| utils/utils_load_library.c; loading of TBB, CUDA and Level Zero (pool_scalable.c, provider_cuda.c, provider_level_zero.c, libumf.c) | Model_Loader | the dynamic linker beyond reference counts; races of first use (pthread_once) |
| memory_pool.c, memory_provider.c, provider_tracking.c, pool/*.c: creation and destruction | Model_PoolLife | contents of the blocks; the caches' own entries; memory of the upstream provider |
| pool/pool_jemalloc.c: extent hooks, op_initialize, op_finalize | Model_Jemalloc | jemalloc itself (a client obeying its manual); zeroing, commit and purge; failing arena destruction |
| pool/pool_scalable.c: callbacks, parameters, tbb_pool_initialize, tbb_pool_finalize, allocating calls, tbb_free | Model_Scalable (errors also in Model_PoolError, loading in Model_Loader, leaks in Model_PoolLife) | TBB itself (a client that gives back raw memory it holds and hands out objects inside it, once each); contents and alignment of objects; malloc_usable_size; the control node |
| memspace.c: umfMemoryProviderCreateFromMemspace; mempolicy.c; memtarget_numa.c: numa_memory_provider_create_from_memspace; setters of the OS provider's parameters | Model_FromMemspace | the rest of the OS provider's creation (one answer); checks for NULL arguments |
| pool_disjoint.c: allocation, free, usable size and slab life as interleaved steps of several threads | Model_DisjointConc | inside of critnib operations (one moment each), bitmaps (sets), statistics, wrap-around, tracker lookups (the provider's own table) |
| topology.c; memspaces/*.c: cached spaces, their once flags and destruction; memtarget_numa.c: capacity, bandwidth and latency queries; libumf.c: order of the tear-down of these | Model_Predef | hwloc itself (an oracle per loading, values per pair of nodes), asserts (release build), other threads, spaces of the user |
| base_alloc/*.c | Model_BaseAlloc* | OS failure modes other than "no memory" |
| provider/provider_os_memory.c (+ hwloc as an oracle) | Model_OsNuma, Model_OsProvider, Model_OsStats | hwloc topology discovery |
| provider/provider_file_memory.c | Model_FileProvider, Model_Create | — |
| provider/provider_fixed_memory.c, provider_devdax_memory.c: initialize, finalize, params, devdax IPC | Model_Create | contents of paths (a path is its length), last native error and purging (in Model_NativeError) |
| the native error records of provider_os_memory.c, provider_devdax_memory.c, provider_file_memory.c, provider_fixed_memory.c, and their readers; the reader of provider_level_zero.c | Model_NativeError | arguments of the calls (a call is what the kernel and hwloc answered); the effect of logging on errno; strerror_r itself (its text is an input); NULL arguments of the readers |
| memory_provider_get_last_failed.c with the life of handles: memory_provider.c, memory_pool.c (creation, destruction), provider_tracking.c (name, native error) | Model_LastFailed | which calls a pool and the tracking provider make (inputs); the base allocator's choice of addresses (input); IPC calls |
| provider_os_memory.c (files of shared providers and IPC handles); utils_linux_common.c (shared memory files, anonymous files); utils_posix_common.c (utils_duplicate_fd) | Model_SharedFile | contents and sizes of files, offsets in handles (Model_OsProvider has them for one provider); descriptor 0; other programs that remove names; utils_mmap_file |
| memory_provider.c, memory_pool.c, libumf.c | Model_ProviderApi, Model_PoolApi, Model_PoolTag, Model_Libumf | destructor order at exit |
| memspace.c, memtarget.c, memtargets/memtarget_numa.c, memspaces/*.c | Model_Memspace | hwloc attribute queries (oracles here; see Model_Predef), creation of pools and providers from a space |
| proxy_lib/proxy_lib.c, calloc of pool_scalable.c and pool_jemalloc.c | Model_Proxy | creation of the pool and its provider, Windows build, contents of blocks; the pool, the system allocator and the tracker are oracles |
| ctl/ctl.c and the trees registered with it | Model_Ctl | environment variables as sources; I/O errors while a file is read |

### Not modelled

The CUDA, Level Zero and hwloc/TBB/jemalloc libraries themselves; Windows variants; printf formatting; the C++ headers; the test-suite. The memory model is sequential consistency wherever steps are interleaved.

