{"id": "C01", "title": "A critical section that returns 0 took effect atomically", "statement": "Whenever a call to one of the seven rseq_load_* helpers returns 0, there is exactly one instruction inside the call (its commit) at which the shared memory changed, at that instruction, exactly as if the pseudo-code documented for the helper had been executed in one indivisible step on the memory found at that instant.", "quantifier": "every architecture sequence, every number of threads and CPUs, every interleaving, every placement of preemptions, migrations and signals (including signal handlers that themselves call the helpers), every initial memory and arguments whose locations do not alias each other, as long as other threads do not write the locations the call is using", "why_tests_cant": "a test samples a handful of schedules; the failing schedule is a preemption between two specific instructions", "anchors": ["include/rseq/arch/x86/bits.h", "include/rseq/arch/aarch64/bits.h", "include/rseq/arch/arm/bits.h", "include/rseq/arch/ppc/bits.h", "include/rseq/arch/mips/bits.h", "include/rseq/arch/riscv/bits.h", "include/rseq/arch/s390/bits.h", "include/rseq/arch/loongarch/bits.h", "include/rseq/pseudocode.h"]}
{"id": "C02", "title": "A critical section that returns 1 observed a real mismatch and changed nothing", "statement": "Whenever a helper returns 1 (ne/eq), at some instant during the call the documented comparison failed on the then-current memory (value different from expect, or equal to expectnot), and the call wrote no shared memory.", "quantifier": "every architecture sequence, interleaving, preemption, migration, signal, memory and arguments", "why_tests_cant": "requires ranging over every interleaving of the load, compare and exit instructions with other threads", "anchors": ["include/rseq/arch/x86/bits.h", "include/rseq/arch/aarch64/bits.h", "include/rseq/arch/arm/bits.h", "include/rseq/arch/ppc/bits.h", "include/rseq/arch/mips/bits.h", "include/rseq/arch/riscv/bits.h", "include/rseq/arch/s390/bits.h", "include/rseq/arch/loongarch/bits.h", "include/rseq/pseudocode.h"]}
{"id": "C03", "title": "An aborted critical section never publishes", "statement": "Whenever a helper returns -1, it never executed its final store; the only shared locations it may have written are the documented attempt locations (v2, *load, or dst[0..len)), with values the pseudo-code would store there.", "quantifier": "every architecture sequence, and every abort point: a preemption, migration or signal at every instruction of the sequence", "why_tests_cant": "the abort point ranges over every instruction and over every state of the other threads", "anchors": ["include/rseq/arch/x86/bits.h", "include/rseq/arch/aarch64/bits.h", "include/rseq/arch/arm/bits.h", "include/rseq/arch/ppc/bits.h", "include/rseq/arch/mips/bits.h", "include/rseq/arch/riscv/bits.h", "include/rseq/arch/s390/bits.h", "include/rseq/arch/loongarch/bits.h", "include/rseq/pseudocode.h"]}
{"id": "C04", "title": "Per-index exclusion between check and commit", "statement": "At no instant are two running threads both past the cpu number comparison and before the commit of critical sections issued for the same cpu_id (or the same mm_cid); a thread interrupted in that window never resumes inside it.", "quantifier": "every number of threads, schedule and signal nesting", "why_tests_cant": "absence of a bad state over all reachable states of a concurrent system", "anchors": ["include/rseq/arch/x86/bits.h", "include/rseq/arch/aarch64/bits.h", "include/rseq/arch/arm/bits.h", "include/rseq/arch/ppc/bits.h", "include/rseq/arch/mips/bits.h", "include/rseq/arch/riscv/bits.h", "include/rseq/arch/s390/bits.h", "include/rseq/arch/loongarch/bits.h", "include/rseq/pseudocode.h", "include/rseq/arch/x86.h:RSEQ_ASM_STORE_RSEQ_CS", "include/rseq/arch/generic/common.h:RSEQ_ASM_DEFINE_TABLE"]}
{"id": "C05", "title": "A call with the wrong CPU number, or from an unregistered thread, never commits (cpu_id)", "statement": "If the cpu argument differs from the number of the CPU the thread runs on, or the thread is not registered with rseq (and cpu >= 0), a cpu_id helper returns -1 without writing any shared memory.", "quantifier": "every helper, architecture, cpu argument, schedule", "why_tests_cant": "quantifies over migrations at every instruction and over all cpu arguments", "anchors": ["include/rseq/arch/x86/bits.h", "include/rseq/arch/aarch64/bits.h", "include/rseq/arch/arm/bits.h", "include/rseq/arch/ppc/bits.h", "include/rseq/arch/mips/bits.h", "include/rseq/arch/riscv/bits.h", "include/rseq/arch/s390/bits.h", "include/rseq/arch/loongarch/bits.h", "include/rseq/pseudocode.h", "include/rseq/rseq.h:rseq_register_current_thread"]}
{"id": "C06", "title": "A restartable sequence executed from a non-registered thread always fails (mm_cid)", "statement": "The documentation of rseq_register_current_thread promises that a restartable sequence executed from a non-registered thread always fails; this should hold for RSEQ_PERCPU_MM_CID as well as for RSEQ_PERCPU_CPU_ID.", "quantifier": "every helper, both indexing modes, every unregistered thread", "why_tests_cant": "tests always register threads, or only use cpu_id mode, before calling the helpers", "anchors": ["include/rseq/rseq.h:rseq_register_current_thread", "src/rseq.c:__rseq_abi", "include/rseq/arch/x86/bits.h"]}
{"id": "C07", "title": "RSEQ_COMPARE_TWICE error exits are unreachable", "statement": "In builds with RSEQ_COMPARE_TWICE no execution reaches rseq_bug() as long as other threads do not write the locations the call is using.", "quantifier": "every architecture, helper, schedule and arguments", "why_tests_cant": "unreachability over all interleavings", "anchors": ["include/rseq/arch/x86/bits.h", "include/rseq/arch/aarch64/bits.h", "include/rseq/arch/arm/bits.h", "include/rseq/arch/ppc/bits.h", "include/rseq/arch/mips/bits.h", "include/rseq/arch/riscv/bits.h", "include/rseq/arch/s390/bits.h", "include/rseq/arch/loongarch/bits.h", "include/rseq/pseudocode.h"]}
{"id": "C08", "title": "Critical-section descriptors never get the thread killed", "statement": "Every descriptor installed by the helpers is accepted by the kernel: version 0, the start..commit range is non-empty, the abort handler lies outside of it and is preceded by the registered signature; so an interrupted helper always resumes at its abort handler or where it was, and is never sent SIGSEGV.", "quantifier": "every architecture, helper, build variant and interruption point", "why_tests_cant": "a test would have to interrupt every instruction of every variant on every architecture", "anchors": ["include/rseq/arch/generic/common.h:RSEQ_ASM_DEFINE_TABLE", "include/rseq/arch/x86.h:RSEQ_ASM_DEFINE_ABORT", "doc/man/rseq.2"]}
{"id": "C09", "title": "Every architecture implements the same pseudo-code", "statement": "Run without interruption on the expected CPU, the sequence of every supported architecture, for each helper, computes exactly the result and final memory of the documented pseudo-code (including len == 0 and arbitrary len for the memcpy helper).", "quantifier": "all 8 architectures, both word sizes and byte orders, every memory, argument and length", "why_tests_cant": "unbounded memory contents and copy lengths; most architectures are never run in CI", "anchors": ["include/rseq/arch/x86/bits.h", "include/rseq/arch/aarch64/bits.h", "include/rseq/arch/arm/bits.h", "include/rseq/arch/ppc/bits.h", "include/rseq/arch/mips/bits.h", "include/rseq/arch/riscv/bits.h", "include/rseq/arch/s390/bits.h", "include/rseq/arch/loongarch/bits.h", "include/rseq/pseudocode.h"]}
{"id": "C10", "title": "An uninterrupted helper on the right CPU makes progress", "statement": "A helper called with the current CPU number and not interrupted returns 0 or 1, never -1, after a bounded number of instructions (proportional to len for memcpy).", "quantifier": "every architecture, helper, memory, arguments", "why_tests_cant": "termination bound for every copy length", "anchors": ["include/rseq/arch/x86/bits.h", "include/rseq/arch/aarch64/bits.h", "include/rseq/arch/arm/bits.h", "include/rseq/arch/ppc/bits.h", "include/rseq/arch/mips/bits.h", "include/rseq/arch/riscv/bits.h", "include/rseq/arch/s390/bits.h", "include/rseq/arch/loongarch/bits.h", "include/rseq/pseudocode.h"]}
{"id": "C11", "title": "A per-CPU counter never loses an increment", "statement": "When any number of threads increment a per-CPU counter with rseq_load_add_store (retrying on abort), the sum over CPUs of the counter always equals the number of calls that returned 0, times the increment, modulo the word size.", "quantifier": "every number of threads, CPUs, calls, migration and preemption schedule", "why_tests_cant": "lost updates appear only under specific interleavings", "anchors": ["include/rseq/arch/x86/bits.h:rseq_load_add_store__ptr", "tests/param_test.c:test_percpu_inc"]}
{"id": "C12", "title": "The per-CPU spinlock built on rseq_load_cbne_store excludes", "statement": "With rseq_this_cpu_lock()/rseq_percpu_unlock(), at most one thread at a time holds the lock of a given CPU, even when the holder migrates, and the sum of counters incremented under the lock equals the number of completed increments.", "quantifier": "every number of threads, CPUs and schedules", "why_tests_cant": "mutual exclusion over all interleavings, with remote unlock", "anchors": ["tests/basic_percpu_ops_test.c:rseq_this_cpu_lock", "tests/basic_percpu_ops_test.c:rseq_percpu_unlock"]}
{"id": "C13", "title": "Per-CPU list push/pop conserve nodes and have no ABA problem", "statement": "With push by rseq_load_cbne_store and pop by rseq_load_cbeq_store_add_load_store, every node is at all times in exactly one place: on one per-CPU list exactly once, or privately held by one thread; pop returns NULL only if the list was empty at that instant.", "quantifier": "every number of threads, nodes, CPUs, schedules, nodes being recycled arbitrarily often", "why_tests_cant": "the ABA interleaving is astronomically rare in a test", "anchors": ["tests/basic_percpu_ops_test.c:this_cpu_list_push", "tests/basic_percpu_ops_test.c:this_cpu_list_pop"]}
{"id": "C14", "title": "Per-CPU buffer push/pop conserve items", "statement": "With push by rseq_load_cbne_store_store and pop by rseq_load_cbne_load_cbne_store, each per-CPU buffer behaves as a bounded stack: every pushed item is popped at most once, no item is lost, duplicated or overwritten, in LIFO order per CPU.", "quantifier": "every number of threads, CPUs, schedules, aborts between the attempt store and the commit", "why_tests_cant": "requires aborts exactly between the speculative store and the commit", "anchors": ["tests/param_test.c:this_cpu_buffer_push", "tests/param_test.c:this_cpu_buffer_pop"]}
{"id": "C15", "title": "Per-CPU memcpy buffers never expose a torn record", "statement": "With push and pop by rseq_load_cbne_memcpy_store, every record popped is byte for byte one that was pushed, each exactly once, whatever aborts happened in the middle of byte copies.", "quantifier": "every record length, number of threads, CPUs, schedules", "why_tests_cant": "abort points inside the byte copy loop times all record lengths", "anchors": ["tests/param_test.c:this_cpu_memcpy_buffer_push", "tests/param_test.c:this_cpu_memcpy_buffer_pop"]}
{"id": "C16", "title": "Dispatch of memory order and per-cpu mode", "statement": "The generic helpers call the variant matching (memory order, index mode) and pass the arguments in order; for every other memory order or mode value they return -1 and touch nothing.", "quantifier": "every int value of both enums, every argument", "why_tests_cant": "tests exercise only the supported values", "anchors": ["include/rseq/rseq.h:240-391"]}
{"id": "C17", "title": "Pointer swap plus rseq membarrier quiesces the old structure", "statement": "After the shared pointer is switched and the expedited rseq membarrier for a CPU returns, no in-flight or later rseq_load_add_load_load_add_store on that CPU writes through the old pointer.", "quantifier": "every schedule, number of threads", "why_tests_cant": "requires the barrier to land between any two instructions of the sequence", "anchors": ["include/rseq/arch/x86/bits.h:rseq_load_add_load_load_add_store__ptr", "tests/param_test.c:test_membarrier_manager_thread"]}
{"id": "C18", "title": "Release helpers order the attempt stores before the commit", "statement": "For the RELEASE variants, a remote CPU that observes the final store (and reads with acquire order) observes the attempt store(s) of the same call, or later ones, on every architecture's store-ordering model; the relaxed variants only promise this on TSO machines.", "quantifier": "every drain order of the store buffer allowed by the architecture, every schedule", "why_tests_cant": "weak-memory reorderings are rarely observable, and not at all on x86 test machines", "anchors": ["include/rseq/arch/aarch64.h:RSEQ_ASM_OP_FINAL_STORE_RELEASE", "include/rseq/arch/arm/bits.h", "include/rseq/arch/ppc/bits.h", "include/rseq/arch/x86.h:57-72"]}
{"id": "C19", "title": "rseq_prepare_unload leaves no dangling descriptor", "statement": "After rseq_prepare_unload() and until the thread's next helper call the kernel no longer holds a reference to any critical-section descriptor of the thread, at every interruption point; without the call a reference to the last descriptor can remain.", "quantifier": "every history of helper calls and interruptions", "why_tests_cant": "the dangling reference is only dereferenced on an interrupt after unload", "anchors": ["include/rseq/rseq.h:rseq_prepare_unload", "include/rseq/rseq.h:rseq_clear_rseq_cs"]}
{"id": "C20", "title": "Live allocations never overlap", "statement": "Between its allocation and its free, the item returned by any malloc variant shares no byte, on any CPU, with any other live item, with the pool's bookkeeping, nor with another range.", "quantifier": "every history of malloc/zmalloc/malloc_init/free, every pool configuration accepted by create, every address returned by mmap, 32- and 64-bit programs", "why_tests_cant": "unbounded histories and address layouts", "anchors": ["src/rseq-mempool.c:__rseq_percpu_malloc", "src/rseq-mempool.c:librseq_mempool_percpu_free", "src/rseq-mempool.c:rseq_mempool_range_create"]}
{"id": "C21", "title": "Items are aligned and inside mapped per-CPU memory", "statement": "Every item pointer is a multiple of the item size, and rseq_percpu_ptr(item, cpu, stride) .. + item size lies in memory mapped by the pool for every 0 <= cpu < max_nr_cpus, with different (item, cpu) pairs mapping to disjoint memory.", "quantifier": "every pool configuration without size_t overflow, history and CPU", "why_tests_cant": "address arithmetic over all strides and CPU counts", "anchors": ["src/rseq-mempool.c:__rseq_percpu_malloc", "include/rseq/mempool.h:rseq_percpu_ptr"]}
{"id": "C22", "title": "zmalloc returns zeroed memory on every CPU", "statement": "Right after rseq_mempool_percpu_zmalloc returns an item, all its bytes read zero through the pointer of every CPU, whatever the previous contents and the copy-on-write state of the pages.", "quantifier": "every history, poison value, populate policy, copy-on-write state, CPU", "why_tests_cant": "depends on the page-level copy-on-write state left by the history", "anchors": ["src/rseq-mempool.c:rseq_percpu_zero_item", "src/rseq-mempool.c:rseq_cmp_item"]}
{"id": "C23", "title": "malloc_init returns the given content on every CPU", "statement": "Right after rseq_mempool_percpu_malloc_init(pool, p, len) returns an item, its first len bytes equal p[0..len) through the pointer of every CPU; len larger than the item size returns NULL with EINVAL and changes nothing.", "quantifier": "every history, content, length, populate policy, copy-on-write state, CPU", "why_tests_cant": "depends on the page-level copy-on-write state left by the history", "anchors": ["src/rseq-mempool.c:rseq_percpu_init_item", "src/rseq-mempool.c:__rseq_percpu_malloc"]}
{"id": "C24", "title": "Allocator activity never changes another live item", "statement": "malloc, zmalloc, malloc_init and free of other items leave every byte of a live item unchanged on every CPU (even the bytes never written since allocation, on CPUs still sharing the initial-value page).", "quantifier": "every history, populate policy, copy-on-write state", "why_tests_cant": "aliasing through shared initial-value pages depends on the whole history", "anchors": ["src/rseq-mempool.c:rseq_percpu_zero_item", "src/rseq-mempool.c:rseq_percpu_poison_item", "src/rseq-mempool.c:librseq_mempool_percpu_free"]}
{"id": "C25", "title": "Capacity is exact and never leaks", "statement": "A pool limited to R ranges hands out exactly R * (stride / item size) simultaneously live items, whatever sequence of allocations and frees happened before, and then returns NULL with ENOMEM; with no limit, malloc only fails if mapping memory fails.", "quantifier": "every history and configuration", "why_tests_cant": "a slow leak or an off-by-one at a range boundary needs long histories", "anchors": ["src/rseq-mempool.c:__rseq_percpu_malloc", "src/rseq-mempool.c:rseq_mempool_range_create"]}
{"id": "C26", "title": "Freed items are reused last-in first-out before fresh memory", "statement": "malloc returns the most recently freed item of the pool if any, and only otherwise carves a new one.", "quantifier": "every history", "why_tests_cant": "histories are unbounded", "anchors": ["src/rseq-mempool.c:__rseq_percpu_malloc", "src/rseq-mempool.c:librseq_mempool_percpu_free"]}
{"id": "C27", "title": "Robust pools detect every double free and free of a never allocated item", "statement": "In a robust pool, freeing an item slot that is not currently allocated aborts the process; freeing a live one does not.", "quantifier": "every history and every slot of every range", "why_tests_cant": "tests try one double free", "anchors": ["src/rseq-mempool.c:clear_alloc_slot", "src/rseq-mempool.c:set_alloc_slot"]}
{"id": "C28", "title": "Robust pools detect leaks on destroy", "statement": "Destroying a robust pool aborts if and only if at least one item is still allocated (for a pool without other corruption).", "quantifier": "every history", "why_tests_cant": "tests try one leak", "anchors": ["src/rseq-mempool.c:destroy_alloc_bitmap", "src/rseq-mempool.c:check_free_list"]}
{"id": "C29", "title": "Robust pools detect writes to freed items", "statement": "If any byte of a freed item was changed by the program on any CPU (or in the initial values), then re-allocating the item, or destroying the pool, aborts.", "quantifier": "every history, byte, CPU, poison value", "why_tests_cant": "tests try one byte", "anchors": ["src/rseq-mempool.c:rseq_percpu_check_poison_item", "src/rseq-mempool.c:check_pool_poison"]}
{"id": "C30", "title": "Robust checks raise no false alarm", "statement": "A program that only writes inside its live items, frees each item once and frees all of them before destroy never triggers any abort of a robust pool.", "quantifier": "every history of a well-behaved program, configuration, copy-on-write state", "why_tests_cant": "false alarms would need unusual interleavings of pages, poison and free list layouts", "anchors": ["src/rseq-mempool.c:check_free_list", "src/rseq-mempool.c:check_pool_poison", "src/rseq-mempool.c:set_alloc_slot", "src/rseq-mempool.c:rseq_percpu_check_poison_item"]}
{"id": "C31", "title": "Free-list validation terminates and detects corruption", "statement": "Destroying a robust pool whose free-list links were overwritten in any way (cycles, out-of-range nodes, lost nodes) always terminates, and aborts unless the list has exactly as many distinct in-range nodes as items were handed out, none of them live; only a link to a misaligned address may fault instead.", "quantifier": "every corruption of the free-list memory", "why_tests_cant": "cycles and arbitrary pointers cannot be enumerated", "anchors": ["src/rseq-mempool.c:check_free_list", "src/rseq-mempool.c:percpu_addr_in_pool"]}
{"id": "C32", "title": "Pool creation validates its arguments", "statement": "rseq_mempool_create succeeds only with a power-of-two stride >= page size and >= rounded item size, known populate policy and positive CPU count; item size is rounded to the smallest power of two >= max(item_len, pointer size); defaults are as documented; all other inputs (item lengths up to half the range of size_t) give NULL with EINVAL.", "quantifier": "every item_len and attribute combination, 32- and 64-bit programs", "why_tests_cant": "64-bit argument space, including overflow boundaries", "anchors": ["src/rseq-mempool.c:rseq_mempool_create", "src/rseq-utils.h:rseq_get_count_order_ulong"]}
{"id": "C33", "title": "Aligned mapping keeps exactly what was asked", "statement": "The mapping helper returns a pointer aligned on the requested alignment, preceded by the requested header, keeps exactly header+len bytes mapped and returns everything else to the system, for whatever address the kernel chose.", "quantifier": "every page size, length, alignment, header length and kernel-chosen address without overflow", "why_tests_cant": "the kernel rarely returns all alignments", "anchors": ["src/rseq-mempool.c:aligned_mmap_anonymous", "src/rseq-utils.h:offset_align"]}
{"id": "C34", "title": "Pool sets allocate from the smallest fitting pool with room", "statement": "A pool-set allocation of len bytes is served by the smallest pool of the set whose items fit len and which has space; it fails with ENOMEM only if no pool qualifies; adding a second pool of the same size class fails with EBUSY and changes nothing.", "quantifier": "every set of pools, length and history", "why_tests_cant": "combinations of pools and exhaustion states", "anchors": ["src/rseq-mempool.c:__rseq_mempool_set_malloc", "src/rseq-mempool.c:rseq_mempool_set_add_pool"]}
{"id": "C35", "title": "Pool-set malloc_init returns the given content", "statement": "rseq_mempool_set_percpu_malloc_init(set, p, len) returns an item whose first len bytes equal p[0..len) on all CPUs.", "quantifier": "every set, content and length", "why_tests_cant": "content dependent", "anchors": ["src/rseq-mempool.c:rseq_mempool_set_percpu_malloc_init", "src/rseq-mempool.c:__rseq_mempool_set_malloc"]}
{"id": "C36", "title": "Destroy reports failure and leaks nothing on success", "statement": "rseq_mempool_destroy returns 0 only when everything the pool had mapped has been unmapped, and -1 if an unmap failed.", "quantifier": "every history and every failure point of munmap", "why_tests_cant": "munmap failures cannot be provoked by a test", "anchors": ["src/rseq-mempool.c:rseq_mempool_destroy", "src/rseq-mempool.c:rseq_mempool_range_destroy"]}
{"id": "C37", "title": "Destroying a copy-on-write pool in a forked child is safe", "statement": "In a child process, rseq_mempool_destroy of a COW_INIT pool inherited from the parent accesses no unmapped memory, and unmaps the inherited headers and nothing else. A robust pool with items still allocated is reported as leaking.", "quantifier": "every history before the fork, every configuration", "why_tests_cant": "depends on the whole history before fork", "anchors": ["src/rseq-mempool.c:pool_mappings_accessible", "src/rseq-mempool.c:rseq_mempool_range_destroy", "src/rseq-mempool.c:rseq_mempool_range_create"]}
{"id": "C38", "title": "Initialisation races with copy-on-write of neighbouring items", "statement": "While one thread runs malloc_init/zmalloc, other threads may write their own items on the same pages of any CPU at any moment; once the call returns, the new item reads as initialised on every CPU and the neighbours keep their own writes.", "quantifier": "every interleaving of byte stores and page copies, number of threads and CPUs", "why_tests_cant": "the race window is a few instructions (tests/mempool_cow_race_test.c samples it for 10 seconds)", "anchors": ["src/rseq-mempool.c:rseq_percpu_init_item", "tests/mempool_cow_race_test.c"]}
{"id": "C39", "title": "COW_ZERO pools do not populate pages of inactive CPUs", "statement": "In a COW_ZERO pool without init callback, malloc, zmalloc, malloc_init with zero content and free (robust with poison value 0, or non-robust without poison, CPU 0 excepted as it holds the free-list links) never write to the per-CPU pages of a CPU on which the program itself did not write.", "quantifier": "every history, number of CPUs", "why_tests_cant": "page population is not observable by functional tests", "anchors": ["src/rseq-mempool.c:rseq_percpu_zero_item", "include/rseq/mempool.h:RSEQ_MEMPOOL_POPULATE_COW_ZERO"]}
{"id": "C40", "title": "NUMA initialisation covers every page exactly once", "statement": "rseq_mempool_range_init_numa submits every whole page of the range to move_pages exactly once, in order, in batches of at most 4096, all targeted at the node of the CPU, and stops at the first error returned.", "quantifier": "every range length, page size, cpu, move_pages outcome", "why_tests_cant": "batch boundaries and lengths", "anchors": ["src/rseq-mempool.c:rseq_mempool_range_init_numa"]}
{"id": "C41", "title": "Size-class arithmetic is exact", "statement": "rseq_get_count_order_ulong(x) is the minimum order with x <= 2^order and -1 for 0; rseq_fls_* is the 1-based position of the highest set bit; is_pow2 holds exactly for 0 and powers of two; offset_align gives the least offset reaching an aligned address; rseq_align rounds up to the next multiple.", "quantifier": "all 64-bit and 32-bit inputs", "why_tests_cant": "2^64 inputs", "anchors": ["src/rseq-utils.h"]}
{"id": "C42", "title": "The CPU array length covers every possible CPU", "statement": "For every well-formed sysfs list of possible CPUs that fits the read buffer, the reported length is the highest possible CPU id plus one, so that every possible CPU id indexes below it; the value is cached and never changes afterwards.", "quantifier": "every well-formed mask string, every split of read() into partial reads and EINTR, every history of calls", "why_tests_cant": "unbounded set of masks and read splits", "anchors": ["src/smp.c:get_max_cpuid_from_mask", "src/smp.c:get_cpu_mask_from_sysfs", "src/smp.c:get_possible_cpus_array_len"]}
{"id": "C43", "title": "CPU counting falls back safely", "statement": "When the mask is missing or malformed, the length is the maximum of sysconf and (highest cpuN directory + 1); it is never negative, and 0 only if every method failed, in which case nothing is cached.", "quantifier": "every directory content, mask text and sysconf value", "why_tests_cant": "unbounded inputs", "anchors": ["src/smp.c:_get_max_cpuid_from_sysfs", "src/smp.c:get_num_possible_cpus_fallback", "src/smp.c:update_possible_cpus_array_len_cache"]}
{"id": "C44", "title": "Initialisation happens once and is fully visible", "statement": "rseq_init initialises the public symbols exactly once whatever number of threads race to register, and every thread returning from it observes the final values; librseq owns the registration if and only if libc does not provide an active one.", "quantifier": "every number of threads and interleaving", "why_tests_cant": "double-checked locking races", "anchors": ["src/rseq.c:rseq_init"]}
{"id": "C45", "title": "Thread registration protocol", "statement": "Each register/unregister returns 0 exactly when the kernel accepted it (or libc owns rseq); rseq_size is 0 before the first successful registration and the kernel feature size afterwards; every thread can unregister what it registered.", "quantifier": "every sequence of register/unregister calls by any number of threads, every kernel feature size", "why_tests_cant": "only one kernel feature size exists per test machine", "anchors": ["src/rseq.c:rseq_register_current_thread", "src/rseq.c:rseq_unregister_current_thread", "src/rseq.c:get_rseq_min_alloc_size"]}
{"id": "C46", "title": "Feature size and availability queries", "statement": "node_id/mm_cid are reported available exactly when the active feature size covers the field, never before registration; rseq_size is min(32, kernel size) when libc exposes 20 or 32; rseq_available(KERNEL) is true iff the system call exists; rseq_available(LIBC) iff libc owns an active registration.", "quantifier": "every libc size, kernel feature size and registration state", "why_tests_cant": "one configuration per machine", "anchors": ["src/rseq.c:rseq_init", "src/rseq.c:rseq_available", "include/rseq/rseq.h:rseq_mm_cid_available"]}
{"id": "C47", "title": "Linked-list helpers implement sequences", "statement": "On well-formed circular lists, list_add, list_add_tail, list_del, list_del_init, list_move, list_replace, list_replace_init, list_splice, list_empty and list_first_entry behave as the corresponding operations on sequences, leaving well-formed lists and other lists untouched.", "quantifier": "lists of every length, every element position, every pointer layout", "why_tests_cant": "pointer aliasing over unbounded lists", "anchors": ["src/list.h"]}
{"id": "C48", "title": "List iteration visits every element once, even under removal", "statement": "list_for_each(_entry) visits exactly the elements in order and terminates; the _safe variants still do when the body deletes the current element; the reverse variants visit in reverse order.", "quantifier": "lists of every length, every subset of removals", "why_tests_cant": "unbounded lists", "anchors": ["src/list.h:list_for_each_entry_safe"]}
{"id": "C49", "title": "Attribute setters", "statement": "Each attribute setter changes exactly the attributes it documents, returns 0, and returns -1 with EINVAL on NULL; a pool created from attributes is not affected by later changes of the attribute object.", "quantifier": "every sequence of setters and values", "why_tests_cant": "sequences of setters are unbounded", "anchors": ["src/rseq-mempool.c:rseq_mempool_attr_set_init", "src/rseq-mempool.c:rseq_mempool_attr_set_percpu", "src/rseq-mempool.c:rseq_mempool_get_max_nr_cpus"]}
{"id": "C50", "title": "Helpers give back their operands", "statement": "A critical-section helper leaves every argument register as it found it, on every exit (success, comparison failure, abort, fault detected in a debug build), also when it is interrupted at any point: code that the helper is inlined into can reuse the arguments, for example to retry.", "quantifier": "every architecture, helper, build option, interruption point, memory content and interference by other threads", "why_tests_cant": "a wrong restore only shows when the compiler reuses the register after an abort at a particular instruction", "anchors": ["include/rseq/arch/x86/bits.h:rseq_load_cbne_memcpy_store", "include/rseq/arch/mips/bits.h:rseq_load_cbne_memcpy_store", "include/rseq/arch/arm/bits.h:rseq_load_cbne_memcpy_store"]}
{"id": "C51", "title": "Reading the current CPU, node and concurrency id", "statement": "rseq_cpu_start() always gives the number of a possible CPU: the one the thread runs on when it is registered, 0 otherwise. rseq_current_cpu_raw() gives the CPU the thread runs on, or a negative number when it is not registered; when it equals an earlier result of rseq_cpu_start(), the thread is registered and runs on that CPU. rseq_current_cpu() gives the CPU at the moment it reads it, registered or not. rseq_current_node_id(), rseq_current_mm_cid() and rseq_fallback_current_node() give the node and concurrency id of the thread (the last or -1 on failure).", "quantifier": "every machine, every sequence of migrations, registrations, unregistrations and queries, every answer of the system calls", "why_tests_cant": "migration can happen between any two instructions of the query; the number of schedules is unbounded", "anchors": ["include/rseq/rseq.h:rseq_cpu_start", "include/rseq/rseq.h:rseq_current_cpu_raw", "include/rseq/rseq.h:rseq_current_cpu", "include/rseq/rseq.h:rseq_current_node_id", "include/rseq/rseq.h:rseq_current_mm_cid", "src/rseq.c:rseq_fallback_current_cpu", "src/rseq.c:rseq_fallback_current_node"]}
{"id": "C52", "title": "Helpers do not race on per-CPU data", "statement": "Every byte that a helper reads or writes through its arguments is accessed while the thread is registered and runs on the CPU (or with the concurrency id) given as argument. Two such accesses by different threads, in calls for the same CPU or concurrency id, are ordered by a context switch: in between, the first thread is switched out from that CPU and after that the second one is switched in. So per-CPU data accessed through helpers needs no atomic instruction and no barrier.", "quantifier": "every architecture, helper, build option, text layout, client, schedule, migration, signal, number of threads, pair of accesses", "why_tests_cant": "a race shows only for particular interleavings of two threads with a migration between the comparison of the CPU number and the access", "anchors": ["include/rseq/rseq.h:rseq_load_cbne_store__ptr", "include/rseq/arch/x86/bits.h", "include/rseq/arch/aarch64/bits.h", "include/rseq/arch/arm/bits.h", "include/rseq/arch/ppc/bits.h", "include/rseq/arch/riscv/bits.h", "include/rseq/arch/s390/bits.h", "include/rseq/arch/mips/bits.h", "include/rseq/arch/loongarch/bits.h"]}
{"id": "C53", "title": "Helpers behave sequentially consistently on weakly ordered memory", "statement": "On hardware where loads may return old values and stores become visible late and in any order between threads, with nothing but the context switches of the kernel as barriers, every execution of threads that leave the data of a CPU to the helpers called for that CPU (and otherwise use their own memory) is an execution on sequentially consistent memory: same calls, effects and return values. In particular the per-CPU counters, lists, pointer buffers and record buffers of the project's programs keep their guarantees, although their plain loads outside of the helpers may return stale values.", "quantifier": "every architecture, helper, build option, client that follows the ownership discipline, number of threads and CPUs, schedule, migration, signal, choice of the values that loads may see and of the order in which stores become visible", "why_tests_cant": "stale values show only on weakly ordered hardware and in rare interleavings of migrations with stores still in flight", "anchors": ["include/rseq/rseq.h:rseq_load_cbne_store__ptr", "include/rseq/rseq.h:rseq_load_cbeq_store_add_load_store__ptr", "include/rseq/arch/aarch64/bits.h", "include/rseq/arch/ppc/bits.h", "include/rseq/arch/riscv/bits.h", "tests/param_test.c:this_cpu_list_push", "tests/param_test.c:this_cpu_buffer_push", "tests/param_test.c:this_cpu_memcpy_buffer_push"]}
{"id": "C54", "title": "The per-CPU spinlock protects data on weakly ordered memory", "statement": "On hardware where loads may return old values and stores become visible late and in any order between threads, the per-CPU spinlock built from the compare-and-store helper, the acquire fence after it and the release store of unlock gives mutual exclusion and protects what it guards, also when the holder is moved to another CPU: at most one context holds the lock of a CPU, the owner always finds its lock word set, and no increment of the protected counter is lost, so that the counters add up to the number of increments. Both the acquire fence and the release store are needed: without either an increment can be lost.", "quantifier": "every architecture, build option, index mode, number of threads, CPUs and iterations, schedule, migration, signal handler that takes locks too, choice of the values that loads may see and of the order in which stores become visible", "why_tests_cant": "a lost increment needs weakly ordered hardware and a holder that is migrated while it holds the lock", "anchors": ["tests/param_test.c:rseq_this_cpu_lock", "tests/param_test.c:rseq_percpu_unlock", "tests/param_test.c:test_percpu_spinlock_thread", "tests/basic_percpu_ops_test.c:rseq_this_cpu_lock", "include/rseq/rseq.h:rseq_load_cbne_store__ptr", "include/rseq/arch/aarch64.h:rseq_smp_store_release", "include/rseq/arch/ppc.h:rseq_smp_acquire__after_ctrl_dep"]}
{"id": "C55", "title": "Exit points recorded for debuggers are complete", "statement": "For every helper, all instructions outside of its critical section to which the section can branch, other than the abort handler and the post-commit instruction, are recorded as exit points, so that a debugger that stops at the recorded points, the abort handler and the post-commit instruction regains control whenever a thread leaves the section; no other instruction is recorded.", "quantifier": "every architecture, helper, build variant, memory content, interruption point", "why_tests_cant": "needs every branch of every variant on every architecture", "anchors": ["include/rseq/arch/generic/common.h:RSEQ_ASM_DEFINE_EXIT_POINT", "include/rseq/arch/x86/bits.h:rseq_load_cbne_memcpy_store__ptr", "include/rseq/arch/mips.h:RSEQ_ASM_DEFINE_TEARDOWN"]}
{"id": "C56", "title": "Concurrent allocations from a pool set", "statement": "When any number of threads allocate from a pool set while others allocate from, free to and add its pools: each call ends after a bounded number of its own steps, returns an item that fits, that nobody else holds and that is zero on all CPUs if asked, prefers smaller pools that have room, and fails, with ENOMEM, only if at some instant of the call no fitting pool of the set had room.", "quantifier": "every history of the process before the call, number of threads, interleaving, set of pools, length, answer of the system", "why_tests_cant": "a failure that needs another thread between two steps of the call; all interleavings of all calls", "anchors": ["src/rseq-mempool.c:__rseq_mempool_set_malloc", "src/rseq-mempool.c:__rseq_percpu_malloc", "src/rseq-mempool.c:rseq_mempool_set_add_pool"]}
{"id": "C57", "title": "Data for the kernel and debuggers reads as what it means on every build", "statement": "On every supported architecture, word size and byte order: the kernel reads each critical section descriptor (and its copy near the code) as version 0, no flags and the start, length and abort address of its section, suitably aligned; the word before each abort handler as the signature given at registration (and the processor, running into it, traps); the descriptor pointer of the thread, after any history of sections, resets and unloads, as the last section's descriptor or 0; and the thread reads the CPU, node and concurrency numbers the kernel wrote. Debuggers read the arrays of descriptors, descriptor addresses and exit points as such.", "quantifier": "every build, address assignment by the linker, number of sections, history of the per-thread area", "why_tests_cant": "a test runs on one build with one set of addresses; a wrong half or a stale high half only shows for some addresses, byte orders and histories", "anchors": ["include/rseq/arch/generic/common.h:RSEQ_ASM_DEFINE_TABLE", "include/rseq/arch/generic/common.h:RSEQ_ASM_DEFINE_EXIT_POINT", "include/rseq/arch/*.h:RSEQ_ASM_U64_PTR", "include/rseq/arch/*.h:RSEQ_SIG", "include/rseq/arch/*.h:RSEQ_ASM_DEFINE_ABORT", "include/rseq/arch/*.h:RSEQ_ASM_STORE_RSEQ_CS", "include/rseq/abi.h:struct rseq_abi", "include/rseq/rseq.h:rseq_clear_rseq_cs"]}
{"id": "C58", "title": "The membarrier test never fails on x86 and loses no increment", "statement": "On x86-64, with store buffers: whoever switches between two per-CPU lists with a plain store followed by the expedited rseq membarrier (on the CPU concerned in cpu_id builds, on all CPUs in mm_cid builds) never sees a counter of the inactive list change, although workers increment through the pointer with rseq_load_add_load_load_add_store__ptr() and without any lock; and when the workers are through, both lists together hold exactly the number of increments that reported success.", "quantifier": "every number of threads, CPUs and iterations, every schedule of instructions, store buffers, preemptions, migrations, signals, interrupts and kernel work during the barrier, both index modes", "why_tests_cant": "param_test -T r runs this test on one machine for a while; the failing windows are a few instructions wide and depend on store buffers", "anchors": ["tests/param_test.c:test_membarrier_worker_thread", "tests/param_test.c:test_membarrier_manager_thread", "tests/param_test.c:test_membarrier_count_percpu_list", "tests/param_test.c:rseq_membarrier_expedited", "include/rseq/arch/x86/bits.h:rseq_load_add_load_load_add_store"]}
{"id": "C59", "title": "The memory-ordering macros do what their names say on every architecture", "statement": "On each of the supported architectures: whatever a thread did up to and including an rseq_smp_store_release() took effect before whatever another thread does from the rseq_smp_load_acquire() on that returned the stored value (or behind a branch decided by such a load and rseq_smp_acquire__after_ctrl_dep()), also when the news travels through any number of other threads: no old value is read, no store overtaken, nothing read from the future. Stores separated by rseq_smp_wmb() are seen in this order by loads separated by rseq_smp_rmb(). Accesses separated by rseq_smp_mb() are sequentially consistent; in particular two threads that store, execute rseq_smp_mb() and load the other's location do not both miss the other's store.", "quantifier": "every architecture, every execution its memory model allows: any number of threads, any surrounding accesses, barriers and branches, any number of hand-overs", "why_tests_cant": "tests/unit/arch-mo.c checks the values that single-threaded loads and stores return; reorderings appear on some processors, rarely, and a test machine has one architecture", "anchors": ["include/rseq/arch/x86.h:rseq_smp_mb", "include/rseq/arch/x86.h:rseq_smp_load_acquire", "include/rseq/arch/s390.h:rseq_smp_mb", "include/rseq/arch/aarch64.h:rseq_smp_load_acquire", "include/rseq/arch/aarch64.h:rseq_smp_store_release", "include/rseq/arch/arm.h:rseq_smp_store_release", "include/rseq/arch/ppc.h:__rseq_smp_lwsync", "include/rseq/arch/mips.h:rseq_smp_mb", "include/rseq/arch/riscv.h:RSEQ_ASM_RISCV_FENCE", "include/rseq/arch/loongarch.h:rseq_smp_store_release"]}
{"id": "C60", "title": "The per-thread area is the calling thread's own, and the kernel writes nowhere else", "statement": "When librseq owns the registration, rseq_get_abi() returns, in every thread to which initialisation happened before, the address of that thread's own area, whichever thread did the initialisation; areas of different threads differ; the area has any alignment the kernel may ask for (up to 1024); and the bytes the kernel may update after a registration belong to the area of the registered thread and to no other thread-local object of the program.", "quantifier": "every build, every placement of thread-local objects that the ELF ABI allows, every number of threads and interleaving of initialisations, registrations and unregistrations, every feature size the kernel may announce up to the asserted 1024", "why_tests_cant": "placement is chosen by linker and loader, the feature size by the kernel the program will run on some day; a test sees one of each, and an overwritten neighbour shows up as corruption elsewhere", "anchors": ["src/rseq.c:__rseq_abi", "src/rseq.c:RSEQ_THREAD_AREA_ALLOC_SIZE", "src/rseq.c:rseq_init", "src/rseq.c:rseq_register_current_thread", "src/rseq.c:get_rseq_min_alloc_size", "include/rseq/rseq.h:rseq_get_abi", "include/rseq/abi.h:struct rseq_abi"]}
{"id": "C61", "title": "Per-CPU structures in one program do not disturb each other", "statement": "In a program with any number of per-CPU counters, spinlocks, lists and buffers (of words or of records), in any mix, indexed by CPU number or concurrency id, each placed in bytes of its own and touched only by its own code, every structure keeps the guarantees it has alone, whatever the program does with the others, with its own memory and between the calls: counters add up, locks exclude, lists and buffers are linearizable and lose, duplicate or tear nothing.", "quantifier": "every program (control flow, number of structures, order of calls, stores to other memory, signal handlers using any structure in the middle of calls on another), every architecture and helper variant, every schedule with preemption, migration and signals", "why_tests_cant": "every test of the library runs one structure at a time; a program mixes them, and an interrupted or aborted operation on one of them may meet any operation on another", "anchors": ["tests/param_test.c:test_percpu_inc_thread", "tests/param_test.c:rseq_this_cpu_lock", "tests/param_test.c:this_cpu_list_push", "tests/param_test.c:this_cpu_buffer_push", "tests/param_test.c:this_cpu_memcpy_buffer_push", "include/rseq/rseq.h:rseq_load_add_store__ptr", "include/rseq/rseq.h:rseq_load_cbeq_store_add_load_store__ptr"]}
{"id": "C62", "title": "Per-CPU structures may live in pool items while pools are used", "statement": "If the per-CPU words of counters, locks, lists and buffers are placed in allocated items of per-CPU pools, at rseq_percpu_ptr(item, cpu) plus an offset, different words in different items or at different offsets, then each structure keeps its guarantees while any thread, also in a signal handler in the middle of an operation, creates and destroys pools, and allocates, fills and frees items, as long as the items in use are not filled, freed or destroyed; the pools keep theirs, the structures' code only stores to its own usable bytes and never faults, and a word in an item just allocated with rseq_mempool_percpu_zmalloc() reads 0 on every CPU.", "quantifier": "every program, every number of structures, pools, items and offsets, every sequence of pool calls between any two instructions, every schedule with preemption, migration and signals, every architecture and helper variant", "why_tests_cant": "tests place one structure per item of a pool and make no pool call while it is in use; overlap of items, stride and offsets and the interplay with copy-on-write, poisoning and free lists depend on every history of calls", "anchors": ["include/rseq/mempool.h:rseq_percpu_ptr", "src/rseq-mempool.c:__rseq_percpu_malloc", "src/rseq-mempool.c:librseq_mempool_percpu_free", "src/rseq-mempool.c:rseq_mempool_percpu_malloc", "tests/param_test.c:test_percpu_spinlock", "tests/param_test.c:test_percpu_list", "tests/param_test.c:test_percpu_buffer"]}
{"id": "C63", "title": "Threads asking for the CPU count at the same time get the same, right answer", "statement": "rseq_get_max_nr_cpus() may be called by any number of threads at once without a lock. A length it returns was computed from answers of the system to one of the calls; 0 is returned only to a thread whose own inquiry gave nothing, and never after a call that returned a length. If the mask of possible CPUs can be read, all calls of all threads return the same length, one more than the largest possible CPU number; and if one call ended with a length before any other began, all calls return that length, whatever the system answers later.", "quantifier": "every number of threads and calls, every interleaving, every answer of the system to each call, every choice of old or new values by racing loads", "why_tests_cant": "the race window is one system call sequence at start-up, and the answers of sysfs and sysconf are the same in every run of a test", "anchors": ["src/smp.c:get_possible_cpus_array_len", "src/smp.c:update_possible_cpus_array_len_cache", "src/rseq.c:rseq_get_max_nr_cpus"]}
{"id": "C64", "title": "Pool calls and the CPU count inquiry use heap blocks, file descriptors and mutexes correctly and leak none", "statement": "Whatever the allocator and the system answer, no call of the pool, pool set and attribute API frees a block twice or touches it after that, closes a descriptor it does not own, or locks, unlocks or destroys a mutex wrongly, and data protected by a mutex is only used by the thread that holds it. Between calls no descriptor is open and no mutex is held. As long as munmap succeeds, the live blocks are those of the objects the program has: a failed creation leaves none, destruction frees those of the object, and when all objects are destroyed none is left. Threads that make such calls never use protected data at the same time and never all wait for each other. rseq_get_max_nr_cpus() closes every file and directory it opens.", "quantifier": "every history of calls on any number of pools, sets and attribute objects; every failure of calloc, strdup, mmap, munmap, memfd_create, ftruncate, madvise and of the init callback at every step; every number of threads and every interleaving", "why_tests_cant": "a leak or double free on an error path needs the right system call to fail at the right step, and a missing lock shows only in rare schedules", "anchors": ["src/rseq-mempool.c:rseq_mempool_create", "src/rseq-mempool.c:rseq_mempool_range_create", "src/rseq-mempool.c:rseq_memfd_create_init", "src/rseq-mempool.c:rseq_mempool_destroy", "src/rseq-mempool.c:__rseq_percpu_malloc", "src/rseq-mempool.c:librseq_mempool_percpu_free", "src/rseq-mempool.c:__rseq_mempool_set_malloc", "src/rseq-mempool.c:rseq_mempool_set_destroy", "src/rseq-mempool.c:rseq_mempool_attr_destroy", "src/smp.c:get_cpu_mask_from_sysfs", "src/smp.c:_get_max_cpuid_from_sysfs"]}
{"id": "C65", "title": "Threads that use a pool at the same time do not disturb each other, whatever the order of their memory accesses", "statement": "Any number of threads may allocate from and free to the same pools at once. No step of any of these calls is undefined, and none aborts except when munmap fails while a range is made. The item an allocation returns is not held by anyone, is aligned and mapped on every CPU, shares no byte with an item held, and has, on every CPU, the bytes that were asked for. An item the program holds changes only by the program's own writes. At most one thread is between lock and unlock of a pool; a thread in a call can proceed or waits for one that can; and a call ends after a bounded number of its own steps. When no call is in progress, every item that was ever handed out is either held or on the free list, once.", "quantifier": "every number of threads, pools and calls, every interleaving of their accesses to memory and to the pool's fields, every order in which bytes are compared and copied, every pool configuration and answer of the system", "why_tests_cant": "a torn free list or an item handed out twice needs one particular interleaving of single memory accesses out of astronomically many", "anchors": ["src/rseq-mempool.c:__rseq_percpu_malloc", "src/rseq-mempool.c:librseq_mempool_percpu_free", "src/rseq-mempool.c:rseq_percpu_check_poison_item", "src/rseq-mempool.c:rseq_percpu_zero_item", "src/rseq-mempool.c:rseq_percpu_init_item", "src/rseq-mempool.c:rseq_percpu_poison_item", "src/rseq-mempool.c:set_alloc_slot", "src/rseq-mempool.c:clear_alloc_slot"]}
{"id": "C66", "title": "After fork() a child goes on with the pools without initial values, and can destroy the others whenever it wants", "statement": "A program that forks between pool calls gets a child that finds its own memory and every pool without initial values, byte for byte as the parent had them, with the live items of those pools. The child can go on allocating, filling, freeing, creating and destroying, and fork again, with every guarantee the parent has. Of a pool with initial values only the headers are left; that pool can be destroyed in the child at any later time: this is never undefined, frees exactly the headers and changes nothing else, and returns 0 if munmap succeeds and the pool is not robust or no item was live at the fork. After that the child goes on as before, also destroying further inherited pools. Items of such a pool cannot be used in the child.", "quantifier": "every history of pool calls and program stores, every point of it at which the program forks, any number of generations of children, everything the child does before and after it destroys inherited pools, including what other parts of the process map, unmap and write elsewhere between calls, every pool configuration and answer of the system", "why_tests_cant": "a test forks once at a few points; whether an inherited free list, bitmap or mark still holds depends on everything done before and after the fork", "anchors": ["src/rseq-mempool.c:rseq_mempool_range_create", "src/rseq-mempool.c:pool_mappings_accessible", "src/rseq-mempool.c:rseq_mempool_destroy", "src/rseq-mempool.c:rseq_mempool_range_destroy", "include/rseq/mempool.h:RSEQ_MEMPOOL_POPULATE_COW_INIT", "include/rseq/mempool.h:RSEQ_MEMPOOL_POPULATE_COW_ZERO"]}
{"id": "C67", "title": "Comparisons of item memory are defined in C", "statement": "rseq_cmp_item, by which the library tells whether item memory already holds zeroes or the poison, subtracts signed words. No allocation, zeroing, initialisation, creation or destruction performs a subtraction whose result does not fit, unless it is about to report a corruption; nor does freeing an item when the poison is 0, when no word of the item and not the poison has its top bit set, or in general when the poison can be subtracted from each word. For other items freeing is undefined in C: so it is for the number 0x8000000000000000 in a robust pool with initial values and the library's own poison. The report of a corruption can be undefined as well.", "quantifier": "every history of pool calls and program stores, every live item and its contents, every poison, 32-bit and 64-bit words, every pool configuration and answer of the system", "why_tests_cant": "an overflowing subtraction usually behaves as if it wrapped around; whether one happens depends on the contents of all copies of an item when it is freed", "anchors": ["src/rseq-mempool.c:rseq_cmp_item", "src/rseq-mempool.c:rseq_percpu_zero_item", "src/rseq-mempool.c:rseq_percpu_poison_item", "src/rseq-mempool.c:rseq_check_poison_item", "include/rseq/mempool.h:rseq_mempool_attr_set_poison"]}
{"id": "C68", "title": "A program may fork while other threads are in pool calls; the child goes on with the pools nobody was using", "statement": "A thread that is in no pool call may fork while other threads are inside pool calls. The child finds every pool without initial values whose mutex no thread had at that moment, byte for byte as in the parent, with the items the program held, and goes on using these pools, also from several threads, with every guarantee the parent has (C65). Items that calls of other threads were about to return or had been given to free stay allocated in the child and are never handed out again unless freed. A pool inside which another thread was is lost to the child: a call on it never returns.", "quantifier": "every number of threads, every interleaving of their pool calls, memory access by memory access, every point at which one of them forks, any number of generations of children, and everything the child does", "why_tests_cant": "the state a child inherits depends on how far each other thread has got with its call; a test forks at a few of those points", "anchors": ["src/rseq-mempool.c:rseq_mempool_percpu_malloc", "src/rseq-mempool.c:__rseq_percpu_malloc", "src/rseq-mempool.c:librseq_mempool_percpu_free", "src/rseq-mempool.c:rseq_mempool_range_create"]}
{"id": "C69", "title": "Pool names of any length are safe, are copied, and label the pool's files and messages", "statement": "rseq_mempool_create accepts a name of any length, or NULL. The name is copied: the program may change or free its string after the call. Messages about the pool show the name it was created with, or <anonymous>. The memory files of a pool with initial values are named after the pool, followed by \":rseq-mempool\" and cut after 248 bytes, so the kernel never refuses a file because of the length of the pool's name, and no buffer is overrun. (The first file, made by the call that creates the pool, is found not to carry the name: it is always <anonymous>:rseq-mempool.)", "quantifier": "every name (any bytes, any length), any number of pools, every sequence of creating, growing, reporting on and destroying pools and of writing and freeing the program's own strings, every answer of malloc", "why_tests_cant": "the names are of unbounded length and what is in the stack buffer before the call is arbitrary; a use of the program's string after it changed shows only for particular later writes", "anchors": ["src/rseq-mempool.c:get_pool_name", "src/rseq-mempool.c:rseq_memfd_create_init", "src/rseq-mempool.c:rseq_mempool_range_create", "src/rseq-mempool.c:rseq_mempool_create", "src/rseq-mempool.c:rseq_mempool_destroy"]}
{"id": "C70", "title": "A pool's list of ranges, which lies in the ranges' own memory, is never followed into unmapped memory", "statement": "The records that link the ranges of a pool lie in the mappings of the ranges themselves. Whatever pools are created, grown, walked over (to validate an address, the free list or the poison), and destroyed, and whichever calls of munmap fail, no pool call touches a range that has been unmapped, every loop over ranges ends, and each walk visits exactly the ranges mapped for the pool and not unmapped since, the newest first. rseq_mempool_destroy unmaps each range of the pool once, newest first, up to the first failure of munmap; after a failure the pool still has the remaining ranges and can be destroyed again, and a pool that is freed has no range left.", "quantifier": "any number of pools and of ranges per pool, every sequence of calls, every address returned by mmap and calloc, every pattern of failures of munmap, every later use of unmapped addresses by others", "why_tests_cant": "a use of a range after it was unmapped faults only if the address is not mapped again; failures of munmap do not happen in tests; the number of ranges is unbounded", "anchors": ["src/rseq-mempool.c:rseq_mempool_destroy", "src/rseq-mempool.c:rseq_mempool_range_destroy", "src/rseq-mempool.c:rseq_mempool_create", "src/rseq-mempool.c:percpu_addr_in_pool", "src/rseq-mempool.c:check_free_list", "src/rseq-mempool.c:__rseq_percpu_malloc", "src/list.h:list_for_each_entry_safe", "src/list.h:list_add", "src/list.h:list_del"]}
{"id": "C71", "title": "Threads that create and destroy pools at the same time never touch each other's mappings", "statement": "However the system calls of threads that create pools, let pools grow, and destroy pools interleave with each other and with mappings made and removed by the rest of the process, the library maps over, unmaps, advises and accesses only memory that it has mapped for that very range and not unmapped since, always in whole pages. A range that is made has exactly its two header pages and its areas, aligned to the stride; a call that fails or destroys leaves no mapping behind unless munmap is refused. (This needs that a failing mmap with MAP_FIXED leaves the old mapping, which POSIX does not promise: found to be refuted otherwise, as the error path then unmaps memory others may have mapped into the hole.)", "quantifier": "any number of threads and ranges, every interleaving of their system calls with each other and with the rest of the process, every address chosen by mmap, every pattern of failures, every attribute combination and stride", "why_tests_cant": "the window between two system calls of one thread is tiny, and the kernel rarely gives the trimmed part of a mapping to another thread at that moment; failures do not happen in tests", "anchors": ["src/rseq-mempool.c:aligned_mmap_anonymous", "src/rseq-mempool.c:rseq_mempool_range_create", "src/rseq-mempool.c:rseq_mempool_range_destroy"]}
{"id": "C72", "title": "A program may keep its own structures, and links between them, in pool items", "statement": "A program that takes items until none is left, keeps in each a structure with a pointer to itself and a list node, links them at either end of a list with the library's list functions, changes a word of every CPU's copy, walks the list, and gives each item back while it walks, never reads a value it did not write (or a zero), never follows a link out of its items, and never trips an alarm of the library, robust or not. It gets all the items the limit on ranges allows, unless the system refuses memory. Afterwards a new item is available, is zero or has the given initial bytes, and the pool can be destroyed, which leaves the items of other pools as they were.", "quantifier": "every machine (word size, byte order, page size, number of CPUs), history of pool calls, pool with items of at least five words, limit on ranges or none, and every answer of the system to the calls in between except failing trims and a failing unmap at the end", "why_tests_cant": "the library's own test does this with one machine, one item size and a few strides and policies; the property is about every configuration and every point at which the system may refuse memory", "anchors": ["tests/mempool_test.c:test_mempool_fill", "src/list.h:list_add", "src/list.h:list_add_tail", "src/list.h:list_for_each_entry", "src/list.h:list_for_each_entry_safe", "include/rseq/mempool.h:rseq_mempool_percpu_zmalloc", "include/rseq/mempool.h:rseq_mempool_percpu_malloc_init", "include/rseq/mempool.h:rseq_mempool_percpu_free", "src/rseq-mempool.c:rseq_mempool_destroy"]}
{"id": "C73", "title": "A robust pool turns each of the six misuses the test suite exercises into an abort", "statement": "Take any robust pool, in any state that a history of calls can produce. Freeing an item twice, destroying the pool while an item is live, overwriting the free-list link of a freed item with a foreign address and then destroying the pool, making a freed item's link point to itself and allocating twice, and overwriting a word of a freed item and then allocating or destroying: each of these ends in abort(), and never returns to the caller. In the library's own test program every such test passes once its test pool could be created, whatever the system answers afterwards.", "quantifier": "every history of pool calls, every robust pool in it with either populate policy, any number of CPUs, stride and item size, every answer of the system, every value written other than the poison value, every foreign address in the program's memory", "why_tests_cant": "The test program tries each misuse once, on a new pool with one CPU, one range and one item, with the one value it happens to write. It cannot show that the misuse is caught in a pool with other items, other ranges, other geometry, after earlier allocations and frees, or when the system refuses memory.", "anchors": ["tests/mempool_test.c: test_robust_double_free, test_robust_corrupt_after_free, test_robust_memory_leak, test_robust_free_list_corruption, test_robust_poison_corruption_malloc, test_robust_poison_corruption_destroy, make_test_pool, run_robust_test", "src/rseq-mempool.c: check_free_list, check_pool_poison, rseq_check_poison_item, set_alloc_slot, clear_alloc_slot, destroy_alloc_bitmap"]}
{"id": "C74", "title": "A forked child can destroy any inherited pool of which no item is live", "statement": "After fork(), a child that calls rseq_mempool_destroy on a pool of its parent, of which no item is live, gets 0 back. The call does not abort and does not access memory that the child lacks. This holds for pools with and without initial values, robust or not, with any number of ranges, and also when munmap() fails. The library's own test of this passes for both policies once the test pool could be created.", "quantifier": "every history of correct pool calls before the fork, every pool in it without live items, both populate policies, robust or not, every answer of munmap()", "why_tests_cant": "The test forks once with a new pool that never served an item. It cannot show that pools with freed items, several ranges, other attributes or in an address space with other pools can be destroyed, nor what happens when munmap() fails.", "anchors": ["tests/mempool_test.c: fork_child, run_fork_destroy_pool_test", "src/rseq-mempool.c: rseq_mempool_destroy, pool_mappings_accessible, rseq_mempool_range_destroy"]}
{"id": "C75", "title": "Initialisation and registration survive fork, unless it hits the initialisation itself", "statement": "Let a process fork, and its children fork in turn, each time from a thread outside the library. If the forking thread has returned from a library call, or is registered, or no other thread is inside the library's one-time initialisation, then the child works as a fresh process does: its threads read the final values of the public rseq symbols, no call of the library waits or runs forever, a registered thread reads the kernel's feature size, and a registration is accepted exactly from a thread without one. The forking thread keeps its registration: registering again does not return in the child (the library aborts), and unregistering succeeds on kernels with at most 32 bytes of features. If the fork happens while another thread is inside the initialisation and has not completed it, then no library call in the child ever returns.", "quantifier": "every system (libc symbols, kernel support, feature size), number of threads, interleaving of their calls and memory reads, every moment and depth of forks, every later run of the child", "why_tests_cant": "tests/fork_test.c forks once from a single-threaded program after a finished registration. It cannot place a fork at every point of other threads' initialisation, nor run every schedule of the child.", "anchors": ["tests/fork_test.c: test_child, main", "src/rseq.c: rseq_init, rseq_register_current_thread, rseq_unregister_current_thread, init_lock, init_done"]}
{"id": "C76", "title": "The registration test programs pass on every system they are for, whatever other threads do", "statement": "After the library's constructor has run and before any registration, every thread reads rseq_flags 0, rseq_size 0 and a non-zero rseq_offset, and its area says that its CPU is unknown. Without the rseq system call, the kernel query says so, every attempt to register returns -1, and this never changes. With it, the query says so, every registration that returns gives 0, and as long as the thread has not unregistered it reads flags 0, a size of at least 20, a non-zero offset and a valid CPU number in its area. Unregistering then returns 0 (on kernels with at most 32 bytes of features; with more, it does not).", "quantifier": "every system with an area that is not at the thread pointer, feature sizes of at least 20 and libc flags 0; every number of threads and interleaving of their library calls; every value a thread may read under release/acquire", "why_tests_cant": "The three programs have one thread and run on one kernel and libc each; they cannot show the values for every kernel, libc and concurrent use of the library.", "anchors": ["tests/unregistered_test.c: main", "tests/no_syscall_test.c: main", "tests/basic_test.c: main, test_registered", "src/rseq.c: rseq_available, rseq_register_current_thread, rseq_unregister_current_thread, rseq_init"]}
