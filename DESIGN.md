# Formal model of librseq in Rocq: design

Everything lives in `rocq/theories` (logical name `Verif`), Coq 8.16.1, standard
library only (ZArith, List, Bool, Lia).  Conventions:

* `*Model.v`, `Machine.v`, ... hold executable definitions that transcribe the C
  or assembly, each with a comment giving file and lines in /repo.  No proofs.
* `*Spec.v` hold the small independent specifications used in the statements.
* `*Proofs.v`, `*Lemmas.v` hold invariants and lemmas.
* `Thm_*.v` hold only the property theorems, each closed by `exact lemma`, with
  `Print Assumptions` underneath and `Example`s showing the hypotheses are met.
* A property that the faithful model violates is stated as a `..._refuted`
  theorem with a concrete witness, next to the strongest true variant.
* Machine words are `Z` with explicit reduction modulo 2^32 / 2^64; undefined
  behaviour, aborts and faults are distinct outcomes.  System calls are oracle
  arguments (function parameters quantified in the theorems), never axioms.

## Parts

| part | code | model | properties |
|------|------|-------|-----------|
| A utils | src/rseq-utils.h | bit-level functions over Z mod 2^32 or 2^64, by the size of `unsigned long` | C41 |
| B mapping | aligned_mmap_anonymous | page-set address space, mmap/munmap oracles | C33 |
| C mempool | src/rseq-mempool.c pool/range | flat byte memory with page-granular copy-on-write links, `Ok/Abort/Fault` outcomes, histories of operations | C20-C31, C36, C37, C39 |
| D pool set | rseq_mempool_set_* | array of 64 optional pools over part C; for concurrent calls, the steps between which the mutexes are released | C34, C35, C56 |
| E attributes/create | rseq_mempool_attr_*, rseq_mempool_create | records, validation function | C32, C49 |
| F list.h | src/list.h | pointer heap `Z -> (next, prev)` | C47, C48 |
| G smp.c | src/smp.c | strings as byte lists, read()/readdir()/sysconf oracles | C42, C43 |
| H registration | src/rseq.c, include/rseq/rseq.h | global/thread state machine with a kernel model of rseq(2) | C44-C46 |
| J data for the kernel | include/rseq/arch/generic/common.h, the data macros of arch/*.h, include/rseq/abi.h | assembler directives to bytes, per build (word size, byte order) | C57 |
| I critical sections | include/rseq/arch/*/bits.h and *.h macros | instruction-level IR, one program per architecture x helper x variant, kernel model with preemption, migration, signals | C01-C10, C16, C19, C50, C52, C55, C58 |
| J COW race | rseq_percpu_init_item / zero_item / poison_item | small-step concurrent model | C38 |
| K clients | tests/param_test.c, tests/basic_percpu_ops_test.c | transition systems over part I's atomicity theorem | C11-C15, C17 |
| L ordering | RELEASE/RELAXED variants | the programs of part I on a machine where stores reach each CPU in any allowed order | C18 |
| O weak memory | the programs of part I and the clients of part K | the machine of part I with sets of visible stores per byte and a view per thread; for the lock, release stores and acquire fences | C53, C54 |
| Q barriers | the memory-ordering macros of include/rseq/arch/*.h | the instructions of each macro in executions allowed by the axiomatic memory model of the architecture | C59 |
| R area | __rseq_abi, rseq_offset, rseq_get_abi(), the registered length | thread-local objects as offsets from thread pointers, on top of the registration machine | C60 |
| S composition | the structures of tests/param_test.c in one program | any client of the machine of part I that touches each structure only by the code of part K | C61 |
| T placement | per-CPU structures in items of pools, with pool calls in the same program | the machine of part I over the address space and pools of the pool parts | C62 |
| U length race | rseq_get_max_nr_cpus() called by several threads | the calls of src/smp.c in steps, over a plain shared cache whose loads may return old values | C63 |
| V resources | heap blocks, descriptors and mutexes of the pool calls and of the CPU count | the pool calls with the events they cause, judged by a monitor of the contracts of malloc, close and pthread mutexes | C64 |
| W fine grain | malloc, zmalloc, malloc_init and free of a pool, the poison check and the copies to the CPUs, by many threads | one step per access to the mutex, the pool's fields, a word or a byte of memory; every interleaving | C65 |
| X forks | the pool calls of part C in a program that forks between them, and in its children | part C with one more step, fork | C66 (and the history theorems of part C) |
| Y comparisons | rseq_cmp_item and the pool calls of part C that reach it, with C's signed subtraction | part C with overflow as an outcome `Undef` | C67 |
| Z forks with threads | fork() by one thread while others are in the calls of part W; the child | part W with one more step, fork | C68 (and the theorems of C65) |
| AA names | `get_pool_name`, `rseq_memfd_create_init` (the name), `strdup` and `free` of the name in create and destroy | blocks of bytes, strings up to their zero byte, `snprintf` byte by byte | C69 |
| AB ranges in memory | the list of ranges of a pool through `list_add`, `list_del` and the loops of src/list.h | part F with a set of accessible addresses; an access outside is `Undef` | C70 |
| AC system calls | `aligned_mmap_anonymous`, `rseq_mempool_range_create`, `rseq_mempool_range_destroy` by several threads | programs of system calls that interleave; who has which byte | C71 |
| AD fill test | `test_mempool_fill` of the library's tests, on the pool model | the test as a program that reads and writes words of the modelled memory; its loops with a bound on rounds | C72 |
| AE robust tests | the six misuses of the library's tests of robust pools, on the pool model | each test as a program over the calls and words of the modelled memory; destroying a pool in a forked child | C73, C74 |
| AF fork and registration | `fork()` between library calls, as in `tests/fork_test.c`, on the machine of C44-C46; children fork in turn | the invariant of the registration machine holds across forks; the lock has a living holder or no thread can reach it; a stuck state when the fork hits the initialisation | C75 |
| AG registration tests | what `unregistered_test.c`, `no_syscall_test.c` and `basic_test.c` check of the symbols and of `cpu_id` | from the invariants of C44-C46 along every run; refuted for the last step with over 32 bytes of features | C76 |
| N queries | rseq_cpu_start and other queries, fallbacks | thread/kernel state machine | C51 |
| M numa | rseq_mempool_range_init_numa | batch loop over move_pages oracle | C40 |

## Per property plan

* C01-C03, C07: generic theorem "good program => atomic": a *replay* invariant
  says that for a running thread inside its critical section, replaying the
  instructions from the start on the **current** memory, skipping stores, gives
  exactly the thread's registers, program counter and pending attempt writes.
  The per-program obligations are sequential facts, proved once per
  architecture sequence.  Interference by other threads on the locations in use
  is excluded by an explicit hypothesis on the execution (dynamic), discharged
  by C04 for per-CPU data and by the invariants of the clients.
* C04: invariant of the kernel model (one running thread per CPU and per mm_cid,
  descriptor fix-up on every preemption/signal).
* C05: corollary of the C01 invariant (the check reads the thread's own area).
* C06: refuted with a witness execution (unregistered threads have mm_cid 0).
* C08: decidable check of every assembled program, lifted to all executions.
* C09, C10: sequential correctness by symbolic execution, induction on len for
  the copy loops.
* C11-C15, C17: invariants over the client transition systems.  The racy plain
  loads of C13-C15 (head, offset, array element, which another thread may be
  writing) may return any word in the `_racy_loads` versions.
* C16: case analysis over all Z values of both enumerations.
* C18: invariant on what each CPU has observed, relaxed variants refuted on non-TSO machines.
* C19: invariant on rseq_cs; witness for the need of the call.
* C20-C31, C36, C37, C39: one invariant over arbitrary histories relating the
  concrete pool (next_unused, free list threaded in memory, bitmap, pages) to an
  abstract allocator (list of live items, LIFO list of freed items).
* C32, C41, C49: case analysis and arithmetic.  The products of stride and CPU count that overflow
  `size_t` are not detected by the code: witnesses for C21 and C32 in ExPoolBig.v.
* C33: arithmetic plus set reasoning on pages.
* C34, C35: induction on the array; C35 is refuted by a witness
  (`zeroed = true` is passed), with the true variant proved.
* C36: return value part refuted by a witness.
* C38: invariant of a small-step model.
* C40: induction on the number of batches.
* C42, C43: induction over the string / directory listing.
* C44, C45, C46: invariants of the state machine; C45's "every thread can
  unregister" is refuted for kernel feature sizes above 32.
* C47, C48: refinement to lists by induction.
* C50: decidable check of every program, lifted to all executions.
* C52: the instructions that access memory lie behind the comparison of the index
  (decidable check of every program); with C04's invariant, accesses for one index
  by two threads are separated by a context switch.
* C53: a byte of a CPU is only accessed by the thread that runs there, and the
  context switches hand the view over; so that thread always sees the newest store,
  and a run on weakly ordered memory can be matched step by step.  Ownership moves
  only when a helper call takes effect (a node pushed on a list).  The clients of
  C11 and C13-C15 are instances; their plain loads may be stale.
* C56: invariant of the interleavings of the steps of all calls, which keeps the
  histories of C20-C31 and, for one call, the instants at which each smaller size was
  found without room.  These instants can differ: the claim that a call only fails
  without room is refuted by a run of two threads.
* C55: a check on the branches of every helper (closure of the addresses that can be
  reached), evaluated for all architectures and variants, with a proof that it is
  sound.  The copies with a teardown branch to instructions that are not recorded:
  refuted, and the weaker claim about debuggers proved for them too.
* C54: an unlock counts as noticed when a helper on the CPU of the lock first reads
  the 0.  With the unlock moved there, the lock word is CPU data as in C53, and the
  protected data are handed over by the view that the release store carries and the
  fence takes up.  Runs without the fence, and without the release, are replayed.
* C57: for every list of assembler directives, loading splits with the list; then the
  macros of each build are read back, the 64-bit fields of 32-bit builds from two
  words.  For the pointer in the per-thread area, the invariant that its high half
  stays zero on 32-bit builds, over all histories.
* C58: one invariant over all steps: what the manager is about to check cannot be
  changed by a thread on a CPU the barrier has dealt with, neither by a helper call
  in progress nor by a pending store; and the counters, as the thread that owns
  them sees them, plus the iterations to go, are a constant.  Runs without the
  barrier, and with a barrier on one CPU in an mm_cid build, are replayed.
* C59: a hand-over through other threads is a path of barrier-ordered and
  communication edges; a value read against its direction closes a cycle that the
  memory model excludes (for Power-like models: through its propagation order).
  Executions that go wrong without the macro are given for each architecture.
* C60: arithmetic modulo the word size for the address; for the registered length
  the invariant of C45.  That the kernel stays inside the object is proved for
  feature sizes up to 32 and refuted above: the alignment attribute of the variable
  does not enlarge it, contrary to the comment at src/rseq.c:67.
* C61: the invariants of C11-C15 are stated over the bytes of the structure alone,
  and every step of the program is a step of the code of one structure, a step of
  the kernel, or a step outside all of them; each structure is seen through a
  projection of the program's state.  A run of two counters in the same words
  refutes the claim without separation.
* C62: a run of the program with its pools is a run of part I in which pool calls
  are stores of the bytes they change; that these avoid the structures' items
  follows from the frame properties of pool calls, and that the structures' stores
  are stores to usable items from C61.  The layout of the per-CPU words is not
  assumed but follows from their being in live items (C21, C22).  Refuted if the
  program fills a structure's item again.
* C63: invariants over the labelled runs of any number of threads; "later" is a
  happens-before relation on the positions of the run.  That a length never changes
  once it was returned is refuted when the system answers two first calls
  differently; proved if the mask can be read, or if one call ends before the others
  begin.
* C64: a triple for each function (books before, books after, never wrong), then
  induction over histories; an erasure lemma for each function says that the events
  do not change what it computes.  Exclusion and progress of threads follow from the
  order of lock, use and unlock in each accepted trace.
* C65: the state of the fine-grained model is the state of part C (a world of pools
  and memory with its invariant) plus, for the thread that has a pool's mutex, how
  far its changes to that pool have got (`minv` in `MicroProofs.v`).  Every step of
  every thread keeps that, which gives the theorems; a measure that each of a
  thread's own steps lowers bounds the length of calls.
* C66: fork is a step of the histories of part C, so their invariant must hold of the
  child (`op_fork` in `PoolHist.v`): a fork changes nothing a pool without initial
  values sees.  For the others the two header pages are treated as memory the program
  owns and never writes, so their marks stay cleared until the pool is destroyed.
  Destroying it only unmaps memory no pool of the child's history uses, which the
  histories allow the rest of the process to do, so the history goes on.
* C67: the calls of part C once more (`OverModel.v`), with `Undef` where a signed
  subtraction overflows; proved equal to those of part C, call by call, so the other
  theorems carry over.  A check that passes compares equal words and cannot overflow;
  zero can always be subtracted; when freeing, the copies that still share the pages of
  the initial values have just been poisoned and are equal, the others still hold the
  program's words.  Refuted for freeing in general and for the report of a corruption.
* C68: fork is a step of the runs of part W.  The child has one thread; its pools are
  those without initial values whose mutex was free, for which the invariant of C65
  holds at once (`MicroFork.v`), and the items other threads had in hand count as held.
  That a program without madvise() can always fork is an invariant (`MicroTame.v`).
  A taken mutex stays taken in the child: nobody inside, so nobody releases it.
* C69: invariant of the histories of part AA: each pool's name is a terminated block that
  neither the program nor another pool has.  `snprintf` into 249 bytes is proved to leave
  the first 248 bytes of the text and a zero byte.  That the first file carries the name is
  refuted (the range is created before the name is copied).
* C70: invariant of the histories of part AB: for each pool, `is_list` (C47) of the ranges
  mapped and not unmapped, all accessible, disjoint from other pools.  The loop of
  `rseq_mempool_destroy` by induction on the ranges.
* C71: each range is a program of calls; `safe` (by recursion on it) says that every call
  is about bytes the range has, whatever the answers.  `range_create` is shown safe from
  nothing, and any interleaving of safe programs keeps them safe.  With holes left by a
  failing MAP_FIXED it is refuted.
* C72: the test is written as a function on the pool model's state (loads and stores of
  words, allocations, frees, the list functions on memory words).  An invariant relates
  the words of the live items and of the list head to the list specification of C47; it
  is kept by each round of the three loops, by induction on the rounds or the items left.
* C73: the test functions are programs over the calls of the pool model, and [Abort] is the outcome run_robust_test wants. The double free, the leak and the two poison tests follow from C27, C28 and C29 after the first two calls of the test. For the link tests the invariant no longer holds after the write, so that the code is followed by hand: a foreign link leaves the set of link places at the second step of the traversal, and a link to itself makes the second allocation find its slot marked. That a new pool serves its first item without the system gives the statement about the test program.
* C74: with initial values the mark in the header of a range is wiped in the child, so that nothing but the bitmaps is looked at, and these are empty when no item is live. Without, the child's world is one of a history (C66), where correct calls raise no alarm (C30). What munmap() answers is not used.
* C75: forks as steps on the state of `RegModel.v`; `inv` of C44-C46 is preserved by a settled fork, views stay in bounds, and the lock is held by a living thread or is out of reach. An unsettled fork gives a state that every step preserves and in which no call returns.
* C76: the checks of the test programs as functions of the values read, on the machine of C44-C46 with other threads; the last step of `basic_test.c` is proved for feature sizes up to 32 and refuted beyond.
* C51: invariant of a small state machine (thread, kernel); the node part is refuted
  for threads that are not registered.

## Trusted base

* Coq 8.16.1: its kernel (including `vm_compute`, which the concrete `Example`s
  and some per-architecture checks use), the parser and `coqc`.
* `Print Assumptions` is run below every property theorem in the `Thm_*.v`
  files; each prints "Closed under the global context": no axiom is used.
  (The checker of the build lists seven names from `Coq.ssr.ssrunder`.  They are
  fields of a module type of Coq's standard library that `Lia`'s dependencies
  load; no theorem of this development depends on them.)
* That the definitions of the model say what the C and assembly sources do.
  Every definition cites the lines it models.
* That the statements say what the English properties say.

### What is modelled

* `RseqIR.v`, `Arch_*.v`, `Archs.v`: the inline assembly of the seven helpers
  for x86-64, x86-32, aarch64, arm, loongarch, mips, ppc, riscv and s390, relaxed
  and release variants, cpu_id and mm_cid modes, with the abort handlers and the
  `RSEQ_COMPARE_TWICE` build (parameter `tw`); the word size and byte order are
  parameters (`cfg`).  Registers clobbered by the assembly hold arbitrary values
  (`junk`).  Memory is a map from addresses to bytes; a store of a word is one
  step.
* `RseqKernel.v`: the kernel side: preemption, migration, resumption on any CPU
  with any free concurrency id, signals with nested handlers, restarting
  (`fixup`) when the program counter is in the range of the active descriptor,
  registration and unregistration, loading and unloading of code, IPIs
  (membarrier).  Threads are unboundedly many and run arbitrary client code.
* `Archs.v`: the dispatch on percpu mode and memory order.
* `PoolVM.v`, `PoolModel.v`, `PoolWorld.v`: src/rseq-mempool.c pools, ranges,
  items, bitmap, poison, free list threaded through memory, copy-on-write
  mappings of a memfd, `fork` (at any point between calls; C66), user stores at arbitrary points,
  mapping, unmapping, writing and madvise() by the rest of the process between calls
  wherever no pool and nothing the program gave the library is (`rest_acts` in
  `PoolWorld.v`; also in part W, between any two steps), exhaustively
  scheduled system call failures.  The size of pointers, `size_t` and `unsigned
  long` (4 or 8 bytes) and the byte order are fields of the environment, so the pool
  and pool set theorems hold of 32-bit and of 64-bit programs.
* `PoolSetModel.v`: pool sets and attribute objects.
* `PoolSetConc.v`: concurrent calls on a pool set.  Its mutexes are taken as mutual
  exclusion; filling an item is one step.
* `UtilsModel.v`, `ListModel.v`, `PoolVM.v`: src/rseq-utils.h, src/list.h,
  `aligned_mmap_anonymous`.
* `ClientModel.v`: the counter, spinlock, list, buffer and record buffer of
  tests/param_test.c and tests/basic_percpu_ops_test.c as clients of the machine
  of `RseqKernel.v`.
* `BarrierModel.v`: worker and manager of the membarrier test (C17), on the same
  machine. `BarrierSpec.v` says what the expedited rseq membarrier does: the
  thread on the CPU is restarted like after an interrupt, or nobody runs there.
  Its memory barrier has nothing to do on the sequentially consistent memory of
  the machine. The read of the current CPU number may give any number in range.
* `SmpModel.v`: src/smp.c, with `read`, `readdir` and `sysconf` answering in any
  way; the cached length is a parameter of each call.
* `SmpRace.v` (C63): the same calls by several threads.  The cache is a plain `int`
  used without a lock; formally that is a data race, and the model gives it the
  meaning it has on the supported compilers and machines: whole loads and stores,
  one order of the stores, a load never older than what the thread knows of, and no
  second read that gives an older value than the first.
* `MicroModel.v` (C65): `__rseq_percpu_malloc` and `librseq_mempool_percpu_free`
  with the free-list pop and push, the bitmap updates, the poison check word by
  word and the filling and poisoning byte by byte, as steps of threads; finding
  fresh memory, creation, destruction and program stores are one step each.
* `ResModel.v` (C64): the pool calls with an event for every calloc, strdup, free,
  memfd_create, close and mutex operation, for accesses to the pool, set and bitmap
  blocks, and for uses of what a mutex protects; the addresses and descriptors are
  answers of the environment.  Accesses are marked once per step, not per field.
  The range structures lie in mapped memory and are not heap blocks.  close() and
  pthread_mutex_*() are taken to succeed.  fork() and threads that destroy a pool
  others still use are left out; C37 and C66 are about fork.  `get_len_r` adds the
  opens and closes of src/smp.c.
* C39 uses the pool model unchanged; `PoolQuietSpec.v` says which histories keep a
  CPU idle and what memory must then stay unwritten.
* `CowModel.v`: one range of a per-CPU pool with threads, byte accesses and the
  page copies of the kernel as separate steps (C38). The pool model above runs
  each call as one step. Whether threads may read through a mapping while its
  page is copied is a parameter. Sequentially consistent memory; the mutex of the
  pool, the bitmap and the order of the free list are left out.
* `RegModel.v`: src/rseq.c initialisation, registration, `rseq_available`,
  `rseq_exit` and the feature queries of include/rseq/rseq.h, with racing
  threads under a release/acquire memory model (values per variable in store
  order, a view per thread, published by the release store and the mutex).
  The symbols of libc, the auxiliary vector and the existence of the system call
  are parameters; rseq(2) accepts and refuses as the kernel documents.
* `WeakModel.v` (C18): the programs of part I on weakly ordered memory.  A store
  goes to the log of its CPU and reaches each other CPU separately, in any order
  that the architecture allows: in program order on x86 and s390; elsewhere after
  the stores before a fence, a release store, or another store to the same byte.
  Loads give any value at all (which covers every load ordering), except in the
  theorems on contents, which fix the values the one call loads.  Threads
  migrate and abort at any instruction, without the kernel's rules.
* `ViewModel.v` (C53): the machine of `RseqKernel.v` with, per byte, the set of
  stores made so far and, per thread, a view.  A load returns any store not older
  than the view, each load and each byte on its own; a store is placed anywhere
  above the view.  Views of different threads are only joined when a thread is
  switched out and another one is switched in on the same CPU (or mm_cid).
  A load cannot return a store made later (no load buffering).
* `SyncModel.v` (C54): the machine of `ViewModel.v` with release stores (the store
  carries the view of its thread) and acquire fences (the thread takes up the views
  carried by the stores its helpers have read), as `rseq_smp_store_release()` and
  `rseq_smp_acquire__after_ctrl_dep()` are documented; loads of helpers are
  coherent.  What these macros expand to is the subject of C59.
* `CpuModel.v` (C51): the queries for CPU, node and concurrency id by one thread,
  with the kernel updating its area; the other threads show in `rseq_size` only.
* `LayoutModel.v` (C57): the directives of the descriptor, exit point and abort
  macros, and the accesses to the per-thread area, byte by byte.  The encodings of
  instructions are not in it, except for the traps before the abort handlers.
* `TsoModel.v` (C58): the machine of part I with a FIFO store buffer per thread
  (x86-TSO), `sys_membarrier()` as a call with a beginning, interrupts of CPUs one by
  one and an end, and the membarrier test as its client.  The instruction that adds
  to the counter is one step.  The threads of the test are there from the start.
* `MoModel.v` (C59): the instructions of the six macros on each architecture, and
  which executions an architecture allows.  These memory models are part of the
  trusted base: x86 and s390 are TSO; AArch64 and RISC-V are multi-copy atomic, with
  the ordered-before of the Arm ARM and the preserved program order of RVWMO; ARMv7
  and Power are the models of Alglave, Maranget and Tautschnig, "Herding Cats"
  (2014); for MIPS and LoongArch there is no formal model, and the same is used, with
  the hint bits of `dbar` as its documentation gives them.  Dependencies other than
  control dependencies and read-modify-writes are left out, which allows more.
  Accesses have no size; the compiler is trusted to keep their order.
* `AreaModel.v` (C60): size and address of the per-thread area, the computation of
  `rseq_offset` and `rseq_get_abi()`, and which bytes the kernel may update.  That
  `rseq_thread_pointer()` is constant in a thread, and that the layout of static
  thread-local storage is as `abi_layout` of `AreaSpec.v` says, is assumed of
  toolchain and loader (as hypotheses of the theorems).
* `ComposeModel.v` (C61): programs with any number of the structures of
  `ClientModel.v`; a program is any client, `uses` says what it must not do
  (touch a structure other than by its code).
* `PlaceModel.v` (C62): the program of `ComposeModel.v` whose memory is the address
  space of `PoolWorld.v`; each store also lands there, each pool call is one step of
  a thread outside the structures' code.  Stores of different threads to the address
  space interleave; a pool call is atomic with respect to them.
* `NameModel.v` (C69): the name of a pool and of its files.  Of a range only its file is
  modelled, and whether its creation succeeds is an answer of the system; `strdup` returns
  memory not in use.  That memfd_create takes names of up to 249 bytes is the kernel's.
* `RangeModel.v` (C70): the links of ranges and pools, access by access; of a range only
  its links.  `PoolModel.v` has the ranges of a pool as a list, which C70 justifies.
* `MapModel.v` (C71): creating and destroying ranges call by call, for any number of
  threads; memory is only its owner, byte by byte.  Sizes do not wrap around, alignments
  are tested by `mod`, the asserts are left out (C21, C33 have these for single calls).
* `TestModel.v`: `test_mempool_fill` (tests/mempool_test.c:39-134) from line 77 on, with
  `list_head` in memory words; not its printing, and not the creation of the pool, which
  is any history that made it.  The test's `CPU_SETSIZE` is the pool's number of CPUs.
  The program's own pages are assumed not to be private mappings of the pool's files
  (`link v0 q = None`), which is how the histories of the pool model begin.
* `RobustModel.v`: the six robust tests of tests/mempool_test.c with make_test_pool and run_robust_test, and run_fork_destroy_pool_test. fork() and waitpid() are the history step and the outcome; the attribute object is taken to be there; the sequence of main() is not modelled.
* `ForkRegModel.v`: `fork()` on the state of `RegModel.v` (`tests/fork_test.c:30-97`). The child has the last value of every variable, one thread, the registration of that thread, and the lock as it was. Simplifications: fork is one step and happens outside the library; the reads of `cpu_id` in the test are not modelled.
* `RegTestModel.v`: the checks of `tests/unregistered_test.c`, `tests/no_syscall_test.c` and `test_registered` of `tests/basic_test.c`. The kernel's writes to `cpu_id` are taken from the ABI: the CPU while registered, -1 otherwise. The affinity part of `basic_test.c` is not modelled.
* `NumaModel.v`: `rseq_mempool_range_init_numa` of a build with libnuma; the node
  of the CPU and the answers of `move_pages` are parameters.  (Built without
  libnuma, the function only sets `errno`.)

### What is not modelled

* fork() in the middle of a pool call of the same thread (a signal handler), and with
  pool sets.  In a child of a program with several threads (C68), destroying a pool whose
  mutex another thread had, or one with initial values, is not treated.
* The memory of part I is sequentially consistent.  C53 carries its results over
  to weakly ordered memory for clients with an ownership discipline, without load
  buffering; store ordering as seen by other CPUs is treated separately (C18).
  The lock of C12 is treated in C54.  C17 is for sequentially consistent memory;
  C58 carries it over to x86-TSO for the membarrier test (the helper it needs only
  exists on x86-64).
* The compiler, the C type system beyond widths and signs, the assembler beyond
  the data directives of C57, and the encodings of instructions.
* The kernel's own implementation: page tables, scheduling, futexes; what the
  library observes of them is.
* In parts other than W a call on a pool is one step (its mutex makes it so: C65
  proves the guarantees again without that assumption); stores by other threads
  interleave between calls.  In part W creating a range is one step of the thread
  that has the mutex, as is each of rseq_mempool_create and rseq_mempool_destroy; C71
  has their system calls one by one.
* valgrind/debug output, printing to stderr, statistics.
* Address-space limits: theorems on clients take a `live` set of contexts that
  may own local variables in memory, as only finitely many fit.

### Layout of the helper proofs

`RseqSim.v` proves that the machine refines an abstract machine in which a
helper call is one atomic step (C01).  `LinProofs.v` turns that into a
linearization of runs, and gives a proof rule for clients (`client_inv`): an
invariant over ghost state that calls, effects, failed comparisons, plain
stores, signals and returns keep.  C11-C15 are instances of it.
C61 restates each of them as a `struc` (`ComposeProofs.v`): an invariant of the
bytes of one structure, carried along by paths of the program (`bpath`).
C62 adds the pool calls to the program as stores (`plus` in `PlaceProofs.v`) and
proves with `PlacePool.v` that they stay away from the structures' items.
`ExPool.v`, `ExPoolBig.v` and `ExPool32.v` replay concrete pool histories for the
examples: a 64-bit program, one with large sizes, and a 32-bit big-endian program.
C65 is in `Micro*.v`: `MicroInv.v` (what a thread in a call knows), `MicroWorld.v`
(stores and free-list moves on a world), `MicroProofs.v` (the invariant), `MicroSteps.v`
and `MicroOps.v` (every step keeps it), `MicroProps.v` and `MicroFacts.v` (theorems);
`ExMicro.v` replays an interleaving of two threads.
C67 is in `Over*.v`: `OverSpec.v` (signed words), `OverModel.v`, `OverProofs.v`.

C68 is in `MicroFork*.v` and `MicroTame.v`.  C66 is in `Fork*.v`: `ForkSpec.v` (the life of a child), `ForkProofs.v` (what it finds
and can destroy), `ForkTame.v` (a program that does not use madvise() can always fork).
C72 is in `Test*.v`: `TestNr.v` (a pool has a range), `TestProofs.v` (words, nodes and
allocations), `TestFill.v` (the loops and the whole test).
C73 is in `RobustProofs.v`: the state after allocate and free (`begun`), a word written
to an area of the freed item (`Write`), a free list that links to itself
(`cycle_detected`), the first item of a new pool (`fresh_malloc`).  C74 is there too
(`child_quiet`).

C75 is in `ForkReg*.v`: views in bounds, the lock invariant, a fork step of the invariant of C44-C46, progress, and the stuck child.
