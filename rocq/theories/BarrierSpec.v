(** The expedited rseq membarrier, and the lists of tests/param_test.c that are
    switched with it.  Definitions only. *)
From Coq Require Import ZArith Bool List.
From Verif Require Import RseqIR RseqSpec RseqKernel RseqSafe MemLemmas RunLemmas RseqSim RseqOwn RseqCalls.
Import ListNotations.
Local Open Scope Z_scope.

(** rseq_membarrier_expedited(cpu), tests/param_test.c:351-367 and
    membarrier(2), MEMBARRIER_CMD_PRIVATE_EXPEDITED_RSEQ with
    MEMBARRIER_CMD_FLAG_CPU: the thread of the process that runs on [cpu], if
    there is one, goes through the kernel and its critical section is restarted
    before the call returns.  [s] and [s'] are the states before and after that
    moment; other threads may run before and after it, while the caller waits.
    The memory barrier part of the command has nothing to do on the
    sequentially consistent memory of this model. *)
Definition membarrier {Loc} (tx : text) (cpu : Z) (s s' : state Loc) : Prop :=
  (exists t cid, t_on (s_thr s t) = Some (cpu, cid) /\ t_dead (s_thr s t) = false /\
     s' = set_t s t (fixup tx (s_loaded s) (s_thr s t))) \/
  ((forall t cid, t_on (s_thr s t) <> Some (cpu, cid)) /\ s' = s).

(** rseq_membarrier_expedited() of the mm_cid builds, tests/param_test.c:330-347:
    no MEMBARRIER_CMD_FLAG_CPU, the kernel does the above for every CPU, at
    moments of its choice between [s] and [s'] while the program goes on
    running ([tr]). *)
Definition membarrier_all {Loc} (g : cfg) (tx : text) (cl : client Loc)
    (s : state Loc) (tr : list (state Loc * clabel)) (s' : state Loc) : Prop :=
  path g tx cl s tr s' /\
  forall cpu, exists tr1 sm mid sm' tr2,
    tr = tr1 ++ mid ++ tr2 /\ (length mid <= 1)%nat /\ path g tx cl s tr1 sm /\ membarrier tx cpu sm sm' /\
    path g tx cl sm mid sm' /\ path g tx cl sm' tr2 s'.

(** What thread [t] is executing in state [s] is the call [c] (and not a signal
    handler that interrupted it). *)
Definition executing {Loc} (s : state Loc) (t : nat) (c : call) : Prop :=
  exists l pc rs k,
    t_ctx (s_thr s t) = {| x_loc := l; x_act := Some {| f_call := c; f_pc := pc; f_rs := rs |} |} :: k.

(** A counter increment through a pointer: the pointer is read at [p] in memory
    [m1], the field at offset [off] of what it points to is read in memory
    [m2]. *)
Definition reached_through (g : cfg) (m1 m2 : mem) (p off : Z) : Z :=
  ldw g m2 (wrap g (ldw g m1 p + off)).

(** ** The program of tests/param_test.c:1418-1627 *)

(** [ptr]: address of args->percpu_list_ptr.  [bases]: the values it takes
    (list_a and list_b).  [ncpus]: max_nr_cpus of the pool.  [field cpu]:
    RSEQ_MEMPOOL_STRIDE * cpu + offsetof(struct percpu_list, head).
    [node b cpu]: the node of the list [b] for [cpu], whose first word is
    the counter [data]. *)
Record layout := { ptr : Z; bases : list Z; ncpus : Z; field : Z -> Z; node : Z -> Z -> Z }.

(** [md] is the index mode of the build (RSEQ_PERCPU, 325 and 350).
    Worker: param_test.c:1439-1447.  Manager: it writes nothing but the pointer
    (1554, 1570, 1596). *)
Definition switches_only {Loc} (g : cfg) (L : layout) (md : imode) (cl : client Loc) : Prop :=
  (forall l m c, cl_call _ cl l m c -> 0 <= c_cpu c < ncpus L /\
     exists inc, c_op c = AddLoadLoadAddStore (ptr L) (field L (c_cpu c)) inc /\ c_mode c = md) /\
  (forall l m ps l', cl_write _ cl l m ps l' -> exists b, In b (bases L) /\ ps = stw g (ptr L) b).

(** A list and a CPU. *)
Definition item_of (L : layout) (b c : Z) : Prop := In b (bases L) /\ 0 <= c < ncpus L.

(** The words of the lists do not overlap (they come from different
    allocations). *)
Definition layout_ok (g : cfg) (L : layout) : Prop :=
  (forall b, In b (bases L) -> 0 <= b < wmod g) /\
  (forall b c, item_of L b c ->
     disjoint (span (ptr L) (wsize g)) (span (wrap g (b + field L c)) (wsize g)) /\
     disjoint (span (node L b c) (wsize g)) (span (ptr L) (wsize g))) /\
  (forall b c b' c', item_of L b c -> item_of L b' c' ->
     disjoint (span (node L b c) (wsize g)) (span (wrap g (b' + field L c')) (wsize g))) /\
  (forall b c b' c', item_of L b c -> item_of L b' c' -> b <> b' \/ c <> c' ->
     disjoint (span (node L b c) (wsize g)) (span (node L b' c') (wsize g))).
(** In [m] they are as test_membarrier_alloc_percpu_list leaves them
    (param_test.c:1454-1478). *)
Definition lists_set (g : cfg) (L : layout) (m : mem) : Prop :=
  In (ldw g m (ptr L)) (bases L) /\
  forall b c, item_of L b c -> ldw g m (wrap g (b + field L c)) = node L b c.
