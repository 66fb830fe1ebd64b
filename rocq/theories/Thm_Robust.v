(** C73: each misuse in the library's robust tests ends in abort(). *)
From Coq Require Import ZArith Bool List Lia Znumtheory.
From Verif Require Import UtilsModel RseqIR PoolVM PoolVMLemmas PoolModel PoolWorld PoolHist PoolProps TestModel TestNr RobustModel RobustProofs ForkSpec ForkTame ExPool Thm_Fork.
Import ListNotations.
Local Open Scope Z_scope.

(** Any robust pool of any history of calls, whatever items were allocated and freed
    before and whatever the system answers: when the first allocation of the test gives
    an item, the test ends in abort().  [fn] is an address of the program's own memory,
    [x] any word but the poison value. *)
Theorem C73_misuse_aborts : forall e s v0 w L F id P an an' an1 an2 w1 ptr fn x,
  history e s v0 w L F -> lookup id (w_pools w) = Some P -> robust_set (pattr P) = true ->
  run1 e (OMalloc id an) w = Ok (w1, OutItem ptr) ->
  0 < fn < wmax e -> mapped v0 (page e fn) = true -> 0 <= x < wmax e -> x <> poison (pattr P) ->
  let strd := stride (pattr P) in
  let nc := max_nr_cpus (pattr P) in
  let policy := populate_policy (pattr P) in
  test_robust_double_free e id strd an w = Abort /\
  test_robust_corrupt_after_free e id strd nc policy fn an an' w = Abort /\
  test_robust_memory_leak e id an an' w = Abort /\
  test_robust_free_list_corruption e id strd nc policy an an1 an2 w = Abort /\
  test_robust_poison_corruption_malloc e id strd x an an1 w = Abort /\
  test_robust_poison_corruption_destroy e id strd x an an' w = Abort.
Proof.
  intros e s v0 w L F id P an an' an1 an2 w1 ptr fn x HH Hl Hr Hm Hfn Hmap Hx Hne strd nc policy.
  split; [exact (r_double_free e s v0 w L F HH id P an w1 ptr Hl Hr Hm)|].
  split; [exact (r_corrupt e s v0 w L F HH id P an w1 ptr Hl Hr Hm fn an' Hfn Hmap)|].
  split; [exact (r_leak e s v0 w L F HH id P an w1 ptr Hl Hr Hm an')|].
  split; [exact (r_cycle e s v0 w L F HH id P an w1 ptr Hl Hr Hm an1 an2)|].
  split; [exact (r_poison_malloc e s v0 w L F HH id P an w1 ptr Hl Hr Hm x an1 Hx Hne)|].
  exact (r_poison_destroy e s v0 w L F HH id P an w1 ptr Hl Hr Hm x an' Hx Hne).
Qed.
Print Assumptions C73_misuse_aborts.

(** The test program: in any child, with either policy, once the test pool is made each
    of the six tests is seen to abort.  Nothing is assumed of the system beyond that. *)
Theorem C73_robust_suite : forall e s v0 w L F id policy anc an an' an1 an2 fn,
  history e s v0 w L F -> lookup id (w_pools w) = None -> make_test_pool e id policy anc w <> Ok None ->
  0 < fn < wmax e -> mapped v0 (page e fn) = true ->
  let strd := RSEQ_MEMPOOL_STRIDE in
  let seen := fun test => run_robust_test e id policy test anc w = Ok 1 in
  seen (test_robust_double_free e id strd an) /\
  seen (test_robust_corrupt_after_free e id strd 1 policy fn an an') /\
  seen (test_robust_memory_leak e id an an') /\
  seen (test_robust_free_list_corruption e id strd 1 policy an an1 an2) /\
  seen (test_robust_poison_corruption_malloc e id strd 1 an an1) /\
  seen (test_robust_poison_corruption_destroy e id strd 1 an an').
Proof.
  intros e s v0 w L F id policy anc an an' an1 an2 fn HH Hnew Hok Hfn Hmap strd seen. unfold seen, run_robust_test.
  destruct (test_pool e s v0 w L F HH id policy anc Hnew) as [E|[E|(w1 & P & E & H1 & Hl & Hr & Es & En & Ep & Hpo & Hm)]].
  - rewrite E. repeat split; reflexivity.
  - contradiction (Hok E).
  - rewrite E. destruct (Hm an) as (w2 & a & Hma).
    assert (Hx : 0 <= 1 < wmax e) by (pose proof (wmax_range e); lia).
    pose proof (C73_misuse_aborts e s v0 w1 L F id P an an' an1 an2 w2 a fn 1 H1 Hl Hr Hma Hfn Hmap Hx (fun Q => Hpo (eq_sym Q))) as K.
    cbv zeta in K. rewrite Es, En, Ep in K. fold strd in K. destruct K as (K1 & K2 & K3 & K4 & K5 & K6).
    rewrite K1, K2, K3, K4, K5, K6. repeat split; reflexivity.
Qed.
Print Assumptions C73_robust_suite.

(** The harness does not report a test that ended in another way: whatever a test does,
    it passes only if it ended in abort(), or if making the pool did. *)
Theorem C73_harness : forall e id policy test an w,
  run_robust_test e id policy test an w = Ok 1 <->
  make_test_pool e id policy an w = Abort \/ exists w1, make_test_pool e id policy an w = Ok (Some w1) /\ test w1 = Abort.
Proof.
  intros e id policy test an w. unfold run_robust_test. split.
  - destruct (make_test_pool e id policy an w) as [[w1|]| |]; intros H.
    + right. exists w1. split; [reflexivity|]. destruct (test w1) as [w2| |]; [discriminate H|reflexivity|discriminate H].
    + discriminate H.
    + left. reflexivity.
    + discriminate H.
  - intros [->|(w1 & -> & ->)]; reflexivity.
Qed.
Print Assumptions C73_harness.

(** A pool in which two items are live and one is freed; and beside it, a child's test
    pool.  Page 16 is the program's. *)
Lemma misuse_test : match run1 e0 (OMalloc 7 (grant 1048576)) (after true os1) with Ok (_, OutItem _) => true | _ => false end = true.
Proof. vm_compute. reflexivity. Qed.
Lemma suite_test : match lookup 9 (w_pools (after true os1)) with None => true | _ => false end &&
  match make_test_pool e0 9 COW_ZERO (grant 16777216) (after true os1) with Ok (Some _) => true | _ => false end = true.
Proof. vm_compute. reflexivity. Qed.
Example C73_applies : exists e v0 w L F id P an w1 ptr fn id' anc,
  history e true v0 w L F /\ lookup id (w_pools w) = Some P /\ robust_set (pattr P) = true /\ L <> [] /\ F <> [] /\
  run1 e (OMalloc id an) w = Ok (w1, OutItem ptr) /\ 0 < fn < wmax e /\ mapped v0 (page e fn) = true /\ 1 <> poison (pattr P) /\
  lookup id' (w_pools w) = None /\ exists w', make_test_pool e id' COW_ZERO anc w = Ok (Some w').
Proof.
  pose proof ex1_ok as (Hh & EL & EF & Hl & Hr & _).
  pose proof misuse_test as T1. pose proof suite_test as T2.
  destruct (run1 e0 (OMalloc 7 (grant 1048576)) (after true os1)) as [[w1 [ | | |ptr| | ]]| |] eqn:E; try discriminate T1.
  destruct (lookup 9 (w_pools (after true os1))) as [P9|] eqn:E9; [discriminate T2|]. cbn [andb] in T2.
  destruct (make_test_pool e0 9 COW_ZERO (grant 16777216) (after true os1)) as [[w'|]| |] eqn:E'; try discriminate T2.
  exists e0, v0, (after true os1), (live true os1), (freed true os1), 7, (pool_of true os1 7), (grant 1048576), w1, ptr, 65536, 9, (grant 16777216).
  split; [exact Hh|]. split; [exact Hl|]. split; [exact Hr|]. split; [rewrite EL; discriminate|]. split; [rewrite EF; discriminate|].
  split; [exact E|]. split; [change (wmax e0) with 18446744073709551616; lia|]. split; [reflexivity|].
  split; [intros Q; assert (K : (poison (pattr (pool_of true os1 7)) =? 1) = false) by (vm_compute; reflexivity); rewrite <- Q in K; discriminate K|].
  split; [exact E9|]. exists w'. exact E'.
Qed.

(** ** C74
    In a child, any pool of which no item is live can be destroyed: with either policy,
    robust or not, whatever munmap() answers, the call returns and there is no abort() and
    no access that faults.  [ordinary]: the program's memory has not been changed with
    madvise(). *)
Theorem C74_child_destroys : forall e v0 w L F id P an, history e true v0 w L F -> ordinary v0 ->
  lookup id (w_pools w) = Some P -> (forall a, ~ In (id, a) L) ->
  exists w', run1 e (ODestroy id an) {| w_vm := fork e (w_vm w); w_pools := w_pools w |} = Ok (w', OutRet 0).
Proof.
  intros e v0 w L F id P an HH H0 Hl Hno. exact (child_quiet e v0 w L F id P an HH (hist_forks e true v0 w L F H0 HH) Hl Hno).
Qed.
Print Assumptions C74_child_destroys.

(** The library's test of it, with either policy. *)
Theorem C74_fork_destroy_test : forall e v0 w L F id policy anc an, history e true v0 w L F -> ordinary v0 ->
  lookup id (w_pools w) = None ->
  run_fork_destroy_pool_test e id policy anc an w =
    match make_test_pool e id policy anc w with Ok (Some _) => Ok 1 | Ok None => Ok 0 | Abort => Abort | Undef => Undef end /\
  make_test_pool e id policy anc w <> Undef.
Proof.
  intros e v0 w L F id policy anc an HH H0 Hnew. unfold run_fork_destroy_pool_test.
  destruct (test_pool e true v0 w L F HH id policy anc Hnew) as [E|[E|(w1 & P & E & H1 & Hl & _)]].
  - rewrite E. split; [reflexivity|discriminate].
  - rewrite E. split; [reflexivity|discriminate].
  - rewrite E. split; [|discriminate]. cbn [bind].
    assert (Hno : forall a, ~ In (id, a) L).
    { intros a Ha. destruct (wi_known _ _ _ _ _ _ (hist_inv _ _ _ _ _ _ HH) id a (in_or_app _ _ _ (or_introl Ha))) as (Q & HQ).
      rewrite (lookup_some id Q _ (wi_ids _ _ _ _ _ _ (hist_inv _ _ _ _ _ _ HH)) HQ) in Hnew. discriminate Hnew. }
    destruct (C74_child_destroys e v0 w1 L F id P an H1 H0 Hl Hno) as (w' & K).
    unfold destroy. rewrite K. reflexivity.
Qed.
Print Assumptions C74_fork_destroy_test.

(** A robust pool with initial values whose items are all free again, destroyed with a
    munmap() that fails; and the test beside a pool with live items. *)
Example C74_applies :
  (exists e v0 w L F id P, history e true v0 w L F /\ ordinary v0 /\ lookup id (w_pools w) = Some P /\ robust_set (pattr P) = true /\
    populate_policy (pattr P) = COW_INIT /\ F <> [] /\ (forall a, ~ In (id, a) L) /\
    exists w', run1 e (ODestroy id (answer false 0)) {| w_vm := fork e (w_vm w); w_pools := w_pools w |} = Ok (w', OutRet 0)) /\
  exists e v0 w L F id anc an, history e true v0 w L F /\ ordinary v0 /\ lookup id (w_pools w) = None /\ L <> [] /\
    run_fork_destroy_pool_test e id COW_ZERO anc an w = Ok 1.
Proof.
  split.
  - pose proof ex1f_ok as (Hh & EL & EF & Hl & Hr & Hp & _).
    assert (Hno : forall a, ~ In (7, a) (live true os1f)) by (intros a; rewrite EL; intros []).
    exists e0, v0, (after true os1f), (live true os1f), (freed true os1f), 7, (pool_of true os1f 7).
    split; [exact Hh|]. split; [exact v0_ordinary|]. split; [exact Hl|]. split; [exact Hr|]. split; [exact Hp|].
    split; [rewrite EF; discriminate|]. split; [exact Hno|].
    exact (C74_child_destroys e0 v0 _ _ _ 7 _ (answer false 0) Hh v0_ordinary Hl Hno).
  - pose proof ex1_ok as (Hh & EL & _). pose proof suite_test as T2.
    destruct (lookup 9 (w_pools (after true os1))) as [P9|] eqn:E9; [discriminate T2|]. cbn [andb] in T2.
    destruct (make_test_pool e0 9 COW_ZERO (grant 16777216) (after true os1)) as [[w'|]| |] eqn:E'; try discriminate T2.
    exists e0, v0, (after true os1), (live true os1), (freed true os1), 9, (grant 16777216), (answer false 0).
    split; [exact Hh|]. split; [exact v0_ordinary|]. split; [exact E9|]. split; [rewrite EL; discriminate|].
    destruct (C74_fork_destroy_test e0 v0 _ _ _ 9 COW_ZERO (grant 16777216) (answer false 0) Hh v0_ordinary E9) as [K _].
    rewrite E' in K. exact K.
Qed.
