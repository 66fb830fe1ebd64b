(** C72: a program may keep its own structures, and links between them, in the items of
    a pool.  The program is the library's own test of filling a pool,
    tests/mempool_test.c:39-134 (TestModel.v): it takes items until none is left, links
    them with the library's list, marks each CPU's copy, gives them all back while it
    walks the list, takes one more item twice and destroys the pool. *)
From Coq Require Import ZArith Bool List Lia.
From Verif Require Import UtilsModel RseqIR PoolVM PoolModel PoolWorld PoolInv PoolMap PoolHist PoolProps ExPool TestModel TestProofs TestFill.
Import ListNotations.
Local Open Scope Z_scope.

(** For every machine, history, pool, and every answer of the system but a failing trim
    (C32) or a failing unmap at the end (C30): in a number [rounds] of steps the test
    ends, unless the pool has no limit, or room for as many items.  No check of the test
    fails (an outcome [Abort]), no access is outside of mapped memory ([Undef]), and the
    two values read at the end are right.  [t_count] is the number of items
    taken: they fill the ranges allowed (line 94), or else the system refused a range.  At the end the pool is
    gone, and the live items are those of before. *)
Theorem C72_fill_test : forall e v0 w L F id P head ans an1 an2 an3 rounds,
  history e true v0 w L F -> lookup id (w_pools w) = Some P -> (forall a, ~ In (id, a) L) ->
  5 * wsz e <= item_len P ->
  (* the program's variables *)
  (forall q, link v0 q = None) -> 0 <= head < wmax e -> (forall k, 0 <= k < 2 * wsz e -> mapped v0 (page e (head + k)) = true) ->
  (* the system *)
  (forall k, an_trim1 (ans k) = true /\ an_trim2 (ans k) = true) -> an_trim1 an1 = true -> an_trim2 an1 = true ->
  an_trim1 an2 = true -> an_trim2 an2 = true -> (forall a, an_munmap an3 a = true) ->
  let run := test_fill e id (stride (pattr P)) (max_nr_cpus (pattr P)) head ans an1 an2 an3 rounds w in
  let room := max_nr_ranges (pattr P) * (stride (pattr P) / item_len P) in
  run = Ok None /\ (max_nr_ranges (pattr P) = 0 \/ Z.of_nat rounds <= room) \/
  exists t P' L' F', run = Ok (Some t) /\ (1 <= t_count t)%nat /\
    lookup id (w_pools (t_refused t)) = Some P' /\ stride (pattr P') = stride (pattr P) /\ item_len P' = item_len P /\
    (max_nr_ranges (pattr P) <> 0 /\ Z.of_nat (t_count t) * item_len P = stride (pattr P) * max_nr_ranges (pattr P) \/
     ~ system_grants e P' (ans (t_count t)) (w_vm (t_refused t))) /\
    t_values t = true /\ t_ret t = Some 0 /\ lookup id (w_pools (t_end t)) = None /\
    history e true v0 (t_end t) L' F' /\ forall x, In x L' <-> In x L.
Proof.
  intros e v0 w L F id P head ans an1 an2 an3 rounds HH Hl Hno Hsz Hlk Hr Hhead Hans T11 T12 T21 T22 Hun run room.
  assert (HG : geo id (stride (pattr P)) (max_nr_cpus (pattr P)) (item_len P) (max_nr_ranges (pattr P)) w P)
    by (split; [exact Hl|repeat split; reflexivity]).
  destruct (test_ok e v0 id _ _ _ _ head Hlk Hhead Hr Hsz ans Hans w L F P an1 an2 an3 rounds HH HG Hno T11 T12 T21 T22 Hun)
    as [Q|(t & P' & L' & F' & E & Hk & (Q1 & Q2 & Q3 & Q4 & Q5) & Hw & Hv & Hret & Hgone & HH' & Hin)]; [left; exact Q|right].
  exists t, P', L', F'. split; [exact E|]. split; [exact Hk|]. split; [exact Q1|]. split; [exact Q2|]. split; [exact Q4|].
  split.
  { destruct Hw as [[Hw1 Hw2]|Hw]; [left; split; [exact Hw1|]|right; exact Hw].
    destruct (item_strd e P (pi_geom _ _ _ _ _ (wi_pools _ _ _ _ _ _ (hist_inv e _ _ _ _ _ HH) id P (lookup_in _ _ _ Hl)))) as [q Hq].
    rewrite Hw2, Hq. destruct (W_pos e) as [Hp _]. rewrite Z.div_mul; lia. }
  split; [exact Hv|]. split; [exact Hret|]. split; [exact Hgone|]. split; [exact HH'|exact Hin].
Qed.
Print Assumptions C72_fill_test.

(** A robust pool of 40-byte items with initial values, limited to two ranges: 128 items
    fit in a range, so that 257 rounds are enough.  The list head is in page 16, which
    is the program's. *)
Definition fill_os : list op := [ OCreate 9 true 40 (Some (attrs true COW_INIT 2)) (grant 1048576) ].
Lemma fill_os_test : gives true fill_os [] [] 9 true COW_INIT 64 && (max_nr_ranges (pattr (pool_of true fill_os 9)) =? 2) = true.
Proof. vm_compute. reflexivity. Qed.
Example C72_applies : exists e v0 w L F id P head ans an1 an2 an3,
  history e true v0 w L F /\ lookup id (w_pools w) = Some P /\ (forall a, ~ In (id, a) L) /\
  5 * wsz e <= item_len P /\ (forall q, link v0 q = None) /\ 0 <= head < wmax e /\
  (forall k, 0 <= k < 2 * wsz e -> mapped v0 (page e (head + k)) = true) /\
  (forall k : nat, an_trim1 (ans k) = true /\ an_trim2 (ans k) = true) /\ an_trim1 an1 = true /\ an_trim2 an1 = true /\
  an_trim1 an2 = true /\ an_trim2 an2 = true /\ (forall a, an_munmap an3 a = true) /\
  exists t, test_fill e id (stride (pattr P)) (max_nr_cpus (pattr P)) head ans an1 an2 an3 257 w = Ok (Some t).
Proof.
  pose proof fill_os_test as T. apply andb_true_iff in T. destruct T as [H H2]. apply Z.eqb_eq in H2.
  pose proof (gives_ok _ _ _ _ _ _ _ _ H) as (Hh & EL & _ & Hl & _ & _ & Hil & Hs & _).
  assert (Hhead : forall k, 0 <= k < 2 * wsz e0 -> mapped v0 (page e0 (65536 + k)) = true).
  { intros k Hk. change (2 * wsz e0) with 16 in Hk. cbn [v0 mapped]. unfold page. change (e_page e0) with 4096.
    apply Z.eqb_eq. symmetry. apply (Z.div_unique _ 4096 16 k); lia. }
  assert (Hr : 0 <= 65536 < wmax e0) by (change (wmax e0) with 18446744073709551616; lia).
  assert (Hno : forall a, ~ In (9, a) (live true fill_os)) by (intros a; rewrite EL; intros []).
  assert (Hsz : 5 * wsz e0 <= item_len (pool_of true fill_os 9)) by (rewrite Hil; change (wsz e0) with 8; lia).
  exists e0, v0, (after true fill_os), (live true fill_os), (freed true fill_os), 9, (pool_of true fill_os 9), 65536,
    (fun _ => grant 1048576), (grant 1048576), (grant 1048576), (grant 1048576).
  repeat match goal with |- _ /\ _ => split end; try exact Hh; try exact Hl; try exact Hno; try exact Hsz; try exact Hr; try exact Hhead;
    try reflexivity; try (intros; reflexivity); try (intros; split; reflexivity).
  destruct (C72_fill_test e0 v0 _ _ _ 9 _ 65536 (fun _ => grant 1048576) (grant 1048576) (grant 1048576) (grant 1048576) 257
    Hh Hl Hno Hsz (fun _ => eq_refl) Hr Hhead (fun _ => conj eq_refl eq_refl) eq_refl eq_refl eq_refl eq_refl (fun _ => eq_refl))
    as [[_ [Q|Q]]|(t & _ & _ & _ & E & _)].
  - rewrite H2 in Q. discriminate Q.
  - rewrite H2, Hs, Hil in Q. change (2 * (8192 / 64)) with 256 in Q. lia.
  - exists t. exact E.
Qed.
