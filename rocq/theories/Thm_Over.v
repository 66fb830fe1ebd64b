(** C67: the comparisons of item memory with poison and zero are defined in C.
    [run1] is the meaning of the pool calls of which the other theorems speak; there a
    comparison of two words tells whether they differ.  [run1_c] is the same with the
    subtraction of the code, which is undefined when its result does not fit. *)
From Coq Require Import ZArith Bool List Lia.
From Verif Require Import UtilsModel RseqIR PoolVM PoolVMLemmas PoolModel PoolWorld PoolInv PoolHist PoolProps ExPool OverModel OverSpec OverProofs.
Import ListNotations.
Local Open Scope Z_scope.

(** ** An example
    A robust pool with initial values and the poison of the library, 0x55...55.  The
    program keeps small numbers in its first item and the least signed number, which is
    0x80...00, in its second. *)
Definition oso : list op :=
  [ OCreate 7 true 16 (Some (attrs true COW_INIT 0)) (grant 1048576);
    OMalloc 7 (grant 0); OFill 7 1056768 (Bytes [1; 2; 3]); OWrite [(1056768 + 8192 + 5, 77)];
    OMalloc 7 (grant 0); OFill 7 1056784 (Bytes [0; 0; 0; 0; 0; 0; 0; 128]) ].
(** It frees its first item and uses it after that. *)
Definition oss : list op :=
  [ OCreate 7 true 16 (Some (attrs true COW_INIT 0)) (grant 1048576);
    OMalloc 7 (grant 0); OFill 7 1056768 (Bytes [1; 2; 3]); OFree 1056768 8192;
    OWrite (map (fun i => (1056768 + 8192 + i, if i =? 15 then 128 else 0)) [8; 9; 10; 11; 12; 13; 14; 15]) ].
Definition done {A} (x : res A) : bool := match x with Ok _ => true | _ => false end.
Definition lost {A} (x : res A) : bool := match x with Undef => true | _ => false end.
Definition died {A} (x : res A) : bool := match x with Abort => true | _ => false end.
Lemma done_ok : forall A (x : res A), done x = true -> exists y, x = Ok y.
Proof. intros A [y| |] H; [exists y; reflexivity|discriminate H|discriminate H]. Qed.
Lemma lost_ok : forall A (x : res A), lost x = true -> x = Undef.
Proof. intros A [y| |] H; [discriminate H|discriminate H|reflexivity]. Qed.
Lemma died_ok : forall A (x : res A), died x = true -> x = Abort.
Proof. intros A [y| |] H; [discriminate H|reflexivity|discriminate H]. Qed.
Definition words_small (w : world) (a : Z) : bool :=
  forallb (fun cpu => forallb (fun k => load_word e0 (w_vm w) (a + 8192 * cpu + 8 * k) <? 2 ^ 63) [0; 1]) [0; 1].
Definition test_over : bool :=
  gives true oso [(7, 1056784); (7, 1056768)] [] 7 true COW_INIT 16 &&
  (poison (pattr (pool_of true oso 7)) =? 6148914691236517205) && words_small (after true oso) 1056768 &&
  done (run1_c e0 (OFree 1056768 8192) (after true oso)) &&
  done (run1 e0 (OFree 1056784 8192) (after true oso)) && lost (run1_c e0 (OFree 1056784 8192) (after true oso)) &&
  poison_set (pattr (pool_of true oso 7)).
Lemma test_over_ok : test_over = true.
Proof. vm_compute. reflexivity. Qed.
Definition test_stray : bool :=
  gives false oss [] [(7, 1056768)] 7 true COW_INIT 16 &&
  died (run1 e0 (OMalloc 7 (grant 0)) (after false oss)) && lost (run1_c e0 (OMalloc 7 (grant 0)) (after false oss)).
Lemma test_stray_ok : test_stray = true.
Proof. vm_compute. reflexivity. Qed.
Lemma over_facts : gives true oso [(7, 1056784); (7, 1056768)] [] 7 true COW_INIT 16 = true /\
  poison (pattr (pool_of true oso 7)) = 6148914691236517205 /\ words_small (after true oso) 1056768 = true /\
  done (run1_c e0 (OFree 1056768 8192) (after true oso)) = true /\
  done (run1 e0 (OFree 1056784 8192) (after true oso)) = true /\ lost (run1_c e0 (OFree 1056784 8192) (after true oso)) = true /\
  poison_set (pattr (pool_of true oso 7)) = true.
Proof.
  pose proof test_over_ok as H. unfold test_over in H.
  apply andb_prop in H. destruct H as [H H7]. apply andb_prop in H. destruct H as [H H6]. apply andb_prop in H. destruct H as [H H5].
  apply andb_prop in H. destruct H as [H H4]. apply andb_prop in H. destruct H as [H H3]. apply andb_prop in H. destruct H as [H1 H2].
  apply Z.eqb_eq in H2. exact (conj H1 (conj H2 (conj H3 (conj H4 (conj H5 (conj H6 H7)))))).
Qed.

(** ** The theorems *)
(** Every call but rseq_mempool_percpu_free either does what the other theorems say of it,
    with no undefined subtraction on the way, or is one that ends in abort() there. *)
Theorem C67_other_calls_defined : forall e s v0 w L F, history e s v0 w L F -> forall o, allowed e s v0 w L o ->
  (forall ptr st, o <> OFree ptr st) -> run1 e o w = Abort \/ run1_c e o w = run1 e o w.
Proof.
  intros e s v0 w L F HH o Hok Hf. apply (p_others e s v0 w L F HH o Hok). destruct o as [| | |ptr st| |]; try reflexivity.
  destruct (Hf ptr st eq_refl).
Qed.
Print Assumptions C67_other_calls_defined.

(** Freeing is defined if the pool has no poison, or if the poison can be subtracted from
    every word of the item, in every CPU's copy.  Missing: the other items (see below). *)
Theorem C67_free_defined_partial : forall e s v0 w L F, history e s v0 w L F ->
  forall id P a, lookup id (w_pools w) = Some P -> In (id, a) L ->
  (poison_set (pattr P) = false \/
   forall cpu k, 0 <= cpu < max_nr_cpus (pattr P) -> 0 <= k -> wsz e * k < item_len P ->
     subtractable (word_bits (e_wide e)) (load_word e (w_vm w) (percpu_ptr P a cpu + wsz e * k)) (poison (pattr P))) ->
  run1_c e (OFree a (stride (pattr P))) w = run1 e (OFree a (stride (pattr P))) w.
Proof.
  intros e s v0 w L F HH id P a Hl Ha Hs. apply (p_free e s v0 w L F HH id P a Hl Ha).
  pose proof (hist_inv e _ _ _ _ _ HH) as HW.
  pose proof (g_poison _ _ (pi_geom _ _ _ _ _ (wi_pools _ _ _ _ _ _ HW _ _ (lookup_in _ _ _ Hl)))) as Hg.
  destruct Hs as [K|Hs]; [left; exact K|right]. intros cpu k Hc Hk Hlt. apply fits_spec; [apply load_word_range|exact Hg|].
  exact (Hs cpu k Hc Hk Hlt).
Qed.
Print Assumptions C67_free_defined_partial.

(** A program whose poison is 0 need not care.  The poison of robust pools with zeroed
    memory is 0 unless the program sets another. *)
Theorem C67_zero_poison_defined : forall e s v0 w L F, history e s v0 w L F ->
  forall id P a, lookup id (w_pools w) = Some P -> In (id, a) L -> poison (pattr P) = 0 ->
  run1_c e (OFree a (stride (pattr P))) w = run1 e (OFree a (stride (pattr P))) w.
Proof.
  intros e s v0 w L F HH id P a Hl Ha H0. apply (C67_free_defined_partial e s v0 w L F HH id P a Hl Ha). right.
  intros cpu k _ _ _. rewrite H0. apply zero_subtractable. apply load_word_range.
Qed.
Print Assumptions C67_zero_poison_defined.

(** Nor need one that keeps only words without the top bit in its items, when the poison
    has no top bit either, as the poison of the library. *)
Theorem C67_small_words_defined : forall e s v0 w L F, history e s v0 w L F ->
  forall id P a, lookup id (w_pools w) = Some P -> In (id, a) L -> poison (pattr P) < 2 ^ (word_bits (e_wide e) - 1) ->
  (forall cpu k, 0 <= cpu < max_nr_cpus (pattr P) -> 0 <= k -> wsz e * k < item_len P ->
     load_word e (w_vm w) (percpu_ptr P a cpu + wsz e * k) < 2 ^ (word_bits (e_wide e) - 1)) ->
  run1_c e (OFree a (stride (pattr P))) w = run1 e (OFree a (stride (pattr P))) w.
Proof.
  intros e s v0 w L F HH id P a Hl Ha Hp Hs. apply (C67_free_defined_partial e s v0 w L F HH id P a Hl Ha). right.
  pose proof (hist_inv e _ _ _ _ _ HH) as HW.
  pose proof (g_poison _ _ (pi_geom _ _ _ _ _ (wi_pools _ _ _ _ _ _ HW _ _ (lookup_in _ _ _ Hl)))) as Hg.
  intros cpu k Hc Hk Hlt. apply same_side; [apply load_word_range|exact Hg|exact (Hs cpu k Hc Hk Hlt)|exact Hp].
Qed.
Print Assumptions C67_small_words_defined.

(** The first item of the example meets the hypotheses. *)
Example ex_C67 : history e0 true v0 (after true oso) (live true oso) (freed true oso) /\
  lookup 7 (w_pools (after true oso)) = Some (pool_of true oso 7) /\ In (7, 1056768) (live true oso) /\
  poison_set (pattr (pool_of true oso 7)) = true /\
  poison (pattr (pool_of true oso 7)) < 2 ^ (word_bits (e_wide e0) - 1) /\
  (forall cpu k, 0 <= cpu < max_nr_cpus (pattr (pool_of true oso 7)) -> 0 <= k -> wsz e0 * k < item_len (pool_of true oso 7) ->
     load_word e0 (w_vm (after true oso)) (percpu_ptr (pool_of true oso 7) 1056768 cpu + wsz e0 * k) < 2 ^ (word_bits (e_wide e0) - 1)) /\
  exists y, run1_c e0 (OFree 1056768 8192) (after true oso) = Ok y.
Proof.
  destruct over_facts as (H1 & H2 & H3 & H4 & _ & _ & H7). pose proof (gives_ok _ _ _ _ _ _ _ _ H1) as (Hh & EL & _ & G4 & _ & _ & G7 & G8 & G9).
  split; [exact Hh|]. split; [exact G4|]. split; [rewrite EL; right; left; reflexivity|]. split; [exact H7|].
  split; [rewrite H2; reflexivity|]. split; [|exact (done_ok _ _ H4)].
  intros cpu k. unfold percpu_ptr. rewrite G7, G8, G9. change (wsz e0) with 8. change (2 ^ (word_bits (e_wide e0) - 1)) with (2 ^ 63). intros Hc Hk Hlt.
  unfold words_small in H3. rewrite forallb_forall in H3.
  assert (Ic : In cpu [0; 1]) by (cbn [In]; lia). specialize (H3 cpu Ic). rewrite forallb_forall in H3.
  assert (Ik : In k [0; 1]) by (cbn [In]; lia). specialize (H3 k Ik). apply Z.ltb_lt in H3. exact H3.
Qed.

(** A robust pool with zeroed memory; the program keeps 0x80...00 in its item. *)
Definition osz : list op :=
  [ OCreate 8 false 16 (Some (attrs true COW_ZERO 1)) (grant 1048576);
    OMalloc 8 (grant 0); OFill 8 1056768 (Bytes [0; 0; 0; 0; 0; 0; 0; 128]) ].
Definition test_zero : bool :=
  gives true osz [(8, 1056768)] [] 8 true COW_ZERO 16 && (poison (pattr (pool_of true osz 8)) =? 0) &&
  poison_set (pattr (pool_of true osz 8)) && done (run1 e0 (OMalloc 8 (grant 0)) (after true osz)).
Lemma test_zero_ok : test_zero = true.
Proof. vm_compute. reflexivity. Qed.
Example ex_C67_zero : history e0 true v0 (after true osz) (live true osz) (freed true osz) /\
  lookup 8 (w_pools (after true osz)) = Some (pool_of true osz 8) /\ In (8, 1056768) (live true osz) /\
  poison_set (pattr (pool_of true osz 8)) = true /\ poison (pattr (pool_of true osz 8)) = 0 /\
  allowed e0 true v0 (after true osz) (live true osz) (OMalloc 8 (grant 0)) /\
  exists y, run1 e0 (OMalloc 8 (grant 0)) (after true osz) = Ok y.
Proof.
  pose proof test_zero_ok as H. unfold test_zero in H. apply andb_prop in H. destruct H as [H H4].
  apply andb_prop in H. destruct H as [H H3]. apply andb_prop in H. destruct H as [H1 H2]. apply Z.eqb_eq in H2.
  pose proof (gives_ok _ _ _ _ _ _ _ _ H1) as (Hh & EL & _ & G4 & _).
  split; [exact Hh|]. split; [exact G4|]. split; [rewrite EL; left; reflexivity|]. split; [exact H3|]. split; [exact H2|].
  split; [exists (pool_of true osz 8); exact G4|exact (done_ok _ _ H4)].
Qed.

(** Freeing is not always defined: a correct program keeps the number 0x80...00 in an item
    of a robust pool with initial values; the library subtracts its own poison from it. *)
Theorem C67_free_defined_refuted : exists e v0 w L F id P a,
  history e true v0 w L F /\ lookup id (w_pools w) = Some P /\ In (id, a) L /\ robust_set (pattr P) = true /\
  poison (pattr P) = 0x5555555555555555 /\
  (exists w' x, run1 e (OFree a (stride (pattr P))) w = Ok (w', x)) /\ run1_c e (OFree a (stride (pattr P))) w = Undef.
Proof.
  destruct over_facts as (H1 & H2 & _ & _ & H5 & H6 & _). pose proof (gives_ok _ _ _ _ _ _ _ _ H1) as (Hh & EL & _ & G4 & G5 & _ & _ & G8 & _).
  exists e0, v0, (after true oso), (live true oso), (freed true oso), 7, (pool_of true oso 7), 1056784.
  split; [exact Hh|]. split; [exact G4|]. split; [rewrite EL; left; reflexivity|]. split; [exact G5|]. split; [exact H2|]. rewrite G8.
  split; [|exact (lost_ok _ _ H6)]. destruct (done_ok _ _ H5) as [[w' x] E]. exists w', x. exact E.
Qed.
Print Assumptions C67_free_defined_refuted.

(** Nor is the report of a use after free: allocating the corrupted item ends in abort()
    when comparisons tell whether words differ, and is undefined in C. *)
Theorem C67_report_defined_refuted : exists e v0 w L F id an,
  history e false v0 w L F /\ allowed e false v0 w L (OMalloc id an) /\
  run1 e (OMalloc id an) w = Abort /\ run1_c e (OMalloc id an) w = Undef.
Proof.
  pose proof test_stray_ok as H. unfold test_stray in H. apply andb_prop in H. destruct H as [H H3]. apply andb_prop in H. destruct H as [H1 H2].
  pose proof (gives_ok _ _ _ _ _ _ _ _ H1) as (Hh & _ & _ & G4 & _).
  exists e0, v0, (after false oss), (live false oss), (freed false oss), 7, (grant 0).
  split; [exact Hh|]. split; [exists (pool_of false oss 7); exact G4|]. split; [exact (died_ok _ _ H2)|exact (lost_ok _ _ H3)].
Qed.
Print Assumptions C67_report_defined_refuted.
