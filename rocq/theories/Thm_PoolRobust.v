(** C27-C31: the checks of robust memory pools (src/rseq-mempool.c), after every
    history (PoolWorld.v: [history]).  [L] are the live items, [F] the freed ones;
    with the flag [true] the program never writes an item it freed, with [false]
    it may, in robust pools.  [Abort]: the process aborts with a diagnostic. *)
From Coq Require Import ZArith Bool List Lia Znumtheory.
From Verif Require Import RseqIR PoolVM PoolModel PoolWorld PoolHist PoolProps PoolProps2 PoolProps3 PoolProps4 ExPool.
Import ListNotations.
Local Open Scope Z_scope.

(** ** C27 *)
(** [base r + off] is a slot of the range [r]: free, or never handed out. *)
Theorem C27_double_free_aborts : forall e s v0 w L F, history e s v0 w L F ->
  forall id P r off, lookup id (w_pools w) = Some P -> robust_set (pattr P) = true ->
  In r (range_list P) -> 0 <= off < stride (pattr P) -> (item_len P | off) -> ~ In (id, base r + off) L ->
  run1 e (OFree (base r + off) (stride (pattr P))) w = Abort.
Proof. exact p_double_free. Qed.
Print Assumptions C27_double_free_aborts.

Theorem C27_free_of_a_live_item_succeeds : forall e s v0 w L F, history e s v0 w L F ->
  forall id P a, lookup id (w_pools w) = Some P -> In (id, a) L ->
  exists w', run1 e (OFree a (stride (pattr P))) w = Ok (w', OutUnit).
Proof. exact p_free_ok. Qed.
Print Assumptions C27_free_of_a_live_item_succeeds.

(** In the first history: the freed item, a slot never handed out, a live item. *)
Example ex_C27 : ex1 /\
  aborts (run1 e0 (OFree 1056784 8192) (after true os1)) = true /\
  aborts (run1 e0 (OFree 1056816 8192) (after true os1)) = true /\
  outcome (run1 e0 (OFree 1056800 8192) (after true os1)) = Some OutUnit.
Proof. split; [exact ex1_ok|]. vm_compute. auto. Qed.

(** ** C28 *)
Theorem C28_leak_aborts : forall e s v0 w L F, history e s v0 w L F ->
  forall id P a an, lookup id (w_pools w) = Some P -> robust_set (pattr P) = true ->
  In (id, a) L -> run1 e (ODestroy id an) w = Abort.
Proof. exact p_destroy_leak. Qed.
Print Assumptions C28_leak_aborts.

Theorem C28_destroy_aborts_iff_leak : forall e s v0 w L F, history e s v0 w L F ->
  forall id P an, s = true -> lookup id (w_pools w) = Some P -> robust_set (pattr P) = true ->
  run1 e (ODestroy id an) w = Abort <-> exists a, In (id, a) L.
Proof. exact p_leak_iff. Qed.
Print Assumptions C28_destroy_aborts_iff_leak.

Example ex_C28 : ex1 /\ ex1f /\
  aborts (run1 e0 (ODestroy 7 (grant 0)) (after true os1)) = true /\
  outcome (run1 e0 (ODestroy 7 (grant 0)) (after true os1f)) = Some (OutRet 0).
Proof. split; [exact ex1_ok|]. split; [exact ex1f_ok|]. vm_compute. auto. Qed.

(** ** C29 *)
(** Freeing fills the item, in all its copies, with the poison value; *)
Theorem C29_free_poisons : forall e s v0 w L F, history e s v0 w L F ->
  forall id P a w' x, lookup id (w_pools w) = Some P -> robust_set (pattr P) = true -> In (id, a) L ->
  run1 e (OFree a (stride (pattr P))) w = Ok (w', x) ->
  forall i k, 0 <= i < copies P -> 0 <= k < item_len P ->
    byte (view e (w_vm w')) (percpu_ptr P a i + k) = word_byte e (poison (pattr P)) (k mod wsz e).
Proof. exact p_free_fills. Qed.
Print Assumptions C29_free_poisons.

(** and if any byte of any copy of a freed item is different, then destroying the
    pool aborts, no allocation returns the item, and the allocation that would aborts. *)
Theorem C29_write_to_freed_item_aborts : forall e s v0 w L F, history e s v0 w L F ->
  forall id P a i k an, lookup id (w_pools w) = Some P -> robust_set (pattr P) = true ->
  In (id, a) F -> 0 <= i < copies P -> 0 <= k < item_len P ->
  byte (view e (w_vm w)) (percpu_ptr P a i + k) <> word_byte e (poison (pattr P)) (k mod wsz e) ->
  run1 e (ODestroy id an) w = Abort /\
  (forall w', run1 e (OMalloc id an) w <> Ok (w', OutItem a)) /\
  (find (fun j => fst j =? id) F = Some (id, a) -> run1 e (OMalloc id an) w = Abort).
Proof. exact p_use_after_free. Qed.
Print Assumptions C29_write_to_freed_item_aborts.

(** The program wrote the last byte of the freed item on CPU 1. *)
Example ex_C29 : ex3 /\
  byte (view e0 (w_vm (after false os3))) (1056784 + 8192 + 15) = 1 /\
  word_byte e0 (poison (pattr (pool_of false os3 7))) (15 mod 8) = 85 /\
  aborts (run1 e0 (OMalloc 7 (grant 0)) (after false os3)) = true.
Proof. split; [exact ex3_ok|]. vm_compute. auto. Qed.

(** ** C30 *)
(** [cooperative]: the trimming munmaps succeed, the length fits (C32), and no item
    of a destroyed pool is live. *)
Theorem C30_no_false_alarm : forall e s v0 w L F, history e s v0 w L F ->
  forall o, s = true -> allowed e s v0 w L o -> cooperative e L o -> exists w' x, run1 e o w = Ok (w', x).
Proof. exact p_no_alarm. Qed.
Print Assumptions C30_no_false_alarm.

Example ex_C30 : ex1f /\ allowed e0 true v0 (after true os1f) (live true os1f) (ODestroy 7 (grant 0)) /\
  cooperative e0 (live true os1f) (ODestroy 7 (grant 0)).
Proof.
  split; [exact ex1f_ok|]. destruct ex1f_ok as (_ & EL & _ & El & _). split.
  - exists (pool_of true os1f 7). exact El.
  - rewrite EL. intros a H. exact H.
Qed.

(** ** C31 *)
(** The links of the free items are overwritten in any way.  The walk ends; the
    destruction succeeds only if following the links from the head meets, without
    repetition, only places of links, and as many as items were handed out; and
    then, if the mappings are removed, none is live.  Only a link at a misaligned
    address may instead be read outside of the mapping. *)
Theorem C31_corrupt_links_detected : forall e s v0 w L F, history e s v0 w L F ->
  forall id P ps an, lookup id (w_pools w) = Some P -> robust_set (pattr P) = true ->
  (forall x, In x (map fst ps) -> in_links P x) ->
  let w1 := {| w_vm := store e (w_vm w) ps; w_pools := w_pools w |} in
  match run1 e (ODestroy id an) w1 with
  | Ok (w', x) =>
    (exists l, follows e (w_vm w1) (free_list_head P) l /\ NoDup l /\ Forall (link_place P) l /\
      Z.of_nat (length l) = count id F + count id L) /\
    ((forall a, an_munmap an a = true) -> count id L = 0)
  | Abort => True
  | Undef => exists x, link_place P x /\ ~ (wsz e | x)
  end.
Proof. exact p_corrupt_links. Qed.
Print Assumptions C31_corrupt_links_detected.

(** The memory considered here holds the links: the link of each item of a robust pool
    is there. *)
Theorem C31_links_are_there : forall e s v0 w L F, history e s v0 w L F ->
  forall id P a k, lookup id (w_pools w) = Some P -> robust_set (pattr P) = true -> In (id, a) (L ++ F) ->
  0 <= k < wsz e -> in_links P (percpu_to_free_list_ptr e P a + k).
Proof. exact p_links_there. Qed.
Print Assumptions C31_links_are_there.

Definition in_linksb (P : pool) (x : Z) : bool :=
  existsb (fun r => (base r + stride (pattr P) * copies P <=? x) && (x <? base r + stride (pattr P) * (copies P + 1))) (range_list P).
Lemma in_linksb_ok : forall P x, in_linksb P x = true -> in_links P x.
Proof.
  intros P x H. unfold in_linksb in H. apply existsb_exists in H. destruct H as (r & Hr & H). exists r.
  apply andb_true_iff in H. rewrite Z.leb_le, Z.ltb_lt in H. tauto.
Qed.
(** All items are freed; the link of the last freed one is made to point to itself,
    or to nothing. *)
Example ex_C31 : ex1f /\
  in_links (pool_of true os1f 7) 1081344 /\ in_links (pool_of true os1f 7) 1081346 /\
  free_list_head (pool_of true os1f 7) = 1056768 + 8192 * 3 /\
  aborts (run1 e0 (ODestroy 7 (grant 0))
    {| w_vm := store e0 (w_vm (after true os1f)) [(1081344, 0); (1081345, 128); (1081346, 16)]; w_pools := w_pools (after true os1f) |}) = true /\
  aborts (run1 e0 (ODestroy 7 (grant 0))
    {| w_vm := store e0 (w_vm (after true os1f)) [(1081344, 0); (1081345, 0); (1081346, 0)]; w_pools := w_pools (after true os1f) |}) = true.
Proof.
  split; [exact ex1f_ok|]. do 2 (split; [apply in_linksb_ok; vm_compute; reflexivity|]). vm_compute. auto.
Qed.
