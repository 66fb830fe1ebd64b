(** C65: pool calls of any number of threads at once, interleaved after every
    access to memory and to the fields of the pools (MicroModel.v).
    [mprogram e v0 m]: some program, under some schedule, is in state [m]; it
    started in the address space [v0].  [m_held m] are the items it holds. *)
From Coq Require Import ZArith Bool List Lia Znumtheory.
From Verif Require Import UtilsModel RseqIR PoolVM PoolModel PoolWorld ExPool MicroModel MicroSpec MicroFacts ExMicro.
Import ListNotations.
Local Open Scope Z_scope.

(** ** No step is undefined, and none aborts *)
(** The exception is a pool of items of more than half the address space (C21). *)
Theorem C65_no_undefined_step : forall e v0 m, mprogram e v0 m -> forall a, permitted e v0 m a ->
  mstep e a m <> Some Undef \/
  exists id named len at_ an, a = AOp (OCreate id named len at_ an) /\ 2 ^ (word_bits (e_wide e) - 1) < len.
Proof. exact f_no_fault. Qed.
Print Assumptions C65_no_undefined_step.

(** No allocation finds a free item damaged, and no free finds an item that is not
    allocated.  A call aborts only when munmap fails on the ends of a new mapping. *)
Theorem C65_no_abort : forall e v0 m, mprogram e v0 m -> forall a, permitted e v0 m a -> mstep e a m = Some Abort ->
  (exists o, a = AOp o) \/
  exists t k id an c, a = AStep t k /\ m_task m t = TMFresh id an c /\ (an_trim1 an = false \/ an_trim2 an = false).
Proof. exact f_no_abort. Qed.
Print Assumptions C65_no_abort.

(** Both threads are in calls; thread 1 is freeing and thread 2 waits. *)
Example ex_C65_busy : mprogram e0 v0 (at_end run4_) /\ m_task (at_end run4_) 1 = TFHead 7 1056768 8192 /\
  waits (m_task (at_end run4_) 2) 7 /\ permitted e0 v0 (at_end run4_) (AStep 1 0).
Proof.
  split; [apply at_end_program; vm_compute; reflexivity|]. split; [vm_compute; reflexivity|].
  split; [vm_compute; reflexivity|exact Logic.I].
Qed.

(** ** The items the program holds *)
Theorem C65_no_item_held_twice : forall e v0 m, mprogram e v0 m -> NoDup (m_held m).
Proof. exact f_held_once. Qed.
Print Assumptions C65_no_item_held_twice.

Theorem C65_items_aligned_and_mapped : forall e v0 m, mprogram e v0 m -> forall id a, In (id, a) (m_held m) ->
  exists P, lookup id (m_pools m) = Some P /\ (item_len P | a) /\
  forall x, item_byte P a x -> mapped (m_vm m) (page e x) = true /\ mapped v0 (page e x) = false.
Proof.
  intros e v0 m HP id a H. destruct (f_held_pool e v0 m HP id a H) as (P & Hl). exists P. split; auto.
  exact (f_held_item e v0 m HP id a P H Hl).
Qed.
Print Assumptions C65_items_aligned_and_mapped.

Theorem C65_items_disjoint : forall e v0 m, mprogram e v0 m -> forall id a P id' a' P' x,
  In (id, a) (m_held m) -> In (id', a') (m_held m) -> lookup id (m_pools m) = Some P -> lookup id' (m_pools m) = Some P' ->
  item_byte P a x -> item_byte P' a' x -> (id, a) = (id', a').
Proof. exact f_disjoint. Qed.
Print Assumptions C65_items_disjoint.

Example ex_C65_two_items : mprogram e0 v0 (at_end run3_) /\ m_held (at_end run3_) = [(7, 1056784); (7, 1056768)] /\
  exists P, lookup 7 (m_pools (at_end run3_)) = Some P /\ item_len P = 16 /\ max_nr_cpus (pattr P) = 2.
Proof.
  split; [apply at_end_program; vm_compute; reflexivity|]. split; [vm_compute; reflexivity|].
  destruct (seven_ok run3_ (fun P => (item_len P =? 16) && (max_nr_cpus (pattr P) =? 2))) as (P & Hl & H); [vm_compute; reflexivity|].
  exists P. split; auto. apply andb_prop in H. destruct H as [H1 H2]. apply Z.eqb_eq in H1, H2. auto.
Qed.

(** ** What an allocation returns
    From the call to the step that returns, whatever the other threads do between. *)
Theorem C65_allocation : forall e v0 m t id an c m1 y n m2 k m3 x,
  mprogram e v0 m -> permitted e v0 m (ACall t (CMalloc id an c)) ->
  mstep e (ACall t (CMalloc id an c)) m = Some (Ok (m1, y)) -> during e v0 t n m1 m2 ->
  mstep e (AStep t k) m2 = Some (Ok (m3, Some x)) ->
  m_task m3 t = TIdle /\
  ((x = OutNull /\ m_held m3 = m_held m2) \/
   exists a P, x = OutItem a /\ ~ In (id, a) (m_held m2) /\ m_held m3 = (id, a) :: m_held m2 /\
     lookup id (m_pools m3) = Some P /\ contains e P c (m_vm m3) a).
Proof.
  intros e v0 m t id an c m1 y n m2 k m3 x HP Hp Hs Hd Hr.
  destruct (f_malloc e v0 m t id an c m1 y n m2 k m3 x HP Hp Hs Hd Hr) as (Et & [H|(a & P & Ex & Eh & Hl & Hc)]); split; auto.
  right. exists a, P. split; auto. split; auto.
  assert (HP1 : mprogram e v0 m1) by exact (pr_step e v0 m HP _ _ _ Hp Hs).
  pose proof (during_run e v0 t n m1 m2 Hd HP1) as HP2.
  assert (HP3 : mprogram e v0 m3) by (exact (pr_step e v0 m2 HP2 (AStep t k) m3 (Some x) Logic.I Hr)).
  pose proof (f_held_once e v0 m3 HP3) as Hn. rewrite Eh in Hn. now inversion Hn.
Qed.
Print Assumptions C65_allocation.

(** Thread 2's call of ask2/mid2: 16 steps of its own, between those of thread 1;
    then it returns an item with the bytes 3, 4, 5 on both CPUs. *)
Example ex_C65_allocation : exists m m1 m2 m3, mprogram e0 v0 m /\
  permitted e0 v0 m (ACall 2 (CMalloc 7 (grant 0) (Bytes [3; 4; 5]))) /\
  mstep e0 (ACall 2 (CMalloc 7 (grant 0) (Bytes [3; 4; 5]))) m = Some (Ok (m1, None)) /\
  during e0 v0 2 16 m1 m2 /\ mstep e0 (AStep 2 1) m2 = Some (Ok (m3, Some (OutItem 1056784))).
Proof.
  apply (whole_ok ask2 2 _ mid2). vm_compute. reflexivity.
Qed.

(** ** What other threads do to an item that the program holds: nothing
    Its bytes on every CPU change only by the program's own writes. *)
Theorem C65_items_keep_their_bytes : forall e v0 m, mprogram e v0 m -> forall a m' x id b P y,
  permitted e v0 m a -> mstep e a m = Some (Ok (m', x)) ->
  In (id, b) (m_held m) -> lookup id (m_pools m) = Some P -> item_byte P b y ->
  match a with AOp (OWrite ps) => ~ In y (map fst ps) | AOp (ODestroy id' _) => id' <> id | _ => True end ->
  byte (view e (m_vm m')) y = byte (view e (m_vm m)) y.
Proof. exact f_frame. Qed.
Print Assumptions C65_items_keep_their_bytes.

(** While thread 1 frees its item, with its poisoning, and thread 2 allocates it again,
    the other item has the bytes that malloc_init gave it. *)
Example ex_C65_bytes : mprogram e0 v0 (at_end run6_) /\ m_held (at_end run6_) = [(7, 1056768); (7, 1056784)] /\
  map (byte_at run6_) [1056784; 1056785; 1056786; 1064976; 1064977; 1064978] = [3; 4; 5; 3; 4; 5].
Proof. split; [apply at_end_program; vm_compute; reflexivity|]. split; vm_compute; reflexivity. Qed.

(** ** The mutex *)
Theorem C65_one_thread_inside : forall e v0 m, mprogram e v0 m -> forall t t' id,
  inside (m_task m t) id -> inside (m_task m t') id -> t = t'.
Proof. exact f_mutex. Qed.
Print Assumptions C65_one_thread_inside.

(** A thread that is in a call can go on, or waits for a thread that can. *)
Theorem C65_no_deadlock : forall e v0 m, mprogram e v0 m -> forall t k, m_task m t <> TIdle ->
  (exists r, mstep e (AStep t k) m = Some r) \/
  exists id t', waits (m_task m t) id /\ inside (m_task m t') id /\ forall k', exists r, mstep e (AStep t' k') m = Some r.
Proof. exact f_progress. Qed.
Print Assumptions C65_no_deadlock.

Example ex_C65_waiting : mprogram e0 v0 (at_end run4_) /\ inside (m_task (at_end run4_) 1) 7 /\
  m_task (at_end run4_) 2 <> TIdle /\ is_stuck 2 run4_ = true.
Proof.
  split; [apply at_end_program; vm_compute; reflexivity|]. split; [vm_compute; reflexivity|].
  split; [apply not_idle; vm_compute; reflexivity|vm_compute; reflexivity].
Qed.

(** ** The number of steps
    A call takes at most 7 + copies * (3 * item_len + 2) steps of its own thread,
    counting the one that returns: no schedule makes it loop. *)
Theorem C65_calls_end : forall e v0 m t n m2 id P, mprogram e v0 m -> waits (m_task m t) id -> lookup id (m_pools m) = Some P ->
  during e v0 t n m m2 -> Z.of_nat n < 7 + copies P * (3 * item_len P + 2).
Proof. exact f_steps. Qed.
Print Assumptions C65_calls_end.

(** ** When no call is in progress
    Every item ever handed out is either held or on the free list, and on it once. *)
Theorem C65_no_item_lost : forall e v0 m, mprogram e v0 m -> (forall t, m_task m t = TIdle) ->
  forall id P, lookup id (m_pools m) = Some P ->
  exists fr, linked e P (m_vm m) (free_list_head P) fr /\ NoDup (fr ++ map snd (filter (fun i => fst i =? id) (m_held m))) /\
    forall a, handed_out P a <-> In a fr \/ In (id, a) (m_held m).
Proof. intros e v0 m HP Hi. exact (f_quiescent e v0 m HP Hi (f_held_once e v0 m HP)). Qed.
Print Assumptions C65_no_item_lost.

Example ex_C65_at_rest : mprogram e0 v0 (at_end run7_) /\ (forall t, m_task (at_end run7_) t = TIdle) /\
  m_held (at_end run7_) = [(7, 1056784)] /\ exists P, lookup 7 (m_pools (at_end run7_)) = Some P /\
  free_list_head P = percpu_to_free_list_ptr e0 P 1056768.
Proof.
  split; [apply at_end_program; vm_compute; reflexivity|].
  split; [apply rests_ok; vm_compute; reflexivity|]. split; [vm_compute; reflexivity|].
  destruct (seven_ok run7_ (fun P => free_list_head P =? percpu_to_free_list_ptr e0 P 1056768)) as (P & Hl & H); [vm_compute; reflexivity|].
  exists P. split; auto. now apply Z.eqb_eq.
Qed.
