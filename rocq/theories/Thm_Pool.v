(** C20-C26: what the allocation calls of the memory pools guarantee, after every
    history of calls and program writes (PoolWorld.v: [history]), for every page
    size, word size (32 or 64 bits), byte order, number of CPUs, pool configuration, answer of the system
    and copy-on-write state.  [L] are the live items, [F] the freed ones. *)
From Coq Require Import ZArith Bool List Lia Znumtheory.
From Verif Require Import RseqIR PoolVM PoolModel PoolWorld PoolHist PoolProps PoolProps2 PoolProps4 ExPoolBig ExPool ExPool32.
Import ListNotations.
Local Open Scope Z_scope.

(** ** C20 *)
Theorem C20_live_items_listed_once : forall e s v0 w L F, history e s v0 w L F -> NoDup L.
Proof. exact p_live_once. Qed.
Print Assumptions C20_live_items_listed_once.

Theorem C20_live_items_disjoint : forall e s v0 w L F, history e s v0 w L F ->
  forall id P a id' P' a' x, In (id, P) (w_pools w) -> In (id', P') (w_pools w) ->
  In (id, a) L -> In (id', a') L -> (id, a) <> (id', a') -> item_byte P a x -> ~ item_byte P' a' x.
Proof. exact p_disjoint. Qed.
Print Assumptions C20_live_items_disjoint.

(** Nor with the memory the program had before, the range headers, the links of
    the free items, or the mapping of any other range. *)
Theorem C20_apart_from_bookkeeping : forall e s v0 w L F, history e s v0 w L F ->
  forall id P a x, In (id, P) (w_pools w) -> In (id, a) L -> item_byte P a x ->
  mapped v0 (page e x) = false /\
  forall id' P' r', In (id', P') (w_pools w) -> In r' (range_list P') ->
    ~ (mmap_addr r' <= x < base r') /\
    (forall f, In (id', f) F -> ~ (percpu_to_free_list_ptr e P' f <= x < percpu_to_free_list_ptr e P' f + wsz e)) /\
    (mmap_addr r' <= x < mmap_addr r' + mmap_len r' -> id' = id /\ P' = P /\ base r' <= a < base r' + stride (pattr P)).
Proof. exact p_bookkeeping. Qed.
Print Assumptions C20_apart_from_bookkeeping.

(** A history with two live items and one freed, in a robust copy-on-write pool. *)
Example ex_C20 : ex1.
Proof. exact ex1_ok. Qed.
Example ex_C20_full_pool : ex2.
Proof. exact ex2_ok. Qed.
(** A 32-bit program: items of 3 bytes occupy 4; two of three have been freed. *)
Example ex_C20_narrow : exists w P, history e32 true v0 w [(7, 1056772)] [(7, 1056768); (7, 1056776)] /\
  lookup 7 (w_pools w) = Some P /\ test32 P w = true.
Proof. exact (gives_on_ok e32 os32 _ _ test32 e32_ok e32_space os32_gives). Qed.

(** ** C21 *)
Theorem C21_aligned_and_mapped : forall e s v0 w L F, history e s v0 w L F ->
  forall id P a, In (id, P) (w_pools w) -> In (id, a) L ->
  (item_len P | a) /\
  forall cpu k, 0 <= cpu < max_nr_cpus (pattr P) -> 0 <= k < item_len P ->
    mapped (w_vm w) (page e (percpu_ptr P a cpu + k)) = true /\
    exists r, In r (range_list P) /\ mmap_addr r <= percpu_ptr P a cpu + k < mmap_addr r + mmap_len r.
Proof. exact p_mapped. Qed.
Print Assumptions C21_aligned_and_mapped.

Theorem C21_one_place_per_item_and_cpu : forall e s v0 w L F, history e s v0 w L F ->
  forall id P a cpu k id' P' a' cpu' k', In (id, P) (w_pools w) -> In (id', P') (w_pools w) ->
  In (id, a) L -> In (id', a') L ->
  0 <= cpu < max_nr_cpus (pattr P) -> 0 <= k < item_len P -> 0 <= cpu' < max_nr_cpus (pattr P') -> 0 <= k' < item_len P' ->
  percpu_ptr P a cpu + k = percpu_ptr P' a' cpu' + k' -> id = id' /\ a = a' /\ cpu = cpu' /\ k = k'.
Proof. exact p_injective. Qed.
Print Assumptions C21_one_place_per_item_and_cpu.

Example ex_C21 : history e0 true v0 (after true os1) (live true os1) (freed true os1) /\
  In (7, pool_of true os1 7) (w_pools (after true os1)) /\ In (7, 1056800) (live true os1) /\
  (0 <= 1 < max_nr_cpus (pattr (pool_of true os1 7)) /\ 0 <= 15 < item_len (pool_of true os1 7)) /\
  percpu_ptr (pool_of true os1 7) 1056800 1 = 1064992.
Proof.
  destruct ex1_ok as (H & EL & _ & El & _ & _ & Ei & Es & Ec). split; [exact H|]. split; [now apply lookup_in|].
  rewrite EL, Ei, Ec. unfold percpu_ptr. rewrite Es. split; [now left|]. split; [lia|reflexivity].
Qed.

(** The overflow of size_t is not detected: with a stride of 2^34 and 2^30 + 1 CPUs
    creation and allocation succeed, and CPU 1 has no memory for the item. *)
Theorem C21_overflow_detected_refuted : exists e v0 len at_ an an' w1 w2 P a cpu,
  machine_ok e /\ address_space_ok e v0 /\ 0 <= len < wmax e /\ attr_ok e at_ /\ max_nr_cpus at_ < 2 ^ 31 /\
  run1 e (OCreate 1 true len (Some at_) an) {| w_vm := v0; w_pools := [] |} = Ok (w1, OutMade) /\
  run1 e (OMalloc 1 an') w1 = Ok (w2, OutItem a) /\
  In (1, P) (w_pools w2) /\ 0 <= cpu < max_nr_cpus (pattr P) /\
  mapped (w_vm w2) (page e (percpu_ptr P a cpu)) = false.
Proof. exact p_overflow. Qed.
Print Assumptions C21_overflow_detected_refuted.

(** In a 32-bit program the default stride is enough, with 65537 CPUs. *)
Theorem C21_narrow_overflow_detected_refuted : exists e v0 len at_ an an' w1 w2 P a cpu,
  e_wide e = false /\ machine_ok e /\ address_space_ok e v0 /\ 0 <= len < wmax e /\ attr_ok e at_ /\
  stride at_ = 0 /\ max_nr_cpus at_ = 65537 /\
  run1 e (OCreate 1 true len (Some at_) an) {| w_vm := v0; w_pools := [] |} = Ok (w1, OutMade) /\
  run1 e (OMalloc 1 an') w1 = Ok (w2, OutItem a) /\
  In (1, P) (w_pools w2) /\ 0 <= cpu < max_nr_cpus (pattr P) /\
  mapped (w_vm w2) (page e (percpu_ptr P a cpu)) = false.
Proof. exact p_overflow32. Qed.
Print Assumptions C21_narrow_overflow_detected_refuted.

(** ** C22 *)
Theorem C22_zmalloc_zeroes : forall e s v0 w L F, history e s v0 w L F ->
  forall id P an a P' v', lookup id (w_pools w) = Some P ->
  mempool_percpu_zmalloc e P an (w_vm w) = Ok (Got a, P', v') ->
  forall cpu k, 0 <= cpu < max_nr_cpus (pattr P) -> 0 <= k < item_len P ->
    byte (view e v') (percpu_ptr P a cpu + k) = 0.
Proof. exact p_zmalloc. Qed.
Print Assumptions C22_zmalloc_zeroes.

(** The call fills the item after it released the mutex: the same when any other
    calls ran, and any other items were written, between the two parts. *)
Theorem C22_zmalloc_zeroes_concurrently : forall e s v0 w L F, history e s v0 w L F ->
  forall id P a w' x, lookup id (w_pools w) = Some P -> In (id, a) L ->
  run1 e (OFill id a Zeroed) w = Ok (w', x) ->
  forall cpu k, 0 <= cpu < max_nr_cpus (pattr P) -> 0 <= k < item_len P ->
    byte (view e (w_vm w')) (percpu_ptr P a cpu + k) = 0.
Proof. exact p_fill_zero. Qed.
Print Assumptions C22_zmalloc_zeroes_concurrently.

(** A call of any of the three allocation functions is the two operations one
    after the other, and a failing one changes what the first changed. *)
Theorem C22_call_is_allocation_then_fill : forall e s v0 w L F, history e s v0 w L F ->
  forall id P c len an, lookup id (w_pools w) = Some P -> content_fits P c -> len <= item_len P ->
  match percpu_malloc e P c len an (w_vm w) with
  | Ok (Got a, P', v') => exists w1 w2, run1 e (OMalloc id an) w = Ok (w1, OutItem a) /\
      run1 e (OFill id a c) w1 = Ok (w2, OutUnit) /\ lookup id (w_pools w2) = Some P' /\ w_vm w2 = v'
  | Ok (Null err, P', v') => err = ENOMEM /\ exists w1, run1 e (OMalloc id an) w = Ok (w1, OutNull) /\
      lookup id (w_pools w1) = Some P' /\ w_vm w1 = v'
  | Abort => run1 e (OMalloc id an) w = Abort
  | Undef => False
  end.
Proof. exact p_call. Qed.
Print Assumptions C22_call_is_allocation_then_fill.

Example ex_C22 :
  match mempool_percpu_zmalloc e0 (pool_of true os1 7) (grant 0) (w_vm (after true os1)) with
  | Ok (Got a, _, v') => (a, view e0 v' (a + 8192)) = (1056784, 0)
  | _ => False
  end.
Proof. vm_compute. reflexivity. Qed.

(** ** C23 *)
Theorem C23_malloc_init_content : forall e s v0 w L F, history e s v0 w L F ->
  forall id P bs an a P' v', lookup id (w_pools w) = Some P -> Forall (fun b => 0 <= b < 256) bs ->
  mempool_percpu_malloc_init e P bs an (w_vm w) = Ok (Got a, P', v') ->
  Z.of_nat (length bs) <= item_len P /\
  forall cpu k, 0 <= cpu < max_nr_cpus (pattr P) -> 0 <= k < Z.of_nat (length bs) ->
    byte (view e v') (percpu_ptr P a cpu + k) = nth (Z.to_nat k) bs 0.
Proof. exact p_malloc_init. Qed.
Print Assumptions C23_malloc_init_content.

Theorem C23_malloc_init_concurrently : forall e s v0 w L F, history e s v0 w L F ->
  forall id P a bs w' x, lookup id (w_pools w) = Some P -> In (id, a) L ->
  Forall (fun b => 0 <= b < 256) bs -> Z.of_nat (length bs) <= item_len P ->
  run1 e (OFill id a (Bytes bs)) w = Ok (w', x) ->
  forall cpu k, 0 <= cpu < max_nr_cpus (pattr P) -> 0 <= k < Z.of_nat (length bs) ->
    byte (view e (w_vm w')) (percpu_ptr P a cpu + k) = nth (Z.to_nat k) bs 0.
Proof. exact p_fill_init. Qed.
Print Assumptions C23_malloc_init_concurrently.

Theorem C23_too_long : forall e w P bs an, item_len P < Z.of_nat (length bs) ->
  mempool_percpu_malloc_init e P bs an (w_vm w) = Ok (Null EINVAL, P, w_vm w).
Proof. exact p_too_long. Qed.
Print Assumptions C23_too_long.

Example ex_C23 :
  match mempool_percpu_malloc_init e0 (pool_of true os1 7) [5; 6] (grant 0) (w_vm (after true os1)) with
  | Ok (Got a, _, v') => (a, view e0 v' (a + 8192), view e0 v' (a + 8193)) = (1056784, 5, 6)
  | _ => False
  end.
Proof. vm_compute. reflexivity. Qed.

(** ** C24 *)
(** [x] is a byte of a live item.  No call changes it, other than filling, freeing
    or destroying that very item; and the program's writes change only what they name. *)
Theorem C24_live_items_keep_their_bytes : forall e s v0 w L F, history e s v0 w L F ->
  forall id P a x o w' y, In (id, P) (w_pools w) -> In (id, a) L -> item_byte P a x ->
  allowed e s v0 w L o -> run1 e o w = Ok (w', y) ->
  match o with
  | OFill id' a' _ => (id', a') <> (id, a)
  | OFree a' _ => a' <> a
  | ODestroy id' _ => id' <> id
  | OWrite ps => (forall z, In z (map fst ps) -> good_write e v0 w L z) /\ ~ In x (map fst ps)
  | _ => True
  end ->
  view e (w_vm w') x = view e (w_vm w) x.
Proof. exact item_frame. Qed.
Print Assumptions C24_live_items_keep_their_bytes.

(** In the first history, byte 5 of the first item on CPU 1 is 77, and byte 0 of the
    third, on CPU 1, still comes from the initial values; the second item is freed. *)
Example ex_C24 :
  view e0 (w_vm (after true os1)) (1056768 + 8192 + 5) = 77 /\ view e0 (w_vm (after true os1)) (1056800 + 8192) = 1 /\
  allowedb true (after true os1) (live true os1) (OMalloc 7 (grant 0)) = true.
Proof. vm_compute. auto. Qed.

(** ** C25 *)
Theorem C25_capacity_never_exceeded : forall e s v0 w L F, history e s v0 w L F ->
  forall id P, In (id, P) (w_pools w) -> max_nr_ranges (pattr P) <> 0 ->
  count id L <= max_nr_ranges (pattr P) * (stride (pattr P) / item_len P).
Proof. exact p_capacity. Qed.
Print Assumptions C25_capacity_never_exceeded.

Theorem C25_null_when_full : forall e s v0 w L F, history e s v0 w L F ->
  forall id P an, lookup id (w_pools w) = Some P -> max_nr_ranges (pattr P) <> 0 ->
  count id L = max_nr_ranges (pattr P) * (stride (pattr P) / item_len P) ->
  an_trim1 an = true -> an_trim2 an = true ->
  exists w', run1 e (OMalloc id an) w = Ok (w', OutNull).
Proof. exact p_full. Qed.
Print Assumptions C25_null_when_full.

Theorem C25_null_only_when_full : forall e s v0 w L F, history e s v0 w L F ->
  forall id P an w' x, lookup id (w_pools w) = Some P -> run1 e (OMalloc id an) w = Ok (w', x) -> x = OutNull ->
  count id F = 0 /\ lookup id (w_pools w') = Some P /\
  (max_nr_ranges (pattr P) <> 0 /\ count id L = max_nr_ranges (pattr P) * (stride (pattr P) / item_len P) \/
   ~ system_grants e P an (w_vm w)).
Proof. exact p_null. Qed.
Print Assumptions C25_null_only_when_full.

(** Below the limit, whatever happened before, an allocation succeeds. *)
Theorem C25_room_is_usable : forall e s v0 w L F, history e s v0 w L F ->
  forall id P an, s = true -> lookup id (w_pools w) = Some P -> system_grants e P an (w_vm w) ->
  max_nr_ranges (pattr P) = 0 \/ count id L < max_nr_ranges (pattr P) * (stride (pattr P) / item_len P) ->
  exists w' a, run1 e (OMalloc id an) w = Ok (w', OutItem a).
Proof. exact p_allocates. Qed.
Print Assumptions C25_room_is_usable.

Example ex_C25_full :
  max_nr_ranges (pattr (pool_of true os2 8)) = 1 /\
  count 8 (live true os2) =
    max_nr_ranges (pattr (pool_of true os2 8)) * (stride (pattr (pool_of true os2 8)) / item_len (pool_of true os2 8)) /\
  outcome (run1 e0 (OMalloc 8 (grant 0)) (after true os2)) = Some OutNull.
Proof. vm_compute. auto. Qed.
Example ex_C25_room : system_grants e0 (pool_of true os1 7) (grant (2 ^ 30)) (w_vm (after true os1)).
Proof.
  unfold system_grants. split; [|cbn; repeat split; discriminate]. cbv zeta. apply grants_ok. vm_compute. reflexivity.
Qed.

(** ** C26 *)
Theorem C26_last_freed_first : forall e s v0 w L F, history e s v0 w L F ->
  forall id an a w' x, find (fun i => fst i =? id) F = Some (id, a) ->
  run1 e (OMalloc id an) w = Ok (w', x) -> x = OutItem a.
Proof. exact p_lifo. Qed.
Print Assumptions C26_last_freed_first.

(** Without a freed item, the item is one that is not live, and (C20) shares no
    byte with those that are. *)
Theorem C26_fresh_otherwise : forall e s v0 w L F, history e s v0 w L F ->
  forall id an a w', find (fun i => fst i =? id) F = None ->
  run1 e (OMalloc id an) w = Ok (w', OutItem a) -> ~ In (id, a) L.
Proof. exact p_fresh. Qed.
Print Assumptions C26_fresh_otherwise.

Example ex_C26 : find (fun i => fst i =? 7) (freed true os1f) = Some (7, 1056768) /\
  outcome (run1 e0 (OMalloc 7 (grant 0)) (after true os1f)) = Some (OutItem 1056768).
Proof. vm_compute. auto. Qed.
