(** C34, C35 and C49: pool sets and attribute objects, after every history of
    calls (PoolWorld.v: [history]); the vocabulary is in PoolSetSpec.v. *)
From Coq Require Import ZArith Bool List Lia Znumtheory.
From Verif Require Import UtilsModel RseqIR PoolVM PoolModel PoolWorld PoolHist PoolProps PoolProps2 PoolProps4 PoolSetModel PoolSetSpec PoolSetProofs ExPool.
Import ListNotations.
Local Open Scope Z_scope.

(** ** C34 *)
Theorem C34_malloc_smallest_with_room : forall e s v0 w L F, history e s v0 w L F ->
  forall S len ans, set_ok S w -> 0 <= len < wmax e ->
  served e s v0 w L F S len ans false (set_percpu_malloc e S len ans w).
Proof. exact p_set_malloc_served. Qed.
Print Assumptions C34_malloc_smallest_with_room.

Theorem C34_zmalloc_smallest_with_room : forall e s v0 w L F, history e s v0 w L F ->
  forall S len ans, set_ok S w -> 0 <= len < wmax e ->
  served e s v0 w L F S len ans true (set_percpu_zmalloc e S len ans w).
Proof. exact p_set_zmalloc_served. Qed.
Print Assumptions C34_zmalloc_smallest_with_room.

(** A program that does not write items it freed never sees an abort. *)
Theorem C34_no_false_alarm : forall e v0 w L F, history e true v0 w L F ->
  forall S len ans, set_ok S w -> 0 <= len < wmax e ->
  (forall o, an_trim1 (ans o) = true /\ an_trim2 (ans o) = true) ->
  set_percpu_malloc e S len ans w <> Abort /\ set_percpu_zmalloc e S len ans w <> Abort.
Proof. exact p_set_no_alarm. Qed.
Print Assumptions C34_no_false_alarm.

(** A pool can be added exactly when the set has none with items of the same length. *)
Theorem C34_add_pool : forall e s v0 w L F S id P, history e s v0 w L F -> set_ok S w -> lookup id (w_pools w) = Some P ->
  ((exists o id' P', member S w o id' P' /\ item_len P' = item_len P) -> set_add_pool S id P = (-1, Some EBUSY, S)) /\
  ((forall o id' P', member S w o id' P' -> item_len P' <> item_len P) ->
   exists S', set_add_pool S id P = (0, None, S') /\ set_ok S' w /\
     (forall o id' P', member S' w o id' P' <-> member S w o id' P' \/ o = item_order P /\ id' = id /\ P' = P)).
Proof. exact p_set_add. Qed.
Print Assumptions C34_add_pool.

(** [set_ok] is what the calls keep, unless the program destroys a pool of the set. *)
Theorem C34_entries_are_pools : forall e,
  (forall w, set_ok set_create w) /\
  (forall s v0 w L F S o w' x, history e s v0 w L F -> set_ok S w -> allowed e s v0 w L o ->
     run1 e o w = Ok (w', x) -> (forall id an o', o = ODestroy id an -> S o' <> Some id) -> set_ok S w').
Proof. intros e. split; [intros w o id H; discriminate H|exact (p_set_kept e)]. Qed.
Print Assumptions C34_entries_are_pools.

(** Destroying the set destroys its pools and no other, and reports only what
    destroying one of its pools would report. *)
Theorem C34_destroy : forall e s v0 w L F, history e s v0 w L F -> forall S ans, set_ok S w ->
  match set_destroy e S ans w with
  | Ok (ret, S', w') => ret = 0 /\ exists L' F', history e s v0 w' L' F' /\
      (forall id, in_set S id -> lookup id (w_pools w') = None) /\
      (forall id, ~ in_set S id -> lookup id (w_pools w') = lookup id (w_pools w)) /\
      (forall i, In i L' <-> In i L /\ ~ in_set S (fst i)) /\ (forall i, In i F' <-> In i F /\ ~ in_set S (fst i))
  | Abort => exists o id P w1 L1 F1, S o = Some id /\ lookup id (w_pools w) = Some P /\
      history e s v0 w1 L1 F1 /\ lookup id (w_pools w1) = Some P /\ (forall a, In (id, a) L1 <-> In (id, a) L) /\
      run1 e (ODestroy id (ans o)) w1 = Abort
  | Undef => False
  end.
Proof. exact p_set_destroy. Qed.
Print Assumptions C34_destroy.

Theorem C34_destroy_after_all_freed : forall e v0 w L F, history e true v0 w L F -> forall S ans, set_ok S w ->
  (forall id a, in_set S id -> ~ In (id, a) L) -> exists S' w', set_destroy e S ans w = Ok (0, S', w').
Proof. exact p_set_destroy_ok. Qed.
Print Assumptions C34_destroy_after_all_freed.

(** A set with the full pool of [os2] (items of 4096 bytes) and a pool of 8192
    bytes that has room: the larger one serves, and only that length. *)
Definition os4 : list op := os2 ++ [ OCreate 9 false 8192 (Some (attrs false COW_ZERO 1)) (grant 2097152) ].
Definition set4 : pset :=
  snd (set_add_pool (snd (set_add_pool set_create 8 (pool_of true os4 8))) 9 (pool_of true os4 9)).
Definition gives (r : res (got * world)) : option (Z + Z) :=
  match r with Ok (Got a, _) => Some (inl a) | Ok (Null e, _) => Some (inr e) | _ => None end.
Lemma ex_members : forall o, set4 o = if o =? 13 then Some 9 else if o =? 12 then Some 8 else None.
Proof.
  intros o. unfold set4, set_add_pool, set_create. replace (item_order (pool_of true os4 8)) with 12 by (vm_compute; reflexivity).
  replace (item_order (pool_of true os4 9)) with 13 by (vm_compute; reflexivity). cbn. reflexivity.
Qed.
Lemma ex_lookup : forall id, match lookup id (w_pools (after true os4)) with Some _ => true | None => false end = true ->
  lookup id (w_pools (after true os4)) = Some (pool_of true os4 id).
Proof. Transparent pool_of. unfold pool_of. Opaque pool_of. intros id. destruct (lookup id (w_pools (after true os4))); [reflexivity|discriminate]. Qed.
Example ex_C34 : history e0 true v0 (after true os4) (live true os4) (freed true os4) /\ set_ok set4 (after true os4) /\
  member set4 (after true os4) 12 8 (pool_of true os4 8) /\ member set4 (after true os4) 13 9 (pool_of true os4 9) /\
  gives (set_percpu_malloc e0 set4 100 grant (after true os4)) = Some (inl 2105344) /\
  gives (set_percpu_zmalloc e0 set4 8193 grant (after true os4)) = Some (inr ENOMEM) /\
  fst (set_add_pool set4 8 (pool_of true os4 8)) = (-1, Some EBUSY).
Proof.
  assert (H8 : lookup 8 (w_pools (after true os4)) = Some (pool_of true os4 8)) by (apply ex_lookup; vm_compute; reflexivity).
  assert (H9 : lookup 9 (w_pools (after true os4)) = Some (pool_of true os4 9)) by (apply ex_lookup; vm_compute; reflexivity).
  assert (E12 : item_order (pool_of true os4 8) = 12) by (vm_compute; reflexivity).
  assert (E13 : item_order (pool_of true os4 9) = 13) by (vm_compute; reflexivity).
  split; [apply play_history; vm_compute; reflexivity|]. split.
  { intros o id. rewrite ex_members. destruct (o =? 13) eqn:A; [|destruct (o =? 12) eqn:B; [|discriminate]]; intros E; injection E as <-.
    - exists (pool_of true os4 9). split; [exact H9|]. apply Z.eqb_eq in A. congruence.
    - exists (pool_of true os4 8). split; [exact H8|]. apply Z.eqb_eq in B. congruence. }
  split; [split; [rewrite ex_members; reflexivity|exact H8]|]. split; [split; [rewrite ex_members; reflexivity|exact H9]|].
  split; [vm_compute; reflexivity|]. split; vm_compute; reflexivity.
Qed.

(** ** C35
    The function passes [zeroed] along with the content (src/rseq-mempool.c:1293),
    and a zeroed allocation ignores the content (1116-1119). *)
Theorem C35_malloc_init_zeroes_instead : forall e s v0 w L F, history e s v0 w L F ->
  forall S bs ans, set_ok S w -> Z.of_nat (length bs) < wmax e ->
  served e s v0 w L F S (Z.of_nat (length bs)) ans true (set_percpu_malloc_init e S bs ans w).
Proof. exact p_set_malloc_init_served. Qed.
Print Assumptions C35_malloc_init_zeroes_instead.

Definition first_byte (e : env) (r : res (got * world)) : option (Z * Z) :=
  match r with Ok (Got a, w) => Some (a, byte (view e (w_vm w)) a) | _ => None end.
Lemma ex_zeroed : first_byte e0 (set_percpu_malloc_init e0 set4 [1; 2; 3] grant (after true os4)) = Some (2105344, 0).
Proof. vm_compute. reflexivity. Qed.
Lemma first_byte_inv : forall e r a b, first_byte e r = Some (a, b) -> exists w', r = Ok (Got a, w') /\ byte (view e (w_vm w')) a = b.
Proof. intros e r a b H. destruct r as [[[x|x] w']| |]; try discriminate. cbn in H. injection H as <- <-. eauto. Qed.
Lemma same_pool : forall (x : option pool) P Q, x = Some P -> x = Some Q -> P = Q.
Proof. intros x P Q -> H. now injection H. Qed.
Theorem C35_malloc_init_content_refuted : exists e v0 w L F S bs ans a w' cpu k,
  history e true v0 w L F /\ set_ok S w /\ Forall (fun b => 0 <= b < 256) bs /\
  set_percpu_malloc_init e S bs ans w = Ok (Got a, w') /\
  (forall o id P, member S w o id P -> 0 <= cpu < max_nr_cpus (pattr P)) /\ 0 <= k < Z.of_nat (length bs) /\
  forall o id P, member S w o id P -> byte (view e (w_vm w')) (percpu_ptr P a cpu + k) <> nth (Z.to_nat k) bs 0.
Proof.
  destruct ex_C34 as (HH & HS & [_ M8] & [_ M9] & _). destruct (first_byte_inv _ _ _ _ ex_zeroed) as (w' & E1 & E2).
  exists e0, v0, (after true os4), (live true os4), (freed true os4), set4, [1; 2; 3], grant, 2105344, w', 0, 0.
  split; [exact HH|]. split; [exact HS|]. split; [repeat constructor; lia|]. split; [exact E1|]. split; [|split; [cbn; lia|]].
  - intros o id P [Ho Hl]. rewrite ex_members in Ho.
    assert (C8 : max_nr_cpus (pattr (pool_of true os4 8)) = 2) by (vm_compute; reflexivity).
    assert (C9 : max_nr_cpus (pattr (pool_of true os4 9)) = 2) by (vm_compute; reflexivity).
    assert (Hid : id = 9 \/ id = 8).
    { clear - Ho. destruct (o =? 13); [left; congruence|]. destruct (o =? 12); [right; congruence|discriminate Ho]. }
    destruct Hid as [-> | ->].
    + pose proof (same_pool _ _ _ M9 Hl) as E. rewrite <- E. rewrite C9. clear. lia.
    + pose proof (same_pool _ _ _ M8 Hl) as E. rewrite <- E. rewrite C8. clear. lia.
  - intros o id P _. unfold percpu_ptr. replace (2105344 + stride (pattr P) * 0 + 0) with 2105344 by lia. rewrite E2. discriminate.
Qed.
Print Assumptions C35_malloc_init_content_refuted.

(** ** C49 *)
Theorem C49_setters_documented : forall cs h x o, h x = Some o -> exists o', run_setters h cs x = Some o' /\
  forall f, (f = FPolicy -> forall g p, ~ In (x, SInit g p) cs) -> get o' f = last_set documented (on_object x cs) f (get o f).
Proof. exact p_setters_documented. Qed.
Print Assumptions C49_setters_documented.

Theorem C49_setters_exactly : forall cs h x o, h x = Some o -> exists o', run_setters h cs x = Some o' /\
  forall f, get o' f = last_set actual (on_object x cs) f (get o f).
Proof. exact p_setters. Qed.
Print Assumptions C49_setters_exactly.

Theorem C49_results : forall c, (forall x, exists y, call_setter c (Some x) = (0, None, Some y)) /\
  call_setter c None = (-1, Some EINVAL, None).
Proof. intros c. split; [apply p_setter_result|apply p_setter_null]. Qed.
Print Assumptions C49_results.

(** rseq_mempool_attr_set_init also resets the populate policy, which its
    documentation does not say. *)
Theorem C49_only_documented_refuted : exists h cs x o o',
  h x = Some o /\ run_setters h cs x = Some o' /\ get o' FPolicy <> last_set documented (on_object x cs) FPolicy (get o FPolicy).
Proof.
  exists (fun _ => Some attr_create), [(1, SPolicy COW_ZERO); (1, SInit 5 6)], 1, attr_create.
  eexists. split; [reflexivity|]. split; [reflexivity|]. cbn. discriminate.
Qed.
Print Assumptions C49_only_documented_refuted.

Theorem C49_max_nr_cpus : forall e named len at_ an v P v', 0 <= len <= 2 ^ (word_bits (e_wide e) - 1) -> machine_ok e -> address_space_ok e v ->
  attr_ok e (attr_of at_) -> fits e (attr_of at_) -> mempool_create e named len at_ an v = Ok (Made P, v') ->
  mempool_get_max_nr_cpus (Some P) =
  if type (attr_of at_) =? TYPE_PERCPU then (want_cpus e (attr_of at_), None) else (-1, Some EINVAL).
Proof. exact p_max_nr_cpus. Qed.
Print Assumptions C49_max_nr_cpus.

(** A new object has the defaults: it asks for what a NULL argument asks for, and has
    no function and no argument for it. *)
Theorem C49_new_object : (forall f, get attr_create f = 0) /\
  forall e named len an v, mempool_create e named len (Some (a_attr attr_create)) an v = mempool_create e named len None an v.
Proof. split; [intros []; reflexivity|reflexivity]. Qed.
Print Assumptions C49_new_object.

(** Two objects, and calls on both. *)
Definition read_back (h : objects) (x : Z) (fs : list field) : list Z :=
  match h x with Some o => map (get o) fs | None => [] end.
Example ex_C49 :
  let h : objects := fun x => if x <? 3 then Some attr_create else None in
  let h' := run_setters h [(1, SPercpu 8192 4); (2, SGlobal 4096); (1, SPoison 17); (1, SRobust); (1, SPercpu 0 7); (2, SPolicy COW_ZERO)] in
  read_back h' 1 [FType; FStride; FCpus; FPoisonSet; FPoison; FRobust; FPolicy] = [TYPE_PERCPU; 0; 7; 1; 17; 1; COW_INIT] /\
  read_back h' 2 [FType; FStride; FCpus; FPoisonSet; FRobust; FPolicy] = [TYPE_GLOBAL; 4096; 0; 0; 0; COW_ZERO].
Proof. split; reflexivity. Qed.
