(** C32, C33, C36, C37: creation and destruction of memory pools. *)
From Coq Require Import ZArith Bool List Lia Znumtheory.
From Verif Require Import UtilsModel RseqIR PoolVM PoolModel PoolWorld PoolHist PoolProps PoolProps2 PoolProps3 PoolProps4 ExPoolBig ExPool.
Import ListNotations.
Local Open Scope Z_scope.

(** ** C32 *)
(** [accepted e len a o]: the documented conditions on the arguments, items being
    rounded to 2^o bytes; [completed e a]: the documented defaults (PoolWorld.v). *)
Theorem C32_others_give_EINVAL : forall e named len at_ an v, 0 <= len <= 2 ^ (word_bits (e_wide e) - 1) -> machine_ok e -> attr_ok e (attr_of at_) ->
  (forall o, ~ accepted e len (attr_of at_) o) -> mempool_create e named len at_ an v = Ok (Failed EINVAL, v).
Proof. exact p_create_einval. Qed.
Print Assumptions C32_others_give_EINVAL.

Theorem C32_created_pool : forall e named len at_ an v, 0 <= len <= 2 ^ (word_bits (e_wide e) - 1) -> machine_ok e -> address_space_ok e v ->
  attr_ok e (attr_of at_) -> fits e (attr_of at_) ->
  match mempool_create e named len at_ an v with
  | Ok (Made P, v') => exists o, accepted e len (attr_of at_) o /\ item_len P = 2 ^ o /\ pattr P = completed e (attr_of at_) /\
      free_list_head P = 0 /\ nr_ranges P = 1 /\
      (forall a, mapped v (page e a) = true -> mapped v' (page e a) = true /\ view e v' a = view e v a)
  | Ok (Failed err, v') => (err = EINVAL /\ v' = v /\ forall o, ~ accepted e len (attr_of at_) o) \/
      (err = ENOMEM /\ (an_calloc an = false \/ named = true /\ an_strdup an = false \/
         exists P, pattr P = completed e (attr_of at_) /\ ~ system_grants e P an v) /\
       forall a, mapped v (page e a) = true -> mapped v' (page e a) = true /\ view e v' a = view e v a)
  | Abort => an_trim1 an = false \/ an_trim2 an = false
  | Undef => False
  end.
Proof. exact p_create_made. Qed.
Print Assumptions C32_created_pool.

(** The code does not validate lengths over 2^63 (2^31 in a 32-bit program): it
    computes 1UL << 64 (32). *)
Theorem C32_every_length_validated_refuted : forall e, exists len, 0 <= len < wmax e /\
  forall named at_ an v, mempool_create e named len at_ an v = Undef.
Proof. exact p_huge_len. Qed.
Print Assumptions C32_every_length_validated_refuted.

(** A stride of 2^63 passes the validation and makes creation abort. *)
Theorem C32_accepted_does_not_abort_refuted : exists e v at_,
  machine_ok e /\ address_space_ok e v /\ attr_ok e at_ /\ (exists o, accepted e 64 at_ o) /\
  forall an, an_calloc an = true -> mempool_create e false 64 (Some at_) an v = Abort.
Proof. exact p_abort. Qed.
Print Assumptions C32_accepted_does_not_abort_refuted.

Example ex_C32 : accepted e0 50 (attrs true COW_INIT 0) 6 /\ attr_ok e0 (attrs true COW_INIT 0) /\ fits e0 (attrs true COW_INIT 0) /\
  (forall o, ~ accepted e0 50 {| init_set := false; robust_set := false; type := TYPE_PERCPU; stride := 12288;
     max_nr_cpus := 0; max_nr_ranges := 0; poison_set := false; poison := 0; populate_policy := COW_ZERO |} o).
Proof.
  split; [|split; [constructor; cbn; try lia; unfold TYPE_PERCPU; auto|split; [reflexivity|]]].
  - split; [cbn; lia|]. split; [lia|]. split.
    { intros k Hk Hl. destruct (Z_lt_le_dec k 6); [|lia]. assert (2 ^ k <= 2 ^ 5) by (apply Z.pow_le_mono_r; lia). lia. }
    split; [left; reflexivity|]. split; [right; cbn; lia|]. split; [cbn; lia|]. split; [cbn; lia|]. exists 13. reflexivity.
  - intros o (_ & _ & _ & _ & _ & _ & _ & k & Hk). cbn in Hk.
    destruct (Z_lt_le_dec k 14); [|assert (2 ^ 14 <= 2 ^ k) by (apply Z.pow_le_mono_r; lia); lia].
    destruct (Z_lt_le_dec k 0); [rewrite Z.pow_neg_r in Hk by lia; lia|].
    assert (2 ^ k <= 2 ^ 13) by (apply Z.pow_le_mono_r; lia). lia.
Qed.

(** ** C33 *)
Theorem C33_aligned_mapping : forall e v len k hdr choice t1 t2, machine_ok e -> address_space_ok e v ->
  0 <= k < word_bits (e_wide e) -> e_page e <= 2 ^ k -> e_page e <= len -> (2 ^ k | len) -> 0 <= hdr -> (e_page e | hdr) -> hdr + len + 2 ^ k < wmax e ->
  match aligned_mmap_anonymous e v (e_page e) len (2 ^ k) hdr choice t1 t2 with
  | Ok (Some (b, h), v') =>
    (2 ^ k | b) /\ h = b - hdr /\ 0 < h /\
    (forall a, h <= a < h + hdr + len -> mapped v (page e a) = false /\ mapped v' (page e a) = true /\ view e v' a = 0) /\
    (forall a, ~ h <= a < h + hdr + len -> mapped v' (page e a) = mapped v (page e a)) /\
    (forall a, mapped v (page e a) = true -> view e v' a = view e v a)
  | Ok (None, v') => v' = v /\ mmap_anon e v (hdr + len + 2 ^ k - e_page e) choice = None
  | Abort => t1 = false \/ t2 = false
  | Undef => False
  end.
Proof. exact p_aligned_mmap. Qed.
Print Assumptions C33_aligned_mapping.

Theorem C33_other_arguments_refused : forall e v len al hdr choice t1 t2, machine_ok e ->
  0 < len < wmax e -> 0 < al < wmax e -> 0 <= hdr < wmax e ->
  ~ (e_page e <= len /\ e_page e <= al /\ (exists k, al = 2 ^ k) /\ (al | len) /\ (e_page e | hdr)) ->
  aligned_mmap_anonymous e v (e_page e) len al hdr choice t1 t2 = Ok (None, v).
Proof. exact p_aligned_mmap_refuses. Qed.
Print Assumptions C33_other_arguments_refused.

(** The kernel maps at 5 pages; 16 pages aligned on 8, after a header of one, are
    kept at 8 pages. *)
Example ex_C33 : machine_ok e0 /\ address_space_ok e0 v0 /\
  match aligned_mmap_anonymous e0 v0 4096 65536 32768 4096 (Some 1069056) true true with
  | Ok (Some p, _) => p = (1081344, 1077248)
  | _ => False
  end.
Proof. split; [exact machine0|]. split; [exact space0|]. vm_compute. reflexivity. Qed.

(** ** C36 *)
Theorem C36_destroy_unmaps : forall e s v0 w L F, history e s v0 w L F ->
  forall id P an w' x, lookup id (w_pools w) = Some P ->
  (forall a, an_munmap an a = true) -> run1 e (ODestroy id an) w = Ok (w', x) ->
  x = OutRet 0 /\ lookup id (w_pools w') = None /\
  (forall r a, In r (range_list P) -> mmap_addr r <= a < mmap_addr r + mmap_len r -> mapped (w_vm w') (page e a) = false).
Proof. exact p_destroy_unmaps. Qed.
Print Assumptions C36_destroy_unmaps.

Example ex_C36 : ex2 /\ outcome (run1 e0 (ODestroy 8 (grant 0)) (after true os2)) = Some (OutRet 0).
Proof. split; [exact ex2_ok|]. vm_compute. reflexivity. Qed.

(** A failure of munmap is not reported: 0 is returned, and the memory stays mapped. *)
Theorem C36_unmap_failure_reported_refuted : exists e v0 w L F id P an w',
  history e true v0 w L F /\ lookup id (w_pools w) = Some P /\ run1 e (ODestroy id an) w = Ok (w', OutRet 0) /\
  exists r a, In r (range_list P) /\ mmap_addr r <= a < mmap_addr r + mmap_len r /\ mapped (w_vm w') (page e a) = true.
Proof. exact destroy_unreported_example. Qed.
Print Assumptions C36_unmap_failure_reported_refuted.

(** ** C37 *)
Theorem C37_child_sees_only_headers : forall e s v0 w L F, history e s v0 w L F ->
  forall id P, lookup id (w_pools w) = Some P -> populate_policy (pattr P) = COW_INIT ->
  forall r a, In r (range_list P) -> mmap_addr r <= a < mmap_addr r + mmap_len r ->
    mapped (fork e (w_vm w)) (page e a) = (a <? base r).
Proof. exact p_child_headers. Qed.
Print Assumptions C37_child_sees_only_headers.

Theorem C37_destroy_in_child : forall e s v0 w L F, history e s v0 w L F ->
  forall id P an, lookup id (w_pools w) = Some P -> populate_policy (pattr P) = COW_INIT ->
  let child := {| w_vm := fork e (w_vm w); w_pools := w_pools w |} in
  run1 e (ODestroy id an) child <> Undef /\
  ((robust_set (pattr P) = false \/ forall a, ~ In (id, a) L) -> (forall a, an_munmap an a = true) ->
   exists w', run1 e (ODestroy id an) child = Ok (w', OutRet 0) /\
     lookup id (w_pools w') = None /\
     (forall a, (exists r, In r (range_list P) /\ mmap_addr r <= a < mmap_addr r + mmap_len r) ->
        mapped (w_vm w') (page e a) = false) /\
     (forall a, ~ (exists r, In r (range_list P) /\ mmap_addr r <= a < mmap_addr r + mmap_len r) ->
        mapped (w_vm w') (page e a) = mapped (fork e (w_vm w)) (page e a) /\ view e (w_vm w') a = view e (fork e (w_vm w)) a)).
Proof. exact p_child_destroy. Qed.
Print Assumptions C37_destroy_in_child.

Example ex_C37 : ex1f /\
  outcome (run1 e0 (ODestroy 7 (grant 0)) {| w_vm := fork e0 (w_vm (after true os1f)); w_pools := w_pools (after true os1f) |})
    = Some (OutRet 0).
Proof. split; [exact ex1f_ok|]. vm_compute. reflexivity. Qed.

(** A robust pool with a live item cannot be destroyed in the child: the leak check aborts. *)
Theorem C37_destroy_always_possible_in_child_refuted : exists e v0 w L F id P an,
  history e true v0 w L F /\ lookup id (w_pools w) = Some P /\ populate_policy (pattr P) = COW_INIT /\
  run1 e (ODestroy id an) {| w_vm := fork e (w_vm w); w_pools := w_pools w |} = Abort.
Proof. exact child_abort_example. Qed.
Print Assumptions C37_destroy_always_possible_in_child_refuted.
