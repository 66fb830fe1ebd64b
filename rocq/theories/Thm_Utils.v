(** C41: size-class arithmetic is exact (src/rseq-utils.h). *)
From Coq Require Import ZArith Bool List Lia.
From Verif Require Import UtilsModel UtilsLemmas.
Import ListNotations.
Local Open Scope Z_scope.

(** rseq_get_count_order_ulong: -1 for 0, else the least order o >= 0 with x <= 2^o. *)
Theorem C41_count_order :
  forall wide x, 0 <= x < 2 ^ word_bits wide ->
  (x = 0 -> rseq_get_count_order_ulong wide x = -1) /\
  (x <> 0 ->
     0 <= rseq_get_count_order_ulong wide x <= word_bits wide /\
     x <= 2 ^ rseq_get_count_order_ulong wide x /\
     (forall o, 0 <= o -> x <= 2 ^ o -> rseq_get_count_order_ulong wide x <= o)).
Proof. exact count_order_full. Qed.
Print Assumptions C41_count_order.

Example C41_count_order_ex :
  map (rseq_get_count_order_ulong true) [0; 1; 2; 3; 4; 5; 4096; 4097; 2 ^ 64 - 1]
  = [-1; 0; 1; 2; 2; 3; 12; 13; 64].
Proof. reflexivity. Qed.

(** rseq_fls_u64 / rseq_fls_u32: 1-based position of the highest set bit, 0 for 0. *)
Theorem C41_fls_u64 :
  forall x, 0 <= x < 2 ^ 64 ->
  (x = 0 -> rseq_fls_u64 x = 0) /\
  (x <> 0 -> 1 <= rseq_fls_u64 x <= 64 /\
     Z.testbit x (rseq_fls_u64 x - 1) = true /\
     (forall i, rseq_fls_u64 x - 1 < i -> Z.testbit x i = false)).
Proof. exact fls_u64_full. Qed.
Print Assumptions C41_fls_u64.

Theorem C41_fls_u32 :
  forall x, 0 <= x < 2 ^ 32 ->
  (x = 0 -> rseq_fls_u32 x = 0) /\
  (x <> 0 -> 1 <= rseq_fls_u32 x <= 32 /\
     Z.testbit x (rseq_fls_u32 x - 1) = true /\
     (forall i, rseq_fls_u32 x - 1 < i -> Z.testbit x i = false)).
Proof. exact fls_u32_full. Qed.
Print Assumptions C41_fls_u32.

Example C41_fls_ex :
  (rseq_fls_u64 0x8000000000000000, rseq_fls_u64 1, rseq_fls_u32 0x00010000, rseq_fls_u64 0)
  = (64, 1, 17, 0).
Proof. reflexivity. Qed.

(** is_pow2 holds exactly for 0 and the powers of two. *)
Theorem C41_is_pow2 :
  forall x, 0 <= x < 2 ^ 64 ->
  (is_pow2 x = true <-> x = 0 \/ exists k, 0 <= k < 64 /\ x = 2 ^ k).
Proof. exact is_pow2_correct. Qed.
Print Assumptions C41_is_pow2.

Example C41_is_pow2_ex : map is_pow2 [0; 1; 2; 3; 65536; 65537; 2 ^ 63]
  = [true; true; true; false; true; false; true].
Proof. reflexivity. Qed.

(** offset_align: the least non-negative offset that makes p aligned. *)
Theorem C41_offset_align :
  forall wide p k, 0 <= p < 2 ^ word_bits wide -> 0 <= k < word_bits wide ->
  0 <= offset_align wide p (2 ^ k) < 2 ^ k /\
  (2 ^ k | p + offset_align wide p (2 ^ k)) /\
  (forall o, 0 <= o -> (2 ^ k | p + o) -> offset_align wide p (2 ^ k) <= o).
Proof. exact (fun wide p k _ Hk => offset_align_correct wide p k Hk). Qed.
Print Assumptions C41_offset_align.

Example C41_offset_align_ex :
  (offset_align true 0x12345000 65536, offset_align false 0xFFFF5000 65536, offset_align false 0x10000 65536) = (0xb000, 0xb000, 0).
Proof. reflexivity. Qed.

(** rseq_align: the least multiple of 2^k that is >= v, when no overflow occurs. *)
Theorem C41_align :
  forall wide v k, 0 <= v -> 0 <= k < word_bits wide -> v + 2 ^ k <= 2 ^ word_bits wide ->
  (2 ^ k | rseq_align wide v (2 ^ k)) /\ v <= rseq_align wide v (2 ^ k) /\
  (forall a, (2 ^ k | a) -> v <= a -> rseq_align wide v (2 ^ k) <= a).
Proof. exact rseq_align_full. Qed.
Print Assumptions C41_align.

Example C41_align_ex : map (fun v => rseq_align false v 4096) [0; 1; 4096; 4097; 8192]
  = [0; 4096; 4096; 8192; 8192].
Proof. reflexivity. Qed.

(** rseq_hweight_ulong counts the set bits; in particular it is 0 only for 0. *)
Theorem C41_hweight :
  forall wide v, 0 <= v < 2 ^ word_bits wide ->
  rseq_hweight_ulong wide v =
    Z.of_nat (length (filter (fun i => Z.testbit v (Z.of_nat i)) (seq 0 (Z.to_nat (word_bits wide))))) /\
  (rseq_hweight_ulong wide v = 0 <-> v = 0).
Proof. exact (fun wide v Hv => conj (hweight_correct wide v) (hweight_zero wide v Hv)). Qed.
Print Assumptions C41_hweight.

Example C41_hweight_ex : map (rseq_hweight_ulong true) [0; 1; 255; 2 ^ 64 - 1] = [0; 1; 8; 64].
Proof. reflexivity. Qed.
