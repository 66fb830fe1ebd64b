(** Model of src/rseq-utils.h.  Executable definitions only, no proofs.

    Unsigned C integers of [w] bits are [Z] values in [0, 2^w); every operation
    that can wrap in C is followed by an explicit reduction ([u64], [u32], [uw]).
    [wide] is RSEQ_BITS_PER_LONG == 64: unsigned long, size_t and uintptr_t have 64
    bits, else 32.
    Values handed to the functions are assumed in range by the theorems. *)
From Coq Require Import ZArith Bool List.
Import ListNotations.
Local Open Scope Z_scope.

Definition u64 (x : Z) : Z := x mod 2 ^ 64.
Definition u32 (x : Z) : Z := x mod 2 ^ 32.

Definition word_bits (wide : bool) : Z := if wide then 64 else 32.
Definition uw (wide : bool) (x : Z) : Z := x mod 2 ^ word_bits wide.

(** Bitwise complement of an unsigned long (C operator ~). *)
Definition notw (wide : bool) (x : Z) : Z := 2 ^ word_bits wide - 1 - x.

(** src/rseq-utils.h:15-16  rseq_align(v, align):
    ((v) + (align - 1)) & ~(align - 1), on operands of type unsigned long. *)
Definition rseq_align (wide : bool) (v align : Z) : Z :=
  let mask := uw wide (align - 1) in
  Z.land (uw wide (v + mask)) (notw wide mask).

(** One stage of the binary search: if no bit of [mask] is set in x, shift x
    left by s and subtract s from r (src/rseq-utils.h:26-29 and following). *)
Definition fls_stage (w mask s : Z) (xr : Z * Z) : Z * Z :=
  let '(x, r) := xr in
  if Z.land x mask =? 0 then ((x * 2 ^ s) mod 2 ^ w, r - s) else (x, r).

(** src/rseq-utils.h:19-51  rseq_fls_u64 *)
Definition rseq_fls_u64 (x : Z) : Z :=
  if x =? 0 then 0
  else
    let st := (x, 64) in
    let st := fls_stage 64 0xFFFFFFFF00000000 32 st in
    let st := fls_stage 64 0xFFFF000000000000 16 st in
    let st := fls_stage 64 0xFF00000000000000 8 st in
    let st := fls_stage 64 0xF000000000000000 4 st in
    let st := fls_stage 64 0xC000000000000000 2 st in
    let st := fls_stage 64 0x8000000000000000 1 st in
    snd st.

(** src/rseq-utils.h:54-81  rseq_fls_u32 *)
Definition rseq_fls_u32 (x : Z) : Z :=
  if x =? 0 then 0
  else
    let st := (x, 32) in
    let st := fls_stage 32 0xFFFF0000 16 st in
    let st := fls_stage 32 0xFF000000 8 st in
    let st := fls_stage 32 0xF0000000 4 st in
    let st := fls_stage 32 0xC0000000 2 st in
    let st := fls_stage 32 0x80000000 1 st in
    snd st.

(** src/rseq-utils.h:84-91  rseq_fls_ulong; [wide] is RSEQ_BITS_PER_LONG == 64. *)
Definition rseq_fls_ulong (wide : bool) (x : Z) : Z :=
  if wide then rseq_fls_u64 x else rseq_fls_u32 x.

(** src/rseq-utils.h:98-104  rseq_get_count_order_ulong (int result). *)
Definition rseq_get_count_order_ulong (wide : bool) (x : Z) : Z :=
  if x =? 0 then -1 else rseq_fls_ulong wide (x - 1).

(** src/rseq-utils.h:109-116  rseq_get_page_len; [sc] is sysconf(_SC_PAGE_SIZE). *)
Definition rseq_get_page_len (sc : Z) : Z := if sc <? 0 then 4096 else sc.

(** src/rseq-utils.h:119-122  rseq_hweight_ulong (__builtin_popcountl),
    modelled as the sum of the bits. *)
Definition rseq_hweight_ulong (wide : bool) (v : Z) : Z :=
  fold_right (fun i acc => (if Z.testbit v (Z.of_nat i) then 1 else 0) + acc) 0 (seq 0 (Z.to_nat (word_bits wide))).

(** src/rseq-utils.h:125-128  is_pow2: !(x & (x - 1)) on uint64_t. *)
Definition is_pow2 (x : Z) : bool := Z.land x (u64 (x - 1)) =? 0.

(** src/rseq-utils.h:135-138  offset_align: (alignment - p) & (alignment - 1),
    on size_t operands.  The result is smaller than the alignment; its conversion to
    the signed off_t and back to size_t is the identity. *)
Definition offset_align (wide : bool) (p alignment : Z) : Z :=
  Z.land (uw wide (alignment - p)) (uw wide (alignment - 1)).
