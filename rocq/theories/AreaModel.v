(** The per-thread area of librseq as memory: where the compiler and the thread
    library put it, how rseq_init() and rseq_get_abi() compute its address, and
    which bytes of it rseq(2) hands to the kernel.  Registration itself is in
    RegModel.v, the layout of the structure in LayoutModel.v.  Definitions only. *)
From Coq Require Import ZArith Bool List.
From Verif Require Import LayoutModel RegModel.
Import ListNotations.
Local Open Scope Z_scope.

(** * The object *)

(** End of the last member; the flexible array "end" adds nothing. *)
Fixpoint end_in (l : list (member * (Z * Z))) (a : Z) : Z :=
  match l with
  | [] => a
  | (_, (sz, al)) :: l => end_in l (a + pad a al + sz)
  end.
(** struct rseq_abi, abi.h:59-174: __attribute__((aligned(4 * sizeof(__u64)))) on
    the type rounds its size up. *)
Definition struct_align : Z := 32.
Definition struct_size (b : build) : Z :=
  let a := end_in (members b) 0 in a + pad a struct_align.
(** __rseq_abi, src/rseq.c:73-76: aligned(RSEQ_THREAD_AREA_ALLOC_SIZE) on the
    variable constrains its address; by the rules of C it leaves its size alone. *)
Definition var_align : Z := 1024.
Definition var_size (b : build) : Z := struct_size b.

(** * Thread-local storage *)

(** tls_model("initial-exec"): one offset from the thread pointer for the whole
    program.  [others]: the other thread-local objects of the program and of its
    libraries, each with its offset from the thread pointer and its size. *)
Record program := {
  p_build : build;
  p_tp : nat -> Z;            (* rseq_thread_pointer() in each thread *)
  p_tprel : Z;                (* the linker's and loader's offset of __rseq_abi *)
  p_others : list (Z * Z) }.

(** Modulus of uintptr_t. *)
Definition word (b : build) : Z := 2 ^ (8 * Z.of_nat (ptr_bytes b)).
(** Conversion to ptrdiff_t. *)
Definition to_ptrdiff (b : build) (z : Z) : Z :=
  (z + word b / 2) mod word b - word b / 2.

(** &__rseq_abi as evaluated by thread [t] (the compiler's code for an
    initial-exec variable: thread pointer plus offset). *)
Definition area (p : program) (t : nat) : Z := (p_tp p t + p_tprel p) mod word (p_build p).

(** src/rseq.c:282, rseq_offset = (uintptr_t)&__rseq_abi -
    (uintptr_t)rseq_thread_pointer(), as evaluated by thread [t]. *)
Definition offset_stored (p : program) (t : nat) : Z :=
  to_ptrdiff (p_build p) ((area p t - p_tp p t) mod word (p_build p)).

(** rseq_get_abi(), include/rseq/rseq.h:84-88, in thread [t] that reads [off] from
    rseq_offset: the sum is a uintptr_t. *)
Definition get_abi (p : program) (t : nat) (off : Z) : Z :=
  (p_tp p t + off mod word (p_build p)) mod word (p_build p).

(** The system that the registration code of RegModel.v runs on when thread [t]
    is the one to initialise. *)
Definition with_tls (p : program) (t : nat) (y : sys) : sys :=
  {| libc_off := libc_off y; libc_size := libc_size y; libc_flags := libc_flags y;
     k_has := k_has y; k_aux := k_aux y; tls_off := offset_stored p t |}.

(** * The kernel *)

(** The bytes of the registered area, by offset, that the kernel may update (on
    return to user space: the fields of the features it has, cpu_id_start, cpu_id,
    rseq_cs and the extensions), as far as they lie in the length it was given. *)
Definition may_update (y : sys) (len n : Z) : bool :=
  (0 <=? n) && (n <? len) && (n <? (if k_aux y =? 0 then 20 else k_aux y)).
