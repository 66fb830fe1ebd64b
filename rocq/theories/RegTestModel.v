(** What the test programs of registration check, on the machine of RegModel.v:
    tests/unregistered_test.c, tests/no_syscall_test.c, tests/basic_test.c. *)
From Coq Require Import ZArith Bool List.
From Verif Require Import RegModel.
Import ListNotations.
Local Open Scope Z_scope.

(** RSEQ_ABI_CPU_ID_UNINITIALIZED, include/rseq/abi.h *)
Definition CPU_ID_UNINITIALIZED : Z := -1.

(** rseq_get_abi()->cpu_id, read by a thread that runs on [cpu]: the area of librseq
    starts uninitialised (src/rseq.c:73-75), the kernel writes the CPU of registered
    threads and resets the field when they unregister; the area of libc, in use if
    rseq_ownership is 0, is registered.  [k]: the kernel's registration of the area
    of librseq. *)
Definition cpu_id (own : Z) (k : option Z) (cpu : Z) : Z :=
  if own =? 0 then cpu else match k with Some _ => cpu | None => CPU_ID_UNINITIALIZED end.

(** tests/unregistered_test.c:44-51 and tests/no_syscall_test.c:46-53, on the values
    read: all four checks pass. *)
Definition unregistered_checks (flags size off cid : Z) : bool :=
  (flags =? 0) && (size =? 0) && negb (off =? 0) && (cid =? CPU_ID_UNINITIALIZED).

(** tests/basic_test.c:32-45, test_registered: all four checks pass. *)
Definition registered_checks (flags size off cid : Z) : bool :=
  (flags =? 0) && (20 <=? size) && negb (off =? 0) && (0 <=? cid).
