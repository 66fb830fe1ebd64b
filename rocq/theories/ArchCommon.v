(** Pieces shared by the transcriptions of include/rseq/arch/*/bits.h. *)
From Coq Require Import ZArith List.
From Verif Require Import RseqIR.
Import ListNotations.
Local Open Scope Z_scope.

(** Lines between #ifdef RSEQ_COMPARE_TWICE and #endif. *)
Definition twice {A} (tw : bool) (l : list A) : list A := if tw then l else [].

(** Declared exit points (RSEQ_ASM_DEFINE_EXIT_POINT): ne/eq, and error1..n in
    RSEQ_COMPARE_TWICE builds. *)
Definition exits_ne (tw : bool) (errs : list nat) : list nat := c_ne :: twice tw errs.
Definition exits_none (tw : bool) (errs : list nat) : list nat := twice tw errs.

(** Save and restore of the operands changed by the copy loop. *)
Definition save_scratch : list item :=
  [I (IMov S0 (R Rsrc)); I (IMov S1 (R Rdst)); I (IMov S2 (R Rlen))].
Definition restore_scratch : list item :=
  [I (IMov Rlen (R S2)); I (IMov Rdst (R S1)); I (IMov Rsrc (R S0))].
