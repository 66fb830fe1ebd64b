(** Instruction sequences of include/rseq/arch/arm.h and arm/bits.h.  r0 is T0,
    r5 is T1, r6 is T2, r7 is T3.  The copy of the descriptor that
    RSEQ_ASM_DEFINE_ABORT places between the branch and the signature is data
    and is left out. *)
From Coq Require Import ZArith List.
From Verif Require Import RseqIR ArchCommon.
Import ListNotations.
Local Open Scope Z_scope.

(** arm.h:127-131 RSEQ_ASM_STORE_RSEQ_CS *)
Definition arm_store_rseq_cs : list item := [I ICs; L l_start].
(** arm.h:185-189 RSEQ_ASM_CBNE_CPU_ID *)
Definition arm_cbne_cpu_id (l : nat) : list item :=
  [I (IIdx T0); I (ICmp (R Rcpu) (R T0)); I (IJne l)].
(** "ldr r0, [v]; cmp e, r0; bne l" *)
Definition arm_cbne (v e : reg) (l : nat) : list item :=
  [I (ILd T0 (R v)); I (ICmp (R e) (R T0)); I (IJne l)].
(** "ldr r0, [v]; cmp e, r0; beq l" *)
Definition arm_cbeq (v e : reg) (l : nat) : list item :=
  [I (ILd T0 (R v)); I (ICmp (R e) (R T0)); I (IJe l)].
(** arm.h:134-167 RSEQ_ASM_DEFINE_ABORT, with the "b 5f" before and "5:" after it *)
Definition arm_abort : list item :=
  [I (IJmp 5%nat); I ISig; L l_abort_ip; I (IJmp c_abort); L 5%nat].
(** "dmb" under RSEQ_TEMPLATE_MO_RELEASE *)
Definition arm_release (rel : bool) : list item := if rel then [I IFence] else [].

(** arm/bits.h:19-84 *)
Definition arm_cbne_store (tw : bool) (md : imode) : program :=
  assemble md (exits_ne tw [c_err1; c_err2])
    (arm_store_rseq_cs ++ arm_cbne_cpu_id l_abort_ip ++ arm_cbne Rv Rexpect c_ne ++
     twice tw (arm_cbne_cpu_id c_err1 ++ arm_cbne Rv Rexpect c_err2) ++
     [I (ISt false (R Rv) (R Rnewv)); L l_commit] ++ arm_abort) [].

(** arm/bits.h:86-157 *)
Definition arm_pop (tw : bool) (md : imode) : program :=
  assemble md (exits_ne tw [c_err1; c_err2])
    (arm_store_rseq_cs ++ arm_cbne_cpu_id l_abort_ip ++ arm_cbeq Rv Rexpectnot c_ne ++
     twice tw (arm_cbne_cpu_id c_err1 ++ arm_cbeq Rv Rexpectnot c_err2) ++
     [I (ISt false (R Rload) (R T0)); I (IAdd T0 (R T0) (R Rvoffp)); I (ILd T0 (R T0));
      I (ISt false (R Rv) (R T0)); L l_commit] ++ arm_abort) [].

(** arm/bits.h:159-210 *)
Definition arm_add_store (tw : bool) (md : imode) : program :=
  assemble md (exits_none tw [c_err1])
    (arm_store_rseq_cs ++ arm_cbne_cpu_id l_abort_ip ++
     twice tw (arm_cbne_cpu_id c_err1) ++
     [I (ILd T0 (R Rv)); I (IAdd T0 (R T0) (R Rcount));
      I (ISt false (R Rv) (R T0)); L l_commit] ++ arm_abort) [].

(** arm/bits.h:212-294 *)
Definition arm_cbne2 (tw : bool) (md : imode) : program :=
  assemble md (exits_ne tw [c_err1; c_err2; c_err3])
    (arm_store_rseq_cs ++ arm_cbne_cpu_id l_abort_ip ++
     arm_cbne Rv Rexpect c_ne ++ arm_cbne Rv2 Rexpect2 c_ne ++
     twice tw (arm_cbne_cpu_id c_err1 ++ arm_cbne Rv Rexpect c_err2 ++
               arm_cbne Rv2 Rexpect2 c_err3) ++
     [I (ISt false (R Rv) (R Rnewv)); L l_commit] ++ arm_abort) [].

(** arm/bits.h:302-379 *)
Definition arm_store_store (tw rel : bool) (md : imode) : program :=
  assemble md (exits_ne tw [c_err1; c_err2])
    (arm_store_rseq_cs ++ arm_cbne_cpu_id l_abort_ip ++ arm_cbne Rv Rexpect c_ne ++
     twice tw (arm_cbne_cpu_id c_err1 ++ arm_cbne Rv Rexpect c_err2) ++
     [I (ISt false (R Rv2) (R Rnewv2))] ++ arm_release rel ++
     [I (ISt false (R Rv) (R Rnewv)); L l_commit] ++ arm_abort) [].

(** arm/bits.h:382-495.  The operands expect, dst, src, len, newv live in the
    stack object rseq_local, private to the call, and are loaded into r5..r7;
    "subs r7, #1" sets the flag ([ICmp] with 0). *)
Definition arm_memcpy (tw rel : bool) (md : imode) : program :=
  assemble md (exits_ne tw [c_err1; c_err2])
    (arm_store_rseq_cs ++ arm_cbne_cpu_id l_abort_ip ++
     [I (ILd T0 (R Rv)); I (IMov T1 (R Rexpect)); I (ICmp (R T1) (R T0)); I (IJne c_ne)] ++
     twice tw (arm_cbne_cpu_id c_err1 ++ arm_cbne Rv T1 c_err2) ++
     [I (IMov T1 (R Rdst)); I (IMov T2 (R Rsrc)); I (IMov T3 (R Rlen));
      I (ICmp (R T3) (K 0)); I (IJe 333%nat);
      L 222%nat;
      I (ILdB T0 (R T2)); I (IStB (R T1) (R T0));
      I (IAdd T2 (R T2) (K 1)); I (IAdd T1 (R T1) (K 1));
      I (IAdd T3 (R T3) (K (-1))); I (ICmp (R T3) (K 0));
      I (IJne 222%nat);
      L 333%nat] ++ arm_release rel ++
     [I (IMov T1 (R Rnewv)); I (ISt false (R Rv) (R T1)); L l_commit] ++ arm_abort) [].
