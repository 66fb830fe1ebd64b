(** Instruction sequences of include/rseq/arch/ppc.h and ppc/bits.h (32 and 64
    bits).  r17 is T0, r18 is T1, r19 is T2, r20 is T3, r21 is T4. *)
From Coq Require Import ZArith List.
From Verif Require Import RseqIR ArchCommon.
Import ListNotations.
Local Open Scope Z_scope.

(** ppc.h:130-147 RSEQ_ASM_STORE_RSEQ_CS *)
Definition ppc_store_rseq_cs : list item := [I ICs; L l_start].
(** ppc.h:150-154 RSEQ_ASM_CBNE_CPU_ID *)
Definition ppc_cbne_cpu_id (l : nat) : list item :=
  [I (IIdx T0); I (ICmp (R Rcpu) (R T0)); I (IJne l)].
(** ppc.h:163-166 RSEQ_ASM_OP_CBNE *)
Definition ppc_cbne (v e : reg) (l : nat) : list item :=
  [I (ILd T0 (R v)); I (ICmp (R T0) (R e)); I (IJne l)].
(** ppc.h:169-172 RSEQ_ASM_OP_CBEQ *)
Definition ppc_cbeq (v e : reg) (l : nat) : list item :=
  [I (ILd T0 (R v)); I (ICmp (R T0) (R e)); I (IJe l)].
(** ppc.h:108-114 RSEQ_ASM_DEFINE_ABORT (section __rseq_failure) *)
Definition ppc_abort : list item := [I ISig; L l_abort_ip; I (IJmp c_abort)].
(** "lwsync" under RSEQ_TEMPLATE_MO_RELEASE *)
Definition ppc_release (rel : bool) : list item := if rel then [I IFence] else [].
(** ppc.h:215-225 RSEQ_ASM_OP_R_FINAL_STORE, RSEQ_ASM_OP_FINAL_STORE *)
Definition ppc_final_store (s v : reg) : list item := [I (ISt false (R v) (R s)); L l_commit].

(** ppc/bits.h:20-82 *)
Definition ppc_cbne_store (tw : bool) (md : imode) : program :=
  assemble md (exits_ne tw [c_err1; c_err2])
    (ppc_store_rseq_cs ++ ppc_cbne_cpu_id l_abort_ip ++ ppc_cbne Rv Rexpect c_ne ++
     twice tw (ppc_cbne_cpu_id c_err1 ++ ppc_cbne Rv Rexpect c_err2) ++
     ppc_final_store Rnewv Rv) ppc_abort.

(** ppc/bits.h:84-155; "ldx r17, voffp, r17" is an addition and a load *)
Definition ppc_pop (tw : bool) (md : imode) : program :=
  assemble md (exits_ne tw [c_err1; c_err2])
    (ppc_store_rseq_cs ++ ppc_cbne_cpu_id l_abort_ip ++ ppc_cbeq Rv Rexpectnot c_ne ++
     twice tw (ppc_cbne_cpu_id c_err1 ++ ppc_cbeq Rv Rexpectnot c_err2) ++
     [I (ILd T0 (R Rv)); I (ISt false (R Rload) (R T0));
      I (IAdd T0 (R Rvoffp) (R T0)); I (ILd T0 (R T0))] ++
     ppc_final_store T0 Rv) ppc_abort.

(** ppc/bits.h:157-210 *)
Definition ppc_add_store (tw : bool) (md : imode) : program :=
  assemble md (exits_none tw [c_err1])
    (ppc_store_rseq_cs ++ ppc_cbne_cpu_id l_abort_ip ++
     twice tw (ppc_cbne_cpu_id c_err1) ++
     [I (ILd T0 (R Rv)); I (IAdd T0 (R Rcount) (R T0))] ++
     ppc_final_store T0 Rv) ppc_abort.

(** ppc/bits.h:212-289 *)
Definition ppc_cbne2 (tw : bool) (md : imode) : program :=
  assemble md (exits_ne tw [c_err1; c_err2; c_err3])
    (ppc_store_rseq_cs ++ ppc_cbne_cpu_id l_abort_ip ++
     ppc_cbne Rv Rexpect c_ne ++ ppc_cbne Rv2 Rexpect2 c_ne ++
     twice tw (ppc_cbne_cpu_id c_err1 ++ ppc_cbne Rv Rexpect c_err2 ++
               ppc_cbne Rv2 Rexpect2 c_err3) ++
     ppc_final_store Rnewv Rv) ppc_abort.

(** ppc/bits.h:297-372 *)
Definition ppc_store_store (tw rel : bool) (md : imode) : program :=
  assemble md (exits_ne tw [c_err1; c_err2])
    (ppc_store_rseq_cs ++ ppc_cbne_cpu_id l_abort_ip ++ ppc_cbne Rv Rexpect c_ne ++
     twice tw (ppc_cbne_cpu_id c_err1 ++ ppc_cbne Rv Rexpect c_err2) ++
     [I (ISt false (R Rv2) (R Rnewv2))] ++ ppc_release rel ++
     ppc_final_store Rnewv Rv) ppc_abort.

(** ppc/bits.h:374-455 and ppc.h:198-209 RSEQ_ASM_OP_R_BYTEWISE_MEMCPY: "lbzu" and
    "stbu" first add 1 to the address register.  The signed 32/64-bit comparison
    with 0 is an equality test. *)
Definition ppc_memcpy (tw rel : bool) (md : imode) : program :=
  assemble md (exits_ne tw [c_err1; c_err2])
    ([I (IMov T2 (R Rlen)); I (IMov T3 (R Rsrc)); I (IMov T4 (R Rdst))] ++
     ppc_store_rseq_cs ++ ppc_cbne_cpu_id l_abort_ip ++ ppc_cbne Rv Rexpect c_ne ++
     twice tw (ppc_cbne_cpu_id c_err1 ++ ppc_cbne Rv Rexpect c_err2) ++
     [I (ICmp (R T2) (K 0)); I (IJe 333%nat);
      I (IAdd T3 (R T3) (K (-1))); I (IAdd T4 (R T4) (K (-1)));
      L 222%nat;
      I (IAdd T3 (R T3) (K 1)); I (ILdB T1 (R T3));
      I (IAdd T4 (R T4) (K 1)); I (IStB (R T4) (R T1));
      I (IAdd T2 (R T2) (K (-1))); I (ICmp (R T2) (K 0)); I (IJne 222%nat);
      L 333%nat] ++ ppc_release rel ++
     ppc_final_store Rnewv Rv) ppc_abort.
