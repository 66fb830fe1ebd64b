(** Instruction sequences of include/rseq/arch/riscv.h and riscv/bits.h.
    RSEQ_ASM_TMP_REG_1..4 (t6, t5, t4, t3) are T1..T4.  The local labels are 2
    (start), 3 (post-commit) and 4 (abort), called l_start, l_commit and
    l_abort_ip here; label 222 of the abort macro is called 223.  The cpu_id
    field is loaded sign-extended ("lw") and compared with an int argument, which
    the calling convention also keeps sign-extended: a comparison of 32 bits. *)
From Coq Require Import ZArith List.
From Verif Require Import RseqIR ArchCommon.
Import ListNotations.
Local Open Scope Z_scope.

(** riscv.h:125-129 RSEQ_ASM_STORE_RSEQ_CS *)
Definition rv_store_rseq_cs : list item := [I ICs; L l_start].
(** riscv.h:145-159 RSEQ_ASM_OP_CBNE32, RSEQ_ASM_CBNE_CPU_ID *)
Definition rv_cbne_cpu_id (l : nat) : list item := [I (IIdx T1); I (IBne (R T1) (R Rcpu) l)].
(** riscv.h:136-139 RSEQ_ASM_OP_CBNE *)
Definition rv_cbne (v e : reg) (l : nat) : list item :=
  [I (ILd T1 (R v)); I (IBne (R T1) (R e) l)].
(** riscv.h:151-154 RSEQ_ASM_OP_CBEQ *)
Definition rv_cbeq (v e : reg) (l : nat) : list item :=
  [I (ILd T1 (R v)); I (IBeq (R T1) (R e) l)].
(** riscv.h:103-110 RSEQ_ASM_DEFINE_ABORT, inline after the sequence *)
Definition rv_abort : list item :=
  [I (IJmp 223%nat); I ISig; L l_abort_ip; I (IJmp c_abort); L 223%nat].
(** riscv.h:184-195 RSEQ_ASM_OP_FINAL_STORE, and _RELEASE ("fence rw, w") *)
Definition rv_final_store (rel : bool) (s v : reg) : list item :=
  (if rel then [I IFence] else []) ++ [I (ISt false (R v) (R s)); L l_commit].

(** riscv/bits.h:15-66 *)
Definition rv_cbne_store (tw : bool) (md : imode) : program :=
  assemble md (exits_ne tw [c_err1; c_err2])
    (rv_store_rseq_cs ++ rv_cbne_cpu_id l_abort_ip ++ rv_cbne Rv Rexpect c_ne ++
     twice tw (rv_cbne_cpu_id c_err1 ++ rv_cbne Rv Rexpect c_err2) ++
     rv_final_store false Rnewv Rv ++ rv_abort) [].

(** riscv/bits.h:68-123 *)
Definition rv_pop (tw : bool) (md : imode) : program :=
  assemble md (exits_ne tw [c_err1; c_err2])
    (rv_store_rseq_cs ++ rv_cbne_cpu_id l_abort_ip ++ rv_cbeq Rv Rexpectnot c_ne ++
     twice tw (rv_cbne_cpu_id c_err1 ++ rv_cbeq Rv Rexpectnot c_err2) ++
     [I (ILd T1 (R Rv)); I (ISt false (R Rload) (R T1));
      I (IAdd T1 (R Rvoffp) (R T1)); I (ILd T1 (R T1))] ++
     rv_final_store false T1 Rv ++ rv_abort) [].

(** riscv/bits.h:125-167 *)
Definition rv_add_store (tw : bool) (md : imode) : program :=
  assemble md (exits_none tw [c_err1])
    (rv_store_rseq_cs ++ rv_cbne_cpu_id l_abort_ip ++
     twice tw (rv_cbne_cpu_id c_err1) ++
     [I (ILd T1 (R Rv)); I (IAdd T1 (R T1) (R Rcount))] ++
     rv_final_store false T1 Rv ++ rv_abort) [].

(** riscv/bits.h:169-230 *)
Definition rv_cbne2 (tw : bool) (md : imode) : program :=
  assemble md (exits_ne tw [c_err1; c_err2; c_err3])
    (rv_store_rseq_cs ++ rv_cbne_cpu_id l_abort_ip ++
     rv_cbne Rv Rexpect c_ne ++ rv_cbne Rv2 Rexpect2 c_ne ++
     twice tw (rv_cbne_cpu_id c_err1 ++ rv_cbne Rv Rexpect c_err2 ++
               rv_cbne Rv2 Rexpect2 c_err3) ++
     rv_final_store false Rnewv Rv ++ rv_abort) [].

(** riscv/bits.h:238-299 *)
Definition rv_store_store (tw rel : bool) (md : imode) : program :=
  assemble md (exits_ne tw [c_err1; c_err2])
    (rv_store_rseq_cs ++ rv_cbne_cpu_id l_abort_ip ++ rv_cbne Rv Rexpect c_ne ++
     twice tw (rv_cbne_cpu_id c_err1 ++ rv_cbne Rv Rexpect c_err2) ++
     [I (ISt false (R Rv2) (R Rnewv2))] ++
     rv_final_store rel Rnewv Rv ++ rv_abort) [].

(** riscv/bits.h:301-363 and riscv.h:209-221 RSEQ_ASM_OP_R_BYTEWISE_MEMCPY *)
Definition rv_memcpy (tw rel : bool) (md : imode) : program :=
  assemble md (exits_ne tw [c_err1; c_err2])
    (rv_store_rseq_cs ++ rv_cbne_cpu_id l_abort_ip ++ rv_cbne Rv Rexpect c_ne ++
     twice tw (rv_cbne_cpu_id c_err1 ++ rv_cbne Rv Rexpect c_err2) ++
     [I (IBeq (R Rlen) (K 0) 333%nat);
      I (IMov T1 (R Rlen)); I (IMov T2 (R Rsrc)); I (IMov T3 (R Rdst));
      L 222%nat;
      I (ILdB T4 (R T2)); I (IStB (R T3) (R T4));
      I (IAdd T1 (R T1) (K (-1))); I (IAdd T2 (R T2) (K 1)); I (IAdd T3 (R T3) (K 1));
      I (IBne (R T1) (K 0) 222%nat);
      L 333%nat] ++
     rv_final_store rel Rnewv Rv ++ rv_abort) [].
