(** Instruction sequences of include/rseq/arch/aarch64.h and aarch64/bits.h.
    RSEQ_ASM_TMP_REG (x15/w15) is T0, RSEQ_ASM_TMP_REG_2 (x14) is T1.  The local
    labels of aarch64 are 2 (start), 3 (post-commit) and 4 (abort); they are
    called l_start, l_commit and l_abort_ip here.  Label 222 of the abort macro
    is called 223, because 222 is also the loop label of the copy. *)
From Coq Require Import ZArith List.
From Verif Require Import RseqIR ArchCommon.
Import ListNotations.
Local Open Scope Z_scope.

(** aarch64.h:153-159 RSEQ_ASM_STORE_RSEQ_CS *)
Definition a64_store_rseq_cs : list item := [I ICs; L l_start].
(** aarch64.h:196-212 RSEQ_ASM_OP_CBNE32, RSEQ_ASM_CBNE_CPU_ID: "sub; cbnz" is one
    compare-and-branch (a wrapping difference is zero iff the operands are equal). *)
Definition a64_cbne_cpu_id (l : nat) : list item := [I (IIdx T0); I (IBne (R T0) (R Rcpu) l)].
(** aarch64.h:186-190 RSEQ_ASM_OP_CBNE *)
Definition a64_cbne (v e : reg) (l : nat) : list item :=
  [I (ILd T0 (R v)); I (IBne (R T0) (R e) l)].
(** aarch64.h:203-207 RSEQ_ASM_OP_CBEQ *)
Definition a64_cbeq (v e : reg) (l : nat) : list item :=
  [I (ILd T0 (R v)); I (IBeq (R T0) (R e) l)].
(** aarch64.h:131-137 RSEQ_ASM_DEFINE_ABORT, inline after the sequence *)
Definition a64_abort : list item :=
  [I (IJmp 223%nat); I ISig; L l_abort_ip; I (IJmp c_abort); L 223%nat].
(** aarch64.h:173-183 RSEQ_ASM_OP_FINAL_STORE (str) and _RELEASE (stlr) *)
Definition a64_final_store (rel : bool) (s v : reg) : list item :=
  [I (ISt rel (R v) (R s)); L l_commit].

(** aarch64/bits.h:20-75 *)
Definition a64_cbne_store (tw : bool) (md : imode) : program :=
  assemble md (exits_ne tw [c_err1; c_err2])
    (a64_store_rseq_cs ++ a64_cbne_cpu_id l_abort_ip ++ a64_cbne Rv Rexpect c_ne ++
     twice tw (a64_cbne_cpu_id c_err1 ++ a64_cbne Rv Rexpect c_err2) ++
     a64_final_store false Rnewv Rv ++ a64_abort) [].

(** aarch64/bits.h:77-137; "ldr x15, [x15, voffp]" is an addition and a load *)
Definition a64_pop (tw : bool) (md : imode) : program :=
  assemble md (exits_ne tw [c_err1; c_err2])
    (a64_store_rseq_cs ++ a64_cbne_cpu_id l_abort_ip ++ a64_cbeq Rv Rexpectnot c_ne ++
     twice tw (a64_cbne_cpu_id c_err1 ++ a64_cbeq Rv Rexpectnot c_err2) ++
     [I (ILd T0 (R Rv)); I (ISt false (R Rload) (R T0));
      I (IAdd T0 (R T0) (R Rvoffp)); I (ILd T0 (R T0))] ++
     a64_final_store false T0 Rv ++ a64_abort) [].

(** aarch64/bits.h:139-184 *)
Definition a64_add_store (tw : bool) (md : imode) : program :=
  assemble md (exits_none tw [c_err1])
    (a64_store_rseq_cs ++ a64_cbne_cpu_id l_abort_ip ++
     twice tw (a64_cbne_cpu_id c_err1) ++
     [I (ILd T0 (R Rv)); I (IAdd T0 (R T0) (R Rcount))] ++
     a64_final_store false T0 Rv ++ a64_abort) [].

(** aarch64/bits.h:186-252 *)
Definition a64_cbne2 (tw : bool) (md : imode) : program :=
  assemble md (exits_ne tw [c_err1; c_err2; c_err3])
    (a64_store_rseq_cs ++ a64_cbne_cpu_id l_abort_ip ++
     a64_cbne Rv Rexpect c_ne ++ a64_cbne Rv2 Rexpect2 c_ne ++
     twice tw (a64_cbne_cpu_id c_err1 ++ a64_cbne Rv Rexpect c_err2 ++
               a64_cbne Rv2 Rexpect2 c_err3) ++
     a64_final_store false Rnewv Rv ++ a64_abort) [].

(** aarch64/bits.h:260-325 *)
Definition a64_store_store (tw rel : bool) (md : imode) : program :=
  assemble md (exits_ne tw [c_err1; c_err2])
    (a64_store_rseq_cs ++ a64_cbne_cpu_id l_abort_ip ++ a64_cbne Rv Rexpect c_ne ++
     twice tw (a64_cbne_cpu_id c_err1 ++ a64_cbne Rv Rexpect c_err2) ++
     [I (ISt false (R Rv2) (R Rnewv2))] ++
     a64_final_store rel Rnewv Rv ++ a64_abort) [].

(** aarch64/bits.h:327-393 and aarch64.h:244-253 RSEQ_ASM_OP_R_BYTEWISE_MEMCPY:
    the copy runs from the last byte to the first.  The addresses [src + x14] and
    [dst + x14] of ldrb/strb are computed into T2 and T3. *)
Definition a64_memcpy (tw rel : bool) (md : imode) : program :=
  assemble md (exits_ne tw [c_err1; c_err2])
    (a64_store_rseq_cs ++ a64_cbne_cpu_id l_abort_ip ++ a64_cbne Rv Rexpect c_ne ++
     twice tw (a64_cbne_cpu_id c_err1 ++ a64_cbne Rv Rexpect c_err2) ++
     [I (IBeq (R Rlen) (K 0) 333%nat);
      I (IMov T1 (R Rlen));
      L 222%nat; I (IAdd T1 (R T1) (K (-1)));
      I (IAdd T2 (R Rsrc) (R T1)); I (ILdB T0 (R T2));
      I (IAdd T3 (R Rdst) (R T1)); I (IStB (R T3) (R T0));
      I (IBne (R T1) (K 0) 222%nat);
      L 333%nat] ++
     a64_final_store rel Rnewv Rv ++ a64_abort) [].
