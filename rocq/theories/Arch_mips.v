(** Instruction sequences of include/rseq/arch/mips.h and mips/bits.h.  $4 is
    T0.  The copy of the descriptor that RSEQ_ASM_DEFINE_ABORT places between
    the branch and the signature is data and is left out; branch delay slots are
    filled with nops by the assembler (".set reorder" is the default). *)
From Coq Require Import ZArith List.
From Verif Require Import RseqIR ArchCommon.
Import ListNotations.
Local Open Scope Z_scope.

(** mips.h:190-194 RSEQ_ASM_STORE_RSEQ_CS *)
Definition mips_store_rseq_cs : list item := [I ICs; L l_start].
(** mips.h:197-200 RSEQ_ASM_CBNE_CPU_ID *)
Definition mips_cbne_cpu_id (l : nat) : list item := [I (IIdx T0); I (IBne (R T0) (R Rcpu) l)].
(** "LONG_L $4, v; bne $4, e, l" *)
Definition mips_cbne (v e : reg) (l : nat) : list item :=
  [I (ILd T0 (R v)); I (IBne (R T0) (R e) l)].
(** "LONG_L $4, v; beq $4, e, l" *)
Definition mips_cbeq (v e : reg) (l : nat) : list item :=
  [I (ILd T0 (R v)); I (IBeq (R T0) (R e) l)].
(** mips.h:126-159 RSEQ_ASM_DEFINE_ABORT *)
Definition mips_abort_handler (teardown : list item) : list item :=
  [I ISig; L l_abort_ip] ++ teardown ++ [I (IJmp c_abort)].
(** mips.h:171-174 RSEQ_ASM_DEFINE_TEARDOWN *)
Definition mips_teardown (l : nat) (teardown : list item) (tgt : nat) : list item :=
  [L l] ++ teardown ++ [I (IJmp tgt)].
(** "b 5f", the abort handler, "5:" *)
Definition mips_abort : list item := [I (IJmp 5%nat)] ++ mips_abort_handler [] ++ [L 5%nat].
(** "sync" under RSEQ_TEMPLATE_MO_RELEASE *)
Definition mips_release (rel : bool) : list item := if rel then [I IFence] else [].
Definition mips_final_store (s v : reg) : list item := [I (ISt false (R v) (R s)); L l_commit].

(** mips/bits.h:20-78 *)
Definition mips_cbne_store (tw : bool) (md : imode) : program :=
  assemble md (exits_ne tw [c_err1; c_err2])
    (mips_store_rseq_cs ++ mips_cbne_cpu_id l_abort_ip ++ mips_cbne Rv Rexpect c_ne ++
     twice tw (mips_cbne_cpu_id c_err1 ++ mips_cbne Rv Rexpect c_err2) ++
     mips_final_store Rnewv Rv ++ mips_abort) [].

(** mips/bits.h:80-144 *)
Definition mips_pop (tw : bool) (md : imode) : program :=
  assemble md (exits_ne tw [c_err1; c_err2])
    (mips_store_rseq_cs ++ mips_cbne_cpu_id l_abort_ip ++ mips_cbeq Rv Rexpectnot c_ne ++
     twice tw (mips_cbne_cpu_id c_err1 ++ mips_cbeq Rv Rexpectnot c_err2) ++
     [I (ISt false (R Rload) (R T0)); I (IAdd T0 (R T0) (R Rvoffp)); I (ILd T0 (R T0))] ++
     mips_final_store T0 Rv ++ mips_abort) [].

(** mips/bits.h:146-194 *)
Definition mips_add_store (tw : bool) (md : imode) : program :=
  assemble md (exits_none tw [c_err1])
    (mips_store_rseq_cs ++ mips_cbne_cpu_id l_abort_ip ++
     twice tw (mips_cbne_cpu_id c_err1) ++
     [I (ILd T0 (R Rv)); I (IAdd T0 (R T0) (R Rcount))] ++
     mips_final_store T0 Rv ++ mips_abort) [].

(** mips/bits.h:196-268 *)
Definition mips_cbne2 (tw : bool) (md : imode) : program :=
  assemble md (exits_ne tw [c_err1; c_err2; c_err3])
    (mips_store_rseq_cs ++ mips_cbne_cpu_id l_abort_ip ++
     mips_cbne Rv Rexpect c_ne ++ mips_cbne Rv2 Rexpect2 c_ne ++
     twice tw (mips_cbne_cpu_id c_err1 ++ mips_cbne Rv Rexpect c_err2 ++
               mips_cbne Rv2 Rexpect2 c_err3) ++
     mips_final_store Rnewv Rv ++ mips_abort) [].

(** mips/bits.h:276-346 *)
Definition mips_store_store (tw rel : bool) (md : imode) : program :=
  assemble md (exits_ne tw [c_err1; c_err2])
    (mips_store_rseq_cs ++ mips_cbne_cpu_id l_abort_ip ++ mips_cbne Rv Rexpect c_ne ++
     twice tw (mips_cbne_cpu_id c_err1 ++ mips_cbne Rv Rexpect c_err2) ++
     [I (ISt false (R Rv2) (R Rnewv2))] ++ mips_release rel ++
     mips_final_store Rnewv Rv ++ mips_abort) [].

(** mips/bits.h:348-464 *)
Definition mips_memcpy (tw rel : bool) (md : imode) : program :=
  assemble md (exits_ne tw [c_err1; c_err2])
    (save_scratch ++
     mips_store_rseq_cs ++ mips_cbne_cpu_id l_abort_ip ++ mips_cbne Rv Rexpect 5%nat ++
     twice tw (mips_cbne_cpu_id 6%nat ++ mips_cbne Rv Rexpect 7%nat) ++
     [I (IBeq (R Rlen) (K 0) 333%nat);
      L 222%nat;
      I (ILdB T0 (R Rsrc)); I (IStB (R Rdst) (R T0));
      I (IAdd Rsrc (R Rsrc) (K 1)); I (IAdd Rdst (R Rdst) (K 1));
      I (IAdd Rlen (R Rlen) (K (-1)));
      I (IBne (R Rlen) (K 0) 222%nat);
      L 333%nat] ++ mips_release rel ++
     mips_final_store Rnewv Rv ++
     restore_scratch ++ [I (IJmp 8%nat)] ++
     mips_abort_handler restore_scratch ++
     mips_teardown 5%nat restore_scratch c_ne ++
     twice tw (mips_teardown 6%nat restore_scratch c_err1 ++
               mips_teardown 7%nat restore_scratch c_err2) ++
     [L 8%nat]) [].
