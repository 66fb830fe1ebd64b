(** Instruction sequences of include/rseq/arch/s390.h and s390/bits.h.  r0 is
    T0, r1 is T1.  s390 is strongly ordered: no barrier for RELEASE. *)
From Coq Require Import ZArith List.
From Verif Require Import RseqIR ArchCommon.
Import ListNotations.
Local Open Scope Z_scope.

(** s390.h:140-144 RSEQ_ASM_STORE_RSEQ_CS *)
Definition s390_store_rseq_cs : list item := [I ICs; L l_start].
(** s390.h:147-150 RSEQ_ASM_CBNE_CPU_ID: 32-bit compare with memory; jnz *)
Definition s390_cbne_cpu_id (l : nat) : list item := [I (ICmpIdx (R Rcpu)); I (IJne l)].
(** "LONG_CMP e, v; jnz l" *)
Definition s390_cbne (v e : reg) (l : nat) : list item := [I (ICmpM (R v) (R e)); I (IJne l)].
(** "LONG_L r1, v; LONG_CMP_R r1, e; je l" *)
Definition s390_cbeq (v e : reg) (l : nat) : list item :=
  [I (ILd T1 (R v)); I (ICmp (R T1) (R e)); I (IJe l)].
(** s390.h:100-106 RSEQ_ASM_DEFINE_ABORT (section __rseq_failure) *)
Definition s390_abort (teardown : list item) : list item :=
  [I ISig; L l_abort_ip] ++ teardown ++ [I (IJmp c_abort)].
(** s390.h:118-123 RSEQ_ASM_DEFINE_TEARDOWN (section __rseq_failure) *)
Definition s390_teardown (l : nat) (teardown : list item) (tgt : nat) : list item :=
  [L l] ++ teardown ++ [I (IJmp tgt)].
Definition s390_final_store (s v : reg) : list item := [I (ISt false (R v) (R s)); L l_commit].

(** s390/bits.h:15-76 *)
Definition s390_cbne_store (tw : bool) (md : imode) : program :=
  assemble md (exits_ne tw [c_err1; c_err2])
    (s390_store_rseq_cs ++ s390_cbne_cpu_id l_abort_ip ++ s390_cbne Rv Rexpect c_ne ++
     twice tw (s390_cbne_cpu_id c_err1 ++ s390_cbne Rv Rexpect c_err2) ++
     s390_final_store Rnewv Rv) (s390_abort []).

(** s390/bits.h:78-147 *)
Definition s390_pop (tw : bool) (md : imode) : program :=
  assemble md (exits_ne tw [c_err1; c_err2])
    (s390_store_rseq_cs ++ s390_cbne_cpu_id l_abort_ip ++ s390_cbeq Rv Rexpectnot c_ne ++
     twice tw (s390_cbne_cpu_id c_err1 ++ s390_cbeq Rv Rexpectnot c_err2) ++
     [I (ISt false (R Rload) (R T1)); I (IAdd T1 (R T1) (R Rvoffp)); I (ILd T1 (R T1))] ++
     s390_final_store T1 Rv) (s390_abort []).

(** s390/bits.h:149-199 *)
Definition s390_add_store (tw : bool) (md : imode) : program :=
  assemble md (exits_none tw [c_err1])
    (s390_store_rseq_cs ++ s390_cbne_cpu_id l_abort_ip ++
     twice tw (s390_cbne_cpu_id c_err1) ++
     [I (ILd T0 (R Rv)); I (IAdd T0 (R T0) (R Rcount))] ++
     s390_final_store T0 Rv) (s390_abort []).

(** s390/bits.h:201-277 *)
Definition s390_cbne2 (tw : bool) (md : imode) : program :=
  assemble md (exits_ne tw [c_err1; c_err2; c_err3])
    (s390_store_rseq_cs ++ s390_cbne_cpu_id l_abort_ip ++
     s390_cbne Rv Rexpect c_ne ++ s390_cbne Rv2 Rexpect2 c_ne ++
     twice tw (s390_cbne_cpu_id c_err1 ++ s390_cbne Rv Rexpect c_err2 ++
               s390_cbne Rv2 Rexpect2 c_err3) ++
     s390_final_store Rnewv Rv) (s390_abort []).

(** s390/bits.h:286-356 *)
Definition s390_store_store (tw rel : bool) (md : imode) : program :=
  assemble md (exits_ne tw [c_err1; c_err2])
    (s390_store_rseq_cs ++ s390_cbne_cpu_id l_abort_ip ++ s390_cbne Rv Rexpect c_ne ++
     twice tw (s390_cbne_cpu_id c_err1 ++ s390_cbne Rv Rexpect c_err2) ++
     [I (ISt false (R Rv2) (R Rnewv2))] ++
     s390_final_store Rnewv Rv) (s390_abort []).

(** s390/bits.h:359-472.  The additions set the condition code; it is tested
    ("jnz") only after the one on len ([ICmp] with 0). *)
Definition s390_memcpy (tw rel : bool) (md : imode) : program :=
  assemble md (exits_ne tw [c_err1; c_err2])
    (save_scratch ++
     s390_store_rseq_cs ++ s390_cbne_cpu_id l_abort_ip ++ s390_cbne Rv Rexpect 5%nat ++
     twice tw (s390_cbne_cpu_id 6%nat ++ s390_cbne Rv Rexpect 7%nat) ++
     [I (ICmp (R Rlen) (K 0)); I (IJe 333%nat);
      L 222%nat;
      I (ILdB T0 (R Rsrc)); I (IStB (R Rdst) (R T0));
      I (IAdd Rsrc (R Rsrc) (K 1)); I (IAdd Rdst (R Rdst) (K 1));
      I (IAdd Rlen (R Rlen) (K (-1))); I (ICmp (R Rlen) (K 0));
      I (IJne 222%nat);
      L 333%nat] ++
     s390_final_store Rnewv Rv ++ restore_scratch)
    (s390_abort restore_scratch ++
     s390_teardown 5%nat restore_scratch c_ne ++
     twice tw (s390_teardown 6%nat restore_scratch c_err1 ++
               s390_teardown 7%nat restore_scratch c_err2)).
