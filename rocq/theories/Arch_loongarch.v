(** Instruction sequences of include/rseq/arch/loongarch.h and loongarch/bits.h.
    $r4 is T0.  The copy of the descriptor that RSEQ_ASM_DEFINE_ABORT places
    between the branch and the signature is data and is left out. *)
From Coq Require Import ZArith List.
From Verif Require Import RseqIR ArchCommon.
Import ListNotations.
Local Open Scope Z_scope.

(** loongarch.h:149-153 RSEQ_ASM_STORE_RSEQ_CS *)
Definition la_store_rseq_cs : list item := [I ICs; L l_start].
(** loongarch.h:156-159 RSEQ_ASM_CBNE_CPU_ID *)
Definition la_cbne_cpu_id (l : nat) : list item := [I (IIdx T0); I (IBne (R T0) (R Rcpu) l)].
(** "LONG_L $r4, v; bne $r4, e, l" *)
Definition la_cbne (v e : reg) (l : nat) : list item :=
  [I (ILd T0 (R v)); I (IBne (R T0) (R e) l)].
(** "LONG_L $r4, v; beq $r4, e, l" *)
Definition la_cbeq (v e : reg) (l : nat) : list item :=
  [I (ILd T0 (R v)); I (IBeq (R T0) (R e) l)].
(** loongarch.h:84-119 RSEQ_ASM_DEFINE_ABORT *)
Definition la_abort_handler (teardown : list item) : list item :=
  [I ISig; L l_abort_ip] ++ teardown ++ [I (IJmp c_abort)].
(** loongarch.h:131-134 RSEQ_ASM_DEFINE_TEARDOWN *)
Definition la_teardown (l : nat) (teardown : list item) (tgt : nat) : list item :=
  [L l] ++ teardown ++ [I (IJmp tgt)].
(** "b 5f", the abort handler, "5:" *)
Definition la_abort : list item := [I (IJmp 5%nat)] ++ la_abort_handler [] ++ [L 5%nat].
(** "dbar 0x12" under RSEQ_TEMPLATE_MO_RELEASE *)
Definition la_release (rel : bool) : list item := if rel then [I IFence] else [].
Definition la_final_store (s v : reg) : list item := [I (ISt false (R v) (R s)); L l_commit].

(** loongarch/bits.h:24-87 *)
Definition la_cbne_store (tw : bool) (md : imode) : program :=
  assemble md (exits_ne tw [c_err1; c_err2])
    (la_store_rseq_cs ++ la_cbne_cpu_id l_abort_ip ++ la_cbne Rv Rexpect c_ne ++
     twice tw (la_cbne_cpu_id c_err1 ++ la_cbne Rv Rexpect c_err2) ++
     la_final_store Rnewv Rv ++ la_abort) [].

(** loongarch/bits.h:89-158 *)
Definition la_pop (tw : bool) (md : imode) : program :=
  assemble md (exits_ne tw [c_err1; c_err2])
    (la_store_rseq_cs ++ la_cbne_cpu_id l_abort_ip ++ la_cbeq Rv Rexpectnot c_ne ++
     twice tw (la_cbne_cpu_id c_err1 ++ la_cbeq Rv Rexpectnot c_err2) ++
     [I (ISt false (R Rload) (R T0)); I (IAdd T0 (R T0) (R Rvoffp)); I (ILd T0 (R T0))] ++
     la_final_store T0 Rv ++ la_abort) [].

(** loongarch/bits.h:160-211 *)
Definition la_add_store (tw : bool) (md : imode) : program :=
  assemble md (exits_none tw [c_err1])
    (la_store_rseq_cs ++ la_cbne_cpu_id l_abort_ip ++
     twice tw (la_cbne_cpu_id c_err1) ++
     [I (ILd T0 (R Rv)); I (IAdd T0 (R T0) (R Rcount))] ++
     la_final_store T0 Rv ++ la_abort) [].

(** loongarch/bits.h:213-291 *)
Definition la_cbne2 (tw : bool) (md : imode) : program :=
  assemble md (exits_ne tw [c_err1; c_err2; c_err3])
    (la_store_rseq_cs ++ la_cbne_cpu_id l_abort_ip ++
     la_cbne Rv Rexpect c_ne ++ la_cbne Rv2 Rexpect2 c_ne ++
     twice tw (la_cbne_cpu_id c_err1 ++ la_cbne Rv Rexpect c_err2 ++
               la_cbne Rv2 Rexpect2 c_err3) ++
     la_final_store Rnewv Rv ++ la_abort) [].

(** loongarch/bits.h:299-374 *)
Definition la_store_store (tw rel : bool) (md : imode) : program :=
  assemble md (exits_ne tw [c_err1; c_err2])
    (la_store_rseq_cs ++ la_cbne_cpu_id l_abort_ip ++ la_cbne Rv Rexpect c_ne ++
     twice tw (la_cbne_cpu_id c_err1 ++ la_cbne Rv Rexpect c_err2) ++
     [I (ISt false (R Rv2) (R Rnewv2))] ++ la_release rel ++
     la_final_store Rnewv Rv ++ la_abort) [].

(** loongarch/bits.h:376-497 *)
Definition la_memcpy (tw rel : bool) (md : imode) : program :=
  assemble md (exits_ne tw [c_err1; c_err2])
    (save_scratch ++
     la_store_rseq_cs ++ la_cbne_cpu_id l_abort_ip ++ la_cbne Rv Rexpect 5%nat ++
     twice tw (la_cbne_cpu_id 6%nat ++ la_cbne Rv Rexpect 7%nat) ++
     [I (IBeq (R Rlen) (K 0) 333%nat);
      L 222%nat;
      I (ILdB T0 (R Rsrc)); I (IStB (R Rdst) (R T0));
      I (IAdd Rsrc (R Rsrc) (K 1)); I (IAdd Rdst (R Rdst) (K 1));
      I (IAdd Rlen (R Rlen) (K (-1)));
      I (IBne (R Rlen) (K 0) 222%nat);
      L 333%nat] ++ la_release rel ++
     la_final_store Rnewv Rv ++
     restore_scratch ++ [I (IJmp 8%nat)] ++
     la_abort_handler restore_scratch ++
     la_teardown 5%nat restore_scratch c_ne ++
     twice tw (la_teardown 6%nat restore_scratch c_err1 ++
               la_teardown 7%nat restore_scratch c_err2) ++
     [L 8%nat]) [].
