(** Instruction sequences of include/rseq/arch/x86.h and x86/bits.h. *)
From Coq Require Import ZArith List.
From Verif Require Import RseqIR ArchCommon.
Import ListNotations.
Local Open Scope Z_scope.

(** x86.h:151-184 RSEQ_ASM_STORE_RSEQ_CS; address computation merged into ICs. *)
Definition x86_store_rseq_cs : list item := [I ICs; L l_start].
(** x86.h:187-190 RSEQ_ASM_CBNE_CPU_ID: cmpl; jnz. *)
Definition x86_cbne_cpu_id (l : nat) : list item := [I (ICmpIdx (R Rcpu)); I (IJne l)].
(** x86.h:106-118 RSEQ_ASM_DEFINE_ABORT (section __rseq_failure). *)
Definition x86_abort (teardown : list item) : list item :=
  [I ISig; L l_abort_ip] ++ teardown ++ [I (IJmp c_abort)].
(** x86.h:130-135 RSEQ_ASM_DEFINE_TEARDOWN (section __rseq_failure). *)
Definition x86_teardown (l : nat) (teardown : list item) (tgt : nat) : list item :=
  [L l] ++ teardown ++ [I (IJmp tgt)].
(** "cmpq [a], b; jne l" and "cmpq b, [a]; jne l". *)
Definition x86_cmp_ne (a b : opd) (l : nat) : list item := [I (ICmpM a b); I (IJne l)].

(** ** x86-64 *)

(** x86/bits.h:30-89 *)
Definition x64_cbne_store (tw : bool) (md : imode) : program :=
  assemble md (exits_ne tw [c_err1; c_err2])
    (x86_store_rseq_cs ++ x86_cbne_cpu_id l_abort_ip ++
     x86_cmp_ne (R Rv) (R Rexpect) c_ne ++
     twice tw (x86_cbne_cpu_id c_err1 ++ x86_cmp_ne (R Rv) (R Rexpect) c_err2) ++
     [I (ISt false (R Rv) (R Rnewv)); L l_commit])
    (x86_abort []).

(** x86/bits.h:91-158; rbx is T1 *)
Definition x64_pop (tw : bool) (md : imode) : program :=
  assemble md (exits_ne tw [c_err1; c_err2])
    (x86_store_rseq_cs ++ x86_cbne_cpu_id l_abort_ip ++
     [I (ILd T1 (R Rv)); I (ICmp (R T1) (R Rexpectnot)); I (IJe c_ne)] ++
     twice tw (x86_cbne_cpu_id c_err1 ++
       [I (ILd T1 (R Rv)); I (ICmp (R T1) (R Rexpectnot)); I (IJe c_err2)]) ++
     [I (ISt false (R Rload) (R T1)); I (IAdd T1 (R T1) (R Rvoffp)); I (ILd T1 (R T1));
      I (ISt false (R Rv) (R T1)); L l_commit])
    (x86_abort []).

(** x86/bits.h:160-206 *)
Definition x64_add_store (tw : bool) (md : imode) : program :=
  assemble md (exits_none tw [c_err1])
    (x86_store_rseq_cs ++ x86_cbne_cpu_id l_abort_ip ++
     twice tw (x86_cbne_cpu_id c_err1) ++
     [I (IAddM (R Rv) (R Rcount)); L l_commit])
    (x86_abort []).

(** x86/bits.h:210-262; rbx is T1, rcx is T2 *)
Definition x64_add_load_load_add_store (tw : bool) (md : imode) : program :=
  assemble md (exits_none tw [c_err1])
    (x86_store_rseq_cs ++ x86_cbne_cpu_id l_abort_ip ++
     twice tw (x86_cbne_cpu_id c_err1) ++
     [I (ILd T1 (R Rptr)); I (IAdd T1 (R T1) (R Roff)); I (ILd T2 (R T1));
      I (IAddM (R T2) (R Rinc)); L l_commit])
    (x86_abort []).

(** x86/bits.h:264-338 *)
Definition x64_cbne2 (tw : bool) (md : imode) : program :=
  assemble md (exits_ne tw [c_err1; c_err2; c_err3])
    (x86_store_rseq_cs ++ x86_cbne_cpu_id l_abort_ip ++
     x86_cmp_ne (R Rv) (R Rexpect) c_ne ++ x86_cmp_ne (R Rv2) (R Rexpect2) c_ne ++
     twice tw (x86_cbne_cpu_id c_err1 ++ x86_cmp_ne (R Rv) (R Rexpect) c_err2 ++
               x86_cmp_ne (R Rv2) (R Rexpect2) c_err3) ++
     [I (ISt false (R Rv) (R Rnewv)); L l_commit])
    (x86_abort []).

(** x86/bits.h:346-414; no barrier for RELEASE (x86-TSO) *)
Definition x64_store_store (tw rel : bool) (md : imode) : program :=
  assemble md (exits_ne tw [c_err1; c_err2])
    (x86_store_rseq_cs ++ x86_cbne_cpu_id l_abort_ip ++
     x86_cmp_ne (R Rv) (R Rexpect) c_ne ++
     twice tw (x86_cbne_cpu_id c_err1 ++ x86_cmp_ne (R Rv) (R Rexpect) c_err2) ++
     [I (ISt false (R Rv2) (R Rnewv2)); I (ISt false (R Rv) (R Rnewv)); L l_commit])
    (x86_abort []).

(** x86/bits.h:416-527.  "test; je", "dec; jnz": the flag-setting part is the
    [ICmp] with 0. *)
Definition x64_memcpy (tw rel : bool) (md : imode) : program :=
  assemble md (exits_ne tw [c_err1; c_err2])
    (save_scratch ++
     x86_store_rseq_cs ++ x86_cbne_cpu_id l_abort_ip ++
     x86_cmp_ne (R Rv) (R Rexpect) 5%nat ++
     twice tw (x86_cbne_cpu_id 6%nat ++ x86_cmp_ne (R Rv) (R Rexpect) 7%nat) ++
     [I (ICmp (R Rlen) (K 0)); I (IJe 333%nat);
      L 222%nat;
      I (ILdB T0 (R Rsrc)); I (IStB (R Rdst) (R T0));
      I (IAdd Rsrc (R Rsrc) (K 1)); I (IAdd Rdst (R Rdst) (K 1));
      I (IAdd Rlen (R Rlen) (K (-1))); I (ICmp (R Rlen) (K 0));
      I (IJne 222%nat);
      L 333%nat;
      I (ISt false (R Rv) (R Rnewv)); L l_commit] ++
     restore_scratch)
    (x86_abort restore_scratch ++
     x86_teardown 5%nat restore_scratch c_ne ++
     twice tw (x86_teardown 6%nat restore_scratch c_err1 ++
               x86_teardown 7%nat restore_scratch c_err2)).

(** ** i386 (memory input operands, such as "m" (expect), are private to the call) *)

(** x86/bits.h:543-611 *)
Definition x32_cbne_store (tw : bool) (md : imode) : program := x64_cbne_store tw md.

(** x86/bits.h:613-689; ebx is T1 *)
Definition x32_pop (tw : bool) (md : imode) : program := x64_pop tw md.

(** x86/bits.h:691-746 *)
Definition x32_add_store (tw : bool) (md : imode) : program := x64_add_store tw md.

(** x86/bits.h:748-832; eax is T0 *)
Definition x32_cbne2 (tw : bool) (md : imode) : program :=
  assemble md (exits_ne tw [c_err1; c_err2; c_err3])
    (x86_store_rseq_cs ++ x86_cbne_cpu_id l_abort_ip ++
     x86_cmp_ne (R Rv) (R Rexpect) c_ne ++ x86_cmp_ne (R Rv2) (R Rexpect2) c_ne ++
     twice tw (x86_cbne_cpu_id c_err1 ++ x86_cmp_ne (R Rv) (R Rexpect) c_err2 ++
               x86_cmp_ne (R Rv2) (R Rexpect2) c_err3) ++
     [I (IMov T0 (R Rnewv)); I (ISt false (R Rv) (R T0)); L l_commit])
    (x86_abort []).

(** x86/bits.h:840-923; "lock; addl $0,-128(%esp)" is the barrier *)
Definition x32_store_store (tw rel : bool) (md : imode) : program :=
  assemble md (exits_ne tw [c_err1; c_err2])
    (x86_store_rseq_cs ++ x86_cbne_cpu_id l_abort_ip ++
     [I (IMov T0 (R Rexpect))] ++ x86_cmp_ne (R Rv) (R T0) c_ne ++
     twice tw (x86_cbne_cpu_id c_err1 ++
               [I (IMov T0 (R Rexpect))] ++ x86_cmp_ne (R Rv) (R T0) c_err2) ++
     [I (ISt false (R Rv2) (R Rnewv2))] ++
     (if rel then [I IFence] else []) ++
     [I (ISt false (R Rv) (R Rnewv)); L l_commit])
    (x86_abort []).

(** x86/bits.h:926-1037; ebx is T1, ecx is T2, edx is T3, al is T0 *)
Definition x32_memcpy (tw rel : bool) (md : imode) : program :=
  assemble md (exits_ne tw [c_err1; c_err2])
    (x86_store_rseq_cs ++ x86_cbne_cpu_id l_abort_ip ++
     [I (IMov T1 (R Rexpect))] ++ x86_cmp_ne (R Rv) (R T1) c_ne ++
     twice tw (x86_cbne_cpu_id c_err1 ++ x86_cmp_ne (R Rv) (R T1) c_err2) ++
     [I (IMov T1 (R Rdst)); I (IMov T2 (R Rsrc)); I (IMov T3 (R Rlen));
      I (ICmp (R T3) (K 0)); I (IJe 333%nat);
      L 222%nat;
      I (ILdB T0 (R T2)); I (IStB (R T1) (R T0));
      I (IAdd T2 (R T2) (K 1)); I (IAdd T1 (R T1) (K 1));
      I (IAdd T3 (R T3) (K (-1))); I (ICmp (R T3) (K 0));
      I (IJne 222%nat);
      L 333%nat] ++
     (if rel then [I IFence] else []) ++
     [I (IMov T1 (R Rnewv)); I (ISt false (R Rv) (R T1)); L l_commit])
    (x86_abort []).
