(** The helpers of every architecture, and the public entry points of
    include/rseq/rseq.h that select them. *)
From Coq Require Import ZArith Bool List.
From Verif Require Import RseqIR RseqSpec RseqKernel.
From Verif Require Import Arch_x86 Arch_aarch64 Arch_arm Arch_loongarch Arch_mips Arch_ppc Arch_riscv Arch_s390.
Import ListNotations.
Local Open Scope Z_scope.

(** Architectures with an implementation (include/rseq/arch.h:11-31). *)
Inductive arch := X86_64 | I386 | AARCH64 | ARM | LOONGARCH | MIPS | PPC | RISCV | S390.

(** The template instance compiled for a helper: [tw] is the RSEQ_COMPARE_TWICE
    build, [rel] the release template, [md] the index template.  Helpers other
    than cbne_store_store and cbne_memcpy_store exist in the relaxed template
    only; load_add_load_load_add_store exists on x86-64 only
    (include/rseq/arch/x86/bits.h:27-341, 343-530 and the same lines of the
    other bits.h files). *)
Definition helper (a : arch) (tw rel : bool) (md : imode) (kd : kind) : option program :=
  match kd, rel with
  | KCbneStore, false => Some (match a with X86_64 => x64_cbne_store tw md | I386 => x32_cbne_store tw md | AARCH64 => a64_cbne_store tw md | ARM => arm_cbne_store tw md | LOONGARCH => la_cbne_store tw md | MIPS => mips_cbne_store tw md | PPC => ppc_cbne_store tw md | RISCV => rv_cbne_store tw md | S390 => s390_cbne_store tw md end)
  | KAddStore, false => Some (match a with X86_64 => x64_add_store tw md | I386 => x32_add_store tw md | AARCH64 => a64_add_store tw md | ARM => arm_add_store tw md | LOONGARCH => la_add_store tw md | MIPS => mips_add_store tw md | PPC => ppc_add_store tw md | RISCV => rv_add_store tw md | S390 => s390_add_store tw md end)
  | KPop, false => Some (match a with X86_64 => x64_pop tw md | I386 => x32_pop tw md | AARCH64 => a64_pop tw md | ARM => arm_pop tw md | LOONGARCH => la_pop tw md | MIPS => mips_pop tw md | PPC => ppc_pop tw md | RISCV => rv_pop tw md | S390 => s390_pop tw md end)
  | KAddLoadLoad, false => match a with X86_64 => Some (x64_add_load_load_add_store tw md) | _ => None end
  | KCbne2, false => Some (match a with X86_64 => x64_cbne2 tw md | I386 => x32_cbne2 tw md | AARCH64 => a64_cbne2 tw md | ARM => arm_cbne2 tw md | LOONGARCH => la_cbne2 tw md | MIPS => mips_cbne2 tw md | PPC => ppc_cbne2 tw md | RISCV => rv_cbne2 tw md | S390 => s390_cbne2 tw md end)
  | KStoreStore, _ => Some (match a with X86_64 => x64_store_store tw rel md | I386 => x32_store_store tw rel md | AARCH64 => a64_store_store tw rel md | ARM => arm_store_store tw rel md | LOONGARCH => la_store_store tw rel md | MIPS => mips_store_store tw rel md | PPC => ppc_store_store tw rel md | RISCV => rv_store_store tw rel md | S390 => s390_store_store tw rel md end)
  | KMemcpy, _ => Some (match a with X86_64 => x64_memcpy tw rel md | I386 => x32_memcpy tw rel md | AARCH64 => a64_memcpy tw rel md | ARM => arm_memcpy tw rel md | LOONGARCH => la_memcpy tw rel md | MIPS => mips_memcpy tw rel md | PPC => ppc_memcpy tw rel md | RISCV => rv_memcpy tw rel md | S390 => s390_memcpy tw rel md end)
  | _, true => None
  end.

(** A program whose text segment holds instances of the library's helpers. *)
Definition lib_text (a : arch) (tw : bool) (tx : text) : Prop :=
  forall id P kd, tx id = Some (P, kd) -> exists rel md, helper a tw rel md kd = Some P.

(** ** Public entry points, include/rseq/rseq.h:239-391 *)

(** enum rseq_mo and enum rseq_percpu_mode, include/rseq/rseq.h:28-40. *)
Definition RSEQ_MO_RELAXED : Z := 0.
Definition RSEQ_MO_CONSUME : Z := 1.
Definition RSEQ_MO_ACQUIRE : Z := 2.
Definition RSEQ_MO_RELEASE : Z := 3.
Definition RSEQ_MO_ACQ_REL : Z := 4.
Definition RSEQ_MO_SEQ_CST : Z := 5.
Definition RSEQ_PERCPU_CPU_ID : Z := 0.
Definition RSEQ_PERCPU_MM_CID : Z := 1.

(** Either the function returns at once, or it runs a template instance on the
    given arguments. *)
Inductive selected := Return (r : Z) | Run (rel : bool) (md : imode) (op : opcall) (cpu : Z).

(** The switch on percpu_mode. *)
Definition by_mode (mode : Z) (f : imode -> selected) : selected :=
  if mode =? RSEQ_PERCPU_CPU_ID then f CPU_ID
  else if mode =? RSEQ_PERCPU_MM_CID then f MM_CID
  else Return (-1).

(** rseq.h:239-254 *)
Definition rseq_load_cbne_store (mo mode v expect newv cpu : Z) : selected :=
  if negb (mo =? RSEQ_MO_RELAXED) then Return (-1)
  else by_mode mode (fun md => Run false md (CbneStore v expect newv) cpu).
(** rseq.h:256-271 *)
Definition rseq_load_cbeq_store_add_load_store (mo mode v expectnot voffp load cpu : Z) : selected :=
  if negb (mo =? RSEQ_MO_RELAXED) then Return (-1)
  else by_mode mode (fun md => Run false md (CbeqStoreAddLoadStore v expectnot voffp load) cpu).
(** rseq.h:273-287 *)
Definition rseq_load_add_store (mo mode v count cpu : Z) : selected :=
  if negb (mo =? RSEQ_MO_RELAXED) then Return (-1)
  else by_mode mode (fun md => Run false md (AddStore v count) cpu).
(** rseq.h:289-305 *)
Definition rseq_load_add_load_load_add_store (mo mode ptr off inc cpu : Z) : selected :=
  if negb (mo =? RSEQ_MO_RELAXED) then Return (-1)
  else by_mode mode (fun md => Run false md (AddLoadLoadAddStore ptr off inc) cpu).
(** rseq.h:307-339 *)
Definition rseq_load_cbne_store_store (mo mode v expect v2 newv2 newv cpu : Z) : selected :=
  if mo =? RSEQ_MO_RELAXED then by_mode mode (fun md => Run false md (CbneStoreStore v expect v2 newv2 newv) cpu)
  else if mo =? RSEQ_MO_RELEASE then by_mode mode (fun md => Run true md (CbneStoreStore v expect v2 newv2 newv) cpu)
  else Return (-1).
(** rseq.h:341-357 *)
Definition rseq_load_cbne_load_cbne_store (mo mode v expect v2 expect2 newv cpu : Z) : selected :=
  if negb (mo =? RSEQ_MO_RELAXED) then Return (-1)
  else by_mode mode (fun md => Run false md (CbneLoadCbneStore v expect v2 expect2 newv) cpu).
(** rseq.h:359-391 *)
Definition rseq_load_cbne_memcpy_store (mo mode v expect dst src : Z) (len : nat) (newv cpu : Z) : selected :=
  if mo =? RSEQ_MO_RELAXED then by_mode mode (fun md => Run false md (CbneMemcpyStore v expect dst src len newv) cpu)
  else if mo =? RSEQ_MO_RELEASE then by_mode mode (fun md => Run true md (CbneMemcpyStore v expect dst src len newv) cpu)
  else Return (-1).

(** All entry points, by the operation they are asked for. *)
Definition entry_point (mo mode : Z) (op : opcall) (cpu : Z) : selected :=
  match op with
  | CbneStore v expect newv => rseq_load_cbne_store mo mode v expect newv cpu
  | AddStore v count => rseq_load_add_store mo mode v count cpu
  | CbeqStoreAddLoadStore v expectnot voffp load =>
      rseq_load_cbeq_store_add_load_store mo mode v expectnot voffp load cpu
  | AddLoadLoadAddStore ptr off inc => rseq_load_add_load_load_add_store mo mode ptr off inc cpu
  | CbneLoadCbneStore v expect v2 expect2 newv => rseq_load_cbne_load_cbne_store mo mode v expect v2 expect2 newv cpu
  | CbneStoreStore v expect v2 newv2 newv => rseq_load_cbne_store_store mo mode v expect v2 newv2 newv cpu
  | CbneMemcpyStore v expect dst src len newv => rseq_load_cbne_memcpy_store mo mode v expect dst src len newv cpu
  end.

(** Calling an entry point with nothing else running: [ar] is the thread's rseq
    area, [junk] the content of the registers.  [None]: it does not return
    within [fuel] instructions, or the architecture has no such helper. *)
Definition call_entry (g : cfg) (a : arch) (tw : bool) (ar : area) (fuel : nat) (junk : regs) (m : mem)
    (mo mode : Z) (op : opcall) (cpu : Z) : option (Z * mem) :=
  match entry_point mo mode op cpu with
  | Return r => Some (r, m)
  | Run rel md op' cpu' =>
    match helper a tw rel md (kind_of op') with
    | None => None
    | Some P =>
      run_alone g P (index ar (pmode P)) fuel m 0
        (init_regs {| c_code := 0; c_op := op'; c_cpu := cpu'; c_mode := md |} junk)
    end
  end.
