(** The memory-ordering macros, the instructions they expand to, and what the
    processors promise about those instructions.  Definitions only.

    A thread is the list of the memory accesses, barriers and conditional
    branches it has executed.  The compiler is trusted to keep the order of the
    macros and of the volatile accesses around them: every macro is a compiler
    barrier ([rseq_barrier()], include/rseq/compiler.h:19, or an asm
    with a "memory" clobber). *)
From Coq Require Import ZArith Bool List Relations.
From Verif Require Import Archs.
Import ListNotations.

(** * Instructions *)

(** Barrier instructions.  [FenceRV pr pw sr sw] is "fence p,s" of RISC-V, with
    the letters r and w of the two sets; [Dbar h] is "dbar h" of LoongArch. *)
Inductive fence :=
| LockAdd                               (* x86: lock; addl $0,-128(%rsp) *)
| Bcr15                                 (* s390: bcr 15,0 *)
| DmbIsh | DmbIshld | DmbIshst          (* AArch64: dmb ish, ishld, ishst *)
| Dmb                                   (* ARMv7: dmb *)
| Sync | Lwsync                         (* Power: sync, lwsync; MIPS: sync *)
| FenceRV (pr pw sr sw : bool)
| Dbar (h : Z).

(** What a thread has executed.  [Ld r x acq]: load location [x] into register
    [r]; [acq]: ldar.  [St x rel]: store to [x]; [rel]: stlr.  [Br r]: branch
    decided by register [r].  Values and addresses are not part of the model:
    [x] is the location that was accessed.  Accesses are single-copy atomic. *)
Inductive instr :=
| Ld (r : nat) (x : Z) (acq : bool)
| St (x : Z) (rel : bool)
| Fn (f : fence)
| Br (r : nat).

(** The macros. *)
Inductive prim :=
| PMb                                   (* rseq_smp_mb() *)
| PRmb                                  (* rseq_smp_rmb() *)
| PWmb                                  (* rseq_smp_wmb() *)
| PCtrl                                 (* rseq_smp_acquire__after_ctrl_dep() *)
| PLoadAcq (r : nat) (x : Z)            (* r = rseq_smp_load_acquire(x) *)
| PStoreRel (x : Z).                    (* rseq_smp_store_release(x, v) *)

(** include/rseq/arch/x86.h:48-72, for both x86-64 and i386 (%rsp does not exist
    on i386: rseq_smp_mb() does not assemble there; the model takes the
    instruction that was meant). *)
Definition expand_x86 (p : prim) : list instr :=
  match p with
  | PMb => [Fn LockAdd]
  | PRmb | PWmb | PCtrl => []
  | PLoadAcq r x => [Ld r x false]
  | PStoreRel x => [St x false]
  end.

(** include/rseq/arch/s390.h:32-56 *)
Definition expand_s390 (p : prim) : list instr :=
  match p with
  | PMb | PRmb | PWmb | PCtrl => [Fn Bcr15]
  | PLoadAcq r x => [Ld r x false]
  | PStoreRel x => [St x false]
  end.

(** include/rseq/arch/aarch64.h:38-107 (all four sizes) *)
Definition expand_aarch64 (p : prim) : list instr :=
  match p with
  | PMb => [Fn DmbIsh]
  | PRmb | PCtrl => [Fn DmbIshld]
  | PWmb => [Fn DmbIshst]
  | PLoadAcq r x => [Ld r x true]
  | PStoreRel x => [St x true]
  end.

(** include/rseq/arch/arm.h:77-101 *)
Definition expand_arm (p : prim) : list instr :=
  match p with
  | PMb | PRmb | PWmb | PCtrl => [Fn Dmb]
  | PLoadAcq r x => [Ld r x false; Fn Dmb]
  | PStoreRel x => [Fn Dmb; St x false]
  end.

(** include/rseq/arch/ppc.h:33-58 *)
Definition expand_ppc (p : prim) : list instr :=
  match p with
  | PMb => [Fn Sync]
  | PRmb | PWmb | PCtrl => [Fn Lwsync]
  | PLoadAcq r x => [Ld r x false; Fn Lwsync]
  | PStoreRel x => [Fn Lwsync; St x false]
  end.

(** include/rseq/arch/mips.h:63-87 *)
Definition expand_mips (p : prim) : list instr :=
  match p with
  | PMb | PRmb | PWmb | PCtrl => [Fn Sync]
  | PLoadAcq r x => [Ld r x false; Fn Sync]
  | PStoreRel x => [Fn Sync; St x false]
  end.

(** include/rseq/arch/riscv.h:52-78 *)
Definition expand_riscv (p : prim) : list instr :=
  match p with
  | PMb => [Fn (FenceRV true true true true)]
  | PRmb | PCtrl => [Fn (FenceRV true false true false)]
  | PWmb => [Fn (FenceRV false true false true)]
  | PLoadAcq r x => [Ld r x false; Fn (FenceRV true false true true)]
  | PStoreRel x => [Fn (FenceRV true true false true); St x false]
  end.

(** include/rseq/arch/loongarch.h:37-60 *)
Definition expand_loongarch (p : prim) : list instr :=
  match p with
  | PMb => [Fn (Dbar 0x10)]
  | PRmb | PCtrl => [Fn (Dbar 0x15)]
  | PWmb => [Fn (Dbar 0x1a)]
  | PLoadAcq r x => [Ld r x false; Fn (Dbar 0x14)]
  | PStoreRel x => [Fn (Dbar 0x12); St x false]
  end.

Definition expand (a : arch) : prim -> list instr :=
  match a with
  | X86_64 | I386 => expand_x86
  | S390 => expand_s390
  | AARCH64 => expand_aarch64
  | ARM => expand_arm
  | PPC => expand_ppc
  | MIPS => expand_mips
  | RISCV => expand_riscv
  | LOONGARCH => expand_loongarch
  end.

(** * Executions *)

(** The initial value of a location, or instruction number [i] of thread [t]. *)
Inductive event := Init (x : Z) | Ev (t i : nat).

(** [rf w r]: load [r] returned the value of store [w]; [co w w']: [w] is before
    [w'] in the order of the stores to their location. *)
Record exec := {
  trace : nat -> list instr;
  rf : event -> event -> Prop;
  co : event -> event -> Prop }.

Definition ins (E : exec) (e : event) : option instr :=
  match e with Init _ => None | Ev t i => nth_error (trace E t) i end.

(** [e] writes (reads) location [x]. *)
Definition writes (E : exec) (e : event) (x : Z) : Prop :=
  e = Init x \/ exists rel, ins E e = Some (St x rel).
Definition reads (E : exec) (e : event) (x : Z) : Prop :=
  exists r acq, ins E e = Some (Ld r x acq).
Definition acc (E : exec) (e : event) (x : Z) : Prop := writes E e x \/ reads E e x.

Definition same_thread (e f : event) : Prop :=
  match e, f with Ev t _, Ev u _ => t = u | _, _ => False end.
(** Earlier in the same thread. *)
Definition before (e f : event) : Prop :=
  match e, f with Ev t i, Ev u j => t = u /\ (i < j)%nat | _, _ => False end.
(** Program order, of memory accesses. *)
Definition po (E : exec) (e f : event) : Prop :=
  before e f /\ (exists x, acc E e x) /\ (exists y, acc E f y).
(** ... to one location *)
Definition poloc (E : exec) (e f : event) : Prop :=
  before e f /\ exists x, acc E e x /\ acc E f x.

(** [r] read something older than [w]. *)
Definition fr (E : exec) (r w : event) : Prop := exists w0, rf E w0 r /\ co E w0 w.
Definition com (E : exec) (e f : event) : Prop := rf E e f \/ co E e f \/ fr E e f.

Definition wf (E : exec) : Prop :=
  (forall w r, rf E w r -> exists x, writes E w x /\ reads E r x) /\
  (forall r x, reads E r x -> exists w, rf E w r) /\
  (forall w w' r, rf E w r -> rf E w' r -> w = w') /\
  (forall w w', co E w w' -> exists x, writes E w x /\ writes E w' x) /\
  (forall w w' w'', co E w w' -> co E w' w'' -> co E w w'') /\
  (forall w, ~ co E w w) /\
  (forall w w' x, writes E w x -> writes E w' x -> w = w' \/ co E w w' \/ co E w' w) /\
  (forall w x, ~ co E w (Init x)).

Definition acyclic (r : event -> event -> Prop) : Prop := forall e, ~ clos_trans event r e e.

(** The accesses to each location look sequential. *)
Definition uniproc (E : exec) : Prop := acyclic (fun e f => poloc E e f \/ com E e f).

(** * What the processors promise *)

Inductive dir := R | W.
Definition has_dir (E : exec) (e : event) (d : dir) : Prop :=
  match d with R => exists x, reads E e x | W => exists x, writes E e x end.

(** Which earlier accesses a barrier keeps in order with which later ones.
    For "dbar" the hint has a bit for the kind of the earlier accesses (8: reads,
    4: writes) and of the later ones (2: reads, 1: writes); a bit that is clear
    means ordered. *)
Definition orders (f : fence) (d1 d2 : dir) : bool :=
  match f with
  | LockAdd | Bcr15 | DmbIsh | Dmb | Sync => true
  | DmbIshld => match d1 with R => true | W => false end
  | DmbIshst => match d1, d2 with W, W => true | _, _ => false end
  | Lwsync => match d1, d2 with W, R => false | _, _ => true end
  | FenceRV pr pw sr sw =>
      match d1 with R => pr | W => pw end && match d2 with R => sr | W => sw end
  | Dbar h =>
      negb (Z.testbit h (match d1 with R => 3 | W => 2 end)) &&
      negb (Z.testbit h (match d2 with R => 1 | W => 0 end))
  end.
Definition full (f : fence) : bool :=
  orders f R R && orders f R W && orders f W R && orders f W W.

(** A barrier between the two accesses keeps them in order. *)
Definition fenced (E : exec) (e f : event) : Prop :=
  exists k fn d1 d2, ins E k = Some (Fn fn) /\ before e k /\ before k f /\
    has_dir E e d1 /\ has_dir E f d2 /\ orders fn d1 d2 = true.
Definition ffenced (E : exec) (e f : event) : Prop :=
  exists k fn, ins E k = Some (Fn fn) /\ full fn = true /\ before e k /\ before k f /\
    (exists x, acc E e x) /\ (exists y, acc E f y).

(** The value that load [e] put into a register decided branch [k]. *)
Definition decides (E : exec) (e k : event) : Prop :=
  exists r x acq, ins E e = Some (Ld r x acq) /\ ins E k = Some (Br r) /\ before e k /\
    (forall m y q, before e m -> before m k -> ins E m <> Some (Ld r y q)).
(** Stores behind a branch are not made before the branch is decided. *)
Definition ctrl (E : exec) (e f : event) : Prop :=
  exists k, decides E e k /\ before k f /\ exists x, writes E f x.

(** Order that needs no barrier.
    - x86 and s390 (TSO): everything but a store before a load.
    - AArch64 (the Arm ARM's ordered-before, as in aarch64.cat): ldar before what
      follows it, stlr after what precedes it, stlr before ldar, control
      dependencies to stores, accesses to one location of which the second is a
      store.
    - RISC-V (RVWMO): control dependencies to stores (rule 11), accesses to one
      location of which the second is a store (rule 1).
    - ARMv7, Power: control dependencies to stores.
    - MIPS, LoongArch: as on ARMv7 and Power; there is no formal description of
      these, and it is the weakest of all.
    The address and data dependencies and the atomic read-modify-writes of the
    published models are left out: this only allows more executions. *)
Definition poloc_w (E : exec) (e f : event) : Prop := poloc E e f /\ exists x, writes E f x.
Definition ppo (a : arch) (E : exec) (e f : event) : Prop :=
  match a with
  | X86_64 | I386 | S390 =>
      po E e f /\ ((exists x, reads E e x) \/ (exists x, writes E f x))
  | AARCH64 =>
      po E e f /\
      ((exists r x, ins E e = Some (Ld r x true)) \/
       (exists x, ins E f = Some (St x true)) \/
       ((exists x, ins E e = Some (St x true)) /\ exists r y, ins E f = Some (Ld r y true)))
      \/ ctrl E e f \/ poloc_w E e f
  | RISCV => ctrl E e f \/ poloc_w E e f
  | ARM | PPC | MIPS | LOONGARCH => ctrl E e f
  end.

(** Multi-copy atomic: all other processors see a store at the same time. *)
Definition mca (a : arch) : bool :=
  match a with X86_64 | I386 | S390 | AARCH64 | RISCV => true | _ => false end.

Definition ext (r : event -> event -> Prop) (e f : event) : Prop := r e f /\ ~ same_thread e f.

(** Multi-copy atomic architectures: one order of all accesses. *)
Definition ob (a : arch) (E : exec) (e f : event) : Prop :=
  ppo a E e f \/ fenced E e f \/ ext (com E) e f.

(** The others: the model of Alglave, Maranget and Tautschnig (Herding Cats,
    2014), with the barriers of the architecture. *)
Definition hb (a : arch) (E : exec) (e f : event) : Prop :=
  ppo a E e f \/ fenced E e f \/ ext (rf E) e f.
Definition star (r : event -> event -> Prop) := clos_refl_trans event r.
Definition prop_base (a : arch) (E : exec) (e f : event) : Prop :=
  exists m, (fenced E e m \/ exists n, ext (rf E) e n /\ fenced E n m) /\ star (hb a E) m f.
Definition prop (a : arch) (E : exec) (e f : event) : Prop :=
  (prop_base a E e f /\ (exists x, writes E e x) /\ exists x, writes E f x) \/
  (exists m n k, star (com E) e m /\ star (prop_base a E) m n /\ ffenced E n k /\
                 star (hb a E) k f).

(** The execution is one that architecture [a] allows. *)
Definition allowed (a : arch) (E : exec) : Prop :=
  wf E /\ uniproc E /\
  if mca a then acyclic (ob a E)
  else acyclic (hb a E) /\
       (forall e f g, ext (fr E) e f -> prop a E f g -> ~ star (hb a E) g e) /\
       acyclic (fun e f => co E e f \/ prop a E e f).
