(** Instruction-level model of the critical-section helpers: the assembly
    language used to transcribe include/rseq/arch/*/bits.h, and its one-step
    semantics.  Definitions only.

    Scope and simplifications (common to all architectures):
    - Shared memory is byte addressed, [Z -> Z]; only the low 8 bits of a cell
      are meaningful and every read reduces modulo 256.
    - A machine word has [wsize] bytes (4 or 8), in either byte order.  Word
      accesses are single indivisible steps (the code requires aligned
      intptr_t, for which every supported architecture guarantees this).
    - Input operands of the asm statements and clobbered registers are entries
      of a register file.  Stack slots used as scratch (rseq_scratch[],
      rseq_local) are private to the call and are also register-file entries.
    - The fields of struct rseq (include/rseq/abi.h) are per-thread and only
      reached through [IIdx], [ICmpIdx] and [ICs]; they are not part of the
      shared memory.
    - Computing the address of the descriptor (lea/adrp/la ...) is merged with
      the store of that address into rseq_cs ([ICs]): it only uses a scratch
      register, before the critical section. *)
From Coq Require Import ZArith Bool List.
Import ListNotations.
Local Open Scope Z_scope.

(** ** Memory *)
Definition mem := Z -> Z.

Record cfg := { wsize : nat; bigend : bool }.

Definition wmod (g : cfg) : Z := 2 ^ (8 * Z.of_nat (wsize g)).
Definition wrap (g : cfg) (x : Z) : Z := x mod wmod g.

Definition byte (m : mem) (a : Z) : Z := m a mod 256.

(** Addresses of [n] bytes starting at [a]. *)
Definition span (a : Z) (n : nat) : list Z := map (fun i => a + Z.of_nat i) (seq 0 n).

(** Little-endian value of a list of bytes. *)
Fixpoint le_val (l : list Z) : Z :=
  match l with [] => 0 | b :: l' => b + 256 * le_val l' end.

(** [n] little-endian bytes of a value. *)
Fixpoint le_bytes (n : nat) (v : Z) : list Z :=
  match n with O => [] | S n' => (v mod 256) :: le_bytes n' (v / 256) end.

Definition order (g : cfg) (l : list Z) : list Z := if bigend g then rev l else l.

(** Word load. *)
Definition ldw (g : cfg) (m : mem) (a : Z) : Z :=
  le_val (order g (map (byte m) (span a (wsize g)))).

(** The bytes written by a word store. *)
Definition stw (g : cfg) (a v : Z) : list (Z * Z) :=
  combine (span a (wsize g)) (order g (le_bytes (wsize g) v)).

(** Perform a list of byte writes, in order. *)
Definition upd_mem (m : mem) (p : Z * Z) : mem := fun a => if a =? fst p then snd p else m a.
Definition wr (m : mem) (ps : list (Z * Z)) : mem := fold_left upd_mem ps m.

(** ** Registers *)
Inductive reg :=
  (* input operands of the asm statements *)
  | Rcpu | Rv | Rexpect | Rnewv | Rexpectnot | Rvoffp | Rload | Rcount
  | Rptr | Roff | Rinc | Rv2 | Rexpect2 | Rnewv2 | Rdst | Rsrc | Rlen
  (* temporaries *)
  | T0 | T1 | T2 | T3 | T4
  (* scratch stack slots *)
  | S0 | S1 | S2
  (* condition flag: 1 when the last comparison found equality *)
  | ZF.

Definition reg_id (r : reg) : nat :=
  match r with
  | Rcpu => 0 | Rv => 1 | Rexpect => 2 | Rnewv => 3 | Rexpectnot => 4 | Rvoffp => 5
  | Rload => 6 | Rcount => 7 | Rptr => 8 | Roff => 9 | Rinc => 10 | Rv2 => 11
  | Rexpect2 => 12 | Rnewv2 => 13 | Rdst => 14 | Rsrc => 15 | Rlen => 16
  | T0 => 17 | T1 => 18 | T2 => 19 | T3 => 20 | T4 => 21
  | S0 => 22 | S1 => 23 | S2 => 24 | ZF => 25
  end.
Definition reg_eqb (a b : reg) : bool := Nat.eqb (reg_id a) (reg_id b).

Definition regs := reg -> Z.
Definition setr (rs : regs) (r : reg) (v : Z) : regs := fun r' => if reg_eqb r' r then v else rs r'.

Inductive opd := R (r : reg) | K (z : Z).
Definition val (rs : regs) (o : opd) : Z := match o with R r => rs r | K z => z end.

(** ** Instructions *)
Inductive exit := XOk | XNe | XAbort | XBug.

Inductive instr :=
  | IMov (d : reg) (s : opd)            (* register move, also to/from scratch slots *)
  | ILd (d : reg) (a : opd)             (* word load *)
  | ISt (rel : bool) (a s : opd)        (* word store; [rel]: store-release instruction *)
  | ILdB (d : reg) (a : opd)            (* byte load (zero extended) *)
  | IStB (a s : opd)                    (* byte store *)
  | IAdd (d : reg) (a b : opd)          (* d := a + b, wrapping *)
  | IAddM (a s : opd)                   (* x86 add to memory: one read-modify-write *)
  | IIdx (d : reg)                      (* load the 32-bit cpu_id / mm_cid field *)
  | ICmp (a b : opd)                    (* compare two values, set ZF *)
  | ICmpM (a b : opd)                   (* compare the word at address a with b, set ZF *)
  | ICmpIdx (b : opd)                   (* compare the index field with b, set ZF *)
  | IJne (l : nat) | IJe (l : nat)      (* branch on ZF *)
  | IBne (a b : opd) (l : nat) | IBeq (a b : opd) (l : nat)  (* compare and branch *)
  | IJmp (l : nat)
  | ICs                                 (* store the descriptor address into rseq_cs *)
  | IFence                              (* release barrier (dmb, lwsync, sync, fence, dbar) *)
  | ISig                                (* the 32-bit signature RSEQ_SIG (not executable) *)
  | IExit (x : exit).                   (* leave the asm statement through a C label *)

(** ** Assembly: numeric labels are resolved to instruction indices. *)
Inductive item := L (n : nat) | I (i : instr).

Fixpoint lookup_label (its : list item) (n pos : nat) : nat :=
  match its with
  | [] => pos
  | L k :: r => if Nat.eqb k n then pos else lookup_label r n pos
  | I _ :: r => lookup_label r n (S pos)
  end.

Definition resolve (its : list item) (i : instr) : instr :=
  let f l := lookup_label its l 0 in
  match i with
  | IJne l => IJne (f l) | IJe l => IJe (f l) | IJmp l => IJmp (f l)
  | IBne a b l => IBne a b (f l) | IBeq a b l => IBeq a b (f l)
  | _ => i
  end.

Fixpoint instrs (its : list item) : list instr :=
  match its with [] => [] | L _ :: r => instrs r | I i :: r => i :: instrs r end.

(** Index mode of the template (include/rseq/arch/templates/bits.h:8-26). *)
Inductive imode := CPU_ID | MM_CID.

Record program := {
  code : list instr;
  cs_start : nat;      (* start_ip *)
  cs_commit : nat;     (* start_ip + post_commit_offset *)
  cs_abort : nat;      (* abort_ip *)
  cs_exits : list nat; (* declared exit points *)
  pmode : imode
}.

(** Labels: 1, 2, 4 as in every asm statement; the C labels of asm goto. *)
Definition l_start : nat := 1.
Definition l_commit : nat := 2.
Definition l_abort_ip : nat := 4.
Definition c_abort : nat := 100.
Definition c_ne : nat := 101.
Definition c_err1 : nat := 102.
Definition c_err2 : nat := 103.
Definition c_err3 : nat := 104.

(** The C code after the asm statement: falling out of the asm returns 0; the
    labels abort / ne (or eq) / error1..3 return -1, 1 and call rseq_bug(). *)
Definition c_epilogue : list item :=
  [ I (IExit XOk);
    L c_abort; I (IExit XAbort);
    L c_ne; I (IExit XNe);
    L c_err1; I (IExit XBug);
    L c_err2; I (IExit XBug);
    L c_err3; I (IExit XBug) ].

(** Build a program from the asm text.  [failure] is what the asm places in the
    separate section __rseq_failure.  RSEQ_ASM_DEFINE_TABLE(3, 1f, 2f, 4f):
    include/rseq/arch/generic/common.h:15-60. *)
Definition assemble (m : imode) (exits : list nat) (body failure : list item) : program :=
  let its := body ++ c_epilogue ++ failure in
  {| code := map (resolve its) (instrs its);
     cs_start := lookup_label its l_start 0;
     cs_commit := lookup_label its l_commit 0;
     cs_abort := lookup_label its l_abort_ip 0;
     cs_exits := map (fun l => lookup_label its l 0) exits;
     pmode := m |}.

(** ** One-step semantics *)
Inductive eff :=
  | ENone
  | EWr (ps : list (Z * Z))
  | ECs
  | EExit (x : exit).

(** [istep g P m idx pc rs]: the instruction at [pc], run with shared memory
    [m] and index field [idx].  Result: next pc, registers, effect, and the
    shared bytes read.  [None]: not executable. *)
Definition istep (g : cfg) (P : program) (m : mem) (idx : Z) (pc : nat) (rs : regs)
  : option (nat * regs * eff * list Z) :=
  match nth_error (code P) pc with
  | None => None
  | Some i =>
    match i with
    | IMov d s => Some (S pc, setr rs d (val rs s), ENone, [])
    | ILd d a => Some (S pc, setr rs d (ldw g m (val rs a)), ENone, span (val rs a) (wsize g))
    | ISt _ a s => Some (S pc, rs, EWr (stw g (val rs a) (val rs s)), [])
    | ILdB d a => Some (S pc, setr rs d (byte m (val rs a)), ENone, [val rs a])
    | IStB a s => Some (S pc, rs, EWr [(val rs a, val rs s mod 256)], [])
    | IAdd d a b => Some (S pc, setr rs d (wrap g (val rs a + val rs b)), ENone, [])
    | IAddM a s =>
        Some (S pc, rs, EWr (stw g (val rs a) (wrap g (ldw g m (val rs a) + val rs s))),
              span (val rs a) (wsize g))
    | IIdx d => Some (S pc, setr rs d idx, ENone, [])
    | ICmp a b => Some (S pc, setr rs ZF (if val rs a =? val rs b then 1 else 0), ENone, [])
    | ICmpM a b =>
        Some (S pc, setr rs ZF (if ldw g m (val rs a) =? val rs b then 1 else 0), ENone,
              span (val rs a) (wsize g))
    | ICmpIdx b => Some (S pc, setr rs ZF (if idx =? val rs b then 1 else 0), ENone, [])
    | IJne l => Some (if rs ZF =? 0 then l else S pc, rs, ENone, [])
    | IJe l => Some (if rs ZF =? 0 then S pc else l, rs, ENone, [])
    | IBne a b l => Some (if val rs a =? val rs b then S pc else l, rs, ENone, [])
    | IBeq a b l => Some (if val rs a =? val rs b then l else S pc, rs, ENone, [])
    | IJmp l => Some (l, rs, ENone, [])
    | ICs => Some (S pc, rs, ECs, [])
    | IFence => Some (S pc, rs, ENone, [])
    | ISig => None
    | IExit x => Some (pc, rs, EExit x, [])
    end
  end.

(** Following the code from [pc] outside the critical section: register moves
    and jumps up to the C label.  [None] if anything else is met. *)
Fixpoint tail_exit (P : program) (fuel pc : nat) : option exit :=
  match fuel with
  | O => None
  | S fuel =>
    match nth_error (code P) pc with
    | Some (IMov _ _) => tail_exit P fuel (S pc)
    | Some (IJmp l) => tail_exit P fuel l
    | Some (IExit x) => Some x
    | _ => None
    end
  end.
Definition exit_of (P : program) (pc : nat) : option exit := tail_exit P (length (code P)) pc.

(** Value returned by the C function (bits.h, after each asm statement). *)
Definition exit_ret (x : exit) : option Z :=
  match x with XOk => Some 0 | XNe => Some 1 | XAbort => Some (-1) | XBug => None end.
