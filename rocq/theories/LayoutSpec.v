(** What the kernel and a debugger read.  The layouts are those of the Linux
    system call (struct rseq and struct rseq_cs of uapi/linux/rseq.h), written as
    numbers and independent of the library's headers.  Definitions only. *)
From Coq Require Import ZArith Bool List.
From Verif Require Import LayoutModel.
Import ListNotations.
Local Open Scope Z_scope.

(** The program is loaded and linked: memory has the bytes of the directives [l]
    at [a], and every label of [l] has the address where it ended up. *)
Definition loaded (b : build) (env : label -> Z) (m : memory) (a : Z) (l : list item) : Prop :=
  exists fill, bytes_at m a (length (emit b fill env a l)) = emit b fill env a l /\
  forall x y, In (x, y) (places a l) -> env x = y.
(** An address of the build; on 31-bit S/390 it has 31 bits. *)
Definition is_address (b : build) (a : Z) : Prop :=
  0 <= a < 2 ^ (match b with S390 => 31 | _ => 8 * Z.of_nat (ptr_bytes b) end).

(** Descriptor as the kernel copies it: 32 bytes, aligned on 32 bytes. *)
Record descriptor := { d_version : Z; d_flags : Z; d_start_ip : Z; d_post_commit_offset : Z; d_abort_ip : Z }.
Definition kernel_descriptor (b : build) (m : memory) (a : Z) : descriptor :=
  {| d_version := load (data_order b) m a 4;
     d_flags := load (data_order b) m (a + 4) 4;
     d_start_ip := load (data_order b) m (a + 8) 8;
     d_post_commit_offset := load (data_order b) m (a + 16) 8;
     d_abort_ip := load (data_order b) m (a + 24) 8 |}.
(** The descriptor says what the critical section [s] is. *)
Definition describes (env : label -> Z) (s : section) (d : descriptor) : Prop :=
  d = {| d_version := 0; d_flags := 0; d_start_ip := env (s_start s);
         d_post_commit_offset := env (s_post s) - env (s_start s); d_abort_ip := env (s_abort s) |}.
(** The section is well placed: addresses of the build, the end after the start. *)
Definition well_placed (b : build) (env : label -> Z) (s : section) : Prop :=
  is_address b (env (s_start s)) /\ is_address b (env (s_post s)) /\ is_address b (env (s_abort s)) /\
  env (s_start s) <= env (s_post s).

(** The kernel accepts an abort handler if the word before it is the signature
    given at registration. *)
Definition kernel_signature (b : build) (m : memory) (abort_ip : Z) : Z := load (data_order b) m (abort_ip - 4) 4.

(** Instructions as the processor fetches them: halfwords on microMIPS and
    nanoMIPS, words elsewhere (on x86 see below). *)
Definition fetch (b : build) (m : memory) (a : Z) : Z :=
  match b with
  | MipsB _ o MicroMips | MipsB _ o NanoMips => 2 ^ 16 * load o m a 2 + load o m (a + 2) 2
  | _ => load (code_order b) m a 4
  end.
(** Just before the abort handler there is an instruction that traps: UD1, UDF
    #0x5de3, BRK #0x45e0, TWUI r5,11, BREAK 0x350, TRAP4 4095(%r0), CSRW
    mhartid,x0, BREAK 0x10. *)
Definition traps_before (b : build) (m : memory) (abort_ip : Z) : Prop :=
  match b with
  | Amd64 | X32 | I386 => bytes_at m (abort_ip - 7) 2 = [0x0f; 0xb9]
  | ArmLE | ArmBE8 | ArmBE32 => fetch b m (abort_ip - 4) = 0xe7f5def3
  | Aarch64LE | Aarch64BE => fetch b m (abort_ip - 4) = 0xd428bc00
  | Ppc32 | Ppc64BE | Ppc64LE => fetch b m (abort_ip - 4) = 0x0fe5000b
  | MipsB _ _ Mips => fetch b m (abort_ip - 4) = 0x0350000d
  | MipsB _ _ MicroMips => fetch b m (abort_ip - 4) = 0x0000d407
  | MipsB _ _ NanoMips => fetch b m (abort_ip - 4) = 0x00100350
  | S390 | S390x => fetch b m (abort_ip - 4) = 0xb2ff0fff
  | Riscv32 | Riscv64 => fetch b m (abort_ip - 4) = 0xf1401073
  | Loongarch64 => fetch b m (abort_ip - 4) = 0x002a0010
  end.

(** An array of 64-bit integers. *)
Definition array64 (b : build) (m : memory) (a : Z) (n : nat) : list Z :=
  map (fun i => load (data_order b) m (a + 8 * Z.of_nat i) 8) (seq 0 n).

(** Where the kernel has the fields of the per-thread area. *)
Definition kernel_offset (f : member) : Z :=
  match f with CpuIdStart => 0 | CpuId => 4 | RseqCs => 8 | Flags => 16 | NodeId => 20 | MmCid => 24 end.
Definition kernel_store (b : build) (m : memory) (abi : Z) (f : member) (v : Z) : memory :=
  store (data_order b) m (abi + kernel_offset f) 4 v.
Definition kernel_rseq_cs (b : build) (m : memory) (abi : Z) : Z := load (data_order b) m (abi + 8) 8.

(** What happens to the per-thread area: a critical section starts, with the
    descriptor at [d]; the thread calls rseq_prepare_unload(); the kernel resets
    the descriptor pointer, or updates one of its 32-bit fields. *)
Inductive event := Start (ip d : Z) | Unload | Reset | Update (f : member) (v : Z).
Definition happen (b : build) (abi : Z) (m : memory) (e : event) : memory :=
  match e with
  | Start ip d => store_cs b m abi ip d
  | Unload => clear_cs b m abi
  | Reset => store (data_order b) m (abi + 8) 8 0
  | Update f v => kernel_store b m abi f v
  end.
(** The linker accepts the reference: within 2 GiB on x86-64 and 4 GiB on AArch64
    and S/390, even addresses on S/390. *)
Definition reaches (b : build) (ip d : Z) : Prop :=
  match b with
  | Amd64 | X32 => - 2 ^ 31 <= d - ip < 2 ^ 31
  | Aarch64LE | Aarch64BE => - 2 ^ 20 <= d / 2 ^ 12 - ip / 2 ^ 12 < 2 ^ 20
  | S390 | S390x => Z.even d = true /\ Z.even ip = true /\ - 2 ^ 32 <= d - ip < 2 ^ 32
  | _ => True
  end.
Definition permitted (b : build) (e : event) : Prop :=
  match e with
  | Start ip d => is_address b d /\ reaches b ip d
  | Unload | Reset => True
  | Update f v => f <> RseqCs /\ 0 <= v < 2 ^ 32
  end.
(** The descriptor pointer and the fields after a history, newest event first. *)
Fixpoint pointer_after (h : list event) : Z :=
  match h with
  | [] => 0
  | Start _ d :: _ => d
  | Unload :: _ | Reset :: _ => 0
  | Update _ _ :: h => pointer_after h
  end.
Fixpoint field_after (before : Z) (f : member) (h : list event) : Z :=
  match h with
  | [] => before
  | Update g v :: h => if member_eqb g f then v else field_after before f h
  | _ :: h => field_after before f h
  end.
Definition area_after (b : build) (abi : Z) (m : memory) (h : list event) : memory :=
  fold_right (fun e m => happen b abi m e) m h.
(** No descriptor before the first event: src/rseq.c:74-76 leaves this field of
    the area zero, as glibc does. *)
Definition no_descriptor (m : memory) (abi : Z) : Prop := bytes_at m (abi + 8) 8 = repeat 0 8.
