(** What the helpers put into memory, byte by byte, for the kernel and for
    debuggers: the critical section descriptors, the signature before the abort
    handlers, the arrays of descriptors and exit points, and the accesses to the
    fields of the per-thread area.  One model per build: architecture, word size
    and byte order.  Executable definitions, no proofs.

    Simplifications: a local label such as "1f" is an identifier whose address
    the linker chooses; the instructions between the labels are not part of this
    file (they are in Arch_*.v); an assembler pseudo-instruction that loads the
    address of a label ("la", "dla", "la.local", "adr") loads it. *)
From Coq Require Import ZArith Bool List.
Import ListNotations.
Local Open Scope Z_scope.

(** * Builds *)

Inductive order := Little | Big.
Inductive mips_isa := Mips | MicroMips | NanoMips.
(** The builds that include/rseq/arch.h:33-109 selects between, with the
    distinctions made inside the headers: word size
    (x86.h:85-89, ppc.h:86-91, s390.h:79-84, mips.h:110-118, riscv.h:38-42),
    data byte order (arm.h:66-70, aarch64.h:25-29, mips.h:113-117), linker's choice of the order of
    code on big endian ARM (arm.h:36-64) and MIPS instruction set (mips.h:40-56).
    The header for PowerPC 32 and for S/390 supports big endian only (ppc.h:89,
    s390.h:82), the one for RISC-V little endian only (riscv.h:28-32).
    X32 is x86-64 with 32-bit pointers: RSEQ_ARCH_AMD64 without __LP64__. *)
Inductive build :=
| Amd64 | X32 | I386
| ArmLE | ArmBE8 | ArmBE32
| Aarch64LE | Aarch64BE
| Ppc32 | Ppc64BE | Ppc64LE
| MipsB (long64 : bool) (o : order) (isa : mips_isa)
| S390 | S390x
| Riscv32 | Riscv64
| Loongarch64.

(** Byte order of data. *)
Definition data_order (b : build) : order :=
  match b with
  | Amd64 | X32 | I386 | ArmLE | Aarch64LE | Ppc64LE | Riscv32 | Riscv64 | Loongarch64 => Little
  | ArmBE8 | ArmBE32 | Aarch64BE | Ppc32 | Ppc64BE | S390 | S390x => Big
  | MipsB _ o _ => o
  end.
(** Byte order of instructions: arm.h:36-50 and aarch64.h:18-21 on the mixed
    order of big endian ARM builds. *)
Definition code_order (b : build) : order :=
  match b with ArmBE8 | Aarch64BE => Little | _ => data_order b end.
(** Bytes of a pointer ([__LP64__] of abi.h:116). *)
Definition ptr_bytes (b : build) : nat :=
  match b with
  | Amd64 | Aarch64LE | Aarch64BE | Ppc64BE | Ppc64LE | S390x | Riscv64 | Loongarch64 => 8
  | X32 | I386 | ArmLE | ArmBE8 | ArmBE32 | Ppc32 | S390 | Riscv32 => 4
  | MipsB true _ _ => 8
  | MipsB false _ _ => 4
  end%nat.

(** * Bytes *)

Fixpoint le_bytes (n : nat) (v : Z) : list Z :=
  match n with O => [] | S n => v mod 256 :: le_bytes n (v / 256) end.
(** The [n] bytes of the integer [v]. *)
Definition int_bytes (o : order) (n : nat) (v : Z) : list Z :=
  match o with Little => le_bytes n v | Big => rev (le_bytes n v) end.
Fixpoint le_value (l : list Z) : Z :=
  match l with [] => 0 | x :: l => x + 256 * le_value l end.
Definition int_value (o : order) (l : list Z) : Z :=
  match o with Little => le_value l | Big => le_value (rev l) end.

(** Memory, by byte. *)
Definition memory := Z -> Z.
Definition bytes_at (m : memory) (a : Z) (n : nat) : list Z :=
  map (fun i => m (a + Z.of_nat i)) (seq 0 n).
(** An access of [n] bytes in the byte order [o]. *)
Definition load (o : order) (m : memory) (a : Z) (n : nat) : Z := int_value o (bytes_at m a n).
Definition store (o : order) (m : memory) (a : Z) (n : nat) (v : Z) : memory :=
  fun x => if (a <=? x) && (x <? a + Z.of_nat n) then nth (Z.to_nat (x - a)) (int_bytes o n v) 0 else m x.

(** * Assembler *)

Definition label := Z.
Inductive expr := Num (v : Z) | Lab (l : label) | Sub (l k : label).
(** Directives: [.byte], [.long]/[.word] (4 bytes), [.quad]/[.dword] (8 bytes),
    [.inst], [.balign] and "label:". *)
Inductive item := DByte (v : Z) | DLong (e : expr) | DQuad (e : expr) | DInst (v : Z) | DBalign (n : Z) | DLabel (l : label).

Definition eval (env : label -> Z) (e : expr) : Z :=
  match e with Num v => v | Lab l => env l | Sub l k => env l - env k end.
(** The number of bytes [.balign n] inserts at the address [a]. *)
Definition pad (a n : Z) : Z := if 0 <? n then (- a) mod n else 0.
(** The bytes at address [a] for a list of directives; [fill] are the bytes with
    which the assembler pads. *)
Fixpoint emit (b : build) (fill : Z -> Z) (env : label -> Z) (a : Z) (l : list item) : list Z :=
  match l with
  | [] => []
  | d :: l =>
    let bs := match d with
      | DByte v => [v mod 256]
      | DLong e => int_bytes (data_order b) 4 (eval env e)
      | DQuad e => int_bytes (data_order b) 8 (eval env e)
      | DInst v => int_bytes (code_order b) 4 v
      | DBalign n => map (fun i => fill (a + Z.of_nat i)) (seq 0 (Z.to_nat (pad a n)))
      | DLabel _ => []
      end in
    bs ++ emit b fill env (a + Z.of_nat (length bs)) l
  end.
(** The addresses at which the labels of the list end up. *)
Definition size (a : Z) (d : item) : Z :=
  match d with DByte _ => 1 | DLong _ | DInst _ => 4 | DQuad _ => 8 | DBalign n => pad a n | DLabel _ => 0 end.
Fixpoint places (a : Z) (l : list item) : list (label * Z) :=
  match l with
  | [] => []
  | d :: l => (match d with DLabel x => [(x, a)] | _ => [] end) ++ places (a + size a d) l
  end.

(** * Macros *)

(** RSEQ_ASM_U64_PTR: x86.h:85-89, arm.h:102-106, aarch64.h:110, ppc.h:86-91,
    mips.h:110-118, s390.h:79-84, riscv.h:80, loongarch.h:76. *)
Definition u64_ptr (b : build) (x : expr) : list item :=
  match b with
  | Amd64 | X32 => [DQuad x]
  | I386 => [DLong x; DLong (Num 0)]
  | ArmBE8 | ArmBE32 => [DLong (Num 0); DLong x]
  | ArmLE => [DLong x; DLong (Num 0)]
  | Aarch64LE | Aarch64BE => [DQuad x]
  | Ppc64BE | Ppc64LE => [DQuad x]
  | Ppc32 => [DLong (Num 0); DLong x]
  | MipsB true _ _ => [DQuad x]
  | MipsB false Big _ => [DLong (Num 0); DLong x]
  | MipsB false Little _ => [DLong x; DLong (Num 0)]
  | S390x => [DQuad x]
  | S390 => [DLong (Num 0); DLong x]
  | Riscv32 | Riscv64 => [DQuad x]
  | Loongarch64 => [DQuad x]
  end.
(** RSEQ_ASM_U32: x86.h:91, arm.h:108, aarch64.h:111, ppc.h:93, mips.h:120,
    s390.h:86, riscv.h:81, loongarch.h:77. *)
Definition u32 (x : expr) : list item := [DLong x].

(** __RSEQ_ASM_DEFINE_CS_FIELDS, generic/common.h:14-20. *)
Definition cs_fields (b : build) (version flags start_ip post_commit_offset abort_ip : expr) : list item :=
  u32 version ++ u32 flags ++ u64_ptr b start_ip ++ u64_ptr b post_commit_offset ++ u64_ptr b abort_ip.

(** The labels of one critical section: its descriptor in the section
    [__rseq_cs], first instruction, first instruction after the commit, abort
    handler. *)
Record section := { s_table : label; s_start : label; s_post : label; s_abort : label }.

(** RSEQ_ASM_DEFINE_TABLE, generic/common.h:23-53: the part that goes to the
    section [__rseq_cs]. *)
Definition table_cs (b : build) (s : section) : list item :=
  [DBalign 32; DLabel (s_table s)] ++
  cs_fields b (Num 0) (Num 0) (Lab (s_start s)) (Sub (s_post s) (s_start s)) (Lab (s_abort s)).
(** The part that goes to the section [__rseq_cs_ptr_array],
    generic/common.h:31-33. *)
Definition table_ptr (b : build) (s : section) : list item := u64_ptr b (Lab (s_table s)).
(** RSEQ_ASM_DEFINE_EXIT_POINT, generic/common.h:71-75. *)
Definition exit_point (b : build) (p : label * label) : list item :=
  u64_ptr b (Lab (fst p)) ++ u64_ptr b (Lab (snd p)).
(** The linker joins what every helper puts into a section. *)
Definition rseq_cs_section (b : build) (l : list section) : list item := flat_map (table_cs b) l.
Definition ptr_array_section (b : build) (l : list section) : list item := flat_map (table_ptr b) l.
Definition exit_point_section (b : build) (l : list (label * label)) : list item := flat_map (exit_point b) l.

(** RSEQ_SIG: x86.h:26, arm.h:66-70, aarch64.h:23-31, ppc.h:26, mips.h:40-56,
    s390.h:25, riscv.h:29, loongarch.h:30.  Registration passes it to the kernel
    (src/rseq.c:164). *)
Definition rseq_sig (b : build) : Z :=
  match b with
  | Amd64 | X32 | I386 => 0x53053053
  | ArmBE8 | ArmBE32 => 0xf3def5e7
  | ArmLE => 0xe7f5def3
  | Aarch64BE => 0x00bc28d4
  | Aarch64LE => 0xd428bc00
  | Ppc32 | Ppc64BE | Ppc64LE => 0x0fe5000b
  | MipsB _ Little NanoMips => 0x03500010
  | MipsB _ Big NanoMips => 0x00100350
  | MipsB _ Little MicroMips => 0xd4070000
  | MipsB _ Big MicroMips => 0x0000d407
  | MipsB _ _ Mips => 0x0350000d
  | S390 | S390x => 0xB2FF0FFF
  | Riscv32 | Riscv64 => 0xf1401073
  | Loongarch64 => 0x002a0010
  end.
(** RSEQ_SIG_CODE of aarch64.h:23. *)
Definition rseq_sig_code : Z := 0xd428bc00.

(** RSEQ_ASM_DEFINE_ABORT up to and including the label of the abort handler:
    x86.h:106-118, arm.h:134-167, aarch64.h:131-134, ppc.h:108-111,
    mips.h:126-160, s390.h:101-104, riscv.h:102-106, loongarch.h:86-120.  On ARM,
    MIPS and LoongArch a copy of the descriptor, labelled [copy], comes first.
    The branch "b 222f" before it (aarch64.h:132, riscv.h:103) is left to the code
    in front. *)
Definition define_abort (b : build) (s : section) (copy : label) : list item :=
  let near := [DBalign 32; DLabel copy] ++
              cs_fields b (Num 0) (Num 0) (Lab (s_start s)) (Sub (s_post s) (s_start s)) (Lab (s_abort s)) ++
              u32 (Num (rseq_sig b)) ++ [DLabel (s_abort s)] in
  match b with
  | Amd64 | X32 | I386 => [DByte 0x0f; DByte 0xb9; DByte 0x3d; DLong (Num (rseq_sig b)); DLabel (s_abort s)]
  | ArmLE | ArmBE8 | ArmBE32 => near
  | Aarch64LE | Aarch64BE => [DInst rseq_sig_code; DLabel (s_abort s)]
  | Ppc32 | Ppc64BE | Ppc64LE => u32 (Num (rseq_sig b)) ++ [DLabel (s_abort s)]
  | MipsB _ _ _ => near
  | S390 | S390x => u32 (Num (rseq_sig b)) ++ [DLabel (s_abort s)]
  | Riscv32 | Riscv64 => [DBalign 4] ++ u32 (Num (rseq_sig b)) ++ [DLabel (s_abort s)]
  | Loongarch64 => near
  end.
(** Does the build have that copy?  (RSEQ_ASM_STORE_RSEQ_CS then stores the
    address of the copy: arm/bits.h:32, mips/bits.h:33, loongarch/bits.h:37.) *)
Definition has_copy (b : build) : bool :=
  match b with ArmLE | ArmBE8 | ArmBE32 | MipsB _ _ _ | Loongarch64 => true | _ => false end.

(** * The per-thread area *)

(** Members of struct rseq_abi, abi.h:59-174. *)
Inductive member := CpuIdStart | CpuId | RseqCs | Flags | NodeId | MmCid.
(** Size and alignment; the 64-bit integer is aligned on 4 bytes in structures of
    i386 (System V ABI), on 8 elsewhere. *)
Definition members (b : build) : list (member * (Z * Z)) :=
  [ (CpuIdStart, (4, 4)); (CpuId, (4, 4)); (RseqCs, (8, match b with I386 => 4 | _ => 8 end));
    (Flags, (4, 4)); (NodeId, (4, 4)); (MmCid, (4, 4)) ].
Definition member_eqb (x y : member) : bool :=
  match x, y with
  | CpuIdStart, CpuIdStart | CpuId, CpuId | RseqCs, RseqCs | Flags, Flags | NodeId, NodeId | MmCid, MmCid => true
  | _, _ => false
  end.
(** Offset of a member by the rules of C structure layout. *)
Fixpoint offset_in (l : list (member * (Z * Z))) (a : Z) (f : member) : Z :=
  match l with
  | [] => a
  | (g, (sz, al)) :: l => let a := a + pad a al in if member_eqb g f then a else offset_in l (a + sz) f
  end.
Definition offset_of (b : build) (f : member) : Z := offset_in (members b) 0 f.
(** Offset of rseq_cs.arch.ptr, abi.h:115-124. *)
Definition arch_ptr_offset (b : build) : Z :=
  offset_of b RseqCs + (match ptr_bytes b, data_order b with 4%nat, Big => 4 | _, _ => 0 end).

(** Load of an index (cpu_id or mm_cid) by a critical section: offsets
    RSEQ_ASM_CPU_ID_OFFSET and RSEQ_ASM_MM_CID_OFFSET on x86 (x86.h:38-40,
    x86.h:187-190), the C member elsewhere (arm.h:187, aarch64.h:197, ppc.h:152,
    mips.h:199, s390.h:149, riscv.h:146, loongarch.h:158); 32 bits each. *)
Definition index_offset (b : build) (mm_cid : bool) : Z :=
  match b with
  | Amd64 | X32 | I386 => if mm_cid then 24 else 4
  | _ => offset_of b (if mm_cid then MmCid else CpuId)
  end.
Definition load_index (b : build) (m : memory) (abi : Z) (mm_cid : bool) : Z :=
  load (data_order b) m (abi + index_offset b mm_cid) 4.
(** rseq_cpu_start(), rseq_current_cpu_raw(), rseq_current_node_id(),
    rseq_current_mm_cid(): rseq.h:147-208. *)
Definition load_member (b : build) (m : memory) (abi : Z) (f : member) : Z :=
  load (data_order b) m (abi + offset_of b f) 4.

Definition sext16 (v : Z) : Z := (v + 0x8000) mod 2 ^ 16 - 0x8000.
Definition sext32 (v : Z) : Z := (v + 2 ^ 31) mod 2 ^ 32 - 2 ^ 31.
(** The address of the descriptor [d] as the instructions of
    RSEQ_ASM_STORE_RSEQ_CS compute it; [ip] is the address of the instruction
    after the one that refers to its own address. *)
Definition descriptor_address (b : build) (ip d : Z) : Z :=
  match b with
  (* leaq d(%rip): 32-bit displacement; x86.h:154 *)
  | Amd64 | X32 => (ip + sext32 (d - ip)) mod 2 ^ 64
  (* call pushes ip; leal (d - ip)(%eax); x86.h:173-181 *)
  | I386 => (ip + (d - ip)) mod 2 ^ 32
  (* adr; arm.h:129 *)
  | ArmLE | ArmBE8 | ArmBE32 => d
  (* adrp gives the page of d, 21 bits of pages relative to the page of the
     instruction; add the low 12 bits; aarch64.h:155-157 *)
  | Aarch64LE | Aarch64BE =>
    let pages := (d / 2 ^ 12 - ip / 2 ^ 12 + 2 ^ 20) mod 2 ^ 21 - 2 ^ 20 in
    ((ip / 2 ^ 12 + pages) * 2 ^ 12 + d mod 2 ^ 12) mod 2 ^ 64
  (* lis @ha; addi @l: both immediates are signed; ppc.h:143-144 *)
  | Ppc32 =>
    let r := (sext16 (((d + 0x8000) / 2 ^ 16) mod 2 ^ 16) * 2 ^ 16) mod 2 ^ 32 in
    (r + sext16 (d mod 2 ^ 16)) mod 2 ^ 32
  (* lis @highest; ori @higher; rldicr 32,31; oris @high; ori @l; ppc.h:133-137 *)
  | Ppc64BE | Ppc64LE =>
    let r := (sext16 ((d / 2 ^ 48) mod 2 ^ 16) * 2 ^ 16) mod 2 ^ 64 in
    let r := Z.lor r ((d / 2 ^ 32) mod 2 ^ 16) in
    let r := (r * 2 ^ 32) mod 2 ^ 64 in
    let r := Z.lor r (((d / 2 ^ 16) mod 2 ^ 16) * 2 ^ 16) in
    Z.lor r (d mod 2 ^ 16)
  (* la, dla; mips.h:192 *)
  | MipsB _ _ _ => d
  (* larl: 32-bit number of halfwords; s390.h:142.  [ip] is here the address of
     larl itself *)
  | S390 | S390x => (ip + 2 * sext32 ((d - ip) / 2)) mod 2 ^ 64
  (* la; riscv.h:127 *)
  | Riscv32 | Riscv64 => d
  (* la.local; loongarch.h:151 *)
  | Loongarch64 => d
  end.

(** Offset and size of the store of RSEQ_ASM_STORE_RSEQ_CS: movq and movl at
    RSEQ_ASM_CS_OFFSET (x86.h:155,182), str r0 (arm.h:130), str x15
    (aarch64.h:158), std and stw (ppc.h:138,145), sd and sw (mips.h:193), stg and
    st (s390.h:143), sd and sw (riscv.h:128), st.d (loongarch.h:152) at
    rseq_cs.arch.ptr. *)
Definition store_cs_at (b : build) : Z * nat :=
  match b with
  | Amd64 | X32 => (8, 8%nat)
  | I386 => (8, 4%nat)
  | ArmLE | ArmBE8 | ArmBE32 => (arch_ptr_offset b, 4%nat)
  | Aarch64LE | Aarch64BE => (arch_ptr_offset b, 8%nat)
  | Ppc64BE | Ppc64LE => (arch_ptr_offset b, 8%nat)
  | Ppc32 => (arch_ptr_offset b, 4%nat)
  | MipsB true _ _ => (arch_ptr_offset b, 8%nat)
  | MipsB false _ _ => (arch_ptr_offset b, 4%nat)
  | S390x => (arch_ptr_offset b, 8%nat)
  | S390 => (arch_ptr_offset b, 4%nat)
  | Riscv64 => (arch_ptr_offset b, 8%nat)
  | Riscv32 => (arch_ptr_offset b, 4%nat)
  | Loongarch64 => (arch_ptr_offset b, 8%nat)
  end.
(** RSEQ_ASM_STORE_RSEQ_CS. *)
Definition store_cs (b : build) (m : memory) (abi ip d : Z) : memory :=
  store (data_order b) m (abi + fst (store_cs_at b)) (snd (store_cs_at b)) (descriptor_address b ip d).
(** rseq_clear_rseq_cs(), which is rseq_prepare_unload(): rseq.h:211-231. *)
Definition clear_cs (b : build) (m : memory) (abi : Z) : memory :=
  store (data_order b) m (abi + arch_ptr_offset b) (ptr_bytes b) 0.
