(** C57: what the helpers put into memory reads, for the kernel and for
    debuggers, as what it means: on every build and for all addresses. *)
From Coq Require Import ZArith Bool List Lia.
From Verif Require Import LayoutModel LayoutSpec LayoutProofs.
Import ListNotations.
Local Open Scope Z_scope.

(** * Descriptors *)

(** In a program with the critical sections [l], linked and loaded in any way:
    the kernel reads, at the address of the descriptor of each section, version
    0, no flags, and the addresses of that section; the descriptor is aligned. *)
Theorem C57_descriptors : forall b env m a l, loaded b env m a (rseq_cs_section b l) -> Forall (well_placed b env) l ->
  forall s, In s l -> describes env s (kernel_descriptor b m (env (s_table s))) /\ env (s_table s) mod 32 = 0.
Proof. exact p_descriptors. Qed.
Print Assumptions C57_descriptors.

(** So does the copy next to the abort handler, on the builds that have one. *)
Theorem C57_descriptor_copies : forall b env m a s c, has_copy b = true -> well_placed b env s ->
  loaded b env m a (define_abort b s c) ->
  describes env s (kernel_descriptor b m (env c)) /\ env c mod 32 = 0.
Proof. exact p_copy. Qed.
Print Assumptions C57_descriptor_copies.

(** * Debugger arrays *)

(** The section with the descriptors is an array of them, 32 bytes each; the
    other two sections are arrays of their addresses, and of pairs of start and
    exit point. *)
Theorem C57_descriptor_array : forall b env m a l, loaded b env m a (rseq_cs_section b l) -> a mod 32 = 0 ->
  forall i s, nth_error l i = Some s -> env (s_table s) = a + 32 * Z.of_nat i.
Proof. exact p_descriptor_array. Qed.
Print Assumptions C57_descriptor_array.
Theorem C57_pointer_array : forall b env m a l, loaded b env m a (ptr_array_section b l) ->
  Forall (fun s => is_address b (env (s_table s))) l -> array64 b m a (length l) = map (fun s => env (s_table s)) l.
Proof. exact p_ptr_array. Qed.
Print Assumptions C57_pointer_array.
Theorem C57_exit_point_array : forall b env m a l, loaded b env m a (exit_point_section b l) ->
  Forall (fun p => is_address b (env (fst p)) /\ is_address b (env (snd p))) l ->
  array64 b m a (2 * length l) = flat_map (fun p => [env (fst p); env (snd p)]) l.
Proof. exact p_exit_array. Qed.
Print Assumptions C57_exit_point_array.

(** * Abort handlers *)

(** The word before every abort handler is, for the kernel, the signature that
    registration passes. *)
Theorem C57_signature : forall b env m a s c, loaded b env m a (define_abort b s c) ->
  kernel_signature b m (env (s_abort s)) = rseq_sig b.
Proof. exact p_signature. Qed.
Print Assumptions C57_signature.
(** Code that runs into an abort handler traps; on ARM with big endian code (BE32)
    the header says that it does not. *)
Theorem C57_trap : forall b env m a s c, b <> ArmBE32 -> loaded b env m a (define_abort b s c) ->
  traps_before b m (env (s_abort s)).
Proof. exact p_traps. Qed.
Print Assumptions C57_trap.

(** * The per-thread area *)

(** After any history of section starts, calls of rseq_prepare_unload(), and
    updates by the kernel, the kernel reads the address of the descriptor of the
    last section that started, or 0 if it was reset since. *)
Theorem C57_pointer : forall b abi m h, no_descriptor m abi -> Forall (permitted b) h ->
  kernel_rseq_cs b (area_after b abi m h) abi = pointer_after h.
Proof. exact p_pointer. Qed.
Print Assumptions C57_pointer.
(** The thread reads, in each 32-bit field, what the kernel wrote last, or what
    was there before. *)
Theorem C57_fields : forall b abi m h f, Forall (permitted b) h -> f <> RseqCs ->
  load_member b (area_after b abi m h) abi f = field_after (load_member b m abi f) f h.
Proof. exact p_fields. Qed.
Print Assumptions C57_fields.
(** A critical section compares with the same fields. *)
Theorem C57_index : forall b m abi mm_cid, load_index b m abi mm_cid = load_member b m abi (if mm_cid then MmCid else CpuId).
Proof. exact p_index. Qed.
Print Assumptions C57_index.

(** * Non-vacuity *)

(** Two sections; labels 1-4 and 11-14; the linker's choice of addresses. *)
Definition s1 := {| s_table := 3; s_start := 1; s_post := 2; s_abort := 4 |}.
Definition s2 := {| s_table := 13; s_start := 11; s_post := 12; s_abort := 14 |}.
Definition env0 (code : Z) (l : label) : Z :=
  if l =? 3 then 0x10000 else if l =? 13 then 0x10020 else
  if l =? 1 then 0x12345678 else if l =? 2 then 0x12345690 else if l =? 4 then code else
  if l =? 11 then 0x23456780 else if l =? 12 then 0x234567a4 else if l =? 14 then 0x30002004 else
  0x30001000.
Definition image (a : Z) (bs : list Z) : memory := fun x => nth (Z.to_nat (x - a)) bs 0.
(** The size of [define_abort] decides where the label of the abort handler is. *)
Definition code0 (b : build) : Z := 0x30001000 + sizes 0x30001000 (define_abort b s1 5).
Definition builds : list build :=
  [Amd64; X32; I386; ArmLE; ArmBE8; ArmBE32; Aarch64LE; Aarch64BE; Ppc32; Ppc64BE; Ppc64LE; S390; S390x; Riscv32; Riscv64; Loongarch64] ++
  flat_map (fun w => flat_map (fun o => map (MipsB w o) [Mips; MicroMips; NanoMips]) [Little; Big]) [true; false].
Fixpoint zlist_eqb (l k : list Z) : bool :=
  match l, k with [], [] => true | x :: l, y :: k => (x =? y) && zlist_eqb l k | _, _ => false end.
Lemma zlist_eqb_ok : forall l k, zlist_eqb l k = true -> l = k.
Proof.
  induction l as [|x l IH]; intros [|y k] H; try discriminate H; auto. cbn [zlist_eqb] in H. apply andb_prop in H. destruct H as [H1 H2].
  apply Z.eqb_eq in H1. f_equal; auto.
Qed.
Definition loads (b : build) (env : label -> Z) (a : Z) (l : list item) : bool :=
  let bs := emit b (fun _ => 0) env a l in
  zlist_eqb (bytes_at (image a bs) a (length bs)) bs && forallb (fun p => env (fst p) =? snd p) (places a l).
Lemma loads_ok : forall b env a l, loads b env a l = true -> loaded b env (image a (emit b (fun _ => 0) env a l)) a l.
Proof.
  intros b env a l H. unfold loads in H. apply andb_prop in H. destruct H as [H1 H2]. exists (fun _ => 0). split.
  - now apply zlist_eqb_ok in H1.
  - intros x y Hin. rewrite forallb_forall in H2. apply H2 in Hin. now apply Z.eqb_eq in Hin.
Qed.
Lemma builds_all : forall b, In b builds.
Proof. intros b. destruct b as [| | | | | | | | | | |[] [] []| | | | |]; vm_compute; tauto. Qed.
(** On every build, the two sections can be loaded. *)
Example ex_C57_descriptors : forall b, exists env m a, loaded b env m a (rseq_cs_section b [s1; s2]) /\
  Forall (well_placed b env) [s1; s2] /\ a mod 32 = 0.
Proof.
  intros b. exists (env0 (code0 b)), (image 0x10000 (emit b (fun _ => 0) (env0 (code0 b)) 0x10000 (rseq_cs_section b [s1; s2]))), 0x10000.
  split; [|split; [|reflexivity]].
  - apply loads_ok. assert (H : forallb (fun b => loads b (env0 (code0 b)) 0x10000 (rseq_cs_section b [s1; s2])) builds = true) by (vm_compute; reflexivity).
    rewrite forallb_forall in H. apply H, builds_all.
  - repeat constructor; destruct b as [| | | | | | | | | | |[] [] []| | | | |]; vm_compute; intuition discriminate.
Qed.
Example ex_C57_abort : forall b, exists env m a, loaded b env m a (define_abort b s1 5) /\ well_placed b env s1.
Proof.
  intros b. exists (env0 (code0 b)), (image 0x30001000 (emit b (fun _ => 0) (env0 (code0 b)) 0x30001000 (define_abort b s1 5))), 0x30001000.
  split.
  - apply loads_ok. assert (H : forallb (fun b => loads b (env0 (code0 b)) 0x30001000 (define_abort b s1 5)) builds = true) by (vm_compute; reflexivity).
    rewrite forallb_forall in H. apply H, builds_all.
  - repeat split; destruct b as [| | | | | | | | | | |[] [] []| | | | |]; vm_compute; congruence.
Qed.
(** A section starts, the thread migrates, the section is reset, another starts
    and the thread unloads the library. *)
Example ex_C57_history : forall b, exists h, Forall (permitted b) h /\ (length h = 6)%nat /\ pointer_after (skipn 1 h) = 0x10020.
Proof.
  intros b. exists [Unload; Start 0x23456780 0x10020; Reset; Update CpuId 3; Update CpuIdStart 3; Start 0x12345678 0x10000].
  split; [|split; reflexivity]. repeat constructor; destruct b as [| | | | | | | | | | |[] [] []| | | | |]; vm_compute; intuition discriminate.
Qed.
(** The exception: the word before the abort handler is not the trap on BE32. *)
Example ex_C57_be32 : exists env m a, loaded ArmBE32 env m a (define_abort ArmBE32 s1 5) /\ ~ traps_before ArmBE32 m (env (s_abort s1)).
Proof.
  exists (env0 (code0 ArmBE32)), (image 0x30001000 (emit ArmBE32 (fun _ => 0) (env0 (code0 ArmBE32)) 0x30001000 (define_abort ArmBE32 s1 5))), 0x30001000.
  split.
  - apply loads_ok. vm_compute. reflexivity.
  - vm_compute. discriminate.
Qed.
