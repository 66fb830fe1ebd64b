(** Every helper of every architecture is correct. *)
From Coq Require Import ZArith Bool List Lia.
From Verif Require Import RseqIR RseqSpec RseqKernel RseqSafe MemLemmas RunLemmas RseqSim RseqCalls RseqSeq.
From Verif Require Import Arch_x86 Arch_aarch64 Arch_arm Arch_loongarch Arch_mips Arch_ppc Arch_riscv Arch_s390.
From Verif Require Import Safe_x86 Safe_aarch64 Safe_arm Safe_loongarch Safe_mips Safe_ppc Safe_riscv Safe_s390 Archs.
Import ListNotations.
Local Open Scope Z_scope.

Lemma helper_good : forall g a tw rel md kd P, helper a tw rel md kd = Some P -> good g P kd.
Proof.
  intros g a tw rel md kd P H. unfold helper in H.
  destruct kd; [destruct rel; [discriminate|] | destruct rel; [discriminate|] | destruct rel; [discriminate|]
    | destruct rel; [discriminate|] | destruct rel; [discriminate|] | |].
  - injection H as <-. destruct a; [apply x64_cbne_store_good | apply x64_cbne_store_good | apply a64_cbne_store_good | apply arm_cbne_store_good | apply la_cbne_store_good | apply mips_cbne_store_good | apply ppc_cbne_store_good | apply rv_cbne_store_good | apply s390_cbne_store_good].
  - injection H as <-. destruct a; [apply x64_add_store_good | apply x64_add_store_good | apply a64_add_store_good | apply arm_add_store_good | apply la_add_store_good | apply mips_add_store_good | apply ppc_add_store_good | apply rv_add_store_good | apply s390_add_store_good].
  - injection H as <-. destruct a; [apply x64_pop_good | apply x64_pop_good | apply a64_pop_good | apply arm_pop_good | apply la_pop_good | apply mips_pop_good | apply ppc_pop_good | apply rv_pop_good | apply s390_pop_good].
  - destruct a; try discriminate. injection H as <-. apply x64_add_load_load_add_store_good.
  - injection H as <-. destruct a; [apply x64_cbne2_good | apply x32_cbne2_good | apply a64_cbne2_good | apply arm_cbne2_good | apply la_cbne2_good | apply mips_cbne2_good | apply ppc_cbne2_good | apply rv_cbne2_good | apply s390_cbne2_good].
  - assert (E : Some (match a with X86_64 => x64_store_store tw rel md | I386 => x32_store_store tw rel md | AARCH64 => a64_store_store tw rel md | ARM => arm_store_store tw rel md | LOONGARCH => la_store_store tw rel md | MIPS => mips_store_store tw rel md | PPC => ppc_store_store tw rel md | RISCV => rv_store_store tw rel md | S390 => s390_store_store tw rel md end) = Some P) by (destruct rel; exact H). clear H; rename E into H. injection H as <-. destruct a; [apply x64_store_store_good | apply x32_store_store_good | apply a64_store_store_good | apply arm_store_store_good | apply la_store_store_good | apply mips_store_store_good | apply ppc_store_store_good | apply rv_store_store_good | apply s390_store_store_good].
  - assert (E : Some (match a with X86_64 => x64_memcpy tw rel md | I386 => x32_memcpy tw rel md | AARCH64 => a64_memcpy tw rel md | ARM => arm_memcpy tw rel md | LOONGARCH => la_memcpy tw rel md | MIPS => mips_memcpy tw rel md | PPC => ppc_memcpy tw rel md | RISCV => rv_memcpy tw rel md | S390 => s390_memcpy tw rel md end) = Some P) by (destruct rel; exact H). clear H; rename E into H. injection H as <-. destruct a; [apply x64_memcpy_good | apply x32_memcpy_good | apply a64_memcpy_good | apply arm_memcpy_good | apply la_memcpy_good | apply mips_memcpy_good | apply ppc_memcpy_good | apply rv_memcpy_good | apply s390_memcpy_good].
Qed.

Lemma helper_mode : forall a tw rel md kd P, helper a tw rel md kd = Some P -> pmode P = md.
Proof.
  intros a tw rel md kd P H. unfold helper in H.
  destruct kd, rel; try discriminate; destruct a; try discriminate; injection H as <-; reflexivity.
Qed.

Lemma lib_good : forall g a tw tx, lib_text a tw tx -> good_text g tx.
Proof. intros g a tw tx H id P kd E. destruct (H id P kd E) as (rel & md & Hh). eapply helper_good; eauto. Qed.
