(** Every ppc instruction sequence implements its pseudo-code. *)
From Coq Require Import ZArith Bool List Lia.
From Verif Require Import RseqIR RseqSpec RseqKernel RseqSafe ArchCommon Arch_ppc SafeTac.
Import ListNotations.
Local Open Scope Z_scope.

Lemma ppc_cbne_store_good : forall g tw md, good g (ppc_cbne_store tw md) KCbneStore.
Proof.
  intros g tw md. split; [destruct tw; vm_compute; reflexivity|].
  destruct tw; sym_run.
Qed.

Lemma ppc_pop_good : forall g tw md, good g (ppc_pop tw md) KPop.
Proof.
  intros g tw md. split; [destruct tw; vm_compute; reflexivity|].
  destruct tw; sym_run.
Qed.

Lemma ppc_add_store_good : forall g tw md, good g (ppc_add_store tw md) KAddStore.
Proof.
  intros g tw md. split; [destruct tw; vm_compute; reflexivity|].
  destruct tw; sym_run.
Qed.

Lemma ppc_cbne2_good : forall g tw md, good g (ppc_cbne2 tw md) KCbne2.
Proof.
  intros g tw md. split; [destruct tw; vm_compute; reflexivity|].
  destruct tw; sym_run.
Qed.

Lemma ppc_store_store_good : forall g tw rel md, good g (ppc_store_store tw rel md) KStoreStore.
Proof.
  intros g tw rel md. split; [destruct tw, rel; vm_compute; reflexivity|].
  destruct tw, rel; sym_run.
Qed.

(** The copy loop: [n] + 1 bytes left, [i] copied; T3 and T4 point one byte
    before the next byte. *)
Lemma ppc_memcpy_loop : forall g tw rel md code v expect dst src len newv cpu md0 m idx,
  let c := {| c_code := code; c_op := CbneMemcpyStore v expect dst src len newv;
              c_cpu := cpu; c_mode := md0 |} in
  (idx =? cpu mod 2 ^ 32) = true -> (ldw g m v =? expect) = true ->
  src + Z.of_nat len <= wmod g -> dst + Z.of_nat len <= wmod g -> 0 <= src -> 0 <= dst ->
  forall n i rs rd w,
  (S n + i = len)%nat ->
  wrap g (rs T3 + 1) = src + Z.of_nat i -> wrap g (rs T4 + 1) = dst + Z.of_nat i ->
  rs T2 = Z.of_nat (S n) ->
  rs Rv = v -> rs Rnewv = newv ->
  (forall j, (j < i)%nat -> In (dst + Z.of_nat j, byte m (src + Z.of_nat j)) w) ->
  Safe g (ppc_memcpy tw rel md) c m idx (8 * n + 10)
    {| r_pc := if tw then 20 else 14; r_rs := rs; r_rd := rd; r_w := w |}.
Proof.
  intros g tw rel md code v expect dst src len newv cpu md0 m idx c E0 E1 H1 H2 H3 H4.
  induction n as [|n IH]; intros i rs rd w Hn Hs Hd Hl Hv Hnv Hw.
  - assert (E2 : (wrap g (Z.of_nat 1 + -1) =? 0) = true) by reflexivity.
    assert (len = S i) by lia. subst len c. cbn [Nat.mul Nat.add].
    pose proof (copied_up _ _ _ _ _ Hw) as Hw'.
    destruct tw, rel; (sym_step; rewrite Hs; sym_step; sym_step; rewrite Hd; sym_step; revert Hw';
      generalize (w ++ [(dst + Z.of_nat i, byte m (src + Z.of_nat i) mod 256)]); intros w' Hw';
      repeat sym_step).
  - assert (E2 : (wrap g (Z.of_nat (S (S n)) + -1) =? 0) = false)
      by (apply Z.eqb_neq; rewrite wrap_small; lia).
    replace (8 * S n + 10)%nat with (S (S (S (S (S (S (S (S (8 * n + 10))))))))) by lia.
    pose proof (copied_up _ _ _ _ _ Hw) as Hw'. subst c.
    assert (U1 : wrap g (src + Z.of_nat i + 1) = src + Z.of_nat (S i)) by (rewrite wrap_small; lia).
    assert (U2 : wrap g (dst + Z.of_nat i + 1) = dst + Z.of_nat (S i)) by (rewrite wrap_small; lia).
    assert (U3 : wrap g (Z.of_nat (S (S n)) + -1) = Z.of_nat (S n)) by (rewrite wrap_small; lia).
    destruct tw, rel; (sym_step; rewrite Hs; sym_step; sym_step; rewrite Hd; do 4 sym_step;
      eapply Safe_mono; [apply (IH (S i)); [lia|reg_val..|exact Hw']|lia]).
Qed.

Lemma wrap_pred : forall g x, 0 <= x < wmod g -> wrap g (wrap g (x + -1) + 1) = x + Z.of_nat 0.
Proof.
  intros g x H. unfold wrap. pose proof (wmod_pos g).
  rewrite Zplus_mod_idemp_l. rewrite Z.mod_small; lia.
Qed.

Lemma ppc_memcpy_good : forall g tw rel md, good g (ppc_memcpy tw rel md) KMemcpy.
Proof.
  intros g tw rel md. split; [destruct tw, rel; vm_compute; reflexivity|].
  destruct tw; memcpy_cases.
  2:{ destruct rel; (do 20 sym_step;
      eapply Safe_mono;
        [eapply ppc_memcpy_loop with (tw := true) (n := len) (i := O);
         [assumption|assumption|lia|lia|lia|lia|lia|(unfold setr; cbn [reg_eqb reg_id Nat.eqb init_regs arg c_op c_cpu]; apply wrap_pred; lia)|(unfold setr; cbn [reg_eqb reg_id Nat.eqb init_regs arg c_op c_cpu]; apply wrap_pred; lia)|reg_val..|intros; lia]|lia]). }
  6:{ destruct rel; (do 14 sym_step;
      eapply Safe_mono;
        [eapply ppc_memcpy_loop with (tw := false) (n := len) (i := O);
         [assumption|assumption|lia|lia|lia|lia|lia|(unfold setr; cbn [reg_eqb reg_id Nat.eqb init_regs arg c_op c_cpu]; apply wrap_pred; lia)|(unfold setr; cbn [reg_eqb reg_id Nat.eqb init_regs arg c_op c_cpu]; apply wrap_pred; lia)|reg_val..|intros; lia]|lia]). }
  all: destruct rel; repeat sym_step.
Qed.
