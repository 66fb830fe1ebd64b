(** C51: reading the current CPU, node and concurrency id. *)
From Coq Require Import ZArith Bool List Lia.
From Verif Require Import CpuModel CpuProofs.
Import ListNotations.
Local Open Scope Z_scope.

(** [starts M p]: a machine, and a place where a thread can start. *)
Definition starts (M : machine) (p : place) : Prop :=
  (0 < m_cpus M <= 2 ^ 31 /\ forall c, 0 <= m_node M c < 2 ^ 31) /\
  0 <= p_cpu p < m_cpus M /\ p_node p = m_node M (p_cpu p) /\ 0 <= p_cid p < 2 ^ 31.

Lemma validated : forall M p, starts M p -> forall h s, run M p h s -> forall s1 s2 c,
  In (s1, EStart c) h -> In (s2, ERaw c) h -> s_reg s2 = true /\ p_cpu (s_at s2) = c.
Proof.
  intros M p [HM Hp] h s Hr s1 s2 c H1 H2. destruct (start_read M HM p h s s1 c Hp Hr H1) as [Hc _].
  destruct (raw_read M HM p h s s2 c Hp Hr H2) as [R1 R2]. destruct (s_reg s2); [|specialize (R2 eq_refl); lia].
  split; auto. symmetry. now apply R1.
Qed.
Lemma start_ok : forall M p, starts M p -> forall h s, run M p h s -> forall s1 v, In (s1, EStart v) h ->
  0 <= v < m_cpus M /\ (s_reg s1 = true -> v = p_cpu (s_at s1)) /\ (s_reg s1 = false -> v = 0).
Proof. intros M p [HM Hp] h s Hr s1 v. exact (start_read M HM p h s s1 v Hp Hr). Qed.
Lemma raw_ok : forall M p, starts M p -> forall h s, run M p h s -> forall s1 v, In (s1, ERaw v) h ->
  (s_reg s1 = true -> v = p_cpu (s_at s1)) /\ (s_reg s1 = false -> v = -1).
Proof. intros M p [HM Hp] h s Hr s1 v. exact (raw_read M HM p h s s1 v Hp Hr). Qed.
Lemma current_ok : forall M p, starts M p -> forall h s, run M p h s -> forall s1 v, In (s1, ECurrent v) h -> v = p_cpu (s_at s1).
Proof. intros M p [HM Hp] h s Hr s1 v. exact (current_read M HM p h s s1 v Hp Hr). Qed.
Lemma ids_ok : forall M p, starts M p -> forall h s, run M p h s -> forall s1, s_reg s1 = true ->
  (24 <= m_feat M -> forall v, In (s1, ENode v) h -> v = p_node (s_at s1)) /\
  (28 <= m_feat M -> forall v, In (s1, ECid v) h -> v = p_cid (s_at s1)).
Proof.
  intros M p [HM Hp] h s Hr s1 E. split; intros Hf v Hv.
  - rewrite (node_read M HM p h s s1 v Hp Hr Hv), E. unfold knows_node. apply Z.leb_le in Hf. now rewrite Hf.
  - rewrite (cid_read M HM p h s s1 v Hp Hr Hv), E. unfold knows_cid. apply Z.leb_le in Hf. now rewrite Hf.
Qed.
Lemma fallback_node_ok : forall M p, starts M p -> forall h s, run M p h s -> forall s1 v, In (s1, EFbNode v) h ->
  v = p_node (s_at s1) \/ v = -1.
Proof. intros M p [HM Hp] h s Hr s1 v. exact (fbnode_read M HM p h s s1 v Hp Hr). Qed.

Definition mx0 : machine := {| m_cpus := 1; m_node := fun _ => 3; m_feat := 28 |}.
Definition px0 : place := {| p_cpu := 0; p_node := 3; p_cid := 0 |}.

(** rseq_cpu_start() gives a possible CPU at all times: the one on which the thread
    runs if it is registered, 0 otherwise. *)
Theorem C51_cpu_start : forall M p, starts M p -> forall h s, run M p h s -> forall s1 v, In (s1, EStart v) h ->
  0 <= v < m_cpus M /\ (s_reg s1 = true -> v = p_cpu (s_at s1)) /\ (s_reg s1 = false -> v = 0).
Proof. exact start_ok. Qed.
Print Assumptions C51_cpu_start.

(** rseq_current_cpu_raw() *)
Theorem C51_current_cpu_raw : forall M p, starts M p -> forall h s, run M p h s -> forall s1 v, In (s1, ERaw v) h ->
  (s_reg s1 = true -> v = p_cpu (s_at s1)) /\ (s_reg s1 = false -> v = -1).
Proof. exact raw_ok. Qed.
Print Assumptions C51_current_cpu_raw.

(** The documented validation of rseq_cpu_start(): when rseq_current_cpu_raw() gives
    the same number, the thread is registered and runs on that CPU. *)
Theorem C51_validation : forall M p, starts M p -> forall h s, run M p h s -> forall s1 s2 c,
  In (s1, EStart c) h -> In (s2, ERaw c) h -> s_reg s2 = true /\ p_cpu (s_at s2) = c.
Proof. exact validated. Qed.
Print Assumptions C51_validation.

(** rseq_current_cpu() gives the CPU on which the thread runs when it returns, whether
    or not it is registered. *)
Theorem C51_current_cpu : forall M p, starts M p -> forall h s, run M p h s -> forall s1 v, In (s1, ECurrent v) h ->
  v = p_cpu (s_at s1).
Proof. exact current_ok. Qed.
Print Assumptions C51_current_cpu.

(** rseq_current_node_id() and rseq_current_mm_cid() in a registered thread, on a kernel
    that has the fields. *)
Theorem C51_ids : forall M p, starts M p -> forall h s, run M p h s -> forall s1, s_reg s1 = true ->
  (24 <= m_feat M -> forall v, In (s1, ENode v) h -> v = p_node (s_at s1)) /\
  (28 <= m_feat M -> forall v, In (s1, ECid v) h -> v = p_cid (s_at s1)).
Proof. exact ids_ok. Qed.
Print Assumptions C51_ids.

(** The assertion in rseq_current_node_id() sees to that: with a feature size of no
    more than what the kernel supports (C46), a registered thread gets its node. *)
Theorem C51_node_guarded : forall M p, starts M p -> forall h s, run M p h s -> s_reg s = true -> forall size s' v,
  0 <= size <= m_feat M -> step M s (PNode size) = Some (s', ENode v) -> v = p_node (s_at s).
Proof. intros M p [HM Hp] h s. exact (node_guarded M HM p h s Hp). Qed.
Print Assumptions C51_node_guarded.
(** It gets an answer exactly if the feature size covers the field, which ends at byte 24. *)
Theorem C51_node_answers : forall M p, starts M p -> forall h s, run M p h s -> in_current s = false -> forall size,
  0 <= size < 2 ^ 31 ->
  (24 <= size <-> exists s' v, step M s (PNode size) = Some (s', ENode v)) /\
  (size < 24 <-> exists s', step M s (PNode size) = Some (s', EAbort)).
Proof.
  intros M p _ h s _ Hi size Hs. cbn [step]. rewrite Hi. cbn [negb]. unfold current_node_id, node_id_available.
  replace (s32 size) with size by (unfold s32; rewrite Z.mod_small; lia).
  destruct (Z.leb_spec 24 size); split; split; intros H'; try lia; eauto; destruct H' as (s' & H'); try destruct H' as (v & H'); discriminate.
Qed.
Print Assumptions C51_node_answers.
Example C51_guarded_case : exists s', step mx0 {| s_reg := true; s_area := shown mx0 px0; s_at := px0; in_current := false |} (PNode 28) = Some (s', ENode 3) /\
  step {| m_cpus := 1; m_node := fun _ => 3; m_feat := 20 |} {| s_reg := true; s_area := shown mx0 px0; s_at := px0; in_current := false |} (PNode 20) =
    Some ({| s_reg := true; s_area := shown mx0 px0; s_at := px0; in_current := false |}, EAbort).
Proof. eexists. split; reflexivity. Qed.

(** rseq_fallback_current_node() *)
Theorem C51_fallback_node : forall M p, starts M p -> forall h s, run M p h s -> forall s1 v, In (s1, EFbNode v) h ->
  v = p_node (s_at s1) \/ v = -1.
Proof. exact fallback_node_ok. Qed.
Print Assumptions C51_fallback_node.

(** Two CPUs on two nodes; the thread starts on CPU 1, reads, registers, reads, moves
    to CPU 0 and back, reads. *)
Definition mx : machine := {| m_cpus := 2; m_node := fun c => if c =? 1 then 1 else 0; m_feat := 28 |}.
Definition px (c : Z) : place := {| p_cpu := c; p_node := if c =? 1 then 1 else 0; p_cid := 5 |}.
Lemma px_starts : forall c, 0 <= c < 2 -> starts mx (px c).
Proof.
  intros c H. unfold starts. cbn. repeat split; try lia; destruct (c0 =? 1); lia.
Qed.
Fixpoint play (M : machine) (h : list (state * event)) (s : state) (xs : list action) : option (list (state * event) * state) :=
  match xs with
  | [] => Some (h, s)
  | x :: xs => match step M s x with Some (s', e) => play M ((s, e) :: h) s' xs | None => None end
  end.
Lemma play_run : forall M p xs h s h' s', run M p h s -> play M h s xs = Some (h', s') -> run M p h' s'.
Proof.
  intros M p. induction xs as [|x xs IH]; intros h s h' s' Hr Hp; cbn [play] in Hp; [injection Hp as <- <-; exact Hr|].
  destruct (step M s x) as [[s1 e]|] eqn:E; [|discriminate Hp]. eapply IH; [|exact Hp]. econstructor; eauto.
Qed.
Example C51_case : starts mx (px 1) /\ exists h s, run mx (px 1) h s /\
  map snd h = [ECid 5; ENode 1; ECurrent 1; ERaw 1; ENone; EStart 0; ENone; EStart 1; ENone; ECurrent 1; EEnter; ERaw (-1); EStart 0] /\ s_reg s = true.
Proof.
  split; [apply px_starts; lia|].
  destruct (play mx [] (first (px 1)) [PStart; PRaw; PCurrent; PFallback true; KRegister; PStart; KRun (px 0); PStart; KRun (px 1); PRaw; PCurrent; PNode 28; PCid])
    as [[h s]|] eqn:E; [|discriminate E].
  exists h, s. split; [exact (play_run _ _ _ _ _ _ _ (run_nil _ _) E)|]. injection E as <- <-. split; reflexivity.
Qed.

(** rseq_current_node_id() in a thread that is not registered, in a process where
    another thread is (so that the assertion holds): node 0, wherever it runs. *)
Lemma node_unregistered : exists M p h s s1, starts M p /\ 24 <= m_feat M /\ run M p h s /\ In (s1, ENode 0) h /\ p_node (s_at s1) = 1.
Proof.
  destruct (play mx [] (first (px 1)) [PNode 28]) as [[h s]|] eqn:E; [|discriminate E].
  exists mx, (px 1), h, s, (first (px 1)). split; [apply px_starts; lia|]. split; [discriminate|].
  split; [exact (play_run _ _ _ _ _ _ _ (run_nil _ _) E)|]. injection E as <- <-. split; [left; reflexivity|reflexivity].
Qed.
Theorem C51_node_unregistered_refuted :
  exists M p h s s1, starts M p /\ 24 <= m_feat M /\ run M p h s /\ In (s1, ENode 0) h /\ p_node (s_at s1) = 1.
Proof. exact node_unregistered. Qed.
Print Assumptions C51_node_unregistered_refuted.
