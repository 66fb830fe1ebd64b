(** Invariants of [CpuModel]. *)
From Coq Require Import ZArith Bool List Lia.
From Verif Require Import CpuModel.
Import ListNotations.
Local Open Scope Z_scope.

Definition machine_ok (M : machine) : Prop := 0 < m_cpus M <= 2 ^ 31 /\ forall c, 0 <= m_node M c < 2 ^ 31.

Section Proofs.
Variable M : machine.
Hypothesis HM : machine_ok M.

Definition at_ok (p : place) : Prop := 0 <= p_cpu p < m_cpus M /\ p_node p = m_node M (p_cpu p) /\ 0 <= p_cid p < 2 ^ 31.
Record inv (s : state) : Prop := {
  i_at : at_ok (s_at s);
  i_area : s_area s = if s_reg s then shown M (s_at s) else unset;
  i_cur : in_current s = true -> s_reg s = false }.

Lemma place_ok_at : forall p, place_ok M p = true -> at_ok p.
Proof.
  intros p H. unfold place_ok in H. rewrite !andb_true_iff in H. destruct H as ((((H1 & H2) & H3) & H4) & H5).
  apply Z.leb_le in H1, H4. apply Z.ltb_lt in H2, H5. apply Z.eqb_eq in H3. unfold at_ok. auto.
Qed.
Lemma s32_id : forall z, - 2 ^ 31 <= z < 2 ^ 31 -> s32 z = z.
Proof. intros z H. unfold s32. rewrite Z.mod_small; lia. Qed.
Lemma u32_id : forall z, 0 <= z < 2 ^ 32 -> u32 z = z.
Proof. intros z H. apply Z.mod_small. lia. Qed.
Lemma raw_unset : current_cpu_raw unset = -1.
Proof. reflexivity. Qed.
Lemma raw_shown : forall p, at_ok p -> current_cpu_raw (shown M p) = p_cpu p.
Proof. intros p (H & _). destruct HM as [HM1 _]. apply s32_id. cbn. lia. Qed.

Lemma inv_step : forall s x s' e, inv s -> step M s x = Some (s', e) -> inv s'.
Proof.
  intros s x s' e [I1 I2 I3] H. destruct x; cbn [step] in H.
  - destruct (place_ok M p) eqn:E; [|discriminate H]. injection H as <- <-. constructor; cbn; auto.
    + now apply place_ok_at.
    + destruct (s_reg s); auto.
  - destruct (negb (in_current s) && negb (s_reg s)); [|discriminate H]. injection H as <- <-. constructor; cbn; auto; try discriminate.
  - destruct (negb (in_current s) && s_reg s); [|discriminate H]. injection H as <- <-. constructor; cbn; auto.
  - destruct (negb (in_current s)); [|discriminate H]. injection H as <- <-. constructor; auto.
  - destruct (negb (in_current s)); [|discriminate H]. injection H as <- <-. constructor; auto.
  - destruct (negb (in_current s)); [|discriminate H]. destruct (current_cpu_raw (s_area s) <? 0) eqn:E; injection H as <- <-; constructor; cbn; auto.
    intros _. destruct (s_reg s); auto. rewrite I2, raw_shown in E by auto. apply Z.ltb_lt in E. destruct I1 as [I1 _]. lia.
  - destruct (negb (in_current s)); [discriminate H|]. destruct (fallback_current_cpu ok (s_at s)); injection H as <- <-; constructor; cbn; auto; try discriminate.
  - destruct (negb (in_current s)); [|discriminate H]. destruct (current_node_id size (s_area s)); injection H as <- <-; constructor; auto.
  - destruct (negb (in_current s)); [|discriminate H]. injection H as <- <-. constructor; auto.
  - destruct (negb (in_current s)); [|discriminate H]. injection H as <- <-. constructor; auto.
Qed.
Lemma inv_first : forall p, at_ok p -> inv (first p).
Proof. intros p H. constructor; cbn; auto; try discriminate. Qed.
Lemma inv_run : forall p h s, at_ok p -> run M p h s -> inv s.
Proof. intros p h s Hp Hr. induction Hr; [now apply inv_first|eapply inv_step; eauto]. Qed.
(** Each entry of a run. *)
Lemma run_entry : forall p h s, at_ok p -> run M p h s -> forall s1 e, In (s1, e) h ->
  inv s1 /\ exists x s2, step M s1 x = Some (s2, e).
Proof.
  intros p h s Hp Hr. induction Hr as [|h s x s' e Hr IH Hs]; intros s1 e1 H; [destruct H|].
  destruct H as [H|H]; [|now apply IH]. injection H as <- <-. split; [eapply inv_run; eauto|exists x, s'; exact Hs].
Qed.

Lemma start_read : forall p h s s1 v, at_ok p -> run M p h s -> In (s1, EStart v) h ->
  0 <= v < m_cpus M /\ (s_reg s1 = true -> v = p_cpu (s_at s1)) /\ (s_reg s1 = false -> v = 0).
Proof.
  intros p h s s1 v Hp Hr Hin. destruct (run_entry p h s Hp Hr s1 _ Hin) as ([I1 I2 _] & x & s2 & Hx).
  assert (v = cpu_start (s_area s1)).
  { destruct x; cbn [step] in Hx; repeat match type of Hx with context[if ?b then _ else _] => destruct b | context[match ?b with Some _ => _ | None => _ end] => destruct b end;
    try discriminate Hx; injection Hx as _ Hx; congruence. }
  subst v. unfold cpu_start. rewrite I2. destruct I1 as [I1 _]. destruct HM as [HM1 _].
  destruct (s_reg s1); cbn; (split; [lia|split; intros; congruence]).
Qed.
Lemma raw_read : forall p h s s1 v, at_ok p -> run M p h s -> In (s1, ERaw v) h ->
  (s_reg s1 = true -> v = p_cpu (s_at s1)) /\ (s_reg s1 = false -> v = -1).
Proof.
  intros p h s s1 v Hp Hr Hin. destruct (run_entry p h s Hp Hr s1 _ Hin) as ([I1 I2 _] & x & s2 & Hx).
  assert (v = current_cpu_raw (s_area s1)).
  { destruct x; cbn [step] in Hx; repeat match type of Hx with context[if ?b then _ else _] => destruct b | context[match ?b with Some _ => _ | None => _ end] => destruct b end;
    try discriminate Hx; injection Hx as _ Hx; congruence. }
  subst v. rewrite I2. split; intros ->; [now apply raw_shown|apply raw_unset].
Qed.
Lemma cid_read : forall p h s s1 v, at_ok p -> run M p h s -> In (s1, ECid v) h ->
  v = if s_reg s1 && knows_cid M then p_cid (s_at s1) else 0.
Proof.
  intros p h s s1 v Hp Hr Hin. destruct (run_entry p h s Hp Hr s1 _ Hin) as ([I1 I2 _] & x & s2 & Hx).
  assert (v = current_mm_cid (s_area s1)).
  { destruct x; cbn [step] in Hx; repeat match type of Hx with context[if ?b then _ else _] => destruct b | context[match ?b with Some _ => _ | None => _ end] => destruct b end;
    try discriminate Hx; injection Hx as _ Hx; congruence. }
  subst v. rewrite I2. unfold current_mm_cid. destruct (s_reg s1); reflexivity.
Qed.
Lemma node_read : forall p h s s1 v, at_ok p -> run M p h s -> In (s1, ENode v) h ->
  v = if s_reg s1 && knows_node M then p_node (s_at s1) else 0.
Proof.
  intros p h s s1 v Hp Hr Hin. destruct (run_entry p h s Hp Hr s1 _ Hin) as ([I1 I2 _] & x & s2 & Hx).
  assert (v = node_id (s_area s1)).
  { destruct x; cbn [step] in Hx; unfold current_node_id in Hx; repeat match type of Hx with context[if ?b then _ else _] => destruct b | context[match fallback_current_cpu ?a ?b with Some _ => _ | None => _ end] => destruct (fallback_current_cpu a b) end;
    try discriminate Hx; injection Hx as _ Hx; congruence. }
  subst v. rewrite I2. destruct (s_reg s1); reflexivity.
Qed.
Lemma fbnode_read : forall p h s s1 v, at_ok p -> run M p h s -> In (s1, EFbNode v) h -> v = p_node (s_at s1) \/ v = -1.
Proof.
  intros p h s s1 v Hp Hr Hin. destruct (run_entry p h s Hp Hr s1 _ Hin) as ([I1 I2 _] & x & s2 & Hx).
  assert (exists ok, v = fallback_current_node ok (s_at s1)) as (ok & ->).
  { destruct x; cbn [step] in Hx; unfold current_node_id in Hx; repeat match type of Hx with context[if ?b then _ else _] => destruct b | context[match ?b with Some _ => _ | None => _ end] => destruct b end;
    try discriminate Hx; injection Hx as _ Hx; try discriminate Hx. exists ok. congruence. }
  destruct ok; [left|right; reflexivity]. cbn. apply s32_id. destruct I1 as (_ & E & _). rewrite E. destruct HM as [_ Hn]. specialize (Hn (p_cpu (s_at s1))). lia.
Qed.
Lemma current_read : forall p h s s1 v, at_ok p -> run M p h s -> In (s1, ECurrent v) h -> v = p_cpu (s_at s1).
Proof.
  intros p h s s1 v Hp Hr Hin. destruct (run_entry p h s Hp Hr s1 _ Hin) as ([I1 I2 _] & x & s2 & Hx).
  pose proof I1 as (Hc & _). destruct HM as [HM1 _].
  destruct x; cbn [step] in Hx.
  all: try solve [repeat match type of Hx with context[if ?b then _ else _] => destruct b | context[match ?b with Some _ => _ | None => _ end] => destruct b end;
    try discriminate Hx; injection Hx as _ Hx; discriminate Hx].
  - destruct (negb (in_current s1)); [|discriminate Hx]. destruct (current_cpu_raw (s_area s1) <? 0) eqn:E; [injection Hx as _ Hx; discriminate Hx|].
    injection Hx as _ <-. rewrite I2 in *. destruct (s_reg s1); [|rewrite raw_unset in E; discriminate E]. rewrite raw_shown by auto.
    apply u32_id. lia.
  - destruct (negb (in_current s1)); [discriminate Hx|]. destruct ok; cbn [fallback_current_cpu] in Hx; injection Hx as _ Hx; [|discriminate Hx].
    subst v. apply u32_id. lia.
Qed.
(** rseq_current_cpu and rseq_current_node_id abort only as documented. *)
Lemma abort_why : forall s x s', inv s -> step M s x = Some (s', EAbort) ->
  x = PFallback false \/ exists size, x = PNode size /\ node_id_available size = false.
Proof.
  intros s x s' _ Hx. destruct x; cbn [step] in Hx; unfold current_node_id in Hx.
  all: try solve [repeat match type of Hx with context[if ?b then _ else _] => destruct b end; try discriminate Hx; injection Hx as _ Hx; discriminate Hx].
  - destruct (negb (in_current s)); [discriminate Hx|]. destruct ok; cbn in Hx; [injection Hx as _ Hx; discriminate Hx|left; reflexivity].
  - destruct (negb (in_current s)); [|discriminate Hx]. right. exists size. split; auto. destruct (node_id_available size); auto.
    injection Hx as _ Hx. discriminate Hx.
Qed.
(** With the feature size that the kernel supports, the assertion is what makes the
    field meaningful. *)
Lemma node_guarded : forall p h s, at_ok p -> run M p h s -> s_reg s = true -> forall size s' v,
  0 <= size <= m_feat M -> step M s (PNode size) = Some (s', ENode v) -> v = p_node (s_at s).
Proof.
  intros p h s Hp Hr E size s' v Hz Hs.
  assert (Hf : knows_node M = true).
  { cbn [step] in Hs. destruct (negb (in_current s)); [|discriminate Hs]. unfold current_node_id in Hs.
    destruct (node_id_available size) eqn:Ea; [|injection Hs as _ Hs; discriminate Hs].
    unfold node_id_available in Ea. apply Z.leb_le in Ea. unfold knows_node. apply Z.leb_le.
    unfold s32 in Ea. pose proof (Z.mod_le (size + 2 ^ 31) (2 ^ 32) ltac:(lia) ltac:(lia)). lia. }
  pose proof (run_step M p h s (PNode size) s' (ENode v) Hr Hs) as Hr'.
  rewrite (node_read p _ s' s v Hp Hr' ltac:(left; reflexivity)), E, Hf. reflexivity.
Qed.
End Proofs.
