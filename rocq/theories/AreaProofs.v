(** Proofs about the per-thread area. *)
From Coq Require Import ZArith Bool List Lia.
From Verif Require Import LayoutModel RegModel RegSpec RegProofs RegTrace AreaModel AreaSpec.
Import ListNotations.
Local Open Scope Z_scope.

Lemma var_size_32 : forall b, var_size b = 32.
Proof. intros b. destruct b; reflexivity. Qed.

Lemma field_in : forall b f, 0 <= offset_of b f /\
  forall sz al, In (f, (sz, al)) (members b) -> offset_of b f + sz <= var_size b.
Proof.
  intros b f. rewrite var_size_32.
  assert (E : offset_of b f = match f with CpuIdStart => 0 | CpuId => 4 | RseqCs => 8 | Flags => 16 | NodeId => 20 | MmCid => 24 end)
    by (destruct b, f; reflexivity).
  rewrite E. split; [destruct f; lia|]. intros sz al H. cbn in H.
  repeat destruct H as [H|H]; try contradiction; injection H as <- <- <-; lia.
Qed.

Lemma word_pos : forall b, 0 < word b.
Proof. intros b. unfold word. apply Z.pow_pos_nonneg; lia. Qed.

Lemma get_stored : forall p t u, get_abi p u (offset_stored p t) = area p u.
Proof.
  intros p t u. pose proof (word_pos (p_build p)) as W. unfold get_abi, area, offset_stored, to_ptrdiff, area.
  set (w := word (p_build p)) in *. clearbody w.
  rewrite Z.add_mod_idemp_r by lia.
  replace (p_tp p u + ((((p_tp p t + p_tprel p) mod w - p_tp p t) mod w + w / 2) mod w - w / 2))
     with ((((p_tp p t + p_tprel p) mod w - p_tp p t) mod w + w / 2) mod w + (p_tp p u - w / 2)) by lia.
  rewrite Z.add_mod_idemp_l by lia.
  replace (((p_tp p t + p_tprel p) mod w - p_tp p t) mod w + w / 2 + (p_tp p u - w / 2))
     with (((p_tp p t + p_tprel p) mod w - p_tp p t) mod w + p_tp p u) by lia.
  rewrite Z.add_mod_idemp_l by lia.
  replace ((p_tp p t + p_tprel p) mod w - p_tp p t + p_tp p u)
     with ((p_tp p t + p_tprel p) mod w + (p_tp p u - p_tp p t)) by lia.
  rewrite Z.add_mod_idemp_l by lia. f_equal. lia.
Qed.

(** The offset is a ptrdiff_t, and the real one if that fits. *)
Lemma stored_range : forall p t, - (word (p_build p) / 2) <= offset_stored p t < word (p_build p) / 2.
Proof.
  intros p t. unfold offset_stored, to_ptrdiff.
  assert (E : word (p_build p) = 2 * (word (p_build p) / 2)) by (destruct (p_build p) as [| | | | | | | | | | |[] ? ?| | | | |]; reflexivity).
  pose proof (word_pos (p_build p)). set (w := word _) in *. set (x := _ mod w + _).
  pose proof (Z.mod_pos_bound x w ltac:(lia)). lia.
Qed.

Lemma area_real : forall p t, abi_layout p -> area p t = p_tp p t + p_tprel p.
Proof.
  intros p t (_ & _ & HF & _). destruct (HF _ (or_introl eq_refl)) as (_ & H). destruct (H t) as (H1 & H2). cbn in H1, H2.
  rewrite var_size_32 in H2. unfold area. apply Z.mod_small. lia.
Qed.

Lemma tls_final : forall p t0 y0 tr s t i z, ~ libc_active y0 -> sane y0 ->
  run (with_tls p t0 y0) tr s -> knows tr t -> readable s t VOff i z -> z = offset_stored p t0.
Proof.
  intros p t0 y0 tr s t i z N S R Kn Rd.
  assert (S' : sane (with_tls p t0 y0)) by exact S.
  destruct (visible _ S' _ _ _ R Kn) as (V & _).
  destruct (V VOff i z ltac:(discriminate) ltac:(discriminate) Rd) as [(A & _)|(_ & E)]; [destruct (N A)|exact E].
Qed.

Lemma own_area : forall p t0 y0 tr s t i z, abi_layout p -> ~ libc_active y0 -> sane y0 ->
  run (with_tls p t0 y0) tr s -> knows tr t -> readable s t VOff i z ->
  get_abi p t z = p_tp p t + p_tprel p /\
  (forall f sz al n, In (f, (sz, al)) (members (p_build p)) -> 0 <= n < sz ->
     in_object p t (p_tprel p, var_size (p_build p)) (get_abi p t z + offset_of (p_build p) f + n)).
Proof.
  intros p t0 y0 tr s t i z HP N S R Kn Rd. rewrite (tls_final _ _ _ _ _ _ _ _ N S R Kn Rd).
  rewrite get_stored, area_real by auto. split; auto. intros f sz al n Hf Hn.
  destruct (field_in (p_build p) f) as (F1 & F2). specialize (F2 _ _ Hf).
  exists (offset_of (p_build p) f + n). cbn [fst snd]. lia.
Qed.

Lemma apart : forall p t0 y0 tr s t u i j z x, abi_layout p -> ~ libc_active y0 -> sane y0 ->
  run (with_tls p t0 y0) tr s -> knows tr t -> knows tr u ->
  readable s t VOff i z -> readable s u VOff j x ->
  get_abi p t z = get_abi p u x -> p_tp p t = p_tp p u.
Proof.
  intros p t0 y0 tr s t u i j z x HP N S R Kt Ku Rt Ru E.
  destruct (own_area _ _ _ _ _ _ _ _ HP N S R Kt Rt) as (E1 & _).
  destruct (own_area _ _ _ _ _ _ _ _ HP N S R Ku Ru) as (E2 & _). lia.
Qed.

Lemma pow_divides : forall k, 0 <= k <= 10 -> (2 ^ k | var_align).
Proof.
  intros k H. exists (2 ^ (10 - k)). unfold var_align. rewrite <- Z.pow_add_r by lia. replace (10 - k + k) with 10 by lia. reflexivity.
Qed.

Lemma aligned : forall p t k, abi_layout p -> 0 <= k <= 10 -> area p t mod 2 ^ k = 0.
Proof.
  intros p t k HP Hk. rewrite area_real by auto. destruct HP as (_ & H & _). specialize (H t).
  apply Z.mod_divide in H; [|discriminate]. apply Z.mod_divide; [apply Z.pow_nonzero; lia|].
  eapply Z.divide_trans; [apply pow_divides; auto|exact H].
Qed.

Lemma reg_len : forall y, sane y -> forall tr s, run y tr s -> forall t len ok, In (LSys t CReg len ok) tr -> good_len y len.
Proof.
  intros y HS tr s R. induction R as [|tr s l s' R IH St]; [intros ? ? ? []|].
  intros t len ok H. apply in_app_or in H. destruct H as [H|[H|[]]]; [eauto|]. subst l.
  destruct (inv_run y HS _ _ R) as (G & P).
  inversion St as [| | | | | | | | | | | | | |s1 t' len' Hp| | | | | | | | |]; subst.
  destruct P as [A|(ws & n & B)]; [pose proof (a_pre _ _ A t) as HE; rewrite Hp in HE; discriminate|].
  pose proof (late_at _ _ _ _ _ t B) as L. rewrite Hp in L. apply L.
Qed.

Lemma may_update_spec : forall y len n, may_update y len n = true <-> 0 <= n < len /\ n < features y.
Proof.
  intros y len n. unfold may_update, features. rewrite !andb_true_iff, Z.leb_le, !Z.ltb_lt.
  destruct (Z.eqb_spec (k_aux y) 0), (Z.eq_dec (k_aux y) 0); try contradiction; lia.
Qed.

Lemma kernel_inside : forall p t0 y0, abi_layout p -> sane y0 -> features y0 <= 32 ->
  forall tr s, run (with_tls p t0 y0) tr s -> forall t len, In (LSys t CReg len true) tr ->
  len = 32 /\ forall n, may_update y0 len n = true ->
    in_object p t (p_tprel p, var_size (p_build p)) (area p t + n) /\
    forall o, In o (p_others p) -> ~ in_object p t o (area p t + n).
Proof.
  intros p t0 y0 HP S F tr s R t len H. apply (reg_len (with_tls p t0 y0) S _ _ R) in H.
  assert (E : len = 32) by (destruct H as [H|(H1 & H2)]; [exact H|change (features (with_tls p t0 y0)) with (features y0) in H1; lia]).
  split; auto. subst len. intros n Hn. apply may_update_spec in Hn. rewrite area_real by auto.
  destruct HP as (_ & _ & _ & HD). rewrite var_size_32 in *. split.
  - exists n. cbn [fst snd]. lia.
  - intros o Ho (i & Hi & E). specialize (HD o Ho). lia.
Qed.

Lemma kernel_reserved : forall p t0 y0, sane y0 ->
  forall tr s, run (with_tls p t0 y0) tr s -> forall t len, In (LSys t CReg len true) tr ->
  forall n, may_update y0 len n = true -> reserved p t (area p t + n).
Proof.
  intros p t0 y0 S tr s R t len H n Hn. apply may_update_spec in Hn.
  assert (features y0 <= 1024) by (unfold features; destruct S as (S & _); destruct (Z.eq_dec (k_aux y0) 0); lia).
  unfold reserved. lia.
Qed.
