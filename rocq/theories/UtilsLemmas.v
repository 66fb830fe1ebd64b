(** Arithmetic lemmas about the model of src/rseq-utils.h. *)
From Coq Require Import ZArith Bool List Lia ZifyBool.
From Verif Require Import UtilsModel.
Import ListNotations.
Local Open Scope Z_scope.

Lemma u64_small : forall x, 0 <= x < 2 ^ 64 -> u64 x = x.
Proof. intros x H. unfold u64. apply Z.mod_small. exact H. Qed.

Lemma u64_range : forall x, 0 <= u64 x < 2 ^ 64.
Proof. intros x. unfold u64. apply Z.mod_pos_bound. lia. Qed.

Lemma wb_range : forall w, 32 <= word_bits w <= 64.
Proof. destruct w; cbn; lia. Qed.
Lemma wb_pos : forall w, 0 < 2 ^ word_bits w.
Proof. intros w. apply Z.pow_pos_nonneg; pose proof (wb_range w); lia. Qed.
Lemma wb_max : forall w, 2 ^ 32 <= 2 ^ word_bits w <= 2 ^ 64.
Proof. destruct w; cbn; lia. Qed.
Lemma uw_small : forall w x, 0 <= x < 2 ^ word_bits w -> uw w x = x.
Proof. intros w x H. unfold uw. apply Z.mod_small. exact H. Qed.
Lemma uw_range : forall w x, 0 <= uw w x < 2 ^ word_bits w.
Proof. intros w x. unfold uw. apply Z.mod_pos_bound, wb_pos. Qed.

(** Masking with the complement of the low bits is rounding down. *)
Lemma land_not_low : forall w x k,
  0 <= k <= word_bits w -> 0 <= x < 2 ^ word_bits w ->
  Z.land x (notw w (2 ^ k - 1)) = x / 2 ^ k * 2 ^ k.
Proof.
  intros w x k Hk Hx. pose proof (wb_range w) as Hw. set (W := word_bits w) in *.
  rewrite <- Z.shiftl_mul_pow2 by lia. rewrite <- Z.shiftr_div_pow2 by lia.
  apply Z.bits_inj'. intros n Hn.
  rewrite Z.land_spec.
  assert (Hnot : Z.testbit (notw w (2 ^ k - 1)) n = (k <=? n) && (n <? W)).
  { unfold notw. fold W.
    replace (2 ^ W - 1 - (2 ^ k - 1)) with (Z.ones (W - k) * 2 ^ k).
    2:{ rewrite Z.ones_equiv. rewrite <- Z.sub_1_r. rewrite Z.mul_sub_distr_r.
        rewrite <- Z.pow_add_r by lia. replace (W - k + k) with W by lia. lia. }
    rewrite <- Z.shiftl_mul_pow2 by lia.
    destruct (Z.leb_spec k n).
    - rewrite Z.shiftl_spec by lia.
      destruct (Z.ltb_spec n W).
      + rewrite Z.ones_spec_low by lia. reflexivity.
      + rewrite Z.ones_spec_high by lia. reflexivity.
    - rewrite Z.shiftl_spec_low by lia. reflexivity. }
  rewrite Hnot.
  destruct (Z.leb_spec k n).
  - rewrite Z.shiftl_spec by lia. rewrite Z.shiftr_spec by lia.
    replace (n - k + k) with n by lia.
    destruct (Z.ltb_spec n W); cbn [andb].
    + rewrite andb_true_r. reflexivity.
    + rewrite andb_false_r. symmetry.
      assert (Hxm : x = x mod 2 ^ W) by (symmetry; apply Z.mod_small; lia).
      rewrite Hxm. apply Z.mod_pow2_bits_high. lia.
  - rewrite Z.shiftl_spec_low by lia. cbn. rewrite andb_false_r. reflexivity.
Qed.

Lemma land_low : forall x k, 0 <= k -> Z.land x (2 ^ k - 1) = x mod 2 ^ k.
Proof.
  intros x k Hk. rewrite <- Z.land_ones by lia. rewrite Z.ones_equiv.
  rewrite Z.sub_1_r. reflexivity.
Qed.

Lemma pow2_le_64 : forall k, 0 <= k -> 2 ^ k < 2 ^ 64 -> k < 64.
Proof. intros k Hk H. apply Z.pow_lt_mono_r_iff in H; lia. Qed.

Lemma rseq_align_correct : forall w v k,
  0 <= v -> 0 <= k < word_bits w -> v + 2 ^ k <= 2 ^ word_bits w ->
  (2 ^ k | rseq_align w v (2 ^ k)) /\ v <= rseq_align w v (2 ^ k) < v + 2 ^ k.
Proof.
  intros w v k Hv Hk Hov.
  assert (Hp : 0 < 2 ^ k) by (apply Z.pow_pos_nonneg; lia).
  unfold rseq_align.
  rewrite (uw_small w (2 ^ k - 1)) by lia.
  rewrite (uw_small w (v + (2 ^ k - 1))) by lia.
  rewrite land_not_low by lia.
  set (p := 2 ^ k) in *.
  split.
  - exists ((v + (p - 1)) / p). reflexivity.
  - pose proof (Z.div_mod (v + (p - 1)) p ltac:(lia)).
    pose proof (Z.mod_pos_bound (v + (p - 1)) p ltac:(lia)). lia.
Qed.

(** [fls_stage] keeps the relation "highest bit of the original x = highest
    bit of the current x, minus what was shifted". *)
Lemma land_high_zero : forall w s x,
  0 <= s <= w -> 0 <= x < 2 ^ w ->
  (Z.land x (2 ^ w - 2 ^ (w - s)) = 0 <-> x < 2 ^ (w - s)).
Proof.
  intros w s x Hs Hx.
  assert (H1 : 2 ^ w - 2 ^ (w - s) = Z.shiftl (Z.ones s) (w - s)).
  { rewrite Z.shiftl_mul_pow2 by lia. rewrite Z.ones_equiv. rewrite <- Z.sub_1_r.
    rewrite Z.mul_sub_distr_r. rewrite <- Z.pow_add_r by lia.
    replace (s + (w - s)) with w by lia. lia. }
  rewrite H1.
  assert (H2 : Z.land x (Z.shiftl (Z.ones s) (w - s)) = Z.shiftl (x / 2 ^ (w - s)) (w - s)).
  { apply Z.bits_inj'. intros n Hn. rewrite Z.land_spec.
    destruct (Z.leb_spec (w - s) n).
    - rewrite !Z.shiftl_spec by lia. rewrite <- Z.shiftr_div_pow2 by lia.
      rewrite Z.shiftr_spec by lia. replace (n - (w - s) + (w - s)) with n by lia.
      destruct (Z.ltb_spec (n - (w - s)) s).
      + rewrite Z.ones_spec_low by lia. apply andb_true_r.
      + rewrite Z.ones_spec_high by lia. rewrite andb_false_r. symmetry.
        rewrite <- (Z.mod_small x (2 ^ w)) by lia. apply Z.mod_pow2_bits_high. lia.
    - rewrite !Z.shiftl_spec_low by lia. apply andb_false_r. }
  rewrite H2. rewrite Z.shiftl_eq_0_iff by lia.
  assert (0 < 2 ^ (w - s)) by (apply Z.pow_pos_nonneg; lia).
  split; intros H3.
  - apply Z.div_small_iff in H3; lia.
  - apply Z.div_small. lia.
Qed.

(** State of the binary search after a stage: the remaining width of zero bits
    at the top is bounded by [s]. *)
Definition fls_rel (w b x0 : Z) (st : Z * Z) : Prop :=
  let '(x, r) := st in
  0 < x < 2 ^ w /\ 2 ^ (w - b) <= x /\ 0 <= r <= w /\ x = x0 * 2 ^ (w - r).

Lemma fls_stage_ok : forall w s x0 st,
  0 < s -> 2 * s <= w -> fls_rel w (2 * s) x0 st ->
  fls_rel w s x0 (fls_stage w (2 ^ w - 2 ^ (w - s)) s st).
Proof.
  intros w s x0 [x r] Hs Hw (Hx & Hlow & Hr & Hx0).
  unfold fls_stage.
  destruct (Z.eqb_spec (Z.land x (2 ^ w - 2 ^ (w - s))) 0) as [E|E];
    rewrite land_high_zero in E by lia.
  - assert (Hmul : x * 2 ^ s < 2 ^ w).
    { replace w with ((w - s) + s) by lia. rewrite Z.pow_add_r by lia.
      apply Z.mul_lt_mono_pos_r; [apply Z.pow_pos_nonneg; lia | lia]. }
    assert (Hps : 0 < 2 ^ s) by (apply Z.pow_pos_nonneg; lia).
    assert (Hge : 2 ^ (w - s) <= x * 2 ^ s).
    { replace (w - s) with ((w - 2 * s) + s) by lia. rewrite Z.pow_add_r by lia.
      apply Z.mul_le_mono_pos_r; lia. }
    rewrite Z.mod_small by nia.
    assert (Hrs : s <= r).
    { destruct (Z.le_gt_cases s r) as [G|G]; [exact G|exfalso].
      assert (0 < x0).
      { assert (0 < 2 ^ (w - r)) by (apply Z.pow_pos_nonneg; lia). nia. }
      assert (2 ^ (w - s) <= 2 ^ (w - r)) by (apply Z.pow_le_mono_r; lia).
      nia. }
    repeat split; try lia; try nia.
    rewrite Hx0. replace (w - (r - s)) with ((w - r) + s) by lia.
    rewrite Z.pow_add_r by lia. ring.
  - repeat split; try lia.
Qed.

Lemma fls_rel_final : forall w x0 x r,
  0 < w -> 0 < x0 ->
  fls_rel w 1 x0 (x, r) -> 2 ^ (r - 1) <= x0 < 2 ^ r /\ 1 <= r.
Proof.
  intros w x0 x r Hw Hx00 (Hx & Hlow & Hr & Hx0).
  assert (Hp : 0 < 2 ^ (w - r)) by (apply Z.pow_pos_nonneg; lia).
  assert (Hr1 : 1 <= r).
  { destruct (Z.le_gt_cases 1 r) as [G|G]; [exact G|exfalso].
    replace r with 0 in * by lia. rewrite Z.sub_0_r in *. nia. }
  split; [|exact Hr1]. split.
  - apply (Z.mul_le_mono_pos_r _ _ (2 ^ (w - r))); [exact Hp|].
    rewrite <- Z.pow_add_r by lia. replace (r - 1 + (w - r)) with (w - 1) by lia.
    rewrite <- Hx0. exact Hlow.
  - apply (Z.mul_lt_mono_pos_r (2 ^ (w - r))); [exact Hp|].
    rewrite <- Z.pow_add_r by lia. replace (r + (w - r)) with w by lia.
    rewrite <- Hx0. lia.
Qed.

Lemma rseq_fls_u64_correct : forall x,
  0 < x < 2 ^ 64 -> let r := rseq_fls_u64 x in
  1 <= r <= 64 /\ 2 ^ (r - 1) <= x < 2 ^ r.
Proof.
  intros x Hx. unfold rseq_fls_u64.
  destruct (Z.eqb_spec x 0) as [E|_]; [lia|].
  assert (R0 : fls_rel 64 (2 * 32) x (x, 64)).
  { repeat split; lia. }
  pose proof (fls_stage_ok 64 32 x _ ltac:(lia) ltac:(lia) R0) as R1.
  pose proof (fls_stage_ok 64 16 x _ ltac:(lia) ltac:(lia) R1) as R2.
  pose proof (fls_stage_ok 64 8 x _ ltac:(lia) ltac:(lia) R2) as R3.
  pose proof (fls_stage_ok 64 4 x _ ltac:(lia) ltac:(lia) R3) as R4.
  pose proof (fls_stage_ok 64 2 x _ ltac:(lia) ltac:(lia) R4) as R5.
  pose proof (fls_stage_ok 64 1 x _ ltac:(lia) ltac:(lia) R5) as R6.
  change (2 ^ 64 - 2 ^ (64 - 32)) with 0xFFFFFFFF00000000 in *.
  change (2 ^ 64 - 2 ^ (64 - 16)) with 0xFFFF000000000000 in *.
  change (2 ^ 64 - 2 ^ (64 - 8)) with 0xFF00000000000000 in *.
  change (2 ^ 64 - 2 ^ (64 - 4)) with 0xF000000000000000 in *.
  change (2 ^ 64 - 2 ^ (64 - 2)) with 0xC000000000000000 in *.
  change (2 ^ 64 - 2 ^ (64 - 1)) with 0x8000000000000000 in *.
  cbv zeta. 
  set (st := fls_stage 64 0x8000000000000000 1 _) in *. clearbody st. clear R0 R1 R2 R3 R4 R5.
  destruct st as [x' r]. cbn [snd].
  destruct (fls_rel_final 64 x x' r ltac:(lia) ltac:(lia) R6) as [B C].
  destruct R6 as (_ & _ & Hr & _). lia.
Qed.

Lemma rseq_fls_u32_correct : forall x,
  0 < x < 2 ^ 32 -> let r := rseq_fls_u32 x in
  1 <= r <= 32 /\ 2 ^ (r - 1) <= x < 2 ^ r.
Proof.
  intros x Hx. unfold rseq_fls_u32.
  destruct (Z.eqb_spec x 0) as [E|_]; [lia|].
  assert (R1 : fls_rel 32 (2 * 16) x (x, 32)).
  { repeat split; lia. }
  pose proof (fls_stage_ok 32 16 x _ ltac:(lia) ltac:(lia) R1) as R2.
  pose proof (fls_stage_ok 32 8 x _ ltac:(lia) ltac:(lia) R2) as R3.
  pose proof (fls_stage_ok 32 4 x _ ltac:(lia) ltac:(lia) R3) as R4.
  pose proof (fls_stage_ok 32 2 x _ ltac:(lia) ltac:(lia) R4) as R5.
  pose proof (fls_stage_ok 32 1 x _ ltac:(lia) ltac:(lia) R5) as R6.
  change (2 ^ 32 - 2 ^ (32 - 16)) with 0xFFFF0000 in *.
  change (2 ^ 32 - 2 ^ (32 - 8)) with 0xFF000000 in *.
  change (2 ^ 32 - 2 ^ (32 - 4)) with 0xF0000000 in *.
  change (2 ^ 32 - 2 ^ (32 - 2)) with 0xC0000000 in *.
  change (2 ^ 32 - 2 ^ (32 - 1)) with 0x80000000 in *.
  cbv zeta.
  set (st := fls_stage 32 0x80000000 1 _) in *. clearbody st. clear R1 R2 R3 R4 R5.
  destruct st as [x' r]. cbn [snd].
  destruct (fls_rel_final 32 x x' r ltac:(lia) ltac:(lia) R6) as [B C].
  destruct R6 as (_ & _ & Hr & _). lia.
Qed.


(** Minimality of the order. *)
Lemma count_order_correct : forall wide x,
  0 < x < 2 ^ word_bits wide ->
  let o := rseq_get_count_order_ulong wide x in
  0 <= o <= word_bits wide /\ x <= 2 ^ o /\ (forall o', 0 <= o' -> x <= 2 ^ o' -> o <= o').
Proof.
  intros wide x Hx. unfold rseq_get_count_order_ulong.
  destruct (Z.eqb_spec x 0) as [E|_]; [lia|].
  destruct (Z.eq_dec x 1) as [E1|N1].
  - subst x. cbv zeta. destruct wide; cbn; repeat split; lia.
  - assert (Hf : let r := rseq_fls_ulong wide (x - 1) in
             1 <= r <= word_bits wide /\ 2 ^ (r - 1) <= x - 1 < 2 ^ r).
    { destruct wide; cbn [rseq_fls_ulong word_bits] in *.
      - apply rseq_fls_u64_correct. lia.
      - apply rseq_fls_u32_correct. lia. }
    cbv zeta in *. destruct Hf as [Hr [Hl Hh]].
    split; [lia|]. split; [lia|].
    intros o' Ho' Hx'.
    destruct (Z.le_gt_cases (rseq_fls_ulong wide (x - 1)) o') as [G|G]; [exact G|exfalso].
    assert (2 ^ o' <= 2 ^ (rseq_fls_ulong wide (x - 1) - 1)) by (apply Z.pow_le_mono_r; lia).
    lia.
Qed.

Lemma is_pow2_correct : forall x,
  0 <= x < 2 ^ 64 ->
  (is_pow2 x = true <-> x = 0 \/ exists k, 0 <= k < 64 /\ x = 2 ^ k).
Proof.
  intros x Hx. unfold is_pow2. rewrite Z.eqb_eq.
  destruct (Z.eq_dec x 0) as [E|N].
  { subst x. cbn. split; intros; [left; reflexivity | reflexivity]. }
  rewrite u64_small by lia.
  set (k := Z.log2 x).
  pose proof (Z.log2_spec x ltac:(lia)) as Hlog. fold k in Hlog.
  assert (Hk : 0 <= k) by apply Z.log2_nonneg.
  assert (Hk64 : k < 64). { apply pow2_le_64; lia. }
  split.
  - intros Hand. right. exists k. split; [lia|].
    destruct (Z.eq_dec x (2 ^ k)) as [Ek|Nk]; [exact Ek|exfalso].
    (* bit k is set in both x and x - 1 *)
    assert (Hb1 : Z.testbit x k = true) by (unfold k; apply Z.bit_log2; lia).
    assert (Hb2 : Z.testbit (x - 1) k = true).
    { replace k with (Z.log2 (x - 1)).
      - apply Z.bit_log2. lia.
      - apply Z.log2_unique; lia. }
    assert (Hb : Z.testbit (Z.land x (x - 1)) k = true) by (rewrite Z.land_spec, Hb1, Hb2; reflexivity).
    rewrite Hand in Hb. rewrite Z.bits_0 in Hb. discriminate.
  - intros [E|[j [Hj Ej]]]; [lia|].
    rewrite Ej. rewrite land_low by lia. apply Z.mod_same.
    assert (0 < 2 ^ j) by (apply Z.pow_pos_nonneg; lia). lia.
Qed.

Lemma offset_align_mod : forall w p k,
  0 <= k < word_bits w -> offset_align w p (2 ^ k) = (- p) mod 2 ^ k.
Proof.
  intros w p k Hk. pose proof (wb_range w) as Hw. set (W := word_bits w) in *. unfold offset_align.
  assert (Hp : 0 < 2 ^ k) by (apply Z.pow_pos_nonneg; lia).
  assert (Hlt : 2 ^ k < 2 ^ W) by (apply Z.pow_lt_mono_r; lia).
  rewrite (uw_small w (2 ^ k - 1)) by (fold W; lia).
  rewrite land_low by lia. unfold uw. fold W.
  replace (2 ^ W) with (2 ^ k * 2 ^ (W - k)) by (rewrite <- Z.pow_add_r by lia; f_equal; lia).
  assert (0 < 2 ^ (W - k)) by (apply Z.pow_pos_nonneg; lia).
  rewrite Z.rem_mul_r by lia.
  rewrite Z.mul_comm. rewrite Z.mod_add by lia. rewrite Z.mod_mod by lia.
  replace (2 ^ k - p) with (- p + 1 * 2 ^ k) by lia. apply Z.mod_add. lia.
Qed.

Lemma offset_align_correct : forall w p k,
  0 <= k < word_bits w ->
  let o := offset_align w p (2 ^ k) in
  0 <= o < 2 ^ k /\ (2 ^ k | p + o) /\ (forall o', 0 <= o' -> (2 ^ k | p + o') -> o <= o').
Proof.
  intros w p k Hk. pose proof (wb_range w) as Hw. set (W := word_bits w) in *. cbv zeta. rewrite offset_align_mod by lia.
  assert (Hp : 0 < 2 ^ k) by (apply Z.pow_pos_nonneg; lia).
  set (q := 2 ^ k) in *.
  pose proof (Z.mod_pos_bound (- p) q Hp) as Hb.
  pose proof (Z.div_mod (- p) q ltac:(lia)) as Hd.
  split; [exact Hb|]. split.
  - exists (- (- p / q)). lia.
  - intros o' Ho' [c Hc].
    assert ((- p) mod q = o' mod q).
    { replace (- p) with (o' + (- c) * q) by lia. apply Z.mod_add. lia. }
    rewrite H. apply Z.mod_le; lia.
Qed.

(** Population count: the number of positions below 64 whose bit is set. *)
Lemma hweight_correct : forall w v,
  rseq_hweight_ulong w v =
  Z.of_nat (length (filter (fun i => Z.testbit v (Z.of_nat i)) (seq 0 (Z.to_nat (word_bits w))))).
Proof.
  intros w v. unfold rseq_hweight_ulong. generalize (seq 0 (Z.to_nat (word_bits w))). intros l.
  induction l as [|i l IH]; [reflexivity|].
  cbn [fold_right filter]. rewrite IH.
  destruct (Z.testbit v (Z.of_nat i)); cbn [length]; lia.
Qed.

Lemma hweight_zero : forall w v, 0 <= v < 2 ^ word_bits w -> (rseq_hweight_ulong w v = 0 <-> v = 0).
Proof.
  intros w v Hv. pose proof (wb_range w) as Hw. rewrite hweight_correct. split.
  - intros H. apply Z.bits_inj'. intros n Hn. rewrite Z.bits_0.
    destruct (Z.testbit v n) eqn:E; [exfalso|reflexivity].
    destruct (Z.lt_ge_cases n (word_bits w)) as [L|G].
    + assert (Hin : In (Z.to_nat n) (filter (fun i => Z.testbit v (Z.of_nat i)) (seq 0 (Z.to_nat (word_bits w))))).
      { apply filter_In. split; [apply in_seq; lia|]. rewrite Z2Nat.id by lia. exact E. }
      destruct (filter (fun i => Z.testbit v (Z.of_nat i)) (seq 0 (Z.to_nat (word_bits w)))); [destruct Hin|cbn [length] in H; lia].
    + rewrite <- (Z.mod_small v (2 ^ word_bits w)) in E by lia.
      rewrite Z.mod_pow2_bits_high in E by lia. discriminate.
  - intros ->. assert (forall l, filter (fun i => Z.testbit 0 (Z.of_nat i)) l = []) as Hn.
    { induction l; cbn [filter]; [reflexivity|]. rewrite Z.bits_0. exact IHl. }
    rewrite Hn. reflexivity.
Qed.

Lemma count_order_full : forall wide x, 0 <= x < 2 ^ word_bits wide ->
  (x = 0 -> rseq_get_count_order_ulong wide x = -1) /\
  (x <> 0 ->
     0 <= rseq_get_count_order_ulong wide x <= word_bits wide /\
     x <= 2 ^ rseq_get_count_order_ulong wide x /\
     (forall o, 0 <= o -> x <= 2 ^ o -> rseq_get_count_order_ulong wide x <= o)).
Proof.
  intros wide x Hx. split.
  - intros ->. reflexivity.
  - intros Hn. apply count_order_correct. lia.
Qed.

Lemma top_bit : forall x r, 1 <= r -> 2 ^ (r - 1) <= x < 2 ^ r ->
  Z.testbit x (r - 1) = true /\ (forall i, r - 1 < i -> Z.testbit x i = false).
Proof.
  intros x r Hr Hx.
  assert (0 < 2 ^ (r - 1)) by (apply Z.pow_pos_nonneg; lia).
  assert (Hl : Z.log2 x = r - 1).
  { apply Z.log2_unique; [lia|]. replace (Z.succ (r - 1)) with r by lia. lia. }
  split.
  - rewrite <- Hl. apply Z.bit_log2. lia.
  - intros i Hi. apply Z.bits_above_log2; lia.
Qed.

Lemma fls_u64_full : forall x, 0 <= x < 2 ^ 64 ->
  (x = 0 -> rseq_fls_u64 x = 0) /\
  (x <> 0 -> 1 <= rseq_fls_u64 x <= 64 /\
     Z.testbit x (rseq_fls_u64 x - 1) = true /\
     (forall i, rseq_fls_u64 x - 1 < i -> Z.testbit x i = false)).
Proof.
  intros x Hx. split.
  - intros ->. reflexivity.
  - intros Hn. destruct (rseq_fls_u64_correct x ltac:(lia)) as [A B].
    split; [exact A|]. apply top_bit; lia.
Qed.

Lemma fls_u32_full : forall x, 0 <= x < 2 ^ 32 ->
  (x = 0 -> rseq_fls_u32 x = 0) /\
  (x <> 0 -> 1 <= rseq_fls_u32 x <= 32 /\
     Z.testbit x (rseq_fls_u32 x - 1) = true /\
     (forall i, rseq_fls_u32 x - 1 < i -> Z.testbit x i = false)).
Proof.
  intros x Hx. split.
  - intros ->. reflexivity.
  - intros Hn. destruct (rseq_fls_u32_correct x ltac:(lia)) as [A B].
    split; [exact A|]. apply top_bit; lia.
Qed.

Lemma rseq_align_full : forall w v k, 0 <= v -> 0 <= k < word_bits w -> v + 2 ^ k <= 2 ^ word_bits w ->
  (2 ^ k | rseq_align w v (2 ^ k)) /\ v <= rseq_align w v (2 ^ k) /\
  (forall a, (2 ^ k | a) -> v <= a -> rseq_align w v (2 ^ k) <= a).
Proof.
  intros w v k Hv Hk Hov. destruct (rseq_align_correct w v k Hv Hk Hov) as [[c Hc] [Hl Hh]].
  split; [exists c; exact Hc|]. split; [exact Hl|].
  intros a [d Hd] Ha.
  assert (Hp : 0 < 2 ^ k) by (apply Z.pow_pos_nonneg; lia).
  set (q := 2 ^ k) in *. rewrite Hc in *. subst a.
  assert (c < d + 1) by nia. nia.
Qed.
