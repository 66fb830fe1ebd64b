(** The allocation bitmap of robust pools. *)
From Coq Require Import ZArith Bool List Lia Znumtheory.
From Verif Require Import UtilsModel UtilsLemmas RseqIR PoolVM PoolVMLemmas PoolModel PoolInv.
Import ListNotations.
Local Open Scope Z_scope.

Lemma land_bit : forall w b, 0 <= b -> (Z.land w (Z.shiftl 1 b) =? 0) = negb (Z.testbit w b).
Proof.
  intros w b Hb. rewrite Z.shiftl_1_l. destruct (Z.testbit w b) eqn:E; cbn [negb].
  - apply Z.eqb_neq. intros H. assert (Z.testbit (Z.land w (2 ^ b)) b = false) by (rewrite H; apply Z.bits_0).
    rewrite Z.land_spec, E, Z.pow2_bits_true in H0 by lia. discriminate.
  - apply Z.eqb_eq. apply Z.bits_inj'. intros n Hn. rewrite Z.land_spec, Z.bits_0.
    destruct (Z.eq_dec n b) as [->|Hne].
    + now rewrite E.
    + rewrite (Z.pow2_bits_false b n) by lia. apply andb_false_r.
Qed.

Lemma notw_bits : forall e x n, 0 <= x < wmax e -> 0 <= n -> Z.testbit (notw (e_wide e) x) n = (n <? word_bits (e_wide e)) && negb (Z.testbit x n).
Proof.
  intros e x n Hx Hn. unfold notw. unfold wmax in Hx. pose proof (wb_range (e_wide e)) as Hwb. set (W := word_bits (e_wide e)) in *.
  replace (2 ^ W - 1 - x) with (Z.ldiff (Z.ones W) x).
  - rewrite Z.ldiff_spec, Z.testbit_ones by lia. destruct (0 <=? n) eqn:E; [reflexivity|]. lia.
  - rewrite Z.ones_equiv. assert (Hs : Z.ldiff x (Z.ones W) = 0).
    { rewrite Z.ldiff_ones_r by lia. rewrite Z.shiftr_div_pow2 by lia. rewrite Z.div_small by lia. apply Z.shiftl_0_l. }
    rewrite <- (Z.sub_nocarry_ldiff (Z.pred (2 ^ W)) x); [lia|]. rewrite <- Z.ones_equiv. exact Hs.
Qed.

Lemma bits_bound : forall e w, 0 <= w -> (forall n, word_bits (e_wide e) <= n -> Z.testbit w n = false) -> w < wmax e.
Proof.
  intros e w H0 H. unfold wmax. pose proof (wb_range (e_wide e)) as Hwb. pose proof (wb_pos (e_wide e)) as Hwp. set (W := word_bits (e_wide e)) in *. destruct (Z.eq_dec w 0) as [->|Hne]; [lia|].
  destruct (Z_lt_dec w (2 ^ W)) as [|Hge]; auto. exfalso.
  assert (Hl : W <= Z.log2 w) by (apply Z.log2_le_pow2; lia).
  pose proof (Z.bit_log2 w ltac:(lia)). rewrite H in H1 by lia. discriminate.
Qed.

Lemma upd_nth_length : forall l k w, (k < length l)%nat -> length (upd_nth l k w) = length l.
Proof.
  intros l k w H. unfold upd_nth. rewrite app_length, firstn_length. cbn [length].
  rewrite skipn_length. lia.
Qed.

Lemma upd_nth_nth : forall l k w j d, (k < length l)%nat ->
  nth j (upd_nth l k w) d = if Nat.eqb j k then w else nth j l d.
Proof.
  intros l k w j d H. unfold upd_nth. destruct (Nat.eqb j k) eqn:E.
  - apply Nat.eqb_eq in E. subst. rewrite app_nth2; rewrite firstn_length; [|lia].
    replace (k - Nat.min k (length l))%nat with 0%nat by lia. reflexivity.
  - apply Nat.eqb_neq in E. destruct (Nat.lt_ge_cases j k).
    + rewrite app_nth1 by (rewrite firstn_length; lia). rewrite <- (firstn_skipn k l) at 2.
      rewrite app_nth1 by (rewrite firstn_length; lia). reflexivity.
    + rewrite app_nth2 by (rewrite firstn_length; lia). rewrite firstn_length.
      destruct (j - Nat.min k (length l))%nat as [|m] eqn:Em; [lia|]. cbn [nth].
      rewrite <- (firstn_skipn (S k) l) at 2. rewrite app_nth2 by (rewrite firstn_length; lia).
      rewrite firstn_length. f_equal. lia.
Qed.

Lemma Forall_upd_nth : forall (Q : Z -> Prop) l k w, Forall Q l -> Q w -> Forall Q (upd_nth l k w).
Proof.
  intros Q l k w Hl Hw. unfold upd_nth. apply Forall_app. split.
  - apply Forall_forall. intros x Hx. rewrite Forall_forall in Hl. apply Hl.
    rewrite <- (firstn_skipn k l). apply in_or_app. auto.
  - constructor; auto. apply Forall_forall. intros x Hx. rewrite Forall_forall in Hl. apply Hl.
    rewrite <- (firstn_skipn (S k) l). apply in_or_app. auto.
Qed.

Section Bitmap.
Variable e : env.
Variable P : pool.
Hypothesis HG : geom e P.
Notation wb := (word_bits (e_wide e)).

Lemma index_div : forall o, 0 <= o -> Z.shiftr o (item_order P) = o / item_len P.
Proof.
  intros o Ho. rewrite (g_item _ _ HG). apply Z.shiftr_div_pow2. pose proof (g_order _ _ HG). lia.
Qed.

Lemma index_inj : forall o o', 0 <= o -> 0 <= o' -> (item_len P | o) -> (item_len P | o') ->
  o / item_len P = o' / item_len P -> o = o'.
Proof.
  intros o o' H H' [k ->] [j ->] He. pose proof (item_pos _ _ HG). rewrite !Z.div_mul in He by lia. congruence.
Qed.

Lemma word_bit_inj : forall i j, 0 <= i -> 0 <= j -> Z.to_nat (i / wb) = Z.to_nat (j / wb) -> i mod wb = j mod wb -> i = j.
Proof.
  pose proof (wb_range (e_wide e)) as Hwb.
  intros i j Hi Hj H1 H2. assert (i / wb = j / wb).
  { apply Z2Nat.inj; auto; apply Z.div_pos; lia. }
  pose proof (Z.div_mod i wb ltac:(lia)). pose proof (Z.div_mod j wb ltac:(lia)). lia.
Qed.

Lemma slot_in_bitmap : forall o, 0 <= o < strd P -> (item_len P | o) ->
  (Z.to_nat (slot_word e P o) < Z.to_nat (bitmap_words e P))%nat.
Proof.
  pose proof (wb_range (e_wide e)) as Hwb.
  intros o Ho Hd. unfold slot_word, bitmap_words. pose proof (item_pos _ _ HG) as Hi.
  pose proof (item_strd _ _ HG) as [m Hm].
  rewrite !index_div by (pose proof (strd_pos _ _ HG); lia).
  destruct Hd as [k ->]. rewrite Hm in *. rewrite !Z.div_mul by lia.
  assert (0 <= k < m) by nia. assert (k / wb < (m + wb - 1) / wb).
  { assert (k / wb + 1 <= (m + wb - 1) / wb); [|lia]. apply Z.div_le_lower_bound; [lia|].
    pose proof (Z.mul_div_le k wb ltac:(lia)). lia. }
  assert (0 <= k / wb) by (apply Z.div_pos; lia). lia.
Qed.

Lemma nth_error_some : forall (l : list Z) k, (k < length l)%nat -> nth_error l k = Some (nth k l 0).
Proof. intros l k H. now apply nth_error_nth'. Qed.

Section Slot.
Variables (r : range) (o : Z).
Hypothesis Hbm : bitmap_ok e P r.
Hypothesis Ho : 0 <= o < strd P.
Hypothesis Hd : (item_len P | o).

Lemma set_slot_spec :
  (slot_bit e P r o = true /\ set_alloc_slot e P r o = Abort) \/
  (slot_bit e P r o = false /\ exists bm', set_alloc_slot e P r o = Ok (set_bitmap r (Some bm')) /\
     bitmap_ok e P (set_bitmap r (Some bm')) /\
     forall o', 0 <= o' < strd P -> (item_len P | o') ->
       slot_bit e P (set_bitmap r (Some bm')) o' = if o' =? o then true else slot_bit e P r o').
Proof.
  pose proof (wb_range (e_wide e)) as Hwb.
  destruct Hbm as (bm & Hb & Hlen & HF & HX). unfold slot_bit, set_alloc_slot. rewrite Hb.
  pose proof (slot_in_bitmap o Ho Hd) as Hk. rewrite <- Hlen in Hk.
  rewrite nth_error_some by auto. set (k := Z.to_nat (slot_word e P o)) in *. set (w := nth k bm 0).
  unfold slot_mask. set (b := Z.shiftr o (item_order P) mod wb).
  assert (Hbr : 0 <= b < wb) by (apply Z.mod_pos_bound; lia).
  assert (Hw : 0 <= w < wmax e) by (unfold w; rewrite Forall_forall in HF; apply HF; apply nth_In; auto).
  rewrite land_bit by lia. rewrite negb_involutive.
  destruct (Z.testbit w b) eqn:Eb; [left; auto|right]. split; auto.
  eexists. split; [reflexivity|]. split.
  - exists (upd_nth bm k (Z.lor w (Z.shiftl 1 b))). split; [reflexivity|]. split; [rewrite upd_nth_length; auto|].
    split; cycle 1.
    { intros k' c Hc Ht. rewrite upd_nth_nth in Ht by auto. destruct (Nat.eqb k' k) eqn:Ek; [|apply HX; auto].
      apply Nat.eqb_eq in Ek. subst k'. rewrite Z.lor_spec in Ht. apply orb_prop in Ht. destruct Ht as [Ht|Ht].
      - apply HX; auto.
      - rewrite Z.shiftl_1_l in Ht. assert (c = b).
        { destruct (Z.eq_dec c b); auto. rewrite Z.pow2_bits_false in Ht by lia. discriminate. }
        subst c. unfold k, b, slot_word. rewrite index_div by lia. pose proof (item_pos _ _ HG).
        assert (0 <= o / item_len P) by (apply Z.div_pos; lia).
        rewrite Z2Nat.id by (apply Z.div_pos; lia).
        pose proof (Z.div_mod (o / item_len P) wb ltac:(lia)) as Hdm. rewrite <- Hdm.
        destruct Hd as [m ->]. rewrite Z.div_mul by lia. lia. }
    apply Forall_upd_nth; auto. assert (0 <= Z.lor w (Z.shiftl 1 b)).
    { apply Z.lor_nonneg. split; [lia|]. rewrite Z.shiftl_1_l. apply Z.pow_nonneg. lia. }
    split; auto. apply (bits_bound e); auto. intros n Hn. rewrite Z.lor_spec, Z.shiftl_1_l, Z.pow2_bits_false by lia.
    rewrite orb_false_r. apply Z.testbit_false; [lia|]. rewrite Z.div_small; [reflexivity|].
    assert (wmax e <= 2 ^ n) by (apply Z.pow_le_mono_r; lia). lia.
  - intros o' Ho' Hd'. cbn [alloc_bitmap set_bitmap]. rewrite upd_nth_nth by auto.
    set (b' := Z.shiftr o' (item_order P) mod wb). assert (0 <= b' < wb) by (apply Z.mod_pos_bound; lia).
    destruct (o' =? o) eqn:Eo.
    + apply Z.eqb_eq in Eo. subst o'. fold k. rewrite Nat.eqb_refl. fold b in b'. unfold b'.
      rewrite Z.lor_spec, Z.shiftl_1_l, Z.pow2_bits_true by lia. apply orb_true_r.
    + apply Z.eqb_neq in Eo. destruct (Nat.eqb (Z.to_nat (slot_word e P o')) k) eqn:Ek; [|reflexivity].
      apply Nat.eqb_eq in Ek. rewrite Z.lor_spec, Z.shiftl_1_l.
      rewrite Z.pow2_bits_false; [rewrite orb_false_r; unfold w; rewrite Ek; reflexivity|].
      intros Hbb. apply Eo. apply index_inj; auto; try lia.
      unfold k, slot_word in Ek. unfold b, b' in Hbb.
      rewrite !index_div in * by lia. pose proof (item_pos _ _ HG).
      apply word_bit_inj; auto; try (apply Z.div_pos; lia).
Qed.

Lemma clear_slot_spec :
  (slot_bit e P r o = false /\ clear_alloc_slot e P r o = Abort) \/
  (slot_bit e P r o = true /\ exists bm', clear_alloc_slot e P r o = Ok (set_bitmap r (Some bm')) /\
     bitmap_ok e P (set_bitmap r (Some bm')) /\
     forall o', 0 <= o' < strd P -> (item_len P | o') ->
       slot_bit e P (set_bitmap r (Some bm')) o' = if o' =? o then false else slot_bit e P r o').
Proof.
  pose proof (wb_range (e_wide e)) as Hwb.
  destruct Hbm as (bm & Hb & Hlen & HF & HX). unfold slot_bit, clear_alloc_slot. rewrite Hb.
  pose proof (slot_in_bitmap o Ho Hd) as Hk. rewrite <- Hlen in Hk.
  rewrite nth_error_some by auto. set (k := Z.to_nat (slot_word e P o)) in *. set (w := nth k bm 0).
  unfold slot_mask. set (b := Z.shiftr o (item_order P) mod wb).
  assert (Hbr : 0 <= b < wb) by (apply Z.mod_pos_bound; lia).
  assert (Hw : 0 <= w < wmax e) by (unfold w; rewrite Forall_forall in HF; apply HF; apply nth_In; auto).
  assert (Hm : 0 <= Z.shiftl 1 b < wmax e).
  { rewrite Z.shiftl_1_l. split; [apply Z.pow_nonneg; lia|apply Z.pow_lt_mono_r; lia]. }
  rewrite land_bit by lia.
  destruct (Z.testbit w b) eqn:Eb; cbn [negb]; [right|left; auto]. split; auto.
  eexists. split; [reflexivity|]. split.
  - exists (upd_nth bm k (Z.land w (notw (e_wide e) (Z.shiftl 1 b)))). split; [reflexivity|]. split; [rewrite upd_nth_length; auto|].
    split; cycle 1.
    { intros k' c Hc Ht. rewrite upd_nth_nth in Ht by auto. destruct (Nat.eqb k' k) eqn:Ek; [|apply HX; auto].
      apply Nat.eqb_eq in Ek. subst k'. rewrite Z.land_spec in Ht. apply andb_prop in Ht. destruct Ht as [Ht _].
      apply HX; auto. }
    apply Forall_upd_nth; auto. assert (0 <= Z.land w (notw (e_wide e) (Z.shiftl 1 b))) by (apply Z.land_nonneg; left; lia).
    split; auto. apply (bits_bound e); auto. intros n Hn. rewrite Z.land_spec.
    assert (Z.testbit w n = false) as ->; [|reflexivity]. apply Z.testbit_false; [lia|]. rewrite Z.div_small; [reflexivity|].
    assert (wmax e <= 2 ^ n) by (apply Z.pow_le_mono_r; lia). lia.
  - intros o' Ho' Hd'. cbn [alloc_bitmap set_bitmap]. rewrite upd_nth_nth by auto.
    set (b' := Z.shiftr o' (item_order P) mod wb). assert (0 <= b' < wb) by (apply Z.mod_pos_bound; lia).
    destruct (o' =? o) eqn:Eo.
    + apply Z.eqb_eq in Eo. subst o'. fold k. rewrite Nat.eqb_refl. fold b in b'. unfold b'.
      rewrite Z.land_spec, (notw_bits e), Z.shiftl_1_l, Z.pow2_bits_true by (auto; lia). cbn. rewrite !andb_false_r. reflexivity.
    + apply Z.eqb_neq in Eo. destruct (Nat.eqb (Z.to_nat (slot_word e P o')) k) eqn:Ek; [|reflexivity].
      apply Nat.eqb_eq in Ek. rewrite Z.land_spec, (notw_bits e), Z.shiftl_1_l by (auto; lia).
      rewrite Z.pow2_bits_false.
      * replace (b' <? wb) with true by lia. cbn. rewrite andb_true_r. unfold w. rewrite Ek. reflexivity.
      * intros Hbb. apply Eo. apply index_inj; auto; try lia.
        unfold k, slot_word in Ek. unfold b, b' in Hbb.
        rewrite !index_div in * by lia. pose proof (item_pos _ _ HG).
        apply word_bit_inj; auto; try (apply Z.div_pos; lia).
Qed.
End Slot.

(** The leak count is zero exactly when no bit is set. *)
Lemma hweight_nonneg : forall w, 0 <= rseq_hweight_ulong (e_wide e) w.
Proof. intros w. rewrite hweight_correct. lia. Qed.
Lemma leaks_zero : forall bm, Forall (fun w => 0 <= w < wmax e) bm ->
  (fold_right (fun w a => rseq_hweight_ulong (e_wide e) w + a) 0 bm = 0 <-> Forall (fun w => w = 0) bm).
Proof.
  intros bm HF. assert (Hnn : forall l, 0 <= fold_right (fun w a => rseq_hweight_ulong (e_wide e) w + a) 0 l).
  { induction l; cbn [fold_right]; [lia|]. pose proof (hweight_nonneg a). lia. }
  induction bm as [|w bm IH]; cbn [fold_right]; [split; auto|].
  inversion HF; subst. pose proof (hweight_nonneg w). pose proof (Hnn bm). split.
  - intros H'. constructor; [apply (hweight_zero (e_wide e) w H1); lia|]. apply IH; auto. lia.
  - intros H'. inversion H'; subst. rewrite (proj2 (IH H2)) by auto. rewrite (proj2 (hweight_zero (e_wide e) 0 H1) eq_refl). reflexivity.
Qed.

Lemma destroy_bitmap_spec : forall r, bitmap_ok e P r ->
  (destroy_alloc_bitmap e r = Ok (set_bitmap r None) /\ forall o, slot_bit e P r o = false) \/
  (destroy_alloc_bitmap e r = Abort /\ exists o, 0 <= o < strd P /\ (item_len P | o) /\ slot_bit e P r o = true).
Proof.
  pose proof (wb_range (e_wide e)) as Hwb.
  intros r (bm & Hb & Hlen & HF & HX). unfold destroy_alloc_bitmap. rewrite Hb.
  destruct (_ =? 0) eqn:E.
  - left. split; auto. apply Z.eqb_eq in E. rewrite leaks_zero in E by auto.
    intros o. unfold slot_bit. rewrite Hb. rewrite Forall_forall in E.
    destruct (Nat.lt_ge_cases (Z.to_nat (slot_word e P o)) (length bm)).
    + rewrite (E (nth _ bm 0)) by (apply nth_In; auto). apply Z.bits_0.
    + rewrite nth_overflow by auto. apply Z.bits_0.
  - right. split; auto. apply Z.eqb_neq in E.
    assert (Hne : ~ Forall (fun w => w = 0) bm) by (intros H; apply E; apply leaks_zero; auto).
    assert (exists k, (k < length bm)%nat /\ nth k bm 0 <> 0) as (k & Hk & Hnz).
    { clear -Hne. induction bm as [|w bm IH]; [elim Hne; constructor|].
      destruct (Z.eq_dec w 0) as [->|Hw]; [|exists 0%nat; cbn; split; [lia|auto]].
      destruct IH as (k & Hk & Hn); [intros H; apply Hne; now constructor|].
      exists (S k). cbn. split; [lia|auto]. }
    assert (Hw : 0 <= nth k bm 0 < wmax e) by (rewrite Forall_forall in HF; apply HF; apply nth_In; auto).
    set (b := Z.log2 (nth k bm 0)).
    assert (Hbit : Z.testbit (nth k bm 0) b = true) by (apply Z.bit_log2; lia).
    assert (Hb64 : 0 <= b < wb) by (split; [apply Z.log2_nonneg|apply Z.log2_lt_pow2; [lia|exact (proj2 Hw)]]).
    pose proof (item_pos _ _ HG) as Hip. pose proof (HX k b Hb64 Hbit) as Hlt.
    exists ((wb * Z.of_nat k + b) * item_len P). split; [split; [apply Z.mul_nonneg_nonneg; [|lia]; apply Z.add_nonneg_nonneg; [apply Z.mul_nonneg_nonneg|]; lia|exact Hlt]|]. split; [apply Z.divide_factor_r|].
    unfold slot_bit. rewrite Hb. unfold slot_word. rewrite index_div by (apply Z.mul_nonneg_nonneg; [|lia]; apply Z.add_nonneg_nonneg; [apply Z.mul_nonneg_nonneg|]; lia). rewrite Z.div_mul by lia.
    replace ((wb * Z.of_nat k + b) / wb) with (Z.of_nat k).
    2:{ rewrite Z.mul_comm, Z.div_add_l by lia. rewrite Z.div_small by lia. lia. }
    rewrite Nat2Z.id. rewrite Z.mul_comm, Z.add_comm, Z.mod_add by lia. rewrite Z.mod_small by lia. exact Hbit.
Qed.

(** A set bit makes destruction abort. *)
Lemma destroy_bitmap_leak : forall r o, bitmap_ok e P r -> slot_bit e P r o = true -> destroy_alloc_bitmap e r = Abort.
Proof.
  intros r o Hb Ho. destruct (destroy_bitmap_spec r Hb) as [[_ H]|[H _]]; auto. rewrite H in Ho. discriminate.
Qed.
End Bitmap.
