(** Capacity, reuse, and the checks of robust pools. *)
From Coq Require Import ZArith Bool List Lia Znumtheory Permutation.
From Verif Require Import UtilsModel UtilsLemmas RseqIR MemLemmas PoolVM PoolVMLemmas PoolModel PoolInv PoolItem PoolMap PoolRange PoolBitmap PoolOps PoolMalloc PoolFree PoolWorld PoolDestroy PoolCreate PoolHist PoolProps.
Import ListNotations.
Local Open Scope Z_scope.

Lemma count_items : forall id l, count id l = Z.of_nat (length (items id l)).
Proof. intros id l. unfold count, items. now rewrite map_length. Qed.

Lemma nth_le_bytes : forall n v j, 0 <= j < Z.of_nat n -> nth (Z.to_nat j) (le_bytes n v) 0 = v / 256 ^ j mod 256.
Proof.
  induction n as [|n IH]; intros v j Hj; [lia|]. cbn [le_bytes].
  destruct (Z.eq_dec j 0) as [->|Hne]; [cbn [nth Z.to_nat]; now rewrite Z.div_1_r|].
  replace (Z.to_nat j) with (S (Z.to_nat (j - 1))) by lia. cbn [nth]. rewrite IH by lia.
  rewrite Z.div_div by (try apply Z.pow_pos_nonneg; lia). replace (256 * 256 ^ (j - 1)) with (256 ^ j); auto.
  rewrite <- Z.pow_succ_r by lia. f_equal. lia.
Qed.

Lemma word_byte_le : forall e p j, 0 <= j < wsz e ->
  word_byte e p j = nth (Z.to_nat j) (order (wcfg e) (le_bytes (wsize (wcfg e)) p)) 0.
Proof.
  intros e p j Hj. pose proof (wsz_nat e) as Hn. unfold word_byte, order. change (bigend (wcfg e)) with (e_big e). destruct (e_big e).
  - rewrite rev_nth by (rewrite le_bytes_length; lia). rewrite le_bytes_length.
    replace (wsize (wcfg e) - S (Z.to_nat j))%nat with (Z.to_nat (wsz e - 1 - j)) by lia. rewrite nth_le_bytes by lia. reflexivity.
  - now rewrite nth_le_bytes by lia.
Qed.

Lemma le_bytes_val : forall l, Forall (fun b => 0 <= b < 256) l -> le_bytes (length l) (le_val l) = l.
Proof.
  induction 1 as [|b l Hb _ IH]; auto. cbn [length le_bytes le_val].
  replace (b + 256 * le_val l) with (b + le_val l * 256) by ring.
  rewrite Z.mod_add, Z.div_add, Z.mod_small, Z.div_small by lia. rewrite Z.add_0_l. now rewrite IH.
Qed.

Lemma find_items : forall id a (l : ledger), find (fun i => fst i =? id) l = Some (id, a) -> exists l', items id l = a :: l'.
Proof.
  intros id a l. induction l as [|[i b] l IH]; cbn [find fst]; [discriminate|].
  unfold items. cbn [filter fst]. destruct (i =? id) eqn:E; [|exact IH].
  intros H. injection H as -> ->. eexists. reflexivity.
Qed.
Lemma find_items_none : forall id (l : ledger), find (fun i => fst i =? id) l = None -> items id l = [].
Proof.
  intros id l. induction l as [|[i b] l IH]; cbn [find fst]; auto. unfold items. cbn [filter fst].
  destruct (i =? id) eqn:E; [discriminate|exact IH].
Qed.

Section Props.
Variable e : env.
Notation psz := (e_page e).
Notation page := (PoolVM.page e).
Notation geom := (geom e).
Notation rinv := (rinv e).
Notation pinv := (pinv e).
Notation poisoned := (poisoned e).
Notation vmwf := (vmwf e).
Notation history := (history e).
Notation intact := (intact e).

(** A word holds [p] exactly when its bytes are those of [p]. *)
Lemma word_bytes : forall v a p, 0 <= p < wmax e ->
  load_word e v a = p <-> forall j, 0 <= j < wsz e -> byte (view e v) (a + j) = word_byte e p j.
Proof.
  intros v a p Hp. pose proof (wsz_nat e) as Hnat. pose proof (wsz_range e) as Hws.
  assert (E : forall j m, 0 <= j < wsz e -> nth (Z.to_nat j) (map (byte m) (span a (wsize (wcfg e)))) 0 = byte m (a + j)).
  { intros j m Hj. unfold span. rewrite map_map.
    rewrite nth_indep with (d' := byte m (a + Z.of_nat 0)) by (rewrite map_length, seq_length; lia).
    change (byte m (a + Z.of_nat 0)) with ((fun i => byte m (a + Z.of_nat i)) 0%nat).
    rewrite map_nth. rewrite seq_nth by lia. do 2 f_equal. lia. }
  assert (Hval : forall l, length l = wsize (wcfg e) -> Forall (fun b => 0 <= b < 256) l -> le_bytes (wsize (wcfg e)) (le_val l) = l)
    by (intros l Hl Hb; rewrite <- Hl; now apply le_bytes_val).
  unfold load_word, ldw. split.
  - intros H j Hj. rewrite word_byte_le by auto. rewrite <- H. rewrite Hval.
    + unfold order. change (bigend (wcfg e)) with (e_big e). destruct (e_big e); [rewrite rev_involutive|]; now rewrite E.
    + now rewrite order_length, map_length, span_length.
    + unfold order. change (bigend (wcfg e)) with (e_big e). 
      assert (K : Forall (fun b => 0 <= b < 256) (map (byte (view e v)) (span a (wsize (wcfg e))))).
      { apply Forall_forall. intros b Hb. apply in_map_iff in Hb. destruct Hb as (x & <- & _). unfold byte.
        apply Z.mod_pos_bound. lia. }
      destruct (e_big e); auto. now apply Forall_rev.
  - intros H. transitivity (le_val (le_bytes (wsize (wcfg e)) p)); [|apply le_val_bytes; rewrite Hnat, <- wbits_wsz; exact Hp].
    f_equal. 
    assert (K : map (byte (view e v)) (span a (wsize (wcfg e))) = order (wcfg e) (le_bytes (wsize (wcfg e)) p)).
    { apply nth_ext with 0 0.
      - now rewrite order_length, map_length, span_length, le_bytes_length.
      - intros n Hn. rewrite map_length, span_length in Hn.
        replace n with (Z.to_nat (Z.of_nat n)) by lia. rewrite E, H, word_byte_le by lia. reflexivity. }
    rewrite K. unfold order. change (bigend (wcfg e)) with (e_big e). destruct (e_big e); [apply rev_involutive|reflexivity].
Qed.

Lemma intact_poisoned : forall P v a, geom P -> intact P v a <-> poisoned P v a.
Proof.
  intros P v a HG. pose proof (eight_item _ _ HG) as [m Hm]. pose proof (wsz_range e) as Hws. split.
  - intros H i k Hi Hk Hk2. apply word_bytes; [apply (g_poison _ _ HG)|]. intros j Hj.
    replace (a + strd P * i + wsz e * k + j) with (percpu_ptr P a i + (wsz e * k + j)) by (unfold percpu_ptr; ring).
    rewrite H; [|exact Hi|assert (k < m) by nia; nia]. f_equal. replace (wsz e * k + j) with (j + k * wsz e) by ring. rewrite Z.mod_add by lia.
    apply Z.mod_small. lia.
  - intros H i k Hi Hk. unfold percpu_ptr.
    pose proof (Z.div_mod k (wsz e) ltac:(lia)) as Ek. pose proof (Z.mod_pos_bound k (wsz e) ltac:(lia)) as Hm8.
    assert (Hw : load_word e v (a + strd P * i + wsz e * (k / wsz e)) = poison (pattr P)).
    { apply H; [exact Hi|apply Z.div_pos; lia|nia]. }
    pose proof (proj1 (word_bytes v _ _ (g_poison _ _ HG)) Hw (k mod wsz e) Hm8) as Hb.
    replace (a + strd P * i + k) with (a + strd P * i + wsz e * (k / wsz e) + k mod wsz e) by lia. exact Hb.
Qed.

Lemma full_handed : forall P v l, geom P -> Forall (rinv P v) l ->
  handed P l <= Z.of_nat (length l) * (strd P / item_len P) /\
  (Forall (fun r => next_unused r = strd P) l -> handed P l = Z.of_nat (length l) * (strd P / item_len P)) /\
  0 <= handed P l.
Proof.
  intros P v l HG HF. pose proof (item_pos _ _ HG) as [Hip Hipw]. unfold handed. induction l as [|r l IH].
  - cbn. split; [lia|]. split; [auto|lia].
  - inversion HF as [|? ? HR HF']; subst. destruct (IH HF') as (H1 & H2 & H3). cbn [fold_right length].
    pose proof (r_unused _ _ _ _ HR) as Hu.
    assert (next_unused r / item_len P <= strd P / item_len P) by (apply Z.div_le_mono; lia).
    assert (0 <= next_unused r / item_len P) by (apply Z.div_pos; lia).
    split; [|split].
    + lia.
    + intros HA. inversion HA as [|? ? Hr HA']; subst. rewrite (H2 HA'), Hr. lia.
    + lia.
Qed.

Section One.
Variables (s : bool) (v0 : vm) (w : world) (L F : ledger).
Hypothesis HH : history s v0 w L F.
Let HW : winv e s v0 w L F := hist_inv _ _ _ _ _ _ HH.
Notation v := (w_vm w).

Lemma counts : forall id P, In (id, P) (w_pools w) ->
  count id F + count id L = handed P (range_list P) /\ geom P /\ Forall (rinv P v) (range_list P) /\
  nr_ranges P = Z.of_nat (length (range_list P)).
Proof.
  intros id P Hin. pose proof (wi_pools _ _ _ _ _ _ HW _ _ Hin) as HI. rewrite !count_items.
  split; [|split; [|split]]; try apply HI. apply (count_slots e P _ _ v). auto.
Qed.

Lemma p_capacity : forall id P, In (id, P) (w_pools w) -> max_nr_ranges (pattr P) <> 0 ->
  count id L <= max_nr_ranges (pattr P) * (strd P / item_len P).
Proof.
  intros id P Hin Hm. pose proof (wi_pools _ _ _ _ _ _ HW _ _ Hin) as HI.
  destruct (counts _ _ Hin) as (Hc & HG & HF & Hn). destruct (full_handed P v _ HG HF) as (H1 & _ & _).
  assert (0 <= count id F) by (unfold count; lia).
  destruct (pi_max _ _ _ _ _ HI) as [|Hmax]; [contradiction|].
  pose proof (item_pos _ _ HG). pose proof (strd_pos _ _ HG).
  assert (0 <= strd P / item_len P) by (apply Z.div_pos; lia). nia.
Qed.

Lemma grants_refuses : forall P an, geom P -> system_grants e P an v -> ~ sys_refuses e P an v.
Proof.
  intros P an HG (H1 & _ & _ & H2 & H3 & H4 & H5 & H6 & H7 & H8) Hr.
  destruct Hr as [Hr|[Hr|[Hr|[(cpu & _ & Hr)|[Hr|[Hr|[Hr|(cpu & _ & Hr)]]]]]]].
  - apply H1. exact Hr.
  - congruence.
  - congruence.
  - rewrite H4 in Hr. discriminate.
  - congruence.
  - congruence.
  - congruence.
  - apply (H8 cpu Hr).
Qed.

Lemma p_null : forall id P an w' x, lookup id (w_pools w) = Some P -> run1 e (OMalloc id an) w = Ok (w', x) -> x = OutNull ->
  count id F = 0 /\ lookup id (w_pools w') = Some P /\
  (max_nr_ranges (pattr P) <> 0 /\ count id L = max_nr_ranges (pattr P) * (strd P / item_len P) \/ ~ system_grants e P an v).
Proof.
  intros id P an w' x Hl Hrun ->. pose proof (lookup_in _ _ _ Hl) as Hin.
  pose proof (wi_pools _ _ _ _ _ _ HW _ _ Hin) as HI.
  destruct (counts _ _ Hin) as (Hc & HG & HF & Hn). destruct (full_handed P v _ HG HF) as (_ & H2 & _).
  pose proof (malloc_locked_spec e P (items id F) (items id L) an v HI (wi_wf _ _ _ _ _ _ HW)) as Hp.
  cbn [run1] in Hrun. rewrite Hl in Hrun.
  destruct Hp as [Ef Ht|a free' Ef Hrob Hnp|a free' r off P' Ef Hpo HS Hr Ea Hd Ho Hol Hnr Hg HI'
    |a r off P' v' Ef HS Hr Ea Hd Ho Hol Hg HI' Hwf' Hfr|v' Ef Hfull Hwhy Hwf' Hfr]; try discriminate Hrun;
    cbn [bind] in Hrun; try discriminate Hrun.
  injection Hrun as <-. assert (Ec : count id F = 0) by (rewrite count_items, Ef; reflexivity).
  split; auto. split.
  - cbn [w_pools]. apply lookup_some; [rewrite set_pool_ids; apply (wi_ids _ _ _ _ _ _ HW)|].
    unfold set_pool. apply in_map_iff. exists (id, P). cbn. now rewrite Z.eqb_refl.
  - destruct Hwhy as [[Hm Hle]|Hr].
    + left. split; auto. destruct (pi_max _ _ _ _ _ HI) as [|Hmax]; [contradiction|].
      rewrite Ec in Hc. cbn in Hc. rewrite Hc, (H2 Hfull). f_equal. lia.
    + right. intros Hg. eapply grants_refuses; eauto.
Qed.

(** A full pool refuses. *)
Lemma p_full : forall id P an, lookup id (w_pools w) = Some P -> max_nr_ranges (pattr P) <> 0 ->
  count id L = max_nr_ranges (pattr P) * (strd P / item_len P) ->
  an_trim1 an = true -> an_trim2 an = true ->
  exists w', run1 e (OMalloc id an) w = Ok (w', OutNull).
Proof.
  intros id P an Hl Hm Hfull Ht1 Ht2. pose proof (lookup_in _ _ _ Hl) as Hin.
  pose proof (wi_pools _ _ _ _ _ _ HW _ _ Hin) as HI.
  destruct (counts _ _ Hin) as (Hc & HG & HF & Hn). destruct (full_handed P v _ HG HF) as (H1 & _ & _).
  destruct (pi_max _ _ _ _ _ HI) as [|Hmax]; [contradiction|].
  pose proof (item_pos _ _ HG) as [Hip Hipw]. pose proof (strd_pos _ _ HG).
  assert (Hsi : 1 <= strd P / item_len P).
  { destruct (item_strd _ _ HG) as [k Hk]. rewrite Hk, Z.div_mul by lia. nia. }
  assert (HcF : count id F = 0) by (unfold count in *; nia).
  assert (Ef : items id F = []).
  { rewrite count_items in HcF. destruct (items id F); auto. cbn in HcF. lia. }
  pose proof (malloc_locked_spec e P (items id F) (items id L) an v HI (wi_wf _ _ _ _ _ _ HW)) as Hp.
  pose proof (hist_step e s v0 w L F (OMalloc id an)) as Hst.
  cbn [run1]. cbn [run1] in Hst. rewrite Hl in *.
  destruct Hp as [_ Ht|a free' Ef' Hrob Hnp|a free' r off P' Ef' Hpo HS Hr Ea Hd Ho Hol Hnr Hg HI'
    |a r off P' v' Ef' HS Hr Ea Hd Ho Hol Hg HI' Hwf' Hfr|v' Ef' _ Hwhy Hwf' Hfr]; try congruence.
  - destruct Ht; congruence.
  - exfalso.
    assert (HG' : geom P') by (eapply s_geom; eauto).
    pose proof (count_slots e P' _ _ _ HI') as Hc'. destruct (full_handed P' v' (range_list P') HG') as (H1' & _); [apply HI'|].
    destruct (pi_max _ _ _ _ _ HI') as [Hz|Hmax']; [rewrite (s_attr _ _ HS) in Hz; contradiction|].
    rewrite (pi_nr _ _ _ _ _ HI') in Hmax'. rewrite (s_attr _ _ HS) in *. rewrite (s_len _ _ HS) in *.
    cbn [length] in Hc'. rewrite count_items in Hfull. nia.
  - cbn [bind]. eauto.
Qed.

Lemma p_lifo : forall id an a w' x, find (fun i => fst i =? id) F = Some (id, a) ->
  run1 e (OMalloc id an) w = Ok (w', x) -> x = OutItem a.
Proof.
  intros id an a w' x Hf Hrun. destruct (find_items _ _ _ Hf) as [l El].
  cbn [run1] in Hrun. destruct (lookup id (w_pools w)) as [P|] eqn:Hl; [|discriminate].
  pose proof (lookup_in _ _ _ Hl) as Hin. pose proof (wi_pools _ _ _ _ _ _ HW _ _ Hin) as HI.
  pose proof (malloc_locked_spec e P (items id F) (items id L) an v HI (wi_wf _ _ _ _ _ _ HW)) as Hp.
  destruct Hp as [Ef Ht|b free' Ef Hrob Hnp|b free' r off P' Ef Hpo HS Hr Ea Hd Ho Hol Hnr Hg HI'
    |b r off P' v' Ef HS Hr Ea Hd Ho Hol Hg HI' Hwf' Hfr|v' Ef Hfull Hwhy Hwf' Hfr]; try discriminate Hrun;
    cbn [bind] in Hrun; injection Hrun as <- <-; congruence.
Qed.

Lemma p_fresh : forall id an a w', find (fun i => fst i =? id) F = None ->
  run1 e (OMalloc id an) w = Ok (w', OutItem a) -> ~ In (id, a) L.
Proof.
  intros id an a w' Hf Hrun Hin.
  assert (HH' : history s v0 w' ((id, a) :: L) (filter (fun i => negb (same_item i (id, a))) F)).
  { apply (hist_step e s v0 w L F (OMalloc id an) w' (OutItem a)); auto.
    cbn [run1] in Hrun. destruct (lookup id (w_pools w)) as [P|] eqn:Hl; [|discriminate]. exists P. auto. }
  pose proof (p_live_once e _ _ _ _ _ HH') as Hnd. inversion Hnd. contradiction.
Qed.

(** ** Robust pools *)
Lemma p_free_ok : forall id P a, lookup id (w_pools w) = Some P -> In (id, a) L ->
  exists w', run1 e (OFree a (strd P)) w = Ok (w', OutUnit).
Proof.
  intros id P a Hl Ha. destruct (free_run e s v0 w L F HW id P a (lookup_in _ _ _ Hl) Ha) as (w' & r & P' & E & _). eauto.
Qed.

Lemma p_double_free : forall id P r off, lookup id (w_pools w) = Some P -> robust_set (pattr P) = true ->
  In r (range_list P) -> 0 <= off < strd P -> (item_len P | off) -> ~ In (id, base r + off) L ->
  run1 e (OFree (base r + off) (strd P)) w = Abort.
Proof.
  intros id P r off Hl Hrob Hr Ho Hd Hn. pose proof (lookup_in _ _ _ Hl) as Hin.
  pose proof (wi_pools _ _ _ _ _ _ HW _ _ Hin) as HI. pose proof (pi_geom _ _ _ _ _ HI) as HG.
  assert (HR : rinv P v r) by (pose proof (pi_ranges _ _ _ _ _ HI) as HFF; rewrite Forall_forall in HFF; auto).
  cbn [run1]. unfold free_base. rewrite (base_of e P v r HG HR) by auto.
  rewrite (find_owner_spec e s v0 w L F id P r HW Hin Hr).
  rewrite (free_in_dead e P (items id F) (items id L) v r off); auto. now rewrite in_items.
Qed.

Lemma p_destroy_leak : forall id P a an, lookup id (w_pools w) = Some P -> robust_set (pattr P) = true ->
  In (id, a) L -> run1 e (ODestroy id an) w = Abort.
Proof.
  intros id P a an Hl Hrob Ha. pose proof (lookup_in _ _ _ Hl) as Hin.
  pose proof (wi_pools _ _ _ _ _ _ HW _ _ Hin) as HI. apply in_items in Ha.
  pose proof (mempool_destroy_spec e P (items id F) (items id L) an v HI (wi_wf _ _ _ _ _ _ HW)) as Hp.
  cbn [run1]. rewrite Hl.
  destruct Hp as [_ Hlk|b _ Hlk Hb Hnp|Po v' Hok Hwf' Hfr Hmp Hun Hall Hany]; auto.
  destruct (Hok Hrob) as [E _]. rewrite E in Ha. destruct Ha.
Qed.

Lemma p_destroy_corrupt : forall id P a an, lookup id (w_pools w) = Some P -> robust_set (pattr P) = true ->
  In (id, a) F -> ~ intact P v a -> run1 e (ODestroy id an) w = Abort.
Proof.
  intros id P a an Hl Hrob Ha Hni. pose proof (lookup_in _ _ _ Hl) as Hin.
  pose proof (wi_pools _ _ _ _ _ _ HW _ _ Hin) as HI. apply in_items in Ha.
  pose proof (mempool_destroy_spec e P (items id F) (items id L) an v HI (wi_wf _ _ _ _ _ _ HW)) as Hp.
  cbn [run1]. rewrite Hl.
  destruct Hp as [_ Hlk|b _ Hlk Hb Hnp|Po v' Hok Hwf' Hfr Hmp Hun Hall Hany]; auto.
  destruct (Hok Hrob) as [_ Hpo]. exfalso. apply Hni. apply intact_poisoned; [apply HI|]. auto.
Qed.

Lemma p_malloc_corrupt : forall id P a an, lookup id (w_pools w) = Some P -> robust_set (pattr P) = true ->
  In (id, a) F -> ~ intact P v a ->
  (forall w', run1 e (OMalloc id an) w <> Ok (w', OutItem a)) /\
  (find (fun i => fst i =? id) F = Some (id, a) -> run1 e (OMalloc id an) w = Abort).
Proof.
  intros id P a an Hl Hrob Ha Hni. pose proof (lookup_in _ _ _ Hl) as Hin.
  pose proof (wi_pools _ _ _ _ _ _ HW _ _ Hin) as HI. apply in_items in Ha.
  rewrite (intact_poisoned P v a) in Hni by apply HI.
  pose proof (malloc_locked_spec e P (items id F) (items id L) an v HI (wi_wf _ _ _ _ _ _ HW)) as Hp.
  cbn [run1]. rewrite Hl.
  destruct Hp as [Ef Ht|b free' Ef _ Hnp|b free' r off P' Ef Hpo HS Hr Ea Hd Ho Hol Hnr Hg HI'
    |b r off P' v' Ef HS Hr Ea Hd Ho Hol Hg HI' Hwf' Hfr|v' Ef Hfull Hwhy Hwf' Hfr]; cbn [bind].
  - rewrite Ef in Ha. destruct Ha.
  - split; [discriminate|auto].
  - specialize (Hpo Hrob). split.
    + intros w' E. injection E as _ E. rewrite E in Hpo. contradiction.
    + intros Hf. destruct (find_items _ _ _ Hf) as [l El]. rewrite El in Ef. injection Ef as Ef _. rewrite <- Ef in Hpo. contradiction.
  - rewrite Ef in Ha. destruct Ha.
  - rewrite Ef in Ha. destruct Ha.
Qed.

(** Freed items are filled with the poison value. *)
Lemma p_free_poisons : forall id P a w' x, lookup id (w_pools w) = Some P -> robust_set (pattr P) = true -> In (id, a) L ->
  run1 e (OFree a (strd P)) w = Ok (w', x) -> intact P (w_vm w') a.
Proof.
  intros id P a w' x Hl Hrob Ha Hrun. pose proof (lookup_in _ _ _ Hl) as Hin.
  destruct (free_run e s v0 w L F HW id P a Hin Ha) as (w2 & r & P' & E & _ & HS & _ & _ & _ & _ & Hpo & _).
  rewrite E in Hrun. injection Hrun as <- <-. apply intact_poisoned; [apply (wi_pools _ _ _ _ _ _ HW _ _ Hin)|].
  eapply s_poisoned; [apply same_sym; exact HS|]. auto.
Qed.

(** ** No false alarm, no undefined behaviour *)
Lemma p_no_alarm : forall o, s = true -> allowed e s v0 w L o -> cooperative e L o -> exists w' x, run1 e o w = Ok (w', x).
Proof.
  intros o Hs Hok Hco. pose proof (wi_wf _ _ _ _ _ _ HW) as Hwf.
  destruct o as [id named len at_ an|id an|id item c|ptr st|ps|id an].
  - destruct Hok as (Hnone & Hlen & Hat & Hfit). destruct Hco as (Hl & Ht1 & Ht2). cbn [run1].
    pose proof (mempool_create_spec e (hist_env _ _ _ _ _ _ HH) named len at_ an v Hlen Hat (hist_cp _ _ _ _ _ _ HH) Hfit Hwf) as Hp.
    destruct Hp as [Hp|o Hp Ht|Hno|o v' Hacc Hwf' Hfr Hr'|o P' v' Hacc Ea El Eo HI' Hwf' Hfr Hreg Hnr]; cbn [bind]; eauto.
    + lia.
    + destruct Ht; congruence.
  - destruct Hok as (P & Hl). destruct Hco as [Ht1 Ht2]. pose proof (lookup_in _ _ _ Hl) as Hin.
    pose proof (wi_pools _ _ _ _ _ _ HW _ _ Hin) as HI.
    pose proof (malloc_locked_spec e P (items id F) (items id L) an v HI Hwf) as Hp. cbn [run1]. rewrite Hl.
    destruct Hp as [Ef Ht|b free' Ef Hrob Hnp|b free' r off P' Ef Hpo HS Hr Ea Hd Ho Hol Hnr Hg HI'
      |b r off P' v' Ef HS Hr Ea Hd Ho Hol Hg HI' Hwf' Hfr|v' Ef Hfull Hwhy Hwf' Hfr]; cbn [bind]; eauto.
    + destruct Ht; congruence.
    + exfalso. apply Hnp. eapply (wi_poison _ _ _ _ _ _ HW); eauto. rewrite Ef. now left.
  - destruct Hok as (P & Hl & Ha & Hc).
    destruct (fill_run e s v0 w L F HW id P item c (lookup_in _ _ _ Hl) Ha Hc) as (w' & r & E & _). eauto.
  - destruct Hok as (id & P & Hl & Ha & ->).
    destruct (free_run e s v0 w L F HW id P ptr (lookup_in _ _ _ Hl) Ha) as (w' & r & P' & E & _). eauto.
  - cbn [run1]. replace (forallb (fun p => mapped v (page (fst p))) ps) with true; eauto.
    symmetry. apply forallb_forall. intros [x b] Hx. cbn [fst].
    destruct (Hok x) as [Hg|[Hs' _]]; [apply in_map_iff; exists (x, b); auto| |congruence].
    destruct Hg as [Hown|(id & P & a & Hin & Ha & (cpu & k & Hc & Hk & ->))].
    + apply (wi_own _ _ _ _ _ _ HW _ Hown).
    + destruct (p_mapped e s v0 w L F HH id P a Hin Ha) as [_ K]. apply K; auto.
  - destruct Hok as (P & Hl). cbn in Hco. pose proof (lookup_in _ _ _ Hl) as Hin.
    pose proof (wi_pools _ _ _ _ _ _ HW _ _ Hin) as HI.
    pose proof (mempool_destroy_spec e P (items id F) (items id L) an v HI Hwf) as Hp. cbn [run1]. rewrite Hl.
    destruct Hp as [Hrob Hlk|b Hrob Hlk Hb Hnp|Po v' Hok Hwf' Hfr Hmp Hun Hall Hany]; cbn [bind]; eauto.
    + exfalso. apply Hlk. destruct (items id L) as [|a l] eqn:E; auto. exfalso. apply (Hco a). apply in_items. rewrite E. now left.
    + exfalso. apply Hnp. eapply (wi_poison _ _ _ _ _ _ HW); eauto.
Qed.

(** ** Destruction *)
Lemma p_destroy_unmaps : forall id P an w' x, lookup id (w_pools w) = Some P ->
  (forall a, an_munmap an a = true) -> run1 e (ODestroy id an) w = Ok (w', x) ->
  x = OutRet 0 /\ lookup id (w_pools w') = None /\
  (forall r a, In r (range_list P) -> mmap_addr r <= a < mmap_addr r + mmap_len r -> mapped (w_vm w') (page a) = false).
Proof.
  intros id P an w' x Hl Han Hrun. pose proof (lookup_in _ _ _ Hl) as Hin.
  pose proof (wi_pools _ _ _ _ _ _ HW _ _ Hin) as HI.
  pose proof (mempool_destroy_spec e P (items id F) (items id L) an v HI (wi_wf _ _ _ _ _ _ HW)) as Hp.
  cbn [run1] in Hrun. rewrite Hl in Hrun.
  destruct Hp as [_ Hlk|b _ Hlk Hb Hnp|Po v' Hok Hwf' Hfr Hmp Hun Hall Hany]; try discriminate Hrun.
  cbn [bind] in Hrun. injection Hrun as <- <-. split; auto. cbn [w_vm w_pools]. split.
  - destruct (lookup id (del_pool id (w_pools w))) eqn:E; auto. apply lookup_in in E. unfold del_pool in E.
    apply filter_In in E. cbn in E. rewrite Z.eqb_refl in E. destruct E; discriminate.
  - intros r a Hr Ha. apply Hun; [apply Hall; auto|]. exists r. auto.
Qed.
End One.

(** ** The free-list check, for any memory contents *)
Lemma p_walk : forall s v0 w L F id P an v' ret Po v'', history s v0 w L F -> lookup id (w_pools w) = Some P ->
  robust_set (pattr P) = true -> populate_policy (pattr P) = COW_ZERO ->
  mempool_destroy e P an v' = Ok (ret, Po, v'') ->
  exists l, follows e v' (free_list_head P) l /\ Forall (node_in_pool e P) l /\ Z.of_nat (length l) = count id F + count id L.
Proof.
  intros s v0 w L F id P an v' ret Po v'' HH Hl Hrob Hpol Hd.
  pose proof (hist_inv _ _ _ _ _ _ HH) as HW. pose proof (lookup_in _ _ _ Hl) as Hin.
  pose proof (wi_pools _ _ _ _ _ _ HW _ _ Hin) as HI. pose proof (pi_geom _ _ _ _ _ HI) as HG.
  destruct (counts _ _ _ _ _ HH _ _ Hin) as (Hc & _ & HF & _).
  unfold mempool_destroy, pool_mappings_accessible in Hd. rewrite Hpol in Hd. cbn [Z.eqb negb bind COW_ZERO COW_INIT Pos.eqb] in Hd.
  unfold check_free_list in Hd. rewrite Hrob in Hd. cbn [negb orb] in Hd.
  destruct (walk_free_list e P v' _ _) as [k| |] eqn:Ew; try discriminate. cbn [bind] in Hd.
  destruct (_ =? total_item P) eqn:Et; [|discriminate].
  destruct (walk_sound _ _ _ _ _ _ Ew) as (l & H1 & H2 & H3 & H4).
  exists l. split; auto. split; auto. rewrite Hc. rewrite <- (totals e P (w_vm w) _ HG HF).
  fold (total_item P). fold (total_never_allocated P). lia.
Qed.
End Props.
