(** Freeing, program writes, and destruction. *)
From Coq Require Import ZArith Bool List Lia Znumtheory Permutation.
From Verif Require Import UtilsModel UtilsLemmas RseqIR MemLemmas PoolVM PoolVMLemmas PoolModel PoolInv PoolItem PoolMap PoolRange PoolBitmap PoolOps PoolMalloc.
Import ListNotations.
Local Open Scope Z_scope.

Section Free.
Variable e : env.
Notation psz := (e_page e).
Notation page := (PoolVM.page e).
Notation geom := (geom e).
Notation rinv := (rinv e).
Notation pinv := (pinv e).
Notation poisoned := (poisoned e).

(** Two slots have no byte in common. *)
Lemma slots_disjoint : forall P v a b r r' x, geom P -> Forall (rinv P v) (range_list P) ->
  ForallOrdPairs apart (range_list P) ->
  In r (range_list P) -> In r' (range_list P) -> (item_len P | a - base r) -> (item_len P | b - base r') ->
  inF P r (a - base r) (item_len P) x -> inF P r' (b - base r') (item_len P) x -> a = b.
Proof.
  intros P v a b r r' x HG HF HA Hr Hr' Hd Hd' H1 H2. rewrite Forall_forall in HF.
  assert (r' = r).
  { destruct (ordpairs_in _ _ _ HA Hr Hr') as [|Hap]; auto. exfalso.
    eapply (apart_regions r r'); eauto; eapply inF_region; eauto. }
  subst r'. assert (a - base r = b - base r) by (eapply (inF_disjoint e); eauto). lia.
Qed.

Lemma free_node_out : forall P free live v a b r off x, pinv P free live v ->
  In a free -> b = base r + off -> In b live -> In r (range_list P) -> (item_len P | off) ->
  node P a <= x < node P a + wsz e -> ~ inF P r off (item_len P) x.
Proof.
  intros P free live v a b r off x HI Ha Eb Hb Hr Hd Hx Hin.
  destruct HI. destruct (slot_node_region e P v a x) as (r2 & Hr2 & HR2 & Hd2 & _ & _ & Hin2); auto.
  { apply pi_slots, in_or_app. auto. }
  assert (a = b).
  { assert (Eo : off = b - base r) by lia. rewrite Eo in Hd, Hin.
    eapply (slots_disjoint P v a b r2 r x); eauto. }
  subst a. apply in_split in Ha. destruct Ha as (f1 & f2 & ->).
  apply in_split in Hb. destruct Hb as (l1 & l2 & ->).
  rewrite <- app_assoc in pi_nodup. cbn in pi_nodup. apply NoDup_remove_2 in pi_nodup. apply pi_nodup.
  rewrite !in_app_iff. right. right. right. now left.
Qed.

(** Clearing the bit of a live slot. *)
Lemma clear_live : forall P v free l1 a l2 r off, pinv P free (l1 ++ a :: l2) v ->
  In r (range_list P) -> a = base r + off -> (item_len P | off) -> 0 <= off -> off + item_len P <= strd P ->
  exists r', clear_alloc_slot e P r off = Ok r' /\ twin r r' /\ next_unused r' = next_unused r /\
    rinv P v r' /\ bits e (set_ranges P (put_range (range_list P) r')) (l1 ++ l2).
Proof.
  intros P v free l1 a l2 r off HI Hr Ea Hd Ho Hol. pose proof (pi_geom _ _ _ _ _ HI) as HG.
  pose proof (pi_ranges _ _ _ _ _ HI) as HF. pose proof (item_pos _ _ HG) as Hip.
  assert (HR : rinv P v r) by (rewrite Forall_forall in HF; auto).
  pose proof (r_bitmap _ _ _ _ HR) as Hbm. destruct (robust_set (pattr P)) eqn:Hrob.
  - pose proof (pi_bits _ _ _ _ _ HI Hrob) as Hbs.
    destruct (clear_slot_spec e P HG r off Hbm ltac:(lia) Hd) as [[Hb _]|(Hb & bm & E & Hok & Hb')].
    + exfalso. assert (slot_bit e P r off = true); [|congruence]. apply Hbs; auto; [lia|].
      rewrite <- Ea. apply in_elt.
    + exists (set_bitmap r (Some bm)). split; auto. split; [apply twin_bitmap|]. split; [reflexivity|].
      assert (HR' : rinv P v (set_bitmap r (Some bm))).
      { eapply rinv_twin; eauto using twin_bitmap.
        - apply (r_unused _ _ _ _ HR).
        - apply (r_div _ _ _ _ HR).
        - rewrite Hrob. exact Hok. }
      split; auto.
      assert (Hnl : ~ In a (l1 ++ l2)).
      { pose proof (pi_nodup _ _ _ _ _ HI) as Hnd. rewrite app_assoc in Hnd. apply NoDup_remove_2 in Hnd.
        intros H. apply Hnd. rewrite <- app_assoc. apply in_or_app. auto. }
      intros _ x o Hx Ho' Hdo. cbn [range_list set_ranges item_len pattr] in Hx, Ho', Hdo.
      rewrite (s_bit P) by apply set_ranges_same.
      apply (put_in _ r) in Hx; auto using twin_bitmap.
      destruct Hx as [->|[Hx Hne]].
      * rewrite Hb' by auto. cbn [base set_bitmap]. destruct (o =? off) eqn:Eo.
        -- apply Z.eqb_eq in Eo. subst o. rewrite <- Ea. split; [discriminate|]. intros; contradiction.
        -- apply Z.eqb_neq in Eo. rewrite Hbs by auto. rewrite !in_app_iff. cbn [In].
           split; [intros [H|[H|H]]|intros [H|H]]; auto. lia.
      * rewrite Hbs by auto. rewrite !in_app_iff. cbn [In].
        split; [intros [H|[H|H]]|intros [H|H]]; auto. exfalso.
        apply Hne. assert (HRx : rinv P v x) by (rewrite Forall_forall in HF; auto).
        destruct (r_al _ _ _ _ HRx) as [j Hj]. destruct (r_al _ _ _ _ HR) as [k Hk].
        rewrite Ea, Hj, Hk in *. assert (j = k) by nia. subst; auto.
  - exists r. unfold clear_alloc_slot. rewrite Hbm. split; [reflexivity|]. split; [apply twin_refl|].
    split; [reflexivity|]. split; [exact HR|]. unfold bits. cbn [pattr set_ranges]. congruence.
Qed.

Lemma free_in_spec : forall P free l1 a l2 v r off, pinv P free (l1 ++ a :: l2) v -> vmwf e v ->
  In r (range_list P) -> a = base r + off -> (item_len P | off) -> 0 <= off -> off + item_len P <= strd P ->
  exists P' v', free_in e P r a (strd P) v = Ok (P', v') /\ same P P' /\ nr_ranges P' = nr_ranges P /\
    pinv P' (a :: free) (l1 ++ l2) v' /\ vmwf e v' /\
    vframe e (fun x => ~ inF P r off (item_len P) x) v v' /\ (forall q, mapped v' q = mapped v q) /\
    (robust_set (pattr P) = true -> poisoned P' v' a) /\
    (forall x, pregion P' x <-> pregion P x).
Proof.
  intros P free l1 a l2 v r off HI Hwf Hr Ea Hd Ho Hol.
  pose proof (pi_geom _ _ _ _ _ HI) as HG.
  pose proof (pi_ranges _ _ _ _ _ HI) as HF. pose proof (item_pos _ _ HG) as Hip.
  pose proof (pi_apart _ _ _ _ _ HI) as HA.
  assert (HR : rinv P v r) by (rewrite Forall_forall in HF; auto).
  assert (Hoff : 0 <= off < strd P) by lia.
  unfold free_in. replace (Z.land a (strd P - 1)) with off by (rewrite Ea; symmetry; eapply offset_of; eauto).
  destruct (clear_live P v free l1 a l2 r off HI Hr Ea Hd Ho Hol) as (r' & E & Htw & Hn & HR' & Hbits).
  rewrite E. cbn [bind pattr set_ranges free_list_head range_list].
  set (P1 := set_ranges P (put_range (range_list P) r')) in *.
  assert (HS : same P P1) by apply set_ranges_same.
  assert (HG1 : geom P1) by (eapply s_geom; eauto).
  assert (HR1 : rinv P1 v r') by (eapply s_rinv; eauto).
  assert (Hb : base r' = base r) by apply Htw.
  assert (HinF : forall l x, inF P1 r' off l x <-> inF P r off l x).
  { intros l x. rewrite (s_inF P P1 HS). unfold inF. rewrite Hb. tauto. }
  assert (Hpois : exists v1, (if poison_set (pattr P) then poison_item e P1 r' off v else Ok v) = Ok v1 /\
    vmwf e v1 /\ rinv P1 v1 r' /\ vframe e (fun x => ~ inF P r off (item_len P) x) v v1 /\
    (forall q, mapped v1 q = mapped v q) /\
    (poison_set (pattr P) = true -> poisoned P1 v1 a)).
  { destruct (poison_set (pattr P)).
    - rewrite poison_item_gen.
      edestruct (fill_gen_spec e (fun p => poison_bytes e p (item_len P1) (poison (pattr P1))) (item_len P1)
        (fun v p => cmp_item e v p (item_len P1) (poison (pattr P1)) =? 0)) with (P := P1) (v := v) (r := r') (off := off)
        as (v1 & E1 & Hwf1 & HR1' & HF1 & Hg & Hm); auto.
      { apply poison_block; [cbn; lia|]. apply (eight_item _ _ HG). }
      { cbn. lia. }
      { intros v0 p0 H0. apply poison_test; auto; [cbn; lia|]. apply (g_poison _ _ HG). }
      { cbn. lia. }
      exists v1. split; auto. split; auto. split; auto. split.
      { eapply vframe_sub; [exact HF1|]. intros x Hx Hin. apply Hx. apply HinF. exact Hin. }
      split; auto. intros _ i k Hi Hk Hk2. rewrite Ea, <- Hb.
      specialize (Hg i Hi). cbn beta in Hg.
      rewrite (poison_good e v1 (base r' + strd P1 * i + off) (item_len P1) (poison (pattr P1))) in Hg;
        [|cbn; lia|apply (g_poison _ _ HG1)].
      replace (base r' + off + strd P1 * i + wsz e * k) with (base r' + strd P1 * i + off + wsz e * k) by ring. apply Hg; auto.
    - exists v. repeat (split; auto using vframe_refl). discriminate. }
  destruct Hpois as (v1 & E1 & Hwf1 & HR1' & HF1 & Hm1 & Hp1).
  change (if poison_set (pattr P) then poison_item e P1 r' off v else Ok v) with
    (if poison_set (pattr P) then poison_item e P1 r' off v else Ok v).
  rewrite E1. cbn [bind].
  assert (Hitem : percpu_to_free_list_ptr e P1 a = base r' + strd P1 * nidx P1 + off).
  { rewrite Ea, <- Hb. rewrite (to_node e P1 v r' HG1 HR1) by auto. apply node_area. }
  assert (Hna : node P a = base r' + strd P1 * nidx P1 + off).
  { rewrite Ea, <- Hb, <- (s_node P P1 HS). apply node_area. }
  rewrite Hitem.
  assert (Hacc : accessible e v1 (base r' + strd P1 * nidx P1 + off) (wsz e) = true).
  { apply (item_accessible e P1 v1 r'); auto; [apply (nidx_bounds _ _ HG1)|cbn; lia]. }
  rewrite Hacc. cbn [negb].
  set (hd := free_list_head P).
  assert (Hblk : block (fun p => stw (wcfg e) p hd) (wsz e)).
  { intros p. split; [apply stw_functional|]. intros x Hx. rewrite stw_keys in Hx. apply in_span in Hx. rewrite wsz_nat in Hx. lia. }
  set (v2 := store e v1 (stw (wcfg e) (base r' + strd P1 * nidx P1 + off) hd)).
  assert (Hwf2 : vmwf e v2) by (apply store_wf; auto).
  assert (HR2 : rinv P1 v2 r').
  { eapply (store_item_rinv e P1 v1 r' (fun p => stw (wcfg e) p hd)); eauto. apply (nidx_bounds _ _ HG1). }
  assert (HF2' : vframe e (fun x => ~ inF P1 r' off (wsz e) x) v1 v2).
  { eapply (store_item_frame e P1 v1 r' (fun p => stw (wcfg e) p hd)); eauto; [cbn; lia|apply (nidx_bounds _ _ HG1)]. }
  assert (HF2 : vframe e (fun x => ~ inF P r off (item_len P) x) v v2).
  { eapply vframe_trans; [exact HF1|]. eapply vframe_sub; [exact HF2'|]. intros x Hx Hin. apply Hx.
    apply HinF in Hin. eapply inF_sub; [exact Hin|apply (item_pos _ _ HG)]. }
  exists (set_head P1 (base r' + strd P1 * nidx P1 + off)), v2.
  set (P2 := set_head P1 (base r' + strd P1 * nidx P1 + off)).
  assert (HS2 : same P P2) by (repeat split).
  split; [reflexivity|]. split; [exact HS2|]. split; [reflexivity|]. split; [|split; [auto|split; [auto|split]]].
  - assert (Hgr : forall x, In x (put_range (range_list P) r') -> rinv P v2 x).
    { intros x Hx. apply (put_in _ r r') in Hx; auto. destruct Hx as [->|[Hx Hne]].
      - eapply s_rinv; [apply same_sym; exact HS|]. exact HR2.
      - assert (HRx : rinv P v x) by (rewrite Forall_forall in HF; auto).
        eapply rinv_frame; eauto. eapply vframe_sub; [exact HF2|]. intros y Hy Hin.
        destruct (ordpairs_in _ _ _ HA Hr Hx) as [Erx|Hap]; [congruence|].
        apply (apart_regions r x y); auto. apply (inF_region e P v r off (item_len P)); auto. }
    constructor; cbn [range_list P2 P1 set_head set_ranges nr_ranges pattr free_list_head].
    + eapply s_geom; eauto.
    + apply Forall_forall. intros x Hx. eapply s_rinv; eauto.
    + apply (put_apart e P v (range_list P) r r'); auto.
    + pose proof (pi_full _ _ _ _ _ HI) as Hfull. rewrite put_tl. rewrite Forall_forall in Hfull |- *. intros x Hx.
      unfold put_range in Hx. apply in_map_iff in Hx. destruct Hx as (y & Ey & Hy).
      destruct (base y =? base r') eqn:Eb; subst x; auto.
      apply Z.eqb_eq in Eb. assert (y = r).
      { apply (same_base e P v (range_list P)); auto; [|congruence]. destruct (range_list P); [destruct Hy|now right]. }
      subst y. rewrite Hn. auto.
    + intros x. change (slot P2 x) with (slot P1 x). unfold P1. rewrite (slot_put e P v r r') by auto.
      rewrite <- (pi_slots _ _ _ _ _ HI). cbn [app In]. rewrite !in_app_iff. cbn [In]. tauto.
    + eapply Permutation_NoDup; [|apply (pi_nodup _ _ _ _ _ HI)]. cbn [app].
      rewrite app_assoc. rewrite app_assoc. apply Permutation_sym, Permutation_middle.
    + exact Hbits.
    + cbn [chain]. rewrite (s_node P P2 HS2). split; [auto|].
      unfold v2. rewrite load_word_store.
      * eapply s_chain; eauto. eapply chain_ext; [|apply (pi_chain _ _ _ _ _ HI)].
        intros b x Hbf Hx. apply (fr_view _ _ _ _ HF2).
        eapply (free_node_out P free (l1 ++ a :: l2) v b a); eauto. apply in_elt.
      * apply (g_psz _ _ HG).
      * auto.
      * unfold hd. pose proof (wmax_range e). pose proof (pi_chain _ _ _ _ _ HI) as Hc. destruct free as [|b free]; cbn in Hc; [lia|].
        destruct Hc as [-> _].
        destruct (slot_item e P v b HG HF) as (rb & Hrb & HRb & H1 & H2 & H3).
        { apply (pi_slots _ _ _ _ _ HI). now left. }
        pose proof (node_bounds e P v rb HG HRb (b - base rb) ltac:(lia)) as (_ & H4 & H5).
        replace (base rb + (b - base rb)) with b in * by ring. pose proof (base_pos e P v rb HG HRb). lia.
    + rewrite put_length. apply (pi_nr _ _ _ _ _ HI).
    + apply (pi_max _ _ _ _ _ HI).
  - intros q. unfold v2. rewrite store_mapped. auto.
  - split.
    + intros Hrob. assert (Hps : poison_set (pattr P) = true) by (apply (g_robust _ _ HG); auto).
      intros i k Hi Hk Hk2.
      assert (Hlw : forall y, a + strd P2 * i + wsz e * k <= y < a + strd P2 * i + wsz e * k + wsz e -> view e v2 y = view e v1 y).
      { intros y Hy. unfold v2. apply view_store_other; auto; [apply (g_psz _ _ HG)|].
        intros x Hx Hal. rewrite stw_keys in Hx. apply in_span in Hx. rewrite wsz_nat in Hx.
        change (item_len P2) with (item_len P) in Hk2. change (strd P2) with (strd P) in Hy.
        assert (Hni : nidx P1 = nd P1 /\ na P1 = nd P1 + 1).
        { unfold nidx, na. cbn. rewrite Hrob. cbn. lia. }
        destruct Hni as [Hni Hna1]. rewrite Hni in Hx.
        change (nd P2) with (nd P1) in Hi. pose proof (eight_item _ _ HG) as [m8 Hm8].
        assert (Hy2 : strd P * i <= y - base r' < strd P * i + strd P) by (pose proof (wsz_range e); assert (k < m8) by nia; rewrite Hb; nia).
        pose proof (strd_pos _ _ HG). change (strd P1) with (strd P) in Hx.
        destruct Hal as [Exy|[Hl _]]; [nia|].
        destruct (r_link _ _ _ _ HR1' _ _ Hl) as (_ & _ & Hq & _).
        - right. eapply region_page; eauto. unfold region. rewrite (r_addr _ _ _ _ HR1'), (r_len _ _ _ _ HR1').
          change (strd P1) with (strd P). rewrite Hna1. pose proof (g_psz _ _ HG).
          pose proof (nd_bounds P1). pose proof (g_cpus _ _ HG1). nia.
        - pose proof (page_down e x (base r' + strd P1 * nd P1) (g_psz _ _ HG)) as Hpd.
          assert (base r' + strd P1 * nd P1 <= page x * psz); [|lia]. apply Hpd.
          + apply Z.divide_add_r; [eapply base_div; eauto|]. apply Z.divide_mul_l. apply (psz_strd _ _ HG1).
          + change (strd P1) with (strd P). lia. }
      rewrite (load_word_ext e v1 v2) by exact Hlw. apply (Hp1 Hps i k); auto.
    + intros x. unfold pregion. cbn [range_list P2 P1 set_head set_ranges]. split.
      * intros (y & Hy & Hyx). apply (put_in _ r r') in Hy; auto. destruct Hy as [->|[Hy _]].
        -- exists r. split; auto. now apply (twin_region r) in Hyx.
        -- exists y. auto.
      * intros (y & Hy & Hyx). destruct (Z.eq_dec (base y) (base r)) as [Eb|Eb].
        -- assert (y = r) by (apply (same_base e P v (range_list P)); auto). subst y. exists r'.
           split; [apply (put_in _ r r'); auto|]. now apply (twin_region r).
        -- exists y. split; auto. apply (put_in _ r r'); auto.
Qed.

(** Freeing a slot that is not allocated. *)
Lemma free_in_dead : forall P free live v r off, pinv P free live v -> robust_set (pattr P) = true ->
  In r (range_list P) -> 0 <= off < strd P -> (item_len P | off) -> ~ In (base r + off) live ->
  free_in e P r (base r + off) (strd P) v = Abort.
Proof.
  intros P free live v r off HI Hrob Hr Ho Hd Hn. pose proof (pi_geom _ _ _ _ _ HI) as HG.
  pose proof (pi_ranges _ _ _ _ _ HI) as HF.
  assert (HR : rinv P v r) by (rewrite Forall_forall in HF; auto).
  pose proof (r_bitmap _ _ _ _ HR) as Hbm. rewrite Hrob in Hbm.
  unfold free_in. rewrite (offset_of e P v r HG HR) by auto.
  destruct (clear_slot_spec e P HG r off Hbm Ho Hd) as [[_ ->]|(Hb & _)]; [reflexivity|].
  exfalso. apply Hn. apply (pi_bits _ _ _ _ _ HI Hrob); auto.
Qed.

(** ** Writes of the program *)
(** A byte the program may write: outside the pool's memory, in a live item, or
    (robust pools) anywhere in the item memory. *)
Definition wkey (P : pool) (live : list Z) (x : Z) : Prop :=
  (forall r, In r (range_list P) -> ~ region r x) \/
  (exists r off, In r (range_list P) /\ In (base r + off) live /\ (item_len P | off) /\ 0 <= off /\
     inF P r off (item_len P) x) \/
  (robust_set (pattr P) = true /\ exists r, In r (range_list P) /\ base r <= x < base r + strd P * nd P).

Lemma alias_region : forall P v r x a, geom P -> rinv P v r -> aliases e v x a -> region r a -> region r x.
Proof.
  intros P v r x a HG HR Hal Ha. destruct Hal as [->|[Hl _]]; auto.
  destruct (r_link _ _ _ _ HR _ _ Hl) as (_ & _ & Hq & _).
  { left. eapply region_page; eauto. }
  unfold region. rewrite (r_addr _ _ _ _ HR), (r_len _ _ _ _ HR).
  pose proof (page_le_addr e x (g_psz _ _ HG)). pose proof (strd_pos _ _ HG). pose proof (g_psz _ _ HG).
  pose proof (nd_bounds P). pose proof (na_bounds P). pose proof (g_cpus _ _ HG).
  assert (x < base r + strd P * nd P).
  { apply (page_up e); auto; [|lia]. apply Z.divide_add_r; [eapply base_div; eauto|].
    apply Z.divide_mul_l. apply (psz_strd _ _ HG). }
  split; [nia|]. nia.
Qed.

Lemma pinv_store : forall P free live v ps, pinv P free live v -> vmwf e v ->
  (forall x, In x (map fst ps) -> wkey P live x) -> pinv P free live (store e v ps).
Proof.
  intros P free live v ps HI Hwf Hk. pose proof (pi_geom _ _ _ _ _ HI) as HG.
  pose proof (pi_ranges _ _ _ _ _ HI) as HRs. pose proof (pi_apart _ _ _ _ _ HI) as HA.
  assert (Hin : forall x r, In x (map fst ps) -> In r (range_list P) -> ~ region r x \/ base r <= x).
  { intros x r Hx Hr. rewrite Forall_forall in HRs.
    assert (Hgen : forall r2, In r2 (range_list P) -> base r2 <= x -> region r2 x -> ~ region r x \/ base r <= x).
    { intros r2 Hr2 H1 H2. destruct (ordpairs_in _ _ _ HA Hr Hr2) as [->|Hap]; [auto|].
      left. intros H3. eapply apart_regions; eauto. }
    destruct (Hk _ Hx) as [H|[(r2 & off & Hr2 & _ & _ & _ & HinF)|(_ & r2 & Hr2 & Hx2)]]; auto.
    - apply (Hgen r2); auto; [apply HinF|]. eapply inF_region; eauto.
    - apply (Hgen r2); auto; [lia|]. pose proof (HRs _ Hr2) as HR2.
      unfold region. rewrite (r_addr _ _ _ _ HR2), (r_len _ _ _ _ HR2). pose proof (g_psz _ _ HG).
      pose proof (na_bounds P). pose proof (strd_pos _ _ HG). nia. }
  constructor; try apply HI.
  - rewrite Forall_forall in HRs |- *. intros r Hr. apply rinv_store; auto.
  - eapply chain_ext; [|apply (pi_chain _ _ _ _ _ HI)]. intros a y Ha Hy.
    apply view_store_other; auto; [apply (g_psz _ _ HG)|]. intros x Hx Hal.
    destruct (slot_node_region e P v a y HG HRs) as (r & Hr & HR & Hd & Ho & Hol & HinF); auto.
    { apply (pi_slots _ _ _ _ _ HI), in_or_app. auto. }
    assert (Hry : region r y) by (eapply inF_region; eauto).
    assert (Hrx : region r x) by (eapply alias_region; eauto).
    destruct (Hk _ Hx) as [H|[(r2 & off & Hr2 & Hl & Hd2 & _ & HinF2)|(Hrob & r2 & Hr2 & Hx2)]].
    + eapply H; eauto.
    + assert (r2 = r).
      { destruct (ordpairs_in _ _ _ HA Hr Hr2) as [|Hap]; auto. exfalso.
        rewrite Forall_forall in HRs.
        eapply (apart_regions r r2); eauto; eapply inF_region; eauto. }
      subst r2. eapply (free_node_out P free live v a (base r + off) r off y); eauto.
      eapply alias_inF; eauto.
    + assert (r2 = r).
      { destruct (ordpairs_in _ _ _ HA Hr Hr2) as [|Hap]; auto. exfalso.
        rewrite Forall_forall in HRs. pose proof (HRs _ Hr2) as HR2.
        eapply (apart_regions r r2); eauto. unfold region. rewrite (r_addr _ _ _ _ HR2), (r_len _ _ _ _ HR2).
        pose proof (g_psz _ _ HG). pose proof (na_bounds P). pose proof (strd_pos _ _ HG). nia. }
      subst r2. pose proof (item_pos _ _ HG). pose proof (strd_pos _ _ HG).
      assert (Hyn : base r + strd P * nd P <= y).
      { unfold node, nidx, na in Hy. rewrite Hrob in Hy. cbn [orb] in Hy. nia. }
      destruct Hal as [->|[Hlk _]]; [lia|].
      destruct (r_link _ _ _ _ HR _ _ Hlk) as (_ & Hp & _); [left; eapply region_page; eauto|].
      pose proof (page_down e y (base r + strd P * nd P) (g_psz _ _ HG)) as Hpd.
      assert (base r + strd P * nd P <= page y * psz).
      { apply Hpd; auto. apply Z.divide_add_r; [eapply base_div; eauto|]. apply Z.divide_mul_l. apply (psz_strd _ _ HG). }
      pose proof (nd_bounds P). nia.
Qed.

(** Poison of an item is preserved when its bytes are. *)
Lemma poisoned_ext : forall P v v' r off, geom P -> rinv P v r -> 0 <= off -> off + item_len P <= strd P ->
  (forall x, inF P r off (item_len P) x -> view e v' x = view e v x) ->
  poisoned P v (base r + off) -> poisoned P v' (base r + off).
Proof.
  intros P v v' r off HG HR Ho Hol Hv Hp i k Hi Hk Hk2. rewrite (load_word_ext e v v'); auto.
  intros x Hx. apply Hv. pose proof (eight_item _ _ HG) as [m Hm]. pose proof (strd_pos _ _ HG).
  replace x with (base r + strd P * i + (x - base r - strd P * i)) by ring.
  pose proof (wsz_range e). assert (k < m) by nia.
  apply inF_area; auto; try nia. pose proof (na_bounds P). lia.
Qed.
End Free.
