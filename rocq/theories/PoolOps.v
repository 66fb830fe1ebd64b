(** What the operations on a pool do to its invariant. *)
From Coq Require Import ZArith Bool List Lia Znumtheory Permutation.
From Verif Require Import UtilsModel UtilsLemmas RseqIR MemLemmas PoolVM PoolVMLemmas PoolModel PoolInv PoolItem PoolMap PoolRange PoolBitmap.
Import ListNotations.
Local Open Scope Z_scope.

Definition same (P P' : pool) : Prop :=
  pattr P' = pattr P /\ item_len P' = item_len P /\ item_order P' = item_order P.

Lemma same_refl : forall P, same P P.
Proof. repeat split. Qed.
Lemma same_trans : forall P P' P'', same P P' -> same P' P'' -> same P P''.
Proof. intros P P' P'' (?&?&?) (?&?&?). repeat split; congruence. Qed.
Lemma same_sym : forall P P', same P P' -> same P' P.
Proof. intros P P' (?&?&?). repeat split; congruence. Qed.

Section Same.
Variables P P' : pool.
Hypothesis HS : same P P'.
Lemma s_attr : pattr P' = pattr P. Proof. apply HS. Qed.
Lemma s_len : item_len P' = item_len P. Proof. apply HS. Qed.
Lemma s_order : item_order P' = item_order P. Proof. apply HS. Qed.
Lemma s_cow : cow_init P' = cow_init P. Proof. unfold cow_init. now rewrite s_attr. Qed.
Lemma s_nd : nd P' = nd P. Proof. unfold nd. now rewrite s_cow, s_attr. Qed.
Lemma s_na : na P' = na P. Proof. unfold na. now rewrite s_nd, s_attr. Qed.
Lemma s_nidx : nidx P' = nidx P. Proof. unfold nidx. now rewrite s_na, s_cow, s_attr. Qed.
Lemma s_node : forall a, node P' a = node P a. Proof. intros a. unfold node. now rewrite s_nidx, s_attr. Qed.
Lemma s_words : forall e, bitmap_words e P' = bitmap_words e P.
Proof. intros e. unfold bitmap_words. now rewrite s_attr, s_order. Qed.
Lemma s_bit : forall e r o, slot_bit e P' r o = slot_bit e P r o.
Proof. intros e r o. unfold slot_bit, slot_word. now rewrite s_order. Qed.
Lemma s_inF : forall r o len a, inF P' r o len a <-> inF P r o len a.
Proof. intros r o len a. unfold inF. rewrite s_na, s_attr. tauto. Qed.
Lemma s_fl : forall e a, free_list_to_percpu_ptr e P' a = free_list_to_percpu_ptr e P a.
Proof. intros e a. unfold free_list_to_percpu_ptr. now rewrite s_attr. Qed.
Lemma s_lf : forall e a, percpu_to_free_list_ptr e P' a = percpu_to_free_list_ptr e P a.
Proof. intros e a. unfold percpu_to_free_list_ptr. now rewrite s_attr. Qed.
Lemma s_geom : forall e, geom e P -> geom e P'.
Proof. intros e H. destruct H. constructor; rewrite ?s_attr, ?s_len, ?s_order; auto. Qed.
Lemma s_bitmap_ok : forall e r, bitmap_ok e P r -> bitmap_ok e P' r.
Proof. intros e r H. unfold bitmap_ok in *. now rewrite s_words, s_len, s_attr. Qed.
Lemma s_rinv : forall e v r, rinv e P v r -> rinv e P' v r.
Proof.
  intros e v r H. destruct H. constructor; rewrite ?s_attr, ?s_na, ?s_cow, ?s_len; auto.
  - intros p q Hl Hr. destruct (r_link _ _ Hl Hr) as (H1 & H2 & H3 & H4).
    rewrite s_cow, s_nd, s_attr. auto.
  - destruct (robust_set (pattr P)); auto using s_bitmap_ok.
Qed.
Lemma s_chain : forall e v l h, chain e P v h l -> chain e P' v h l.
Proof. intros e v l h H. eapply chain_pool; eauto using s_nidx. now rewrite s_attr. Qed.
Lemma s_poisoned : forall e v a, poisoned e P v a -> poisoned e P' v a.
Proof. intros e v a H i k. rewrite s_nd, s_len, s_attr. apply H. Qed.
End Same.

(** Parts of a range that never change. *)
Definition twin (r r' : range) : Prop :=
  base r' = base r /\ header r' = header r /\ init r' = init r /\ mmap_addr r' = mmap_addr r /\ mmap_len r' = mmap_len r.
Lemma twin_refl : forall r, twin r r.
Proof. repeat split. Qed.
Lemma twin_region : forall r r' a, twin r r' -> (region r' a <-> region r a).
Proof. intros r r' a (_ & _ & _ & H1 & H2). unfold region. rewrite H1, H2. tauto. Qed.

Section Ops.
Variable e : env.
Notation psz := (e_page e).
Notation page := (PoolVM.page e).
Notation geom := (geom e).
Notation rinv := (rinv e).
Notation pinv := (pinv e).
Notation poisoned := (poisoned e).

Lemma rinv_twin : forall P v r r', twin r r' -> rinv P v r ->
  0 <= next_unused r' <= strd P -> (item_len P | next_unused r') ->
  (if robust_set (pattr P) then bitmap_ok e P r' else alloc_bitmap r' = None) -> rinv P v r'.
Proof.
  intros P v r r' (E1 & E2 & E3 & E4 & E5) HR Hn Hd Hb. destruct HR.
  constructor; rewrite ?E1, ?E2, ?E3, ?E4, ?E5; auto.
  - intros a Ha. apply r_map. unfold region in *. now rewrite <- E4, <- E5.
  - intros p q Hl Hr. unfold region in Hr. rewrite E4, E5 in Hr. rewrite E1. apply r_link; auto.
  - intros a Ha. apply r_dontfork. unfold region in *. now rewrite <- E4, <- E5.
  - intros a Ha. apply r_wipefork. unfold region in *. now rewrite <- E4, <- E5.
Qed.

(** ** Addresses *)
Section Addr.
Variables (P : pool) (v : vm) (r : range).
Hypothesis HG : geom P.
Hypothesis HR : rinv P v r.

Lemma base_pos : 0 < base r.
Proof. pose proof (r_lo _ _ _ _ HR). pose proof (g_psz _ _ HG). lia. Qed.

Lemma node_bounds : forall o, 0 <= o < strd P ->
  0 < base r + o /\ base r + o <= node P (base r + o) /\ node P (base r + o) < wmax e.
Proof.
  intros o Ho. pose proof (g_psz _ _ HG). unfold node. pose proof base_pos. pose proof (nidx_bounds _ _ HG).
  pose proof (strd_pos _ _ HG). pose proof (r_hi _ _ _ _ HR). nia.
Qed.

Lemma to_node : forall o, 0 <= o < strd P -> percpu_to_free_list_ptr e P (base r + o) = node P (base r + o).
Proof.
  intros o Ho. pose proof (node_bounds _ Ho) as (H1 & H2 & H3).
  pose proof (strd_pos _ _ HG). pose proof (g_cpus _ _ HG).
  unfold percpu_to_free_list_ptr, node, nidx, na, nd, cow_init in *.
  destruct (robust_set (pattr P)), (populate_policy (pattr P) =? COW_INIT); cbn [orb] in *.
  - rewrite (ue_small e (base r + o + ncpus P * strd P)) by nia. rewrite (ue_small e) by nia. ring.
  - rewrite (ue_small e) by nia. ring.
  - rewrite (ue_small e) by nia. ring.
  - ring.
Qed.

Lemma from_node : forall o, 0 <= o < strd P -> free_list_to_percpu_ptr e P (node P (base r + o)) = base r + o.
Proof.
  intros o Ho. pose proof (node_bounds _ Ho) as (H1 & H2 & H3).
  pose proof (strd_pos _ _ HG). pose proof (g_cpus _ _ HG).
  unfold free_list_to_percpu_ptr, node, nidx, na, nd, cow_init in *.
  destruct (robust_set (pattr P)), (populate_policy (pattr P) =? COW_INIT); cbn [orb] in *.
  - replace (base r + o + strd P * (ncpus P + 1 + 1 - 1) - ncpus P * strd P) with (base r + o + strd P) by ring.
    rewrite (ue_small e (base r + o + strd P)) by nia. rewrite (ue_small e) by nia. ring.
  - replace (base r + o + strd P * (ncpus P + 0 + 1 - 1) - ncpus P * strd P) with (base r + o) by ring.
    apply (ue_small e); lia.
  - replace (base r + o + strd P * (ncpus P + 1 + 0 - 1) - ncpus P * strd P) with (base r + o) by ring.
    apply (ue_small e); lia.
  - ring.
Qed.

Lemma base_of : forall o, 0 <= o < strd P -> Z.land (base r + o) (notw (e_wide e) (strd P - 1)) = base r.
Proof.
  intros o Ho. pose proof (node_bounds _ Ho) as (H1 & H2 & H3). pose proof (r_al _ _ _ _ HR) as [k Hk].
  destruct (g_stride _ _ HG) as (so & Hso & _ & _ & Hs). rewrite Hs in *.
  rewrite land_not_low by (try lia; fold (wmax e); lia). rewrite Hk. rewrite Z.div_add_l by lia. rewrite Z.div_small by lia. ring.
Qed.

Lemma offset_of : forall o, 0 <= o < strd P -> Z.land (base r + o) (strd P - 1) = o.
Proof.
  intros o Ho. pose proof (r_al _ _ _ _ HR) as [k Hk].
  destruct (g_stride _ _ HG) as (so & Hso & _ & _ & Hs). rewrite Hs in *.
  rewrite land_low by lia. rewrite Hk, Z.add_comm, Z.mod_add by lia. apply Z.mod_small. lia.
Qed.

Lemma node_area : forall o, node P (base r + o) = base r + strd P * nidx P + o.
Proof. intros o. unfold node. ring. Qed.

Lemma node_inF : forall o x, 0 <= o -> o + wsz e <= strd P -> node P (base r + o) <= x < node P (base r + o) + wsz e ->
  inF P r o (wsz e) x.
Proof.
  intros o x Ho H Hx. rewrite node_area in Hx.
  replace x with (base r + strd P * nidx P + (x - base r - strd P * nidx P)) by ring.
  pose proof (strd_pos _ _ HG). pose proof (nidx_bounds _ _ HG). apply inF_area; auto; lia.
Qed.

Lemma node_accessible : forall o, 0 <= o -> o + wsz e <= strd P -> accessible e v (node P (base r + o)) (wsz e) = true.
Proof.
  intros o Ho H. pose proof (wsz_range e). rewrite node_area. eapply item_accessible; eauto; try lia. apply nidx_bounds with (e := e); auto.
Qed.

Lemma base_region : region r (base r).
Proof.
  unfold region. rewrite (r_addr _ _ _ _ HR), (r_len _ _ _ _ HR). pose proof (g_psz _ _ HG).
  pose proof (strd_pos _ _ HG). pose proof (na_bounds P). pose proof (nd_bounds P). pose proof (g_cpus _ _ HG). nia.
Qed.
End Addr.

(** ** The list of ranges *)
Lemma apart_sym : forall r r', apart r r' -> apart r' r.
Proof. unfold apart. tauto. Qed.

Lemma apart_regions : forall r r' a, apart r r' -> region r a -> region r' a -> False.
Proof. unfold apart, region. lia. Qed.

Lemma ordpairs_in : forall (l : list range) r r', ForallOrdPairs apart l -> In r l -> In r' l -> r = r' \/ apart r r'.
Proof.
  intros l r r' H Hr Hr'. destruct (ForallOrdPairs_In H r r' Hr Hr') as [|[|]]; auto using apart_sym.
Qed.

Lemma same_base : forall P v l r r', geom P -> Forall (rinv P v) l -> ForallOrdPairs apart l -> In r l -> In r' l ->
  base r = base r' -> r = r'.
Proof.
  intros P v l r r' HG HF HA Hr Hr' E. destruct (ordpairs_in _ _ _ HA Hr Hr') as [|Hap]; auto. exfalso.
  rewrite Forall_forall in HF. apply (apart_regions _ _ (base r) Hap).
  - eapply base_region; eauto.
  - rewrite E. eapply base_region; eauto.
Qed.

Lemma find_range_in : forall P v l r, geom P -> Forall (rinv P v) l -> ForallOrdPairs apart l -> In r l ->
  find_range l (base r) = Some r.
Proof.
  intros P v l r HG HF HA Hr. unfold find_range.
  destruct (find (fun r0 => base r0 =? base r) l) as [r0|] eqn:E.
  - apply find_some in E. destruct E as [Hin Hb]. apply Z.eqb_eq in Hb. f_equal. eapply same_base; eauto.
  - exfalso. pose proof (find_none _ _ E r Hr) as H. cbn in H. rewrite Z.eqb_refl in H. discriminate.
Qed.

Lemma find_range_base : forall l b r, find_range l b = Some r -> In r l /\ base r = b.
Proof.
  intros l b r H. unfold find_range in H. apply find_some in H. destruct H as [H1 H2]. apply Z.eqb_eq in H2. auto.
Qed.

(** Replacing the range [r] of the list by [r'] (same place, other bookkeeping). *)
Section Put.
Variables (P : pool) (v : vm) (l : list range) (r r' : range).
Hypothesis HG : geom P.
Hypothesis HF : Forall (rinv P v) l.
Hypothesis HA : ForallOrdPairs apart l.
Hypothesis Hin : In r l.
Hypothesis Htw : twin r r'.

Lemma put_in : forall x, In x (put_range l r') <-> x = r' \/ (In x l /\ base x <> base r).
Proof.
  intros x. unfold put_range. rewrite in_map_iff. destruct Htw as (Hb & _). rewrite Hb. split.
  - intros (y & E & Hy). destruct (base y =? base r) eqn:Eb; [left; auto|]. right. subst x.
    apply Z.eqb_neq in Eb. auto.
  - intros [->|[Hx Hne]].
    + exists r. rewrite Z.eqb_refl. auto.
    + exists x. apply Z.eqb_neq in Hne. rewrite Hne. auto.
Qed.

Lemma put_twin : forall x, In x (put_range l r') -> exists y, In y l /\ twin y x.
Proof.
  intros x Hx. apply put_in in Hx. destruct Hx as [->|[Hx _]]; [exists r|exists x]; auto using twin_refl.
Qed.

Lemma put_eq : forall y, In y l -> base y = base r -> y = r.
Proof. intros y Hy E. eapply same_base; eauto. Qed.

Lemma put_apart : ForallOrdPairs apart (put_range l r').
Proof.
  assert (H : forall m, incl m l -> ForallOrdPairs apart m -> ForallOrdPairs apart (put_range m r')).
  { assert (Hsub : forall x y, In x l -> In y l -> apart x y ->
      apart (if base x =? base r' then r' else x) (if base y =? base r' then r' else y)).
    { intros x y Hx Hy Hap. destruct Htw as (Hb & _ & _ & Ha & Hl). rewrite Hb. unfold apart in *.
      destruct (base x =? base r) eqn:E1; destruct (base y =? base r) eqn:E2;
        rewrite ?Ha, ?Hl; auto;
        try apply Z.eqb_eq in E1; try apply Z.eqb_eq in E2;
        try (apply put_eq in E1; auto; subst x); try (apply put_eq in E2; auto; subst y); auto. }
    induction m as [|x m IH]; intros Hm HFo; cbn; [constructor|]. inversion HFo; subst. constructor.
    - apply Forall_forall. intros y Hy. apply in_map_iff in Hy. destruct Hy as (z & <- & Hz).
      rewrite Forall_forall in H1. apply Hsub; auto; apply Hm; [now left|now right].
    - apply IH; auto. intros z Hz. apply Hm. now right. }
  apply H; auto. apply incl_refl.
Qed.

Lemma put_Forall : forall Q : range -> Prop, Forall Q l -> Q r' -> Forall Q (put_range l r').
Proof.
  intros Q H Hr'. apply Forall_forall. intros x Hx. apply put_in in Hx. rewrite Forall_forall in H.
  destruct Hx as [->|[Hx _]]; auto.
Qed.

Lemma put_length : length (put_range l r') = length l.
Proof. apply map_length. Qed.
End Put.

Lemma put_tl : forall l r, tl (put_range l r) = put_range (tl l) r.
Proof. intros [|x l] r; reflexivity. Qed.

Lemma put_absent : forall l r, (forall x, In x l -> base x <> base r) -> put_range l r = l.
Proof.
  intros l r H. unfold put_range. rewrite <- (map_id l) at 2. apply map_ext_in. intros x Hx.
  apply H in Hx. apply Z.eqb_neq in Hx. now rewrite Hx.
Qed.

(** ** The slots *)
Lemma slot_item : forall P v a, geom P -> Forall (rinv P v) (range_list P) -> slot P a ->
  exists r, In r (range_list P) /\ rinv P v r /\ 0 <= a - base r /\ a - base r + item_len P <= strd P /\ (item_len P | a - base r).
Proof.
  intros P v a HG HF (r & Hr & Ho & Hd). rewrite Forall_forall in HF. pose proof (HF _ Hr) as HR.
  exists r. split; auto. split; auto. split; [lia|]. split; auto.
  pose proof (r_unused _ _ _ _ HR). pose proof (r_div _ _ _ _ HR).
  pose proof (slot_room _ _ HG _ _ H H0 Ho Hd). lia.
Qed.

Lemma pinv_perm : forall P free live live' v, Permutation live live' -> pinv P free live v -> pinv P free live' v.
Proof.
  intros P free live live' v Hp H. destruct H. constructor; auto.
  - intros a. rewrite <- pi_slots. rewrite !in_app_iff.
    split; (intros [Ha|Ha]; [auto|right]); [apply Permutation_in with live'; auto using Permutation_sym|
      apply Permutation_in with live; auto].
  - eapply Permutation_NoDup; [|exact pi_nodup]. now apply Permutation_app_head.
  - intros Hrob r o Hr Ho Hd. rewrite pi_bits by auto.
    split; intros Hi; [apply Permutation_in with live|apply Permutation_in with live']; auto using Permutation_sym.
Qed.

(** All addresses of the pool's mappings. *)
Definition pregion (P : pool) (a : Z) : Prop := exists r, In r (range_list P) /\ region r a.

(** The node of a slot lies in the pool. *)
Lemma slot_node_region : forall P v a x, geom P -> Forall (rinv P v) (range_list P) -> slot P a ->
  node P a <= x < node P a + wsz e ->
  exists r, In r (range_list P) /\ rinv P v r /\ (item_len P | a - base r) /\ 0 <= a - base r /\
    a - base r + item_len P <= strd P /\ inF P r (a - base r) (item_len P) x.
Proof.
  intros P v a x HG HF Hs Hx. destruct (slot_item _ _ _ HG HF Hs) as (r & Hr & HR & H1 & H2 & H3).
  exists r. do 5 (split; [auto; fail|]). apply inF_sub with (wsz e); [|apply (item_pos _ _ HG)].
  pose proof (item_pos _ _ HG).
  eapply node_inF; eauto; try lia. replace (base r + (a - base r)) with a by ring. exact Hx.
Qed.

(** The invariant depends on the pool's own memory only. *)
Lemma pinv_frame : forall P free live v v', pinv P free live v ->
  vframe e (pregion P) v v' -> pinv P free live v'.
Proof.
  intros P free live v v' HI HF. pose proof (pi_geom _ _ _ _ _ HI) as HG.
  pose proof (pi_ranges _ _ _ _ _ HI) as HRs.
  destruct HI. constructor; auto.
  - rewrite Forall_forall in *. intros r Hr. eapply rinv_frame; eauto. eapply vframe_sub; [exact HF|].
    intros a Ha. exists r; auto.
  - eapply chain_ext; [|exact pi_chain]. intros a x Ha Hx.
    destruct (slot_node_region P v a x HG HRs) as (r & Hr & HR & _ & _ & _ & Hin); auto.
    { apply pi_slots, in_or_app. auto. }
    apply (fr_view _ _ _ _ HF). exists r. split; auto. eapply inF_region; eauto.
Qed.

(** ... and not on the content of live items. *)
Lemma pinv_live_frame : forall P free live v v' r off, pinv P free live v ->
  In r (range_list P) -> In (base r + off) live -> (item_len P | off) -> 0 <= off -> off + item_len P <= strd P ->
  rinv P v' r -> vframe e (fun a => ~ inF P r off (item_len P) a) v v' -> pinv P free live v'.
Proof.
  intros P free live v v' r off HI Hr Hl Hd Ho Hol HR' HF.
  pose proof (pi_geom _ _ _ _ _ HI) as HG. pose proof (pi_ranges _ _ _ _ _ HI) as HRs.
  destruct HI. constructor; auto.
  - rewrite Forall_forall in *. intros r2 Hr2.
    destruct (ordpairs_in _ _ _ pi_apart Hr Hr2) as [<-|Hap]; auto.
    eapply rinv_frame; eauto. eapply vframe_sub; [exact HF|]. intros a Ha HinF.
    eapply (apart_regions r r2); eauto. eapply inF_region; eauto.
  - eapply chain_ext; [|exact pi_chain]. intros a x Ha Hx.
    destruct (slot_node_region P v a x HG HRs) as (r2 & Hr2 & HR2 & Hd2 & Ho2 & Hol2 & Hin); auto.
    { apply pi_slots, in_or_app. auto. }
    apply (fr_view _ _ _ _ HF). intros HinF.
    assert (r2 = r).
    { destruct (ordpairs_in _ _ _ pi_apart Hr Hr2) as [|Hap]; auto. exfalso.
      rewrite Forall_forall in HRs.
      eapply (apart_regions r r2); eauto; eapply inF_region; eauto. }
    subst r2. assert (a - base r = off) by (eapply (inF_disjoint e); eauto).
    assert (a = base r + off) by lia. subst a.
    apply in_split in Ha. destruct Ha as (f1 & f2 & ->).
    apply in_split in Hl. destruct Hl as (l1 & l2 & ->).
    rewrite <- app_assoc in pi_nodup. cbn in pi_nodup. apply NoDup_remove_2 in pi_nodup. apply pi_nodup.
    rewrite !in_app_iff. right. right. right. now left.
Qed.

(** ** Filling an item *)
Lemma live_item : forall P free live v a, pinv P free live v -> In a live ->
  exists r off, In r (range_list P) /\ a = base r + off /\ rinv P v r /\ (item_len P | off) /\ 0 <= off /\ off + item_len P <= strd P.
Proof.
  intros P free live v a HI Ha. pose proof (pi_geom _ _ _ _ _ HI) as HG.
  destruct (slot_item P v a HG) as (r & Hr & HR & H1 & H2 & H3); [apply (pi_ranges _ _ _ _ _ HI)| |].
  - apply (pi_slots _ _ _ _ _ HI), in_or_app. auto.
  - exists r, (a - base r). repeat (split; auto). lia.
Qed.

(** Acceptable contents. *)
Definition content_ok (P : pool) (c : content) : Prop :=
  match c with
  | Any | Zeroed => True
  | Bytes bs => Forall (fun b => 0 <= b < 256) bs /\ Z.of_nat (length bs) <= item_len P
  end.
(** The item at [a] holds the content, in area [i]. *)
Definition holds (P : pool) (c : content) (v : vm) (a : Z) (i : Z) : Prop :=
  match c with
  | Any => True
  | Zeroed => forall k, 0 <= k < item_len P -> byte (view e v) (a + strd P * i + k) = 0
  | Bytes bs => forall k, 0 <= k < Z.of_nat (length bs) ->
      byte (view e v) (a + strd P * i + k) = nth (Z.to_nat k) bs 0
  end.

Lemma in_fill_bytes : forall bs p k, 0 <= k < Z.of_nat (length bs) -> In (p + k, nth (Z.to_nat k) bs 0) (fill_bytes p bs).
Proof.
  intros bs p k Hk. unfold fill_bytes.
  assert (E : nth (Z.to_nat k) (combine (span p (length bs)) bs) (0, 0) = (p + k, nth (Z.to_nat k) bs 0)).
  { rewrite combine_nth by apply span_length. f_equal. unfold span.
    rewrite (nth_indep _ 0 (p + Z.of_nat 0)) by (rewrite map_length, seq_length; lia).
    rewrite (map_nth (fun i => p + Z.of_nat i)). rewrite seq_nth by lia. lia. }
  rewrite <- E. apply nth_In. rewrite combine_length, span_length. lia.
Qed.

Lemma fill_item_spec : forall P free live v r off c, pinv P free live v -> vmwf e v ->
  In r (range_list P) -> In (base r + off) live -> (item_len P | off) -> 0 <= off -> off + item_len P <= strd P ->
  content_ok P c ->
  exists v', fill_item e P r off c v = Ok v' /\ vmwf e v' /\ pinv P free live v' /\
    vframe e (fun a => ~ inF P r off (item_len P) a) v v' /\
    (forall i, 0 <= i < nd P -> holds P c v' (base r + off) i) /\
    (forall q, mapped v' q = mapped v q).
Proof.
  intros P free live v r off c HI Hwf Hr Hl Hd Ho Hol Hc.
  pose proof (pi_geom _ _ _ _ _ HI) as HG. pose proof (pi_ranges _ _ _ _ _ HI) as HRs.
  assert (HR : rinv P v r) by (rewrite Forall_forall in HRs; auto).
  pose proof (item_pos _ _ HG) as Hip.
  destruct c as [| |bs]; cbn [fill_item].
  - exists v. repeat (split; auto using vframe_refl).
  - rewrite zero_item_gen.
    edestruct (fill_gen_spec e (fun p => zero_bytes p (item_len P)) (item_len P)
      (fun v p => cmp_item e v p (item_len P) 0 =? 0)) with (P := P) (v := v) (r := r) (off := off)
      as (v' & E & Hwf' & HR' & HF & Hg & Hm); auto; try lia.
    { apply zero_block. lia. }
    { intros v0 p0 H0. apply zero_test; auto; [lia|]. apply (eight_item _ _ HG). }
    exists v'. split; auto. split; auto. split; [eapply pinv_live_frame; eauto|]. split; auto. split; auto.
    intros i Hi k Hk. specialize (Hg i Hi (base r + off + strd P * i + k) 0).
    rewrite Hg; [reflexivity|]. apply in_zero_bytes. split; auto. lia.
  - destruct Hc as [Hb Hlen]. rewrite init_item_gen.
    edestruct (fill_gen_spec e (fun p => fill_bytes p bs) (Z.of_nat (length bs))
      (fun v p => same_bytes e v p bs)) with (P := P) (v := v) (r := r) (off := off)
      as (v' & E & Hwf' & HR' & HF & Hg & Hm); auto; try lia.
    { apply fill_bytes_block. }
    { intros v0 p0 H0. apply init_test; auto. }
    assert (HF' : vframe e (fun a => ~ inF P r off (item_len P) a) v v').
    { eapply vframe_sub; [exact HF|]. intros a Ha Hin. apply Ha. eapply inF_sub; eauto. }
    exists v'. split; auto. split; auto. split; [eapply pinv_live_frame; eauto|]. split; auto. split; auto.
    intros i Hi k Hk. cbn in Hg. specialize (Hg i Hi (base r + off + strd P * i + k) (nth (Z.to_nat k) bs 0)).
    rewrite Hg.
    + apply Z.mod_small. rewrite Forall_forall in Hb. apply Hb, nth_In. lia.
    + replace (base r + off + strd P * i + k) with (base r + strd P * i + off + k) by ring.
      apply in_fill_bytes. auto.
Qed.
End Ops.
