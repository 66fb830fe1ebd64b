(** Free-list corruption, destruction that fails, and destruction in a forked child. *)
From Coq Require Import ZArith Bool List Lia Znumtheory Permutation.
From Verif Require Import UtilsModel UtilsLemmas RseqIR MemLemmas PoolVM PoolVMLemmas PoolModel PoolInv PoolItem PoolMap PoolRange PoolBitmap PoolOps PoolMalloc PoolFree PoolWorld PoolDestroy PoolCreate PoolHist PoolProps PoolProps2.
Import ListNotations.
Local Open Scope Z_scope.

Section Props.
Variable e : env.
Notation psz := (e_page e).
Notation page := (PoolVM.page e).
Notation geom := (geom e).
Notation rinv := (rinv e).
Notation pinv := (pinv e).
Notation poisoned := (poisoned e).
Notation vmwf := (vmwf e).
Notation history := (history e).

Lemma copies_nd : forall P, copies P = nd P.
Proof. reflexivity. Qed.

Lemma node_place : forall P v n, geom P -> Forall (rinv P v) (range_list P) -> robust_set (pattr P) = true ->
  0 <= n < wmax e -> node_in_pool e P n -> link_place P n.
Proof.
  intros P v n HG HF Hrob Hn Hp. unfold node_in_pool, percpu_addr_in_pool in Hp. apply existsb_exists in Hp.
  destruct Hp as (r & Hr & Hb). apply andb_prop in Hb. destruct Hb as [H1 H2].
  apply Z.leb_le in H1. apply Z.ltb_lt in H2. rewrite Forall_forall in HF. pose proof (HF _ Hr) as HR.
  pose proof (r_unused _ _ _ _ HR) as Hu. pose proof (r_hi _ _ _ _ HR) as Hhi. pose proof (base_pos e P v r HG HR) as Hbp.
  set (o := free_list_to_percpu_ptr e P n - base r).
  assert (Ho : 0 <= o < next_unused r) by (unfold o; lia).
  exists r, o. split; auto. split; auto. rewrite copies_nd.
  assert (Ena : na P = nd P + 1) by (unfold na; rewrite Hrob; reflexivity).
  assert (Eq : free_list_to_percpu_ptr e P n = (n - strd P * nd P) mod wmax e).
  { unfold free_list_to_percpu_ptr. rewrite Hrob. unfold nd, cow_init, uw. fold (wmax e).
    destruct (populate_policy (pattr P) =? COW_INIT).
    - rewrite Zminus_mod_idemp_l. f_equal. ring.
    - f_equal. ring. }
  assert (Hs := strd_pos _ _ HG). pose proof (nd_bounds P) as Hnd. pose proof (g_cpus _ _ HG) as Hc. pose proof (wmax_range e) as Hwm. pose proof (g_psz _ _ HG) as Hpz.
  assert (Hm : (n - strd P * nd P) mod wmax e = (base r + o) mod wmax e).
  { replace (base r + o) with (free_list_to_percpu_ptr e P n) by (unfold o; ring). rewrite Eq. now rewrite Z.mod_mod by lia. }
  assert (Hm2 : n mod wmax e = (base r + strd P * nd P + o) mod wmax e).
  { replace n with (n - strd P * nd P + strd P * nd P) by ring. rewrite Zplus_mod, Hm, <- Zplus_mod. f_equal. ring. }
  rewrite !Z.mod_small in Hm2; try lia. rewrite Ena in Hhi. nia.
Qed.

Lemma place_accessible : forall P v n, geom P -> Forall (rinv P v) (range_list P) -> robust_set (pattr P) = true ->
  link_place P n -> (wsz e | n) -> accessible e v n (wsz e) = true.
Proof.
  intros P v n HG HF Hrob (r & o & Hr & Ho & ->) H8. rewrite Forall_forall in HF. pose proof (HF _ Hr) as HR.
  pose proof (r_unused _ _ _ _ HR) as Hu. rewrite copies_nd in *.
  assert (Ena : na P = nd P + 1) by (unfold na; rewrite Hrob; reflexivity).
  apply accessible_true; [apply (g_psz _ _ HG)|]. intros x Hx. apply (r_map _ _ _ _ HR). unfold region.
  rewrite (r_addr _ _ _ _ HR), (r_len _ _ _ _ HR), Ena. pose proof (g_psz _ _ HG). pose proof (strd_pos _ _ HG).
  pose proof (nd_bounds P) as Hnd. pose proof (g_cpus _ _ HG) as Hc. pose proof (wsz_range e) as Hws.
  assert (o + wsz e <= strd P).
  { assert (Hs8 : (wsz e | strd P)) by (eapply Z.divide_trans; [apply (eight_item _ _ HG)|apply (item_strd _ _ HG)]).
    assert (Ho8 : (wsz e | o)).
    { replace o with (base r + strd P * nd P + o - (base r + strd P * nd P)) by ring. apply Z.divide_sub_r; auto.
      apply Z.divide_add_r; [eapply Z.divide_trans; [exact Hs8|apply (r_al _ _ _ _ HR)]|now apply Z.divide_mul_l]. }
    destruct Hs8 as [a Ea]. destruct Ho8 as [b Eb]. assert (o < strd P) by lia. assert (b < a) by nia. nia. }
  nia.
Qed.

Lemma follows_det : forall v l l' h, follows e v h l -> follows e v h l' -> l = l'.
Proof.
  intros v l. induction l as [|n l IH]; intros l' h H H'.
  - cbn in H. subst h. destruct l' as [|n' l']; auto. cbn in H'. destruct H' as (<- & Hn & _). contradiction.
  - destruct H as (-> & Hn & H). destruct l' as [|n' l']; [cbn in H'; contradiction|].
    destruct H' as (<- & _ & H'). f_equal. eapply IH; eauto.
Qed.
Lemma follows_tail : forall v l1 l2 h n, follows e v h (l1 ++ n :: l2) -> follows e v n (n :: l2).
Proof.
  intros v l1. induction l1 as [|m l1 IH]; intros l2 h n H; cbn [app] in H.
  - destruct H as (-> & Hn & H). repeat split; auto.
  - destruct H as (_ & _ & H). eapply IH; eauto.
Qed.
Lemma follows_nodup : forall v l h, follows e v h l -> NoDup l.
Proof.
  intros v l. induction l as [|n l IH]; intros h H; constructor.
  - intros Hin. apply in_split in Hin. destruct Hin as (l1 & l2 & ->).
    destruct H as (-> & Hn & H). 
    assert (E : n :: l1 ++ n :: l2 = n :: l2).
    { eapply follows_det; [split; [reflexivity|split; [exact Hn|exact H]]|]. eapply follows_tail; exact H. }
    apply (f_equal (@length Z)) in E. cbn [length] in E. rewrite app_length in E. cbn [length] in E. lia.
  - destruct H as (_ & _ & H). eapply IH; eauto.
Qed.

(** The traversal never looks beyond the pool. *)
Lemma walk_cases : forall P v n h, geom P -> Forall (rinv P v) (range_list P) -> robust_set (pattr P) = true -> 0 <= h < wmax e ->
  (exists l, walk_free_list e P v n h = Ok (Z.of_nat (length l)) /\ follows e v h l /\ Forall (link_place P) l) \/
  walk_free_list e P v n h = Abort \/
  (walk_free_list e P v n h = Undef /\ exists x, link_place P x /\ ~ (wsz e | x)).
Proof.
  intros P v n. induction n as [|n IH]; intros h HG HF Hrob Hh; cbn [walk_free_list]; destruct (h =? 0) eqn:E.
  - left. exists []. apply Z.eqb_eq in E. cbn. auto.
  - auto.
  - left. exists []. apply Z.eqb_eq in E. cbn. auto.
  - apply Z.eqb_neq in E. destruct (percpu_addr_in_pool P (free_list_to_percpu_ptr e P h)) eqn:Ep; cbn [negb]; auto.
    assert (Hpl : link_place P h) by (eapply node_place; eauto).
    destruct (accessible e v h (wsz e)) eqn:Ea; cbn [negb].
    + destruct (IH (load_word e v h) HG HF Hrob (load_word_range e v h)) as [(l & -> & Hf & Hl)|[->|[-> H]]]; cbn [bind]; auto.
      left. exists (h :: l). split; [f_equal; cbn [length]; lia|]. split; [repeat split; auto|constructor; auto].
    + right. right. split; auto. exists h. split; auto. intros H8. rewrite (place_accessible P v h) in Ea; auto. discriminate.
Qed.

Lemma destroy_ranges_defined : forall P an acc l v, destroy_ranges e P an acc l v <> Undef.
Proof.
  intros P an acc l. induction l as [|r l IH]; intros v; cbn [destroy_ranges]; [discriminate|].
  unfold range_destroy, destroy_alloc_bitmap. destruct (alloc_bitmap r) as [bm|]; [destruct (_ =? 0)|]; cbn [bind];
    try discriminate; destruct acc; destruct (an_munmap _ _); cbn [bind]; try discriminate; apply IH.
Qed.

Lemma destroy_ranges_leak : forall P an acc l v r o, geom P -> (forall a, an_munmap an a = true) ->
  In r l -> (forall r, In r l -> bitmap_ok e P r) -> slot_bit e P r o = true -> destroy_ranges e P an acc l v = Abort.
Proof.
  intros P an acc l. induction l as [|x l IH]; intros v r o HG Han Hr Hb Ho; [destruct Hr|].
  cbn [destroy_ranges]. unfold range_destroy.
  destruct (destroy_bitmap_spec e P HG x) as [[E Hz]|[E _]]; [apply Hb; now left| |rewrite E; reflexivity].
  rewrite E. cbn [bind]. destruct Hr as [<-|Hr]; [rewrite Hz in Ho; discriminate|].
  destruct acc; rewrite Han; cbn [bind]; eapply IH; eauto; intros y Hy; apply Hb; now right.
Qed.

Section One.
Variables (s : bool) (v0 : vm) (w : world) (L F : ledger).
Hypothesis HH : history s v0 w L F.
Let HW : winv e s v0 w L F := hist_inv _ _ _ _ _ _ HH.
Notation v := (w_vm w).

Lemma p_links_there : forall id P a k, lookup id (w_pools w) = Some P -> robust_set (pattr P) = true -> In (id, a) (L ++ F) ->
  0 <= k < wsz e -> in_links P (percpu_to_free_list_ptr e P a + k).
Proof.
  intros id P a k Hl Hrob Ha Hk. pose proof (lookup_in _ _ _ Hl) as Hin.
  assert (Ha' : In (id, a) (F ++ L)) by (apply in_app_iff; apply in_app_iff in Ha; tauto).
  destruct (known_item e s v0 w L F HH id P a Hin Ha') as (r & Hr & HR & H1 & H2 & _).
  pose proof (pi_geom _ _ _ _ _ (wi_pools _ _ _ _ _ _ HW _ _ Hin)) as HG.
  exists r. split; [exact Hr|]. replace a with (base r + (a - base r)) by ring. pose proof (item_pos _ _ HG) as Hws.
  rewrite (to_node e P v r HG HR) by lia.
  rewrite copies_nd. unfold node. assert (En : nidx P = nd P). { unfold nidx, na. rewrite Hrob. cbn [orb]. ring. }
  rewrite En. nia.
Qed.
Lemma p_corrupt_links : forall id P ps an, lookup id (w_pools w) = Some P -> robust_set (pattr P) = true ->
  (forall x, In x (map fst ps) -> in_links P x) ->
  let w1 := {| w_vm := store e v ps; w_pools := w_pools w |} in
  match run1 e (ODestroy id an) w1 with
  | Ok (w', x) =>
    (exists l, follows e (w_vm w1) (free_list_head P) l /\ NoDup l /\ Forall (link_place P) l /\
      Z.of_nat (length l) = count id F + count id L) /\
    ((forall a, an_munmap an a = true) -> count id L = 0)
  | Abort => True
  | Undef => exists x, link_place P x /\ ~ (wsz e | x)
  end.
Proof.
  intros id P ps an Hl Hrob Hps w1. pose proof (lookup_in _ _ _ Hl) as Hin.
  pose proof (wi_pools _ _ _ _ _ _ HW _ _ Hin) as HI. pose proof (pi_geom _ _ _ _ _ HI) as HG.
  pose proof (wi_wf _ _ _ _ _ _ HW) as Hwf. pose proof (pi_ranges _ _ _ _ _ HI) as HF0.
  destruct (counts _ _ _ _ _ _ HH _ _ Hin) as (Hc & _ & _ & _).
  assert (HF : Forall (rinv P (store e v ps)) (range_list P)).
  { rewrite Forall_forall in HF0 |- *. intros r Hr. pose proof (HF0 _ Hr) as HR. apply rinv_store; auto.
    intros x Hx. destruct (Hps _ Hx) as (r2 & Hr2 & Hx2). pose proof (HF0 _ Hr2) as HR2.
    pose proof (strd_pos _ _ HG) as Hs. pose proof (nd_bounds P) as Hnd. pose proof (g_cpus _ _ HG) as Hcp.
    rewrite copies_nd in Hx2.
    assert (Hb2 : base r2 <= x) by nia.
    assert (Hx3 : region r2 x).
    { unfold region. rewrite (r_addr _ _ _ _ HR2), (r_len _ _ _ _ HR2). unfold na. rewrite Hrob. pose proof (g_psz _ _ HG). nia. }
    destruct (ordpairs_in _ _ _ (pi_apart _ _ _ _ _ HI) Hr Hr2) as [->|Hap]; [now right|].
    left. intros Hx4. exact (apart_regions _ _ _ Hap Hx4 Hx3). }
  cbn [run1 w_pools w1 w_vm]. rewrite Hl. unfold mempool_destroy.
  rewrite (accessible_true_ranges e P _ HG HF). cbn [bind].
  unfold check_free_list. rewrite Hrob. cbn [negb orb].
  pose proof (wmax_range e) as Hwm. assert (Hh : 0 <= free_list_head P < wmax e).
  { pose proof (pi_chain _ _ _ _ _ HI) as Hch. destruct (items id F) as [|a l] eqn:EF; cbn in Hch; [lia|].
    destruct Hch as [-> _]. assert (Ha : slot P a) by (apply (pi_slots _ _ _ _ _ HI); now left).
    destruct (slot_item e P v a HG HF0 Ha) as (r & Hr & HR & H1 & H2 & H3).
    pose proof (node_bounds e P v r HG HR (a - base r)) as Hnb.
    pose proof (item_pos _ _ HG). replace (base r + (a - base r)) with a in Hnb by ring. lia. }
  destruct (walk_cases P (store e v ps) (Z.to_nat (total_item P - total_never_allocated P)) (free_list_head P) HG HF Hrob Hh)
    as [(l & -> & Hf & Hpl)|[->|[-> H]]]; cbn [bind]; auto.
  destruct (_ =? total_item P) eqn:Et; [|cbn [bind]; exact Logic.I]. cbn [bind].
  unfold check_pool_poison. rewrite Hrob. cbn [negb orb].
  destruct (check_ranges_spec e P (store e v ps) (range_list P) HG HF Hrob) as [[-> _]|[-> _]]; cbn [bind]; auto.
  pose proof (destroy_ranges_defined P an true (range_list P) (store e v ps)) as Hnu.
  destruct (destroy_ranges e P an true (range_list P) (store e v ps)) as [[Po v']| |] eqn:Ed; cbn [bind]; auto; [|contradiction].
  split.
  - exists l. split; auto. split; [eapply follows_nodup; eauto|]. split; auto. rewrite Hc. rewrite <- (totals e P v _ HG HF0).
    fold (total_item P). fold (total_never_allocated P). apply Z.eqb_eq in Et. lia.
  - intros Han. rewrite count_items. destruct (items id L) as [|a l'] eqn:EL; [reflexivity|]. exfalso.
    assert (Ha : In a (items id L)) by (rewrite EL; now left).
    rewrite <- EL in HI.
    assert (Hsl : slot P a) by (apply (pi_slots _ _ _ _ _ HI), in_or_app; auto).
    destruct (slot_item e P v a HG HF0 Hsl) as (r & Hr & HR & H1 & H2 & H3). pose proof (item_pos _ _ HG).
    rewrite (destroy_ranges_leak P an true _ _ r (a - base r) HG Han Hr) in Ed; [discriminate| |].
    + intros x Hx. rewrite Forall_forall in HF0. pose proof (r_bitmap _ _ _ _ (HF0 _ Hx)) as Hb. now rewrite Hrob in Hb.
    + apply (pi_bits _ _ _ _ _ HI Hrob); auto; [lia|]. replace (base r + (a - base r)) with a by ring. rewrite EL. now left.
Qed.

(** A failure to unmap is not reported. *)
Lemma p_destroy_unreported : forall id P an r l, lookup id (w_pools w) = Some P -> robust_set (pattr P) = false ->
  range_list P = r :: l -> an_munmap an (mmap_addr r) = false ->
  exists w', run1 e (ODestroy id an) w = Ok (w', OutRet 0) /\ w_vm w' = v /\ lookup id (w_pools w') = None.
Proof.
  intros id P an r l Hl Hrob Er Hu. pose proof (lookup_in _ _ _ Hl) as Hin.
  pose proof (wi_pools _ _ _ _ _ _ HW _ _ Hin) as HI. pose proof (pi_ranges _ _ _ _ _ HI) as HF. rewrite Er in HF.
  inversion HF as [|? ? HR _]; subst. pose proof (r_bitmap _ _ _ _ HR) as Hb. rewrite Hrob in Hb.
  cbn [run1]. rewrite Hl. unfold mempool_destroy. rewrite (accessible_true_pool e _ _ _ _ HI). cbn [bind].
  unfold check_free_list, check_pool_poison. rewrite Hrob. cbn [negb orb bind]. rewrite Er. cbn [destroy_ranges].
  unfold range_destroy, destroy_alloc_bitmap. rewrite Hb. cbn [bind]. rewrite Hu. cbn [bind].
  eexists. split; [reflexivity|]. split; [reflexivity|]. cbn [w_pools].
  destruct (lookup id (del_pool id (w_pools w))) eqn:E; auto. apply lookup_in in E. unfold del_pool in E.
  apply filter_In in E. cbn in E. rewrite Z.eqb_refl in E. destruct E; discriminate.
Qed.

(** ** In a forked child *)
Lemma child_marks : forall id P, lookup id (w_pools w) = Some P -> populate_policy (pattr P) = COW_INIT ->
  range_list P <> [] -> pool_mappings_accessible e P (fork e v) = Ok false.
Proof.
  intros id P Hl Hpol Hne. pose proof (lookup_in _ _ _ Hl) as Hin.
  pose proof (wi_pools _ _ _ _ _ _ HW _ _ Hin) as HI. pose proof (pi_geom _ _ _ _ _ HI) as HG.
  pose proof (pi_ranges _ _ _ _ _ HI) as HF. pose proof (g_psz _ _ HG) as Hp.
  assert (Hcow : cow_init P = true) by (unfold cow_init; rewrite Hpol; reflexivity).
  unfold pool_mappings_accessible. rewrite Hpol. cbn [Z.eqb COW_INIT negb].
  destruct (range_list P) as [|r l]; [contradiction|]. inversion HF as [|? ? HR _]; subst.
  assert (Hreg : region r (base r - 2 * psz)).
  { unfold region. rewrite (r_addr _ _ _ _ HR), (r_len _ _ _ _ HR). pose proof (strd_pos _ _ HG).
    pose proof (na_bounds P). pose proof (nd_bounds P). pose proof (g_cpus _ _ HG). nia. }
  replace (accessible e (fork e v) (base r - 2 * psz) 1) with true.
  2:{ symmetry. apply accessible_true; auto. intros x Hx. replace x with (base r - 2 * psz) by lia. cbn [fork mapped].
      rewrite (r_dontfork _ _ _ _ HR) by auto. rewrite Hcow. replace (base r <=? base r - 2 * psz) with false by lia.
      cbn [andb negb]. apply (r_map _ _ _ _ HR). auto. }
  cbn [negb]. replace (byte (view e (fork e v)) (base r - 2 * psz)) with 0; [reflexivity|].
  unfold byte, view. cbn [link fork data].
  replace (dontfork v (page (base r - 2 * psz))) with false.
  2:{ rewrite (r_dontfork _ _ _ _ HR) by auto. rewrite Hcow. cbn [andb]. symmetry. apply Z.leb_gt. lia. }
  destruct (link v (page (base r - 2 * psz))) as [q|] eqn:El.
  - exfalso. assert (Hd : (psz | base r - 2 * psz)).
    { apply Z.divide_sub_r; [apply (base_div e P v r HG HR)|apply Z.divide_factor_r]. }
    assert (Epg : page (base r - 2 * psz) * psz = base r - 2 * psz).
    { destruct Hd as [k Hk]. rewrite Hk. rewrite page_mul; auto. }
    destruct (r_link _ _ _ _ HR _ _ El) as (_ & H1 & _); [left; rewrite Epg; auto|]. rewrite Epg in H1. lia.
  - rewrite (r_wipefork _ _ _ _ HR) by auto. rewrite Hcow. replace (base r - 2 * psz <? base r - psz) with true by lia. reflexivity.
Qed.

Definition in_header (l : list range) (q : Z) : bool := existsb (fun r => in_pages e (header r) (2 * psz) q) l.

Lemma child_ranges : forall P an l v1, (forall a, an_munmap an a = true) ->
  (forall r, In r l -> exists r', destroy_alloc_bitmap e r = Ok r' /\ header r' = header r) ->
  exists v', destroy_ranges e P an false l v1 = Ok (None, v') /\
    (forall q, mapped v' q = negb (in_header l q) && mapped v1 q) /\
    (forall a, in_header l (page a) = false -> view e v' a = view e v1 a).
Proof.
  intros P an l. induction l as [|r l IH]; intros v1 Han Hb.
  - exists v1. cbn. auto.
  - cbn [destroy_ranges]. unfold range_destroy. destruct (Hb r) as (r' & -> & Eh); [now left|]. cbn [bind].
    rewrite Han. cbn [bind]. rewrite Eh. change POOL_HEADER_NR_PAGES with 2.
    destruct (IH (munmap e v1 (header r) (2 * psz))) as (v' & -> & Hm & Hv); auto.
    { intros x Hx. apply Hb. now right. }
    exists v'. split; auto. split.
    + intros q. rewrite Hm. cbn [munmap mapped in_header existsb]. unfold in_header. 
      destruct (in_pages e (header r) (2 * psz) q), (existsb _ l); reflexivity.
    + intros a Ha. cbn [in_header existsb] in Ha. apply orb_false_elim in Ha. destruct Ha as [Ha1 Ha2].
      rewrite Hv by auto. unfold view. cbn [munmap link data]. now rewrite Ha1.
Qed.

Lemma p_child : forall id P an, lookup id (w_pools w) = Some P -> populate_policy (pattr P) = COW_INIT ->
  let child := {| w_vm := fork e v; w_pools := w_pools w |} in
  (* nothing but the headers is mapped in the child *)
  (forall r a, In r (range_list P) -> mmap_addr r <= a < mmap_addr r + mmap_len r ->
     mapped (fork e v) (page a) = (a <? base r)) /\
  run1 e (ODestroy id an) child <> Undef /\
  ((robust_set (pattr P) = false \/ forall a, ~ In (id, a) L) -> (forall a, an_munmap an a = true) ->
   exists w', run1 e (ODestroy id an) child = Ok (w', OutRet 0) /\
     lookup id (w_pools w') = None /\
     (forall a, (exists r, In r (range_list P) /\ mmap_addr r <= a < mmap_addr r + mmap_len r) ->
        mapped (w_vm w') (page a) = false) /\
     (forall a, ~ (exists r, In r (range_list P) /\ mmap_addr r <= a < mmap_addr r + mmap_len r) ->
        mapped (w_vm w') (page a) = mapped (fork e v) (page a) /\ view e (w_vm w') a = view e (fork e v) a)) /\
  (robust_set (pattr P) = true -> (exists a, In (id, a) L) -> (forall a, an_munmap an a = true) ->
   run1 e (ODestroy id an) child = Abort).
Proof.
  intros id P an Hl Hpol child. pose proof (lookup_in _ _ _ Hl) as Hin.
  pose proof (wi_pools _ _ _ _ _ _ HW _ _ Hin) as HI. pose proof (pi_geom _ _ _ _ _ HI) as HG.
  pose proof (pi_ranges _ _ _ _ _ HI) as HF. pose proof (g_psz _ _ HG) as Hp.
  assert (Hcow : cow_init P = true) by (unfold cow_init; rewrite Hpol; reflexivity).
  assert (HFr : forall r, In r (range_list P) -> rinv P v r) by (rewrite Forall_forall in HF; auto).
  assert (Hmap : forall r a, In r (range_list P) -> mmap_addr r <= a < mmap_addr r + mmap_len r ->
     mapped (fork e v) (page a) = (a <? base r)).
  { intros r a Hr Ha. cbn [fork mapped]. rewrite (r_dontfork _ _ _ _ (HFr _ Hr)) by exact Ha. rewrite Hcow.
    rewrite (r_map _ _ _ _ (HFr _ Hr)) by exact Ha. rewrite andb_true_r. cbn [andb]. destruct (base r <=? a) eqn:E1; cbn [negb]; lia. }
  split; auto.
  assert (Hacc : exists acc, pool_mappings_accessible e P (fork e v) = Ok acc /\ (acc = true -> range_list P = [])).
  { destruct (range_list P) as [|r l] eqn:E.
    - exists true. split; auto. unfold pool_mappings_accessible. rewrite E. now destruct (negb _).
    - exists false. split; [|discriminate]. eapply child_marks; eauto. now rewrite E. }
  destruct Hacc as (acc & Eacc & Hacc).
  assert (Erun : mempool_destroy e P an (fork e v) =
    do x <- destroy_ranges e P an acc (range_list P) (fork e v); let '(P', v1) := x in Ok (0, P', v1)).
  { unfold mempool_destroy. rewrite Eacc. cbn [bind]. destruct acc.
    - specialize (Hacc eq_refl). unfold check_free_list, check_pool_poison, total_item, total_never_allocated.
      pose proof (count_slots e P _ _ _ HI) as Hcs. rewrite Hacc in Hcs. cbn in Hcs.
      assert (Eh : free_list_head P = 0).
      { pose proof (pi_chain _ _ _ _ _ HI) as Hch. destruct (items id F); [exact Hch|]. cbn [length] in Hcs. lia. }
      rewrite Hacc, Eh. cbn [fold_right Z.sub Z.to_nat Z.add Z.opp walk_free_list Z.eqb bind check_ranges]. 
      destruct (robust_set (pattr P)); reflexivity.
    - unfold check_free_list, check_pool_poison. rewrite orb_true_r. cbn [bind]. reflexivity. }
  cbn [run1 child w_pools w_vm]. rewrite Hl. rewrite Erun. split; [|split].
  - pose proof (destroy_ranges_defined P an acc (range_list P) (fork e v)) as Hnu.
    destruct (destroy_ranges e P an acc (range_list P) (fork e v)) as [[Po v1]| |]; cbn [bind]; try discriminate. contradiction.
  - intros Hno Han.
    assert (Hbm : forall r, In r (range_list P) -> exists r', destroy_alloc_bitmap e r = Ok r' /\ header r' = header r).
    { intros r Hr. pose proof (r_bitmap _ _ _ _ (HFr _ Hr)) as Hb. destruct (robust_set (pattr P)) eqn:Hrob.
      - destruct Hno as [|Hno]; [discriminate|].
        destruct (destroy_bitmap_spec e P HG r Hb) as [[E _]|[_ (o & Ho & Hd & Hbt)]]; [eauto|].
        exfalso. apply (pi_bits _ _ _ _ _ HI Hrob) in Hbt; auto. apply in_items in Hbt. eapply Hno; eauto.
      - exists r. unfold destroy_alloc_bitmap. now rewrite Hb. }
    assert (Hhd : forall a, in_header (range_list P) (page a) = true <-> exists r, In r (range_list P) /\ header r <= a < base r).
    { intros a. unfold in_header. rewrite existsb_exists.
      assert (K : forall r, In r (range_list P) -> (in_pages e (header r) (2 * psz) (page a) = true <-> header r <= a < base r)).
      { intros r Hr. rewrite in_pages_iff; auto.
        - rewrite (r_hdr _ _ _ _ (HFr _ Hr)). lia.
        - rewrite (r_hdr _ _ _ _ (HFr _ Hr)). apply Z.divide_sub_r; [apply (base_div e P v r HG (HFr _ Hr))|apply Z.divide_factor_r].
        - apply Z.divide_factor_r. }
      split; intros (r & Hr & H); exists r; (split; [auto|]); now apply K. }
    assert (Hgo : exists v', destroy_ranges e P an acc (range_list P) (fork e v) = Ok (None, v') /\
      (forall q, mapped v' q = negb (in_header (range_list P) q) && mapped (fork e v) q) /\
      (forall a, in_header (range_list P) (page a) = false -> view e v' a = view e (fork e v) a)).
    { destruct acc; [|apply child_ranges; auto]. rewrite (Hacc eq_refl). exists (fork e v). cbn. auto. }
    destruct Hgo as (v' & -> & Hm & Hv). cbn [bind]. eexists. split; [reflexivity|]. cbn [w_pools w_vm]. split; [|split].
    + destruct (lookup id (del_pool id (w_pools w))) eqn:E; auto. apply lookup_in in E. unfold del_pool in E.
      apply filter_In in E. cbn in E. rewrite Z.eqb_refl in E. destruct E; discriminate.
    + intros a (r & Hr & Ha). rewrite Hm. rewrite (Hmap r a Hr Ha). destruct (a <? base r) eqn:E; [|apply andb_false_r].
      replace (in_header (range_list P) (page a)) with true; [reflexivity|]. symmetry. apply Hhd. exists r. split; auto.
      rewrite (r_hdr _ _ _ _ (HFr _ Hr)). rewrite (r_addr _ _ _ _ (HFr _ Hr)) in Ha. lia.
    + intros a Hna.
      assert (Hn : in_header (range_list P) (page a) = false).
      { destruct (in_header (range_list P) (page a)) eqn:E; auto. apply Hhd in E. destruct E as (r & Hr & Ha). exfalso. apply Hna.
        exists r. split; auto. rewrite (r_addr _ _ _ _ (HFr _ Hr)), (r_len _ _ _ _ (HFr _ Hr)).
        rewrite (r_hdr _ _ _ _ (HFr _ Hr)) in Ha. pose proof (strd_pos _ _ HG).
        pose proof (na_bounds P). pose proof (nd_bounds P). pose proof (g_cpus _ _ HG). nia. }
      rewrite Hm, Hn. split; auto.
  - intros Hrob (a & Ha) Han. apply in_items in Ha.
    assert (Hsl : slot P a) by (apply (pi_slots _ _ _ _ _ HI), in_or_app; auto).
    destruct (slot_item e P v a HG HF Hsl) as (r & Hr & HR & H1 & H2 & H3). pose proof (item_pos _ _ HG).
    rewrite (destroy_ranges_leak P an acc _ _ r (a - base r) HG Han Hr); [reflexivity| |].
    + intros x Hx. pose proof (r_bitmap _ _ _ _ (HFr _ Hx)) as Hb. now rewrite Hrob in Hb.
    + apply (pi_bits _ _ _ _ _ HI Hrob); auto; [lia|]. now replace (base r + (a - base r)) with a by ring.
Qed.
(** ... and in any memory where the headers are left, with the marks wiped. *)
Lemma p_orphan : forall id P an v1 ps, lookup id (w_pools w) = Some P -> populate_policy (pattr P) = COW_INIT ->
  (forall r a, In r (range_list P) -> header r <= a < base r -> mapped v1 (page a) = true) ->
  (forall r, In r (range_list P) -> byte (view e v1) (header r) = 0) ->
  lookup id ps = Some P ->
  let here := {| w_vm := v1; w_pools := ps |} in
  run1 e (ODestroy id an) here <> Undef /\
  ((robust_set (pattr P) = false \/ forall a, ~ In (id, a) L) -> (forall a, an_munmap an a = true) ->
   exists w', run1 e (ODestroy id an) here = Ok (w', OutRet 0) /\ w_pools w' = del_pool id ps /\
     (forall a, (exists r, In r (range_list P) /\ header r <= a < base r) -> mapped (w_vm w') (page a) = false) /\
     (forall a, ~ (exists r, In r (range_list P) /\ header r <= a < base r) ->
        mapped (w_vm w') (page a) = mapped v1 (page a) /\ view e (w_vm w') a = view e v1 a)).
Proof.
  intros id P an v1 ps Hl Hpol Hmp Hz Hlp here. pose proof (lookup_in _ _ _ Hl) as Hin.
  pose proof (wi_pools _ _ _ _ _ _ HW _ _ Hin) as HI. pose proof (pi_geom _ _ _ _ _ HI) as HG.
  pose proof (pi_ranges _ _ _ _ _ HI) as HF. pose proof (g_psz _ _ HG) as Hp.
  assert (Hcow : cow_init P = true) by (unfold cow_init; rewrite Hpol; reflexivity).
  assert (HFr : forall r, In r (range_list P) -> rinv P v r) by (rewrite Forall_forall in HF; auto).
  assert (Hacc : exists acc, pool_mappings_accessible e P v1 = Ok acc /\ (acc = true -> range_list P = [])).
  { destruct (range_list P) as [|r l] eqn:E.
    - exists true. split; auto. unfold pool_mappings_accessible. rewrite E. now destruct (negb _).
    - exists false. split; [|discriminate]. assert (Hr : In r (range_list P)) by (rewrite E; left; reflexivity).
      pose proof (HFr r ltac:(left; reflexivity)) as HR. pose proof (r_hdr _ _ _ _ HR) as Ehd.
      unfold pool_mappings_accessible. rewrite Hpol, E. cbn [Z.eqb COW_INIT negb].
      replace (accessible e v1 (base r - 2 * psz) 1) with true.
      2:{ symmetry. apply accessible_true; auto. intros x Hx. apply (Hmp r); [left; reflexivity|lia]. }
      cbn [negb]. rewrite <- Ehd. rewrite (Hz r) by (left; reflexivity). reflexivity. }
  destruct Hacc as (acc & Eacc & Hacc).
  assert (Erun : mempool_destroy e P an v1 =
    do x <- destroy_ranges e P an acc (range_list P) v1; let '(P', v1) := x in Ok (0, P', v1)).
  { unfold mempool_destroy. rewrite Eacc. cbn [bind]. destruct acc.
    - specialize (Hacc eq_refl). unfold check_free_list, check_pool_poison, total_item, total_never_allocated.
      pose proof (count_slots e P _ _ _ HI) as Hcs. rewrite Hacc in Hcs. cbn in Hcs.
      assert (Eh : free_list_head P = 0).
      { pose proof (pi_chain _ _ _ _ _ HI) as Hch. destruct (items id F); [exact Hch|]. cbn [length] in Hcs. lia. }
      rewrite Hacc, Eh. cbn [fold_right Z.sub Z.to_nat Z.add Z.opp walk_free_list Z.eqb bind check_ranges]. 
      destruct (robust_set (pattr P)); reflexivity.
    - unfold check_free_list, check_pool_poison. rewrite orb_true_r. cbn [bind]. reflexivity. }
  cbn [run1 here w_pools w_vm]. rewrite Hlp. rewrite Erun. split.
  - pose proof (destroy_ranges_defined P an acc (range_list P) v1) as Hnu.
    destruct (destroy_ranges e P an acc (range_list P) v1) as [[Po v2]| |]; cbn [bind]; try discriminate. contradiction.
  - intros Hno Han.
    assert (Hbm : forall r, In r (range_list P) -> exists r', destroy_alloc_bitmap e r = Ok r' /\ header r' = header r).
    { intros r Hr. pose proof (r_bitmap _ _ _ _ (HFr _ Hr)) as Hb. destruct (robust_set (pattr P)) eqn:Hrob.
      - destruct Hno as [|Hno]; [discriminate|].
        destruct (destroy_bitmap_spec e P HG r Hb) as [[E _]|[_ (o & Ho & Hd & Hbt)]]; [eauto|].
        exfalso. apply (pi_bits _ _ _ _ _ HI Hrob) in Hbt; auto. apply in_items in Hbt. eapply Hno; eauto.
      - exists r. unfold destroy_alloc_bitmap. now rewrite Hb. }
    assert (Hhd : forall a, in_header (range_list P) (page a) = true <-> exists r, In r (range_list P) /\ header r <= a < base r).
    { intros a. unfold in_header. rewrite existsb_exists.
      assert (K : forall r, In r (range_list P) -> (in_pages e (header r) (2 * psz) (page a) = true <-> header r <= a < base r)).
      { intros r Hr. rewrite in_pages_iff; auto.
        - rewrite (r_hdr _ _ _ _ (HFr _ Hr)). lia.
        - rewrite (r_hdr _ _ _ _ (HFr _ Hr)). apply Z.divide_sub_r; [apply (base_div e P v r HG (HFr _ Hr))|apply Z.divide_factor_r].
        - apply Z.divide_factor_r. }
      split; intros (r & Hr & H); exists r; (split; [auto|]); now apply K. }
    assert (Hgo : exists v', destroy_ranges e P an acc (range_list P) v1 = Ok (None, v') /\
      (forall q, mapped v' q = negb (in_header (range_list P) q) && mapped v1 q) /\
      (forall a, in_header (range_list P) (page a) = false -> view e v' a = view e v1 a)).
    { destruct acc; [|apply child_ranges; auto]. rewrite (Hacc eq_refl). exists v1. cbn. auto. }
    destruct Hgo as (v' & -> & Hm & Hv). cbn [bind]. eexists. split; [reflexivity|]. cbn [w_pools w_vm]. split; [reflexivity|split].
    + intros a Ha. rewrite Hm. apply Hhd in Ha. rewrite Ha. reflexivity.
    + intros a Hna.
      assert (Hn : in_header (range_list P) (page a) = false).
      { destruct (in_header (range_list P) (page a)) eqn:E; auto. apply Hhd in E. exfalso. exact (Hna E). }
      rewrite Hm, Hn. split; auto.
Qed.
End One.
End Props.
