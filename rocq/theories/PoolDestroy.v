(** Destruction of a pool, and the checks it makes. *)
From Coq Require Import ZArith Bool List Lia Znumtheory Permutation.
From Verif Require Import UtilsModel UtilsLemmas RseqIR MemLemmas PoolVM PoolVMLemmas PoolModel PoolInv PoolItem PoolMap PoolRange PoolBitmap PoolOps PoolMalloc PoolFree PoolWorld.
Import ListNotations.
Local Open Scope Z_scope.

Section Destroy.
Variable e : env.
Notation psz := (e_page e).
Notation page := (PoolVM.page e).
Notation geom := (geom e).
Notation rinv := (rinv e).
Notation pinv := (pinv e).
Notation poisoned := (poisoned e).

(** ** Counting items *)
Definition range_slots (P : pool) (r : range) : list Z :=
  map (fun k => base r + item_len P * k) (zseq 0 (next_unused r / item_len P)).
Definition handed (P : pool) (l : list range) : Z := fold_right (fun r a => next_unused r / item_len P + a) 0 l.

Lemma zseq_length : forall a n, length (zseq a n) = Z.to_nat n.
Proof. intros. unfold zseq. rewrite map_length, seq_length. reflexivity. Qed.

Lemma in_range_slots : forall P r a, 4 <= item_len P -> (item_len P | next_unused r) ->
  In a (range_slots P r) <-> 0 <= a - base r < next_unused r /\ (item_len P | a - base r).
Proof.
  intros P r a Hip [m Hm]. unfold range_slots. rewrite in_map_iff. rewrite Hm, Z.div_mul by lia. split.
  - intros (k & <- & Hk). apply in_zseq in Hk. replace (base r + item_len P * k - base r) with (k * item_len P) by ring.
    split; [nia|]. apply Z.divide_factor_r.
  - intros [H1 [k Hk]]. exists k. split; [lia|]. apply in_zseq. nia.
Qed.

Lemma NoDup_range_slots : forall P r, 4 <= item_len P -> NoDup (range_slots P r).
Proof.
  intros P r Hip. unfold range_slots. apply FinFun.Injective_map_NoDup; [|apply NoDup_zseq].
  intros x y H. nia.
Qed.

Lemma slots_list : forall P v l, geom P -> Forall (rinv P v) l -> ForallOrdPairs apart l ->
  NoDup (flat_map (range_slots P) l) /\
  (forall a, In a (flat_map (range_slots P) l) <-> exists r, In r l /\ 0 <= a - base r < next_unused r /\ (item_len P | a - base r)) /\
  Z.of_nat (length (flat_map (range_slots P) l)) = handed P l.
Proof.
  intros P v l HG HF HA. pose proof (item_pos _ _ HG) as [Hip Hipw]. induction l as [|r l IH].
  - cbn. split; [constructor|]. split; [|reflexivity]. intros a. split; [intros []|]. intros (r & [] & _).
  - inversion HF as [|? ? HR HF']; subst. inversion HA as [|? ? Hap HA']; subst.
    destruct (IH HF' HA') as (Hnd & Hin & Hlen). cbn [flat_map handed fold_right].
    pose proof (r_div _ _ _ _ HR) as Hdv. pose proof (r_unused _ _ _ _ HR) as Hun.
    split; [|split].
    + assert (Hdis : forall a, In a (range_slots P r) -> ~ In a (flat_map (range_slots P) l)).
      { intros a Ha Hb. apply in_range_slots in Ha; auto. apply Hin in Hb. destruct Hb as (r2 & Hr2 & Hb).
        rewrite Forall_forall in Hap, HF'. pose proof (HF' _ Hr2) as HR2. pose proof (r_unused _ _ _ _ HR2).
        apply (apart_regions r r2 a); auto; unfold region.
        - rewrite (r_addr _ _ _ _ HR), (r_len _ _ _ _ HR). pose proof (g_psz _ _ HG).
          pose proof (strd_pos _ _ HG). pose proof (na_bounds P). pose proof (nd_bounds P). pose proof (g_cpus _ _ HG). nia.
        - rewrite (r_addr _ _ _ _ HR2), (r_len _ _ _ _ HR2). pose proof (g_psz _ _ HG).
          pose proof (strd_pos _ _ HG). pose proof (na_bounds P). pose proof (nd_bounds P). pose proof (g_cpus _ _ HG). nia. }
      pose proof (NoDup_range_slots P r Hip) as Hnr. revert Hdis Hnr. generalize (range_slots P r). clear -Hnd.
      intros l0. induction l0 as [|x l0 IH]; intros Hd Hn; cbn; auto. inversion Hn; subst. constructor.
      * rewrite in_app_iff. intros [H|H]; [contradiction|]. apply (Hd x); [now left|auto].
      * apply IH; auto. intros a Ha. apply Hd. now right.
    + intros a. rewrite in_app_iff, Hin, in_range_slots by auto. split.
      * intros [H|(r2 & H2 & H)]; [exists r; split; [now left|auto]|exists r2; split; [now right|auto]].
      * intros (r2 & [<-|H2] & H); [auto|]. right. eauto.
    + rewrite app_length, Nat2Z.inj_add, Hlen. unfold range_slots. rewrite map_length, zseq_length.
      rewrite Z2Nat.id; [reflexivity|]. apply Z.div_pos; lia.
Qed.

Lemma count_slots : forall P free live v, pinv P free live v ->
  Z.of_nat (length free) + Z.of_nat (length live) = handed P (range_list P).
Proof.
  intros P free live v HI. destruct (slots_list P v (range_list P)) as (Hnd & Hin & Hlen); try apply HI.
  rewrite <- Hlen, <- Nat2Z.inj_add, <- app_length. f_equal. apply Permutation_length, NoDup_Permutation; auto.
  - apply HI.
  - intros a. rewrite Hin. apply (pi_slots _ _ _ _ _ HI).
Qed.

Lemma totals : forall P v l, geom P -> Forall (rinv P v) l ->
  fold_right (fun r a => Z.shiftr (strd P) (item_order P) + a) 0 l -
  fold_right (fun r a => Z.shiftr (strd P - next_unused r) (item_order P) + a) 0 l = handed P l.
Proof.
  intros P v l HG HF. pose proof (item_pos _ _ HG) as [Hip Hipw]. induction l as [|r l IH]; [reflexivity|].
  inversion HF as [|? ? HR HF']; subst. specialize (IH HF'). cbn [fold_right handed].
  pose proof (r_div _ _ _ _ HR) as [k Hk]. pose proof (r_unused _ _ _ _ HR) as Hun.
  destruct (item_strd _ _ HG) as [m Hm]. pose proof (strd_pos _ _ HG).
  assert (L : Z.shiftr (strd P) (item_order P) - Z.shiftr (strd P - next_unused r) (item_order P) = next_unused r / item_len P).
  { rewrite !(index_div e P HG) by lia. rewrite Hk, Hm.
    replace (m * item_len P - k * item_len P) with ((m - k) * item_len P) by ring. rewrite !Z.div_mul by lia. lia. }
  unfold handed in IH. lia.
Qed.

(** ** The free-list check, for any memory *)
Notation follows := (PoolWorld.follows e).

Lemma walk_sound : forall P v n h k, walk_free_list e P v n h = Ok k ->
  exists l, follows v h l /\ Forall (node_in_pool e P) l /\ k = Z.of_nat (length l) /\ (length l <= n)%nat.
Proof.
  intros P v n. induction n as [|n IH]; intros h k H; cbn [walk_free_list] in H.
  - destruct (h =? 0) eqn:E; [|discriminate]. inversion H; subst. apply Z.eqb_eq in E. exists []. cbn. auto.
  - destruct (h =? 0) eqn:E.
    + inversion H; subst. apply Z.eqb_eq in E. exists []. cbn. repeat split; auto. lia.
    + destruct (percpu_addr_in_pool P (free_list_to_percpu_ptr e P h)) eqn:Ep; [|discriminate]. cbn [negb] in H.
      destruct (accessible e v h (wsz e)); [|discriminate]. cbn [negb] in H.
      destruct (walk_free_list e P v n (load_word e v h)) as [k'| |] eqn:Ew; cbn [bind] in H; try discriminate.
      inversion H; subst. destruct (IH _ _ Ew) as (l & Hf & Hp & -> & Hl).
      exists (h :: l). cbn [follows length]. apply Z.eqb_neq in E. repeat split; auto; try lia. 
Qed.

Lemma walk_complete : forall P v l n h, follows v h l -> Forall (node_in_pool e P) l ->
  (forall x, In x l -> accessible e v x (wsz e) = true) -> (length l <= n)%nat ->
  walk_free_list e P v n h = Ok (Z.of_nat (length l)).
Proof.
  intros P v l. induction l as [|x l IH]; intros n h Hf Hp Ha Hl.
  - cbn in Hf. subst h. destruct n; reflexivity.
  - destruct Hf as (-> & Hx & Hf). inversion Hp; subst. destruct n as [|n]; [cbn in Hl; lia|].
    cbn [walk_free_list]. replace (x =? 0) with false by lia. unfold node_in_pool in H1. rewrite H1. cbn [negb].
    rewrite (Ha x) by now left. cbn [negb]. rewrite (IH n) ; auto.
    + cbn [bind length]. f_equal. lia.
    + intros y Hy. apply Ha. now right.
    + cbn in Hl. lia.
Qed.

(** Too long or leaving the pool: abort. *)
Lemma walk_total : forall P v n h, (exists k, walk_free_list e P v n h = Ok k) \/
  walk_free_list e P v n h = Abort \/
  (walk_free_list e P v n h = Undef /\
   exists x, x <> 0 /\ node_in_pool e P x /\ accessible e v x (wsz e) = false).
Proof.
  intros P v n. induction n as [|n IH]; intros h; cbn [walk_free_list]; destruct (h =? 0) eqn:E; eauto.
  destruct (percpu_addr_in_pool P (free_list_to_percpu_ptr e P h)) eqn:Ep; cbn [negb]; auto.
  destruct (accessible e v h (wsz e)) eqn:Ea; cbn [negb].
  - destruct (IH (load_word e v h)) as [(k & ->)|[->|[-> H]]]; cbn [bind]; eauto.
  - right. right. split; auto. exists h. apply Z.eqb_neq in E. auto.
Qed.

Lemma chain_follows : forall P v, geom P -> Forall (rinv P v) (range_list P) -> forall l h,
  (forall a, In a l -> slot P a) -> chain e P v h l ->
  follows v h (map (node P) l) /\ Forall (node_in_pool e P) (map (node P) l) /\
  (forall x, In x (map (node P) l) -> accessible e v x (wsz e) = true).
Proof.
  intros P v HG HF l. pose proof (item_pos _ _ HG) as [Hip Hipw]. induction l as [|a l IH]; intros h Hs Hc.
  - cbn in *. split; [auto|]. split; [constructor|intros x []].
  - destruct Hc as [-> Hc]. destruct (IH _ (fun a H => Hs a (or_intror H)) Hc) as (H1 & H2 & H3).
    pose proof (Hs a (or_introl eq_refl)) as Hsl. destruct Hsl as (r & Hr & Ho & Hd).
    assert (HR : rinv P v r) by (rewrite Forall_forall in HF; auto). pose proof (r_unused _ _ _ _ HR) as Hun.
    pose proof (r_div _ _ _ _ HR) as Hdv. pose proof (slot_room _ _ HG _ _ Hun Hdv Ho Hd) as Hrm.
    assert (Ea : a = base r + (a - base r)) by ring.
    assert (Hoff : 0 <= a - base r < strd P) by lia.
    pose proof (node_bounds e P v r HG HR _ Hoff) as (Hn1 & Hn2 & Hn3). rewrite <- Ea in *.
    cbn [map follows]. split; [|split].
    + split; auto. split; [lia|auto].
    + constructor; auto. unfold node_in_pool. rewrite Ea at 1.
      rewrite (from_node e P v r HG HR _ Hoff). rewrite <- Ea. unfold percpu_addr_in_pool.
      apply existsb_exists. exists r. split; auto. lia.
    + intros x [<-|Hx]; auto. rewrite Ea. eapply node_accessible; eauto; lia.
Qed.

Lemma check_free_list_spec : forall P free live v, pinv P free live v -> robust_set (pattr P) = true ->
  check_free_list e P v true = if Nat.eqb (length live) 0 then Ok tt else Abort.
Proof.
  intros P free live v HI Hrob. pose proof (pi_geom _ _ _ _ _ HI) as HG. pose proof (pi_ranges _ _ _ _ _ HI) as HF.
  unfold check_free_list. rewrite Hrob. cbn [negb orb].
  pose proof (count_slots _ _ _ _ HI) as Hc. pose proof (totals P v _ HG HF) as Ht.
  fold (total_item P) in Ht. fold (total_never_allocated P) in Ht.
  destruct (chain_follows P v HG HF free (free_list_head P)) as (H1 & H2 & H3).
  { intros a Ha. apply (pi_slots _ _ _ _ _ HI), in_or_app. auto. }
  { apply (pi_chain _ _ _ _ _ HI). }
  rewrite (walk_complete P v (map (node P) free)); auto.
  - cbn [bind]. rewrite map_length. destruct (Nat.eqb (length live) 0) eqn:E.
    + apply Nat.eqb_eq in E. rewrite E in Hc. replace (_ =? _) with true; auto. symmetry. apply Z.eqb_eq. lia.
    + apply Nat.eqb_neq in E. replace (_ =? _) with false; auto. symmetry. apply Z.eqb_neq. lia.
  - rewrite map_length. lia.
Qed.

(** ** The poison check *)
Lemma check_items_spec : forall P v r l, geom P -> rinv P v r -> robust_set (pattr P) = true ->
  (forall o, In o l -> 0 <= o /\ o + item_len P <= strd P) ->
  (check_items e P r v l = Ok tt /\ forall o, In o l -> poisoned P v (base r + o)) \/
  (check_items e P r v l = Abort /\ exists o, In o l /\ ~ poisoned P v (base r + o)).
Proof.
  intros P v r l HG HR Hrob. induction l as [|o l IH]; intros Hl.
  - left. split; [reflexivity|]. intros o [].
  - cbn [check_items]. destruct (Hl o (or_introl eq_refl)) as [Ho Hol].
    destruct (check_poison_item_spec e P v r o HG HR Ho Hol Hrob) as [[-> Hp]|[-> Hp]]; cbn [bind].
    + destruct IH as [[-> H]|[-> (o' & Hin & H)]].
      * intros o' H'. apply Hl. now right.
      * left. split; auto. intros o' [<-|H']; auto.
      * right. split; auto. exists o'. split; [now right|auto].
    + right. split; auto. exists o. split; [now left|auto].
Qed.

Lemma in_item_offsets : forall P r o, 4 <= item_len P -> (item_len P | next_unused r) -> 0 <= next_unused r ->
  In o (item_offsets P r) <-> 0 <= o < next_unused r /\ (item_len P | o).
Proof.
  intros P r o Hip [m Hm] Hn. unfold item_offsets. rewrite in_map_iff.
  assert (E : (next_unused r + item_len P - 1) / item_len P = m).
  { rewrite Hm. replace (m * item_len P + item_len P - 1) with (m * item_len P + (item_len P - 1)) by ring.
    rewrite Z.div_add_l by lia. rewrite Z.div_small by lia. lia. }
  rewrite E, Hm. split.
  - intros (k & <- & Hk). apply in_zseq in Hk. split; [nia|]. apply Z.divide_factor_l.
  - intros [H1 [k ->]]. exists k. split; [lia|]. apply in_zseq. nia.
Qed.

Lemma check_ranges_spec : forall P v l, geom P -> Forall (rinv P v) l -> robust_set (pattr P) = true ->
  (check_ranges e P v l = Ok tt /\
     forall r o, In r l -> 0 <= o < next_unused r -> (item_len P | o) -> poisoned P v (base r + o)) \/
  (check_ranges e P v l = Abort /\
     exists r o, In r l /\ 0 <= o < next_unused r /\ (item_len P | o) /\ ~ poisoned P v (base r + o)).
Proof.
  intros P v l HG HF Hrob. pose proof (item_pos _ _ HG) as [Hip Hipw]. induction l as [|r l IH].
  - left. split; [reflexivity|]. intros r o [].
  - inversion HF as [|? ? HR HF']; subst. specialize (IH HF'). cbn [check_ranges].
    pose proof (r_unused _ _ _ _ HR) as Hun. pose proof (r_div _ _ _ _ HR) as Hdv.
    destruct (check_items_spec P v r (item_offsets P r) HG HR Hrob) as [[-> Hp]|[-> (o & Hin & Hp)]]; cbn [bind].
    + intros o Ho. apply in_item_offsets in Ho; auto; [|lia]. destruct Ho as [Ho Hd].
      pose proof (slot_room _ _ HG _ _ Hun Hdv Ho Hd). lia.
    + destruct IH as [[-> H]|[-> (r' & o & Hin & H)]].
      * left. split; auto. intros r' o [<-|Hr'] Ho Hd; auto. apply Hp. apply in_item_offsets; auto. lia.
      * right. split; auto. exists r', o. split; [now right|auto].
    + right. split; auto. apply in_item_offsets in Hin; auto; [|lia]. destruct Hin as [Ho Hd].
      exists r, o. split; [now left|auto].
Qed.

Lemma check_pool_poison_spec : forall P free live v, pinv P free live v -> robust_set (pattr P) = true ->
  (check_pool_poison e P v true = Ok tt /\ forall a, In a (free ++ live) -> poisoned P v a) \/
  (check_pool_poison e P v true = Abort /\ exists a, In a (free ++ live) /\ ~ poisoned P v a).
Proof.
  intros P free live v HI Hrob. unfold check_pool_poison. rewrite Hrob. cbn [negb orb].
  destruct (check_ranges_spec P v (range_list P)) as [[-> H]|[-> (r & o & Hr & Ho & Hd & H)]]; auto; try apply HI.
  - left. split; auto. intros a Ha. apply (pi_slots _ _ _ _ _ HI) in Ha. destruct Ha as (r & Hr & Ho & Hd).
    replace a with (base r + (a - base r)) by ring. eauto.
  - right. split; auto. exists (base r + o). split; auto. apply (pi_slots _ _ _ _ _ HI).
    exists r. replace (base r + o - base r) with o by ring. auto.
Qed.

(** ** Unmapping *)
Lemma munmap_range : forall P v r, geom P -> vmwf e v -> rinv P v r ->
  let v' := munmap e v (mmap_addr r) (mmap_len r) in
  vmwf e v' /\ vframe e (fun x => ~ region r x) v v' /\ (forall x, region r x -> mapped v' (page x) = false) /\
  (forall q, mapped v' q = true -> mapped v q = true).
Proof.
  intros P v r HG Hwf HR. cbn zeta. pose proof (g_psz _ _ HG) as Hp. pose proof (base_div e P v r HG HR) as Hb.
  assert (Ha : (psz | mmap_addr r)).
  { rewrite (r_addr _ _ _ _ HR). apply Z.divide_sub_r; auto. apply Z.divide_factor_r. }
  assert (Hl : (psz | mmap_len r)).
  { rewrite (r_len _ _ _ _ HR). apply Z.divide_add_r; [apply Z.divide_factor_r|].
    apply Z.divide_mul_l. apply (psz_strd _ _ HG). }
  destruct (munmap_frame e (g_env _ _ HG) v (mmap_addr r) (mmap_len r) Ha Hl Hwf) as [Hwf' Hfr].
  { intros p q Hlk. apply eq_true_iff_eq. rewrite !in_pages_page by auto.
    change (mmap_addr r <= p * psz < mmap_addr r + mmap_len r) with (region r (p * psz)).
    change (mmap_addr r <= q * psz < mmap_addr r + mmap_len r) with (region r (q * psz)).
    assert (Hboth : region r (p * psz) \/ region r (q * psz) -> region r (p * psz) /\ region r (q * psz)).
    { intros H. destruct (r_link _ _ _ _ HR _ _ Hlk H) as (_ & H1 & H2 & _). unfold region.
      rewrite (r_addr _ _ _ _ HR), (r_len _ _ _ _ HR). pose proof (strd_pos _ _ HG).
      pose proof (na_bounds P). pose proof (nd_bounds P). pose proof (g_cpus _ _ HG). nia. }
    tauto. }
  split; auto. split; [exact Hfr|]. split.
  - intros x Hx. cbn. replace (in_pages e (mmap_addr r) (mmap_len r) (page x)) with true; [reflexivity|].
    symmetry. apply in_pages_iff; auto.
  - intros q. cbn. intros H. apply andb_prop in H. tauto.
Qed.

Lemma destroy_ranges_spec : forall P an l v, geom P -> vmwf e v -> Forall (rinv P v) l -> ForallOrdPairs apart l ->
  (robust_set (pattr P) = true -> forall r o, In r l -> 0 <= o < strd P -> (item_len P | o) -> slot_bit e P r o = false) ->
  exists Po v', destroy_ranges e P an true l v = Ok (Po, v') /\ vmwf e v' /\
    vframe e (fun a => forall r, In r l -> ~ region r a) v v' /\
    (forall q, mapped v' q = true -> mapped v q = true) /\
    (Po = None -> forall r a, In r l -> region r a -> mapped v' (page a) = false) /\
    ((forall r, In r l -> an_munmap an (mmap_addr r) = true) -> Po = None) /\
    (forall r, In r l -> an_munmap an (mmap_addr r) = false -> Po <> None).
Proof.
  intros P an l. induction l as [|r l IH]; intros v HG Hwf HF HA Hbits.
  - exists None, v. cbn. split; auto. split; auto. split; [apply vframe_refl|]. split; auto. split; [intros _ r a []|].
    split; auto.
  - inversion HF as [|? ? HR HF']; subst. inversion HA as [|? ? Hap HA']; subst.
    cbn [destroy_ranges]. unfold range_destroy at 1.
    assert (exists r', destroy_alloc_bitmap e r = Ok r' /\ mmap_addr r' = mmap_addr r /\ mmap_len r' = mmap_len r) as (r' & Er & Ea & El).
    { pose proof (r_bitmap _ _ _ _ HR) as Hbm. destruct (robust_set (pattr P)) eqn:Hrob.
      - destruct (destroy_bitmap_spec e P HG r Hbm) as [[E _]|[_ (o & Ho & Hd & Hb)]].
        + exists (set_bitmap r None). auto.
        + exfalso. rewrite Hbits in Hb; auto; [discriminate|now left].
      - exists r. unfold destroy_alloc_bitmap. rewrite Hbm. auto. }
    rewrite Er. cbn [bind]. rewrite Ea, El.
    destruct (an_munmap an (mmap_addr r)) eqn:Eu; cbn [bind].
    + destruct (munmap_range P v r HG Hwf HR) as (Hwf1 & Hfr1 & Hum & Hmono). cbn zeta in *.
      set (v1 := munmap e v (mmap_addr r) (mmap_len r)) in *.
      destruct (IH v1) as (Po & v' & E & Hwf' & Hfr & Hmo & Hnone & Hall & Hfail); auto.
      { rewrite Forall_forall in HF', Hap |- *. intros x Hx. eapply rinv_frame; eauto.
        eapply vframe_sub; [exact Hfr1|]. intros a Ha Hra. eapply (apart_regions r x); eauto. }
      { intros Hrob x o Hx. apply Hbits; auto. now right. }
      exists Po, v'. split; auto. split; auto. split.
      { eapply vframe_trans; [eapply vframe_sub; [exact Hfr1|]|eapply vframe_sub; [exact Hfr|]].
        - intros a Ha. apply Ha. now left.
        - intros a Ha x Hx. apply Ha. now right. }
      split; [auto|]. split; [|split].
      * intros HPo x a [<-|Hx] Hxa; [|apply (Hnone HPo x a); auto].
        destruct (mapped v' (page a)) eqn:Em; auto. apply Hmo in Em. rewrite Hum in Em by auto. discriminate.
      * intros H. apply Hall. intros x Hx. apply H. now right.
      * intros x [<-|Hx] Hf; [congruence|]. eapply Hfail; eauto.
    + exists (Some (set_ranges P (r' :: l))), v. split; auto. split; auto. split; [apply vframe_refl|].
      split; auto. split; [discriminate|]. split; [|discriminate].
      intros H. rewrite (H r) in Eu by now left. discriminate.
Qed.

(** A pool's own process sees its mappings. *)
Lemma accessible_true_ranges : forall P v, geom P -> Forall (rinv P v) (range_list P) -> pool_mappings_accessible e P v = Ok true.
Proof.
  intros P v HG HF.
  unfold pool_mappings_accessible. change (populate_policy (pattr P) =? COW_INIT) with (cow_init P).
  destruct (cow_init P) eqn:Ec; [|reflexivity]. cbn [negb].
  destruct (range_list P) as [|r l]; [reflexivity|]. inversion HF as [|? ? HR _]; subst.
  pose proof (g_psz _ _ HG) as Hp.
  replace (accessible e v (base r - 2 * psz) 1) with true.
  - cbn [negb]. rewrite <- (r_hdr _ _ _ _ HR). rewrite (r_mark _ _ _ _ HR Ec). reflexivity.
  - symmetry. apply accessible_true; auto. intros x Hx. apply (r_map _ _ _ _ HR). unfold region.
    rewrite (r_addr _ _ _ _ HR), (r_len _ _ _ _ HR). pose proof (strd_pos _ _ HG).
    pose proof (na_bounds P). pose proof (nd_bounds P). pose proof (g_cpus _ _ HG). nia.
Qed.
Lemma accessible_true_pool : forall P free live v, pinv P free live v -> pool_mappings_accessible e P v = Ok true.
Proof. intros P free live v HI. apply accessible_true_ranges; apply HI. Qed.

Inductive destroy_post (P : pool) (free live : list Z) (an : answers) (v : vm)
  : res (Z * option pool * vm) -> Prop :=
| dp_leak : robust_set (pattr P) = true -> live <> [] -> destroy_post P free live an v Abort
| dp_corrupt a : robust_set (pattr P) = true -> live = [] -> In a free -> ~ poisoned P v a ->
    destroy_post P free live an v Abort
| dp_done Po v' :
    (robust_set (pattr P) = true -> live = [] /\ forall a, In a free -> poisoned P v a) ->
    vmwf e v' -> vframe e (fun a => ~ pregion P a) v v' ->
    (forall q, mapped v' q = true -> mapped v q = true) ->
    (Po = None -> forall a, pregion P a -> mapped v' (page a) = false) ->
    ((forall r, In r (range_list P) -> an_munmap an (mmap_addr r) = true) -> Po = None) ->
    (forall r, In r (range_list P) -> an_munmap an (mmap_addr r) = false -> Po <> None) ->
    destroy_post P free live an v (Ok (0, Po, v')).

Lemma mempool_destroy_spec : forall P free live an v, pinv P free live v -> vmwf e v ->
  destroy_post P free live an v (mempool_destroy e P an v).
Proof.
  intros P free live an v HI Hwf. pose proof (pi_geom _ _ _ _ _ HI) as HG.
  unfold mempool_destroy. rewrite (accessible_true_pool _ _ _ _ HI). cbn [bind].
  assert (Hend : (robust_set (pattr P) = true -> live = [] /\ forall a, In a free -> poisoned P v a) ->
    destroy_post P free live an v
      (do x <- destroy_ranges e P an true (range_list P) v; let '(P', v0) := x in Ok (0, P', v0))).
  { intros Hok. destruct (destroy_ranges_spec P an (range_list P) v) as (Po & v' & E & H1 & H2 & H3 & H4 & H5 & H6);
      auto; try apply HI.
    - intros Hrob r o Hr Ho Hd. destruct (Hok Hrob) as [Hl _].
      destruct (slot_bit e P r o) eqn:Eb; auto. apply (pi_bits _ _ _ _ _ HI) in Eb; auto. rewrite Hl in Eb. destruct Eb.
    - rewrite E. cbn [bind]. eapply dp_done; eauto.
      + eapply vframe_sub; [exact H2|]. intros a Ha r Hr Hra. apply Ha. exists r. auto.
      + intros HPo a (r & Hr & Ha). eauto. }
  destruct (robust_set (pattr P)) eqn:Hrob.
  - rewrite (check_free_list_spec _ _ _ _ HI Hrob).
    destruct live as [|b live]; cbn [length Nat.eqb bind].
    + destruct (check_pool_poison_spec _ _ _ _ HI Hrob) as [[-> H]|[-> (a & Ha & H)]]; cbn [bind].
      * apply Hend. intros _. split; auto. intros a Ha. apply H, in_or_app. auto.
      * rewrite app_nil_r in Ha. eapply dp_corrupt; eauto.
    + apply dp_leak; auto. discriminate.
  - unfold check_free_list, check_pool_poison. rewrite Hrob. cbn [negb orb bind]. apply Hend. discriminate.
Qed.
End Destroy.
