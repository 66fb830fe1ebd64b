(** Properties of the items of reachable worlds. *)
From Coq Require Import ZArith Bool List Lia Znumtheory Permutation.
From Verif Require Import UtilsModel UtilsLemmas RseqIR MemLemmas PoolVM PoolVMLemmas PoolModel PoolInv PoolItem PoolMap PoolRange PoolBitmap PoolOps PoolMalloc PoolFree PoolWorld PoolDestroy PoolCreate PoolHist.
Import ListNotations.
Local Open Scope Z_scope.

Section Props.
Variable e : env.
Notation psz := (e_page e).
Notation page := (PoolVM.page e).
Notation geom := (geom e).
Notation rinv := (rinv e).
Notation pinv := (pinv e).
Notation poisoned := (poisoned e).
Notation vmwf := (vmwf e).
Notation history := (history e).

Lemma hist_env : forall s v0 w L F, history s v0 w L F -> env_ok e.
Proof. intros s v0 w L F ((H & _) & _). exact H. Qed.
Lemma space_wf : forall v, address_space_ok e v -> vmwf v.
Proof. intros v (H1 & H2 & H3). constructor; auto. Qed.
Lemma hist_inv : forall s v0 w L F, history s v0 w L F -> winv e s v0 w L F.
Proof. intros s v0 w L F ((H1 & H2) & H3 & H4). apply reach_inv; auto. now apply space_wf. Qed.
Lemma hist_cp : forall s v0 w L F, history s v0 w L F -> 0 <= e_ncpus e.
Proof. intros s v0 w L F ((_ & H) & _). exact H. Qed.
Lemma hist_step : forall s v0 w L F o w' x, history s v0 w L F -> allowed e s v0 w L o -> run1 e o w = Ok (w', x) ->
  history s v0 w' (live_after o x L) (freed_after o x L F).
Proof. intros s v0 w L F o w' x (H1 & H2 & H3) Ha Hr. split; auto. split; auto. eapply reach_step; eauto. Qed.

Lemma items_app_nodup_l : forall s v0 w L F id P, winv e s v0 w L F -> In (id, P) (w_pools w) -> NoDup (items id L).
Proof.
  intros s v0 w L F id P HW Hin. pose proof (pi_nodup _ _ _ _ _ (wi_pools _ _ _ _ _ _ HW _ _ Hin)) as H.
  induction (items id F); auto. apply IHl. cbn in H. now inversion H.
Qed.

Lemma live_free_no : forall s v0 w L F id a, winv e s v0 w L F -> In (id, a) L -> In (id, a) F -> False.
Proof.
  intros s v0 w L F id a HW HL HF. destruct (wi_known _ _ _ _ _ _ HW id a) as [P HP]; [apply in_or_app; auto|].
  pose proof (pi_nodup _ _ _ _ _ (wi_pools _ _ _ _ _ _ HW _ _ HP)) as Hnd.
  apply in_items in HL. apply in_items in HF. destruct (in_split _ _ HL) as (l1 & l2 & E). rewrite E in Hnd. rewrite app_assoc in Hnd.
  apply NoDup_remove_2 in Hnd. apply Hnd. rewrite <- app_assoc. apply in_or_app. auto.
Qed.

Section One.
Variables (s : bool) (v0 : vm) (w : world) (L F : ledger).
Hypothesis HH : history s v0 w L F.
Let HW : winv e s v0 w L F := hist_inv _ _ _ _ _ HH.
Notation v := (w_vm w).

Lemma known_item : forall id P a, In (id, P) (w_pools w) -> In (id, a) (F ++ L) ->
  exists r, In r (range_list P) /\ rinv P v r /\ 0 <= a - base r /\ a - base r + item_len P <= strd P /\ (item_len P | a - base r).
Proof.
  intros id P a Hin Ha. pose proof (wi_pools _ _ _ _ _ _ HW _ _ Hin) as HI. apply slot_item; [apply HI|apply HI|].
  apply (pi_slots _ _ _ _ _ HI). apply in_app_iff. apply in_app_iff in Ha. rewrite !in_items. auto.
Qed.

Lemma byte_place : forall id P a x, In (id, P) (w_pools w) -> In (id, a) (F ++ L) -> item_byte P a x ->
  exists r, In r (range_list P) /\ rinv P v r /\ 0 <= a - base r /\ a - base r + item_len P <= strd P /\ (item_len P | a - base r) /\
    inF P r (a - base r) (item_len P) x /\ base r <= x < base r + strd P * ncpus P /\ region r x.
Proof.
  intros id P a x Hin Ha Hx. pose proof (wi_pools _ _ _ _ _ _ HW _ _ Hin) as HI. pose proof (pi_geom _ _ _ _ _ HI) as HG.
  destruct (known_item _ _ _ Hin Ha) as (r & Hr & HR & H1 & H2 & H3).
  exists r. do 5 (split; [auto; fail|]).
  assert (HinF : inF P r (a - base r) (item_len P) x).
  { eapply item_byte_inF; eauto. now replace (base r + (a - base r)) with a by ring. }
  split; auto. split; [|eapply inF_region; eauto].
  destruct Hx as (cpu & k & Hc & Hk & ->). unfold percpu_ptr. pose proof (strd_pos _ _ HG). nia.
Qed.

(** Distinct known items share no byte. *)
Lemma bytes_disjoint : forall id P a id' P' a' x, In (id, P) (w_pools w) -> In (id', P') (w_pools w) ->
  In (id, a) (F ++ L) -> In (id', a') (F ++ L) -> item_byte P a x -> item_byte P' a' x -> (id, a) = (id', a').
Proof.
  intros id P a id' P' a' x Hin Hin' Ha Ha' Hx Hx'.
  destruct (byte_place _ _ _ _ Hin Ha Hx) as (r & Hr & HR & H1 & H2 & H3 & H4 & H5 & H6).
  destruct (byte_place _ _ _ _ Hin' Ha' Hx') as (r' & Hr' & HR' & H1' & H2' & H3' & H4' & H5' & H6').
  assert (id = id').
  { apply (wi_apart _ _ _ _ _ _ HW id P id' P' x); auto; [exists r|exists r']; auto. }
  subst id'. pose proof (unique_pool e s v0 w L F HW _ _ _ Hin Hin'). subst P'. f_equal.
  pose proof (wi_pools _ _ _ _ _ _ HW _ _ Hin) as HI.
  eapply (slots_disjoint e P v a a' r r' x); eauto; apply HI.
Qed.

Lemma p_live_once : NoDup L.
Proof.
  assert (K : forall l, (forall i a, In (i, a) l -> exists P, In (i, P) (w_pools w)) ->
              (forall i P, In (i, P) (w_pools w) -> NoDup (items i l)) -> NoDup l).
  { induction l as [|[i a] l IH]; intros H1 H2; constructor.
    - intros Hin. destruct (H1 i a) as [P HP]; [now left|]. specialize (H2 _ _ HP). rewrite items_cons in H2.
      cbn [fst snd] in H2. rewrite Z.eqb_refl in H2. inversion H2 as [|? ? Hn _]; subst. apply Hn. now apply in_items.
    - apply IH.
      + intros j b Hj. apply (H1 j b). now right.
      + intros j P HP. specialize (H2 _ _ HP). rewrite items_cons in H2. cbn [fst snd] in H2.
        destruct (i =? j); auto. now inversion H2. }
  apply K.
  - intros i a Hi. apply (wi_known _ _ _ _ _ _ HW i a). apply in_or_app. auto.
  - intros i P HP. eapply items_app_nodup_l; eauto.
Qed.

Lemma p_disjoint : forall id P a id' P' a' x, In (id, P) (w_pools w) -> In (id', P') (w_pools w) ->
  In (id, a) L -> In (id', a') L -> (id, a) <> (id', a') -> item_byte P a x -> ~ item_byte P' a' x.
Proof.
  intros id P a id' P' a' x Hin Hin' Ha Ha' Hne Hx Hx'. apply Hne.
  eapply bytes_disjoint; eauto; apply in_or_app; auto.
Qed.

Lemma p_bookkeeping : forall id P a x, In (id, P) (w_pools w) -> In (id, a) L -> item_byte P a x ->
  mapped v0 (page x) = false /\
  forall id' P' r', In (id', P') (w_pools w) -> In r' (range_list P') ->
    ~ (mmap_addr r' <= x < base r') /\
    (forall f, In (id', f) F -> ~ (percpu_to_free_list_ptr e P' f <= x < percpu_to_free_list_ptr e P' f + wsz e)) /\
    (mmap_addr r' <= x < mmap_addr r' + mmap_len r' -> id' = id /\ P' = P /\ base r' <= a < base r' + strd P).
Proof.
  intros id P a x Hin Ha Hx. assert (Ha' : In (id, a) (F ++ L)) by (apply in_or_app; auto).
  destruct (byte_place _ _ _ _ Hin Ha' Hx) as (r & Hr & HR & H1 & H2 & H3 & H4 & H5 & H6).
  pose proof (wi_pools _ _ _ _ _ _ HW _ _ Hin) as HI. pose proof (pi_geom _ _ _ _ _ HI) as HG.
  pose proof (item_pos _ _ HG) as [Hip Hipw].
  split.
  { destruct (mapped v0 (page x)) eqn:E; auto. destruct (wi_own _ _ _ _ _ _ HW _ E) as [_ K]. exfalso.
    apply (K _ _ Hin). exists r. auto. }
  intros id' P' r' Hin' Hr'.
  assert (Hreg : mmap_addr r' <= x < mmap_addr r' + mmap_len r' -> id' = id /\ P' = P /\ r' = r).
  { intros Hx'. assert (id' = id).
    { apply (wi_apart _ _ _ _ _ _ HW id' P' id P x); auto; [exists r'|exists r]; auto. }
    subst id'. pose proof (unique_pool e s v0 w L F HW _ _ _ Hin Hin'). subst P'. split; auto. split; auto.
    destruct (ordpairs_in _ _ _ (pi_apart _ _ _ _ _ HI) Hr' Hr) as [|Hap]; auto. exfalso.
    exact (apart_regions r' r x Hap Hx' H6). }
  pose proof (wi_pools _ _ _ _ _ _ HW _ _ Hin') as HI'. pose proof (pi_geom _ _ _ _ _ HI') as HG'.
  assert (HR' : rinv P' v r') by (pose proof (pi_ranges _ _ _ _ _ HI') as HF; rewrite Forall_forall in HF; auto).
  split; [|split].
  - intros Hh. destruct Hreg as (_ & _ & ->).
    { rewrite (r_addr _ _ _ _ HR'), (r_len _ _ _ _ HR') in *. pose proof (strd_pos _ _ HG'). pose proof (na_bounds P').
      pose proof (nd_bounds P'). pose proof (g_cpus _ _ HG'). nia. }
    lia.
  - intros f Hf Hn.
    assert (Hf' : In (id', f) (F ++ L)) by (apply in_or_app; auto).
    destruct (known_item _ _ _ Hin' Hf') as (rf & Hrf & HRf & Hf1 & Hf2 & Hf3). pose proof (item_pos _ _ HG') as [Hip' Hipw'].
    replace f with (base rf + (f - base rf)) in Hn by ring. rewrite (to_node e P' v rf HG' HRf) in Hn by lia.
    replace (base rf + (f - base rf)) with f in Hn by ring.
    destruct (slot_node_region e P' v f x) as (r2 & Hr2 & HR2 & Hd2 & Ho2 & Hol2 & Hin2); [apply HI'|apply HI'| |exact Hn|].
    { apply (pi_slots _ _ _ _ _ HI'). apply in_or_app. left. now apply in_items. }
    assert (id' = id).
    { apply (wi_apart _ _ _ _ _ _ HW id' P' id P x); auto; [exists r2|exists r]; auto. split; auto.
      eapply inF_region; eauto. }
    subst id'. pose proof (unique_pool e s v0 w L F HW _ _ _ Hin Hin'). subst P'.
    assert (f = a) by (eapply (slots_disjoint e P v f a r2 r x); eauto; apply HI). subst f.
    exact (live_free_no _ _ _ _ _ _ _ HW Ha Hf).
  - intros Hx'. destruct (Hreg Hx') as (-> & -> & ->). split; auto. split; auto. lia.
Qed.

Lemma p_mapped : forall id P a, In (id, P) (w_pools w) -> In (id, a) L ->
  (item_len P | a) /\
  forall cpu k, 0 <= cpu < max_nr_cpus (pattr P) -> 0 <= k < item_len P ->
    mapped v (page (percpu_ptr P a cpu + k)) = true /\
    exists r, In r (range_list P) /\ mmap_addr r <= percpu_ptr P a cpu + k < mmap_addr r + mmap_len r.
Proof.
  intros id P a Hin Ha. assert (Ha' : In (id, a) (F ++ L)) by (apply in_or_app; auto).
  pose proof (wi_pools _ _ _ _ _ _ HW _ _ Hin) as HI. pose proof (pi_geom _ _ _ _ _ HI) as HG. split.
  - destruct (known_item _ _ _ Hin Ha') as (r & Hr & HR & H1 & H2 & H3).
    replace a with (base r + (a - base r)) by ring. apply Z.divide_add_r; auto.
    eapply Z.divide_trans; [apply (item_strd _ _ HG)|apply (r_al _ _ _ _ HR)].
  - intros cpu k Hc Hk. assert (Hx : item_byte P a (percpu_ptr P a cpu + k)) by (exists cpu, k; auto).
    destruct (byte_place _ _ _ _ Hin Ha' Hx) as (r & Hr & HR & H1 & H2 & H3 & H4 & H5 & H6). split.
    + apply (r_map _ _ _ _ HR). auto.
    + exists r. auto.
Qed.

Lemma p_injective : forall id P a cpu k id' P' a' cpu' k', In (id, P) (w_pools w) -> In (id', P') (w_pools w) ->
  In (id, a) L -> In (id', a') L ->
  0 <= cpu < max_nr_cpus (pattr P) -> 0 <= k < item_len P -> 0 <= cpu' < max_nr_cpus (pattr P') -> 0 <= k' < item_len P' ->
  percpu_ptr P a cpu + k = percpu_ptr P' a' cpu' + k' -> id = id' /\ a = a' /\ cpu = cpu' /\ k = k'.
Proof.
  intros id P a cpu k id' P' a' cpu' k' Hin Hin' Ha Ha' Hc Hk Hc' Hk' Heq.
  assert (E : (id, a) = (id', a')).
  { apply (bytes_disjoint id P a id' P' a' (percpu_ptr P a cpu + k)); auto; try (apply in_or_app; auto; fail).
    - exists cpu, k. auto.
    - exists cpu', k'. auto. }
  injection E as <- <-. pose proof (unique_pool e s v0 w L F HW _ _ _ Hin Hin'). subst P'.
  assert (Ha2 : In (id, a) (F ++ L)) by (apply in_or_app; auto).
  destruct (known_item _ _ _ Hin Ha2) as (r & Hr & HR & H1 & H2 & H3). unfold percpu_ptr in Heq.
  assert (cpu = cpu').
  { destruct (Z.lt_trichotomy cpu cpu') as [Hlt|[->|Hlt]]; auto; exfalso; nia. }
  subst. lia.
Qed.

(** ** Contents *)
Lemma fill_content : forall id P a c w' x, In (id, P) (w_pools w) -> In (id, a) L -> content_fits P c ->
  run1 e (OFill id a c) w = Ok (w', x) -> forall cpu, 0 <= cpu < max_nr_cpus (pattr P) -> holds e P c (w_vm w') a cpu.
Proof.
  intros id P a c w' x Hin Ha Hc Hrun cpu Hcpu.
  destruct (fill_run e s v0 w L F HW id P a c Hin Ha Hc) as (w2 & r & E & _ & _ & _ & _ & Hh & _).
  rewrite E in Hrun. injection Hrun as <- <-. apply Hh. pose proof (nd_bounds P). lia.
Qed.

(** One call is the part under the lock, then the filling. *)
Lemma malloc_split : forall id P c len an, lookup id (w_pools w) = Some P -> content_fits P c -> len <= item_len P ->
  match run1 e (OMalloc id an) w with
  | Ok (w1, OutItem a) => exists w2 P', run1 e (OFill id a c) w1 = Ok (w2, OutUnit) /\ lookup id (w_pools w2) = Some P' /\
      same P P' /\ percpu_malloc e P c len an v = Ok (Got a, P', w_vm w2)
  | Ok (w1, _) => exists P', lookup id (w_pools w1) = Some P' /\ percpu_malloc e P c len an v = Ok (Null ENOMEM, P', w_vm w1)
  | Abort => percpu_malloc e P c len an v = Abort
  | Undef => False
  end.
Proof.
  intros id P c len an Hl Hc Hlen.
  pose proof (lookup_in _ _ _ Hl) as Hin. pose proof (wi_pools _ _ _ _ _ _ HW _ _ Hin) as HI.
  pose proof (malloc_locked_spec e P (items id F) (items id L) an v HI (wi_wf _ _ _ _ _ _ HW)) as Hp.
  unfold percpu_malloc. replace (item_len P <? len) with false by lia.
  destruct (run1 e (OMalloc id an) w) as [[w1 x]| |] eqn:Erun.
  - assert (HW1 : winv e s v0 w1 (live_after (OMalloc id an) x L) (freed_after (OMalloc id an) x L F)).
    { apply hist_inv. apply (hist_step s v0 w L F (OMalloc id an) w1 x); auto. exists P; auto. }
    cbn [run1] in Erun. rewrite Hl in Erun.
    assert (Hid : forall Q, lookup id (set_pool id Q (w_pools w)) = Some Q).
    { intros Q. apply lookup_some; [rewrite set_pool_ids; apply (wi_ids _ _ _ _ _ _ HW)|].
      unfold set_pool. apply in_map_iff. exists (id, P). cbn. now rewrite Z.eqb_refl. }
    assert (Hgen : forall r off a P' v', malloc_locked e P an v = Ok (Some (r, off, a), P', v') -> same P P' -> In r (range_list P') ->
       a = base r + off -> (item_len P | off) -> 0 <= off -> off + item_len P <= strd P ->
       match x with OutItem a => exists w2 Q, run1 e (OFill id a c) w1 = Ok (w2, OutUnit) /\ lookup id (w_pools w2) = Some Q /\
            same P Q /\ (do x <- Ok (Some (r, off, a), P', v'); match x with
             | (Some (r, item_offset, addr), P, v) => do v <- fill_item e P r item_offset c v; Ok (Got addr, P, v)
             | (None, P, v) => Ok (Null ENOMEM, P, v) end) = Ok (Got a, Q, w_vm w2) | _ => False end).
    { intros r off a P' v' E HS Hr Ea Hd Ho Hol. rewrite E in Erun. cbn [bind] in Erun. injection Erun as <- <-.
      cbn [live_after freed_after] in HW1.
      assert (Hin1 : In (id, P') (set_pool id P' (w_pools w))) by (apply lookup_in, Hid).
      assert (Hc' : content_fits P' c).
      { destruct c; auto. destruct HS as (_ & E' & _). cbn in *. rewrite E'. auto. }
      destruct (fill_run e s v0 _ _ _ HW1 id P' a c Hin1) as (w2 & r2 & E2 & Ep2 & _); [now left|auto|].
      exists w2, P'. split; auto. rewrite Ep2. cbn [w_pools]. split; auto. split; auto.
      cbn [bind]. cbn [run1 w_pools w_vm] in E2. rewrite Hid in E2.
      pose proof (wi_pools _ _ _ _ _ _ HW1 _ _ Hin1) as HI1. cbn [w_vm] in HI1.
      pose proof (pi_geom _ _ _ _ _ HI1) as HG1. pose proof (item_pos _ _ HG1).
      assert (HR : rinv P' v' r) by (pose proof (pi_ranges _ _ _ _ _ HI1) as HF; rewrite Forall_forall in HF; auto).
      unfold free_base in E2. rewrite Ea in E2.
      pose proof (s_len _ _ HS) as El. pose proof (s_attr _ _ HS) as Eat.
      rewrite (base_of e P' v' r HG1 HR) in E2 by (rewrite ?Eat in *; lia).
      rewrite (find_range_in e P' v') in E2; auto; try apply HI1.
      replace (base r + off - base r) with off in E2 by ring.
      destruct (fill_item e P' r off c v') as [v2| |] eqn:Ef; cbn [bind] in E2; try discriminate.
      injection E2 as <-. cbn [bind w_vm]. reflexivity. }
    inversion Hp as [Ef Ht Em|a free' Ef Hrob Hnp Em|a free' r off P' Ef Hpo HS Hr Ea Hd Ho Hol Hnr Hg HI' Em
      |a r off P' v' Ef HS Hr Ea Hd Ho Hol Hg HI' Hwf' Hfr Em|v' Ef Hfull Hwhy Hwf' Hfr Em]; symmetry in Em; rewrite Em in Erun; try discriminate Erun.
    + specialize (Hgen _ _ _ _ _ Em HS Hr Ea Hd Ho Hol). cbn [bind] in Erun. injection Erun as <- <-.
      exact Hgen.
    + specialize (Hgen _ _ _ _ _ Em HS Hr Ea Hd Ho Hol). cbn [bind] in Erun. injection Erun as <- <-.
      exact Hgen.
    + cbn [bind] in *. injection Erun as <- <-. exists P. cbn [w_pools w_vm]. split; auto.
  - cbn [run1] in Erun. rewrite Hl in Erun.
    destruct (malloc_locked e P an v) as [[[[[[r off] a]|] P'] v']| |]; cbn [bind] in *; auto; discriminate.
  - cbn [run1] in Erun. rewrite Hl in Erun. inversion Hp as [Ef Ht Em|? ? ? ? ? Em|? ? ? ? ? ? ? ? ? ? ? ? ? ? ? ? Em|? ? ? ? ? ? ? ? ? ? ? ? ? ? ? ? Em|? ? ? ? ? ? Em];
      rewrite <- Em in Erun; discriminate.
Qed.

Lemma malloc_content : forall id P c len an a P' v', lookup id (w_pools w) = Some P -> content_fits P c -> len <= item_len P ->
  percpu_malloc e P c len an v = Ok (Got a, P', v') ->
  forall cpu, 0 <= cpu < max_nr_cpus (pattr P) -> holds e P c v' a cpu.
Proof.
  intros id P c len an a P' v' Hl Hc Hlen Hm cpu Hcpu.
  pose proof (malloc_split id P c len an Hl Hc Hlen) as Hs.
  destruct (run1 e (OMalloc id an) w) as [[w1 x]| |] eqn:Erun; [|congruence|destruct Hs].
  assert (HW1 : winv e s v0 w1 (live_after (OMalloc id an) x L) (freed_after (OMalloc id an) x L F)).
  { apply hist_inv. apply (hist_step s v0 w L F (OMalloc id an) w1 x); auto. exists P; auto. }
  assert (Hno : (exists P', lookup id (w_pools w1) = Some P' /\ percpu_malloc e P c len an v = Ok (Null ENOMEM, P', w_vm w1)) -> False).
  { intros (? & _ & E). congruence. }
  destruct x; try (exfalso; auto; fail).
  destruct Hs as (w2 & P2 & E2 & Hl2 & HS & E3). rewrite E3 in Hm. injection Hm as -> -> <-.
  cbn [live_after] in HW1.
  assert (Hin1 : exists Q, In (id, Q) (w_pools w1) /\ same P Q).
  { cbn [run1] in E2. destruct (lookup id (w_pools w1)) as [Q|] eqn:EQ; [|discriminate].
    destruct (find_range _ _); [|discriminate]. destruct (fill_item _ _ _ _ _ _); cbn [bind] in E2; try discriminate.
    injection E2 as <-. cbn [w_pools] in Hl2. exists Q. split; [now apply lookup_in|congruence]. }
  destruct Hin1 as (Q & HQ & HSQ).
  assert (Hc' : content_fits Q c).
  { destruct c; auto. cbn in *. rewrite (s_len _ _ HSQ). auto. }
  destruct (fill_run e s v0 _ _ _ HW1 id Q a c HQ) as (w3 & r2 & E4 & _ & _ & _ & _ & Hh & _); [now left|auto|].
  rewrite E4 in E2. injection E2 as <-.
  specialize (Hh cpu). rewrite (s_nd _ _ HSQ) in Hh. pose proof (nd_bounds P).
  assert (K : holds e Q c (w_vm w3) a cpu) by (apply Hh; lia).
  destruct c; cbn [holds] in *; auto.
  - rewrite (s_len _ _ HSQ), (s_attr _ _ HSQ) in K. exact K.
  - rewrite (s_attr _ _ HSQ) in K. exact K.
Qed.

(** ** Frames *)
Lemma item_frame : forall id P a x o w' y, In (id, P) (w_pools w) -> In (id, a) L -> item_byte P a x ->
  allowed e s v0 w L o -> run1 e o w = Ok (w', y) ->
  match o with
  | OFill id' a' _ => (id', a') <> (id, a)
  | OFree a' _ => a' <> a
  | ODestroy id' _ => id' <> id
  | OWrite ps => (forall z, In z (map fst ps) -> good_write e v0 w L z) /\ ~ In x (map fst ps)
  | _ => True
  end ->
  view e (w_vm w') x = view e v x.
Proof.
  intros id P a x o w' y Hin Ha Hx Hok Hrun Hoth.
  assert (Ha' : In (id, a) (F ++ L)) by (apply in_or_app; auto).
  destruct (byte_place _ _ _ _ Hin Ha' Hx) as (r & Hr & HR & H1 & H2 & H3 & H4 & H5 & H6).
  pose proof (wi_pools _ _ _ _ _ _ HW _ _ Hin) as HI. pose proof (pi_geom _ _ _ _ _ HI) as HG.
  pose proof (r_map _ _ _ _ HR _ H6) as Hmap. pose proof (wi_wf _ _ _ _ _ _ HW) as Hwf.
  assert (Hother : forall id' P' a' r', In (id', P') (w_pools w) -> In (id', a') L -> (id', a') <> (id, a) -> In r' (range_list P') ->
     (item_len P' | a' - base r') -> rinv P' v r' -> ~ inF P' r' (a' - base r') (item_len P') x).
  { intros id' P' a' r' Hin' Hl' Hne Hr' Hd' HR' Hx'. pose proof (wi_pools _ _ _ _ _ _ HW _ _ Hin') as HI'.
    assert (id' = id).
    { apply (wi_apart _ _ _ _ _ _ HW id' P' id P x); auto; [exists r'|exists r]; auto. split; auto.
      apply (inF_region e P' v r' (a' - base r') (item_len P') x); auto. apply HI'. }
    subst id'. pose proof (unique_pool e s v0 w L F HW _ _ _ Hin Hin'). subst P'. apply Hne. f_equal.
    eapply (slots_disjoint e P v a' a r' r x); eauto; apply HI. }
  destruct o as [id' named len at_ an|id' an|id' item c|ptr st|ps|id' an].
  - destruct Hok as (Hnone & Hlen & Hat & Hfit). cbn [run1] in Hrun.
    pose proof (mempool_create_spec e (hist_env _ _ _ _ _ HH) named len at_ an v Hlen Hat (hist_cp _ _ _ _ _ HH) Hfit Hwf) as Hp.
    destruct Hp as [Hp|o Hp Ht|Hno|o v' Hacc Hwf' Hfr Hr'|o P' v' Hacc Ea El Eo HI' Hwf' Hfr Hreg Hnr]; try discriminate Hrun;
      cbn in Hrun; injection Hrun as <- <-; cbn [w_vm]; auto; apply (fr_view _ _ _ _ Hfr); auto.
  - destruct Hok as (P' & Hl). cbn [run1] in Hrun. rewrite Hl in Hrun.
    pose proof (lookup_in _ _ _ Hl) as Hin'. pose proof (wi_pools _ _ _ _ _ _ HW _ _ Hin') as HI'.
    pose proof (malloc_locked_spec e P' (items id' F) (items id' L) an v HI' Hwf) as Hp.
    destruct Hp as [Ef Ht|b free' Ef Hrob Hnp|b free' r' off P2 Ef Hpo HS Hr' Ea Hd Ho Hol Hnr Hg HI2
      |b r' off P2 v' Ef HS Hr' Ea Hd Ho Hol Hg HI2 Hwf' Hfr|v' Ef Hfull Hwhy Hwf' Hfr]; try discriminate Hrun;
      cbn [bind] in Hrun; injection Hrun as <- <-; cbn [w_vm]; auto; apply (fr_view _ _ _ _ Hfr); auto.
  - destruct Hok as (P' & Hl & Hlive & Hc). pose proof (lookup_in _ _ _ Hl) as Hin'.
    destruct (fill_run e s v0 w L F HW id' P' item c Hin' Hlive Hc) as (w2 & r' & E & _ & _ & Hr' & Hb & _ & Hfr & _).
    rewrite E in Hrun. injection Hrun as <- <-. apply (fr_view _ _ _ _ Hfr).
    apply (Hother id' P' item r'); auto; try apply Hb.
    pose proof (pi_ranges _ _ _ _ _ (wi_pools _ _ _ _ _ _ HW _ _ Hin')) as HFF. rewrite Forall_forall in HFF. auto.
  - destruct Hok as (id' & P' & Hl & Hlive & ->). pose proof (lookup_in _ _ _ Hl) as Hin'.
    destruct (free_run e s v0 w L F HW id' P' ptr Hin' Hlive) as (w2 & r' & P2 & E & _ & _ & _ & _ & Hr' & Hb & _ & Hfr & _).
    rewrite E in Hrun. injection Hrun as <- <-. apply (fr_view _ _ _ _ Hfr).
    apply (Hother id' P' ptr r'); auto; try apply Hb; [congruence|].
    pose proof (pi_ranges _ _ _ _ _ (wi_pools _ _ _ _ _ _ HW _ _ Hin')) as HFF. rewrite Forall_forall in HFF. auto.
  - cbn [run1] in Hrun. destruct (forallb _ ps); [|discriminate]. injection Hrun as <- <-. cbn [w_vm].
    destruct Hoth as [Hgood Hnx]. apply view_store_other; [apply (g_psz _ _ HG)|exact Hwf|].
    intros z Hz Hal.
    assert (Hrz : region r z) by (eapply alias_region; eauto).
    destruct (Hgood z Hz) as [Hown|(id' & P' & a' & Hin' & Hl' & Hb')].
    + destruct (wi_own _ _ _ _ _ _ HW _ Hown) as [_ K]. apply (K _ _ Hin). exists r. auto.
    + assert (Hl2 : In (id', a') (F ++ L)) by (apply in_or_app; auto).
      destruct (byte_place _ _ _ _ Hin' Hl2 Hb') as (r' & Hr' & HR' & K1 & K2 & K3 & K4 & K5 & K6).
      assert (id' = id).
      { apply (wi_apart _ _ _ _ _ _ HW id' P' id P z); auto; [exists r'|exists r]; auto. }
      subst id'. pose proof (unique_pool e s v0 w L F HW _ _ _ Hin Hin'). subst P'.
      assert (r' = r).
      { destruct (ordpairs_in _ _ _ (pi_apart _ _ _ _ _ HI) Hr' Hr) as [|Hap]; auto. exfalso.
        exact (apart_regions r' r z Hap K6 Hrz). }
      subst r'. assert (x = z) by (eapply alias_cpu; eauto). subst z. auto.
  - destruct Hok as (P' & Hl). cbn [run1] in Hrun. rewrite Hl in Hrun.
    pose proof (lookup_in _ _ _ Hl) as Hin'. pose proof (wi_pools _ _ _ _ _ _ HW _ _ Hin') as HI'.
    pose proof (mempool_destroy_spec e P' (items id' F) (items id' L) an v HI' Hwf) as Hp.
    destruct Hp as [Hrob Hlk|b Hrob Hlk Hb Hnp|Po v' Hok Hwf' Hfr Hmp Hun Hall Hany]; try discriminate Hrun.
    cbn [bind] in Hrun. injection Hrun as <- <-. cbn [w_vm]. apply (fr_view _ _ _ _ Hfr).
    intros Hp. apply Hoth. apply (wi_apart _ _ _ _ _ _ HW id' P' id P x); auto. exists r; auto.
Qed.
End One.
End Props.
