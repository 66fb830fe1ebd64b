(** What stores and the end of a free do to the invariant of the pools. *)
From Coq Require Import ZArith Bool List Lia Znumtheory Permutation.
From Verif Require Import UtilsModel UtilsLemmas RseqIR MemLemmas PoolVM PoolVMLemmas PoolModel PoolInv PoolItem PoolMap PoolRange PoolBitmap PoolOps PoolMalloc PoolFree PoolDestroy PoolWorld PoolCreate PoolHist MicroModel MicroInv.
Import ListNotations.
Local Open Scope Z_scope.

Section MWorld.
Variable e : env.
Hypothesis He : env_ok e.
Hypothesis Hcp : 0 <= e_ncpus e.
Notation page := (PoolVM.page e).
Notation geom := (geom e).
Notation rinv := (rinv e).
Notation pinv := (pinv e).
Notation poisoned := (poisoned e).
Notation vmwf := (vmwf e).
Notation view := (view e).
Notation cleared := (cleared e).

Section W.
Variables (v0 : vm) (w : world) (L F : ledger).
Hypothesis HW : winv e true v0 w L F.
Notation v := (w_vm w).
Let Hwf := wi_wf _ _ _ _ _ _ HW.

Lemma wgeom : forall id P, In (id, P) (w_pools w) -> geom P.
Proof. intros id P Hin. apply (pi_geom _ _ _ _ _ (wi_pools _ _ _ _ _ _ HW _ _ Hin)). Qed.

Lemma item_place : forall id P a, In (id, P) (w_pools w) -> In (id, a) (L ++ F) ->
  exists r, In r (range_list P) /\ rinv P v r /\ 0 <= a - base r /\ a - base r + item_len P <= strd P /\ (item_len P | a - base r).
Proof.
  intros id P a Hin Ha. pose proof (wi_pools _ _ _ _ _ _ HW _ _ Hin) as HI.
  eapply slot_item; [apply (wgeom _ _ Hin)|apply (pi_ranges _ _ _ _ _ HI)|].
  apply (pi_slots _ _ _ _ _ HI). rewrite in_app_iff in *. rewrite !in_items. tauto.
Qed.

Lemma item_pregion : forall id P a x, In (id, P) (w_pools w) -> In (id, a) (L ++ F) -> ibytes P a x -> pregion P x.
Proof.
  intros id P a x Hin Ha Hx. destruct (item_place _ _ _ Hin Ha) as (r & Hr & HR & H1 & H2 & H3). pose proof (wgeom _ _ Hin) as HG.
  exists r. split; auto. eapply inF_region; eauto. apply (ibytes_inF e P a r (a - base r) HG); auto; lia.
Qed.
Lemma item_mapped : forall id P a x, In (id, P) (w_pools w) -> In (id, a) (L ++ F) -> ibytes P a x -> mapped v (page x) = true.
Proof.
  intros id P a x Hin Ha Hx. eapply pregion_mapped; [|eapply item_pregion; eauto]. apply (wi_pools _ _ _ _ _ _ HW _ _ Hin).
Qed.

Definition wkey1 (y : Z) (o : option (Z * Z)) : Prop :=
  match o with
  | None => forall id P, In (id, P) (w_pools w) -> ~ pregion P y
  | Some (id, a) => In (id, a) (L ++ F) /\ exists P, In (id, P) (w_pools w) /\ ibytes P a y
  end.

Lemma key_other : forall y o id P a x, wkey1 y o -> In (id, P) (w_pools w) -> In (id, a) (L ++ F) -> o <> Some (id, a) ->
  ibytes P a x -> ~ aliases e v y x.
Proof.
  intros y o id P a x Hy Hin Ha Hne Hx Hal. pose proof (wgeom _ _ Hin) as HG.
  destruct (item_place _ _ _ Hin Ha) as (r & Hr & HR & H1 & H2 & H3).
  assert (Hxr : region r x).
  { eapply inF_region; eauto. apply (ibytes_inF e P a r (a - base r) HG); auto; lia. }
  assert (Hyr : region r y) by (eapply alias_region; eauto).
  destruct o as [[id' a']|].
  - destruct Hy as (Ha' & P' & Hin' & Hy).
    assert (id' = id).
    { eapply (wi_apart _ _ _ _ _ _ HW id' P' id P y); auto; [eapply item_pregion; eauto|exists r; auto]. }
    subst id'. rewrite (unique_pool e true v0 w L F HW _ _ _ Hin' Hin) in *.
    destruct (item_place _ _ _ Hin Ha') as (r' & Hr' & HR' & H1' & H2' & H3').
    assert (HinF : inF P r' (a' - base r') (item_len P) y) by (apply (ibytes_inF e P a' r' (a' - base r') HG); auto; lia).
    pose proof (wi_pools _ _ _ _ _ _ HW _ _ Hin) as HI.
    assert (HinFx : inF P r' (a' - base r') (item_len P) x) by (eapply alias_inF; eauto).
    assert (a' = a).
    { eapply (slots_disjoint e P v a' a r' r x); eauto; try apply HI. apply (ibytes_inF e P a r (a - base r) HG); auto; lia. }
    subst a'. now apply Hne.
  - apply (Hy id P Hin). exists r. auto.
Qed.

(** Stores to memory outside of the pools and to live items. *)
Lemma winv_store : forall ps, (forall y, In y (map fst ps) -> exists o, wkey1 y o /\ forall i, o = Some i -> In i L) ->
  winv e true v0 {| w_vm := store e v ps; w_pools := w_pools w |} L F.
Proof.
  intros ps Hok.
  assert (Hnd : forall id a, In (id, a) L -> In (id, a) F -> False).
  { intros id a HL HFr. destruct (wi_known _ _ _ _ _ _ HW id a) as (P & Hin); [apply in_or_app; auto|].
    pose proof (pi_nodup _ _ _ _ _ (wi_pools _ _ _ _ _ _ HW _ _ Hin)) as Hn.
    apply in_items in HL. apply in_items in HFr. destruct (in_split _ _ HL) as (l1 & l2 & E). rewrite E in Hn. rewrite app_assoc in Hn.
    apply NoDup_remove_2 in Hn. apply Hn. rewrite <- app_assoc. apply in_or_app. auto. }
  constructor; cbn [w_vm w_pools]; try apply HW.
  - now apply store_wf.
  - intros id P Hin. pose proof (wi_pools _ _ _ _ _ _ HW _ _ Hin) as HI. apply pinv_store; auto.
    intros y Hy. destruct (Hok _ Hy) as ([[id' a']|] & K & KL).
    + destruct K as (Ka & P' & Hin' & Hb). specialize (KL _ eq_refl).
      destruct (Z.eq_dec id' id) as [->|Hne].
      * rewrite (unique_pool e true v0 w L F HW _ _ _ Hin' Hin) in *. right. left.
        destruct (item_place _ _ _ Hin Ka) as (r & Hr & HR & H1 & H2 & H3). exists r, (a' - base r).
        split; auto. split; [replace (base r + (a' - base r)) with a' by ring; now apply in_items|]. split; auto. split; auto.
        apply (ibytes_inF e P a' r (a' - base r) (wgeom _ _ Hin)); auto; lia.
      * left. intros r Hr Hreg. apply Hne. eapply (wi_apart _ _ _ _ _ _ HW id' P' id P y); auto; [eapply item_pregion; eauto|exists r; auto].
    + left. intros r Hr Hreg. apply (K id P Hin). exists r. auto.
  - intros Hst id P b Hin Hrob Hb. pose proof (wgeom _ _ Hin) as HG.
    assert (Hpb : poisoned P v b) by (eapply (wi_poison _ _ _ _ _ _ HW); eauto).
    assert (HbF : In (id, b) (L ++ F)) by (apply in_or_app; right; now apply in_items).
    destruct (item_place _ _ _ Hin HbF) as (r & Hr & HR & H1 & H2 & H3).
    replace b with (base r + (b - base r)) by ring. eapply poisoned_ext; eauto; [|replace (base r + (b - base r)) with b by ring; exact Hpb].
    intros x Hx. apply view_store_other; [apply (g_psz _ _ HG)|exact Hwf|]. intros y Hy.
    destruct (Hok _ Hy) as (o & K & KL). eapply key_other; eauto.
    + intros ->. apply (Hnd id b); auto. now apply in_items.
    + apply (ibytes_inF e P b r (b - base r) HG); auto; lia.
  - intros a Ha. rewrite store_mapped. apply (wi_own _ _ _ _ _ _ HW _ Ha).
Qed.

(** The fields of the pool when the bit of a live item has been cleared. *)
Lemma cleared_spec : forall id P a, In (id, P) (w_pools w) -> In (id, a) L ->
  exists r r', In r (range_list P) /\ rinv P v r /\ 0 <= a - base r /\ a - base r + item_len P <= strd P /\ (item_len P | a - base r) /\
    find_range (range_list P) (free_base e a (strd P)) = Some r /\ Z.land a (strd P - 1) = a - base r /\
    clear_alloc_slot e P r (a - base r) = Ok r' /\ twin r r' /\ cleared P a = set_ranges P (put_range (range_list P) r') /\
    find_range (range_list (cleared P a)) (free_base e a (strd P)) = Some r'.
Proof.
  intros id P a Hin Ha. pose proof (wi_pools _ _ _ _ _ _ HW _ _ Hin) as HI. pose proof (pi_geom _ _ _ _ _ HI) as HG.
  destruct (item_place id P a Hin) as (r & Hr & HR & H1 & H2 & H3); [apply in_or_app; auto|].
  pose proof (item_pos _ _ HG) as Hip.
  assert (Eb : free_base e a (strd P) = base r).
  { unfold free_base. replace a with (base r + (a - base r)) by ring. apply (base_of e P v r HG HR). lia. }
  assert (Eo : Z.land a (strd P - 1) = a - base r).
  { replace a with (base r + (a - base r)) at 1 by ring. apply (offset_of e P v r HG HR). lia. }
  assert (Ef : find_range (range_list P) (base r) = Some r) by (eapply (find_range_in e P v); auto; apply HI).
  assert (HaL : In a (items id L)) by now apply in_items.
  destruct (in_split _ _ HaL) as (l1 & l2 & El). rewrite El in HI.
  destruct (clear_live e P v (items id F) l1 a l2 r (a - base r) HI Hr) as (r' & E & Htw & Hn & HR' & Hbits); auto; [lia|].
  exists r, r'. do 5 (split; [assumption|]). rewrite Eb, Eo. split; [exact Ef|]. split; [reflexivity|]. split; [exact E|]. split; [exact Htw|].
  assert (Ec : cleared P a = set_ranges P (put_range (range_list P) r')) by (unfold MicroInv.cleared; rewrite Eb, Ef, Eo, E; reflexivity).
  split; [exact Ec|]. rewrite Ec. cbn [range_list set_ranges]. destruct Htw as (Hb & Htw). rewrite <- Hb.
  assert (Htw' : twin r r') by (split; auto).
  apply (find_range_in e P v); auto.
  - apply (put_Forall _ r r'); auto. apply HI.
  - apply (put_apart e P v _ r r'); auto; apply HI.
  - apply (put_in _ r r'); auto.
Qed.

Lemma cleared_same : forall P a, same P (cleared P a).
Proof.
  intros P a. unfold MicroInv.cleared. destruct (find_range _ _) as [r|]; [|apply same_refl].
  destruct (clear_alloc_slot _ _ _ _); try apply same_refl. apply set_ranges_same.
Qed.
Lemma cleared_head : forall P a, free_list_head (cleared P a) = free_list_head P.
Proof.
  intros P a. unfold MicroInv.cleared. destruct (find_range _ _) as [r|]; [|reflexivity]. destruct (clear_alloc_slot _ _ _ _); reflexivity.
Qed.

Lemma node_of : forall id P a, In (id, P) (w_pools w) -> In (id, a) (L ++ F) ->
  percpu_to_free_list_ptr e P a = node P a /\ free_list_to_percpu_ptr e P (node P a) = a /\ node P a <> 0 /\
  accessible e v (node P a) (wsz e) = true /\ (forall x, node P a <= x < node P a + wsz e -> ibytes P a x).
Proof.
  intros id P a Hin Ha. pose proof (wgeom _ _ Hin) as HG.
  destruct (item_place _ _ _ Hin Ha) as (r & Hr & HR & H1 & H2 & H3). pose proof (item_pos _ _ HG) as Hip. pose proof (wsz_range e).
  assert (Ho : exists o, a = base r + o /\ 0 <= o /\ o + item_len P <= strd P) by (exists (a - base r); lia).
  destruct Ho as (o & Ea & Ho & Hol). clear H1 H2 H3 Ha. subst a.
  pose proof (node_bounds e P v r HG HR o ltac:(lia)) as (N1 & N2 & N3).
  split; [eapply to_node; eauto; lia|]. split; [eapply from_node; eauto; lia|].
  split; [lia|]. split; [eapply node_accessible; eauto; lia|].
  intros x Hx. exists (nidx P), (x - node P (base r + o)). pose proof (nidx_bounds _ _ HG). split; [lia|]. split; [lia|].
  unfold node. ring.
Qed.

(** The end of a free: the item is linked and becomes the head. *)
Lemma winv_push : forall id P a, In (id, P) (w_pools w) -> In (id, a) L ->
  load_word e v (node P a) = free_list_head P -> (robust_set (pattr P) = true -> poisoned P v a) ->
  winv e true v0 {| w_vm := v; w_pools := set_pool id (set_head (cleared P a) (node P a)) (w_pools w) |}
    (filter (fun i => negb (same_item i (id, a))) L) ((id, a) :: F).
Proof.
  intros id P a Hin Ha Hlw Hpo. pose proof (wi_pools _ _ _ _ _ _ HW _ _ Hin) as HI. pose proof (pi_geom _ _ _ _ _ HI) as HG.
  destruct (cleared_spec id P a Hin Ha) as (r & r' & Hr & HR & H1 & H2 & H3 & _ & _ & E & Htw & Ec & _).
  pose proof (pi_nodup _ _ _ _ _ HI) as Hnd.
  assert (HndL : NoDup (items id L)).
  { clear - Hnd. induction (items id F); auto. apply IHl. cbn in Hnd. now inversion Hnd. }
  assert (HaL : In a (items id L)) by now apply in_items.
  destruct (filter_split a (items id L) HndL HaL) as (l1 & l2 & El & Efl).
  pose proof HI as HIc. rewrite El in HI.
  destruct (clear_live e P v (items id F) l1 a l2 r (a - base r) HI Hr) as (r'' & E' & _ & Hn & HR' & Hbits); auto; [lia|].
  rewrite E in E'. injection E' as <-. rewrite Ec. set (P1 := set_ranges P (put_range (range_list P) r')) in *.
  set (P2 := set_head P1 (node P a)).
  assert (HS2 : same P P2) by (repeat split).
  pose proof (pi_ranges _ _ _ _ _ HI) as HFr. pose proof (pi_apart _ _ _ _ _ HI) as HA.
  assert (EL : items id (filter (fun i => negb (same_item i (id, a))) L) = l1 ++ l2).
  { rewrite items_del_item, Z.eqb_refl. exact Efl. }
  assert (EF : items id ((id, a) :: F) = a :: items id F).
  { rewrite items_cons. cbn [fst snd]. now rewrite Z.eqb_refl. }
  eapply winv_update; eauto using vframe_refl.
  - unfold P2, P1. change (grows e P (set_ranges P (put_range (range_list P) r')) v).
    eapply grows_put; eauto using grows_refl. intros x Hx Eb. eapply (same_base e P v); eauto.
  - rewrite EL, EF. constructor; cbn [range_list P2 P1 set_head set_ranges nr_ranges pattr free_list_head].
    + eapply s_geom; eauto.
    + apply Forall_forall. intros x Hx. eapply s_rinv; eauto. apply (put_in _ r r') in Hx; auto.
      destruct Hx as [->|[Hx _]]; auto. rewrite Forall_forall in HFr; auto.
    + apply (put_apart e P v (range_list P) r r'); auto.
    + pose proof (pi_full _ _ _ _ _ HI) as Hfull. rewrite put_tl. rewrite Forall_forall in Hfull |- *. intros x Hx.
      unfold put_range in Hx. apply in_map_iff in Hx. destruct Hx as (y & Ey & Hy).
      destruct (base y =? base r') eqn:Eb; subst x; auto.
      apply Z.eqb_eq in Eb. assert (y = r).
      { apply (same_base e P v (range_list P)); auto; [|destruct Htw; congruence]. destruct (range_list P); [destruct Hy|now right]. }
      subst y. rewrite Hn. auto.
    + intros x. change (slot P2 x) with (slot P1 x). unfold P1. rewrite (slot_put e P v r r') by auto.
      rewrite <- (pi_slots _ _ _ _ _ HI). cbn [app In]. rewrite !in_app_iff. cbn [In]. tauto.
    + eapply Permutation_NoDup; [|apply (pi_nodup _ _ _ _ _ HI)]. cbn [app].
      rewrite app_assoc. rewrite app_assoc. apply Permutation_sym, Permutation_middle.
    + exact Hbits.
    + cbn [chain]. rewrite (s_node P P2 HS2). split; [auto|]. rewrite Hlw. eapply s_chain; eauto. apply (pi_chain _ _ _ _ _ HI).
    + rewrite put_length. apply (pi_nr _ _ _ _ _ HI).
    + apply (pi_max _ _ _ _ _ HI).
  - intros _ Hrob b Hb. rewrite EF in Hb. eapply s_poisoned; [exact HS2|].
    assert (Hrob' : robust_set (pattr P) = true) by exact Hrob.
    destruct Hb as [<-|Hb]; auto. eapply (wi_poison _ _ _ _ _ _ HW); eauto.
  - intros id' Hne. rewrite items_del_item, items_cons. cbn [fst snd].
    replace (id =? id') with false by lia. replace (id' =? id) with false by lia. auto.
Qed.
End W.
End MWorld.
