(** The pools of a reachable world satisfy their invariant. *)
From Coq Require Import ZArith Bool List Lia Znumtheory Permutation.
From Verif Require Import UtilsModel UtilsLemmas RseqIR MemLemmas PoolVM PoolVMLemmas PoolModel PoolInv PoolItem PoolMap PoolRange PoolBitmap PoolOps PoolMalloc PoolFree PoolDestroy PoolWorld PoolCreate.
Import ListNotations.
Local Open Scope Z_scope.

Definition items (id : Z) (l : ledger) : list Z := map snd (filter (fun i => fst i =? id) l).

Lemma in_items : forall id a l, In a (items id l) <-> In (id, a) l.
Proof.
  intros id a l. unfold items. rewrite in_map_iff. split.
  - intros ([i b] & <- & H). apply filter_In in H. cbn in *. destruct H as [H E]. apply Z.eqb_eq in E. now subst.
  - intros H. exists (id, a). split; auto. apply filter_In. cbn. now rewrite Z.eqb_refl.
Qed.

Lemma items_cons : forall id i l, items id (i :: l) = if fst i =? id then snd i :: items id l else items id l.
Proof. intros id i l. unfold items. cbn. destruct (fst i =? id); reflexivity. Qed.

Lemma items_del : forall id id' l, items id (filter (fun i => negb (fst i =? id')) l) = if id =? id' then [] else items id l.
Proof.
  intros id id' l. induction l as [|[i a] l IH]; cbn [filter fst]; [now destruct (id =? id')|].
  destruct (i =? id') eqn:E; cbn [negb]; rewrite ?items_cons; cbn [fst snd]; rewrite IH;
    destruct (id =? id') eqn:E2; auto; destruct (i =? id) eqn:E3; auto; lia.
Qed.

Lemma items_del_ptr : forall id p l, items id (filter (fun i => negb (snd i =? p)) l) = filter (fun a => negb (a =? p)) (items id l).
Proof.
  intros id p l. induction l as [|[i a] l IH]; cbn [filter snd]; auto. rewrite items_cons. cbn [fst snd].
  destruct (a =? p) eqn:E; cbn [negb]; rewrite ?items_cons; cbn [fst snd]; rewrite IH;
    destruct (i =? id); cbn [filter]; rewrite ?E; reflexivity.
Qed.

Lemma items_del_item : forall id i p l, items id (filter (fun j => negb (same_item j (i, p))) l) =
  if id =? i then filter (fun a => negb (a =? p)) (items id l) else items id l.
Proof.
  intros id i p l. induction l as [|[j a] l IH]; [now destruct (id =? i)|]. cbn [filter]. unfold same_item at 1. cbn [fst snd].
  rewrite items_cons. cbn [fst snd].
  destruct (j =? i) eqn:E1, (a =? p) eqn:E2; cbn [andb negb]; rewrite ?items_cons; cbn [fst snd]; rewrite IH;
    destruct (id =? i) eqn:E3; destruct (j =? id) eqn:E4; cbn [filter]; rewrite ?E2; cbn [negb]; auto; lia.
Qed.

Lemma filter_none : forall p (l : list Z), ~ In p l -> filter (fun a => negb (a =? p)) l = l.
Proof.
  intros p l H. induction l as [|a l IH]; cbn; auto. destruct (a =? p) eqn:E.
  - exfalso. apply H. left. lia.
  - cbn. f_equal. apply IH. intros Hin. apply H. now right.
Qed.

Lemma filter_split : forall p (l : list Z), NoDup l -> In p l -> exists l1 l2, l = l1 ++ p :: l2 /\ filter (fun a => negb (a =? p)) l = l1 ++ l2.
Proof.
  intros p l Hn Hin. destruct (in_split _ _ Hin) as (l1 & l2 & ->). exists l1, l2. split; auto.
  apply NoDup_remove in Hn. destruct Hn as [_ Hn]. rewrite in_app_iff in Hn.
  rewrite filter_app. cbn [filter]. rewrite Z.eqb_refl. cbn [negb]. rewrite !filter_none; tauto.
Qed.

Lemma lookup_in : forall id P l, lookup id l = Some P -> In (id, P) l.
Proof.
  intros id P l H. unfold lookup in H. destruct (find _ l) as [[i Q]|] eqn:E; [|discriminate].
  injection H as ->. apply find_some in E. cbn in E. destruct E as [E1 E2]. apply Z.eqb_eq in E2. now subst.
Qed.
Lemma lookup_none : forall id P l, lookup id l = None -> ~ In (id, P) l.
Proof.
  intros id P l H Hin. unfold lookup in H. destruct (find _ l) as [[i Q]|] eqn:E; [discriminate|].
  pose proof (find_none _ _ E _ Hin) as K. cbn in K. rewrite Z.eqb_refl in K. discriminate.
Qed.
Lemma lookup_some : forall id P l, NoDup (map fst l) -> In (id, P) l -> lookup id l = Some P.
Proof.
  intros id P l Hn Hin. destruct (lookup id l) as [Q|] eqn:E.
  - apply lookup_in in E. f_equal. clear - Hn Hin E. induction l as [|[i R] l IH]; [destruct Hin|].
    cbn in Hn. inversion Hn as [|? ? Hni Hn']; subst.
    destruct Hin as [Hin|Hin], E as [E|E].
    + congruence.
    + injection Hin as -> ->. exfalso. apply Hni. apply in_map_iff. exists (id, Q). auto.
    + injection E as -> ->. exfalso. apply Hni. apply in_map_iff. exists (id, P). auto.
    + auto.
  - exfalso. eapply lookup_none; eauto.
Qed.

Lemma in_set_pool : forall id P l i Q, In (i, Q) (set_pool id P l) -> (i = id /\ Q = P /\ exists R, In (id, R) l) \/ (i <> id /\ In (i, Q) l).
Proof.
  intros id P l i Q H. unfold set_pool in H. apply in_map_iff in H. destruct H as ([j R] & E & Hin). cbn in E.
  destruct (j =? id) eqn:Ej.
  - injection E as <- <-. apply Z.eqb_eq in Ej. subst. left. eauto.
  - injection E as <- <-. apply Z.eqb_neq in Ej. auto.
Qed.
Lemma set_pool_ids : forall id P l, map fst (set_pool id P l) = map fst l.
Proof.
  intros id P l. unfold set_pool. rewrite map_map. apply map_ext. intros [j R]. cbn. destruct (j =? id) eqn:E; auto.
  cbn. lia.
Qed.
Lemma set_pool_id : forall id P l, lookup id l = Some P -> NoDup (map fst l) -> set_pool id P l = l.
Proof.
  intros id P l H Hn. unfold set_pool. rewrite <- (map_id l) at 2. apply map_ext_in. intros [j R] Hin. cbn.
  destruct (j =? id) eqn:E; auto. apply Z.eqb_eq in E. subst. rewrite (lookup_some _ _ _ Hn Hin) in H. congruence.
Qed.

Section Hist.
Variable e : env.
Hypothesis He : env_ok e.
Hypothesis Hcp : 0 <= e_ncpus e.
Notation psz := (e_page e).
Notation page := (PoolVM.page e).
Notation geom := (geom e).
Notation rinv := (rinv e).
Notation pinv := (pinv e).
Notation poisoned := (poisoned e).
Notation vmwf := (vmwf e).

Record winv (strict : bool) (v0 : vm) (w : world) (L F : ledger) : Prop := {
  wi_wf : vmwf (w_vm w);
  wi_ids : NoDup (map fst (w_pools w));
  wi_pools : forall id P, In (id, P) (w_pools w) -> pinv P (items id F) (items id L) (w_vm w);
  wi_poison : strict = true -> forall id P a, In (id, P) (w_pools w) -> robust_set (pattr P) = true ->
    In a (items id F) -> poisoned P (w_vm w) a;
  wi_apart : forall id P id' P' a, In (id, P) (w_pools w) -> In (id', P') (w_pools w) -> pregion P a -> pregion P' a -> id = id';
  wi_own : forall a, mapped v0 (page a) = true ->
    mapped (w_vm w) (page a) = true /\ forall id P, In (id, P) (w_pools w) -> ~ pregion P a;
  wi_known : forall id a, In (id, a) (L ++ F) -> exists P, In (id, P) (w_pools w)
}.

Lemma poison_region : forall P free live v v' a, pinv P free live v -> In a free ->
  vframe e (pregion P) v v' -> poisoned P v a -> poisoned P v' a.
Proof.
  intros P free live v v' a HI Ha HF Hp. pose proof (pi_geom _ _ _ _ _ HI) as HG. pose proof (pi_ranges _ _ _ _ _ HI) as HRs.
  destruct (slot_item e P v a HG HRs) as (r & Hr & HR & H1 & H2 & H3).
  { apply (pi_slots _ _ _ _ _ HI), in_or_app. auto. }
  replace a with (base r + (a - base r)) in * by ring. eapply poisoned_ext; eauto; try lia.
  intros x Hx. apply (fr_view _ _ _ _ HF). exists r. split; auto. eapply inF_region; eauto.
Qed.

Lemma winv_update : forall strict v0 w L F id P P' v' L' F',
  winv strict v0 w L F -> In (id, P) (w_pools w) -> vmwf v' ->
  vframe e (fun a => mapped (w_vm w) (page a) = true /\ ~ pregion P a) (w_vm w) v' ->
  grows e P P' (w_vm w) ->
  pinv P' (items id F') (items id L') v' ->
  (strict = true -> robust_set (pattr P') = true -> forall a, In a (items id F') -> poisoned P' v' a) ->
  (forall id', id' <> id -> items id' L' = items id' L /\ items id' F' = items id' F) ->
  winv strict v0 {| w_vm := v'; w_pools := set_pool id P' (w_pools w) |} L' F'.
Proof.
  intros strict v0 w L F id P P' v' L' F' HW Hin Hwf' Hfr [Hg1 Hg2] HI' Hpo Hoth.
  assert (Hframe : forall i Q, In (i, Q) (w_pools w) -> i <> id -> vframe e (pregion Q) (w_vm w) v').
  { intros i Q Hi Hne. eapply vframe_sub; [exact Hfr|]. intros a Ha. split.
    - eapply pregion_mapped; [|exact Ha]. apply (wi_pools _ _ _ _ _ HW _ _ Hi).
    - intros Hp. apply Hne. eapply (wi_apart _ _ _ _ _ HW); eauto. }
  constructor; cbn [w_vm w_pools]; auto.
  - rewrite set_pool_ids. apply (wi_ids _ _ _ _ _ HW).
  - intros i Q Hi. apply in_set_pool in Hi. destruct Hi as [(-> & -> & _)|[Hne Hi]]; auto.
    destruct (Hoth _ Hne) as [-> ->]. eapply pinv_frame; eauto. apply (wi_pools _ _ _ _ _ HW); auto.
  - intros Hst i Q a Hi Hrob Ha. apply in_set_pool in Hi. destruct Hi as [(-> & -> & _)|[Hne Hi]]; auto.
    destruct (Hoth _ Hne) as [_ E]. rewrite E in Ha.
    eapply poison_region; eauto; [apply (wi_pools _ _ _ _ _ HW _ _ Hi)|]. eapply (wi_poison _ _ _ _ _ HW); eauto.
  - assert (Hcross : forall i Q a, In (i, Q) (w_pools w) -> i <> id -> pregion Q a -> pregion P' a -> False).
    { intros i Q a Hi Hne Ha Hp'. destruct (Hg2 _ Hp') as [Hp|Hm].
      - apply Hne. eapply (wi_apart _ _ _ _ _ HW); eauto.
      - rewrite (pregion_mapped e Q (w_vm w) a) in Hm; auto; [discriminate|]. apply (wi_pools _ _ _ _ _ HW _ _ Hi). }
    intros i Q i' Q' a Hi Hi' Ha Ha'. apply in_set_pool in Hi. apply in_set_pool in Hi'.
    destruct Hi as [(-> & -> & _)|[Hne Hi]], Hi' as [(-> & -> & _)|[Hne' Hi']]; auto.
    + exfalso. eapply Hcross; eauto.
    + exfalso. eapply Hcross; eauto.
    + eapply (wi_apart _ _ _ _ _ HW); eauto.
  - intros a Ha. destruct (wi_own _ _ _ _ _ HW _ Ha) as [Hm Hno]. split.
    + rewrite (fr_mapped _ _ _ _ Hfr); auto. split; auto. eapply Hno; eauto.
    + intros i Q Hi Hp. apply in_set_pool in Hi. destruct Hi as [(-> & -> & _)|[Hne Hi]].
      * destruct (Hg2 _ Hp) as [Hp'|Hm']; [eapply Hno; eauto|congruence].
      * eapply Hno; eauto.
  - intros i a Hi. destruct (Z.eq_dec i id) as [->|Hne].
    + exists P'. unfold set_pool. apply in_map_iff. exists (id, P). cbn. now rewrite Z.eqb_refl.
    + assert (K : In (i, a) (L ++ F)).
      { destruct (Hoth _ Hne) as [E1 E2]. rewrite in_app_iff in *. rewrite <- !in_items in *. rewrite E1, E2 in Hi. auto. }
      destruct (wi_known _ _ _ _ _ HW _ _ K) as [Q HQ]. exists Q. unfold set_pool. apply in_map_iff.
      exists (i, Q). cbn. apply Z.eqb_neq in Hne. now rewrite Hne.
Qed.

(** Two worlds that differ by memory no pool uses. *)
Lemma winv_frame : forall strict v0 w L F v', winv strict v0 w L F -> vmwf v' ->
  vframe e (fun a => mapped (w_vm w) (page a) = true) (w_vm w) v' ->
  winv strict v0 {| w_vm := v'; w_pools := w_pools w |} L F.
Proof.
  intros strict v0 w L F v' HW Hwf Hfr.
  assert (Hframe : forall i Q, In (i, Q) (w_pools w) -> vframe e (pregion Q) (w_vm w) v').
  { intros i Q Hi. eapply vframe_sub; [exact Hfr|]. intros a Ha.
    eapply pregion_mapped; [|exact Ha]. apply (wi_pools _ _ _ _ _ HW _ _ Hi). }
  destruct HW as [W1 W2 W3 W4 W5 W6 W7]. constructor; cbn [w_vm w_pools]; auto.
  - intros i Q Hi. eapply pinv_frame; eauto.
  - intros Hst i Q a Hi Hrob Ha. eapply poison_region; eauto.
  - intros a Ha. destruct (W6 _ Ha) as [Hm Hno]. split; auto. rewrite (fr_mapped _ _ _ _ Hfr); auto.
Qed.

Lemma live_pregion : forall P free live v a, pinv P free live v -> In a (free ++ live) -> pregion P a.
Proof.
  intros P free live v a HI Ha. pose proof (pi_geom _ _ _ _ _ HI) as HG. pose proof (pi_ranges _ _ _ _ _ HI) as HRs.
  destruct (slot_item e P v a HG HRs) as (r & Hr & HR & H1 & H2 & H3).
  { apply (pi_slots _ _ _ _ _ HI). auto. }
  exists r. split; auto. unfold region. rewrite (r_addr _ _ _ _ HR), (r_len _ _ _ _ HR).
  pose proof (g_psz _ _ HG). pose proof (strd_pos _ _ HG). pose proof (nd_bounds P). pose proof (na_bounds P).
  pose proof (g_cpus _ _ HG). pose proof (item_pos _ _ HG). nia.
Qed.

Lemma item_byte_inF : forall P v r off x, geom P -> rinv P v r -> 0 <= off -> off + item_len P <= strd P ->
  item_byte P (base r + off) x -> inF P r off (item_len P) x.
Proof.
  intros P v r off x HG HR Ho Hol (cpu & k & Hc & Hk & ->). unfold percpu_ptr.
  replace (base r + off + strd P * cpu + k) with (base r + strd P * cpu + (off + k)) by ring.
  pose proof (strd_pos _ _ HG). pose proof (nd_bounds P). pose proof (na_bounds P).
  apply inF_area; auto; lia.
Qed.

(** An item has one owner. *)
Lemma one_owner : forall strict v0 w L F id id' a, winv strict v0 w L F -> In (id, a) (L ++ F) -> In (id', a) (L ++ F) -> id = id'.
Proof.
  intros strict v0 w L F id id' a HW H H'.
  destruct (wi_known _ _ _ _ _ HW _ _ H) as [P HP]. destruct (wi_known _ _ _ _ _ HW _ _ H') as [P' HP'].
  assert (K : forall i Q, In (i, Q) (w_pools w) -> In (i, a) (L ++ F) -> pregion Q a).
  { intros i Q Hi Ha. eapply live_pregion; [apply (wi_pools _ _ _ _ _ HW _ _ Hi)|].
    rewrite in_app_iff in *. rewrite !in_items. tauto. }
  eapply (wi_apart _ _ _ _ _ HW); eauto.
Qed.

Lemma holder_spec : forall strict v0 w L F id a, winv strict v0 w L F -> In (id, a) L -> holder L a = Some (id, a).
Proof.
  intros strict v0 w L F id a HW Hin. unfold holder. destruct (find _ L) as [[i b]|] eqn:E.
  - apply find_some in E. cbn in E. destruct E as [E1 E2]. apply Z.eqb_eq in E2. subst b.
    assert (i = id) by (apply (one_owner strict v0 w L F i id a HW); apply in_or_app; auto). now subst.
  - exfalso. pose proof (find_none _ _ E _ Hin) as K. cbn in K. rewrite Z.eqb_refl in K. discriminate.
Qed.

Lemma find_owner_spec : forall strict v0 w L F id P r, winv strict v0 w L F -> In (id, P) (w_pools w) -> In r (range_list P) ->
  find_owner (w_pools w) (base r) = Some (id, P, r).
Proof.
  intros strict v0 w L F id P r HW Hin Hr.
  assert (Hreg : forall i Q r', In (i, Q) (w_pools w) -> In r' (range_list Q) -> pregion Q (base r')).
  { intros i Q r' Hi Hr'. pose proof (wi_pools _ _ _ _ _ HW _ _ Hi) as HI. exists r'. split; auto.
    eapply base_region; [apply (pi_geom _ _ _ _ _ HI)|]. pose proof (pi_ranges _ _ _ _ _ HI) as HF.
    rewrite Forall_forall in HF. eauto. }
  assert (Hu : forall i Q r', In (i, Q) (w_pools w) -> find_range (range_list Q) (base r) = Some r' -> (i, Q, r') = (id, P, r)).
  { intros i Q r' Hi Hf. apply find_range_base in Hf. destruct Hf as [Hf1 Hf2].
    assert (i = id).
    { apply (wi_apart _ _ _ _ _ HW i Q id P (base r)); eauto. rewrite <- Hf2. eauto. }
    subst i. assert (Q = P).
    { pose proof (lookup_some _ _ _ (wi_ids _ _ _ _ _ HW) Hi). pose proof (lookup_some _ _ _ (wi_ids _ _ _ _ _ HW) Hin). congruence. }
    subst Q. apply (f_equal (fun y => (id, P, y))). pose proof (wi_pools _ _ _ _ _ HW _ _ Hi) as HI.
    eapply (same_base e P (w_vm w) (range_list P)); auto; apply HI. }
  assert (Hf : find_range (range_list P) (base r) = Some r).
  { pose proof (wi_pools _ _ _ _ _ HW _ _ Hin) as HI. eapply (find_range_in e P (w_vm w)); auto; apply HI. }
  revert Hin Hu. generalize (w_pools w). intros l. induction l as [|[i Q] l IH]; intros Hin Hu; [destruct Hin|].
  cbn [find_owner]. destruct (find_range (range_list Q) (base r)) as [r'|] eqn:E.
  - apply (f_equal Some). apply Hu; [now left|exact E].
  - destruct Hin as [Hin|Hin].
    + injection Hin as -> ->. congruence.
    + apply IH; auto. intros i' Q' r' Hi'. apply Hu. now right.
Qed.

(** ** The operations *)
Section Ops.
Variables (strict : bool) (v0 : vm) (w : world) (L F : ledger).
Hypothesis HW : winv strict v0 w L F.
Notation v := (w_vm w).

Lemma unique_pool : forall id P P', In (id, P) (w_pools w) -> In (id, P') (w_pools w) -> P = P'.
Proof.
  intros id P P' H H'. pose proof (lookup_some _ _ _ (wi_ids _ _ _ _ _ HW) H).
  pose proof (lookup_some _ _ _ (wi_ids _ _ _ _ _ HW) H'). congruence.
Qed.

Lemma op_create : forall id named len at_ an w' x, allowed e strict v0 w L (OCreate id named len at_ an) ->
  run1 e (OCreate id named len at_ an) w = Ok (w', x) ->
  winv strict v0 w' L F.
Proof.
  intros id named len at_ an w' x (Hnone & Hlen & Hat & Hfit) Hrun. cbn [run1] in Hrun.
  pose proof (mempool_create_spec e He named len at_ an v Hlen Hat Hcp Hfit (wi_wf _ _ _ _ _ HW)) as Hp.
  destruct Hp as [Hp|o Hp Ht|Hno|o v' Hacc Hwf' Hfr Hr|o P v' Hacc Ea El Eo HI Hwf' Hfr Hreg Hnr]; try discriminate Hrun.
  - cbn in Hrun. injection Hrun as <- <-. destruct w; exact HW.
  - cbn in Hrun. injection Hrun as <- <-. apply winv_frame; auto.
  - cbn in Hrun. injection Hrun as <- <-.
    assert (HW' : winv strict v0 {| w_vm := v'; w_pools := w_pools w |} L F) by (apply winv_frame; auto).
    assert (Hnew : forall a, ~ In (id, a) (L ++ F)).
    { intros a Ha. destruct (wi_known _ _ _ _ _ HW _ _ Ha) as [Q HQ]. eapply lookup_none; eauto. }
    assert (EL : items id L = [] /\ items id F = []).
    { split; [destruct (items id L) as [|a l] eqn:E|destruct (items id F) as [|a l] eqn:E]; auto; exfalso;
        apply (Hnew a); apply in_or_app; rewrite <- !in_items, E; cbn; auto. }
    destruct EL as [EL EF].
    assert (Hnid : forall Q, ~ In (id, Q) (w_pools w)) by (intros Q HQ; eapply lookup_none; eauto).
    assert (Hsep : forall i Q a, In (i, Q) (w_pools w) -> pregion Q a -> pregion P a -> False).
    { intros i Q a Hi Ha Hpa. apply Hreg in Hpa. rewrite (pregion_mapped e Q v a) in Hpa; auto; [discriminate|].
      apply (wi_pools _ _ _ _ _ HW _ _ Hi). }
    destruct HW' as [W1 W2 W3 W4 W5 W6 W7]. cbn [w_vm w_pools] in *. constructor; cbn [w_vm w_pools map]; auto.
    + constructor; auto. intros Hi. apply in_map_iff in Hi. destruct Hi as ([i Q] & E & Hi). cbn in E. subst i. eapply Hnid; eauto.
    + intros i Q [Hi|Hi]; auto. injection Hi as <- <-. now rewrite EL, EF.
    + intros Hst i Q a [Hi|Hi] Hrob Ha; [|exact (W4 Hst i Q a Hi Hrob Ha)].
      injection Hi as <- <-. rewrite EF in Ha. destruct Ha.
    + intros i Q i' Q' a [Hi|Hi] [Hi'|Hi'] Ha Ha'.
      * injection Hi as <- <-. injection Hi' as <- <-. auto.
      * injection Hi as <- <-. exfalso. exact (Hsep _ _ _ Hi' Ha' Ha).
      * injection Hi' as <- <-. exfalso. exact (Hsep _ _ _ Hi Ha Ha').
      * exact (W5 _ _ _ _ _ Hi Hi' Ha Ha').
    + intros a Ha. destruct (W6 _ Ha) as [K1 K2]. split; auto. intros i Q [Hi|Hi]; [|exact (K2 i Q Hi)].
      injection Hi as <- <-. intros Hpa. apply Hreg in Hpa. destruct (wi_own _ _ _ _ _ HW _ Ha). congruence.
    + intros i a Ha. destruct (W7 _ _ Ha) as [Q HQ]. exists Q. now right.
Qed.

Lemma op_malloc : forall id an w' x, allowed e strict v0 w L (OMalloc id an) ->
  run1 e (OMalloc id an) w = Ok (w', x) ->
  winv strict v0 w' (live_after (OMalloc id an) x L) (freed_after (OMalloc id an) x L F).
Proof.
  intros id an w' x (P & Hl) Hrun. cbn [run1] in Hrun. rewrite Hl in Hrun.
  pose proof (lookup_in _ _ _ Hl) as Hin. pose proof (wi_pools _ _ _ _ _ HW _ _ Hin) as HI.
  pose proof (malloc_locked_spec e P (items id F) (items id L) an v HI (wi_wf _ _ _ _ _ HW)) as Hp.
  pose proof (pi_nodup _ _ _ _ _ HI) as Hnd.
  assert (Hoth : forall a id', id' <> id ->
    items id' ((id, a) :: L) = items id' L /\ items id' (filter (fun i => negb (same_item i (id, a))) F) = items id' F).
  { intros a id' Hne. rewrite items_cons, items_del_item. cbn [fst snd].
    replace (id =? id') with false by lia. replace (id' =? id) with false by lia. auto. }
  assert (Eself : forall a, items id ((id, a) :: L) = a :: items id L).
  { intros a. rewrite items_cons. cbn [fst snd]. now rewrite Z.eqb_refl. }
  destruct Hp as [Ef Ht|a free' Ef Hrob Hnp|a free' r off P' Ef Hpo HS Hr Ea Hd Ho Hol Hnr Hg HI'
    |a r off P' v' Ef HS Hr Ea Hd Ho Hol Hg HI' Hwf' Hfr|v' Ef Hfull Hwhy Hwf' Hfr]; try discriminate Hrun;
    cbn [bind] in Hrun; injection Hrun as <- <-; cbn [live_after freed_after].
  - assert (EF : items id (filter (fun i => negb (same_item i (id, a))) F) = free').
    { rewrite items_del_item, Z.eqb_refl, Ef. cbn [filter]. rewrite Z.eqb_refl. cbn [negb].
      apply filter_none. rewrite Ef in Hnd. cbn in Hnd. inversion Hnd as [|? ? Hn _]; subst. rewrite in_app_iff in Hn. tauto. }
    eapply winv_update; eauto using vframe_refl.
    + apply (wi_wf _ _ _ _ _ HW).
    + now rewrite EF, Eself.
    + intros Hst Hrob b Hb. rewrite EF in Hb. eapply s_poisoned; [exact HS|].
      eapply (wi_poison _ _ _ _ _ HW); eauto.
      * destruct HS as (E & _). congruence.
      * rewrite Ef. now right.
  - assert (EF : items id (filter (fun i => negb (same_item i (id, a))) F) = []).
    { rewrite items_del_item, Z.eqb_refl, Ef. reflexivity. }
    eapply winv_update; eauto.
    + eapply vframe_sub; [exact Hfr|]. cbn. tauto.
    + now rewrite EF, Eself.
    + intros Hst Hrob b Hb. rewrite EF in Hb. destruct Hb.
  - rewrite set_pool_id by (auto; apply (wi_ids _ _ _ _ _ HW)). apply winv_frame; auto.
Qed.

Lemma live_range : forall id P a, In (id, P) (w_pools w) -> In (id, a) L ->
  exists r off, In r (range_list P) /\ a = base r + off /\ rinv P v r /\ (item_len P | off) /\ 0 <= off /\ off + item_len P <= strd P.
Proof.
  intros id P a Hin Ha. eapply live_item; [apply (wi_pools _ _ _ _ _ HW _ _ Hin)|]. now apply in_items.
Qed.

Lemma fill_run : forall id P a c, In (id, P) (w_pools w) -> In (id, a) L -> content_fits P c ->
  exists w' r, run1 e (OFill id a c) w = Ok (w', OutUnit) /\ w_pools w' = w_pools w /\ winv strict v0 w' L F /\
    In r (range_list P) /\ (0 <= a - base r /\ a - base r + item_len P <= strd P /\ (item_len P | a - base r)) /\
    (forall cpu, 0 <= cpu < nd P -> holds e P c (w_vm w') a cpu) /\
    vframe e (fun x => ~ inF P r (a - base r) (item_len P) x) v (w_vm w') /\ (forall q, mapped (w_vm w') q = mapped v q).
Proof.
  intros id P a c Hin Ha Hc. pose proof (wi_pools _ _ _ _ _ HW _ _ Hin) as HI.
  pose proof (pi_geom _ _ _ _ _ HI) as HG.
  destruct (live_range _ _ _ Hin Ha) as (r & off & Hr & Ea & HR & Hd & Ho & Hol).
  pose proof (item_pos _ _ HG).
  destruct (fill_item_spec e P (items id F) (items id L) v r off c HI (wi_wf _ _ _ _ _ HW) Hr) as (v' & E & Hwf' & HI' & Hfr & Hh & Hm); auto.
  { rewrite <- Ea. now apply in_items. }
  cbn [run1]. rewrite (lookup_some _ _ _ (wi_ids _ _ _ _ _ HW) Hin). unfold free_base. subst a.
  rewrite (base_of e P v r HG HR) by lia.
  rewrite (find_range_in e P v); auto; try apply HI.
  replace (base r + off - base r) with off by ring. rewrite E. cbn [bind].
  eexists. exists r. split; [reflexivity|]. split; [reflexivity|]. cbn [w_vm].
  split.
  { rewrite <- (set_pool_id id P (w_pools w)); [|apply lookup_some; auto; apply (wi_ids _ _ _ _ _ HW)|apply (wi_ids _ _ _ _ _ HW)].
    eapply winv_update; eauto.
    - eapply vframe_sub; [exact Hfr|]. intros x [_ Hx] Hin'. apply Hx. exists r. split; auto. eapply inF_region; eauto.
    - split; auto.
    - intros Hst Hrob b Hb. 
      assert (Hpb : poisoned P v b) by (eapply (wi_poison _ _ _ _ _ HW); eauto).
      destruct (slot_item e P v b HG) as (r2 & Hr2 & HR2 & H1 & H2 & H3); [apply HI| |].
      { apply (pi_slots _ _ _ _ _ HI), in_or_app. auto. }
      replace b with (base r2 + (b - base r2)) in * by ring. eapply poisoned_ext; eauto; try lia.
      intros y Hy. apply (fr_view _ _ _ _ Hfr). intros Hy2.
      replace (base r2 + (b - base r2)) with b in * by ring.
      assert (b = base r + off).
      { eapply (slots_disjoint e P v b (base r + off) r2 r y); eauto; try apply HI;
          replace (base r + off - base r) with off by ring; auto. }
      pose proof (pi_nodup _ _ _ _ _ HI) as Hnd. clear - Hnd Hb Ha H0. subst b.
      apply in_items in Ha. destruct (in_split _ _ Ha) as (l1 & l2 & E). rewrite E in Hnd. rewrite app_assoc in Hnd.
      apply NoDup_remove_2 in Hnd. apply Hnd. rewrite <- app_assoc. apply in_or_app. auto. }
  split; auto. split; [replace (base r + off - base r) with off by ring; auto|]. split; [|split].
  - auto.
  - replace (base r + off - base r) with off by ring. exact Hfr.
  - exact Hm.
Qed.

Lemma free_run : forall id P a, In (id, P) (w_pools w) -> In (id, a) L ->
  exists w' r P', run1 e (OFree a (strd P)) w = Ok (w', OutUnit) /\ w_pools w' = set_pool id P' (w_pools w) /\ same P P' /\
    nr_ranges P' = nr_ranges P /\
    winv strict v0 w' (live_after (OFree a (strd P)) OutUnit L) (freed_after (OFree a (strd P)) OutUnit L F) /\
    In r (range_list P) /\ (0 <= a - base r /\ a - base r + item_len P <= strd P /\ (item_len P | a - base r)) /\
    (robust_set (pattr P) = true -> poisoned P' (w_vm w') a) /\
    vframe e (fun x => ~ inF P r (a - base r) (item_len P) x) v (w_vm w') /\ (forall q, mapped (w_vm w') q = mapped v q).
Proof.
  intros id P a Hin Ha. pose proof (wi_pools _ _ _ _ _ HW _ _ Hin) as HI.
  pose proof (pi_geom _ _ _ _ _ HI) as HG.
  destruct (live_range _ _ _ Hin Ha) as (r & off & Hr & Ea & HR & Hd & Ho & Hol).
  pose proof (item_pos _ _ HG) as [Hip Hipw]. pose proof (pi_nodup _ _ _ _ _ HI) as Hnd.
  assert (HndL : NoDup (items id L)).
  { clear - Hnd. induction (items id F); auto. apply IHl. cbn in Hnd. now inversion Hnd. }
  assert (HaL : In a (items id L)) by now apply in_items.
  destruct (filter_split a (items id L) HndL HaL) as (l1 & l2 & El & Efl).
  pose proof HI as HIc. rewrite El in HI.
  destruct (free_in_spec e P (items id F) l1 a l2 v r off HI (wi_wf _ _ _ _ _ HW) Hr Ea) as (P' & v' & E & HS & Hnr & HI' & Hwf' & Hfr & Hm & Hpo & Hreg); auto.
  cbn [run1]. unfold free_base. replace (Z.land a (notw (e_wide e) (strd P - 1))) with (base r) by (rewrite Ea; symmetry; apply (base_of e P v r HG HR); lia).
  rewrite (find_owner_spec _ _ _ _ _ id P r HW Hin Hr). rewrite E. cbn [bind].
  eexists. exists r, P'. split; [reflexivity|]. cbn [w_vm w_pools]. split; [reflexivity|]. split; [exact HS|]. split; [exact Hnr|].
  split.
  { cbn [live_after freed_after]. rewrite (holder_spec _ _ _ _ _ id a HW Ha).
    assert (EL : items id (filter (fun i => negb (snd i =? a)) L) = l1 ++ l2) by (rewrite items_del_ptr; auto).
    assert (EF : items id ((id, a) :: F) = a :: items id F).
    { rewrite items_cons. cbn [fst snd]. now rewrite Z.eqb_refl. }
    eapply winv_update; eauto.
    - eapply vframe_sub; [exact Hfr|]. intros x [_ Hx] Hin'. apply Hx. exists r. split; auto. eapply inF_region; eauto.
    - split; [intros x Hx; now apply Hreg|intros x Hx; left; now apply Hreg].
    - now rewrite EL, EF.
    - intros Hst Hrob b Hb. rewrite EF in Hb.
      assert (Hrob' : robust_set (pattr P) = true) by (destruct HS as (E' & _); congruence).
      destruct Hb as [<-|Hb]; auto.
      assert (Hpb : poisoned P v b) by (eapply (wi_poison _ _ _ _ _ HW); eauto).
      eapply s_poisoned; [exact HS|].
      destruct (slot_item e P v b HG) as (r2 & Hr2 & HR2 & H1 & H2 & H3); [apply HIc| |].
      { apply (pi_slots _ _ _ _ _ HIc), in_or_app. auto. }
      replace b with (base r2 + (b - base r2)) in * by ring. eapply poisoned_ext; eauto; try lia.
      intros y Hy. apply (fr_view _ _ _ _ Hfr). intros Hy2.
      replace (base r2 + (b - base r2)) with b in * by ring.
      assert (Hba : b = base r + off).
      { eapply (slots_disjoint e P v b (base r + off) r2 r y); eauto; try apply HIc;
          replace (base r + off - base r) with off by ring; auto. }
      rewrite El in Hnd. rewrite app_assoc in Hnd. apply NoDup_remove_2 in Hnd. apply Hnd. rewrite <- app_assoc.
      apply in_or_app. left. now rewrite Ea, <- Hba.
    - intros id' Hne. rewrite items_del_ptr, items_cons. cbn [fst snd].
      replace (id =? id') with false by lia. split; auto. apply filter_none. intros Hin'. apply in_items in Hin'.
      apply Hne. apply (one_owner strict v0 w L F id' id a HW); apply in_or_app; auto. }
  split; auto. split; [replace (a - base r) with off by lia; auto|]. split; [exact Hpo|]. split; [|exact Hm].
  replace (a - base r) with off by lia. exact Hfr.
Qed.

Lemma op_write : forall ps w' x, allowed e strict v0 w L (OWrite ps) -> run1 e (OWrite ps) w = Ok (w', x) ->
  winv strict v0 w' L F.
Proof.
  intros ps w' x Hok Hrun. cbn [allowed] in Hok. cbn [run1] in Hrun.
  destruct (forallb _ ps); [|discriminate]. injection Hrun as <- <-.
  pose proof (wi_wf _ _ _ _ _ HW) as Hwf.
  assert (Hinitem : forall i Q a y, In (i, Q) (w_pools w) -> In (i, a) L -> item_byte Q a y ->
    exists r off, In r (range_list Q) /\ a = base r + off /\ rinv Q v r /\ (item_len Q | off) /\ 0 <= off /\ off + item_len Q <= strd Q /\
      inF Q r off (item_len Q) y).
  { intros i Q a y Hi Ha Hb. destruct (live_range _ _ _ Hi Ha) as (r & off & Hr & -> & HR & Hd & Ho & Hol).
    exists r, off. do 6 (split; [auto; fail|]). eapply item_byte_inF; eauto. apply (wi_pools _ _ _ _ _ HW _ _ Hi). }
  assert (Hkey : forall id P y, In (id, P) (w_pools w) -> In y (map fst ps) ->
    (forall r, In r (range_list P) -> ~ region r y) \/
    (exists r off, In r (range_list P) /\ In (base r + off) (items id L) /\ (item_len P | off) /\ 0 <= off /\ inF P r off (item_len P) y) \/
    strict = false /\ robust_set (pattr P) = true /\ exists r, In r (range_list P) /\ base r <= y < base r + strd P * nd P).
  { intros id P y Hin Hy. destruct (Hok _ Hy) as [[Hown|(i & Q & a & Hi & Ha & Hb)]|[Hs (i & Q & r & Hi & Hrob & Hr & Hb)]].
    - left. intros r Hr Hreg. destruct (wi_own _ _ _ _ _ HW _ Hown) as [_ K]. apply (K _ _ Hin). exists r. auto.
    - destruct (Hinitem _ _ _ _ Hi Ha Hb) as (r & off & Hr & Ea & HR & Hd & Ho & Hol & HinF).
      destruct (Z.eq_dec i id) as [->|Hne].
      + rewrite (unique_pool _ _ _ Hi Hin) in *. right. left. exists r, off. split; auto. split; [|auto].
        rewrite <- Ea. now apply in_items.
      + left. intros r' Hr' Hreg. apply Hne. eapply (wi_apart _ _ _ _ _ HW _ Q _ P); eauto; [|exists r'; eauto].
        exists r. split; auto. eapply inF_region; eauto. apply (wi_pools _ _ _ _ _ HW _ _ Hi).
    - destruct (Z.eq_dec i id) as [->|Hne].
      + rewrite (unique_pool _ _ _ Hi Hin) in *. right. right. eauto 6.
      + left. intros r' Hr' Hreg. apply Hne. eapply (wi_apart _ _ _ _ _ HW _ Q _ P); eauto; [|exists r'; eauto].
        pose proof (wi_pools _ _ _ _ _ HW _ _ Hi) as HIQ. pose proof (pi_geom _ _ _ _ _ HIQ) as HGQ.
        pose proof (pi_ranges _ _ _ _ _ HIQ) as HRQ. rewrite Forall_forall in HRQ. specialize (HRQ _ Hr).
        change (copies Q) with (nd Q) in Hb.
        exists r. split; auto. unfold region. rewrite (r_addr _ _ _ _ HRQ), (r_len _ _ _ _ HRQ).
        pose proof (g_psz _ _ HGQ). pose proof (strd_pos _ _ HGQ). pose proof (nd_bounds Q). pose proof (na_bounds Q). nia. }
  constructor; cbn [w_vm w_pools]; try apply HW.
  - now apply store_wf.
  - intros id P Hin. pose proof (wi_pools _ _ _ _ _ HW _ _ Hin) as HI. apply pinv_store; auto.
    intros y Hy. destruct (Hkey _ _ _ Hin Hy) as [K|[K|(_ & K1 & r & Hr & K2)]]; [left; exact K|right; left; exact K|].
    right. right. split; auto. exists r. auto.
  - intros Hst id P b Hin Hrob Hb. pose proof (wi_pools _ _ _ _ _ HW _ _ Hin) as HI. pose proof (pi_geom _ _ _ _ _ HI) as HG.
    assert (Hpb : poisoned P v b) by (eapply (wi_poison _ _ _ _ _ HW); eauto).
    destruct (slot_item e P v b HG) as (r2 & Hr2 & HR2 & H1 & H2 & H3); [apply HI| |].
    { apply (pi_slots _ _ _ _ _ HI), in_or_app. auto. }
    replace b with (base r2 + (b - base r2)) in * by ring. eapply poisoned_ext; eauto; try lia.
    replace (base r2 + (b - base r2)) with b in * by ring.
    intros y Hy. apply view_store_other; [apply (g_psz _ _ HG)|exact Hwf|]. intros z Hz Hal.
    assert (Hregy : region r2 y) by (eapply inF_region; eauto).
    destruct (Hkey _ _ _ Hin Hz) as [K|[(r & off & Hr & Hoff & Hd & Ho & HinF)|(K & _)]]; [| |congruence].
    + apply (K r2 Hr2). eapply alias_region; eauto.
    + assert (HR : rinv P v r) by (pose proof (pi_ranges _ _ _ _ _ HI) as HRs; rewrite Forall_forall in HRs; auto).
      assert (Hrr : r = r2).
      { destruct (ordpairs_in _ _ _ (pi_apart _ _ _ _ _ HI) Hr Hr2) as [->|Hap]; auto. exfalso.
        apply (apart_regions r r2 z Hap); [eapply inF_region; eauto|eapply alias_region; eauto]. }
      subst r2.
      assert (HinFy : inF P r off (item_len P) y) by (eapply alias_inF; eauto).
      assert (Eo : off = b - base r) by (eapply (inF_disjoint e); eauto).
      pose proof (pi_nodup _ _ _ _ _ HI) as Hnd. rewrite Eo in Hoff. replace (base r + (b - base r)) with b in Hoff by ring.
      destruct (in_split _ _ Hoff) as (l1 & l2 & E). rewrite E in Hnd. rewrite app_assoc in Hnd.
      apply NoDup_remove_2 in Hnd. apply Hnd. rewrite <- app_assoc. apply in_or_app. auto.
  - intros a Ha. rewrite store_mapped. apply (wi_own _ _ _ _ _ HW _ Ha).
Qed.

Lemma op_destroy : forall id an w' x, allowed e strict v0 w L (ODestroy id an) -> run1 e (ODestroy id an) w = Ok (w', x) ->
  winv strict v0 w' (live_after (ODestroy id an) x L) (freed_after (ODestroy id an) x L F).
Proof.
  intros id an w' x (P & Hl) Hrun. cbn [run1] in Hrun. rewrite Hl in Hrun.
  pose proof (lookup_in _ _ _ Hl) as Hin. pose proof (wi_pools _ _ _ _ _ HW _ _ Hin) as HI.
  pose proof (mempool_destroy_spec e P (items id F) (items id L) an v HI (wi_wf _ _ _ _ _ HW)) as Hp.
  destruct Hp as [Hrob Hlk|a Hrob Hlk Ha Hnp|Po v' Hok Hwf' Hfr Hmp Hun Hall Hany]; try discriminate Hrun.
  cbn [bind] in Hrun. injection Hrun as <- <-. cbn [live_after freed_after].
  assert (Hdel : forall i Q, In (i, Q) (del_pool id (w_pools w)) -> i <> id /\ In (i, Q) (w_pools w)).
  { intros i Q Hi. unfold del_pool in Hi. apply filter_In in Hi. cbn in Hi. destruct Hi as [H1 H2].
    apply negb_true_iff, Z.eqb_neq in H2. auto. }
  assert (Hframe : forall i Q, In (i, Q) (w_pools w) -> i <> id -> vframe e (pregion Q) v v').
  { intros i Q Hi Hne. eapply vframe_sub; [exact Hfr|]. intros a Ha Hp. apply Hne. eapply (wi_apart _ _ _ _ _ HW); eauto. }
  assert (Eit : forall i X, i <> id -> items i (filter (fun j => negb (fst j =? id)) X) = items i X).
  { intros i X Hne. rewrite items_del. replace (i =? id) with false by lia. auto. }
  constructor; cbn [w_vm w_pools]; auto.
  - pose proof (wi_ids _ _ _ _ _ HW) as Hn. unfold del_pool. clear - Hn.
    induction (w_pools w) as [|[i Q] l IH]; cbn; auto. cbn in Hn. inversion Hn as [|? ? Hni Hn']; subst.
    destruct (i =? id); cbn; auto. constructor; auto. intros Hi. apply Hni. apply in_map_iff in Hi.
    destruct Hi as (y & E & Hy). apply filter_In in Hy. apply in_map_iff. exists y. tauto.
  - intros i Q Hi. apply Hdel in Hi. destruct Hi as [Hne Hi]. rewrite !Eit by auto.
    eapply pinv_frame; eauto. apply (wi_pools _ _ _ _ _ HW _ _ Hi).
  - intros Hst i Q a Hi Hrob Ha. apply Hdel in Hi. destruct Hi as [Hne Hi]. rewrite Eit in Ha by auto.
    eapply poison_region; eauto; [apply (wi_pools _ _ _ _ _ HW _ _ Hi)|]. eapply (wi_poison _ _ _ _ _ HW); eauto.
  - intros i Q i' Q' a Hi Hi'. apply Hdel in Hi. apply Hdel in Hi'. apply (wi_apart _ _ _ _ _ HW); tauto.
  - intros a Ha. destruct (wi_own _ _ _ _ _ HW _ Ha) as [Hm Hno]. split.
    + rewrite (fr_mapped _ _ _ _ Hfr); auto. eapply Hno; eauto.
    + intros i Q Hi. apply Hdel in Hi. apply (Hno i Q). tauto.
  - intros i a Hi. assert (Hne : i <> id /\ In (i, a) (L ++ F)).
    { rewrite in_app_iff in *. rewrite !filter_In in Hi. cbn in Hi. rewrite negb_true_iff, Z.eqb_neq in Hi. tauto. }
    destruct Hne as [Hne Hk]. destruct (wi_known _ _ _ _ _ HW _ _ Hk) as [Q HQ]. exists Q. unfold del_pool.
    apply filter_In. cbn. rewrite negb_true_iff, Z.eqb_neq. auto.
Qed.
End Ops.

(** ** fork() *)
Lemma fork_wf : forall v0 w, vmwf (w_vm w) -> plain_fork e v0 w -> vmwf (fork e (w_vm w)).
Proof.
  intros v0 w [W1 W2 W3] [_ Hp]. constructor; cbn [fork link mapped populated data].
  - intros p q H. destruct (dontfork (w_vm w) p); [discriminate H|]. rewrite (W1 _ _ H). now destruct (dontfork (w_vm w) q).
  - intros p q H. destruct (dontfork (w_vm w) p) eqn:E; [discriminate H|]. destruct (Hp _ _ H E) as [Hq _]. rewrite Hq. exact (W2 _ _ H).
  - intros a H1 H2 H3. destruct (wipefork (w_vm w) (page a)); [reflexivity|]. destruct (dontfork (w_vm w) (page a)); [discriminate H1|].
    apply W3; assumption.
Qed.
Lemma fork_frame : forall P free live v, pinv P free live v -> shared_init P = false -> vframe e (pregion P) v (fork e v).
Proof.
  intros P free live v HI Hs.
  assert (HP : forall a, pregion P a -> dontfork v (page a) = false /\ wipefork v (page a) = false /\ link v (page a) = None).
  { intros a (r & Hr & Ha). pose proof (pi_ranges _ _ _ _ _ HI) as HRs. rewrite Forall_forall in HRs. specialize (HRs r Hr).
    rewrite (r_dontfork _ _ _ _ HRs a Ha), (r_wipefork _ _ _ _ HRs a Ha). change (cow_init P) with (shared_init P). rewrite Hs.
    split; [reflexivity|]. split; [reflexivity|]. destruct (link v (page a)) as [q|] eqn:El; [|reflexivity].
    destruct (r_link _ _ _ _ HRs _ _ El) as (Hc & _).
    - left. eapply region_page; eauto. apply HI.
    - change (cow_init P) with (shared_init P) in Hc. congruence. }
  constructor; cbn [fork mapped link dontfork wipefork]; auto.
  - intros a Ha. destruct (HP a Ha) as (H1 & H2 & H3). unfold view. cbn [fork link data]. rewrite H1, H2, H3. reflexivity.
  - intros a Ha. destruct (HP a Ha) as (H1 & _). rewrite H1. reflexivity.
  - intros p q a H _ _. destruct (dontfork v p); [discriminate H|exact H].
Qed.
Lemma items_inherited : forall w id P l, NoDup (map fst (w_pools w)) -> In (id, P) (w_pools w) -> shared_init P = false ->
  items id (inherited w l) = items id l.
Proof.
  intros w id P l Hn Hi Hs. unfold items, inherited. f_equal. induction l as [|[i a] l IH]; [reflexivity|]. cbn [filter fst].
  destruct (Z.eqb_spec i id) as [->|Hne].
  - assert (E : inherits w id = true) by (unfold inherits; rewrite (lookup_some _ _ _ Hn Hi), Hs; reflexivity).
    rewrite E. cbn [filter fst]. rewrite Z.eqb_refl. f_equal. exact IH.
  - destruct (inherits w i); [|exact IH]. cbn [filter fst]. apply Z.eqb_neq in Hne. rewrite Hne. exact IH.
Qed.
Lemma op_fork_gen : forall strict v0 w L F, winv strict v0 w L F -> vmwf (fork e (w_vm w)) ->
  (forall a, mapped v0 (page a) = true -> dontfork (w_vm w) (page a) = false) ->
  winv strict v0 (child e w) (inherited w L) (inherited w F).
Proof.
  intros strict v0 w L F HW Hwf Hp.
  assert (Hkept : forall i Q, In (i, Q) (w_pools (child e w)) -> In (i, Q) (w_pools w) /\ shared_init Q = false).
  { intros i Q Hi. cbn in Hi. apply filter_In in Hi. cbn [snd] in Hi. rewrite negb_true_iff in Hi. exact Hi. }
  assert (Hit : forall i Q l, In (i, Q) (w_pools (child e w)) -> items i (inherited w l) = items i l).
  { intros i Q l Hi. destruct (Hkept _ _ Hi). eapply items_inherited; eauto. apply HW. }
  constructor.
  - exact Hwf.
  - cbn [child w_pools]. pose proof (wi_ids _ _ _ _ _ HW) as Hn. clear - Hn. induction (w_pools w) as [|[i Q] l IH]; [constructor|].
    cbn [map fst] in Hn. inversion Hn as [|? ? Hni Hn']; subst. cbn [filter snd]. destruct (negb (shared_init Q)); [|auto]. cbn [map fst].
    constructor; [|auto]. intros K. apply Hni. apply in_map_iff in K. destruct K as ([i' Q'] & E & K). cbn in E. subst i'.
    apply filter_In in K. apply in_map_iff. exists (i, Q'). tauto.
  - intros i Q Hi. rewrite !(Hit _ _ _ Hi). destruct (Hkept _ _ Hi) as [Hi' Hs]. pose proof (wi_pools _ _ _ _ _ HW _ _ Hi') as HI.
    eapply pinv_frame; [exact HI|]. eapply fork_frame; eauto.
  - intros Hst i Q a Hi Hrob Ha. rewrite (Hit _ _ _ Hi) in Ha. destruct (Hkept _ _ Hi) as [Hi' Hs]. pose proof (wi_pools _ _ _ _ _ HW _ _ Hi') as HI.
    eapply poison_region; [exact HI|exact Ha|eapply fork_frame; eauto|]. eapply (wi_poison _ _ _ _ _ HW); eauto.
  - intros i Q i' Q' a Hi Hi'. apply (wi_apart _ _ _ _ _ HW); [apply (Hkept _ _ Hi)|apply (Hkept _ _ Hi')].
  - intros a Ha. destruct (wi_own _ _ _ _ _ HW _ Ha) as [Hm Hno]. split.
    + cbn. rewrite (Hp a Ha). exact Hm.
    + intros i Q Hi. apply (Hno i Q). apply (Hkept _ _ Hi).
  - intros i a Hi. unfold inherited in Hi. rewrite <- filter_app in Hi. apply filter_In in Hi. cbn [fst] in Hi. destruct Hi as [_ Hi].
    unfold inherits in Hi. destruct (lookup i (w_pools w)) as [Q|] eqn:El; [|discriminate Hi]. exists Q. cbn. apply filter_In. split; auto.
    now apply lookup_in.
Qed.

Lemma op_fork : forall strict v0 w L F, winv strict v0 w L F -> plain_fork e v0 w ->
  winv strict v0 (child e w) (inherited w L) (inherited w F).
Proof.
  intros strict v0 w L F HW Hp. apply op_fork_gen; [exact HW| |].
  - eapply fork_wf; eauto. apply HW.
  - intros a Ha. apply Hp. exact Ha.
Qed.

Lemma op_any : forall strict v0 w L F o w' x, winv strict v0 w L F -> allowed e strict v0 w L o -> run1 e o w = Ok (w', x) ->
  winv strict v0 w' (live_after o x L) (freed_after o x L F).
Proof.
  intros strict v0 w L F o w' x IH Hok Hrun. destruct o as [id named len at_ an|id an|id item c|ptr s|ps|id an].
    + cbn. eapply op_create; eauto.
    + eapply op_malloc; eauto.
    + destruct Hok as (P & Hl & Ha & Hc).
      destruct (fill_run _ _ _ _ _ IH _ _ _ c (lookup_in _ _ _ Hl) Ha Hc) as (w2 & r & E & _ & HW & _).
      rewrite E in Hrun. injection Hrun as <- <-. exact HW.
    + destruct Hok as (id & P & Hl & Ha & ->).
      destruct (free_run _ _ _ _ _ IH _ _ _ (lookup_in _ _ _ Hl) Ha) as (w2 & r & P' & E & _ & _ & _ & HW & _).
      rewrite E in Hrun. injection Hrun as <- <-. exact HW.
    + eapply op_write; eauto.
    + eapply op_destroy; eauto.
Qed.

(** ** The rest of the process *)
Lemma rest_wf : forall v0 w v', rest_acts e v0 w v' -> vmwf v'.
Proof. intros v0 w v' [(W1 & W2 & W3) _ _]. constructor; assumption. Qed.
Lemma rest_frame : forall v0 w v' (G : Z -> Prop), rest_acts e v0 w v' -> (forall a, G a -> in_use e v0 w a) -> vframe e G (w_vm w) v'.
Proof.
  intros v0 w v' G [_ Hs Hl] HG. constructor; try (intros a Ha; apply (Hs a (HG a Ha))).
  intros p q a H _ _. apply (Hl _ _ H).
Qed.
Lemma pool_in_use : forall v0 w id P a, In (id, P) (w_pools w) -> pregion P a -> in_use e v0 w a.
Proof. intros v0 w id P a Hi (r & Hr & Ha). right. exists id, P, r. auto. Qed.
Lemma op_rest : forall strict v0 w L F v', winv strict v0 w L F -> rest_acts e v0 w v' ->
  winv strict v0 {| w_vm := v'; w_pools := w_pools w |} L F.
Proof.
  intros strict v0 w L F v' HW Hr.
  assert (Hfr : forall i Q, In (i, Q) (w_pools w) -> vframe e (pregion Q) (w_vm w) v').
  { intros i Q Hi. eapply rest_frame; [exact Hr|]. intros a Ha. eapply pool_in_use; eauto. }
  constructor; cbn [w_vm w_pools].
  - eapply rest_wf; eauto.
  - apply HW.
  - intros i Q Hi. eapply pinv_frame; [exact (wi_pools _ _ _ _ _ HW _ _ Hi)|eauto].
  - intros Hst i Q a Hi Hrob Ha. eapply poison_region; [exact (wi_pools _ _ _ _ _ HW _ _ Hi)|exact Ha|eauto|]. eapply (wi_poison _ _ _ _ _ HW); eauto.
  - apply HW.
  - intros a Ha. destruct (wi_own _ _ _ _ _ HW _ Ha) as [Hm Hno]. split; [|exact Hno].
    rewrite (sa_mapped _ _ _ _ (ra_same _ _ _ _ Hr a (or_introl Ha))). exact Hm.
  - apply HW.
Qed.

Theorem reach_inv : forall strict v0 w L F, vmwf v0 -> reach e strict v0 w L F -> winv strict v0 w L F.
Proof.
  intros strict v0 w L F Hwf H. induction H as [|w L F o w' x Hr IH Hok Hrun|w L F Hr IH Hp|w L F v' Hr IH Hra].
  - constructor; cbn; auto; try tauto. constructor.
  - eapply op_any; eauto.
  - now apply op_fork.
  - now apply op_rest.
Qed.
End Hist.
