(** Every step of a pool call keeps the invariant and does not fault. *)
From Coq Require Import ZArith Bool List Lia Znumtheory Permutation.
From Verif Require Import UtilsModel UtilsLemmas RseqIR MemLemmas PoolVM PoolVMLemmas PoolModel PoolInv PoolItem PoolMap PoolRange PoolBitmap PoolOps PoolMalloc PoolFree PoolDestroy PoolWorld PoolCreate PoolHist MicroModel MicroInv MicroWorld MicroProofs.
Import ListNotations.
Local Open Scope Z_scope.

(** The pools are still there, with the same parameters. *)
Definition kept (G G' : list (Z * pool)) : Prop := forall id P, In (id, P) G -> exists P', In (id, P') G' /\ same P P'.
Lemma kept_refl : forall G, kept G G.
Proof. intros G id P H. exists P. split; [exact H|apply same_refl]. Qed.
Lemma kept_trans : forall G1 G2 G3, kept G1 G2 -> kept G2 G3 -> kept G1 G3.
Proof.
  intros G1 G2 G3 H12 H23 id P H. destruct (H12 id P H) as (P2 & H2 & S2). destruct (H23 id P2 H2) as (P3 & H3 & S3).
  exists P3. split; [exact H3|eapply same_trans; eauto].
Qed.
Lemma kept_set : forall G id P P', NoDup (map fst G) -> In (id, P) G -> same P P' -> kept G (set_pool id P' G).
Proof.
  intros G id P P' Hn Hin HS i Q HQ. destruct (Z.eq_dec i id) as [->|Hne].
  - exists P'. split; [unfold set_pool; apply in_map_iff; exists (id, P); cbn; now rewrite Z.eqb_refl|].
    assert (Q = P); [|now subst]. pose proof (lookup_some _ _ _ Hn Hin). pose proof (lookup_some _ _ _ Hn HQ). congruence.
  - exists Q. split; [|apply same_refl]. unfold set_pool. apply in_map_iff. exists (i, Q). cbn. apply Z.eqb_neq in Hne. now rewrite Hne.
Qed.

Section MS.
Variable e : env.
Hypothesis He : env_ok e.
Hypothesis Hcp : 0 <= e_ncpus e.
Notation page := (PoolVM.page e).
Notation geom := (geom e).
Notation rinv := (rinv e).
Notation pinv := (pinv e).
Notation poisoned := (poisoned e).
Notation vmwf := (vmwf e).
Notation view := (view e).
Notation cleared := (cleared e).
Notation eff := (eff e).
Notation actual := (actual e).
Notation acts := (acts e).
Notation phase_ok := (phase_ok e).
Notation minv := (minv e).
Notation keeps := (keeps e).
Notation tok := (tok e).

Section Steps.
Variables (v0 : vm) (m : mstate) (G : list (Z * pool)) (L F : ledger).
Hypothesis HM : minv v0 m G L F.
Let HW := mi_w _ _ _ _ _ _ HM.
Notation ts := (m_task m).
Notation v := (m_vm m).
Notation W := {| w_vm := m_vm m; w_pools := G |}.

Definition stepped (t : Z) (r : res (mstate * option out)) : Prop :=
  exists m' x G' L' F', r = Ok (m', x) /\ minv v0 m' G' L' F' /\ keeps m G L t (m_vm m') /\ kept G G'.

Lemma has_lock : forall t id, locks (ts t) = Some id -> m_lock m id = Some t.
Proof. intros t id H. now apply (mi_lock _ _ _ _ _ _ HM). Qed.
Lemma actual_locked : forall t id P, locks (ts t) = Some id -> actual (m_lock m) ts id P = eff (ts t) P.
Proof. intros t id P H. unfold MicroInv.actual. now rewrite (has_lock t id H). Qed.
Lemma actual_after : forall t id P tk', locks (ts t) = Some id -> actual (m_lock m) (upd ts t tk') id P = eff tk' P.
Proof. intros t id P tk' H. unfold MicroInv.actual. rewrite (has_lock t id H). now rewrite upd_same. Qed.

Lemma quiet_goto : forall t id tk' P v', In (id, P) G -> pool_of (ts t) = Some id -> pool_of tk' = Some id ->
  locks tk' = locks (ts t) -> owns tk' = owns (ts t) -> eff tk' P = eff (ts t) P ->
  winv e true v0 {| w_vm := v'; w_pools := G |} L F -> keeps m G L t v' -> tok G F v' tk' ->
  minv v0 (goto (set_vm m v') t tk') G L F.
Proof.
  intros t id tk' P v' Hin Hp Hp' Hl Ho Heff HW' Hk Ht.
  pose proof (minv_quiet e v0 m G L F HM t id tk' P v' (actual (m_lock m) ts id P) Hin Hp Hp' Hl Ho HW' Hk) as K.
  rewrite (put_same e v0 m G L F HM id P Hin) in K. apply K; auto.
  unfold MicroInv.actual. destruct (m_lock m id) as [t'|] eqn:E; auto. destruct (Z.eq_dec t' t) as [->|Hne].
  - now rewrite upd_same.
  - now rewrite upd_other.
Qed.
Lemma quiet_put : forall t id tk' P, In (id, P) G -> pool_of tk' = Some id ->
  locks (ts t) = Some id -> locks tk' = Some id -> owns tk' = owns (ts t) -> tok G F v tk' ->
  minv v0 (goto (put_pool m id (eff tk' P)) t tk') G L F.
Proof.
  intros t id tk' P Hin Hp' Hl Hl' Ho Ht.
  apply (minv_quiet e v0 m G L F HM t id tk' P v (eff tk' P) Hin); auto.
  - now apply locks_pool.
  - congruence.
  - apply keeps_refl.
  - now apply actual_after.
Qed.

(** The first free item. *)
Lemma free_at : forall id P a nxt, In (id, P) G -> first_free F id P a nxt ->
  exists r, In r (range_list P) /\ rinv P v r /\ 0 <= a - base r /\ a - base r + item_len P <= strd P /\ (item_len P | a - base r) /\
    free_list_head P = node P a /\ node P a <> 0 /\ node_ptr e P (node P a) = a /\ node_base e P (node P a) = base r /\
    find_range (range_list P) (base r) = Some r /\
    accessible e v (node P a) (wsz e) = true /\ load_word e v (node P a) = nxt /\ (robust_set (pattr P) = true -> poisoned P v a).
Proof.
  intros id P a nxt Hin (fr & EF & En).
  assert (Ha : In (id, a) (L ++ F)) by (apply in_or_app; right; apply in_items; rewrite EF; now left).
  pose proof (wi_pools _ _ _ _ _ _ HW _ _ Hin) as HI. cbn [w_vm] in HI. pose proof (pi_geom _ _ _ _ _ HI) as HG.
  destruct (item_place e v0 W L F HW id P a Hin Ha) as (r & Hr & HR & H1 & H2 & H3). cbn [w_vm] in HR.
  destruct (node_of e v0 W L F HW id P a Hin Ha) as (N1 & N2 & N3 & N4 & N5). cbn [w_vm] in *.
  pose proof (pi_chain _ _ _ _ _ HI) as Hc. rewrite EF in Hc. cbn [chain] in Hc. destruct Hc as [Hc1 Hc2].
  pose proof (item_pos _ _ HG).
  exists r. do 5 (split; [assumption|]). split; [exact Hc1|]. split; [exact N3|]. split; [exact N2|].
  assert (Eb : node_base e P (node P a) = base r).
  { unfold node_base, node_ptr. rewrite N2. replace a with (base r + (a - base r)) by ring. apply (base_of e P v r HG HR). lia. }
  split; [exact Eb|]. split; [eapply (find_range_in e P v); auto; apply HI|]. split; [exact N4|].
  split; [rewrite <- Hc1, En; eapply chain_hd; exact Hc2|].
  intros Hrob. eapply (wi_poison _ _ _ _ _ _ HW eq_refl id P); auto. rewrite EF. now left.
Qed.

Lemma step_fill : forall t id a P Wb k ph, In (id, P) G -> owns (ts t) = Some (id, a) -> block Wb (item_len P) ->
  phase_ok P a Wb v ph ->
  exists ph' v', fill_byte e k ph v = Ok (ph', v') /\ phase_ok P a Wb v' ph' /\
    winv e true v0 {| w_vm := v'; w_pools := G |} L F /\ keeps m G L t v'.
Proof.
  intros t id a P Wb k ph Hin Ho Hb Hph. pose proof (live_of e v0 m G L F HM _ _ Ho) as Hl.
  pose proof (geoms e v0 m G L F HM _ _ Hin) as HG.
  destruct (item_place e v0 W L F HW id P a Hin) as (r & Hr & HR & H1 & H2 & H3); [apply in_or_app; auto|]. cbn [w_vm] in HR.
  destruct (phase_step e P a Wb v r (a - base r) HG (wi_wf _ _ _ _ _ _ HW) HR ltac:(lia) H1 H2 Hb k ph Hph) as (ph' & v' & E & Hph' & Hv).
  exists ph', v'. split; [exact E|]. split; [exact Hph'|]. destruct Hv as [->|(x & b & -> & Hx)].
  - split; [exact HW|apply keeps_refl].
  - change (store1 e v (x, b)) with (store e v [(x, b)]). eapply store_own; eauto. intros y [<-|[]]. exact Hx.
Qed.

(** Allocation. *)
Lemma malloc_move : forall t id c P an found P' v', In (id, P) G -> locks (ts t) = Some id -> owns (ts t) = None -> content_fits P c ->
  malloc_locked e P an v = Ok (found, P', v') ->
  stepped t (Ok (goto (put_pool (set_vm m v') id P') t (TMUnlock id c found), None)).
Proof.
  intros t id c P an found P' v' Hin Hl Ho Hc E.
  pose proof (wi_pools _ _ _ _ _ _ HW _ _ Hin) as HI. cbn [w_vm] in HI. pose proof (pi_geom _ _ _ _ _ HI) as HG.
  pose proof (wi_wf _ _ _ _ _ _ HW) as Hwf. cbn [w_vm] in Hwf.
  assert (Hlk : lookup id G = Some P) by (apply lookup_some; auto; apply (wi_ids _ _ _ _ _ _ HW)).
  pose proof (malloc_locked_spec e P (items id F) (items id L) an v HI Hwf) as Hp. rewrite E in Hp.
  assert (HW' : winv e true v0 {| w_vm := v'; w_pools := set_pool id P' G |}
     (match found with Some (_, _, a) => (id, a) :: L | None => L end)
     (match found with Some (_, _, a) => filter (fun i => negb (same_item i (id, a))) F | None => F end)).
  { pose proof (op_malloc e true v0 W L F HW id an) as K. cbn [run1 w_pools w_vm allowed] in K. rewrite Hlk, E in K. cbn [bind] in K.
    destruct found as [[[r off] a]|]; exact (K _ _ (ex_intro _ P eq_refl) eq_refl). }
  assert (Hkeep : keeps m G L t v').
  { intros i a Q x Hia _ HQ Hx.
    assert (Hm : mapped v (page x) = true) by (eapply (item_mapped e v0 W L F HW i Q a x); auto; apply in_or_app; auto).
    inversion Hp; subst; auto; match goal with Hf : vframe _ _ _ _ |- _ => apply (fr_view _ _ _ _ Hf); auto end. }
  assert (HS : same P P').
  { inversion Hp; subst; auto using same_refl. }
  assert (Hoth : forall id', id' <> id -> items id' (match found with Some (_, _, a) => filter (fun i => negb (same_item i (id, a))) F | None => F end) = items id' F).
  { intros id' Hne. destruct found as [[[r off] a]|]; auto. rewrite items_del_item. apply Z.eqb_neq in Hne. now rewrite Hne. }
  assert (Hfresh : match found with Some (_, _, a) => ~ In (id, a) L | None => True end).
  { destruct found as [[[r off] a]|]; auto. intros HaL.
    assert (Hin' : In (id, P') (set_pool id P' G)).
    { unfold set_pool. apply in_map_iff. exists (id, P). cbn. now rewrite Z.eqb_refl. }
    pose proof (pi_nodup _ _ _ _ _ (wi_pools _ _ _ _ _ _ HW' _ _ Hin')) as Hnd.
    rewrite (items_cons id (id, a) L) in Hnd. cbn [fst snd] in Hnd. rewrite Z.eqb_refl in Hnd.
    apply NoDup_remove_2 in Hnd. apply Hnd. apply in_or_app. right. now apply in_items. }
  assert (Htok : tok (set_pool id P' G) (match found with Some (_, _, a) => filter (fun i => negb (same_item i (id, a))) F | None => F end) v' (TMUnlock id c found)).
  { cbn [MicroProofs.tok]. exists P'. split.
    - unfold set_pool. apply in_map_iff. exists (id, P). cbn. now rewrite Z.eqb_refl.
    - split; [eapply fits_same; eauto|]. rewrite (s_len P P' HS), (s_attr P P' HS). inversion Hp; subst; auto. }
  exists (goto (put_pool (set_vm m v') id P') t (TMUnlock id c found)), None, (set_pool id P' G),
    (match found with Some (_, _, a) => (id, a) :: L | None => L end),
    (match found with Some (_, _, a) => filter (fun i => negb (same_item i (id, a))) F | None => F end).
  split; [reflexivity|]. split; [|split; [exact Hkeep|apply (kept_set G id P P'); auto; apply (wi_ids _ _ _ _ _ _ HW)]].
  pose proof (has_lock t id Hl) as Hml. pose proof (mi_live _ _ _ _ _ _ HM) as HLv.
  apply (minv_move e v0 m G L F HM t id (TMUnlock id c found) P P' v' _ _ (m_held m) (m_lock m) P'); auto.
  - left. now apply locks_pool.
  - intros i. cbn. destruct (i =? id) eqn:Ei; auto. apply Z.eqb_eq in Ei. now subst i.
  - intros _. left. now rewrite Hl.
  - intros i. cbn [owns]. destruct found as [[[r off] a]|].
    + cbn [In]. rewrite HLv. split.
      * intros [<-|[H|(t' & H)]]; auto. right. right. exists t'. split; auto. intros ->. rewrite Ho in H. discriminate H.
      * intros [H|[H|(t' & _ & H)]]; eauto. injection H as <-. auto.
    + rewrite HLv. split.
      * intros [H|(t' & H)]; auto. right. right. exists t'. split; auto. intros ->. rewrite Ho in H. discriminate H.
      * intros [H|[H|(t' & _ & H)]]; eauto. discriminate H.
  - intros i. cbn [owns]. destruct found as [[[r off] a]|]; intros H; [|discriminate H]. injection H as <-. split.
    + intros H. apply Hfresh, HLv. auto.
    + intros t' _ H. apply Hfresh, HLv. eauto.
  - intros t' i _ H. apply (mi_excl _ _ _ _ _ _ HM t' i H).
  - unfold MicroInv.actual. rewrite Hml, upd_same. reflexivity.
Qed.

Lemma check_in : forall P r a, geom P -> rinv P v r -> 0 <= a - base r -> a - base r + item_len P <= strd P ->
  forall x, In x (check_words e P r (a - base r)) -> robust_set (pattr P) = true /\
    exists i k, 0 <= i < PoolInv.nd P /\ 0 <= k /\ wsz e * k < item_len P /\ x = a + strd P * i + wsz e * k.
Proof.
  intros P r a HG HR H1 H2 x Hx. unfold check_words in Hx. destruct (robust_set (pattr P)) eqn:Hrob; [|destruct Hx]. split; auto.
  pose proof (item_pos _ _ HG). pose proof (g_cpus _ _ HG).
  apply in_flat_map in Hx. destruct Hx as (p & Hp & Hx). apply in_map_iff in Hx. destruct Hx as (o & <- & Ho).
  assert (Hpi : exists i, 0 <= i < PoolInv.nd P /\ p = a + strd P * i).
  { apply in_app_iff in Hp. destruct Hp as [Hp|Hp].
    - rewrite (init_ptr e P v) in Hp by (auto; lia). unfold PoolInv.nd. destruct (cow_init P); [|destruct Hp].
      destruct Hp as [<-|[]]. exists (ncpus P). split; [lia|]. lia.
    - apply in_map_iff in Hp. destruct Hp as (i & <- & Hi). unfold cpus in Hi. apply in_zseq in Hi.
      exists i. unfold PoolInv.nd. split; [destruct (cow_init P); lia|].
      change (stride (pattr P)) with (strd P). rewrite (PoolItem.percpu_ptr e P v) by (auto; lia). lia. }
  destruct Hpi as (i & Hi & ->). apply in_word_offsets in Ho; [|lia]. destruct Ho as (k & -> & Hk & Hlt).
  exists i, k. split; [exact Hi|]. split; [exact Hk|]. split; [exact Hlt|reflexivity].
Qed.

Definition trims (t : Z) : Prop := exists id an c, ts t = TMFresh id an c /\ (an_trim1 an = false \/ an_trim2 an = false).

Lemma step_want : forall t id c, ts t = TWant id c -> m_lock m id = None ->
  stepped t (Ok (goto (set_lock m id (Some t)) t
        match c with CMalloc _ an c => TMHead id an c | CFree ptr strd => TFClear id ptr strd end, None)).
Proof.
  intros t id c Et Hn. pose proof (mi_task _ _ _ _ _ _ HM t) as Ht. rewrite Et in Ht.
  destruct (pool_in e v0 m G L F HM t id) as (P & Hin); [now rewrite Et|].
  set (tk' := match c with CMalloc _ an c => TMHead id an c | CFree ptr strd => TFClear id ptr strd end).
  assert (Elk : locks tk' = Some id) by (unfold tk'; destruct c; reflexivity).
  assert (Eo : owns tk' = owns (ts t)) by (rewrite Et; unfold tk'; destruct c; reflexivity).
  exists (goto (set_lock m id (Some t)) t tk'), None, G, L, F. split; [reflexivity|]. split; [|split; [intros ? ? ? ? _ _ _ _; reflexivity|apply kept_refl]].
  pose proof (minv_move e v0 m G L F HM t id tk' P P v L F (m_held m) (upd (m_lock m) id (Some t)) P) as K.
  rewrite (set_same e v0 m G L F HM id P Hin) in K.
  assert (Ea : actual (m_lock m) ts id P = P) by (unfold MicroInv.actual; now rewrite Hn).
  pose proof (put_same e v0 m G L F HM id P Hin) as Ep. rewrite Ea in Ep. rewrite Ep in K.
  pose proof (mi_live _ _ _ _ _ _ HM) as HLv.
  apply K; clear K; auto using same_refl, keeps_refl.
  - left. now rewrite Et.
  - left. now apply locks_pool.
  - intros i. rewrite Elk. cbn [is_some]. unfold upd. reflexivity.
  - intros i. rewrite HLv, Eo. split.
    + intros [H|(t' & H)]; auto. destruct (Z.eq_dec t' t) as [->|Hne]; auto. right. right. eauto.
    + intros [H|[H|(t' & _ & H)]]; eauto.
  - intros i. rewrite Eo. intros H. destruct (mi_excl _ _ _ _ _ _ HM t i H) as [K1 K2]. split; auto.
  - intros t' i _ H. apply (mi_excl _ _ _ _ _ _ HM t' i H).
  - unfold MicroInv.actual. rewrite !upd_same. unfold tk'. destruct c; reflexivity.
  - unfold tk'. destruct c; cbn [MicroProofs.tok] in *; [apply Ht|exact Ht].
Qed.

(** A thread lets go of the mutex, and perhaps ends its call. *)
Lemma step_leave : forall t id P tk' held', In (id, P) G -> locks (ts t) = Some id -> eff (ts t) P = P ->
  locks tk' = None -> pool_of tk' = Some id \/ tk' = TIdle ->
  (forall i, In i L <-> In i held' \/ owns tk' = Some i \/ exists t', t' <> t /\ owns (ts t') = Some i) ->
  (forall i, owns tk' = Some i -> ~ In i held' /\ forall t', t' <> t -> owns (ts t') <> Some i) ->
  (forall t' i, t' <> t -> owns (ts t') = Some i -> ~ In i held') ->
  tok G F v tk' ->
  minv v0 {| m_vm := v; m_pools := m_pools m; m_lock := upd (m_lock m) id None; m_task := upd ts t tk'; m_held := held' |} G L F.
Proof.
  intros t id P tk' held' Hin Hl He' Hl' Hp' H1 H2 H3 Ht.
  pose proof (minv_move e v0 m G L F HM t id tk' P P v L F held' (upd (m_lock m) id None) P) as K.
  rewrite (set_same e v0 m G L F HM id P Hin) in K.
  assert (Ea : actual (m_lock m) ts id P = P) by (rewrite (actual_locked t) by exact Hl; exact He').
  pose proof (put_same e v0 m G L F HM id P Hin) as Ep. rewrite Ea in Ep. rewrite Ep in K.
  apply K; clear K; auto using same_refl.
  - left. now apply locks_pool.
  - intros i. rewrite Hl', Hl. cbn [is_some]. unfold upd. reflexivity.
  - intros H. congruence.
  - unfold MicroInv.actual. now rewrite !upd_same.
Qed.

Ltac same_keeps := split; [intros ? ? ? ? _ _ _ _; reflexivity|apply kept_refl].
(** A step that changes only the task. *)
Lemma step_goto : forall t id tk' P, In (id, P) G -> pool_of (ts t) = Some id -> pool_of tk' = Some id ->
  locks tk' = locks (ts t) -> owns tk' = owns (ts t) -> eff tk' P = eff (ts t) P -> tok G F v tk' ->
  stepped t (Ok (goto m t tk', None)).
Proof.
  intros t id tk' P Hin H1 H2 H3 H4 H5 H6. exists (goto m t tk'), None, G, L, F. split; [reflexivity|]. split; [|same_keeps].
  apply (quiet_goto t id tk' P v); auto. apply keeps_refl.
Qed.
Lemma step_put : forall t id tk' P Q, In (id, P) G -> pool_of tk' = Some id -> locks (ts t) = Some id -> locks tk' = Some id ->
  owns tk' = owns (ts t) -> Q = eff tk' P -> tok G F v tk' ->
  stepped t (Ok (goto (put_pool m id Q) t tk', None)).
Proof.
  intros t id tk' P Q Hin H1 H2 H3 H4 -> H6. exists (goto (put_pool m id (eff tk' P)) t tk'), None, G, L, F. split; [reflexivity|]. split; [|same_keeps].
  apply quiet_put; auto.
Qed.
Lemma step_bytes : forall t id tk' P v', In (id, P) G -> pool_of (ts t) = Some id -> pool_of tk' = Some id ->
  locks tk' = locks (ts t) -> owns tk' = owns (ts t) -> eff tk' P = eff (ts t) P ->
  winv e true v0 {| w_vm := v'; w_pools := G |} L F -> keeps m G L t v' -> tok G F v' tk' ->
  stepped t (Ok (goto (set_vm m v') t tk', None)).
Proof.
  intros t id tk' P v' Hin H1 H2 H3 H4 H5 H6 H7 H8. exists (goto (set_vm m v') t tk'), None, G, L, F. split; [reflexivity|]. split; [|split; [exact H7|apply kept_refl]].
  apply (quiet_goto t id tk' P v'); auto.
Qed.

(** The link of the item that is freed. *)
Lemma link_item : forall t id a P hd, In (id, P) G -> owns (ts t) = Some (id, a) -> hd = free_list_head P ->
  (poison_set (pattr P) = true -> phase_ok P a (poison_of e P) v PEnd) ->
  let v' := store e v (stw (wcfg e) (node P a) hd) in
  accessible e v (node P a) (wsz e) = true /\ winv e true v0 {| w_vm := v'; w_pools := G |} L F /\ keeps m G L t v' /\
  load_word e v' (node P a) = free_list_head P /\ (robust_set (pattr P) = true -> poisoned P v' a).
Proof.
  intros t id a P hd Hin Ho Ehd Hph v'. pose proof (live_of e v0 m G L F HM _ _ Ho) as HaL.
  pose proof (wi_pools _ _ _ _ _ _ HW _ _ Hin) as HI. cbn [w_vm] in HI. pose proof (pi_geom _ _ _ _ _ HI) as HG.
  pose proof (wi_wf _ _ _ _ _ _ HW) as Hwf. cbn [w_vm] in Hwf.
  assert (Hall : In (id, a) (L ++ F)) by (apply in_or_app; auto).
  destruct (item_place e v0 W L F HW id P a Hin Hall) as (r & Hr & HR & H1 & H2 & H3). cbn [w_vm] in HR.
  destruct (node_of e v0 W L F HW id P a Hin Hall) as (N1 & N2 & N3 & N4 & N5). cbn [w_vm] in N4.
  split; [exact N4|].
  assert (Hst : winv e true v0 {| w_vm := v'; w_pools := G |} L F /\ keeps m G L t v').
  { apply (store_own e v0 m G L F HM t id a P); auto. intros y Hy. rewrite stw_keys in Hy. apply in_span in Hy. rewrite wsz_nat in Hy. apply N5. lia. }
  destruct Hst as [HW' Hk]. split; [exact HW'|]. split; [exact Hk|]. split.
  - unfold v'. subst hd. apply load_word_store; [apply (g_psz _ _ HG)|exact Hwf|].
    pose proof (wmax_range e). pose proof (pi_chain _ _ _ _ _ HI) as Hc. destruct (items id F) as [|b free] eqn:EF; cbn in Hc; [lia|].
    destruct Hc as [-> _].
    destruct (item_place e v0 W L F HW id P b Hin) as (rb & Hrb & HRb & K1 & K2 & K3).
    { apply in_or_app. right. apply in_items. rewrite EF. now left. }
    cbn [w_vm] in HRb. pose proof (item_pos _ _ HG).
    pose proof (node_bounds e P v rb HG HRb (b - base rb) ltac:(lia)) as (_ & H5 & H6).
    replace (base rb + (b - base rb)) with b in * by ring. pose proof (base_pos e P v rb HG HRb). lia.
  - intros Hrob. assert (Hps : poison_set (pattr P) = true) by (apply (g_robust _ _ HG); auto).
    intros i k Hi Hk0 Hk2.
    assert (Hlw : forall y, a + strd P * i + wsz e * k <= y < a + strd P * i + wsz e * k + wsz e -> view v' y = view v y).
    { intros y Hy. unfold v'. apply view_store_other; auto; [apply (g_psz _ _ HG)|].
      intros x Hx Hal. rewrite stw_keys in Hx. apply in_span in Hx. rewrite wsz_nat in Hx.
      assert (Hni : nidx P = nd P /\ na P = nd P + 1).
      { unfold nidx, na. rewrite Hrob. cbn. lia. }
      destruct Hni as [Hni Hna1]. unfold node in Hx. rewrite Hni in Hx.
      pose proof (eight_item _ _ HG) as [m8 Hm8]. pose proof (item_pos _ _ HG).
      assert (Hy2 : strd P * i <= y - base r < strd P * i + strd P) by (pose proof (wsz_range e); assert (k < m8) by nia; nia).
      pose proof (strd_pos _ _ HG).
      destruct Hal as [Exy|[Hl _]]; [nia|].
      destruct (r_link _ _ _ _ HR _ _ Hl) as (_ & _ & Hq & _).
      - right. eapply region_page; eauto. unfold region. rewrite (r_addr _ _ _ _ HR), (r_len _ _ _ _ HR).
        rewrite Hna1. pose proof (g_psz _ _ HG). pose proof (nd_bounds P). pose proof (g_cpus _ _ HG). nia.
      - pose proof (page_down e x (base r + strd P * nd P) (g_psz _ _ HG)) as Hpd.
        assert (base r + strd P * nd P <= page x * e_page e); [|lia]. apply Hpd.
        + apply Z.divide_add_r; [eapply base_div; eauto|]. apply Z.divide_mul_l. apply (psz_strd _ _ HG).
        + lia. }
    rewrite (load_word_ext e v v') by exact Hlw.
    specialize (Hph Hps i Hi). unfold area, poison_of in Hph.
    rewrite (poison_good e v (a + strd P * i) (item_len P) (poison (pattr P))) in Hph;
      [|pose proof (item_pos _ _ HG); lia|apply (g_poison _ _ HG)]. apply Hph; auto.
Qed.

Lemma unique : forall id P P', In (id, P) G -> In (id, P') G -> P' = P.
Proof. intros id P P' H H'. symmetry. exact (unique_pool e true v0 W L F HW id P P' H H'). Qed.

Definition no_answers : answers := {| an_mmap := None; an_trim1 := true; an_trim2 := true; an_memfd := true; an_map_init := true;
  an_map_cpu := fun _ => true; an_dontfork := true; an_wipe := true; an_bitmap := true; an_init := fun _ => None;
  an_munmap := fun _ => true; an_calloc := true; an_strdup := true |}.
(** Lines 1108-1109 for an item that was free: the same as [malloc_locked] when the
    checks have passed. *)
Lemma reuse_locked : forall id P a nxt r an, In (id, P) G -> first_free F id P a nxt ->
  find_range (range_list P) (base r) = Some r -> node_base e P (node P a) = base r ->
  exists r', set_alloc_slot e (set_head P nxt) r (a - base r) = Ok r' /\
    malloc_locked e P an v = Ok (Some (r', a - base r, a), set_ranges (set_head P nxt) (put_range (range_list P) r'), v).
Proof.
  intros id P a nxt r an Hin Hff Hf Hb.
  destruct (free_at id P a nxt Hin Hff) as (r1 & Hr & HR & H1 & H2 & H3 & Eh & Hn0 & En & Eb & Ef & Hacc & Elw & Hpo).
  rewrite Eb in Hb. rewrite Hb in *. rewrite Hf in Ef. injection Ef as <-.
  pose proof (wi_pools _ _ _ _ _ _ HW _ _ Hin) as HI. cbn [w_vm] in HI.
  pose proof (wi_wf _ _ _ _ _ _ HW) as Hwf. cbn [w_vm] in Hwf. destruct Hff as (fr & EF & Efr).
  pose proof (malloc_locked_spec e P (items id F) (items id L) an v HI Hwf) as Hp.
  unfold node_base, node_ptr in Eb. unfold node_ptr in En.
  assert (Em : malloc_locked e P an v =
    do x <- (do _ <- check_poison_item e (set_head P nxt) r (a - base r) v; Ok (Some (r, a - base r, a), set_head P nxt, v));
    let '(found, P, v) := x in
    match found with
    | None => Ok (None, P, v)
    | Some (r, item_offset, addr) =>
      do r <- set_alloc_slot e P r item_offset;
      Ok (Some (r, item_offset, addr), set_ranges P (put_range (range_list P) r), v)
    end).
  { unfold malloc_locked. rewrite Eh. cbv zeta. apply Z.eqb_neq in Hn0. rewrite Hn0. cbn [negb].
    change (strd P) with (stride (pattr P)) in Eb. rewrite Eb, Hf, Hacc. cbn [negb]. rewrite Elw.
    rewrite (s_fl P (set_head P nxt) (set_head_same P nxt)), En. reflexivity. }
  rewrite Em in Hp |- *.
  destruct (check_poison_item e (set_head P nxt) r (a - base r) v) as [[]| |]; cbn [bind] in Hp |- *.
  - destruct (set_alloc_slot e (set_head P nxt) r (a - base r)) as [r'| |]; cbn [bind] in Hp |- *.
    + exists r'. split; reflexivity.
    + inversion Hp as [Ef0 _|a' f' Ef0 Hrob Hnp| | | ]; rewrite EF in Ef0; [discriminate Ef0|]. injection Ef0 as <- _. exfalso. auto.
    + inversion Hp.
  - inversion Hp as [Ef0 _|a' f' Ef0 Hrob Hnp| | | ]; rewrite EF in Ef0; [discriminate Ef0|]. injection Ef0 as <- _. exfalso. auto.
  - inversion Hp.
Qed.

Theorem minv_advance : forall t k r, advance e t k m = Some r -> stepped t r \/ (r = Abort /\ trims t).
Proof.
  intros t k r Hadv. unfold advance in Hadv.
  destruct (pool_of (ts t)) as [id|] eqn:Hpo; [|discriminate Hadv].
  destruct (pool_in e v0 m G L F HM t id Hpo) as (P & Hin).
  rewrite (look e v0 m G L F HM id P Hin) in Hadv.
  pose proof (geoms e v0 m G L F HM id P Hin) as HG. pose proof (item_pos _ _ HG) as Hip.
  pose proof (mi_task _ _ _ _ _ _ HM t) as Ht.
  pose proof (mi_excl _ _ _ _ _ _ HM t) as Hexc. pose proof (mi_live _ _ _ _ _ _ HM) as HLv.
  assert (Hact : forall i, locks (ts t) = Some i -> actual (m_lock m) ts id P = eff (ts t) P).
  { intros i Hi. pose proof (locks_pool _ _ Hi) as E. rewrite Hpo in E. injection E as <-. now apply actual_locked. }
  assert (Hidle : forall i, owns (ts t) = Some i ->
    (forall j, In j L <-> In j (i :: m_held m) \/ owns TIdle = Some j \/ exists t', t' <> t /\ owns (ts t') = Some j) /\
    (forall j, owns TIdle = Some j -> ~ In j (i :: m_held m) /\ forall t', t' <> t -> owns (ts t') <> Some j) /\
    (forall t' j, t' <> t -> owns (ts t') = Some j -> ~ In j (i :: m_held m))).
  { intros i Hi. split; [|split].
    - intros j. rewrite HLv. split.
      + intros [H|(t' & H)]; [left; now right|]. destruct (Z.eq_dec t' t) as [->|Hne]; [left; left; congruence|]. right. right. eauto.
      + intros [[<-|H]|[H|(t' & _ & H)]]; eauto. discriminate H.
    - intros j H. discriminate H.
    - intros t' j Hne H [E|E].
      + subst j. apply Hne. eapply (proj2 (Hexc _ Hi)). exact H.
      + exact (proj1 (mi_excl _ _ _ _ _ _ HM t' j H) E). }
  destruct (ts t) as [|i c|i an c|i c n|i c n nxt|i c n nxt todo|i an c|i c found|i item c ph|i ptr s|i ptr s|i ptr hd ph|i ptr hd|i ptr|i] eqn:Et;
    cbn [pool_of] in Hpo; try discriminate Hpo; injection Hpo as ->; cbn [step_in] in Hadv;
    cbn [MicroProofs.tok] in Ht; cbn [locks pool_of] in Hact; try rewrite (Hact _ eq_refl) in Hadv; cbn [MicroInv.eff] in Hadv.
  - (* TWant *)
    destruct (m_lock m id) eqn:El; [discriminate Hadv|]. injection Hadv as <-. left. now apply step_want.
  - (* TMHead *)
    injection Hadv as <-. left. destruct Ht as (P' & Hin' & Hc). rewrite (unique id P P' Hin Hin') in *.
    destruct (free_list_head P =? 0) eqn:E; (eapply (step_goto t id _ P); auto; rewrite ?Et; auto); cbn [MicroProofs.tok].
    + apply Z.eqb_eq in E. eauto.
    + apply Z.eqb_neq in E. eauto.
  - (* TMNext *)
    injection Hadv as <-. left. destruct Ht as (P' & Hin' & Hc & -> & Hn0). rewrite (unique id P P' Hin Hin') in *.
    pose proof (pi_chain _ _ _ _ _ (wi_pools _ _ _ _ _ _ HW _ _ Hin)) as Hch. cbn [w_vm] in Hch.
    destruct (items id F) as [|a fr] eqn:EF; [cbn in Hch; congruence|].
    destruct (free_at id P a (hd_node P fr) Hin) as (r1 & Hr & HR & H1 & H2 & H3 & Eh & _ & En & Eb & Ef & Hacc & Elw & Hpois); [exists fr; auto|].
    rewrite Eh, Eb, Ef, Hacc, Elw. eapply (step_goto t id _ P); auto; rewrite ?Et; auto.
    cbn [MicroProofs.tok]. exists P, a. do 3 (split; auto). exists fr; auto.
  - (* TMPop *)
    injection Hadv as <-. left. destruct Ht as (P' & a & Hin' & Hc & -> & Hff). rewrite (unique id P P' Hin Hin') in *.
    destruct (free_at id P a nxt Hin Hff) as (r1 & Hr & HR & H1 & H2 & H3 & Eh & _ & En & Eb & Ef & Hacc & Elw & Hpois).
    rewrite Eb, Ef, En. eapply (step_put t id _ P); auto; rewrite ?Et; auto.
    cbn [MicroProofs.tok]. exists P, a. do 4 (split; auto). now apply check_in.
  - (* TMCheck *)
    destruct Ht as (P' & a & Hin' & Hc & -> & Hff & Htodo). rewrite (unique id P P' Hin Hin') in *.
    destruct (free_at id P a nxt Hin Hff) as (r1 & Hr & HR & H1 & H2 & H3 & Eh & _ & En & Eb & Ef & Hacc & Elw & Hpois).
    destruct todo as [|x todo]; injection Hadv as <-; left.
    + assert (Enb : node_base e (set_head P nxt) (node P a) = base r1 /\ node_ptr e (set_head P nxt) (node P a) = a).
      { unfold node_base, node_ptr in *. rewrite (s_fl P (set_head P nxt) (set_head_same P nxt)). auto. }
      destruct Enb as [-> ->]. cbn [range_list set_head]. rewrite Ef.
      destruct (reuse_locked id P a nxt r1 no_answers Hin Hff Ef Eb) as (r' & E1 & E2).
      rewrite E1. cbn [bind]. eapply (malloc_move t id c P); eauto; rewrite ?Et; auto.
    + destruct (Htodo x (or_introl eq_refl)) as (Hrob & i & k0 & Hi & Hk0 & Hk1 & ->).
      assert (Hax : accessible e v (a + strd P * i + wsz e * k0) (wsz e) = true).
      { pose proof (eight_item _ _ HG) as [m8 Hm8]. pose proof (wsz_range e). assert (k0 < m8) by nia. pose proof (na_bounds P).
        replace (a + strd P * i + wsz e * k0) with (base r1 + strd P * i + (a - base r1 + wsz e * k0)) by ring.
        apply (item_accessible e P v r1); auto; [lia|nia|]. nia. }
      rewrite Hax. cbn [negb]. rewrite (Hpois Hrob i k0 Hi Hk0 Hk1). cbn [pattr set_head]. rewrite Z.eqb_refl.
      eapply (step_goto t id _ P); auto; rewrite ?Et; auto. cbn [MicroProofs.tok]. exists P, a. do 4 (split; auto). intros y Hy. apply Htodo. now right.
  - (* TMFresh *)
    injection Hadv as <-. destruct Ht as (P' & Hin' & Hc & Hh). rewrite (unique id P P' Hin Hin') in *.
    pose proof (wi_pools _ _ _ _ _ _ HW _ _ Hin) as HI. cbn [w_vm] in HI.
    assert (EF : items id F = []).
    { pose proof (pi_chain _ _ _ _ _ HI) as Hch. destruct (items id F) as [|a fr] eqn:EF; auto.
      destruct (free_at id P a (hd_node P fr) Hin) as (r1 & _ & _ & _ & _ & _ & Eh & Hn0 & _); [exists fr; auto|]. congruence. }
    pose proof (malloc_locked_spec e P (items id F) (items id L) an v HI (wi_wf _ _ _ _ _ _ HW)) as Hp.
    destruct (malloc_locked e P an v) as [[[found P1] v1]| |] eqn:E; cbn [bind].
    + left. apply (malloc_move t id c P an found P1 v1); auto; rewrite ?Et; auto.
    + right. split; [reflexivity|]. exists id, an, c. split; [exact Et|].
      inversion Hp as [_ H|a' f' Ef0 _ _| | |]; [exact H|]. rewrite EF in Ef0. discriminate Ef0.
    + inversion Hp.
  - (* TMUnlock *)
    injection Hadv as <-. left. destruct Ht as (P' & Hin' & Hc & Hfound). rewrite (unique id P P' Hin Hin') in *.
    destruct found as [[[r0 off] a]|].
    + destruct Hfound as (Ea & Ho & Hol & Hr0). cbn [owns] in Hidle, Hexc.
      pose proof (wi_pools _ _ _ _ _ _ HW _ _ Hin) as HI. cbn [w_vm] in HI.
      assert (HR0 : rinv P v r0) by (pose proof (pi_ranges _ _ _ _ _ HI) as HF; rewrite Forall_forall in HF; auto).
      destruct (Hidle _ eq_refl) as (Hd1 & Hd2 & Hd3).
      assert (Hany : forall x, stepped t (Ok (set_held (goto (set_lock m id None) t TIdle) ((id, a) :: m_held m), x))).
      { intros x. eexists _, _, G, L, F. split; [reflexivity|]. split; [|same_keeps].
        apply (step_leave t id P TIdle ((id, a) :: m_held m)); auto; try (rewrite Et; reflexivity). exact Logic.I. }
      assert (Hfill : stepped t (Ok (goto (set_lock m id None) t (TFill id a c (fill_start e P r0 off (content_bytes P c))), None))).
      { eexists _, _, G, L, F. split; [reflexivity|]. split; [|same_keeps].
        apply (step_leave t id P (TFill id a c (fill_start e P r0 off (content_bytes P c))) (m_held m)); auto; try (rewrite Et; reflexivity).
        - intros j. rewrite HLv. cbn [owns]. split.
          + intros [H|(t' & H)]; auto. destruct (Z.eq_dec t' t) as [->|Hne]; [rewrite Et in H; auto|]. right. right. eauto.
          + intros [H|[H|(t' & _ & H)]]; eauto. right. exists t. now rewrite Et.
        - intros j H. cbn [owns] in H. destruct (Hexc j H) as [K1 K2]. split; auto.
        - intros t' j _ H. apply (mi_excl _ _ _ _ _ _ HM t' j H).
        - cbn [MicroProofs.tok]. exists P. split; auto. split; auto.
          rewrite (start_eq e P a (content_bytes P c) v r0 off HG HR0 Ea Ho Hol P r0 (same_refl P)) by (repeat split).
          now apply phase_start. }
      destruct c; auto.
    + eexists _, _, G, L, F. split; [reflexivity|]. split; [|same_keeps].
      apply (step_leave t id P TIdle (m_held m)); auto; try (rewrite Et; reflexivity).
      * intros j. rewrite HLv. cbn [owns]. split.
        -- intros [H|(t' & H)]; auto. right. right. exists t'. split; auto. intros ->. rewrite Et in H. discriminate H.
        -- intros [H|[H|(t' & _ & H)]]; eauto. discriminate H.
      * intros j H. discriminate H.
      * intros t' j _ H. apply (mi_excl _ _ _ _ _ _ HM t' j H).
  - (* TFill *)
    left. destruct Ht as (P' & Hin' & Hc & Hph). rewrite (unique id P P' Hin Hin') in *. cbn [owns] in Hidle, Hexc.
    destruct (Hidle _ eq_refl) as (Hd1 & Hd2 & Hd3).
    assert (Hstep : stepped t (do x <- fill_byte e k ph v; let '(ph, v) := x in Ok (goto (set_vm m v) t (TFill id item c ph), None))).
    { destruct (step_fill t id item P (content_bytes P c) k ph Hin) as (ph' & v' & E & Hph' & HW' & Hk); auto.
      - now rewrite Et.
      - apply (content_block e P c HG Hc).
      - rewrite E. cbn [bind]. apply (step_bytes t id (TFill id item c ph') P v'); auto; rewrite ?Et; auto.
        cbn [MicroProofs.tok]. eauto. }
    destruct ph as [todo rest|todo all rest|]; injection Hadv as <-; try exact Hstep.
    eexists _, _, G, L, F. split; [reflexivity|]. split; [|same_keeps].
    pose proof (minv_move e v0 m G L F HM t id TIdle P P v L F ((id, item) :: m_held m) (m_lock m) (actual (m_lock m) ts id P)) as K.
    rewrite (set_same e v0 m G L F HM id P Hin) in K. rewrite (put_same e v0 m G L F HM id P Hin) in K.
    apply K; clear K; auto using same_refl.
    + left. now rewrite Et.
    + intros j. rewrite Et. cbn. destruct (j =? id) eqn:Ej; auto. apply Z.eqb_eq in Ej. now subst j.
    + apply keeps_refl.
    + unfold MicroInv.actual. destruct (m_lock m id) as [t'|] eqn:El; auto. rewrite upd_other; auto. intros ->.
      apply (mi_lock _ _ _ _ _ _ HM) in El. rewrite Et in El. discriminate El.
    + exact Logic.I.
  - (* TFClear *)
    injection Hadv as <-. left. destruct Ht as (P' & Hin' & ->). rewrite (unique id P P' Hin Hin') in *.
    assert (HaL : In (id, ptr) L) by (apply HLv; right; exists t; now rewrite Et).
    destruct (cleared_spec e v0 W L F HW id P ptr Hin HaL) as (r1 & r' & Hr & HR & H1 & H2 & H3 & Ef & Eo & Ec & Htw & Ecl & Ef').
    rewrite Ef, Eo, Ec. cbn [bind]. eapply (step_put t id _ P); auto; rewrite ?Et; auto. cbn [MicroProofs.tok]. eauto.
  - (* TFHead *)
    injection Hadv as <-. left. destruct Ht as (P' & Hin' & ->). rewrite (unique id P P' Hin Hin') in *.
    assert (HaL : In (id, ptr) L) by (apply HLv; right; exists t; now rewrite Et).
    destruct (cleared_spec e v0 W L F HW id P ptr Hin HaL) as (r1 & r' & Hr & HR & H1 & H2 & H3 & Ef & Eo & Ec & Htw & Ecl & Ef').
    cbn [w_vm] in HR. pose proof (cleared_same e P ptr) as HS. rewrite Ef', Eo, cleared_head, (s_attr P _ HS).
    assert (Epo : poison_of e (cleared P ptr) = poison_of e P).
    { unfold poison_of. rewrite (s_len P _ HS), (s_attr P _ HS). reflexivity. }
    rewrite Epo.
    rewrite (start_eq e P ptr (poison_of e P) v r1 (ptr - base r1) HG HR ltac:(lia) H1 H2 (cleared P ptr) r' HS Htw).
    assert (Est : start (cleared P ptr) ptr (poison_of e P) = start P ptr (poison_of e P)).
    { unfold start, area, cpus. rewrite (s_attr P _ HS), (s_cow P _ HS). reflexivity. }
    rewrite Est.
    destruct (poison_set (pattr P)) eqn:Eps; (eapply (step_goto t id _ P); auto; rewrite ?Et; auto); cbn [MicroProofs.tok]; exists P; split; auto; split; auto.
    + now apply phase_start.
    + intros H. congruence.
  - (* TFPoison *)
    left. destruct Ht as (P' & Hin' & Ehd & Hph). rewrite (unique id P P' Hin Hin') in *.
    assert (Hstep : stepped t (do x <- fill_byte e k ph v; let '(ph, v) := x in Ok (goto (set_vm m v) t (TFPoison id ptr hd ph), None))).
    { destruct (step_fill t id ptr P (poison_of e P) k ph Hin) as (ph' & v' & E & Hph' & HW' & Hk); auto.
      - now rewrite Et.
      - apply (poison_blk e P HG).
      - rewrite E. cbn [bind]. apply (step_bytes t id (TFPoison id ptr hd ph') P v'); auto; rewrite ?Et; auto.
        cbn [MicroProofs.tok]. eauto. }
    destruct ph as [todo rest|todo all rest|]; injection Hadv as <-; try exact Hstep.
    eapply (step_goto t id _ P); auto; rewrite ?Et; auto. cbn [MicroProofs.tok]. eauto.
  - (* TFLink *)
    injection Hadv as <-. left. destruct Ht as (P' & Hin' & Ehd & Hph). rewrite (unique id P P' Hin Hin') in *.
    assert (HaL : In (id, ptr) L) by (apply HLv; right; exists t; now rewrite Et).
    destruct (node_of e v0 W L F HW id P ptr Hin) as (N1 & _); [apply in_or_app; auto|].
    rewrite (s_lf P _ (cleared_same e P ptr)), N1.
    destruct (link_item t id ptr P hd Hin) as (K1 & K2 & K3 & K4 & K5); auto; [now rewrite Et|].
    rewrite K1. apply (step_bytes t id (TFPush id ptr) P _); auto; rewrite ?Et; auto. cbn [MicroProofs.tok]. eauto.
  - (* TFPush *)
    injection Hadv as <-. left. destruct Ht as (P' & Hin' & Hlw & Hpoi). rewrite (unique id P P' Hin Hin') in *.
    assert (HaL : In (id, ptr) L) by (apply HLv; right; exists t; now rewrite Et).
    destruct (node_of e v0 W L F HW id P ptr Hin) as (N1 & _); [apply in_or_app; auto|].
    rewrite (s_lf P _ (cleared_same e P ptr)), N1. set (P2 := set_head (cleared P ptr) (node P ptr)).
    assert (HS2 : same P P2) by (unfold P2; pose proof (cleared_same e P ptr) as HS; destruct HS as (E1 & E2 & E3); repeat split; auto).
    eexists _, _, (set_pool id P2 G), (filter (fun i => negb (same_item i (id, ptr))) L), ((id, ptr) :: F). split; [reflexivity|].
    split; [|split; [intros ? ? ? ? _ _ _ _; reflexivity|apply (kept_set G id P P2); auto; apply (wi_ids _ _ _ _ _ _ HW)]].
    assert (Hfi : forall j, In j (filter (fun i => negb (same_item i (id, ptr))) L) <-> In j L /\ j <> (id, ptr)).
    { intros [j b]. rewrite filter_In. unfold same_item. cbn [fst snd]. split; intros [A B]; split; auto.
      - intros E. injection E as -> ->. rewrite !Z.eqb_refl in B. discriminate B.
      - destruct (j =? id) eqn:E1, (b =? ptr) eqn:E2; auto. exfalso. apply B. apply Z.eqb_eq in E1, E2. congruence. }
    assert (Ho : owns (ts t) = Some (id, ptr)) by now rewrite Et.
    apply (minv_move e v0 m G L F HM t id (TFUnlock id) P P2 v _ _ (m_held m) (m_lock m) P2); auto.
    + left. now rewrite Et.
    + apply (winv_push e v0 W L F HW id P ptr Hin HaL); auto.
    + left. now rewrite Et.
    + intros id' Hne. rewrite items_cons. cbn [fst]. replace (id =? id') with false by (symmetry; apply Z.eqb_neq; congruence). reflexivity.
    + intros j. cbn. destruct (j =? id) eqn:Ej; auto. apply Z.eqb_eq in Ej. subst j. apply (mi_lock _ _ _ _ _ _ HM). now rewrite Et.
    + intros _. left. rewrite Et. discriminate.
    + apply keeps_refl.
    + intros j. rewrite Hfi, HLv. cbn [owns]. split.
      * intros [[H|(t' & H)] Hj]; auto. right. right. exists t'. split; auto. intros ->. congruence.
      * intros [H|[H|(t' & Hne & H)]]; [|discriminate H|].
        -- split; auto. intros ->. exact (proj1 (mi_excl _ _ _ _ _ _ HM t _ Ho) H).
        -- split; eauto. intros ->. apply Hne. eapply (proj2 (mi_excl _ _ _ _ _ _ HM t _ Ho)). exact H.
    + intros j H. discriminate H.
    + intros t' j _ H. apply (mi_excl _ _ _ _ _ _ HM t' j H).
    + unfold MicroInv.actual. assert (El : m_lock m id = Some t) by (apply (mi_lock _ _ _ _ _ _ HM); now rewrite Et). rewrite El, upd_same. reflexivity.
    + cbn [MicroProofs.tok]. exists P2. unfold set_pool. apply in_map_iff. exists (id, P). cbn. now rewrite Z.eqb_refl.
  - (* TFUnlock *)
    injection Hadv as <-. left. eexists _, _, G, L, F. split; [reflexivity|]. split; [|same_keeps].
    apply (step_leave t id P TIdle (m_held m)); auto; try (rewrite Et; reflexivity).
    + intros j. rewrite HLv. cbn [owns]. split.
      * intros [H|(t' & H)]; auto. right. right. exists t'. split; auto. intros ->. rewrite Et in H. discriminate H.
      * intros [H|[H|(t' & _ & H)]]; eauto. discriminate H.
    + intros j H. discriminate H.
    + intros t' j _ H. apply (mi_excl _ _ _ _ _ _ HM t' j H).
    + exact Logic.I.
Qed.
End Steps.
End MS.
