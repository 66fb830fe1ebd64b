(** The interleaved pool calls keep their invariant. *)
From Coq Require Import ZArith Bool List Lia Znumtheory Permutation.
From Verif Require Import UtilsModel UtilsLemmas RseqIR MemLemmas PoolVM PoolVMLemmas PoolModel PoolInv PoolItem PoolMap PoolRange PoolBitmap PoolOps PoolMalloc PoolFree PoolDestroy PoolWorld PoolCreate PoolHist MicroModel MicroInv MicroWorld.
Import ListNotations.
Local Open Scope Z_scope.

Definition is_some {A : Type} (o : option A) : bool := match o with Some _ => true | None => false end.
Lemma upd_same : forall (A : Type) (f : Z -> A) k x, upd f k x k = x.
Proof. intros. unfold upd. now rewrite Z.eqb_refl. Qed.
Lemma upd_other : forall (A : Type) (f : Z -> A) k x i, i <> k -> upd f k x i = f i.
Proof. intros A f k x i H. unfold upd. apply Z.eqb_neq in H. now rewrite H. Qed.

Section MP.
Variable e : env.
Hypothesis He : env_ok e.
Hypothesis Hcp : 0 <= e_ncpus e.
Notation page := (PoolVM.page e).
Notation geom := (geom e).
Notation rinv := (rinv e).
Notation pinv := (pinv e).
Notation poisoned := (poisoned e).
Notation vmwf := (vmwf e).
Notation view := (view e).
Notation cleared := (cleared e).
Notation eff := (eff e).
Notation actual := (actual e).
Notation acts := (acts e).
Notation phase_ok := (phase_ok e).

Definition hd_node (P : pool) (l : list Z) : Z := match l with [] => 0 | b :: _ => node P b end.
Lemma chain_hd : forall P v h l, chain e P v h l -> h = hd_node P l.
Proof. intros P v h [|b l] H; cbn in *; [exact H|apply H]. Qed.

Definition first_free (F : ledger) (id : Z) (P : pool) (a nxt : Z) : Prop :=
  exists fr, items id F = a :: fr /\ nxt = hd_node P fr.

Definition tok (G : list (Z * pool)) (F : ledger) (v : vm) (tk : task) : Prop :=
  match tk with
  | TIdle => True
  | TWant id (CMalloc id' _ c) => id' = id /\ exists P, In (id, P) G /\ content_fits P c
  | TWant id (CFree ptr s) => exists P, In (id, P) G /\ s = strd P
  | TMHead id _ c => exists P, In (id, P) G /\ content_fits P c
  | TMNext id c nd => exists P, In (id, P) G /\ content_fits P c /\ nd = free_list_head P /\ nd <> 0
  | TMPop id c nd nxt => exists P a, In (id, P) G /\ content_fits P c /\ nd = node P a /\ first_free F id P a nxt
  | TMCheck id c nd nxt todo => exists P a, In (id, P) G /\ content_fits P c /\ nd = node P a /\ first_free F id P a nxt /\
      forall x, In x todo -> robust_set (pattr P) = true /\
        exists i k, 0 <= i < PoolInv.nd P /\ 0 <= k /\ wsz e * k < item_len P /\ x = a + strd P * i + wsz e * k
  | TMFresh id _ c => exists P, In (id, P) G /\ content_fits P c /\ free_list_head P = 0
  | TMUnlock id c found => exists P, In (id, P) G /\ content_fits P c /\
      match found with
      | None => True
      | Some (r, off, a) => a = base r + off /\ 0 <= off /\ off + item_len P <= strd P /\ In r (range_list P)
      end
  | TFill id a c ph => exists P, In (id, P) G /\ content_fits P c /\ phase_ok P a (content_bytes P c) v ph
  | TFClear id ptr s | TFHead id ptr s => exists P, In (id, P) G /\ s = strd P
  | TFPoison id ptr hd ph => exists P, In (id, P) G /\ hd = free_list_head P /\ phase_ok P ptr (poison_of e P) v ph
  | TFLink id ptr hd => exists P, In (id, P) G /\ hd = free_list_head P /\
      (poison_set (pattr P) = true -> phase_ok P ptr (poison_of e P) v PEnd)
  | TFPush id ptr => exists P, In (id, P) G /\ load_word e v (node P ptr) = free_list_head P /\
      (robust_set (pattr P) = true -> poisoned P v ptr)
  | TFUnlock id => exists P, In (id, P) G
  end.

Record minv (v0 : vm) (m : mstate) (G : list (Z * pool)) (L F : ledger) : Prop := {
  mi_w : winv e true v0 {| w_vm := m_vm m; w_pools := G |} L F;
  mi_pools : m_pools m = acts (m_lock m) (m_task m) G;
  mi_live : forall i, In i L <-> In i (m_held m) \/ exists t, owns (m_task m t) = Some i;
  mi_excl : forall t i, owns (m_task m t) = Some i -> ~ In i (m_held m) /\ forall t', owns (m_task m t') = Some i -> t' = t;
  mi_lock : forall id t, m_lock m id = Some t <-> locks (m_task m t) = Some id;
  mi_task : forall t, tok G F (m_vm m) (m_task m t)
}.

(** ** The pools' fields *)
Lemma lookup_acts : forall lk ts G id, lookup id (acts lk ts G) = option_map (actual lk ts id) (lookup id G).
Proof.
  intros lk ts G id. unfold lookup, MicroInv.acts. induction G as [|[i P] G IH]; cbn [map find fst snd]; [reflexivity|].
  destruct (i =? id) eqn:E; [|exact IH]. apply Z.eqb_eq in E. subst i. reflexivity.
Qed.
Lemma acts_set : forall lk ts lk' ts' G id P' Q,
  (forall i P, In (i, P) G -> i <> id -> actual lk' ts' i P = actual lk ts i P) -> actual lk' ts' id P' = Q ->
  set_pool id Q (acts lk ts G) = acts lk' ts' (set_pool id P' G).
Proof.
  intros lk ts lk' ts' G id P' Q H HQ. unfold MicroInv.acts, set_pool. rewrite !map_map. apply map_ext_in. intros [i P] Hin. cbn [fst snd].
  destruct (i =? id) eqn:E; cbn [fst snd].
  - now rewrite HQ.
  - apply Z.eqb_neq in E. now rewrite H.
Qed.
Lemma acts_ids : forall lk ts G, map fst (acts lk ts G) = map fst G.
Proof. intros lk ts G. unfold MicroInv.acts. rewrite map_map. reflexivity. Qed.

Lemma eff_same : forall tk P, same P (eff tk P).
Proof.
  intros tk P. destruct tk; cbn [MicroInv.eff]; try apply same_refl; try apply cleared_same. apply set_head_same.
Qed.
Lemma actual_same : forall lk ts id P, same P (actual lk ts id P).
Proof. intros lk ts id P. unfold MicroInv.actual. destruct (lk id); [apply eff_same|apply same_refl]. Qed.

Lemma locks_pool : forall tk id, locks tk = Some id -> pool_of tk = Some id.
Proof. intros tk id H. destruct tk; try discriminate H; exact H. Qed.

(** ** Blocks *)
Lemma content_block : forall P c, geom P -> content_fits P c -> block (content_bytes P c) (item_len P).
Proof.
  intros P c HG Hc. pose proof (item_pos _ _ HG). destruct c as [| |bs]; cbn [content_fits] in Hc.
  - intros p. split; [intros x b b' []|intros x []].
  - apply (zero_block (item_len P)). lia.
  - intros p. destruct (fill_bytes_block bs p) as [H1 H2]. split; [exact H1|]. intros x Hx. specialize (H2 x Hx). destruct Hc. lia.
Qed.
Lemma poison_blk : forall P, geom P -> block (poison_of e P) (item_len P).
Proof. intros P HG. pose proof (item_pos _ _ HG). apply poison_block; [lia|]. apply (eight_item _ _ HG). Qed.

Lemma phase_same : forall P P' a W v ph, same P P' -> phase_ok P a W v ph -> phase_ok P' a W v ph.
Proof.
  intros P P' a W v ph HS. unfold MicroInv.phase_ok, rest_ok, area. rewrite (s_attr P P' HS), (s_nd P P' HS). auto.
Qed.
Lemma content_same : forall P P' c, same P P' -> content_bytes P' c = content_bytes P c.
Proof.
  intros P P' c HS.
  change (content_bytes P' c) with ((fun n (p : Z) => match c with Any => [] | Zeroed => zero_bytes p n | Bytes bs => fill_bytes p bs end) (item_len P')).
  rewrite (s_len P P' HS). reflexivity.
Qed.
Lemma fits_same : forall P P' c, same P P' -> content_fits P c -> content_fits P' c.
Proof. intros P P' c HS H. unfold content_fits in *. now rewrite (s_len P P' HS). Qed.

(** A task is not disturbed by what other threads do. *)
Lemma tok_stable : forall G F v G' F' v' tk, (forall id P, In (id, P) G -> geom P) ->
  tok G F v tk ->
  (forall id P, pool_of tk = Some id -> In (id, P) G ->
     exists P', In (id, P') G' /\ same P P' /\ (locks tk = Some id -> P' = P /\ items id F' = items id F)) ->
  (forall id a P x, owns tk = Some (id, a) -> In (id, P) G -> ibytes P a x -> view v' x = view v x) ->
  (forall id a P x, owns tk = Some (id, a) -> In (id, P) G -> node P a <= x < node P a + wsz e -> ibytes P a x) ->
  tok G' F' v' tk.
Proof.
  intros G F v G' F' v' tk HG HT Hp Hv Hnode.
  destruct tk as [|id [id' an c|ptr s]|id an c|id c n|id c n nxt|id c n nxt todo|id an c|id c found|id item c ph|id ptr s|id ptr s|id ptr hd ph|id ptr hd|id ptr|id];
    cbn [tok] in *; auto; cbn [pool_of locks owns] in Hp, Hv, Hnode.
  - destruct HT as (-> & P & Hin & Hc). split; auto. destruct (Hp _ _ eq_refl Hin) as (P' & Hin' & HS & _). exists P'. split; auto. eapply fits_same; eauto.
  - destruct HT as (P & Hin & ->). destruct (Hp _ _ eq_refl Hin) as (P' & Hin' & HS & _). exists P'. split; auto. now rewrite (s_attr P P' HS).
  - destruct HT as (P & Hin & Hc). destruct (Hp _ _ eq_refl Hin) as (P' & Hin' & HS & Hl). destruct (Hl eq_refl) as [-> EF]. eauto.
  - destruct HT as (P & Hin & Hc). destruct (Hp _ _ eq_refl Hin) as (P' & Hin' & HS & Hl). destruct (Hl eq_refl) as [-> EF]. eauto.
  - destruct HT as (P & a & Hin & Hc & Hn & Hf). destruct (Hp _ _ eq_refl Hin) as (P' & Hin' & HS & Hl). destruct (Hl eq_refl) as [-> EF].
    exists P, a. unfold first_free in *. rewrite EF. auto.
  - destruct HT as (P & a & Hin & Hc & Hn & Hf & Ht). destruct (Hp _ _ eq_refl Hin) as (P' & Hin' & HS & Hl). destruct (Hl eq_refl) as [-> EF].
    exists P, a. unfold first_free in *. rewrite EF. auto.
  - destruct HT as (P & Hin & Hc). destruct (Hp _ _ eq_refl Hin) as (P' & Hin' & HS & Hl). destruct (Hl eq_refl) as [-> EF]. eauto.
  - destruct HT as (P & Hin & Hc). destruct (Hp _ _ eq_refl Hin) as (P' & Hin' & HS & Hl). destruct (Hl eq_refl) as [-> EF]. eauto.
  - destruct HT as (P & Hin & Hc & Hph). destruct (Hp _ _ eq_refl Hin) as (P' & Hin' & HS & _). exists P'. split; auto. split; [eapply fits_same; eauto|].
    rewrite (content_same P P' c HS). eapply phase_same; [exact HS|].
    apply (phase_frame e P item _ v (content_block P c (HG _ _ Hin) Hc) v'); [intros x Hx; eapply Hv; eauto|exact Hph].
  - destruct HT as (P & Hin & Hc). destruct (Hp _ _ eq_refl Hin) as (P' & Hin' & HS & Hl). destruct (Hl eq_refl) as [-> EF]. eauto.
  - destruct HT as (P & Hin & Hc). destruct (Hp _ _ eq_refl Hin) as (P' & Hin' & HS & Hl). destruct (Hl eq_refl) as [-> EF]. eauto.
  - destruct HT as (P & Hin & Hc & Hph). destruct (Hp _ _ eq_refl Hin) as (P' & Hin' & HS & Hl). destruct (Hl eq_refl) as [-> EF].
    exists P. split; auto. split; auto.
    apply (phase_frame e P ptr _ v (poison_blk P (HG _ _ Hin)) v'); [intros x Hx; eapply Hv; eauto|exact Hph].
  - destruct HT as (P & Hin & Hc & Hph). destruct (Hp _ _ eq_refl Hin) as (P' & Hin' & HS & Hl). destruct (Hl eq_refl) as [-> EF].
    exists P. split; auto. split; auto. intros Hps.
    apply (phase_frame e P ptr _ v (poison_blk P (HG _ _ Hin)) v' PEnd); [intros x Hx; eapply Hv; eauto|exact (Hph Hps)].
  - destruct HT as (P & Hin & Hlw & Hpo). destruct (Hp _ _ eq_refl Hin) as (P' & Hin' & HS & Hl). destruct (Hl eq_refl) as [-> EF].
    exists P. split; auto. split.
    + rewrite (load_word_ext e v v'); auto. intros x Hx. eapply Hv; eauto.
    + intros Hrob i k Hi Hk Hk2. rewrite (load_word_ext e v v'); [apply Hpo; auto|]. intros x Hx. eapply Hv; eauto.
      pose proof (eight_item _ _ (HG _ _ Hin)) as [mm Hm]. pose proof (wsz_range e). assert (k < mm) by nia. pose proof (na_bounds P).
      exists i, (x - ptr - strd P * i). split; [lia|]. split; [nia|]. ring.
  - destruct HT as (P & Hin). destruct (Hp _ _ eq_refl Hin) as (P' & Hin' & HS & _). eauto.
Qed.

(** ** One thread moves *)
Section Move.
Variables (v0 : vm) (m : mstate) (G : list (Z * pool)) (L F : ledger).
Hypothesis HM : minv v0 m G L F.
Let HW := mi_w _ _ _ _ _ HM.
Notation ts := (m_task m).
Notation v := (m_vm m).

Lemma live_of : forall t i, owns (ts t) = Some i -> In i L.
Proof. intros t i H. apply (mi_live _ _ _ _ _ HM). right. eauto. Qed.
Lemma pool_in : forall t id, pool_of (ts t) = Some id -> exists P, In (id, P) G.
Proof.
  intros t id H. pose proof (mi_task _ _ _ _ _ HM t) as K. destruct (ts t) as [|i [i' an c|ptr s]|i an c|i c n|i c n nxt|i c n nxt todo|i an c|i c found|i item c ph|i ptr s|i ptr s|i ptr hd ph|i ptr hd|i ptr|i];
    cbn [pool_of] in H; try discriminate H; injection H as ->; cbn [tok] in K;
    try (destruct K as (P & K & _); eauto; fail); try (destruct K as (P & a & K & _); eauto; fail).
  destruct K as (P & K). eauto.
Qed.
Lemma look : forall id P, In (id, P) G -> lookup id (m_pools m) = Some (actual (m_lock m) ts id P).
Proof.
  intros id P H. rewrite (mi_pools _ _ _ _ _ HM), lookup_acts. rewrite (lookup_some id P G); auto. apply (wi_ids _ _ _ _ _ _ HW).
Qed.
Lemma geoms : forall id P, In (id, P) G -> geom P.
Proof. intros id P H. exact (wgeom e v0 _ L F HW id P H). Qed.
Lemma set_same : forall id P, In (id, P) G -> set_pool id P G = G.
Proof. intros id P H. pose proof (wi_ids _ _ _ _ _ _ HW) as Hn. apply set_pool_id; auto. apply lookup_some; auto. Qed.

(** Bytes of the items that thread [t] does not own keep their values. *)
Definition keeps (t : Z) (v' : vm) : Prop :=
  forall id a P x, In (id, a) L -> owns (ts t) <> Some (id, a) -> In (id, P) G -> ibytes P a x -> view v' x = view v x.

Lemma minv_move : forall t id tk' P P' v' L' F' held' lk' Q,
  In (id, P) G -> same P P' ->
  pool_of (ts t) = Some id \/ ts t = TIdle -> pool_of tk' = Some id \/ tk' = TIdle ->
  winv e true v0 {| w_vm := v'; w_pools := set_pool id P' G |} L' F' ->
  (locks (ts t) = Some id \/ m_lock m id = None \/ (P' = P /\ items id F' = items id F)) ->
  (forall id', id' <> id -> items id' F' = items id' F) ->
  (forall i, lk' i = if i =? id then (if is_some (locks tk') then Some t else if is_some (locks (ts t)) then None else m_lock m id) else m_lock m i) ->
  (locks tk' <> None -> locks (ts t) <> None \/ m_lock m id = None) ->
  keeps t v' ->
  (forall i, In i L' <-> In i held' \/ owns tk' = Some i \/ exists t', t' <> t /\ owns (ts t') = Some i) ->
  (forall i, owns tk' = Some i -> ~ In i held' /\ forall t', t' <> t -> owns (ts t') <> Some i) ->
  (forall t' i, t' <> t -> owns (ts t') = Some i -> ~ In i held') ->
  actual lk' (upd ts t tk') id P' = Q ->
  tok (set_pool id P' G) F' v' tk' ->
  minv v0 {| m_vm := v'; m_pools := set_pool id Q (m_pools m); m_lock := lk'; m_task := upd ts t tk'; m_held := held' |}
    (set_pool id P' G) L' F'.
Proof.
  intros t id tk' P P' v' L' F' held' lk' Q Hin HS Hp Hp' HW' Hown Hoth Hlk Hlk2 Hkeep Hlive Hex1 Hex2 HQ Htok.
  assert (Hlt : forall i, locks (ts t) = Some i -> i = id).
  { intros i Hi. destruct Hp as [Hp|Hp]; [|rewrite Hp in Hi; discriminate Hi]. apply locks_pool in Hi. congruence. }
  assert (Hlt' : forall i, locks tk' = Some i -> i = id).
  { intros i Hi. destruct Hp' as [Hp'|Hp']; [|rewrite Hp' in Hi; discriminate Hi]. apply locks_pool in Hi. congruence. }
  pose proof (mi_lock _ _ _ _ _ HM) as HL.
  constructor; cbn [m_vm m_pools m_lock m_task m_held]; auto.
  - rewrite (mi_pools _ _ _ _ _ HM). apply acts_set; auto. intros i R Hi Hne. unfold MicroInv.actual. rewrite Hlk.
    apply Z.eqb_neq in Hne. rewrite Hne. destruct (m_lock m i) as [t'|] eqn:Et; auto. rewrite upd_other; auto.
    intros ->. apply HL in Et. apply Hlt in Et. apply Z.eqb_neq in Hne. auto.
  - intros i. rewrite Hlive. split.
    + intros [H|[H|(t' & Hne & H)]]; auto.
      * right. exists t. now rewrite upd_same.
      * right. exists t'. now rewrite upd_other.
    + intros [H|(t' & H)]; auto. destruct (Z.eq_dec t' t) as [->|Hne].
      * rewrite upd_same in H. auto.
      * rewrite upd_other in H by auto. right. right. eauto.
  - intros t1 i H. destruct (Z.eq_dec t1 t) as [->|Hne].
    + rewrite upd_same in H. destruct (Hex1 _ H) as [K1 K2]. split; auto. intros t' H'. destruct (Z.eq_dec t' t) as [|Hne']; auto.
      rewrite upd_other in H' by auto. exfalso. exact (K2 _ Hne' H').
    + rewrite upd_other in H by auto. split; [eauto|]. intros t' H'. destruct (Z.eq_dec t' t) as [->|Hne'].
      * rewrite upd_same in H'. destruct (Hex1 _ H') as [_ K2]. exfalso. exact (K2 _ Hne H).
      * rewrite upd_other in H' by auto. eapply (proj2 (mi_excl _ _ _ _ _ HM t1 i H)). exact H'.
  - intros i t'. rewrite Hlk. destruct (Z.eq_dec t' t) as [->|Hne].
    + rewrite upd_same. destruct (i =? id) eqn:Ei.
      * apply Z.eqb_eq in Ei. subst i. destruct (locks tk') as [j|] eqn:Ej; cbn [is_some].
        -- rewrite (Hlt' _ eq_refl). tauto.
        -- destruct (locks (ts t)) as [j|] eqn:Ek; cbn [is_some]; [split; congruence|]. rewrite HL, Ek. tauto.
      * apply Z.eqb_neq in Ei. rewrite HL. split; intros H; [apply Hlt in H|apply Hlt' in H]; congruence.
    + rewrite upd_other by auto. destruct (i =? id) eqn:Ei; [|apply HL].
      apply Z.eqb_eq in Ei. subst i. rewrite <- HL.
      destruct (locks tk') as [j|] eqn:Ej; cbn [is_some].
      * destruct (Hlk2 ltac:(discriminate)) as [K|K].
        -- destruct (locks (ts t)) as [j'|] eqn:Ek; [|congruence]. pose proof (Hlt _ eq_refl). subst j'. apply HL in Ek. rewrite Ek. split; congruence.
        -- rewrite K. split; congruence.
      * destruct (locks (ts t)) as [j'|] eqn:Ek; cbn [is_some]; [|tauto].
        pose proof (Hlt _ eq_refl). subst j'. apply HL in Ek. rewrite Ek. split; congruence.
  - intros t'. destruct (Z.eq_dec t' t) as [->|Hne]; [now rewrite upd_same|]. rewrite upd_other by auto.
    eapply tok_stable; [exact geoms|apply (mi_task _ _ _ _ _ HM)| | |].
    + intros i R Hi HR. destruct (Z.eq_dec i id) as [->|Hni].
      * assert (R = P) by exact (unique_pool e true v0 _ L F HW _ _ _ HR Hin). subst R. exists P'. split.
        { unfold set_pool. apply in_map_iff. exists (id, P). cbn. now rewrite Z.eqb_refl. }
        split; auto. intros Hl. destruct Hown as [K|[K|K]]; auto; exfalso.
        -- apply HL in K. apply HL in Hl. congruence.
        -- apply HL in Hl. congruence.
      * exists R. split.
        { unfold set_pool. apply in_map_iff. exists (i, R). cbn. apply Z.eqb_neq in Hni. now rewrite Hni. }
        split; [apply same_refl|]. auto.
    + intros i a R x Ho HR Hx. eapply Hkeep; eauto; [eapply live_of; eauto|]. intros Ho'.
      apply Hne. eapply (proj2 (mi_excl _ _ _ _ _ HM t _ Ho')). exact Ho.
    + intros i a R x Ho HR Hx. pose proof (live_of _ _ Ho) as Hl.
      destruct (node_of e v0 _ L F HW i R a HR) as (_ & _ & _ & _ & K); [apply in_or_app; auto|]. apply K; auto.
Qed.

(** ... keeping its mutex and its item. *)
Lemma minv_quiet : forall t id tk' P v' Q,
  In (id, P) G -> pool_of (ts t) = Some id -> pool_of tk' = Some id -> locks tk' = locks (ts t) -> owns tk' = owns (ts t) ->
  winv e true v0 {| w_vm := v'; w_pools := G |} L F -> keeps t v' ->
  actual (m_lock m) (upd ts t tk') id P = Q -> tok G F v' tk' ->
  minv v0 {| m_vm := v'; m_pools := set_pool id Q (m_pools m); m_lock := m_lock m; m_task := upd ts t tk'; m_held := m_held m |} G L F.
Proof.
  intros t id tk' P v' Q Hin Hp Hp' Hl Ho HW' Hk HQ Ht.
  pose proof (set_same id P Hin) as Eset. 
  pose proof (minv_move t id tk' P P v' L F (m_held m) (m_lock m) Q) as K. rewrite Eset in K. apply K; auto using same_refl.
  - intros i. destruct (i =? id) eqn:Ei; auto. apply Z.eqb_eq in Ei. subst i. rewrite Hl.
    destruct (locks (ts t)) as [j|] eqn:Ej; auto. cbn. apply (mi_lock _ _ _ _ _ HM). rewrite Ej.
    apply locks_pool in Ej. congruence.
  - rewrite Hl. auto.
  - intros i. rewrite (mi_live _ _ _ _ _ HM). rewrite Ho. split.
    + intros [H|(t' & H)]; auto. destruct (Z.eq_dec t' t) as [->|Hne]; auto. right. right. eauto.
    + intros [H|[H|(t' & _ & H)]]; eauto.
  - intros i. rewrite Ho. intros H. destruct (mi_excl _ _ _ _ _ HM t i H) as [K1 K2]. split; auto.
  - intros t' i _ H. apply (mi_excl _ _ _ _ _ HM t' i H).
Qed.

Lemma keeps_refl : forall t, keeps t v.
Proof. intros t id a P x _ _ _ _. reflexivity. Qed.

Lemma put_same : forall id P, In (id, P) G -> set_pool id (actual (m_lock m) ts id P) (m_pools m) = m_pools m.
Proof.
  intros id P H. apply set_pool_id; [apply look; auto|]. rewrite (mi_pools _ _ _ _ _ HM), acts_ids. apply (wi_ids _ _ _ _ _ _ HW).
Qed.

(** Stores to the item of the thread. *)
Lemma store_own : forall t id a P ps, owns (ts t) = Some (id, a) -> In (id, P) G ->
  (forall y, In y (map fst ps) -> ibytes P a y) ->
  winv e true v0 {| w_vm := store e v ps; w_pools := G |} L F /\ keeps t (store e v ps).
Proof.
  intros t id a P ps Ho Hin Hps. pose proof (live_of _ _ Ho) as Hl.
  assert (Hkey : forall y, In y (map fst ps) -> wkey1 {| w_vm := v; w_pools := G |} L F y (Some (id, a))).
  { intros y Hy. cbn. split; [apply in_or_app; auto|]. exists P. auto. }
  split.
  - apply (winv_store e v0 {| w_vm := v; w_pools := G |} L F HW). intros y Hy. exists (Some (id, a)). split; auto. intros i E. injection E as <-. exact Hl.
  - intros i b R x Hb Hne HR Hx. apply view_store_other; [apply (g_psz _ _ (geoms _ _ HR))|apply (wi_wf _ _ _ _ _ _ HW)|].
    intros y Hy. eapply (key_other e v0 {| w_vm := v; w_pools := G |} L F HW y (Some (id, a)) i R b x); auto.
    + apply in_or_app. auto.
    + congruence.
Qed.
End Move.
End MP.
