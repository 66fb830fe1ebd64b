(** Starting calls, and the other things a program does with pools. *)
From Coq Require Import ZArith Bool List Lia Znumtheory Permutation.
From Verif Require Import UtilsModel UtilsLemmas RseqIR MemLemmas PoolVM PoolVMLemmas PoolModel PoolInv PoolItem PoolMap PoolRange PoolBitmap PoolOps PoolMalloc PoolFree PoolDestroy PoolWorld PoolCreate PoolHist MicroModel MicroInv MicroWorld MicroProofs MicroSteps.
Import ListNotations.
Local Open Scope Z_scope.

Lemma put_bases : forall l r, map base (put_range l r) = map base l.
Proof.
  intros l r. unfold put_range. rewrite map_map. apply map_ext. intros x. destruct (base x =? base r) eqn:E; auto. now apply Z.eqb_eq in E.
Qed.
Lemma find_bases : forall l l' b, map base l = map base l' -> find_range l b = None -> find_range l' b = None.
Proof.
  unfold find_range. induction l as [|r l IH]; intros [|r' l'] b E H; try discriminate E; auto. cbn in *. injection E as E1 E2.
  rewrite <- E1. destruct (base r =? b); [discriminate H|]. eauto.
Qed.

Section MO.
Variable e : env.
Hypothesis He : env_ok e.
Hypothesis Hcp : 0 <= e_ncpus e.
Notation page := (PoolVM.page e).
Notation geom := (geom e).
Notation view := (view e).
Notation eff := (eff e).
Notation actual := (actual e).
Notation acts := (acts e).
Notation minv := (minv e).
Notation keeps := (keeps e).
Notation tok := (tok e).

Lemma actual_bases : forall lk ts id P, map base (range_list (actual lk ts id P)) = map base (range_list P).
Proof.
  intros lk ts id P. unfold MicroInv.actual. destruct (lk id) as [t|]; auto.
  assert (K : forall a, map base (range_list (cleared e P a)) = map base (range_list P)).
  { intros a. unfold cleared. destruct (find_range _ _); auto. destruct (clear_alloc_slot _ _ _ _); auto. apply put_bases. }
  destruct (ts t); cbn [MicroInv.eff]; auto.
Qed.
Lemma actual_places : forall lk ts id P (f : Z -> Z) n,
  (forall r, In r (range_list P) -> mmap_addr r = f (base r) /\ mmap_len r = n) ->
  forall r, In r (range_list (actual lk ts id P)) -> mmap_addr r = f (base r) /\ mmap_len r = n.
Proof.
  intros lk ts id P f n H. unfold MicroInv.actual. destruct (lk id) as [t|]; auto.
  assert (K : forall a r, In r (range_list (cleared e P a)) -> mmap_addr r = f (base r) /\ mmap_len r = n).
  { intros a r. unfold cleared. destruct (find_range _ _) as [r0|] eqn:Ef; auto. destruct (clear_alloc_slot _ _ _ _) as [r1| |] eqn:Ec; auto.
    cbn [set_ranges range_list]. unfold put_range. intros Hr. apply in_map_iff in Hr. destruct Hr as (x & E & Hx).
    destruct (base x =? base r1); subst r; [|auto]. unfold find_range in Ef. apply find_some in Ef. destruct Ef as [Ef _]. specialize (H r0 Ef).
    assert (Er : base r1 = base r0 /\ mmap_addr r1 = mmap_addr r0 /\ mmap_len r1 = mmap_len r0).
    { unfold clear_alloc_slot in Ec. destruct (alloc_bitmap r0); [|injection Ec as <-; auto].
      destruct (nth_error _ _); [|discriminate Ec]. destruct (_ =? 0); [discriminate Ec|]. injection Ec as <-. auto. }
    destruct Er as (-> & -> & ->). exact H. }
  destruct (ts t); cbn [MicroInv.eff]; first [exact H|apply K].
Qed.
Lemma find_owner_acts : forall lk ts G b id P r, find_owner G b = Some (id, P, r) ->
  exists Q r', find_owner (acts lk ts G) b = Some (id, Q, r').
Proof.
  intros lk ts G b id P r. unfold MicroInv.acts. induction G as [|[i R] G IH]; cbn [find_owner map fst snd]; intros H; [discriminate H|].
  pose proof (actual_bases lk ts i R) as Eb.
  destruct (find_range (range_list R) b) as [x|] eqn:E.
  - injection H as -> -> ->. destruct (find_range (range_list (actual lk ts id P)) b) as [x|] eqn:E2; [eauto|].
    rewrite (find_bases _ _ b Eb E2) in E. discriminate E.
  - rewrite (find_bases _ _ b (eq_sym Eb) E). auto.
Qed.

Section Ops.
Variables (v0 : vm) (m : mstate) (G : list (Z * pool)) (L F : ledger).
Hypothesis HM : minv v0 m G L F.
Let HW := mi_w _ _ _ _ _ _ HM.
Notation ts := (m_task m).
Notation v := (m_vm m).
Notation W := {| w_vm := m_vm m; w_pools := G |}.

Lemma back : forall id P, lookup id (m_pools m) = Some P ->
  exists P0, In (id, P0) G /\ P = actual (m_lock m) ts id P0 /\ same P0 P.
Proof.
  intros id P H. rewrite (mi_pools _ _ _ _ _ _ HM), lookup_acts in H.
  destruct (lookup id G) as [P0|] eqn:E; [|discriminate H]. injection H as <-. exists P0. split; [now apply lookup_in|].
  split; [reflexivity|]. apply actual_same.
Qed.

(** Starting a call. *)
Lemma call_malloc : forall t id an c P, ts t = TIdle -> lookup id (m_pools m) = Some P -> content_fits P c ->
  minv v0 (goto m t (TWant id (CMalloc id an c))) G L F.
Proof.
  intros t id an c P Et Hl Hc. destruct (back id P Hl) as (P0 & Hin & EP & HS).
  pose proof (minv_move e v0 m G L F HM t id (TWant id (CMalloc id an c)) P0 P0 v L F (m_held m) (m_lock m) (actual (m_lock m) ts id P0)) as K.
  rewrite (set_same e v0 m G L F HM id P0 Hin) in K. rewrite (put_same e v0 m G L F HM id P0 Hin) in K.
  pose proof (mi_live _ _ _ _ _ _ HM) as HLv.
  apply K; clear K; auto using same_refl.
  - intros i. rewrite Et. cbn. destruct (i =? id) eqn:Ei; auto. apply Z.eqb_eq in Ei. now subst i.
  - apply keeps_refl.
  - intros j. rewrite HLv. cbn [owns]. split.
    + intros [H|(t' & H)]; auto. right. right. exists t'. split; auto. intros ->. rewrite Et in H. discriminate H.
    + intros [H|[H|(t' & _ & H)]]; eauto. discriminate H.
  - intros j H. discriminate H.
  - intros t' j _ H. apply (mi_excl _ _ _ _ _ _ HM t' j H).
  - unfold MicroInv.actual. destruct (m_lock m id) as [t'|] eqn:El; auto. rewrite upd_other; auto. intros ->.
    apply (mi_lock _ _ _ _ _ _ HM) in El. rewrite Et in El. discriminate El.
  - cbn [MicroProofs.tok]. split; auto. exists P0. split; auto. eapply fits_same; [apply same_sym|]; eauto.
Qed.

Lemma call_free : forall t id ptr P, ts t = TIdle -> lookup id (m_pools m) = Some P -> In (id, ptr) (m_held m) ->
  exists Q r, find_owner (m_pools m) (free_base e ptr (strd P)) = Some (id, Q, r) /\
  minv v0 (set_held (goto m t (TWant id (CFree ptr (strd P)))) (filter (fun i => negb (same_item i (id, ptr))) (m_held m))) G L F.
Proof.
  intros t id ptr P Et Hl Hh. destruct (back id P Hl) as (P0 & Hin & EP & HS).
  pose proof (mi_live _ _ _ _ _ _ HM) as HLv.
  assert (HaL : In (id, ptr) L) by (apply HLv; auto).
  destruct (item_place e v0 W L F HW id P0 ptr Hin) as (r & Hr & HR & H1 & H2 & H3); [apply in_or_app; auto|]. cbn [w_vm] in HR.
  pose proof (geoms e v0 m G L F HM id P0 Hin) as HG. pose proof (item_pos _ _ HG).
  rewrite (s_attr P0 P HS).
  assert (Eb : free_base e ptr (strd P0) = base r).
  { unfold free_base. replace ptr with (base r + (ptr - base r)) by ring. apply (base_of e P0 v r HG HR). lia. }
  pose proof (find_owner_spec e true v0 W L F id P0 r HW Hin Hr) as Hfo. cbn [w_pools] in Hfo.
  destruct (find_owner_acts (m_lock m) ts G (base r) id P0 r Hfo) as (Q & r' & Hfo').
  rewrite <- (mi_pools _ _ _ _ _ _ HM) in Hfo'. rewrite Eb. exists Q, r'. split; [exact Hfo'|].
  set (held' := filter (fun i => negb (same_item i (id, ptr))) (m_held m)).
  assert (Hfi : forall j, In j held' <-> In j (m_held m) /\ j <> (id, ptr)).
  { intros [j b]. unfold held'. rewrite filter_In. unfold same_item. cbn [fst snd]. split; intros [A B]; split; auto.
    - intros E. injection E as -> ->. rewrite !Z.eqb_refl in B. discriminate B.
    - destruct (j =? id) eqn:E1, (b =? ptr) eqn:E2; auto. exfalso. apply B. apply Z.eqb_eq in E1, E2. congruence. }
  pose proof (minv_move e v0 m G L F HM t id (TWant id (CFree ptr (strd P0))) P0 P0 v L F held' (m_lock m) (actual (m_lock m) ts id P0)) as K.
  rewrite (set_same e v0 m G L F HM id P0 Hin) in K. rewrite (put_same e v0 m G L F HM id P0 Hin) in K.
  apply K; clear K; auto using same_refl.
  - intros i. rewrite Et. cbn. destruct (i =? id) eqn:Ei; auto. apply Z.eqb_eq in Ei. now subst i.
  - apply keeps_refl.
  - intros j. rewrite HLv, Hfi. cbn [owns]. split.
    + intros [H0|(t' & H0)].
      * destruct (Z.eq_dec (fst j) id) as [E1|E1]; [destruct (Z.eq_dec (snd j) ptr) as [E2|E2]|].
        -- right. left. destruct j as [j1 j2]. cbn in *. congruence.
        -- left. split; auto. intros ->. now apply E2.
        -- left. split; auto. intros ->. now apply E1.
      * right. right. exists t'. split; auto. intros ->. rewrite Et in H0. discriminate H0.
    + intros [[H0 _]|[H0|(t' & _ & H0)]]; eauto. injection H0 as <-. auto.
  - intros j H0. cbn [owns] in H0. injection H0 as <-. split; [rewrite Hfi; tauto|].
    intros t' _ H0. exact (proj1 (mi_excl _ _ _ _ _ _ HM t' _ H0) Hh).
  - intros t' j _ H0. rewrite Hfi. intros [A _]. exact (proj1 (mi_excl _ _ _ _ _ _ HM t' j H0) A).
  - unfold MicroInv.actual. destruct (m_lock m id) as [t'|] eqn:El; auto. rewrite upd_other; auto. intros ->.
    apply (mi_lock _ _ _ _ _ _ HM) in El. rewrite Et in El. discriminate El.
  - cbn [MicroProofs.tok]. eauto.
Qed.

(** The program's other steps do not touch the tasks. *)
Lemma minv_world : forall v' G' L' F' pools' held',
  winv e true v0 {| w_vm := v'; w_pools := G' |} L' F' -> pools' = acts (m_lock m) ts G' ->
  (forall t id P, pool_of (ts t) = Some id -> In (id, P) G -> In (id, P) G' /\ items id F' = items id F) ->
  (forall t id a P x, owns (ts t) = Some (id, a) -> In (id, P) G -> ibytes P a x -> view v' x = view v x) ->
  (forall i, In i L' <-> In i held' \/ exists t, owns (ts t) = Some i) ->
  (forall i, In i held' -> In i (m_held m)) ->
  minv v0 {| m_vm := v'; m_pools := pools'; m_lock := m_lock m; m_task := ts; m_held := held' |} G' L' F'.
Proof.
  intros v' G' L' F' pools' held' HW' Ep Hp Hv Hlive Hheld. constructor; cbn [m_vm m_pools m_lock m_task m_held]; auto.
  - intros t i H. destruct (mi_excl _ _ _ _ _ _ HM t i H) as [K1 K2]. split; auto.
  - apply (mi_lock _ _ _ _ _ _ HM).
  - intros t. eapply tok_stable; [exact (geoms e v0 m G L F HM)|apply (mi_task _ _ _ _ _ _ HM)| | |].
    + intros id P Hpo Hin. destruct (Hp t id P Hpo Hin) as [K1 K2]. exists P. split; auto. split; [apply same_refl|auto].
    + intros id a P x Ho Hin Hx. eauto.
    + intros id a P x Ho Hin Hx. pose proof (live_of e v0 m G L F HM _ _ Ho) as Hl.
      destruct (node_of e v0 W L F HW id P a Hin) as (_ & _ & _ & _ & K); [apply in_or_app; auto|]. apply K; auto.
Qed.

(** The rest of the process. *)
Lemma rest_here : forall v', rest_acts e v0 (mworld m) v' -> rest_acts e v0 W v'.
Proof.
  intros v' [R1 R2 R3]. split; [exact R1| |exact R3]. intros a [Ha|(id & P & r & Hin & Hr & Ha)]; apply R2; [left; exact Ha|]. right.
  pose proof (pi_ranges _ _ _ _ _ (wi_pools _ _ _ _ _ _ HW _ _ Hin)) as HF. rewrite Forall_forall in HF.
  cbn [mworld w_pools]. rewrite (mi_pools _ _ _ _ _ _ HM).
  assert (Eb : In (base r) (map base (range_list (actual (m_lock m) ts id P)))) by (rewrite actual_bases; now apply in_map).
  apply in_map_iff in Eb. destruct Eb as (r' & Eb & Hr').
  destruct (actual_places (m_lock m) ts id P (fun b => mmap_addr r + (b - base r)) (mmap_len r)) with (r := r') as [K1 K2]; [|exact Hr'|].
  - intros x Hx. rewrite (r_addr _ _ _ _ (HF _ Hx)), (r_addr _ _ _ _ (HF _ Hr)), (r_len _ _ _ _ (HF _ Hx)), (r_len _ _ _ _ (HF _ Hr)). split; [lia|reflexivity].
  - exists id, (actual (m_lock m) ts id P), r'. split; [|split; [exact Hr'|rewrite K1, K2, Eb; lia]].
    unfold MicroInv.acts. apply in_map_iff. exists (id, P). auto.
Qed.
Lemma minv_rest : forall v', rest_acts e v0 (mworld m) v' -> minv v0 (set_vm m v') G L F.
Proof.
  intros v' Hr. apply rest_here in Hr. apply minv_world.
  - exact (op_rest e true v0 W L F v' HW Hr).
  - exact (mi_pools _ _ _ _ _ _ HM).
  - auto.
  - intros t id a P x Ho Hin Hx. apply (sa_view _ _ _ _ (ra_same _ _ _ _ Hr x (pool_in_use e v0 W id P x Hin
      (item_pregion e v0 W L F HW id P a x Hin (in_or_app _ _ _ (or_introl (live_of e v0 m G L F HM _ _ Ho))) Hx)))).
  - exact (mi_live _ _ _ _ _ _ HM).
  - auto.
Qed.

Lemma no_lock : forall id, (forall P, ~ In (id, P) G) -> m_lock m id = None.
Proof.
  intros id H. destruct (m_lock m id) as [t|] eqn:E; auto. apply (mi_lock _ _ _ _ _ _ HM) in E. apply locks_pool in E.
  destruct (pool_in e v0 m G L F HM t id E) as (P & HP). exfalso. exact (H P HP).
Qed.

Lemma create_frame : forall named len at_ an x v', 0 <= len < wmax e -> attr_ok e (attr_of at_) -> fits e (attr_of at_) ->
  mempool_create e named len at_ an v = Ok (x, v') -> vframe e (fun a => mapped v (page a) = true) v v'.
Proof.
  intros named len at_ an x v' Hlen Hat Hfit Hrun.
  pose proof (mempool_create_spec e He named len at_ an v Hlen Hat Hcp Hfit (wi_wf _ _ _ _ _ _ HW)) as Hp. rewrite Hrun in Hp.
  inversion Hp; subst; auto using vframe_refl.
Qed.

Lemma item_pool_other : forall id P a x i Q, In (id, P) G -> In (id, a) (L ++ F) -> ibytes P a x -> In (i, Q) G -> pregion Q x -> i = id.
Proof.
  intros id P a x i Q Hin Ha Hx Hi Hq. eapply (wi_apart _ _ _ _ _ _ HW i Q id P x); auto. eapply (item_pregion e v0 W L F HW); eauto.
Qed.

Definition op_stepped (o : op) (r : res (mstate * option out)) : Prop :=
  exists m' x G' L' F', r = Ok (m', x) /\ minv v0 m' G' L' F' /\
    (forall id P, In (id, P) G -> (forall an, o <> ODestroy id an) -> In (id, P) G') /\
    forall id a P y, In (id, a) (m_held m) -> In (id, P) G -> ibytes P a y ->
      match o with
      | OWrite ps => (forall z, In z (map fst ps) -> mapped v0 (page z) = true \/ exists id' P' a', (id', a') <> (id, a) /\ In (id', P') G /\ In (id', a') L /\ ibytes P' a' z) -> view (m_vm m') y = view v y
      | ODestroy id' _ => id' <> id -> view (m_vm m') y = view v y
      | _ => view (m_vm m') y = view v y
      end.

Lemma minv_op : forall o r, permitted e v0 m (AOp o) -> mstep e (AOp o) m = Some r -> op_stepped o r \/ r = Abort \/
  (r = Undef /\ exists id named len at_ an, o = OCreate id named len at_ an /\ 2 ^ (word_bits (e_wide e) - 1) < len).
Proof.
  intros o r [Hok Hbusy] Hs. pose proof (mi_live _ _ _ _ _ _ HM) as HLv.
  destruct o as [id named len at_ an|id an|id item c|ptr s|ps|id an]; cbn [mstep] in Hs; try discriminate Hs; injection Hs as <-.
  - (* create *)
    destruct Hok as (Hnone & Hlen & Hat & Hfit). cbn [mworld w_pools] in Hnone.
    assert (HnG : forall P, ~ In (id, P) G).
    { intros P HP. rewrite (look e v0 m G L F HM id P HP) in Hnone. discriminate Hnone. }
    assert (HnG' : lookup id G = None).
    { destruct (lookup id G) eqn:E; auto. apply lookup_in in E. exfalso. eapply HnG; eauto. }
    pose proof (op_create e He Hcp true v0 W L F HW id named len at_ an) as Hop.
    cbn [run1 mworld w_vm w_pools] in Hop |- *.
    pose proof (mempool_create_spec e He named len at_ an v Hlen Hat Hcp Hfit (wi_wf _ _ _ _ _ _ HW)) as Hspec.
    destruct (mempool_create e named len at_ an v) as [[x v']| |] eqn:E; cbn [bind] in *; [|right; now left|].
    2:{ right. right. split; auto. exists id, named, len, at_, an. split; auto. now inversion Hspec. }
    left. pose proof (create_frame named len at_ an x v' Hlen Hat Hfit E) as Hfr.
    assert (Hsame : forall i a P y, In (i, a) L -> In (i, P) G -> ibytes P a y -> view v' y = view v y).
    { intros i a P y Hi HP Hy. apply (fr_view _ _ _ _ Hfr). eapply (item_mapped e v0 W L F HW i P a); auto. apply in_or_app; auto. }
    assert (HL' : forall i, In i L <-> In i (m_held m) \/ (exists t, owns (ts t) = Some i)) by exact HLv.
    assert (Hal : allowed e true v0 W L (OCreate id named len at_ an)) by (cbn [allowed w_pools]; auto).
    destruct x as [P|err]; cbn [bind] in *.
    + specialize (Hop _ _ Hal eq_refl). eexists _, _, ((id, P) :: G), L, F. split; [reflexivity|]. cbn [w_vm w_pools live_after].
      split; [|split; [intros; now right|intros; cbn [m_vm]; eapply Hsame; eauto; apply HLv; auto]].
      apply minv_world; auto.
      * cbn [MicroInv.acts map fst snd]. unfold MicroInv.actual at 1. rewrite (no_lock id HnG).
        rewrite (mi_pools _ _ _ _ _ _ HM). reflexivity.
      * intros t i Q _ HQ. split; [now right|reflexivity].
      * intros t i a Q y Ho HQ Hy. eapply Hsame; eauto. eapply (live_of e v0 m G L F HM); eauto.
    + specialize (Hop _ _ Hal eq_refl). eexists _, _, G, L, F. split; [reflexivity|]. cbn [w_vm w_pools live_after].
      split; [|split; [auto|intros; cbn [m_vm]; eapply Hsame; eauto; apply HLv; auto]].
      apply minv_world; auto.
      * apply (mi_pools _ _ _ _ _ _ HM).
      * intros t i a Q y Ho HQ Hy. eapply Hsame; eauto. eapply (live_of e v0 m G L F HM); eauto.
  - (* write *)
    left. cbn [allowed] in Hok. cbn [run1 mworld w_vm w_pools].
    assert (Hkey : forall y, In y (map fst ps) -> exists o, wkey1 W L F y o /\ (forall i, o = Some i -> In i (m_held m)) /\ mapped v (page y) = true).
    { intros y Hy. destruct (Hok y Hy) as [[Hown|(id & P & a & HP & Ha & Hb)]|[K _]]; [| |discriminate K].
      - exists None. destruct (wi_own _ _ _ _ _ _ HW _ Hown) as [K1 K2]. split; [exact K2|]. split; [intros i H; discriminate H|exact K1].
      - cbn [mworld w_pools] in HP. 
        assert (HPG : exists P0, In (id, P0) G /\ same P0 P).
        { rewrite (mi_pools _ _ _ _ _ _ HM) in HP. unfold MicroInv.acts in HP. apply in_map_iff in HP. destruct HP as ([i P0] & E & HP0).
          cbn in E. injection E as -> <-. exists P0. split; auto. apply actual_same. }
        destruct HPG as (P0 & HP0 & HS). 
        assert (Hib : ibytes P0 a y).
        { destruct Hb as (cpu & k & Hc & Hk & ->). rewrite (s_attr P0 P HS) in Hc. rewrite (s_len P0 P HS) in Hk. exists cpu, k.
          pose proof (nd_bounds P0). pose proof (na_bounds P0). split; [lia|]. split; auto. unfold PoolWorld.percpu_ptr. now rewrite (s_attr P0 P HS). }
        assert (HaL : In (id, a) (L ++ F)) by (apply in_or_app; left; apply HLv; auto).
        exists (Some (id, a)). split; [cbn; split; eauto|]. split; [intros i H; injection H as <-; exact Ha|].
        eapply (item_mapped e v0 W L F HW id P0 a); auto. }
    assert (Hm : forallb (fun p => mapped v (page (fst p))) ps = true).
    { apply forallb_forall. intros p Hp. destruct (Hkey (fst p)) as (_ & _ & _ & K); auto. now apply in_map. }
    rewrite Hm. cbn [bind]. eexists _, _, G, L, F. split; [reflexivity|]. cbn [w_vm w_pools live_after m_vm].
    assert (HW' : winv e true v0 {| w_vm := store e v ps; w_pools := G |} L F).
    { apply (winv_store e v0 W L F HW). intros y Hy. destruct (Hkey y Hy) as (o & K1 & K2 & _). exists o. split; auto.
      intros i Hi. apply HLv. left. auto. }
    assert (Hfr : forall i a P x, In (i, a) L -> In (i, P) G -> ibytes P a x ->
      (forall z, In z (map fst ps) -> exists o, wkey1 W L F z o /\ o <> Some (i, a)) -> view (store e v ps) x = view v x).
    { intros i a P x Ha HP Hx Hz. apply view_store_other; [apply (g_psz _ _ (geoms e v0 m G L F HM i P HP))|apply (wi_wf _ _ _ _ _ _ HW)|].
      intros z Hzz. destruct (Hz z Hzz) as (o & K1 & K2). eapply (key_other e v0 W L F HW z o i P a x); auto. apply in_or_app; auto. }
    split.
    + apply minv_world; auto.
      * apply (mi_pools _ _ _ _ _ _ HM).
      * intros t i a P x Ho HP Hx. eapply (Hfr i a P x); eauto; [eapply (live_of e v0 m G L F HM); eauto|].
        intros z Hz. destruct (Hkey z Hz) as (o & K1 & K2 & _). exists o. split; auto. intros ->.
        exact (proj1 (mi_excl _ _ _ _ _ _ HM t _ Ho) (K2 _ eq_refl)).
    + split; [auto|]. intros i a P x Ha HP Hx Hz. eapply (Hfr i a P x); eauto; [apply HLv; auto|]. intros z Hzz.
      destruct (Hz z Hzz) as [Hown|(i' & P' & a' & Hne & HP' & Ha' & Hx')].
      * exists None. destruct (wi_own _ _ _ _ _ _ HW _ Hown) as [K1 K2]. split; [exact K2|discriminate].
      * exists (Some (i', a')). split; [cbn; split; eauto; apply in_or_app; auto|]. congruence.
  - (* destroy *)
    destruct Hok as (P & Hl). cbn [mworld w_pools] in Hl.
    destruct (back id P Hl) as (P0 & Hin & EP & HS).
    assert (Hnl : m_lock m id = None).
    { destruct (m_lock m id) as [t|] eqn:E; auto. apply (mi_lock _ _ _ _ _ _ HM) in E. apply locks_pool in E. exfalso. exact (Hbusy t E). }
    unfold MicroInv.actual in EP. rewrite Hnl in EP. subst P0. clear HS.
    assert (HlG : lookup id G = Some P) by (apply lookup_some; auto; apply (wi_ids _ _ _ _ _ _ HW)).
    pose proof (op_destroy e true v0 W L F HW id an) as Hop.
    cbn [run1 mworld w_vm w_pools] in Hop |- *. rewrite Hl. rewrite HlG in Hop.
    pose proof (mempool_destroy_spec e P (items id F) (items id L) an v (wi_pools _ _ _ _ _ _ HW _ _ Hin) (wi_wf _ _ _ _ _ _ HW)) as Hspec.
    destruct (mempool_destroy e P an v) as [[[ret Po] v']| |] eqn:E; cbn [bind] in *; [|right; now left|inversion Hspec].
    left. assert (Hfr : vframe e (fun a => ~ pregion P a) v v') by (inversion Hspec; subst; auto).
    assert (Hal : allowed e true v0 W L (ODestroy id an)) by (exists P; exact HlG).
    specialize (Hop _ _ Hal eq_refl). cbn [live_after freed_after] in Hop.
    assert (Hsame : forall i a Q y, i <> id -> In (i, a) L -> In (i, Q) G -> ibytes Q a y -> view v' y = view v y).
    { intros i a Q y Hne Ha HQ Hy. apply (fr_view _ _ _ _ Hfr). intros Hpr. apply Hne. symmetry.
      eapply (item_pool_other i Q a y id P); eauto. apply in_or_app; auto. }
    eexists _, _, (del_pool id G), _, _. split; [reflexivity|]. cbn [w_vm w_pools live_after m_vm]. split.
    + apply (minv_world v' (del_pool id G) _ _ _ _ Hop).
      * rewrite (mi_pools _ _ _ _ _ _ HM). unfold del_pool, MicroInv.acts. clear.
        induction G as [|[i Q] l IH]; cbn [map filter fst snd]; auto. destruct (i =? id); cbn [negb map fst snd]; [exact IH|]. now rewrite IH.
      * intros t i Q Hpo HQ. assert (i <> id) by (intros ->; exact (Hbusy t Hpo)). split.
        -- unfold del_pool. apply filter_In. split; auto. cbn. apply negb_true_iff. now apply Z.eqb_neq.
        -- rewrite items_del. replace (i =? id) with false by (symmetry; now apply Z.eqb_neq). reflexivity.
      * intros t i a Q y Ho HQ Hy. eapply Hsame; eauto; [|eapply (live_of e v0 m G L F HM); eauto]. intros ->.
        apply (Hbusy t). destruct (ts t) as [|? []| | | | | |? ? [[[? ?] ?]|]| | | | | | |]; try discriminate Ho; cbn in *; congruence.
      * intros [i a]. rewrite !filter_In, HLv. cbn [fst]. split.
        -- intros [[H|H] K]; auto.
        -- intros [[H K]|(t & Ho)]; [auto|]. split; [eauto|]. apply negb_true_iff, Z.eqb_neq. intros ->.
           apply (Hbusy t). destruct (ts t) as [|? []| | | | | |? ? [[[? ?] ?]|]| | | | | | |]; try discriminate Ho; cbn in *; congruence.
      * intros i H. apply filter_In in H. apply H.
    + split.
      { intros i Q HQ Hne. unfold del_pool. apply filter_In. split; auto. cbn. apply negb_true_iff, Z.eqb_neq. intros ->. exact (Hne an eq_refl). }
      intros i a Q y Ha HQ Hy Hne. eapply (Hsame i a Q y); eauto. apply HLv. auto.
Qed.
End Ops.

Lemma minv_start : forall v0, PoolVMLemmas.vmwf e v0 -> minv v0 (m_start v0) [] [] [].
Proof.
  intros v0 Hwf. constructor; cbn [m_start m_vm m_pools m_lock m_task m_held].
  - constructor; cbn; auto; try tauto. constructor.
  - reflexivity.
  - intros i. split; [intros []|]. intros [[]|(t & H)]. discriminate H.
  - intros t i H. discriminate H.
  - intros id t. split; intros H; discriminate H.
  - intros t. exact Logic.I.
Qed.
End MO.
