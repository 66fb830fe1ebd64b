(** Proofs for C66. *)
From Coq Require Import ZArith Bool List Lia Znumtheory.
From Verif Require Import UtilsModel UtilsLemmas RseqIR MemLemmas PoolVM PoolVMLemmas PoolModel PoolInv PoolItem PoolMap PoolRange PoolBitmap PoolOps PoolMalloc PoolFree PoolWorld PoolDestroy PoolCreate PoolHist PoolProps PoolProps3 PlacePool ForkSpec.
Import ListNotations.
Local Open Scope Z_scope.

Section Fork.
Variable e : env.
Notation psz := (e_page e).
Notation page := (PoolVM.page e).
Notation history := (history e).
Notation winv := (winv e).

Lemma fork_history : forall s v0 w L F, history s v0 w L F -> plain_fork e v0 w ->
  history s v0 (child e w) (inherited w L) (inherited w F).
Proof. intros s v0 w L F (H1 & H2 & H3) Hp. split; auto. split; auto. now apply reach_fork. Qed.
Lemma rest_history : forall s v0 w L F v', history s v0 w L F -> rest_acts e v0 w v' -> history s v0 {| w_vm := v'; w_pools := w_pools w |} L F.
Proof. intros s v0 w L F v' (H1 & H2 & H3) Hp. split; auto. split; auto. now apply reach_rest. Qed.
Lemma on_history : forall s v0 keep w L F w1 L1 F1, history s v0 w L F -> goes_on e s v0 keep w L F w1 L1 F1 -> history s v0 w1 L1 F1.
Proof.
  intros s v0 keep w L F w1 L1 F1 H K. induction K as [|w1 L1 F1 o w' x K IH Ha Hr|w1 L1 F1 K IH Hp|w1 L1 F1 v' K IH Hra Hk]; [exact H| | |].
  - eapply hist_step; eauto.
  - now apply fork_history.
  - now apply rest_history.
Qed.
Lemma on_fewer : forall s v0 (keep keep' : Z -> Prop) w L F w1 L1 F1, (forall a, keep' a -> keep a) ->
  goes_on e s v0 keep w L F w1 L1 F1 -> goes_on e s v0 keep' w L F w1 L1 F1.
Proof.
  intros s v0 keep keep' w L F w1 L1 F1 H K. induction K as [|w1 L1 F1 o w' x K IH Ha Hr|w1 L1 F1 K IH Hp|w1 L1 F1 v' K IH Hra Hk].
  - apply on_start.
  - eapply on_step; eauto.
  - now apply on_fork.
  - apply on_rest; auto.
Qed.

Section One.
Variables (s : bool) (v0 : vm) (w : world) (L F : ledger).
Hypothesis HH : history s v0 w L F.
Let HW : winv s v0 w L F := hist_inv e _ _ _ _ _ HH.
Notation v := (w_vm w).

Lemma region_of : forall id P a, In (id, P) (w_pools w) -> in_pool e P a -> pregion P a.
Proof.
  intros id P a Hin (r & Hr & Ha). exists r. split; [exact Hr|]. pose proof (wi_pools _ _ _ _ _ _ HW _ _ Hin) as HI.
  pose proof (pi_ranges _ _ _ _ _ HI) as HF. rewrite Forall_forall in HF. pose proof (HF _ Hr) as HR. unfold region.
  rewrite (r_addr _ _ _ _ HR) in *. lia.
Qed.
Lemma of_region : forall id P a, In (id, P) (w_pools w) -> pregion P a -> in_pool e P a.
Proof.
  intros id P a Hin (r & Hr & Ha). exists r. split; [exact Hr|]. pose proof (wi_pools _ _ _ _ _ _ HW _ _ Hin) as HI.
  pose proof (pi_ranges _ _ _ _ _ HI) as HF. rewrite Forall_forall in HF. pose proof (HF _ Hr) as HR. unfold region in Ha.
  rewrite (r_addr _ _ _ _ HR) in *. lia.
Qed.

Lemma p_same : forall id P a, lookup id (w_pools w) = Some P -> populate_policy (pattr P) <> COW_INIT -> in_pool e P a ->
  lookup id (w_pools (child e w)) = Some P /\
  mapped (w_vm (child e w)) (page a) = true /\ view e (w_vm (child e w)) a = view e v a.
Proof.
  intros id P a Hl Hpol Ha. pose proof (lookup_in _ _ _ Hl) as Hin. pose proof (wi_pools _ _ _ _ _ _ HW _ _ Hin) as HI.
  assert (Hs : shared_init P = false) by (apply Z.eqb_neq; exact Hpol).
  pose proof (fork_frame e P _ _ _ HI Hs) as Hfr. pose proof (region_of _ _ _ Hin Ha) as Hreg. split; [|split].
  - apply lookup_some.
    + cbn [child w_pools]. pose proof (wi_ids _ _ _ _ _ _ HW) as Hn. clear - Hn. induction (w_pools w) as [|[i Q] l IH]; [constructor|].
      cbn [map fst] in Hn. inversion Hn as [|? ? Hni Hn']; subst. cbn [filter snd]. destruct (negb (shared_init Q)); [|auto]. cbn [map fst].
      constructor; [|auto]. intros K. apply Hni. apply in_map_iff in K. destruct K as ([i' Q'] & E & K). cbn in E. subst i'.
      apply filter_In in K. apply in_map_iff. exists (i, Q'). tauto.
    + cbn [child w_pools]. apply filter_In. cbn [snd]. rewrite Hs. auto.
  - cbn [child w_vm]. rewrite (fr_mapped _ _ _ _ Hfr) by exact Hreg. eapply pregion_mapped; [exact (pi_ranges _ _ _ _ _ HI)|exact Hreg].
  - cbn [child w_vm]. apply (fr_view _ _ _ _ Hfr). exact Hreg.
Qed.
Lemma p_same_own : forall a, plain_fork e v0 w -> mapped v0 (page a) = true ->
  mapped (w_vm (child e w)) (page a) = true /\ view e (w_vm (child e w)) a = view e v a.
Proof.
  intros a [Hp1 Hp2] Ha. destruct (wi_own _ _ _ _ _ _ HW _ Ha) as [Hm _]. destruct (Hp1 a Ha) as [Hd Hw']. cbn [child w_vm]. split.
  - cbn [fork mapped]. rewrite Hd, Hm. reflexivity.
  - unfold view. cbn [fork link data]. rewrite Hd. destruct (link v (page a)) as [q|] eqn:El; [|rewrite Hw'; reflexivity].
    destruct (Hp2 _ _ El Hd) as [_ Hq]. destruct (hist_env _ _ _ _ _ _ HH) as (po & Hpo & Eps).
    assert (E : page (q * psz + a mod psz) = q).
    { unfold PoolVM.page. assert (Hpp : 0 < psz) by (rewrite Eps; apply Z.pow_pos_nonneg; lia).
      rewrite Z.add_comm, Z.div_add by lia. rewrite Z.div_small; [lia|]. apply Z.mod_pos_bound. lia. }
    rewrite E, Hq. reflexivity.
Qed.
Lemma p_items : forall id a, In (id, a) (inherited w L) <->
  In (id, a) L /\ exists P, lookup id (w_pools w) = Some P /\ populate_policy (pattr P) <> COW_INIT.
Proof.
  intros id a. unfold inherited. rewrite filter_In. cbn [fst]. unfold inherits. destruct (lookup id (w_pools w)) as [P|]; split.
  - intros [H1 H2]. split; [exact H1|]. exists P. split; [reflexivity|]. apply Z.eqb_neq. now apply negb_true_iff.
  - intros [H1 (Q & E & Hq)]. injection E as <-. split; [exact H1|]. apply negb_true_iff. now apply Z.eqb_neq.
  - intros [_ H]. discriminate H.
  - intros [_ (Q & E & _)]. discriminate E.
Qed.

(** ** The headers of a pool with initial values, in a child and later *)
Section Orphan.
Variables (id : Z) (P : pool).
Hypothesis Hl : lookup id (w_pools w) = Some P.
Hypothesis Hpol : populate_policy (pattr P) = COW_INIT.
Let Hin : In (id, P) (w_pools w) := lookup_in _ _ _ Hl.
Let HI : pinv e P (items id F) (items id L) v := wi_pools _ _ _ _ _ _ HW _ _ Hin.
Let HG : geom e P := pi_geom _ _ _ _ _ HI.

Lemma HFr : forall r, In r (range_list P) -> rinv e P v r.
Proof. pose proof (pi_ranges _ _ _ _ _ HI) as HF. rewrite Forall_forall in HF. exact HF. Qed.
Lemma headers_iff : forall a, in_header e (range_list P) (page a) = true <-> in_headers e P a.
Proof.
  intros a. pose proof (g_psz _ _ HG) as Hp. unfold in_header, in_headers. rewrite existsb_exists.
  assert (K : forall r, In r (range_list P) -> (in_pages e (header r) (2 * psz) (page a) = true <-> base r - 2 * psz <= a < base r)).
  { intros r Hr. rewrite in_pages_iff; auto.
    - rewrite (r_hdr _ _ _ _ (HFr _ Hr)). lia.
    - rewrite (r_hdr _ _ _ _ (HFr _ Hr)). apply Z.divide_sub_r; [apply (base_div e P v r HG (HFr _ Hr))|apply Z.divide_factor_r].
    - apply Z.divide_factor_r. }
  split; intros (r & Hr & H); exists r; (split; [exact Hr|]); now apply K.
Qed.
Lemma headers_in : forall a, in_headers e P a -> pregion P a.
Proof.
  intros a (r & Hr & Ha). exists r. split; [exact Hr|]. unfold region. rewrite (r_addr _ _ _ _ (HFr _ Hr)), (r_len _ _ _ _ (HFr _ Hr)).
  pose proof (g_psz _ _ HG). pose proof (strd_pos _ _ HG). pose proof (na_bounds P). pose proof (nd_bounds P). pose proof (g_cpus _ _ HG). nia.
Qed.

(** The program's memory, with the headers. *)
Definition with_headers : vm :=
  {| data := data v0; mapped := fun q => mapped v0 q || in_header e (range_list P) q; link := link v0; populated := populated v0;
     dontfork := dontfork v0; wipefork := wipefork v0 |}.

Definition kept (w1 : world) (L1 F1 : ledger) : Prop :=
  winv s with_headers w1 L1 F1 /\
  (forall a, in_headers e P a -> link (w_vm w1) (page a) = None /\ dontfork (w_vm w1) (page a) = false /\
     forall p, link (w_vm w1) p <> Some (page a)) /\
  (forall r, In r (range_list P) -> byte (view e (w_vm w1)) (header r) = 0).

Lemma header_first : forall r, In r (range_list P) -> in_headers e P (header r).
Proof. intros r Hr. exists r. split; [exact Hr|]. rewrite (r_hdr _ _ _ _ (HFr _ Hr)). pose proof (g_psz _ _ HG). lia. Qed.

Lemma headers_link : forall a, in_headers e P a -> link v (page a) = None /\ dontfork v (page a) = false.
Proof.
  intros a Ha. pose proof Ha as (r & Hr & Hra). pose proof (HFr _ Hr) as HR.
  assert (Hreg : region r a).
  { unfold region. rewrite (r_addr _ _ _ _ HR), (r_len _ _ _ _ HR). pose proof (strd_pos _ _ HG).
    pose proof (na_bounds P). pose proof (nd_bounds P). pose proof (g_cpus _ _ HG). nia. }
  split.
  - destruct (link v (page a)) as [q|] eqn:El; [|reflexivity]. exfalso.
    destruct (r_link _ _ _ _ HR _ _ El) as (_ & H1 & _); [left; eapply region_page; eauto|].
    pose proof (g_psz _ _ HG) as Hp. assert (page a * psz <= a); [|lia]. unfold PoolVM.page. rewrite Z.mul_comm. apply Z.mul_div_le. lia.
  - rewrite (r_dontfork _ _ _ _ HR _ Hreg). replace (base r <=? a) with false by (symmetry; apply Z.leb_gt; lia). apply andb_false_r.
Qed.

Lemma headers_target : forall a, in_headers e P a -> forall p, link v p <> Some (page a).
Proof.
  intros a Ha p El. pose proof Ha as (r & Hr & Hra). pose proof (HFr _ Hr) as HR.
  assert (Hreg : region r a).
  { unfold region. rewrite (r_addr _ _ _ _ HR), (r_len _ _ _ _ HR). pose proof (strd_pos _ _ HG).
    pose proof (na_bounds P). pose proof (nd_bounds P). pose proof (g_cpus _ _ HG). nia. }
  destruct (r_link _ _ _ _ HR _ _ El) as (_ & _ & Hq & _); [right; eapply region_page; eauto|].
  pose proof (g_psz _ _ HG) as Hp. assert (page a * psz <= a) by (unfold PoolVM.page; rewrite Z.mul_comm; apply Z.mul_div_le; lia).
  pose proof (strd_pos _ _ HG). pose proof (g_cpus _ _ HG). nia.
Qed.

Lemma kept_start : plain_fork e v0 w -> kept (child e w) (inherited w L) (inherited w F).
Proof.
  intros Hp. split; [|split].
  - destruct (op_fork e s v0 w L F HW Hp) as [W1 W2 W3 W4 W5 W6 W7]. constructor; auto.
    intros a Ha. cbn [with_headers mapped] in Ha. apply orb_true_iff in Ha. destruct Ha as [Ha|Ha]; [exact (W6 a Ha)|].
    apply headers_iff in Ha. destruct (headers_link a Ha) as [_ Hd]. split.
    + cbn [child w_vm fork mapped]. rewrite Hd. cbn [negb andb]. eapply pregion_mapped; [exact (pi_ranges _ _ _ _ _ HI)|]. now apply headers_in.
    + intros i Q Hi Hreg. cbn [child w_pools] in Hi. apply filter_In in Hi. cbn [snd] in Hi. destruct Hi as [Hi Hs].
      assert (i = id) by exact (wi_apart _ _ _ _ _ _ HW _ _ _ _ _ Hi Hin Hreg (headers_in a Ha)). subst i.
      pose proof (lookup_some _ _ _ (wi_ids _ _ _ _ _ _ HW) Hi) as Hl'. rewrite Hl in Hl'. injection Hl' as <-. unfold shared_init in Hs. rewrite Hpol in Hs. discriminate Hs.
  - intros a Ha. destruct (headers_link a Ha) as [H1 H2]. cbn [child w_vm fork link dontfork]. rewrite H1, H2. split; [reflexivity|]. split; [reflexivity|].
    intros p. destruct (dontfork v p); [discriminate|]. exact (headers_target a Ha p).
  - intros r Hr. pose proof (HFr _ Hr) as HR. destruct (headers_link _ (header_first r Hr)) as [H1 H2]. unfold byte, view. cbn [child w_vm fork link data].
    rewrite H1, H2. rewrite (r_wipefork _ _ _ _ HR).
    + rewrite (r_hdr _ _ _ _ HR). pose proof (g_psz _ _ HG). replace (base r - 2 * psz <? base r - psz) with true by lia.
      replace (cow_init P) with true by (unfold cow_init; rewrite Hpol; reflexivity). reflexivity.
    + unfold region. rewrite (r_addr _ _ _ _ HR), (r_len _ _ _ _ HR), (r_hdr _ _ _ _ HR). pose proof (strd_pos _ _ HG).
      pose proof (g_psz _ _ HG). pose proof (na_bounds P). pose proof (nd_bounds P). pose proof (g_cpus _ _ HG). nia.
Qed.

Lemma kept_allowed : forall w1 L1 o, allowed e s v0 w1 L1 o -> allowed e s with_headers w1 L1 o.
Proof.
  intros w1 L1 [id' named len at_ an|id' an|id' item c|ptr st|ps|id' an] H; try exact H. cbn [allowed] in *. intros x Hx.
  destruct (H x Hx) as [[K|K]|K]; [|left; right; exact K|right; exact K]. left. left. cbn [with_headers mapped]. rewrite K. reflexivity.
Qed.

Lemma kept_writes : forall w1 L1 F1 ps x, kept w1 L1 F1 -> allowed e s v0 w1 L1 (OWrite ps) -> In x (map fst ps) -> ~ in_headers e P x.
Proof.
  intros w1 L1 F1 ps x (HW1 & _) Hok Hx Hh. cbn [allowed] in Hok.
  assert (Hm : mapped with_headers (page x) = true).
  { cbn [with_headers mapped]. apply headers_iff in Hh. rewrite Hh. apply orb_true_r. }
  destruct (wi_own _ _ _ _ _ _ HW1 _ Hm) as [_ Hno].
  destruct (Hok x Hx) as [[Hown|(i & Q & a & Hi & Ha & Hb)]|[_ (i & Q & r & Hi & Hrob & Hr & Hb)]].
  - destruct (wi_own _ _ _ _ _ _ HW _ Hown) as [_ K]. exact (K _ _ Hin (headers_in x Hh)).
  - apply (Hno i Q Hi). destruct (live_range e s with_headers w1 L1 F1 HW1 i Q a Hi Ha) as (r & off & Hr & -> & HR & Hd & Ho & Hol).
    pose proof (wi_pools _ _ _ _ _ _ HW1 _ _ Hi) as HIQ. pose proof (pi_geom _ _ _ _ _ HIQ) as HGQ.
    exists r. split; [exact Hr|]. eapply inF_region; [exact HGQ|exact HR|]. eapply item_byte_inF; eauto.
  - apply (Hno i Q Hi). pose proof (wi_pools _ _ _ _ _ _ HW1 _ _ Hi) as HIQ. pose proof (pi_geom _ _ _ _ _ HIQ) as HGQ.
    pose proof (pi_ranges _ _ _ _ _ HIQ) as HRQ. rewrite Forall_forall in HRQ. specialize (HRQ _ Hr).
    change (copies Q) with (nd Q) in Hb.
    exists r. split; auto. unfold region. rewrite (r_addr _ _ _ _ HRQ), (r_len _ _ _ _ HRQ).
    pose proof (g_psz _ _ HGQ). pose proof (strd_pos _ _ HGQ). pose proof (nd_bounds Q). pose proof (na_bounds Q). nia.
Qed.

Lemma kept_step : forall w1 L1 F1 o w' x, kept w1 L1 F1 -> allowed e s v0 w1 L1 o -> run1 e o w1 = Ok (w', x) ->
  kept w' (live_after o x L1) (freed_after o x L1 F1).
Proof.
  intros w1 L1 F1 o w' x HK Hok Hrun. pose proof HK as (HW1 & HN & HZ). pose proof (kept_allowed _ _ _ Hok) as Hok'. split; [exact (op_any e (hist_env e _ _ _ _ _ HH) (hist_cp e _ _ _ _ _ HH) s with_headers w1 L1 F1 o w' x HW1 Hok' Hrun)|].
  destruct (is_store o) eqn:Es.
  - destruct o as [| | | |ps|]; try discriminate Es. cbn [run1] in Hrun. destruct (forallb _ ps); [|discriminate Hrun]. injection Hrun as <- <-. cbn [w_vm].
    split.
    + intros a Ha. destruct (HN a Ha) as (H1 & H2 & H3). split; [now apply store_link_none|]. rewrite store_dontfork. split; [exact H2|].
      intros p El. apply store_link in El. exact (H3 p (proj1 El)).
    + intros r Hr. rewrite <- (HZ r Hr). unfold byte. f_equal. apply view_store_other; [apply (g_psz _ _ HG)|apply HW1|].
      intros y Hy Hal. pose proof (kept_writes _ _ _ _ y HK Hok Hy) as Hno. pose proof (header_first r Hr) as Hf. destruct Hal as [E|[E _]].
      * apply Hno. rewrite <- E. exact Hf.
      * destruct (HN _ Hf) as [H1 _]. rewrite H1 in E. discriminate E.
  - pose proof (own_frame_w e s with_headers w1 L1 F1 (hist_env e _ _ _ _ _ HH) (hist_cp e _ _ _ _ _ HH) HW1 o w' x Hok' Hrun Es) as Hfr.
    assert (Hm : forall a, in_headers e P a -> mapped with_headers (page a) = true).
    { intros a Ha. cbn [with_headers mapped]. apply headers_iff in Ha. rewrite Ha. apply orb_true_r. }
    split.
    + intros a Ha. destruct (HN a Ha) as (H1 & H2 & H3). split; [|split; [rewrite (fr_dontfork _ _ _ _ Hfr) by (apply Hm; exact Ha); exact H2|]].
      2:{ intros p El. exact (H3 p (fr_link _ _ _ _ Hfr _ _ a El (Hm a Ha) (or_intror eq_refl))). }
      destruct (link (w_vm w') (page a)) as [q|] eqn:El; [|reflexivity].
      rewrite (fr_link _ _ _ _ Hfr _ q a El (Hm a Ha) (or_introl eq_refl)) in H1. discriminate H1.
    + intros r Hr. unfold byte. rewrite (fr_view _ _ _ _ Hfr) by (apply Hm; now apply header_first). apply (HZ r Hr).
Qed.

Lemma kept_fork : forall w1 L1 F1, kept w1 L1 F1 -> plain_fork e v0 w1 -> kept (child e w1) (inherited w1 L1) (inherited w1 F1).
Proof.
  intros w1 L1 F1 (HW1 & HN & HZ) Hp. split; [|split].
  - apply op_fork_gen; [exact HW1|eapply fork_wf; [apply HW1|exact Hp]|]. intros a Ha. cbn [with_headers mapped] in Ha.
    apply orb_true_iff in Ha. destruct Ha as [Ha|Ha]; [apply Hp; exact Ha|]. apply headers_iff in Ha. apply (HN a Ha).
  - intros a Ha. destruct (HN a Ha) as (H1 & H2 & H3). cbn [child w_vm fork link dontfork]. rewrite H1, H2. split; [reflexivity|]. split; [reflexivity|].
    intros p. destruct (dontfork (w_vm w1) p); [discriminate|]. exact (H3 p).
  - intros r Hr. pose proof (HZ r Hr) as Hz. destruct (HN _ (header_first r Hr)) as (H1 & H2 & _). unfold byte, view in *. cbn [child w_vm fork link data].
    rewrite H1 in Hz. rewrite H1, H2. destruct (wipefork (w_vm w1) (page (header r))); [reflexivity|exact Hz].
Qed.

Lemma kept_rest : forall w1 L1 F1 v', kept w1 L1 F1 -> rest_acts e v0 w1 v' -> (forall a, in_headers e P a -> same_at e (w_vm w1) v' a) ->
  kept {| w_vm := v'; w_pools := w_pools w1 |} L1 F1.
Proof.
  intros w1 L1 F1 v' (HW1 & HN & HZ) Hra Hk. split; [|split].
  - apply op_rest; [exact HW1|]. destruct Hra as [R1 R2 R3]. constructor; auto. intros a [Ha|Ha]; [|apply R2; right; exact Ha].
    cbn [with_headers mapped] in Ha. apply orb_true_iff in Ha. destruct Ha as [Ha|Ha]; [apply R2; left; exact Ha|]. apply headers_iff in Ha. exact (Hk a Ha).
  - intros a Ha. destruct (HN a Ha) as (H1 & H2 & H3). cbn [w_vm]. split; [|split].
    + destruct (link v' (page a)) as [q|] eqn:El; [|reflexivity]. destruct (ra_link _ _ _ _ Hra _ _ El) as [K _]. rewrite H1 in K. discriminate K.
    + rewrite (sa_dontfork _ _ _ _ (Hk a Ha)). exact H2.
    + intros p El. destruct (ra_link _ _ _ _ Hra _ _ El) as [K _]. exact (H3 p K).
  - intros r Hr. cbn [w_vm]. unfold byte. rewrite (sa_view _ _ _ _ (Hk _ (header_first r Hr))). exact (HZ r Hr).
Qed.

Lemma kept_later : forall (keep : Z -> Prop) w1 L1 F1, (forall a, in_headers e P a -> keep a) -> plain_fork e v0 w ->
  goes_on e s v0 keep (child e w) (inherited w L) (inherited w F) w1 L1 F1 -> kept w1 L1 F1.
Proof.
  intros keep w1 L1 F1 Hkp Hp H. induction H as [|w1 L1 F1 o w' x H IH Ha Hr|w1 L1 F1 H IH Hp1|w1 L1 F1 v' H IH Hra Hk]; [now apply kept_start| | |].
  - eapply kept_step; eauto.
  - now apply kept_fork.
  - apply kept_rest; auto.
Qed.

Lemma p_later : forall (keep : Z -> Prop) an w1 L1 F1, (forall a, in_headers e P a -> keep a) -> plain_fork e v0 w -> goes_on e s v0 keep (child e w) (inherited w L) (inherited w F) w1 L1 F1 ->
  let here := {| w_vm := w_vm w1; w_pools := (id, P) :: w_pools w1 |} in
  run1 e (ODestroy id an) here <> Undef /\
  ((robust_set (pattr P) = false \/ forall a, ~ In (id, a) L) -> (forall a, an_munmap an a = true) ->
   exists w', run1 e (ODestroy id an) here = Ok (w', OutRet 0) /\
     (forall a, in_headers e P a -> mapped (w_vm w1) (page a) = true /\ mapped (w_vm w') (page a) = false) /\
     (forall a, ~ in_headers e P a ->
        mapped (w_vm w') (page a) = mapped (w_vm w1) (page a) /\ view e (w_vm w') a = view e (w_vm w1) a)).
Proof.
  intros keep an w1 L1 F1 Hkp Hp H here. pose proof (kept_later keep _ _ _ Hkp Hp H) as (HW1 & HN & HZ).
  assert (Hm : forall a, in_headers e P a -> mapped (w_vm w1) (page a) = true).
  { intros a Ha. apply (wi_own _ _ _ _ _ _ HW1). cbn [with_headers mapped]. apply headers_iff in Ha. rewrite Ha. apply orb_true_r. }
  assert (Hh : forall r a, In r (range_list P) -> header r <= a < base r -> in_headers e P a).
  { intros r a Hr Ha. exists r. split; [exact Hr|]. rewrite (r_hdr _ _ _ _ (HFr _ Hr)) in Ha. exact Ha. }
  destruct (p_orphan e s v0 w L F HH id P an (w_vm w1) ((id, P) :: w_pools w1) Hl Hpol) as [K1 K2].
  - intros r a Hr Ha. apply Hm. eapply Hh; eauto.
  - exact HZ.
  - unfold lookup. cbn [find fst]. rewrite Z.eqb_refl. reflexivity.
  - split; [exact K1|]. intros Hno Han. destruct (K2 Hno Han) as (w' & E & _ & H1 & H2). exists w'. split; [exact E|]. split.
    + intros a Ha. split; [now apply Hm|]. apply H1. destruct Ha as (r & Hr & Ha). exists r. rewrite (r_hdr _ _ _ _ (HFr _ Hr)). auto.
    + intros a Ha. apply H2. intros (r & Hr & Hra). apply Ha. eapply Hh; eauto.
Qed.

(** Destroying it is an action of the rest of the process. *)
Record trimmed (l : list range) (v1 v' : vm) : Prop := {
  tr_data : data v' = data v1; tr_dontfork : dontfork v' = dontfork v1; tr_wipefork : wipefork v' = wipefork v1;
  tr_mapped : forall q, mapped v' q = true -> mapped v1 q = true;
  tr_link : forall p q, link v' p = Some q -> link v1 p = Some q;
  tr_pop : forall q, mapped v' q = true -> populated v' q = populated v1 q /\ link v' q = link v1 q;
  tr_same : forall q, in_header e l q = false -> mapped v' q = mapped v1 q /\ populated v' q = populated v1 q /\ link v' q = link v1 q
}.
Lemma trimmed_all : forall Q an l v1 Po v', destroy_ranges e Q an false l v1 = Ok (Po, v') -> trimmed l v1 v'.
Proof.
  intros Q an l. induction l as [|r l IH]; intros v1 Po v' H; cbn [destroy_ranges] in H.
  - injection H as <- <-. constructor; auto.
  - unfold range_destroy in H. destruct (destroy_alloc_bitmap e r) as [r'| |] eqn:Eb; cbn [bind] in H; try discriminate H.
    assert (Eh : header r' = header r).
    { unfold destroy_alloc_bitmap in Eb. destruct (alloc_bitmap r); [|injection Eb as <-; reflexivity].
      match type of Eb with (if ?c then _ else _) = _ => destruct c end; [|discriminate Eb]. injection Eb as <-. reflexivity. }
    destruct (an_munmap an (header r')); cbn [bind] in H.
    + rewrite Eh in H. change POOL_HEADER_NR_PAGES with 2 in H. apply IH in H. destruct H as [D1 D2 D3 D4 D5 D6 D7]. constructor; auto.
      * intros q Hq. apply D4 in Hq. cbn [munmap mapped] in Hq. apply andb_true_iff in Hq. apply Hq.
      * intros p q Hq. apply D5 in Hq. cbn [munmap link] in Hq. destruct (in_pages _ _ _ p); [discriminate Hq|exact Hq].
      * intros q Hq. destruct (D6 q Hq) as [K1 K2]. rewrite K1, K2. apply D4 in Hq. cbn [munmap mapped populated link] in *.
        apply andb_true_iff in Hq. destruct Hq as [Hq _]. apply negb_true_iff in Hq. rewrite Hq. auto.
      * intros q Hq. cbn [in_header existsb] in Hq. apply orb_false_elim in Hq. destruct Hq as [Hq1 Hq2]. destruct (D7 q Hq2) as (K1 & K2 & K3).
        rewrite K1, K2, K3. cbn [munmap mapped populated link]. rewrite Hq1. auto.
    + injection H as <- <-. constructor; auto.
Qed.

Lemma p_after : forall (keep : Z -> Prop) an w1 L1 F1 w' x, (forall a, keep a -> ~ in_headers e P a) -> plain_fork e v0 w ->
  goes_on e s v0 (fun a => in_headers e P a \/ keep a) (child e w) (inherited w L) (inherited w F) w1 L1 F1 ->
  run1 e (ODestroy id an) {| w_vm := w_vm w1; w_pools := (id, P) :: w_pools w1 |} = Ok (w', x) ->
  goes_on e s v0 keep (child e w) (inherited w L) (inherited w F) {| w_vm := w_vm w'; w_pools := w_pools w1 |} L1 F1.
Proof.
  intros keep an w1 L1 F1 w' x Hkp Hp H Hrun. pose proof (kept_later _ _ _ _ (fun a Ha => or_introl Ha) Hp H) as (HW1 & HN & HZ).
  assert (HT : trimmed (range_list P) (w_vm w1) (w_vm w')).
  { cbn [run1 w_pools w_vm] in Hrun. unfold lookup in Hrun. cbn [find fst] in Hrun. rewrite Z.eqb_refl in Hrun.
    unfold mempool_destroy in Hrun. destruct (range_list P) as [|r0 l0] eqn:El.
    - destruct (pool_mappings_accessible e P (w_vm w1)) as [acc| |]; cbn [bind] in Hrun; try discriminate Hrun.
      destruct (check_free_list e P (w_vm w1) acc) as [[]| |]; cbn [bind] in Hrun; try discriminate Hrun.
      destruct (check_pool_poison e P (w_vm w1) acc) as [[]| |]; cbn [bind] in Hrun; try discriminate Hrun.
      cbn [destroy_ranges bind] in Hrun. injection Hrun as <- _. constructor; auto.
    - assert (Eacc : pool_mappings_accessible e P (w_vm w1) = Ok false).
      { assert (Hr : In r0 (range_list P)) by (rewrite El; left; reflexivity). pose proof (r_hdr _ _ _ _ (HFr _ Hr)) as Ehd.
        unfold pool_mappings_accessible. rewrite Hpol, El. cbn [Z.eqb COW_INIT negb]. pose proof (g_psz _ _ HG) as Hps.
        replace (accessible e (w_vm w1) (base r0 - 2 * psz) 1) with true.
        2:{ symmetry. apply accessible_true; auto. intros y Hy. apply (wi_own _ _ _ _ _ _ HW1). cbn [with_headers mapped].
            assert (Hh : in_headers e P y) by (exists r0; split; [exact Hr|lia]). apply headers_iff in Hh. rewrite Hh. apply orb_true_r. }
        cbn [negb]. rewrite <- Ehd, (HZ r0 (or_introl eq_refl)). reflexivity. }
      rewrite Eacc in Hrun. cbn [bind] in Hrun.
      destruct (check_free_list e P (w_vm w1) false) as [[]| |]; cbn [bind] in Hrun; try discriminate Hrun.
      destruct (check_pool_poison e P (w_vm w1) false) as [[]| |]; cbn [bind] in Hrun; try discriminate Hrun.
      destruct (destroy_ranges e P an false (r0 :: l0) (w_vm w1)) as [[Po v1]| |] eqn:E; cbn [bind] in Hrun; try discriminate Hrun.
      injection Hrun as <- _. cbn [w_vm]. exact (trimmed_all _ _ _ _ _ _ E). }
  pose proof (wi_wf _ _ _ _ _ _ HW1) as [W1 W2 W3]. pose proof (g_psz _ _ HG) as Hps.
  assert (Hsame : forall a, ~ in_headers e P a -> same_at e (w_vm w1) (w_vm w') a).
  { intros a Ha. assert (Hn : in_header e (range_list P) (page a) = false).
    { destruct (in_header e (range_list P) (page a)) eqn:Eh; [|reflexivity]. apply headers_iff in Eh. contradiction. }
    destruct (tr_same _ _ _ HT _ Hn) as (K1 & K2 & K3). constructor; auto.
    - unfold view. rewrite K3, (tr_data _ _ _ HT). reflexivity.
    - now rewrite (tr_dontfork _ _ _ HT).
    - now rewrite (tr_wipefork _ _ _ HT). }
  assert (Hfree : forall q, in_header e (range_list P) q = true -> exists a, in_headers e P a /\ page a = q).
  { intros q Hq. exists (q * psz). assert (Eq : page (q * psz) = q) by (unfold PoolVM.page; apply Z.div_mul; lia). split; [|exact Eq].
    apply headers_iff. rewrite Eq. exact Hq. }
  refine (on_rest e s v0 keep _ _ _ w1 L1 F1 (w_vm w') (on_fewer _ _ _ _ _ _ _ _ _ _ (fun a Ha => or_intror Ha) H) _ _).
  - split.
    + assert (Hsp : address_space_ok e (w_vm w')); [|exact Hsp]. split; [|split].
      * intros p q El. apply (tr_link _ _ _ HT) in El. destruct (link (w_vm w') q) as [q'|] eqn:E2; [|reflexivity].
        apply (tr_link _ _ _ HT) in E2. rewrite (W1 _ _ El) in E2. discriminate E2.
      * intros p q El. pose proof (tr_link _ _ _ HT _ _ El) as El1. destruct (W2 _ _ El1) as [M1 M2].
        assert (Np : in_header e (range_list P) p = false).
        { destruct (in_header e (range_list P) p) eqn:Eh; [|reflexivity]. destruct (Hfree _ Eh) as (a & Ha & Ea).
          destruct (HN a Ha) as (K & _). rewrite Ea, El1 in K. discriminate K. }
        assert (Nq : in_header e (range_list P) q = false).
        { destruct (in_header e (range_list P) q) eqn:Eh; [|reflexivity]. destruct (Hfree _ Eh) as (a & Ha & Ea).
          destruct (HN a Ha) as (_ & _ & K). rewrite Ea in K. destruct (K p El1). }
        destruct (tr_same _ _ _ HT _ Np) as (-> & _). destruct (tr_same _ _ _ HT _ Nq) as (-> & _). auto.
      * intros a Hm Hpo Hli. destruct (tr_pop _ _ _ HT _ Hm) as [K1 K2]. rewrite (tr_data _ _ _ HT). apply W3; [exact (tr_mapped _ _ _ HT _ Hm)| |]; congruence.
    + intros a [Ha|(i & Q & r & Hi & Hr & Ha)]; apply Hsame; intros Hh.
      * destruct (wi_own _ _ _ _ _ _ HW _ Ha) as [_ K]. exact (K _ _ Hin (headers_in a Hh)).
      * assert (Hm : mapped with_headers (page a) = true).
        { cbn [with_headers mapped]. apply headers_iff in Hh. rewrite Hh. apply orb_true_r. }
        destruct (wi_own _ _ _ _ _ _ HW1 _ Hm) as [_ K]. apply (K _ _ Hi). exists r. auto.
    + intros p q El. split; [exact (tr_link _ _ _ HT _ _ El)|]. rewrite (tr_dontfork _ _ _ HT), (tr_wipefork _ _ _ HT). auto.
  - intros a Ha. apply Hsame. now apply Hkp.
Qed.
End Orphan.

(** Mapping a page is something the rest of the process can do. *)
Lemma rest_maps : forall q b, mapped v q = false -> (forall p, link v p <> Some q) ->
  rest_acts e v0 w {| data := fun a => if page a =? q then b else data v a; mapped := fun p => (p =? q) || mapped v p;
    link := fun p => if p =? q then None else link v p; populated := fun p => (p =? q) || populated v p;
    dontfork := fun p => negb (p =? q) && dontfork v p; wipefork := fun p => negb (p =? q) && wipefork v p |}.
Proof.
  intros q b Hm Hn. pose proof (wi_wf _ _ _ _ _ _ HW) as [W1 W2 W3].
  assert (Hl : link v q = None). { destruct (link v q) as [q'|] eqn:E; [|reflexivity]. apply W2 in E. rewrite Hm in E. destruct E as [K _]. discriminate K. }
  assert (Hq : forall a, in_use e v0 w a -> (page a =? q) = false).
  { intros a Ha. apply Z.eqb_neq. intros E. rewrite <- E in Hm. destruct Ha as [Ha|(i & Q & r & Hi & Hr & Ha)].
    - destruct (wi_own _ _ _ _ _ _ HW _ Ha) as [K _]. rewrite Hm in K. discriminate K.
    - rewrite (pregion_mapped e Q _ a (pi_ranges _ _ _ _ _ (wi_pools _ _ _ _ _ _ HW _ _ Hi))) in Hm by (exists r; auto). discriminate Hm. }
  split; cbn [data mapped link populated dontfork wipefork].
  - split; [|split]; cbn [data mapped link populated dontfork wipefork].
    + intros p r E. destruct (p =? q); [discriminate E|]. rewrite (W1 _ _ E). now destruct (r =? q).
    + intros p r E. destruct (p =? q); [discriminate E|]. destruct (W2 _ _ E) as [M1 M2]. rewrite M1, M2, !orb_true_r. auto.
    + intros a M1 M2 M3. destruct (page a =? q); [discriminate M2|]. apply W3; auto.
  - intros a Ha. specialize (Hq a Ha). constructor; cbn [data mapped link populated dontfork wipefork]; try (rewrite Hq; reflexivity).
    unfold view. cbn [link data]. rewrite Hq. destruct (link v (page a)) as [r|] eqn:El; [|reflexivity].
    destruct (hist_env _ _ _ _ _ _ HH) as (po & Hpo & Eps). assert (Hpp : 0 < psz) by (rewrite Eps; apply Z.pow_pos_nonneg; lia).
    assert (E : page (r * psz + a mod psz) = r).
    { unfold PoolVM.page. rewrite Z.add_comm, Z.div_add by lia. rewrite Z.div_small; [lia|]. apply Z.mod_pos_bound. lia. }
    rewrite E. replace (r =? q) with false; [reflexivity|]. symmetry. apply Z.eqb_neq. intros ->. exact (Hn _ El).
  - intros p r E. destruct (p =? q) eqn:Ep; [discriminate E|]. split; [exact E|]. cbn [negb andb]. split; [reflexivity|].
    assert (Er : (r =? q) = false) by (apply Z.eqb_neq; intros ->; exact (Hn _ E)). rewrite Er. auto.
Qed.
End One.
End Fork.
