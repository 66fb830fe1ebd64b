(** C68: fork() in a program with several threads. *)
From Coq Require Import ZArith Bool List Lia.
From Verif Require Import UtilsModel UtilsLemmas RseqIR MemLemmas PoolVM PoolVMLemmas PoolModel PoolInv PoolItem PoolMap PoolRange PoolBitmap PoolOps PoolMalloc PoolFree PoolDestroy PoolWorld PoolCreate PoolHist ForkSpec ForkTame
  MicroModel MicroSpec MicroInv MicroWorld MicroProofs MicroSteps MicroOps MicroFork MicroProps MicroFacts MicroTame MicroForkSpec.
Import ListNotations.
Local Open Scope Z_scope.

Section MFP.
Variable e : env.
Notation page := (PoolVM.page e).
Notation minv := (minv e).

Lemma inside_locks : forall tk id, inside tk id <-> locks tk = Some id.
Proof.
  intros tk id. destruct tk; cbn; split; intros H; try contradiction; try discriminate H; try (now injection H); try (now f_equal).
Qed.
Lemma busy_locked : forall v0 m G L F id, minv v0 m G L F -> (busy m id <-> unlocked m id = false).
Proof.
  intros v0 m G L F id HM. unfold unlocked. split.
  - intros (t & H). apply inside_locks, (mi_lock _ _ _ _ _ _ HM) in H. rewrite H. reflexivity.
  - destruct (m_lock m id) as [t|] eqn:E; [|discriminate]. intros _. exists t. apply inside_locks, (mi_lock _ _ _ _ _ _ HM), E.
Qed.

Section One.
Variables (v0 : vm) (m : mstate).
Hypothesis HP : mprogram e v0 m.
Hypothesis H0 : ordinary v0.

Lemma can_fork : forall t, m_task m t = TIdle -> exists lost, forks e v0 m t lost.
Proof.
  intros t Ht. destruct (lost_exists e v0 m HP) as (lost & Hn & Hl). exists lost. split; [exact Ht|]. split; [exact Hn|]. split; [exact Hl|].
  exact (plain_is e v0 m H0 HP).
Qed.
Lemma child_program : forall t lost, forks e v0 m t lost -> mprogram e v0 (mchild e m lost).
Proof. intros t lost Hf. destruct HP as (H1 & H2 & H3). split; [exact H1|]. split; [exact H2|]. exact (mrun_fork e v0 m t lost H3 Hf). Qed.

Lemma not_busy : forall id, ~ busy m id -> unlocked m id = true.
Proof.
  intros id H. destruct (pr_inv e v0 m HP) as (G & L & F & HM). destruct (unlocked m id) eqn:E; [reflexivity|]. destruct H. apply (busy_locked _ _ _ _ _ id HM), E.
Qed.
Lemma usable_winv : exists L1 F1, winv e true v0 (usable m) L1 F1.
Proof.
  destruct (pr_inv e v0 m HP) as (G & L & F & HM).
  pose proof (winv_drop _ _ _ _ _ _ (unlocked m) (mi_w _ _ _ _ _ _ HM)) as HW. cbn [w_vm w_pools] in HW.
  rewrite <- (usable_pools e m G (mi_pools _ _ _ _ _ _ HM)) in HW. eauto.
Qed.
Lemma ids : NoDup (map fst (m_pools m)).
Proof.
  destruct (pr_inv e v0 m HP) as (G & L & F & HM). rewrite (mi_pools _ _ _ _ _ _ HM), acts_ids. apply (wi_ids _ _ _ _ _ _ (mi_w _ _ _ _ _ _ HM)).
Qed.
Lemma lookup_usable : forall id P, lookup id (w_pools (usable m)) = Some P <-> lookup id (m_pools m) = Some P /\ ~ busy m id.
Proof.
  intros id P. destruct (pr_inv e v0 m HP) as (G & L & F & HM). split.
  - intros H. apply lookup_in in H. cbn [usable w_pools] in H. apply filter_In in H. destruct H as [H Hu]. cbn [fst] in Hu.
    split; [exact (lookup_some _ _ _ ids H)|]. intros K. apply (busy_locked _ _ _ _ _ id HM) in K. congruence.
  - intros [H K]. apply lookup_some; [apply (kept_ids (unlocked m)), ids|]. cbn [usable w_pools]. apply filter_In. split; [exact (lookup_in _ _ _ H)|].
    exact (not_busy id K).
Qed.

Lemma finds : forall lost id P, lookup id (m_pools m) = Some P -> populate_policy (pattr P) <> COW_INIT -> ~ busy m id ->
  lookup id (m_pools (mchild e m lost)) = Some P /\
  forall a, in_pool e P a -> mapped (m_vm (mchild e m lost)) (page a) = true /\ view e (m_vm (mchild e m lost)) a = view e (m_vm m) a.
Proof.
  intros lost id P Hl Hpol Hb. destruct usable_winv as (L1 & F1 & HW). assert (Hl' := proj2 (lookup_usable id P) (conj Hl Hb)).
  pose proof (lookup_in _ _ _ Hl') as Hin. pose proof (wi_pools _ _ _ _ _ _ HW _ _ Hin) as HI.
  assert (Hs : shared_init P = false) by (apply Z.eqb_neq; exact Hpol).
  pose proof (fork_frame e P _ _ _ HI Hs) as Hfr. cbn [mchild m_pools m_vm]. split.
  - apply lookup_some.
    + cbn [child w_pools]. pose proof (wi_ids _ _ _ _ _ _ HW) as Hn. clear - Hn. induction (w_pools (usable m)) as [|[i Q] l IH]; [constructor|].
      cbn [map fst] in Hn. inversion Hn as [|? ? Hni Hn']; subst. cbn [filter snd]. destruct (negb (shared_init Q)); [|auto]. cbn [map fst].
      constructor; [|auto]. intros K. apply Hni. apply in_map_iff in K. destruct K as ([i' Q'] & E & K). cbn in E. subst i'.
      apply filter_In in K. apply in_map_iff. exists (i, Q'). tauto.
    + cbn [child w_pools]. apply filter_In. cbn [snd]. rewrite Hs. auto.
  - intros a (r & Hr & Ha).
    assert (Hreg : pregion P a).
    { exists r. split; [exact Hr|]. pose proof (pi_ranges _ _ _ _ _ HI) as HF. rewrite Forall_forall in HF. unfold region. pose proof (r_addr _ _ _ _ (HF r Hr)). lia. }
    cbn [child w_vm]. split.
    + rewrite (fr_mapped _ _ _ _ Hfr) by exact Hreg. eapply pregion_mapped; [exact (pi_ranges _ _ _ _ _ HI)|exact Hreg].
    + apply (fr_view _ _ _ _ Hfr). exact Hreg.
Qed.

Lemma child_holds : forall t lost id a, forks e v0 m t lost ->
  (In (id, a) (m_held (mchild e m lost)) <->
   (In (id, a) (m_held m) \/ in_flight m (id, a)) /\
   exists P, lookup id (m_pools m) = Some P /\ populate_policy (pattr P) <> COW_INIT /\ ~ busy m id).
Proof.
  intros t lost id a (_ & _ & Hlost & _). cbn [mchild m_held]. unfold inherited. rewrite filter_In, in_app_iff, Hlost. cbn [fst].
  unfold inherits. split; intros [H1 H2]; (split; [exact H1|]).
  - destruct (lookup id (w_pools (usable m))) as [P|] eqn:El; [|discriminate H2]. exists P. apply lookup_usable in El. split; [exact (proj1 El)|].
    split; [|exact (proj2 El)]. apply negb_true_iff in H2. now apply Z.eqb_neq.
  - destruct H2 as (P & H2 & H3 & H4). rewrite (proj2 (lookup_usable id P) (conj H2 H4)). apply negb_true_iff. now apply Z.eqb_neq.
Qed.
End One.

(** ** A mutex that nobody will release *)
Definition stuck (id : Z) (m : mstate) : Prop := m_lock m id <> None /\ forall t, locks (m_task m t) <> Some id.
Lemma upd_locks : forall id m t tk, (forall t', locks (m_task m t') <> Some id) -> locks tk <> Some id -> forall t', locks (upd (m_task m) t tk t') <> Some id.
Proof. intros id m t tk H K t'. unfold upd. destruct (t' =? t); auto. Qed.
Lemma stuck_advance : forall id t k m m' x, stuck id m -> advance e t k m = Some (Ok (m', x)) -> stuck id m'.
Proof.
  intros id t k m m' x [H1 H2] H. unfold advance in H. destruct (pool_of (m_task m t)) as [i|] eqn:Hpo; [|discriminate H].
  destruct (lookup i (m_pools m)) as [P|] eqn:El; [|discriminate H].
  assert (Hne : locks (m_task m t) = Some i -> i <> id) by (intros E ->; exact (H2 t E)).
  assert (Hu : forall tk, locks tk <> Some id -> forall t', locks (upd (m_task m) t tk t') <> Some id) by (intros tk; apply (upd_locks id m t tk H2)).
  unfold step_in in H. destruct (m_task m t) as [|j c|j an c|j c n|j c n nxt|j c n nxt todo|j an c|j c found|j item c ph|j ptr s|j ptr s|j ptr hd ph|j ptr hd|j ptr|j] eqn:Et;
    try discriminate H; injection Hpo as ->.
  1:{ destruct (m_lock m i) eqn:Ek; [discriminate H|]. injection H as <- <-. assert (i <> id) by (intros ->; exact (H1 Ek)). split; cbn.
      - unfold upd. replace (id =? i) with false by (symmetry; apply Z.eqb_neq; congruence). exact H1.
      - apply Hu. destruct c; cbn; congruence. }
  7:{ assert (Hfin : forall m1, stuck id m1 -> forall tk, locks tk = None -> m_task m1 = m_task m -> stuck id (goto m1 t tk)).
      { intros m1 [K1 K2] tk Hk E. split; [exact K1|]. cbn. rewrite E. apply Hu. congruence. }
      assert (Hv : forall v, stuck id (set_vm m v)) by (intros v; split; [exact H1|exact H2]).
      destruct ph as [todo rest|todo all rest|].
      - destruct (fill_byte e k _ (m_vm m)) as [[ph1 v1]| |]; cbn [bind] in H; try discriminate H. injection H as <- <-. apply Hfin; auto.
      - destruct (fill_byte e k _ (m_vm m)) as [[ph1 v1]| |]; cbn [bind] in H; try discriminate H. injection H as <- <-. apply Hfin; auto.
      - injection H as <- <-. split; [exact H1|]. cbn. apply Hu. discriminate. }
  all: specialize (Hne eq_refl);
    repeat match type of H with
    | Some (Ok (_, _)) = Some (Ok (_, _)) => injection H as <- <-; split; cbn;
        [try exact H1; unfold upd; replace (id =? i) with false by (symmetry; apply Z.eqb_neq; congruence); exact H1
        |apply Hu; repeat match goal with |- context [if ?y then _ else _] => destruct y end; cbn [locks pool_of]; congruence]
    | Some Undef = _ => discriminate H
    | Some Abort = _ => discriminate H
    | None = _ => discriminate H
    | context [bind ?y _] => destruct y; cbn [bind] in H
    | context [match ?y with _ => _ end] => destruct y; cbn [bind] in H
    end.
Qed.
Lemma stuck_step : forall id a m m' x, stuck id m -> mstep e a m = Some (Ok (m', x)) -> stuck id m'.
Proof.
  intros id a m m' x H Hs. destruct a as [t c|t k|o|v']; cbn [mstep] in Hs.
  - destruct H as [H1 H2]. destruct (m_task m t); try (destruct c; discriminate Hs). destruct c as [i an c|ptr s].
    + injection Hs as <- <-. split; [exact H1|]. cbn. apply (upd_locks id m t _ H2). discriminate.
    + destruct (find_owner _ _) as [[[i Q] r]|]; [|discriminate Hs]. injection Hs as <- <-. split; [exact H1|]. cbn. apply (upd_locks id m t _ H2). discriminate.
  - exact (stuck_advance id t k m m' x H Hs).
  - destruct o; try discriminate Hs;
      match type of Hs with context [bind ?y _] => destruct y as [[w y']| |]; cbn [bind] in Hs; try discriminate Hs; injection Hs as <- <-; exact H end.
  - injection Hs as <- <-. exact H.
Qed.
Lemma stuck_start : forall v0 m id, mprogram e v0 m -> busy m id -> stuck id (as_forked e m).
Proof.
  intros v0 m id HP Hb. destruct (pr_inv e v0 m HP) as (G & L & F & HM). apply (busy_locked _ _ _ _ _ id HM) in Hb. unfold unlocked in Hb.
  split; cbn; [|discriminate]. destruct (m_lock m id); [discriminate|discriminate Hb].
Qed.
Lemma never_returns : forall v0 m id, mprogram e v0 m -> busy m id -> forall m1, later e id (as_forked e m) m1 ->
  forall t, waits (m_task m1 t) id -> forall k m' x, mstep e (AStep t k) m1 <> Some (Ok (m', x)).
Proof.
  intros v0 m id HP Hb m1 Hl t Hw k m' x Hs.
  assert (Hst : stuck id m1).
  { clear Hw Hs. induction Hl as [|m1 a m2 y Hl IH _ Hs]; [exact (stuck_start v0 m id HP Hb)|exact (stuck_step id a m1 m2 y IH Hs)]. }
  destruct Hst as [H1 _]. cbn [mstep] in Hs. unfold advance in Hs. destruct (m_task m1 t) as [|j c| | | | | | | | | | | | |] eqn:Et; try contradiction Hw.
  cbn in Hw. subst j. cbn [pool_of] in Hs. destruct (lookup id (m_pools m1)); [|discriminate Hs]. cbn [step_in] in Hs.
  destruct (m_lock m1 id); [discriminate Hs|]. exact (H1 eq_refl).
Qed.
End MFP.
