(** A program with several threads that does not use madvise() can fork at any point. *)
From Coq Require Import ZArith Bool List Lia.
From Verif Require Import UtilsModel RseqIR PoolVM PoolVMLemmas PoolModel PoolInv PoolWorld PoolCreate PoolHist PlacePool ForkSpec ForkTame
  MicroModel MicroSpec MicroInv MicroWorld MicroProofs MicroSteps MicroOps MicroFork MicroProps MicroFacts.
Import ListNotations.
Local Open Scope Z_scope.

Section MTame.
Variable e : env.
Notation page := (PoolVM.page e).
Notation minv := (minv e).

(** What a step does to memory. *)
Lemma fill_vm : forall k ph v ph' v', fill_byte e k ph v = Ok (ph', v') -> v' = v \/ exists ps, v' = store e v ps.
Proof.
  intros k ph v ph' v' H. destruct ph as [[|y l] rest|[|y l] all rest|]; cbn [fill_byte] in H;
    try (injection H as <- <-; now left).
  - destruct (pick k y l) as [z todo]. destruct (mapped _ _); [|discriminate H]. injection H as <- <-. right. exists [z]. reflexivity.
  - destruct (pick k y l) as [z todo]. destruct (negb _); [discriminate H|]. destruct (_ =? _); injection H as <- <-; now left.
Qed.
Lemma advance_vm : forall t k m m' x, advance e t k m = Some (Ok (m', x)) ->
  m_vm m' = m_vm m \/ (exists ps, m_vm m' = store e (m_vm m) ps) \/
  exists id an c P found P', m_task m t = TMFresh id an c /\ lookup id (m_pools m) = Some P /\
    malloc_locked e P an (m_vm m) = Ok (found, P', m_vm m').
Proof.
  intros t k m m' x H. unfold advance in H. destruct (pool_of (m_task m t)) as [id|] eqn:Hpo; [|discriminate H].
  destruct (lookup id (m_pools m)) as [P|] eqn:El; [|discriminate H]. unfold step_in in H.
  destruct (m_task m t) as [|i c|i an c|i c n|i c n nxt|i c n nxt todo|i an c|i c found|i item c ph|i ptr s|i ptr s|i ptr hd ph|i ptr hd|i ptr|i] eqn:Et;
    try discriminate H.
  6:{ injection Hpo as ->. destruct (malloc_locked e P an (m_vm m)) as [[[f P1] v1]| |] eqn:Em; cbn [bind] in H; try discriminate H. injection H as <- <-.
      right. right. exists id, an, c, P, f, P1. auto. }
  7:{ assert (K : forall ph', (do x <- fill_byte e k ph' (m_vm m); let '(ph, v) := x in Ok (goto (set_vm m v) t (TFill id item c ph), @None out)) = Ok (m', x) ->
        m_vm m' = m_vm m \/ exists ps, m_vm m' = store e (m_vm m) ps).
      { intros ph' K. destruct (fill_byte e k ph' (m_vm m)) as [[ph1 v1]| |] eqn:Ef; cbn [bind] in K; try discriminate K. injection K as <- <-. exact (fill_vm _ _ _ _ _ Ef). }
      destruct ph as [todo rest|todo all rest|].
      - apply (f_equal (fun o => match o with Some r => r | None => Undef end)) in H. destruct (K _ H); auto.
      - apply (f_equal (fun o => match o with Some r => r | None => Undef end)) in H. destruct (K _ H); auto.
      - injection H as <- <-. now left. }
  9:{ assert (K : forall ph', (do x <- fill_byte e k ph' (m_vm m); let '(ph, v) := x in Ok (goto (set_vm m v) t (TFPoison id ptr hd ph), @None out)) = Ok (m', x) ->
        m_vm m' = m_vm m \/ exists ps, m_vm m' = store e (m_vm m) ps).
      { intros ph' K. destruct (fill_byte e k ph' (m_vm m)) as [[ph1 v1]| |] eqn:Ef; cbn [bind] in K; try discriminate K. injection K as <- <-. exact (fill_vm _ _ _ _ _ Ef). }
      destruct ph as [todo rest|todo all rest|].
      - apply (f_equal (fun o => match o with Some r => r | None => Undef end)) in H. destruct (K _ H); auto.
      - apply (f_equal (fun o => match o with Some r => r | None => Undef end)) in H. destruct (K _ H); auto.
      - injection H as <- <-. now left. }
  9:{ destruct (accessible _ _ _ _); [|discriminate H]. injection H as <- <-. right. left. eexists. reflexivity. }
  all: left;
    repeat match type of H with
    | Some (Ok (_, _)) = Some (Ok (_, _)) => injection H as <- <-; reflexivity
    | Some Undef = _ => discriminate H
    | Some Abort = _ => discriminate H
    | None = _ => discriminate H
    | context [bind ?y _] => destruct y; cbn [bind] in H
    | context [match ?y with _ => _ end] => destruct y; cbn [bind] in H
    end.
Qed.

Section One.
Variables (v0 : vm) (m : mstate) (G : list (Z * pool)) (L F : ledger).
Hypothesis He : env_ok e.
Hypothesis Hcp : 0 <= e_ncpus e.
Hypothesis HM : minv v0 m G L F.
Let W := {| w_vm := m_vm m; w_pools := G |}.
Let HW : winv e true v0 W L F := mi_w _ _ _ _ _ _ HM.
Definition plain (v : vm) : Prop := tame v /\ forall a, mapped v0 (page a) = true -> dontfork v (page a) = false /\ wipefork v (page a) = false.

Lemma plain_frame : forall v', tame v' -> vframe e (fun a => mapped v0 (page a) = true) (m_vm m) v' -> plain (m_vm m) -> plain v'.
Proof.
  intros v' HT Hfr [_ HP]. split; [exact HT|]. intros a Ha. rewrite (fr_dontfork _ _ _ _ Hfr), (fr_wipefork _ _ _ _ Hfr) by exact Ha. exact (HP a Ha).
Qed.
Lemma plain_store : forall ps, plain (m_vm m) -> plain (store e (m_vm m) ps).
Proof.
  intros ps [H1 H2]. split; [eapply calm_tame; [apply calm_store|exact H1]|]. intros a Ha. rewrite store_dontfork, store_wipefork. exact (H2 a Ha).
Qed.
(** A pool that no call has the mutex of is as the invariant has it. *)
Lemma found_idle : forall id P, m_lock m id = None -> lookup id (m_pools m) = Some P -> lookup id G = Some P.
Proof.
  intros id P Hk Hl. rewrite (mi_pools _ _ _ _ _ _ HM), lookup_acts in Hl. destruct (lookup id G) as [Q|]; [|discriminate Hl].
  cbn [option_map] in Hl. unfold MicroInv.actual in Hl. rewrite Hk in Hl. exact Hl.
Qed.
Lemma found_fresh : forall t id an c P, m_task m t = TMFresh id an c -> lookup id (m_pools m) = Some P -> lookup id G = Some P.
Proof.
  intros t id an c P Et Hl. rewrite (mi_pools _ _ _ _ _ _ HM), lookup_acts in Hl. destruct (lookup id G) as [Q|]; [|discriminate Hl].
  cbn [option_map] in Hl. rewrite (actual_locked e v0 m G L F HM t id Q) in Hl by (rewrite Et; reflexivity). rewrite Et in Hl. exact Hl.
Qed.

Lemma plain_step : forall a m' x, permitted e v0 m a -> mstep e a m = Some (Ok (m', x)) -> plain (m_vm m) -> plain (m_vm m').
Proof.
  intros a m' x Hp Hs HP. pose proof (wi_wf _ _ _ _ _ _ HW) as Hwf. destruct a as [t c|t k|o|v']; cbn [mstep] in Hs.
  - destruct (m_task m t); try (destruct c; discriminate Hs). destruct c as [i an c|ptr s].
    + injection Hs as <- <-. exact HP.
    + destruct (find_owner _ _) as [[[i Q] r]|]; [|discriminate Hs]. injection Hs as <- <-. exact HP.
  - destruct (advance_vm t k m m' x Hs) as [->|[(ps & ->)|(id & an & c & P & found & P' & Et & Hl & E)]]; [exact HP|now apply plain_store|].
    apply (found_fresh t id an c P Et) in Hl. pose proof (wi_pools _ _ _ _ _ _ HW _ _ (lookup_in _ _ _ Hl)) as HI.
    apply plain_frame; [exact (malloc_tame e P an _ _ _ _ (pi_geom _ _ _ _ _ HI) Hwf (proj1 HP) E)| |exact HP].
    assert (Hok : allowed e true v0 W L (OMalloc id an)) by (exists P; exact Hl).
    assert (Hrun : exists y w', run1 e (OMalloc id an) W = Ok (w', y) /\ w_vm w' = m_vm m').
    { cbn [run1 W w_pools w_vm]. rewrite Hl, E. cbn [bind]. destruct found as [[[r off] b]|]; eexists _, _; split; reflexivity. }
    destruct Hrun as (y & w' & Hrun & <-). exact (own_frame_w e true v0 W L F He Hcp HW (OMalloc id an) w' y Hok Hrun eq_refl).
  - destruct Hp as [Hok Hp]. destruct o as [id named len at_ an|id an|id item c|ptr st|ps|id an]; try discriminate Hs; cbn [run1 mworld w_vm w_pools] in Hs.
    + assert (Hok' : allowed e true v0 W L (OCreate id named len at_ an)).
      { destruct Hok as (H1 & H2). split; [|exact H2]. cbn [mworld w_pools] in H1. rewrite (mi_pools _ _ _ _ _ _ HM), lookup_acts in H1.
        cbn [W w_pools]. destruct (lookup id G); [discriminate H1|reflexivity]. }
      destruct (mempool_create e named len at_ an (m_vm m)) as [[mo v1]| |] eqn:E; cbn [bind] in Hs; try discriminate Hs.
      assert (Ev : m_vm m' = v1) by (destruct mo; cbn [bind] in Hs; injection Hs as <- _; reflexivity). rewrite Ev. clear Hs Ev.
      destruct Hok as (_ & Hlen & Hat & Hfit).
      apply plain_frame; [exact (create_tame e named len at_ an _ mo v1 Hlen Hat Hfit He Hcp Hwf (proj1 HP) E)| |exact HP].
      assert (Hrun : exists y w', run1 e (OCreate id named len at_ an) W = Ok (w', y) /\ w_vm w' = v1).
      { cbn [run1 W w_pools w_vm]. rewrite E. cbn [bind]. destruct mo; eexists _, _; split; reflexivity. }
      destruct Hrun as (y & w' & Hrun & <-). exact (own_frame_w e true v0 W L F He Hcp HW _ w' y Hok' Hrun eq_refl).
    + destruct (forallb _ ps); [|discriminate Hs]. cbn [bind] in Hs. injection Hs as <- <-. cbn [m_vm w_vm]. now apply plain_store.
    + destruct Hok as (P & Hl). cbn [mworld w_pools] in Hl. rewrite Hl in Hs.
      assert (Hk : m_lock m id = None).
      { destruct (m_lock m id) as [t|] eqn:Ek; [|reflexivity]. apply (mi_lock _ _ _ _ _ _ HM), locks_pool in Ek. destruct (Hp t Ek). }
      pose proof (found_idle id P Hk Hl) as Hl'.
      destruct (mempool_destroy e P an (m_vm m)) as [[[ret Po] v1]| |] eqn:E; cbn [bind] in Hs; try discriminate Hs.
      assert (Ev : m_vm m' = v1) by (injection Hs as <- _; reflexivity). rewrite Ev. clear Hs Ev.
      apply plain_frame; [exact (calm_tame _ _ (calm_destroy e _ _ _ _ _ _ E) (proj1 HP))| |exact HP].
      assert (Hok' : allowed e true v0 W L (ODestroy id an)) by (exists P; exact Hl').
      assert (Hrun : exists y w', run1 e (ODestroy id an) W = Ok (w', y) /\ w_vm w' = v1).
      { cbn [run1 W w_pools w_vm]. rewrite Hl', E. cbn [bind]. eexists _, _; split; reflexivity. }
      destruct Hrun as (y & w' & Hrun & <-). exact (own_frame_w e true v0 W L F He Hcp HW _ w' y Hok' Hrun eq_refl).
  - injection Hs as <- <-. cbn [set_vm m_vm]. destruct Hp as [_ Hsm Hlk]. cbn [mworld w_vm] in *. destruct HP as [H1 H2]. split.
    + intros p q Hl Hd. destruct (Hlk p q Hl) as (Hl' & E1 & E2 & E3). rewrite E1 in Hd. rewrite E2, E3. exact (H1 p q Hl' Hd).
    + intros b Hb. pose proof (Hsm b (or_introl Hb)) as K. rewrite (sa_dontfork _ _ _ _ K), (sa_wipefork _ _ _ _ K). exact (H2 b Hb).
Qed.
End One.

Lemma always_plain : forall v0 m, ordinary v0 -> mprogram e v0 m -> plain v0 (m_vm m).
Proof.
  intros v0 m H0 (H1 & H2 & H3). induction H3 as [|m a m' x Hr IH Hp Hs|m t lost Hr IH Hf].
  - split; [|intros a _; apply H0]. intros p q Hl. cbn in Hl. destruct (H0 p) as [K _]. rewrite K in Hl. discriminate Hl.
  - assert (HP : mprogram e v0 m) by (split; auto). destruct (pr_inv e v0 m HP) as (G & L & F & HM).
    exact (plain_step v0 m G L F (pr_env e v0 m HP) (pr_cp e v0 m HP) HM a m' x Hp Hs IH).
  - cbn [mchild m_vm child w_vm usable]. destruct IH as [I1 I2]. split; [now apply tame_fork|exact I2].
Qed.
Lemma plain_is : forall v0 m, ordinary v0 -> mprogram e v0 m -> plain_fork e v0 (mworld m).
Proof. intros v0 m H0 HP. destruct (always_plain v0 m H0 HP) as [H1 H2]. split; [exact H2|exact H1]. Qed.

(** The items in the hands of calls: finitely many. *)
Lemma lost_exists : forall v0 m, mprogram e v0 m ->
  exists lost, NoDup lost /\ forall i, In i lost <-> exists t', owns (m_task m t') = Some i.
Proof.
  intros v0 m HP. destruct (pr_inv e v0 m HP) as (G & L & F & HM).
  assert (dec : forall x y : Z * Z, {x = y} + {x <> y}) by (decide equality; apply Z.eq_dec).
  exists (nodup dec (filter (fun i => if in_dec dec i (m_held m) then false else true) L)). split; [apply NoDup_nodup|].
  intros i. rewrite nodup_In, filter_In, (mi_live _ _ _ _ _ _ HM). split.
  - intros [[Hh|Ho] K]; [|exact Ho]. destruct (in_dec dec i (m_held m)); [discriminate K|contradiction].
  - intros (t & Ho). split; [right; eauto|]. destruct (in_dec dec i (m_held m)) as [K|K]; [|reflexivity].
    destruct (mi_excl _ _ _ _ _ _ HM _ _ Ho) as [N _]. contradiction.
Qed.
End MTame.
