(** C65 in terms of the programs' view. *)
From Coq Require Import ZArith Bool List Lia Znumtheory Permutation.
From Verif Require Import UtilsModel UtilsLemmas RseqIR MemLemmas PoolVM PoolVMLemmas PoolModel PoolInv PoolItem PoolMap PoolRange PoolBitmap PoolOps PoolMalloc PoolFree PoolDestroy PoolWorld PoolCreate PoolHist PoolProps MicroModel MicroSpec MicroInv MicroWorld MicroProofs MicroSteps MicroOps MicroFork MicroProps.
Import ListNotations.
Local Open Scope Z_scope.

Section MF.
Variable e : env.
Notation page := (PoolVM.page e).
Notation geom := (geom e).
Notation rinv := (rinv e).
Notation view := (view e).
Notation minv := (minv e).

Section One.
Variables (v0 : vm) (m : mstate).
Hypothesis HP : mprogram e v0 m.

Lemma pr_env : env_ok e.
Proof. destruct HP as ((H & _) & _). exact H. Qed.
Lemma pr_cp : 0 <= e_ncpus e.
Proof. destruct HP as ((_ & H) & _). exact H. Qed.
Lemma pr_inv : exists G L F, minv v0 m G L F.
Proof. destruct HP as (_ & Hs & Hr). apply (mrun_inv e pr_env pr_cp); auto. now apply space_wf. Qed.
Lemma pr_step : forall a m' x, permitted e v0 m a -> mstep e a m = Some (Ok (m', x)) -> mprogram e v0 m'.
Proof. intros a m' x Hp Hs. destruct HP as (H1 & H2 & H3). split; auto. split; auto. eapply mrun_step; eauto. Qed.

Section Inv.
Variables (G : list (Z * pool)) (L F : ledger).
Hypothesis HM : minv v0 m G L F.
Let W := {| w_vm := m_vm m; w_pools := G |}.
Let HW : winv e true v0 W L F := mi_w _ _ _ _ _ _ HM.

Lemma same_item_byte : forall P P' a x, same P P' -> (item_byte P' a x <-> item_byte P a x).
Proof.
  intros P P' a x HS. unfold item_byte, PoolWorld.percpu_ptr. rewrite (s_attr P P' HS), (s_len P P' HS). reflexivity.
Qed.
Lemma same_contains : forall P P' c v a, same P P' -> (contains e P' c v a <-> contains e P c v a).
Proof.
  intros P P' c v a HS. unfold contains, PoolWorld.percpu_ptr. rewrite (s_attr P P' HS), (s_len P P' HS). reflexivity.
Qed.
Lemma held_live : forall i, In i (m_held m) -> In i L.
Proof. intros i H. apply (mi_live _ _ _ _ _ _ HM). auto. Qed.

Lemma wbyte_place : forall id P a x, In (id, P) G -> In (id, a) (L ++ F) -> item_byte P a x ->
  exists r, In r (range_list P) /\ rinv P (m_vm m) r /\ 0 <= a - base r /\ a - base r + item_len P <= strd P /\ (item_len P | a - base r) /\
    inF P r (a - base r) (item_len P) x /\ base r <= x < base r + strd P * ncpus P /\ region r x.
Proof.
  intros id P a x Hin Ha Hx. pose proof (wi_pools _ _ _ _ _ _ HW _ _ Hin) as HI. pose proof (pi_geom _ _ _ _ _ HI) as HG.
  destruct (item_place e v0 W L F HW id P a Hin Ha) as (r & Hr & HR & H1 & H2 & H3). cbn [w_vm] in HR.
  exists r. do 5 (split; [auto; fail|]).
  assert (HinF : inF P r (a - base r) (item_len P) x).
  { eapply item_byte_inF; eauto. now replace (base r + (a - base r)) with a by ring. }
  split; auto. split; [|eapply inF_region; eauto].
  destruct Hx as (cpu & k & Hc & Hk & ->). unfold PoolWorld.percpu_ptr. pose proof (strd_pos _ _ HG). nia.
Qed.

Lemma wbytes_disjoint : forall id P a id' P' a' x, In (id, P) G -> In (id', P') G ->
  In (id, a) (L ++ F) -> In (id', a') (L ++ F) -> item_byte P a x -> item_byte P' a' x -> (id, a) = (id', a').
Proof.
  intros id P a id' P' a' x Hin Hin' Ha Ha' Hx Hx'.
  destruct (wbyte_place _ _ _ _ Hin Ha Hx) as (r & Hr & HR & H1 & H2 & H3 & H4 & H5 & H6).
  destruct (wbyte_place _ _ _ _ Hin' Ha' Hx') as (r' & Hr' & HR' & H1' & H2' & H3' & H4' & H5' & H6').
  assert (id = id').
  { apply (wi_apart _ _ _ _ _ _ HW id P id' P' x); auto; [exists r|exists r']; auto. }
  subst id'. pose proof (unique_pool e true v0 W L F HW _ _ _ Hin Hin'). subst P'. f_equal.
  pose proof (wi_pools _ _ _ _ _ _ HW _ _ Hin) as HI. cbn [w_vm W] in HI.
  eapply (slots_disjoint e P (m_vm m) a a' r r' x); eauto; apply HI.
Qed.

Lemma w_aligned : forall id P a, In (id, P) G -> In (id, a) L -> (item_len P | a).
Proof.
  intros id P a Hin Ha. pose proof (geoms e v0 m G L F HM id P Hin) as HG.
  destruct (item_place e v0 W L F HW id P a Hin) as (r & Hr & HR & H1 & H2 & H3); [apply in_or_app; auto|].
  replace a with (base r + (a - base r)) by ring. apply Z.divide_add_r; auto.
  eapply Z.divide_trans; [apply (item_strd _ _ HG)|apply (r_al _ _ _ _ HR)].
Qed.
Lemma w_mapped : forall id P a x, In (id, P) G -> In (id, a) L -> item_byte P a x -> mapped (m_vm m) (page x) = true.
Proof.
  intros id P a x Hin Ha Hx.
  destruct (wbyte_place id P a x Hin) as (r & Hr & HR & H1 & H2 & H3 & H4 & H5 & H6); auto; [apply in_or_app; auto|].
  apply (r_map _ _ _ _ HR). auto.
Qed.
Lemma w_apart_v0 : forall id P a x, In (id, P) G -> In (id, a) L -> item_byte P a x -> mapped v0 (page x) = false.
Proof.
  intros id P a x Hin Ha Hx. destruct (mapped v0 (page x)) eqn:E; auto.
  destruct (wbyte_place id P a x Hin) as (r & Hr & HR & H1 & H2 & H3 & H4 & H5 & H6); auto; [apply in_or_app; auto|].
  destruct (wi_own _ _ _ _ _ _ HW _ E) as [_ K]. exfalso. apply (K _ _ Hin). exists r. auto.
Qed.

Lemma w_ibytes : forall P a x, geom P -> item_byte P a x -> ibytes P a x.
Proof.
  intros P a x HG (cpu & k & Hc & Hk & ->). exists cpu, k. pose proof (nd_bounds P). pose proof (na_bounds P).
  split; [lia|]. split; auto.
Qed.

Lemma actual_in : forall id P, In (id, P) (m_pools m) -> exists P0, In (id, P0) G /\ same P0 P.
Proof.
  intros id P H. rewrite (mi_pools _ _ _ _ _ _ HM) in H. unfold MicroInv.acts in H. apply in_map_iff in H. destruct H as ([i P0] & E & HP0).
  cbn in E. injection E as -> <-. exists P0. split; auto. apply actual_same.
Qed.

Lemma write_frame : forall id P a x ps, In (id, P) G -> In (id, a) L -> item_byte P a x ->
  (forall z, In z (map fst ps) -> good_write e v0 (mworld m) (m_held m) z) -> ~ In x (map fst ps) ->
  view (store e (m_vm m) ps) x = view (m_vm m) x.
Proof.
  intros id P a x ps Hin Ha Hx Hgood Hnx. assert (Ha' : In (id, a) (L ++ F)) by (apply in_or_app; auto).
  destruct (wbyte_place _ _ _ _ Hin Ha' Hx) as (r & Hr & HR & H1 & H2 & H3 & H4 & H5 & H6).
  pose proof (wi_pools _ _ _ _ _ _ HW _ _ Hin) as HI. pose proof (pi_geom _ _ _ _ _ HI) as HG.
  apply view_store_other; [apply (g_psz _ _ HG)|apply (wi_wf _ _ _ _ _ _ HW)|].
  intros z Hz Hal. assert (Hrz : region r z) by (eapply alias_region; eauto).
  destruct (Hgood z Hz) as [Hown|(id' & P' & a' & Hin' & Hl' & Hb')].
  - destruct (wi_own _ _ _ _ _ _ HW _ Hown) as [_ K]. apply (K _ _ Hin). exists r. auto.
  - cbn [mworld w_pools] in Hin'. destruct (actual_in id' P' Hin') as (Q & HQ & HS). apply (same_item_byte Q P' a' z HS) in Hb'.
    assert (Hl2 : In (id', a') (L ++ F)) by (apply in_or_app; left; now apply held_live).
    destruct (wbyte_place _ _ _ _ HQ Hl2 Hb') as (r' & Hr' & HR' & K1 & K2 & K3 & K4 & K5 & K6).
    assert (id' = id).
    { apply (wi_apart _ _ _ _ _ _ HW id' Q id P z); auto; [exists r'|exists r]; auto. }
    subst id'. pose proof (unique_pool e true v0 W L F HW _ _ _ Hin HQ). subst Q.
    assert (r' = r).
    { destruct (ordpairs_in _ _ _ (pi_apart _ _ _ _ _ HI) Hr' Hr) as [|Hap]; auto. exfalso.
      exact (apart_regions r' r z Hap K6 Hrz). }
    subst r'. assert (x = z) by (eapply alias_cpu; eauto). subst z. auto.
Qed.
End Inv.

(** ** The items the program holds *)
Lemma f_held_pool : forall id a, In (id, a) (m_held m) -> exists P, lookup id (m_pools m) = Some P.
Proof.
  intros id a H. destruct pr_inv as (G & L & F & HM). pose proof (mi_w _ _ _ _ _ _ HM) as HW.
  destruct (wi_known _ _ _ _ _ _ HW id a) as [P HPi]; [apply in_or_app; left; now apply (held_live G L F HM)|].
  cbn [w_pools] in HPi. rewrite (look e v0 m G L F HM id P HPi). eauto.
Qed.
Lemma f_held_item : forall id a P, In (id, a) (m_held m) -> lookup id (m_pools m) = Some P ->
  (item_len P | a) /\ forall x, item_byte P a x -> mapped (m_vm m) (page x) = true /\ mapped v0 (page x) = false.
Proof.
  intros id a P H Hl. destruct pr_inv as (G & L & F & HM). destruct (back e v0 m G L F HM id P Hl) as (P0 & Hin & _ & HS).
  pose proof (held_live G L F HM _ H) as HL. split.
  - rewrite (s_len P0 P HS). eapply w_aligned; eauto.
  - intros x Hx. apply (same_item_byte P0 P a x HS) in Hx. split; [eapply w_mapped; eauto|eapply w_apart_v0; eauto].
Qed.
Lemma f_disjoint : forall id a P id' a' P' x, In (id, a) (m_held m) -> In (id', a') (m_held m) ->
  lookup id (m_pools m) = Some P -> lookup id' (m_pools m) = Some P' -> item_byte P a x -> item_byte P' a' x -> (id, a) = (id', a').
Proof.
  intros id a P id' a' P' x H H' Hl Hl' Hx Hx'. destruct pr_inv as (G & L & F & HM).
  destruct (back e v0 m G L F HM id P Hl) as (P0 & Hin & _ & HS). destruct (back e v0 m G L F HM id' P' Hl') as (P0' & Hin' & _ & HS').
  apply (same_item_byte P0 P a x HS) in Hx. apply (same_item_byte P0' P' a' x HS') in Hx'.
  eapply (wbytes_disjoint G L F HM); eauto; apply in_or_app; left; now apply (held_live G L F HM).
Qed.

(** ** One step *)
Lemma f_no_fault : forall a, permitted e v0 m a ->
  mstep e a m <> Some Undef \/
  exists id named len at_ an, a = AOp (OCreate id named len at_ an) /\ 2 ^ (word_bits (e_wide e) - 1) < len.
Proof.
  intros a Hp. destruct pr_inv as (G & L & F & HM). destruct a as [t c|t k|o|v']; [| | |left; discriminate].
  - left. cbn [mstep]. destruct (m_task m t) eqn:Et; try (destruct c; discriminate). destruct c as [id an c|ptr s]; [discriminate|].
    destruct Hp as (id & P & Hl & Hh & ->). destruct (call_free e v0 m G L F HM t id ptr P Et Hl Hh) as (Q & r & Hf & _).
    rewrite Hf. discriminate.
  - left. cbn [mstep]. intros Hs. destruct (minv_advance e v0 m G L F HM t k _ Hs) as [(m1 & x1 & G1 & L1 & F1 & E & _)|[E _]]; discriminate E.
  - destruct (mstep e (AOp o) m) as [[y| |]|] eqn:Es; try (left; discriminate). right.
    destruct (minv_op e pr_env pr_cp v0 m G L F HM o _ Hp Es) as [(m1 & x1 & G1 & L1 & F1 & E & _)|[E|[_ (id & named & len & at_ & an & -> & Hl)]]]; try discriminate E.
    exists id, named, len, at_, an. auto.
Qed.
Lemma f_no_abort : forall a, permitted e v0 m a -> mstep e a m = Some Abort ->
  (exists o, a = AOp o) \/
  exists t k id an c, a = AStep t k /\ m_task m t = TMFresh id an c /\ (an_trim1 an = false \/ an_trim2 an = false).
Proof.
  intros a Hp Hs. destruct pr_inv as (G & L & F & HM). destruct a as [t c|t k|o|v']; [| |eauto|discriminate Hs].
  - exfalso. cbn [mstep] in Hs. destruct (m_task m t) eqn:Et; try (destruct c; discriminate Hs). destruct c as [id an c|ptr s]; [discriminate Hs|].
    destruct Hp as (id & P & Hl & Hh & ->). destruct (call_free e v0 m G L F HM t id ptr P Et Hl Hh) as (Q & r & Hf & _).
    rewrite Hf in Hs. discriminate Hs.
  - right. cbn [mstep] in Hs. destruct (minv_advance e v0 m G L F HM t k _ Hs) as [(m1 & x1 & G1 & L1 & F1 & E & _)|[_ (id & an & c & H1 & H2)]]; [discriminate E|].
    exists t, k, id, an, c. auto.
Qed.

Lemma f_frame : forall a m' x id b P y, permitted e v0 m a -> mstep e a m = Some (Ok (m', x)) ->
  In (id, b) (m_held m) -> lookup id (m_pools m) = Some P -> item_byte P b y ->
  match a with AOp (OWrite ps) => ~ In y (map fst ps) | AOp (ODestroy id' _) => id' <> id | _ => True end ->
  byte (view (m_vm m')) y = byte (view (m_vm m)) y.
Proof.
  intros a m' x id b P y Hp Hs Hh Hl Hy Hoth. unfold byte. f_equal. destruct pr_inv as (G & L & F & HM).
  destruct (back e v0 m G L F HM id P Hl) as (P0 & Hin & _ & HS). apply (same_item_byte P0 P b y HS) in Hy.
  pose proof (held_live G L F HM _ Hh) as HaL. pose proof (geoms e v0 m G L F HM id P0 Hin) as HG. pose proof (w_ibytes P0 b y HG Hy) as Hib.
  destruct a as [t c|t k|o|v'].
  4:{ injection Hs as <- <-. cbn [set_vm m_vm]. pose proof (rest_here e v0 m G L F HM v' Hp) as Hr.
      apply (sa_view _ _ _ _ (ra_same _ _ _ _ Hr y (pool_in_use e v0 {| w_vm := m_vm m; w_pools := G |} id P0 y Hin
        (item_pregion e v0 {| w_vm := m_vm m; w_pools := G |} L F (mi_w _ _ _ _ _ _ HM) id P0 b y Hin (in_or_app _ _ _ (or_introl HaL)) Hib)))). }
  - cbn [mstep] in Hs. destruct (m_task m t) eqn:Et; try (destruct c; discriminate Hs). destruct c as [i an c|ptr s].
    + injection Hs as <- <-. reflexivity.
    + destruct (find_owner _ _) as [[[i Q] r]|]; [|discriminate Hs]. injection Hs as <- <-. reflexivity.
  - cbn [mstep] in Hs. destruct (minv_advance e v0 m G L F HM t k _ Hs) as [(m1 & x1 & G1 & L1 & F1 & E & _ & Hk & _)|[E _]]; [|discriminate E].
    injection E as <- <-. apply (Hk id b P0 y HaL); auto. intros Ho. destruct (mi_excl _ _ _ _ _ _ HM _ _ Ho) as [K _]. exact (K Hh).
  - destruct (minv_op e pr_env pr_cp v0 m G L F HM o _ Hp Hs) as [(m1 & x1 & G1 & L1 & F1 & E & _ & _ & Hk)|[E|[E _]]]; try discriminate E.
    injection E as <- <-. specialize (Hk id b P0 y Hh Hin Hib).
    destruct o as [i named len at_ an|i an|i item c|ptr s|ps|i an]; cbn [mstep] in Hs; try discriminate Hs; auto.
    clear Hk. cbn [run1 mworld w_vm] in Hs. destruct (forallb _ ps); [|discriminate Hs]. cbn in Hs. injection Hs as <- <-. cbn [m_vm].
    eapply (write_frame G L F HM); eauto. intros z Hz. destruct Hp as [Hp _]. destruct (Hp z Hz) as [K|[K _]]; [exact K|discriminate K].
Qed.

(** ** The mutex *)
Lemma f_mutex : forall t t' id, inside (m_task m t) id -> inside (m_task m t') id -> t = t'.
Proof.
  intros t t' id H H'. destruct pr_inv as (G & L & F & HM). apply inside_locks in H. apply inside_locks in H'.
  apply (mi_lock _ _ _ _ _ _ HM) in H. apply (mi_lock _ _ _ _ _ _ HM) in H'. congruence.
Qed.
Lemma f_progress : forall t k, m_task m t <> TIdle ->
  (exists r, mstep e (AStep t k) m = Some r) \/
  exists id t', waits (m_task m t) id /\ inside (m_task m t') id /\ forall k', exists r, mstep e (AStep t' k') m = Some r.
Proof.
  intros t k Hne. destruct pr_inv as (G & L & F & HM). cbn [mstep].
  destruct (locks (m_task m t)) as [id|] eqn:El; [left; eapply locks_runs; eauto|].
  destruct (m_task m t) as [|i c|i an c|i c n|i c n nxt|i c n nxt todo|i an c|i c found|i item c ph|i ptr s|i ptr s|i ptr hd ph|i ptr hd|i ptr|i] eqn:Et;
    try discriminate El; [congruence| |].
  - destruct (m_lock m i) as [t'|] eqn:Ek.
    + right. exists i, t'. split; [reflexivity|]. apply (mi_lock _ _ _ _ _ _ HM) in Ek. split; [now apply inside_locks|].
      intros k'. eapply locks_runs; eauto.
    + left. unfold advance. rewrite Et. cbn [pool_of]. destruct (lookup i (m_pools m)); [|eauto]. cbn [step_in]. rewrite Ek. eauto.
  - left. eapply fill_runs; eauto.
Qed.

(** ** Nobody in a call *)
Lemma f_quiescent : (forall t, m_task m t = TIdle) -> NoDup (m_held m) -> forall id P, lookup id (m_pools m) = Some P ->
  exists fr, linked e P (m_vm m) (free_list_head P) fr /\ NoDup (fr ++ items id (m_held m)) /\
    forall a, handed_out P a <-> In a fr \/ In (id, a) (m_held m).
Proof.
  intros Hi Hndh id P Hl. destruct pr_inv as (G & L & F & HM). pose proof (mi_w _ _ _ _ _ _ HM) as HW.
  destruct (back e v0 m G L F HM id P Hl) as (P0 & Hin & Ea & HS).
  assert (EP : P = P0).
  { rewrite Ea. unfold MicroInv.actual. destruct (m_lock m id) as [t|] eqn:Ek; auto. apply (mi_lock _ _ _ _ _ _ HM) in Ek.
    rewrite Hi in Ek. discriminate Ek. }
  subst P0. clear Ea HS. pose proof (wi_pools _ _ _ _ _ _ HW _ _ Hin) as HI. cbn [w_vm] in HI.
  assert (HLh : forall a, In a (items id L) <-> In (id, a) (m_held m)).
  { intros a. rewrite in_items. rewrite (mi_live _ _ _ _ _ _ HM). split; auto. intros [H|(t & H)]; auto. rewrite Hi in H. discriminate H. }
  exists (items id F). split; [|split].
  - pose proof (pi_chain _ _ _ _ _ HI) as Hc. revert Hc.
    assert (Hsub : forall a, In a (items id F) -> In (id, a) F) by (intros a; apply in_items).
    revert Hsub. generalize (free_list_head P) as h. generalize (items id F) as l. induction l as [|a l IH]; intros h Hsub Hc; [exact Hc|].
    destruct Hc as [Eh Hc].
    destruct (node_of e v0 _ L F HW id P a Hin) as (E1 & _ & E3 & _); [apply in_or_app; right; apply Hsub; now left|].
    cbn [linked]. split; [now rewrite Eh|]. split; [now rewrite Eh|]. apply IH; auto. intros b Hb. apply Hsub. now right.
  - pose proof (pi_nodup _ _ _ _ _ HI) as Hnd. revert Hnd HLh. clear -Hndh. generalize (items id F) as l. generalize (items id L) as q.
    intros q l Hnd Hq. induction l as [|a l IH].
    + cbn. clear -Hndh. induction (m_held m) as [|[i b] h IH]; [constructor|]. inversion Hndh as [|? ? Hn Hr]; subst.
      rewrite items_cons. cbn [fst snd]. destruct (i =? id) eqn:E; auto. apply Z.eqb_eq in E. subst i. constructor; auto.
      intros K. apply Hn. now apply in_items.
    + cbn in Hnd |- *. inversion Hnd as [|? ? Hn Hr]; subst. constructor; auto. intros K. apply Hn. apply in_app_iff in K. apply in_app_iff.
      destruct K as [K|K]; auto. right. apply Hq. now apply in_items.
  - intros a. pose proof (pi_slots _ _ _ _ _ HI a) as Hs. unfold slot in Hs. unfold handed_out. rewrite <- Hs, in_app_iff, HLh. reflexivity.
Qed.
End One.

(** ** No item is held twice *)
Lemma advance_held : forall v0 m G L F t k m' x, env_ok e -> minv v0 m G L F -> advance e t k m = Some (Ok (m', x)) ->
  m_held m' = m_held m \/ exists id a, m_held m' = (id, a) :: m_held m /\ owns (m_task m t) = Some (id, a).
Proof.
  intros v0 m G L F t k m' x He HM Hs. unfold advance in Hs. destruct (pool_of (m_task m t)) as [id|] eqn:Hpo; [|discriminate Hs].
  destruct (lookup id (m_pools m)) as [P|]; [|discriminate Hs].
  unfold step_in in Hs.
  destruct (m_task m t) as [|i c|i an c|i c n|i c n nxt|i c n nxt todo|i an c|i c found|i item c ph|i ptr s|i ptr s|i ptr hd ph|i ptr hd|i ptr|i];
    cbn [pool_of] in Hpo; try discriminate Hpo; injection Hpo as ->;
    repeat match type of Hs with
      | Some (Ok (_, _)) = Some (Ok (_, _)) => injection Hs as <- <-; cbn; first [left; reflexivity | right; eexists _, _; split; reflexivity]
      | Some Undef = _ => discriminate Hs
      | Some Abort = _ => discriminate Hs
      | None = _ => discriminate Hs
      | context [bind ?y _] => destruct y; cbn [bind] in Hs
      | context [match ?y with _ => _ end] => destruct y; cbn [bind] in Hs
      end.
Qed.
Lemma f_held_once : forall v0 m, mprogram e v0 m -> NoDup (m_held m).
Proof.
  intros v0 m (H1 & H2 & H3). induction H3 as [|m a m' x Hr IH Hp Hs|m t lost Hr IH Hf]; [constructor| |].
  2:{ assert (HP : mprogram e v0 m) by (split; auto). destruct (pr_inv v0 m HP) as (G & L & F & HM). exact (fork_held e v0 m G L F t lost HM Hf IH). }
  assert (HP : mprogram e v0 m) by (split; auto). destruct (pr_inv v0 m HP) as (G & L & F & HM).
  destruct a as [t c|t k|o|v']; cbn [mstep] in Hs; [| | |injection Hs as <- <-; exact IH].
  - destruct (m_task m t); try (destruct c; discriminate Hs). destruct c as [i an c|ptr s].
    + injection Hs as <- <-. exact IH.
    + destruct (find_owner _ _) as [[[i Q] r]|]; [|discriminate Hs]. injection Hs as <- <-. cbn. now apply NoDup_filter.
  - destruct (advance_held v0 m G L F t k m' x (pr_env v0 m HP) HM Hs) as [->|(id & b & -> & Ho)]; auto.
    constructor; auto. apply (mi_excl _ _ _ _ _ _ HM _ _ Ho).
  - destruct o; try discriminate Hs;
      match type of Hs with context [bind ?y _] => destruct y as [[w y']| |] eqn:Er; cbn [bind] in Hs; try discriminate Hs; injection Hs as <- <-; cbn [m_held live_after] end; auto.
    now apply NoDup_filter.
Qed.

(** ** Whole calls *)
Lemma during_run : forall v0 t n m m', during e v0 t n m m' -> mprogram e v0 m -> mprogram e v0 m'.
Proof. intros v0 t n m m' H HP. induction H as [|n m m1 a m2 x Hd IH Hp Hs _]; auto. exact (pr_step v0 m1 (IH HP) a m2 x Hp Hs). Qed.

Lemma asks_owner : forall v0 m t id an c m1 y, mprogram e v0 m -> permitted e v0 m (ACall t (CMalloc id an c)) ->
  mstep e (ACall t (CMalloc id an c)) m = Some (Ok (m1, y)) ->
  y = None /\ m_task m1 t = TWant id (CMalloc id an c) /\ m_held m1 = m_held m /\ m_pools m1 = m_pools m /\ mprogram e v0 m1.
Proof.
  intros v0 m t id an c m1 y HP Hp Hs. pose proof (pr_step v0 m HP _ _ _ Hp Hs) as HP1. cbn [mstep] in Hs.
  destruct (m_task m t); try discriminate Hs. injection Hs as <- <-. cbn. rewrite upd_same. repeat (split; [reflexivity|]). exact HP1.
Qed.

Lemma asks_return : forall t k m m' x id c, asks (m_task m t) id c -> advance e t k m = Some (Ok (m', Some x)) ->
  (x = OutNull /\ m_held m' = m_held m) \/ exists a, x = OutItem a.
Proof.
  intros t k m m' x id c Ha Hr. unfold advance in Hr.
  destruct (pool_of (m_task m t)) as [i0|]; [|discriminate Hr]. destruct (lookup i0 (m_pools m)); [|discriminate Hr]. unfold step_in in Hr.
  destruct (m_task m t); cbn [asks] in Ha; try contradiction;
  repeat match type of Hr with
    | Some (Ok (_, None)) = Some (Ok _) => discriminate Hr
    | Some (Ok (_, Some _)) = Some (Ok _) => injection Hr as <- <-; cbn; first [left; split; reflexivity | right; eexists; reflexivity]
    | Some Undef = _ => discriminate Hr
    | Some Abort = _ => discriminate Hr
    | None = _ => discriminate Hr
    | context [bind ?y _] => destruct y; cbn [bind] in Hr
    | context [match ?y with _ => _ end] => destruct y; cbn [bind] in Hr
    end.
Qed.

Lemma f_malloc : forall v0 m t id an c m1 y n m2 k m3 x, mprogram e v0 m -> permitted e v0 m (ACall t (CMalloc id an c)) ->
  mstep e (ACall t (CMalloc id an c)) m = Some (Ok (m1, y)) -> during e v0 t n m1 m2 ->
  mstep e (AStep t k) m2 = Some (Ok (m3, Some x)) ->
  m_task m3 t = TIdle /\
  ((x = OutNull /\ m_held m3 = m_held m2) \/
   exists a P, x = OutItem a /\ m_held m3 = (id, a) :: m_held m2 /\ lookup id (m_pools m3) = Some P /\ contains e P c (m_vm m3) a).
Proof.
  intros v0 m t id an c m1 y n m2 k m3 x HP Hp Hs Hd Hr. destruct (asks_owner v0 m t id an c m1 y HP Hp Hs) as (_ & Et & _ & Eps & HP1).
  destruct (pr_inv v0 m1 HP1) as (G & L & F & HM).
  assert (Hin : exists P, In (id, P) G).
  { cbn [permitted] in Hp. destruct Hp as (Q & Hl & _). rewrite <- Eps in Hl.
    destruct (back e v0 m1 G L F HM id Q Hl) as (P0 & Hin & _). eauto. }
  destruct Hin as (P & Hin).
  destruct (in_call e (pr_env _ _ HP) (pr_cp _ _ HP) v0 t n m1 m2 id P c G L F Hd HM Hin) as (G2 & L2 & F2 & P2 & HM2 & Hin2 & HS2 & Hpo2 & _ & Ha2).
  { rewrite Et. reflexivity. }
  specialize (Ha2 ltac:(rewrite Et; cbn; auto)).
  pose proof (during_run v0 t n m1 m2 Hd HP1) as HP2.
  pose proof (own_step e v0 m2 G2 L2 F2 t k m3 (Some x) id P2 HM2 Hpo2 Hin2 Hr) as Ho. cbv beta iota in Ho.
  assert (HP3 : mprogram e v0 m3) by (apply (pr_step v0 m2 HP2 (AStep t k) m3 (Some x)); [exact Logic.I|exact Hr]).
  assert (Hl3 : forall P3, lookup id (m_pools m3) = Some P3 -> same P2 P3).
  { intros P3 Hl. destruct (minv_step e (pr_env _ _ HP) (pr_cp _ _ HP) v0 m2 G2 L2 F2 (AStep t k) m3 (Some x) HM2 Logic.I Hr) as (G3 & L3 & F3 & HM3 & Hk).
    destruct (Hk id P2 Hin2) as (P3' & Hin3 & HS3); [intros an0 E; discriminate E|].
    rewrite (look e v0 m3 G3 L3 F3 HM3 id P3' Hin3) in Hl. injection Hl as <-. eapply same_trans; [exact HS3|apply actual_same]. }
  destruct (asks_return t k m2 m3 x id c Ha2 Hr) as [[-> Hh]|[a ->]].
  - split; [exact Ho|]. left. auto.
  - destruct Ho as (Ev & Eh & Et3 & Ho & Hc). split; [exact Et3|]. right. exists a.
    destruct (f_held_pool v0 m3 HP3 id a) as (P3 & Hl); [rewrite Eh; now left|]. exists P3. split; auto. split; auto. split; auto.
    rewrite Ev. apply (same_contains P2 P3 c (m_vm m2) a (Hl3 P3 Hl)). auto.
Qed.

(** How many steps a call takes. *)
Lemma f_steps : forall v0 m t n m2 id P, mprogram e v0 m -> waits (m_task m t) id -> lookup id (m_pools m) = Some P ->
  during e v0 t n m m2 -> Z.of_nat n < 7 + copies P * (3 * item_len P + 2).
Proof.
  intros v0 m t n m2 id P HP Hw Hl Hd. destruct (pr_inv v0 m HP) as (G & L & F & HM).
  destruct (back e v0 m G L F HM id P Hl) as (P0 & Hin & _ & HS).
  destruct (m_task m t) as [|i c|i an c|i c n0|i c n0 nxt|i c n0 nxt todo|i an c|i c found|i item c ph|i ptr s|i ptr s|i ptr hd ph|i ptr hd|i ptr|i] eqn:Et;
    try contradiction. cbn in Hw. subst i.
  destruct (in_call e (pr_env _ _ HP) (pr_cp _ _ HP) v0 t n m m2 id P0 Any G L F Hd HM Hin) as (G2 & L2 & F2 & P2 & HM2 & Hin2 & HS2 & Hpo2 & Hr & _).
  { now rewrite Et. }
  assert (Hne : m_task m2 t <> TIdle) by (intros E; rewrite E in Hpo2; discriminate Hpo2).
  pose proof (rank_pos e P0 (m_task m2 t) (geoms e v0 m G L F HM id P0 Hin) Hne) as Hpos.
  rewrite Et in Hr. cbn [rank] in Hr. unfold nchk, nfill in Hr.
  assert (En : copies P = nd P0) by (change (copies P) with (nd P); apply (s_nd P0 P HS)). rewrite En, (s_len P0 P HS). nia.
Qed.
End MF.
