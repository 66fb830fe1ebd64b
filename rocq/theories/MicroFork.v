(** The invariant of the interleaved pool calls in a child. *)
From Coq Require Import ZArith Bool List Lia.
From Verif Require Import UtilsModel RseqIR PoolVM PoolVMLemmas PoolModel PoolInv PoolWorld PoolHist MicroModel MicroInv MicroWorld MicroProofs.
Import ListNotations.
Local Open Scope Z_scope.

Section MFork.
Variable e : env.
Hypothesis He : env_ok e.
Hypothesis Hcp : 0 <= e_ncpus e.
Notation page := (PoolVM.page e).
Notation winv := (winv e).
Notation minv := (minv e).
Notation acts := (acts e).

(** A program may forget a pool. *)
Lemma items_kept : forall (f : Z -> bool) id l, f id = true -> items id (filter (fun i => f (fst i)) l) = items id l.
Proof.
  intros f id l Hf. unfold items. f_equal. induction l as [|[i a] l IH]; [reflexivity|]. cbn [filter fst].
  destruct (Z.eqb_spec i id) as [->|Hne].
  - rewrite Hf. cbn [filter fst]. rewrite Z.eqb_refl. f_equal. exact IH.
  - destruct (f i); [|exact IH]. cbn [filter fst]. apply Z.eqb_neq in Hne. rewrite Hne. exact IH.
Qed.
Lemma kept_ids : forall (f : Z -> bool) (l : list (Z * pool)), NoDup (map fst l) -> NoDup (map fst (filter (fun p => f (fst p)) l)).
Proof.
  intros f l. induction l as [|[i Q] l IH]; intros Hn; [constructor|]. cbn [map fst] in Hn. inversion Hn as [|? ? Hni Hn']; subst.
  cbn [filter fst]. destruct (f i); [|auto]. cbn [map fst]. constructor; [|auto]. intros K. apply Hni.
  apply in_map_iff in K. destruct K as ([i' Q'] & E & K). cbn in E. subst i'. apply filter_In in K. apply in_map_iff. exists (i, Q'). tauto.
Qed.
Lemma winv_drop : forall strict v0 w L F (f : Z -> bool), winv strict v0 w L F ->
  winv strict v0 {| w_vm := w_vm w; w_pools := filter (fun p => f (fst p)) (w_pools w) |}
    (filter (fun i => f (fst i)) L) (filter (fun i => f (fst i)) F).
Proof.
  intros strict v0 w L F f HW.
  assert (Hk : forall i Q, In (i, Q) (filter (fun p => f (fst p)) (w_pools w)) -> In (i, Q) (w_pools w) /\ f i = true).
  { intros i Q Hi. apply filter_In in Hi. exact Hi. }
  constructor; cbn [w_vm w_pools].
  - apply HW.
  - apply kept_ids. apply HW.
  - intros i Q Hi. destruct (Hk _ _ Hi) as [Hi' Hf]. rewrite !(items_kept f i _ Hf). exact (wi_pools _ _ _ _ _ _ HW _ _ Hi').
  - intros Hs i Q a Hi Hr Ha. destruct (Hk _ _ Hi) as [Hi' Hf]. rewrite (items_kept f i _ Hf) in Ha. exact (wi_poison _ _ _ _ _ _ HW Hs _ _ _ Hi' Hr Ha).
  - intros i Q i' Q' a Hi Hi'. apply (wi_apart _ _ _ _ _ _ HW); [apply (Hk _ _ Hi)|apply (Hk _ _ Hi')].
  - intros a Ha. destruct (wi_own _ _ _ _ _ _ HW _ Ha) as [Hm Hno]. split; [exact Hm|]. intros i Q Hi. apply (Hno i Q). apply (Hk _ _ Hi).
  - intros i a Hi. rewrite <- filter_app in Hi. apply filter_In in Hi. destruct Hi as [Hi Hf]. destruct (wi_known _ _ _ _ _ _ HW _ _ Hi) as (Q & HQ).
    exists Q. apply filter_In. auto.
Qed.

Lemma usable_pools : forall m G, m_pools m = acts (m_lock m) (m_task m) G ->
  w_pools (usable m) = filter (fun p => unlocked m (fst p)) G.
Proof.
  intros m G E. cbn [usable w_pools]. rewrite E. unfold MicroInv.acts. clear E. induction G as [|[i P] G IH]; [reflexivity|].
  cbn [map filter fst snd]. destruct (unlocked m i) eqn:Eu; [|exact IH]. f_equal; [|exact IH]. unfold MicroInv.actual.
  unfold unlocked in Eu. destruct (m_lock m i); [discriminate Eu|reflexivity].
Qed.
Lemma acts_idle : forall G, acts (fun _ => None) (fun _ => TIdle) G = G.
Proof. intros G. unfold MicroInv.acts. rewrite <- map_id. apply map_ext. intros [i P]. reflexivity. Qed.

Lemma minv_fork : forall v0 m G L F t lost, minv v0 m G L F -> forks e v0 m t lost ->
  exists G' L' F', minv v0 (mchild e m lost) G' L' F'.
Proof.
  intros v0 m G L F t lost HM (_ & Hn & Hlost & Hp).
  pose proof (winv_drop _ _ _ _ _ (unlocked m) (mi_w _ _ _ _ _ _ HM)) as HW. cbn [w_vm w_pools] in HW.
  rewrite <- (usable_pools m G (mi_pools _ _ _ _ _ _ HM)) in HW.
  change {| w_vm := m_vm m; w_pools := w_pools (usable m) |} with (usable m) in HW.
  set (L1 := filter (fun i => unlocked m (fst i)) L) in *. set (F1 := filter (fun i => unlocked m (fst i)) F) in *.
  assert (HW' : winv true v0 (child e (usable m)) (inherited (usable m) L1) (inherited (usable m) F1)).
  { apply op_fork; [exact HW|]. exact Hp. }
  exists (w_pools (child e (usable m))), (inherited (usable m) L1), (inherited (usable m) F1).
  constructor; cbn [mchild m_vm m_pools m_lock m_task m_held].
  - exact HW'.
  - symmetry. apply acts_idle.
  - intros i. unfold inherited, L1. rewrite !filter_In, in_app_iff, Hlost, <- (mi_live _ _ _ _ _ _ HM). split.
    + intros [[H1 _] H2]. left. auto.
    + intros [[H1 H2]|(t' & K)]; [|discriminate K]. split; [|exact H2]. split; [exact H1|].
      unfold inherits in H2. destruct (lookup (fst i) (w_pools (usable m))) as [Q|] eqn:El; [|discriminate H2].
      apply lookup_in in El. cbn [usable w_pools] in El. apply filter_In in El. exact (proj2 El).
  - intros t' i K. discriminate K.
  - intros id t'. split; intros K; discriminate K.
  - intros t'. exact Logic.I.
Qed.

Lemma fork_held : forall v0 m G L F t lost, minv v0 m G L F -> forks e v0 m t lost -> NoDup (m_held m) -> NoDup (m_held (mchild e m lost)).
Proof.
  intros v0 m G L F t lost HM (_ & Hn & Hlost & _) Hh. cbn [mchild m_held]. unfold inherited. apply NoDup_filter.
  assert (Hd : forall i, In i lost -> ~ In i (m_held m)).
  { intros i Hi. apply Hlost in Hi. destruct Hi as (t' & Ho). apply (mi_excl _ _ _ _ _ _ HM _ _ Ho). }
  induction (m_held m) as [|i l IH]; [exact Hn|]. inversion Hh as [|? ? K1 K2]; subst. cbn [app]. constructor.
  - rewrite in_app_iff. intros [K|K]; [exact (K1 K)|]. apply (Hd _ K). now left.
  - apply IH; auto. intros j Hj K. apply (Hd _ Hj). now right.
Qed.
End MFork.
