(** C68: fork() while other threads are in pool calls. *)
From Coq Require Import ZArith Bool List Lia.
From Verif Require Import UtilsModel RseqIR PoolVM PoolModel PoolWorld PoolHist ExPool ForkSpec MicroModel MicroSpec MicroFacts ExMicro MicroForkSpec MicroForkProofs.
Import ListNotations.
Local Open Scope Z_scope.

(** ** An example
    Pools 8 and 9 have zeroed memory.  Thread 1 has an item of pool 8 and fills another
    one; thread 2 has just taken the mutex of pool 9.  Now thread 3 forks. *)
Definition runf : list action :=
  [AOp (OCreate 8 false 16 (Some (attrs false COW_ZERO 1)) (grant 1048576)); AOp (OCreate 9 false 16 (Some (attrs false COW_ZERO 1)) (grant 2097152));
   ACall 1 (CMalloc 8 (grant 0) Any)] ++ one 4 ++
  [ACall 1 (CMalloc 8 (grant 0) (Bytes [9; 8])); ACall 2 (CMalloc 9 (grant 0) Any)] ++ one 5 ++ two 1.
Definition mf : mstate := at_end runf.
(** The child allocates an item of pool 8. *)
Definition child_run : list action := ACall 3 (CMalloc 8 (grant 0) Any) :: repeat (AStep 3 0) 4.
Definition eq_item (i j : Z * Z) : bool := (fst i =? fst j) && (snd i =? snd j).
Fixpoint eq_items (l l' : ledger) : bool :=
  match l, l' with [], [] => true | i :: l, j :: l' => eq_item i j && eq_items l l' | _, _ => false end.
Lemma eq_items_ok : forall l l', eq_items l l' = true -> l = l'.
Proof.
  induction l as [|[i a] l IH]; intros [|[j b] l'] H; cbn in H; try discriminate H; [reflexivity|].
  apply andb_prop in H. destruct H as [H K]. apply andb_prop in H. cbn in H. destruct H as [A B]. apply Z.eqb_eq in A, B. f_equal; [congruence|auto].
Qed.
Definition fills (i : Z * Z) (tk : task) : bool := match tk with TFill id a _ _ => eq_item (id, a) i | _ => false end.
Lemma fills_ok : forall i tk, fills i tk = true -> owns tk = Some i.
Proof.
  intros [j b] tk H. destruct tk; try discriminate H. cbn in *. apply andb_prop in H. cbn in H. destruct H as [A B]. apply Z.eqb_eq in A, B. congruence.
Qed.
Definition reads_head (i : Z) (tk : task) : bool := match tk with TMHead id _ _ => id =? i | _ => false end.
Lemma reads_head_ok : forall i tk, reads_head i tk = true -> inside tk i /\ owns tk = None.
Proof. intros i tk H. destruct tk; try discriminate H. cbn in *. apply Z.eqb_eq in H. auto. Qed.
Definition goes_to (l : list action) (m : mstate) (held : ledger) : bool := match go l m with Some m' => eq_items (m_held m') held | None => false end.
Lemma goes_to_ok : forall l m held, goes_to l m held = true -> exists m', go l m = Some m' /\ m_held m' = held.
Proof. intros l m held H. unfold goes_to in H. destruct (go l m) as [m'|]; [|discriminate H]. exists m'. split; [reflexivity|exact (eq_items_ok _ _ H)]. Qed.
Definition zeroed_pool (m : mstate) (id : Z) : bool := match lookup id (m_pools m) with Some P => populate_policy (pattr P) =? COW_ZERO | None => false end.
Lemma zeroed_ok : forall m id, zeroed_pool m id = true -> exists P, lookup id (m_pools m) = Some P /\ populate_policy (pattr P) = COW_ZERO.
Proof. intros m id H. unfold zeroed_pool in H. destruct (lookup id (m_pools m)) as [P|]; [|discriminate H]. apply Z.eqb_eq in H. eauto. Qed.
Lemma idle_ok : forall tk, idle tk = true -> tk = TIdle.
Proof. intros tk H. destruct tk; try discriminate H. reflexivity. Qed.

Lemma t1 : goes runf = true. Proof. vm_compute. reflexivity. Qed.
Lemma t2 : forallb mine runf = true. Proof. vm_compute. reflexivity. Qed.
Lemma t3 : idle (m_task mf 3) = true. Proof. vm_compute. reflexivity. Qed.
Lemma t4 : eq_items (m_held mf) [(8, 1056768)] = true. Proof. vm_compute. reflexivity. Qed.
Lemma t5 : fills (8, 1056784) (m_task mf 1) = true. Proof. vm_compute. reflexivity. Qed.
Lemma t6 : reads_head 9 (m_task mf 2) = true. Proof. vm_compute. reflexivity. Qed.
Lemma t7 : goes_to child_run (mchild e0 mf [(8, 1056784)]) [(8, 1056800); (8, 1056768); (8, 1056784)] = true. Proof. vm_compute. reflexivity. Qed.
Lemma t8 : zeroed_pool mf 8 = true. Proof. vm_compute. reflexivity. Qed.
Lemma t9 : zeroed_pool mf 9 = true. Proof. vm_compute. reflexivity. Qed.

Lemma mf_program : mprogram e0 v0 mf.
Proof. exact (at_end_program runf t1). Qed.
Lemma v0_plain : ordinary v0.
Proof. intros q. cbn. auto. Qed.
Lemma mf_lost : forall i, In i [(8, 1056784)] <-> exists t, owns (m_task mf t) = Some i.
Proof.
  intros i. split.
  - intros [<-|[]]. exists 1. exact (fills_ok _ _ t5).
  - intros (t & Ho). destruct (Z.eq_dec t 1) as [->|N1]; [rewrite (fills_ok _ _ t5) in Ho; injection Ho as <-; now left|].
    destruct (Z.eq_dec t 2) as [->|N2]; [rewrite (proj2 (reads_head_ok _ _ t6)) in Ho; discriminate Ho|].
    assert (E : m_task mf t = TIdle).
    { pose proof t1 as H1. unfold goes in H1. unfold mf, at_end. destruct (go runf (m_start v0)) as [m|] eqn:Eg; [|discriminate H1].
      exact (others_idle runf _ m t t2 Eg N1 N2 eq_refl). }
    rewrite E in Ho. discriminate Ho.
Qed.

(** ** The child goes on
    A thread that is in no call can fork whatever the other threads are doing.  The child
    is then in a state of the programs of C65, so all that C65 says holds of it. *)
Theorem C68_child_goes_on : forall e v0 m, mprogram e v0 m -> ordinary v0 -> forall t, m_task m t = TIdle ->
  exists lost, forks e v0 m t lost /\ mprogram e v0 (mchild e m lost).
Proof.
  intros e v0 m HP H0 t Ht. destruct (can_fork e v0 m HP H0 t Ht) as (lost & Hf). exists lost. split; [exact Hf|].
  exact (child_program e v0 m HP t lost Hf).
Qed.
Print Assumptions C68_child_goes_on.

(** It finds the pools without initial values whose mutex nobody had, byte for byte. *)
Theorem C68_child_finds_pools : forall e v0 m, mprogram e v0 m -> forall lost id P,
  lookup id (m_pools m) = Some P -> populate_policy (pattr P) <> COW_INIT -> ~ busy m id ->
  lookup id (m_pools (mchild e m lost)) = Some P /\
  forall a, in_pool e P a -> mapped (m_vm (mchild e m lost)) (page e a) = true /\ view e (m_vm (mchild e m lost)) a = view e (m_vm m) a.
Proof. intros e v0 m HP lost id P. exact (finds e v0 m HP lost id P). Qed.
Print Assumptions C68_child_finds_pools.

(** The items allocated in it are those the program held in these pools, and those that
    calls of other threads had in hand, which nobody will return or free. *)
Theorem C68_items_in_the_child : forall e v0 m, mprogram e v0 m -> forall t lost id a, forks e v0 m t lost ->
  (In (id, a) (m_held (mchild e m lost)) <->
   (In (id, a) (m_held m) \/ in_flight m (id, a)) /\
   exists P, lookup id (m_pools m) = Some P /\ populate_policy (pattr P) <> COW_INIT /\ ~ busy m id).
Proof. intros e v0 m HP t lost id a Hf. exact (child_holds e v0 m HP t lost id a Hf). Qed.
Print Assumptions C68_items_in_the_child.

Example ex_C68 : mprogram e0 v0 mf /\ ordinary v0 /\ inside (m_task mf 2) 9 /\ in_flight mf (8, 1056784) /\ m_held mf = [(8, 1056768)] /\
  forks e0 v0 mf 3 [(8, 1056784)] /\
  exists m', mprogram e0 v0 m' /\ go child_run (mchild e0 mf [(8, 1056784)]) = Some m' /\ m_held m' = [(8, 1056800); (8, 1056768); (8, 1056784)].
Proof.
  pose proof mf_program as HP. split; [exact HP|]. split; [exact v0_plain|]. split; [exact (proj1 (reads_head_ok _ _ t6))|].
  split; [exists 1; exact (fills_ok _ _ t5)|]. split; [exact (eq_items_ok _ _ t4)|].
  assert (Hf : forks e0 v0 mf 3 [(8, 1056784)]).
  { split; [exact (idle_ok _ t3)|]. split; [constructor; [intros []|constructor]|]. split; [exact mf_lost|]. exact (MicroTame.plain_is e0 v0 mf v0_plain HP). }
  split; [exact Hf|]. destruct (goes_to_ok _ _ _ t7) as (m' & Hg & Hh). exists m'. split; [|exact (conj Hg Hh)].
  exact (go_run child_run _ m' (child_program e0 v0 mf HP 3 _ Hf) Hg).
Qed.

(** ** Pools whose mutex was taken
    In the child nobody releases that mutex.  A call on the pool never returns, whatever
    the threads of the child do. *)
Theorem C68_abandoned_pool_blocks : forall e v0 m id, mprogram e v0 m -> busy m id ->
  forall m1, later e id (as_forked e m) m1 -> forall t, waits (m_task m1 t) id ->
  forall k m' x, mstep e (AStep t k) m1 <> Some (Ok (m', x)).
Proof. exact never_returns. Qed.
Print Assumptions C68_abandoned_pool_blocks.

(** So the child cannot use all pools without initial values. *)
Theorem C68_all_pools_usable_refuted : exists e v0 m t id an P m1,
  mprogram e v0 m /\ ordinary v0 /\ m_task m t = TIdle /\ lookup id (m_pools m) = Some P /\ populate_policy (pattr P) = COW_ZERO /\
  mstep e (ACall t (CMalloc id an Any)) (as_forked e m) = Some (Ok (m1, None)) /\
  waits (m_task m1 t) id /\
  forall m2, later e id m1 m2 -> waits (m_task m2 t) id -> forall k m' x, mstep e (AStep t k) m2 <> Some (Ok (m', x)).
Proof.
  destruct (zeroed_ok _ _ t9) as (P & Hl & Hp). exists e0, v0, mf, 3, 9, (grant 0), P, (goto (as_forked e0 mf) 3 (TWant 9 (CMalloc 9 (grant 0) Any))).
  split; [exact mf_program|]. split; [exact v0_plain|]. split; [exact (idle_ok _ t3)|]. split; [exact Hl|]. split; [exact Hp|].
  split; [reflexivity|]. split; [reflexivity|]. intros m2 Hl2 Hw.
  refine (never_returns e0 v0 mf 9 mf_program _ m2 _ 3 Hw); [exists 2; exact (proj1 (reads_head_ok _ _ t6))|].
  clear Hw. induction Hl2 as [|m1 a m2 x Hl1 IH Hn Hs].
  - refine (later_step e0 9 _ (as_forked e0 mf) (ACall 3 (CMalloc 9 (grant 0) Any)) _ None (later_here e0 9 _) _ _); [intros an E; discriminate E|reflexivity].
  - exact (later_step e0 9 _ m1 a m2 x IH Hn Hs).
Qed.
Print Assumptions C68_all_pools_usable_refuted.
