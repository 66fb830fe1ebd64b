(** Ownership: a convenient way to show that client code is [safe_client].
    Every byte belongs to one per-CPU data item, or to one thread. *)
From Coq Require Import ZArith Bool List Lia.
From Verif Require Import RseqIR RseqSpec RseqKernel RseqSafe MemLemmas RunLemmas RseqSim.
Import ListNotations.
Local Open Scope Z_scope.

Inductive owner := OCpu (md : imode) (cpu : Z) | OThr (t : nat) | ONone.

(** Byte [a] may be used by a call [c] of thread [t]. *)
Definition usable (own : Z -> owner) (t : nat) (c : call) (a : Z) : Prop :=
  own a = OCpu (c_mode c) (c_cpu c) \/ own a = OThr t.

(** All the bytes a call reads or writes. *)
Definition touched (g : cfg) (op : opcall) (m : mem) : list Z :=
  in_use g op m ++ match pseudo g op m with OFail => [] | OCommit _ fin => map fst fin end.

Section Own.
Variable Loc : Type.
Variable g : cfg.
Variable cl : client Loc.
Notation astate := (astate Loc).

(** One state: the calls in flight only touch bytes they may use, and so does
    the write. *)
Lemma own_no_interference : forall own (s : astate) t ps,
  exclusive (a_on s) ->
  (forall u c, in_flight s u c -> forall a, In a (touched g (c_op c) (a_mem s)) -> usable own u c a) ->
  (forall a, In a (map fst ps) -> own a = OThr t \/ exists c, in_flight s t c /\ usable own t c a) ->
  no_interference g s t ps.
Proof.
  intros own s t ps Hex Hfl Hw u c Hu Hc. left. intros a Ha Hb.
  assert (H : usable own u c a) by (apply (Hfl u c Hc); apply in_or_app; auto).
  destruct (Hw a Ha) as [H1|(c' & Hc' & [H1|H1])].
  - destruct H as [H|H]; congruence.
  - destruct H as [H|H]; [|congruence]. rewrite H1 in H. inversion H as [[E1 E2]].
    destruct Hc as [Hr _], Hc' as [Hr' _]. unfold on_right_cpu, on_index in *.
    destruct (a_on s u) as [[c1 d1]|] eqn:Eu; [|discriminate].
    destruct (a_on s t) as [[c2 d2]|] eqn:Et; [|discriminate].
    destruct (Hex u t c1 d1 c2 d2 Hu Eu Et). rewrite E1 in Hr'. destruct (c_mode c); congruence.
  - destruct H as [H|H]; congruence.
Qed.

Lemma a_exclusive : forall s0 ls s, aexec g cl s0 ls s -> exclusive (a_on s0) -> exclusive (a_on s).
Proof.
  intros s0 ls s H. induction H as [|s ls s' l s'' He IH Hs]; intros H0; auto.
  specialize (IH H0). inversion Hs; subst; auto.
Qed.

Lemma init_exclusive : forall s : state Loc, initial s -> exclusive (a_on (abs_init s)).
Proof.
  intros s (_ & H & _) t u c1 d1 c2 d2 Hn. cbn.
  destruct (t_reg (s_thr s t)), (t_reg (s_thr s u)); try discriminate. apply H; auto.
Qed.

(** The writes of a step come from a call in flight, or from client code. *)
Lemma write_source : forall s l s' t ps, astep g cl s l s' -> writes l = Some (t, ps) ->
  (exists c, in_flight s t c /\ forall a, In a (map fst ps) -> In a (touched g (c_op c) (a_mem s))) \/
  (exists loc k loc', l = ALwrite t ps /\ a_thr s t = {| a_loc := loc; a_act := None |} :: k /\
     cl_write _ cl loc (a_mem s) ps loc').
Proof.
  intros s l s' t ps Hs Hw. destruct Hs; cbn in Hw; inversion Hw; subst.
  - right. eauto 7.
  - left. exists c. split; [split; eauto|]. intros a Ha. unfold touched, in_use, attempts. rewrite H1.
    apply in_or_app; left. apply in_or_app; right. apply in_map_iff in Ha.
    destruct Ha as (p & <- & Hp). apply in_map; auto.
  - left. exists c. split; [split; eauto|]. intros a Ha. unfold touched. rewrite H1.
    apply in_or_app; right; auto.
Qed.

(** ** Fixed ownership *)

(** Call [c] only ever touches bytes that thread [t] may use for it. *)
Definition fits (own : Z -> owner) (t : nat) (c : call) : Prop :=
  forall m, op_wf g (c_op c) m /\ forall a, In a (touched g (c_op c) m) -> usable own t c a.

(** Client code whose calls fit and whose plain stores are to memory of its own
    thread.  [LI t] is an invariant of the local states of thread [t]. *)
Record partitioned (own : Z -> owner) (LI : nat -> Loc -> Prop) : Prop := {
  p_call : forall t l m c, LI t l -> cl_call _ cl l m c -> fits own t c;
  p_ret : forall t l c r, LI t l -> LI t (cl_ret _ cl l c r);
  p_write : forall t l m ps l', LI t l -> cl_write _ cl l m ps l' ->
     LI t l' /\ forall a, In a (map fst ps) -> own a = OThr t;
  p_tau : forall t l m l', LI t l -> cl_tau _ cl l m l' -> LI t l';
  p_sig : forall t l l', LI t l -> cl_sig _ cl l l' -> LI t l' }.

Definition part_ctx (own : Z -> owner) (LI : nat -> Loc -> Prop) (t : nat) (x : actx Loc) : Prop :=
  LI t (a_loc x) /\ match a_act x with Some (c, _) => fits own t c | None => True end.

Lemma part_inv : forall own LI, partitioned own LI -> forall s0 ls s, aexec g cl s0 ls s ->
  (forall t x, In x (a_thr s0 t) -> part_ctx own LI t x) ->
  forall t x, In x (a_thr s t) -> part_ctx own LI t x.
Proof.
  intros own LI HP s0 ls s H. induction H as [|s ls s' l s'' He IH Hs]; intros H0; auto.
  specialize (IH H0). clear H0 He.
  assert (Hset : forall t k, (forall x, In x k -> part_ctx own LI t x) ->
     forall u x, In x (if Nat.eqb u t then k else a_thr s' u) -> part_ctx own LI u x).
  { intros t k Hk u x Hx. destruct (Nat.eqb_spec u t) as [->|]; auto. }
  destruct Hs; cbn [a_thr set_thr set_amem set_aon] in *; auto; apply Hset; intros y Hy;
    pose proof (IH t) as It; rewrite H in It.
  - destruct Hy as [<-|Hy]; [|apply It; right; auto].
    destruct (It _ (or_introl eq_refl)) as [I1 _]. split; auto. cbn in *. eapply p_call; eauto.
  - destruct Hy as [<-|Hy]; [|apply It; right; auto].
    destruct (It _ (or_introl eq_refl)) as [I1 _]. split; cbn in *; auto. eapply p_ret; eauto.
  - destruct Hy as [<-|Hy]; [|apply It; right; auto].
    destruct (It _ (or_introl eq_refl)) as [I1 _]. split; cbn in *; auto.
    eapply (proj1 (p_write _ _ HP _ _ _ _ _ I1 H0)).
  - destruct Hy as [<-|Hy]; [|apply It; right; auto].
    destruct (It _ (or_introl eq_refl)) as [I1 _]. split; cbn in *; auto. eapply p_tau; eauto.
  - destruct Hy as [<-|Hy]; [|apply It; auto].
    destruct (It _ (or_introl eq_refl)) as [I1 _]. split; cbn in *; auto. eapply p_sig; eauto.
  - apply It. right. auto.
  - destruct Hy as [<-|Hy]; [|apply It; right; auto]. exact (It _ (or_introl eq_refl)).
  - destruct Hy as [<-|Hy]; [|apply It; right; auto]. exact (It _ (or_introl eq_refl)).
  - destruct Hy as [<-|Hy]; [|apply It; right; auto]. exact (It _ (or_introl eq_refl)).
  - destruct Hy as [<-|Hy]; [|apply It; right; auto]. exact (It _ (or_introl eq_refl)).
Qed.

Lemma partitioned_safe : forall own LI, partitioned own LI -> forall s0,
  exclusive (a_on s0) -> (forall t x, In x (a_thr s0 t) -> part_ctx own LI t x) ->
  safe_client g cl s0.
Proof.
  intros own LI HP s0 Hex H0 ls s He.
  pose proof (part_inv own LI HP _ _ _ He H0) as Hinv.
  pose proof (a_exclusive _ _ _ He Hex) as Hex'.
  assert (Hfit : forall u c, in_flight s u c -> fits own u c).
  { intros u c [_ (l & k & w & E)]. pose proof (Hinv u) as Hu. rewrite E in Hu.
    exact (proj2 (Hu _ (or_introl eq_refl))). }
  split.
  - intros t c Hc. apply (Hfit _ _ Hc).
  - intros l s' t ps Hs Hw. apply (own_no_interference own); auto.
    + intros u c Hc a Ha. eapply (Hfit _ _ Hc); eauto.
    + intros a Ha. destruct (write_source _ _ _ _ _ Hs Hw) as [(c & Hc & Ht)|(loc & k & loc' & _ & E & W)].
      * right. exists c. split; auto. eapply (Hfit _ _ Hc); eauto.
      * left. pose proof (Hinv t) as Hu. rewrite E in Hu.
        destruct (Hu _ (or_introl eq_refl)) as [I1 _].
        eapply (proj2 (p_write _ _ HP _ _ _ _ _ I1 W)); auto.
Qed.
End Own.
