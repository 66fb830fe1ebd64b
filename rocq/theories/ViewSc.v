(** The weakly ordered machine of ViewModel.v has all runs of the sequentially
    consistent one: proofs for C53. *)
From Coq Require Import ZArith Bool List Lia Arith.
From Verif Require Import RseqIR RseqSpec RseqKernel MemLemmas RseqSim RseqOwn RseqCalls ViewModel ViewSpec.
Import ListNotations.
Local Open Scope Z_scope.

(** The memory [m] is the newest store to each byte, and none of the views in [V]
    is ahead of it. *)
Definition capped (h : Z -> list (nat * Z)) (m : mem) (V : view -> Prop) : Prop :=
  forall x, exists i, In (i, m x) (h x) /\ (forall j c, In (j, c) (h x) -> (j, c) = (i, m x) \/ (j < i)%nat) /\
    forall v, V v -> (v x <= i)%nat.

Lemma stores_fresh : forall ps h (v : view) m (V : view -> Prop), capped h m V -> V v -> exists h' v',
  stores ps h v h' v' /\ capped h' (wr m ps) (fun w => V w \/ w = v') /\
  forall x p, In p (h x) -> In p (h' x).
Proof.
  induction ps as [|[x b] ps IH]; intros h v m V Hc Hv.
  - exists h, v. split; [constructor|]. split; auto. intros x. destruct (Hc x) as (i & H1 & H2 & H3).
    exists i. split; auto. split; auto. intros w [Hw| ->]; auto.
  - destruct (Hc x) as (i & H1 & H2 & H3).
    set (h1 := fun y => if y =? x then (S i, b) :: h y else h y).
    set (v1 := fun y => if y =? x then S i else v y).
    destruct (IH h1 v1 (upd_mem m (x, b)) (fun w => V w \/ w = v1)) as (h' & v' & S1 & S2 & S3); auto.
    + intros y. unfold h1, upd_mem. cbn [fst snd]. destruct (Z.eqb_spec y x) as [->|Hn].
      * exists (S i). split; [left; auto|]. split.
        -- intros j c [E|E]; [left; congruence|]. right. destruct (H2 j c E) as [F|F]; [injection F as -> ->|]; lia.
        -- intros w [Hw| ->]; [specialize (H3 w Hw); lia|]. unfold v1. rewrite Z.eqb_refl. lia.
      * destruct (Hc y) as (k & K1 & K2 & K3). exists k. split; auto. split; auto.
        intros w [Hw| ->]; auto. unfold v1. destruct (Z.eqb_spec y x); [contradiction|]. auto.
    + exists h', v'. split; [|split].
      * econstructor; [| |exact S1]; [specialize (H3 v Hv); lia|].
        intros c E. destruct (H2 (S i) c E) as [F|F]; [injection F; lia|lia].
      * rewrite wr_cons. intros y. destruct (S2 y) as (k & K1 & K2 & K3). exists k. split; auto. split; auto. 
        intros w [Hw|Hw]; apply K3; auto.
      * intros y p Hp. apply S3. unfold h1. destruct (Z.eqb_spec y x); [right|]; auto.
Qed.

Section Sc.
Variable Loc : Type.
Variables (g : cfg) (tx : text) (cl : client Loc).
Let wstate := wstate Loc.

Definition views (W : wstate) (v : view) : Prop :=
  (exists t, v = w_thr W t) \/ (exists c, v = w_cpu W c) \/ (exists c, v = w_cid W c).
(** The state [s] of the sequentially consistent machine: the threads of [W] and
    the newest stores. *)
Definition agrees (W : wstate) (s : state Loc) : Prop :=
  set_m (w_core W) (s_mem s) = s /\ capped (w_hist W) (s_mem s) (views W).

Lemma agrees_start : forall s, agrees (wstart s) s.
Proof.
  intros s. split; [destruct s; reflexivity|]. intros x. exists 0%nat. cbn. split; auto. split; [intros j c [E|[]]; left; congruence|].
  intros v [[t ->]|[[c ->]|[c ->]]]; auto.
Qed.

Lemma step_mem : forall (s : state Loc) l s', step g tx cl s l s' -> s_mem s' = wr (s_mem s) (wrote l).
Proof. intros s l s' H. destruct H; reflexivity. Qed.

(** A step of thread [t] that sees [m], after which the threads are as in [s']. *)
Lemma step_seen : forall W s t m l s' s1, agrees W s -> sees W t m -> step g tx cl (set_m s m) l s1 ->
  acts t s l s1 -> set_m s1 (s_mem s') = s' -> s_mem s' = wr (s_mem s) (wrote l) ->
  exists W', wstep g tx cl W l W' /\ agrees W' s' /\
    (forall x p, In p (w_hist W x) -> In p (w_hist W' x)) /\ (forall u, u <> t -> w_thr W' u = w_thr W u) /\
    (wrote l = [] -> t_on (s_thr s1 t) = t_on (s_thr s t) -> w_thr W' t = w_thr W t).
Proof.
  intros W s t m l s' s1 [E Hf] Hm Hs Ha Es' Em.
  assert (E1 : s_thr (w_core W) = s_thr s) by (rewrite <- E; reflexivity).
  assert (E2 : s_loaded (w_core W) = s_loaded s) by (rewrite <- E; reflexivity).
  destruct (stores_fresh (wrote l) (w_hist W) (w_thr W t) (s_mem s) (views W) Hf) as (h' & v' & S1 & S2 & S3);
    [left; eexists; reflexivity|].
  exists {| w_core := s1; w_hist := h';
           w_thr := fun u => if Nat.eqb u t
                             then arrive W (t_on (s_thr (w_core W) t)) (t_on (s_thr s1 t)) v'
                             else w_thr W u;
           w_cpu := leave_cpu W (t_on (s_thr (w_core W) t)) (t_on (s_thr s1 t)) v';
           w_cid := leave_cid W (t_on (s_thr (w_core W) t)) (t_on (s_thr s1 t)) v' |}.
  split; [|split; [split; [exact Es'|]|split; [exact S3|split]]].
  - apply (W_step _ g tx cl W t m l s1 h' v'); auto.
    + rewrite <- E in Hs. exact Hs.
    + unfold acts. rewrite E1, E2. exact Ha.
  - cbn [w_hist]. rewrite Em.
    intros x. destruct (S2 x) as (i & H1 & H2 & H3). exists i. split; auto. split; auto.
    assert (Hv' : (v' x <= i)%nat) by auto.
    assert (Ht : forall u, (w_thr W u x <= i)%nat) by (intros u; apply H3; left; left; eexists; reflexivity).
    assert (Hc : forall c, (w_cpu W c x <= i)%nat) by (intros u; apply H3; left; right; left; eexists; reflexivity).
    assert (Hd : forall c, (w_cid W c x <= i)%nat) by (intros u; apply H3; left; right; right; eexists; reflexivity).
    intros v [[u ->]|[[c ->]|[c ->]]]; cbn [w_thr w_cpu w_cid].
    + destruct (Nat.eqb u t); auto. unfold arrive, join.
      destruct (t_on (s_thr (w_core W) t)), (t_on (s_thr s1 t)) as [[cpu cid]|]; auto.
      specialize (Hc cpu). specialize (Hd cid). lia.
    + unfold leave_cpu, join. destruct (t_on (s_thr (w_core W) t)) as [[cpu cid]|], (t_on (s_thr s1 t)); auto.
      destruct (c =? cpu); auto. specialize (Hc c). lia.
    + unfold leave_cid, join. destruct (t_on (s_thr (w_core W) t)) as [[cpu cid]|], (t_on (s_thr s1 t)); auto.
      destruct (c =? cid); auto. specialize (Hd c). lia.
  - intros u Hu. cbn [w_thr]. destruct (Nat.eqb_spec u t); [contradiction|reflexivity].
  - intros Hw Ho. cbn [w_thr]. rewrite Nat.eqb_refl, E1, Ho. rewrite Hw in S1. inversion S1; subst.
    unfold arrive. destruct (t_on (s_thr s t)); reflexivity.
Qed.

Lemma sees_newest : forall W s t, agrees W s -> sees W t (s_mem s).
Proof.
  intros W s t [_ Hf] x. destruct (Hf x) as (i & H1 & H2 & H3). exists i. split; auto. apply H3. left. eexists; reflexivity.
Qed.

Lemma step_weak : forall W s t l s', agrees W s -> step g tx cl s l s' -> acts t s l s' ->
  exists W', wstep g tx cl W l W' /\ agrees W' s' /\
    (forall x p, In p (w_hist W x) -> In p (w_hist W' x)) /\ (forall u, u <> t -> w_thr W' u = w_thr W u) /\
    (wrote l = [] -> t_on (s_thr s' t) = t_on (s_thr s t) -> w_thr W' t = w_thr W t).
Proof.
  intros W s t l s' Hf Hs Ha. apply (step_seen W s t (s_mem s) l s' s' Hf (sees_newest W s t Hf)); auto.
  - destruct s; exact Hs.
  - destruct s'; reflexivity.
  - apply (step_mem _ _ _ Hs).
Qed.

Lemma wpath_app : forall W tr W', wpath g tx cl W tr W' -> forall tr' W'',
  wpath g tx cl W' tr' W'' -> wpath g tx cl W (tr ++ tr') W''.
Proof.
  intros W tr W' H tr' W'' H'. induction H'.
  - rewrite app_nil_r. auto.
  - rewrite app_assoc. econstructor; eauto.
Qed.

Lemma agrees_same : forall W s l, agrees W s ->
  snd (w_core W, l : clabel) = snd (s, l) /\ s_thr (fst (w_core W, l)) = s_thr (fst (s, l)) /\
  s_loaded (fst (w_core W, l)) = s_loaded (fst (s, l)).
Proof. intros W s l [E _]. cbn [fst snd]. rewrite <- E. auto. Qed.

Lemma agrees_call_ok : forall W s l, agrees W s -> call_ok s l -> call_ok (w_core W) l.
Proof. intros W s l [E _] H. unfold call_ok in *. destruct l; auto. rewrite <- E in H. exact H. Qed.

Lemma moves_weak : forall P s tr s', moves g tx cl P s tr s' -> forall W, agrees W s ->
  exists wtr W', wpath g tx cl W wtr W' /\ same_steps wtr tr /\ agrees W' s' /\
    (forall x p, In p (w_hist W x) -> In p (w_hist W' x)) /\ (forall u, ~ P u -> w_thr W' u = w_thr W u).
Proof.
  intros P s tr s' H. induction H as [s|s tr s' t l s'' H IH Hs Hok HP Ha]; intros W Hf.
  - exists [], W. split; [constructor|]. split; [constructor|]. auto.
  - destruct (IH W Hf) as (wtr & W' & P1 & P2 & P3 & P4 & P5).
    destruct (step_weak W' s' t l s'' P3 Hs Ha) as (W2 & Q1 & Q2 & Q3 & Q4 & _).
    exists (wtr ++ [(w_core W', l)]), W2. split; [econstructor; eauto; eapply agrees_call_ok; eauto|].
    split; [apply Forall2_app; [exact P2|constructor; [|constructor]; apply agrees_same; auto]|].
    split; auto. split; auto. intros u Hu. rewrite Q4, P5; auto. intros ->. contradiction.
Qed.

Theorem sc_is_weak : forall s0 tr s, moves g tx cl (fun _ => True) s0 tr s ->
  exists wtr W, wpath g tx cl (wstart s0) wtr W /\ same_steps wtr tr /\
    s_thr s = s_thr (w_core W) /\ s_loaded s = s_loaded (w_core W) /\ forall x, newest (w_hist W x) (s_mem s x).
Proof.
  intros s0 tr s H. destruct (moves_weak _ _ _ _ H (wstart s0) (agrees_start s0)) as (wtr & W & P1 & P2 & [E P3] & _).
  exists wtr, W. split; auto. split; auto. split; [rewrite <- E; auto|]. split; [rewrite <- E; auto|].
  intros x. destruct (P3 x) as (i & H1 & H2 & _). exists i. split; auto.
Qed.
End Sc.
