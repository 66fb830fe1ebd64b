(** The machine of SyncModel.v can always take a step in which a thread sees the
    newest stores, and so has all runs of the sequentially consistent one: proofs
    for C54. *)
From Coq Require Import ZArith Bool List Lia Arith.
From Verif Require Import RseqIR RseqSpec RseqKernel MemLemmas RseqSim RseqOwn RseqCalls ViewModel ViewSpec ViewSc SyncModel.
Import ListNotations.
Local Open Scope Z_scope.

(** ** Newest stores first *)
Definition ntop (h : list (nat * Z)) : nat * Z := hd (O, 0) h.
Definition tidy (h : Z -> list (nat * Z)) : Prop := forall x, In (ntop (h x)) (h x) /\
  forall j c, In (j, c) (h x) -> (j, c) = ntop (h x) \/ (j < fst (ntop (h x)))%nat.
Definition capv (h : Z -> list (nat * Z)) (v : view) : Prop := forall x, (v x <= fst (ntop (h x)))%nat.

Fixpoint est (ps : list (Z * Z)) (h : Z -> list (nat * Z)) (v : view) : (Z -> list (nat * Z)) * view :=
  match ps with
  | [] => (h, v)
  | (x, b) :: ps => let i := S (fst (ntop (h x))) in
      est ps (fun y => if y =? x then (i, b) :: h y else h y) (fun y => if y =? x then i else v y)
  end.

Lemma est_ok : forall ps h v h' v', est ps h v = (h', v') -> tidy h -> capv h v ->
  stores ps h v h' v' /\ tidy h' /\ capv h' v' /\ (forall w, capv h w -> capv h' w) /\
  forall x, snd (ntop (h' x)) = wr (fun x => snd (ntop (h x))) ps x.
Proof.
  induction ps as [|[x b] ps IH]; intros h v h' v' E Ht Hc; cbn [est] in E.
  - injection E as <- <-. split; [constructor|]. auto.
  - assert (Hg : forall w, capv h w -> capv (fun y => if y =? x then (S (fst (ntop (h x))), b) :: h y else h y) w).
    { intros w Hw y. specialize (Hw y). destruct (Z.eqb_spec y x) as [->|]; auto. cbn. lia. }
    destruct (IH _ _ _ _ E) as (I1 & I2 & I3 & I4 & I5).
    + intros y. destruct (Z.eqb_spec y x) as [->|]; [|apply Ht]. cbn. split; auto.
      intros j c [F|F]; [left; congruence|right]. destruct (proj2 (Ht x) _ _ F) as [G|G]; [apply (f_equal fst) in G; cbn [fst] in G; rewrite G|]; lia.
    + intros y. specialize (Hc y). destruct (Z.eqb_spec y x) as [->|]; auto.
    + split; [|split; [auto|split; [auto|split; [auto|]]]].
      * econstructor; [| |exact I1]; [specialize (Hc x); lia|]. intros c F.
        destruct (proj2 (Ht x) _ _ F) as [G|G]; [apply (f_equal fst) in G; cbn [fst] in G; lia|lia].
      * intros y. rewrite I5, wr_cons. apply wr_ext. intros z. unfold upd_mem. cbn [fst snd]. destruct (Z.eqb_spec z x); reflexivity.
Qed.

Section SyncSc.
Variable Loc : Type.
Variables (g : cfg) (tx : text) (cl : client Loc) (rel : Loc -> bool) (acq : Loc -> call -> Z -> bool).
Notation cstate := (cstate Loc).
Notation state := (RseqKernel.state Loc).

Definition fresh (C : cstate) : Prop :=
  tidy (w_hist (c_w C)) /\ (forall u, capv (w_hist (c_w C)) (w_thr (c_w C) u)) /\
  (forall c, capv (w_hist (c_w C)) (w_cpu (c_w C) c)) /\ (forall c, capv (w_hist (c_w C)) (w_cid (c_w C) c)) /\
  (forall u, capv (w_hist (c_w C)) (c_got C u)) /\ (forall y j, capv (w_hist (c_w C)) (c_msg C y j)).

Lemma fresh_start : forall s, fresh (sync_start s).
Proof.
  intros s. split; [|repeat split; intros; intros x; apply le_n]. intros x. cbn. split; auto. intros j c [F|[]]. auto.
Qed.

Definition xnext (C : cstate) (t : nat) (m : mem) (ix : Z -> nat) (l : clabel) (s' : state) : cstate :=
  let W := c_w C in
  let rd := loads g tx (w_core W) m t s' in
  let v1 := view_read rd ix (w_thr W t) in
  let p1 := got_read (c_msg C) rd ix (c_got C t) in
  let on := t_on (s_thr (w_core W) t) in
  let on' := t_on (s_thr s' t) in
  let '(h', v') := est (wrote l) (w_hist W) v1 in
  let va := if acquires acq (w_core W) l then join v' p1 else v' in
  {| c_w := {| w_core := s'; w_hist := h';
               w_thr := fun u => if Nat.eqb u t then arrive W on on' va else w_thr W u;
               w_cpu := leave_cpu W on on' (join v' p1);
               w_cid := leave_cid W on on' (join v' p1) |};
     c_got := fun u => if Nat.eqb u t then p1 else c_got C u;
     c_msg := carry (releases rel (w_core W) l) v1 (w_hist W) (c_msg C) |}.

Lemma xnext_ok : forall C t m ix l s', fresh C ->
  (forall x, In (ix x, m x) (w_hist (c_w C) x) /\ (w_thr (c_w C) t x <= ix x)%nat) ->
  step g tx cl (set_m (w_core (c_w C)) m) l s' -> acts t (w_core (c_w C)) l s' ->
  cstep g tx cl rel acq C l (xnext C t m ix l s') /\ fresh (xnext C t m ix l s') /\
  w_core (c_w (xnext C t m ix l s')) = s' /\
  forall x, snd (ntop (w_hist (c_w (xnext C t m ix l s')) x)) = wr (fun x => snd (ntop (w_hist (c_w C) x))) (wrote l) x.
Proof.
  intros C t m ix l s' (F1 & F2 & F3 & F4 & F5 & F6) Hsee Hs Ha. unfold xnext.
  set (W := c_w C) in *. set (rd := loads g tx (w_core W) m t s'). set (v1 := view_read rd ix (w_thr W t)).
  set (p1 := got_read (c_msg C) rd ix (c_got C t)).
  assert (C1 : capv (w_hist W) v1).
  { intros x. unfold v1, view_read. specialize (F2 t x). destruct (existsb (Z.eqb x) rd); auto.
    destruct (Hsee x) as [Hin _]. destruct (proj2 (F1 x) _ _ Hin) as [G|G]; [apply (f_equal fst) in G; cbn [fst] in G; lia|lia]. }
  assert (C2 : capv (w_hist W) p1).
  { intros x. unfold p1, got_read. clear v1 p1 C1. induction rd as [|y rd0 IH]; cbn; [apply F5|]. pose proof (F6 y (ix y) x). lia. }
  destruct (est (wrote l) (w_hist W) v1) as [h' v'] eqn:E.
  destruct (est_ok _ _ _ _ _ E F1 C1) as (S1 & S2 & S3 & S4 & S5).
  assert (J : forall v w, capv h' v -> capv h' w -> capv h' (join v w)).
  { intros v w Hv Hw x. specialize (Hv x). specialize (Hw x). unfold join. lia. }
  split; [|split; [|split; [reflexivity|exact S5]]].
  - exact (C_step Loc g tx cl rel acq C t m ix l s' h' v' Hsee Hs Ha S1).
  - split; [exact S2|]. cbn [c_w w_hist w_thr w_cpu w_cid c_got c_msg]. split; [|split; [|split; [|split]]].
    + intros u. destruct (Nat.eqb u t); [|auto].
      assert (Hva : capv h' (if acquires acq (w_core W) l then join v' p1 else v')) by (destruct (acquires acq (w_core W) l); auto).
      unfold arrive. destruct (t_on (s_thr (w_core W) t)) as [|]; [exact Hva|]. destruct (t_on (s_thr s' t)) as [[cpu cid]|]; [|exact Hva].
      apply J; auto.
    + intros c. unfold leave_cpu. destruct (t_on (s_thr (w_core W) t)) as [[cpu cid]|]; [|auto]. destruct (t_on (s_thr s' t)); [auto|].
      destruct (c =? cpu); auto.
    + intros c. unfold leave_cid. destruct (t_on (s_thr (w_core W) t)) as [[cpu cid]|]; [|auto]. destruct (t_on (s_thr s' t)); [auto|].
      destruct (c =? cid); auto.
    + intros u. destruct (Nat.eqb u t); auto.
    + intros y j. unfold carry. destruct (existsb _ (w_hist W y)); [auto|]. destruct (releases rel (w_core W) l); [auto|].
      intros x. lia.
Qed.

(** Seeing the newest stores. *)
Lemma see_newest : forall C t, fresh C -> forall x, In (fst (ntop (w_hist (c_w C) x)), snd (ntop (w_hist (c_w C) x))) (w_hist (c_w C) x) /\
  (w_thr (c_w C) t x <= fst (ntop (w_hist (c_w C) x)))%nat.
Proof. intros C t (F1 & F2 & _) x. rewrite <- surjective_pairing. split; [apply F1|apply F2]. Qed.

Theorem sc_is_sync : forall s0 tr s, moves g tx cl (fun _ => True) s0 tr s ->
  exists wtr C, cpath g tx cl rel acq (sync_start s0) wtr C /\ same_steps wtr tr /\
    s_thr s = s_thr (w_core (c_w C)) /\ s_loaded s = s_loaded (w_core (c_w C)) /\
    forall x, newest (w_hist (c_w C) x) (s_mem s x).
Proof.
  intros s0 tr s H.
  enough (exists wtr C, cpath g tx cl rel acq (sync_start s0) wtr C /\ same_steps wtr tr /\
    set_m (w_core (c_w C)) (s_mem s) = s /\ fresh C /\ forall x, snd (ntop (w_hist (c_w C) x)) = s_mem s x) as
    (wtr & C & H1 & H2 & H3 & (H4 & _) & H5).
  { exists wtr, C. split; auto. split; auto. split; [rewrite <- H3; reflexivity|]. split; [rewrite <- H3; reflexivity|].
    intros x. exists (fst (ntop (w_hist (c_w C) x))). rewrite <- H5, <- surjective_pairing. split; [apply H4|]. apply (H4 x). }
  induction H as [s|s tr s' t l s'' H IH Hs Hok _ Ha].
  - exists [], (sync_start s). split; [constructor|]. split; [constructor|]. split; [destruct s; reflexivity|].
    split; [apply fresh_start|reflexivity].
  - destruct IH as (wtr & C & H1 & H2 & H3 & H4 & H5).
    set (ix := fun x => fst (ntop (w_hist (c_w C) x))).
    assert (Hthr : s_thr (w_core (c_w C)) = s_thr s') by (rewrite <- H3; reflexivity).
    assert (Hld : s_loaded (w_core (c_w C)) = s_loaded s') by (rewrite <- H3; reflexivity).
    destruct (xnext_ok C t (s_mem s') ix l s'' H4) as (X1 & X2 & X3 & X4).
    + intros x. rewrite <- H5. apply see_newest; auto.
    + rewrite H3. exact Hs.
    + unfold acts. rewrite Hthr, Hld. exact Ha.
    + exists (wtr ++ [(w_core (c_w C), l)]), (xnext C t (s_mem s') ix l s'').
      split; [econstructor; eauto|]. { destruct l; cbn in Hok |- *; auto. rewrite Hthr. exact Hok. }
      split; [apply Forall2_app; [exact H2|constructor; [|constructor]]; cbn; auto|].
      split; [rewrite X3; destruct s''; reflexivity|]. split; [exact X2|].
      intros x. rewrite X4, (step_mem _ _ _ _ _ _ _ Hs). apply wr_ext. intros y. apply H5.
Qed.
End SyncSc.
