(** Two threads on one pool: a concrete interleaving for Thm_Micro.v. *)
From Coq Require Import ZArith Bool List Lia.
From Verif Require Import UtilsModel RseqIR PoolVM PoolModel PoolWorld PoolHist ExPool MicroModel MicroSpec.
Import ListNotations.
Local Open Scope Z_scope.

Definition permittedb (m : mstate) (a : action) : bool :=
  match a with
  | ACall _ (CMalloc id _ c) =>
    match lookup id (m_pools m), c with
    | Some P, Bytes bs => forallb (fun b => (0 <=? b) && (b <? 256)) bs && (Z.of_nat (length bs) <=? item_len P)
    | Some _, _ => true
    | None, _ => false
    end
  | ACall _ (CFree ptr strd) => allowedb true (mworld m) (m_held m) (OFree ptr strd)
  | AStep _ _ => true
  | AOp (ODestroy _ _) => false
  | AOp o => allowedb true (mworld m) (m_held m) o
  | ARest _ => false
  end.
Lemma permittedb_ok : forall m a, permittedb m a = true -> permitted e0 v0 m a.
Proof.
  intros m a H. destruct a as [t [id an c|ptr s]|t k|o|v']; cbn [permittedb permitted] in *; [| | | |discriminate H].
  - destruct (lookup id (m_pools m)) as [P|]; [|discriminate]. exists P. split; auto. destruct c; cbn; auto.
    apply andb_prop in H. destruct H as [H1 H2]. apply Z.leb_le in H2. split; auto. apply Forall_forall. intros b Hb.
    rewrite forallb_forall in H1. specialize (H1 _ Hb). booleans. auto.
  - apply allowedb_ok in H. exact H.
  - auto.
  - destruct o; try discriminate; (split; [now apply allowedb_ok|exact Logic.I]).
Qed.

Fixpoint go (l : list action) (m : mstate) : option mstate :=
  match l with
  | [] => Some m
  | a :: l =>
    if permittedb m a then match mstep e0 a m with Some (Ok (m', _)) => go l m' | _ => None end else None
  end.
Lemma go_run : forall l m m', mprogram e0 v0 m -> go l m = Some m' -> mprogram e0 v0 m'.
Proof.
  induction l as [|a l IH]; intros m m' Hm H; cbn [go] in H.
  - injection H as <-. exact Hm.
  - destruct (permittedb m a) eqn:Ep; [|discriminate H]. destruct (mstep e0 a m) as [[[m1 x]| |]|] eqn:Es; try discriminate H.
    apply (IH m1 m'); auto. destruct Hm as (H1 & H2 & H3). split; auto. split; auto.
    exact (mrun_step e0 v0 m a m1 x H3 (permittedb_ok m a Ep) Es).
Qed.
Lemma start_program : mprogram e0 v0 (m_start v0).
Proof. split; [apply machine0|]. split; [apply space0|]. constructor. Qed.
Definition at_end (l : list action) : mstate := match go l (m_start v0) with Some m => m | None => m_start v0 end.
Definition goes (l : list action) : bool := match go l (m_start v0) with Some _ => true | None => false end.
Lemma at_end_program : forall l, goes l = true -> mprogram e0 v0 (at_end l).
Proof.
  intros l H. unfold goes in H. unfold at_end. destruct (go l (m_start v0)) eqn:E; [|discriminate]. eapply go_run; [apply start_program|exact E].
Qed.
Lemma go_app : forall l1 l2 m, go (l1 ++ l2) m = match go l1 m with Some m' => go l2 m' | None => None end.
Proof.
  induction l1 as [|a l1 IH]; intros l2 m; cbn [go app]; auto. destruct (permittedb m a); auto. destruct (mstep e0 a m) as [[[m1 x]| |]|]; auto.
Qed.

(** Threads 1 and 2 allocate from pool 7 at the same time.  Thread 1 has the mutex
    first, thread 2 takes it while thread 1 fills its item, and both fills are
    interleaved byte by byte.  Then thread 1 frees its item while thread 2 asks
    for another one. *)
Definition mk : action := AOp (OCreate 7 true 12 (Some (attrs true COW_INIT 0)) (grant 1048576)).
Definition one (k : nat) : list action := repeat (AStep 1 0) k.
Definition two (k : nat) : list action := repeat (AStep 2 1) k.
Definition both (k : nat) : list action := flat_map (fun _ => [AStep 1 0; AStep 2 1]) (seq 0 k).
Definition run1_ : list action :=
  [mk; ACall 1 (CMalloc 7 (grant 0) (Bytes [1; 2])); ACall 2 (CMalloc 7 (grant 0) (Bytes [3; 4; 5]))] ++ one 4.
Definition run2_ : list action := run1_ ++ two 4 ++ both 5.
Definition run3_ : list action := run2_ ++ both 5 ++ two 3.
Definition run4_ : list action :=
  run3_ ++ [ACall 1 (CFree 1056768 8192); ACall 2 (CMalloc 7 (grant 0) Any)] ++ one 2.
Definition run5_ : list action := run4_ ++ one 55.
Definition run6_ : list action := run5_ ++ one 1 ++ two 12.

(** Running a list of steps in which thread [t] does not return, and counting its steps. *)
Fixpoint quiet (t : Z) (l : list action) (n : nat) (m : mstate) : option (nat * mstate) :=
  match l with
  | [] => Some (n, m)
  | a :: l =>
    if permittedb m a then
      match mstep e0 a m with
      | Some (Ok (m', None)) => quiet t l (if is_step t a then S n else n) m'
      | Some (Ok (m', Some _)) => if is_step t a then None else quiet t l n m'
      | _ => None
      end
    else None
  end.
Lemma quiet_during : forall t l m n m1 n' m', during e0 v0 t n m m1 -> quiet t l n m1 = Some (n', m') -> during e0 v0 t n' m m'.
Proof.
  intros t. induction l as [|a l IH]; intros m n m1 n' m' Hd H; cbn [quiet] in H.
  - injection H as <- <-. exact Hd.
  - destruct (permittedb m1 a) eqn:Ep; [|discriminate H]. apply permittedb_ok in Ep.
    destruct (mstep e0 a m1) as [[[m2 [x|]]| |]|] eqn:Es; try discriminate H.
    + destruct (is_step t a) eqn:Et; [discriminate H|]. eapply IH; [|exact H].
      assert (K := dur_step e0 v0 t n m m1 a m2 (Some x) Hd Ep Es). rewrite Et in K. apply K. discriminate.
    + eapply IH; [|exact H]. eapply dur_step; eauto.
Qed.

(** The pool and the memory at the end of a run. *)
Definition pool_at (l : list action) : option pool := lookup 7 (m_pools (at_end l)).
Definition byte_at (l : list action) (x : Z) : Z := byte (view e0 (m_vm (at_end l))) x.
Definition seven (l : list action) (f : pool -> bool) : bool := match pool_at l with Some P => f P | None => false end.
Lemma seven_ok : forall l f, seven l f = true -> exists P, lookup 7 (m_pools (at_end l)) = Some P /\ f P = true.
Proof. intros l f H. unfold seven, pool_at in H. destruct (lookup 7 (m_pools (at_end l))) as [P|]; [eauto|discriminate]. Qed.

(** After thread 2 has asked: the steps until just before thread 2's call returns. *)
Definition ask2 : list action := [mk; ACall 1 (CMalloc 7 (grant 0) (Bytes [1; 2]))].
Definition mid2 : list action := one 4 ++ two 4 ++ both 5 ++ both 5 ++ two 2.
Definition whole (l1 : list action) (t : Z) (c : call) (l2 : list action) (k n : nat) (a : Z) : bool :=
  match go l1 (m_start v0) with
  | Some m => permittedb m (ACall t c) &&
    match mstep e0 (ACall t c) m with
    | Some (Ok (m1, None)) =>
      match quiet t l2 0 m1 with
      | Some (n', m2) => (n' =? n)%nat &&
        match mstep e0 (AStep t k) m2 with Some (Ok (_, Some (OutItem a'))) => a' =? a | _ => false end
      | None => false
      end
    | _ => false
    end
  | None => false
  end.
Lemma whole_ok : forall l1 t c l2 k n a, whole l1 t c l2 k n a = true ->
  exists m m1 m2 m3, mprogram e0 v0 m /\ permitted e0 v0 m (ACall t c) /\ mstep e0 (ACall t c) m = Some (Ok (m1, None)) /\
    during e0 v0 t n m1 m2 /\ mstep e0 (AStep t k) m2 = Some (Ok (m3, Some (OutItem a))).
Proof.
  intros l1 t c l2 k n a H. unfold whole in H. destruct (go l1 (m_start v0)) as [m|] eqn:E1; [|discriminate H].
  apply andb_prop in H. destruct H as [Hp H]. destruct (mstep e0 (ACall t c) m) as [[[m1 [x|]]| |]|] eqn:E2; try discriminate H.
  destruct (quiet t l2 0 m1) as [[n' m2]|] eqn:E3; [|discriminate H]. apply andb_prop in H. destruct H as [Hn H].
  apply Nat.eqb_eq in Hn. subst n'. destruct (mstep e0 (AStep t k) m2) as [[[m3 [[| | |a'| |]|]]| |]|] eqn:E4; try discriminate H.
  apply Z.eqb_eq in H. subst a'. exists m, m1, m2, m3. split; [exact (go_run l1 _ m start_program E1)|].
  split; [now apply permittedb_ok|]. split; [exact E2|]. split; [|exact E4].
  exact (quiet_during t l2 m1 0%nat m1 n m2 (dur_here e0 v0 t m1) E3).
Qed.

Definition idle (tk : task) : bool := match tk with TIdle => true | _ => false end.
Lemma not_idle : forall tk, idle tk = false -> tk <> TIdle.
Proof. intros tk H ->. discriminate. Qed.
Definition is_stuck (t : Z) (l : list action) : bool := match mstep e0 (AStep t 0) (at_end l) with None => true | _ => false end.
(** Thread 1 has freed its item and thread 2 has not asked for another. *)
Definition run7_ : list action := run3_ ++ [ACall 1 (CFree 1056768 8192)] ++ one 58.

(** Threads other than 1 and 2 do nothing. *)
Definition mine (a : action) : bool := match a with ACall t _ | AStep t _ => (t =? 1) || (t =? 2) | AOp _ | ARest _ => true end.
Lemma upd_not : forall (A : Type) (f : Z -> A) k x i, i <> k -> upd f k x i = f i.
Proof. intros A f k x i H. unfold upd. apply Z.eqb_neq in H. now rewrite H. Qed.
Lemma step_others : forall a m m' x t, mstep e0 a m = Some (Ok (m', x)) -> mine a = true -> t <> 1 -> t <> 2 -> m_task m' t = m_task m t.
Proof.
  intros a m m' x t Hs Ha H1 H2. destruct a as [t' c|t' k|o|v']; cbn [mstep mine] in *; [| | |injection Hs as <- <-; reflexivity].
  - assert (Hne : t <> t') by (apply orb_prop in Ha; destruct Ha as [Ha|Ha]; apply Z.eqb_eq in Ha; congruence).
    destruct (m_task m t'); try (destruct c; discriminate Hs). destruct c as [id an c|ptr s].
    + injection Hs as <- <-. cbn. now apply upd_not.
    + destruct (find_owner _ _) as [[[i Q] r]|]; [|discriminate Hs]. injection Hs as <- <-. cbn. now apply upd_not.
  - assert (Hne : t <> t') by (apply orb_prop in Ha; destruct Ha as [Ha|Ha]; apply Z.eqb_eq in Ha; congruence).
    unfold advance in Hs. destruct (pool_of (m_task m t')) as [id|]; [|discriminate Hs].
    destruct (lookup id (m_pools m)) as [P|]; [|discriminate Hs].
    unfold step_in in Hs.
    destruct (m_task m t') as [|i c|i an c|i c n|i c n nxt|i c n nxt todo|i an c|i c found|i item c ph|i ptr s|i ptr s|i ptr hd ph|i ptr hd|i ptr|i];
      try discriminate Hs;
      repeat match type of Hs with
      | Some (Ok (_, _)) = Some (Ok (_, _)) => injection Hs as <- <-; cbn; now apply upd_not
      | Some Undef = _ => discriminate Hs
      | Some Abort = _ => discriminate Hs
      | None = _ => discriminate Hs
      | context [bind ?y _] => destruct y; cbn [bind] in Hs
      | context [match ?y with _ => _ end] => destruct y; cbn [bind] in Hs
      end.
  - destruct o; try discriminate Hs;
      match type of Hs with context [bind ?y _] => destruct y as [[w y']| |]; cbn [bind] in Hs; try discriminate Hs; injection Hs as <- <-; reflexivity end.
Qed.
Lemma others_idle : forall l m m' t, forallb mine l = true -> go l m = Some m' -> t <> 1 -> t <> 2 -> m_task m t = TIdle -> m_task m' t = TIdle.
Proof.
  induction l as [|a l IH]; intros m m' t Hm H H1 H2 Ht; cbn [go forallb] in *; [injection H as <-; exact Ht|].
  apply andb_prop in Hm. destruct Hm as [Ha Hm]. destruct (permittedb m a); [|discriminate H].
  destruct (mstep e0 a m) as [[[m1 x]| |]|] eqn:Es; try discriminate H. apply (IH m1 m' t Hm H H1 H2).
  now rewrite (step_others a m m1 x t Es Ha H1 H2).
Qed.
Definition rests (l : list action) : bool :=
  forallb mine l && match go l (m_start v0) with Some m => idle (m_task m 1) && idle (m_task m 2) | None => false end.
Lemma rests_ok : forall l, rests l = true -> forall t, m_task (at_end l) t = TIdle.
Proof.
  intros l H t. unfold rests in H. apply andb_prop in H. destruct H as [Hm H]. unfold at_end.
  destruct (go l (m_start v0)) as [m|] eqn:E; [|discriminate H]. apply andb_prop in H. destruct H as [Ha Hb].
  destruct (Z.eq_dec t 1) as [->|N1]; [destruct (m_task m 1); try discriminate Ha; reflexivity|].
  destruct (Z.eq_dec t 2) as [->|N2]; [destruct (m_task m 2); try discriminate Hb; reflexivity|].
  exact (others_idle l _ m t Hm E N1 N2 eq_refl).
Qed.
