(** Concrete runs of the lock on weakly ordered memory, with and without the
    fences, for C54. *)
From Coq Require Import ZArith Bool List Lia.
From Verif Require Import RseqIR RseqSpec RseqKernel RseqSafe MemLemmas RunLemmas RseqSim RseqOwn RseqCalls RseqProps Archs ArchsGood.
From Verif Require Import LinSpec ClientModel ClientSpec Replay ExRseq ClientReplay ExClients ViewModel ViewSpec ExView SyncModel SyncSc.
Import ListNotations.
Local Open Scope Z_scope.

(** ** Replaying runs *)
Section XReplay.
Variable Loc : Type.
Variable cl : client Loc.
Variables (g : cfg) (tx : text) (n : nat) (p : player Loc).
Hypothesis Hp : plays cl p.
Variable others : nat -> thread Loc.
Hypothesis Hoth : forall t, t_on (others t) = None.
Variable nq : Loc -> Loc -> bool.
Hypothesis Hnq : forall l, nq l l = false.
Variables (rel : Loc -> bool) (acq : Loc -> call -> Z -> bool).
Notation cstate := (cstate Loc).

(** The stores the thread sees: the newest, except for the given ones. *)
Definition pick (C : cstate) (old : list (Z * (nat * Z))) (x : Z) : nat * Z :=
  match find (fun e => fst e =? x) old with Some e => snd e | None => ntop (w_hist (c_w C) x) end.
Definition okold (C : cstate) (t : nat) (e : Z * (nat * Z)) : bool :=
  existsb (fun h => Nat.eqb (fst h) (fst (snd e)) && (snd h =? snd (snd e))) (w_hist (c_w C) (fst e)) &&
  Nat.leb (w_thr (c_w C) t (fst e)) (fst (snd e)).

Fixpoint xreplay (C : cstate) (al : list (cact * list (Z * (nat * Z)))) :
    option (list (RseqKernel.state Loc * clabel) * cstate) :=
  match al with
  | [] => Some ([], C)
  | (a, old) :: al =>
    if skipb Loc (w_core (c_w C)) a then xreplay C al else
    if negb (forallb (okold C (who a)) old) then None else
    let m := fun x => snd (pick C old x) in
    match cdo1 Loc cl g tx n p (set_m (w_core (c_w C)) m) a with
    | Some (l, s') =>
      if changedb Loc nq (s_thr (w_core (c_w C)) (who a)) (s_thr s' (who a))
      then match xreplay (xnext Loc g tx rel acq C (who a) m (fun x => fst (pick C old x)) l s') al with
           | Some (tr, C') => Some ((w_core (c_w C), l) :: tr, C') | None => None end
      else None
    | None => None
    end
  end.

Lemma cpath_app : forall C tr C', cpath g tx cl rel acq C tr C' -> forall tr' C'',
  cpath g tx cl rel acq C' tr' C'' -> cpath g tx cl rel acq C (tr ++ tr') C''.
Proof.
  intros C tr C' H tr' C'' H'. induction H'.
  - rewrite app_nil_r. auto.
  - rewrite app_assoc. econstructor; eauto.
Qed.

Lemma xreplay_path : forall al C tr C', xreplay C al = Some (tr, C') -> fresh Loc C -> stays n others (w_core (c_w C)) ->
  cpath g tx cl rel acq C tr C' /\ fresh Loc C'.
Proof.
  induction al as [|[a old] al IH]; cbn [xreplay]; intros C tr C' H Hf Hq.
  - injection H as <- <-. split; auto. constructor.
  - destruct (skipb Loc (w_core (c_w C)) a); [eauto|].
    destruct (forallb (okold C (who a)) old) eqn:Eo; cbn [negb] in H; [|discriminate H].
    set (m := fun x => snd (pick C old x)) in *. set (ix := fun x => fst (pick C old x)) in *.
    destruct (cdo1 Loc cl g tx n p (set_m (w_core (c_w C)) m) a) as [[l s']|] eqn:E; [|discriminate H].
    destruct (changedb Loc nq (s_thr (w_core (c_w C)) (who a)) (s_thr s' (who a))) eqn:Ec; [|discriminate H].
    destruct (xreplay (xnext Loc g tx rel acq C (who a) m ix l s') al) as [[tr1 C1]|] eqn:Er; [|discriminate H].
    injection H as <- <-.
    destruct (cdo1_ok Loc cl g tx n p Hp others Hoth _ _ _ _ E Hq) as (H1 & H2 & H5).
    pose proof (cdo1_acts Loc cl g tx n p nq Hnq _ _ _ _ E Ec) as Ha.
    assert (Hsee : forall x, In (ix x, m x) (w_hist (c_w C) x) /\ (w_thr (c_w C) (who a) x <= ix x)%nat).
    { intros x. unfold ix, m, pick. destruct (find (fun e => fst e =? x) old) as [e|] eqn:Ef; [|apply see_newest; auto].
      apply find_some in Ef. destruct Ef as [Ei Ex]. apply Z.eqb_eq in Ex. subst x.
      rewrite forallb_forall in Eo. specialize (Eo _ Ei). unfold okold in Eo. apply andb_prop in Eo. destruct Eo as [E1 E2].
      apply PeanoNat.Nat.leb_le in E2. split; auto. apply existsb_exists in E1. destruct E1 as ([j c] & F1 & F2). cbn in F2.
      apply andb_prop in F2. destruct F2 as [F2 F3]. apply PeanoNat.Nat.eqb_eq in F2. apply Z.eqb_eq in F3. subst. exact F1. }
    destruct (xnext_ok Loc g tx cl rel acq C (who a) m ix l s' Hf Hsee H1 Ha) as (X1 & X2 & X3 & _).
    destruct (IH _ _ _ Er X2) as [P1 P2]; [rewrite X3; exact H2|]. split; auto.
    change ((w_core (c_w C), l) :: tr1) with ([(w_core (c_w C), l)] ++ tr1). eapply cpath_app; [|exact P1].
    change [(w_core (c_w C), l)] with ([] ++ [(w_core (c_w C), l)]). econstructor; [constructor|exact X1|]. destruct l; exact H5.
Qed.
End XReplay.

(** The newest stores are determined. *)
Lemma newest_ntop : forall h b, newest h b -> In (ntop h) h -> (forall j c, In (j, c) h -> (j, c) = ntop h \/ (j < fst (ntop h))%nat) ->
  b = snd (ntop h).
Proof.
  intros h b (i & H1 & H2) H3 H4. destruct (ntop h) as [k c]. cbn [fst snd] in *. destruct (H4 _ _ H1) as [E|E]; [congruence|].
  destruct (H2 _ _ H3) as [F|F]; [congruence|lia].
Qed.

(** ** The lock *)
Definition lock_nq (l l' : lock_loc) : bool :=
  match l, l' with
  | Lk_idle _, Lk_try _ _ | Lk_held _ _, Lk_read _ _ _ | Lk_read _ _ _, Lk_wrote _ _
  | Lk_wrote _ _, Lk_release _ _ | Lk_release _ _, Lk_idle _ => true
  | _, _ => false
  end.

(** Thread 0 takes the lock of CPU 0 and is moved to CPU 1, and thread 1 to CPU 0.
    Thread 0 increments the count and releases the lock, then thread 1 takes it
    and increments the count.  Its load of the count sees [old]. *)
Definition now (al : list cact) : list (cact * list (Z * (nat * Z))) := map (fun a => (a, [])) al.
Definition sync_acts (old : list (Z * (nat * Z))) : list (cact * list (Z * (nat * Z))) :=
  now ([CTau 0 0; CCall 0] ++ fin 0 ++ [CPreempt 0; CPreempt 1; CResume 1 0; CResume 0 1] ++
       [CTau 0 0; CWrite 0; CTau 0 0; CWrite 0] ++ [CTau 1 0; CCall 1] ++ fin 1) ++
  [(CTau 1 0, old); (CWrite 1, [])].
Definition stale_count : list (Z * (nat * Z)) := map (fun x => (x, (O, 0))) (span (ex_cnt 0) 8).
Definition dw := demo_text AARCH64 false.
Definition ex_lock_client := lock_client demo_cfg CPU_ID two ex_cnt ex_lk.
Definition sync_total (C : cstate lock_loc) : Z := total demo_cfg two ex_cnt (fun x => snd (ntop (w_hist (c_w C) x))).

Definition sync_check (rel : lock_loc -> bool) (acq : lock_loc -> call -> Z -> bool) (al : list (cact * list (Z * (nat * Z)))) (z : Z) : bool :=
  match xreplay lock_loc ex_lock_client demo_cfg dw 2 lock_player lock_nq rel acq (sync_start lock_s0) al with
  | Some (tr, C) => (count is_count_store (obs tr) =? 2) && (sync_total C =? z) && Nat.eqb (holders (w_core (c_w C)) 0 1) 1 &&
      returned 0 0 tr && returned 1 0 tr
  | None => false
  end.
Lemma sync_ends : forall rel acq al z, sync_check rel acq al z = true ->
  exists wtr C, cpath demo_cfg dw ex_lock_client rel acq (sync_start lock_s0) wtr C /\
    returned 0 0 wtr = true /\ returned 1 0 wtr = true /\ holders (w_core (c_w C)) 0 1 = 1%nat /\
    count is_count_store (obs wtr) = 2 /\
    forall m, (forall cpu x, In cpu two -> In x (span (ex_cnt cpu) 8) -> newest (w_hist (c_w C) x) (m x)) ->
      total demo_cfg two ex_cnt m = z.
Proof.
  intros rel acq al z H. unfold sync_check in H.
  destruct (xreplay lock_loc ex_lock_client demo_cfg dw 2 lock_player lock_nq rel acq (sync_start lock_s0) al)
    as [[tr C]|] eqn:E; [|discriminate H].
  apply andb_prop in H. destruct H as [H F5]. apply andb_prop in H. destruct H as [H F4]. apply andb_prop in H. destruct H as [H F3].
  apply andb_prop in H. destruct H as [F1 F2]. apply Z.eqb_eq in F1, F2. apply PeanoNat.Nat.eqb_eq in F3.
  destruct (xreplay_path lock_loc ex_lock_client demo_cfg dw 2 lock_player lock_plays (fun t => idle_thread (Lk_idle 1) None)
    (fun _ => eq_refl) lock_nq ltac:(intros []; reflexivity) rel acq _ _ _ _ E (fresh_start _ lock_s0)
    (cstart_stays mem0 (fun _ => Lk_idle 1))) as [P Hf].
  exists tr, C. split; [exact P|]. split; auto. split; auto. split; auto. split; auto. intros m Hm. rewrite <- F2. unfold sync_total.
  assert (Hx : forall cpu x, In cpu two -> In x (span (ex_cnt cpu) 8) -> m x = snd (ntop (w_hist (c_w C) x))).
  { intros cpu x Hc Hx. destruct (proj1 Hf x) as [T1 T2]. exact (newest_ntop _ _ (Hm cpu x Hc Hx) T1 T2). }
  clear - Hx. assert (Hl : forall cpu, In cpu two -> ldw demo_cfg m (ex_cnt cpu) = ldw demo_cfg (fun x => snd (ntop (w_hist (c_w C) x))) (ex_cnt cpu)).
  { intros cpu Hc. apply ldw_agree. intros x Hin. eapply Hx; eauto. }
  revert Hl. generalize two. intros l. induction l as [|c l IH]; intros Hl; [reflexivity|].
  unfold total in *. cbn [fold_right]. rewrite (Hl c) by (left; auto). f_equal. apply IH. intros cpu Hc. apply Hl. right. auto.
Qed.

Lemma ex_fences : sync_check lock_rel lock_acq (sync_acts []) 2 = true.
Proof. vm_compute. reflexivity. Qed.
Lemma ex_no_acquire : sync_check lock_rel (fun _ _ _ => false) (sync_acts stale_count) 1 = true.
Proof. vm_compute. reflexivity. Qed.
Lemma ex_no_release : sync_check (fun _ => false) lock_acq (sync_acts stale_count) 1 = true.
Proof. vm_compute. reflexivity. Qed.
(** With the fences the stale load is impossible. *)
Lemma ex_not_stale : sync_check lock_rel lock_acq (sync_acts stale_count) 1 = false.
Proof. vm_compute. reflexivity. Qed.
