(** The per-CPU spinlock on weakly ordered memory: proofs for C54. *)
From Coq Require Import ZArith Bool List Lia Arith.
From Verif Require Import RseqIR RseqSpec RseqKernel RseqSafe RseqProps MemLemmas RunLemmas RseqSim RseqOwn RseqCalls RseqMisc.
From Verif Require Import Archs ArchsGood LinSpec LinProofs ClientModel ClientSpec CntProofs LockProofs RaceProofs.
From Verif Require Import ViewModel ViewSpec ViewProofs SyncModel.
Import ListNotations.
Local Open Scope Z_scope.

(** ** Stores *)
Lemma stores_vals : forall ps h v h' v', stores ps h v h' v' -> forall x j b, In (j, b) (h' x) ->
  In (j, b) (h x) \/ In (x, b) ps.
Proof.
  intros ps h v h' v' H. induction H as [|y c ps h v i h' v' H1 H2 H3 IH]; intros x j b Hin; auto.
  destruct (IH x j b Hin) as [E|E]; [|right; right; auto]. destruct (Z.eqb_spec x y) as [->|]; auto.
  destruct E as [E|E]; auto. injection E as -> ->. right. left. reflexivity.
Qed.
Lemma stores_other : forall ps h v h' v', stores ps h v h' v' -> forall x, ~ In x (map fst ps) -> h' x = h x.
Proof.
  intros ps h v h' v' H. induction H as [|y c ps h v i h' v' H1 H2 H3 IH]; intros x Hx; auto.
  cbn in Hx. rewrite IH by tauto. destruct (Z.eqb_spec x y) as [->|]; auto. exfalso. apply Hx. auto.
Qed.
Lemma stores_one : forall ps h v h' v', stores ps h v h' v' -> NoDup (map fst ps) -> forall x b, In (x, b) ps ->
  exists i, h' x = (i, b) :: h x /\ (v x < i)%nat /\ forall c, ~ In (i, c) (h x).
Proof.
  intros ps h v h' v' H. induction H as [|y c ps h v i h' v' H1 H2 H3 IH]; intros Hnd x b Hin; [destruct Hin|].
  cbn in Hnd. inversion Hnd as [|? ? N1 N2]; subst. destruct Hin as [E|Hin].
  - injection E as -> ->. exists i. rewrite (stores_other _ _ _ _ _ H3 x N1), Z.eqb_refl. auto.
  - destruct (IH N2 x b Hin) as (j & J1 & J2 & J3). exists j.
    destruct (Z.eqb_spec x y) as [->|]; [|auto]. exfalso. apply N1. apply (in_map fst _ (y, b)). auto.
Qed.

(** ** Words that are 0 or 1 *)
Lemma le_bytes_0 : forall n b, In b (le_bytes n 0) -> b = 0.
Proof. induction n as [|n IH]; cbn [le_bytes]; intros b []; [subst; reflexivity|]. apply IH. exact H. Qed.
Lemma stw_0 : forall g a x b, In (x, b) (stw g a 0) -> b = 0.
Proof.
  intros g a x b H. apply in_combine_r in H. apply (le_bytes_0 (wsize g)). unfold order in H.
  destruct (bigend g); auto. apply in_rev. auto.
Qed.

Section One.
Variable g : cfg.
(** The byte in which 0 and 1 differ. *)
Definition low (a : Z) : Z := if bigend g then a + Z.of_nat (pred (wsize g)) else a.
Hypothesis Hw : (0 < wsize g)%nat.
Lemma low_in : forall a, In (low a) (span a (wsize g)).
Proof.
  intros a. unfold low, span. apply in_map_iff. destruct (bigend g).
  - exists (pred (wsize g)). split; auto. apply List.in_seq. lia.
  - exists O. split; [lia|]. apply List.in_seq. lia.
Qed.
Lemma combine_app2 : forall (A B : Type) (l1 l2 : list A) (k1 k2 : list B), length l1 = length k1 ->
  combine (l1 ++ l2) (k1 ++ k2) = combine l1 k1 ++ combine l2 k2.
Proof. induction l1 as [|x l1 IH]; intros l2 [|y k1] k2 H; cbn in *; try discriminate; auto. f_equal. auto. Qed.
Lemma stw_1 : forall a x b, In (x, b) (stw g a 1) -> x <> low a -> b = 0.
Proof.
  intros a x b H Hn. unfold stw, order, low in *. destruct (wsize g) as [|n] eqn:En; [lia|]. cbn [pred] in Hn.
  cbn [le_bytes] in H. change (1 / 256) with 0 in H. change (1 mod 256) with 1 in H. destruct (bigend g).
  - cbn [rev] in H. assert (Es : span a (S n) = span a n ++ [a + Z.of_nat n]).
    { unfold span. rewrite seq_S, map_app. reflexivity. }
    rewrite Es, combine_app2 in H by (rewrite rev_length, le_bytes_length, span_length; reflexivity).
    apply in_app_or in H. destruct H as [H|[H|[]]]; [|congruence].
    apply in_combine_r in H. apply in_rev in H. eapply le_bytes_0; eauto.
  - unfold span in H. cbn [seq map combine] in H. destruct H as [H|H].
    + injection H as H _. lia.
    + apply in_combine_r in H. eapply le_bytes_0; eauto.
Qed.
End One.

(** ** Growing views *)
Section Grow.
Variable Loc : Type.
Notation wstate := (wstate Loc).
Notation cstate := (cstate Loc).
Notation state := (RseqKernel.state Loc).

Definition grows (W W' : wstate) : Prop :=
  w_core W' = w_core W /\ (forall t x, (w_thr W t x <= w_thr W' t x)%nat) /\
  (forall c x, (w_cpu W c x <= w_cpu W' c x)%nat) /\ (forall c x, (w_cid W c x <= w_cid W' c x)%nat).
Definition okc (W : wstate) (md : imode) (cpu x : Z) (i : nat) : Prop := ok Loc W (fun _ => OCpu md cpu) x i.

Lemma okc_grows : forall W W' md cpu x i, grows W W' -> okc W md cpu x i -> okc W' md cpu x i.
Proof.
  intros W W' md cpu x i (E & G1 & G2 & G3) [H1 H2]. unfold okc, ok in *. rewrite E. split.
  - intros t Ht. etransitivity; [apply H1; exact Ht|apply G1].
  - intros Hn. etransitivity; [apply H2; exact Hn|]. unfold left_view. destruct md; auto.
Qed.

(** The views together with those obtained by loads. *)
Definition plus (C : cstate) : wstate :=
  {| w_core := w_core (c_w C); w_hist := w_hist (c_w C);
     w_thr := fun t => join (w_thr (c_w C) t) (c_got C t);
     w_cpu := w_cpu (c_w C); w_cid := w_cid (c_w C) |}.

(** What a step of [t] does to the views. *)
Section Step.
Variables (C : cstate) (t : nat) (s' : state) (h' : Z -> list (nat * Z)) (v' : view) (a : bool) (msg' : Z -> nat -> view).
Let W := c_w C.
Let on := t_on (s_thr (w_core W) t).
Let on' := t_on (s_thr s' t).
Definition after : cstate :=
  {| c_w := {| w_core := s'; w_hist := h';
               w_thr := fun u => if Nat.eqb u t then arrive W on on' (if a then join v' (c_got C t) else v') else w_thr W u;
               w_cpu := leave_cpu W on on' (join v' (c_got C t));
               w_cid := leave_cid W on on' (join v' (c_got C t)) |};
     c_got := c_got C; c_msg := msg' |}.
Hypothesis Hoth : forall u, u <> t -> s_thr s' u = s_thr (w_core W) u.
Hypothesis Hon : on' = on \/ on' = None \/ on = None.
Hypothesis Hex : exclusive (fun t => t_on (s_thr (w_core W) t)).
Hypothesis Hex' : exclusive (fun t => t_on (s_thr s' t)).
Hypothesis Hv : forall x, (w_thr W t x <= v' x)%nat.

Lemma arrive_mono : forall (W : wstate) o o' v w x, (v x <= w x)%nat -> (arrive W o o' v x <= arrive W o o' w x)%nat.
Proof. intros W0 o o' v w x H. unfold arrive. destruct o; auto. destruct o' as [[cpu cid]|]; auto. unfold join. lia. Qed.
Lemma leave_mono : forall (W : wstate) o o' v w, (forall x, v x <= w x)%nat ->
  (forall c x, leave_cpu W o o' v c x <= leave_cpu W o o' w c x)%nat /\
  (forall c x, leave_cid W o o' v c x <= leave_cid W o o' w c x)%nat.
Proof.
  intros W0 o o' v w H. unfold leave_cpu, leave_cid. destruct o as [[cpu cid]|]; [|auto]. destruct o'; [auto|].
  split; intros c x; match goal with |- context [c =? ?k] => destruct (c =? k) end; auto; unfold join; specialize (H x); lia.
Qed.

Lemma grows_w : grows (next Loc W t s' h' v') (c_w after).
Proof.
  split; [reflexivity|]. cbn. split; [|split].
  - intros u x. destruct (Nat.eqb u t); auto. apply arrive_mono. destruct a; auto. apply join_l.
  - apply (proj1 (leave_mono W on on' _ _ (fun x => join_l v' (c_got C t) x))).
  - apply (proj2 (leave_mono W on on' _ _ (fun x => join_l v' (c_got C t) x))).
Qed.
Lemma grows_p : grows (next Loc (plus C) t s' h' (join v' (c_got C t))) (plus after).
Proof.
  split; [reflexivity|]. cbn. split; [|split; intros; apply le_n].
  intros u x. destruct (Nat.eqb_spec u t) as [->|]; auto. fold W. fold on. fold on'.
  unfold arrive. destruct on; [unfold join; destruct a; lia|].
  destruct on' as [[cpu cid]|]; [|unfold join; destruct a; lia]. cbn. fold W. unfold join. destruct a; lia.
Qed.

Lemma okc_after : forall md cpu x i0 i1, okc W md cpu x i0 -> ((i0 <= w_thr W t x)%nat -> (i1 <= v' x)%nat) ->
  (i1 = i0 \/ on_index on md = Some cpu) -> okc (c_w after) md cpu x i1.
Proof.
  intros md cpu x i0 i1 H H1 H2. eapply okc_grows; [apply grows_w|]. unfold okc.
  apply (ok_next Loc W t s' h' v' Hoth Hon Hex Hex' Hv _ x i0 i1 H H1).
  intros Hm. destruct H2 as [->|H2]; auto. exfalso. apply Hm. right. exists md, cpu. split; auto.
Qed.
Lemma okp_after : forall md cpu x i, okc (plus C) md cpu x i -> okc (plus after) md cpu x i.
Proof.
  intros md cpu x i H. eapply okc_grows; [apply grows_p|]. unfold okc.
  apply (ok_next Loc (plus C) t s' h' (join v' (c_got C t)) Hoth Hon Hex Hex') with (i0 := i); auto.
  - intros y. cbn. specialize (Hv y). fold W. unfold join. lia.
  - intros Hi. etransitivity; [exact Hi|]. cbn. specialize (Hv x). fold W. unfold join. lia.
Qed.
Lemma thr_after : forall u x, (w_thr W u x <= w_thr (c_w after) u x)%nat.
Proof.
  intros u x. cbn. destruct (Nat.eqb_spec u t) as [->|]; auto. etransitivity; [apply Hv|].
  etransitivity; [|apply arrive_ge]. destruct a; auto. apply join_l.
Qed.
Lemma v_after : forall x, (v' x <= w_thr (c_w after) t x)%nat.
Proof.
  intros x. cbn. rewrite Nat.eqb_refl. etransitivity; [|apply arrive_ge]. destruct a; auto. apply join_l.
Qed.
Lemma plus_after : forall u x, (w_thr (plus C) u x <= w_thr (plus after) u x)%nat.
Proof. intros u x. exact (Nat.max_le_compat_r _ _ (c_got C u x) (thr_after u x)). Qed.
Lemma fence_after : a = true -> forall x, (w_thr (plus C) t x <= w_thr (c_w after) t x)%nat.
Proof.
  intros Ha x. cbn. rewrite Nat.eqb_refl, Ha. etransitivity; [|apply arrive_ge]. specialize (Hv x). fold W. unfold join. lia.
Qed.
End Step.
End Grow.

(** ** The lock, with an unlock that takes effect when it is noticed

    The unlock of a thread becomes visible to the other threads some time after
    it.  Until a helper on the CPU of the lock reads it, it is as if the lock were
    still held, by nobody.  So the invariant is about a client whose unlock does
    not store anything, and the store of 0 happens just before a helper first
    reads the 0. *)
Section Ghost.
Variables (g : cfg) (md : imode) (cpus : list Z) (cnt lk : Z -> Z).
Hypothesis Hw1 : 1 < wmod g.
Hypothesis Hnd : NoDup cpus.
Hypothesis Hlay : lock_layout g cpus cnt lk.
Variable T0 : Z.
Notation cl := (lock_client g md cpus cnt lk).

Definition cl2 : client lock_loc :=
  {| cl_call := cl_call _ cl; cl_ret := cl_ret _ cl;
     cl_write := fun l _ ps l' =>
       (exists n cpu v, l = Lk_read n cpu v /\ ps = stw g (cnt cpu) (wrap g (v + 1)) /\ l' = Lk_wrote n cpu) \/
       (exists n cpu, l = Lk_release n cpu /\ ps = [] /\ l' = Lk_idle (pred n));
     cl_tau := cl_tau _ cl; cl_sig := cl_sig _ cl; cl_done := cl_done _ cl |}.

(** Per lock: free; held by the context of thread [t] at depth [d], [f]: past the
    acquire fence; released, but not noticed. *)
Inductive lst := Free | Held (t d : nat) (f : bool) | Loose.
Definition sghost := Z -> lst.

Definition s_glob (gh : sghost) (es : list (event lock_loc)) (m : mem) : Prop :=
  (forall cpu, gh cpu <> Free -> In cpu cpus /\ ldw g m (lk cpu) = 1) /\
  wrap g (total g cpus cnt m) = wrap g (T0 + n_cs es).
Definition sowns (gh : sghost) (t d : nat) (o : option (Z * bool)) : Prop :=
  forall cpu f, gh cpu = Held t d f <-> o = Some (cpu, f).
Definition s_ctx (gh : sghost) (m : mem) (t d : nat) (x : actx lock_loc) : Prop :=
  match a_loc x, a_act x with
  | Lk_idle _, None => sowns gh t d None
  | Lk_try _ cpu, None => sowns gh t d None
  | Lk_try _ cpu, Some (c, st) => (In cpu cpus /\ c_op c = CbneStore (lk cpu) 0 1 /\ c_cpu c = cpu /\ c_mode c = md) /\
      sowns gh t d (match st with Finished 0 => Some (cpu, false) | _ => None end)
  | Lk_held _ cpu, None | Lk_wrote _ cpu, None | Lk_release _ cpu, None => sowns gh t d (Some (cpu, true))
  | Lk_read _ cpu v, None => sowns gh t d (Some (cpu, true)) /\ ldw g m (cnt cpu) = v
  | _, _ => False
  end.
Definition s_absent (gh : sghost) (t d : nat) : Prop := sowns gh t d None.
Definition sset (gh : sghost) (cpu : Z) (o : lst) : sghost := fun c => if c =? cpu then o else gh c.
Notation keeps2 := (keeps lock_loc sghost s_ctx s_absent).
Notation holds2 := (holds_inv lock_loc sghost s_glob s_ctx s_absent).

Lemma sset_same : forall gh cpu o, sset gh cpu o cpu = o.
Proof. intros. unfold sset. now rewrite Z.eqb_refl. Qed.
Lemma sset_other : forall gh cpu o c, c <> cpu -> sset gh cpu o c = gh c.
Proof. intros. unfold sset. destruct (Z.eqb_spec c cpu); congruence. Qed.

Lemma sowns_iff : forall gh gh' t d o, (forall cpu f, gh cpu = Held t d f <-> gh' cpu = Held t d f) ->
  sowns gh t d o -> sowns gh' t d o.
Proof. intros gh gh' t d o H H1 cpu f. rewrite <- H. apply H1. Qed.

Lemma s_keeps : forall gh m t d gh' m',
  (forall t' d', (t', d') <> (t, d) -> forall cpu f, gh cpu = Held t' d' f <-> gh' cpu = Held t' d' f) ->
  (forall cpu t' d' f, gh cpu = Held t' d' f -> (t', d') <> (t, d) -> ldw g m' (cnt cpu) = ldw g m (cnt cpu)) ->
  keeps2 gh m t d gh' m'.
Proof.
  intros gh m t d gh' m' H1 H2. split.
  - intros t' d' [l o] Hne H. specialize (H1 t' d' Hne).
    unfold s_ctx in *. cbn [a_loc a_act] in *.
    destruct l; destruct o as [[c st]|]; try contradiction;
      try (eapply sowns_iff; eauto; fail); try (destruct H as [Ha Hb]; split; auto; eapply sowns_iff; eauto; fail).
    destruct H as [Ha Hb]. split; [eapply sowns_iff; eauto|]. rewrite <- Hb. eapply H2; [|exact Hne]. apply Ha. reflexivity.
  - intros t' d' Hne H. eapply sowns_iff; [apply H1; auto|exact H].
Qed.
(** One lock of the context itself changes state. *)
Lemma s_keeps_set : forall gh m t d cpu o, (forall t' d' f, gh cpu = Held t' d' f -> (t', d') = (t, d)) ->
  (forall t' d' f, o = Held t' d' f -> (t', d') = (t, d)) ->
  forall m', (forall c t' d' f, gh c = Held t' d' f -> (t', d') <> (t, d) -> ldw g m' (cnt c) = ldw g m (cnt c)) ->
  keeps2 gh m t d (sset gh cpu o) m'.
Proof.
  intros gh m t d cpu o H1 H2 m' H3. apply s_keeps; auto. intros t' d' Hne c f. unfold sset.
  destruct (Z.eqb_spec c cpu) as [->|]; [|reflexivity]. split; intros E; exfalso; apply Hne; eauto.
Qed.
Lemma sowns_set : forall gh t d cpu f o0, sowns gh t d o0 -> (o0 = None \/ exists f0, o0 = Some (cpu, f0)) ->
  sowns (sset gh cpu (Held t d f)) t d (Some (cpu, f)).
Proof.
  intros gh t d cpu f o0 H Ho c f'. unfold sset. destruct (Z.eqb_spec c cpu) as [->|Hn].
  - split; intros E; injection E as <-; reflexivity.
  - rewrite (H c f'). split; intros E.
    + destruct Ho as [->|(f0 & ->)]; [discriminate E|injection E as <- _; congruence].
    + injection E as -> _. congruence.
Qed.
Lemma sowns_free : forall gh t d cpu f, sowns gh t d (Some (cpu, f)) -> forall o, (forall t d f, o <> Held t d f) ->
  sowns (sset gh cpu o) t d None.
Proof.
  intros gh t d cpu f H o Ho c f'. unfold sset. destruct (Z.eqb_spec c cpu) as [->|Hn].
  - split; intros E; [exfalso; eapply Ho; eauto|discriminate E].
  - rewrite (H c f'). split; intros E; [injection E as -> _; congruence|discriminate E].
Qed.

(** How a step of the abstract machine changes the locks. *)
Definition chg (s : astate lock_loc) (l : alabel) (gh gh' : sghost) : Prop :=
  match l with
  | ALcommit t c ps => exists d cpu, In cpu cpus /\ c_cpu c = cpu /\ c_mode c = md /\ gh cpu = Free /\
      ps = stw g (lk cpu) 1 /\ gh' = sset gh cpu (Held t d false) /\ on_right_cpu s t c
  | ALret t c r => gh' = gh \/ exists d cpu n k, r = 0 /\ gh cpu = Held t d false /\
      a_thr s t = {| a_loc := Lk_try n cpu; a_act := Some (c, Finished 0) |} :: k /\ gh' = sset gh cpu (Held t d true)
  | ALwrite t ps =>
      (exists d cpu n k, ps = [] /\ a_thr s t = {| a_loc := Lk_release n cpu; a_act := None |} :: k /\
         gh cpu = Held t d true /\ gh' = sset gh cpu Loose) \/
      (exists d cpu v, gh cpu = Held t d true /\ ps = stw g (cnt cpu) v /\ gh' = gh)
  | ALattempt t c ps => ps = [] /\ gh' = gh
  | _ => gh' = gh
  end.

Lemma Hsz : (0 < wsize g)%nat.
Proof. unfold wmod in Hw1. destruct (wsize g); [|lia]. cbn in Hw1. lia. Qed.

Lemma s_step : forall gh es s l s', holds2 gh es s -> astep g cl2 s l s' ->
  exists gh', holds2 gh' (es ++ effects lock_loc (aev s l)) s' /\ chg s l gh gh'.
Proof.
  intros gh es s l s' H Hs. pose proof H as [HG HS]. pose proof HG as [HG1 HG2]. destruct Hlay as (La & Lb & Lc).
  assert (Hctx : forall t x k, a_thr s t = x :: k -> s_ctx gh (a_mem s) t (length k) x).
  { intros t x k E. destruct (HS t) as [H1 _]. rewrite E in H1. apply H1. }
  destruct Hs as [s u l1 k c E Hc|s u l1 k c r E|s u l1 k ps l2 m2 E Hw Hm|s u l1 k l2 E Ht|s u x k l2 E Hg|s u l1 x k E Hd|s on' Hx|s u l1 k c w att fin ps m2 E Hr Ep Hi Hm|s u l1 k c w att fin m2 E Hr Ep Hm|s u l1 k c E Hr Ep|s u l1 k c st E Hst];
    cbn [aev]; try rewrite E; cbn [effects filter a_loc]; rewrite ?app_nil_r; try (specialize (Hctx _ _ _ E)).
  - (* call *) exists gh. split; [|reflexivity].
    eapply (inv_top lock_loc sghost); [exact H|exact E|exact HG| |apply keeps_same|reflexivity|reflexivity].
    destruct Hc as (n & cpu & -> & Hi & Hop & Hcc & Hmm). cbn in *. auto.
  - (* ret *)
    unfold s_ctx in Hctx. cbn in Hctx. destruct l1 as [|n cpu| | | | |]; try contradiction. destruct Hctx as [Hx Ho].
    destruct (Z.eq_dec r 0) as [->|Hr].
    + assert (Hgc : gh cpu = Held u (length k) false) by (apply Ho; reflexivity).
      exists (sset gh cpu (Held u (length k) true)). split.
      * eapply (inv_top lock_loc sghost); [exact H|exact E| | |apply s_keeps_set|reflexivity|reflexivity].
        { split; auto. intros c' Hc'. destruct (Z.eq_dec c' cpu) as [->|Hn]; [apply HG1; congruence|].
          rewrite sset_other in Hc' by auto. auto. }
        { cbn. eapply sowns_set; [exact Ho|right; eauto]. }
        { intros t' d' f E1. rewrite Hgc in E1. congruence. }
        { intros t' d' f E1. congruence. }
        { reflexivity. }
      * right. exists (length k), cpu, n, k. auto.
    + exists gh. split; [|left; reflexivity].
      eapply (inv_top lock_loc sghost); [exact H|exact E|exact HG| |apply keeps_same|reflexivity|reflexivity].
      cbn. destruct (Z.eqb_spec r 0); [contradiction|]. cbn. destruct r; [congruence|auto|auto].
  - (* write *) destruct Hw as [(n & cpu & v & -> & -> & ->)|(n & cpu & -> & -> & ->)].
    + cbn in Hctx. destruct Hctx as [Ho Hv]. assert (Hgc : gh cpu = Held u (length k) true) by (apply Ho; auto).
      destruct (HG1 cpu ltac:(congruence)) as [Hin _].
      exists gh. split; [|right; exists (length k), cpu, (wrap g (v + 1)); auto].
      eapply (inv_top lock_loc sghost); [exact H|exact E| | | |reflexivity|reflexivity].
      * split.
        { intros c Hc. destruct (HG1 c Hc) as [Hi Hl]. split; auto. rewrite <- Hl.
          eapply ldw_wr_other; [exact Hm|]. rewrite stw_keys. apply Lc; auto. }
        rewrite n_cs_snoc. cbn. rewrite (total_one g cpus cnt (a_mem s) m2 cpu); auto.
        { rewrite (ldw_wr_same g (a_mem s) m2 _ _ Hm (wrap_range g _)), Hv. unfold wrap in *.
          rewrite Zplus_mod, HG2, <- Zplus_mod. replace (T0 + (n_cs es + 1)) with (T0 + n_cs es + 1) by lia.
          rewrite (Zplus_mod (T0 + n_cs es) 1). rewrite (Zplus_mod (T0 + n_cs es) (_ - _)).
          f_equal. f_equal. rewrite Zminus_mod_idemp_l. f_equal. lia. }
        intros c Hc Hne. eapply ldw_wr_other; [exact Hm|]. rewrite stw_keys. apply La; auto.
      * exact Ho.
      * apply s_keeps; [intros; reflexivity|]. intros c t' d' f Hc Hne. eapply ldw_wr_other; [exact Hm|]. rewrite stw_keys.
        destruct (HG1 c ltac:(congruence)) as [Hi _]. apply La; auto. intros ->. congruence.
    + cbn in Hctx. assert (Hgc : gh cpu = Held u (length k) true) by (apply Hctx; auto). cbn [wr fold_left] in Hm.
      exists (sset gh cpu Loose). split; [|left; exists (length k), cpu, n, k; auto].
      eapply (inv_top lock_loc sghost); [exact H|exact E| | |apply s_keeps_set|reflexivity|reflexivity].
      * split.
        { intros c Hc. rewrite (ldw_meq g _ _ _ Hm). destruct (Z.eq_dec c cpu) as [->|Hn]; [apply HG1; congruence|].
          rewrite sset_other in Hc by auto. auto. }
        rewrite n_cs_snoc. cbn. rewrite Z.add_0_r, (total_ext g cpus cnt (a_mem s) m2); auto. intros; apply ldw_meq; auto.
      * cbn. eapply sowns_free; [exact Hctx|]. discriminate.
      * intros t' d' f E1. congruence.
      * discriminate.
      * intros. apply ldw_meq; auto.
  - (* tau *) exists gh. split; [|reflexivity].
    eapply (inv_top lock_loc sghost); [exact H|exact E|exact HG| |apply keeps_same|reflexivity|reflexivity].
    destruct Ht as [(n & cpu & -> & Hi & ->)|[(n & cpu & -> & ->)|(n & cpu & -> & ->)]]; cbn in *; auto.
    assert (Hgc : gh cpu = Held u (length k) true) by (apply Hctx; auto).
    destruct (HG1 cpu ltac:(congruence)) as [_ Hl]. rewrite Hl. cbn. auto.
  - (* signal *) exists gh. split; [|reflexivity]. split; [exact HG|]. intros t. cbn. destruct (HS t) as [H1 H2]. destruct (Nat.eqb_spec t u) as [->|Hn]; auto.
    rewrite E in *. destruct Hg as (n & ->). split.
    + cbn [Stk]. split; [|exact H1]. cbn [length]. apply H2. cbn. lia.
    + intros d Hd. apply H2. cbn in *. lia.
  - exists gh. split; [|reflexivity]. split; [exact HG|]. intros t. cbn. destruct (HS t) as [H1 H2]. destruct (Nat.eqb_spec t u) as [->|Hn]; auto.
    rewrite E in *. cbn [Stk] in H1. split; [apply H1|]. intros d Hd0.
    destruct (Nat.eq_dec d (length (x :: k))) as [->|Hne].
    + cbn in Hd. subst l1. apply H1.
    + apply H2. cbn in *. lia.
  - exists gh. split; [|reflexivity]. split; [exact HG|]. exact HS.
  - (* attempt *)
    assert (ps = []) as ->.
    { assert (att = []) as ->.
      { unfold s_ctx in Hctx. cbn in Hctx. destruct l1; try contradiction. destruct Hctx as [(_ & Hop & _) _]. rewrite Hop in Ep.
        cbn in Ep. destruct (ldw g (a_mem s) (lk cpu) =? 0); [injection Ep as <- <-; auto|discriminate]. }
      destruct ps as [|p ps]; [auto|destruct (Hi p (or_introl eq_refl))]. }
    cbn [wr fold_left] in Hm. exists gh. split; [|split; reflexivity].
    eapply (inv_top lock_loc sghost) with (m' := m2); [exact H|exact E| | | |reflexivity|reflexivity].
    + split; [intros c' Hc'; rewrite (ldw_meq g _ _ _ Hm); auto|].
      rewrite (total_ext g cpus cnt (a_mem s) m2); auto. intros; apply ldw_meq; auto.
    + unfold s_ctx in *. cbn in *. destruct l1; auto.
    + apply s_keeps; [intros; reflexivity|]. intros; apply ldw_meq; auto.
  - (* commit *)
    unfold s_ctx in Hctx. cbn in Hctx. destruct l1 as [|n cpu| | | | |]; try contradiction.
    destruct Hctx as [(Hi & Hop & Hcc & Hmd) Ho]. rewrite Hop in Ep. cbn in Ep.
    destruct (Z.eqb_spec (ldw g (a_mem s) (lk cpu)) 0) as [E0|]; [|discriminate]. injection Ep as <- <-. cbn [wr fold_left] in Hm.
    assert (Hfree : gh cpu = Free). { destruct (gh cpu) eqn:Eg; auto; destruct (HG1 cpu ltac:(congruence)); lia. }
    exists (sset gh cpu (Held u (length k) false)).
    split; [|exists (length k), cpu; auto 10].
    eapply (inv_top lock_loc sghost) with (m' := m2); [exact H|exact E| | |apply s_keeps_set|reflexivity|reflexivity].
    + split.
      { intros c' Hc'. destruct (Z.eq_dec c' cpu) as [->|Hne].
        - split; auto. eapply ldw_wr_same; [exact Hm|lia].
        - rewrite sset_other in Hc' by auto. destruct (HG1 c' Hc') as [Hi' Hl']. split; auto. rewrite <- Hl'.
          eapply ldw_wr_other; [exact Hm|]. rewrite stw_keys. apply Lb; auto. }
      rewrite n_cs_snoc. cbn. rewrite Z.add_0_r. rewrite (total_ext g cpus cnt (a_mem s) m2); auto.
      intros c' Hc'. eapply ldw_wr_other; [exact Hm|]. rewrite stw_keys. intros a Ha Hb. exact (Lc c' cpu Hc' Hi a Hb Ha).
    + cbn. split; auto. eapply sowns_set; [exact Ho|auto].
    + intros t' d' f E1. congruence.
    + congruence.
    + intros c' t' d' f Hc' Hne. eapply ldw_wr_other; [exact Hm|]. rewrite stw_keys.
      destruct (HG1 c' ltac:(congruence)) as [Hi' _]. intros a Ha Hb. exact (Lc c' cpu Hi' Hi a Hb Ha).
  - (* fail *) exists gh. split; [|reflexivity].
    eapply (inv_top lock_loc sghost); [exact H|exact E| | |apply keeps_same|reflexivity|reflexivity].
    + split; auto. rewrite n_cs_snoc. cbn. rewrite Z.add_0_r. exact HG2.
    + unfold s_ctx in *. cbn in *. destruct l1; auto.
  - (* abort *) exists gh. split; [|reflexivity].
    eapply (inv_top lock_loc sghost); [exact H|exact E|exact HG| |apply keeps_same|reflexivity|reflexivity].
    unfold s_ctx in *. cbn in *. destruct l1; auto.
    destruct Hctx as [H1 H2]. split; auto. destruct Hst as [(w & ->)| ->]; auto.
Qed.

(** What is in flight. *)
Lemma s_flight : forall gh es s t c, holds2 gh es s -> in_flight s t c ->
  exists cpu, In cpu cpus /\ c_op c = CbneStore (lk cpu) 0 1 /\ c_cpu c = cpu /\ c_mode c = md.
Proof.
  intros gh es s t c [HG HS] [_ (l & k & w & E)]. destruct (HS t) as [H1 _]. rewrite E in H1. destruct H1 as [H1 _].
  unfold s_ctx in H1. cbn in H1. destruct l as [|n cpu| | | | |]; try contradiction. exists cpu. apply H1.
Qed.
Lemma lock_touched : forall cpu m x, In x (touched g (CbneStore (lk cpu) 0 1) m) -> In x (span (lk cpu) (wsize g)).
Proof.
  intros cpu m x Ha. unfold touched, in_use, attempts in Ha. cbn in Ha. destruct (ldw g m (lk cpu) =? 0); cbn in Ha;
    rewrite ?app_nil_r in Ha; auto. rewrite stw_keys in Ha. apply in_app_or in Ha. destruct Ha; auto.
Qed.
Lemma s_wf : forall gh es s, holds2 gh es s -> forall t c, in_flight s t c -> op_wf g (c_op c) (a_mem s).
Proof.
  intros gh es s H t c Hc. destruct (s_flight _ _ _ _ _ H Hc) as (cpu & _ & -> & _). split; auto.
  intros a Ha. unfold attempts in Ha. cbn in Ha. destruct (ldw g (a_mem s) (lk cpu) =? 0); destruct Ha.
Qed.
Lemma s_ni : forall gh es s, holds2 gh es s -> exclusive (a_on s) ->
  forall l s' t ps, astep g cl2 s l s' -> writes l = Some (t, ps) -> no_interference g s t ps.
Proof.
  intros gh es s H Hex l s' t ps Hs Hw. destruct (s_step _ _ _ _ _ H Hs) as (gh' & _ & Hc).
  pose proof H as [[HG1 _] _]. destruct Hlay as (La & Lb & Lc).
  intros u c Hu Hf. destruct (s_flight _ _ _ _ _ H Hf) as (cpu & Hi & Eop & Ec & Em).
  assert (Hd : disjoint (map fst ps) (span (lk cpu) (wsize g)) ->
     disjoint (map fst ps) (in_use g (c_op c) (a_mem s)) \/ one_compare (c_op c) = true /\ pseudo g (c_op c) (a_mem s) = OFail).
  { intros Hd. left. intros x Hx Hy. apply (Hd x Hx). rewrite Eop in Hy. apply (lock_touched cpu (a_mem s)).
    unfold touched. apply in_or_app. auto. }
  destruct l as [|? ?|? ? ?|t0 c0 ps0|t0 c0 ps0|t0 ps0|? ?]; cbn in Hw; try discriminate Hw; injection Hw as -> ->; cbn in Hc.
  - destruct Hc as [-> _]. apply Hd. intros x [].
  - destruct Hc as (d & cpu0 & C1 & C2 & C3 & C4 & -> & _ & C6). apply Hd. rewrite stw_keys. apply Lb; auto.
    intros <-. destruct Hf as [Hf _]. unfold on_right_cpu, on_index in Hf, C6. rewrite Em, Ec in Hf. rewrite C3, C2 in C6.
    destruct (a_on s u) as [[c1 d1]|] eqn:Eu; [|discriminate]. destruct (a_on s t) as [[c2 d2]|] eqn:Et; [|discriminate].
    destruct (Hex u t c1 d1 c2 d2 Hu Eu Et). destruct md; congruence.
  - destruct Hc as [(d & cpu0 & n & k & -> & _)|(d & cpu0 & v & C1 & -> & _)]; apply Hd; [intros x []|].
    rewrite stw_keys. destruct (HG1 cpu0) as [Hi0 _]; [congruence|]. intros x Hx Hy. exact (Lc cpu0 cpu Hi0 Hi x Hx Hy).
Qed.

(** ** The stores and the views *)
Notation cstate := (cstate lock_loc).
Notation lb cpu := (low g (lk cpu)).
Definition Kl (C : cstate) (gh : sghost) (M : mem) (cpu : Z) : Prop :=
  (forall x, In x (span (lk cpu) (wsize g)) -> x <> lb cpu ->
     M x = 0 /\ forall j b, In (j, b) (w_hist (c_w C) x) -> b = 0) /\
  match gh cpu with
  | Free => exists i, top (w_hist (c_w C) (lb cpu)) i (M (lb cpu)) /\ okc lock_loc (c_w C) md cpu (lb cpu) i /\
      forall x, In x (span (cnt cpu) (wsize g)) -> exists i, top (w_hist (c_w C) x) i (M x) /\ okc lock_loc (plus lock_loc C) md cpu x i
  | Held t d f => exists i, top (w_hist (c_w C) (lb cpu)) i (M (lb cpu)) /\ okc lock_loc (c_w C) md cpu (lb cpu) i /\
      (i <= w_thr (c_w C) t (lb cpu))%nat /\
      forall x, In x (span (cnt cpu) (wsize g)) -> exists i, top (w_hist (c_w C) x) i (M x) /\
        (i <= (if f then w_thr (c_w C) t x else w_thr (plus lock_loc C) t x))%nat
  | Loose => exists i0 i1, In (i1, 0%Z) (w_hist (c_w C) (lb cpu)) /\ (i0 < i1)%nat /\
      (forall j c, In (j, c) (w_hist (c_w C) (lb cpu)) -> (j, c) = (i1, 0%Z) \/ (j, c) = (i0, M (lb cpu)) \/ (j < i0)%nat) /\
      okc lock_loc (c_w C) md cpu (lb cpu) i0 /\
      forall x, In x (span (cnt cpu) (wsize g)) -> exists i, top (w_hist (c_w C) x) i (M x) /\ (i <= c_msg C (lb cpu) i1 x)%nat
  end.
Definition K2 (C : cstate) (gh : sghost) (M : mem) : Prop := forall cpu, In cpu cpus -> Kl C gh M cpu.

(** Bigger views. *)
Definition cgrows (C C' : cstate) : Prop :=
  grows lock_loc (c_w C) (c_w C') /\ grows lock_loc (plus lock_loc C) (plus lock_loc C') /\
  (forall x, w_hist (c_w C') x = w_hist (c_w C) x) /\
  (forall x i b, In (i, b) (w_hist (c_w C) x) -> c_msg C' x i = c_msg C x i).
Lemma Kl_grows : forall C C' gh M cpu, cgrows C C' -> Kl C gh M cpu -> Kl C' gh M cpu.
Proof.
  intros C C' gh M cpu (G1 & G2 & G3 & G4) [H1 H2]. split.
  - intros x Hx Hn. rewrite G3. auto.
  - destruct (gh cpu) as [|t d f|].
    + destruct H2 as (i & A1 & A2 & A3). exists i. rewrite G3. split; auto. split; [eapply okc_grows; eauto|].
      intros x Hx. destruct (A3 x Hx) as (j & B1 & B2). exists j. rewrite G3. split; auto. eapply okc_grows; eauto.
    + destruct H2 as (i & A1 & A2 & A4 & A3). exists i. rewrite G3. split; auto. split; [eapply okc_grows; eauto|].
      split; [etransitivity; [exact A4|apply G1]|].
      intros x Hx. destruct (A3 x Hx) as (j & B1 & B2). exists j. rewrite G3. split; auto.
      etransitivity; [exact B2|]. destruct f; [apply G1|apply G2].
    + destruct H2 as (i0 & i1 & A1 & A2 & A3 & A4 & A5). exists i0, i1. rewrite G3. split; auto. split; auto. split; auto.
      split; [eapply okc_grows; eauto|]. intros x Hx. destruct (A5 x Hx) as (j & B1 & B2). exists j. rewrite G3. split; auto.
      rewrite (G4 _ _ _ A1). exact B2.
Qed.

(** *** Reading *)
Definition read1 (C : cstate) (t : nat) (rd : list Z) (ix : Z -> nat) : cstate :=
  {| c_w := {| w_core := w_core (c_w C); w_hist := w_hist (c_w C);
               w_thr := fun u => if Nat.eqb u t then view_read rd ix (w_thr (c_w C) t) else w_thr (c_w C) u;
               w_cpu := w_cpu (c_w C); w_cid := w_cid (c_w C) |};
     c_got := fun u => if Nat.eqb u t then got_read (c_msg C) rd ix (c_got C t) else c_got C u;
     c_msg := c_msg C |}.
Lemma view_read_ge : forall rd ix v x, (v x <= view_read rd ix v x)%nat.
Proof. intros. unfold view_read. destruct (existsb (Z.eqb x) rd); lia. Qed.
Lemma view_read_in : forall rd ix v x, In x rd -> (ix x <= view_read rd ix v x)%nat.
Proof.
  intros rd ix v x H. unfold view_read. assert (existsb (Z.eqb x) rd = true) as ->; [|lia].
  apply existsb_exists. exists x. split; auto. apply Z.eqb_refl.
Qed.
Lemma got_read_ge : forall msg rd ix p y, (p y <= got_read msg rd ix p y)%nat.
Proof. intros. unfold got_read. induction rd as [|x rd IH]; cbn [fold_right]; lia. Qed.
Lemma got_read_in : forall msg rd ix p x y, In x rd -> (msg x (ix x) y <= got_read msg rd ix p y)%nat.
Proof.
  intros msg rd ix p x y H. unfold got_read. induction rd as [|z rd IH]; [destruct H|]. cbn [fold_right].
  destruct H as [->|H]; [lia|]. specialize (IH H). lia.
Qed.
Lemma read1_grows : forall C t rd ix, cgrows C (read1 C t rd ix).
Proof.
  intros C t rd ix. split; [|split; [|split; auto]].
  - split; [reflexivity|]. cbn. split; [|split; intros; apply le_n]. intros u x.
    destruct (Nat.eqb_spec u t) as [->|]; auto. apply view_read_ge.
  - split; [reflexivity|]. cbn. split; [|split; intros; apply le_n]. intros u x. unfold join.
    destruct (Nat.eqb_spec u t) as [->|]; auto. pose proof (view_read_ge rd ix (w_thr (c_w C) t) x).
    pose proof (got_read_ge (c_msg C) rd ix (c_got C t) x). lia.
Qed.

(** What a helper on the CPU of a lock may see of it. *)
Lemma see_lock : forall C gh M cpu t m ix x, Kl C gh M cpu -> on_at lock_loc (w_core (c_w C)) md cpu t ->
  (forall x, In (ix x, m x) (w_hist (c_w C) x) /\ (w_thr (c_w C) t x <= ix x)%nat) ->
  In x (span (lk cpu) (wsize g)) -> m x = M x \/ (gh cpu = Loose /\ x = lb cpu /\ m x = 0).
Proof.
  intros C gh M cpu t m ix x [H1 H2] Hat Hm Hx. destruct (Hm x) as [Hin Hle].
  destruct (Z.eq_dec x (lb cpu)) as [->|Hn].
  - assert (Htop : forall i, top (w_hist (c_w C) (lb cpu)) i (M (lb cpu)) -> okc lock_loc (c_w C) md cpu (lb cpu) i -> m (lb cpu) = M (lb cpu)).
    { intros i [_ Ht] [Hok _]. specialize (Hok t Hat). destruct (Ht _ _ Hin) as [E|E]; [congruence|lia]. }
    destruct (gh cpu) as [|u d f|].
    + destruct H2 as (i & A1 & A2 & _). left. eauto.
    + destruct H2 as (i & A1 & A2 & _). left. eauto.
    + destruct H2 as (i0 & i1 & A1 & A2 & A3 & [A4 _] & _). specialize (A4 t Hat).
      destruct (A3 _ _ Hin) as [E|[E|E]]; [right; split; auto; split; auto; congruence|left; congruence|lia].
  - left. destruct (H1 x Hx Hn) as [-> E]. eapply E; eauto.
Qed.

(** A helper notices that the lock was released. *)
Lemma Kl_notice : forall C gh M cpu t m ix rd, Kl C gh M cpu -> on_at lock_loc (w_core (c_w C)) md cpu t ->
  exclusive (fun t => t_on (s_thr (w_core (c_w C)) t)) ->
  (forall x, In (ix x, m x) (w_hist (c_w C) x) /\ (w_thr (c_w C) t x <= ix x)%nat) ->
  In cpu cpus -> gh cpu = Loose -> In (lb cpu) rd -> m (lb cpu) <> M (lb cpu) ->
  Kl (read1 C t rd ix) (sset gh cpu Free) (wr M (stw g (lk cpu) 0)) cpu.
Proof.
  intros C gh M cpu t m ix rd [H1 H2] Hat Hex Hm Hi Eg Hrd Hne. rewrite Eg in H2.
  destruct H2 as (i0 & i1 & A1 & A2 & A3 & A4 & A5).
  assert (Hone : forall u, on_at lock_loc (w_core (c_w C)) md cpu u -> u = t) by (intros u Hu; eapply at_one; eauto).
  assert (Hw0 : forall x, In x (span (lk cpu) (wsize g)) -> wr M (stw g (lk cpu) 0) x = 0).
  { intros x Hx. destruct (wr_in (stw g (lk cpu) 0) M x) as (b & B1 & B2); [rewrite stw_keys; auto|]. rewrite B2. eapply stw_0; eauto. }
  assert (Hix : ix (lb cpu) = i1).
  { destruct (Hm (lb cpu)) as [Hin Hle]. destruct A4 as [A4 _]. specialize (A4 t Hat).
    destruct (A3 _ _ Hin) as [E|[E|E]]; [congruence|exfalso; congruence|lia]. }
  destruct Hlay as (La & Lb & Lc).
  split.
  - intros x Hx Hn. destruct (H1 x Hx Hn) as [_ E]. split; [|exact E]. auto.
  - rewrite sset_same. exists i1. cbn [c_w read1 w_hist]. rewrite (Hw0 (lb cpu)) by (apply low_in, Hsz).
    split; [|split].
    + split; [exact A1|]. intros j c Hj. destruct (A3 j c Hj) as [E|[E|E]]; [auto| |right; lia]. injection E as -> _. auto.
    + split.
      * intros u Hu. rewrite (Hone u Hu). cbn. rewrite Nat.eqb_refl. rewrite <- Hix. apply view_read_in. exact Hrd.
      * intros Hno. exfalso. exact (Hno t Hat).
    + intros x Hx. destruct (A5 x Hx) as (i & B1 & B2). exists i. split.
      * rewrite wr_notin; auto. rewrite stw_keys. intros Hy. exact (Lc cpu cpu Hi Hi x Hx Hy).
      * split.
        { intros u Hu. rewrite (Hone u Hu). cbn. unfold join. rewrite Nat.eqb_refl.
          pose proof (got_read_in (c_msg C) rd ix (c_got C t) (lb cpu) x Hrd) as G. rewrite Hix in G. lia. }
        { intros Hno. exfalso. exact (Hno t Hat). }
Qed.

(** Other locks. *)
Lemma Kl_same : forall C gh M gh' M' cpu, Kl C gh M cpu -> gh' cpu = gh cpu ->
  (forall x, In x (span (lk cpu) (wsize g)) \/ In x (span (cnt cpu) (wsize g)) -> M' x = M x) -> Kl C gh' M' cpu.
Proof.
  intros C gh M gh' M' cpu [H1 H2] Eg EM. assert (El : M' (lb cpu) = M (lb cpu)) by (apply EM; left; apply low_in, Hsz).
  split; [intros x Hx Hn; rewrite EM by auto; auto|]. rewrite Eg, El.
  destruct (gh cpu) as [|u d f|].
  - destruct H2 as (i & A1 & A2 & A3). exists i. split; auto. split; auto. intros x Hx. rewrite EM by auto. auto.
  - destruct H2 as (i & A1 & A2 & A4 & A3). exists i. split; auto. split; auto. split; auto. intros x Hx. rewrite EM by auto. auto.
  - destruct H2 as (i0 & i1 & A1 & A2 & A3 & A4 & A5). exists i0, i1. split; auto. split; auto. split; auto. split; auto.
    intros x Hx. rewrite EM by auto. auto.
Qed.

Lemma notice_inv : forall gh es ab cpu, holds2 gh es ab -> gh cpu = Loose ->
  holds2 (sset gh cpu Free) es (set_amem ab (wr (a_mem ab) (stw g (lk cpu) 0))).
Proof.
  intros gh es ab cpu [[HG1 HG2] HS] Eg. destruct (HG1 cpu ltac:(congruence)) as [Hi Hl]. destruct Hlay as (La & Lb & Lc).
  set (M' := wr (a_mem ab) (stw g (lk cpu) 0)).
  assert (Hm : meq M' (wr (a_mem ab) (stw g (lk cpu) 0))) by (intros x; reflexivity).
  assert (Hcnt : forall c, In c cpus -> ldw g M' (cnt c) = ldw g (a_mem ab) (cnt c)).
  { intros c Hc. eapply ldw_wr_other; [exact Hm|]. rewrite stw_keys. intros x Hx Hy. exact (Lc c cpu Hc Hi x Hy Hx). }
  assert (Hh : forall t d c f, gh c = Held t d f <-> sset gh cpu Free c = Held t d f).
  { intros t d c f. unfold sset. destruct (Z.eqb_spec c cpu) as [->|]; [|reflexivity]. rewrite Eg. split; discriminate. }
  split; [split|].
  - intros c Hc. destruct (Z.eq_dec c cpu) as [->|Hn]; [rewrite sset_same in Hc; congruence|].
    rewrite sset_other in Hc by auto. destruct (HG1 c Hc) as [Hi' Hl']. split; auto. rewrite <- Hl'. cbn [a_mem set_amem].
    eapply ldw_wr_other; [exact Hm|]. rewrite stw_keys. apply Lb; auto.
  - cbn [a_mem set_amem]. rewrite (total_ext g cpus cnt (a_mem ab) M'); auto.
  - intros t. cbn [a_mem a_thr set_amem]. destruct (HS t) as [H1 H2]. split.
    + revert H1. generalize (a_thr ab t). intros k. induction k as [|x k IH]; cbn; auto. intros [H3 H4]. split; auto.
      destruct x as [l o]. unfold s_ctx in *. cbn [a_loc a_act] in *. specialize (fun c f => Hh t (length k) c f). intros.
      destruct l; destruct o as [[c st]|]; try contradiction; try (eapply sowns_iff; [intros; apply Hh|exact H3]; fail);
        try (destruct H3 as [Ha Hb]; split; auto; eapply sowns_iff; [intros; apply Hh|exact Hb]; fail).
      destruct H3 as [Ha Hb]. split; [eapply sowns_iff; [intros; apply Hh|exact Ha]|]. rewrite <- Hb. apply Hcnt.
      assert (Hgc : gh cpu0 = Held t (length k) true) by (apply Ha; reflexivity). apply HG1. congruence.
    + intros d Hd. eapply sowns_iff; [intros; apply Hh|]. apply H2; auto.
Qed.

Variable tx : text.
Lemma notice_rel : forall gh es s M ab cpu, Rel lock_loc g tx (set_m s M) ab -> good_text g tx -> holds2 gh es ab -> gh cpu = Loose ->
  Rel lock_loc g tx (set_m s (wr M (stw g (lk cpu) 0))) (set_amem ab (wr M (stw g (lk cpu) 0))).
Proof.
  intros gh es s M ab cpu HR Hgood H Eg. pose proof H as [[HG1 _] _]. destruct (HG1 cpu ltac:(congruence)) as [Hi Hl].
  destruct Hlay as (La & Lb & Lc). pose proof HR as (R1 & R2 & R3). split; [reflexivity|]. split; [|exact R3].
  intros t. destruct (R2 t) as (T1 & T2 & T3). split; [exact T1|]. split; [exact T2|].
  apply (stack_write lock_loc g tx Hgood (set_m s M) ab t (stw g (lk cpu) 0) true HR (s_wf _ _ _ H)); auto.
  intros c Hc. destruct (s_flight _ _ _ _ _ H Hc) as (cpu2 & Hi2 & -> & _). destruct (Z.eq_dec cpu2 cpu) as [->|Hne].
  - right. split; auto. cbn [pseudo]. rewrite Hl. reflexivity.
  - left. rewrite stw_keys. intros x Hx Hy. apply (Lb cpu cpu2 Hi Hi2 (not_eq_sym Hne) x Hx).
    apply (lock_touched cpu2 (a_mem ab)). unfold touched. apply in_or_app. auto.
Qed.

(** *** The rest of a step *)
Section After.
Variables (C : cstate) (t : nat) (s' : RseqKernel.state lock_loc) (h' : Z -> list (nat * Z)) (v' : view) (a : bool) (msg' : Z -> nat -> view).
Let W := c_w C.
Let on := t_on (s_thr (w_core W) t).
Let on' := t_on (s_thr s' t).
Notation C' := (after lock_loc C t s' h' v' a msg').
Hypothesis Hoth : forall u, u <> t -> s_thr s' u = s_thr (w_core W) u.
Hypothesis Hon : on' = on \/ on' = None \/ on = None.
Hypothesis Hex : exclusive (fun t => t_on (s_thr (w_core W) t)).
Hypothesis Hex' : exclusive (fun t => t_on (s_thr s' t)).
Variable ps : list (Z * Z).
Hypothesis Hst : stores ps (w_hist W) (w_thr W t) h' v'.
Hypothesis Hmsg : forall x i b, In (i, b) (w_hist W x) -> msg' x i = c_msg C x i.
Let Hv := stores_mono _ _ _ _ _ Hst.
Notation okc_step := (okc_after lock_loc C t s' h' v' a msg' Hoth Hon Hex Hex' Hv).
Notation okp_step := (okp_after lock_loc C t s' h' v' a msg' Hoth Hon Hex Hex' Hv).
Notation thr_step := (thr_after lock_loc C t s' h' v' a msg' Hv).
Notation plus_step := (plus_after lock_loc C t s' h' v' a msg' Hv).
Lemma okc_keep : forall cpu x i, okc lock_loc W md cpu x i -> okc lock_loc (c_w C') md cpu x i.
Proof. intros cpu x i H. eapply okc_step; [exact H| |auto]. intros Hi. etransitivity; [exact Hi|apply Hv]. Qed.

(** A lock whose bytes are not stored to and that does not change state. *)
Lemma Kl_frame : forall gh gh' M M' cpu, Kl C gh M cpu -> gh' cpu = gh cpu ->
  (forall x, In x (span (lk cpu) (wsize g)) \/ In x (span (cnt cpu) (wsize g)) -> ~ In x (map fst ps) /\ M' x = M x) ->
  Kl C' gh' M' cpu.
Proof.
  intros gh gh' M M' cpu HK Eg EM. apply (Kl_same _ gh' M gh' M'); [|reflexivity|intros x Hx; apply EM; auto].
  assert (Hh : forall x, In x (span (lk cpu) (wsize g)) \/ In x (span (cnt cpu) (wsize g)) -> h' x = w_hist W x).
  { intros x Hx. eapply stores_other; [exact Hst|]. apply EM; auto. }
  assert (El : h' (lb cpu) = w_hist W (lb cpu)) by (apply Hh; left; apply low_in, Hsz).
  destruct HK as [H1 H2]. split; [intros x Hx Hn; cbn [c_w w_hist after]; rewrite Hh by auto; auto|].
  rewrite Eg. cbn [c_w w_hist after]. fold W in H2. fold (c_w C').
  destruct (gh cpu) as [|u d f|].
  - destruct H2 as (i & A1 & A2 & A3). exists i. rewrite El. split; [exact A1|]. split; [apply okc_keep; auto|].
    intros x Hx. destruct (A3 x Hx) as (j & B1 & B2). exists j. rewrite Hh by auto. split; auto. apply okp_step; auto.
  - destruct H2 as (i & A1 & A2 & A4 & A3). exists i. rewrite El. split; [exact A1|]. split; [apply okc_keep; auto|].
    split; [etransitivity; [exact A4|apply thr_step]|].
    intros x Hx. destruct (A3 x Hx) as (j & B1 & B2). exists j. rewrite Hh by auto. split; auto.
    etransitivity; [exact B2|]. destruct f; [apply thr_step|apply plus_step].
  - destruct H2 as (i0 & i1 & A1 & A2 & A3 & A4 & A5). exists i0, i1. rewrite El. split; [exact A1|]. split; auto. split; auto.
    split; [apply okc_keep; auto|]. intros x Hx. destruct (A5 x Hx) as (j & B1 & B2). exists j. rewrite Hh by auto.
    split; auto. cbn [c_msg after]. rewrite (Hmsg _ _ _ A1). exact B2.
Qed.

Lemma keys_other : forall cpu cpu0 v x, In cpu cpus -> In cpu0 cpus -> cpu <> cpu0 ->
  In x (span (lk cpu) (wsize g)) \/ In x (span (cnt cpu) (wsize g)) ->
  ~ In x (map fst (stw g (lk cpu0) v)) /\ ~ In x (map fst (stw g (cnt cpu0) v)).
Proof.
  intros cpu cpu0 v x H1 H2 Hn Hx. destruct Hlay as (La & Lb & Lc). rewrite !stw_keys. destruct Hx as [Hx|Hx]; split; intros Hy.
  - exact (Lb cpu cpu0 H1 H2 Hn x Hx Hy).
  - exact (Lc cpu0 cpu H2 H1 x Hy Hx).
  - exact (Lc cpu cpu0 H1 H2 x Hx Hy).
  - exact (La cpu cpu0 H1 H2 Hn x Hx Hy).
Qed.

(** The helper takes the lock. *)
Lemma K_take : forall gh M cpu d, K2 C gh M -> In cpu cpus -> gh cpu = Free -> ps = stw g (lk cpu) 1 ->
  on_index on md = Some cpu -> K2 C' (sset gh cpu (Held t d false)) (wr M ps).
Proof.
  intros gh M cpu d HK Hi Eg Eps Hat c Hc. destruct (Z.eq_dec c cpu) as [->|Hn].
  2:{ apply (Kl_frame gh _ M); [apply HK; auto|apply sset_other; auto|]. intros x Hx.
      destruct (keys_other c cpu 1 x Hc Hi Hn Hx) as [N _]. rewrite Eps. split; auto. apply wr_notin; auto. }
  destruct (HK cpu Hi) as [H1 H2]. rewrite Eg in H2. destruct H2 as (i & A1 & A2 & A3). fold W in A1, A2, A3.
  assert (Hlow : In (lb cpu) (map fst ps)) by (rewrite Eps, stw_keys; apply low_in, Hsz).
  assert (Hiv : (i <= w_thr W t (lb cpu))%nat) by (apply A2; exact Hat).
  destruct (stores_top _ _ _ _ _ Hst M (lb cpu) i A1 (fun _ => Hiv)) as (i1 & Q1 & Q2 & _).
  destruct Hlay as (La & Lb & Lc).
  split.
  - intros x Hx Hn. destruct (H1 x Hx Hn) as [E1 E2]. split.
    + destruct (wr_in ps M x) as (b & B1 & ->); [rewrite Eps, stw_keys; auto|]. rewrite Eps in B1. eapply stw_1; eauto. apply Hsz.
    + intros j b Hj. cbn in Hj. destruct (stores_vals _ _ _ _ _ Hst x j b Hj) as [F|F]; [eapply E2; eauto|].
      rewrite Eps in F. eapply stw_1; eauto. apply Hsz.
  - rewrite sset_same. exists i1. cbn [c_w w_hist after]. split; [exact Q1|]. split; [|split].
    + eapply okc_step; [exact A2|exact Q2|right; exact Hat].
    + etransitivity; [exact (Q2 Hiv)|apply (v_after lock_loc C t s' h' v' a msg')].
    + intros x Hx. assert (Hx' : ~ In x (map fst ps)) by (rewrite Eps, stw_keys; intros Hy; exact (Lc cpu cpu Hi Hi x Hx Hy)).
      destruct (A3 x Hx) as (j & B1 & B2). exists j. rewrite (stores_other _ _ _ _ _ Hst x Hx'), wr_notin by auto. split; auto.
      etransitivity; [|apply plus_step]. apply B2. exact Hat.
Qed.

(** The holder stores the count. *)
Lemma K_count : forall gh M cpu d v, K2 C gh M -> In cpu cpus -> gh cpu = Held t d true -> ps = stw g (cnt cpu) v ->
  K2 C' gh (wr M ps).
Proof.
  intros gh M cpu d v HK Hi Eg Eps c Hc. destruct (Z.eq_dec c cpu) as [->|Hn].
  2:{ apply (Kl_frame gh _ M); [apply HK; auto|auto|]. intros x Hx.
      destruct (keys_other c cpu v x Hc Hi Hn Hx) as [_ N]. rewrite Eps. split; auto. apply wr_notin; auto. }
  destruct (HK cpu Hi) as [H1 H2]. rewrite Eg in H2. destruct H2 as (i & A1 & A2 & A4 & A3). fold W in A1, A2, A3, A4.
  destruct Hlay as (La & Lb & Lc).
  assert (Hlk : forall x, In x (span (lk cpu) (wsize g)) -> ~ In x (map fst ps)).
  { intros x Hx. rewrite Eps, stw_keys. intros Hy. exact (Lc cpu cpu Hi Hi x Hy Hx). }
  assert (Hlow : ~ In (lb cpu) (map fst ps)) by (apply Hlk, low_in, Hsz).
  split.
  - intros x Hx Hn. cbn [c_w w_hist after]. rewrite (stores_other _ _ _ _ _ Hst x (Hlk x Hx)), wr_notin by auto. auto.
  - rewrite Eg. exists i. cbn [c_w w_hist after]. rewrite (stores_other _ _ _ _ _ Hst _ Hlow), wr_notin by auto.
    split; [exact A1|]. split; [apply okc_keep; auto|]. split; [etransitivity; [exact A4|apply thr_step]|].
    intros x Hx. destruct (A3 x Hx) as (j & B1 & B2).
    destruct (stores_top _ _ _ _ _ Hst M x j B1 (fun _ => B2)) as (i1 & Q1 & Q2 & _). exists i1. split; auto.
    etransitivity; [exact (Q2 B2)|apply (v_after lock_loc C t s' h' v' a msg')].
Qed.

(** The holder releases the lock. *)
Lemma K_release : forall gh M cpu d, K2 C gh M -> In cpu cpus -> gh cpu = Held t d true -> ps = stw g (lk cpu) 0 ->
  (forall x i, (forall b, ~ In (i, b) (w_hist W x)) -> msg' x i = w_thr W t) ->
  K2 C' (sset gh cpu Loose) M.
Proof.
  intros gh M cpu d HK Hi Eg Eps Hnew c Hc. destruct (Z.eq_dec c cpu) as [->|Hn].
  2:{ apply (Kl_frame gh _ M); [apply HK; auto|apply sset_other; auto|]. intros x Hx.
      destruct (keys_other c cpu 0 x Hc Hi Hn Hx) as [N _]. rewrite Eps. split; auto. }
  destruct (HK cpu Hi) as [H1 H2]. rewrite Eg in H2. destruct H2 as (i & A1 & A2 & A4 & A3). fold W in A1, A2, A3, A4.
  destruct Hlay as (La & Lb & Lc).
  assert (Hlow : exists b, In (lb cpu, b) ps).
  { assert (X : In (lb cpu) (map fst ps)) by (rewrite Eps, stw_keys; apply low_in, Hsz).
    apply in_map_iff in X. destruct X as ([y b] & E & X). cbn in E. subst y. eauto. }
  destruct Hlow as (b & Hlow). assert (b = 0) by (rewrite Eps in Hlow; eapply stw_0; eauto). subst b.
  assert (Hnd2 : NoDup (map fst ps)) by (rewrite Eps, stw_keys; apply NoDup_span).
  destruct (stores_one _ _ _ _ _ Hst Hnd2 _ _ Hlow) as (i1 & S1 & S2 & S3).
  split.
  - intros x Hx Hn. destruct (H1 x Hx Hn) as [E1 E2]. split; auto.
    intros j b Hj. cbn in Hj. destruct (stores_vals _ _ _ _ _ Hst x j b Hj) as [F|F]; [eapply E2; eauto|].
    rewrite Eps in F. eapply stw_0; eauto.
  - rewrite sset_same. exists i, i1. cbn [c_w w_hist after]. rewrite S1. split; [left; reflexivity|]. split; [lia|].
    split; [|split].
    + intros j b [E|E]; [left; congruence|]. right. destruct (proj2 A1 j b E) as [F|F]; auto.
    + apply okc_keep; auto.
    + intros x Hx. assert (Hx' : ~ In x (map fst ps)) by (rewrite Eps, stw_keys; intros Hy; exact (Lc cpu cpu Hi Hi x Hx Hy)).
      destruct (A3 x Hx) as (j & B1 & B2). exists j. rewrite (stores_other _ _ _ _ _ Hst x Hx'). split; auto.
      cbn [c_msg after]. rewrite (Hnew _ _ S3). exact B2.
Qed.

(** The acquire fence. *)
Lemma K_fence : forall gh M cpu d, K2 C gh M -> In cpu cpus -> gh cpu = Held t d false -> ps = [] -> a = true ->
  K2 C' (sset gh cpu (Held t d true)) M.
Proof.
  intros gh M cpu d HK Hi Eg Eps Ha c Hc.
  assert (Hno : forall x, ~ In x (map fst ps)) by (intros x; rewrite Eps; intros []).
  destruct (Z.eq_dec c cpu) as [->|Hn].
  2:{ apply (Kl_frame gh _ M); [apply HK; auto|apply sset_other; auto|auto]. }
  assert (HF : Kl C' gh M cpu) by (apply (Kl_frame gh gh M M); auto).
  destruct HF as [H1 H2]. split; auto. rewrite sset_same. rewrite Eg in H2. destruct H2 as (i & A1 & A2 & A4 & _).
  exists i. split; auto. split; auto. split; auto. intros x Hx.
  destruct (HK cpu Hi) as [_ H2]. rewrite Eg in H2. destruct H2 as (_ & _ & _ & _ & A3). destruct (A3 x Hx) as (j & B1 & B2).
  exists j. cbn [c_w w_hist after]. rewrite (stores_other _ _ _ _ _ Hst x) by auto. split; auto.
  etransitivity; [exact B2|]. apply (fence_after lock_loc C t s' h' v' a msg'); auto.
Qed.
End After.

(** *** One step *)
Lemma see_held : forall C gh M cpu t d m ix x, Kl C gh M cpu -> gh cpu = Held t d true ->
  (forall x, In (ix x, m x) (w_hist (c_w C) x) /\ (w_thr (c_w C) t x <= ix x)%nat) ->
  In x (span (lk cpu) (wsize g)) \/ In x (span (cnt cpu) (wsize g)) -> m x = M x.
Proof.
  intros C gh M cpu t d m ix x [H1 H2] Eg Hm Hx. rewrite Eg in H2. destruct H2 as (i & A1 & A2 & A4 & A3).
  destruct (Hm x) as [Hin Hle]. destruct Hx as [Hx|Hx].
  - destruct (Z.eq_dec x (lb cpu)) as [->|Hn].
    + destruct (proj2 A1 _ _ Hin) as [E|E]; [congruence|lia].
    + destruct (H1 x Hx Hn) as [-> E]. eapply E; eauto.
  - destruct (A3 x Hx) as (j & B1 & B2). destruct (proj2 B1 _ _ Hin) as [E|E]; [congruence|lia].
Qed.

Lemma step_moved : forall (s : RseqKernel.state lock_loc) t m M l s',
  step g tx cl (set_m s m) l s' -> acts t s l s' ->
  (running (s_thr s t) -> agree (loads g tx s m t s') m M) ->
  (forall l0 k, t_ctx (s_thr s t) = {| x_loc := l0; x_act := None |} :: k ->
     (forall l', cl_tau _ cl l0 m l' -> cl_tau _ cl l0 M l')) ->
  step g tx cl (set_m s M) l (set_m s' (wr M (wrote l))).
Proof.
  intros s t m M l s' Hs [Ho Hl] Hrd Hcl.
  assert (Hthr : forall t0 th, (s_thr (set_t s t0 th) t <> s_thr s t \/ (exists id : nat, s_loaded s id <> s_loaded s id)) -> t0 = t).
  { intros t0 th [H|(id & H)]; [|congruence]. destruct (Nat.eq_dec t0 t) as [|Hn]; auto. exfalso. apply H. cbn.
    destruct (Nat.eqb_spec t t0); [congruence|reflexivity]. }
  assert (Hi : forall l0 f k P kd pc' rs' e rd x0, running (s_thr s t) -> t_ctx (s_thr s t) = {| x_loc := l0; x_act := Some f |} :: k ->
     tx (c_code (f_call f)) = Some (P, kd) ->
     istep g P m (index (t_area (s_thr s t)) (pmode P)) (f_pc f) (f_rs f) = Some (pc', rs', e, rd) ->
     t_ctx (s_thr s' t) = {| x_loc := x0; x_act := Some {| f_call := f_call f; f_pc := pc'; f_rs := rs' |} |} :: k ->
     istep g P M (index (t_area (s_thr s t)) (pmode P)) (f_pc f) (f_rs f) = Some (pc', rs', e, rd)).
  { intros l0 f k P kd pc' rs' e rd x0 H1 H2 H3 H4 H5. eapply istep_agree; [exact H4|].
    specialize (Hrd H1). unfold loads in Hrd. rewrite H2, H5 in Hrd. cbn [x_act f_pc] in Hrd. rewrite H3, H4, Nat.eqb_refl in Hrd. exact Hrd. }
  assert (Hx : forall l0 f k P kd pc' rs' x rd, running (s_thr s t) -> t_ctx (s_thr s t) = {| x_loc := l0; x_act := Some f |} :: k ->
     tx (c_code (f_call f)) = Some (P, kd) ->
     istep g P m (index (t_area (s_thr s t)) (pmode P)) (f_pc f) (f_rs f) = Some (pc', rs', EExit x, rd) ->
     istep g P M (index (t_area (s_thr s t)) (pmode P)) (f_pc f) (f_rs f) = Some (pc', rs', EExit x, rd)).
  { intros l0 f k P kd pc' rs' x rd H1 H2 H3 H4. eapply istep_agree; [exact H4|].
    assert (rd = []) as ->; [|intros y []]. clear -H4. unfold istep in H4. destruct (nth_error (code P) (f_pc f)) as [i|]; [|discriminate H4].
    destruct i; try discriminate H4; injection H4; intros; subst; try discriminate; auto. }
  remember (set_m s m) as sm eqn:Esm.
  destruct Hs as [s1 t0 l0 k f P kd pc' rs' e rd R1 R2 R3 R4 R5 R6|s1 t0 l0 k f P kd pc' rs' ps rd R1 R2 R3 R4 R5|s1 t0 l0 k f P kd pc' rs' x rd r R1 R2 R3 R4 R5 R6|s1 t0 l0 k f P kd pc' rs' x rd R1 R2 R3 R4 R5 R6|s1 t0 l0 k c P kd junk R1 R2 R3 R4 R5 R6 R7 R8|s1 t0 l0 k ps l' R1 R2 R3|s1 t0 l0 k l' R1 R2 R3|s1 t0 l0 k R1 R2|s1 id R1|s1 t0 R1|s1 t0 cpu cid R1 R2 R3 R4 R5|s1 t0 R1|s1 t0 x k l' R1 R2 R3|s1 t0 l0 x k R1 R2 R3|s1 t0 l0 cpu cid R1 R2 R3 R4|s1 t0 l0 R1 R2 R3];
    subst s1; cbn [s_mem s_thr s_loaded set_m] in *; cbn [wrote].
  - assert (t0 = t) by (eapply Hthr; exact Hl). subst t0.
    refine (S_instr lock_loc g tx cl (set_m s M) t l0 k f P kd pc' rs' e rd R1 R2 R3 R4 (Hi _ _ _ _ _ _ _ _ _ l0 R1 R2 R3 R5 _) R6).
    cbn. rewrite Nat.eqb_refl. reflexivity.
  - subst t0. refine (S_store lock_loc g tx cl (set_m s M) t l0 k f P kd pc' rs' ps rd R1 R2 R3 R4 (Hi _ _ _ _ _ _ _ _ _ l0 R1 R2 R3 R5 _)).
    cbn. rewrite Nat.eqb_refl. reflexivity.
  - subst t0. exact (S_return lock_loc g tx cl (set_m s M) t l0 k f P kd pc' rs' x rd r R1 R2 R3 R4 (Hx _ _ _ _ _ _ _ _ _ R1 R2 R3 R5) R6).
  - subst t0. exact (S_bug lock_loc g tx cl (set_m s M) t l0 k f P kd pc' rs' x rd R1 R2 R3 R4 (Hx _ _ _ _ _ _ _ _ _ R1 R2 R3 R5) R6).
  - subst t0. exact (S_call lock_loc g tx cl (set_m s M) t l0 k c P kd junk R1 R2 R3 R4 R5 R6 R7 R8).
  - subst t0. exact (S_write lock_loc g tx cl (set_m s M) t l0 k ps l' R1 R2 R3).
  - assert (t0 = t) by (eapply Hthr; exact Hl). subst t0.
    exact (S_local lock_loc g tx cl (set_m s M) t l0 k l' R1 R2 (Hcl _ _ R2 _ R3)).
  - exact (S_clear_cs lock_loc g tx cl (set_m s M) t0 l0 k R1 R2).
  - exact (S_unload lock_loc g tx cl (set_m s M) id R1).
  - exact (S_preempt lock_loc g tx cl (set_m s M) t0 R1).
  - exact (S_resume lock_loc g tx cl (set_m s M) t0 cpu cid R1 R2 R3 R4 R5).
  - exact (S_ipi lock_loc g tx cl (set_m s M) t0 R1).
  - exact (S_signal lock_loc g tx cl (set_m s M) t0 x k l' R1 R2 R3).
  - exact (S_sigret lock_loc g tx cl (set_m s M) t0 l0 x k R1 R2 R3).
  - exact (S_register lock_loc g tx cl (set_m s M) t0 l0 cpu cid R1 R2 R3 R4).
  - exact (S_unregister lock_loc g tx cl (set_m s M) t0 l0 R1 R2 R3).
Qed.

Lemma step_cl2 : forall (s : RseqKernel.state lock_loc) l s', step g tx cl s l s' ->
  (step g tx cl2 s l s' /\ (forall t l0 k, t_ctx (s_thr s t) = {| x_loc := l0; x_act := None |} :: k -> l <> Lwr t [])) \/
  exists t n cpu k, l = Lwr t (stw g (lk cpu) 0) /\ t_ctx (s_thr s t) = {| x_loc := Lk_release n cpu; x_act := None |} :: k /\
    step g tx cl2 s (Lwr t []) (set_m s' (s_mem s)).
Proof.
  intros s l s' H.
  assert (Hne : forall p v, stw g p v <> []).
  { intros p v E. apply (f_equal (map fst)) in E. rewrite stw_keys in E. pose proof (low_in g Hsz p) as F. rewrite E in F. destruct F. }
  destruct H as [s t0 l0 k f P kd pc' rs' e rd R1 R2 R3 R4 R5 R6|s t0 l0 k f P kd pc' rs' ps rd R1 R2 R3 R4 R5|s t0 l0 k f P kd pc' rs' x rd r R1 R2 R3 R4 R5 R6|s t0 l0 k f P kd pc' rs' x rd R1 R2 R3 R4 R5 R6|s t0 l0 k c P kd junk R1 R2 R3 R4 R5 R6 R7 R8|s t0 l0 k ps l' R1 R2 R3|s t0 l0 k l' R1 R2 R3|s t0 l0 k R1 R2|s id R1|s t0 R1|s t0 cpu cid R1 R2 R3 R4 R5|s t0 R1|s t0 x k l' R1 R2 R3|s t0 l0 x k R1 R2 R3|s t0 l0 cpu cid R1 R2 R3 R4|s t0 l0 R1 R2 R3];
    try (left; split; [|intros; discriminate]; econstructor; eauto; fail).
  - left. split; [eapply S_store; eauto|]. intros t l1 k1 E F. injection F as -> ->. rewrite R2 in E. discriminate E.
  - left. split; [|intros; discriminate]. exact (S_return lock_loc g tx cl2 s t0 l0 k f P kd pc' rs' x rd r R1 R2 R3 R4 R5 R6).
  - destruct R3 as [(n & cpu & v & -> & -> & ->)|(n & cpu & -> & -> & ->)].
    + left. split.
      * apply (S_write lock_loc g tx cl2 s t0 (Lk_read n cpu v) k _ (Lk_wrote n cpu) R1 R2). left. eauto 8.
      * intros t l1 k1 E F. injection F as _ F. exact (Hne _ _ F).
    + right. exists t0, n, cpu, k. split; auto. split; auto.
      apply (S_write lock_loc g tx cl2 s t0 (Lk_release n cpu) k [] (Lk_idle (pred n)) R1 R2). right. eauto 8.
Qed.

Lemma s_taus : forall ab ls a', aexec g cl2 ab ls a' -> (forall l, In l ls -> l = ALtau) ->
  forall gh es, holds2 gh es ab -> holds2 gh es a'.
Proof.
  intros ab ls a' H. induction H as [|si ls s' l s'' H IH Hs]; intros Hl gh es Ho; auto.
  specialize (IH (fun l Hin => Hl l (in_or_app _ _ _ (or_introl Hin))) gh es Ho).
  assert (l = ALtau) as -> by (apply Hl, in_or_app; right; left; reflexivity).
  destruct (s_step _ _ _ _ _ IH Hs) as (gh' & J1 & ->). cbn [aev effects filter] in J1. rewrite app_nil_r in J1. exact J1.
Qed.

Lemma rel_exclusive : forall (s : RseqKernel.state lock_loc) ab, Rel lock_loc g tx s ab -> exclusive (a_on ab).
Proof.
  intros s ab (_ & Ht & Hex) t u c1 d1 c2 d2 Hn H1 H2. destruct (Ht t) as (E1 & _). destruct (Ht u) as (E2 & _).
  rewrite E1 in H1. rewrite E2 in H2. destruct (t_reg (s_thr s t)); [|discriminate H1]. destruct (t_reg (s_thr s u)); [|discriminate H2].
  exact (Hex t u c1 d1 c2 d2 Hn H1 H2).
Qed.

Variables (ar : arch) (tw : bool).
Hypothesis Htx : lib_text ar tw tx.
Let Hgood : good_text g tx := lib_good g ar tw tx Htx.

Lemma read_phase : forall C t m ix l s' gh es M ab,
  Rel lock_loc g tx (set_m (w_core (c_w C)) M) ab -> holds2 gh es ab -> K2 C gh M ->
  (forall x, In (ix x, m x) (w_hist (c_w C) x) /\ (w_thr (c_w C) t x <= ix x)%nat) ->
  step g tx cl (set_m (w_core (c_w C)) m) l s' -> acts t (w_core (c_w C)) l s' ->
  exists M1 gh1 ab1, Rel lock_loc g tx (set_m (w_core (c_w C)) M1) ab1 /\ holds2 gh1 es ab1 /\
    K2 (read1 C t (loads g tx (w_core (c_w C)) m t s') ix) gh1 M1 /\
    (running (s_thr (w_core (c_w C)) t) -> agree (loads g tx (w_core (c_w C)) m t s') m M1) /\
    (forall l0 k, t_ctx (s_thr (w_core (c_w C)) t) = {| x_loc := l0; x_act := None |} :: k -> M1 = M /\ gh1 = gh).
Proof.
  intros C t m ix l s' gh es M ab HR HI HK Hsee Hstep Hact.
  set (s := w_core (c_w C)) in *. set (rd := loads g tx s m t s').
  assert (Hsame : (running (s_thr s t) -> agree rd m M) -> exists M1 gh1 ab1, Rel lock_loc g tx (set_m s M1) ab1 /\ holds2 gh1 es ab1 /\
    K2 (read1 C t rd ix) gh1 M1 /\ (running (s_thr s t) -> agree rd m M1) /\
    (forall l0 k, t_ctx (s_thr s t) = {| x_loc := l0; x_act := None |} :: k -> M1 = M /\ gh1 = gh)).
  { intros Ha. exists M, gh, ab. split; auto. split; auto. split; [|auto]. intros cpu Hc. eapply Kl_grows; [apply read1_grows|apply HK; auto]. }
  destruct (list_eq_dec Z.eq_dec rd []) as [E0|E0]; [apply Hsame; rewrite E0; intros _ x []|].
  assert (Hrun : running (s_thr s t) \/ ~ running (s_thr s t)).
  { unfold running. destruct (t_on (s_thr s t)); [|right; intros [F _]; congruence].
    destruct (t_dead (s_thr s t)); [right; intros [_ F]; discriminate F|left; split; congruence]. }
  destruct Hrun as [Hrun|Hrun]; [|apply Hsame; intros F; contradiction].
  unfold rd, loads in E0. destruct (t_ctx (s_thr s t)) as [|[l0 o] k] eqn:Ek; [congruence|].
  destruct (t_ctx (s_thr s' t)) as [|x' k'] eqn:Ek'; [congruence|]. cbn [x_act] in E0.
  destruct o as [f|]; [|congruence]. destruct (x_act x') as [f'|] eqn:Ef'; [|congruence].
  destruct (tx (c_code (f_call f))) as [[P kd]|] eqn:EP; [|congruence].
  destruct (istep g P m (index (t_area (s_thr s t)) (pmode P)) (f_pc f) (f_rs f)) as [[[[pc' rs'] e] rd0]|] eqn:Ei; [|congruence].
  destruct (Nat.eqb (f_pc f') pc') eqn:Epc; [|congruence].
  assert (Erd : rd = rd0). { unfold rd, loads. rewrite Ek, Ek'. cbn [x_act]. rewrite Ef', EP, Ei, Epc. reflexivity. }
  destruct (istep_rd g P m M _ _ _ _ _ _ _ Ei) as (pc2 & rs2 & e2 & Ei2).
  destruct (reads_in_flight lock_loc g ar tw tx Htx (set_m s M) ab HR (s_wf _ _ _ HI) t l0 f k P kd pc2 rs2 e2 rd0 Hrun Ek EP Ei2)
    as [->|[F1 F2]]; [congruence|].
  destruct (s_flight _ _ _ _ _ HI F1) as (cpu & Hi & Eop & Ec & Em).
  assert (Hsp : forall x, In x rd -> In x (span (lk cpu) (wsize g))).
  { intros x Hx. rewrite Erd in Hx. apply (lock_touched cpu (a_mem ab)). rewrite <- Eop. apply F2; auto. }
  assert (Hat : on_at lock_loc s md cpu t).
  { pose proof (proj2 (Rel_right lock_loc g tx _ ab t (f_call f) HR (proj1 F1))) as F. rewrite Ec, Em in F. exact F. }
  assert (Hsl : forall x, In x rd -> m x = M x \/ (gh cpu = Loose /\ x = lb cpu /\ m x = 0)).
  { intros x Hx. eapply see_lock; [apply HK; exact Hi|exact Hat|exact Hsee|auto]. }
  destruct (in_dec Z.eq_dec (lb cpu) rd) as [Hlb|Hlb].
  2:{ apply Hsame. intros _ x Hx. destruct (Hsl x Hx) as [E|(_ & -> & _)]; [auto|contradiction]. }
  destruct (Z.eq_dec (m (lb cpu)) (M (lb cpu))) as [Heq|Hne].
  { apply Hsame. intros _ x Hx. destruct (Hsl x Hx) as [E|(_ & -> & _)]; auto. }
  destruct (Hsl _ Hlb) as [E|(Eg & _ & Em0)]; [contradiction|].
  assert (Ema : a_mem ab = M) by apply HR.
  exists (wr M (stw g (lk cpu) 0)), (sset gh cpu Free), (set_amem ab (wr M (stw g (lk cpu) 0))).
  split; [eapply notice_rel; eauto|]. split; [rewrite <- Ema; apply notice_inv; auto|].
  split; [|split; [|intros l1 k1 E; congruence]].
  - intros c Hc. destruct (Z.eq_dec c cpu) as [->|Hn].
    + apply (Kl_notice C gh M cpu t m ix rd); auto. apply HR.
    + apply (Kl_same _ gh M); [|apply sset_other; auto|].
      * eapply Kl_grows; [apply read1_grows|apply HK; auto].
      * intros x Hx. apply wr_notin. apply (proj1 (keys_other c cpu 0 x Hc Hi Hn Hx)).
  - intros _ x Hx.
    destruct (wr_in (stw g (lk cpu) 0) M x) as (b & Hb & ->); [rewrite stw_keys; auto|].
    rewrite (stw_0 g _ _ _ Hb). destruct (Z.eq_dec x (lb cpu)) as [->|Hnx]; [auto|].
    destruct (HK cpu Hi) as [H1 _]. destruct (H1 x (Hsp x Hx) Hnx) as [_ E]. symmetry. eapply E. apply Hsee.
Qed.

Lemma n_cs_app : forall es fs, n_cs (es ++ fs) = n_cs es + n_cs fs.
Proof. intros. unfold n_cs, count. rewrite filter_app, app_length. lia. Qed.

Lemma top_ctx : forall (s : RseqKernel.state lock_loc) ab t l o k, Rel lock_loc g tx s ab -> a_thr ab t = {| a_loc := l; a_act := o |} :: k ->
  exists x k', t_ctx (s_thr s t) = x :: k' /\ x_loc x = l /\ (o = None <-> x_act x = None).
Proof.
  intros s ab t l o k HR E. pose proof (rel_contexts lock_loc g tx s ab t HR) as F. unfold contexts in F. rewrite E in F.
  destruct (t_ctx (s_thr s t)) as [|x k']; [discriminate F|]. exists x, k'. split; auto. cbn in F. injection F as F1 F2 _.
  split; auto. destruct (x_act x), o; split; intros; congruence.
Qed.

Lemma obs_aev : forall (s : RseqKernel.state lock_loc) M ab al a' l, Rel lock_loc g tx (set_m s M) ab -> astep g cl2 ab al a' ->
  avis1 al = cvis1 l -> n_cs (effects lock_loc (aev ab al)) = count is_count_store (obs1 (s, l)).
Proof.
  intros s M ab al a' l HR Hs V.
  destruct Hs as [ab u l1 k c E Hc|ab u l1 k c r E|ab u l1 k ps l2 m2 E Hw Hm|ab u l1 k l2 E Ht|ab u x k l2 E Hg|ab u l1 x k E Hd|ab on' Hx|ab u l1 k c w att fin ps m2 E Hr Ep Hi Hm|ab u l1 k c w att fin m2 E Hr Ep Hm|ab u l1 k c E Hr Ep|ab u l1 k c st E Hst];
    cbn [avis1] in V; destruct l as [|u0 c0|u0 c0 r0|u0 ps0|u0]; try discriminate V; cbn [aev]; try rewrite E; cbn [effects filter obs1];
    try reflexivity; try (injection V as <- <-); try (injection V as <- <- <-);
    destruct (top_ctx _ _ _ _ _ _ HR E) as (y & k' & F1 & F2 & F3); cbn [s_thr set_m] in F1; rewrite F1; destruct y as [ly oy]; cbn [x_loc x_act] in F2, F3; subst ly.
  - reflexivity.
  - reflexivity.
  - rewrite (proj1 F3 eq_refl). destruct l1; reflexivity.
  - destruct oy; [reflexivity|]. discriminate (proj2 F3 eq_refl).
  - destruct oy; [reflexivity|]. discriminate (proj2 F3 eq_refl).
Qed.

Definition SInv (C : cstate) (es : list (event lock_loc)) : Prop :=
  exists M gh ab, Rel lock_loc g tx (set_m (w_core (c_w C)) M) ab /\ holds2 gh es ab /\ K2 C gh M.

Lemma sync_step : forall C l C' es, SInv C es -> cstep g tx cl lock_rel lock_acq C l C' -> call_ok (w_core (c_w C)) l ->
  exists es', SInv C' es' /\ n_cs es' = n_cs es + count is_count_store (obs1 (w_core (c_w C), l)).
Proof.
  intros C0 l0 C' es (M & gh & ab & HR & HI & HK) Hc Hok.
  destruct Hc as [C t m ix l s' h' v' W rd v1 p1 on on' va Hsee Hstep Hact Hst].
  destruct (read_phase C t m ix l s' gh es M ab HR HI HK Hsee Hstep Hact) as (M1 & gh1 & ab1 & HR1 & HI1 & HK1 & Hag & Hidle).
  fold W in HR, HR1, HK1, Hag, Hidle. fold rd in HK1, Hag. set (s := w_core W) in *.
  assert (Hst1 : step g tx cl (set_m s M1) l (set_m s' (wr M1 (wrote l)))).
  { apply (step_moved s t m M1 l s' Hstep Hact Hag).
    intros l1 k Ek l2 Ht. destruct (Hidle _ _ Ek) as [-> ->]. destruct (top_idle lock_loc g tx _ _ t l1 k HR1 Ek) as (ak & Ea & _).
    destruct HI1 as [HG HS]. destruct (HS t) as [S1 _]. rewrite Ea in S1. destruct S1 as [S1 _].
    assert (Hld : forall cpu a, gh cpu = Held t (length ak) true -> (a = lk cpu \/ a = cnt cpu) -> ldw g m a = ldw g M a).
    { intros cpu a Eg Ha. assert (Hi : In cpu cpus) by (apply HG; congruence). apply ldw_agree.
      intros x Hx. eapply see_held; [apply HK; exact Hi|exact Eg|exact Hsee|]. destruct Ha as [-> | ->]; auto. }
    destruct Ht as [(n & cpu & H1 & H2 & H3)|[(n & cpu & H1 & H2)|(n & cpu & H1 & H2)]]; subst l1 l2.
    - left. eauto.
    - right. left. exists n, cpu. split; auto. f_equal. eapply Hld; eauto. apply S1. reflexivity.
    - right. right. exists n, cpu. split; auto. rewrite (Hld cpu (lk cpu)); auto. apply S1. reflexivity. }
  assert (Hok1 : forall l, call_ok s l -> call_ok (set_m s M1) l) by (intros l2; destruct l2; auto).
  pose proof (s_wf _ _ _ HI1) as Hwf. pose proof (s_ni _ _ _ HI1 (rel_exclusive _ _ HR1)) as Hni.
  set (a := acquires lock_acq s l). set (msg' := carry (releases lock_rel s l) v1 (w_hist W) (c_msg C)).
  set (C1 := read1 C t rd ix) in *. set (C2 := after lock_loc C1 t s' h' v' a msg').
  destruct (step_on lock_loc g tx cl _ _ _ Hstep) as (t2 & Hoth2 & Hon2). cbn [s_thr set_m] in Hoth2, Hon2.
  destruct Hact as [Hoth Hl].
  assert (Hon : t_on (s_thr s' t) = t_on (s_thr s t) \/ t_on (s_thr s' t) = None \/ t_on (s_thr s t) = None).
  { destruct (Nat.eq_dec t2 t) as [->|Hn]; auto. left. rewrite Hoth2; auto. }
  assert (Hex : exclusive (fun t => t_on (s_thr s t))) by apply HR.
  assert (Hst2 : stores (wrote l) (w_hist (c_w C1)) (w_thr (c_w C1) t) h' v').
  { cbn. rewrite Nat.eqb_refl. exact Hst. }
  assert (Hmsg : forall x i b, In (i, b) (w_hist (c_w C1) x) -> msg' x i = c_msg C1 x i).
  { intros x i b Hin. unfold msg', carry. cbn. replace (existsb _ _) with true; auto. symmetry. apply existsb_exists.
    exists (i, b). split; auto. apply Nat.eqb_refl. }
  (* it is enough to look at C2 *)
  match goal with |- exists es', SInv ?X es' /\ _ => set (CE := X) end.
  assert (HCE : cgrows C2 CE).
  { assert (Ep : c_got C1 t = p1) by (cbn; rewrite Nat.eqb_refl; reflexivity).
    unfold C2, CE, cgrows. split; [|split; [|split]].
    - split; [reflexivity|]. cbn [c_w w_thr w_cpu w_cid after]. rewrite Ep. split; [|split; intros; apply le_n].
      intros u x. cbn. destruct (Nat.eqb u t); apply le_n.
    - split; [reflexivity|]. cbn [c_w w_thr w_cpu w_cid after plus c_got]. rewrite Ep. split; [|split; intros; apply le_n].
      intros u x. cbn. destruct (Nat.eqb u t); apply le_n.
    - reflexivity.
    - reflexivity. }
  assert (Hfin : forall es' a' gh' M', Rel lock_loc g tx (set_m s' M') a' -> holds2 gh' es' a' -> K2 C2 gh' M' -> SInv CE es').
  { intros es' a' gh' M' X1 X2 X3. exists M', gh', a'. split; [exact X1|]. split; [exact X2|]. intros cpu Hcpu.
    eapply Kl_grows; [exact HCE|apply X3; auto]. }
  assert (Hfr : (exists a', Rel lock_loc g tx (set_m s' (wr M1 (wrote l))) a') -> wrote l = [] -> K2 C2 gh1 (wr M1 (wrote l))).
  { intros (a' & HR') Ew cpu Hcpu.
    apply (Kl_frame C1 t s' h' v' a msg' Hoth Hon Hex (proj2 (proj2 HR')) (wrote l) Hst2 Hmsg gh1 gh1 M1); [apply HK1; auto|reflexivity|].
    rewrite Ew. intros x Hx. split; [intros []|reflexivity]. }
  destruct (step_cl2 _ _ _ Hst1) as [[Hs2 Hnw]|(u & n & cpu & k & -> & Ek & Hs2)].
  - destruct (sim_step lock_loc g tx cl2 Hgood _ _ HR1 Hwf Hni _ _ Hs2 (Hok1 _ Hok)) as ((ls & a' & E' & HR' & V' & S') & _).
    assert (Hex' : exclusive (fun t => t_on (s_thr s' t))) by apply HR'.
    assert (Htau : (forall x, In x ls -> x = ALtau) -> exists es', SInv CE es' /\ n_cs es' = n_cs es + count is_count_store (obs1 (s, l))).
    { intros Ht. exists es. assert (l = Ltau) as -> by (apply cvis1_nil; rewrite <- V'; apply avis1_tau; auto).
      split; [|cbn; unfold count; cbn; lia]. eapply Hfin; [exact HR'|eapply s_taus; eauto|]. apply Hfr; eauto. }
    destruct S' as [Hlen|Ht]; [|apply Htau; auto].
    destruct ls as [|al [|? ?]]; [apply Htau; intros ? []| |cbn in Hlen; lia]. clear Htau.
    apply aexec_one in E'. cbn in V'. rewrite app_nil_r in V'.
    destruct (s_step _ _ _ _ _ HI1 E') as (gh' & J1 & J2).
    exists (es ++ effects lock_loc (aev ab1 al)). rewrite n_cs_app, (obs_aev s M1 ab1 al a' l HR1 E' V'). split; [|reflexivity].
    refine (Hfin _ a' gh' _ HR' J1 _).
    destruct al as [|u c|u c r|u c ps|u c ps|u ps|u c]; cbn in J2.
    + subst gh'. apply Hfr; eauto. destruct l; try discriminate V'; reflexivity.
    + subst gh'. apply Hfr; eauto. destruct l; try discriminate V'; reflexivity.
    + destruct l as [| |u0 c0 r0| |]; try discriminate V'. injection V' as <- <- <-. cbn in Hl. subst u.
      destruct J2 as [->|(d & cpu & n & k & -> & Eg & Ea & ->)]; [apply Hfr; eauto|].
      assert (Hi : In cpu cpus) by (apply HI1; congruence).
      apply (K_fence C1 t s' h' v' a msg' Hoth Hon Hex Hex' [] Hst2 Hmsg gh1 M1 cpu d HK1 Hi Eg eq_refl).
      destruct (top_ctx _ _ _ _ _ _ HR1 Ea) as (y & k' & F1 & F2 & _). cbn [s_thr set_m] in F1.
      unfold a, acquires. rewrite F1, F2. reflexivity.
    + destruct J2 as [-> ->]. destruct l as [| | |u0 ps0|]; try discriminate V'. injection V' as <- <-. apply Hfr; eauto.
    + destruct l as [| | |u0 ps0|]; try discriminate V'. injection V' as <- <-. cbn in Hl. subst u. cbn [wrote].
      destruct J2 as (d & cpu & Hi & Ec & Em & Eg & -> & -> & Hr).
      apply (K_take C1 t s' h' v' a msg' Hoth Hon Hex Hex' _ Hst2 Hmsg gh1 M1 cpu d HK1 Hi Eg eq_refl).
      pose proof (proj2 (Rel_right lock_loc g tx _ ab1 t c HR1 Hr)) as F. rewrite Ec, Em in F. exact F.
    + destruct l as [| | |u0 ps0|]; try discriminate V'. injection V' as <- <-. cbn in Hl. subst u. cbn [wrote].
      destruct J2 as [(d & cpu & n & k & -> & Ea & Eg & ->)|(d & cpu & v & Eg & -> & ->)].
      * exfalso. destruct (top_ctx _ _ _ _ _ _ HR1 Ea) as ([ly oy] & k' & F1 & F2 & F3). cbn in F1, F2, F3.
        rewrite (proj1 F3 eq_refl) in F1. exact (Hnw t _ _ F1 eq_refl).
      * assert (Hi : In cpu cpus) by (apply HI1; congruence).
        apply (K_count C1 t s' h' v' a msg' Hoth Hon Hex Hex' _ Hst2 Hmsg gh1 M1 cpu d v HK1 Hi Eg eq_refl).
    + subst gh'. apply Hfr; eauto. destruct l; try discriminate V'; reflexivity.
  - cbn in Hl. subst u.
    destruct (sim_step lock_loc g tx cl2 Hgood _ _ HR1 Hwf Hni _ _ Hs2 Logic.I) as ((ls & a' & E' & HR' & V' & S') & _).
    assert (Hex' : exclusive (fun t => t_on (s_thr s' t))) by apply HR'.
    destruct S' as [Hlen|Ht]; [|rewrite (avis1_tau _ Ht) in V'; discriminate V'].
    destruct ls as [|al [|? ?]]; [discriminate V'| |cbn in Hlen; lia].
    apply aexec_one in E'. cbn in V'. rewrite app_nil_r in V'.
    destruct (top_idle lock_loc g tx _ _ t _ k HR1 Ek) as (ak & Ea & _).
    destruct (s_step _ _ _ _ _ HI1 E') as (gh' & J1 & J2).
    assert (al = ALwrite t []) as ->.
    { destruct al as [|u c|u c r|u c ps|u c ps|u ps|u c]; try discriminate V'; injection V' as -> ->; auto.
      - inversion E' as [| | | | | | |? ? ? ? ? ? ? ? ? ? F| | |]; subst. congruence.
      - inversion E' as [| | | | | | | |? ? ? ? ? ? ? ? ? F| |]; subst. congruence. }
    exists (es ++ effects lock_loc (aev ab1 (ALwrite t []))). split.
    + refine (Hfin _ a' gh' M1 HR' J1 _).
      cbn in J2. destruct J2 as [(d & cpu2 & n2 & k2 & _ & Ea2 & Eg & ->)|(d & cpu2 & v & Eg & E & _)].
      * assert (cpu2 = cpu) as -> by congruence. assert (Hi : In cpu cpus) by (apply HI1; congruence).
        apply (K_release C1 t s' h' v' a msg' Hoth Hon Hex Hex' _ Hst2 Hmsg gh1 M1 cpu d HK1 Hi Eg eq_refl).
        intros x i Hno. unfold msg', carry. replace (releases lock_rel s _) with true.
        { replace (existsb _ _) with false; [cbn; rewrite Nat.eqb_refl; reflexivity|]. symmetry. apply Bool.not_true_iff_false.
          intros F. apply existsb_exists in F. destruct F as ([i2 b] & F1 & F2). cbn in F2. apply Nat.eqb_eq in F2. subst i2.
          exact (Hno b F1). }
        unfold releases. cbn [s_thr set_m] in Ek. rewrite Ek. reflexivity.
      * exfalso. apply (f_equal (map fst)) in E. rewrite stw_keys in E. pose proof (low_in g Hsz (cnt cpu2)) as F. rewrite <- E in F. destruct F.
    + rewrite n_cs_app. f_equal. fold W s. cbn [aev obs1]. rewrite Ea. cbn [s_thr set_m] in Ek. rewrite Ek. reflexivity.
Qed.

Lemma sync_init : forall s0 : RseqKernel.state lock_loc, initial s0 ->
  (forall cpu x, In cpu cpus -> In x (span (lk cpu) (wsize g)) -> s_mem s0 x = 0) ->
  (forall t, exists n, map x_loc (t_ctx (s_thr s0 t)) = [Lk_idle n]) ->
  wrap g (total g cpus cnt (s_mem s0)) = wrap g T0 -> SInv (sync_start s0) [].
Proof.
  intros s0 Hi Hz Hs HT. exists (s_mem s0), (fun _ => Free), (abs_init s0). split; [|split].
  - replace (set_m (w_core (c_w (sync_start s0))) (s_mem s0)) with s0 by (destruct s0; reflexivity). apply Rel_initial; auto.
  - split.
    + split; [intros cpu F; congruence|]. cbn. rewrite HT. f_equal. unfold n_cs, count. cbn. lia.
    + intros t. cbn. destruct (Hs t) as (n & E). destruct (t_ctx (s_thr s0 t)) as [|x [|? ?]]; try discriminate E.
      cbn in E. injection E as E. cbn. rewrite E. cbn.
      split; [split; [|auto]|]; [|intros d _]; intros cpu f; split; discriminate.
  - intros cpu Hc. split.
    + intros x Hx _. split; [eapply Hz; eauto|]. cbn. intros j b [F|[]]. injection F as _ <-. eapply Hz; eauto.
    + assert (Ht : forall x, top (w_hist (c_w (sync_start s0)) x) O (s_mem s0 x)).
      { intros x. split; [left; reflexivity|]. intros j c [F|[]]. left. congruence. }
      exists O. split; [apply Ht|]. split; [split; intros; lia|]. intros x Hx. exists O. split; [apply Ht|]. split; intros; lia.
Qed.

Lemma sync_run : forall s0 : RseqKernel.state lock_loc, SInv (sync_start s0) [] ->
  forall wtr C, cpath g tx cl lock_rel lock_acq (sync_start s0) wtr C ->
  exists es, SInv C es /\ n_cs es = count is_count_store (obs wtr).
Proof.
  intros s0 H0 wtr C Hp. remember (sync_start s0) as C0 eqn:E0. induction Hp as [|C0 tr C' l C'' H IH Hc Hok].
  - exists []. split; auto.
  - destruct (IH E0 H0) as (es & I1 & I2). destruct (sync_step _ _ _ _ I1 Hc Hok) as (es' & I3 & I4).
    exists es'. split; auto. rewrite I4, I2. unfold count, obs. rewrite flat_map_app, filter_app, app_length. cbn [flat_map].
    rewrite app_nil_r. lia.
Qed.

Lemma s_holders : forall gh m t k cpu, Stk lock_loc sghost s_ctx gh m t k ->
  (length (filter (fun x => holding cpu (a_loc x)) k) <= 1)%nat /\
  ((1 <= length (filter (fun x => holding cpu (a_loc x)) k))%nat -> exists d, (d < length k)%nat /\ gh cpu = Held t d true).
Proof.
  intros gh m t k cpu. induction k as [|x k IH]; intros H; [cbn; split; lia|].
  destruct H as [H1 H2]. destruct (IH H2) as [I1 I2]. cbn [filter].
  destruct (holding cpu (a_loc x)) eqn:E; cbn [length].
  - assert (Hg : gh cpu = Held t (length k) true).
    { unfold s_ctx in H1. destruct x as [l o]. cbn in *. destruct l; try discriminate; apply Z.eqb_eq in E; subst;
        destruct o as [[? ?]|]; try contradiction; try (apply H1; reflexivity). }
    split.
    + destruct (filter (fun x => holding cpu (a_loc x)) k) as [|y ys] eqn:F; cbn; auto.
      destruct I2 as (d & Hd & Hg'); [cbn; lia|]. rewrite Hg in Hg'. injection Hg' as Hg'. lia.
    + intros _. exists (length k). split; auto.
  - split; auto. intros Hl. destruct (I2 Hl) as (d & Hd & Hg). exists d. split; auto.
Qed.
End Ghost.

(** C54 *)
Theorem lock_weak : forall g a tw tx md cpus cnt lk s0,
  lib_text a tw tx -> initial s0 -> 1 < wmod g -> NoDup cpus -> lock_layout g cpus cnt lk ->
  (forall cpu x, In cpu cpus -> In x (span (lk cpu) (wsize g)) -> s_mem s0 x = 0) ->
  (forall t, exists n, map x_loc (t_ctx (s_thr s0 t)) = [Lk_idle n]) ->
  forall wtr C, cpath g tx (lock_client g md cpus cnt lk) lock_rel lock_acq (sync_start s0) wtr C ->
  (forall cpu t u, (holders (w_core (c_w C)) cpu t <= 1)%nat /\
     (t <> u -> holders (w_core (c_w C)) cpu t = O \/ holders (w_core (c_w C)) cpu u = O)) /\
  (forall t x, In x (t_ctx (s_thr (w_core (c_w C)) t)) -> x_loc x <> Lk_assert_failed) /\
  exists m, (forall cpu x, In cpu cpus -> In x (span (cnt cpu) (wsize g)) -> newest (w_hist (c_w C) x) (m x)) /\
    wrap g (total g cpus cnt m) = wrap g (total g cpus cnt (s_mem s0) + count is_count_store (obs wtr)).
Proof.
  intros g a tw tx md cpus cnt lk s0 Htx Hi Hw1 Hnd Hlay Hz Hst wtr C Hp.
  set (T0 := total g cpus cnt (s_mem s0)).
  destruct (sync_run g md cpus cnt lk Hw1 Hnd Hlay T0 tx a tw Htx s0
    (sync_init g md cpus cnt lk T0 tx s0 Hi Hz Hst eq_refl) wtr C Hp) as (es & (M & gh & aa & HR & [HG HS] & HK) & En).
  split; [|split].
  - intros cpu t u. change (holders (w_core (c_w C))) with (holders (set_m (w_core (c_w C)) M)).
    rewrite !(holders_abs g tx _ aa cpu _ HR). destruct (HS t) as [S1 _], (HS u) as [S2 _].
    destruct (s_holders _ _ _ _ _ _ _ _ _ cpu S1) as [B1 B2]. destruct (s_holders _ _ _ _ _ _ _ _ _ cpu S2) as [B3 B4].
    split; auto. intros Hn.
    destruct (length (filter (fun x => holding cpu (a_loc x)) (a_thr aa t))) as [|n1] eqn:F1; auto.
    destruct (length (filter (fun x => holding cpu (a_loc x)) (a_thr aa u))) as [|n2] eqn:F2; auto.
    destruct B2 as (d1 & _ & G1); [lia|]. destruct B4 as (d2 & _ & G2); [lia|]. congruence.
  - intros t x Hx E. pose proof (rel_contexts lock_loc g tx _ aa t HR) as Hc. unfold contexts in Hc. cbn [s_thr set_m] in Hc.
    assert (Hin : In (Lk_assert_failed, match x_act x with Some _ => true | None => false end)
      (map (fun x => (x_loc x, match x_act x with Some _ => true | None => false end)) (t_ctx (s_thr (w_core (c_w C)) t)))).
    { rewrite <- E. apply in_map_iff. exists x. auto. }
    rewrite Hc in Hin. apply in_map_iff in Hin. destruct Hin as (ax & E1 & Hax). destruct (HS t) as [S1 _].
    revert S1 Hax E1. generalize (a_thr aa t). clear. intros k. induction k as [|y k IH]; intros S1 Hax E1; [destruct Hax|].
    destruct S1 as [H1 H2]. destruct Hax as [->|Hax]; [|apply IH; auto].
    injection E1 as E1 _. unfold s_ctx in H1. rewrite E1 in H1. destruct (a_act ax) as [[? ?]|]; contradiction.
  - exists M. split.
    + intros cpu x Hc Hx. destruct (HK cpu Hc) as [_ H2]. destruct (gh cpu) as [|t d f|].
      * destruct H2 as (j & _ & _ & A). destruct (A x Hx) as (i & B & _). exists i. exact B.
      * destruct H2 as (j & _ & _ & _ & A). destruct (A x Hx) as (i & B & _). exists i. exact B.
      * destruct H2 as (j & j1 & _ & _ & _ & _ & A). destruct (A x Hx) as (i & B & _). exists i. exact B.
    + destruct HG as [_ HG]. replace (a_mem aa) with M in HG by (symmetry; apply HR). rewrite HG, En. reflexivity.
Qed.
