(** What a single call did, in any run of the concrete machine: proofs for the
    call-level properties C01, C02, C03, C05. *)
From Coq Require Import ZArith Bool List Lia.
From Verif Require Import RseqIR RseqSpec RseqKernel RseqSafe MemLemmas RunLemmas RseqSim.
Import ListNotations.
Local Open Scope Z_scope.

Arguments path {Loc} _ _ _ _ _ _.
Arguments lifetime {Loc} _ _ _ _ _ _ _ _ _ _.
Arguments depth {Loc} _ _.
Arguments own_writes {Loc} _ _ _.
Arguments runs_on {Loc} _ _ _.

Section Calls.
Variable Loc : Type.
Variable g : cfg.
Variable tx : text.
Variable cl : client Loc.
Hypothesis Hgood : good_text g tx.

Notation state := (state Loc).
Notation astate := (astate Loc).
Notation actx := (actx Loc).

(** Entry number [d] of a stack, counted from the outermost one (1). *)
Definition entry (ak : list actx) (d : nat) : option actx := nth_error (rev ak) (d - 1).

Lemma entry_top : forall ax ak, entry (ax :: ak) (S (length ak)) = Some ax.
Proof.
  intros. unfold entry. cbn. replace (length ak - 0)%nat with (length (rev ak)) by (rewrite rev_length; lia).
  rewrite nth_error_app2, Nat.sub_diag; auto.
Qed.

Lemma entry_cons : forall ax ak d, (1 <= d <= length ak)%nat -> entry (ax :: ak) d = entry ak d.
Proof. intros. unfold entry. cbn. rewrite nth_error_app1; auto. rewrite rev_length. lia. Qed.

Lemma stack_rel_length : forall th m ld top k ak,
  stack_rel Loc g tx th m ld top k ak -> length k = length ak.
Proof.
  intros th m ld top k. revert top. induction k; destruct ak; cbn; intros; try tauto; auto.
  destruct H. f_equal. eauto.
Qed.

Lemma Rel_depth : forall s a t, Rel Loc g tx s a -> depth s t = length (a_thr a t).
Proof. intros s a t (_ & H & _). destruct (H t) as (_ & _ & H3). exact (stack_rel_length _ _ _ _ _ _ H3). Qed.

Lemma Rel_right : forall s a t c, Rel Loc g tx s a -> on_right_cpu a t c -> runs_on s t c.
Proof.
  intros s a t c (_ & H & _) Hc. destruct (H t) as (H1 & _). unfold on_right_cpu, runs_on in *.
  rewrite H1 in Hc. destruct (t_reg (s_thr s t)); auto. discriminate.
Qed.

(** ** One abstract step and the status of a given call *)

Definition act_is (a : astate) (t d : nat) (c : call) (st : status) : Prop :=
  (1 <= d <= length (a_thr a t))%nat /\
  exists ax, entry (a_thr a t) d = Some ax /\ a_act ax = Some (c, st).

Lemma act_is_fun : forall a t d c st c' st', act_is a t d c st -> act_is a t d c' st' -> c = c' /\ st = st'.
Proof.
  intros a t d c st c' st' (_ & ax & H1 & H2) (_ & ax' & H3 & H4). rewrite H1 in H3.
  inversion H3; subst. rewrite H2 in H4. inversion H4. auto.
Qed.

Lemma act_is_thr : forall a a' t d c st, a_thr a' t = a_thr a t -> act_is a t d c st -> act_is a' t d c st.
Proof. unfold act_is. intros a a' t d c st ->. auto. Qed.

(** The top of the stack changes from [ax] to [ax']. *)
Lemma act_is_top : forall a t d c st ax k, a_thr a t = ax :: k -> act_is a t d c st ->
  (d = S (length k) /\ a_act ax = Some (c, st)) \/
  ((d <= length k)%nat /\ forall a' l, a_thr a' t = l ++ k -> act_is a' t d c st).
Proof.
  intros a t d c st ax k E (H1 & ax0 & H2 & H3). rewrite E in *. cbn in H1.
  destruct (Nat.eq_dec d (S (length k))) as [->|Hn].
  - left. rewrite entry_top in H2. inversion H2; subst. auto.
  - right. split; [lia|]. intros a' l E'. split; [rewrite E', app_length; lia|]. exists ax0. split; auto.
    rewrite entry_cons in H2 by lia. rewrite E'. clear -H1 H2 Hn.
    induction l; auto. cbn. rewrite entry_cons; auto. rewrite app_length. lia.
Qed.

(** What happens to the entry: nothing, or the call's own next move. *)
Inductive moves (a : astate) (t d : nat) (c : call) (st : status) (l : alabel) (a' : astate) : Prop :=
  | mv_same : act_is a' t d c st ->
      (forall ps, writes l = Some (t, ps) -> length (a_thr a t) = d -> False) ->
      (forall c', l = ALfail t c' -> length (a_thr a t) <> d) ->
      moves a t d c st l a'
  | mv_ret : forall r, l = ALret t c r -> st = Finished r -> length (a_thr a t) = d -> moves a t d c st l a'
  | mv_attempt : forall w att fin ps, l = ALattempt t c ps -> st = Pending w -> act_is a' t d c (Pending true) ->
      length (a_thr a t) = d -> on_right_cpu a t c ->
      pseudo g (c_op c) (a_mem a) = OCommit att fin -> incl ps att -> moves a t d c st l a'
  | mv_commit : forall w att fin, l = ALcommit t c fin -> st = Pending w -> act_is a' t d c (Finished 0) ->
      length (a_thr a t) = d -> on_right_cpu a t c ->
      pseudo g (c_op c) (a_mem a) = OCommit att fin ->
      meq (a_mem a') (wr (wr (a_mem a) att) fin) -> moves a t d c st l a'
  | mv_fail : l = ALfail t c -> st = Pending false -> act_is a' t d c (Finished 1) ->
      length (a_thr a t) = d -> on_right_cpu a t c ->
      pseudo g (c_op c) (a_mem a) = OFail -> moves a t d c st l a'
  | mv_abort : l = ALtau -> (exists w, st = Pending w) \/ st = Finished 1 -> act_is a' t d c (Finished (-1)) ->
      length (a_thr a t) = d -> moves a t d c st l a'.

Lemma thr_same : forall (a : astate) t ak, a_thr (set_thr a t ak) t = ak.
Proof. intros. cbn. now rewrite Nat.eqb_refl. Qed.
Lemma thr_other : forall (a : astate) t u ak, t <> u -> a_thr (set_thr a u ak) t = a_thr a t.
Proof. intros. cbn. destruct (Nat.eqb_spec t u); congruence. Qed.

Lemma act_is_new : forall (a : astate) t ax k c st, a_thr a t = ax :: k -> a_act ax = Some (c, st) ->
  act_is a t (S (length k)) c st.
Proof.
  intros a t ax k c st E E2. split; [rewrite E; cbn; lia|]. exists ax. rewrite E. split; auto. apply entry_top.
Qed.

Lemma step_moves : forall a l a' t d c st, astep g cl a l a' -> act_is a t d c st -> moves a t d c st l a'.
Proof.
  intros a l a' t d c st Hs Ha.
  assert (Hother : forall u, t <> u -> a_thr a' t = a_thr a t ->
            (forall ps, writes l <> Some (t, ps)) -> (forall c', l <> ALfail t c') -> moves a t d c st l a').
  { intros u _ E E2 E3. apply mv_same; [eapply act_is_thr; eauto| |].
    - intros ps Hw. exfalso. eapply E2; eauto.
    - intros c' Hw. exfalso. eapply E3; eauto. }
  destruct Hs.
  1-6, 8-11: destruct (Nat.eq_dec t t0) as [<-|Hn];
    [|eapply (Hother t0); [auto| | |]; [try apply thr_other; auto; cbn; destruct (Nat.eqb_spec t t0); congruence
                        | cbn; intros; congruence | intros; congruence]].
  - destruct (act_is_top _ _ _ _ _ _ _ H Ha) as [[-> E]|[Hd Hk]]; [discriminate|].
    apply mv_same; [|cbn; discriminate|discriminate]. eapply (Hk _ [_]). apply thr_same.
  - destruct (act_is_top _ _ _ _ _ _ _ H Ha) as [[-> E]|[Hd Hk]].
    + cbn in E. inversion E; subst. eapply mv_ret; eauto. rewrite H. reflexivity.
    + apply mv_same; [|cbn; discriminate|discriminate]. eapply (Hk _ [_]). apply thr_same.
  - destruct (act_is_top _ _ _ _ _ _ _ H Ha) as [[-> E]|[Hd Hk]]; [discriminate|].
    apply mv_same; [|rewrite H; cbn; intros; lia|discriminate].
    eapply (Hk _ [_]). cbn. now rewrite Nat.eqb_refl.
  - destruct (act_is_top _ _ _ _ _ _ _ H Ha) as [[-> E]|[Hd Hk]]; [discriminate|].
    apply mv_same; [|cbn; discriminate|discriminate]. eapply (Hk _ [_]). apply thr_same.
  - destruct (act_is_top _ _ _ _ _ _ _ H Ha) as [[-> E]|[Hd Hk]].
    + apply mv_same; [|cbn; discriminate|discriminate].
      destruct Ha as (_ & ax & Ea & Eb). split; [rewrite thr_same; cbn; lia|].
      exists x. split; auto. rewrite thr_same. rewrite entry_cons by (cbn; lia). apply entry_top.
    + apply mv_same; [|cbn; discriminate|discriminate]. eapply (Hk _ [_;_]). apply thr_same.
  - destruct (act_is_top _ _ _ _ _ _ _ H Ha) as [[-> E]|[Hd Hk]]; [discriminate|].
    apply mv_same; [|cbn; discriminate|discriminate]. eapply (Hk _ []). apply thr_same.
  - destruct (act_is_top _ _ _ _ _ _ _ H Ha) as [[-> E]|[Hd Hk]].
    + cbn in E. inversion E; subst. eapply mv_attempt; eauto; [|rewrite H; reflexivity].
      eapply act_is_new; [cbn; rewrite Nat.eqb_refl; reflexivity|reflexivity].
    + apply mv_same; [|rewrite H; cbn; intros; lia|discriminate].
      eapply (Hk _ [_]). cbn. now rewrite Nat.eqb_refl.
  - destruct (act_is_top _ _ _ _ _ _ _ H Ha) as [[-> E]|[Hd Hk]].
    + cbn in E. inversion E; subst. eapply mv_commit; eauto; [|rewrite H; reflexivity].
      eapply act_is_new; [cbn; rewrite Nat.eqb_refl; reflexivity|reflexivity].
    + apply mv_same; [|rewrite H; cbn; intros; lia|discriminate].
      eapply (Hk _ [_]). cbn. now rewrite Nat.eqb_refl.
  - destruct (act_is_top _ _ _ _ _ _ _ H Ha) as [[-> E]|[Hd Hk]].
    + cbn in E. inversion E; subst. eapply mv_fail; eauto; [|rewrite H; reflexivity].
      eapply act_is_new; [cbn; rewrite Nat.eqb_refl; reflexivity|reflexivity].
    + apply mv_same; [|cbn; discriminate|rewrite H; cbn; intros; lia].
      eapply (Hk _ [_]). apply thr_same.
  - destruct (act_is_top _ _ _ _ _ _ _ H Ha) as [[-> E]|[Hd Hk]].
    + cbn in E. inversion E; subst c0 st0. apply mv_abort; [reflexivity|assumption| |rewrite H; reflexivity].
      eapply act_is_new; [cbn; rewrite Nat.eqb_refl; reflexivity|reflexivity].
    + apply mv_same; [|cbn; discriminate|discriminate].
      eapply (Hk _ [_]). apply thr_same.
  - apply mv_same; [|cbn; discriminate|discriminate]. eapply act_is_thr; eauto.
Qed.

(** ** History of the call *)

Definition attempted (t d : nat) (c : call) (tr : list (state * clabel)) : Prop :=
  forall s ps, In (s, ps) (own_writes t d tr) ->
    runs_on s t c /\ exists att fin, pseudo g (c_op c) (s_mem s) = OCommit att fin /\ incl ps att.

Definition committed (t d : nat) (c : call) (tr : list (state * clabel)) : Prop :=
  exists tr1 sc fin tr2 att, tr = tr1 ++ (sc, Lwr t fin) :: tr2 /\ depth sc t = d /\
    runs_on sc t c /\ pseudo g (c_op c) (s_mem sc) = OCommit att fin /\
    meq (wr (s_mem sc) fin) (wr (wr (s_mem sc) att) fin) /\
    attempted t d c tr1 /\ own_writes t d tr2 = [].

Definition failed (t d : nat) (c : call) (tr : list (state * clabel)) : Prop :=
  own_writes t d tr = [] /\
  exists s l, In (s, l) tr /\ runs_on s t c /\ pseudo g (c_op c) (s_mem s) = OFail.

Definition hist (t d : nat) (c : call) (st : status) (tr : list (state * clabel)) : Prop :=
  match st with
  | Pending false => own_writes t d tr = []
  | Pending true => attempted t d c tr
  | Finished r => (r = 0 /\ committed t d c tr) \/ (r = 1 /\ failed t d c tr) \/ (r = -1 /\ attempted t d c tr)
  end.

Lemma own_snoc : forall t d tr (s : state) l,
  own_writes t d (tr ++ [(s, l)]) = own_writes t d tr ++ own_writes t d [(s, l)].
Proof. intros. unfold own_writes. apply flat_map_app. Qed.

Lemma hist_same : forall t d c st tr (s : state) l, own_writes t d [(s, l)] = [] ->
  hist t d c st tr -> hist t d c st (tr ++ [(s, l)]).
Proof.
  intros t d c st tr s l E H.
  assert (Ho : own_writes t d (tr ++ [(s, l)]) = own_writes t d tr) by (rewrite own_snoc, E; apply app_nil_r).
  unfold hist, attempted, failed in *. destruct st as [[|]|r].
  - rewrite Ho. auto.
  - rewrite Ho. auto.
  - rewrite Ho. destruct H as [[H1 H2]|[[H1 [H2 (s' & l' & H3 & H4)]]|H]]; auto.
    + left. split; auto. destruct H2 as (tr1 & sc & fin & tr2 & att & -> & E2 & E3 & E4 & E5 & E6 & E7).
      exists tr1, sc, fin, (tr2 ++ [(s, l)]), att. split; [rewrite <- app_assoc; reflexivity|].
      repeat (split; auto). rewrite own_snoc, E7, E. reflexivity.
    + right; left. split; auto. split; auto. exists s', l'. split; auto. apply in_or_app; auto.
Qed.

Lemma hist_abort : forall t d c st tr, (exists w, st = Pending w) \/ st = Finished 1 ->
  hist t d c st tr -> hist t d c (Finished (-1)) tr.
Proof.
  intros t d c st tr [[w ->] | ->] H; right; right; split; auto.
  - destruct w; auto. intros s ps. cbn in H. rewrite H. intros [].
  - destruct H as [[? _]|[[_ [H _]]|[? _]]]; try discriminate. intros s ps. rewrite H. intros [].
Qed.

Lemma hist_pending : forall t d c w tr, hist t d c (Pending w) tr -> attempted t d c tr.
Proof. intros. destruct (hist_abort _ _ _ _ _ (or_introl (ex_intro _ w eq_refl)) H) as [[? ?]|[[? ?]|[? ?]]]; auto; discriminate. Qed.

(** Silent steps: nothing, or an abort. *)
Lemma taus_act : forall a ls a' t d c st, aexec g cl a ls a' -> (forall l, In l ls -> l = ALtau) ->
  act_is a t d c st -> act_is a' t d c st \/
    ((exists w, st = Pending w) \/ st = Finished 1) /\ act_is a' t d c (Finished (-1)).
Proof.
  intros a ls a' t d c st He. induction He as [|a ls a1 l a2 He IH Hs]; intros Hl Ha; auto.
  assert (Hl' : l = ALtau) by (apply Hl, in_or_app; right; left; auto). subst l.
  assert (Hl'' : forall l, In l ls -> l = ALtau) by (intros; apply Hl, in_or_app; auto).
  destruct (IH Hl'' Ha) as [H|[H1 H2]].
  - destruct (step_moves _ _ _ _ _ _ _ Hs H); try discriminate; eauto.
  - destruct (step_moves _ _ _ _ _ _ _ Hs H2); try discriminate; eauto.
Qed.

Lemma step_mem_wr : forall s t ps s', step g tx cl s (Lwr t ps) s' -> s_mem s' = wr (s_mem s) ps.
Proof. intros s t ps s' H. inversion H; reflexivity. Qed.

(** ** One concrete step *)

Lemma own_one : forall t d (s : state) u ps,
  own_writes t d [(s, Lwr u ps)] = if Nat.eqb u t && Nat.eqb (depth s t) d then [(s, ps)] else [].
Proof. intros. cbn. destruct (_ && _); reflexivity. Qed.

Lemma avis1_tau : forall ls, (forall l, In l ls -> l = ALtau) -> avis ls = [].
Proof.
  induction ls; cbn; auto. intros H. rewrite (H a (or_introl eq_refl)). cbn. apply IHls. auto.
Qed.

Lemma cvis1_nil : forall l, cvis1 l = [] -> l = Ltau.
Proof. intros [| | | |]; cbn; intros; congruence. Qed.

Lemma hist_step : forall s l s' a ls a' t d c st tr,
  step g tx cl s l s' -> Rel Loc g tx s a -> Rel Loc g tx s' a' ->
  aexec g cl a ls a' -> avis ls = cvis1 l -> short ls ->
  act_is a t d c st -> hist t d c st tr ->
  (exists r, l = Lret t c r /\ st = Finished r /\ depth s t = d) \/
  (exists st', act_is a' t d c st' /\ hist t d c st' (tr ++ [(s, l)])).
Proof.
  intros s l s' a ls a' t d c st tr Hs HR HR' He Hv Hsh Ha Hh.
  assert (Htau : (forall x, In x ls -> x = ALtau) -> 
          exists st', act_is a' t d c st' /\ hist t d c st' (tr ++ [(s, l)])).
  { intros Ht. assert (l = Ltau) as -> by (apply cvis1_nil; rewrite <- Hv; apply avis1_tau; auto).
    destruct (taus_act _ _ _ _ _ _ _ He Ht Ha) as [H|[Hw H]].
    - exists st. split; auto. apply hist_same; auto.
    - exists (Finished (-1)). split; auto. apply hist_same; auto. eapply hist_abort; eauto. }
  assert (Hone : forall al, ls = [al] -> astep g cl a al a').
  { intros al ->. inversion He. destruct ls as [|b ls].
    - cbn in H. inversion H; subst. inversion H0; subst; auto. destruct ls; discriminate.
    - destruct ls; discriminate. }
  destruct Hsh as [Hlen|Ht]; [|right; auto].
  destruct ls as [|al [|? ?]]; [right; apply Htau; intros ? []| |cbn in Hlen; lia].
  specialize (Hone al eq_refl). cbn in Hv. rewrite app_nil_r in Hv.
  pose proof (Rel_depth s a t HR) as Hd.
  assert (Em : a_mem a = s_mem s) by apply HR.
  assert (Em' : a_mem a' = s_mem s') by apply HR'.
  destruct (step_moves _ _ _ _ _ _ _ Hone Ha) as
    [H1 H2 H3|r -> -> H|w att fin ps -> -> H1 H2 H3 H4 H5|w att fin -> -> H1 H2 H3 H4 H5| -> -> H1 H2 H3 H4| -> H0 H1 H2].
  - right. exists st. split; auto. apply hist_same; auto.
    destruct l; auto. rewrite own_one. destruct (Nat.eqb_spec t0 t) as [->|]; auto.
    destruct (Nat.eqb_spec (depth s t) d) as [E|]; auto. exfalso.
    apply (H2 ps); [|congruence]. destruct al; cbn in Hv |- *; inversion Hv; auto.
  - left. exists r. destruct l; inversion Hv; subst. repeat split; auto.
  - right. exists (Pending true). split; auto. destruct l as [| | |t' ps'|]; inversion Hv; subst t' ps'.
    cbn [hist]. intros s0 ps0. rewrite own_snoc, own_one. rewrite in_app_iff.
    intros [Hin|Hin]; [apply (hist_pending _ _ _ _ _ Hh); auto|].
    destruct (_ && _); [|destruct Hin]. destruct Hin as [E|[]]. inversion E; subst.
    split; [eapply Rel_right; eauto|]. exists att, fin. rewrite <- Em. auto.
  - right. exists (Finished 0). split; auto. destruct l as [| | |t' ps'|]; inversion Hv; subst t' ps'.
    left. split; auto. exists tr, s, fin, [], att. split; auto. split; [congruence|].
    split; [eapply Rel_right; eauto|]. split; [congruence|].
    split; [rewrite <- (step_mem_wr _ _ _ _ Hs), <- Em', <- Em; exact H5|].
    split; auto. eapply hist_pending; eauto.
  - right. exists (Finished 1). split; auto. assert (l = Ltau) as -> by (apply cvis1_nil; auto).
    right; left. split; auto. cbn in Hh. split; [rewrite own_snoc, Hh; reflexivity|].
    exists s, Ltau. split; [apply in_or_app; right; left; auto|]. split; [eapply Rel_right; eauto|].
    rewrite <- Em; auto.
  - right. assert (l = Ltau) as -> by (apply cvis1_nil; auto). exists (Finished (-1)). split; auto.
    apply hist_same; auto. eapply hist_abort; eauto.
Qed.

Variable s0 : state.
Hypothesis Hinit : initial s0.
Hypothesis Hclient : safe_client g cl (abs_init s0).

(** Abstract states that are reached along with concrete ones. *)
Definition tied (s : state) (a : astate) : Prop :=
  (exists als, aexec g cl (abs_init s0) als a) /\ Rel Loc g tx s a.

Lemma tied_step : forall s a l s', tied s a -> step g tx cl s l s' -> call_ok s l ->
  exists ls a', tied s' a' /\ aexec g cl a ls a' /\ avis ls = cvis1 l /\ short ls.
Proof.
  intros s a l s' [(als & H1) H2] Hs Hc. destruct (Hclient als a H1) as [Hwf Hni].
  destruct (sim_step Loc g tx cl Hgood s a H2 Hwf Hni l s' Hs Hc) as [(ls & a' & J1 & J2 & J3 & J4) _].
  exists ls, a'. split; [|auto]. split; [|auto]. exists (als ++ ls). eapply aexec_app; eauto.
Qed.

Lemma exec_tied : forall ls s, exec g tx cl s0 ls s -> exists a, tied s a.
Proof.
  intros ls s He. destruct (refinement Loc g tx cl Hgood s0 ls s Hinit Hclient He) as (_ & als & a & H1 & _ & H3).
  exists a. split; eauto.
Qed.

Lemma path_hist : forall t d c s2 tr s3, path g tx cl s2 tr s3 -> forall a2 st,
  tied s2 a2 -> act_is a2 t d c st -> hist t d c st [] ->
  (forall s' c' r', In (s', Lret t c' r') tr -> depth s' t <> d) ->
  exists a3 st', tied s3 a3 /\ act_is a3 t d c st' /\ hist t d c st' tr.
Proof.
  intros t d c s2 tr s3 Hp. induction Hp as [|s2 tr s' l s'' Hp IH Hs Hok]; intros a2 st Ht Ha Hh Hr.
  - exists a2, st. auto.
  - destruct (IH a2 st Ht Ha Hh) as (a3 & st3 & T3 & A3 & H3).
    { intros. eapply Hr. apply in_or_app; left; eauto. }
    destruct (tied_step _ _ _ _ T3 Hs Hok) as (ls & a4 & T4 & E4 & V4 & S4).
    destruct (hist_step _ _ _ _ _ _ _ _ _ _ _ Hs (proj2 T3) (proj2 T4) E4 V4 S4 A3 H3) as [(r & -> & _ & E)|(st' & A & H)].
    + exfalso. eapply (Hr s' c r); [apply in_or_app; right; left; auto|auto].
    + exists a4, st'. auto.
Qed.

(** The three ways a call can end. *)
Lemma lifetime_result : forall ls0 s1 t c tr s3 r s4,
  exec g tx cl s0 ls0 s1 -> lifetime g tx cl t c s1 tr s3 r s4 ->
  (r = 0 /\ committed t (depth s1 t) c tr) \/
  (r = 1 /\ failed t (depth s1 t) c tr) \/
  (r = -1 /\ attempted t (depth s1 t) c tr).
Proof.
  intros ls0 s1 t c tr s3 r s4 He (s2 & Hcall & Hok & Hp & Hr & Hret & Hd).
  destruct (exec_tied _ _ He) as (a1 & T1).
  destruct (tied_step _ _ _ _ T1 Hcall Hok) as (ls & a2 & T2 & E2 & V2 & S2).
  assert (Hone : exists c', astep g cl a1 (ALcall t c') a2 /\ c' = c).
  { destruct S2 as [Hl|Ht]; [|rewrite (avis1_tau _ Ht) in V2; discriminate].
    destruct ls as [|al [|? ?]]; [discriminate| |cbn in Hl; lia].
    cbn in V2. rewrite app_nil_r in V2. destruct al; inversion V2; subst. exists c. split; auto.
    clear -E2. inversion E2. destruct ls as [|b ls].
    - cbn in H. inversion H; subst. inversion H0; subst; auto. destruct ls; discriminate.
    - destruct ls; discriminate. }
  destruct Hone as (c' & Hone & ->).
  assert (A2 : act_is a2 t (depth s1 t) c (Pending false)).
  { rewrite (Rel_depth s1 a1 t (proj2 T1)). inversion Hone; subst.
    match goal with H : a_thr a1 t = _ |- _ => rewrite H end. cbn [length].
    eapply act_is_new; [apply thr_same|reflexivity]. }
  destruct (path_hist t (depth s1 t) c s2 tr s3 Hp a2 (Pending false) T2 A2 eq_refl Hr) as (a3 & st & T3 & A3 & H3).
  destruct (tied_step _ _ (Lret t c r) _ T3 Hret Logic.I) as (ls' & a4 & T4 & E4 & V4 & S4).
  destruct (hist_step _ _ _ _ _ _ _ _ _ _ _ Hret (proj2 T3) (proj2 T4) E4 V4 S4 A3 H3) as [(r' & E & -> & _)|(st' & A4 & _)].
  - inversion E; subst. exact H3.
  - exfalso.
    (* the entry would still be there, but the call has returned *)
    assert (Hr1 : exists al, ls' = [al] /\ astep g cl a3 al a4).
    { destruct S4 as [Hl|Ht]; [|rewrite (avis1_tau _ Ht) in V4; discriminate].
      destruct ls' as [|al [|? ?]]; [discriminate| |cbn in Hl; lia]. exists al. split; auto.
      clear -E4. inversion E4. destruct ls as [|b ls].
      - cbn in H. inversion H; subst. inversion H0; subst; auto. destruct ls; discriminate.
      - destruct ls; discriminate. }
    destruct Hr1 as (al & -> & Hal). cbn in V4. rewrite app_nil_r in V4.
    destruct al; inversion V4; subst.
    inversion Hal; subst. rewrite (Rel_depth s3 a3 t (proj2 T3)) in Hd.
    match goal with H : a_thr a3 t = _ |- _ => rewrite H in Hd end. cbn in Hd.
    destruct A4 as (_ & ax & E1 & E5). rewrite <- Hd in E1. rewrite thr_same in E1.
    rewrite entry_top in E1. inversion E1; subst. discriminate.
Qed.

End Calls.
