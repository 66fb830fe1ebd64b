(** A helper that runs alone computes what the pseudo-code says, within a
    bounded number of instructions (C09, C10). *)
From Coq Require Import ZArith Bool List Lia.
From Verif Require Import RseqIR RseqSpec RseqKernel RseqSafe MemLemmas RunLemmas RseqSim RseqCalls.
Import ListNotations.
Local Open Scope Z_scope.

Lemma istep_same : forall g P m m' idx pc rs pc' rs' e rd,
  istep g P m idx pc rs = Some (pc', rs', e, rd) -> agree rd m m' ->
  istep g P m' idx pc rs = Some (pc', rs', e, rd).
Proof. exact istep_agree. Qed.

Lemma run_alone_S : forall g P idx n m pc rs,
  run_alone g P idx (S n) m pc rs =
    match istep g P m idx pc rs with
    | Some (pc', rs', EWr ps, _) => run_alone g P idx n (wr m ps) pc' rs'
    | Some (_, _, EExit x, _) =>
        match exit_ret x with Some r => Some (r, m) | None => None end
    | Some (pc', rs', _, _) => run_alone g P idx n m pc' rs'
    | None => None
    end.
Proof. reflexivity. Qed.

Lemma run_alone_mono : forall g P idx n k m pc rs x, run_alone g P idx n m pc rs = Some x -> (n <= k)%nat ->
  run_alone g P idx k m pc rs = Some x.
Proof.
  induction n; intros k m pc rs x H Hk; [discriminate|]. destruct k; [lia|].
  rewrite run_alone_S in *. destruct (istep g P m idx pc rs) as [[[[pc' rs'] e] rd]|]; [|discriminate].
  destruct e; auto; apply IHn; auto; lia.
Qed.

Lemma tail_alone : forall g P idx n m pc rs x r, tail_exit P n pc = Some x -> exit_ret x = Some r ->
  run_alone g P idx n m pc rs = Some (r, m).
Proof.
  induction n; intros m pc rs x r H Hr; [discriminate|]. rewrite run_alone_S. cbn in H.
  unfold istep. destruct (nth_error (code P) pc) as [i|]; [|discriminate].
  destruct i; try discriminate.
  - eapply IHn; eauto.
  - eapply IHn; eauto.
  - inversion H; subst. rewrite Hr. reflexivity.
Qed.

Section Alone.
Variables (g : cfg) (P : program) (c : call) (m : mem) (idx : Z).
Hypothesis Hwf : idx = cpuarg c -> op_wf g (c_op c) m.

Lemma disj_rd : forall rd ps, idx = cpuarg c -> incl rd (read_foot g (c_op c) m) ->
  incl ps (attempts g (c_op c) m) -> agree rd m (wr m ps).
Proof.
  intros rd ps Hi H1 H2. apply agree_wr. intros a Ha Hb. destruct (Hwf Hi) as [Hd _].
  apply (Hd a); [|auto]. apply in_map_iff in Ha. destruct Ha as ([a' b] & E & Hin). cbn in E; subst a'.
  apply in_map_iff. exists (a, b). auto.
Qed.

(** Whole outcome. *)
Definition alone_ok (r : Z) (m' : mem) : Prop :=
  (idx <> cpuarg c -> r = -1 /\ meq m' m) /\
  (idx = cpuarg c -> pseudo g (c_op c) m = OFail -> r = 1 /\ meq m' m) /\
  (forall att fin, idx = cpuarg c -> pseudo g (c_op c) m = OCommit att fin ->
     r = 0 /\ meq m' (wr (wr m att) fin)).

Lemma wr_same_set : forall ps att, functional att -> incl ps att -> incl att ps -> meq (wr m ps) (wr m att).
Proof.
  intros ps att Hf H1 H2 a.
  destruct (in_dec Z.eq_dec a (map fst ps)) as [Hin|Hn].
  - destruct (wr_in ps m a Hin) as (b & Hb & ->). symmetry. apply wr_functional; auto.
  - rewrite !wr_notin; auto. intros Hin. apply Hn. apply in_map_iff in Hin.
    destruct Hin as ([a' b] & E & Hin). apply in_map_iff. exists (a', b). auto.
Qed.

Lemma safe_alone : forall k s, Safe g P c m idx k s ->
  incl (r_w s) (attempts g (c_op c) m) ->
  (idx <> cpuarg c -> r_w s = []) -> (pseudo g (c_op c) m = OFail -> r_w s = []) ->
  static_ok P = true ->
  exists r m', run_alone g P idx (k + length (code P)) (wr m (r_w s)) (r_pc s) (r_rs s) = Some (r, m') /\
    alone_ok r m'.
Proof.
  intros k s HS. induction HS as [k s pc' rs' e rd H1 H2 H3 H4 H5 H6 H7 H8 H9 HS IH
    | k s rs' att fin rd H1 H2 H3 H4 H5 H6 | k s pc' rs' H1 H2 H3 H4 H5 H6 | k s pc' rs' H1 H2 H3 H4 H5 H6];
    intros Hw Hn Hf Hok; cbn [Nat.add]; rewrite run_alone_S.
  - assert (Ha : agree rd m (wr m (r_w s))).
    { destruct H6 as [[-> _]|Hi]; [intros ? []|]. apply disj_rd; auto. }
    rewrite (istep_same _ _ _ _ _ _ _ _ _ _ _ H2 Ha).
    cbn [rnext r_pc r_rs r_w] in IH.
    assert (Hw' : incl (r_w s ++ eff_wr e) (attempts g (c_op c) m)).
    { apply incl_app; auto. apply wr_ok_incl; auto. }
    specialize (IH Hw').
    assert (Hn' : idx <> cpuarg c -> r_w s ++ eff_wr e = []).
    { intros Hi. rewrite (Hn Hi). destruct H6 as [[_ H6]|]; [|congruence]. destruct e; auto; discriminate. }
    assert (Hf' : pseudo g (c_op c) m = OFail -> r_w s ++ eff_wr e = []).
    { intros Hi. rewrite (Hf Hi). destruct e; auto. cbn in H8. destruct H8 as (att & fin & E & _). congruence. }
    destruct (IH Hn' Hf' Hok) as (r & m' & E & J). exists r, m'. split; auto.
    destruct e; cbn [eff_wr] in E; try (rewrite app_nil_r in E; exact E).
    + rewrite wr_app in E. exact E.
    + discriminate.
  - assert (Ha : agree rd m (wr m (r_w s))) by (apply disj_rd; auto).
    rewrite (istep_same _ _ _ _ _ _ _ _ _ _ _ H2 Ha).
    destruct (static_facts P Hok) as (_ & _ & _ & _ & _ & _ & _ & _ & _ & Hx & _).
    exists 0, (wr (wr m (r_w s)) fin). split.
    + eapply run_alone_mono; [eapply tail_alone; [exact Hx|reflexivity]|lia].
    + split; [congruence|]. split; [congruence|]. intros att' fin' _ E. rewrite H5 in E. inversion E; subst att' fin'.
      split; auto. apply wr_ext. unfold attempts in Hw. rewrite H5 in Hw. apply wr_same_set; auto.
      pose proof (attempts_functional g (c_op c) m) as Hfun. unfold attempts in Hfun. rewrite H5 in Hfun. auto.
  - rewrite (Hf H6). cbn [wr fold_left]. rewrite H2.
    exists 1, m. split.
    + eapply run_alone_mono; [eapply tail_alone; [exact H4|reflexivity]|lia].
    + split; [congruence|]. split; [|congruence]. intros. split; auto. intros a; auto.
  - rewrite (Hn H6). cbn [wr fold_left]. rewrite H3.
    exists (-1), m. split.
    + eapply run_alone_mono; [eapply tail_alone; [exact H5|reflexivity]|lia].
    + split; [|split; congruence]. split; auto. intros a; auto.
Qed.
End Alone.

Lemma good_alone : forall g P kd, good g P kd -> forall c m idx junk, kind_of (c_op c) = kd ->
  (idx = cpuarg c -> op_wf g (c_op c) m) ->
  exists r m', run_alone g P idx (step_bound (c_op c) + length (code P)) m 0 (init_regs c junk) = Some (r, m') /\
    alone_ok g c m idx r m'.
Proof.
  intros g P kd [Hok HS] c m idx junk Hk Hwf.
  exact (safe_alone g P c m idx Hwf _ _ (HS c m idx junk Hk Hwf) (incl_nil_l _) (fun _ => eq_refl)
           (fun _ => eq_refl) Hok).
Qed.

(** ** The same, as a run of the machine in which only thread [t] moves. *)
Section Progress.
Variable Loc : Type.
Variable g : cfg.
Variable tx : text.
Variable cl : client Loc.
Notation state := (state Loc).

Lemma path_cons : forall s l s1 tr s2, step g tx cl s l s1 -> call_ok s l -> path g tx cl s1 tr s2 ->
  path g tx cl s ((s, l) :: tr) s2.
Proof.
  intros s l s1 tr s2 Hs Hc Hp. induction Hp as [s1|s1 tr s' l' s'' Hp IH Hs' Hok].
  - change [(s, l)] with ([] ++ [(s, l)]). econstructor; [constructor|auto|auto].
  - change ((s, l) :: tr ++ [(s', l')]) with (((s, l) :: tr) ++ [(s', l')]). econstructor; eauto.
Qed.

Definition only_t (t : nat) (tr : list (state * clabel)) : Prop :=
  forall s l, In (s, l) tr -> l = Ltau \/ exists ps, l = Lwr t ps.

Lemma run_path : forall t k id P kd idx l, tx id = Some (P, kd) ->
  forall n m pc rs r m', run_alone g P idx n m pc rs = Some (r, m') ->
  forall (s : state) c, running (s_thr s t) -> c_code c = id -> s_loaded s id = true ->
  index (t_area (s_thr s t)) (pmode P) = idx -> s_mem s = m ->
  t_ctx (s_thr s t) = {| x_loc := l; x_act := Some {| f_call := c; f_pc := pc; f_rs := rs |} |} :: k ->
  exists tr s3 s4, path g tx cl s tr s3 /\ step g tx cl s3 (Lret t c r) s4 /\
    (length tr < n)%nat /\ only_t t tr /\ (forall s' l', In (s', l') tr -> depth s' t = S (length k)) /\
    depth s3 t = S (length k) /\ s_mem s4 = m'.
Proof.
  intros t k id P kd idx l Htx. induction n; intros m pc rs r m' Hr s c Hrun Hid Hld Hidx Hm Hk; [discriminate|].
  rewrite run_alone_S in Hr.
  destruct (istep g P m idx pc rs) as [[[[pc' rs'] e] rd]|] eqn:Ei; [|discriminate].
  subst id m idx.
  assert (Hd : depth s t = S (length k)) by (unfold depth; rewrite Hk; reflexivity).
  assert (Htau : e = ENone \/ e = ECs -> run_alone g P (index (t_area (s_thr s t)) (pmode P)) n (s_mem s) pc' rs' = Some (r, m') ->
     exists tr s3 s4, path g tx cl s tr s3 /\ step g tx cl s3 (Lret t c r) s4 /\
    (length tr < S n)%nat /\ only_t t tr /\ (forall s' l', In (s', l') tr -> depth s' t = S (length k)) /\
    depth s3 t = S (length k) /\ s_mem s4 = m').
  { intros He Hrest.
    pose proof (S_instr Loc g tx cl s t l k {| f_call := c; f_pc := pc; f_rs := rs |} P kd pc' rs' e rd
                  Hrun Hk Htx Hld Ei He) as Hst. cbn [f_call] in Hst.
    set (s1 := set_t s t _) in Hst.
    destruct (IHn _ _ _ _ _ Hrest s1 c) as (tr & s3 & s4 & J1 & J2 & J3 & J4 & J5 & J6 & J7); auto.
    - subst s1. rewrite set_t_same. destruct He as [-> | ->]; exact Hrun.
    - subst s1. rewrite set_t_same. destruct He as [-> | ->]; destruct (pmode P); reflexivity.
    - subst s1. rewrite set_t_same. reflexivity.
    - exists ((s, Ltau) :: tr), s3, s4. split; [eapply path_cons; eauto; exact Logic.I|]. split; auto.
      split; [cbn; lia|]. split.
      + intros s' l' [E|Hin]; [inversion E; auto|]. eapply J4; eauto.
      + split; [|auto]. intros s' l' [E|Hin]; [inversion E; subst; auto|]. eapply J5; eauto. }
  destruct e as [|ps| |x].
  - apply Htau; auto.
  - pose proof (S_store Loc g tx cl s t l k {| f_call := c; f_pc := pc; f_rs := rs |} P kd pc' rs' ps rd
                  Hrun Hk Htx Hld Ei) as Hst. cbn [f_call] in Hst.
    set (s1 := set_m _ _) in Hst.
    destruct (IHn _ _ _ _ _ Hr s1 c) as (tr & s3 & s4 & J1 & J2 & J3 & J4 & J5 & J6 & J7); auto.
    + subst s1. cbn [set_m s_thr]. rewrite set_t_same. exact Hrun.
    + subst s1. cbn [set_m s_thr]. rewrite set_t_same. reflexivity.
    + subst s1. cbn [set_m s_thr]. rewrite set_t_same. reflexivity.
    + exists ((s, Lwr t ps) :: tr), s3, s4. split; [eapply path_cons; eauto; exact Logic.I|]. split; auto.
      split; [cbn; lia|]. split.
      * intros s' l' [E|Hin]; [inversion E; eauto|]. eapply J4; eauto.
      * split; [|auto]. intros s' l' [E|Hin]; [inversion E; subst; auto|]. eapply J5; eauto.
  - apply Htau; auto.
  - destruct (exit_ret x) as [r'|] eqn:Ex; [|discriminate]. inversion Hr; subst r' m'.
    pose proof (S_return Loc g tx cl s t l k {| f_call := c; f_pc := pc; f_rs := rs |} P kd pc' rs' x rd r
                  Hrun Hk Htx Hld Ei Ex) as Hst. cbn [f_call] in Hst.
    exists [], s. eexists. split; [constructor|]. split; [exact Hst|].
    split; [cbn; lia|]. split; [intros ? ? []|]. split; [intros ? ? []|]. split; auto.
Qed.

(** A call that is not interrupted returns, and its result is the pseudo-code's. *)
Lemma progress : good_text g tx -> forall (s1 : state) t c s2,
  step g tx cl s1 (Lcall t c) s2 -> call_ok s1 (Lcall t c) ->
  (index (t_area (s_thr s1 t)) (c_mode c) = cpuarg c -> op_wf g (c_op c) (s_mem s1)) ->
  exists P kd, tx (c_code c) = Some (P, kd) /\
  exists tr s3 r s4, lifetime g tx cl t c s1 tr s3 r s4 /\ only_t t tr /\
    (length tr < step_bound (c_op c) + length (code P))%nat /\
    alone_ok g c (s_mem s1) (index (t_area (s_thr s1 t)) (c_mode c)) r (s_mem s4).
Proof.
  intros Hg s1 t c s2 Hs Hok Hwf. inversion Hs; subst. exists P, (kind_of (c_op c)). split; auto.
  match goal with H : pmode P = _ |- _ => rename H into Hmd end.
  match goal with H : tx _ = _ |- _ => rename H into Htx end.
  destruct (good_alone g P _ (Hg _ _ _ Htx) c (s_mem s1) (index (t_area (s_thr s1 t)) (c_mode c)) junk eq_refl Hwf)
    as (r & m' & E & J).
  set (s2 := set_t s1 t _) in *.
  destruct (run_path t k (c_code c) P _ _ l Htx _ _ _ _ _ _ E s2 c) as (tr & s3 & s4 & J1 & J2 & J3 & J4 & J5 & J6 & J7);
    try reflexivity; auto.
  - subst s2. rewrite set_t_same. auto.
  - subst s2. rewrite set_t_same, Hmd. reflexivity.
  - subst s2. rewrite set_t_same. reflexivity.
  - exists tr, s3, r, s4. subst m'. split; [|auto].
    exists s2. split; auto. split; auto. split; auto. split.
    + intros s' c' r' Hin. destruct (J4 _ _ Hin) as [E'|(ps & E')]; discriminate.
    + split; auto. rewrite J6. unfold depth. match goal with H : t_ctx _ = _ |- _ => rewrite H end. reflexivity.
Qed.
End Progress.
