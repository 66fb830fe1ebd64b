(** Exclusion (C04), validity of descriptors (C08) and unloading (C19). *)
From Coq Require Import ZArith Bool List Lia.
From Verif Require Import RseqIR RseqSpec RseqKernel RseqSafe RseqProps MemLemmas RunLemmas RseqSim RseqCalls.
Import ListNotations.
Local Open Scope Z_scope.

Arguments in_window {Loc} _ _ _ _.
Arguments unload_ok {Loc} _ _.
Arguments careful_exec {Loc} _ _ _ _ _ _.
Arguments prepared_in {Loc} _ _ _ _ _ _ _ _.
Arguments in_code {Loc} _ _.

Section Misc.
Variable Loc : Type.
Variable g : cfg.
Variable tx : text.
Variable cl : client Loc.
Hypothesis Hgood : good_text g tx.
Notation state := (state Loc).

Section Run.
Variable s0 : state.
Hypothesis Hinit : initial s0.
Hypothesis Hclient : safe_client g cl (abs_init s0).

Lemma check_ge : forall P, (cs_start P <= check_pc P)%nat.
Proof.
  intros P. unfold check_pc. generalize (skipn (cs_start P) (code P)) as l. generalize (cs_start P) as n.
  intros n l. revert n. induction l; intros n; cbn; [lia|]. destruct (is_branch a); [lia|].
  specialize (IHl (S n)). lia.
Qed.

(** In the window, the thread is registered and runs on the right index. *)
Lemma window_right : forall ls s t c, exec g tx cl s0 ls s -> running (s_thr s t) ->
  in_window tx s t c -> runs_on s t c.
Proof.
  intros ls s t c He Hrun (l & f & k & P & kd & Ek & Ec & Htx & Hpc).
  destruct (exec_tied Loc g tx cl Hgood s0 Hinit Hclient _ _ He) as (a & (als & Ha) & HR).
  destruct (Hclient als a Ha) as [Hwf Hni].
  destruct (top_frame _ _ _ _ _ _ _ _ _ HR Ek) as (st & ak & Ea & Hf & _).
  destruct Hf as (P0 & A1 & A2 & A3 & A4 & A5 & A6). subst c.
  rewrite A1 in Htx. inversion Htx; subst P0 kd. clear Htx.
  pose proof (check_ge P) as Hge.
  destruct A6 as [[B1 _]|[[B1 _]|(B1 & B3 & [(w & B2 & B4)|[B2 B4]])]]; [lia|lia| |].
  2:{ destruct Hrun as [Hon _]. destruct (B4 (or_intror Hon)) as (m0 & r & n & _ & _ & _ & Hi & _).
      eapply Rel_right; eauto. eapply right_cpu; eauto.
      destruct (t_reg (s_thr s t)); auto. exfalso. apply (A5 eq_refl). exact Hi. }
  destruct (cs_frame Loc g tx Hgood s a HR Hwf t l f ak st P w Hrun Ea A1 A3 A5 B2 B4)
    as (C1 & junk & r & n & S1 & S2 & S3 & S4 & S5 & S6 & _).
  assert (Hi : index (t_area (s_thr s t)) (c_mode (f_call f)) = cpuarg (f_call f)).
  { inversion S6; subst; auto; [destruct H3; [lia|auto]|]. lia. }
  destruct (C1 Hi) as (C2 & _). eapply Rel_right; eauto.
Qed.

Lemma exclusion : forall ls s t u c d, exec g tx cl s0 ls s ->
  running (s_thr s t) -> running (s_thr s u) -> in_window tx s t c -> in_window tx s u d ->
  c_mode c = c_mode d -> c_cpu c = c_cpu d -> t = u.
Proof.
  intros ls s t u c d He Ht Hu Hwt Hwu Em Ec.
  destruct (window_right _ _ _ _ He Ht Hwt) as [_ H1].
  destruct (window_right _ _ _ _ He Hu Hwu) as [_ H2].
  destruct (Nat.eq_dec t u) as [|Hn]; auto. exfalso.
  destruct (exec_tied Loc g tx cl Hgood s0 Hinit Hclient _ _ He) as (a & _ & (_ & _ & Hex)).
  rewrite <- Em, <- Ec in H2.
  destruct (t_on (s_thr s t)) as [[c1 d1]|] eqn:E1; [|discriminate].
  destruct (t_on (s_thr s u)) as [[c2 d2]|] eqn:E2; [|discriminate].
  destruct (Hex t u c1 d1 c2 d2 Hn E1 E2). cbn in *. destruct (c_mode c); congruence.
Qed.

(** A registered thread is in a critical section only with its innermost frame. *)
Lemma section_top : forall ls s t x k y f, exec g tx cl s0 ls s -> t_reg (s_thr s t) = true ->
  t_ctx (s_thr s t) = x :: k -> In y k -> x_act y = Some f -> ~ in_section tx f.
Proof.
  intros ls s t x k y f He Hr Ek Hin Ey (P & kd & Htx & Hpc).
  destruct (exec_tied Loc g tx cl Hgood s0 Hinit Hclient _ _ He) as (a & _ & (_ & HR & _)).
  destruct (HR t) as (_ & _ & Hs). rewrite Ek in Hs. destruct (a_thr a t) as [|ax ak]; [contradiction|].
  destruct Hs as [_ Hs]. clear Ek. revert ak Hs. induction k as [|y' k IH]; intros ak Hs; [contradiction|].
  destruct ak as [|ay ak]; [contradiction|]. destruct Hs as [Hy Hs].
  destruct Hin as [->|Hin]; [|eapply IH; eauto].
  destruct Hy as [_ Hy]. rewrite Ey in Hy. destruct (a_act ay) as [[c' st]|]; [|contradiction].
  destruct Hy as [_ (P0 & A1 & A2 & A3 & A4 & A5 & A6)]. rewrite A1 in Htx. inversion Htx; subst.
  destruct A6 as [[B1 _]|[[B1 _]|(B1 & B3 & B4)]]; [lia|lia|].
  destruct (B3 Hr). discriminate.
Qed.

(** A registered thread in a critical section has it recorded in its area. *)
Lemma section_recorded : forall ls s t l f k, exec g tx cl s0 ls s -> t_reg (s_thr s t) = true ->
  t_ctx (s_thr s t) = {| x_loc := l; x_act := Some f |} :: k -> in_section tx f ->
  rseq_cs (t_area (s_thr s t)) = Some (c_code (f_call f)).
Proof.
  intros ls s t l f k He Hr Ek (P & kd & Htx & Hpc).
  destruct (exec_tied Loc g tx cl Hgood s0 Hinit Hclient _ _ He) as (a & _ & HR).
  destruct (top_frame _ _ _ _ _ _ _ _ _ HR Ek) as (st & ak & Ea & Hf & _).
  destruct Hf as (P0 & A1 & A2 & A3 & A4 & A5 & A6). rewrite A1 in Htx. inversion Htx; subst.
  destruct A6 as [[B1 _]|[[B1 _]|(B1 & B3 & B4)]]; [lia|lia|].
  apply B3. auto.
Qed.

(** Returning to user mode (after preemption, an interrupt, or before a signal
    handler runs) moves a thread out of its critical section. *)
Lemma fixup_aborts : forall ls s t l f k th, exec g tx cl s0 ls s -> t_reg (s_thr s t) = true ->
  t_ctx (s_thr s t) = {| x_loc := l; x_act := Some f |} :: k -> in_section tx f ->
  s_loaded s (c_code (f_call f)) = true ->
  t_reg th = t_reg (s_thr s t) -> rseq_cs (t_area th) = rseq_cs (t_area (s_thr s t)) ->
  t_ctx th = t_ctx (s_thr s t) -> t_dead th = t_dead (s_thr s t) ->
  exists P kd, tx (c_code (f_call f)) = Some (P, kd) /\
    t_ctx (fixup tx (s_loaded s) th) =
      {| x_loc := l; x_act := Some {| f_call := f_call f; f_pc := cs_abort P; f_rs := f_rs f |} |} :: k /\
    t_dead (fixup tx (s_loaded s) th) = t_dead (s_thr s t).
Proof.
  intros ls s t l f k th He Hr Ek Hsec Hld E1 E2 E3 E4.
  pose proof (section_recorded _ _ _ _ _ _ He Hr Ek Hsec) as Hcs.
  destruct Hsec as (P & kd & Htx & Hpc). exists P, kd. split; auto.
  unfold fixup. rewrite E1, Hr, E2, Hcs, Hld, Htx. cbn [negb].
  pose proof (tx_good g tx Hgood _ _ _ Htx) as Hok. destruct (static_facts P Hok) as (Hd & _).
  rewrite Hd, E3, Ek. cbn [negb]. rewrite Nat.eqb_refl.
  assert (in_cs P (f_pc f) = true) as -> by (apply in_cs_spec; exact Hpc). cbn. rewrite E4. auto.
Qed.

(** ** Descriptors *)
Definition cs_ok (s : state) : Prop :=
  forall t, t_dead (s_thr s t) = false /\
    forall id, rseq_cs (t_area (s_thr s t)) = Some id -> s_loaded s id = true /\ exists P kd, tx id = Some (P, kd).

Lemma careful_is_exec : forall ls s, careful_exec g tx cl s0 ls s -> exec g tx cl s0 ls s.
Proof.
  intros ls s H. induction H; econstructor; eauto.
Qed.

Lemma fixup_alive : forall ld (th : thread Loc), t_dead th = false ->
  (forall id, rseq_cs (t_area th) = Some id -> ld id = true /\ exists P kd, tx id = Some (P, kd)) ->
  t_dead (fixup tx ld th) = false /\
  (forall id, rseq_cs (t_area (fixup tx ld th)) = Some id -> ld id = true /\ exists P kd, tx id = Some (P, kd)).
Proof.
  intros ld th Hd Hc. unfold fixup. destruct (t_reg th) eqn:Er; cbn [negb]; auto.
  destruct (rseq_cs (t_area th)) as [id|] eqn:E.
  2:{ split; auto. intros id'. rewrite E. discriminate. }
  destruct (Hc id eq_refl) as (H1 & P & kd & H2). rewrite H1, H2.
  pose proof (tx_good g tx Hgood _ _ _ H2) as Hok. destruct (static_facts P Hok) as (Hde & _). rewrite Hde. cbn [negb].
  destruct (t_ctx th) as [|[l [f|]] k]; cbn; try (split; [auto|discriminate]).
  destruct (_ && _); cbn; (split; [auto|discriminate]).
Qed.

Lemma cs_ok_set : forall (s s' : state) t th', cs_ok s -> s_thr s' = (fun u => if Nat.eqb u t then th' else s_thr s u) ->
  (forall id, s_loaded s' id = s_loaded s id) ->
  t_dead th' = false ->
  (forall id, rseq_cs (t_area th') = Some id -> s_loaded s id = true /\ exists P kd, tx id = Some (P, kd)) ->
  cs_ok s'.
Proof.
  intros s s' t th' H E1 E2 H1 H2 u. rewrite E1. destruct (Nat.eqb u t).
  - split; auto. intros id. rewrite E2. auto.
  - destruct (H u) as [H3 H4]. split; auto. intros id. rewrite E2. auto.
Qed.

Lemma cs_ok_step : forall s l s', cs_ok s -> step g tx cl s l s' -> unload_ok s s' ->
  (forall t, l <> Lbug t) -> cs_ok s'.
Proof.
  intros s l s' H Hs Hu Hb.
  destruct Hs; try (destruct (H t) as [Hd Hc]); try (eapply (cs_ok_set s _ t); [exact H|reflexivity|reflexivity| |]);
    cbn; auto.
  - destruct e; auto.
  - destruct e; cbn; auto. intros id Hid. inversion Hid; subst. eauto.
  - exfalso. eapply Hb; eauto.
  - discriminate.
  - intros u. destruct (H u) as [Hd Hc]. split; auto. intros id0 Hid. destruct (Hc id0 Hid) as [H1 H2].
    split; auto. cbn. destruct (Nat.eqb_spec id0 id) as [->|]; auto. exfalso.
    apply (Hu id H1) with (t := u); auto. cbn. now rewrite Nat.eqb_refl.
  - apply fixup_alive; [destruct (t_reg (s_thr s t)); auto|].
    destruct (t_reg (s_thr s t)); cbn; auto.
  - apply fixup_alive; [destruct (t_reg (s_thr s t)); auto|].
    destruct (t_reg (s_thr s t)); cbn; auto.
  - apply fixup_alive; auto.
  - apply fixup_alive; auto.
  - apply fixup_alive; auto.
  - apply fixup_alive; auto.
  - discriminate.
Qed.

Lemma alive : forall ls s, careful_exec g tx cl s0 ls s -> forall t, t_dead (s_thr s t) = false.
Proof.
  intros ls s He.
  assert (cs_ok s); [|intros t; apply H].
  induction He as [|s0' ls s' l s'' He IH Hs Hok Hu].
  - intros t. destruct (proj1 Hinit t) as (D1 & D2 & _). split; auto. intros id. rewrite D2. discriminate.
  - specialize (IH Hinit Hclient). eapply cs_ok_step; eauto. intros t E. subst l.
    assert (He' : exec g tx cl s0' (ls ++ [Lbug t]) s'').
    { econstructor; eauto. clear -He. induction He; econstructor; eauto. }
    destruct (refinement Loc g tx cl Hgood s0' _ _ Hinit Hclient He') as (Hb & _).
    apply (Hb t). apply in_or_app. right. left. auto.
Qed.
End Run.

(** ** Unloading *)
Definition prepared (id : nat) (s : state) (t : nat) : Prop :=
  (forall x, In x (t_ctx (s_thr s t)) -> ~ in_code id x) /\ rseq_cs (t_area (s_thr s t)) <> Some id.

Lemma fixup_prep : forall ld (th : thread Loc) id, 
  (forall x, In x (t_ctx th) -> ~ in_code id x) -> rseq_cs (t_area th) <> Some id ->
  (forall x, In x (t_ctx (fixup tx ld th)) -> ~ in_code id x) /\ rseq_cs (t_area (fixup tx ld th)) <> Some id.
Proof.
  intros ld th id H1 H2. unfold fixup. destruct (negb (t_reg th)); auto.
  destruct (rseq_cs (t_area th)) as [id'|] eqn:E; [|split; auto; rewrite E; auto].
  destruct (if ld id' then tx id' else None) as [[P kd]|].
  2:{ cbn. rewrite E. auto. }
  destruct (negb (desc_ok P)); [cbn; rewrite E; auto|].
  destruct (t_ctx th) as [|[l [f|]] k] eqn:Ek; cbn.
  - split; [rewrite Ek; auto|discriminate].
  - destruct (_ && _); cbn; (split; [|discriminate]); [|rewrite Ek; auto].
    intros x [<-|Hin] (f' & Ef & Ec); [|eapply (H1 x); [right; auto|exists f'; auto]].
    cbn in Ef. inversion Ef; subst f'. cbn in Ec.
    eapply (H1 {| x_loc := l; x_act := Some f |}); [left; auto|]. exists f. auto.
  - split; [rewrite Ek; auto|discriminate].
Qed.

Lemma prepared_step : forall id s l s' t, prepared id s t -> step g tx cl s l s' ->
  (forall c, l = Lcall t c -> c_code c <> id) -> prepared id s' t.
Proof.
  intros id s l s' t [H1 H2] Hs Hn.
  assert (Hset : forall (s1 : state) u th', (u = t -> (forall x, In x (t_ctx th') -> ~ in_code id x) /\ rseq_cs (t_area th') <> Some id) ->
     s_thr s1 = (fun v => if Nat.eqb v u then th' else s_thr s v) -> prepared id s1 t).
  { intros s1 u th' Hu E. unfold prepared. rewrite E. destruct (Nat.eqb_spec t u) as [->|]; auto. }
  destruct Hs; try (eapply (Hset _ t0); [intros ->|reflexivity]); cbn.
  - assert (Hc : c_code (f_call f) <> id).
    { intros E. eapply (H1 {| x_loc := l; x_act := Some f |}); [rewrite H0; left; auto|]. exists f; auto. }
    split.
    + intros x [<-|Hin] (f' & Ef & Ec).
      * cbn in Ef. inversion Ef; subst f'. auto.
      * eapply (H1 x); [rewrite H0; right; auto|exists f'; auto].
    + destruct e; auto. cbn. congruence.
  - assert (Hc : c_code (f_call f) <> id).
    { intros E. eapply (H1 {| x_loc := l; x_act := Some f |}); [rewrite H0; left; auto|]. exists f; auto. }
    split; auto.
    intros x [<-|Hin] (f' & Ef & Ec).
      * cbn in Ef. inversion Ef; subst f'. auto.
      * eapply (H1 x); [rewrite H0; right; auto|exists f'; auto].
  - split; auto. intros y [<-|Hin] (f' & Ef & Ec); [discriminate|].
    eapply (H1 y); [rewrite H0; right; auto|exists f'; auto].
  - split; auto.
  - split; auto. intros x [<-|Hin] (f' & Ef & Ec).
    + cbn in Ef. inversion Ef; subst f'. cbn in Ec. eapply Hn; eauto.
    + eapply (H1 x); [rewrite H0; right; auto|exists f'; auto].
  - split; auto. intros x [<-|Hin] (f' & Ef & Ec); [discriminate|].
    eapply (H1 x); [rewrite H0; right; auto|exists f'; auto].
  - split; auto. intros x [<-|Hin] (f' & Ef & Ec); [discriminate|].
    eapply (H1 x); [rewrite H0; right; auto|exists f'; auto].
  - split; auto. discriminate.
  - split; auto.
  - split; auto.
  - apply fixup_prep; destruct (t_reg (s_thr s t)); cbn; auto.
  - apply fixup_prep; auto.
  - destruct (fixup_prep (s_loaded s) (s_thr s t) id H1 H2) as [F1 F2]. split; auto.
    intros y [<-|Hin] Hy; [destruct Hy as (? & ? & ?); discriminate|]. eapply F1; eauto.
  - split; auto. intros y Hin. apply H1. rewrite H0. right. auto.
  - split; [auto|discriminate].
  - split; auto.
Qed.

Lemma prepared_path : forall id t s tr s', path g tx cl s tr s' -> prepared id s t ->
  (forall sx c, In (sx, Lcall t c) tr -> c_code c <> id) -> prepared id s' t.
Proof.
  intros id t s tr s' Hp. induction Hp as [|s tr s' l s'' Hp IH Hs Hok]; intros H Hn; auto.
  eapply (prepared_step id s' l s''); [|exact Hs|].
  - apply IH; auto. intros. eapply Hn. apply in_or_app. eauto.
  - intros c ->. eapply Hn. apply in_or_app. right. left. eauto.
Qed.

Lemma prepared_in_ok : forall s tr s' t id, prepared_in g tx cl s tr s' t id ->
  (forall x, In x (t_ctx (s_thr s' t)) -> ~ in_code id x) /\ rseq_cs (t_area (s_thr s' t)) <> Some id.
Proof.
  intros s tr s' t id (tr1 & sc & tr2 & H1 & H2 & H3 & H4 & H5).
  eapply (prepared_path id t); eauto. split; rewrite set_t_same; cbn; auto. discriminate.
Qed.

Lemma never_called_ok : forall s0 tr s' t id, initial s0 -> path g tx cl s0 tr s' ->
  (forall sx c, In (sx, Lcall t c) tr -> c_code c <> id) ->
  (forall x, In x (t_ctx (s_thr s' t)) -> ~ in_code id x) /\ rseq_cs (t_area (s_thr s' t)) <> Some id.
Proof.
  intros s0 tr s' t id Hi Hp Hn. eapply (prepared_path id t); eauto.
  destruct (proj1 Hi t) as (D1 & D2 & (l & D3) & _). split; [|rewrite D2; discriminate].
  rewrite D3. intros x [<-|[]] (f & E & _). discriminate.
Qed.
End Misc.
