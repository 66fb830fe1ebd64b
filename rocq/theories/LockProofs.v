(** Proofs for C12: the per-CPU spinlock. *)
From Coq Require Import ZArith Bool List Lia.
From Verif Require Import RseqIR RseqSpec RseqKernel RseqSafe MemLemmas RunLemmas RseqSim RseqOwn RseqCalls Archs ArchsGood LinSpec LinProofs ClientModel ClientSpec CntProofs.
Import ListNotations.
Local Open Scope Z_scope.

Section Lock.
Variables (g : cfg) (md : imode) (cpus : list Z) (cnt lk : Z -> Z).
Hypothesis Hw1 : 1 < wmod g.
Hypothesis Hnd : NoDup cpus.
Hypothesis Hlay : lock_layout g cpus cnt lk.
Variable T0 : Z.
Notation cl := (lock_client g md cpus cnt lk).
Definition lghost := Z -> option (nat * nat).

Definition n_cs (es : list (event lock_loc)) : Z := count is_count_store es.
Lemma n_cs_snoc : forall es e, n_cs (es ++ [e]) = n_cs es + if is_count_store e then 1 else 0.
Proof. intros. unfold n_cs, count. rewrite filter_app, app_length. cbn. destruct (is_count_store e); cbn; lia. Qed.

Definition l_glob (gh : lghost) (es : list (event lock_loc)) (m : mem) : Prop :=
  (forall cpu, gh cpu <> None -> In cpu cpus /\ ldw g m (lk cpu) = 1) /\
  wrap g (total g cpus cnt m) = wrap g (T0 + n_cs es).

Definition owns (gh : lghost) (t d : nat) (o : option Z) : Prop := forall cpu, gh cpu = Some (t, d) <-> o = Some cpu.

Definition l_ctx (gh : lghost) (m : mem) (t d : nat) (x : actx lock_loc) : Prop :=
  match a_loc x, a_act x with
  | Lk_idle _, None => owns gh t d None
  | Lk_try _ cpu, None => owns gh t d None
  | Lk_try _ cpu, Some (c, st) => (In cpu cpus /\ c_op c = CbneStore (lk cpu) 0 1 /\ c_cpu c = cpu /\ c_mode c = md) /\
      owns gh t d (match st with Finished 0 => Some cpu | _ => None end)
  | Lk_held _ cpu, None | Lk_wrote _ cpu, None | Lk_release _ cpu, None => owns gh t d (Some cpu)
  | Lk_read _ cpu v, None => owns gh t d (Some cpu) /\ ldw g m (cnt cpu) = v
  | _, _ => False
  end.
Definition l_absent (gh : lghost) (t d : nat) : Prop := owns gh t d None.

Definition gset (gh : lghost) (cpu : Z) (o : option (nat * nat)) : lghost := fun c => if c =? cpu then o else gh c.

Lemma owns_iff : forall gh gh' t d o, (forall cpu, gh cpu = Some (t, d) <-> gh' cpu = Some (t, d)) ->
  owns gh t d o -> owns gh' t d o.
Proof. intros gh gh' t d o H H1 cpu. rewrite <- H. apply H1. Qed.

(** Other contexts after a change of the ghost state at one CPU and of memory. *)
Lemma l_keeps : forall gh m t d gh' m',
  (forall t' d', (t', d') <> (t, d) -> forall cpu, gh cpu = Some (t', d') <-> gh' cpu = Some (t', d')) ->
  (forall cpu t' d', gh cpu = Some (t', d') -> (t', d') <> (t, d) -> ldw g m' (cnt cpu) = ldw g m (cnt cpu)) ->
  keeps lock_loc lghost l_ctx l_absent gh m t d gh' m'.
Proof.
  intros gh m t d gh' m' H1 H2. split.
  - intros t' d' [l o] Hne H. specialize (H1 t' d' Hne).
    unfold l_ctx in *. cbn [a_loc a_act] in *.
    destruct l; destruct o as [[c st]|]; try contradiction;
      try (eapply owns_iff; eauto; fail); try (destruct H as [Ha Hb]; split; auto; eapply owns_iff; eauto; fail).
    destruct H as [Ha Hb]. split; [eapply owns_iff; eauto|]. rewrite <- Hb. eapply H2; [|exact Hne]. apply Ha. reflexivity.
  - intros t' d' Hne H. eapply owns_iff; [apply H1; auto|exact H].
Qed.

Lemma l_same : forall gh m t d, keeps lock_loc lghost l_ctx l_absent gh m t d gh m.
Proof. intros. split; auto. Qed.

Lemma l_inv : client_inv lock_loc g cl lghost l_glob l_ctx l_absent.
Proof.
  destruct Hlay as (La & Lb & Lc).
  split.
  - (* call *) intros gh es m t d l c _ H (n & cpu & -> & Hi & Hop & Hc & Hm). cbn in *. auto.
  - (* ret *) intros gh es m t d l c r HG H. exists gh. split; auto. split; [|apply l_same].
    unfold l_ctx in *. cbn in *. destruct l; try contradiction. destruct H as [_ H].
    destruct (Z.eqb_spec r 0) as [->|Hr]; cbn; auto. destruct r; [congruence|auto|auto].
  - (* write *) intros gh es m t d l ps l' m' [HG1 HG2] H [(n & cpu & v & -> & -> & ->)|(n & cpu & -> & -> & ->)] Hm.
    + cbn in H. destruct H as [Ho Hv]. assert (Hgc : gh cpu = Some (t, d)) by (apply Ho; auto).
      destruct (HG1 cpu ltac:(congruence)) as [Hin _].
      exists gh. split; [|split; [exact Ho|]].
      * split.
        { intros c Hc. destruct (HG1 c Hc) as [Hi Hl]. split; auto. rewrite <- Hl.
          eapply ldw_wr_other; [exact Hm|]. rewrite stw_keys. apply Lc; auto. }
        rewrite n_cs_snoc. cbn. rewrite (total_one g cpus cnt m m' cpu); auto.
        { rewrite (ldw_wr_same g m m' _ _ Hm (wrap_range g _)), Hv. unfold wrap in *.
          rewrite Zplus_mod, HG2, <- Zplus_mod. replace (T0 + (n_cs es + 1)) with (T0 + n_cs es + 1) by lia.
          rewrite (Zplus_mod (T0 + n_cs es) 1). rewrite (Zplus_mod (T0 + n_cs es) (_ - _)).
          f_equal. f_equal. rewrite Zminus_mod_idemp_l. f_equal. lia. }
        intros c Hc Hne. eapply ldw_wr_other; [exact Hm|]. rewrite stw_keys. apply La; auto.
      * apply l_keeps; [intros; reflexivity|]. intros c t' d' Hc Hne. eapply ldw_wr_other; [exact Hm|]. rewrite stw_keys.
        destruct (HG1 c ltac:(congruence)) as [Hi _]. apply La; auto. intros ->. congruence.
    + cbn in H. assert (Hgc : gh cpu = Some (t, d)) by (apply H; auto).
      destruct (HG1 cpu ltac:(congruence)) as [Hin Hl1].
      exists (gset gh cpu None). split; [|split].
      * split.
        { intros c Hc. unfold gset in Hc. destruct (Z.eqb_spec c cpu) as [Ec|Hne]; [elim Hc; reflexivity|].
          destruct (HG1 c Hc) as [Hi Hl]. split; auto. rewrite <- Hl.
          eapply ldw_wr_other; [exact Hm|]. rewrite stw_keys. apply Lb; auto. }
        rewrite n_cs_snoc. cbn. rewrite Z.add_0_r. rewrite (total_ext g cpus cnt m m'); auto.
        intros c Hc. eapply ldw_wr_other; [exact Hm|]. rewrite stw_keys. intros a Ha Hb. exact (Lc c cpu Hc Hin a Hb Ha).
      * cbn. intros c. unfold gset. destruct (Z.eqb_spec c cpu) as [->|Hne]; [split; discriminate|].
        rewrite (H c). split; [intros E; congruence|discriminate].
      * apply l_keeps.
        { intros t' d' Hne c. unfold gset. destruct (Z.eqb_spec c cpu) as [->|]; [|reflexivity].
          rewrite Hgc. split; [intros E; congruence|discriminate]. }
        { intros c t' d' Hc Hne. eapply ldw_wr_other; [exact Hm|]. rewrite stw_keys.
          destruct (HG1 c ltac:(congruence)) as [Hi _]. intros a Ha Hb. exact (Lc c cpu Hi Hin a Hb Ha). }
  - (* tau *) intros gh es m t d l l' HG H Ht. exists gh. split; auto. split; [|apply l_same].
    destruct Ht as [(n & cpu & -> & Hi & ->)|[(n & cpu & -> & ->)|(n & cpu & -> & ->)]]; cbn in *; auto.
    destruct HG as [HG1 _]. assert (Hgc : gh cpu = Some (t, d)) by (apply H; auto).
    destruct (HG1 cpu ltac:(congruence)) as [_ Hl]. rewrite Hl. cbn. auto.
  - (* sig *) intros gh es m t d x l' _ _ (n & ->) H. exact H.
  - (* sigret *) intros gh es m t d l _ H ->. exact H.
  - (* attempt *) intros gh es m t d l c w att fin ps m' [HG1 HG2] H Hp Hi Hm.
    assert (Hmm : meq m' m).
    { assert (att = []) as ->.
      { unfold l_ctx in H. cbn in H. destruct l; try contradiction. destruct H as [(_ & Hop & _) _]. rewrite Hop in Hp.
        cbn in Hp. destruct (ldw g m (lk cpu) =? 0); [injection Hp as <- <-; auto|discriminate]. }
      destruct ps as [|p ps]; [exact Hm|destruct (Hi p (or_introl eq_refl))]. }
    exists gh. split; [|split].
    + split; [intros c' Hc'; rewrite (ldw_meq g _ _ _ Hmm); auto|].
      rewrite (total_ext g cpus cnt m m'); auto. intros; apply ldw_meq; auto.
    + unfold l_ctx in *. cbn in *. destruct l; auto.
    + apply l_keeps; [intros; reflexivity|]. intros; apply ldw_meq; auto.
  - (* commit *) intros gh es m t d l c w att fin m' [HG1 HG2] H Hp Hm.
    unfold l_ctx in H. cbn in H. destruct l as [|n cpu| | | | |]; try contradiction.
    destruct H as [(Hi & Hop & Hc & Hmd) Ho]. rewrite Hop in Hp. cbn in Hp.
    destruct (Z.eqb_spec (ldw g m (lk cpu)) 0) as [E0|]; [|discriminate]. injection Hp as <- <-. cbn [wr fold_left] in Hm.
    assert (Hfree : gh cpu = None). { destruct (gh cpu) eqn:E; auto. destruct (HG1 cpu ltac:(congruence)). lia. }
    exists (gset gh cpu (Some (t, d))). split; [|split].
    + split.
      { intros c' Hc'. unfold gset in Hc'. destruct (Z.eqb_spec c' cpu) as [Ec|Hne].
        - rewrite Ec in *. split; auto. eapply ldw_wr_same; [exact Hm|lia].
        - destruct (HG1 c' Hc') as [Hi' Hl']. split; auto. rewrite <- Hl'. eapply ldw_wr_other; [exact Hm|].
          rewrite stw_keys. apply Lb; auto. }
      rewrite n_cs_snoc. cbn. rewrite Z.add_0_r. rewrite (total_ext g cpus cnt m m'); auto.
      intros c' Hc'. eapply ldw_wr_other; [exact Hm|]. rewrite stw_keys. intros a Ha Hb. exact (Lc c' cpu Hc' Hi a Hb Ha).
    + cbn. split; auto. intros c'. unfold gset. destruct (Z.eqb_spec c' cpu) as [->|Hne]; [split; auto|].
      rewrite (Ho c'). split; [discriminate|congruence].
    + apply l_keeps.
      { intros t' d' Hne c'. unfold gset. destruct (Z.eqb_spec c' cpu) as [->|]; [|reflexivity].
        rewrite Hfree. split; [discriminate|]. intros E. inversion E. congruence. }
      { intros c' t' d' Hc' Hne. eapply ldw_wr_other; [exact Hm|]. rewrite stw_keys.
        destruct (HG1 c' ltac:(congruence)) as [Hi' _]. intros a Ha Hb. exact (Lc c' cpu Hi' Hi a Hb Ha). }
  - (* fail *) intros gh es m t d l c HG H _. split.
    + destruct HG as [HG1 HG2]. split; auto. rewrite n_cs_snoc. cbn. rewrite Z.add_0_r. exact HG2.
    + unfold l_ctx in *. cbn in *. destruct l; auto.
  - (* abort *) intros gh es m t d l c st _ H Hst. unfold l_ctx in *. cbn in *. destruct l; auto.
    destruct H as [H1 H2]. split; auto. destruct Hst as [(w & ->)| ->]; auto.
Qed.

Lemma l_wf : forall gh es m t d l c w, l_glob gh es m -> l_ctx gh m t d {| a_loc := l; a_act := Some (c, Pending w) |} ->
  op_wf g (c_op c) m /\ forall a, In a (touched g (c_op c) m) -> usable (c_own g md cpus lk tt) t c a.
Proof.
  intros gh es m t d l c w _ H. unfold l_ctx in H. cbn in H. destruct l as [|n cpu| | | | |]; try contradiction.
  destruct H as [(Hi & Hop & Hc & Hmd) Ho]. rewrite Hop. split.
  - split; auto. intros a Ha. unfold attempts in Ha. cbn in Ha. destruct (ldw g m (lk cpu) =? 0); destruct Ha.
  - intros a Ha. left. rewrite Hmd, Hc. apply c_own_ok; auto; [apply Hlay|].
    unfold touched, in_use, attempts in Ha. cbn in Ha. destruct (ldw g m (lk cpu) =? 0); cbn in Ha;
      rewrite ?app_nil_r in Ha; auto. rewrite stw_keys in Ha. apply in_app_or in Ha. destruct Ha; auto.
Qed.

Lemma l_init : forall s0 : astate lock_loc,
  (forall t, exists n, a_thr s0 t = [{| a_loc := Lk_idle n; a_act := None |}]) ->
  wrap g (total g cpus cnt (a_mem s0)) = wrap g T0 ->
  holds_inv lock_loc lghost l_glob l_ctx l_absent (fun _ => None) [] s0.
Proof.
  intros s0 Hi HT. split.
  - split; [congruence|]. cbn. rewrite HT. f_equal. unfold n_cs, count. cbn. lia.
  - intros t. destruct (Hi t) as (n & ->). cbn. split; [split; [|auto]|]; intros; split; discriminate.
Qed.

(** A plain store leaves alone what other calls use, except the lock that it releases. *)
Lemma l_write : forall gh es m t d l ps l', l_glob gh es m -> l_ctx gh m t d {| a_loc := l; a_act := None |} ->
  cl_write _ cl l m ps l' ->
  forall u d' l2 c w, u <> t -> l_ctx gh m u d' {| a_loc := l2; a_act := Some (c, Pending w) |} ->
    disjoint (map fst ps) (in_use g (c_op c) m) \/ (one_compare (c_op c) = true /\ pseudo g (c_op c) m = OFail).
Proof.
  destruct Hlay as (La & Lb & Lc). intros gh es m t d l ps l' [HG1 HG2] H Hw u d' l2 c w Hu Hc.
  unfold l_ctx in Hc. cbn in Hc. destruct l2 as [|n2 cpu2| | | | |]; try contradiction.
  destruct Hc as [(Hi2 & Hop & Hc & Hmd) Ho]. rewrite Hop.
  assert (Huse : forall a, In a (in_use g (CbneStore (lk cpu2) 0 1) m) -> In a (span (lk cpu2) (wsize g))).
  { intros a Ha. unfold in_use, attempts in Ha. cbn in Ha. destruct (ldw g m (lk cpu2) =? 0); cbn in Ha; rewrite app_nil_r in Ha; auto. }
  destruct Hw as [(n & cpu & v & -> & -> & ->)|(n & cpu & -> & -> & ->)].
  - left. rewrite stw_keys. cbn in H. destruct H as [Ho1 _].
    destruct (HG1 cpu) as [Hin _]; [rewrite (proj2 (Ho1 cpu) eq_refl); discriminate|].
    intros a Ha Hb. exact (Lc cpu cpu2 Hin Hi2 a Ha (Huse a Hb)).
  - cbn in H. destruct (HG1 cpu) as [Hin Hl]; [rewrite (proj2 (H cpu) eq_refl); discriminate|].
    destruct (Z.eq_dec cpu2 cpu) as [->|Hne].
    + right. split; auto. cbn. rewrite Hl. reflexivity.
    + left. rewrite stw_keys. intros a Ha Hb. exact (Lb cpu cpu2 Hin Hi2 (not_eq_sym Hne) a Ha (Huse a Hb)).
Qed.

Lemma l_safe : forall s0 : astate lock_loc,
  (forall t, exists n, a_thr s0 t = [{| a_loc := Lk_idle n; a_act := None |}]) ->
  wrap g (total g cpus cnt (a_mem s0)) = wrap g T0 -> exclusive (a_on s0) -> safe_client g cl s0.
Proof.
  intros s0 Hi HT Hex.
  apply (inv_safe lock_loc g cl lghost l_glob l_ctx l_absent l_inv (fun _ => c_own g md cpus lk tt) l_wf l_write) with (gh0 := fun _ => None); auto.
  apply l_init; auto.
Qed.

(** At most one holder. *)
Lemma stk_holders : forall gh m t k cpu, Stk lock_loc lghost l_ctx gh m t k ->
  (length (filter (fun x => holding cpu (a_loc x)) k) <= 1)%nat /\
  ((1 <= length (filter (fun x => holding cpu (a_loc x)) k))%nat -> exists d, (d < length k)%nat /\ gh cpu = Some (t, d)).
Proof.
  intros gh m t k cpu. induction k as [|x k IH]; intros H; [cbn; split; lia|].
  destruct H as [H1 H2]. destruct (IH H2) as [I1 I2]. cbn [filter].
  destruct (holding cpu (a_loc x)) eqn:E; cbn [length].
  - assert (Hg : gh cpu = Some (t, length k)).
    { unfold l_ctx in H1. destruct x as [l o]. cbn in *. destruct l; try discriminate; apply Z.eqb_eq in E; subst;
        destruct o as [[? ?]|]; try contradiction; try (apply H1; reflexivity). }
    split.
    + destruct (filter (fun x => holding cpu (a_loc x)) k) as [|y ys] eqn:F; cbn; auto.
      destruct I2 as (d & Hd & Hg'); [cbn; lia|]. rewrite Hg in Hg'. inversion Hg'. lia.
    + intros _. exists (length k). split; auto.
  - split; auto. intros Hl. destruct (I2 Hl) as (d & Hd & Hg). exists d. split; auto.
Qed.
End Lock.

Lemma holders_abs : forall g tx (s : state lock_loc) a cpu t, Rel lock_loc g tx s a ->
  holders s cpu t = length (filter (fun x => holding cpu (a_loc x)) (a_thr a t)).
Proof.
  intros g tx s a cpu t HR. pose proof (rel_contexts lock_loc g tx s a t HR) as E. unfold holders, contexts in *.
  assert (E1 : map x_loc (t_ctx (s_thr s t)) = map a_loc (a_thr a t)).
  { apply (f_equal (map fst)) in E. rewrite !map_map in E. cbn in E. exact E. }
  clear E. revert E1. generalize (a_thr a t). induction (t_ctx (s_thr s t)) as [|x xs IH]; intros ak E; destruct ak as [|ax ak]; try discriminate; auto.
  cbn in E. injection E as E1 E2. cbn [filter]. rewrite E1. destruct (holding cpu (a_loc ax)); cbn [length]; rewrite (IH _ E2); auto.
Qed.

Lemma filter_cs : forall evs : list (event lock_loc), filter is_count_store (effects lock_loc evs) = filter is_count_store evs.
Proof.
  intros evs. induction evs as [|e evs IH]; cbn [effects filter]; auto. fold (effects lock_loc evs).
  destruct e as [| | | |t l ps m]; cbn; auto. destruct l; cbn; auto. f_equal. auto.
Qed.

(** C12 *)
Theorem lock_excludes : forall g a tw tx md cpus cnt lk s0,
  lib_text a tw tx -> initial s0 -> 1 < wmod g -> NoDup cpus -> lock_layout g cpus cnt lk ->
  (forall t, exists n, map x_loc (t_ctx (s_thr s0 t)) = [Lk_idle n]) ->
  forall tr s, path g tx (lock_client g md cpus cnt lk) s0 tr s ->
  (forall cpu t u, (holders s cpu t <= 1)%nat /\ (t <> u -> holders s cpu t = O \/ holders s cpu u = O)) /\
  (forall t x, In x (t_ctx (s_thr s t)) -> x_loc x <> Lk_assert_failed) /\
  wrap g (total g cpus cnt (s_mem s)) = wrap g (total g cpus cnt (s_mem s0) + count is_count_store (obs tr)).
Proof.
  intros g a tw tx md cpus cnt lk s0 Htx Hi Hw1 Hnd Hlay Hst tr s Hp.
  assert (Hgood : good_text g tx) by (eapply lib_good; eauto).
  set (T0 := total g cpus cnt (s_mem s0)). set (cl := lock_client g md cpus cnt lk) in *.
  assert (Hia : forall t, exists n, a_thr (abs_init s0) t = [{| a_loc := Lk_idle n; a_act := None |}]).
  { intros t. destruct (Hst t) as (n & E). exists n. cbn. destruct (t_ctx (s_thr s0 t)) as [|x [|? ?]]; try discriminate.
    cbn in *. injection E as E. rewrite E. reflexivity. }
  assert (Hsafe : safe_client g cl (abs_init s0)).
  { apply (l_safe g md cpus cnt lk Hw1 Hnd Hlay T0); auto. apply init_exclusive; auto. }
  destruct (linearizes lock_loc g tx cl Hgood any_res s0 tr s Hi Hsafe (fun _ _ _ _ _ _ _ _ _ _ _ _ _ _ => Logic.I)
     (fun _ _ _ _ _ _ _ _ _ _ _ _ _ => Logic.I) Hp) as (evs & aa & A1 & A2 & A3).
  destruct (inv_path lock_loc g cl lghost _ _ _ (l_inv g md cpus cnt lk Hw1 Hnd Hlay T0) _ _ _ A1 _
     (l_init g md cpus cnt lk T0 _ Hia eq_refl)) as (gh & [HG HS]).
  split; [|split].
  - intros cpu t u. rewrite !(holders_abs g tx s aa cpu _ A2). destruct (HS t) as [S1 _], (HS u) as [S2 _].
    destruct (stk_holders _ _ _ _ _ _ _ _ _ cpu S1) as [B1 B2]. destruct (stk_holders _ _ _ _ _ _ _ _ _ cpu S2) as [B3 B4].
    split; auto. intros Hn.
    destruct (length (filter (fun x => holding cpu (a_loc x)) (a_thr aa t))) as [|n1] eqn:F1; auto.
    destruct (length (filter (fun x => holding cpu (a_loc x)) (a_thr aa u))) as [|n2] eqn:F2; auto.
    destruct B2 as (d1 & _ & G1); [lia|]. destruct B4 as (d2 & _ & G2); [lia|]. congruence.
  - intros t x Hx E. pose proof (rel_contexts lock_loc g tx s aa t A2) as Hc. unfold contexts in Hc.
    assert (Hin : In (Lk_assert_failed, match x_act x with Some _ => true | None => false end)
      (map (fun x => (x_loc x, match x_act x with Some _ => true | None => false end)) (t_ctx (s_thr s t)))).
    { rewrite <- E. apply in_map_iff. exists x. auto. }
    rewrite Hc in Hin. apply in_map_iff in Hin. destruct Hin as (ax & E1 & Hax). destruct (HS t) as [S1 _].
    revert S1 Hax E1. generalize (a_thr aa t). clear. intros k. induction k as [|y k IH]; intros S1 Hax E1; [destruct Hax|].
    destruct S1 as [H1 H2]. destruct Hax as [->|Hax]; [|apply IH; auto].
    injection E1 as E1 _. unfold l_ctx in H1. rewrite E1 in H1. destruct (a_act ax) as [[? ?]|]; contradiction.
  - destruct HG as [_ HG]. replace (a_mem aa) with (s_mem s) in HG by (symmetry; apply A2). rewrite HG.
    f_equal. f_equal. unfold n_cs, count. rewrite filter_cs. f_equal. f_equal.
    destruct A3 as [A3 _]. rewrite <- A3. symmetry. apply observed_filter. intros [| | | |]; cbn; auto; discriminate.
Qed.
