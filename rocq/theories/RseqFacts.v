(** The properties of the helpers, for the library's code: proofs. *)
From Coq Require Import ZArith Bool List Lia.
From Verif Require Import RseqIR RseqSpec RseqKernel RseqSafe MemLemmas RunLemmas RseqSim RseqCalls RseqSeq RseqProps RseqMisc.
From Verif Require Import Archs ArchsGood.
Import ListNotations.
Local Open Scope Z_scope.

Section Facts.
Variables (Loc : Type) (g : cfg) (a : arch) (tw : bool) (tx : text) (cl : client Loc) (s0 : state Loc).
Hypothesis Htx : lib_text a tw tx.
Hypothesis Hinit : initial s0.
Hypothesis Hclient : safe_client g cl (abs_init s0).
Let Hgood : good_text g tx := lib_good g a tw tx Htx.

Lemma c01 : forall ls s1 t c tr s3 s4, exec g tx cl s0 ls s1 ->
  lifetime g tx cl t c s1 tr s3 0 s4 ->
  exists tr1 sc tr2 att fin,
    tr = tr1 ++ (sc, Lwr t fin) :: tr2 /\ depth sc t = depth s1 t /\ runs_on sc t c /\
    pseudo g (c_op c) (s_mem sc) = OCommit att fin /\
    meq (wr (s_mem sc) fin) (wr (wr (s_mem sc) att) fin) /\
    (forall s ps, In (s, ps) (own_writes t (depth s1 t) tr1) ->
       runs_on s t c /\ exists att' fin', pseudo g (c_op c) (s_mem s) = OCommit att' fin' /\ incl ps att') /\
    own_writes t (depth s1 t) tr2 = [].
Proof.
  intros ls s1 t c tr s3 s4 He Hl.
  destruct (lifetime_result Loc g tx cl Hgood s0 Hinit Hclient _ _ _ _ _ _ _ _ He Hl)
    as [[_ (tr1 & sc & fin & tr2 & att & H)]|[[H _]|[H _]]]; try discriminate.
  exists tr1, sc, tr2, att, fin. unfold attempted in H. tauto.
Qed.

Lemma c02 : forall ls s1 t c tr s3 s4, exec g tx cl s0 ls s1 ->
  lifetime g tx cl t c s1 tr s3 1 s4 ->
  own_writes t (depth s1 t) tr = [] /\
  exists s l, In (s, l) tr /\ runs_on s t c /\ pseudo g (c_op c) (s_mem s) = OFail.
Proof.
  intros ls s1 t c tr s3 s4 He Hl.
  destruct (lifetime_result Loc g tx cl Hgood s0 Hinit Hclient _ _ _ _ _ _ _ _ He Hl)
    as [[H _]|[[_ H]|[H _]]]; try discriminate. exact H.
Qed.

Lemma c03 : forall ls s1 t c tr s3 s4, exec g tx cl s0 ls s1 ->
  lifetime g tx cl t c s1 tr s3 (-1) s4 ->
  forall s ps, In (s, ps) (own_writes t (depth s1 t) tr) ->
    runs_on s t c /\ exists att fin, pseudo g (c_op c) (s_mem s) = OCommit att fin /\ incl ps att.
Proof.
  intros ls s1 t c tr s3 s4 He Hl.
  destruct (lifetime_result Loc g tx cl Hgood s0 Hinit Hclient _ _ _ _ _ _ _ _ He Hl)
    as [[H _]|[[H _]|[_ H]]]; try discriminate. exact H.
Qed.

Lemma returns : forall ls s1 t c tr s3 r s4, exec g tx cl s0 ls s1 ->
  lifetime g tx cl t c s1 tr s3 r s4 -> r = 0 \/ r = 1 \/ r = -1.
Proof.
  intros ls s1 t c tr s3 r s4 He Hl.
  destruct (lifetime_result Loc g tx cl Hgood s0 Hinit Hclient _ _ _ _ _ _ _ _ He Hl)
    as [[H _]|[[H _]|[H _]]]; auto.
Qed.

Lemma c05 : forall ls s1 t c tr s3 r s4, exec g tx cl s0 ls s1 ->
  lifetime g tx cl t c s1 tr s3 r s4 ->
  (forall s l, In (s, l) tr -> ~ runs_on s t c) ->
  r = -1 /\ own_writes t (depth s1 t) tr = [].
Proof.
  intros ls s1 t c tr s3 r s4 He Hl Hn.
  assert (Hown : forall s ps, In (s, ps) (own_writes t (depth s1 t) tr) -> exists l, In (s, l) tr).
  { intros s ps Hin. unfold own_writes in Hin. apply in_flat_map in Hin. destruct Hin as ([s' l] & H1 & H2).
    cbn in H2. destruct l; try contradiction. destruct (_ && _); [|contradiction].
    destruct H2 as [E|[]]. inversion E; subst. eauto. }
  destruct (lifetime_result Loc g tx cl Hgood s0 Hinit Hclient _ _ _ _ _ _ _ _ He Hl)
    as [[_ (tr1 & sc & fin & tr2 & att & -> & _ & H & _)]|[[_ [_ (s & l & H1 & H2 & _)]]|[-> H]]].
  - exfalso. eapply Hn; [|exact H]. apply in_or_app. right. left. reflexivity.
  - exfalso. eapply Hn; eauto.
  - split; auto. destruct (own_writes t (depth s1 t) tr) as [|[s ps] l] eqn:E; auto. exfalso.
    destruct (Hown s ps (or_introl eq_refl)) as (l' & Hl'). eapply Hn; [exact Hl'|].
    apply (H s ps). rewrite E. left. auto.
Qed.

Lemma own_writes_app : forall t d (tr1 tr2 : list (state Loc * clabel)),
  own_writes t d (tr1 ++ tr2) = own_writes t d tr1 ++ own_writes t d tr2.
Proof. intros. unfold own_writes. apply flat_map_app. Qed.

(** Every write of a call is made while the thread runs where the call says. *)
Lemma c05_writes : forall ls s1 t c tr s3 r s4, exec g tx cl s0 ls s1 ->
  lifetime g tx cl t c s1 tr s3 r s4 ->
  forall s ps, In (s, ps) (own_writes t (depth s1 t) tr) -> runs_on s t c.
Proof.
  intros ls s1 t c tr s3 r s4 He Hl s ps Hin.
  destruct (returns _ _ _ _ _ _ _ _ He Hl) as [->|[->| ->]].
  - destruct (c01 _ _ _ _ _ _ _ He Hl) as (tr1 & sc & tr2 & att & fin & -> & Hd & Hr & _ & _ & H1 & H2).
    change ((sc, Lwr t fin) :: tr2) with ([(sc, Lwr t fin)] ++ tr2) in Hin.
    rewrite !own_writes_app, H2, app_nil_r in Hin. apply in_app_or in Hin. destruct Hin as [Hin|Hin].
    + apply (H1 _ _ Hin).
    + cbn in Hin. rewrite Hd, !Nat.eqb_refl in Hin. destruct Hin as [E|[]]. inversion E; subst. auto.
  - destruct (c02 _ _ _ _ _ _ _ He Hl) as [E _]. rewrite E in Hin. contradiction.
  - apply (c03 _ _ _ _ _ _ _ He Hl _ _ Hin).
Qed.

Lemma c06 : forall ls s1 t c tr s3 r s4, exec g tx cl s0 ls s1 ->
  lifetime g tx cl t c s1 tr s3 r s4 ->
  (forall s l, In (s, l) tr -> t_reg (s_thr s t) = false) ->
  r = -1 /\ own_writes t (depth s1 t) tr = [].
Proof.
  intros ls s1 t c tr s3 r s4 He Hl Hn. eapply c05; eauto. intros s l Hin [Hr _].
  rewrite (Hn _ _ Hin) in Hr. discriminate.
Qed.

Lemma c07 : forall ls s, exec g tx cl s0 ls s -> forall t, ~ In (Lbug t) ls.
Proof. intros ls s He. apply (refinement Loc g tx cl Hgood s0 ls s Hinit Hclient He). Qed.

Lemma refines : forall ls s, exec g tx cl s0 ls s ->
  exists als a', aexec g cl (abs_init s0) als a' /\ avis als = cvis ls /\ a_mem a' = s_mem s.
Proof.
  intros ls s He. destruct (refinement Loc g tx cl Hgood s0 ls s Hinit Hclient He) as (_ & als & a' & H1 & H2 & H3).
  exists als, a'. repeat split; auto. apply H3.
Qed.

Lemma window_reg : forall ls s t c, exec g tx cl s0 ls s -> in_window tx s t c -> t_reg (s_thr s t) = true.
Proof.
  intros ls s t c He (l & f & k & P & kd & Ek & Ec & Ht & Hpc).
  destruct (exec_tied Loc g tx cl Hgood s0 Hinit Hclient _ _ He) as (aa & (als & Ha) & HR).
  destruct (Hclient als aa Ha) as [Hwf Hni].
  destruct (top_frame _ _ _ _ _ _ _ _ _ HR Ek) as (st & ak & Ea & Hf & _).
  destruct Hf as (P0 & A1 & A2 & A3 & A4 & A5 & A6). subst c.
  rewrite A1 in Ht. inversion Ht; subst P0 kd. clear Ht.
  destruct (t_reg (s_thr s t)) eqn:Er; auto. exfalso. specialize (A5 eq_refl).
  pose proof (check_ge P) as Hge.
  destruct A6 as [[B1 _]|[[B1 _]|(B1 & B3 & [(w & B2 & B4)|[B2 B4]])]]; [lia|lia| |].
  - specialize (B4 (or_introl eq_refl)).
    destruct (fr_cs_safe g tx Hgood _ _ _ _ _ _ A1 B4) as (junk & r & n & S1 & S2 & S3 & S4 & S5 & S6 & _).
    { intros; contradiction. }
    inversion S6; subst; try contradiction; [|lia]. match goal with H : _ \/ _ = cpuarg _ |- _ => destruct H; [lia|contradiction] end.
  - destruct (B4 (or_introl eq_refl)) as (m0 & r & n & _ & _ & _ & Hi & _). contradiction.
Qed.

(** A thread that is resumed is not inside a critical section any more. *)
Lemma resumed : forall ls s t s' c, exec g tx cl s0 ls s ->
  t_on (s_thr s t) = None -> in_window tx s t c -> s_loaded s (c_code c) = true ->
  step g tx cl s Ltau s' -> t_on (s_thr s' t) <> None ->
  exists l f k P kd, t_ctx (s_thr s' t) = {| x_loc := l; x_act := Some f |} :: k /\
    f_call f = c /\ tx (c_code c) = Some (P, kd) /\ f_pc f = cs_abort P.
Proof.
  intros ls s t s' c He Hoff Hw Hld Hs Hon.
  pose proof (window_reg _ _ _ _ He Hw) as Hreg.
  assert (Hkeep : forall u th', u <> t -> s_thr s' = (fun v => if Nat.eqb v u then th' else s_thr s v) -> False).
  { intros u th' Hu E. apply Hon. rewrite E. destruct (Nat.eqb_spec t u); [congruence|auto]. }
  destruct Hw as (l & f & k & P & kd & Ek & Ec & Ht & Hpc).
  inversion Hs; subst;
    try (destruct (Nat.eq_dec t0 t) as [->|Hn]; [|exfalso; eapply Hkeep; [exact Hn|reflexivity]]);
    try (match goal with H : running _ |- _ => destruct H; congruence end).
  - cbn in Hon. congruence.
  - rewrite set_t_same. cbn [t_reg set_on]. rewrite Hreg.
    set (th := set_area _ _).
    destruct (fixup_aborts Loc g tx cl Hgood s0 Hinit Hclient ls s t l f k th He Hreg Ek) as (P' & kd' & F1 & F2 & F3); auto.
    { exists P, kd. split; auto. pose proof (check_ge P). lia. }
    rewrite F2. exists l. eexists. exists k, P', kd'. split; [reflexivity|]. cbn. auto.
Qed.

Lemma c08 : forall ls s, careful_exec g tx cl s0 ls s -> forall t, t_dead (s_thr s t) = false.
Proof. intros ls s He t. eapply (alive Loc g tx cl Hgood s0 Hinit Hclient); eauto. Qed.
End Facts.

Lemma desc_facts : forall a tw tx id P kd, lib_text a tw tx -> tx id = Some (P, kd) ->
  (cs_start P < cs_commit P)%nat /\
  ~ (cs_start P <= cs_abort P < cs_commit P)%nat /\
  (0 < cs_abort P)%nat /\ nth_error (code P) (cs_abort P - 1) = Some ISig /\
  exit_of P (cs_abort P) = Some XAbort.
Proof.
  intros a tw tx id P kd Htx E.
  destruct (lib_good {| wsize := 8; bigend := false |} a tw tx Htx id P kd E) as [Hok _].
  destruct (static_facts P Hok) as (Hd & _ & Hlt & Hab & _ & _ & _ & _ & _ & _ & Hx).
  unfold desc_ok in Hd. repeat rewrite andb_true_iff in Hd. destruct Hd as ((_ & _) & Hd).
  split; auto. split; [lia|]. destruct (cs_abort P) as [|n] eqn:En; [discriminate|].
  split; [lia|]. split; auto. replace (S n - 1)%nat with n by lia.
  destruct (nth_error (code P) n) as [[]|]; try discriminate; auto.
Qed.

(** ** Uninterrupted calls *)
Lemma c09 : forall g a tw rel md kd P, helper a tw rel md kd = Some P ->
  forall c m idx junk, kind_of (c_op c) = kd ->
  (idx = c_cpu c mod 2 ^ 32 -> op_wf g (c_op c) m) ->
  exists r m', run_alone g P idx (step_bound (c_op c) + length (code P)) m 0 (init_regs c junk) = Some (r, m') /\
  (idx <> c_cpu c mod 2 ^ 32 -> r = -1 /\ meq m' m) /\
  (idx = c_cpu c mod 2 ^ 32 -> pseudo g (c_op c) m = OFail -> r = 1 /\ meq m' m) /\
  (forall att fin, idx = c_cpu c mod 2 ^ 32 -> pseudo g (c_op c) m = OCommit att fin ->
     r = 0 /\ meq m' (wr (wr m att) fin)).
Proof. intros g a tw rel md kd P H. exact (good_alone g P kd (helper_good g a tw rel md kd P H)). Qed.

Lemma code_len : forall a tw rel md kd P, helper a tw rel md kd = Some P -> (length (code P) <= 64)%nat.
Proof.
  intros a tw rel md kd P H. unfold helper in H.
  destruct kd, rel; try discriminate; destruct a; try discriminate; injection H as <-;
    destruct tw; vm_compute; lia.
Qed.

Lemma c10 : forall Loc g a tw tx (cl : client Loc), lib_text a tw tx ->
  forall (s1 : state Loc) t c s2,
  step g tx cl s1 (Lcall t c) s2 -> call_ok s1 (Lcall t c) ->
  (index (t_area (s_thr s1 t)) (c_mode c) = c_cpu c mod 2 ^ 32 -> op_wf g (c_op c) (s_mem s1)) ->
  exists tr s3 r s4, lifetime g tx cl t c s1 tr s3 r s4 /\
    (forall s l, In (s, l) tr -> l = Ltau \/ exists ps, l = Lwr t ps) /\
    (length tr < 104 + 8 * op_len (c_op c))%nat /\
    (index (t_area (s_thr s1 t)) (c_mode c) = c_cpu c mod 2 ^ 32 -> r = 0 \/ r = 1).
Proof.
  intros Loc g a tw tx cl Htx s1 t c s2 Hs Hok Hwf.
  destruct (progress Loc g tx cl (lib_good g a tw tx Htx) s1 t c s2 Hs Hok Hwf)
    as (P & kd & E & tr & s3 & r & s4 & H1 & H2 & H3 & (J1 & J2 & J3)).
  exists tr, s3, r, s4. split; auto. split; auto. split.
  - destruct (Htx _ _ _ E) as (rel & md & Hh). pose proof (code_len _ _ _ _ _ _ Hh). unfold step_bound in H3. lia.
  - intros Hi. destruct (pseudo g (c_op c) (s_mem s1)) eqn:Ep.
    + right. apply (J2 Hi eq_refl).
    + left. apply (J3 _ _ Hi eq_refl).
Qed.

(** ** Dispatch *)
Lemma entry_cases : forall mo mode op cpu,
  (supported_mo op mo = true -> forall md, mode = (match md with CPU_ID => 0 | MM_CID => 1 end) ->
     entry_point mo mode op cpu = Run (mo =? RSEQ_MO_RELEASE) md op cpu) /\
  (supported_mo op mo = false \/ (mode <> 0 /\ mode <> 1) -> entry_point mo mode op cpu = Return (-1)).
Proof.
  intros mo mode op cpu.
  assert (Hb : forall f, mode <> 0 /\ mode <> 1 -> by_mode mode f = Return (-1)).
  { intros f [H1 H2]. unfold by_mode, RSEQ_PERCPU_CPU_ID, RSEQ_PERCPU_MM_CID.
    apply Z.eqb_neq in H1, H2. now rewrite H1, H2. }
  assert (Hm : forall f md, mode = (match md with CPU_ID => 0 | MM_CID => 1 end) -> by_mode mode f = f md).
  { intros f [|] ->; reflexivity. }
  unfold supported_mo, entry_point, RSEQ_MO_RELAXED, RSEQ_MO_RELEASE. split.
  - intros H md Hmd. destruct op; cbn [kind_of] in H;
      unfold rseq_load_cbne_store, rseq_load_add_store, rseq_load_cbeq_store_add_load_store,
        rseq_load_add_load_load_add_store, rseq_load_cbne_load_cbne_store, rseq_load_cbne_store_store,
        rseq_load_cbne_memcpy_store, RSEQ_MO_RELAXED, RSEQ_MO_RELEASE.
    1-5: apply Z.eqb_eq in H; subst mo; cbn [Z.eqb negb]; (rewrite (Hm _ md Hmd); reflexivity).
    all: apply orb_true_iff in H; destruct H as [H|H]; apply Z.eqb_eq in H; subst mo; cbn; (rewrite (Hm _ md Hmd); reflexivity).
  - intros H. destruct op; cbn [kind_of] in H;
      unfold rseq_load_cbne_store, rseq_load_add_store, rseq_load_cbeq_store_add_load_store,
        rseq_load_add_load_load_add_store, rseq_load_cbne_load_cbne_store, rseq_load_cbne_store_store,
        rseq_load_cbne_memcpy_store, RSEQ_MO_RELAXED, RSEQ_MO_RELEASE.
    1-5: destruct (mo =? 0) eqn:E; cbn [negb]; auto; destruct H as [H|H]; [discriminate|apply Hb; auto].
    all: destruct (mo =? 0) eqn:E0; destruct (mo =? 3) eqn:E3; auto; destruct H as [H|H];
         try discriminate; apply Hb; auto.
Qed.

(** What an entry point does, with nothing else running. *)
Lemma c16 : forall g a tw ar junk m mo mode op cpu,
  (supported_mo op mo = false \/ (mode <> 0 /\ mode <> 1) -> forall fuel,
     call_entry g a tw ar fuel junk m mo mode op cpu = Some (-1, m)) /\
  (supported_mo op mo = true -> (kind_of op = KAddLoadLoad -> a = X86_64) ->
   forall idx, (mode = 0 /\ idx = cpu_field ar \/ mode = 1 /\ idx = cid_field ar) ->
   (idx = cpu mod 2 ^ 32 -> op_wf g op m) ->
   exists r m', call_entry g a tw ar (104 + 8 * op_len op) junk m mo mode op cpu = Some (r, m') /\
   (idx <> cpu mod 2 ^ 32 -> r = -1 /\ meq m' m) /\
   (idx = cpu mod 2 ^ 32 -> pseudo g op m = OFail -> r = 1 /\ meq m' m) /\
   (forall att fin, idx = cpu mod 2 ^ 32 -> pseudo g op m = OCommit att fin ->
      r = 0 /\ meq m' (wr (wr m att) fin))).
Proof.
  intros g a tw ar junk m mo mode op cpu. destruct (entry_cases mo mode op cpu) as [H1 H2]. split.
  - intros H fuel. unfold call_entry. rewrite H2; auto.
  - intros Hmo Ha idx Hidx Hwf. unfold call_entry.
    assert (Hmd : exists md, mode = (match md with CPU_ID => 0 | MM_CID => 1 end) /\ idx = index ar md).
    { destruct Hidx as [[-> ->]|[-> ->]]; [exists CPU_ID|exists MM_CID]; auto. }
    destruct Hmd as (md & Hmode & ->). rewrite (H1 Hmo md Hmode).
    destruct (helper a tw (mo =? RSEQ_MO_RELEASE) md (kind_of op)) as [P|] eqn:EP.
    + rewrite (helper_mode _ _ _ _ _ _ EP).
      destruct (c09 g _ _ _ _ _ _ EP {| c_code := 0; c_op := op; c_cpu := cpu; c_mode := md |} m (index ar md) junk eq_refl Hwf)
        as (r & m' & E & J). exists r, m'. split; [|exact J].
      eapply run_alone_mono; [exact E|]. pose proof (code_len _ _ _ _ _ _ EP). unfold step_bound. cbn [c_op]. lia.
    + exfalso. unfold supported_mo, RSEQ_MO_RELAXED, RSEQ_MO_RELEASE in *. unfold helper in EP.
      destruct (kind_of op) eqn:Ek; try (apply Z.eqb_eq in Hmo; subst mo; cbn in EP; try discriminate).
      * rewrite (Ha eq_refl) in EP. discriminate.
      * destruct (mo =? 3); discriminate.
      * destruct (mo =? 3); discriminate.
Qed.

Lemma c04 : forall (Loc : Type) g a tw tx (cl : client Loc) s0,
  lib_text a tw tx -> initial s0 -> safe_client g cl (abs_init s0) ->
  forall ls s t u c d, exec g tx cl s0 ls s ->
  running (s_thr s t) -> running (s_thr s u) -> in_window tx s t c -> in_window tx s u d ->
  c_mode c = c_mode d -> c_cpu c = c_cpu d -> t = u.
Proof. intros Loc g a tw tx cl s0 Htx. exact (exclusion Loc g tx cl (lib_good g a tw tx Htx) s0). Qed.

Lemma c04_handler : forall (Loc : Type) g a tw tx (cl : client Loc) s0,
  lib_text a tw tx -> initial s0 -> safe_client g cl (abs_init s0) ->
  forall ls s t x k y f, exec g tx cl s0 ls s -> t_reg (s_thr s t) = true ->
  t_ctx (s_thr s t) = x :: k -> In y k -> x_act y = Some f -> ~ in_section tx f.
Proof. intros Loc g a tw tx cl s0 Htx. exact (section_top Loc g tx cl (lib_good g a tw tx Htx) s0). Qed.

Lemma c07_twice : forall (Loc : Type) g a tx (cl : client Loc) s0,
  lib_text a true tx -> initial s0 -> safe_client g cl (abs_init s0) ->
  forall ls s, exec g tx cl s0 ls s -> forall t, ~ In (Lbug t) ls.
Proof. intros Loc g a tx cl s0. exact (c07 Loc g a true tx cl s0). Qed.

Lemma helper_exists : forall a tw rel md kd,
  helper a tw rel md kd <> None <->
  (kd = KAddLoadLoad -> a = X86_64) /\
  (rel = true -> kd = KStoreStore \/ kd = KMemcpy).
Proof.
  intros a tw rel md kd. destruct rel, kd, a; cbn; (split; [intros H; split|intros [H1 H2]]);
    intros; auto; try congruence; try (specialize (H1 eq_refl); discriminate);
    try (destruct (H2 eq_refl); discriminate).
Qed.

Lemma path_prefix : forall (Loc : Type) g tx (cl : client Loc) s tr s', path g tx cl s tr s' ->
  forall tr1 s1 l tr2, tr = tr1 ++ (s1, l) :: tr2 -> path g tx cl s tr1 s1.
Proof.
  intros Loc g tx cl s tr s' H. induction H as [|s tr s' l s'' H IH Hs Hok]; intros tr1 s1 l1 tr2 E.
  - destruct tr1; discriminate.
  - destruct tr2 as [|p tr2] using rev_ind.
    + apply app_inj_tail in E. destruct E as [-> E]. inversion E; subst. auto.
    + rewrite app_comm_cons, app_assoc in E. apply app_inj_tail in E. destruct E as [E _]. eapply IH; eauto.
Qed.

Lemma c19 : forall (Loc : Type) g a tw tx (cl : client Loc) s0,
  lib_text a tw tx -> initial s0 -> safe_client g cl (abs_init s0) ->
  forall tr s', path g tx cl s0 tr s' ->
  (forall tr1 s1 tr2 s2 l id, tr = tr1 ++ (s1, l) :: tr2 -> hd_error (map fst tr2 ++ [s']) = Some s2 ->
     s_loaded s1 id = true -> s_loaded s2 id = false ->
     forall t, prepared_in g tx cl s0 tr1 s1 t id \/
       (forall sx c, In (sx, Lcall t c) tr1 -> c_code c <> id)) ->
  forall t, t_dead (s_thr s' t) = false.
Proof.
  intros Loc g a tw tx cl s0 Htx Hinit Hclient tr s' Hp Hun t.
  assert (H : careful_exec g tx cl s0 (map snd tr) s'); [|eapply c08; eauto].
  clear t. induction Hp as [s|s tr s' l s'' Hp IH Hs Hok]; [constructor|].
  rewrite map_app. cbn [map]. eapply careful_snoc; eauto.
  - apply IH; auto. intros tr1 s1 tr2 s2 l1 id E1 E2 L1 L2.
    apply (Hun tr1 s1 (tr2 ++ [(s', l)]) s2 l1 id); auto.
    + rewrite E1, <- app_assoc. reflexivity.
    + rewrite map_app. cbn. destruct tr2; cbn in *; auto.
  - intros id L1 L2 u. destruct (Hun tr s' [] s'' l id eq_refl eq_refl L1 L2 u) as [H|H].
    + apply (prepared_in_ok Loc g tx cl _ _ _ _ _ H).
    + apply (never_called_ok Loc g tx cl _ _ _ _ _ Hinit Hp H).
Qed.
