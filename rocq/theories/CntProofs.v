(** Proofs for C11: the per-CPU counter. *)
From Coq Require Import ZArith Bool List Lia.
From Verif Require Import RseqIR RseqSpec RseqKernel RseqSafe MemLemmas RunLemmas RseqSim RseqOwn RseqCalls Archs ArchsGood LinSpec LinProofs ClientModel ClientSpec.
Import ListNotations.
Local Open Scope Z_scope.

(** ** Sums of words *)
Lemma total_ext : forall g cpus cnt m m', (forall cpu, In cpu cpus -> ldw g m' (cnt cpu) = ldw g m (cnt cpu)) ->
  total g cpus cnt m' = total g cpus cnt m.
Proof.
  intros g cpus cnt m m'. induction cpus as [|c cpus IH]; intros H; auto.
  unfold total in *. cbn [fold_right]. rewrite (H c) by (left; auto). f_equal. apply IH. intros; apply H; right; auto.
Qed.

Lemma total_one : forall g cpus cnt m m' cpu, NoDup cpus -> In cpu cpus ->
  (forall c, In c cpus -> c <> cpu -> ldw g m' (cnt c) = ldw g m (cnt c)) ->
  total g cpus cnt m' = total g cpus cnt m + (ldw g m' (cnt cpu) - ldw g m (cnt cpu)).
Proof.
  intros g cpus cnt m m' cpu Hnd. induction cpus as [|c cpus IH]; intros Hin H; [destruct Hin|].
  inversion Hnd as [|x y N1 N2]; subst.
  assert (U : forall mm, total g (c :: cpus) cnt mm = ldw g mm (cnt c) + total g cpus cnt mm) by reflexivity.
  rewrite !U. destruct Hin as [->|Hin].
  - rewrite (total_ext g cpus cnt m m'); [lia|]. intros d Hd. apply H; [right; auto|]. intros ->. auto.
  - rewrite (H c); [|left; auto|intros ->; auto].
    rewrite IH; auto; [lia|]. intros d Hd. apply H. right. auto.
Qed.

Lemma ldw_meq : forall g m m' a, meq m' m -> ldw g m' a = ldw g m a.
Proof. intros g m m' a H. apply ldw_agree. intros b _. apply H. Qed.

Lemma wmod_pos : forall g, 0 < wmod g.
Proof. intros g. unfold wmod. apply Z.pow_pos_nonneg; lia. Qed.

Lemma wrap_range : forall g x, 0 <= wrap g x < wmod g.
Proof. intros g x. apply Z.mod_pos_bound, wmod_pos. Qed.

Lemma ldw_wr_same : forall g m m' a v, meq m' (wr m (stw g a v)) -> 0 <= v < wmod g -> ldw g m' a = v.
Proof. intros. rewrite (ldw_meq g _ _ a H). apply ldw_stw. auto. Qed.

Lemma ldw_wr_other : forall g m m' ps b, meq m' (wr m ps) -> disjoint (map fst ps) (span b (wsize g)) ->
  ldw g m' b = ldw g m b.
Proof. intros g m m' ps b H Hd. rewrite (ldw_meq g _ _ b H). apply ldw_agree, agree_wr. auto. Qed.

(** ** The invariant *)
Section Counter.
Variable Loc : Type.
Variable g : cfg.
Variable md : imode.
Variable cpus : list Z.
Variable cnt : Z -> Z.
Variable inc : Z.
Variable cl : client Loc.
Hypothesis Hnd : NoDup cpus.
Hypothesis Hap : words_apart g cpus cnt.
Hypothesis Hcl : counter_code g md cpus cnt inc cl.
Variable T0 : Z.

Definition n_eff (es : list (event Loc)) : Z := count is_eff es.
Lemma n_eff_app : forall e f, n_eff (e ++ f) = n_eff e + n_eff f.
Proof. intros. unfold n_eff, count. rewrite filter_app, app_length. lia. Qed.

Definition c_glob (_ : unit) (es : list (event Loc)) (m : mem) : Prop :=
  wrap g (total g cpus cnt m) = wrap g (T0 + n_eff es * inc).
Definition c_ctx (_ : unit) (_ : mem) (_ _ : nat) (x : actx Loc) : Prop :=
  match a_act x with
  | Some (c, _) => In (c_cpu c) cpus /\ c_mode c = md /\ c_op c = AddStore (cnt (c_cpu c)) inc
  | None => True
  end.
Definition c_absent (_ : unit) (_ _ : nat) : Prop := True.

Lemma c_keeps : forall m t d m', keeps Loc unit c_ctx c_absent tt m t d tt m'.
Proof. intros. split; auto. Qed.

Lemma c_inv : client_inv Loc g cl unit c_glob c_ctx c_absent.
Proof.
  destruct Hcl as [Hcall Hwr].
  split; try (intros; exact Logic.I); unfold c_ctx; cbn [a_act]; intros [] es m t d.
  - intros l c _ _ Hc. eapply Hcall; eauto.
  - intros l c r HG _. exists tt. split; auto. split; auto. apply c_keeps.
  - intros l ps l' m' HG _ Hw Hm. exists tt. split; [|split; [auto|apply c_keeps]].
    unfold c_glob in *. rewrite n_eff_app. cbn. rewrite Z.add_0_r.
    rewrite (total_ext g cpus cnt m m'); auto. intros cpu Hcpu. eapply ldw_wr_other; [exact Hm|]. eapply Hwr; eauto.
  - intros l l' HG _ _. exists tt. split; auto. split; auto. apply c_keeps.
  - intros l c w att fin ps m' HG (H1 & H2 & H3) Hp Hi Hm. rewrite H3 in Hp. cbn in Hp. injection Hp as <- <-.
    assert (ps = []) by (destruct ps as [|p ps]; auto; destruct (Hi p (or_introl eq_refl))). subst ps.
    exists tt. split; [|split; [auto|apply c_keeps]].
    unfold c_glob in *. rewrite (total_ext g cpus cnt m m'); auto. intros cpu Hcpu. apply ldw_meq. exact Hm.
  - intros l c w att fin m' HG (H1 & H2 & H3) Hp Hm. rewrite H3 in Hp. cbn in Hp. injection Hp as <- <-.
    exists tt. split; [|split; [auto|apply c_keeps]].
    unfold c_glob in *. rewrite n_eff_app. change (n_eff [Eff t l c m]) with 1. cbn [wr fold_left] in Hm.
    rewrite (total_one g cpus cnt m m' (c_cpu c)); auto.
    + rewrite (ldw_wr_same g m m' _ _ Hm (wrap_range g _)). unfold wrap in *.
      rewrite Zplus_mod, HG, <- Zplus_mod. replace (T0 + (n_eff es + 1) * inc) with (T0 + n_eff es * inc + inc) by lia.
      rewrite (Zplus_mod (T0 + n_eff es * inc) inc). rewrite (Zplus_mod (T0 + n_eff es * inc) (_ - _)).
      f_equal. f_equal. rewrite Zminus_mod_idemp_l. f_equal. lia.
    + intros c' Hc' Hne. eapply ldw_wr_other; [exact Hm|]. rewrite stw_keys. apply Hap; auto.
  - intros l c HG H _. split; auto. unfold c_glob in *. rewrite n_eff_app. cbn. rewrite Z.add_0_r. exact HG.
  - intros l c st _ H _. exact H.
Qed.

Definition c_own (_ : unit) (a : Z) : owner :=
  match find (fun cpu => existsb (Z.eqb a) (span (cnt cpu) (wsize g))) cpus with
  | Some cpu => OCpu md cpu | None => ONone
  end.

Lemma c_own_ok : forall cpu a, In cpu cpus -> In a (span (cnt cpu) (wsize g)) -> c_own tt a = OCpu md cpu.
Proof.
  intros cpu a Hc Ha. unfold c_own.
  destruct (find (fun c => existsb (Z.eqb a) (span (cnt c) (wsize g))) cpus) as [c'|] eqn:E.
  - apply find_some in E. destruct E as [E1 E2]. apply existsb_exists in E2. destruct E2 as (b & Hb & Eb).
    apply Z.eqb_eq in Eb. subst b. destruct (Z.eq_dec c' cpu) as [->|Hne]; auto.
    exfalso. exact (Hap c' cpu E1 Hc Hne a Hb Ha).
  - exfalso. apply (find_none _ _ E) in Hc.
    assert (Ht : existsb (Z.eqb a) (span (cnt cpu) (wsize g)) = true).
    { apply existsb_exists. exists a. split; auto. apply Z.eqb_refl. }
    cbn in Hc. congruence.
Qed.

Lemma c_wf : forall gh es m t d l c w, c_glob gh es m -> c_ctx gh m t d {| a_loc := l; a_act := Some (c, Pending w) |} ->
  op_wf g (c_op c) m /\ forall a, In a (touched g (c_op c) m) -> usable (c_own gh) t c a.
Proof.
  intros [] es m t d l c w _ (H1 & H2 & H3). rewrite H3. split.
  - split; auto. intros a [].
  - intros a Ha. left. rewrite H2. apply c_own_ok; auto.
    unfold touched, in_use, attempts in Ha. cbn in Ha. rewrite app_nil_r, stw_keys in Ha.
    apply in_app_or in Ha. destruct Ha; auto.
Qed.

Lemma c_init : forall s0 : astate Loc, (forall t x, In x (a_thr s0 t) -> a_act x = None) ->
  wrap g (total g cpus cnt (a_mem s0)) = wrap g T0 ->
  holds_inv Loc unit c_glob c_ctx c_absent tt [] s0.
Proof.
  intros s0 Hi HT. split.
  - unfold c_glob. cbn. rewrite HT. f_equal. unfold n_eff, count. cbn. lia.
  - intros t. split; [|intros; exact Logic.I]. specialize (Hi t). induction (a_thr s0 t) as [|x xs IH]; cbn; auto.
    split; [unfold c_ctx; rewrite Hi; auto; left; auto|]. apply IH. intros y Hy. apply Hi. right. auto.
Qed.

Lemma c_safe : forall s0 : astate Loc, (forall t x, In x (a_thr s0 t) -> a_act x = None) ->
  wrap g (total g cpus cnt (a_mem s0)) = wrap g T0 -> exclusive (a_on s0) -> safe_client g cl s0.
Proof.
  intros s0 Hi HT Hex.
  apply (inv_safe Loc g cl unit c_glob c_ctx c_absent c_inv c_own c_wf) with (gh0 := tt); auto.
  - intros gh es m t d l ps l' HG _ Hw u d' l2 c w _ (H1 & H2 & H3). left. rewrite H3.
    unfold in_use, attempts. cbn. rewrite app_nil_r. eapply (proj2 Hcl); eauto.
  - apply c_init; auto.
Qed.
End Counter.

(** ** Counting *)
Definition cnt_th {Loc} (f : event Loc -> bool) (t : nat) (evs : list (event Loc)) : nat :=
  length (filter (fun e => Nat.eqb (ev_thread e) t && f e) evs).

Lemma sum_to_ext : forall n f h, (forall t, (t < n)%nat -> f t = h t) -> sum_to n f = sum_to n h.
Proof. induction n; intros f h H; cbn; auto. rewrite (IHn f h), H; auto. Qed.
Lemma sum_to_le : forall n f h, (forall t, (t < n)%nat -> (f t <= h t)%nat) -> (sum_to n f <= sum_to n h)%nat.
Proof. induction n; intros f h H; cbn; auto. assert (sum_to n f <= sum_to n h)%nat by (apply IHn; auto). specialize (H n ltac:(lia)). lia. Qed.
Lemma sum_to_add : forall n f h, sum_to n (fun t => f t + h t)%nat = (sum_to n f + sum_to n h)%nat.
Proof. induction n; intros; cbn; auto. rewrite IHn. lia. Qed.
Lemma sum_to_one : forall n u b, (u < n)%nat -> sum_to n (fun t => if Nat.eqb u t then b else O) = b.
Proof.
  induction n; intros u b H; [lia|]. cbn. destruct (Nat.eqb_spec u n) as [->|Hn].
  - replace (sum_to n (fun t => if Nat.eqb n t then b else O)) with O; auto.
    symmetry. clear. assert (H : forall k, (k <= n)%nat -> sum_to k (fun t => if Nat.eqb n t then b else O) = O).
    { induction k; intros Hk; cbn; auto. rewrite IHk by lia. destruct (Nat.eqb_spec n k); lia. }
    apply H. lia.
  - rewrite IHn by lia. lia.
Qed.

Lemma count_split : forall Loc (f : event Loc -> bool) evs N, (forall e, In e evs -> (ev_thread e < N)%nat) ->
  length (filter f evs) = sum_to N (fun t => cnt_th f t evs).
Proof.
  intros Loc f evs N. induction evs as [|e evs IH]; intros H.
  - cbn. assert (Hz : forall n, sum_to n (fun _ => O) = O) by (induction n; cbn; lia).
    unfold cnt_th. cbn. rewrite Hz. reflexivity.
  - assert (Hs : sum_to N (fun t => cnt_th f t (e :: evs)) =
      sum_to N (fun t => (if Nat.eqb (ev_thread e) t then (if f e then 1 else 0) else 0) + cnt_th f t evs)%nat).
    { apply sum_to_ext. intros t _. unfold cnt_th. cbn. destruct (Nat.eqb (ev_thread e) t), (f e); cbn; auto. }
    rewrite Hs, sum_to_add, sum_to_one by (apply H; left; auto). rewrite <- IH by (intros; apply H; right; auto).
    cbn. destruct (f e); cbn; auto.
Qed.

Lemma bound_threads : forall Loc (evs : list (event Loc)), exists N, forall e, In e evs -> (ev_thread e < N)%nat.
Proof.
  induction evs as [|e evs (N & IH)]; [exists O; intros ? []|].
  exists (max N (S (ev_thread e))). intros x [->|Hx]; [lia|]. specialize (IH x Hx). lia.
Qed.

Section CallsCount.
Variable Loc : Type.
Definition is_inv (e : event Loc) : bool := match e with Inv _ _ _ _ => true | _ => false end.
Definition is_ret_ev (e : event Loc) : bool := match e with Ret _ _ _ _ _ => true | _ => false end.
Definition is_ret0_ev (e : event Loc) : bool := match e with Ret _ _ _ r _ => r =? 0 | _ => false end.
Definition done_in (k : list (Loc * call * progress)) : nat :=
  length (filter (fun p => match snd p with Took _ => true | _ => false end) k).

Lemma cnt_snoc : forall (f : event Loc -> bool) t evs e,
  cnt_th f t (evs ++ [e]) = (cnt_th f t evs + if Nat.eqb (ev_thread e) t && f e then 1 else 0)%nat.
Proof.
  intros. unfold cnt_th. rewrite filter_app, app_length. cbn. destruct (Nat.eqb (ev_thread e) t && f e); auto.
Qed.

Lemma calls_count : forall res t evs k, calls_ok res t evs k ->
  cnt_th is_eff t evs = (cnt_th is_ret0_ev t evs + done_in k)%nat /\
  cnt_th is_inv t evs = (cnt_th is_ret_ev t evs + length k)%nat.
Proof.
  intros res t evs k H. induction H; rewrite ?cnt_snoc; cbn [ev_thread is_eff is_inv is_ret_ev is_ret0_ev];
    rewrite ?Nat.eqb_refl; cbn [andb length done_in filter snd]; unfold done_in in *; cbn in *; try lia.
  - destruct o; cbn in *; try lia. destruct (H0 m0 eq_refl).
  - destruct (Nat.eqb_spec (ev_thread e) t); [contradiction|]. cbn. lia.
Qed.

Lemma obs_counts : forall tr : list (state Loc * clabel),
  (forall s t c, In (s, Lcall t c) tr -> t_ctx (s_thr s t) <> []) ->
  (forall s t c r, In (s, Lret t c r) tr -> t_ctx (s_thr s t) <> []) ->
  length (filter is_inv (obs tr)) = length (filter is_call (map snd tr)) /\
  length (filter is_ret_ev (obs tr)) = length (filter is_ret (map snd tr)) /\
  length (filter is_ret0_ev (obs tr)) = length (filter is_ret0 (map snd tr)).
Proof.
  induction tr as [|[s l] tr IH]; intros H1 H2; [repeat split; reflexivity|].
  destruct IH as (I1 & I2 & I3); [intros; eapply H1; right; eauto|intros; eapply H2; right; eauto|].
  cbn [obs flat_map map snd]. fold (obs tr). rewrite !filter_app, !app_length, I1, I2, I3.
  destruct l as [|t c|t c r|t ps|t]; cbn [obs1 filter is_call is_ret is_ret0]; auto.
  - specialize (H1 s t c (or_introl eq_refl)). destruct (t_ctx (s_thr s t)); [congruence|]. cbn. auto.
  - specialize (H2 s t c r (or_introl eq_refl)). destruct (t_ctx (s_thr s t)); [congruence|]. cbn. destruct (r =? 0); cbn; auto.
  - destruct (t_ctx (s_thr s t)) as [|[x [f|]] k]; cbn; auto.
Qed.

Lemma observed_filter : forall (f : event Loc -> bool) evs, (forall e, f e = true -> is_silent e = false) ->
  filter f (observed evs) = filter f evs.
Proof.
  intros f evs H. induction evs as [|e evs IH]; auto. unfold observed in *. cbn [filter].
  destruct (is_silent e) eqn:E; cbn [negb filter].
  - destruct (f e) eqn:F; [rewrite (H e F) in E; discriminate|auto].
  - rewrite IH. auto.
Qed.

Lemma path_labels : forall g tx cl (s0 : state Loc) tr s, path g tx cl s0 tr s ->
  (forall s t c, In (s, Lcall t c) tr -> t_ctx (s_thr s t) <> []) /\
  (forall s t c r, In (s, Lret t c r) tr -> t_ctx (s_thr s t) <> []).
Proof.
  intros g tx cl s0 tr s H. induction H as [|s0 tr s' l s'' H [I1 I2] Hs Hok]; [split; intros ? ? ? []; auto; intros []|].
  split.
  - intros s1 t c Hin. apply in_app_or in Hin. destruct Hin as [Hin|[Hin|[]]]; [eapply I1; eauto|].
    inversion Hin; subst. inversion Hs; subst; try congruence;
      match goal with E : t_ctx _ = _ :: _ |- _ => rewrite E; discriminate end.
  - intros s1 t c r Hin. apply in_app_or in Hin. destruct Hin as [Hin|[Hin|[]]]; [eapply I2; eauto|].
    inversion Hin; subst. inversion Hs; subst; try congruence;
      match goal with E : t_ctx _ = _ :: _ |- _ => rewrite E; discriminate end.
Qed.

(** How many calls have taken effect, from the labels of the run. *)
Lemma effects_bounds : forall g tx cl res (s0 : state Loc) tr s evs, path g tx cl s0 tr s ->
  linearization g res tr s evs ->
  let n := Z.of_nat (length (filter is_eff evs)) in
  count is_ret0 (map snd tr) <= n /\
  n <= count is_ret0 (map snd tr) + (count is_call (map snd tr) - count is_ret (map snd tr)) /\
  (quiescent s -> n = count is_ret0 (map snd tr)).
Proof.
  intros g tx cl res s0 tr s evs Hp (L1 & L2 & _) n. destruct (path_labels _ _ _ _ _ _ Hp) as [P1 P2].
  destruct (obs_counts tr P1 P2) as (C1 & C2 & C3). rewrite <- L1 in C1, C2, C3.
  rewrite observed_filter in C1 by (intros []; cbn; auto; discriminate).
  rewrite observed_filter in C2 by (intros []; cbn; auto; discriminate).
  rewrite observed_filter in C3 by (intros []; cbn; auto; discriminate).
  unfold count. rewrite <- C1, <- C2, <- C3. destruct (bound_threads _ evs) as (N & HN).
  subst n. rewrite !(count_split _ _ evs N HN).
  assert (Hd : forall k : list (Loc * call * progress), (done_in k <= length k)%nat).
  { intros k. unfold done_in. induction k as [|p k IH]; cbn; auto. destruct (snd p); cbn; lia. }
  assert (A1 : (sum_to N (fun t => cnt_th is_ret0_ev t evs) <= sum_to N (fun t => cnt_th is_eff t evs))%nat).
  { apply sum_to_le. intros t _. destruct (L2 t) as (k & K1 & _). destruct (calls_count _ _ _ _ K1). lia. }
  assert (A2 : (sum_to N (fun t => cnt_th is_eff t evs) + sum_to N (fun t => cnt_th is_ret_ev t evs) <=
      sum_to N (fun t => cnt_th is_ret0_ev t evs) + sum_to N (fun t => cnt_th is_inv t evs))%nat).
  { rewrite <- !sum_to_add. apply sum_to_le. intros t _. destruct (L2 t) as (k & K1 & _).
    destruct (calls_count _ _ _ _ K1). specialize (Hd k). lia. }
  split; [lia|]. split; [lia|]. intros Hq. f_equal. apply sum_to_ext. intros t _.
  destruct (L2 t) as (k & K1 & K2). rewrite (Hq t) in K2. destruct k; [|discriminate].
  destruct (calls_count _ _ _ _ K1) as [E _]. cbn in E. lia.
Qed.
End CallsCount.

Lemma abs_init_idle : forall Loc (s0 : state Loc) t x, In x (a_thr (abs_init s0) t) -> a_act x = None.
Proof. intros Loc s0 t x Hx. cbn in Hx. apply in_map_iff in Hx. destruct Hx as (y & <- & _). reflexivity. Qed.

Lemma filter_effects : forall Loc (evs : list (event Loc)), filter is_eff (effects Loc evs) = filter is_eff evs.
Proof. intros Loc evs. induction evs as [|[| | | |] evs IH]; cbn; auto. f_equal. auto. Qed.

(** C11 *)
Theorem counter_sum : forall (Loc : Type) g a tw tx md cpus cnt inc (cl : client Loc) s0,
  lib_text a tw tx -> initial s0 -> NoDup cpus -> words_apart g cpus cnt -> counter_code g md cpus cnt inc cl ->
  forall tr s, path g tx cl s0 tr s ->
  exists n, wrap g (total g cpus cnt (s_mem s)) = wrap g (total g cpus cnt (s_mem s0) + n * inc) /\
    count is_ret0 (map snd tr) <= n /\
    n <= count is_ret0 (map snd tr) + (count is_call (map snd tr) - count is_ret (map snd tr)) /\
    (quiescent s -> n = count is_ret0 (map snd tr)).
Proof.
  intros Loc g a tw tx md cpus cnt inc cl s0 Htx Hi Hnd Hap Hcl tr s Hp.
  assert (Hgood : good_text g tx) by (eapply lib_good; eauto).
  set (T0 := total g cpus cnt (s_mem s0)).
  assert (Hsafe : safe_client g cl (abs_init s0)).
  { apply (c_safe Loc g md cpus cnt inc cl Hnd Hap Hcl T0); [apply abs_init_idle|reflexivity|apply init_exclusive; auto]. }
  destruct (linearizes Loc g tx cl Hgood any_res s0 tr s Hi Hsafe (fun _ _ _ _ _ _ _ _ _ _ _ _ _ _ => Logic.I)
     (fun _ _ _ _ _ _ _ _ _ _ _ _ _ => Logic.I) Hp) as (evs & aa & A1 & A2 & A3).
  destruct (inv_path Loc g cl unit _ _ _ (c_inv Loc g md cpus cnt inc cl Hnd Hap Hcl T0) _ _ _ A1 tt
     (c_init Loc g md cpus cnt inc T0 _ (abs_init_idle Loc s0) eq_refl)) as ([] & [HG _]).
  exists (n_eff Loc (effects Loc evs)). split.
  - unfold c_glob in HG. replace (a_mem aa) with (s_mem s) in HG; auto. symmetry. apply A2.
  - unfold n_eff, count. rewrite filter_effects.
    exact (effects_bounds Loc g tx cl any_res s0 tr s evs Hp A3).
Qed.

(** ** The loop of tests/param_test.c *)
Section Loop.
Variables (g : cfg) (md : imode) (cpus : list Z) (cnt : Z -> Z).
Variable R : nat -> nat.
Notation cl := (inc_client md cpus cnt).

Lemma inc_code : counter_code g md cpus cnt 1 cl.
Proof.
  split.
  - intros l m c (n & cpu & -> & H1 & H2 & H3 & H4). subst cpu. auto.
  - intros l m ps l' cpu [].
Qed.

Definition i_glob (gh : nat -> nat) (es : list (event inc_loc)) (_ : mem) : Prop := forall t, gh t = cnt_th is_eff t es.
Definition i_ctx (gh : nat -> nat) (_ : mem) (t d : nat) (x : actx inc_loc) : Prop :=
  match d with
  | O => match a_loc x, a_act x with
         | Inc_read n, None => (gh t + n = R t)%nat
         | Inc_call n _, Some (_, Finished 0) => (1 <= n)%nat /\ (gh t + pred n = R t)%nat
         | Inc_call n _, _ => (1 <= n)%nat /\ (gh t + n = R t)%nat
         | _, _ => False
         end
  | _ => x = {| a_loc := Inc_read 0; a_act := None |}
  end.
Definition i_absent (_ : nat -> nat) (_ _ : nat) : Prop := True.
Definition bump (gh : nat -> nat) (t : nat) : nat -> nat := fun u => if Nat.eqb u t then S (gh u) else gh u.

Lemma bump_same : forall gh t, bump gh t t = S (gh t).
Proof. intros. unfold bump. now rewrite Nat.eqb_refl. Qed.

Lemma i_same : forall gh m t d m', keeps inc_loc _ i_ctx i_absent gh m t d gh m'.
Proof. intros. split; auto. Qed.

Lemma i_inv : client_inv inc_loc g cl (nat -> nat) i_glob i_ctx i_absent.
Proof.
  split; try (intros; exact Logic.I).
  - intros gh es m t d l c _ H (n & cpu & -> & _). destruct d; cbn in *; [auto|discriminate].
  - intros gh es m t d l c r HG H. exists gh. split; auto. split; [|apply i_same].
    destruct d; cbn in *; [|discriminate]. destruct l as [n|n cpu]; [contradiction|].
    destruct (Z.eqb_spec r 0) as [->|Hr]; cbn; [apply H|]. destruct r; cbn in H; try apply H; congruence.
  - intros gh es m t d l ps l' m' _ _ [].
  - intros gh es m t d l l' HG H (n & cpu & -> & _ & ->). exists gh. split; auto. split; [|apply i_same].
    destruct d; cbn in *; [lia|discriminate].
  - intros gh es m t d x l' _ _ Hs _. cbn in *. subst. reflexivity.
  - intros gh es m t d l c w att fin ps m' HG H _ _ _. exists gh. split; auto. split; [|apply i_same].
    destruct d; cbn in *; [auto|discriminate].
  - intros gh es m t d l c w att fin m' HG H _ _. exists (bump gh t). split; [|split].
    + intros u. rewrite cnt_snoc. cbn. unfold bump. pose proof (HG u) as Hu. rewrite (Nat.eqb_sym t u). destruct (Nat.eqb u t); cbn; lia.
    + destruct d; cbn in *; [|discriminate]. destruct l as [n|n cpu]; [contradiction|]. rewrite bump_same. lia.
    + split; auto. intros t' d' y Hne. destruct d; cbn in H; [|discriminate]. destruct d'; cbn; auto.
      unfold bump. destruct (Nat.eqb_spec t' t) as [->|]; [congruence|auto].
  - intros gh es m t d l c HG H _. split.
    + intros u. rewrite cnt_snoc. cbn. rewrite andb_false_r. rewrite (HG u). lia.
    + destruct d; cbn in *; [destruct l; auto|discriminate].
  - intros gh es m t d l c st _ H Hst. destruct d; cbn in *; [|discriminate]. destruct l as [n|n cpu]; [contradiction|].
    destruct Hst as [(w & ->)| ->]; auto.
Qed.
End Loop.

Lemma sum_to_zeros : forall N M f, (N <= M)%nat -> (forall t, (N <= t)%nat -> f t = O) -> sum_to M f = sum_to N f.
Proof.
  intros N M f H Hf. induction H as [|M H IH]; auto. cbn. rewrite IH, Hf by auto. lia.
Qed.

Theorem counter_test : forall g a tw tx md cpus cnt s0 N R,
  lib_text a tw tx -> initial s0 -> NoDup cpus -> words_apart g cpus cnt ->
  (forall t, inc_start s0 t (R t)) -> (forall t, (N <= t)%nat -> R t = O) ->
  forall tr s, path g tx (inc_client md cpus cnt) s0 tr s -> (forall t, inc_finished s t) ->
  wrap g (total g cpus cnt (s_mem s)) = wrap g (total g cpus cnt (s_mem s0) + Z.of_nat (sum_to N R)).
Proof.
  intros g a tw tx md cpus cnt s0 N R Htx Hi Hnd Hap Hst HR tr s Hp Hfin.
  assert (Hgood : good_text g tx) by (eapply lib_good; eauto).
  set (T0 := total g cpus cnt (s_mem s0)). set (cl := inc_client md cpus cnt) in *.
  pose proof (inc_code g md cpus cnt) as Hcl. fold cl in Hcl.
  assert (Hsafe : safe_client g cl (abs_init s0)).
  { apply (c_safe inc_loc g md cpus cnt 1 cl Hnd Hap Hcl T0); [apply abs_init_idle|reflexivity|apply init_exclusive; auto]. }
  destruct (linearizes inc_loc g tx cl Hgood any_res s0 tr s Hi Hsafe (fun _ _ _ _ _ _ _ _ _ _ _ _ _ _ => Logic.I)
     (fun _ _ _ _ _ _ _ _ _ _ _ _ _ => Logic.I) Hp) as (evs & aa & A1 & A2 & A3).
  destruct (inv_path inc_loc g cl unit _ _ _ (c_inv inc_loc g md cpus cnt 1 cl Hnd Hap Hcl T0) _ _ _ A1 tt
     (c_init inc_loc g md cpus cnt 1 T0 _ (abs_init_idle inc_loc s0) eq_refl)) as ([] & [HG _]).
  assert (Hini : holds_inv inc_loc _ i_glob (i_ctx R) i_absent (fun _ => O) [] (abs_init s0)).
  { split; [intros t; reflexivity|]. intros t. split; [|intros; exact Logic.I].
    cbn [abs_init a_thr]. rewrite (Hst t). cbn. auto. }
  destruct (inv_path inc_loc g cl _ _ _ _ (i_inv g md cpus cnt R) _ _ _ A1 _ Hini) as (gh & [HG2 HS2]).
  assert (Hall : forall t, cnt_th is_eff t (effects inc_loc evs) = R t).
  { intros t. rewrite <- HG2. destruct (HS2 t) as [H1 _]. pose proof (rel_contexts inc_loc g tx s aa t A2) as Hc.
    unfold contexts in Hc. rewrite (Hfin t) in Hc. cbn in Hc.
    destruct (a_thr aa t) as [|ax [|? ?]]; try discriminate. cbn in Hc. injection Hc as E1 E2. cbn in H1.
    rewrite <- E1 in H1. destruct (a_act ax); [discriminate|]. lia. }
  unfold c_glob in HG. replace (a_mem aa) with (s_mem s) in HG by (symmetry; apply A2). rewrite HG. f_equal. fold T0.
  rewrite Z.mul_1_r. f_equal. unfold n_eff, count. f_equal.
  destruct (bound_threads _ (effects inc_loc evs)) as (M & HM).
  rewrite (count_split _ _ _ (max N M)).
  - rewrite (sum_to_ext _ _ R) by (intros; apply Hall). apply sum_to_zeros; [lia|auto].
  - intros e He. specialize (HM e He). lia.
Qed.
