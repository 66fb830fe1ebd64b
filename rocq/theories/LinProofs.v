(** Proofs: every run of a safe client has a linearization, and a proof
    principle for invariants of client code. *)
From Coq Require Import ZArith Bool List Lia.
From Verif Require Import RseqIR RseqSpec RseqKernel RseqSafe MemLemmas RunLemmas RseqSim RseqOwn RseqCalls LinSpec.
Import ListNotations.
Local Open Scope Z_scope.

Section Lin.
Variable Loc : Type.
Variable g : cfg.
Variable tx : text.
Variable cl : client Loc.
Hypothesis Hgood : good_text g tx.

Notation state := (state Loc).
Notation astate := (astate Loc).
Notation actx := (actx Loc).
Notation event := (event Loc).

Definition aev (a : astate) (l : alabel) : list event :=
  match l with
  | ALcall t c => match a_thr a t with x :: _ => [Inv t (a_loc x) c (a_mem a)] | [] => [] end
  | ALret t c r => match a_thr a t with x :: _ => [Ret t (a_loc x) c r (a_mem a)] | [] => [] end
  | ALcommit t c _ => match a_thr a t with x :: _ => [Eff t (a_loc x) c (a_mem a)] | [] => [] end
  | ALfail t c => match a_thr a t with x :: _ => [Cmp t (a_loc x) c (a_mem a)] | [] => [] end
  | ALwrite t ps => match a_thr a t with x :: _ => [Wrt t (a_loc x) ps (a_mem a)] | [] => [] end
  | _ => []
  end.

(** Runs of the abstract machine with their events. *)
Inductive apath : astate -> list event -> astate -> Prop :=
  | ap_nil : forall s, apath s [] s
  | ap_snoc : forall s evs s' l s'', apath s evs s' -> astep g cl s' l s'' -> apath s (evs ++ aev s' l) s''.

Lemma apath_aexec : forall s evs s', apath s evs s' -> exists ls, aexec g cl s ls s'.
Proof.
  intros s evs s' H. induction H as [|s evs s' l s'' H IH Hs]; [exists []; constructor|].
  destruct IH as (ls & IH). exists (ls ++ [l]). econstructor; eauto.
Qed.

Lemma apath_taus : forall s0 evs s ls s', apath s0 evs s -> aexec g cl s ls s' -> (forall l, In l ls -> l = ALtau) ->
  apath s0 evs s'.
Proof.
  intros s0 evs s ls s' H He. induction He as [|s ls s' l s'' He IH Hs]; intros Ht; auto.
  assert (H1 : apath s0 evs s') by (apply IH; auto; intros x Hx; apply Ht, in_or_app; auto).
  assert (l = ALtau) by (apply Ht, in_or_app; right; left; auto). subst l.
  replace evs with (evs ++ aev s' ALtau) by (cbn; apply app_nil_r). econstructor; eauto.
Qed.

Lemma top_rel : forall th m ld k ak, stack_rel Loc g tx th m ld true k ak ->
  match k, ak with
  | x :: _, ax :: _ => x_loc x = a_loc ax /\
      match x_act x, a_act ax with Some f, Some (c, _) => f_call f = c | None, None => True | _, _ => False end
  | [], [] => True
  | _, _ => False
  end.
Proof.
  intros th m ld k ak H. destruct k as [|x k], ak as [|ax ak]; cbn in H; auto.
  destruct H as [[H1 H2] _]. split; auto.
  destruct (x_act x) as [f|], (a_act ax) as [[c st]|]; auto. destruct H2 as [-> _]. auto.
Qed.

Lemma ev_match : forall s a al a' l s', Rel Loc g tx s a -> astep g cl a al a' ->
  step g tx cl s l s' -> avis1 al = cvis1 l -> observed (aev a al) = obs1 (s, l).
Proof.
  intros s a al a' l s' (Hm & Ht & _) Has Hs Hv.
  assert (Htop : forall t, match t_ctx (s_thr s t), a_thr a t with
    | x :: _, ax :: _ => x_loc x = a_loc ax /\
      match x_act x, a_act ax with Some f, Some (c, _) => f_call f = c | None, None => True | _, _ => False end
    | [], [] => True | _, _ => False end).
  { intros t. destruct (Ht t) as (_ & _ & H). apply top_rel in H. exact H. }
  destruct Has as [s1 t l1 k c E _|s1 t l1 k c r E|s1 t l1 k ps l2 m2 E _ _|s1 t l1 k l2 E _|s1 t x k l2 E _|s1 t l1 x k E _|s1 on' _|s1 t l1 k c w att fin ps m2 E _ _ _ _|s1 t l1 k c w att fin m2 E _ _ _|s1 t l1 k c E _ _|s1 t l1 k c st E _];
    cbn [avis1] in Hv; try (symmetry in Hv; apply cvis1_nil in Hv; subst l; cbn [aev]; rewrite ?E; reflexivity);
    destruct l as [|u c'|u c' r'|u ps'|u]; cbn [cvis1] in Hv; try discriminate; inversion Hv; subst;
    specialize (Htop u); rewrite E in Htop; destruct (t_ctx (s_thr s u)) as [|[xl xa] xk] eqn:Ex; try contradiction;
    destruct Htop as [H1 H2]; cbn in H1, H2; unfold aev, obs1; rewrite ?E, Ex; cbn [a_loc x_loc]; subst xl.
  - rewrite Hm. reflexivity.
  - rewrite Hm. reflexivity.
  - destruct xa; [contradiction|]. rewrite Hm. reflexivity.
  - destruct xa; [reflexivity|contradiction].
  - destruct xa; [reflexivity|contradiction].
Qed.

Lemma observed_app : forall (e f : list event), observed (e ++ f) = observed e ++ observed f.
Proof. intros. apply filter_app. Qed.
Lemma obs_app : forall (e f : list (state * clabel)), obs (e ++ f) = obs e ++ obs f.
Proof. intros. apply flat_map_app. Qed.

Lemma lin_path : forall s0 tr s, initial s0 -> safe_client g cl (abs_init s0) -> path g tx cl s0 tr s ->
  exists evs a, apath (abs_init s0) evs a /\ Rel Loc g tx s a /\ observed evs = obs tr.
Proof.
  intros s0 tr s Hi Hc Hp. induction Hp as [|s0 tr s' l s'' Hp IH Hs Hok].
  - exists [], (abs_init s). split; [constructor|]. split; [apply Rel_initial; auto|]. reflexivity.
  - destruct (IH Hi Hc) as (evs & a & H1 & H2 & H3). destruct (apath_aexec _ _ _ H1) as (als & H4).
    destruct (Hc als a H4) as [Hwf Hni].
    destruct (sim_step Loc g tx cl Hgood s' a H2 Hwf Hni l s'' Hs Hok) as [(ls & a' & J1 & J2 & J3 & J4) _].
    destruct J4 as [Hl|Ht].
    + destruct ls as [|al [|? ?]]; [| |cbn in Hl; lia].
      * inversion J1; subst; [|destruct ls; discriminate].
        exists evs, a'. split; auto. split; auto. rewrite obs_app, H3.
        assert (l = Ltau) by (apply cvis1_nil; rewrite <- J3; reflexivity). subst l. cbn. now rewrite app_nil_r.
      * assert (Hs1 : astep g cl a al a').
        { inversion J1 as [|x ls y l0 z E1 E2 E3]; subst. destruct ls as [|b ls]; [|destruct ls; discriminate].
          cbn in *. inversion H; subst. inversion E1; subst; [auto|destruct ls; discriminate]. }
        exists (evs ++ aev a al), a'. split; [econstructor; eauto|]. split; auto.
        rewrite observed_app, obs_app, H3. f_equal. cbn [obs flat_map]. rewrite app_nil_r.
        apply (ev_match s' a al a' l s''); auto. cbn in J3. rewrite app_nil_r in J3. auto.
    + exists evs, a'. split; [eapply apath_taus; eauto|]. split; auto. rewrite obs_app, H3.
      assert (l = Ltau) by (apply cvis1_nil; rewrite <- J3; apply avis1_tau; auto). subst l. cbn. now rewrite app_nil_r.
Qed.

Lemma path_is_exec : forall s tr s', path g tx cl s tr s' -> exec g tx cl s (map snd tr) s'.
Proof.
  intros s tr s' H. induction H as [|s tr s' l s'' H IH Hs Hok]; [constructor|].
  rewrite map_app. cbn. econstructor; eauto.
Qed.

(** ** The calls of a linearization *)
Variable res : call -> mem -> mem -> Prop.

Fixpoint open_ok (m : mem) (xs : list actx) (k : list (Loc * call * progress)) : Prop :=
  match xs with
  | [] => k = []
  | x :: xs' =>
    match a_act x with
    | None => open_ok m xs' k
    | Some (c, st) => exists o k', k = (a_loc x, c, o) :: k' /\ open_ok m xs' k' /\
        match st with
        | Finished r => (r = 0 /\ exists me, o = Took me /\ res c me m) \/
            (r = 1 /\ exists me, o = Refused me) \/ (r = -1 /\ forall me, o <> Took me)
        | Pending _ => o = Undone
        end
    end
  end.

Lemma open_ok_mem : forall m m' xs k,
  (forall x c me, In x xs -> a_act x = Some (c, Finished 0) -> res c me m -> res c me m') ->
  open_ok m xs k -> open_ok m' xs k.
Proof.
  intros m m' xs. induction xs as [|x xs IH]; intros k H Ho; cbn in *; auto.
  destruct (a_act x) as [[c st]|] eqn:E; [|apply IH; eauto].
  destruct Ho as (o & k' & -> & H1 & H2). exists o, k'. split; auto. split; [apply IH; eauto|].
  destruct st as [w|r]; auto. destruct H2 as [[-> (me & -> & H2)]|H2]; auto. left. split; auto. exists me. split; auto.
  eapply H; eauto.
Qed.

Lemma apath_effs : forall s0 evs s, apath s0 evs s -> forall t l c m, In (Eff t l c m) evs ->
  exists att fin, pseudo g (c_op c) m = OCommit att fin.
Proof.
  intros s0 evs s H. induction H as [si|si evs s' l s'' H IH Hs]; intros t l1 c m Hin; [destruct Hin|].
  apply in_app_or in Hin. destruct Hin as [Hin|Hin]; [eapply IH; eauto|].
  destruct Hs as [s1 u l2 kk c2 E _|s1 u l2 kk c2 r E|s1 u l2 kk ps l3 m2 E _ _|s1 u l2 kk l3 E _|s1 u x kk l3 E _|s1 u l2 x kk E _|s1 on' _|s1 u l2 kk c2 w att fin ps m2 E _ Ep _ _|s1 u l2 kk c2 w att fin m2 E _ Ep Em|s1 u l2 kk c2 E _ _|s1 u l2 kk c2 st E Hst];
    cbn [aev] in Hin; try rewrite E in Hin; cbn in Hin; try contradiction; destruct Hin as [Hin|[]]; inversion Hin; subst; eauto.
Qed.

Lemma apath_cmps : forall s0 evs s, apath s0 evs s -> forall t l c m, In (Cmp t l c m) evs ->
  pseudo g (c_op c) m = OFail.
Proof.
  intros s0 evs s H. induction H as [si|si evs s' l s'' H IH Hs]; intros t l1 c m Hin; [destruct Hin|].
  apply in_app_or in Hin. destruct Hin as [Hin|Hin]; [eapply IH; eauto|].
  destruct Hs as [s1 u l2 kk c2 E _|s1 u l2 kk c2 r E|s1 u l2 kk ps l3 m2 E _ _|s1 u l2 kk l3 E _|s1 u x kk l3 E _|s1 u l2 x kk E _|s1 on' _|s1 u l2 kk c2 w att fin ps m2 E _ Ep _ _|s1 u l2 kk c2 w att fin m2 E _ Ep Em|s1 u l2 kk c2 E _ Ep|s1 u l2 kk c2 st E Hst];
    cbn [aev] in Hin; try rewrite E in Hin; cbn in Hin; try contradiction; destruct Hin as [Hin|[]]; inversion Hin; subst; eauto.
Qed.

Section Calls.
Variable s0 : astate.
Hypothesis Hinit : forall t x, In x (a_thr s0 t) -> a_act x = None.
Hypothesis Hres1 : forall evs s t l k c w att fin m', apath s0 evs s ->
  a_thr s t = {| a_loc := l; a_act := Some (c, Pending w) |} :: k ->
  pseudo g (c_op c) (a_mem s) = OCommit att fin -> meq m' (wr (wr (a_mem s) att) fin) ->
  res c (a_mem s) m'.
Hypothesis Hres2 : forall evs s l s' t x c me, apath s0 evs s -> astep g cl s l s' ->
  In x (a_thr s t) -> a_act x = Some (c, Finished 0) -> res c me (a_mem s) -> res c me (a_mem s').

Lemma apath_calls : forall evs s, apath s0 evs s -> forall t,
  exists k, calls_ok res t evs k /\ open_ok (a_mem s) (a_thr s t) k.
Proof.
  intros evs s H. remember s0 as si eqn:E0 in H. revert E0.
  induction H as [si|si evs s' l s'' H IH Hs]; intros E0 t; subst si.
  - exists []. split; [constructor|]. specialize (Hinit t). induction (a_thr s0 t) as [|x xs IHx]; cbn; auto.
    rewrite Hinit by (left; auto). apply IHx. intros y Hy. apply Hinit. right. auto.
  - destruct (IH eq_refl t) as (k & Hk & Ho). clear IH.
    assert (Hmv : open_ok (a_mem s'') (a_thr s' t) k).
    { eapply open_ok_mem; [|exact Ho]. intros x c me Hx Ex. eapply Hres2; eauto. }
    (* events of other threads *)
    assert (Hoth : forall e, ev_thread e <> t -> calls_ok res t (evs ++ [e]) k) by (intros; apply co_other; auto).
    pose proof Hs as Hs0.
    destruct Hs as [s1 u l1 kk c E _|s1 u l1 kk c r E|s1 u l1 kk ps l2 m2 E _ _|s1 u l1 kk l2 E _|s1 u x kk l2 E _|s1 u l1 x kk E _|s1 on' _|s1 u l1 kk c w att fin ps m2 E _ Ep _ _|s1 u l1 kk c w att fin m2 E _ Ep Em|s1 u l1 kk c E _ _|s1 u l1 kk c st E Hst];
      cbn [aev]; rewrite ?app_nil_r; try rewrite E; cbn [a_loc]; cbn [set_thr set_amem set_aon a_thr a_mem] in *;
      try (destruct (Nat.eqb_spec t u) as [->|Hn]; [rewrite E in Ho, Hmv; cbn in Ho, Hmv|
        exists k; split; auto; apply Hoth; cbn; congruence]).
    + exists ((l1, c, Undone) :: k). split; [constructor; auto|]. cbn. eauto.
    + destruct Ho as (o & k' & -> & H1 & [[-> (me & -> & H2)]|[[-> (me & ->)]|[-> H2]]]); exists k'; (split; [|exact H1]).
      * eapply co_ret0; eauto.
      * eapply co_ret1; eauto.
      * eapply co_abort; eauto.
    + exists k. split; [constructor; auto|]. cbn. auto.
    + exists k. split; auto.
    + exists k. split; auto.
    + exists k. split; auto.
    + exists k. split; auto.
    + destruct Hmv as (o & k' & -> & H1 & ->). exists ((l1, c, Undone) :: k'). split; auto. cbn. eauto.
    + destruct Hmv as (o & k' & -> & H1 & ->). exists ((l1, c, Took (a_mem s1)) :: k'). split; [constructor; auto|].
      cbn. exists (Took (a_mem s1)), k'. split; auto. split; auto. left. split; auto. exists (a_mem s1). split; auto.
      eapply Hres1; eauto.
    + destruct Hmv as (o & k' & -> & H1 & ->). exists ((l1, c, Refused (a_mem s1)) :: k'). split; [constructor; auto|]. cbn.
      exists (Refused (a_mem s1)), k'. split; auto. split; auto. right. left. split; auto. eauto.
    + destruct Hmv as (o & k' & -> & H1 & H2). exists ((l1, c, o) :: k'). split; auto. cbn. exists o, k'.
      split; auto. split; auto. right. right. split; auto.
      destruct Hst as [(w & ->)| ->]; [subst o; discriminate|].
      destruct H2 as [[H2 _]|[[_ (me & ->)]|[H2 _]]]; discriminate.
Qed.

End Calls.

Lemma open_progress : forall th m0 ld top xs ak m k, stack_rel Loc g tx th m0 ld top xs ak -> open_ok m ak k ->
  map fst k = flat_map (fun x => match x_act x with Some f => [(x_loc x, f_call f)] | None => [] end) xs.
Proof.
  intros th m0 ld top xs. revert top. induction xs as [|x xs IH]; intros top ak m k H Ho; destruct ak as [|ax ak]; cbn in H; try contradiction.
  - cbn in Ho. subst. reflexivity.
  - destruct H as [[H1 H2] H3]. cbn in Ho. cbn [flat_map].
    destruct (x_act x) as [f|], (a_act ax) as [[c st]|]; try contradiction.
    + destruct H2 as [-> _]. destruct Ho as (o & k' & -> & Ho & _). cbn. rewrite H1. f_equal. eapply IH; eauto.
    + eapply IH; eauto.
Qed.

Lemma linearizes : forall s0 tr s, initial s0 -> safe_client g cl (abs_init s0) ->
  (forall evs s t l k c w att fin m', apath (abs_init s0) evs s ->
    a_thr s t = {| a_loc := l; a_act := Some (c, Pending w) |} :: k ->
    pseudo g (c_op c) (a_mem s) = OCommit att fin -> meq m' (wr (wr (a_mem s) att) fin) ->
    res c (a_mem s) m') ->
  (forall evs s l s' t x c me, apath (abs_init s0) evs s -> astep g cl s l s' ->
    In x (a_thr s t) -> a_act x = Some (c, Finished 0) -> res c me (a_mem s) -> res c me (a_mem s')) ->
  path g tx cl s0 tr s ->
  exists evs a, apath (abs_init s0) evs a /\ Rel Loc g tx s a /\ linearization g res tr s evs.
Proof.
  intros s0 tr s Hi Hc H1 H2 Hp. destruct (lin_path s0 tr s Hi Hc Hp) as (evs & a & A1 & A2 & A3).
  exists evs, a. split; auto. split; auto. split; auto. split.
  - intros t. assert (Hinit : forall t x, In x (a_thr (abs_init s0) t) -> a_act x = None).
    { intros u x Hx. cbn in Hx. apply in_map_iff in Hx. destruct Hx as (y & <- & _). reflexivity. }
    destruct (apath_calls _ Hinit H1 H2 evs a A1 t) as (k & K1 & K2). exists k. split; auto.
    destruct A2 as (_ & At & _). destruct (At t) as (_ & _ & St). eapply open_progress; eauto.
  - split; [exact (apath_effs _ _ _ A1)|exact (apath_cmps _ _ _ A1)].
Qed.

(** What the relation says of local states and memory. *)
Lemma rel_contexts : forall s a t, Rel Loc g tx s a ->
  contexts s t = map (fun x => (a_loc x, match a_act x with Some _ => true | None => false end)) (a_thr a t).
Proof.
  intros s a t (_ & Ht & _). destruct (Ht t) as (_ & _ & H). unfold contexts.
  assert (Hb : exists b, stack_rel Loc g tx (s_thr s t) (s_mem s) (s_loaded s) b (t_ctx (s_thr s t)) (a_thr a t)) by eauto.
  destruct Hb as (b & Hb). clear H. revert b Hb. generalize (a_thr a t). induction (t_ctx (s_thr s t)) as [|x xs IH]; intros ak b H; destruct ak as [|ax ak]; cbn in H; try contradiction; auto.
  destruct H as [[H1 H2] H3]. cbn. f_equal; [|exact (IH _ _ H3)]. rewrite H1.
  destruct (x_act x), (a_act ax) as [[? ?]|]; auto; contradiction.
Qed.
End Lin.

Arguments apath {Loc}. Arguments aev {Loc}.

(** ** Invariants of client code

    [G]: ghost state.  [Glob gh es m]: what holds of the ghost state, the
    effects and plain stores so far, and the memory.  [Ctx gh m t d x]: what
    holds of the context at depth [d] of thread [t].  [Absent gh t d]: what holds
    of a depth at which thread [t] has no context. *)
Section ClientInv.
Variable Loc : Type.
Variable g : cfg.
Variable cl : client Loc.
Variable G : Type.
Variable Glob : G -> list (event Loc) -> mem -> Prop.
Variable Ctx : G -> mem -> nat -> nat -> actx Loc -> Prop.
Variable Absent : G -> nat -> nat -> Prop.

Notation astate := (astate Loc).
Notation actx := (actx Loc).
Notation event := (event Loc).
Notation idle l := ({| a_loc := l; a_act := None |} : actx).
Notation busy l c st := ({| a_loc := l; a_act := Some (c, st) |} : actx).

Definition effects (evs : list event) : list event :=
  filter (fun e => match e with Eff _ _ _ _ | Cmp _ _ _ _ | Wrt _ _ _ _ => true | _ => false end) evs.

Definition keeps (gh : G) (m : mem) (t d : nat) (gh' : G) (m' : mem) : Prop :=
  (forall t' d' y, (t', d') <> (t, d) -> Ctx gh m t' d' y -> Ctx gh' m' t' d' y) /\
  (forall t' d', (t', d') <> (t, d) -> Absent gh t' d' -> Absent gh' t' d').

Record client_inv : Prop := {
  ci_call : forall gh es m t d l c, Glob gh es m -> Ctx gh m t d (idle l) -> cl_call _ cl l m c ->
    Ctx gh m t d (busy l c (Pending false));
  ci_ret : forall gh es m t d l c r, Glob gh es m -> Ctx gh m t d (busy l c (Finished r)) ->
    exists gh', Glob gh' es m /\ Ctx gh' m t d (idle (cl_ret _ cl l c r)) /\ keeps gh m t d gh' m;
  ci_write : forall gh es m t d l ps l' m', Glob gh es m -> Ctx gh m t d (idle l) -> cl_write _ cl l m ps l' ->
    meq m' (wr m ps) ->
    exists gh', Glob gh' (es ++ [Wrt t l ps m]) m' /\ Ctx gh' m' t d (idle l') /\ keeps gh m t d gh' m';
  ci_tau : forall gh es m t d l l', Glob gh es m -> Ctx gh m t d (idle l) -> cl_tau _ cl l m l' ->
    exists gh', Glob gh' es m /\ Ctx gh' m t d (idle l') /\ keeps gh m t d gh' m;
  ci_sig : forall gh es m t d x l', Glob gh es m -> Ctx gh m t d x -> cl_sig _ cl (a_loc x) l' ->
    Absent gh t (S d) -> Ctx gh m t (S d) (idle l');
  ci_sigret : forall gh es m t d l, Glob gh es m -> Ctx gh m t d (idle l) -> cl_done _ cl l -> Absent gh t d;
  ci_attempt : forall gh es m t d l c w att fin ps m', Glob gh es m -> Ctx gh m t d (busy l c (Pending w)) ->
    pseudo g (c_op c) m = OCommit att fin -> incl ps att -> meq m' (wr m ps) ->
    exists gh', Glob gh' es m' /\ Ctx gh' m' t d (busy l c (Pending true)) /\ keeps gh m t d gh' m';
  ci_commit : forall gh es m t d l c w att fin m', Glob gh es m -> Ctx gh m t d (busy l c (Pending w)) ->
    pseudo g (c_op c) m = OCommit att fin -> meq m' (wr (wr m att) fin) ->
    exists gh', Glob gh' (es ++ [Eff t l c m]) m' /\ Ctx gh' m' t d (busy l c (Finished 0)) /\ keeps gh m t d gh' m';
  ci_fail : forall gh es m t d l c, Glob gh es m -> Ctx gh m t d (busy l c (Pending false)) ->
    pseudo g (c_op c) m = OFail -> Glob gh (es ++ [Cmp t l c m]) m /\ Ctx gh m t d (busy l c (Finished 1));
  ci_abort : forall gh es m t d l c st, Glob gh es m -> Ctx gh m t d (busy l c st) ->
    (exists w, st = Pending w) \/ st = Finished 1 -> Ctx gh m t d (busy l c (Finished (-1)))
}.

Fixpoint Stk (gh : G) (m : mem) (t : nat) (k : list actx) : Prop :=
  match k with [] => True | x :: k' => Ctx gh m t (length k') x /\ Stk gh m t k' end.

Definition holds_inv (gh : G) (es : list event) (s : astate) : Prop :=
  Glob gh es (a_mem s) /\
  forall t, Stk gh (a_mem s) t (a_thr s t) /\ forall d, (length (a_thr s t) <= d)%nat -> Absent gh t d.

Lemma Stk_keeps : forall gh m t d gh' m' u k, keeps gh m t d gh' m' -> u <> t \/ (length k <= d)%nat ->
  Stk gh m u k -> Stk gh' m' u k.
Proof.
  intros gh m t d gh' m' u k [H _] Hd. induction k as [|x k IH]; cbn; auto. intros [H1 H2]. split.
  - apply H; auto. intros E. inversion E. subst. cbn in Hd. lia.
  - apply IH; auto. cbn in Hd. lia.
Qed.

Hypothesis CI : client_inv.

(** A change of the top context of one thread. *)
Lemma inv_top : forall gh es s t x k gh' es' x' m' s',
  holds_inv gh es s -> a_thr s t = x :: k ->
  Glob gh' es' m' -> Ctx gh' m' t (length k) x' -> keeps gh (a_mem s) t (length k) gh' m' ->
  a_mem s' = m' -> (forall u, a_thr s' u = if Nat.eqb u t then x' :: k else a_thr s u) ->
  holds_inv gh' es' s'.
Proof.
  intros gh es s t x k gh' es' x' m' s' [HG HS] E HG' HC' HK Em Et. split; [rewrite Em; auto|].
  rewrite Em. intros u. rewrite Et. destruct (HS u) as [H1 H2]. destruct (Nat.eqb_spec u t) as [->|Hn].
  - rewrite E in *. cbn in H1. split.
    + cbn. split; auto. eapply Stk_keeps; [exact HK| |apply H1]. right. lia.
    + intros d Hd. cbn in Hd. apply (proj2 HK); [intros E1; inversion E1; lia|]. apply H2. cbn. lia.
  - split; [eapply Stk_keeps; [exact HK|left; auto|auto]|].
    intros d Hd. apply (proj2 HK); [congruence|]. auto.
Qed.

Lemma keeps_same : forall gh m t d, keeps gh m t d gh m.
Proof. intros. split; auto. Qed.

Lemma inv_step : forall gh es s l s', holds_inv gh es s -> astep g cl s l s' ->
  exists gh', holds_inv gh' (es ++ effects (aev s l)) s'.
Proof.
  intros gh es s l s' H Hs. pose proof H as [HG HS].
  assert (Hctx : forall t x k, a_thr s t = x :: k -> Ctx gh (a_mem s) t (length k) x).
  { intros t x k E. destruct (HS t) as [H1 _]. rewrite E in H1. apply H1. }
  destruct Hs as [s u l1 k c E Hc|s u l1 k c r E|s u l1 k ps l2 m2 E Hw Hm|s u l1 k l2 E Ht|s u x k l2 E Hg|s u l1 x k E Hd|s on' _|s u l1 k c w att fin ps m2 E _ Ep Hi Hm|s u l1 k c w att fin m2 E _ Ep Hm|s u l1 k c E _ Ep|s u l1 k c st E Hst];
    cbn [aev]; try rewrite E; cbn [a_loc effects filter]; rewrite ?app_nil_r.
  - exists gh. eapply inv_top; [exact H|exact E|exact HG|eapply ci_call; eauto|apply keeps_same|reflexivity|reflexivity].
  - destruct (ci_ret CI gh es _ u (length k) l1 c r HG (Hctx _ _ _ E)) as (gh' & J1 & J2 & J3).
    exists gh'. eapply inv_top; eauto; reflexivity.
  - destruct (ci_write CI gh es _ u (length k) l1 ps l2 m2 HG (Hctx _ _ _ E) Hw Hm) as (gh' & J1 & J2 & J3).
    exists gh'. eapply inv_top; eauto; reflexivity.
  - destruct (ci_tau CI gh es _ u (length k) l1 l2 HG (Hctx _ _ _ E) Ht) as (gh' & J1 & J2 & J3).
    exists gh'. eapply inv_top; eauto; reflexivity.
  - exists gh. split; [exact HG|]. intros t. cbn. destruct (HS t) as [H1 H2]. destruct (Nat.eqb_spec t u) as [->|Hn]; auto.
    rewrite E in *. split.
    + cbn [Stk]. split; [|exact H1]. cbn [length]. apply (ci_sig CI gh es _ u (length k) x l2 HG); auto.
    + intros d Hd. apply H2. cbn in *. lia.
  - exists gh. split; [exact HG|]. intros t. cbn. destruct (HS t) as [H1 H2]. destruct (Nat.eqb_spec t u) as [->|Hn]; auto.
    rewrite E in *. cbn [Stk] in H1. split; [apply H1|]. intros d Hd0.
    destruct (Nat.eq_dec d (length (x :: k))) as [->|Hne].
    + eapply ci_sigret; eauto.
    + apply H2. cbn in *. lia.
  - exists gh. split; [exact HG|]. exact HS.
  - destruct (ci_attempt CI gh es _ u (length k) l1 c w att fin ps m2 HG (Hctx _ _ _ E) Ep Hi Hm) as (gh' & J1 & J2 & J3).
    exists gh'. eapply inv_top; eauto; reflexivity.
  - destruct (ci_commit CI gh es _ u (length k) l1 c w att fin m2 HG (Hctx _ _ _ E) Ep Hm) as (gh' & J1 & J2 & J3).
    exists gh'. eapply inv_top; eauto; reflexivity.
  - destruct (ci_fail CI gh es _ u (length k) l1 c HG (Hctx _ _ _ E) Ep) as [J1 J2].
    exists gh. eapply inv_top; [exact H|exact E|exact J1|exact J2|apply keeps_same|reflexivity|reflexivity].
  - exists gh. eapply inv_top; [exact H|exact E|exact HG|eapply ci_abort; eauto|apply keeps_same|reflexivity|reflexivity].
Qed.

Lemma effects_app : forall e f, effects (e ++ f) = effects e ++ effects f.
Proof. intros. apply filter_app. Qed.

Lemma inv_path : forall s0 evs s, apath g cl s0 evs s -> forall gh0, holds_inv gh0 [] s0 ->
  exists gh, holds_inv gh (effects evs) s.
Proof.
  intros s0 evs s H. induction H as [si|si evs s' l s'' H IH Hs]; intros gh0 H0; [exists gh0; auto|].
  destruct (IH gh0 H0) as (gh & H1). rewrite effects_app. eapply inv_step; eauto.
Qed.

Lemma inv_exec : forall s0 ls s, aexec g cl s0 ls s -> forall gh0, holds_inv gh0 [] s0 ->
  exists gh es, holds_inv gh es s.
Proof.
  intros s0 evs s H. induction H as [si|si evs s' l s'' H IH Hs]; intros gh0 H0; [exists gh0, []; auto|].
  destruct (IH gh0 H0) as (gh & es & H1). destruct (inv_step _ _ _ _ _ H1 Hs) as (gh' & H2). eauto.
Qed.

(** Safety of the client from the invariant: [own] may depend on the ghost state. *)
Variable own : G -> Z -> owner.
Hypothesis S_wf : forall gh es m t d l c w, Glob gh es m -> Ctx gh m t d (busy l c (Pending w)) ->
  op_wf g (c_op c) m /\ forall a, In a (touched g (c_op c) m) -> usable (own gh) t c a.
Hypothesis S_write : forall gh es m t d l ps l', Glob gh es m -> Ctx gh m t d (idle l) -> cl_write _ cl l m ps l' ->
  forall u d' l2 c w, u <> t -> Ctx gh m u d' (busy l2 c (Pending w)) ->
    disjoint (map fst ps) (in_use g (c_op c) m) \/
    (one_compare (c_op c) = true /\ pseudo g (c_op c) m = OFail).

Lemma inv_safe : forall s0 gh0, holds_inv gh0 [] s0 -> exclusive (a_on s0) -> safe_client g cl s0.
Proof.
  intros s0 gh0 H0 Hex ls s He. destruct (inv_exec _ _ _ He _ H0) as (gh & es & [HG HS]).
  pose proof (a_exclusive Loc g cl _ _ _ He Hex) as Hex'.
  assert (Hfl : forall t c, in_flight s t c -> exists d l w, Ctx gh (a_mem s) t d (busy l c (Pending w))).
  { intros t c [_ (l & k & w & E)]. destruct (HS t) as [H1 _]. rewrite E in H1. exists (length k), l, w. apply H1. }
  split.
  - intros t c Hc. destruct (Hfl t c Hc) as (d & l & w & H1). eapply S_wf; eauto.
  - intros l s' t ps Hs Hw.
    destruct (write_source Loc g cl _ _ _ _ _ Hs Hw) as [(c & Hc & Ht)|(loc & k & loc' & _ & E & W)].
    + apply (own_no_interference Loc g (own gh)); auto.
      * intros u c' Hc' a Ha. destruct (Hfl u c' Hc') as (d & l0 & w & H1). eapply S_wf; eauto.
      * intros a Ha. right. exists c. split; auto. destruct (Hfl t c Hc) as (d & l0 & w & H1). eapply S_wf; eauto.
    + intros u c Hu Hc. destruct (Hfl u c Hc) as (d & l0 & w & H1).
      destruct (HS t) as [H2 _]. rewrite E in H2. eapply S_write; eauto. apply H2.
Qed.

(** The usual case: plain stores only to bytes the thread owns. *)
Lemma own_write : forall gh es m t (ps : list (Z * Z)),
  Glob gh es m -> (forall a, In a (map fst ps) -> own gh a = OThr t) ->
  forall u d' l2 c w, u <> t -> Ctx gh m u d' (busy l2 c (Pending w)) ->
    disjoint (map fst ps) (in_use g (c_op c) m) \/
    (one_compare (c_op c) = true /\ pseudo g (c_op c) m = OFail).
Proof.
  intros gh es m t ps HG Ho u d' l2 c w Hu Hc. left. intros a Ha Hb.
  destruct (S_wf _ _ _ _ _ _ _ _ HG Hc) as [_ H]. specialize (H a). unfold touched in H.
  specialize (H (in_or_app _ _ _ (or_introl Hb))). specialize (Ho a Ha). destruct H as [H|H]; congruence.
Qed.
End ClientInv.
