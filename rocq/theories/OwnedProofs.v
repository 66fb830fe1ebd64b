(** Client invariants under which bytes change hands only when a helper call
    takes effect: from an invariant of client code (LinProofs.v) to the ownership
    discipline of ViewSpec.v. *)
From Coq Require Import ZArith Bool List Lia.
From Verif Require Import RseqIR RseqSpec RseqKernel RseqSafe RseqSim RseqOwn LinSpec LinProofs ViewModel ViewSpec.
Import ListNotations.
Local Open Scope Z_scope.

Section Owned.
Variable Loc : Type.
Variable g : cfg.
Variable cl : client Loc.
Variable G : Type.
Variable Glob : G -> list (event Loc) -> mem -> Prop.
Variable Ctx : G -> mem -> nat -> nat -> actx Loc -> Prop.
Variable Absent : G -> nat -> nat -> Prop.
Variable own : G -> Z -> owner.
Notation idle l := ({| a_loc := l; a_act := None |} : actx Loc).
Notation busy l c st := ({| a_loc := l; a_act := Some (c, st) |} : actx Loc).
Notation keeps := (keeps Loc G Ctx Absent).
Definition unmoved (gh gh' : G) : Prop := forall x, own gh' x = own gh x.
Definition moved (t : nat) (c : call) (gh gh' : G) : Prop := forall x,
  own gh' x = own gh x \/ (usable (own gh) t c x /\ usable (own gh') t c x).

(** [client_inv] of LinProofs.v, with what happens to the ownership of bytes. *)
Record client_own : Prop := {
  co_call : forall gh es m t d l c, Glob gh es m -> Ctx gh m t d (idle l) -> cl_call _ cl l m c ->
    Ctx gh m t d (busy l c (Pending false));
  co_ret : forall gh es m t d l c r, Glob gh es m -> Ctx gh m t d (busy l c (Finished r)) ->
    exists gh', Glob gh' es m /\ Ctx gh' m t d (idle (cl_ret _ cl l c r)) /\ keeps gh m t d gh' m /\ unmoved gh gh';
  co_write : forall gh es m t d l ps l' m', Glob gh es m -> Ctx gh m t d (idle l) -> cl_write _ cl l m ps l' ->
    meq m' (wr m ps) ->
    exists gh', Glob gh' (es ++ [Wrt t l ps m]) m' /\ Ctx gh' m' t d (idle l') /\ keeps gh m t d gh' m' /\ unmoved gh gh';
  co_tau : forall gh es m t d l l', Glob gh es m -> Ctx gh m t d (idle l) -> cl_tau _ cl l m l' ->
    exists gh', Glob gh' es m /\ Ctx gh' m t d (idle l') /\ keeps gh m t d gh' m /\ unmoved gh gh';
  co_sig : forall gh es m t d x l', Glob gh es m -> Ctx gh m t d x -> cl_sig _ cl (a_loc x) l' ->
    Absent gh t (S d) -> Ctx gh m t (S d) (idle l');
  co_sigret : forall gh es m t d l, Glob gh es m -> Ctx gh m t d (idle l) -> cl_done _ cl l -> Absent gh t d;
  co_attempt : forall gh es m t d l c w att fin ps m', Glob gh es m -> Ctx gh m t d (busy l c (Pending w)) ->
    pseudo g (c_op c) m = OCommit att fin -> incl ps att -> meq m' (wr m ps) ->
    exists gh', Glob gh' es m' /\ Ctx gh' m' t d (busy l c (Pending true)) /\ keeps gh m t d gh' m' /\ unmoved gh gh';
  co_commit : forall gh es m t d l c w att fin m', Glob gh es m -> Ctx gh m t d (busy l c (Pending w)) ->
    pseudo g (c_op c) m = OCommit att fin -> meq m' (wr (wr m att) fin) ->
    exists gh', Glob gh' (es ++ [Eff t l c m]) m' /\ Ctx gh' m' t d (busy l c (Finished 0)) /\ keeps gh m t d gh' m' /\
      moved t c gh gh';
  co_fail : forall gh es m t d l c, Glob gh es m -> Ctx gh m t d (busy l c (Pending false)) ->
    pseudo g (c_op c) m = OFail -> Glob gh (es ++ [Cmp t l c m]) m /\ Ctx gh m t d (busy l c (Finished 1));
  co_abort : forall gh es m t d l c st, Glob gh es m -> Ctx gh m t d (busy l c st) ->
    (exists w, st = Pending w) \/ st = Finished 1 -> Ctx gh m t d (busy l c (Finished (-1)))
}.

Lemma own_inv : client_own -> client_inv Loc g cl G Glob Ctx Absent.
Proof.
  intros C. split.
  - exact (co_call C).
  - intros. destruct (co_ret C _ _ _ _ _ _ _ _ H H0) as (gh' & J1 & J2 & J3 & _). eauto.
  - intros. destruct (co_write C _ _ _ _ _ _ _ _ _ H H0 H1 H2) as (gh' & J1 & J2 & J3 & _). eauto.
  - intros. destruct (co_tau C _ _ _ _ _ _ _ H H0 H1) as (gh' & J1 & J2 & J3 & _). eauto.
  - exact (co_sig C).
  - exact (co_sigret C).
  - intros. destruct (co_attempt C _ _ _ _ _ _ _ _ _ _ _ _ H H0 H1 H2 H3) as (gh' & J1 & J2 & J3 & _). eauto.
  - intros. destruct (co_commit C _ _ _ _ _ _ _ _ _ _ _ H H0 H1 H2) as (gh' & J1 & J2 & J3 & _). eauto.
  - exact (co_fail C).
  - exact (co_abort C).
Qed.

(** Ownership that never changes. *)
Lemma own_fixed : (forall gh gh' x, own gh' x = own gh x) -> client_inv Loc g cl G Glob Ctx Absent -> client_own.
Proof.
  intros F C. assert (U : forall gh gh', unmoved gh gh') by (intros gh gh' x; apply F).
  assert (M : forall t c gh gh', moved t c gh gh') by (intros t c gh gh' x; left; apply F). split.
  - apply (ci_call _ _ _ _ _ _ _ C).
  - intros. destruct (ci_ret _ _ _ _ _ _ _ C _ _ _ _ _ _ _ _ H H0) as (gh' & J1 & J2 & J3). eauto 6.
  - intros. destruct (ci_write _ _ _ _ _ _ _ C _ _ _ _ _ _ _ _ _ H H0 H1 H2) as (gh' & J1 & J2 & J3). eauto 6.
  - intros. destruct (ci_tau _ _ _ _ _ _ _ C _ _ _ _ _ _ _ H H0 H1) as (gh' & J1 & J2 & J3). eauto 6.
  - apply (ci_sig _ _ _ _ _ _ _ C).
  - apply (ci_sigret _ _ _ _ _ _ _ C).
  - intros. destruct (ci_attempt _ _ _ _ _ _ _ C _ _ _ _ _ _ _ _ _ _ _ _ H H0 H1 H2 H3) as (gh' & J1 & J2 & J3). eauto 6.
  - intros. destruct (ci_commit _ _ _ _ _ _ _ C _ _ _ _ _ _ _ _ _ _ _ H H0 H1 H2) as (gh' & J1 & J2 & J3). eauto 6.
  - apply (ci_fail _ _ _ _ _ _ _ C).
  - apply (ci_abort _ _ _ _ _ _ _ C).
Qed.

Hypothesis CO : client_own.
Notation holds_inv := (holds_inv Loc G Glob Ctx Absent).

Lemma own_step : forall gh es s l s', holds_inv gh es s -> astep g cl s l s' ->
  exists gh', holds_inv gh' (es ++ effects Loc (aev s l)) s' /\
    (unmoved gh gh' \/ exists t c ps, l = ALcommit t c ps /\ moved t c gh gh').
Proof.
  intros gh es s l s' H Hs. pose proof H as [HG HS]. pose proof (own_inv CO) as CI.
  assert (Hctx : forall t x k, a_thr s t = x :: k -> Ctx gh (a_mem s) t (length k) x).
  { intros t x k E. destruct (HS t) as [H1 _]. rewrite E in H1. apply H1. }
  assert (Hsame : unmoved gh gh) by (intros x; reflexivity).
  destruct Hs as [s u l1 k c E Hc|s u l1 k c r E|s u l1 k ps l2 m2 E Hw Hm|s u l1 k l2 E Ht|s u x k l2 E Hg|s u l1 x k E Hd|s on' Hx|s u l1 k c w att fin ps m2 E Hr Ep Hi Hm|s u l1 k c w att fin m2 E Hr Ep Hm|s u l1 k c E Hr Ep|s u l1 k c st E Hst].
  - exists gh. split; [|auto]. cbn [aev]. rewrite E. cbn [effects filter a_loc]. rewrite app_nil_r.
    eapply (inv_top Loc G Glob Ctx Absent); [exact H|exact E|exact HG|eapply co_call; eauto|apply keeps_same|reflexivity|reflexivity].
  - cbn [aev]; rewrite E; cbn [effects filter a_loc]; rewrite app_nil_r.
    destruct (co_ret CO gh es _ u (length k) l1 c r HG (Hctx _ _ _ E)) as (gh' & J1 & J2 & J3 & J4).
    exists gh'. split; auto. eapply (inv_top Loc G Glob Ctx Absent); eauto; reflexivity.
  - cbn [aev]; rewrite E; cbn [effects filter a_loc].
    destruct (co_write CO gh es _ u (length k) l1 ps l2 m2 HG (Hctx _ _ _ E) Hw Hm) as (gh' & J1 & J2 & J3 & J4).
    exists gh'. split; auto. eapply (inv_top Loc G Glob Ctx Absent); eauto; reflexivity.
  - cbn [aev]; cbn [effects filter a_loc]; rewrite app_nil_r.
    destruct (co_tau CO gh es _ u (length k) l1 l2 HG (Hctx _ _ _ E) Ht) as (gh' & J1 & J2 & J3 & J4).
    exists gh'. split; auto. eapply (inv_top Loc G Glob Ctx Absent); eauto; reflexivity.
  - exists gh. split; [|auto]. cbn [aev effects filter]. rewrite app_nil_r.
    split; [exact HG|]. intros t. cbn. destruct (HS t) as [H1 H2]. destruct (Nat.eqb_spec t u) as [->|Hn]; auto.
    rewrite E in *. split.
    + cbn [Stk]. split; [|exact H1]. cbn [length]. apply (co_sig CO gh es _ u (length k) x l2 HG); auto.
    + intros d Hd. apply H2. cbn in *. lia.
  - exists gh. split; [|auto]. cbn [aev effects filter]. rewrite app_nil_r.
    split; [exact HG|]. intros t. cbn. destruct (HS t) as [H1 H2]. destruct (Nat.eqb_spec t u) as [->|Hn]; auto.
    rewrite E in *. cbn [Stk] in H1. split; [apply H1|]. intros d Hd0.
    destruct (Nat.eq_dec d (length (x :: k))) as [->|Hne].
    + eapply (co_sigret CO); eauto.
    + apply H2. cbn in *. lia.
  - exists gh. split; [|auto]. cbn [aev effects filter]. rewrite app_nil_r. split; [exact HG|]. exact HS.
  - cbn [aev]; cbn [effects filter a_loc]; rewrite app_nil_r.
    destruct (co_attempt CO gh es _ u (length k) l1 c w att fin ps m2 HG (Hctx _ _ _ E) Ep Hi Hm) as (gh' & J1 & J2 & J3 & J4).
    exists gh'. split; auto. eapply (inv_top Loc G Glob Ctx Absent); eauto; reflexivity.
  - cbn [aev]; rewrite E; cbn [effects filter a_loc].
    destruct (co_commit CO gh es _ u (length k) l1 c w att fin m2 HG (Hctx _ _ _ E) Ep Hm) as (gh' & J1 & J2 & J3 & J4).
    exists gh'. split; [|right; exists u, c, fin; auto]. eapply (inv_top Loc G Glob Ctx Absent); eauto; reflexivity.
  - cbn [aev]; rewrite E; cbn [effects filter a_loc].
    destruct (co_fail CO gh es _ u (length k) l1 c HG (Hctx _ _ _ E) Ep) as [J1 J2].
    exists gh. split; auto. eapply (inv_top Loc G Glob Ctx Absent); [exact H|exact E|exact J1|exact J2|apply keeps_same|reflexivity|reflexivity].
  - exists gh. split; [|auto]. cbn [aev effects filter]. rewrite app_nil_r.
    eapply (inv_top Loc G Glob Ctx Absent); [exact H|exact E|exact HG|eapply (co_abort CO); eauto|apply keeps_same|reflexivity|reflexivity].
Qed.

Hypothesis S_wf : forall gh es m t d l c w, Glob gh es m -> Ctx gh m t d (busy l c (Pending w)) ->
  op_wf g (c_op c) m /\ forall a, In a (touched g (c_op c) m) -> usable (own gh) t c a.
Hypothesis S_write : forall gh es m t d l ps l', Glob gh es m -> Ctx gh m t d (idle l) -> cl_write _ cl l m ps l' ->
  forall x, In x (map fst ps) -> own gh x = OThr t.
Hypothesis S_local : forall gh es m t d l m', Glob gh es m -> Ctx gh m t d (idle l) -> same_own_bytes (own gh) t m m' ->
  (forall c, cl_call _ cl l m' c -> cl_call _ cl l m c) /\
  (forall ps l', cl_write _ cl l m' ps l' -> cl_write _ cl l m ps l') /\
  (forall l', cl_tau _ cl l m' l' -> cl_tau _ cl l m l').

Lemma inv_owned : forall s0 gh0, holds_inv gh0 [] s0 -> owned_client g cl s0.
Proof.
  intros s0 gh0 H0. exists (fun s o => exists gh es, holds_inv gh es s /\ o = own gh). split.
  - exists (own gh0), gh0, []. auto.
  - intros s o (gh & es & H & ->). pose proof H as [HG HS]. split; [|split].
    + intros t c [_ (l & k & w & E)]. destruct (HS t) as [H1 _]. rewrite E in H1. eapply S_wf; eauto. apply H1.
    + intros t l k E. destruct (HS t) as [H1 _]. rewrite E in H1. destruct H1 as [H1 _]. split.
      * intros ps l' Hw. eapply S_write; eauto.
      * intros m Hm. eapply S_local; eauto.
    + intros l s' Hs. destruct (own_step _ _ _ _ _ H Hs) as (gh' & J1 & J2). exists (own gh'). split; [eauto|].
      intros x. destruct J2 as [J2|(t & c & ps & -> & J2)]; [left; apply J2|]. destruct (J2 x) as [E|E]; [auto|].
      right. exists t, c, ps. auto.
Qed.
End Owned.
