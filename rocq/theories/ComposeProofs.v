(** Proofs for C61, general part: runs of a program seen from one structure. *)
From Coq Require Import ZArith Bool List Lia.
From Verif Require Import RseqIR RseqSpec RseqKernel RseqSafe MemLemmas RunLemmas RseqSim RseqOwn RseqCalls LinSpec LinProofs ClientModel ClientSpec ComposeModel ComposeSpec.
Import ListNotations.
Local Open Scope Z_scope.

Definition outside (dom : Z -> Prop) (ps : list (Z * Z)) : Prop := forall a, In a (map fst ps) -> ~ dom a.

(** ** One structure

    What is proved of the code of one structure: an invariant, that its calls
    and stores stay in [dom], and that nothing outside [dom] matters. *)
Record struc {L : Type} (g : cfg) (cl : client L) (dom : Z -> Prop) (res : call -> mem -> mem -> Prop) := {
  sG : Type;
  sGlob : sG -> list (event L) -> mem -> Prop;
  sCtx : sG -> mem -> nat -> nat -> actx L -> Prop;
  sAbs : sG -> nat -> nat -> Prop;
  sOwn : sG -> Z -> owner;
  st_inv : client_inv L g cl sG sGlob sCtx sAbs;
  st_wf : forall gh es m t d l c w, sGlob gh es m -> sCtx gh m t d {| a_loc := l; a_act := Some (c, Pending w) |} ->
    op_wf g (c_op c) m /\ forall a, In a (touched g (c_op c) m) -> usable (sOwn gh) t c a;
  st_write : forall gh es m t d l ps l', sGlob gh es m -> sCtx gh m t d {| a_loc := l; a_act := None |} -> cl_write _ cl l m ps l' ->
    forall u d' l2 c w, u <> t -> sCtx gh m u d' {| a_loc := l2; a_act := Some (c, Pending w) |} ->
      disjoint (map fst ps) (in_use g (c_op c) m) \/ (one_compare (c_op c) = true /\ pseudo g (c_op c) m = OFail);
  st_touch : forall gh es m t d l c w, sGlob gh es m -> sCtx gh m t d {| a_loc := l; a_act := Some (c, Pending w) |} ->
    forall a, In a (touched g (c_op c) m) -> dom a;
  st_wdom : forall gh es m t d l ps l', sGlob gh es m -> sCtx gh m t d {| a_loc := l; a_act := None |} -> cl_write _ cl l m ps l' ->
    forall a, In a (map fst ps) -> dom a;
  st_frame : forall gh es m ps m', meq m' (wr m ps) -> outside dom ps -> sGlob gh es m ->
    sGlob gh es m' /\ forall t d x, sCtx gh m t d x -> sCtx gh m' t d x;
  st_res1 : forall gh es s t l k c w att fin m', holds_inv L sG sGlob sCtx sAbs gh es s ->
    a_thr s t = {| a_loc := l; a_act := Some (c, Pending w) |} :: k ->
    pseudo g (c_op c) (a_mem s) = OCommit att fin -> meq m' (wr (wr (a_mem s) att) fin) -> res c (a_mem s) m';
  st_res2 : forall gh es s l s' t x c me, holds_inv L sG sGlob sCtx sAbs gh es s -> astep g cl s l s' ->
    In x (a_thr s t) -> a_act x = Some (c, Finished 0) -> res c me (a_mem s) -> res c me (a_mem s');
  st_res3 : forall gh es s t x c me ps m', holds_inv L sG sGlob sCtx sAbs gh es s ->
    In x (a_thr s t) -> a_act x = Some (c, Finished 0) -> meq m' (wr (a_mem s) ps) -> outside dom ps ->
    res c me (a_mem s) -> res c me m'
}.
Arguments sG {L g cl dom res}. Arguments sGlob {L g cl dom res}. Arguments sCtx {L g cl dom res}. Arguments sAbs {L g cl dom res}. Arguments sOwn {L g cl dom res}.

Definition sholds {L g cl dom res} (S : @struc L g cl dom res) (gh : sG S) (es : list (event L)) (s : astate L) : Prop :=
  holds_inv L (sG S) (sGlob S) (sCtx S) (sAbs S) gh es s.

(** Runs of the code of a structure while others write outside [dom]. *)
Section One.
Context {L : Type}.
Variable g : cfg.
Variable cl : client L.
Variable dom : Z -> Prop.
Notation astate := (astate L).

Inductive bpath : astate -> list (event L) -> astate -> Prop :=
  | bp_nil : forall s, bpath s [] s
  | bp_step : forall s0 evs s l s1 s', bpath s0 evs s -> astep g cl s l s1 ->
      a_mem s' = a_mem s1 -> (forall t, a_thr s' t = a_thr s1 t) -> bpath s0 (evs ++ aev s l) s'
  | bp_noise : forall s0 evs s ps s', bpath s0 evs s -> (forall t, a_thr s' t = a_thr s t) ->
      meq (a_mem s') (wr (a_mem s) ps) -> outside dom ps -> bpath s0 evs s'.

Variable res : call -> mem -> mem -> Prop.
Variable S : struc g cl dom res.

(** An invariant of the code that does not mind writes outside [dom]. *)
Lemma bpath_ci : forall G Glob Ctx Abs, client_inv L g cl G Glob Ctx Abs ->
  (forall gh es m ps m', meq m' (wr m ps) -> outside dom ps -> Glob gh es m ->
     Glob gh es m' /\ forall t d x, Ctx gh m t d x -> Ctx gh m' t d x) ->
  forall s0 evs s, bpath s0 evs s -> forall gh0, holds_inv L G Glob Ctx Abs gh0 [] s0 ->
  exists gh, holds_inv L G Glob Ctx Abs gh (effects L evs) s.
Proof.
  intros G Glob Ctx Abs CI HF s0 evs s H.
  induction H as [s|s0 evs s l s1 s' H IH Hs Em Et|s0 evs s ps s' H IH Et Em Ho]; intros gh0 H0; [exists gh0; auto| |].
  - destruct (IH gh0 H0) as (gh & H1). rewrite effects_app.
    destruct (inv_step _ _ _ _ _ _ _ CI _ _ _ _ _ H1 Hs) as (gh' & [H2 H3]). exists gh'. split; rewrite Em; auto.
    intros t. rewrite Et. apply H3.
  - destruct (IH gh0 H0) as (gh & [H1 H2]). exists gh. destruct (HF gh _ _ _ _ Em Ho H1) as [F1 F2]. split; auto.
    intros t. rewrite Et. destruct (H2 t) as [K1 K2]. split; auto. clear K2.
    induction (a_thr s t) as [|x k IHk]; cbn in *; auto. destruct K1. auto.
Qed.

Lemma bpath_inv : forall s0 evs s, bpath s0 evs s -> forall gh0, sholds S gh0 [] s0 -> exists gh, sholds S gh (effects L evs) s.
Proof.
  intros s0 evs s H gh0 H0. eapply bpath_ci; [exact (st_inv _ _ _ _ S)|exact (st_frame _ _ _ _ S)|exact H|exact H0].
Qed.

Lemma bpath_effs : forall s0 evs s, bpath s0 evs s -> (forall t l c m, In (Eff t l c m) evs ->
  exists att fin, pseudo g (c_op c) m = OCommit att fin) /\ (forall t l c m, In (Cmp t l c m) evs -> pseudo g (c_op c) m = OFail).
Proof.
  intros s0 evs s H. induction H as [s|s0 evs s l s1 s' H [I1 I2] Hs Em Et|s0 evs s ps s' H IH Et Em Ho]; auto.
  - split; intros ? ? ? ? [].
  - assert (A : apath g cl s (aev s l) s1) by (change (aev s l) with ([] ++ aev s l); econstructor; eauto; constructor).
    split; intros t l1 c m Hin; apply in_app_or in Hin; destruct Hin as [Hin|Hin]; eauto.
    + eapply apath_effs; eauto.
    + eapply apath_cmps; eauto.
Qed.

Notation open_ok := (open_ok L res).

Lemma bpath_calls : forall s0 gh0, sholds S gh0 [] s0 -> (forall t x, In x (a_thr s0 t) -> a_act x = None) ->
  forall evs s, bpath s0 evs s -> forall t, exists k, calls_ok res t evs k /\ open_ok (a_mem s) (a_thr s t) k.
Proof.
  intros si gh0 H0 Hinit evs s H. revert H0 Hinit.
  induction H as [s|s0 evs s' l s'' s2 H IH Hs Em Et|s0 evs s' ps s2 H IH Et Em Hout]; intros H0 Hinit t.
  - exists []. split; [constructor|]. specialize (Hinit t). induction (a_thr s t) as [|x xs IHx]; cbn; auto.
    rewrite Hinit by (left; auto). apply IHx. intros y Hy. apply Hinit. right. auto.
  - destruct (IH H0 Hinit t) as (k & Hk & Ho). clear IH. rewrite Em, Et. clear s2 Em Et.
    destruct (bpath_inv _ _ _ H _ H0) as (gh & HI).
    assert (Hmv : open_ok (a_mem s'') (a_thr s' t) k).
    { eapply open_ok_mem; [|exact Ho]. intros x c me Hx Ex Hr. exact (st_res2 _ _ _ _ S _ _ _ _ _ _ _ _ _ HI Hs Hx Ex Hr). }
    assert (Hoth : forall e, ev_thread e <> t -> calls_ok res t (evs ++ [e]) k) by (intros; apply co_other; auto).
    pose proof Hs as Hs0.
    destruct Hs as [s1 u l1 kk c E _|s1 u l1 kk c r E|s1 u l1 kk ps l2 m2 E _ _|s1 u l1 kk l2 E _|s1 u x kk l2 E _|s1 u l1 x kk E _|s1 on' _|s1 u l1 kk c w att fin ps m2 E _ Ep _ _|s1 u l1 kk c w att fin m2 E _ Ep Em|s1 u l1 kk c E _ _|s1 u l1 kk c st E Hst];
      cbn [aev]; rewrite ?app_nil_r; try rewrite E; cbn [a_loc]; cbn [set_thr set_amem set_aon a_thr a_mem] in *;
      try (destruct (Nat.eqb_spec t u) as [->|Hn]; [rewrite E in Ho, Hmv; cbn in Ho, Hmv|
        exists k; split; auto; apply Hoth; cbn; congruence]).
    + exists ((l1, c, Undone) :: k). split; [constructor; auto|]. cbn. eauto.
    + destruct Ho as (o & k' & -> & H1 & [[-> (me & -> & H2)]|[[-> (me & ->)]|[-> H2]]]); exists k'; (split; [|exact H1]).
      * eapply co_ret0; eauto.
      * eapply co_ret1; eauto.
      * eapply co_abort; eauto.
    + exists k. split; [constructor; auto|]. cbn. auto.
    + exists k. split; auto.
    + exists k. split; auto.
    + exists k. split; auto.
    + exists k. split; auto.
    + destruct Hmv as (o & k' & -> & H1 & ->). exists ((l1, c, Undone) :: k'). split; auto. cbn. eauto.
    + destruct Hmv as (o & k' & -> & H1 & ->). exists ((l1, c, Took (a_mem s1)) :: k'). split; [constructor; auto|].
      cbn. exists (Took (a_mem s1)), k'. split; auto. split; auto. left. split; auto. exists (a_mem s1). split; auto.
      exact (st_res1 _ _ _ _ S _ _ _ _ _ _ _ _ _ _ _ HI E Ep Em).
    + destruct Hmv as (o & k' & -> & H1 & ->). exists ((l1, c, Refused (a_mem s1)) :: k'). split; [constructor; auto|]. cbn.
      exists (Refused (a_mem s1)), k'. split; auto. split; auto. right. left. split; auto. eauto.
    + destruct Hmv as (o & k' & -> & H1 & H2). exists ((l1, c, o) :: k'). split; auto. cbn. exists o, k'.
      split; auto. split; auto. right. right. split; auto.
      destruct Hst as [(w & ->)| ->]; [subst o; discriminate|].
      destruct H2 as [[H2 _]|[[_ (me & ->)]|[H2 _]]]; discriminate.
  - destruct (IH H0 Hinit t) as (k & Hk & Ho). exists k. split; auto. rewrite Et.
    destruct (bpath_inv _ _ _ H _ H0) as (gh & HI).
    eapply open_ok_mem; [|exact Ho]. intros x c me Hx Ex. exact (st_res3 _ _ _ _ S _ _ _ _ _ _ _ _ _ HI Hx Ex Em Hout).
Qed.
End One.

(** ** Programs *)
Section Many.
Variable Loc : Type.
Variable g : cfg.
Variable pcs : nat -> piece.
Variable turn : Loc -> option nat.
Variable view : forall i, Loc -> piece_loc (pcs i).
Variable P : client Loc.
Hypothesis Hu : uses g pcs turn view P.
Hypothesis Hsep : separate g pcs.
Variable res : nat -> call -> mem -> mem -> Prop.
Notation cl i := (piece_client g (pcs i)).
Notation dom i := (piece_bytes g (pcs i)).

Definition pctx (i : nat) (x : actx Loc) : actx (piece_loc (pcs i)) :=
  {| a_loc := view i (a_loc x); a_act := if mine turn i (a_loc x) then a_act x else None |}.
Definition proj (i : nat) (s : astate Loc) : astate (piece_loc (pcs i)) :=
  {| a_mem := a_mem s; a_on := a_on s; a_thr := fun t => map (pctx i) (a_thr s t) |}.

Variable a0 : astate Loc.
Hypothesis Hidle : forall t x, In x (a_thr a0 t) -> a_act x = None.
Hypothesis HS : forall i, exists (S : struc g (cl i) (dom i) (res i)) gh0, sholds S gh0 [] (proj i a0).

Lemma mine_turn : forall i l, mine turn i l = true <-> turn l = Some i.
Proof.
  intros i l. unfold mine. destruct (turn l) as [j|]; [|split; discriminate]. split.
  - intros E. apply Nat.eqb_eq in E. now subst.
  - intros E. inversion E; subst. apply Nat.eqb_refl.
Qed.
Lemma mine_self : forall i l, turn l = Some i -> mine turn i l = true.
Proof. intros. apply mine_turn. auto. Qed.
Lemma mine_not : forall i l, turn l <> Some i -> mine turn i l = false.
Proof. intros i l H. destruct (mine turn i l) eqn:E; auto. apply mine_turn in E. contradiction. Qed.
Lemma pctx_idle : forall i l, pctx i {| a_loc := l; a_act := None |} = {| a_loc := view i l; a_act := None |}.
Proof. intros. unfold pctx. cbn. destruct (mine turn i l); auto. Qed.
Lemma pctx_mine : forall i l o, turn l = Some i -> pctx i {| a_loc := l; a_act := o |} = {| a_loc := view i l; a_act := o |}.
Proof. intros i l o H. unfold pctx. cbn. now rewrite (mine_self i l H). Qed.
Lemma pctx_not : forall i l o, turn l <> Some i -> pctx i {| a_loc := l; a_act := o |} = {| a_loc := view i l; a_act := None |}.
Proof. intros i l o H. unfold pctx. cbn. now rewrite (mine_not i l H). Qed.

(** Whoever is in a helper call is in the code of a structure. *)
Definition in_code (s : astate Loc) : Prop := forall t x, In x (a_thr s t) -> a_act x <> None -> exists i, turn (a_loc x) = Some i.

Lemma in_code_step : forall s l s', in_code s -> astep g P s l s' -> in_code s'.
Proof.
  intros s l s' H Hs t x Hx Ha. specialize (H t).
  destruct Hs as [s1 u l1 kk c E Hc|s1 u l1 kk c r E|s1 u l1 kk ps l2 m2 E _ _|s1 u l1 kk l2 E _|s1 u y kk l2 E _|s1 u l1 y kk E _|s1 on' _|s1 u l1 kk c w att fin ps m2 E _ Ep _ _|s1 u l1 kk c w att fin m2 E _ Ep Em|s1 u l1 kk c E _ _|s1 u l1 kk c st E Hst];
    cbn [set_thr set_amem set_aon a_thr a_mem] in *; try (apply H; assumption);
    (destruct (Nat.eqb_spec t u) as [->|Hn]; [rewrite E in H|apply H; assumption]).
  - destruct Hx as [<-|Hx]; [|apply H; auto; right; auto]. cbn. destruct (u_call _ _ _ _ _ _ Hu _ _ _ Hc) as (i & Hi & _). eauto.
  - destruct Hx as [<-|Hx]; [destruct Ha; reflexivity|apply H; auto; right; auto].
  - destruct Hx as [<-|Hx]; [destruct Ha; reflexivity|apply H; auto; right; auto].
  - destruct Hx as [<-|Hx]; [destruct Ha; reflexivity|apply H; auto; right; auto].
  - destruct Hx as [<-|Hx]; [destruct Ha; reflexivity|apply H; auto].
  - apply H; auto. right; auto.
  - destruct Hx as [<-|Hx]; [|apply H; auto; right; auto]. apply (H _ (or_introl eq_refl)). discriminate.
  - destruct Hx as [<-|Hx]; [|apply H; auto; right; auto]. apply (H _ (or_introl eq_refl)). discriminate.
  - destruct Hx as [<-|Hx]; [|apply H; auto; right; auto]. apply (H _ (or_introl eq_refl)). discriminate.
  - destruct Hx as [<-|Hx]; [|apply H; auto; right; auto]. apply (H _ (or_introl eq_refl)). discriminate.
Qed.

Definition bp (i : nat) (evs : list (event Loc)) (s : astate Loc) : Prop :=
  bpath g (cl i) (dom i) (proj i a0) (events_of pcs turn view i evs) (proj i s).

Lemma bp_holds : forall i evs s, bp i evs s ->
  exists (S : struc g (cl i) (dom i) (res i)) gh, sholds S gh (effects _ (events_of pcs turn view i evs)) (proj i s).
Proof.
  intros i evs s H. destruct (HS i) as (S & gh0 & H0). destruct (bpath_inv _ _ _ _ S _ _ _ H gh0 H0) as (gh & H1). eauto.
Qed.

(** The bytes of a call, and of a store, belong to the structure whose code it is. *)
Lemma call_bytes : forall i evs s t l k c w, bp i evs s -> a_thr s t = {| a_loc := l; a_act := Some (c, Pending w) |} :: k ->
  turn l = Some i -> forall a, In a (touched g (c_op c) (a_mem s)) -> dom i a.
Proof.
  intros i evs s t l k c w H E Ht a Ha. destruct (bp_holds i evs s H) as (S & gh & [HG Hk]).
  destruct (Hk t) as [K _]. cbn [proj a_thr a_mem] in K. rewrite E in K. cbn [map Stk] in K. rewrite pctx_mine in K by auto.
  eapply (st_touch _ _ _ _ S); [exact HG|apply K|exact Ha].
Qed.

Lemma store_bytes : forall i evs s t l k ps l', bp i evs s -> a_thr s t = {| a_loc := l; a_act := None |} :: k ->
  cl_write _ (cl i) (view i l) (a_mem s) ps l' -> forall a, In a (map fst ps) -> dom i a.
Proof.
  intros i evs s t l k ps l' H E Hw a Ha. destruct (bp_holds i evs s H) as (S & gh & [HG Hk]).
  destruct (Hk t) as [K _]. cbn [proj a_thr a_mem] in K. rewrite E in K. cbn [map Stk] in K. rewrite pctx_idle in K.
  eapply (st_wdom _ _ _ _ S); [exact HG|apply K|exact Hw|exact Ha].
Qed.

Lemma other_dom : forall i j ps, i <> j -> (forall a, In a (map fst ps) -> dom j a) -> outside (dom i) ps.
Proof. intros i j ps Hn H a Ha Hd. exact (Hsep i j a Hn Hd (H a Ha)). Qed.

Lemma quiet : forall i s t x x' k u, a_thr s t = x :: k -> pctx i x' = pctx i x ->
  map (pctx i) (if Nat.eqb u t then x' :: k else a_thr s u) = map (pctx i) (a_thr s u).
Proof. intros i s t x x' k u E Hx. destruct (Nat.eqb_spec u t) as [->|]; auto. rewrite E. cbn. now rewrite Hx. Qed.

Lemma moved : forall i s t x x' k u, pctx i x' = x ->
  map (pctx i) (if Nat.eqb u t then x' :: k else a_thr s u) = (if Nat.eqb u t then x :: map (pctx i) k else map (pctx i) (a_thr s u)).
Proof. intros i s t x x' k u Hx. destruct (Nat.eqb_spec u t) as [->|]; auto. cbn. now rewrite Hx. Qed.

Lemma events_app : forall i e f, events_of pcs turn view i (e ++ f) = events_of pcs turn view i e ++ events_of pcs turn view i f.
Proof. intros. apply flat_map_app. Qed.

Lemma meq_nil : forall m, meq m (wr m []).
Proof. intros m a. reflexivity. Qed.

Lemma bp_tau : forall i evs s l s1 s', bp i evs s -> astep g (cl i) (proj i s) l s1 -> aev (proj i s) l = [] ->
  a_mem s' = a_mem s1 -> (forall t, a_thr (proj i s') t = a_thr s1 t) -> bp i evs s'.
Proof.
  intros i evs s l s1 s' H Hs Hl Em Et. unfold bp.
  replace (events_of pcs turn view i evs) with (events_of pcs turn view i evs ++ aev (proj i s) l) by (rewrite Hl; apply app_nil_r).
  eapply bp_step; [exact H|exact Hs| |]; auto.
Qed.

Lemma bp_ev : forall i evs s l s1 s' e, bp i evs s -> astep g (cl i) (proj i s) l s1 -> aev (proj i s) l = events_of pcs turn view i e ->
  a_mem s' = a_mem s1 -> (forall t, a_thr (proj i s') t = a_thr s1 t) -> bp i (evs ++ e) s'.
Proof.
  intros i evs s l s1 s' e H Hs Hl Em Et. unfold bp. rewrite events_app, <- Hl. eapply bp_step; [exact H|exact Hs| |]; auto.
Qed.

Lemma bp_quiet : forall i evs s ps s' e, bp i evs s -> events_of pcs turn view i e = [] ->
  (forall t, a_thr (proj i s') t = a_thr (proj i s) t) -> meq (a_mem s') (wr (a_mem s) ps) -> outside (dom i) ps -> bp i (evs ++ e) s'.
Proof.
  intros i evs s ps s' e H He Et Em Ho. unfold bp. rewrite events_app, He, app_nil_r. eapply bp_noise; [exact H|exact Et|exact Em|exact Ho].
Qed.

Lemma out_nil : forall i, outside (dom i) [].
Proof. intros i a []. Qed.

Lemma incl_touched : forall c m att fin ps, pseudo g (c_op c) m = OCommit att fin -> incl ps (att ++ fin) ->
  forall a, In a (map fst ps) -> In a (touched g (c_op c) m).
Proof.
  intros c m att fin ps Hp Hi a Ha. apply in_map_iff in Ha. destruct Ha as (p & <- & Hq). apply Hi in Hq.
  unfold touched, in_use, attempts. rewrite Hp. apply in_app_or in Hq. apply in_or_app. destruct Hq as [Hq|Hq].
  - left. apply in_or_app. right. apply in_map. auto.
  - right. apply in_map. auto.
Qed.

Lemma many_step : forall evs s l s', in_code s -> (forall i, bp i evs s) -> astep g P s l s' -> forall i, bp i (evs ++ aev s l) s'.
Proof.
  intros evs s l s' Hc H Hs i. pose proof (H i) as Hb.
  assert (Hcode : forall t l1 c st k, a_thr s t = {| a_loc := l1; a_act := Some (c, st) |} :: k -> exists j, turn l1 = Some j).
  { intros t l1 c st k E. apply (Hc t {| a_loc := l1; a_act := Some (c, st) |}); [rewrite E; left; auto|discriminate]. }
  destruct Hs as [s t l1 k c E Hcall|s t l1 k c r E|s t l1 k ps l2 m2 E Hw Hm|s t l1 k l2 E Ht|s t x k l2 E Hg|s t l1 x k E Hd|s on' Hon|s t l1 k c w att fin ps m2 E Hr Ep Hi Hm|s t l1 k c w att fin m2 E Hr Ep Hm|s t l1 k c E Hr Ep|s t l1 k c st E Hst].
  - (* call *) destruct (u_call _ _ _ _ _ _ Hu _ _ _ Hcall) as (j & Hj & Hc'). cbn [aev]. rewrite E. cbn [a_loc].
    destruct (Nat.eq_dec i j) as [<-|Hn].
    + eapply (bp_ev i evs s (ALcall t c) (set_thr (proj i s) t ({| a_loc := view i l1; a_act := Some (c, Pending false) |} :: map (pctx i) k))).
      * exact Hb.
      * apply A_call; [cbn; rewrite E; cbn; now rewrite pctx_idle|exact Hc'].
      * cbn. rewrite E. cbn. now rewrite (mine_self _ _ Hj).
      * reflexivity.
      * intros u. cbn. apply moved. apply pctx_mine; auto.
    + apply (bp_quiet i evs s []); auto using out_nil.
      * cbn. rewrite mine_not by congruence. reflexivity.
      * intros u. cbn. eapply quiet; [exact E|]. rewrite pctx_idle. apply pctx_not. congruence.
      * apply meq_nil.
  - (* ret *) destruct (Hcode _ _ _ _ _ E) as (j & Hj). destruct (u_ret _ _ _ _ _ _ Hu l1 c r j Hj) as [R1 R2]. cbn [aev]. rewrite E. cbn [a_loc].
    destruct (Nat.eq_dec i j) as [<-|Hn].
    + eapply (bp_ev i evs s (ALret t c r) (set_thr (proj i s) t ({| a_loc := cl_ret _ (cl i) (view i l1) c r; a_act := None |} :: map (pctx i) k))).
      * exact Hb.
      * apply A_ret. cbn. rewrite E. cbn. now rewrite pctx_mine.
      * cbn. rewrite E. cbn. now rewrite (mine_self _ _ Hj).
      * reflexivity.
      * intros u. cbn. apply moved. rewrite pctx_idle, R1. reflexivity.
    + apply (bp_quiet i evs s []); auto using out_nil.
      * cbn. rewrite mine_not by congruence. reflexivity.
      * intros u. cbn. eapply quiet; [exact E|]. rewrite pctx_idle, R2 by auto. symmetry. apply pctx_not. congruence.
      * apply meq_nil.
  - (* write *) cbn [aev]. rewrite E. cbn [a_loc].
    destruct (u_write _ _ _ _ _ _ Hu _ _ _ _ Hw) as [(j & Hj & Hw' & Ho)|(Hj & Hk & Ho)].
    + destruct (Nat.eq_dec i j) as [<-|Hn].
      * eapply (bp_ev i evs s (ALwrite t ps) (set_amem (set_thr (proj i s) t ({| a_loc := view i l2; a_act := None |} :: map (pctx i) k)) m2)).
        { exact Hb. }
        { apply (A_write _ g (cl i) (proj i s) t (view i l1)); [cbn; rewrite E; cbn; now rewrite pctx_idle|exact Hw'|exact Hm]. }
        { cbn. rewrite E. cbn. now rewrite (mine_self _ _ Hj). }
        { reflexivity. }
        { intros u. cbn. apply moved. apply pctx_idle. }
      * apply (bp_quiet i evs s ps); auto.
        { cbn. rewrite mine_not by congruence. reflexivity. }
        { intros u. cbn. eapply quiet; [exact E|]. rewrite !pctx_idle, Ho by auto. reflexivity. }
        { apply (other_dom i j); auto. eapply store_bytes; eauto. }
    + apply (bp_quiet i evs s ps); auto.
      * cbn. rewrite mine_not by congruence. reflexivity.
      * intros u. cbn. eapply quiet; [exact E|]. rewrite !pctx_idle, Ho. reflexivity.
      * intros a Ha. apply Hk. auto.
  - (* tau *) cbn [aev]. rewrite app_nil_r. destruct (u_tau _ _ _ _ _ _ Hu _ _ _ Ht) as [(j & Hj & Ht' & Ho)|Ho].
    + destruct (Nat.eq_dec i j) as [<-|Hn].
      * eapply (bp_tau i evs s ALtau (set_thr (proj i s) t ({| a_loc := view i l2; a_act := None |} :: map (pctx i) k))); auto.
        { apply (A_tau _ g (cl i) (proj i s) t (view i l1)); [cbn; rewrite E; cbn; now rewrite pctx_idle|exact Ht']. }
        { intros u. cbn. apply moved. apply pctx_idle. }
      * rewrite <- (app_nil_r evs). apply (bp_quiet i evs s []); auto using out_nil, meq_nil.
        intros u. cbn. eapply quiet; [exact E|]. rewrite !pctx_idle, Ho by auto. reflexivity.
    + rewrite <- (app_nil_r evs). apply (bp_quiet i evs s []); auto using out_nil, meq_nil.
      intros u. cbn. eapply quiet; [exact E|]. rewrite !pctx_idle, Ho. reflexivity.
  - (* sig *) cbn [aev]. rewrite app_nil_r.
    eapply (bp_tau i evs s ALtau (set_thr (proj i s) t ({| a_loc := view i l2; a_act := None |} :: pctx i x :: map (pctx i) k))); auto.
    + apply A_sig; [cbn; rewrite E; reflexivity|]. cbn. apply (u_sig _ _ _ _ _ _ Hu _ _ Hg).
    + intros u. cbn. destruct (Nat.eqb u t); auto. cbn. now rewrite pctx_idle.
  - (* sigret *) cbn [aev]. rewrite app_nil_r.
    eapply (bp_tau i evs s ALtau (set_thr (proj i s) t (pctx i x :: map (pctx i) k))); auto.
    + apply (A_sigret _ g (cl i) (proj i s) t (view i l1)); [cbn; rewrite E; cbn; now rewrite pctx_idle|]. apply (u_done _ _ _ _ _ _ Hu _ Hd).
    + intros u. cbn. destruct (Nat.eqb u t); auto.
  - (* sched *) apply (bp_quiet i evs s []); auto using out_nil, meq_nil.
  - (* attempt *) cbn [aev]. rewrite app_nil_r. destruct (Hcode _ _ _ _ _ E) as (j & Hj). destruct (Nat.eq_dec i j) as [<-|Hn].
    + eapply (bp_tau i evs s (ALattempt t c ps) (set_amem (set_thr (proj i s) t ({| a_loc := view i l1; a_act := Some (c, Pending true) |} :: map (pctx i) k)) m2)); auto.
      * eapply (A_attempt _ g (cl i) (proj i s) t (view i l1) _ c w att fin); [cbn; rewrite E; cbn; now rewrite pctx_mine|exact Hr|exact Ep|exact Hi|exact Hm].
      * intros u. cbn. apply moved. apply pctx_mine; auto.
    + rewrite <- (app_nil_r evs). apply (bp_quiet i evs s ps); auto.
      * intros u. cbn. eapply quiet; [exact E|]. rewrite !pctx_not by congruence. reflexivity.
      * apply (other_dom i j); auto. intros a Ha. eapply (call_bytes j evs s); eauto.
        eapply incl_touched; [exact Ep| |exact Ha]. intros p Hp. apply in_or_app. auto.
  - (* commit *) cbn [aev]. rewrite E. cbn [a_loc]. destruct (Hcode _ _ _ _ _ E) as (j & Hj). destruct (Nat.eq_dec i j) as [<-|Hn].
    + eapply (bp_ev i evs s (ALcommit t c fin) (set_amem (set_thr (proj i s) t ({| a_loc := view i l1; a_act := Some (c, Finished 0) |} :: map (pctx i) k)) m2)); auto.
      * eapply (A_commit _ g (cl i) (proj i s) t (view i l1) _ c w att fin); [cbn; rewrite E; cbn; now rewrite pctx_mine|exact Hr|exact Ep|exact Hm].
      * cbn. rewrite E. cbn. now rewrite (mine_self _ _ Hj).
      * intros u. cbn. apply moved. apply pctx_mine; auto.
    + apply (bp_quiet i evs s (att ++ fin)); auto.
      * cbn. rewrite mine_not by congruence. reflexivity.
      * intros u. cbn. eapply quiet; [exact E|]. rewrite !pctx_not by congruence. reflexivity.
      * intros a. cbn. rewrite (Hm a), wr_app. reflexivity.
      * apply (other_dom i j); auto. intros a Ha. eapply (call_bytes j evs s); eauto.
        eapply incl_touched; [exact Ep|apply incl_refl|exact Ha].
  - (* fail *) cbn [aev]. rewrite E. cbn [a_loc]. destruct (Hcode _ _ _ _ _ E) as (j & Hj). destruct (Nat.eq_dec i j) as [<-|Hn].
    + eapply (bp_ev i evs s (ALfail t c) (set_thr (proj i s) t ({| a_loc := view i l1; a_act := Some (c, Finished 1) |} :: map (pctx i) k))); auto.
      * eapply (A_fail _ g (cl i) (proj i s) t (view i l1)); [cbn; rewrite E; cbn; now rewrite pctx_mine|exact Hr|exact Ep].
      * cbn. rewrite E. cbn. now rewrite (mine_self _ _ Hj).
      * intros u. cbn. apply moved. apply pctx_mine; auto.
    + apply (bp_quiet i evs s []); auto using out_nil.
      * cbn. rewrite mine_not by congruence. reflexivity.
      * intros u. cbn. eapply quiet; [exact E|]. rewrite !pctx_not by congruence. reflexivity.
      * apply meq_nil.
  - (* abort *) cbn [aev]. rewrite app_nil_r. destruct (Hcode _ _ _ _ _ E) as (j & Hj). destruct (Nat.eq_dec i j) as [<-|Hn].
    + eapply (bp_tau i evs s ALtau (set_thr (proj i s) t ({| a_loc := view i l1; a_act := Some (c, Finished (-1)) |} :: map (pctx i) k))); auto.
      * eapply (A_abort _ g (cl i) (proj i s) t (view i l1)); [cbn; rewrite E; cbn; now rewrite pctx_mine|exact Hst].
      * intros u. cbn. apply moved. apply pctx_mine; auto.
    + rewrite <- (app_nil_r evs). apply (bp_quiet i evs s []); auto using out_nil, meq_nil.
      intros u. cbn. eapply quiet; [exact E|]. rewrite !pctx_not by congruence. reflexivity.
Qed.

Lemma many_path : forall evs s, apath g P a0 evs s -> in_code s /\ forall i, bp i evs s.
Proof.
  intros evs s H. remember a0 as si eqn:E0 in H. revert E0. induction H as [si|si evs s' l s'' H IH Hs]; intros E0; subst si.
  - split; [|intros i; apply bp_nil]. intros t x Hx Ha. rewrite (Hidle t x Hx) in Ha. congruence.
  - destruct (IH eq_refl) as [I1 I2]. split; [eapply in_code_step; eauto|]. apply many_step; auto.
Qed.

Lemma exec_path : forall ls s, aexec g P a0 ls s -> exists evs, apath g P a0 evs s.
Proof.
  clear Hidle HS. intros ls s H. induction H as [s|si ls s' l s'' H (evs & IH) Hs]; [exists []; constructor|].
  exists (evs ++ aev s' l). econstructor; eauto.
Qed.

Lemma flight_proj : forall s t c, in_code s -> in_flight s t c -> exists i l w k,
  turn l = Some i /\ a_thr s t = {| a_loc := l; a_act := Some (c, Pending w) |} :: k /\ in_flight (proj i s) t c.
Proof.
  intros s t c Hc [Hr (l & k & w & E)].
  destruct (Hc t {| a_loc := l; a_act := Some (c, Pending w) |}) as (i & Hi); [rewrite E; left; auto|discriminate|].
  exists i, l, w, k. split; auto. split; auto. split; [exact Hr|]. exists (view i l), (map (pctx i) k), w. cbn. rewrite E. cbn.
  now rewrite pctx_mine.
Qed.

Lemma many_safe : exclusive (a_on a0) -> safe_client g P a0.
Proof.
  intros Hex ls s He. destruct (exec_path _ _ He) as (evs & Hp). destruct (many_path _ _ Hp) as [Hc Hb].
  pose proof (a_exclusive Loc g P _ _ _ He Hex) as Hex'.
  split.
  - intros t c Hf. destruct (flight_proj s t c Hc Hf) as (i & l & w & k & Hi & E & _).
    destruct (bp_holds i evs s (Hb i)) as (S & gh & [HG HK]). destruct (HK t) as [K _]. cbn [proj a_thr a_mem] in *.
    rewrite E in K. cbn [map Stk] in K. rewrite pctx_mine in K by auto. eapply (st_wf _ _ _ _ S); [exact HG|apply K].
  - intros l s' t ps Hs Hw u c Hut Hf. destruct (flight_proj s u c Hc Hf) as (i & l1 & w & k & Hi & E & Hf').
    assert (Hdom : forall a, In a (in_use g (c_op c) (a_mem s)) -> dom i a).
    { intros a Ha. eapply (call_bytes i evs s); eauto. unfold touched. apply in_or_app. auto. }
    destruct (write_source Loc g P _ _ _ _ _ Hs Hw) as [(c' & Hc' & Ht)|(loc & k' & loc' & _ & E' & W)].
    + destruct (flight_proj s t c' Hc Hc') as (j & l2 & w2 & k2 & Hj & E2 & Hf2).
      destruct (Nat.eq_dec i j) as [<-|Hn].
      * destruct (bp_holds i evs s (Hb i)) as (S & gh & [HG HK]).
        assert (Hfl : forall v c1, in_flight (proj i s) v c1 -> forall a, In a (touched g (c_op c1) (a_mem (proj i s))) -> usable (sOwn S gh) v c1 a).
        { intros v c1 [_ (l3 & k3 & w3 & E3)]. destruct (HK v) as [K _]. rewrite E3 in K. eapply (st_wf _ _ _ _ S); [exact HG|apply K]. }
        refine (own_no_interference _ g (sOwn S gh) (proj i s) t ps Hex' Hfl _ u c Hut Hf').
        intros a Ha. right. exists c'. split; [exact Hf2|]. apply Hfl; [exact Hf2|]. apply Ht; exact Ha.
      * left. intros a Ha Hb'. apply (Hsep i j a Hn (Hdom a Hb')). eapply (call_bytes j evs s); eauto.
    + destruct (u_write _ _ _ _ _ _ Hu _ _ _ _ W) as [(j & Hj & Hw' & _)|(_ & Hk & _)].
      * destruct (Nat.eq_dec i j) as [<-|Hn].
        { destruct (bp_holds i evs s (Hb i)) as (S & gh & [HG HK]). destruct (HK t) as [K _]. destruct (HK u) as [K2 _].
          cbn [proj a_thr a_mem] in *. rewrite E' in K. rewrite E in K2. cbn [map Stk] in K, K2.
          rewrite pctx_idle in K. rewrite pctx_mine in K2 by auto.
          eapply (st_write _ _ _ _ S); [exact HG|apply K|exact Hw'|exact Hut|apply K2]. }
        { left. intros a Ha Hb'. apply (Hsep i j a Hn (Hdom a Hb')). eapply (store_bytes j evs s); eauto. }
      * left. intros a Ha Hb'. apply (Hk i a Ha). auto.
Qed.
End Many.

(** ** The concrete machine *)
Lemma observed_events : forall Loc pcs turn view i (evs : list (event Loc)),
  observed (events_of pcs turn view i evs) = events_of pcs turn view i (observed evs).
Proof.
  intros Loc pcs turn view i evs. unfold events_of. induction evs as [|e evs IH]; auto.
  cbn [flat_map]. unfold observed in *. rewrite filter_app, IH.
  destruct e; cbn; destruct (mine turn i _); reflexivity.
Qed.

(** The projection of related states. *)
Lemma seen_contexts : forall Loc g tx pcs turn (view : forall i, Loc -> piece_loc (pcs i)) i s a t, Rel Loc g tx s a ->
  contexts (seen pcs turn view i s) t =
  map (fun x => (a_loc x, match a_act x with Some _ => true | None => false end)) (a_thr (proj Loc pcs turn view i a) t).
Proof.
  intros Loc g tx pcs turn view i s a t HR. pose proof (rel_contexts Loc g tx s a t HR) as E. unfold contexts in *.
  cbn [seen s_thr t_ctx proj a_thr]. rewrite !map_map. revert E. generalize (a_thr a t).
  induction (t_ctx (s_thr s t)) as [|x xs IH]; intros ak E; destruct ak as [|ax ak]; try discriminate; auto.
  cbn in E. injection E as E1 E2 E3. cbn [map]. f_equal; [|apply IH; auto]. cbn. rewrite E1.
  destruct (mine turn i (a_loc ax)); auto. rewrite E2. auto.
Qed.

(** Calls in progress. *)
Lemma seen_progress : forall Loc g tx pcs turn (view : forall i, Loc -> piece_loc (pcs i)) i res th m0 ld top xs ak m k,
  stack_rel Loc g tx th m0 ld top xs ak -> open_ok (piece_loc (pcs i)) res m (map (pctx Loc pcs turn view i) ak) k ->
  map fst k = flat_map (fun x => match x_act x with Some f => [(x_loc x, f_call f)] | None => [] end) (map (seen_ctx pcs turn view i) xs).
Proof.
  intros Loc g tx pcs turn view i res th m0 ld top xs. revert top.
  induction xs as [|x xs IH]; intros top ak m k H Ho; destruct ak as [|ax ak]; cbn in H; try contradiction.
  - cbn in Ho. subst. reflexivity.
  - destruct H as [[H1 H2] H3]. cbn [map open_ok pctx a_act a_loc] in Ho. cbn [map flat_map seen_ctx x_act x_loc].
    rewrite <- H1 in Ho. destruct (mine turn i (x_loc x)); [|eapply IH; eauto].
    destruct (x_act x) as [f|], (a_act ax) as [[c st]|]; try contradiction.
    + destruct H2 as [-> _]. destruct Ho as (o & k' & -> & Ho & _). cbn. f_equal. eapply IH; eauto.
    + eapply IH; eauto.
Qed.

(** A run of the program gives a run of every structure. *)
Lemma composed : forall Loc g tx pcs turn (view : forall i, Loc -> piece_loc (pcs i)) P res s0 tr s,
  good_text g tx -> initial s0 -> uses g pcs turn view P -> separate g pcs ->
  (forall i, exists (S : struc g (piece_client g (pcs i)) (piece_bytes g (pcs i)) (res i)) gh0,
     sholds S gh0 [] (proj Loc pcs turn view i (abs_init s0))) ->
  path g tx P s0 tr s -> exists a, Rel Loc g tx s a /\
  forall i, exists evs, bpath g (piece_client g (pcs i)) (piece_bytes g (pcs i)) (proj Loc pcs turn view i (abs_init s0)) evs (proj Loc pcs turn view i a) /\
    linearized g (res i) (events_of pcs turn view i (obs tr)) (seen pcs turn view i s) evs.
Proof.
  intros Loc g tx pcs turn view P res s0 tr s Hgood Hi Hu Hsep HS Hp.
  assert (Hidle : forall t x, In x (a_thr (abs_init s0) t) -> a_act x = None).
  { intros u x Hx. cbn in Hx. apply in_map_iff in Hx. destruct Hx as (y & <- & _). reflexivity. }
  assert (Hsafe : safe_client g P (abs_init s0)).
  { eapply (many_safe Loc g pcs turn view P Hu Hsep res); eauto. apply init_exclusive; auto. }
  destruct (lin_path Loc g tx P Hgood s0 tr s Hi Hsafe Hp) as (evs & a & A1 & A2 & A3).
  exists a. split; auto. intros i. destruct (many_path Loc g pcs turn view P Hu Hsep res (abs_init s0) Hidle HS evs a A1) as [_ Hb].
  exists (events_of pcs turn view i evs). split; [apply Hb|]. split; [|split].
  - rewrite observed_events, A3. reflexivity.
  - intros t. destruct (HS i) as (S & gh0 & H0).
    assert (Hid : forall u x, In x (a_thr (proj Loc pcs turn view i (abs_init s0)) u) -> a_act x = None).
    { intros u x Hx. cbn [proj a_thr] in Hx. apply in_map_iff in Hx. destruct Hx as (y & <- & Hy). cbn. rewrite (Hidle u y Hy).
      destruct (mine turn i (a_loc y)); auto. }
    destruct (bpath_calls g _ _ _ S _ _ H0 Hid _ _ (Hb i) t) as (k & K1 & K2). exists k. split; auto.
    destruct A2 as (_ & At & _). destruct (At t) as (_ & _ & St). unfold in_progress. cbn [seen s_thr t_ctx].
    eapply seen_progress; eauto.
  - exact (bpath_effs g _ _ _ _ _ (Hb i)).
Qed.
