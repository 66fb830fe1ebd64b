(** Proofs for C62: structures in pool memory. *)
From Coq Require Import ZArith Bool List Lia.
From Verif Require Import RseqIR RseqSpec RseqKernel RseqSafe MemLemmas RunLemmas RseqSim RseqOwn RseqCalls Archs ArchsGood LinSpec LinProofs ClientModel ClientSpec ComposeModel ComposeSpec ComposeProofs ComposeKinds ComposeFinal.
From Verif Require Import UtilsModel PoolVM PoolVMLemmas PoolModel PoolInv PoolOps PoolWorld PoolHist PoolProps PlaceModel PlacePool.
Import ListNotations.
Local Open Scope Z_scope.

(** ** The stores of the code of a structure stay in its bytes *)
Section Stores.
Variable Loc : Type.
Variable g : cfg.
Variable tx : text.
Variable pcs : nat -> piece.
Variable turn : Loc -> option nat.
Variable view : forall i, Loc -> piece_loc (pcs i).
Variable Q : client Loc.
Hypothesis Hu : uses g pcs turn view Q.
Hypothesis Hsep : separate g pcs.
Hypothesis Hgood : good_text g tx.
Hypothesis Hok : forall i, piece_ok g (pcs i).
Variable s0 : state Loc.
Hypothesis Hi : initial s0.
Hypothesis Hst : forall i, piece_start g (pcs i) (seen pcs turn view i s0).

Lemma store_source : forall tr s t bs s', path g tx Q s0 tr s -> step g tx Q s (Lwr t bs) s' -> call_ok s (Lwr t bs) ->
  at_large turn s t \/ exists i, forall a, In a (map fst bs) -> piece_bytes g (pcs i) a.
Proof.
  intros tr s t bs s' Hp Hs Hc.
  pose (res := fun i => kind_res g (p_kind (pcs i))).
  assert (HS : forall i, exists (S : struc g (piece_client g (pcs i)) (piece_bytes g (pcs i)) (res i)) gh0,
     sholds S gh0 [] (proj Loc pcs turn view i (abs_init s0))).
  { intros j. apply (piece_struc g (pcs j) (seen pcs turn view j s0)); auto; [apply initial_seen; auto|apply like_seen]. }
  assert (Hidle : forall u x, In x (a_thr (abs_init s0) u) -> a_act x = None).
  { intros u x Hx. cbn in Hx. apply in_map_iff in Hx. destruct Hx as (y & <- & _). reflexivity. }
  assert (Hsafe : safe_client g Q (abs_init s0)).
  { eapply (many_safe Loc g pcs turn view Q Hu Hsep res); eauto. apply init_exclusive; auto. }
  destruct (lin_path Loc g tx Q Hgood s0 tr s Hi Hsafe Hp) as (evs & a & A1 & A2 & _).
  destruct (many_path Loc g pcs turn view Q Hu Hsep res (abs_init s0) Hidle HS evs a A1) as [Hcode Hb].
  destruct (apath_aexec _ _ _ _ _ _ A1) as (als & A4). destruct (Hsafe als a A4) as [Hwf Hni].
  destruct (sim_step Loc g tx Q Hgood s a A2 Hwf Hni _ _ Hs Hc) as [(ls & a' & J1 & _ & J3 & J4) _]. cbn [cvis1] in J3.
  assert (Hone : exists al, astep g Q a al a' /\ avis1 al = [VWrite t bs]).
  { destruct J4 as [Hl|Ht].
    - destruct ls as [|al [|? ?]]; [discriminate| |cbn in Hl; lia].
      exists al. cbn in J3. rewrite app_nil_r in J3. split; auto.
      inversion J1 as [|x ls y l0 z E1 E2 E3]; subst. destruct ls as [|b ls]; [|destruct ls; discriminate].
      cbn in *. inversion H; subst. inversion E1; subst; [auto|destruct ls; discriminate].
    - exfalso. clear - J3 Ht. assert (E : avis ls = []); [|congruence]. clear J3. induction ls as [|x ls IH]; auto.
      unfold avis in *. cbn. rewrite (Ht x) by (left; auto). cbn. apply IH. intros; apply Ht. right; auto. }
  destruct Hone as (al & Ha & Hv).
  assert (Hcall : forall l c w k att fin ps, a_thr a t = {| a_loc := l; a_act := Some (c, Pending w) |} :: k ->
    pseudo g (c_op c) (a_mem a) = OCommit att fin -> incl ps (att ++ fin) ->
    exists i, forall x, In x (map fst ps) -> piece_bytes g (pcs i) x).
  { intros l c w k att fin ps E Ep Hin.
    destruct (Hcode t {| a_loc := l; a_act := Some (c, Pending w) |}) as (i & Hj); [rewrite E; left; auto|discriminate|].
    exists i. intros x Hx. eapply (call_bytes Loc g pcs turn view res (abs_init s0) HS i evs a); eauto.
    eapply incl_touched; eauto. }
  inversion Ha; subst; cbn [avis1] in Hv; try discriminate Hv; inversion Hv; subst; clear Hv.
  - (* plain store *)
    destruct (u_write _ _ _ _ _ _ Hu _ _ _ _ H0) as [(i & Hj & Hw' & _)|(Hj & _)].
    + right. exists i. intros x Hx. eapply (store_bytes Loc g pcs turn view res (abs_init s0) HS i evs a); eauto.
    + left. pose proof (rel_contexts Loc g tx s a t A2) as E. unfold contexts in E. rewrite H in E.
      destruct (t_ctx (s_thr s t)) as [|[xl xa] k'] eqn:Ek; [discriminate|]. cbn in E. injection E as E1 _ _.
      exists xl, xa, k'. split; [exact Ek|congruence].
  - right. eapply Hcall; eauto. intros p Hp'. apply in_or_app. left. auto.
  - right. eapply Hcall; eauto. intros p Hp'. apply in_or_app. right. auto.
Qed.
End Stores.

(** ** Pool calls as stores of the program *)
Section Joint.
Variable Loc : Type.
Variable e : env.
Variable v0 : vm.
Variable g : cfg.
Variable tx : text.
Variable pcs : nat -> piece.
Variable turn : Loc -> option nat.
Variable view : forall i, Loc -> piece_loc (pcs i).
Variable P : client Loc.
Variable busy : ledger.
Hypothesis Hu : uses g pcs turn view P.
Hypothesis Hsep : separate g pcs.
Hypothesis Hgood : good_text g tx.
Hypothesis Hok : forall i, piece_ok g (pcs i).
Variable j0 : jstate Loc.
Notation s0 := (j_s j0).
Notation w0 := (j_w j0).
Hypothesis Hi : initial s0.
Hypothesis Hst : forall i, piece_start g (pcs i) (seen pcs turn view i s0).
Hypothesis Hlinks : forall q, link v0 q = None.
Hypothesis H0 : history e true v0 w0 (j_live j0) (j_freed j0).
Hypothesis Hagree : agrees e v0 (s_mem s0) w0 (j_live j0).
Hypothesis Hbusy : incl busy (j_live j0).
Hypothesis Hplaced : forall i a, piece_bytes g (pcs i) a -> good_write e v0 w0 busy a.

Definition plus : client Loc :=
  {| cl_call := cl_call _ P; cl_ret := cl_ret _ P;
     cl_write := fun l m bs l' => cl_write _ P l m bs l' \/
       (turn l = None /\ (forall i a, In a (map fst bs) -> ~ piece_bytes g (pcs i) a) /\ forall i, view i l' = view i l);
     cl_tau := cl_tau _ P; cl_sig := cl_sig _ P; cl_done := cl_done _ P |}.

Lemma plus_uses : uses g pcs turn view plus.
Proof.
  destruct Hu as [U1 U2 U3 U4 U5 U6]. split; [exact U1|exact U2| |exact U4|exact U5|exact U6].
  intros l m bs l' [H|H]; [apply U3; exact H|]. right. exact H.
Qed.

Lemma plus_step : forall s l s', step g tx P s l s' -> step g tx plus s l s'.
Proof.
  intros s l s' H. destruct H; try (change (cl_ret Loc P) with (cl_ret Loc plus));
    try (econstructor; eauto; fail).
  eapply S_write; eauto. left. auto.
Qed.

(** Pool calls spare the busy items. *)
Lemma busy_stays : forall w L F o w' x, history e true v0 w L F -> allowed e true v0 w L o -> run1 e o w = Ok (w', x) ->
  pool_call busy o \/ is_store o = true -> incl busy L -> incl busy (live_after o x L).
Proof.
  intros w L F o w' x HH Ha Hr Hp Hb [id a] Hin. specialize (Hb _ Hin). destruct Hp as [Hp|Hp].
  - destruct o; cbn in *; auto.
    + destruct x; auto. right. auto.
    + apply filter_In. split; auto. cbn. destruct (Z.eqb_spec a ptr); auto. subst. exfalso. eapply Hp; eauto.
    + apply filter_In. split; auto. cbn. destruct (Z.eqb_spec id id0); auto. subst. exfalso. eapply Hp; eauto.
  - destruct o; try discriminate. exact Hb.
Qed.

Lemma place_stays : forall w L F o w' x, history e true v0 w L F -> allowed e true v0 w L o -> run1 e o w = Ok (w', x) ->
  pool_call busy o \/ is_store o = true -> forall a, good_write e v0 w busy a -> good_write e v0 w' busy a.
Proof.
  intros w L F o w' x HH Ha Hr Hp a [H|(id & Q & it & Hin & Hb & Hx)]; [left; auto|]. right.
  destruct (pool_stays e true v0 w L F HH id Q o w' x Hin Ha Hr) as (Q' & Hin' & (S1 & S2 & _)).
  { destruct o; auto. destruct Hp as [Hp|Hp]; [|discriminate]. intros ->. exact (Hp _ Hb). }
  exists id, Q', it. split; auto. split; auto. unfold item_byte, percpu_ptr in *. rewrite S1, S2. exact Hx.
Qed.

Lemma good_sub : forall w L a, incl busy L -> good_write e v0 w busy a -> good_write e v0 w L a.
Proof. intros w L a Hb [H|(id & Q & it & H1 & H2 & H3)]; [left; auto|]. right. exists id, Q, it. auto. Qed.

Lemma call_spares : forall w L F o w' x a, history e true v0 w L F -> allowed e true v0 w L o -> run1 e o w = Ok (w', x) ->
  pool_call busy o -> incl busy L -> good_write e v0 w busy a -> PoolVM.view e (w_vm w') a = PoolVM.view e (w_vm w) a.
Proof.
  intros w L F o w' x a HH Ha Hr Hp Hb [H|(id & Q & it & Hin & Hit & Hx)].
  - apply (fr_view _ _ _ _ (own_frame e true v0 w L F HH o w' x Ha Hr ltac:(destruct o; auto; contradiction))). auto.
  - eapply (item_frame e true v0 w L F HH id Q it a o w' x); eauto.
    destruct o; cbn in Hp; try contradiction; auto.
    + intros E. inversion E; subst. contradiction.
    + intros ->. eapply Hp; eauto.
    + intros ->. eapply Hp; eauto.
Qed.

Definition jinv (tr : list (state Loc * clabel)) (j : jstate Loc) : Prop :=
  path g tx plus s0 tr (j_s j) /\ history e true v0 (j_w j) (j_live j) (j_freed j) /\ incl busy (j_live j) /\
  agrees e v0 (s_mem (j_s j)) (j_w j) (j_live j) /\
  forall i a, piece_bytes g (pcs i) a -> good_write e v0 (j_w j) busy a.

Lemma code_stores : forall tr j t bs s', jinv tr j -> step g tx P (j_s j) (Lwr t bs) s' -> call_ok (j_s j) (Lwr t bs) ->
  at_large turn (j_s j) t \/ exists i, forall a, In a (map fst bs) -> piece_bytes g (pcs i) a.
Proof.
  intros tr j t bs s' (I1 & _) Hs Hc.
  eapply (store_source Loc g tx pcs turn view plus plus_uses Hsep Hgood Hok s0 Hi Hst); eauto. apply plus_step; eauto.
Qed.

Lemma step_wr : forall (Q : client Loc) s t bs s', step g tx Q s (Lwr t bs) s' -> s_mem s' = wr (s_mem s) bs.
Proof. intros Q s t bs s' H. inversion H; subst; reflexivity. Qed.
Lemma step_not_wr : forall (Q : client Loc) s l s', step g tx Q s l s' -> (forall t bs, l <> Lwr t bs) -> s_mem s' = s_mem s.
Proof. intros Q s l s' H Hn. inversion H; subst; try reflexivity; exfalso; eapply Hn; reflexivity. Qed.

Lemma psz_pos : 0 < e_page e.
Proof. destruct H0 as (((po & Hpo & E) & _) & _). rewrite E. apply Z.pow_pos_nonneg; lia. Qed.

Lemma jinv_step : forall tr j l j', jinv tr j -> jstep e v0 g tx pcs turn view P busy j l j' -> jinv (tr ++ [(j_s j, l)]) j'.
Proof.
  intros tr j l j' HI Hs. pose proof HI as (I1 & I2 & I3 & I4 & I5). destruct Hs as [s w L F l s' Hs Hc Hn|s w L F t bs s' w' x Hs Hc Hr Hg|s w L F t l k l' o w' x bs Hrun Ek Htl Hv Hp Ha Hr Hch];
    cbn [j_s j_w j_live j_freed] in *.
  - split; [eapply path_snoc; [exact I1|apply plus_step; exact Hs|exact Hc]|]. split; [exact I2|]. split; [exact I3|]. split; [|exact I5].
    cbn [j_s j_w j_live]. rewrite (step_not_wr _ _ _ _ Hs Hn). exact I4.
  - assert (Hgw : forall a, In a (map fst bs) -> good_write e v0 w L a).
    { intros a Hin. destruct (code_stores tr _ t bs s' HI Hs Hc) as [Hal|(i & Hb)]; [apply Hg; auto|].
      apply good_sub; auto. eapply I5; eauto. }
    assert (Hal : allowed e true v0 w L (OWrite bs)) by (intros a Hin; left; auto).
    pose proof Hr as Hr'. cbn [run1] in Hr'. destruct (forallb _ bs); [|discriminate]. injection Hr' as <- <-.
    split; [eapply path_snoc; [exact I1|apply plus_step; exact Hs|exact Hc]|].
    split; [exact (hist_step e true v0 w L F (OWrite bs) _ _ I2 Hal Hr)|]. split; [exact I3|].
    cbn [j_s j_w j_live]. split.
    + intros a Hin. rewrite (step_wr _ _ _ _ _ Hs). cbn [w_vm].
      apply (store_agrees e (fun a => good_write e v0 w L a)); auto.
      * apply psz_pos.
      * apply (wi_wf _ _ _ _ _ _ (hist_inv e _ _ _ _ _ I2)).
      * intros y c Hy Hc' Hali. eapply (good_alias e true v0 w L F I2); eauto. eapply hist_links; eauto.
    + intros i a Hb. exact (I5 i a Hb).
  - assert (Hout : forall i a, In a (map fst bs) -> ~ piece_bytes g (pcs i) a).
    { intros i a Hin Hb. destruct Hch as [_ Hch]. eapply (Hch a Hin); [apply good_sub; eauto|].
      eapply call_spares; eauto. }
    split.
    { eapply path_snoc; [exact I1| |exact Logic.I]. eapply S_write; [exact Hrun|exact Ek|]. right. auto. }
    split; [exact (hist_step e true v0 w L F o w' x I2 Ha Hr)|].
    split; [eapply busy_stays; eauto|]. cbn [j_s j_w j_live j_freed]. split; [apply Hch|].
    intros i a Hb. eapply place_stays; eauto.
Qed.

Lemma jpath_inv : forall tr j, jpath e v0 g tx pcs turn view P busy j0 tr j -> jinv tr j.
Proof.
  intros tr j H. remember j0 as ji eqn:E in H. revert E. induction H as [ji|ji tr j l j' H IH Hs]; intros ->.
  - split; [constructor|]. auto.
  - eapply jinv_step; eauto.
Qed.
End Joint.
