(** Helper calls on weakly ordered memory: proofs for C53. *)
From Coq Require Import ZArith Bool List Lia Arith.
From Verif Require Import RseqIR RseqSpec RseqKernel RseqSafe RseqProps MemLemmas RunLemmas RseqSim RseqOwn RseqCalls RseqMisc.
From Verif Require Import Archs ArchsGood RaceSpec RaceProofs ViewModel ViewSpec.
Import ListNotations.
Local Open Scope Z_scope.

(** ** Stores *)
Definition top (h : list (nat * Z)) (i : nat) (b : Z) : Prop :=
  In (i, b) h /\ forall j c, In (j, c) h -> (j, c) = (i, b) \/ (j < i)%nat.

Lemma stores_mono : forall ps h v h' v', stores ps h v h' v' -> forall x, (v x <= v' x)%nat.
Proof.
  intros ps h v h' v' H. induction H as [|x b ps h v i h' v' H1 H2 H3 IH]; intros y; auto.
  specialize (IH y). cbn in IH. destruct (Z.eqb_spec y x); subst; lia.
Qed.

Lemma stores_top : forall ps h v h' v', stores ps h v h' v' -> forall (M : mem) x i0,
  top (h x) i0 (M x) -> (In x (map fst ps) -> (i0 <= v x)%nat) ->
  exists i1, top (h' x) i1 (wr M ps x) /\ ((i0 <= v x)%nat -> (i1 <= v' x)%nat) /\ (~ In x (map fst ps) -> i1 = i0).
Proof.
  intros ps h v h' v' H. induction H as [|y b ps h v i h' v' H1 H2 H3 IH]; intros M x i0 Ht Hv.
  - exists i0. split; auto.
  - cbn [map fst In] in *. rewrite wr_cons. destruct (Z.eq_dec x y) as [->|Hn].
    + assert (Ht1 : top ((i, b) :: h y) i (upd_mem M (y, b) y)).
      { unfold upd_mem. cbn [fst snd]. rewrite Z.eqb_refl. split; [left; auto|]. intros j c [E|E]; [left; congruence|].
        right. destruct (proj2 Ht j c E) as [F|F]; [injection F as -> ->|]; specialize (Hv (or_introl eq_refl)); lia. }
      destruct (IH (upd_mem M (y, b)) y i) as (i1 & J1 & J2 & J3).
      * rewrite Z.eqb_refl. exact Ht1.
      * rewrite Z.eqb_refl. auto.
      * exists i1. split; auto. rewrite Z.eqb_refl in J2. split; [intros _; apply J2; auto|]. intros F. exfalso. apply F. auto.
    + destruct (IH (upd_mem M (y, b)) x i0) as (i1 & J1 & J2 & J3).
      * destruct (Z.eqb_spec x y); [contradiction|]. unfold upd_mem. cbn [fst snd]. destruct (Z.eqb_spec x y); [contradiction|auto].
      * destruct (Z.eqb_spec x y); [contradiction|]. auto.
      * destruct (Z.eqb_spec x y); [contradiction|]. exists i1. split; auto. split; auto. 
Qed.

(** ** Steps on another memory *)
Lemma istep_rd : forall g P m m' idx pc rs pc' rs' e rd, istep g P m idx pc rs = Some (pc', rs', e, rd) ->
  exists pc2 rs2 e2, istep g P m' idx pc rs = Some (pc2, rs2, e2, rd).
Proof.
  intros g P m m' idx pc rs pc' rs' e rd H. unfold istep in *. destruct (nth_error (code P) pc) as [i|]; [|discriminate H].
  destruct i; try discriminate H; injection H as <- <- <- <-; eauto.
Qed.

Section View.
Variables (Loc : Type) (g : cfg) (a : arch) (tw : bool) (tx : text) (cl : client Loc) (s0 : state Loc).
Hypothesis Htx : lib_text a tw tx.
Hypothesis Hinit : initial s0.
Let Hgood : good_text g tx := lib_good g a tw tx Htx.
Notation state := (state Loc).
Notation astate := (astate Loc).
Notation wstate := (wstate Loc).

Lemma step_on_memory : forall (s : state) t m M l s',
  step g tx cl (set_m s m) l s' -> acts t s l s' ->
  (forall l0 f k P kd pc' rs' e rd, running (s_thr s t) -> t_ctx (s_thr s t) = {| x_loc := l0; x_act := Some f |} :: k ->
     tx (c_code (f_call f)) = Some (P, kd) ->
     istep g P M (index (t_area (s_thr s t)) (pmode P)) (f_pc f) (f_rs f) = Some (pc', rs', e, rd) ->
     agree rd m M) ->
  (forall l0 k, t_ctx (s_thr s t) = {| x_loc := l0; x_act := None |} :: k ->
     (forall c, cl_call _ cl l0 m c -> cl_call _ cl l0 M c) /\
     (forall ps l', cl_write _ cl l0 m ps l' -> cl_write _ cl l0 M ps l') /\
     (forall l', cl_tau _ cl l0 m l' -> cl_tau _ cl l0 M l')) ->
  step g tx cl (set_m s M) l (set_m s' (wr M (wrote l))).
Proof.
  intros s t m M l s' Hs [Ho Hl] Hrd Hcl.
  assert (Hthr : forall t0 th, (s_thr (set_t s t0 th) t <> s_thr s t \/ (exists id : nat, s_loaded s id <> s_loaded s id)) -> t0 = t).
  { intros t0 th [H|(id & H)]; [|congruence]. destruct (Nat.eq_dec t0 t) as [|Hn]; auto. exfalso. apply H. cbn.
    destruct (Nat.eqb_spec t t0); [congruence|reflexivity]. }
  assert (Hi : forall l0 f k P kd pc' rs' e rd, running (s_thr s t) -> t_ctx (s_thr s t) = {| x_loc := l0; x_act := Some f |} :: k ->
     tx (c_code (f_call f)) = Some (P, kd) ->
     istep g P m (index (t_area (s_thr s t)) (pmode P)) (f_pc f) (f_rs f) = Some (pc', rs', e, rd) ->
     istep g P M (index (t_area (s_thr s t)) (pmode P)) (f_pc f) (f_rs f) = Some (pc', rs', e, rd)).
  { intros l0 f k P kd pc' rs' e rd H1 H2 H3 H4. destruct (istep_rd g P m M _ _ _ _ _ _ _ H4) as (pc2 & rs2 & e2 & H5).
    eapply istep_agree; [exact H4|]. eapply Hrd; eauto. }
  remember (set_m s m) as sm eqn:Esm.
  destruct Hs as [s1 t0 l0 k f P kd pc' rs' e rd R1 R2 R3 R4 R5 R6|s1 t0 l0 k f P kd pc' rs' ps rd R1 R2 R3 R4 R5|s1 t0 l0 k f P kd pc' rs' x rd r R1 R2 R3 R4 R5 R6|s1 t0 l0 k f P kd pc' rs' x rd R1 R2 R3 R4 R5 R6|s1 t0 l0 k c P kd junk R1 R2 R3 R4 R5 R6 R7 R8|s1 t0 l0 k ps l' R1 R2 R3|s1 t0 l0 k l' R1 R2 R3|s1 t0 l0 k R1 R2|s1 id R1|s1 t0 R1|s1 t0 cpu cid R1 R2 R3 R4 R5|s1 t0 R1|s1 t0 x k l' R1 R2 R3|s1 t0 l0 x k R1 R2 R3|s1 t0 l0 cpu cid R1 R2 R3 R4|s1 t0 l0 R1 R2 R3];
    subst s1; cbn [s_mem s_thr s_loaded set_m] in *; cbn [wrote].
  - assert (t0 = t) by (eapply Hthr; exact Hl). subst t0.
    exact (S_instr Loc g tx cl (set_m s M) t l0 k f P kd pc' rs' e rd R1 R2 R3 R4 (Hi _ _ _ _ _ _ _ _ _ R1 R2 R3 R5) R6).
  - subst t0. exact (S_store Loc g tx cl (set_m s M) t l0 k f P kd pc' rs' ps rd R1 R2 R3 R4 (Hi _ _ _ _ _ _ _ _ _ R1 R2 R3 R5)).
  - subst t0. exact (S_return Loc g tx cl (set_m s M) t l0 k f P kd pc' rs' x rd r R1 R2 R3 R4 (Hi _ _ _ _ _ _ _ _ _ R1 R2 R3 R5) R6).
  - subst t0. exact (S_bug Loc g tx cl (set_m s M) t l0 k f P kd pc' rs' x rd R1 R2 R3 R4 (Hi _ _ _ _ _ _ _ _ _ R1 R2 R3 R5) R6).
  - subst t0. exact (S_call Loc g tx cl (set_m s M) t l0 k c P kd junk R1 R2 (proj1 (Hcl _ _ R2) _ R3) R4 R5 R6 R7 R8).
  - subst t0. exact (S_write Loc g tx cl (set_m s M) t l0 k ps l' R1 R2 (proj1 (proj2 (Hcl _ _ R2)) _ _ R3)).
  - assert (t0 = t) by (eapply Hthr; exact Hl). subst t0.
    exact (S_local Loc g tx cl (set_m s M) t l0 k l' R1 R2 (proj2 (proj2 (Hcl _ _ R2)) _ R3)).
  - exact (S_clear_cs Loc g tx cl (set_m s M) t0 l0 k R1 R2).
  - exact (S_unload Loc g tx cl (set_m s M) id R1).
  - exact (S_preempt Loc g tx cl (set_m s M) t0 R1).
  - exact (S_resume Loc g tx cl (set_m s M) t0 cpu cid R1 R2 R3 R4 R5).
  - exact (S_ipi Loc g tx cl (set_m s M) t0 R1).
  - exact (S_signal Loc g tx cl (set_m s M) t0 x k l' R1 R2 R3).
  - exact (S_sigret Loc g tx cl (set_m s M) t0 l0 x k R1 R2 R3).
  - exact (S_register Loc g tx cl (set_m s M) t0 l0 cpu cid R1 R2 R3 R4).
  - exact (S_unregister Loc g tx cl (set_m s M) t0 l0 R1 R2 R3).
Qed.

(** ** What an instruction reads *)
Lemma reads_in_flight : forall (s : state) ab, Rel Loc g tx s ab ->
  (forall t c, in_flight ab t c -> op_wf g (c_op c) (a_mem ab)) ->
  forall t l0 f k P kd pc' rs' e rd, running (s_thr s t) -> t_ctx (s_thr s t) = {| x_loc := l0; x_act := Some f |} :: k ->
  tx (c_code (f_call f)) = Some (P, kd) ->
  istep g P (s_mem s) (index (t_area (s_thr s t)) (pmode P)) (f_pc f) (f_rs f) = Some (pc', rs', e, rd) ->
  rd = [] \/ (in_flight ab t (f_call f) /\ incl rd (touched g (c_op (f_call f)) (a_mem ab))).
Proof.
  intros s ab HR Hwf t l0 f k P kd pc' rs' e rd Hrun Hctx Ht Hs.
  destruct rd as [|x0 rd0] eqn:Erd; [auto|]. right. rewrite <- Erd in *.
  assert (Hne : rd <> []) by (rewrite Erd; discriminate). clear Erd x0 rd0.
  destruct (Htx _ _ _ Ht) as (rel & md & Hh).
  pose proof (access_placed g P _ _ _ _ _ _ _ _ (helper_placed _ _ _ _ _ _ Hh) Hs (or_intror Hne)) as Hpc.
  pose proof (check_ge P) as Hge.
  destruct (top_frame _ _ _ _ _ _ _ _ _ HR Hctx) as (st & ak & Ea & Hf & _).
  destruct Hf as (P0 & A1 & A2 & A3 & A4 & A5 & A6). rewrite A1 in Ht. injection Ht as <- <-. rewrite A2 in Hs.
  destruct A6 as [[B1 _]|[[B1 _]|(B1 & B3 & [(w & B2 & B4)|[B2 B4]])]]; [lia|lia| |].
  - destruct (cs_frame Loc g tx Hgood s ab HR Hwf t l0 f ak st P0 w Hrun Ea A1 A3 A5 B2 B4)
      as (C1 & junk & r & n & S1 & S2 & S3 & S4 & S5 & S6 & _).
    rewrite <- S2, <- S3 in Hs. rewrite (proj1 HR).
    assert (HC : index (t_area (s_thr s t)) (c_mode (f_call f)) = cpuarg (f_call f) /\ incl rd (read_foot g (c_op (f_call f)) (s_mem s))).
    { inversion S6 as [k' s' pc2 rs2 e2 rd2 I1 I2 I3 I4 I5 I6 I7|k' s' rs2 att fin rd2 I1 I2 I3 I4|k' s' pc2 rs2 I1 I2|k' s' pc2 rs2 I1 I2 I3]; subst.
      - rewrite I2 in Hs. injection Hs as <- <- <- <-. destruct I6 as [[I6 _]|I6]; [contradiction|auto].
      - rewrite I2 in Hs. injection Hs as <- <- <- <-. auto.
      - rewrite I2 in Hs. injection Hs as <- <- <- <-. congruence.
      - rewrite I3 in Hs. injection Hs as <- <- <- <-. congruence. }
    destruct HC as [HC1 HC2]. destruct (C1 HC1) as (_ & C3 & _). split; auto.
    intros x Hx. unfold touched, in_use. apply in_or_app. left. apply in_or_app. left. auto.
  - exfalso. destruct Hrun as [Hon _]. destruct (B4 (or_intror Hon)) as (m0 & r & n & HS & E1 & E2 & Hi & Ho & Hp & Hrd).
    rewrite <- E1, <- E2 in Hs.
    inversion HS as [k' s' pc2 rs2 e2 rd2 I1 I2 I3 I4 I5 I6 I7 I8 I9 I10|k' s' rs2 att fin rd2 I1 I2 I3 I4 I5|k' s' pc2 rs2 I1 I2|k' s' pc2 rs2 I1 I2 I3 I4 I5 I6]; subst.
    + destruct (I9 Ho Hp) as [Hz|Hz]; [contradiction|]. subst rd2.
      apply (istep_agree g P0 m0 (s_mem s)) in I2; [|intros x []]. congruence.
    + congruence.
    + apply (istep_agree g P0 m0 (s_mem s)) in I2; [|intros x []]. congruence.
    + congruence.
Qed.

(** ** The discipline *)
Variable OWN : astate -> (Z -> owner) -> Prop.
Variable own0 : Z -> owner.
Hypothesis O_init : OWN (abs_init s0) own0.
Hypothesis O_call : forall ab own, OWN ab own -> forall t c, in_flight ab t c ->
  op_wf g (c_op c) (a_mem ab) /\ forall x, In x (touched g (c_op c) (a_mem ab)) -> usable own t c x.
Hypothesis O_local : forall ab own, OWN ab own -> forall t l k, a_thr ab t = {| a_loc := l; a_act := None |} :: k ->
  (forall ps l', cl_write _ cl l (a_mem ab) ps l' -> forall x, In x (map fst ps) -> own x = OThr t) /\
  (forall m, same_own_bytes own t (a_mem ab) m ->
     (forall c, cl_call _ cl l m c -> cl_call _ cl l (a_mem ab) c) /\
     (forall ps l', cl_write _ cl l m ps l' -> cl_write _ cl l (a_mem ab) ps l') /\
     (forall l', cl_tau _ cl l m l' -> cl_tau _ cl l (a_mem ab) l')).
Hypothesis O_step : forall ab own, OWN ab own -> forall l a', astep g cl ab l a' -> exists own', OWN a' own' /\
  forall x, own' x = own x \/ exists t c ps, l = ALcommit t c ps /\ usable own t c x /\ usable own' t c x.

Lemma own_reached0 : forall a0 ls ab, aexec g cl a0 ls ab -> (exists own, OWN a0 own) -> exists own, OWN ab own.
Proof.
  intros a0 ls ab H. induction H as [|si ls s' l s'' H IH Hs]; intros H0; auto.
  destruct (IH H0) as (own & Ho). destruct (O_step _ _ Ho _ _ Hs) as (own' & Ho' & _). eauto.
Qed.
Lemma own_reached : forall ls ab, aexec g cl (abs_init s0) ls ab -> exists own, OWN ab own.
Proof. intros ls ab H. eapply own_reached0; eauto. Qed.

Lemma owned_safe : safe_client g cl (abs_init s0).
Proof.
  intros ls ab H. destruct (own_reached _ _ H) as (own & Ho). split.
  - intros t c Hc. exact (proj1 (O_call _ _ Ho _ _ Hc)).
  - intros l s' t ps Hs Hw. apply (own_no_interference Loc g own).
    + eapply a_exclusive; eauto. apply init_exclusive; auto.
    + intros u c Hc. exact (proj2 (O_call _ _ Ho _ _ Hc)).
    + intros x Hx. destruct (write_source Loc g cl _ _ _ _ _ Hs Hw) as [(c & Hc & Ht)|(l0 & k & l' & _ & E & W)].
      * right. exists c. split; auto. apply (proj2 (O_call _ _ Ho _ _ Hc)); auto.
      * left. eapply (proj1 (O_local _ _ Ho _ _ _ E)); eauto.
Qed.

Lemma own_taus : forall ab ls a', aexec g cl ab ls a' -> (forall l, In l ls -> l = ALtau) ->
  forall own, OWN ab own -> exists own', OWN a' own' /\ forall x, own' x = own x.
Proof.
  intros ab ls a' H. induction H as [|si ls s' l s'' H IH Hs]; intros Hl own Ho; [eauto|].
  destruct (IH (fun l Hin => Hl l (in_or_app _ _ _ (or_introl Hin))) own Ho) as (own1 & J1 & J2).
  destruct (O_step _ _ J1 _ _ Hs) as (own2 & J3 & J4). exists own2. split; auto. intros x.
  destruct (J4 x) as [E|(t & c & ps & E & _)]; [congruence|].
  rewrite (Hl l) in E; [discriminate E|]. apply in_or_app; right; left; reflexivity.
Qed.

(** ** The invariant *)
Definition on_at (s : state) (md : imode) (c : Z) (t : nat) : Prop := on_index (t_on (s_thr s t)) md = Some c.
Definition left_view (W : wstate) (md : imode) (c : Z) : view :=
  match md with CPU_ID => w_cpu W c | MM_CID => w_cid W c end.
Definition ok (W : wstate) (own : Z -> owner) (x : Z) (i : nat) : Prop :=
  match own x with
  | OThr t => (i <= w_thr W t x)%nat
  | OCpu md c => (forall t, on_at (w_core W) md c t -> (i <= w_thr W t x)%nat) /\
      ((forall t, ~ on_at (w_core W) md c t) -> (i <= left_view W md c x)%nat)
  | ONone => True
  end.
Definition K (W : wstate) (own : Z -> owner) (M : mem) : Prop :=
  forall x, exists i, top (w_hist W x) i (M x) /\ ok W own x i.
Definition mine (s : state) (own : Z -> owner) (t : nat) (x : Z) : Prop :=
  own x = OThr t \/ exists md c, own x = OCpu md c /\ on_at s md c t.

Lemma see_mine : forall W own M t m x, K W own M -> sees W t m -> mine (w_core W) own t x -> m x = M x.
Proof.
  intros W own M t m x HK Hs Hm. destruct (HK x) as (i & [_ Ht] & Hok). destruct (Hs x) as (j & Hj & Hle).
  assert (Hi : (i <= w_thr W t x)%nat).
  { unfold ok in Hok. destruct Hm as [E|(md & c & E & Hc)]; rewrite E in Hok; auto. apply Hok; auto. }
  destruct (Ht j (m x) Hj) as [E|E]; [congruence|lia].
Qed.

Lemma usable_mine : forall (s : state) ab own t c x, Rel Loc g tx s ab -> in_flight ab t c -> usable own t c x -> mine s own t x.
Proof.
  intros s ab own t c x HR [Hr _] [E|E]; [|left; auto]. right. exists (c_mode c), (c_cpu c). split; auto.
  exact (proj2 (Rel_right Loc g tx s ab t c HR Hr)).
Qed.

Lemma at_one : forall (s : state), exclusive (fun t => t_on (s_thr s t)) -> forall md c t u,
  on_at s md c t -> on_at s md c u -> t = u.
Proof.
  intros s Hex md c t u H1 H2. destruct (Nat.eq_dec t u) as [|Hn]; auto. exfalso. unfold on_at, on_index in *.
  destruct (t_on (s_thr s t)) as [[c1 d1]|] eqn:E1; [|discriminate]. destruct (t_on (s_thr s u)) as [[c2 d2]|] eqn:E2; [|discriminate].
  destruct (Hex t u c1 d1 c2 d2 Hn E1 E2). destruct md; congruence.
Qed.

Lemma join_l : forall v w x, (v x <= join v w x)%nat.
Proof. intros. unfold join. lia. Qed.
Lemma join_r : forall v w x, (w x <= join v w x)%nat.
Proof. intros. unfold join. lia. Qed.
Lemma arrive_ge : forall (W : wstate) o o' v x, (v x <= arrive W o o' v x)%nat.
Proof. intros W o o' v x. unfold arrive. destruct o; auto. destruct o' as [[cpu cid]|]; auto. apply join_l. Qed.

Section Next.
Variables (W : wstate) (t : nat) (s' : state) (h' : Z -> list (nat * Z)) (v' : view).
Hypothesis Hoth : forall u, u <> t -> s_thr s' u = s_thr (w_core W) u.
Hypothesis Hon : t_on (s_thr s' t) = t_on (s_thr (w_core W) t) \/ t_on (s_thr s' t) = None \/ t_on (s_thr (w_core W) t) = None.
Hypothesis Hex : exclusive (fun t => t_on (s_thr (w_core W) t)).
Hypothesis Hex' : exclusive (fun t => t_on (s_thr s' t)).
Hypothesis Hv : forall x, (w_thr W t x <= v' x)%nat.
Let on := t_on (s_thr (w_core W) t).
Let on' := t_on (s_thr s' t).
Definition next : wstate :=
  {| w_core := s'; w_hist := h';
     w_thr := fun u => if Nat.eqb u t then arrive W on on' v' else w_thr W u;
     w_cpu := leave_cpu W on on' v'; w_cid := leave_cid W on on' v' |}.

Lemma next_thr : forall u x, (w_thr W u x <= w_thr next u x)%nat.
Proof.
  intros u x. cbn. destruct (Nat.eqb_spec u t) as [->|]; auto. etransitivity; [apply Hv|apply arrive_ge].
Qed.
Lemma next_left : forall md c x, (left_view W md c x <= left_view next md c x)%nat.
Proof.
  intros md c x. unfold left_view. destruct md; cbn; [unfold leave_cpu|unfold leave_cid]; destruct on as [[cpu cid]|]; auto;
    destruct on'; auto; match goal with |- context [c =? ?k] => destruct (c =? k) end; auto; apply join_l.
Qed.

Lemma ok_next : forall own x i0 i1, ok W own x i0 -> ((i0 <= w_thr W t x)%nat -> (i1 <= v' x)%nat) ->
  (~ mine (w_core W) own t x -> i1 = i0) -> ok next own x i1.
Proof.
  intros own x i0 i1 Hok H1 H2. unfold ok in *. destruct (own x) as [md c|u|] eqn:Eo; auto.
  - destruct Hok as [K1 K2].
    assert (Hdec : on_at (w_core W) md c t \/ ~ on_at (w_core W) md c t).
    { unfold on_at. destruct (on_index (t_on (s_thr (w_core W) t)) md) as [j|]; [|right; discriminate].
      destruct (Z.eq_dec j c) as [->|]; [left; auto|right; congruence]. }
    split.
    + intros u Hu. destruct (Nat.eq_dec u t) as [->|Hn].
      * destruct Hdec as [Hd|Hd].
        { specialize (H1 (K1 t Hd)). cbn. rewrite Nat.eqb_refl. etransitivity; [exact H1|apply arrive_ge]. }
        { assert (Hno : forall u, ~ on_at (w_core W) md c u).
          { intros u Hu'. destruct (Nat.eq_dec u t) as [->|Hn]; [contradiction|]. apply Hn.
            apply (at_one s' Hex' md c); auto. unfold on_at. rewrite Hoth; auto. }
          rewrite H2; [|intros [E|(md2 & c2 & E & E2)]; [congruence|]; assert (md2 = md) by congruence; assert (c2 = c) by congruence; subst; contradiction].
          etransitivity; [exact (K2 Hno)|].
          cbn. rewrite Nat.eqb_refl. unfold on, on'. unfold on_at in Hu, Hd. cbn in Hu.
          destruct (t_on (s_thr s' t)) as [[cpu cid]|] eqn:E'; [|discriminate Hu].
          destruct Hon as [E|[E|E]]; [rewrite <- E in Hd; contradiction|discriminate E|]. rewrite E. unfold arrive, left_view. cbn in Hu.
          etransitivity; [|apply join_r]. destruct md; injection Hu as <-; [apply join_l|apply join_r]. }
      * assert (Hu' : on_at (w_core W) md c u). { unfold on_at in *. cbn in Hu. rewrite Hoth in Hu; auto. }
        rewrite H2; [etransitivity; [exact (K1 u Hu')|apply next_thr]|].
        intros [E|(md2 & c2 & E & E2)]; [congruence|]. assert (md2 = md) by congruence; assert (c2 = c) by congruence; subst.
        apply Hn. apply (at_one _ Hex md c); auto.
    + intros Hno. destruct Hdec as [Hd|Hd].
      * specialize (H1 (K1 t Hd)). unfold left_view. cbn. specialize (Hno t). unfold on_at in Hd, Hno. cbn in Hno. unfold on, on'.
        destruct (t_on (s_thr (w_core W) t)) as [[cpu cid]|] eqn:E; [|discriminate Hd].
        destruct Hon as [E'|[E'|E']]; [rewrite E' in Hno; contradiction| |discriminate E']. rewrite E'. cbn in Hd.
        destruct md; injection Hd as ->; [unfold leave_cpu|unfold leave_cid]; rewrite Z.eqb_refl; (etransitivity; [exact H1|apply join_r]).
      * rewrite H2.
        { etransitivity; [apply K2|apply next_left]. intros u Hu. destruct (Nat.eq_dec u t) as [->|Hn]; [contradiction|].
          apply (Hno u). unfold on_at. cbn. rewrite Hoth; auto. }
        intros [E|(md2 & c2 & E & E2)]; [congruence|]. assert (md2 = md) by congruence; assert (c2 = c) by congruence; subst. contradiction.
  - destruct (Nat.eq_dec u t) as [->|Hn].
    + specialize (H1 Hok). cbn. rewrite Nat.eqb_refl. etransitivity; [exact H1|apply arrive_ge].
    + rewrite H2; [etransitivity; [exact Hok|apply next_thr]|].
      intros [E|(md2 & c2 & E & E2)]; congruence.
Qed.

(** A byte that changes hands when a call takes effect. *)
Lemma ok_move : forall own own' c x i, ok next own x i -> on_at s' (c_mode c) (c_cpu c) t ->
  usable own t c x -> usable own' t c x -> ok next own' x i.
Proof.
  intros own own' c x i Hok Hat Hu Hu'. assert (Hi : (i <= w_thr next t x)%nat).
  { unfold ok in Hok. destruct Hu as [E|E]; rewrite E in Hok; auto. apply Hok. exact Hat. }
  unfold ok. destruct Hu' as [E|E]; rewrite E; auto. split.
  - intros u Hu'. assert (u = t) by (apply (at_one s' Hex' (c_mode c) (c_cpu c)); auto). subst; auto.
  - intros Hno. exfalso. exact (Hno t Hat).
Qed.
End Next.

Lemma aexec_one : forall ab al a', aexec g cl ab [al] a' -> astep g cl ab al a'.
Proof.
  intros ab al a' H. remember [al] as ls eqn:El. destruct H as [|si ls s' l s'' H1 H2]; [discriminate El|].
  apply (app_inj_tail ls []) in El. destruct El as [-> ->]. remember [] as e eqn:Ee.
  destruct H1 as [|? ? ? ? ? _ _]; auto. destruct ls; discriminate Ee.
Qed.

(** Where the stores of a step go. *)
Lemma writes_mine : forall (s : state) ab own t ps al a', Rel Loc g tx s ab -> OWN ab own -> astep g cl ab al a' ->
  writes al = Some (t, ps) -> forall x, In x (map fst ps) -> mine s own t x.
Proof.
  intros s ab own t ps al a' HR Ho Hs Hw x Hx.
  destruct (write_source Loc g cl _ _ _ _ _ Hs Hw) as [(c & Hc & Ht)|(l0 & k & l' & _ & E & Hcw)].
  - eapply usable_mine; eauto. apply (proj2 (O_call _ _ Ho _ _ Hc)). auto.
  - left. eapply (proj1 (O_local _ _ Ho _ _ _ E)); eauto.
Qed.

Lemma weak_run : forall wtr W, wpath g tx cl (wstart s0) wtr W ->
  exists tr M ab own, path g tx cl s0 tr (set_m (w_core W) M) /\ same_steps wtr tr /\
    tied Loc g tx cl s0 (set_m (w_core W) M) ab /\ OWN ab own /\ K W own M.
Proof.
  intros wtr W H. remember (wstart s0) as W0 eqn:E0. induction H as [Wi|Wi wtr W l W'' H IH Hw Hok].
  - subst Wi. exists [], (s_mem s0), (abs_init s0), own0. cbn [w_core wstart].
    assert (E : set_m s0 (s_mem s0) = s0) by (destruct s0; reflexivity). rewrite E.
    split; [constructor|]. split; [constructor|]. split; [|split; [exact O_init|]].
    + split; [exists []; constructor|]. apply (Rel_initial Loc g tx); auto.
    + intros x. exists O. split.
      * split; [left; reflexivity|]. intros j c [F|[]]. left. congruence.
      * unfold ok. destruct (own0 x); auto; cbn; try lia. split; intros; lia.
  - destruct (IH E0) as (tr & M & ab & own & P1 & P2 & P3 & P4 & P5). clear IH H E0.
    destruct Hw as [W t m l s' h' v' Hsee Hstep Hact Hst].
    pose proof (proj2 P3) as HR.
    assert (Hwf : forall t c, in_flight ab t c -> op_wf g (c_op c) (a_mem ab)) by (intros t1 c Hc; exact (proj1 (O_call _ _ P4 _ _ Hc))).
    assert (Hstep' : step g tx cl (set_m (w_core W) M) l (set_m s' (wr M (wrote l)))).
    { apply (step_on_memory (w_core W) t m M l s' Hstep Hact).
      - intros l0 f k P kd pc' rs' e rd R1 R2 R3 R4 x Hx.
        destruct (reads_in_flight _ _ HR Hwf t l0 f k P kd pc' rs' e rd R1 R2 R3 R4) as [->|[F1 F2]]; [destruct Hx|].
        symmetry. eapply see_mine; eauto. eapply (usable_mine _ _ _ _ _ _ HR); eauto. apply (proj2 (O_call _ _ P4 _ _ F1)); auto.
      - intros l0 k R. destruct (top_idle Loc g tx _ _ t l0 k HR R) as (ak & Ea & _).
        assert (Em : a_mem ab = M) by apply HR. rewrite <- Em.
        apply (proj2 (O_local _ _ P4 _ _ _ Ea)). intros x Hx. rewrite Em. eapply see_mine; eauto. left. auto. }
    assert (Hok' : call_ok (set_m (w_core W) M) l) by (destruct l; exact Hok).
    destruct (tied_step Loc g tx cl Hgood s0 owned_safe _ _ _ _ P3 Hstep' Hok') as (ls & a' & T' & E' & V' & S').
    pose proof (proj2 T') as HR'.
    destruct (step_on Loc g tx cl _ _ _ Hstep') as (t2 & Hoth2 & Hon2). cbn [s_thr set_m] in Hoth2, Hon2.
    destruct Hact as [Hoth Hl].
    assert (Hon : t_on (s_thr s' t) = t_on (s_thr (w_core W) t) \/ t_on (s_thr s' t) = None \/ t_on (s_thr (w_core W) t) = None).
    { destruct (Nat.eq_dec t2 t) as [->|Hn]; auto. left. rewrite Hoth2; auto. }
    assert (Hex : exclusive (fun t => t_on (s_thr (w_core W) t))) by apply HR.
    assert (Hex' : exclusive (fun t => t_on (s_thr s' t))) by apply HR'.
    pose proof (stores_mono _ _ _ _ _ Hst) as Hmono.
    (* ownership after the step *)
    assert (HO : exists own', OWN a' own' /\ (forall x, In x (map fst (wrote l)) -> mine (w_core W) own t x) /\
        forall x, own' x = own x \/ exists c, in_flight ab t c /\ t_on (s_thr s' t) = t_on (s_thr (w_core W) t) /\ usable own t c x /\ usable own' t c x).
    { assert (Htau : (forall x, In x ls -> x = ALtau) -> exists own', OWN a' own' /\ (forall x, In x (map fst (wrote l)) -> mine (w_core W) own t x) /\
        forall x, own' x = own x \/ exists c, in_flight ab t c /\ t_on (s_thr s' t) = t_on (s_thr (w_core W) t) /\ usable own t c x /\ usable own' t c x).
      { intros Ht. destruct (own_taus _ _ _ E' Ht own P4) as (own' & J1 & J2). exists own'. split; auto. split; auto.
        assert (l = Ltau) as -> by (apply cvis1_nil; rewrite <- V'; apply avis1_tau; auto). intros x []. }
      destruct S' as [Hlen|Ht]; [|apply Htau; auto].
      destruct ls as [|al [|? ?]]; [apply Htau; intros ? []| |cbn in Hlen; lia].
      apply aexec_one in E'. cbn in V'. rewrite app_nil_r in V'.
      destruct (O_step _ _ P4 _ _ E') as (own' & J1 & J2). exists own'. split; auto. split.
      - intros x Hx. destruct l as [| | |u ps|]; try destruct Hx. cbn in Hl. subst u. cbn [wrote] in Hx.
        apply (writes_mine (set_m (w_core W) M) ab own t ps al a' HR P4 E'); auto. destruct al; cbn in V' |- *; congruence.
      - intros x. destruct (J2 x) as [E|(u & c & ps & -> & U1 & U2)]; auto. right. exists c.
        cbn in V'. destruct l as [| | |u' ps'|]; try discriminate V'. injection V' as -> ->. cbn in Hl. subst u'.
        split; [|split; [|auto]].
        + inversion E'; subst. split; eauto.
        + inversion Hstep'; subst; cbn [s_thr set_m set_t t_on set_ctx]; 
            match goal with H : _ = s_thr s' |- _ => rewrite <- H | _ => idtac end; try (rewrite Nat.eqb_refl; reflexivity). }
    destruct HO as (own' & J1 & J2 & J3).
    exists (tr ++ [(set_m (w_core W) M, l)]), (wr M (wrote l)), a', own'. cbn [w_core].
    split; [eapply path_snoc; eauto|]. split; [apply Forall2_app; [exact P2|constructor; [cbn; auto|constructor]]|].
    split; [exact T'|]. split; [exact J1|].
    intros x. destruct (P5 x) as (i0 & Ht & Hk).
    assert (Hmi : In x (map fst (wrote l)) -> (i0 <= w_thr W t x)%nat).
    { intros Hx. specialize (J2 x Hx). unfold ok in Hk. destruct J2 as [E|(md & c & E & Hc)]; rewrite E in Hk; auto. apply Hk; auto. }
    destruct (stores_top _ _ _ _ _ Hst M x i0 Ht Hmi) as (i1 & Q1 & Q2 & Q3).
    exists i1. split; [exact Q1|].
    assert (Hn : ok (next W t s' h' v') own x i1).
    { apply (ok_next W t s' h' v' Hoth Hon Hex Hex' Hmono own x i0 i1 Hk Q2). intros Hnm. apply Q3. intros Hx. apply Hnm. auto. }
    destruct (J3 x) as [E|(c & F1 & F2 & F3 & F4)].
    + unfold ok in *. rewrite E. exact Hn.
    + eapply (ok_move W t s' h' v' Hex'); eauto. unfold on_at. rewrite F2. exact (proj2 (Rel_right Loc g tx _ ab t c HR (proj1 F1))).
Qed.
End View.

(** C53 *)
Theorem weak_is_sc : forall (Loc : Type) g a tw tx (cl : client Loc) s0,
  lib_text a tw tx -> initial s0 -> owned_client g cl (abs_init s0) ->
  forall wtr W, wpath g tx cl (wstart s0) wtr W ->
  exists tr s, path g tx cl s0 tr s /\ same_steps wtr tr /\
    s_thr s = s_thr (w_core W) /\ s_loaded s = s_loaded (w_core W) /\
    forall x, newest (w_hist W x) (s_mem s x).
Proof.
  intros Loc g a tw tx cl s0 Htx Hi (OWN & (own0 & H0) & H) wtr W Hp.
  destruct (weak_run Loc g a tw tx cl s0 Htx Hi OWN own0 H0 (fun ab own Ho => proj1 (H ab own Ho))
    (fun ab own Ho => proj1 (proj2 (H ab own Ho))) (fun ab own Ho => proj2 (proj2 (H ab own Ho))) wtr W Hp)
    as (tr & M & ab & own & P1 & P2 & _ & _ & P5).
  exists tr, (set_m (w_core W) M). split; auto. split; auto. split; auto. split; auto.
  intros x. destruct (P5 x) as (i & Ht & _). exists i. exact Ht.
Qed.
