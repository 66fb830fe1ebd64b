(** Helper proofs for C75. *)
From Coq Require Import ZArith Bool List Lia.
From Verif Require Import RegModel RegSpec RegProofs RegTrace ForkRegModel ForkRegSpec.
Import ListNotations.
Local Open Scope Z_scope.

(** Views point at values that exist. *)
Record bounded (s : state) : Prop := {
  bd_views : forall t v, (views s t v < length (hist s v))%nat;
  bd_rel : forall i v, (rel s i v < length (hist s v))%nat;
  bd_lview : forall v, (lview s v < length (hist s v))%nat }.

Lemma readable_lt : forall s t v i z, readable s t v i z -> (i < length (hist s v))%nat.
Proof. intros s t v i z (_ & H). apply nth_error_Some. congruence. Qed.

Lemma upd_same : forall {A} (f : nat -> A) t x, upd f t x t = x.
Proof. intros. unfold upd. rewrite Nat.eqb_refl. auto. Qed.
Lemma upd_other : forall {A} (f : nat -> A) t x u, u <> t -> upd f t x u = f u.
Proof. intros. unfold upd. destruct (Nat.eqb_spec u t); congruence. Qed.

Lemma bounded_initial : bounded initial.
Proof. split; intros; cbn; auto with arith. Qed.

Lemma bounded_views : forall s s', bounded s -> hist s' = hist s -> rel s' = rel s -> lview s' = lview s ->
  (exists t w, views s' = upd (views s) t w /\ forall v, (w v < length (hist s v))%nat) -> bounded s'.
Proof.
  intros s s' B E1 E2 E3 (t & w & E4 & Hw). split; rewrite ?E1, ?E2, ?E3, ?E4; [|apply B|apply B].
  intros u v. unfold upd. destruct (Nat.eqb u t); [auto|apply B].
Qed.

Lemma see_lt : forall s t v i z u, bounded s -> readable s t v i z -> (see (views s t) v i u < length (hist s u))%nat.
Proof.
  intros s t v i z u B R. unfold see. destruct (var_eqb_spec u v) as [->|N]; [|apply B].
  pose proof (bd_views _ B t v). apply readable_lt in R. lia.
Qed.

Lemma bounded_store : forall s t v z p r, bounded s -> bounded (store s t v z p r).
Proof.
  intros s t v z p r B.
  assert (Hl : forall u, (length (hist s u) <= length (if var_eqb u v then hist s u ++ [z] else hist s u))%nat).
  { intros u. destruct (var_eqb u v); auto. rewrite app_length. lia. }
  assert (Hs : forall u, (see (views s t) v (length (hist s v)) u < length (if var_eqb u v then hist s u ++ [z] else hist s u))%nat).
  { intros u. unfold see. pose proof (bd_views _ B t u). destruct (var_eqb_spec u v) as [->|N]; [|lia]. rewrite app_length. cbn. lia. }
  split; cbn [store hist views rel lview].
  - intros u w. unfold upd. destruct (Nat.eqb u t); [apply Hs|]. pose proof (bd_views _ B u w). specialize (Hl w). lia.
  - intros i w. specialize (Hl w). pose proof (bd_rel _ B i w). destruct r; [|lia].
    unfold upd. destruct (Nat.eqb i _); [apply Hs|lia].
  - intros w. specialize (Hl w). pose proof (bd_lview _ B w). lia.
Qed.

Lemma bounded_step : forall y s l s', bounded s -> step y s l s' -> bounded s'.
Proof.
  intros y s l s' B St.
  assert (Hg : forall t p w, (forall v, (w v < length (hist s v))%nat) -> bounded (goto s t p w)).
  { intros t p w Hw. eapply bounded_views with (s := s); auto. exists t, w. auto. }
  assert (Hj : forall a b : view, (forall v, (a v < length (hist s v))%nat) -> (forall v, (b v < length (hist s v))%nat) ->
    forall v, (join a b v < length (hist s v))%nat).
  { intros a b Ha Hb v. unfold join. specialize (Ha v). specialize (Hb v). lia. }
  assert (Hv : forall t v, (views s t v < length (hist s v))%nat) by apply B.
  inversion St; subst; auto using bounded_store;
    try (apply Hg; intros u; eapply see_lt; eassumption).
  - apply Hg. apply Hj; [intros u; eapply see_lt; eassumption|apply B].
  - eapply bounded_views with (s := s); auto. exists t. eexists. split; [reflexivity|]. apply Hj; [auto|apply B].
  - split; cbn [hist views rel lview]; intros; apply B.
  - split; cbn [hist views rel lview]; intros; apply B.
  - eapply bounded_views with (s := s); auto. exists u. eexists. split; [reflexivity|]. apply Hj; auto.
  - split; cbn [hist views rel lview]; intros; apply B.
  - split; cbn [hist views rel lview]; intros; apply B.
Qed.

Lemma bounded_fork : forall s t, bounded s -> bounded (fork_child s t).
Proof.
  intros s t B. split; cbn [fork_child hist views rel lview]; intros; unfold newest.
  - pose proof (bd_lview _ B v). lia.
  - apply B.
  - pose proof (bd_lview _ B v). lia.
Qed.

(** The lock has a living holder, or no thread can come to it. *)
Definition past_init (p : pc) : bool :=
  match p with I_lock _ | I_check _ | I_store _ _ | I_done _ | I_unlock _ => false | _ => true end.
Definition lock_ok (s : state) : Prop :=
  (forall u, owner s = Some u -> holds (pcs s u) = true) \/
  (forall t, (1 <= views s t VDone)%nat /\ past_init (pcs s t) = true).

Section Lock.
  Variable y : sys.
  Hypothesis HS : sane y.

  Lemma lock_goto : forall s t p w, lock_ok s -> (holds (pcs s t) = true -> holds p = true) ->
    le_view (views s t) w -> (past_init (pcs s t) = true -> (1 <= views s t VDone)%nat -> past_init p = true) ->
    forall s', owner s' = owner s -> pcs s' = upd (pcs s) t p -> (views s' = upd (views s) t w) -> lock_ok s'.
  Proof.
    intros s t p w [L|L] H1 H2 H3 s' E1 E2 E3.
    - left. intros u. rewrite E1, E2. intros E. specialize (L u E). unfold upd. destruct (Nat.eqb_spec u t) as [->|N]; auto.
    - right. intros u. rewrite E2, E3. unfold upd. destruct (Nat.eqb_spec u t) as [->|N]; [|apply L].
      destruct (L t) as (La & Lb). split; [specialize (H2 VDone); lia|auto].
  Qed.

  Lemma upd_id : forall {A} (f : nat -> A) t, forall u, upd f t (f t) u = f u.
  Proof. intros. unfold upd. destruct (Nat.eqb_spec u t); congruence. Qed.

  Lemma lock_keep : forall s t p, lock_ok s -> (holds (pcs s t) = true -> holds p = true) ->
    (past_init (pcs s t) = true -> (1 <= views s t VDone)%nat -> past_init p = true) ->
    forall s', owner s' = owner s -> pcs s' = upd (pcs s) t p -> views s' = views s -> lock_ok s'.
  Proof.
    intros s t p [L|L] H1 H3 s' E1 E2 E3.
    - left. intros u. rewrite E1, E2. intros E. specialize (L u E). unfold upd. destruct (Nat.eqb_spec u t) as [->|N]; auto.
    - right. intros u. rewrite E2, E3. unfold upd. destruct (Nat.eqb_spec u t) as [->|N]; [|apply L].
      destruct (L t) as (La & Lb). split; auto.
  Qed.

  Lemma late_done : forall tr s t i z, inv y tr s -> readable s t VDone i z -> (1 <= views s t VDone)%nat -> z = 1.
  Proof.
    intros tr s t i z (_ & [A|(ws & n & B)]) R H.
    - destruct (readA_done _ _ _ _ _ A R) as (-> & _). destruct R. lia.
    - destruct (read_done _ _ _ _ _ _ _ _ B R) as [(-> & _)|(_ & ->)]; auto. destruct R. lia.
  Qed.

  Lemma lock_step : forall tr s l s', inv y tr s -> lock_ok s -> step y s l s' -> lock_ok s'.
  Proof.
    intros tr s l s' I L St.
    assert (HR : forall c, past_init (after_init c) = true) by (intros c; destruct c; auto).
    inversion St as [s0 t c Hp Hc|s0 t c i z Hp Hr|s0 t c Hp Ho|s0 t c i z Hp Hr Hz|s0 t c i ws Hp Hr Hw
      |s0 t c i Hp Hr Hw|s0 t c v z ws Hp|s0 t c Hp|s0 t c Hp|s0 t c Hp|s0 t c Hp|s0 t u Hi Hp|s0 t i z Hp Hr
      |s0 t i z Hp Hr|s0 t len Hp ok|s0 t i z Hp Hr Hz|s0 t i z Hp Hr Hz|s0 t i z Hp Hr|s0 t f Hp Hf|s0 t Hp Hf
      |s0 t i z Hp Hr|s0 t i z Hp Hr|s0 t len Hp ok|s0 t c r Hp]; subst;
    try (eapply lock_goto; [exact L| | | |reflexivity|reflexivity|reflexivity];
      [rewrite Hp; intros X; try discriminate X; reflexivity
      |auto with reg; fail
      |rewrite Hp; intros X; try discriminate X; try (intros _; destruct (z =? 0); reflexivity); reflexivity]).
    - eapply lock_goto; [exact L| | | |reflexivity|reflexivity|reflexivity]; auto with reg.
      + rewrite Hp. discriminate.
      + destruct c; reflexivity.
    - eapply lock_goto; [exact L| | | |reflexivity|reflexivity|reflexivity].
      + rewrite Hp. discriminate.
      + eapply le_trans_v; [apply le_see|apply le_join].
      + intros _ H. rewrite (late_done _ _ _ _ _ I Hr H). reflexivity.
    - destruct L as [L|L]; [|destruct (L t) as (_ & X); rewrite Hp in X; discriminate].
      left. cbn. intros u E. injection E as <-. rewrite upd_same. reflexivity.
    - destruct (init_defined y HS) as (ws & E). congruence.
    - destruct L as [L|L]; [|destruct (L t) as (_ & X); rewrite Hp in X; discriminate].
      left. cbn. discriminate.
    - eapply lock_keep with (t := t); [exact L| | |reflexivity|reflexivity|reflexivity]; rewrite Hp; auto; try (intros X; discriminate X).
    - destruct L as [L|L]; [left; exact L|right]. intros w. destruct (L w) as (L1 & L2). cbn. split; auto.
      unfold upd. destruct (Nat.eqb_spec w u) as [->|N]; auto. unfold join. lia.
    - eapply lock_keep with (t := t); [exact L| | |reflexivity|reflexivity|reflexivity]; rewrite Hp; try (intros X; discriminate X).
      intros _ _. destruct ok; reflexivity.
    - eapply lock_keep with (t := t); [exact L| | |reflexivity|reflexivity|reflexivity]; rewrite Hp; auto; try (intros X; discriminate X).
  Qed.

  Lemma newest_ge : forall s t, bounded s -> le_view (views s t) (newest s).
  Proof. intros s t B v. unfold newest. pose proof (bd_views _ B t v). lia. Qed.

  Lemma newest_synced : forall tr s ws n, phaseB y tr s ws n -> synced ws (newest s).
  Proof.
    intros tr s ws n B v z Hin. unfold newest.
    assert (Hv : (1 <= length (vals v ws))%nat).
    { unfold vals. rewrite map_length. destruct (filter _ ws) eqn:E; [|cbn; lia].
      assert (X : In (v, z) (filter (fun p => var_eqb (fst p) v) ws)).
      { apply filter_In. split; auto. cbn. destruct (var_eqb_spec v v); congruence. }
      rewrite E in X. contradiction. }
    destruct (var_eqb_spec v VDone) as [->|N1]; [rewrite (b_done _ _ _ _ _ B); cbn; lia|].
    destruct (var_eqb_spec v VSize) as [->|N2].
    - rewrite (b_size _ _ _ _ _ B). cbn [length Nat.pred]. rewrite app_length. lia.
    - rewrite (b_hist _ _ _ _ _ B) by auto. cbn. lia.
  Qed.

  Lemma inv_fork : forall tr s t, inv y tr s -> bounded s -> pcs s t = Idle -> settled s t -> inv y tr (fork_child s t).
  Proof.
    intros tr s t (G & P) Bd Hp Hq. split; [split; cbn; intros; discriminate|].
    destruct P as [A|(ws & n & B)].
    - left. destruct Hq as [Hq|Hq]; [|rewrite (a_done _ _ A) in Hq; discriminate].
      destruct (a_hist _ _ A) as (dn & H1 & [->|(u & E & _)] & _); [|congruence].
      split; cbn.
      + apply A.
      + exists []. repeat split; auto; discriminate.
      + auto.
      + intros u. destruct (Nat.eqb u t); auto. apply A.
      + intros u. destruct (Nat.eqb u t); auto. apply A.
    - right. exists ws, n. pose proof (newest_synced _ _ _ _ B) as HN. split; cbn.
      + apply B.
      + apply B.
      + apply (b_hist _ _ _ _ _ B).
      + apply B.
      + apply B.
      + apply B.
      + right. split; auto. unfold newest. rewrite (b_done _ _ _ _ _ B). auto.
      + intros u. destruct (Nat.eqb_spec u t) as [->|N].
        * pose proof (late_at _ _ _ _ _ t B) as L. rewrite Hp in L. apply (late_mono y _ _ _ (newest s)) in L; [exact L|apply newest_ge; auto].
        * split; [discriminate|]. split; [discriminate|]. intros X. congruence.
      + intros u. destruct (Nat.eqb_spec u t) as [->|N]; [apply (b_reg _ _ _ _ _ B)|congruence].
  Qed.

  Lemma lock_fork : forall tr s t, inv y tr s -> settled s t -> lock_ok (fork_child s t).
  Proof.
    intros tr s t I [Hq|Hq].
    - left. cbn. rewrite Hq. discriminate.
    - right. cbn. intros _. split; auto. destruct I as (_ & [A|(ws & n & B)]); [rewrite (a_done _ _ A) in Hq; discriminate|].
      unfold newest. rewrite (b_done _ _ _ _ _ B). auto.
  Qed.

  Lemma lineage_inv : forall tr s, lineage y settled tr s -> inv y tr s /\ bounded s /\ lock_ok s.
  Proof.
    intros tr s L. induction L as [|tr s l s' L (I & B & K) St|tr s t L (I & B & K) Hp Hq].
    - split; [apply inv_initial|]. split; [apply bounded_initial|]. left. cbn. discriminate.
    - split; [eapply inv_step; eauto|]. split; [eapply bounded_step; eauto|eapply lock_step; eauto].
    - split; [apply inv_fork; auto|]. split; [apply bounded_fork; auto|eapply lock_fork; eauto].
  Qed.
End Lock.

Section Claims.
  Variable y : sys.
  Hypothesis HS : sane y.

  Lemma inited_late : forall tr s t, inv y tr s -> inited s t = true \/ kreg s t <> None ->
    exists ws n, phaseB y tr s ws n.
  Proof.
    intros tr s t (_ & [A|P]) [H|H]; auto.
    - rewrite (a_inited _ _ A) in H. discriminate.
    - rewrite (a_kreg _ _ A) in H. congruence.
  Qed.

  Lemma late_settled : forall tr s t, inv y tr s -> inited s t = true \/ kreg s t <> None -> settled s t.
  Proof.
    intros tr s t I H. destruct (inited_late _ _ _ I H) as (ws & n & B). right. rewrite (b_done _ _ _ _ _ B). reflexivity.
  Qed.

  Lemma symbols : forall tr s t, inv y tr s -> inited s t = true ->
    (forall v i z, v <> VSize -> v <> VDone -> readable s t v i z -> final y v z) /\
    (forall i z, readable s t VSize i z ->
      (libc_active y -> libc_features y z) /\ (~ libc_active y -> z = 0 \/ z = features y /\ registration tr)).
  Proof.
    intros tr s t I Hi. destruct (inited_late _ _ _ I (or_introl Hi)) as (ws & n & B).
    assert (Sy : synced ws (views s t)) by (apply (late_at _ _ _ _ _ t B); auto). split.
    - intros v i z Hv1 Hv2 (Hr & Hz). rewrite (b_hist _ _ _ _ _ B) in Hz by auto.
      destruct (init_cases _ _ (b_ws _ _ _ _ _ B)) as [(Hl & off & fl & m & Ho & Hf & Hm & ->)|(Hl & ->)].
      + destruct (final_libc y off fl m Hl Ho Hf v Hv2 Hv1) as [(E & F)|(x & E & F)]; rewrite E in Hz.
        * destruct i as [|[|i]]; cbn in Hz; try discriminate. injection Hz as <-. auto.
        * assert (1 <= views s t v)%nat.
          { destruct v; try congruence; [eapply Sy; cbn; eauto|eapply Sy; cbn; eauto|]. cbn in E. discriminate. }
          destruct i as [|[|[|i]]]; [lia| | |]; cbn in Hz; try discriminate. injection Hz as <-. auto.
      + destruct (final_own y Hl v Hv2 Hv1) as (x & E & F). rewrite E in Hz.
        assert (1 <= views s t v)%nat.
        { destruct (own_mem y v Hv2) as (q & Hq). eapply Sy; eauto. }
        destruct i as [|[|[|i]]]; [lia| | |]; cbn in Hz; try discriminate. injection Hz as <-. auto.
    - intros i z Hr.
      destruct (init_cases _ _ (b_ws _ _ _ _ _ B)) as [(Hl & off & fl & m & Ho & Hf & Hm & ->)|(Hl & ->)].
      + split; [|contradiction]. intros _. destruct Hr as (Hr & Hz). rewrite (b_size _ _ _ _ _ B) in Hz.
        destruct n; [|exfalso; destruct (b_n _ _ _ _ _ B) as (E & _); [lia|discriminate]]. cbn in Hz.
        assert (1 <= views s t VSize)%nat by (eapply Sy; cbn; eauto).
        destruct i as [|[|[|i]]]; [lia| | |]; cbn in Hz; try discriminate. injection Hz as <-. auto.
      + split; [contradiction|]. intros _.
        destruct (read_size y _ _ _ _ _ _ B Sy Hr) as [(_ & ->)|(_ & -> & Hn)]; auto.
        right. split; auto. apply (b_n _ _ _ _ _ B Hn).
  Qed.

  (** A registered thread of an initialised process. *)
  Lemma reg_kp : forall tr s t, inv y tr s -> kreg s t <> None -> pcs s t <> P_dead ->
    exists n, phaseB y tr s (own_stores y) n /\
      match pcs s t with R_size | R_set | P_dead => True | _ => (2 <= views s t VSize)%nat end.
  Proof.
    intros tr s t I K D. destruct (inited_late _ _ _ I (or_intror K)) as (ws & n & B).
    pose proof (late_at _ _ _ _ _ t B) as (L1 & L2 & L3). unfold kp in L3.
    assert (W : ws = own_stores y) by (destruct (pcs s t); intuition congruence).
    subst ws. exists n. split; auto. destruct (pcs s t); intuition.
  Qed.

  Lemma active_no_own : ~ (libc_active y /\ init_stores y = Some (own_stores y)).
  Proof. intros (H & E). destruct (init_cases _ _ E) as [(_ & off & fl & m & _ & _ & _ & X)|(N & _)]; [discriminate|auto]. Qed.

  (** What a registered thread may be doing. *)
  Definition refusing (p : pc) : Prop :=
    match p with P_ret CReg _ | R_size | R_set => False | _ => True end.
  Definition kept (s : state) (t : nat) : Prop := kreg s t <> None /\ refusing (pcs s t).

  Lemma kept_other : forall s s' t u p, kept s t -> kreg s' = kreg s -> pcs s' = upd (pcs s) u p ->
    (u = t -> refusing p) -> kept s' t.
  Proof.
    intros s s' t u p (K & R) E1 E2 H. unfold kept. rewrite E1, E2. split; auto.
    unfold upd. destruct (Nat.eqb_spec t u) as [->|N]; auto.
  Qed.

  Lemma kept_step : forall tr s l s' t, inv y tr s -> kept s t -> step y s l s' ->
    (forall len, l <> LSys t CUnreg len true) -> kept s' t /\ (forall r, l <> LRet t CReg r).
  Proof.
    intros tr s l s' t I K St HU.
    assert (HB : forall c r, l = LRet t c r -> c <> CReg).
    { intros c r ->. inversion St as [| | | | | | | | | | | | | | | | | | | | | | |s0 u c0 r0 Hp]; subst.
      destruct K as (_ & K). rewrite Hp in K. intros ->. contradiction. }
    split; [|intros r E; apply (HB CReg r E); reflexivity].
    assert (HR : forall c, refusing (after_init c)) by (intros c; destruct c; exact Logic.I).
    inversion St as [s0 u c Hp Hc|s0 u c i z Hp Hr|s0 u c Hp Ho|s0 u c i z Hp Hr Hz|s0 u c i ws Hp Hr Hw
      |s0 u c i Hp Hr Hw|s0 u c v z ws Hp|s0 u c Hp|s0 u c Hp|s0 u c Hp|s0 u c Hp|s0 u w Hi Hp|s0 u i z Hp Hr
      |s0 u i z Hp Hr|s0 u len Hp ok|s0 u i z Hp Hr Hz|s0 u i z Hp Hr Hz|s0 u i z Hp Hr|s0 u f Hp Hf|s0 u Hp Hf
      |s0 u i z Hp Hr|s0 u i z Hp Hr|s0 u len Hp ok|s0 u c r Hp]; subst;
    try (eapply kept_other with (u := u); [exact K|reflexivity|reflexivity|];
      intros ->; try destruct (z =? 0); try destruct c; exact Logic.I).
    - exact K.
    - eapply kept_other with (u := u); [exact K|reflexivity|reflexivity|]. intros ->.
      destruct (reg_kp _ _ _ I (proj1 K)) as (n & B & V); [congruence|]. pose proof (late_at _ _ _ _ _ t B) as L. rewrite Hp in L.
      assert (Sy : synced (own_stores y) (views s t)) by (apply L, L).
      destruct (read_own _ _ _ _ _ _ _ _ B Sy Hr) as [(Ha & _)|(_ & ->)]; [|exact Logic.I].
      exfalso. apply active_no_own. split; auto. apply B.
    - destruct (Nat.eq_dec u t) as [->|N].
      + unfold kept. cbn. rewrite upd_same. assert (E : ok = false).
        { unfold ok, sys_register. destruct K as (K & _). destruct (kreg s t); [apply andb_false_r|congruence]. }
        rewrite E. split; [apply K|exact Logic.I].
      + unfold kept. cbn. rewrite upd_other by auto. destruct K as (K1 & K2). split; auto.
        destruct ok; auto. rewrite upd_other by auto. auto.
    - eapply kept_other with (u := u); [exact K|reflexivity|reflexivity|]. intros ->.
      destruct (reg_kp _ _ _ I (proj1 K)) as (n & B & V); [congruence|]. rewrite Hp in V.
      pose proof (late_at _ _ _ _ _ t B) as L. rewrite Hp in L.
      assert (Sy : synced (own_stores y) (views s t)) by (apply L, L).
      pose proof (features_pos y HS).
      destruct (read_size y _ _ _ _ _ _ B Sy Hr) as [(-> & _)|(_ & -> & _)]; [destruct Hr|]; lia.
    - eapply kept_other with (u := u); [exact K|reflexivity|reflexivity|]. intros ->.
      destruct K as (_ & K). rewrite Hp in K. contradiction.
    - eapply kept_other with (u := u); [exact K|reflexivity|reflexivity|]. intros ->.
      destruct K as (_ & K). rewrite Hp in K. contradiction.
    - destruct (Nat.eq_dec u t) as [->|N].
      + unfold kept. cbn. rewrite upd_same. destruct ok eqn:E; [exfalso; eapply HU; reflexivity|]. split; [apply K|exact Logic.I].
      + unfold kept. cbn. rewrite upd_other by auto. destruct K as (K1 & K2). split; auto.
        destruct ok; auto. rewrite upd_other by auto. auto.
  Qed.

  Lemma lineage_runs : forall ok tr s, lineage y ok tr s -> forall tr' s', runs_from y s tr' s' -> lineage y ok (tr ++ tr') s'.
  Proof.
    intros ok tr s L tr' s' R. induction R as [|tr' s1 l s2 R IH St]; [rewrite app_nil_r; auto|].
    rewrite app_assoc. eapply l_step; eauto.
  Qed.

  Lemma kept_runs : forall tr s t, lineage y settled tr s -> kept s t -> forall tr' s', runs_from y s tr' s' ->
    (forall len, ~ In (LSys t CUnreg len true) tr') -> kept s' t /\ (forall r, ~ In (LRet t CReg r) tr').
  Proof.
    intros tr s t L K tr' s' R. induction R as [|tr' s1 l s2 R IH St]; intros HU.
    - split; auto.
    - destruct IH as (K1 & N1). { intros len X. apply (HU len), in_or_app. auto. }
      destruct (lineage_inv y HS _ _ (lineage_runs _ _ _ L _ _ R)) as (I & _ & _).
      destruct (kept_step _ _ _ _ t I K1 St) as (K2 & N2).
      { intros len ->. apply (HU len), in_or_app. right. left. reflexivity. }
      split; auto. intros r X. apply in_app_or in X. destruct X as [X|[X|[]]]; [apply (N1 r X)|apply (N2 r X)].
  Qed.

  Lemma runs_inv : forall s0 tr l s, runs_from y s0 (tr ++ [l]) s -> exists s1, runs_from y s0 tr s1 /\ step y s1 l s.
  Proof.
    intros s0 tr l s R. remember (tr ++ [l]) as T eqn:ET. destruct R as [|tr1 s1 l1 s2 R St].
    - destruct tr; discriminate.
    - apply app_inj_tail in ET. destruct ET as [-> ->]. eauto.
  Qed.

  Lemma unregister_ok : forall tr s t len ok s', inv y tr s -> kreg s t <> None -> step y s (LSys t CUnreg len ok) s' ->
    features y <= 32 -> ok = true.
  Proof.
    intros tr s t len ok s' I K St Hf. inversion St as [| | | | | | | | | | | | | | | | | | | | | |s1 t1 len1 Hp|]; subst.
    destruct (inited_late _ _ _ I (or_intror K)) as (ws & n & B).
    pose proof (late_at _ _ _ _ _ t B) as L. rewrite Hp in L. destruct L as (_ & L2 & _ & _ & L3 & _).
    destruct (kreg s t) as [l|] eqn:Ek; [|congruence]. destruct (L2 l eq_refl) as (L4 & L5).
    unfold ok0, sys_unregister. rewrite ?Ek, L5. cbn. destruct L3 as [->|(E & ?)]; [|lia]. destruct L4 as [->|(E' & ?)]; [reflexivity|lia].
  Qed.

  Lemma register_iff : forall tr s t len ok s', inv y tr s -> step y s (LSys t CReg len ok) s' ->
    (ok = true <-> k_has y = true /\ kreg s t = None).
  Proof.
    intros tr s t len ok s' (G & P) St. inversion St as [| | | | | | | | | | | | | |s1 t1 len1 Hp| | | | | | | | |]; subst.
    destruct P as [A|(ws & n & B)]; [pose proof (a_pre _ _ A t) as HE; rewrite Hp in HE; discriminate|].
    pose proof (late_at _ _ _ _ _ t B) as L. rewrite Hp in L. destruct L as (_ & L2 & _ & _ & L3 & _).
    apply good_accepted in L3. unfold ok0, sys_register. destruct (kreg s t); [rewrite andb_false_r|rewrite L3, andb_true_r]; intuition congruence.
  Qed.

  Lemma abort_registered : forall tr s t s', inv y tr s -> step y s (LAbort t) s' -> kreg s t <> None.
  Proof.
    intros tr s0 t s1 (G & P) St.
    inversion St as [| | | | |s' t' c i Hp Hr Hw| | | | | | | | | | |s' t' i z Hp Hr Hz| | |s' t' Hp Hf| | | |]; subst.
    - destruct (init_defined y HS) as (ws & E). congruence.
    - destruct P as [A|(ws & n & B)]; [pose proof (a_pre _ _ A t) as HE; rewrite Hp in HE; discriminate|].
      pose proof (late_at _ _ _ _ _ t B) as L. rewrite Hp in L.
      assert (Sy : synced ws (views s0 t)) by (apply L, L). destruct L as (_ & _ & _ & -> & _ & [L|L]); auto.
      exfalso. destruct (read_size y _ _ _ _ _ _ B Sy Hr) as [(_ & ->)|(_ & _ & Hn)]; [lia|].
      destruct (b_n _ _ _ _ _ B Hn) as (_ & ? & _). congruence.
    - exfalso. unfold feature_size in Hf. destruct HS as (HS' & _). destruct (Z.ltb_spec 1024 (k_aux y)); [lia|discriminate].
  Qed.

  (** ** Progress *)
  Lemma can_read : forall s t v, bounded s -> exists i z, readable s t v i z.
  Proof.
    intros s t v B. pose proof (bd_views _ B t v) as H. apply nth_error_Some in H.
    destruct (nth_error (hist s v) (views s t v)) as [z|] eqn:E; [|congruence].
    exists (views s t v), z. split; auto.
  Qed.

  Lemma list_neq : forall {A} (x : A) l, l <> x :: l.
  Proof. intros A x l E. apply (f_equal (@length A)) in E. cbn in E. lia. Qed.

  Lemma moves : forall s t, bounded s -> match pcs s t with Idle | P_dead => False | I_lock _ => owner s = None | _ => True end ->
    exists l s', step y s l s' /\ pcs s' t <> pcs s t.
  Proof.
    intros s t B H.
    destruct (can_read s t VDone B) as (i1 & z1 & R1). destruct (can_read s t VSize B) as (i2 & z2 & R2).
    destruct (can_read s t VOwn B) as (i3 & z3 & R3).
    destruct (pcs s t) as [|c|c|c|c ws|c|c|c| | |len| | | | | |len|c r|] eqn:Hp; try contradiction.
    - do 2 eexists. split; [eapply S_load; eauto|]. cbn. rewrite upd_same. destruct (z1 =? 0); discriminate.
    - do 2 eexists. split; [eapply S_lock; eauto|]. cbn. rewrite upd_same. discriminate.
    - destruct (Z.eq_dec z1 0) as [->|N].
      + destruct (init_stores y) as [ws|] eqn:E; do 2 eexists; (split; [first [eapply S_first; eauto; fail|eapply S_assert; eauto; fail]|]);
          cbn; rewrite upd_same; discriminate.
      + do 2 eexists. split; [eapply S_check; eauto|]. cbn. rewrite upd_same. discriminate.
    - destruct ws as [|(v, z) ws].
      + do 2 eexists. split; [eapply S_stored; eauto|]. cbn. rewrite upd_same. discriminate.
      + do 2 eexists. split; [eapply S_store; eauto|]. cbn. rewrite upd_same. intros E. injection E as E. apply (list_neq _ _ E).
    - do 2 eexists. split; [eapply S_done; eauto|]. cbn. rewrite upd_same. discriminate.
    - do 2 eexists. split; [eapply S_unlock; eauto|]. cbn. rewrite upd_same. discriminate.
    - do 2 eexists. split; [eapply S_inited; eauto|]. cbn. rewrite upd_same. destruct c; discriminate.
    - do 2 eexists. split; [eapply S_rown; eauto|]. cbn. rewrite upd_same. destruct (z3 =? 0); discriminate.
    - do 2 eexists. split; [eapply S_rlen; eauto|]. cbn. rewrite upd_same. discriminate.
    - do 2 eexists. split; [eapply S_rsys; eauto|]. cbn. rewrite upd_same. destruct (sys_register _ _ _); discriminate.
    - destruct (Z.leb_spec z2 0).
      + do 2 eexists. split; [eapply S_failed; eauto|]. cbn. rewrite upd_same. discriminate.
      + do 2 eexists. split; [eapply S_incoherent; eauto|]. cbn. rewrite upd_same. discriminate.
    - do 2 eexists. split; [eapply S_rsize; eauto|]. cbn. rewrite upd_same. destruct (z2 =? 0); discriminate.
    - destruct (feature_size y) as [f|] eqn:E.
      + do 2 eexists. split; [eapply S_rset; eauto|]. cbn. rewrite upd_same. discriminate.
      + do 2 eexists. split; [eapply S_rassert; eauto|]. cbn. rewrite upd_same. discriminate.
    - do 2 eexists. split; [eapply S_uown; eauto|]. cbn. rewrite upd_same. destruct (z3 =? 0); discriminate.
    - do 2 eexists. split; [eapply S_ulen; eauto|]. cbn. rewrite upd_same. discriminate.
    - do 2 eexists. split; [eapply S_usys; eauto|]. cbn. rewrite upd_same. discriminate.
    - do 2 eexists. split; [eapply S_ret; eauto|]. cbn. rewrite upd_same. discriminate.
  Qed.

  Lemma progress : forall tr s t, lineage y settled tr s -> pcs s t <> Idle -> pcs s t <> P_dead ->
    exists u l s', (u = t \/ owner s = Some u) /\ pcs s u <> Idle /\ step y s l s' /\ pcs s' u <> pcs s u.
  Proof.
    intros tr s t L N1 N2. destruct (lineage_inv y HS _ _ L) as (I & B & K).
    assert (D : (exists c, pcs s t = I_lock c /\ owner s <> None) \/
      match pcs s t with Idle | P_dead => False | I_lock _ => owner s = None | _ => True end).
    { destruct (pcs s t) eqn:E; auto. destruct (owner s); [left; eexists; split; [reflexivity|discriminate]|auto]. }
    destruct D as [(c & E & O)|D].
    - destruct (owner s) as [u|] eqn:Eo; [|congruence]. destruct K as [K|K].
      + specialize (K u Eo). destruct (moves s u B) as (l & s' & H1 & H2).
        { destruct (pcs s u); cbn in K; auto; discriminate. }
        exists u, l, s'. repeat split; auto. intros X. rewrite X in K. discriminate K.
      + destruct (K t) as (_ & X). rewrite E in X. discriminate.
    - destruct (moves s t B D) as (l & s' & H1 & H2). exists t, l, s'. auto.
  Qed.

  (** ** Calls end *)
  (** How far a call is from its end. *)
  Definition rank (p : pc) : nat :=
    match p with
    | Idle | P_dead => 0
    | P_ret _ _ => 1
    | R_set => 2 | R_size => 3 | R_failed => 3 | R_sys _ => 4 | R_len => 5 | R_own => 6
    | U_sys _ => 2 | U_len => 3 | U_own => 4
    | I_ret _ => 7 | I_unlock _ => 8 | I_done _ => 9
    | I_store _ ws => 10 + length ws
    | I_check _ => 11 + match init_stores y with Some ws => length ws | None => 0 end
    | I_lock _ => 12 + match init_stores y with Some ws => length ws | None => 0 end
    | I_load _ => 13 + match init_stores y with Some ws => length ws | None => 0 end
    end.

  Lemma step_effect : forall s l s' u, step y s l s' -> pcs s' u <> pcs s u -> pcs s u <> Idle ->
    (rank (pcs s' u) < rank (pcs s u))%nat /\ (forall v, v <> u -> pcs s' v = pcs s v) /\
    (forall t c, l <> LCall t c) /\ (owner s' = owner s \/ owner s' = None \/ owner s = None).
  Proof.
    intros s l s' u St Hc Hi.
    inversion St as [s0 t c Hp Hcc|s0 t c i z Hp Hr|s0 t c Hp Ho|s0 t c i z Hp Hr Hz|s0 t c i ws Hp Hr Hw
      |s0 t c i Hp Hr Hw|s0 t c v z ws Hp|s0 t c Hp|s0 t c Hp|s0 t c Hp|s0 t c Hp|s0 t w Hi' Hp|s0 t i z Hp Hr
      |s0 t i z Hp Hr|s0 t len Hp ok|s0 t i z Hp Hr Hz|s0 t i z Hp Hr Hz|s0 t i z Hp Hr|s0 t f Hp Hf|s0 t Hp Hf
      |s0 t i z Hp Hr|s0 t i z Hp Hr|s0 t len Hp ok|s0 t c r Hp]; subst; clear St; cbn [goto store pcs owner] in *;
    try (exfalso; apply Hc; reflexivity);
    (destruct (Nat.eq_dec u t) as [E|N]; [|exfalso; apply Hc; apply upd_other; exact N]); subst u;
    try (exfalso; apply Hi; exact Hp);
    rewrite upd_same, Hp; (split; [|split; [intros w Hw'; apply upd_other; exact Hw'|split; [discriminate|auto]]]);
    try (cbn; lia); try (destruct (z =? 0); cbn; lia).
    - cbn. rewrite Hw. lia.
    - destruct c; cbn; lia.
    - destruct ok; cbn; lia.
  Qed.

  Lemma call_completes : forall n m tr s t, lineage y settled tr s -> rank (pcs s t) = n ->
    match owner s with Some u => S (rank (pcs s u)) | None => 0%nat end = m ->
    exists tr' s', runs_from y s tr' s' /\ (pcs s' t = Idle \/ pcs s' t = P_dead) /\ (forall u c, ~ In (LCall u c) tr').
  Proof.
    intros n. induction n as [n IHn] using lt_wf_ind. intros m. induction m as [m IHm] using lt_wf_ind.
    intros tr s t L En Em.
    assert (D : (pcs s t = Idle \/ pcs s t = P_dead) \/ (pcs s t <> Idle /\ pcs s t <> P_dead)).
    { destruct (pcs s t); auto; right; split; discriminate. }
    destruct D as [D|(D1 & D2)]; [exists [], s; split; [constructor|]; auto|].
    destruct (progress _ _ _ L D1 D2) as (u & l & s1 & Hu & Hi & St & Hc).
    destruct (step_effect _ _ _ _ St Hc Hi) as (E1 & E2 & E3 & E4).
    assert (L1 : lineage y settled (tr ++ [l]) s1) by (eapply l_step; eauto).
    assert (R : exists tr' s', runs_from y s1 tr' s' /\ (pcs s' t = Idle \/ pcs s' t = P_dead) /\ (forall u c, ~ In (LCall u c) tr')).
    { destruct (Nat.eq_dec u t) as [->|N].
      - eapply IHn; [|exact L1|reflexivity|reflexivity]. lia.
      - destruct Hu as [Hu|Hu]; [contradiction|].
        eapply IHm; [|exact L1|rewrite E2; auto|reflexivity].
        rewrite Hu in Em. subst m. destruct E4 as [E4|[E4|E4]]; [rewrite E4, Hu; lia|rewrite E4; lia|congruence]. }
    destruct R as (tr' & s' & R & F & C). exists (l :: tr'), s'. split; [|split; [exact F|]].
    - clear - R St. change (l :: tr') with ([l] ++ tr').
      induction R as [|tr' s2 l2 s3 R IH St2]; [apply (rf_step y s [] s l s1 (rf_nil y s) St)|].
      rewrite app_assoc. eapply rf_step; eauto.
    - intros w c [X|X]; [apply (E3 w c X)|apply (C w c X)].
  Qed.

  Lemma registered_size : forall tr s t i z, inv y tr s -> pcs s t = Idle -> kreg s t <> None -> inited s t = true ->
    readable s t VSize i z -> z = features y.
  Proof.
    intros tr s t i z I Hp K Hi Hr. destruct (reg_kp _ _ _ I K) as (n & B & V); [congruence|]. rewrite Hp in V.
    assert (Sy : synced (own_stores y) (views s t)) by (apply (late_at _ _ _ _ _ t B); auto).
    destruct (read_size y _ _ _ _ _ _ B Sy Hr) as [(-> & _)|(_ & -> & _)]; auto. destruct Hr. lia.
  Qed.

  (** ** A fork inside the initialisation *)
  Definition waits (s0 s : state) : Prop :=
    owner s = owner s0 /\ hist s VDone = [0] /\
    forall u, inited s u = false /\ match pcs s u with Idle => True | I_load c | I_lock c => c <> CUnreg | _ => False end.

  Lemma waits_step : forall s0 s l s', owner s0 <> None -> waits s0 s -> step y s l s' ->
    waits s0 s' /\ (forall t c r, l <> LRet t c r).
  Proof.
    intros s0 s l s' O (W1 & W2 & W3) St.
    assert (HG : forall u p w, match p with Idle => True | I_load c | I_lock c => c <> CUnreg | _ => False end -> waits s0 (goto s u p w)).
    { intros u p w Hp. split; [exact W1|]. split; [exact W2|]. intros v. cbn. destruct (W3 v) as (Wa & Wb). split; auto.
      unfold upd. destruct (Nat.eqb v u); auto. }
    inversion St as [s1 u c Hp Hc|s1 u c i z Hp Hr|s1 u c Hp Ho|s1 u c i z Hp Hr Hz|s1 u c i ws Hp Hr Hw
      |s1 u c i Hp Hr Hw|s1 u c v z ws Hp|s1 u c Hp|s1 u c Hp|s1 u c Hp|s1 u c Hp|s1 u w Hi Hp|s1 u i z Hp Hr
      |s1 u i z Hp Hr|s1 u len Hp ok|s1 u i z Hp Hr Hz|s1 u i z Hp Hr Hz|s1 u i z Hp Hr|s1 u f Hp Hf|s1 u Hp Hf
      |s1 u i z Hp Hr|s1 u i z Hp Hr|s1 u len Hp ok|s1 u c r Hp]; subst;
    destruct (W3 u) as (Wi & Wp);
    try (exfalso; rewrite Hp in Wp; exact Wp).
    - split; [|discriminate]. apply HG. destruct c; try discriminate. rewrite (Hc eq_refl) in Wi. discriminate.
    - split; [|discriminate]. apply HG. rewrite Hp in Wp. destruct Hr as (_ & Hr). rewrite W2 in Hr.
      destruct i as [|[|i]]; cbn in Hr; try discriminate. injection Hr as <-. exact Wp.
    - congruence.
    - congruence.
  Qed.

  Lemma waits_runs : forall s0, owner s0 <> None -> waits s0 s0 -> forall tr s, runs_from y s0 tr s ->
    waits s0 s /\ forall t c r, ~ In (LRet t c r) tr.
  Proof.
    intros s0 O W tr s R. induction R as [|tr s l s' R (IW & IN) St]; [split; auto|].
    destruct (waits_step _ _ _ _ O IW St) as (H1 & H2). split; auto.
    intros t c r X. apply in_app_or in X. destruct X as [X|[X|[]]]; [apply (IN _ _ _ X)|apply (H2 _ _ _ X)].
  Qed.

  Lemma unsettled_waits : forall tr s t, inv y tr s -> pcs s t = Idle -> ~ settled s t ->
    owner (fork_child s t) <> None /\ waits (fork_child s t) (fork_child s t).
  Proof.
    intros tr s t (G & P) Hp N. destruct P as [A|(ws & n & B)].
    - split; [cbn; intros E; apply N; left; exact E|]. split; [reflexivity|]. split; [apply A|].
      intros u. cbn. split; auto. destruct (Nat.eqb u t); auto. apply A.
    - exfalso. apply N. right. rewrite (b_done _ _ _ _ _ B). reflexivity.
  Qed.
End Claims.
