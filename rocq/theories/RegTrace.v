(** From the invariant of RegProofs.v to statements about the events of runs. *)
From Coq Require Import ZArith Bool List Lia.
From Verif Require Import RegModel RegSpec RegProofs.
Import ListNotations.
Local Open Scope Z_scope.

Lemma split_last : forall {A} (tr : list A) x a y b, tr ++ [x] = a ++ y :: b ->
  (b = [] /\ y = x /\ a = tr) \/ exists b', b = b' ++ [x] /\ tr = a ++ y :: b'.
Proof.
  intros A tr x a y b H. destruct b as [|z b] using rev_ind.
  - left. apply app_inj_tail in H. intuition.
  - right. exists b. rewrite app_comm_cons, app_assoc in H. apply app_inj_tail in H. intuition congruence.
Qed.

Lemma latest_app : forall t tr l x, latest t tr l -> ~ mine t x -> latest t (tr ++ [x]) l.
Proof.
  intros t tr l x (M & a & b & -> & H) N. split; auto. exists a, (b ++ [x]). split; [rewrite <- app_assoc; reflexivity|].
  intros z Hz. apply in_app_or in Hz. destruct Hz as [Hz|[<-|[]]]; auto.
Qed.
Lemma latest_new : forall t tr x, mine t x -> latest t (tr ++ [x]) x.
Proof. intros t tr x M. split; auto. exists tr, []. split; auto. Qed.

Lemma registered_app : forall t tr x, (forall len, x <> LSys t CUnreg len true) -> registered t tr -> registered t (tr ++ [x]).
Proof.
  intros t tr x N (a & len & b & -> & H). exists a, len, (b ++ [x]). split; [rewrite <- app_assoc; reflexivity|].
  intros l Hl. apply in_app_or in Hl. destruct Hl as [Hl|[Hl|[]]]; [eapply H; eauto|]. eapply N; eauto.
Qed.
Lemma registered_inv : forall t tr x, registered t (tr ++ [x]) ->
  (exists len, x = LSys t CReg len true) \/ (registered t tr /\ forall len, x <> LSys t CUnreg len true).
Proof.
  intros t tr x (a & len & b & E & H). apply split_last in E. destruct E as [(_ & E & _)|(b' & -> & ->)]; [eauto|].
  right. split; [exists a, len, b'; split; auto; intros l Hl; apply (H l), in_or_app; auto|].
  intros l ->. apply (H l), in_or_app. cbn; auto.
Qed.

Lemma stores_app : forall v a b, stores v (a ++ b) = stores v a ++ stores v b.
Proof.
  intros v a b. induction a as [|l a IH]; cbn; auto. destruct l; auto. destruct (var_eqb v0 v); cbn; congruence.
Qed.

Section Trace.
  Variable y : sys.
  Hypothesis HS : sane y.

  (** What the program point of a thread says about the events so far. *)
  Definition tpc (t : nat) (tr : list label) (p : pc) (w : view) : Prop :=
    match p with
    | I_load c | I_lock c | I_check c | I_store c _ | I_done c | I_unlock c | I_ret c => latest t tr (LCall t c)
    | R_own => latest t tr (LCall t CReg)
    | U_own => latest t tr (LCall t CUnreg)
    | R_failed => exists len, latest t tr (LSys t CReg len false)
    | R_size | R_set => exists len, latest t tr (LSys t CReg len true)
    | P_ret c r =>
      (c = CInit /\ r = 0) \/
      (c <> CInit /\ libc_active y /\ r = 0 /\ latest t tr (LCall t c)) \/
      (c <> CInit /\ ~ libc_active y /\ (exists len ok, latest t tr (LSys t c len ok) /\ (r = 0 <-> ok = true)) /\
       (c = CReg -> r = 0 /\ (2 <= w VSize)%nat \/ r = -1 /\ k_has y = false))
    | _ => True
    end.

  Lemma tpc_app : forall t tr p w x, tpc t tr p w -> ~ mine t x -> tpc t (tr ++ [x]) p w.
  Proof.
    intros t tr p w x H N. destruct p; cbn in *; auto using latest_app;
      try (destruct H as (len & H); exists len; auto using latest_app; fail).
    destruct H as [H|[(H1 & H2 & H3 & H4)|(H1 & H2 & (len & ok & H3 & H4) & H5)]]; auto.
    - right. left. auto using latest_app.
    - right. right. split; auto. split; auto. split; auto. exists len, ok. auto using latest_app.
  Qed.
  Lemma tpc_mono : forall t tr p w w', le_view w w' -> tpc t tr p w -> tpc t tr p w'.
  Proof.
    intros t tr p w w' Hl H. destruct p; cbn in *; auto. specialize (Hl VSize).
    destruct H as [H|[H|(H1 & H2 & H3 & H4)]]; auto. right. right. split; auto. split; auto. split; auto.
    intros E. destruct (H4 E) as [(? & ?)|?]; auto. left. split; auto. lia.
  Qed.

  Record tinv (tr : list label) (s : state) : Prop := {
    t_hist : forall v, hist s v = start v :: stores v tr;
    t_kreg : forall t, kreg s t <> None <-> registered t tr;
    t_knows : forall t, knows tr t -> inited s t = true;
    t_kr : forall t, knows_registered tr t -> libc_active y \/ (2 <= views s t VSize)%nat;
    t_pcs : forall t, tpc t tr (pcs s t) (views s t) }.

  Lemma knows_inv : forall tr x t, knows (tr ++ [x]) t -> (exists c r, x = LRet t c r) \/ (exists p, x = LSpawn p t /\ knows tr p) \/ knows tr t.
  Proof.
    intros tr x t H. remember (tr ++ [x]) as T eqn:ET. destruct H as [T t c r Hi|T p t a b E Ha]; subst T.
    - apply in_app_or in Hi. destruct Hi as [Hi|[Hi|[]]]; [|left; eauto]. right. right. econstructor; eauto.
    - apply split_last in E. destruct E as [(-> & <- & ->)|(b' & -> & ->)]; [right; left; eauto|].
      right. right. eapply knows_spawn; eauto.
  Qed.
  Lemma kr_inv : forall tr x t, knows_registered (tr ++ [x]) t ->
    (x = LRet t CReg 0) \/ (exists p, x = LSpawn p t /\ knows_registered tr p) \/ knows_registered tr t.
  Proof.
    intros tr x t H. remember (tr ++ [x]) as T eqn:ET. destruct H as [T t Hi|T p t a b E Ha]; subst T.
    - apply in_app_or in Hi. destruct Hi as [Hi|[Hi|[]]]; [|left; eauto]. right. right. econstructor; eauto.
    - apply split_last in E. destruct E as [(-> & <- & ->)|(b' & -> & ->)]; [right; left; eauto|].
      right. right. eapply kr_spawn; eauto.
  Qed.

  (** The parts that do not depend on what the label says of a thread. *)
  Definition quiet (x : label) : Prop := match x with LSys _ _ _ _ | LRet _ _ _ | LSpawn _ _ => False | _ => True end.
  Lemma tinv_quiet : forall tr s s' x t, tinv tr s -> quiet x -> (forall u, mine u x -> u = t) ->
    (forall v, hist s' v = hist s v ++ stores v [x]) -> kreg s' = kreg s -> inited s' = inited s \/ inited s' = upd (inited s) t true ->
    (forall u, le_view (views s u) (views s' u)) ->
    (forall u, u <> t -> pcs s' u = pcs s u) ->
    tpc t (tr ++ [x]) (pcs s' t) (views s' t) -> tinv (tr ++ [x]) s'.
  Proof.
    intros tr s s' x t [T1 T2 T3 T4 T5] Q M Hh Hk Hi Hv Hp Ht. constructor.
    - intros v. rewrite Hh, T1, stores_app. reflexivity.
    - intros u. rewrite Hk, T2. split; [apply registered_app; intros len ->; destruct Q|].
      intros H. apply registered_inv in H. destruct H as [(len & ->)|(H & _)]; [destruct Q|auto].
    - intros u H. apply knows_inv in H. destruct H as [(c & r & ->)|[(p & -> & _)|H]]; [destruct Q|destruct Q|].
      apply T3 in H. destruct Hi as [-> | ->]; auto. unfold upd. destruct (Nat.eqb u t); auto.
    - intros u H. apply kr_inv in H. destruct H as [->|[(p & -> & _)|H]]; [destruct Q|destruct Q|].
      destruct (T4 _ H) as [?|H']; auto. right. specialize (Hv u VSize). lia.
    - intros u. destruct (Nat.eq_dec u t) as [->|N]; auto. rewrite (Hp _ N). eapply tpc_mono; [apply Hv|].
      apply tpc_app; auto.
  Qed.

  Lemma store_hist : forall s t v z p r u, hist (store s t v z p r) u = hist s u ++ stores u [LStore t v z].
  Proof.
    intros. cbn. destruct (var_eqb_spec u v), (var_eqb_spec v u); try congruence. rewrite app_nil_r. reflexivity.
  Qed.
  Lemma own_not_libc : init_stores y = Some (own_stores y) -> ~ libc_active y.
  Proof.
    intros H. destruct (init_cases _ _ H) as [(_ & off & fl & m & _ & _ & _ & E)|(? & _)]; auto. discriminate.
  Qed.
  Lemma tinv_store : forall tr s t v z p r, tinv tr s ->
    tpc t (tr ++ [LStore t v z]) p (see (views s t) v (length (hist s v))) -> tinv (tr ++ [LStore t v z]) (store s t v z p r).
  Proof.
    intros tr s t v z p r T H. eapply tinv_quiet with (t := t); [exact T|exact Logic.I|cbn; intuition| | | | | |].
    - intros u. apply store_hist.
    - reflexivity.
    - left. reflexivity.
    - intros u. cbn. unfold upd. destruct (Nat.eqb_spec u t); subst; auto with reg.
    - intros u N. cbn. unfold upd. destruct (Nat.eqb_spec u t); [contradiction|reflexivity].
    - cbn. unfold upd. rewrite Nat.eqb_refl. exact H.
  Qed.

  Lemma run_tinv : forall tr s, run y tr s -> tinv tr s.
  Proof.
    intros tr s R. induction R as [|tr s l s' R IH St].
    { constructor; cbn; auto.
      - intros t. split; [congruence|]. intros (a & len & b & E & _). destruct a; discriminate.
      - intros t H. remember [] as T eqn:ET. destruct H as [T t c r Hi|T p t a b E Ha]; subst T; [destruct Hi|destruct a; discriminate].
      - intros t H. remember [] as T eqn:ET. destruct H as [T t Hi|T p t a b E Ha]; subst T; [destruct Hi|destruct a; discriminate]. }
    pose proof (inv_run y HS _ _ R) as (G & P).
    assert (Hold : forall t, tpc t tr (pcs s t) (views s t)) by apply IH.
    assert (Hearly : forall t, early (pcs s t) = false -> exists ws n, phaseB y tr s ws n).
    { intros t E. destruct P as [A|B]; auto. rewrite (a_pre _ _ A) in E. discriminate. }
    destruct St as [s t c Hp Hc|s t c i z Hp Hr|s t c Hp Ho|s t c i z Hp Hr Hz|s t c i ws0 Hp Hr Hw|s t c i Hp Hr Hw
                   |s t c v z ws0 Hp|s t c Hp|s t c Hp|s t c Hp|s t c Hp|s t u Hi Hp|s t i z Hp Hr|s t i z Hp Hr|s t len Hp
                   |s t i z Hp Hr Hz|s t i z Hp Hr Hz|s t i z Hp Hr|s t f Hp Hf|s t Hp Hf|s t i z Hp Hr|s t i z Hp Hr|s t len Hp
                   |s t c r Hp];
      specialize (Hold t); try rewrite Hp in Hold;
      try (eapply tinv_quiet with (t := t); [exact IH|exact Logic.I|cbn; intuition|
             intros v'; cbn; rewrite ?app_nil_r; reflexivity|reflexivity|cbn; auto|
             intros u'; cbn; unfold upd; destruct (Nat.eqb_spec u' t); subst; auto with reg; eapply le_trans_v; eauto with reg; fail|
             intros u' N; cbn; unfold upd; destruct (Nat.eqb_spec u' t); [contradiction|reflexivity]|
             cbn; unfold upd; rewrite ?Nat.eqb_refl]).
    - destruct c; apply latest_new; reflexivity.
    - (* load *)
      eapply tinv_quiet with (t := t); [exact IH|exact Logic.I|cbn; intuition|
             intros v'; cbn; rewrite ?app_nil_r; reflexivity|reflexivity|cbn; auto| | |].
      + intros u. cbn. unfold upd. destruct (Nat.eqb_spec u t); subst; auto with reg. eapply le_trans_v; [apply le_see|apply le_join].
      + intros u N. cbn. unfold upd. destruct (Nat.eqb_spec u t); [contradiction|reflexivity].
      + cbn. unfold upd. rewrite Nat.eqb_refl. destruct (z =? 0); apply latest_app; auto.
    - apply latest_app; auto.
    - apply latest_app; auto.
    - apply latest_app; auto.
    - exact Logic.I.
    - apply tinv_store; auto. apply latest_app; auto.
    - apply latest_app; auto.
    - apply tinv_store; auto. apply latest_app; auto.
    - apply latest_app; auto.
    - destruct c; cbn; auto; [apply latest_app; auto|]. exfalso. pose proof (g_api _ G t) as X. rewrite Hp in X. cbn in X. congruence.
    - (* spawn *)
      destruct IH as [T1 T2 T3 T4 T5]. constructor; cbn.
      + intros v. rewrite stores_app, app_nil_r. auto.
      + intros x. rewrite T2. split; [apply registered_app; discriminate|].
        intros H. apply registered_inv in H. destruct H as [(len & E)|(H & _)]; [discriminate|auto].
      + intros x H. unfold upd. destruct (Nat.eqb_spec x u); auto. apply knows_inv in H.
        destruct H as [(c & r & E)|[(p & E & _)|H]]; [discriminate|congruence|auto].
      + intros x H. apply kr_inv in H. destruct H as [E|[(p & E & H)|H]]; [discriminate| |].
        * injection E as <- <-. destruct (T4 _ H) as [?|H']; auto. right. unfold upd. rewrite Nat.eqb_refl. unfold join. lia.
        * destruct (T4 _ H) as [?|H']; auto. right. unfold upd. destruct (Nat.eqb_spec x u); subst; auto. unfold join. lia.
      + intros x. unfold upd. destruct (Nat.eqb_spec x u); subst; [rewrite Hp; exact Logic.I|]. apply tpc_app; auto.
    - (* ownership *)
      destruct (Hearly t) as (ws & n & B); [rewrite Hp; reflexivity|]. pose proof (late_at _ _ _ _ _ t B) as L. rewrite Hp in L.
      assert (Hs : synced ws (views s t)) by (apply L, L).
      destruct (read_own _ _ _ _ _ _ _ _ B Hs Hr) as [(Hl & ->)|(-> & ->)]; cbn; auto.
      right. left. split; [discriminate|]. split; auto. split; auto. apply latest_app; auto.
    - exact Logic.I.
    - (* the system call *)
      destruct IH as [T1 T2 T3 T4 T5]. constructor; cbn.
      + intros v. rewrite stores_app, app_nil_r. auto.
      + intros x. destruct (Nat.eq_dec x t) as [->|N].
        * assert (Hok : ok = true -> registered t (tr ++ [LSys t CReg len ok])).
          { intros ->. exists tr, len, []. split; auto. }
          destruct ok eqn:Eok; unfold upd; rewrite ?Nat.eqb_refl; [split; [auto|discriminate]|].
          rewrite T2. split; [apply registered_app; discriminate|].
          intros H. apply registered_inv in H. destruct H as [(len' & E)|(H & _)]; [discriminate|auto].
        * replace ((if ok then upd (kreg s) t (Some len) else kreg s) x) with (kreg s x)
            by (destruct ok; auto; unfold upd; destruct (Nat.eqb_spec x t); [contradiction|auto]).
          rewrite T2. split; [apply registered_app; discriminate|].
          intros H. apply registered_inv in H. destruct H as [(len' & E)|(H & _)]; [congruence|auto].
      + intros x H. apply knows_inv in H. destruct H as [(c & r & E)|[(p & E & _)|H]]; try discriminate. auto.
      + intros x H. apply kr_inv in H. destruct H as [E|[(p & E & _)|H]]; try discriminate. auto.
      + intros x. unfold upd. destruct (Nat.eqb_spec x t) as [->|N].
        * destruct ok; cbn; exists len; apply latest_new; reflexivity.
        * apply tpc_app; [auto|cbn; congruence].
    - (* failed *)
      destruct (Hearly t) as (ws & n & B); [rewrite Hp; reflexivity|]. pose proof (late_at _ _ _ _ _ t B) as L. rewrite Hp in L.
      assert (Hs : synced ws (views s t)) by (apply L, L). destruct L as (_ & _ & _ & -> & Lk & L).
      destruct Hold as (len & Hold). right. right. split; [discriminate|]. split; [apply own_not_libc, (b_ws _ _ _ _ _ B)|].
      split; [exists len, false; split; [apply latest_app; auto|split; discriminate]|].
      intros _. right. split; auto. destruct L as [L|L]; auto. exfalso. destruct (Lk L) as (_ & Hv).
      destruct (read_size _ _ _ _ _ _ _ B Hs Hr) as [(-> & _)|(_ & -> & _)].
      + destruct Hr as (Hr & _). lia.
      + pose proof (features_pos _ HS). lia.
    - exact Logic.I.
    - (* size already set? *)
      destruct (Hearly t) as (ws & n & B); [rewrite Hp; reflexivity|]. pose proof (late_at _ _ _ _ _ t B) as L. rewrite Hp in L.
      assert (Hs : synced ws (views s t)) by (apply L, L). destruct L as (_ & _ & _ & -> & L).
      destruct Hold as (len & Hold).
      destruct (read_size _ _ _ _ _ _ _ B Hs Hr) as [(-> & ->)|(Hi & -> & _)]; cbn [Z.eqb].
      + exists len. apply latest_app; auto.
      + pose proof (features_pos _ HS). destruct (Z.eqb_spec (features y) 0); [lia|].
        right. right. split; [discriminate|]. split; [apply own_not_libc, (b_ws _ _ _ _ _ B)|].
        split; [exists len, true; split; [apply latest_app; auto|split; auto]|].
        intros _. left. split; auto. pose proof (see_at (views s t) VSize i). lia.
    - (* set the size *)
      destruct (Hearly t) as (ws & n & B); [rewrite Hp; reflexivity|]. pose proof (late_at _ _ _ _ _ t B) as L. rewrite Hp in L.
      destruct L as (_ & _ & _ & -> & L). apply tinv_store; auto. destruct Hold as (len & Hold).
      right. right. split; [discriminate|]. split; [apply own_not_libc, (b_ws _ _ _ _ _ B)|].
      split; [exists len, true; split; [apply latest_app; auto|split; auto]|].
      intros _. left. split; auto. pose proof (see_at (views s t) VSize (length (hist s VSize))).
      rewrite (b_size _ _ _ _ _ B) in *. change (vals VSize (own_stores y)) with [0] in *. cbn [length app] in *. lia.
    - exact Logic.I.
    - (* ownership, unregister *)
      destruct (Hearly t) as (ws & n & B); [rewrite Hp; reflexivity|]. pose proof (late_at _ _ _ _ _ t B) as L. rewrite Hp in L.
      assert (Hs : synced ws (views s t)) by (apply L, L).
      destruct (read_own _ _ _ _ _ _ _ _ B Hs Hr) as [(Hl & ->)|(-> & ->)]; cbn; auto.
      right. left. split; [discriminate|]. split; auto. split; auto. apply latest_app; auto.
    - exact Logic.I.
    - (* the system call, unregister *)
      destruct (Hearly t) as (ws & n & B); [rewrite Hp; reflexivity|]. pose proof (late_at _ _ _ _ _ t B) as L. rewrite Hp in L.
      destruct L as (_ & _ & _ & -> & _ & _). pose proof (own_not_libc (b_ws _ _ _ _ _ B)) as Hlibc.
      destruct IH as [T1 T2 T3 T4 T5]. constructor; cbn.
      + intros v. rewrite stores_app, app_nil_r. auto.
      + intros x. destruct (Nat.eq_dec x t) as [->|N].
        * destruct ok eqn:Eok; unfold upd; rewrite ?Nat.eqb_refl.
          -- split; [congruence|]. intros H. apply registered_inv in H. destruct H as [(len' & E)|(_ & H)]; [discriminate|].
             exfalso. apply (H len). reflexivity.
          -- rewrite T2. split; [apply registered_app; congruence|].
             intros H. apply registered_inv in H. destruct H as [(len' & E)|(H & _)]; [discriminate|auto].
        * replace ((if ok then upd (kreg s) t None else kreg s) x) with (kreg s x)
            by (destruct ok; auto; unfold upd; destruct (Nat.eqb_spec x t); [contradiction|auto]).
          rewrite T2. split; [apply registered_app; congruence|].
          intros H. apply registered_inv in H. destruct H as [(len' & E)|(H & _)]; [congruence|auto].
      + intros x H. apply knows_inv in H. destruct H as [(c & r & E)|[(p & E & _)|H]]; try discriminate. auto.
      + intros x H. apply kr_inv in H. destruct H as [E|[(p & E & _)|H]]; try discriminate. auto.
      + intros x. unfold upd. destruct (Nat.eqb_spec x t) as [->|N].
        * right. right. split; [discriminate|]. split; auto. split; [|discriminate].
          exists len, ok. split; [apply latest_new; reflexivity|]. destruct ok; split; auto; discriminate.
        * apply tpc_app; [auto|cbn; congruence].
    - (* return *)
      assert (Hini : inited s t = true).
      { destruct (Hearly t) as (ws & n & B); [rewrite Hp; reflexivity|]. pose proof (late_at _ _ _ _ _ t B) as L. rewrite Hp in L. apply L. }
      destruct IH as [T1 T2 T3 T4 T5]. constructor; cbn.
      + intros v. rewrite stores_app, app_nil_r. auto.
      + intros x. rewrite T2. split; [apply registered_app; discriminate|].
        intros H. apply registered_inv in H. destruct H as [(len & E)|(H & _)]; [discriminate|auto].
      + intros x H. apply knows_inv in H. destruct H as [(c' & r' & E)|[(p & E & _)|H]]; [congruence|discriminate|auto].
      + intros x H. assert (Hv : views (goto s t Idle (views s t)) x = views s x).
        { cbn. unfold upd. destruct (Nat.eqb_spec x t); congruence. }
        cbn in Hv. rewrite Hv. apply kr_inv in H. destruct H as [E|[(p & E & _)|H]]; [|discriminate|auto].
        injection E as -> -> ->. destruct Hold as [(E & _)|[(_ & Hl & _)|(_ & _ & _ & H)]]; [discriminate|auto|].
        destruct (H eq_refl) as [(_ & ?)|(? & _)]; [auto|discriminate].
      + intros x. unfold upd. destruct (Nat.eqb_spec x t) as [->|N]; [exact Logic.I|]. apply tpc_app; auto.
  Qed.

  (** ** C44 *)
  Lemma final_libc : forall off fl n, libc_active y -> libc_off y = Some off -> libc_flags y = Some fl ->
    forall v, v <> VDone -> v <> VSize -> vals v [(VOff, off); (VFlags, fl); (VSize, n)] = [] /\ final y v (start v) \/
      exists z, vals v [(VOff, off); (VFlags, fl); (VSize, n)] = [z] /\ final y v z.
  Proof.
    intros off fl n Hl Ho Hf v H1 H2. destruct v; try congruence.
    - right. exists off. cbn. auto.
    - right. exists fl. cbn. auto.
    - left. cbn. auto.
  Qed.
  Lemma final_own : ~ libc_active y ->
    forall v, v <> VDone -> v <> VSize -> exists z, vals v (own_stores y) = [z] /\ final y v z.
  Proof.
    intros Hl v H1 H2. destruct v; try congruence; cbn; eauto.
  Qed.

  Lemma prefix_vals : forall v a b, exists c, vals v (a ++ b) = vals v a ++ c.
  Proof. intros. exists (vals v b). apply vals_app. Qed.

  Lemma once : forall tr s, run y tr s ->
    (forall v, v <> VSize -> stores v tr = [] \/ exists z, stores v tr = [z] /\ final y v z) /\
    (libc_active y -> stores VSize tr = [] \/ exists n, stores VSize tr = [n] /\ libc_features y n) /\
    (~ libc_active y -> stores VSize tr = [] \/ exists n, stores VSize tr = 0 :: repeat (features y) n).
  Proof.
    intros tr s R. pose proof (run_tinv _ _ R) as T. destruct (inv_run y HS _ _ R) as (_ & P).
    assert (Hst : forall v l, hist s v = start v :: l -> stores v tr = l) by (intros v l H; rewrite (t_hist _ _ T) in H; congruence).
    destruct P as [A|(ws & n & B)].
    - destruct A as [A1 (dn & A2 & A3 & A4 & A5) A6 A7 A8]. apply (Hst VDone) in A1.
      assert (Hd : dn = [] \/ exists ws, init_stores y = Some (dn ++ ws)).
      { destruct A3 as [A3|(t & _ & A3)]; auto. right. destruct (pcs s t) eqn:E; try discriminate.
        - destruct (A4 _ _ _ E). eauto.
        - destruct (A5 _ _ E). exists []. rewrite app_nil_r. auto. }
      assert (H2 : forall v, v <> VDone -> stores v tr = vals v dn) by (intros v Hv; apply Hst, A2; auto).
      destruct Hd as [->|(ws & E)].
      { split; [|split; left; apply H2; discriminate]. intros v _. left. destruct (var_eqb_spec v VDone) as [->|]; auto. rewrite H2; auto. }
      assert (Hpre : forall v z, vals v (dn ++ ws) = [z] -> vals v dn = [] \/ vals v dn = [z]).
      { intros v z H. rewrite vals_app in H. destruct (vals v dn) as [|x l]; auto. right. destruct l; cbn in H; [|discriminate]. congruence. }
      destruct (init_cases _ _ E) as [(Hl & off & fl & m & Ho & Hf & Hm & Ews)|(Hl & Ews)].
      + split; [|split; [|contradiction]].
        * intros v Hv. destruct (var_eqb_spec v VDone) as [->|N]; auto. rewrite H2 by auto.
          destruct (final_libc off fl m Hl Ho Hf v N Hv) as [(Hz & _)|(z & Hz & Hz')]; rewrite <- Ews in Hz.
          -- left. rewrite vals_app in Hz. apply app_eq_nil in Hz. apply Hz.
          -- destruct (Hpre _ _ Hz); eauto.
        * intros _. rewrite H2 by discriminate. destruct (Hpre VSize m) as [?|?]; eauto. rewrite Ews. reflexivity.
      + split; [|split; [contradiction|]].
        * intros v Hv. destruct (var_eqb_spec v VDone) as [->|N]; auto. rewrite H2 by auto.
          destruct (final_own Hl v N Hv) as (z & Hz & Hz'). rewrite <- Ews in Hz. destruct (Hpre _ _ Hz); eauto.
        * intros _. rewrite H2 by discriminate. destruct (Hpre VSize 0) as [?|?]; [rewrite Ews; reflexivity|auto|]. right. exists 0%nat. auto.
    - pose proof (b_done _ _ _ _ _ B) as B1. apply (Hst VDone) in B1.
      pose proof (b_size _ _ _ _ _ B) as B2. apply Hst in B2.
      assert (H2 : forall v, v <> VDone -> v <> VSize -> stores v tr = vals v ws) by (intros; apply Hst, (b_hist _ _ _ _ _ B); auto).
      destruct (init_cases _ _ (b_ws _ _ _ _ _ B)) as [(Hl & off & fl & m & Ho & Hf & Hm & ->)|(Hl & ->)].
      + split; [|split; [|contradiction]].
        * intros v Hv. destruct (var_eqb_spec v VDone) as [->|N]; [right; exists 1; auto; split; auto; reflexivity|]. rewrite H2 by auto.
          destruct (final_libc off fl m Hl Ho Hf v N Hv) as [(Hz & _)|(z & Hz & Hz')]; eauto.
        * intros _. right. exists m. split; auto. rewrite B2. cbn. destruct n; auto.
          exfalso. destruct (b_n _ _ _ _ _ B) as (E & _); [lia|]. discriminate.
      + split; [|split; [contradiction|]].
        * intros v Hv. destruct (var_eqb_spec v VDone) as [->|N]; [right; exists 1; auto; split; auto; reflexivity|]. rewrite H2 by auto.
          right. apply final_own; auto.
        * intros _. right. exists n. rewrite B2. reflexivity.
  Qed.

  Lemma knows_B : forall tr s t, run y tr s -> knows tr t -> exists ws n, phaseB y tr s ws n /\ synced ws (views s t).
  Proof.
    intros tr s t R K. pose proof (t_knows _ _ (run_tinv _ _ R) _ K) as Hi. destruct (inv_run y HS _ _ R) as (_ & [A|(ws & n & B)]).
    - rewrite (a_inited _ _ A) in Hi. discriminate.
    - exists ws, n. split; auto. apply (late_at _ _ _ _ _ t B). auto.
  Qed.

  Lemma visible : forall tr s t, run y tr s -> knows tr t ->
    (forall v i z, v <> VSize -> v <> VDone -> readable s t v i z -> final y v z) /\
    (forall i z, readable s t VSize i z ->
      (libc_active y -> libc_features y z) /\ (~ libc_active y -> z = 0 \/ z = features y /\ registration tr) /\
      (~ libc_active y -> knows_registered tr t -> z = features y)).
  Proof.
    intros tr s t R K. destruct (knows_B _ _ _ R K) as (ws & n & B & Sy). split.
    - intros v i z Hv1 Hv2 (Hr & Hz). rewrite (b_hist _ _ _ _ _ B) in Hz by auto.
      destruct (init_cases _ _ (b_ws _ _ _ _ _ B)) as [(Hl & off & fl & m & Ho & Hf & Hm & ->)|(Hl & ->)].
      + destruct (final_libc off fl m Hl Ho Hf v Hv2 Hv1) as [(E & F)|(x & E & F)]; rewrite E in Hz.
        * destruct i as [|[|i]]; cbn in Hz; try discriminate. injection Hz as <-. auto.
        * assert (1 <= views s t v)%nat.
          { destruct v; try congruence; [eapply Sy; cbn; eauto|eapply Sy; cbn; eauto|]. cbn in E. discriminate. }
          destruct i as [|[|[|i]]]; [lia| | |]; cbn in Hz; try discriminate. injection Hz as <-. auto.
      + destruct (final_own Hl v Hv2 Hv1) as (x & E & F). rewrite E in Hz.
        assert (1 <= views s t v)%nat.
        { destruct (own_mem y v Hv2) as (q & Hq). eapply Sy; eauto. }
        destruct i as [|[|[|i]]]; [lia| | |]; cbn in Hz; try discriminate. injection Hz as <-. auto.
    - intros i z Hr.
      destruct (init_cases _ _ (b_ws _ _ _ _ _ B)) as [(Hl & off & fl & m & Ho & Hf & Hm & ->)|(Hl & ->)].
      + split; [|split; contradiction]. intros _. destruct Hr as (Hr & Hz). rewrite (b_size _ _ _ _ _ B) in Hz.
        destruct n; [|exfalso; destruct (b_n _ _ _ _ _ B) as (E & _); [lia|discriminate]]. cbn in Hz.
        assert (1 <= views s t VSize)%nat by (eapply Sy; cbn; eauto).
        destruct i as [|[|[|i]]]; [lia| | |]; cbn in Hz; try discriminate. injection Hz as <-. auto.
      + split; [contradiction|]. split; intros _.
        * destruct (read_size _ _ _ _ _ _ _ B Sy Hr) as [(_ & ->)|(_ & -> & Hn)]; auto.
          right. split; auto. apply (b_n _ _ _ _ _ B Hn).
        * intros Kr. destruct (t_kr _ _ (run_tinv _ _ R) _ Kr) as [?|Hv]; [contradiction|].
          destruct (read_size _ _ _ _ _ _ _ B Sy Hr) as [(-> & ->)|(_ & -> & Hn)]; auto. destruct Hr as (Hr & _). lia.
  Qed.

  (** ** C45 *)
  Lemma ret_inv : forall tr t c r s, run y (tr ++ [LRet t c r]) s -> exists s0, run y tr s0 /\ pcs s0 t = P_ret c r.
  Proof.
    intros tr t c r s R. remember (tr ++ [LRet t c r]) as T eqn:ET. destruct R as [|tr0 s0 l s1 R St].
    - destruct tr; discriminate.
    - apply app_inj_tail in ET. destruct ET as [-> ->]. exists s0. split; auto. inversion St; subst; auto.
  Qed.

  Lemma results : forall tr t c r s, run y (tr ++ [LRet t c r]) s -> c <> CInit ->
    (libc_active y -> r = 0 /\ latest t tr (LCall t c)) /\
    (~ libc_active y -> exists len ok, latest t tr (LSys t c len ok) /\ (r = 0 <-> ok = true)).
  Proof.
    intros tr t c r s R Hc. destruct (ret_inv _ _ _ _ _ R) as (s0 & R0 & Hp).
    pose proof (t_pcs _ _ (run_tinv _ _ R0) t) as H. rewrite Hp in H.
    destruct H as [(? & _)|[(_ & Hl & Hr & H)|(_ & Hl & H & _)]]; [contradiction| |]; split; auto; contradiction.
  Qed.

  Lemma fails_without_kernel : forall tr t r s, run y (tr ++ [LRet t CReg r]) s -> r <> 0 -> r = -1 /\ k_has y = false.
  Proof.
    intros tr t r s R Hn. destruct (ret_inv _ _ _ _ _ R) as (s0 & R0 & Hp).
    pose proof (t_pcs _ _ (run_tinv _ _ R0) t) as H. rewrite Hp in H.
    destruct H as [(? & _)|[(_ & _ & Hr & _)|(_ & _ & _ & H)]]; [discriminate|contradiction|].
    destruct (H eq_refl) as [(? & _)|?]; [contradiction|auto].
  Qed.

  Lemma aborts_on_double : forall tr t s, run y (tr ++ [LAbort t]) s -> registered t tr.
  Proof.
    intros tr t s R. remember (tr ++ [LAbort t]) as T eqn:ET. destruct R as [|tr0 s0 l s1 R St]; [destruct tr; discriminate|].
    apply app_inj_tail in ET. destruct ET as [-> ->]. apply (t_kreg _ _ (run_tinv _ _ R)).
    destruct (inv_run y HS _ _ R) as (G & P).
    inversion St as [| | | | |s' t' c i Hp Hr Hw| | | | | | | | | | |s' t' i z Hp Hr Hz| | |s' t' Hp Hf| | | |]; subst.
    - destruct (init_defined y HS) as (ws & E). congruence.
    - destruct P as [A|(ws & n & B)]; [pose proof (a_pre _ _ A t) as HE; rewrite Hp in HE; discriminate|].
      pose proof (late_at _ _ _ _ _ t B) as L. rewrite Hp in L.
      assert (Sy : synced ws (views s0 t)) by (apply L, L). destruct L as (_ & _ & _ & -> & _ & [L|L]); auto.
      exfalso. destruct (read_size _ _ _ _ _ _ _ B Sy Hr) as [(_ & ->)|(_ & _ & Hn)]; [lia|].
      destruct (b_n _ _ _ _ _ B Hn) as (_ & ? & _). congruence.
    - exfalso. unfold feature_size in Hf. destruct HS as (HS' & _). destruct (Z.ltb_spec 1024 (k_aux y)); [lia|discriminate].
  Qed.

  Lemma can_unregister : forall tr t len ok s, run y (tr ++ [LSys t CUnreg len ok]) s -> features y <= 32 ->
    registered t tr -> ok = true.
  Proof.
    intros tr t len ok s R Hf Hreg. remember (tr ++ [LSys t CUnreg len ok]) as T eqn:ET.
    destruct R as [|tr0 s0 l s1 R St]; [destruct tr; discriminate|].
    apply app_inj_tail in ET. destruct ET as [-> ->]. apply (t_kreg _ _ (run_tinv _ _ R)) in Hreg.
    destruct (inv_run y HS _ _ R) as (G & P). inversion St as [| | | | | | | | | | | | | | | | | | | | | |s' t' len' Hp|]; subst.
    destruct P as [A|(ws & n & B)]; [pose proof (a_pre _ _ A t) as HE; rewrite Hp in HE; discriminate|].
    pose proof (late_at _ _ _ _ _ t B) as L. rewrite Hp in L. destruct L as (_ & L2 & _ & _ & L3 & _).
    destruct (kreg s0 t) as [l|] eqn:Ek; [|congruence]. destruct (L2 l eq_refl) as (L4 & L5).
    unfold ok0, sys_unregister. rewrite L5. cbn. destruct L3 as [->|(E & ?)]; [|lia]. destruct L4 as [->|(E' & ?)]; [reflexivity|lia].
  Qed.

  (** ** C46 *)
  Lemma int_small : forall z, 0 <= z < 2 ^ 31 -> to_int32 z = z.
  Proof. intros z H. unfold to_int32. rewrite Z.mod_small; lia. Qed.

  Lemma libc_features_small : forall n, libc_features y n -> 0 <= n < 2 ^ 31.
  Proof.
    intros n (size & Hs & H). destruct HS as (Ha & Hb). specialize (Hb _ Hs). pose proof (features_pos _ HS). lia.
  Qed.
  Lemma features_small : 0 <= features y < 2 ^ 31.
  Proof. unfold features. destruct HS as (Ha & _). destruct (Z.eq_dec (k_aux y) 0); lia. Qed.

  Lemma fields : forall tr s t i z, run y tr s -> knows tr t -> readable s t VSize i z ->
    exists active, (libc_active y -> libc_features y active) /\
      (~ libc_active y -> active = 0 \/ active = features y /\ registration tr) /\
      (~ libc_active y -> knows_registered tr t -> active = features y) /\
      (node_id_available z = true <-> 24 <= active) /\ (mm_cid_available z = true <-> 28 <= active).
  Proof.
    intros tr s t i z R K Hr. destruct (visible _ _ _ R K) as (_ & H). destruct (H _ _ Hr) as (H1 & H2 & H3).
    exists z. split; auto. split; auto. split; auto.
    assert (Hz : 0 <= z < 2 ^ 31).
    { destruct (knows_B _ _ _ R K) as (ws & n & B & _).
      destruct (init_cases _ _ (b_ws _ _ _ _ _ B)) as [(Hl & _)|(Hl & _)].
      - apply libc_features_small; auto.
      - pose proof features_small. destruct (H2 Hl) as [->|(-> & _)]; lia. }
    unfold node_id_available, mm_cid_available. rewrite int_small by auto. split; apply Z.leb_le.
  Qed.

  Lemma libc_query : forall tr s t i z j o, run y tr s -> knows tr t -> readable s t VSize i z -> readable s t VOwn j o ->
    exists b, available y QLibc z o = Some b /\ (b = true <-> libc_active y).
  Proof.
    intros tr s t i z j o R K Hr Ho. destruct (visible _ _ _ R K) as (H & H').
    assert (Hf : final y VOwn o) by (eapply H; eauto; discriminate).
    cbn. eexists. split; [reflexivity|].
    destruct Hf as [(Hl & ->)|(Hl & ->)]; cbn; [|rewrite andb_false_r; split; [discriminate|contradiction]].
    split; auto. intros _. rewrite andb_true_r.
    destruct (H' _ _ Hr) as (H1 & _). destruct (H1 Hl) as (size & Hs & Hc).
    destruct Hl as (off & size' & fl & _ & Hs' & _ & Hn). assert (size' = size) by congruence. subst size'.
    pose proof (features_pos _ HS). destruct HS as (_ & Hb). specialize (Hb _ Hs). destruct (Z.eqb_spec z 0); [lia|reflexivity].
  Qed.
End Trace.
