(** Invariants of the initialisation and registration machine (C44-C46). *)
From Coq Require Import ZArith Bool List Lia.
From Verif Require Import RegModel RegSpec.
Import ListNotations.
Local Open Scope Z_scope.

Lemma var_eqb_spec : forall a b, reflect (a = b) (var_eqb a b).
Proof. destruct a, b; constructor; congruence. Qed.

Definition vals (v : var) (ws : list (var * Z)) : list Z := map snd (filter (fun p => var_eqb (fst p) v) ws).
Lemma vals_app : forall v a b, vals v (a ++ b) = vals v a ++ vals v b.
Proof. intros. unfold vals. rewrite filter_app, map_app. reflexivity. Qed.

Definition own_stores (y : sys) : list (var * Z) := [(VOwn, 1); (VOff, tls_off y); (VFlags, 0); (VSize, 0)].

Lemma feature_size_eq : forall y f, feature_size y = Some f -> f = features y.
Proof.
  unfold feature_size, features. intros y f. destruct (1024 <? k_aux y); [discriminate|].
  destruct (Z.eq_dec (k_aux y) 0) as [->|N]; [cbn; congruence|].
  destruct (Z.eqb_spec (k_aux y) 0); [contradiction|congruence].
Qed.

Lemma init_cases : forall y ws, init_stores y = Some ws ->
  (libc_active y /\ exists off fl n, libc_off y = Some off /\ libc_flags y = Some fl /\ libc_features y n /\
     ws = [(VOff, off); (VFlags, fl); (VSize, n)]) \/
  (~ libc_active y /\ ws = own_stores y).
Proof.
  intros y ws. unfold init_stores, libc_active, libc_features.
  destruct (libc_size y) as [sz|] eqn:Es; [|intros H; injection H as <-; right; split; auto; intros (a & b & c & H1 & H2 & H3 & H4); congruence].
  destruct (libc_off y) as [off|] eqn:Eo; [|intros H; injection H as <-; right; split; auto; intros (a & b & c & H1 & H2 & H3 & H4); congruence].
  destruct (libc_flags y) as [fl|] eqn:Ef; [|intros H; injection H as <-; right; split; auto; intros (a & b & c & H1 & H2 & H3 & H4); congruence].
  destruct (Z.eqb_spec sz 0).
  { intros H; injection H as <-; right; split; auto; intros (a & b & c & H1 & H2 & H3 & H4); congruence. }
  intros H. left. split; [exists off, sz, fl; auto|].
  destruct ((sz =? 20) || (sz =? 32)) eqn:E2.
  - destruct (feature_size y) as [f|] eqn:E; [|discriminate]. injection H as <-.
    exists off, fl, (if f <? 32 then f else 32). repeat (split; [reflexivity|]). split; auto.
    exists sz. split; auto. left. split; [lia|]. rewrite <- (feature_size_eq _ _ E).
    destruct (Z.ltb_spec f 32); lia.
  - injection H as <-. exists off, fl, sz. repeat (split; [reflexivity|]). split; auto.
    exists sz. split; auto. right. lia.
Qed.

Lemma init_defined : forall y, sane y -> exists ws, init_stores y = Some ws.
Proof.
  intros y (Ha & _). unfold init_stores. assert (exists f, feature_size y = Some f) as (f & E).
  { unfold feature_size. destruct (Z.ltb_spec 1024 (k_aux y)); [lia|eauto]. }
  destruct (libc_size y) as [sz|], (libc_off y), (libc_flags y); eauto.
  destruct (sz =? 0); eauto. destruct ((sz =? 20) || (sz =? 32)); eauto. rewrite E. eauto.
Qed.

Definition synced (ws : list (var * Z)) (w : view) : Prop := forall v z, In (v, z) ws -> (1 <= w v)%nat.
Definition le_view (a b : view) : Prop := forall v, (a v <= b v)%nat.

Lemma le_refl : forall a, le_view a a. Proof. intros a v. lia. Qed.
Lemma le_see : forall w v i, le_view w (see w v i).
Proof. intros w v i u. unfold see. destruct (var_eqb u v); lia. Qed.
Lemma le_join : forall a b, le_view a (join a b).
Proof. intros a b u. unfold join. lia. Qed.
Lemma le_join_r : forall a b, le_view b (join a b).
Proof. intros a b u. unfold join. lia. Qed.
Lemma le_trans_v : forall a b c, le_view a b -> le_view b c -> le_view a c.
Proof. intros a b c H H' v. specialize (H v). specialize (H' v). lia. Qed.
Lemma see_at : forall w v i, (i <= see w v i v)%nat.
Proof. intros. unfold see. destruct (var_eqb_spec v v); [lia|congruence]. Qed.
Lemma synced_mono : forall ws a b, le_view a b -> synced ws a -> synced ws b.
Proof. intros ws a b H S v z Hi. specialize (S v z Hi). specialize (H v). lia. Qed.
Global Hint Resolve le_refl le_see le_join le_join_r synced_mono : reg.

Section Inv.
  Variable y : sys.
  Hypothesis HS : sane y.

  Lemma features_pos : 0 < features y.
  Proof. unfold features. destruct HS as (H & _). destruct (Z.eq_dec (k_aux y) 0); lia. Qed.

  Definition good_len (len : Z) : Prop := len = 32 \/ len = features y /\ 32 < len.
  (** What a registered thread has. *)
  Definition kp (ws : list (var * Z)) (w : view) (k : option Z) : Prop :=
    k <> None -> ws = own_stores y /\ (2 <= w VSize)%nat.
  Definition late (ws : list (var * Z)) (p : pc) (w : view) (i : bool) (k : option Z) : Prop :=
    (i = true -> synced ws w) /\
    (forall len, k = Some len -> good_len len /\ k_has y = true) /\
    match p with
    | Idle | I_load _ | I_lock _ => kp ws w k
    | P_dead => True
    | I_check _ | I_unlock _ => synced ws w /\ (1 <= w VDone)%nat /\ kp ws w k
    | I_store _ _ | I_done _ => False
    | I_ret _ => synced ws w /\ kp ws w k
    | R_own | U_own | P_ret _ _ => i = true /\ kp ws w k
    | R_len | U_len => i = true /\ ws = own_stores y /\ kp ws w k
    | R_sys len | U_sys len => i = true /\ ws = own_stores y /\ good_len len /\ kp ws w k
    | R_failed => i = true /\ ws = own_stores y /\ kp ws w k /\ (k <> None \/ k_has y = false)
    | R_size | R_set => i = true /\ ws = own_stores y /\ k <> None
    end.

  Definition early (p : pc) : bool :=
    match p with Idle | I_load _ | I_lock _ | I_check _ | I_store _ _ | I_done _ | P_dead => true | _ => false end.
  Definition writer (p : pc) : bool := match p with I_store _ _ | I_done _ => true | _ => false end.
  Definition holds (p : pc) : bool :=
    match p with I_check _ | I_store _ _ | I_done _ | I_unlock _ => true | _ => false end.
  Definition api_of (p : pc) : option api :=
    match p with I_load c | I_lock c | I_check c | I_store c _ | I_done c | I_unlock c | I_ret c => Some c | _ => None end.

  Record phaseA (s : state) : Prop := {
    a_done : hist s VDone = [0];
    a_hist : exists dn,
      (forall v, v <> VDone -> hist s v = start v :: vals v dn) /\
      (dn = [] \/ exists t, owner s = Some t /\ writer (pcs s t) = true) /\
      (forall t c ws, pcs s t = I_store c ws -> init_stores y = Some (dn ++ ws) /\ synced dn (views s t)) /\
      (forall t c, pcs s t = I_done c -> init_stores y = Some dn /\ synced dn (views s t));
    a_pre : forall t, early (pcs s t) = true;
    a_inited : forall t, inited s t = false;
    a_kreg : forall t, kreg s t = None }.

  Record phaseB (tr : list label) (s : state) (ws : list (var * Z)) (n : nat) : Prop := {
    b_ws : init_stores y = Some ws;
    b_done : hist s VDone = [0; 1];
    b_hist : forall v, v <> VDone -> v <> VSize -> hist s v = start v :: vals v ws;
    b_size : hist s VSize = start VSize :: vals VSize ws ++ repeat (features y) n;
    b_n : (0 < n)%nat -> ws = own_stores y /\ k_has y = true /\ registration tr;
    b_rel : synced ws (rel s 1);
    b_lv : (exists t c, owner s = Some t /\ pcs s t = I_unlock c) \/ (synced ws (lview s) /\ (1 <= lview s VDone)%nat);
    b_late : forall t, late ws (pcs s t) (views s t) (inited s t) (kreg s t);
    b_reg : forall t, kreg s t <> None -> registration tr }.

  Record glob (s : state) : Prop := {
    g_lock : forall t, holds (pcs s t) = true -> owner s = Some t;
    g_api : forall t, api_of (pcs s t) <> Some CUnreg }.

  Definition inv (tr : list label) (s : state) : Prop :=
    glob s /\ (phaseA s \/ exists ws n, phaseB tr s ws n).

  Lemma late_mono : forall ws p w w' i k, le_view w w' -> late ws p w i k -> late ws p w' i k.
  Proof.
    intros ws p w w' i k Hl (H1 & H2 & H3). unfold late.
    assert (Hk : kp ws w k -> kp ws w' k).
    { unfold kp. intros K Hn. destruct (K Hn). split; auto. specialize (Hl VSize). lia. }
    pose proof (Hl VDone).
    split; [eauto with reg|]. split; [exact H2|].
    destruct p; intuition eauto with reg; try lia.
  Qed.

  Lemma inv_initial : inv [] initial.
  Proof.
    split; [constructor; cbn; discriminate|]. left. constructor; cbn; auto.
    exists []. split; auto. split; auto. split; discriminate.
  Qed.

  Lemma registration_app : forall tr l, registration tr -> registration (tr ++ l).
  Proof. intros tr l (t & len & H). exists t, len. apply in_or_app. auto. Qed.

  Ltac ups t u := unfold upd in *; destruct (Nat.eqb_spec u t) as [Heq|Hne]; [subst u|].

  (** A step that only moves one thread. *)
  Lemma move_glob : forall s t p w, glob s ->
    (holds p = true -> owner s = Some t) -> api_of p <> Some CUnreg -> glob (goto s t p w).
  Proof.
    intros s t p w [G1 G2] H1 H2. constructor; cbn; intros u; ups t u; auto.
  Qed.

  Lemma move_A : forall s t p w, phaseA s -> writer (pcs s t) = false -> early p = true -> writer p = false ->
    phaseA (goto s t p w).
  Proof.
    intros s t p w [A1 (dn & A2 & A3 & A4 & A5) A6 A7 A8] Hw He Hw'. constructor; cbn; auto.
    - exists dn. split; auto. split; [|split].
      + destruct A3 as [A3|(u & A3 & A3')]; [auto|]. right. exists u. split; auto. ups t u; auto. congruence.
      + intros u c ws. ups t u; [intros ->; discriminate|]. intros H. apply A4 in H. auto.
      + intros u c. ups t u; [intros ->; discriminate|]. intros H. apply A5 in H. auto.
    - intros u. ups t u; auto.
  Qed.

  Lemma move_B : forall tr s ws n t p w l, phaseB tr s ws n -> late ws p w (inited s t) (kreg s t) ->
    (forall c, pcs s t <> I_unlock c) -> phaseB (tr ++ l) (goto s t p w) ws n.
  Proof.
    intros tr s ws n t p w l [B1 B2 B3 B4 B5 B6 B7 B8 B9] Hl Hu. constructor; cbn; auto.
    - intros Hn. destruct (B5 Hn) as (? & ? & ?). auto using registration_app.
    - destruct B7 as [(u & c & B7 & B7')|B7]; auto. left. exists u, c. split; auto. ups t u; auto. destruct (Hu _ B7').
    - intros u. ups t u; auto.
    - intros u H. apply registration_app, (B9 u); auto.
  Qed.

  Lemma late_at : forall tr s ws n t, phaseB tr s ws n -> late ws (pcs s t) (views s t) (inited s t) (kreg s t).
  Proof. intros. apply b_late with (1 := H). Qed.

  Lemma A_early : forall s t, phaseA s -> early (pcs s t) = true.
  Proof. intros s t H. apply a_pre. auto. Qed.

  (** Reads of synchronised threads. *)
  Lemma read_done : forall tr s ws n t i z, phaseB tr s ws n -> readable s t VDone i z -> i = 0%nat /\ z = 0 \/ i = 1%nat /\ z = 1.
  Proof.
    intros tr s ws n t i z B (_ & H). rewrite (b_done _ _ _ _ B) in H.
    destruct i as [|[|i]]; cbn in H; [left|right|destruct i; discriminate]; split; congruence.
  Qed.
  Lemma readA_done : forall s t i z, phaseA s -> readable s t VDone i z -> i = 0%nat /\ z = 0.
  Proof.
    intros s t i z A (_ & H). rewrite (a_done _ A) in H. destruct i as [|[|i]]; cbn in H; try discriminate. split; congruence.
  Qed.
  Lemma own_mem : forall v, v <> VDone -> exists z, In (v, z) (own_stores y).
  Proof. intros [] H; try congruence; cbn; eauto 10. Qed.
  Lemma own_vals : vals VOwn (own_stores y) = [1] /\ vals VSize (own_stores y) = [0].
  Proof. split; reflexivity. Qed.

  Lemma read_own : forall tr s ws n t i z, phaseB tr s ws n -> synced ws (views s t) -> readable s t VOwn i z ->
    (libc_active y /\ z = 0) \/ (ws = own_stores y /\ z = 1).
  Proof.
    intros tr s ws n t i z B Hs (Hv & H). rewrite (b_hist _ _ _ _ B) in H by discriminate.
    destruct (init_cases _ _ (b_ws _ _ _ _ B)) as [(Hl & off & fl & m & _ & _ & _ & ->)|(Hl & ->)].
    - left. split; auto. destruct i as [|[|i]]; cbn in H; congruence.
    - right. split; auto. assert (1 <= views s t VOwn)%nat by (eapply Hs; cbn; eauto).
      destruct i as [|[|[|i]]]; [lia| | |]; cbn in H; congruence.
  Qed.

  Lemma read_size : forall tr s n t i z, phaseB tr s (own_stores y) n -> synced (own_stores y) (views s t) -> readable s t VSize i z ->
    (i = 1%nat /\ z = 0) \/ ((2 <= i)%nat /\ z = features y /\ (0 < n)%nat).
  Proof.
    intros tr s n t i z B Hs (Hv & H). rewrite (b_size _ _ _ _ B) in H. cbn in H.
    assert (1 <= views s t VSize)%nat by (eapply Hs; cbn; eauto 10).
    destruct i as [|[|i]]; [lia| |]; cbn in H; [left; split; congruence|].
    right. split; [lia|]. assert (Hi : (i < length (repeat (features y) n))%nat) by (apply nth_error_Some; congruence).
    apply nth_error_In in H. apply repeat_spec in H. rewrite repeat_length in Hi. split; [auto|lia].
  Qed.

  Lemma good_min : forall z, z = 0 \/ z = features y -> good_len (min_alloc z).
  Proof.
    intros z Hz. unfold good_len, min_alloc. destruct (Z.ltb_spec z 32); auto.
    destruct Hz as [->| ->]; [lia|]. destruct (Z.eq_dec (features y) 32); [auto|right; lia].
  Qed.
  Lemma good_accepted : forall len, good_len len -> accepts y len = true.
  Proof.
    intros len [->|(E & H)]; unfold accepts; [reflexivity|].
    unfold features in E. destruct (Z.eq_dec (k_aux y) 0); [lia|].
    rewrite E at 1. destruct (Z.eqb_spec len 32); [lia|]. cbn. destruct (Z.ltb_spec 32 len); [|lia].
    destruct (Z.eqb_spec (k_aux y) 0); [contradiction|]. destruct (Z.leb_spec (k_aux y) len); [|lia].
    destruct (_ =? _); reflexivity.
  Qed.

  Ltac noA A t := exfalso; pose proof (A_early _ t A) as HE; match goal with H : pcs _ t = _ |- _ => rewrite H in HE end; discriminate HE.
  Ltac api t := match goal with G : glob _, H : pcs _ t = _ |- _ =>
    let X := fresh in pose proof (g_api _ G t) as X; rewrite H in X; cbn in X; cbn; congruence end.
  Ltac lk t := cbn; intros _; match goal with G : glob _, H : pcs _ t = _ |- _ => apply (g_lock _ G); rewrite H; reflexivity end.

  Lemma inv_step : forall tr s l s', inv tr s -> step y s l s' -> inv (tr ++ [l]) s'.
  Proof.
    intros tr s l s' (G & P) St.
    destruct St as [s t c Hp Hc|s t c i z Hp Hr|s t c Hp Ho|s t c i z Hp Hr Hz|s t c i ws0 Hp Hr Hw|s t c i Hp Hr Hw
                   |s t c v z ws0 Hp|s t c Hp|s t c Hp|s t c Hp|s t c Hp|s t u Hi Hp|s t i z Hp Hr|s t i z Hp Hr|s t len Hp
                   |s t i z Hp Hr Hz|s t i z Hp Hr Hz|s t i z Hp Hr|s t f Hp Hf|s t Hp Hf|s t i z Hp Hr|s t i z Hp Hr|s t len Hp
                   |s t c r Hp].
    - (* call *)
      split.
      + apply move_glob; auto; destruct c; cbn; congruence.
      + destruct P as [A|(ws & n & B)].
        * left. apply move_A; auto; [rewrite Hp; reflexivity| |]; destruct c; try reflexivity.
          exfalso. specialize (Hc eq_refl). rewrite (a_inited _ A) in Hc. discriminate.
        * right. exists ws, n. apply move_B; auto; [|congruence].
          pose proof (late_at _ _ _ _ t B) as (L1 & L2 & L3). rewrite Hp in L3. cbn in L3.
          split; auto. split; auto. destruct c; auto.
    - (* load-acquire *)
      split.
      + apply move_glob; auto; destruct (z =? 0); try discriminate; api t.
      + destruct P as [A|(ws & n & B)].
        * left. destruct (readA_done _ _ _ _ A Hr) as (-> & ->). apply move_A; auto. rewrite Hp. reflexivity.
        * right. exists ws, n. apply move_B; auto; [|congruence].
          pose proof (late_at _ _ _ _ t B) as L. rewrite Hp in L.
          apply late_mono with (w' := join (see (views s t) VDone i) (rel s i)) in L;
            [|eapply le_trans_v; [apply le_see|apply le_join]].
          destruct (read_done _ _ _ _ _ _ _ B Hr) as [(-> & ->)|(-> & ->)]; cbn; [exact L|].
          destruct L as (L1 & L2 & L3). split; auto. split; auto. split; auto.
          eapply synced_mono; [apply le_join_r|]. apply (b_rel _ _ _ _ B).
    - (* lock *)
      split.
      + constructor; cbn; intros u; ups t u; auto; try api t; try apply (g_api _ G).
        intros H. apply (g_lock _ G) in H. congruence.
      + destruct P as [A|(ws & n & B)].
        * left. destruct A as [A1 (dn & A2 & A3 & A4 & A5) A6 A7 A8]. constructor; cbn; auto.
          -- exists dn. split; auto. split; [|split].
             ++ destruct A3 as [->|(u & A3 & _)]; [auto|congruence].
             ++ intros u c' ws. ups t u; [discriminate|]. intros H. apply (A4 _ _ _ H).
             ++ intros u c'. ups t u; [discriminate|]. intros H. apply (A5 _ _ H).
          -- intros u. ups t u; auto.
        * right. exists ws, n. pose proof (late_at _ _ _ _ t B) as L. rewrite Hp in L.
          destruct B as [B1 B2 B3 B4 B5 B6 B7 B8 B9]. constructor; cbn; auto.
          -- intros Hn. destruct (B5 Hn) as (? & ? & ?). auto using registration_app.
          -- right. destruct B7 as [(u & c' & B7 & _)|B7]; [congruence|auto].
          -- intros u. ups t u; auto.
             destruct B7 as [(u & c' & B7 & _)|(B7 & B7')]; [congruence|].
             apply late_mono with (w' := join (views s t) (lview s)) in L; [|apply le_join].
             destruct L as (L1 & L2 & L3). split; auto. split; auto. split; [|split]; auto.
             ++ eapply synced_mono; [apply le_join_r|auto].
             ++ unfold join. lia.
          -- intros u H. apply registration_app, (B9 u); auto.
    - (* second check, initialised *)
      split.
      + apply move_glob; auto; [lk t|api t].
      + destruct P as [A|(ws & n & B)].
        * destruct (readA_done _ _ _ _ A Hr) as (-> & ->). congruence.
        * right. exists ws, n. apply move_B; auto; [|congruence].
          pose proof (late_at _ _ _ _ t B) as L. rewrite Hp in L.
          apply late_mono with (w' := see (views s t) VDone i) in L; [|apply le_see]. exact L.
    - (* second check, not initialised *)
      split.
      + apply move_glob; auto; [lk t|api t].
      + destruct P as [A|(ws & n & B)].
        * left. pose proof A as [A1 (dn & A2 & A3 & A4 & A5) A6 A7 A8].
          assert (Hown : owner s = Some t) by (apply (g_lock _ G); rewrite Hp; reflexivity).
          assert (dn = []) as ->.
          { destruct A3 as [A3|(u & A3 & A3')]; auto. assert (u = t) by congruence. subst u. rewrite Hp in A3'. discriminate. }
          constructor; cbn; auto.
          -- exists []. split; auto. split; [auto|split].
             ++ intros u c' ws. ups t u; [intros H; injection H as <- <-; split; auto; intros v z []|].
                intros H. apply (A4 _ _ _ H).
             ++ intros u c'. ups t u; [discriminate|]. intros H. apply (A5 _ _ H).
          -- intros u. ups t u; auto.
        * exfalso. pose proof (late_at _ _ _ _ t B) as (_ & _ & L). rewrite Hp in L. destruct L as (_ & L & _).
          destruct (read_done _ _ _ _ _ _ _ B Hr) as [(-> & _)|(_ & ?)]; [|discriminate]. destruct Hr as (Hr & _). lia.
    - exfalso. destruct (init_defined y HS) as (ws & E). congruence.
    - (* a store of the initialisation *)
      assert (Hown : owner s = Some t) by (apply (g_lock _ G); rewrite Hp; reflexivity).
      destruct P as [A|(ws & n & B)].
      2:{ exfalso. pose proof (late_at _ _ _ _ t B) as (_ & _ & L). rewrite Hp in L. exact L. }
      destruct A as [A1 (dn & A2 & A3 & A4 & A5) A6 A7 A8].
      destruct (A4 _ _ _ Hp) as (E & Hsy).
      assert (Hv : v <> VDone).
      { assert (Hin : In (v, z) (dn ++ (v, z) :: ws0)) by (apply in_or_app; cbn; auto).
        intros ->. destruct (init_cases _ _ E) as [(_ & off & fl & m & _ & _ & _ & E')|(_ & E')]; rewrite E' in Hin; cbn in Hin;
          repeat destruct Hin as [Hin|Hin]; congruence. }
      split.
      + constructor; cbn; intros u; ups t u; auto; try api t; apply G.
      + left. constructor; cbn; auto.
        * destruct v; congruence.
        * exists (dn ++ [(v, z)]). split; [|split; [|split]].
          -- intros u Hu. rewrite vals_app. rewrite A2 by auto. unfold vals at 3. cbn.
             destruct (var_eqb_spec u v) as [->|N].
             ++ destruct (var_eqb_spec v v); [|congruence]. reflexivity.
             ++ destruct (var_eqb_spec v u); [congruence|]. cbn. rewrite app_nil_r. reflexivity.
          -- right. exists t. split; auto. unfold upd. rewrite Nat.eqb_refl. reflexivity.
          -- intros u c' ws. ups t u.
             ++ intros H; injection H as <- <-. rewrite <- app_assoc. split; [exact E|].
                intros v' z' Hin. apply in_app_or in Hin. destruct Hin as [Hin|[Hin|[]]].
                ** specialize (Hsy _ _ Hin). pose proof (le_see (views s t) v (length (hist s v)) v'). lia.
                ** injection Hin as -> ->. pose proof (see_at (views s t) v' (length (hist s v'))).
                   rewrite (A2 v') in * by auto. cbn [length] in *. lia.
             ++ intros H. exfalso. pose proof (g_lock _ G u) as X. rewrite H in X. specialize (X eq_refl). congruence.
          -- intros u c'. ups t u; [discriminate|].
             intros H. exfalso. pose proof (g_lock _ G u) as X. rewrite H in X. specialize (X eq_refl). congruence.
        * intros u. ups t u; auto.
    - (* all stores done *)
      assert (Hown : owner s = Some t) by (apply (g_lock _ G); rewrite Hp; reflexivity).
      destruct P as [A|(ws & n & B)].
      2:{ exfalso. pose proof (late_at _ _ _ _ t B) as (_ & _ & L). rewrite Hp in L. exact L. }
      split; [apply move_glob; auto; api t|].
      destruct A as [A1 (dn & A2 & A3 & A4 & A5) A6 A7 A8]. destruct (A4 _ _ _ Hp) as (E & Hsy). rewrite app_nil_r in E.
      left. constructor; cbn; auto.
      + exists dn. split; auto. split; [|split].
        * right. exists t. split; auto. unfold upd. rewrite Nat.eqb_refl. reflexivity.
        * intros u c' ws. ups t u; [discriminate|]. intros H. apply (A4 _ _ _ H).
        * intros u c'. ups t u; [auto|]. intros H. apply (A5 _ _ H).
      + intros u. ups t u; auto.
    - (* store-release *)
      assert (Hown : owner s = Some t) by (apply (g_lock _ G); rewrite Hp; reflexivity).
      destruct P as [A|(ws & n & B)].
      2:{ exfalso. pose proof (late_at _ _ _ _ t B) as (_ & _ & L). rewrite Hp in L. exact L. }
      destruct A as [A1 (dn & A2 & A3 & A4 & A5) A6 A7 A8]. destruct (A5 _ _ Hp) as (E & Hsy).
      split.
      + constructor; cbn; intros u; ups t u; auto; try api t; apply G.
      + right. exists dn, 0%nat. constructor; cbn; auto.
        * rewrite A1. reflexivity.
        * intros v H1 H2. destruct (var_eqb_spec v VDone); [congruence|]. auto.
        * rewrite A2 by discriminate. rewrite app_nil_r. reflexivity.
        * lia.
        * rewrite A1. cbn. unfold upd. cbn. eapply synced_mono; [apply le_see|auto].
        * left. exists t, c. split; auto. unfold upd. rewrite Nat.eqb_refl. reflexivity.
        * intros u. rewrite A7, A8. ups t u.
          -- split; [discriminate|]. split; [discriminate|]. split; [eapply synced_mono; [apply le_see|auto]|].
             split; [|intros X; congruence]. pose proof (see_at (views s t) VDone (length (hist s VDone))). rewrite A1 in *. cbn [length] in *. lia.
          -- split; [discriminate|]. split; [discriminate|]. pose proof (A6 u) as X.
             assert (Hh : holds (pcs s u) = false).
             { destruct (holds (pcs s u)) eqn:Eh; auto. apply (g_lock _ G) in Eh. congruence. }
             destruct (pcs s u); try discriminate; auto; intros Y; congruence.
        * intros u H. rewrite A8 in H. congruence.
    - (* unlock *)
      destruct P as [A|(ws & n & B)]; [noA A t|].
      assert (Hown : owner s = Some t) by (apply (g_lock _ G); rewrite Hp; reflexivity).
      split.
      + constructor; cbn; intros u; ups t u; auto; try discriminate; try api t; try apply G.
        intros H. exfalso. apply (g_lock _ G) in H. congruence.
      + right. exists ws, n. pose proof (late_at _ _ _ _ t B) as L. rewrite Hp in L. destruct L as (L1 & L2 & L3 & L4 & L5).
        destruct B as [B1 B2 B3 B4 B5 B6 B7 B8 B9]. constructor; cbn; auto.
        * intros Hn. destruct (B5 Hn) as (? & ? & ?). auto using registration_app.
        * intros u. ups t u; auto. split; auto.
        * intros u H. apply registration_app, (B9 u); auto.
    - (* rseq_init() returns *)
      destruct P as [A|(ws & n & B)]; [noA A t|].
      split.
      + constructor; cbn; intros u; ups t u; try apply G; destruct c; discriminate.
      + right. exists ws, n. pose proof (late_at _ _ _ _ t B) as L. rewrite Hp in L. destruct L as (L1 & L2 & L3 & L4).
        destruct B as [B1 B2 B3 B4 B5 B6 B7 B8 B9]. constructor; cbn; auto.
        * intros Hn. destruct (B5 Hn) as (? & ? & ?). auto using registration_app.
        * destruct B7 as [(u & c' & B7 & B7')|B7]; auto. left. exists u, c'. split; auto. ups t u; auto. congruence.
        * intros u. ups t u; auto. split; auto. split; auto. destruct c; cbn; auto.
        * intros u H. apply registration_app, (B9 u); auto.
    - (* spawn *)
      destruct P as [A|(ws & n & B)]; [rewrite (a_inited _ A) in Hi; discriminate|].
      split.
      + destruct G as [G1 G2]. constructor; cbn; auto.
      + right. exists ws, n. pose proof (late_at _ _ _ _ t B) as (L & _). specialize (L Hi). pose proof (late_at _ _ _ _ u B) as L'.
        destruct B as [B1 B2 B3 B4 B5 B6 B7 B8 B9]. constructor; cbn; auto.
        * intros Hn. destruct (B5 Hn) as (? & ? & ?). auto using registration_app.
        * intros x. ups u x; auto. rewrite Hp in *.
          apply late_mono with (w' := join (views s u) (views s t)) in L'; [|apply le_join].
          destruct L' as (_ & L2 & L3). split; [|split; auto]. intros _. eapply synced_mono; [apply le_join_r|auto].
        * intros x H. apply registration_app, (B9 x); auto.
    - (* register: ownership *)
      destruct P as [A|(ws & n & B)]; [noA A t|].
      split; [apply move_glob; auto; destruct (z =? 0); discriminate|].
      right. exists ws, n. apply move_B; auto; [|congruence].
      pose proof (late_at _ _ _ _ t B) as L. rewrite Hp in L.
      assert (Hs : synced ws (views s t)) by (apply L, L).
      apply late_mono with (w' := see (views s t) VOwn i) in L; [|apply le_see]. destruct L as (L1 & L2 & L3 & L4).
      destruct (read_own _ _ _ _ _ _ _ B Hs Hr) as [(Hl & ->)|(-> & ->)]; cbn; split; auto.
    - (* register: length *)
      destruct P as [A|(ws & n & B)]; [noA A t|].
      split; [apply move_glob; auto; discriminate|].
      right. exists ws, n. apply move_B; auto; [|congruence].
      pose proof (late_at _ _ _ _ t B) as L. rewrite Hp in L.
      assert (Hs : synced ws (views s t)) by (apply L, L).
      apply late_mono with (w' := see (views s t) VSize i) in L; [|apply le_see]. destruct L as (L1 & L2 & L3 & -> & L5).
      split; auto. split; auto. split; auto. split; auto. split; auto. apply good_min.
      destruct (read_size _ _ _ _ _ _ B Hs Hr) as [(_ & ->)|(_ & -> & _)]; auto.
    - (* register: system call *)
      destruct P as [A|(ws & n & B)]; [noA A t|].
      split; [constructor; cbn; intros u; ups t u; try apply G; destruct ok; discriminate|].
      right. exists ws, n. pose proof (late_at _ _ _ _ t B) as L. rewrite Hp in L. destruct L as (L1 & L2 & L3 & -> & L5 & L6).
      destruct B as [B1 B2 B3 B4 B5 B6 B7 B8 B9]. constructor; cbn; auto.
      + intros Hn. destruct (B5 Hn) as (? & ? & ?). auto using registration_app.
      + destruct B7 as [(u & c' & B7 & B7')|B7]; auto. left. exists u, c'. split; auto. ups t u; auto. congruence.
      + assert (Hok : ok = true \/ kreg s t <> None \/ k_has y = false).
        { unfold ok, sys_register. destruct (k_has y); auto. destruct (kreg s t); [right; left; discriminate|].
          left. cbn. apply good_accepted. auto. }
        assert (Hk : ok = true -> k_has y = true).
        { unfold ok, sys_register. destruct (k_has y); auto. }
        intros u. destruct ok; ups t u; auto.
        * split; auto. split; [intros len' E; injection E as <-; auto|]. split; auto. split; auto. discriminate.
        * split; auto. split; auto. split; auto. split; auto. split; auto. destruct Hok as [Hok|Hok]; [discriminate|auto].
      + intros u H. destruct ok; [|apply registration_app, (B9 u); auto].
        exists t, len. apply in_or_app. cbn; auto.
    - (* register failed: return -1 *)
      destruct P as [A|(ws & n & B)]; [noA A t|].
      split; [apply move_glob; auto; discriminate|].
      right. exists ws, n. apply move_B; auto; [|congruence].
      pose proof (late_at _ _ _ _ t B) as L. rewrite Hp in L.
      apply late_mono with (w' := see (views s t) VSize i) in L; [|apply le_see]. destruct L as (L1 & L2 & L3 & L4 & L5 & L6).
      split; auto.
    - (* abort *)
      destruct P as [A|(ws & n & B)]; [noA A t|].
      split; [apply move_glob; auto; discriminate|].
      right. exists ws, n. apply move_B; auto; [|congruence].
      pose proof (late_at _ _ _ _ t B) as L. rewrite Hp in L.
      apply late_mono with (w' := see (views s t) VSize i) in L; [|apply le_see]. destruct L as (L1 & L2 & L3).
      split; auto.
    - (* register: size already set? *)
      destruct P as [A|(ws & n & B)]; [noA A t|].
      split; [apply move_glob; auto; destruct (z =? 0); discriminate|].
      right. exists ws, n. apply move_B; auto; [|congruence].
      pose proof (late_at _ _ _ _ t B) as L. rewrite Hp in L.
      assert (Hs : synced ws (views s t)) by (apply L, L).
      apply late_mono with (w' := see (views s t) VSize i) in L; [|apply le_see]. destruct L as (L1 & L2 & L3 & -> & L5).
      split; auto. split; auto.
      destruct (read_size _ _ _ _ _ _ B Hs Hr) as [(_ & ->)|(Hi & -> & _)]; [cbn; auto|].
      pose proof features_pos. destruct (Z.eqb_spec (features y) 0); [lia|]. split; auto. intros _. split; auto.
      pose proof (see_at (views s t) VSize i). lia.
    - (* register: set the size *)
      destruct P as [A|(ws & n & B)]; [noA A t|].
      split; [constructor; cbn; intros u; ups t u; try apply G; discriminate|].
      apply feature_size_eq in Hf. subst f.
      right. exists ws, (S n). pose proof (late_at _ _ _ _ t B) as L. rewrite Hp in L.
      apply late_mono with (w' := see (views s t) VSize (length (hist s VSize))) in L; [|apply le_see].
      destruct L as (L1 & L2 & L3 & -> & L5).
      assert (Hreg : registration tr) by (apply (b_reg _ _ _ _ B) with t; auto).
      destruct B as [B1 B2 B3 B4 B5 B6 B7 B8 B9].
      assert (Hge : (2 <= see (views s t) VSize (length (hist s VSize)) VSize)%nat).
      { pose proof (see_at (views s t) VSize (length (hist s VSize))). rewrite B4 in *. change (vals VSize (own_stores y)) with [0] in *. cbn [length app] in *. lia. }
      constructor; cbn; auto.
      + intros v H1 H2. rewrite <- B3 by auto. destruct v; try congruence; reflexivity.
      + rewrite B4. cbn. f_equal. f_equal.
        change (features y :: repeat (features y) n) with (repeat (features y) (S n)).
        replace (S n) with (n + 1)%nat by lia. rewrite repeat_app. reflexivity.
      + intros _. split; auto. split; auto using registration_app.
        destruct (kreg s t) as [len|] eqn:Ek; [|congruence]. apply (L2 len eq_refl).
      + destruct B7 as [(u & c' & B7 & B7')|B7]; auto. left. exists u, c'. split; auto. ups t u; auto. congruence.
      + intros u. ups t u; auto. split; auto. split; auto. split; auto. intros _. split; auto.
      + intros u H. apply registration_app, (B9 u); auto.
    - exfalso. unfold feature_size in Hf. destruct HS as (H & _). destruct (Z.ltb_spec 1024 (k_aux y)); [lia|discriminate].
    - (* unregister: ownership *)
      destruct P as [A|(ws & n & B)]; [noA A t|].
      split; [apply move_glob; auto; destruct (z =? 0); discriminate|].
      right. exists ws, n. apply move_B; auto; [|congruence].
      pose proof (late_at _ _ _ _ t B) as L. rewrite Hp in L.
      assert (Hs : synced ws (views s t)) by (apply L, L).
      apply late_mono with (w' := see (views s t) VOwn i) in L; [|apply le_see]. destruct L as (L1 & L2 & L3 & L4).
      destruct (read_own _ _ _ _ _ _ _ B Hs Hr) as [(Hl & ->)|(-> & ->)]; cbn; split; auto.
    - (* unregister: length *)
      destruct P as [A|(ws & n & B)]; [noA A t|].
      split; [apply move_glob; auto; discriminate|].
      right. exists ws, n. apply move_B; auto; [|congruence].
      pose proof (late_at _ _ _ _ t B) as L. rewrite Hp in L.
      assert (Hs : synced ws (views s t)) by (apply L, L).
      apply late_mono with (w' := see (views s t) VSize i) in L; [|apply le_see]. destruct L as (L1 & L2 & L3 & -> & L5).
      split; auto. split; auto. split; auto. split; auto. split; auto. apply good_min.
      destruct (read_size _ _ _ _ _ _ B Hs Hr) as [(_ & ->)|(_ & -> & _)]; auto.
    - (* unregister: system call *)
      destruct P as [A|(ws & n & B)]; [noA A t|].
      split; [constructor; cbn; intros u; ups t u; try apply G; discriminate|].
      right. exists ws, n. pose proof (late_at _ _ _ _ t B) as L. rewrite Hp in L. destruct L as (L1 & L2 & L3 & -> & L5 & L6).
      destruct B as [B1 B2 B3 B4 B5 B6 B7 B8 B9]. constructor; cbn; auto.
      + intros Hn. destruct (B5 Hn) as (? & ? & ?). auto using registration_app.
      + destruct B7 as [(u & c' & B7 & B7')|B7]; auto. left. exists u, c'. split; auto. ups t u; auto. congruence.
      + intros u. destruct ok; ups t u; auto.
        * split; auto. split; [discriminate|]. split; auto. intros X; congruence.
        * split; auto.
      + intros u H. apply registration_app. destruct ok; [|apply (B9 u); auto]. ups t u; [congruence|apply (B9 u); auto].
    - (* return *)
      destruct P as [A|(ws & n & B)]; [noA A t|].
      split; [apply move_glob; auto; discriminate|].
      right. exists ws, n. apply move_B; auto; [|congruence].
      pose proof (late_at _ _ _ _ t B) as L. rewrite Hp in L. destruct L as (L1 & L2 & L3 & L4). split; auto.
  Qed.

  Lemma inv_run : forall tr s, run y tr s -> inv tr s.
  Proof. intros tr s R. induction R; [apply inv_initial|eapply inv_step; eauto]. Qed.
End Inv.
