(** Proofs for C63. *)
From Coq Require Import ZArith Bool List Lia Arith.
From Verif Require Import SmpModel SmpSpec SmpRace SmpProofs.
Import ListNotations.
Local Open Scope Z_scope.

Lemma set_same : forall A (f : nat -> A) t x, set f t x t = x.
Proof. intros. unfold set. rewrite Nat.eqb_refl. reflexivity. Qed.
Lemma set_other : forall A (f : nat -> A) t x u, u <> t -> set f t x u = f u.
Proof. intros. unfold set. destruct (Nat.eqb_spec u t); congruence. Qed.
Ltac sets t u := unfold set; destruct (Nat.eqb_spec u t); subst.

(** What was computed. *)
Definition computed (lb : Z) (tr : list label) (n : Z) : Prop := exists u e, In (LComp u e) tr /\ compute_len lb e = Len n /\ 1 <= n.
Lemma computed_more : forall lb tr l n, computed lb tr n -> computed lb (tr ++ [l]) n.
Proof. intros lb tr l n (u & e & H & H1). exists u, e. split; auto. apply in_or_app. auto. Qed.

Record inv (lb : Z) (tr : list label) (s : rstate) : Prop := {
  i_first : exists r, vals s = 0 :: r /\ forall n, In n r -> computed lb tr n;
  i_put : forall t n, at_ s t = Put n -> computed lb tr n;
  i_ret : forall t v, In (LRet t v) tr -> v = 0 \/ computed lb tr v;
  i_seen : forall t, (seen s t < length (vals s))%nat
}.
Lemma nth_lt : forall A (l : list A) i x, nth_error l i = Some x -> (i < length l)%nat.
Proof. intros. apply nth_error_Some. congruence. Qed.

Lemma inv_run : forall lb tr s, rrun lb tr s -> inv lb tr s.
Proof.
  intros lb tr s H. induction H as [|tr s l s' H IH Hs].
  - split; cbn; try contradiction; try discriminate; [|lia]. exists []. split; auto. intros n [].
  - destruct IH as [(r & E & Hr) I2 I3 I4].
    assert (Hr' : forall n, In n r -> computed lb (tr ++ [l]) n) by (intros; apply computed_more; auto).
    assert (I2' : forall t n, at_ s t = Put n -> computed lb (tr ++ [l]) n) by (intros; eapply computed_more; eauto).
    assert (I3' : forall t v, In (LRet t v) tr -> v = 0 \/ computed lb (tr ++ [l]) v).
    { intros t v Hv. destruct (I3 t v Hv); auto. right. apply computed_more. auto. }
    assert (Hold : forall t v, l <> LRet t v -> In (LRet t v) (tr ++ [l]) -> v = 0 \/ computed lb (tr ++ [l]) v).
    { intros t v Hn Hi. apply in_app_or in Hi. destruct Hi as [Hi|[Hi|[]]]; [eauto|contradiction]. }
    inversion Hs; subst; clear Hs.
    + split; cbn [vals seen at_]; [eauto| |intros; eapply Hold; eauto; discriminate|auto].
      intros u n. sets t u; [discriminate|eauto].
    + split; cbn [vals seen at_]; [eauto| |intros; eapply Hold; eauto; discriminate|].
      * intros u n. sets t u; [destruct (c =? 0); discriminate|eauto].
      * intros u. sets t u; [eapply nth_lt; eauto|auto].
    + split; cbn [vals seen at_]; [eauto| |intros; eapply Hold; eauto; discriminate|auto].
      intros u m. sets t u; [|eauto]. destruct (Z.ltb_spec n 1); [discriminate|]. intros Em. inversion Em; subst m.
      exists t, e. split; [apply in_or_app; right; left; reflexivity|auto].
    + split; cbn [vals seen at_].
      * exists (r ++ [n]). rewrite E. split; auto. intros m Hm. apply in_app_or in Hm. destruct Hm as [Hm|[<-|[]]]; eauto.
      * intros u m. sets t u; [discriminate|eauto].
      * intros; eapply Hold; eauto; discriminate.
      * intros u. rewrite app_length. cbn [length]. sets t u; [lia|]. specialize (I4 u). lia.
    + split; cbn [vals seen at_]; [eauto| | |].
      * intros u m. sets t u; [discriminate|eauto].
      * intros u w Hi. apply in_app_or in Hi. destruct Hi as [Hi|[Hi|[]]]; [eauto|]. inversion Hi; subst.
        match goal with K : nth_error (vals s) i = Some w |- _ => rewrite E in K; apply nth_error_In in K; destruct K as [<-|K]; auto end.
      * intros u. sets t u; [eapply nth_lt; eauto|auto].
    + split; cbn [vals seen at_]; [eauto|eauto|intros; eapply Hold; eauto; discriminate|].
      intros v. sets t v; [|auto]. pose proof (I4 t). pose proof (I4 u). lia.
Qed.

Lemma returns_computed : forall lb tr s t v, rrun lb tr s -> In (LRet t v) tr -> v <> 0 ->
  1 <= v /\ exists u e, In (LComp u e) tr /\ compute_len lb e = Len v.
Proof.
  intros lb tr s t v H Hi Hv. destruct (i_ret _ _ _ (inv_run _ _ _ H) t v Hi) as [|(u & e & A & B & C)]; [contradiction|eauto].
Qed.

(** A call that returns 0 has computed nothing usable itself. *)
Definition failed (lb : Z) (e : env) : Prop := exists n, compute_len lb e = Len n /\ n < 1.
(** The call in progress of [t], with its answers. *)
Record inv0 (lb : Z) (tr : list label) (s : rstate) : Prop := {
  z_first : exists r, vals s = 0 :: r /\ forall n, In n r -> 1 <= n;
  z_put : forall t n, at_ s t = Put n -> 1 <= n;
  z_last : forall t, at_ s t = Last -> (0 < seen s t)%nat \/ exists e, In (LComp t e) tr /\ failed lb e;
  z_ret : forall t, In (LRet t 0) tr -> exists e, In (LComp t e) tr /\ failed lb e
}.
Lemma inv0_run : forall lb tr s, rrun lb tr s -> inv0 lb tr s.
Proof.
  intros lb tr s H. induction H as [|tr s l s' H IH Hs].
  - split; cbn; try contradiction; try discriminate. exists []. split; auto. intros n [].
  - pose proof (inv_run _ _ _ H) as HI. destruct IH as [(r & E & Hr) I2 I3 I4].
    assert (Hm : forall t, (exists e, In (LComp t e) tr /\ failed lb e) -> exists e, In (LComp t e) (tr ++ [l]) /\ failed lb e).
    { intros t (e & A & B). exists e. split; auto. apply in_or_app. auto. }
    assert (Hold : forall t, l <> LRet t 0 -> In (LRet t 0) (tr ++ [l]) -> exists e, In (LComp t e) (tr ++ [l]) /\ failed lb e).
    { intros t Hn Hi. apply in_app_or in Hi. destruct Hi as [Hi|[Hi|[]]]; [eauto|contradiction]. }
    assert (I3' : forall t, at_ s t = Last -> (0 < seen s t)%nat \/ exists e, In (LComp t e) (tr ++ [l]) /\ failed lb e).
    { intros t Hl. destruct (I3 t Hl); auto. }
    inversion Hs; subst; clear Hs.
    + split; cbn [vals seen at_]; [eauto| | |intros; eapply Hold; eauto; discriminate].
      * intros u n. sets t u; [discriminate|eauto].
      * intros u. sets t u; [discriminate|eauto].
    + split; cbn [vals seen at_]; [eauto| | |intros; eapply Hold; eauto; discriminate].
      * intros u n. sets t u; [destruct (c =? 0); discriminate|eauto].
      * intros u. sets t u; [|eauto]. destruct (Z.eqb_spec c 0); [discriminate|]. intros _. left.
        destruct i; [|lia]. rewrite E in *. cbn in *. congruence.
    + split; cbn [vals seen at_]; [eauto| | |intros; eapply Hold; eauto; discriminate].
      * intros u m. sets t u; [|eauto]. destruct (Z.ltb_spec n 1); [discriminate|]. intros Em. inversion Em; subst. lia.
      * intros u. sets t u; [|eauto]. destruct (Z.ltb_spec n 1); [|discriminate]. intros _. right. exists e.
        split; [apply in_or_app; right; left; reflexivity|exists n; auto].
    + split; cbn [vals seen at_].
      * exists (r ++ [n]). rewrite E. split; auto. intros m Hmm. apply in_app_or in Hmm. destruct Hmm as [Hmm|[<-|[]]]; eauto.
      * intros u m. sets t u; [discriminate|eauto].
      * intros u. sets t u; [|eauto]. intros _. left. rewrite E. cbn. lia.
      * intros; eapply Hold; eauto; discriminate.
    + split; cbn [vals seen at_]; [eauto| | |].
      * intros u m. sets t u; [discriminate|eauto].
      * intros u. sets t u; [discriminate|eauto].
      * intros u Hi. apply in_app_or in Hi. destruct Hi as [Hi|[Hi|[]]]; [eauto|]. inversion Hi; subst.
        destruct (I3 u) as [Hp|He]; auto. exfalso.
        match goal with K : nth_error (vals s) i = Some 0 |- _ => rewrite E in K; destruct i; [lia|]; cbn in K; apply nth_error_In in K; apply Hr in K; lia end.
    + split; cbn [vals seen at_]; [eauto|eauto| |intros; eapply Hold; eauto; discriminate].
      intros v Hl. destruct (I3 v Hl); [left|right; eauto]. sets t v; lia.
Qed.

(** The states along the run, and what each thread knows there. *)
Definition along (lb : Z) (tr : list label) (f : nat -> rstate) : Prop :=
  f O = start /\ forall i l, nth_error tr i = Some l -> rstep lb (f i) l (f (S i)).
Lemma run_along : forall lb tr s, rrun lb tr s -> exists f, along lb tr f /\ f (length tr) = s.
Proof.
  intros lb tr s H. induction H as [|tr s l0 s' H (f & (F1 & F2) & F3) Hs].
  - exists (fun _ => start). split; [split; auto|reflexivity]. intros [|i] l Hi; discriminate.
  - exists (fun i => if Nat.leb i (length tr) then f i else s'). split; [split; [exact F1|]|].
    + intros i l Hi. pose proof (nth_lt _ _ _ _ Hi) as Hl. rewrite app_length in Hl. cbn in Hl.
      destruct (Nat.lt_ge_cases i (length tr)) as [Hlt|Hge].
      * rewrite nth_error_app1 in Hi by auto. rewrite !(proj2 (Nat.leb_le _ _)) by lia. auto.
      * assert (i = length tr) by lia. subst i. rewrite nth_error_app2 in Hi by lia. rewrite Nat.sub_diag in Hi. cbn in Hi. inversion Hi; subst.
        rewrite (proj2 (Nat.leb_le _ _)) by lia. rewrite (proj2 (Nat.leb_gt _ _)) by lia. auto.
    + rewrite app_length. cbn. rewrite (proj2 (Nat.leb_gt _ _)) by lia. reflexivity.
Qed.
Lemma along_run : forall lb tr f, along lb tr f -> forall i, (i <= length tr)%nat -> rrun lb (firstn i tr) (f i).
Proof.
  intros lb tr f (F1 & F2) i. induction i as [|i IH]; intros Hi; [rewrite F1; constructor|].
  destruct (nth_error tr i) as [l|] eqn:E; [|apply nth_error_None in E; lia].
  assert (Ef : firstn (S i) tr = firstn i tr ++ [l]).
  { clear - E. revert i E. induction tr as [|x tr IH]; intros [|i] E; try discriminate; cbn in E |- *; [inversion E; reflexivity|].
    f_equal. apply IH. auto. }
  rewrite Ef. econstructor; [apply IH; lia|]. auto.
Qed.
Lemma step_seen : forall lb tr s l s', rrun lb tr s -> rstep lb s l s' -> forall t, (seen s t <= seen s' t)%nat.
Proof.
  intros lb tr s l s' Hr H t. pose proof (i_seen _ _ _ (inv_run _ _ _ Hr)) as Hs.
  inversion H; subst; cbn [seen]; try lia; [sets t0 t|sets t0 t|sets t0 t|sets t0 t]; try lia. specialize (Hs t0). lia.
Qed.
Section Along.
Variable lb : Z.
Variable tr : list label.
Variable f : nat -> rstate.
Hypothesis F : along lb tr f.
Lemma seen_mono : forall i j t, (i <= j)%nat -> (j <= length tr)%nat -> (seen (f i) t <= seen (f j) t)%nat.
Proof.
  intros i j t Hij. induction Hij as [|j Hij IH]; intros Hj; [lia|].
  destruct (nth_error tr j) as [l|] eqn:E; [|apply nth_error_None in E; lia].
  pose proof (step_seen lb _ _ _ _ (along_run lb tr f F j ltac:(lia)) (proj2 F j l E) t). specialize (IH ltac:(lia)). lia.
Qed.
Lemma before_lt : forall i j, before tr i j -> (i < j)%nat /\ (j < length tr)%nat.
Proof.
  intros i j H. induction H as [i j a b H1 H2 H3 H4|i j a t u H1 H2 H3 H4|i j k H1 IH1 H2 IH2].
  - split; auto. eapply nth_lt; eauto.
  - split; auto. eapply nth_lt; eauto.
  - lia.
Qed.
Lemma before_seen : forall i j, before tr i j -> forall a b, nth_error tr i = Some a -> nth_error tr j = Some b ->
  (seen (f (S i)) (who a) <= seen (f j) (who b) \/ exists u, b = LSync (who b) u /\ (seen (f (S i)) (who a) <= seen (f j) u))%nat /\
  (seen (f (S i)) (who a) <= seen (f (S j)) (who b))%nat.
Proof.
  assert (L1 : forall i j a b, (i < j)%nat -> nth_error tr i = Some a -> nth_error tr j = Some b -> who a = who b ->
    (seen (f (S i)) (who a) <= seen (f j) (who b) \/ exists u, b = LSync (who b) u /\ (seen (f (S i)) (who a) <= seen (f j) u))%nat /\
    (seen (f (S i)) (who a) <= seen (f (S j)) (who b))%nat).
  { intros i j a b H Ha Hb E. pose proof (nth_lt _ _ _ _ Hb) as Hl. split; [left|]; rewrite E; apply seen_mono; lia. }
  intros i j H. induction H as [i j a' b' H1 H2 H3 H4|i j a' t u H1 H2 H3 H4|i j k H1 IH1 H2 IH2]; intros a b Ha Hb.
  - apply L1; auto. congruence.
  - rewrite H2 in Ha. inversion Ha; subst. rewrite H3 in Hb. inversion Hb; subst. cbn [who].
    pose proof (nth_lt _ _ _ _ H3) as Hl. pose proof (seen_mono (S i) j (who a) ltac:(lia) ltac:(lia)) as Hm.
    split; [right; eauto|]. pose proof (proj2 F _ _ H3) as Hs. inversion Hs as [| | | | |s' t' u' Es El Ef]. cbn [seen]. rewrite set_same. lia.
  - destruct (nth_error tr j) as [c|] eqn:Ec; [|apply nth_error_None in Ec; apply before_lt in H1; lia].
    destruct (IH1 a c Ha eq_refl) as [_ S1]. destruct (IH2 c b eq_refl Hb) as [[S2|(u & E & S2)] S3].
    + split; [left; lia|lia].
    + split; [right; exists u; split; [exact E|lia]|lia].
Qed.
End Along.

Lemma ret_inv : forall lb s t v s', rstep lb s (LRet t v) s' -> exists i, at_ s t = Last /\ (seen s t <= i)%nat /\ nth_error (vals s) i = Some v /\
  s' = {| vals := vals s; seen := set (seen s) t i; at_ := set (at_ s) t Out |}.
Proof. intros lb s t v s' H. inversion H; subst. exists i. auto. Qed.
Lemma ret_step : forall lb s t v s', rstep lb s (LRet t v) s' -> (seen s t <= seen s' t)%nat /\ nth_error (vals s') (seen s' t) = Some v.
Proof. intros lb s t v s' H. inversion H; subst. cbn [seen vals]. rewrite set_same. auto. Qed.
Lemma pos_index : forall lb tr s, rrun lb tr s -> forall i v, nth_error (vals s) i = Some v -> (v <> 0 <-> (0 < i)%nat).
Proof.
  intros lb tr s H i v Hi. destruct (z_first _ _ _ (inv0_run _ _ _ H)) as (r & E & Hr). rewrite E in Hi.
  destruct i as [|i]; cbn in Hi; [inversion Hi; subst; split; [congruence|lia]|]. split; [lia|]. intros _. apply nth_error_In in Hi. apply Hr in Hi. lia.
Qed.
Lemma never_back : forall lb tr s i j t u v w, rrun lb tr s -> before tr i j ->
  nth_error tr i = Some (LRet t v) -> nth_error tr j = Some (LRet u w) -> v <> 0 -> w <> 0.
Proof.
  intros lb tr s i j t u v w H Hb Hi Hj Hv. destruct (run_along _ _ _ H) as (f & F & _).
  destruct (before_lt _ _ _ Hb) as [L1 L2].
  destruct (before_seen _ _ _ F _ _ Hb _ _ Hi Hj) as [_ Sij]. cbn [who] in Sij.
  destruct (ret_step _ _ _ _ _ (proj2 F _ _ Hi)) as [_ E1]. destruct (ret_step _ _ _ _ _ (proj2 F _ _ Hj)) as [_ E2].
  pose proof (along_run _ _ _ F (S i) ltac:(lia)) as R1. pose proof (along_run _ _ _ F (S j) ltac:(lia)) as R2.
  apply (pos_index _ _ _ R1 _ _ E1) in Hv. apply (pos_index _ _ _ R2 _ _ E2). lia.
Qed.

(** All computations give [n]. *)
Lemma agree : forall lb tr s n, rrun lb tr s -> (forall t e m, In (LComp t e) tr -> compute_len lb e = Len m -> m = n) -> 1 <= n ->
  forall t v, In (LRet t v) tr -> v = n.
Proof.
  intros lb tr s n H Hc Hn t v Hi. destruct (Z.eq_dec v 0) as [->|Hv].
  - destruct (z_ret _ _ _ (inv0_run _ _ _ H) t Hi) as (e & A & m & B & C). specialize (Hc t e m A B). lia.
  - destruct (returns_computed _ _ _ _ _ H Hi Hv) as (_ & u & e & A & B). eauto.
Qed.

Lemma get_compute : forall lb e n, compute_len lb e = Len n -> get_len lb 0 e = Len (if n <? 1 then 0 else n).
Proof. intros lb e n E. unfold get_len. cbn. rewrite E. destruct (n <? 1); reflexivity. Qed.

Lemma last_possible : forall s rs, mask_text s rs -> exists c, possible rs c.
Proof.
  intros s rs H. destruct H as [s r Hi|s t r r' rs Hi Ht Hlt].
  - destruct Hi as [s a _|s t a b _ _ Hlt]; [exists a, a, a|exists a, a, b]; (split; [left; reflexivity|lia]).
  - destruct Hi as [s a _|s t0 a b _ _ Hlt']; [exists a, a, a|exists a, a, b]; (split; [left; reflexivity|lia]).
Qed.
Lemma possible_nonneg : forall s rs c, mask_text s rs -> possible rs c -> 0 <= c.
Proof.
  assert (Hit : forall s r, item_text s r -> 0 <= fst r).
  { intros s r [u a Ha|u t a b Ha _ _]; cbn; eapply numeral_nonneg; eauto. }
  intros s rs c Hm. induction Hm as [s r Hi|s t r r' rs Hi Ht IH Hlt]; intros (a & b & [E|Hin] & Hc).
  - apply Hit in Hi. subst r. cbn in Hi. lia.
  - contradiction.
  - apply Hit in Hi. subst r. cbn in Hi. lia.
  - apply IH. exists a, b. auto.
Qed.
Lemma mask_returns : forall lb s rs tr st, 32 <= lb -> mask_text s rs -> (forall cpu, possible rs cpu -> cpu < INT_MAX) -> rrun lb tr st ->
  (forall t e, In (LComp t e) tr -> (mask_file e s \/ mask_file e (s ++ [10])) /\ (length (e_file e) < CPUMASK_SIZE)%nat) ->
  exists n, possible rs (n - 1) /\ (forall cpu, possible rs cpu -> cpu < n) /\ forall t v, In (LRet t v) tr -> v = n.
Proof.
  intros lb s rs tr st Hlb Hm Hp Hr He.
  assert (Hmax : forall t e m, In (LComp t e) tr -> compute_len lb e = Len m -> possible rs (m - 1) /\ (forall cpu, possible rs cpu -> cpu < m) /\ 1 <= m).
  { intros t e m Hi Ec. destruct (He t e Hi) as [H1 H2].
    destruct (mask_len lb e s rs Hlb Hm Hp H1 H2) as [G _].
    destruct (last_possible s rs Hm) as (c & Hc).
    destruct (G _ (get_compute _ _ _ Ec)) as [G1 G2]. pose proof (G2 c Hc) as G3. pose proof (possible_nonneg s rs c Hm Hc) as G4.
    destruct (Z.ltb_spec m 1); [lia|]. auto. }
  destruct (existsb (fun l => match l with LComp _ e => match compute_len lb e with Len _ => true | _ => false end | _ => false end) tr) eqn:Ex.
  - apply existsb_exists in Ex. destruct Ex as (l & Hl & E). destruct l as [| |t e| | |]; try discriminate.
    destruct (compute_len lb e) as [m| | |] eqn:Ec; try discriminate. destruct (Hmax t e m Hl Ec) as (G1 & G2 & G3).
    exists m. split; auto. split; auto. apply (agree lb tr st m Hr); auto.
    intros u e' m' Hi' Ec'. destruct (Hmax u e' m' Hi' Ec') as (K1 & K2 & _). apply G2 in K1. apply K2 in G1. lia.
  - assert (Hno : forall t e m, In (LComp t e) tr -> compute_len lb e = Len m -> False).
    { intros t e m Hi Ec. assert (K : existsb (fun l => match l with LComp _ e => match compute_len lb e with Len _ => true | _ => false end | _ => false end) tr = true).
      { apply existsb_exists. exists (LComp t e). split; auto. rewrite Ec. auto. } congruence. }
    assert (Hnone : forall t v, ~ In (LRet t v) tr).
    { intros t v Hi. destruct (Z.eq_dec v 0) as [->|Hv].
      - destruct (z_ret _ _ _ (inv0_run _ _ _ Hr) t Hi) as (e & A & m & B & C). eauto.
      - destruct (returns_computed _ _ _ _ _ Hr Hi Hv) as (_ & u & e & A & B). eauto. }
    assert (Hmaxp : exists n, possible rs (n - 1) /\ forall cpu, possible rs cpu -> cpu < n).
    { clear - Hm. assert (G : forall l : list (Z * Z), (forall r, In r l -> fst r <= snd r) -> l <> [] ->
        exists n, possible l (n - 1) /\ forall cpu, possible l cpu -> cpu < n).
      { induction l as [|[a b] l IH]; intros Hle Hne; [congruence|]. pose proof (Hle (a, b) (or_introl eq_refl)) as Hab. cbn in Hab.
        destruct l as [|r l].
        - exists (b + 1). split; [exists a, b; split; [left; auto|lia]|]. intros c (x & y & [E|[]] & Hc). inversion E; subst. lia.
        - destruct IH as (n & (x & y & Hin & Hn) & Hall); [intros; apply Hle; right; auto|discriminate|].
          exists (Z.max n (b + 1)). split.
          + destruct (Z.max_spec n (b + 1)) as [[_ ->]|[_ ->]]; [exists a, b; split; [left; auto|lia]|exists x, y; split; [right; auto|lia]].
          + intros c (x' & y' & [E|Hin'] & Hc); [inversion E; subst; lia|]. assert (possible (r :: l) c) by (exists x', y'; auto). apply Hall in H. lia. }
      apply G.
      - clear G. induction Hm as [s r Hi|s t r r' rs Hi Ht IH Hlt]; intros q [<-|Hq]; try contradiction;
          try (destruct Hi; cbn; lia). apply IH; auto.
      - destruct Hm; discriminate. }
    destruct Hmaxp as (n & K1 & K2). exists n. split; auto. split; auto. intros t v Hi. exfalso. eapply Hnone; eauto.
Qed.

(** One call that ends before all others begin fixes the length. *)
Lemma first_fixes : forall lb k t v tr s, rrun lb tr s ->
  nth_error tr k = Some (LRet t v) -> v <> 0 -> (forall i l, (i <= k)%nat -> nth_error tr i = Some l -> who l = t) ->
  (forall i u, (k < i)%nat -> nth_error tr i = Some (LCall u) -> before tr k i) ->
  (forall i, (i < k)%nat -> forall w, nth_error tr i <> Some (LRet t w)) ->
  forall i u w, (k <= i)%nat -> nth_error tr i = Some (LRet u w) -> w = v.
Proof.
  intros lb k t v tr s H Hk Hv Hone Hlater Hfirst.
  destruct (run_along _ _ _ H) as (f & F & _).
  (* up to [k], only [t] has done anything, and at most one store *)
  assert (Hpre : forall i, (i <= k)%nat -> (forall u, u <> t -> at_ (f i) u = Out) /\
    ((length (vals (f i)) = 1%nat) \/ (length (vals (f i)) = 2%nat /\ at_ (f i) t = Last)) /\
    (length (vals (f i)) = 1%nat -> seen (f i) t = O) /\ (length (vals (f i)) = 2%nat -> seen (f i) t = 1%nat)).
  { induction i as [|i IH]; intros Hi.
    - rewrite (proj1 F). cbn. repeat split; auto; lia.
    - destruct (nth_error tr i) as [l|] eqn:E; [|apply nth_error_None in E; pose proof (nth_lt _ _ _ _ Hk); lia].
      destruct (IH ltac:(lia)) as (A & B & C & D). pose proof (proj2 F i l E) as Hs. pose proof (Hone i l ltac:(lia) E) as Hw.
      pose proof (i_seen _ _ _ (inv_run _ _ _ (along_run _ _ _ F (S i) ltac:(pose proof (nth_lt _ _ _ _ Hk); lia)))) as Hsn. specialize (Hsn t).
      pose proof (i_seen _ _ _ (inv_run _ _ _ (along_run _ _ _ F i ltac:(pose proof (nth_lt _ _ _ _ Hk); lia)))) as Hsn0.
      pose proof (step_seen lb _ _ _ _ (along_run _ _ _ F i ltac:(pose proof (nth_lt _ _ _ _ Hk); lia)) Hs t) as Hmo.
      inversion Hs; subst l; cbn [who] in Hw; subst t0; match goal with K : _ = f (S i) |- _ => rewrite <- K in * end; cbn [vals seen at_] in *;
        repeat rewrite set_same in *.
      + split; [intros u Hu; rewrite set_other; auto|]. split; [destruct B as [B|[B B']]; [auto|congruence]|]. split; auto.
      + split; [intros u Hu; rewrite set_other; auto|]. split; [destruct B as [B|[B B']]; [auto|congruence]|]. split; intros; lia.
      + split; [intros u Hu; rewrite set_other; auto|]. split; [destruct B as [B|[B B']]; [auto|congruence]|]. split; auto.
      + split; [intros u Hu; rewrite set_other; auto|]. destruct B as [B|[B B']]; [|congruence]. rewrite app_length in *. cbn [length] in *. split; [right; split; [lia|reflexivity]|]. split; intros; lia.
      + exfalso. eapply (Hfirst i ltac:(lia)). exact E.
      + split; auto. split; auto. destruct (Nat.eq_dec u t) as [->|Hu]; [rewrite Nat.max_id in *; auto|].
        split; intros HL; [pose proof (Hsn0 u); lia|]. rewrite (D HL) in *. lia. }
  destruct (Hpre k ltac:(lia)) as (A & B & C & D). destruct (ret_inv _ _ _ _ _ (proj2 F k _ Hk)) as (i0 & P1 & P2 & P3 & P5).
  assert (Hlen : length (vals (f k)) = 2%nat).
  { destruct B as [B|[B _]]; auto. exfalso. pose proof (along_run _ _ _ F k ltac:(pose proof (nth_lt _ _ _ _ Hk); lia)) as R.
    pose proof (nth_lt _ _ _ _ P3) as P6. apply (proj1 (pos_index _ _ _ R _ _ P3)) in Hv. lia. }
  assert (Hi0 : i0 = 1%nat) by (pose proof (nth_lt _ _ _ _ P3); rewrite (D Hlen) in P2; lia). subst i0.
  (* afterwards nobody computes *)
  assert (Hpost : forall i, (k < i)%nat -> (i <= length tr)%nat -> vals (f i) = vals (f k) /\
    forall u, at_ (f i) u = Out \/ (seen (f i) u = 1%nat /\ (at_ (f i) u = Check \/ at_ (f i) u = Last))).
  { induction i as [|i IH]; intros Hg1 Hg2; [lia|]. destruct (Nat.eq_dec i k) as [->|Hne].
    - rewrite P5. cbn [vals at_ seen]. split; auto. intros u. left. destruct (Nat.eq_dec u t) as [->|Hu]; [apply set_same|rewrite set_other; auto].
    - destruct (IH ltac:(lia) ltac:(lia)) as [J1 J2]. destruct (nth_error tr i) as [l|] eqn:E; [|apply nth_error_None in E; lia].
      pose proof (proj2 F i l E) as Hs'.
      assert (Hle : forall u j c, nth_error (vals (f i)) j = Some c -> (seen (f i) u <= j)%nat -> seen (f i) u = 1%nat -> j = 1%nat /\ c <> 0).
      { intros u j c Hj Hle' Hs1. pose proof (nth_lt _ _ _ _ Hj) as Hj'. rewrite J1, Hlen in Hj'. split; [lia|].
        apply (pos_index _ _ _ (along_run _ _ _ F i ltac:(lia)) _ _ Hj). lia. }
      inversion Hs'; subst l; match goal with K : _ = f (S i) |- _ => rewrite <- K in * end; cbn [vals seen at_] in *.
      + split; auto. intros u. destruct (Nat.eq_dec u t0) as [->|Hu]; [|rewrite !set_other; auto]. rewrite set_same. right. split; auto.
        assert (Hbf : before tr k i) by (eapply Hlater; [lia|exact E]).
        destruct (before_seen _ _ _ F _ _ Hbf _ _ Hk E) as [[S1|(q & S0 & _)] _]; [|discriminate]. cbn [who] in S1.
        rewrite P5 in S1. cbn [seen] in S1. rewrite set_same in S1.
        pose proof (i_seen _ _ _ (inv_run _ _ _ (along_run _ _ _ F i ltac:(lia))) t0) as Hsn. rewrite J1, Hlen in Hsn. lia.
      + split; auto. intros u. destruct (Nat.eq_dec u t0) as [->|Hu]; [|rewrite !set_other; auto]. rewrite !set_same. right.
        destruct (J2 t0) as [J3|[J3 _]]; [congruence|]. destruct (Hle t0 i0 c) as [-> Hc]; auto. split; auto. right.
        destruct (Z.eqb_spec c 0); [contradiction|auto].
      + destruct (J2 t0) as [J3|[J3 [J4|J4]]]; congruence.
      + destruct (J2 t0) as [J3|[J3 [J4|J4]]]; congruence.
      + split; auto. intros u. destruct (Nat.eq_dec u t0) as [->|Hu]; [|rewrite !set_other; auto]. left. apply set_same.
      + split; auto. intros u0. destruct (J2 u0) as [J3|[J3 J4]]; [auto|right]. split; auto.
        destruct (Nat.eq_dec u0 t0) as [->|Hu]; [rewrite set_same|rewrite set_other; auto].
        pose proof (i_seen _ _ _ (inv_run _ _ _ (along_run _ _ _ F i ltac:(lia))) u) as Hsn. rewrite J1, Hlen in Hsn. lia. }
  intros i u w Hi Hiw. destruct (Nat.eq_dec i k) as [->|Hne]; [congruence|].
  pose proof (nth_lt _ _ _ _ Hiw) as Hl. destruct (Hpost i ltac:(lia) ltac:(lia)) as [J1 J2].
  destruct (ret_inv _ _ _ _ _ (proj2 F i _ Hiw)) as (i0 & Q1 & Q2 & Q3 & Q5).
  destruct (J2 u) as [J3|[J3 _]]; [congruence|]. pose proof (nth_lt _ _ _ _ Q3) as Hq. rewrite J1 in Hq, Q3. rewrite Hlen in Hq.
  assert (i0 = 1%nat) by lia. subst i0. congruence.
Qed.
