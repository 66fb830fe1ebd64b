(** C76: the registration test programs, in a process whose other threads use the
    library in any way (RegTestModel.v on RegModel.v).  [readable s t v i z]: the
    thread of the test may read [z] from [v]. *)
From Coq Require Import ZArith Bool List Lia.
From Verif Require Import RegModel RegSpec RegProofs RegTrace ExReg RegTestModel.
Import ListNotations.
Local Open Scope Z_scope.

(** The systems the tests are for: the area is not at the thread pointer (the
    programs add a thread variable for that), feature sizes are at least 20, and
    libc's flags are 0. *)
Definition for_tests (y : sys) : Prop :=
  tls_off y <> 0 /\ (k_aux y = 0 \/ 20 <= k_aux y) /\
  (libc_active y -> libc_off y <> Some 0 /\ libc_flags y = Some 0 /\ forall n, libc_size y = Some n -> 20 <= n).

(** The test reads the four values: flags, size, offset, and the CPU number in its
    area. *)
Definition sees (s : state) (t : nat) (flags size off own : Z) : Prop :=
  (exists i, readable s t VFlags i flags) /\ (exists i, readable s t VSize i size) /\
  (exists i, readable s t VOff i off) /\ (exists i, readable s t VOwn i own).

(** The checks of the programs are exactly these: a program that passes has read such
    values. *)
Theorem C76_checks_exact : forall flags size off cid,
  (unregistered_checks flags size off cid = true <-> flags = 0 /\ size = 0 /\ off <> 0 /\ cid = -1) /\
  (registered_checks flags size off cid = true <-> flags = 0 /\ 20 <= size /\ off <> 0 /\ 0 <= cid).
Proof.
  intros. unfold unregistered_checks, registered_checks, CPU_ID_UNINITIALIZED.
  rewrite !andb_true_iff, !negb_true_iff, !Z.eqb_eq, !Z.leb_le, !Z.eqb_neq. tauto.
Qed.
Print Assumptions C76_checks_exact.

Lemma run_prefix : forall y a b s, run y (a ++ b) s -> exists s', run y a s'.
Proof.
  intros y a b. induction b as [|x b IH] using rev_ind; intros s R; [rewrite app_nil_r in R; eauto|].
  rewrite app_assoc in R. remember ((a ++ b) ++ [x]) as T eqn:ET. destruct R as [|tr0 s0 l s1 R St]; [destruct (a ++ b); discriminate|].
  apply app_inj_tail in ET. destruct ET as [-> ->]. eauto.
Qed.

Lemma latest_registered : forall t tr len, latest t tr (LSys t CReg len true) -> registered t tr.
Proof.
  intros t tr len (_ & a & b & E & H). exists a, len, b. split; auto. intros n X. apply (H _ X). reflexivity.
Qed.
Lemma registered_more : forall t a b, registered t a -> (forall len, ~ In (LSys t CUnreg len true) b) -> registered t (a ++ b).
Proof.
  intros t a b (p & len & q & -> & H) N. exists p, len, (q ++ b). split; [rewrite <- app_assoc; reflexivity|].
  intros n X. apply in_app_or in X. destruct X as [X|X]; [apply (H _ X)|apply (N _ X)].
Qed.
Lemma registered_registration : forall t tr, registered t tr -> registration tr.
Proof. intros t tr (a & len & b & -> & _). exists t, len. apply in_or_app. right. left. reflexivity. Qed.

Lemma reg_ok : forall y s t len ok s', step y s (LSys t CReg len ok) s' -> ok = sys_register y (kreg s t) len.
Proof. intros y s t len ok s' St. inversion St; subst; reflexivity. Qed.

(** While no registration has been accepted, librseq's symbols are as the test of an
    unregistered thread expects. *)
Theorem C76_unregistered_test : forall y, sane y -> for_tests y -> ~ libc_active y ->
  forall tr s t flags size off own cpu, run y tr s -> knows tr t -> ~ registration tr ->
  sees s t flags size off own -> unregistered_checks flags size off (cpu_id own (kreg s t) cpu) = true.
Proof.
  intros y HS (HO & _) Hl tr s t flags size off own cpu R K N ((i1 & R1) & (i2 & R2) & (i3 & R3) & (i4 & R4)).
  destruct (visible y HS _ _ _ R K) as (V & W).
  assert (F1 := V VFlags _ _ ltac:(discriminate) ltac:(discriminate) R1). assert (F3 := V VOff _ _ ltac:(discriminate) ltac:(discriminate) R3).
  assert (F4 := V VOwn _ _ ltac:(discriminate) ltac:(discriminate) R4). destruct (W _ _ R2) as (_ & F2 & _).
  cbn in F1, F3, F4. destruct F1 as [(X & _)|(_ & ->)]; [contradiction|]. destruct F3 as [(X & _)|(_ & ->)]; [contradiction|].
  destruct F4 as [(X & _)|(_ & ->)]; [contradiction|]. destruct (F2 Hl) as [->|(_ & X)]; [|contradiction].
  assert (Ek : kreg s t = None).
  { destruct (kreg s t) eqn:E; auto. exfalso. apply N. apply (registered_registration t). apply (t_kreg _ _ _ (run_tinv y HS _ _ R)). congruence. }
  rewrite Ek. unfold unregistered_checks, cpu_id, CPU_ID_UNINITIALIZED. destruct (Z.eqb_spec (tls_off y) 0); [contradiction|]. reflexivity.
Qed.
Print Assumptions C76_unregistered_test.

(** Without the system call: the query says so, registering returns -1, no
    registration is ever accepted, and the symbols stay as the test expects, whatever
    threads try. *)
Theorem C76_no_syscall_test : forall y, sane y -> for_tests y -> ~ libc_active y -> k_has y = false ->
  forall size0 own0, available y QKernel size0 own0 = Some false /\
  forall tr s, run y tr s -> ~ registration tr /\
    (forall t r, In (LRet t CReg r) tr -> r = -1) /\
    (forall t flags size off own cpu, knows tr t -> sees s t flags size off own ->
      unregistered_checks flags size off (cpu_id own (kreg s t) cpu) = true).
Proof.
  intros y HS HT Hl Hk size0 own0. split; [unfold available, sys_rseq_null; rewrite Hk; reflexivity|].
  intros tr s R.
  assert (N : ~ registration tr).
  { clear - Hk R. intros (t & len & X). apply in_split in X. destruct X as (a & b & ->).
    change (LSys t CReg len true :: b) with ([LSys t CReg len true] ++ b) in R. rewrite app_assoc in R.
    apply run_prefix in R. destruct R as (s1 & R). remember (a ++ [LSys t CReg len true]) as T eqn:ET.
    destruct R as [|tr0 s0 l s2 R St]; [destruct a; discriminate|]. apply app_inj_tail in ET. destruct ET as [-> ->].
    apply reg_ok in St. unfold sys_register in St. rewrite Hk in St. discriminate St. }
  split; [exact N|]. split.
  - intros t r X. apply in_split in X. destruct X as (a & b & E). subst tr.
    change (LRet t CReg r :: b) with ([LRet t CReg r] ++ b) in R. rewrite app_assoc in R.
    apply run_prefix in R. destruct R as (s1 & R).
    destruct (Z.eq_dec r 0) as [->|Nr]; [|apply (fails_without_kernel y HS _ _ _ _ R Nr)].
    destruct (results y HS _ _ _ _ _ R) as (_ & H); [discriminate|]. destruct (H Hl) as (len & ok & L & E).
    exfalso. apply N. assert (Eo : ok = true) by (apply E; reflexivity). subst ok.
    destruct (registered_registration _ _ (latest_registered _ _ _ L)) as (u & n & X). exists u, n. apply in_or_app. auto.
  - intros t flags size off own cpu K S. eapply C76_unregistered_test; eauto.
Qed.
Print Assumptions C76_no_syscall_test.

(** With the system call: the query says so, registering returns 0 whenever it
    returns, and while the thread is registered the symbols and its area are as the
    test expects. *)
Theorem C76_basic_test : forall y, sane y -> for_tests y -> k_has y = true ->
  forall size0 own0, available y QKernel size0 own0 = Some true /\
  forall tr s t, run y tr s ->
    (forall r, In (LRet t CReg r) tr -> r = 0) /\
    (forall a b flags size off own cpu, tr = a ++ LRet t CReg 0 :: b -> (forall len, ~ In (LSys t CUnreg len true) b) ->
      sees s t flags size off own -> 0 <= cpu -> registered_checks flags size off (cpu_id own (kreg s t) cpu) = true).
Proof.
  intros y HS (HO & HA & HL) Hk size0 own0. split; [unfold available, sys_rseq_null; rewrite Hk; reflexivity|].
  assert (HF : 20 <= features y) by (unfold features; destruct (Z.eq_dec (k_aux y) 0); lia).
  intros tr s t R. split.
  - intros r X. apply in_split in X. destruct X as (a & b & E). subst tr.
    change (LRet t CReg r :: b) with ([LRet t CReg r] ++ b) in R. rewrite app_assoc in R.
    apply run_prefix in R. destruct R as (s1 & R). destruct (Z.eq_dec r 0) as [->|Nr]; auto.
    destruct (fails_without_kernel y HS _ _ _ _ R Nr) as (_ & X). congruence.
  - intros a b flags size off own cpu E NU ((i1 & R1) & (i2 & R2) & (i3 & R3) & (i4 & R4)) Hcpu.
    assert (Hin : In (LRet t CReg 0) tr) by (subst tr; apply in_or_app; right; left; reflexivity).
    assert (K : knows tr t) by (econstructor; eauto). assert (Kr : knows_registered tr t) by (constructor; auto).
    destruct (visible y HS _ _ _ R K) as (V & W).
    assert (F1 := V VFlags _ _ ltac:(discriminate) ltac:(discriminate) R1). assert (F3 := V VOff _ _ ltac:(discriminate) ltac:(discriminate) R3).
    assert (F4 := V VOwn _ _ ltac:(discriminate) ltac:(discriminate) R4). destruct (W _ _ R2) as (F2 & _ & F2').
    cbn in F1, F3, F4. unfold registered_checks, cpu_id.
    assert (D : libc_active y \/ ~ libc_active y) by (destruct F4 as [(X & _)|(X & _)]; auto). destruct D as [D|D].
    + destruct (HL D) as (L1 & L2 & L3). destruct F4 as [(_ & ->)|(X & _)]; [|contradiction].
      destruct F1 as [(_ & X)|(X & _)]; [|contradiction]. rewrite L2 in X. injection X as <-.
      destruct F3 as [(_ & X)|(Y & _)]; [|contradiction]. destruct (Z.eqb_spec off 0) as [->|_]; [contradiction|].
      destruct (F2 D) as (n & En & Hn). specialize (L3 n En).
      change (0 =? 0) with true. cbn iota. destruct (Z.leb_spec 20 size); [|lia]. destruct (Z.leb_spec 0 cpu); [|lia]. reflexivity.
    + destruct F4 as [(X & _)|(_ & ->)]; [contradiction|]. destruct F1 as [(X & _)|(_ & ->)]; [contradiction|].
      destruct F3 as [(X & _)|(_ & ->)]; [contradiction|]. rewrite (F2' D Kr).
      destruct (Z.eqb_spec (tls_off y) 0); [contradiction|].
      assert (Hreg : kreg s t <> None).
      { apply (t_kreg _ _ _ (run_tinv y HS _ _ R)). subst tr. change (LRet t CReg 0 :: b) with ([LRet t CReg 0] ++ b) in R |- *. rewrite app_assoc in R.
        apply run_prefix in R. destruct R as (s1 & R). destruct (results y HS _ _ _ _ _ R) as (_ & H); [discriminate|].
        destruct (H D) as (len & ok & L & Eo). assert (X : ok = true) by (apply Eo; reflexivity). subst ok.
        apply registered_more; [eapply latest_registered; eauto|]. intros n' [X|X]; [discriminate|apply (NU _ X)]. }
      destruct (kreg s t); [|congruence]. cbn [Z.eqb]. destruct (Z.leb_spec 20 (features y)); [|lia]. destruct (Z.leb_spec 0 cpu); [|lia]. reflexivity.
Qed.
Print Assumptions C76_basic_test.

(** The last step of the test, on kernels with at most 32 bytes of features: the
    thread has registered, none of its requests to unregister was accepted before
    its last request, and a call to unregister returns: it returns 0. *)
Theorem C76_basic_test_ends_partial : forall y, sane y -> features y <= 32 -> forall a b t r s,
  run y ((a ++ LRet t CReg 0 :: b) ++ [LRet t CUnreg r]) s ->
  (forall b1 len ok b2 n, b = b1 ++ LSys t CUnreg len ok :: b2 -> ~ In (LSys t CUnreg n true) b1) -> r = 0.
Proof.
  intros y HS HF a b t r s R NU. destruct (results y HS _ _ _ _ _ R) as (H1 & H2); [discriminate|].
  assert (R0 := R). rewrite <- app_assoc in R0. cbn [app] in R0.
  change (LRet t CReg 0 :: b ++ [LRet t CUnreg r]) with ([LRet t CReg 0] ++ (b ++ [LRet t CUnreg r])) in R0. rewrite app_assoc in R0.
  apply run_prefix in R0. destruct R0 as (s0 & R0). destruct (results y HS _ _ _ _ _ R0) as (G1 & G2); [discriminate|].
  destruct (ret_inv y _ _ _ _ _ R0) as (s1 & R1 & Hp1). pose proof (t_pcs _ _ _ (run_tinv y HS _ _ R1) t) as T. rewrite Hp1 in T. cbn in T.
  assert (D : libc_active y \/ ~ libc_active y) by (destruct T as [(X & _)|[(_ & X & _)|(_ & X & _)]]; [discriminate|auto|auto]).
  destruct D as [D|D]; [apply H1; auto|]. destruct (H2 D) as (len & ok & (_ & p & q & E & Nq) & Er). apply Er.
  destruct (G2 D) as (len1 & ok1 & L1 & E1). assert (X1 : ok1 = true) by (apply E1; reflexivity). subst ok1.
  (* the last request comes after the return *)
  assert (P : exists b1, b = b1 ++ LSys t CUnreg len ok :: q /\ p = a ++ LRet t CReg 0 :: b1).
  { clear - E L1 Nq. revert p E. destruct L1 as (_ & u & v & -> & Nv). intros p E.
    assert (G : forall (l1 l2 m1 m2 : list label) x, l1 ++ l2 = m1 ++ x :: m2 ->
      (exists k, l2 = k ++ x :: m2 /\ m1 = l1 ++ k) \/ (exists k, l1 = m1 ++ x :: k /\ m2 = k ++ l2)).
    { clear. induction l1 as [|z l1 IH]; intros l2 m1 m2 x E; [left; exists m1; auto|].
      destruct m1 as [|z' m1]; cbn in E; injection E as -> E; [right; exists l1; auto|].
      destruct (IH _ _ _ _ E) as [(k & -> & ->)|(k & -> & ->)]; [left|right]; exists k; auto. }
    destruct (G _ _ _ _ _ E) as [(k & E2 & ->)|(k & E2 & ->)].
    - destruct k as [|z k]; cbn in E2; [discriminate|]. injection E2 as <- ->. exists k. auto.
    - exfalso. destruct (G _ _ _ _ _ E2) as [(k' & E3 & ->)|(k' & -> & E3)].
      + destruct k' as [|z k']; cbn in E3; [discriminate|]. injection E3 as E3a E3b. subst v.
        apply (Nv (LSys t CUnreg len ok)); [apply in_or_app; right; left; reflexivity|reflexivity].
      + apply (Nq (LSys t CReg len1 true)); [subst k; apply in_or_app; left; apply in_or_app; right; left; reflexivity|reflexivity]. }
  destruct P as (b1 & -> & ->). assert (NB : forall n, ~ In (LSys t CUnreg n true) b1) by (intros n; eapply NU; reflexivity).
  apply run_prefix in R. destruct R as (s2 & R).
  change (LRet t CReg 0 :: b1 ++ LSys t CUnreg len ok :: q) with ((LRet t CReg 0 :: b1) ++ ([LSys t CUnreg len ok] ++ q)) in R.
  rewrite !app_assoc in R. apply run_prefix in R. destruct R as (s3 & R).
  eapply (can_unregister y HS); eauto. apply registered_more; [eapply latest_registered; eauto|].
  intros n [X|X]; [discriminate|apply (NB _ X)].
Qed.
Print Assumptions C76_basic_test_ends_partial.

(** On a kernel with 36 bytes of features the test fails: the thread that registers
    first cannot unregister (C45). *)
Theorem C76_basic_test_ends_refuted : exists y tr s, sane y /\ for_tests y /\ k_has y = true /\ run y tr s /\
  In (LRet 0 CReg 0) tr /\ In (LRet 0 CUnreg (-1)) tr /\ (forall len, ~ In (LSys 0 CUnreg len true) tr).
Proof.
  exists (own_sys 36), (events (own_sys 36) (first_call ++ unregister)), (ending (own_sys 36) (first_call ++ unregister)).
  split; [apply own_sys_sane; lia|]. split.
  { split; [cbn; lia|]. split; [cbn; lia|]. intros X. destruct (own_sys_not_libc _ X). }
  split; [reflexivity|]. split; [apply events_run; vm_compute; reflexivity|].
  split; [vm_compute; intuition|]. split; [vm_compute; intuition|]. vm_compute. intuition discriminate.
Qed.
Print Assumptions C76_basic_test_ends_refuted.

Lemma sees_dec : forall s t f z o w i j k l,
  (Nat.leb (views s t VFlags) i && Nat.leb (views s t VSize) j && Nat.leb (views s t VOff) k && Nat.leb (views s t VOwn) l)%bool = true ->
  nth_error (hist s VFlags) i = Some f -> nth_error (hist s VSize) j = Some z -> nth_error (hist s VOff) k = Some o ->
  nth_error (hist s VOwn) l = Some w -> sees s t f z o w.
Proof.
  intros s t f z o w i j k l H. rewrite !andb_true_iff in H. destruct H as (((H1 & H2) & H3) & H4).
  apply Nat.leb_le in H1, H2, H3, H4. intros. split; [|split; [|split]]; eexists; split; eauto.
Qed.
Lemma no_registration : forall tr, forallb (fun l => match l with LSys _ CReg _ true => false | _ => true end) tr = true -> ~ registration tr.
Proof. intros tr H (t & len & X). rewrite forallb_forall in H. specialize (H _ X). discriminate H. Qed.

(** The tests on a kernel with 28 bytes of features: before, during and after. *)
Definition constructor_run : list act := ACall 0 CInit :: steps 0 [0; 0; 0; 0; 0; 0; 0; 0; 0; 0; 0; 0]%nat.
Example C76_case :
  let y := own_sys 28 in
  for_tests y /\ ~ libc_active y /\ k_has y = true /\
  run y (events y constructor_run) (ending y constructor_run) /\ In (LRet 0 CInit 0) (events y constructor_run) /\
  ~ registration (events y constructor_run) /\ sees (ending y constructor_run) 0 0 0 (-1024) 1 /\
  run y (events y first_call) (ending y first_call) /\ In (LRet 0 CReg 0) (events y first_call) /\
  sees (ending y first_call) 0 0 28 (-1024) 1 /\ cpu_id 1 (kreg (ending y first_call) 0%nat) 3 = 3 /\
  In (LRet 0 CUnreg 0) (events y (first_call ++ unregister)).
Proof.
  cbv zeta. split; [split; [cbn; lia|]; split; [cbn; lia|]; intros X; destruct (own_sys_not_libc _ X)|].
  split; [apply own_sys_not_libc|]. split; [reflexivity|]. split; [apply events_run; vm_compute; reflexivity|].
  split; [vm_compute; tauto|]. split; [apply no_registration; vm_compute; reflexivity|].
  split; [apply sees_dec with (i := 1%nat) (j := 1%nat) (k := 1%nat) (l := 1%nat); vm_compute; reflexivity|].
  split; [apply events_run; vm_compute; reflexivity|]. split; [vm_compute; tauto|].
  split; [apply sees_dec with (i := 1%nat) (j := 2%nat) (k := 1%nat) (l := 1%nat); vm_compute; reflexivity|].
  split; [vm_compute; reflexivity|]. vm_compute. tauto.
Qed.
