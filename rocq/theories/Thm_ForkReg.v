(** C75: fork() and the registration of threads (src/rseq.c, tests/fork_test.c,
    ForkRegModel.v).  [lineage y settled tr s]: a program on the system [y], or a
    child that it or its children forked, can be in the state [s]; [tr] has the
    events of the process and of its ancestors; every fork happened when no thread
    was inside the locked part of the initialisation or when the initialisation
    was complete ([settled], ForkRegSpec.v).  [runs_from y s tr s']: from [s] a
    process can do the events [tr]. *)
From Coq Require Import ZArith Bool List Lia.
From Verif Require Import RegModel RegSpec RegProofs RegTrace ExReg ForkRegModel ForkRegSpec ForkRegProofs.
Import ListNotations.
Local Open Scope Z_scope.

(** A thread that has returned from the library, or has a registration, may fork
    at any time: the initialisation is complete. *)
Theorem C75_fork_after_call : forall y, sane y -> forall tr s t, lineage y settled tr s ->
  inited s t = true \/ has_registration s t -> settled s t.
Proof. intros y HS tr s t L H. destruct (lineage_inv y HS _ _ L) as (I & _ & _). eapply late_settled; eauto. Qed.
Print Assumptions C75_fork_after_call.

(** Processes and their children read the final values of the public symbols, as
    C44 says for one process. *)
Theorem C75_symbols : forall y, sane y -> forall tr s t, lineage y settled tr s -> inited s t = true ->
  (forall v i z, v <> VSize -> v <> VDone -> readable s t v i z -> final y v z) /\
  (forall i z, readable s t VSize i z ->
    (libc_active y -> libc_features y z) /\ (~ libc_active y -> z = 0 \/ z = features y /\ registration tr)).
Proof. intros y HS tr s t L H. destruct (lineage_inv y HS _ _ L) as (I & _ & _). eapply symbols; eauto. Qed.
Print Assumptions C75_symbols.

(** No thread of a process or child waits forever: a thread inside a call can go
    on, or the thread that has the lock can. *)
Theorem C75_no_deadlock : forall y, sane y -> forall tr s t, lineage y settled tr s ->
  pcs s t <> Idle -> pcs s t <> P_dead ->
  exists u l s', (u = t \/ owner s = Some u) /\ pcs s u <> Idle /\ step y s l s' /\ pcs s' u <> pcs s u.
Proof. intros y HS tr s t L. apply (progress y HS tr s t L). Qed.
Print Assumptions C75_no_deadlock.

(** No call runs forever: every step of a thread inside a call brings it nearer to
    the end of the call. *)
Theorem C75_calls_bounded : forall y, exists left : pc -> nat, forall s l s' u, step y s l s' -> pcs s u <> Idle ->
  pcs s' u = pcs s u \/ (left (pcs s' u) < left (pcs s u))%nat.
Proof.
  intros y. exists (rank y). intros s l s' u St Hi.
  assert (D : pcs s' u = pcs s u \/ pcs s' u <> pcs s u).
  { destruct St; cbn [goto store pcs]; auto;
      (destruct (Nat.eq_dec u t) as [->|N]; [right; rewrite upd_same|left; apply upd_other; auto]);
      try (rewrite H; try congruence; try (destruct (z =? 0); congruence)).
    - intros E. injection E as E. apply (list_neq _ _ E).
    - destruct c; discriminate.
    - destruct ok; discriminate. }
  destruct D as [D|D]; [auto|]. right. apply (step_effect y _ _ _ _ St D Hi).
Qed.
Print Assumptions C75_calls_bounded.

(** And every call can come to its end (or to abort) without any new call. *)
Theorem C75_calls_complete : forall y, sane y -> forall tr s t, lineage y settled tr s ->
  exists tr' s', runs_from y s tr' s' /\ (pcs s' t = Idle \/ pcs s' t = P_dead) /\ (forall u c, ~ In (LCall u c) tr').
Proof. intros y HS tr s t L. eapply (call_completes y HS); eauto. Qed.
Print Assumptions C75_calls_complete.

(** A registered thread, in a child too, reads the feature size of the kernel. *)
Theorem C75_registered_size : forall y, sane y -> forall tr s t i z, lineage y settled tr s ->
  pcs s t = Idle -> has_registration s t -> inited s t = true -> readable s t VSize i z -> z = features y.
Proof. intros y HS tr s t i z L. destruct (lineage_inv y HS _ _ L) as (I & _ & _). apply (registered_size y _ _ _ _ _ I). Qed.
Print Assumptions C75_registered_size.

(** A registration survives in the child: the direct system call of the test
    fails, the library's registration never returns while the thread has not
    unregistered, and the thread can unregister, on kernels with at most 32
    bytes of features (C45). *)
Theorem C75_registration_survives : forall y, sane y -> forall tr s t, lineage y settled tr s ->
  pcs s t = Idle -> has_registration s t ->
  child_syscall y s t = false /\
  (forall tr' s', runs_from y (fork_child s t) tr' s' -> (forall len, ~ In (LSys t CUnreg len true) tr') ->
    has_registration s' t /\ (forall r, ~ In (LRet t CReg r) tr')) /\
  (features y <= 32 -> forall tr' len ok s', runs_from y (fork_child s t) (tr' ++ [LSys t CUnreg len ok]) s' ->
    (forall n, ~ In (LSys t CUnreg n true) tr') -> ok = true).
Proof.
  intros y HS tr s t L Hp K. destruct (lineage_inv y HS _ _ L) as (I & _ & _).
  assert (Hs : settled s t) by (eapply late_settled; eauto).
  assert (LF : lineage y settled tr (fork_child s t)) by (apply l_fork; auto).
  assert (KF : kept (fork_child s t) t) by (split; [cbn; rewrite Nat.eqb_refl; exact K|exact Logic.I]).
  split; [|split].
  - unfold child_syscall. cbn. rewrite Nat.eqb_refl. unfold sys_register. unfold has_registration in K.
    destruct (kreg s t); [apply andb_false_r|congruence].
  - intros tr' s' R H. destruct (kept_runs y HS _ _ _ LF KF _ _ R H) as ((K1 & _) & N). split; auto.
  - intros Hf tr' len ok s' R H. destruct (runs_inv _ _ _ _ _ R) as (s1 & R1 & St).
    destruct (kept_runs y HS _ _ _ LF KF _ _ R1 H) as ((K1 & _) & _).
    destruct (lineage_inv y HS _ _ (lineage_runs _ _ _ _ LF _ _ R1)) as (I1 & _ & _).
    eapply unregister_ok; eauto.
Qed.
Print Assumptions C75_registration_survives.

(** No other thread of the child starts with a registration. *)
Remark others_unregistered : forall s t u, u <> t -> ~ has_registration (fork_child s t) u /\ inited (fork_child s t) u = false.
Proof.
  intros s t u N. unfold has_registration. cbn. destruct (Nat.eqb_spec u t); [contradiction|]. auto.
Qed.

(** In a process or child the kernel accepts the library's request to register
    exactly from threads without a registration, and the library aborts only a
    thread that has one. *)
Theorem C75_registers_once : forall y, sane y -> forall tr s t, lineage y settled tr s ->
  (forall len ok s', step y s (LSys t CReg len ok) s' -> (ok = true <-> k_has y = true /\ ~ has_registration s t)) /\
  (forall s', step y s (LAbort t) s' -> has_registration s t).
Proof.
  intros y HS tr s t L. destruct (lineage_inv y HS _ _ L) as (I & _ & _). split.
  - intros len ok s' St. destruct (register_iff y _ _ _ _ _ _ I St) as (H1 & H2). unfold has_registration. split.
    + intros E. destruct (H1 E) as (Ha & Hb). split; auto.
    + intros (Ha & Hb). apply H2. split; auto. destruct (kreg s t); auto. exfalso. apply Hb. discriminate.
  - intros s' St. eapply abort_registered; eauto.
Qed.
Print Assumptions C75_registers_once.

(** A fork that is not [settled], that is, while another thread is inside the
    locked part of the initialisation and has not completed it: no call of the
    library in the child ever returns. *)
Theorem C75_fork_inside_init : forall y, sane y -> forall tr s t, lineage y settled tr s ->
  pcs s t = Idle -> ~ settled s t ->
  forall tr' s', runs_from y (fork_child s t) tr' s' -> forall u c r, ~ In (LRet u c r) tr'.
Proof.
  intros y HS tr s t L Hp N tr' s' R. destruct (lineage_inv y HS _ _ L) as (I & _ & _).
  destruct (unsettled_waits y _ _ _ I Hp N) as (O & W). apply (waits_runs y _ O W _ _ R).
Qed.
Print Assumptions C75_fork_inside_init.

(** ** Cases *)
Lemma run_lineage : forall y ok tr s, run y tr s -> lineage y ok tr s.
Proof. intros y ok tr s R. induction R; [constructor|econstructor; eauto]. Qed.
Lemma play_runs : forall y s0 acts s tr0 tr s', runs_from y s0 tr0 s -> play y s acts = Some (tr, s') -> runs_from y s0 (tr0 ++ tr) s'.
Proof.
  intros y s0 acts. induction acts as [|a acts IH]; intros s tr0 tr s' R H; cbn in H.
  - injection H as <- <-. rewrite app_nil_r. auto.
  - destruct (next y s a) as [(l, s1)|] eqn:E; [|discriminate]. destruct (play y s1 acts) as [(tr1, s2)|] eqn:E'; [|discriminate].
    injection H as <- <-. apply next_step in E. change (l :: tr1) with ([l] ++ tr1). rewrite app_assoc.
    apply IH with (s := s1); auto. econstructor; eauto.
Qed.
Definition child_events (y : sys) (s : state) (t : nat) (acts : list act) : list label :=
  match play y (fork_child s t) acts with Some (tr, _) => tr | None => [] end.

(** The test: the thread registers and forks.  In the child a second registration
    aborts; a thread that the child creates registers; the first unregisters. *)
Definition parent : state := ending (own_sys 28) first_call.
Definition in_child : list act :=
  ASpawn 0 7 :: ACall 7 CReg :: steps 7 [1; 0; 1; 2; 0; 2; 0]%nat ++ ACall 0 CUnreg :: steps 0 [1; 2; 0; 0]%nat.
Example C75_test_case :
  lineage (own_sys 28) settled (events (own_sys 28) first_call) parent /\ sane (own_sys 28) /\
  pcs parent 0 = Idle /\ inited parent 0%nat = true /\ has_registration parent 0 /\ features (own_sys 28) <= 32 /\
  child_events (own_sys 28) parent 0 (ACall 0 CReg :: steps 0 [1; 0; 1; 2; 0; 2]%nat) =
    [LCall 0 CReg; LTau; LTau; LTau; LTau; LSys 0 CReg 32 false; LAbort 0] /\
  child_events (own_sys 28) parent 0 in_child =
    [LSpawn 0 7; LCall 7 CReg; LTau; LTau; LTau; LTau; LSys 7 CReg 32 true; LTau; LRet 7 CReg 0;
     LCall 0 CUnreg; LTau; LTau; LSys 0 CUnreg 32 true; LRet 0 CUnreg 0].
Proof.
  split; [apply run_lineage, events_run; reflexivity|]. split; [apply own_sys_sane; lia|].
  split; [reflexivity|]. split; [reflexivity|]. split; [discriminate|]. split; [unfold features; cbn; lia|].
  split; reflexivity.
Qed.

(** Thread 1 forks while thread 0 is inside its first call: the child's call stops
    at the lock. *)
Definition inside : list act := ACall 0 CReg :: steps 0 [0; 0; 0; 0]%nat.
Example C75_inside_case :
  let y := own_sys 28 in let s := ending y inside in
  lineage y settled (events y inside) s /\ pcs s 1 = Idle /\ ~ settled s 1 /\
  (exists s', play y (fork_child s 1) (ACall 1 CReg :: steps 1 [0]%nat) = Some ([LCall 1 CReg; LTau], s') /\
     pcs s' 1 = I_lock CReg /\ owner s' = Some 0%nat).
Proof.
  cbv zeta. split; [apply run_lineage, events_run; reflexivity|]. split; [reflexivity|].
  split; [intros [X|X]; discriminate X|]. eexists. split; [reflexivity|]. split; reflexivity.
Qed.
