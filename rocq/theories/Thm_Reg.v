(** C44-C46: initialisation, registration of threads, and feature queries
    (src/rseq.c, RegModel.v).  [run y tr s]: the program, run on the system [y],
    can do the events [tr] and be in the state [s]; any number of threads call
    in any order.  [readable s t v i z]: thread [t] may read the value [z] from
    the variable [v].  The meanings are in RegSpec.v. *)
From Coq Require Import ZArith Bool List Lia.
From Verif Require Import RegModel RegSpec RegProofs RegTrace ExReg.
Import ListNotations.
Local Open Scope Z_scope.

(** ** C44 *)

(** The symbols are written at most once, with their final value, whoever races;
    rseq_size too, except for the later stores of registering threads (C45). *)
Theorem C44_once : forall y, sane y -> forall tr s, run y tr s ->
  (forall v, v <> VSize -> stores v tr = [] \/ exists z, stores v tr = [z] /\ final y v z) /\
  (libc_active y -> stores VSize tr = [] \/ exists n, stores VSize tr = [n] /\ libc_features y n) /\
  (~ libc_active y -> stores VSize tr = [] \/ exists n, stores VSize tr = 0 :: repeat (features y) n).
Proof. exact once. Qed.
Print Assumptions C44_once.

(** A thread that returned from the library, or was created by one that had,
    reads the final values; ownership is 1 exactly if libc has no active
    registration ([final]). *)
Theorem C44_visible : forall y, sane y -> forall tr s t, run y tr s -> knows tr t ->
  (forall v i z, v <> VSize -> v <> VDone -> readable s t v i z -> final y v z) /\
  (forall i z, readable s t VSize i z ->
    (libc_active y -> libc_features y z) /\ (~ libc_active y -> z = 0 \/ z = features y /\ registration tr) /\
    (~ libc_active y -> knows_registered tr t -> z = features y)).
Proof. exact visible. Qed.
Print Assumptions C44_visible.

(** Two threads race; the loser waits for the lock and finds it done. *)
Example C44_case :
  run (own_sys 28) (events (own_sys 28) race) (ending (own_sys 28) race) /\ sane (own_sys 28) /\
  knows (events (own_sys 28) race) 1 /\ knows_registered (events (own_sys 28) race) 1 /\
  stores VOwn (events (own_sys 28) race) = [1] /\ stores VSize (events (own_sys 28) race) = [0; 28; 28] /\
  readable (ending (own_sys 28) race) 1 VSize 3 28.
Proof.
  split; [apply events_run; vm_compute; reflexivity|]. split; [apply own_sys_sane; lia|].
  assert (H : In (LRet 1 CReg 0) (events (own_sys 28) race)) by (vm_compute; intuition).
  split; [exact (knows_ret _ _ _ _ H)|]. split; [exact (kr_ret _ _ H)|].
  split; [vm_compute; reflexivity|]. split; [vm_compute; reflexivity|]. clear H. split; [vm_compute; lia|vm_compute; reflexivity].
Qed.
(** With libc: nothing but the three symbols is written. *)
Definition libc_call : list act := ACall 0 CReg :: steps 0 [0; 0; 0; 0; 0; 0; 0; 0; 0; 0; 0; 0]%nat.
Example C44_libc_case :
  run libc_sys (events libc_sys libc_call) (ending libc_sys libc_call) /\ sane libc_sys /\ libc_active libc_sys /\
  In (LRet 0 CReg 0) (events libc_sys libc_call) /\ stores VSize (events libc_sys libc_call) = [28] /\
  stores VOwn (events libc_sys libc_call) = [].
Proof.
  split; [apply events_run; vm_compute; reflexivity|]. split; [apply libc_sys_sane|]. split; [apply libc_sys_active|].
  split; [vm_compute; intuition|]. split; vm_compute; reflexivity.
Qed.

(** ** C45 *)

(** Register and unregister return 0 exactly if libc owns the registration, and
    then no request is made, or if the kernel accepted the request. *)
Theorem C45_results : forall y, sane y -> forall tr t c r s, run y (tr ++ [LRet t c r]) s -> c <> CInit ->
  (libc_active y -> r = 0 /\ latest t tr (LCall t c)) /\
  (~ libc_active y -> exists len ok, latest t tr (LSys t c len ok) /\ (r = 0 <-> ok = true)).
Proof. exact results. Qed.
Print Assumptions C45_results.

(** Register fails only without the system call. *)
Theorem C45_fails_without_kernel : forall y, sane y -> forall tr t r s,
  run y (tr ++ [LRet t CReg r]) s -> r <> 0 -> r = -1 /\ k_has y = false.
Proof. exact fails_without_kernel. Qed.
Print Assumptions C45_fails_without_kernel.

(** The library aborts only in a thread that is registered already. *)
Theorem C45_aborts_only_on_double : forall y, sane y -> forall tr t s, run y (tr ++ [LAbort t]) s -> registered t tr.
Proof. exact aborts_on_double. Qed.
Print Assumptions C45_aborts_only_on_double.

(** rseq_size is 0 before the first successful registration, and the feature
    size for every thread that can tell that there was one. *)
Theorem C45_size : forall y, sane y -> ~ libc_active y -> forall tr s t i z, run y tr s -> knows tr t -> readable s t VSize i z ->
  (~ registration tr -> z = 0) /\ (knows_registered tr t -> z = features y).
Proof.
  intros y HS Hl tr s t i z R K Hr. destruct (visible y HS _ _ _ R K) as (_ & H). destruct (H _ _ Hr) as (_ & H1 & H2).
  split; auto. intros N. destruct (H1 Hl) as [?|(_ & ?)]; [auto|contradiction].
Qed.
Print Assumptions C45_size.

(** A registered thread can unregister, if the feature size is at most 32 (it is
    not otherwise, below). *)
Theorem C45_unregister_partial : forall y, sane y -> forall tr t len ok s, run y (tr ++ [LSys t CUnreg len ok]) s ->
  features y <= 32 -> registered t tr -> ok = true.
Proof. exact can_unregister. Qed.
Print Assumptions C45_unregister_partial.

Definition whole : list act := first_call ++ unregister.
Example C45_case :
  exists tr tr', events (own_sys 28) whole = tr ++ [LRet 0 CUnreg 0] /\ tr = tr' ++ [LSys 0 CUnreg 32 true] /\
    registered 0 tr' /\ run (own_sys 28) (tr' ++ [LSys 0 CUnreg 32 true]) (ending (own_sys 28) (firstn (length whole - 1) whole)) /\
    run (own_sys 28) (tr ++ [LRet 0 CUnreg 0]) (ending (own_sys 28) whole).
Proof.
  eexists (removelast (events (own_sys 28) whole)), (removelast (removelast (events (own_sys 28) whole))).
  split; [vm_compute; reflexivity|]. split; [vm_compute; reflexivity|]. split; [|split].
  - exists (firstn 14 (events (own_sys 28) whole)), 32. eexists. split; [vm_compute; reflexivity|].
    cbn. intros len H. repeat destruct H as [H|H]; discriminate || contradiction.
  - replace (removelast (removelast (events (own_sys 28) whole)) ++ _) with (events (own_sys 28) (firstn (length whole - 1) whole)) by (vm_compute; reflexivity).
    apply events_run. vm_compute. reflexivity.
  - replace (removelast (events (own_sys 28) whole) ++ _) with (events (own_sys 28) whole) by (vm_compute; reflexivity).
    apply events_run. vm_compute. reflexivity.
Qed.

(** With a feature size over 32, the thread that registers first does so with
    length 32 and unregisters with the feature size: the kernel refuses, and
    when the thread then registers again the library aborts. *)
Definition grown : list act := first_call ++ unregister ++ again.
Theorem C45_unregister_refuted : exists y tr1 tr2 tr3 s, sane y /\ ~ libc_active y /\ k_has y = true /\
  run y (tr1 ++ LRet 0 CReg 0 :: tr2 ++ LRet 0 CUnreg (-1) :: tr3 ++ [LAbort 0]) s /\ registered 0 tr1 /\
  In (LSys 0 CUnreg 36 false) tr2 /\ ~ In (LSys 0 CUnreg 36 true) tr2.
Proof.
  exists (own_sys 36), (firstn 17 (events (own_sys 36) grown)), (firstn 4 (skipn 18 (events (own_sys 36) grown))),
    (firstn 6 (skipn 23 (events (own_sys 36) grown))), (ending (own_sys 36) grown).
  split; [apply own_sys_sane; lia|]. split; [apply own_sys_not_libc|]. split; [reflexivity|]. split; [|split; [|split]].
  - replace (_ ++ _) with (events (own_sys 36) grown) by (vm_compute; reflexivity). apply events_run. vm_compute. reflexivity.
  - exists (firstn 14 (events (own_sys 36) grown)), 32. eexists. split; [vm_compute; reflexivity|].
    cbn. intros len H. repeat destruct H as [H|H]; discriminate || contradiction.
  - vm_compute. intuition.
  - vm_compute. intuition discriminate.
Qed.
Print Assumptions C45_unregister_refuted.

(** ** C46 *)

(** What the queries say of a field is whether the active feature size covers
    it: that of libc, or 0 until the first registration and that of the kernel
    afterwards (node_id ends at byte 24, mm_cid at byte 28). *)
Theorem C46_fields : forall y, sane y -> forall tr s t i z, run y tr s -> knows tr t -> readable s t VSize i z ->
  exists active, (libc_active y -> libc_features y active) /\
    (~ libc_active y -> active = 0 \/ active = features y /\ registration tr) /\
    (~ libc_active y -> knows_registered tr t -> active = features y) /\
    (node_id_available z = true <-> 24 <= active) /\ (mm_cid_available z = true <-> 28 <= active).
Proof. exact fields. Qed.
Print Assumptions C46_fields.

(** Before initialisation and after rseq_exit() neither field is available. *)
Theorem C46_fields_uninitialised :
  start VSize = 2 ^ 32 - 1 /\ start VOff = 0 /\
  node_id_available (start VSize) = false /\ mm_cid_available (start VSize) = false /\
  forall off size, let '(off', size', own') := after_exit off size 1 in
    off' = start VOff /\ size' = start VSize /\ own' = start VOwn /\
    node_id_available size' = false /\ mm_cid_available size' = false.
Proof. repeat split. Qed.
Print Assumptions C46_fields_uninitialised.

(** The queries of rseq_available(). *)
Theorem C46_libc_query_partial : forall y, sane y -> forall tr s t i z j o, run y tr s -> knows tr t ->
  readable s t VSize i z -> readable s t VOwn j o ->
  exists b, available y QLibc z o = Some b /\ (b = true <-> libc_active y).
Proof. exact libc_query. Qed.
Print Assumptions C46_libc_query_partial.
Theorem C46_kernel_query : forall y size own, exists b, available y QKernel size own = Some b /\ (b = true <-> k_has y = true).
Proof. intros y size own. unfold available, sys_rseq_null. destruct (k_has y); cbn; eexists; split; eauto; split; auto. Qed.
Print Assumptions C46_kernel_query.
(** Any other query is answered with no; the value is an unsigned int. *)
Theorem C46_other_query : forall y n size own, available y (QOther n) size own = Some false.
Proof. reflexivity. Qed.
Print Assumptions C46_other_query.
Example C46_case : node_id_available 28 = true /\ mm_cid_available 28 = true /\ mm_cid_available 24 = false /\
  node_id_available 20 = false /\ available libc_sys QLibc 28 0 = Some true /\ available (own_sys 28) QLibc 28 1 = Some false.
Proof. repeat split. Qed.

(** Before rseq_init(), and after rseq_exit(), the query about libc is answered
    with yes although librseq is the owner (the size is then -1U). *)
Theorem C46_libc_query_refuted : exists y, sane y /\ ~ libc_active y /\
  available y QLibc (start VSize) (start VOwn) = Some true /\
  let '(_, size, own) := after_exit (tls_off y) (features y) 1 in available y QLibc size own = Some true.
Proof.
  exists (own_sys 28). split; [apply own_sys_sane; lia|]. split; [apply own_sys_not_libc|]. split; reflexivity.
Qed.
Print Assumptions C46_libc_query_refuted.
