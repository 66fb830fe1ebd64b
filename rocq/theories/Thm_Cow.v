(** C38: initialisation races with copy-on-write, for every number of threads, CPUs,
    items and pages, every sequence of calls, loads and stores, and every
    interleaving of their byte accesses with the page copies of the kernel. *)
From Coq Require Import ZArith Bool List Lia.
From Verif Require Import CowModel CowSpec CowProofs.
Import ListNotations.
Local Open Scope Z_scope.

Lemma cow_reads : forall g file h s, cfg_ok g -> first_file g file -> k_serial g = true \/ c_init g = false ->
  run g (start file) h s -> loads_right (c_len g) h.
Proof. intros g file h s Hg Hf Hk H. exact (proj1 (proj2 (run_ok g Hg Hk file h s Hf H))). Qed.
Lemma cow_reports : forall g file h s, cfg_ok g -> first_file g file -> k_serial g = true \/ c_init g = false ->
  run g (start file) h s -> forall t, ~ In (EAbort t) h.
Proof. intros g file h s Hg Hf Hk H. exact (proj2 (proj2 (run_ok g Hg Hk file h s Hf H))). Qed.
Lemma cow_stores : forall g file h s, cfg_ok g -> run g (start file) h s -> stores_kept (c_len g) h.
Proof. intros g file h s Hg H. exact (proj2 (run_kept g Hg file h s H)). Qed.

(** ** C38 *)
(** Every load returns the last value stored there, or that given to malloc_init or
    zmalloc, if the pool is COW_ZERO, or if the kernel does not let a thread read
    through a mapping whose page it is copying. Missing: COW_INIT pools on kernels
    that do, refuted below. *)
Theorem C38_reads_as_initialised_partial : forall g file h s, cfg_ok g -> first_file g file ->
  k_serial g = true \/ c_init g = false ->
  run g (start file) h s -> loads_right (c_len g) h.
Proof. exact cow_reads. Qed.
Print Assumptions C38_reads_as_initialised_partial.

(** Robust pools: under the same condition, no poison corruption is reported. *)
Theorem C38_no_false_report_partial : forall g file h s, cfg_ok g -> first_file g file ->
  k_serial g = true \/ c_init g = false ->
  run g (start file) h s -> forall t, ~ In (EAbort t) h.
Proof. exact cow_reports. Qed.
Print Assumptions C38_no_false_report_partial.

(** On every kernel, and for both policies, the program's own stores are kept
    while other items are allocated, initialised, freed and poisoned. *)
Theorem C38_stores_kept : forall g file h s, cfg_ok g -> run g (start file) h s -> stores_kept (c_len g) h.
Proof. exact cow_stores. Qed.
Print Assumptions C38_stores_kept.

(** ** Concrete runs *)
Fixpoint exec (g : cfg) (s : state) (h : list event) (l : list action) : option (state * list event) :=
  match l with
  | [] => Some (s, h)
  | a :: l => match step g s a with Some (s', ev) => exec g s' (ev :: h) l | None => None end
  end.
Lemma exec_run : forall g s0 l s h s' h', run g s0 h s -> exec g s h l = Some (s', h') -> run g s0 h' s'.
Proof.
  intros g s0 l. induction l as [|a l IH]; intros s h s' h' Hr H; cbn [exec] in H; [congruence|].
  destruct (step g s a) as [[s1 ev]|] eqn:E; [|discriminate]. eapply IH; [|exact H]. econstructor; eauto.
Qed.
Definition shown (ev : event) : bool := match ev with ETau => false | _ => true end.
(** What the program sees, oldest first. *)
Definition seen (g : cfg) (l : list action) : list event :=
  match exec g (start (fun _ => 0)) [] l with Some (_, h) => rev (filter shown h) | None => [] end.
Definition events (g : cfg) (l : list action) : list event :=
  match exec g (start (fun _ => 0)) [] l with Some (_, h) => h | None => [] end.
Definition plays (g : cfg) (l : list action) : bool := match exec g (start (fun _ => 0)) [] l with Some _ => true | None => false end.
Lemma plays_run : forall g l, plays g l = true -> exists s, run g (start (fun _ => 0)) (events g l) s.
Proof.
  intros g l H. unfold plays in H. unfold events. destruct (exec g _ [] l) as [[s h]|] eqn:E; [|discriminate].
  exists s. eapply exec_run; [constructor|exact E].
Qed.

(** Pages of 16 bytes, items of 8, two CPUs, poison 0x5a. *)
Definition g0 (init robust serial : bool) : cfg :=
  {| c_page := 16; c_len := 8; c_cpus := 2; c_items := 4; c_init := init; c_robust := robust; c_poison := if robust then Some (fun _ => 90) else None; k_serial := serial |}.
Lemma g0_ok : forall i r s, cfg_ok (g0 i r s).
Proof. intros i r s. unfold cfg_ok. cbn. repeat split; try lia. intros ->. discriminate. Qed.
Lemma file0 : forall g, first_file g (fun _ => 0). Proof. intros g _ x. reflexivity. Qed.

Definition steps (t n : Z) : list action := map (fun k => AStep t k 0) (below n).
Definition copy (cpu p : Z) : list action := map (KByte cpu) (zseq 16 (16 * p)).
Definition text : list Z := [34; 35; 36; 37; 38; 39; 40; 41].

(** A serial kernel: thread 1 initialises item 1 while thread 2 writes item 0, on the
    same page of CPU 0. The copy has the first half of the init area before,
    the second half after it is initialised: the comparison finds it, and stores
    the item again. *)
Definition race : list action :=
  [ AMalloc 1 0 None; AMalloc 1 1 (Some text); KStart 0 0 ] ++ map (KByte 0) (zseq 12 0) ++ steps 1 8 ++ [ AStep 1 0 0 ] ++ map (KByte 0) (zseq 4 12) ++
  [ KInstall 0 0; AStore 2 0 3 51; AStep 1 0 0 ] ++ steps 1 8 ++ [ AStep 1 0 0 ] ++ steps 1 8 ++ [ AStep 1 0 0; ALoad 1 0 8; ALoad 1 1 9; ALoad 2 0 3 ].
Example ex_C38 : cfg_ok (g0 true false true) /\ (exists s, run (g0 true false true) (start (fun _ => 0)) (events (g0 true false true) race) s) /\
  seen (g0 true false true) race =
    [ EMalloc 1 0 None; EStore 2 0 3 51; EMalloc 1 1 (Some text); ELoad 1 0 8 34; ELoad 1 1 9 35; ELoad 2 0 3 51 ] /\
  (exists h1 h2, events (g0 true false true) race = h1 ++ ELoad 1 0 8 34 :: h2 /\ expect 8 h2 0 8 = Some 34) /\
  (exists h1 h2, events (g0 true false true) race = h1 ++ ELoad 2 0 3 51 :: h2 /\ stored 8 h2 0 3 = Some 51).
Proof.
  split; [apply g0_ok|]. split; [apply plays_run; vm_compute; reflexivity|]. split; [vm_compute; reflexivity|]. split.
  - exists (firstn 2 (events (g0 true false true) race)), (skipn 3 (events (g0 true false true) race)). split; vm_compute; reflexivity.
  - exists [], (skipn 1 (events (g0 true false true) race)). split; vm_compute; reflexivity.
Qed.
(** A robust COW_ZERO pool, on a kernel that is not serial: free and zmalloc of an
    item while the page of CPU 1 is copied. *)
Definition race_zero : list action :=
  [ AMalloc 1 0 None; AMalloc 1 1 None; KStart 0 0 ] ++ copy 0 0 ++ [ KInstall 0 0; AStore 1 0 8 77; KStart 1 0; AFree 1 1 ] ++
  [ AStep 1 0 0 ] ++ steps 1 8 ++ [ AStep 1 0 0; AStep 1 3 0 ] ++ copy 1 0 ++ [ KInstall 1 0 ] ++ steps 1 8 ++ [ AStep 1 0 0; AMalloc 2 1 (Some [0; 0; 0; 0; 0; 0; 0; 0]) ] ++
  steps 2 8 ++ [ AStep 2 0 0 ] ++ steps 2 8 ++ [ AStep 2 0 0 ] ++ [ AStep 2 3 0; AStore 1 1 7 51 ] ++ steps 2 8 ++ [ AStep 2 0 0; AStep 2 5 0 ] ++ steps 2 8 ++ [ AStep 2 0 0; ALoad 2 0 8; ALoad 2 1 9; ALoad 1 1 7 ].
Example ex_C38_zero : (exists s, run (g0 false true false) (start (fun _ => 0)) (events (g0 false true false) race_zero) s) /\
  seen (g0 false true false) race_zero =
    [ EMalloc 1 0 None; EMalloc 1 1 None; EStore 1 0 8 77; EFree 1 1; EStore 1 1 7 51; EMalloc 2 1 (Some [0; 0; 0; 0; 0; 0; 0; 0]);
      ELoad 2 0 8 0; ELoad 2 1 9 0; ELoad 1 1 7 51 ].
Proof. split; [apply plays_run; vm_compute; reflexivity|vm_compute; reflexivity]. Qed.

(** ** Refuted in general
    A kernel that copies the page while other threads still read the old one (as
    Linux does: the copy is made first, the page table is updated after).
    Thread 2 writes item 0: its page of CPU 0 is copied before item 1 is initialised.
    Thread 1 initialises item 1 in the init area and compares it on CPU 0, where it
    still reads the init area. Then the copy, without the content, is installed. *)
Definition lost : list action :=
  [ AMalloc 1 0 None; AMalloc 1 1 (Some text); KStart 0 0 ] ++ copy 0 0 ++ steps 1 8 ++ [ AStep 1 0 0 ] ++ steps 1 8 ++ [ AStep 1 0 0 ] ++ steps 1 8 ++
  [ AStep 1 0 0; KInstall 0 0; AStore 2 0 3 51; ALoad 1 0 8 ].
Example ex_lost : seen (g0 true false false) lost = [ EMalloc 1 0 None; EMalloc 1 1 (Some text); EStore 2 0 3 51; ELoad 1 0 8 0 ].
Proof. vm_compute. reflexivity. Qed.
Lemma lost_wrong : exists g file h s, cfg_ok g /\ first_file g file /\ run g (start file) h s /\ ~ loads_right (c_len g) h.
Proof.
  destruct (plays_run (g0 true false false) lost) as (s & Hr); [vm_compute; reflexivity|].
  exists (g0 true false false), (fun _ => 0), (events (g0 true false false) lost), s. split; [apply g0_ok|]. split; [apply file0|]. split; [exact Hr|].
  intros H. specialize (H [] (skipn 1 (events (g0 true false false) lost)) 1 0 8 0). cbn [c_len g0] in H.
  assert (E : events (g0 true false false) lost = [] ++ ELoad 1 0 8 0 :: skipn 1 (events (g0 true false false) lost)) by (vm_compute; reflexivity).
  specialize (H E 34). assert (Ee : expect 8 (skipn 1 (events (g0 true false false) lost)) 0 8 = Some 34) by (vm_compute; reflexivity).
  specialize (H Ee). discriminate H.
Qed.
Theorem C38_reads_as_initialised_refuted : exists g file h s, cfg_ok g /\ first_file g file /\ run g (start file) h s /\ ~ loads_right (c_len g) h.
Proof. exact lost_wrong. Qed.
Print Assumptions C38_reads_as_initialised_refuted.

(** The same race of free's poison makes the next malloc report a corruption that
    did not happen. *)
Definition lost_poison : list action :=
  [ AMalloc 1 0 None; AMalloc 1 1 None; KStart 0 0 ] ++ copy 0 0 ++ [ AFree 1 1 ] ++ steps 1 8 ++ [ AStep 1 0 0 ] ++ steps 1 8 ++ [ AStep 1 0 0 ] ++ steps 1 8 ++
  [ AStep 1 0 0; KInstall 0 0; AStore 2 0 3 51; AMalloc 1 1 None ] ++ steps 1 8 ++ [ AStep 1 0 0; AStep 1 4 0 ].
Lemma lost_report : exists g file h s, cfg_ok g /\ first_file g file /\ run g (start file) h s /\ In (EAbort 1) h.
Proof.
  destruct (plays_run (g0 true true false) lost_poison) as (s & Hr); [vm_compute; reflexivity|].
  exists (g0 true true false), (fun _ => 0), (events (g0 true true false) lost_poison), s. split; [apply g0_ok|]. split; [apply file0|]. split; [exact Hr|].
  vm_compute. auto.
Qed.
Theorem C38_no_false_report_refuted : exists g file h s, cfg_ok g /\ first_file g file /\ run g (start file) h s /\ In (EAbort 1) h.
Proof. exact lost_report. Qed.
Print Assumptions C38_no_false_report_refuted.
