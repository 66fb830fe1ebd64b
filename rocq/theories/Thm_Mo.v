(** C59: the memory-ordering macros do what their names say on every
    architecture, whatever else the threads do. *)
From Coq Require Import ZArith Bool List Relations.
From Verif Require Import Archs MoModel MoSpec MoProofs ExMo.
Import ListNotations.

(** C59.  Whatever a thread did up to and including an rseq_smp_store_release()
    took effect before whatever another thread does from the
    rseq_smp_load_acquire() on that returned the stored value, or behind a branch
    decided by such a load and rseq_smp_acquire__after_ctrl_dep(); also when the
    news went through any number of other threads. *)
Theorem C59_release_acquire : forall (a : arch) (E : exec) (e f : event),
  allowed a E -> handover a E e f -> in_order E e f.
Proof. intros a E e f H. exact (handover_ok a E H e f). Qed.
Print Assumptions C59_release_acquire.

(** C59.  Two stores with rseq_smp_wmb() between them are seen in this order by a
    thread that executes rseq_smp_rmb() between its loads. *)
Theorem C59_write_read_barriers : forall (a : arch) (E : exec) (e w r f : event) (x y : Z),
  allowed a E ->
  writes E e x -> writes E w y -> separated a E PWmb e w ->
  rf E w r -> separated a E PRmb r f -> reads E f x ->
  forall w', rf E w' f -> w' = e \/ co E e w'.
Proof. intros a E e w r f x y H He Hw Hs Hrf Hs' Hf. exact (barriers_ok a E H e w r f x y He Hw Hs Hrf Hf Hs'). Qed.
Print Assumptions C59_write_read_barriers.

(** C59.  Accesses with rseq_smp_mb() between them are sequentially consistent:
    there is no cycle of such accesses and of communications between accesses
    (reading from a store, overwriting it, reading what a store overwrites). *)
Theorem C59_full_barrier : forall (a : arch) (E : exec),
  allowed a E ->
  acyclic (fun e f => (separated a E PMb e f /\ (exists x, acc E e x) /\ exists y, acc E f y) \/
                      rf E e f \/ co E e f \/ fr E e f).
Proof. exact full_barrier_sc. Qed.
Print Assumptions C59_full_barrier.

(** C59.  In particular, of two threads that each store, execute rseq_smp_mb(),
    and load the location of the other, one sees the store of the other. *)
Theorem C59_store_buffering : forall (a : arch) (E : exec) (e1 f1 e2 f2 : event) (x y : Z),
  allowed a E -> writes E e1 x -> reads E f1 y -> separated a E PMb e1 f1 ->
  writes E e2 y -> reads E f2 x -> separated a E PMb e2 f2 ->
  ~ (fr E f1 e2 /\ fr E f2 e1).
Proof. exact store_buffering. Qed.
Print Assumptions C59_store_buffering.

(** Without rseq_smp_store_release(), or without rseq_smp_load_acquire(), the
    reader may get the news and still see the old data, on each architecture
    other than x86 and s390. *)
Theorem C59_without_release_refuted : forall a, weak a = true ->
  exists E e w r f, allowed a E /\ writes E e 0 /\ before e w /\ writes E w 1 /\ rf E w r /\
    acquired a E r f /\ reads E f 0 /\ ~ in_order E e f.
Proof.
  intros a Ha. exists (mp_nrel a), (Ev 0 0), (Ev 0 1), (Ev 1 0), (Ev 1 (size a (PLoadAcq 0 1))).
  assert (He : writes (mp_nrel a) (Ev 0 0) 0) by (right; exists false; reflexivity).
  assert (Hf : reads (mp_nrel a) (Ev 1 (size a (PLoadAcq 0 1))) 0)
    by (exists 1%nat, false; destruct a; reflexivity).
  split; [exact (mp_nrel_allowed a Ha)|]. split; [exact He|].
  split; [split; auto|]. split; [right; exists false; reflexivity|].
  split; [left; reflexivity|]. split.
  { exists 1%nat, 0%nat, 0%nat, 0%nat, 1%Z. destruct a; eexists;
      (split; [exists [], [Ld 1 0 false]; split; reflexivity|]); (split; [reflexivity|]);
      (split; [cbn; auto|]); (split; [reflexivity|]);
      right; eexists; (split; [reflexivity|]); cbn; auto. }
  split; [exact Hf|]. intros H.
  destruct (proj1 (H 0%Z) He Hf (Init 0) (or_intror (or_introl eq_refl))) as [H0|H0]; [discriminate|].
  destruct H0 as [H0|[H0|[]]]; discriminate.
Qed.
Print Assumptions C59_without_release_refuted.

Theorem C59_without_acquire_refuted : forall a, weak a = true ->
  exists E e w r f, allowed a E /\ writes E e 0 /\ before e w /\ released a E w /\ rf E w r /\
    before r f /\ reads E f 0 /\ ~ in_order E e f.
Proof.
  intros a Ha. exists (mp_nacq a), (Ev 0 0), (Ev 0 (size a (PStoreRel 1))), (Ev 1 0), (Ev 1 1).
  assert (He : writes (mp_nacq a) (Ev 0 0) 0) by (right; exists false; reflexivity).
  assert (Hf : reads (mp_nacq a) (Ev 1 1) 0) by (exists 1%nat, false; reflexivity).
  split; [exact (mp_nacq_allowed a Ha)|]. split; [exact He|].
  split; [destruct a; cbn; auto|]. split.
  { exists 0%nat, 1%nat, (size a (PStoreRel 1)), 1%Z. destruct a; eexists;
      (split; [exists [St 0 false], []; split; reflexivity|]); (split; [reflexivity|]);
      (split; [cbn; auto|]); reflexivity. }
  split; [left; reflexivity|]. split; [split; auto|].
  split; [exact Hf|]. intros H.
  destruct (proj1 (H 0%Z) He Hf (Init 0) (or_intror (or_introl eq_refl))) as [H0|H0]; [discriminate|].
  destruct H0 as [H0|[H0|[]]]; discriminate.
Qed.
Print Assumptions C59_without_acquire_refuted.

(** Without rseq_smp_mb() both threads may miss the store of the other, on every
    architecture. *)
Theorem C59_without_full_barrier_refuted : forall a,
  exists E e1 f1 e2 f2, allowed a E /\ writes E e1 0 /\ reads E f1 1 /\ before e1 f1 /\
    writes E e2 1 /\ reads E f2 0 /\ before e2 f2 /\ fr E f1 e2 /\ fr E f2 e1.
Proof.
  intros a. exists sb_old, (Ev 0 0), (Ev 0 1), (Ev 1 0), (Ev 1 1).
  split; [exact (sb_old_allowed a)|]. split; [right; exists false; reflexivity|].
  split; [exists 0%nat, false; reflexivity|]. split; [split; auto|].
  split; [right; exists false; reflexivity|]. split; [exists 0%nat, false; reflexivity|].
  split; [split; auto|]. split.
  - exists (Init 1). split; [left; reflexivity|right; left; reflexivity].
  - exists (Init 0). split; [right; left; reflexivity|left; reflexivity].
Qed.
Print Assumptions C59_without_full_barrier_refuted.

(** rseq_smp_acquire__after_ctrl_dep() is no acquire barrier without the branch:
    on RISC-V a store behind it may be seen by the thread whose store-release the
    load before it reads. *)
Theorem C59_after_ctrl_dep_without_branch_refuted :
  exists E e w r f, allowed RISCV E /\ reads E e 1 /\ before e w /\ released RISCV E w /\ rf E w r /\
    separated RISCV E PCtrl r f /\ writes E f 1 /\ rf E f e.
Proof.
  exists (lb_nobr RISCV), (Ev 1 0), (Ev 1 2), (Ev 0 0), (Ev 0 2).
  split; [exact lb_nobr_allowed|]. split; [exists 0%nat, false; reflexivity|]. split; [split; auto|]. split.
  { exists 1%nat, 1%nat, 2%nat, 0%Z, false. split; [exists [Ld 0 1 false], []; split; reflexivity|].
    split; [reflexivity|]. split; [cbn; auto|]. reflexivity. }
  split; [left; reflexivity|]. split.
  { exists 0%nat, 1%nat, 0%nat, 2%nat. split; [exists [Ld 0 0 false], [St 1 false]; split; reflexivity|]. auto. }
  split; [right; exists false; reflexivity|]. right; left; reflexivity.
Qed.
Print Assumptions C59_after_ctrl_dep_without_branch_refuted.

(** The theorems are about something: on every architecture, message passing with
    each of the three mechanisms, and store buffering with full barriers. *)
Example C59_example_release_acquire : forall a,
  exists E f, allowed a E /\ handover a E (Ev 0 0) f /\ writes E (Ev 0 0) 0 /\ reads E f 0 /\ rf E (Ev 0 0) f.
Proof.
  intros a. exists (mp_ra a), (Ev 1 (size a (PLoadAcq 0 1))).
  destruct (mp_ra_handover a) as (H & H1 & H2). split; [exact (mp_ra_allowed a)|].
  repeat (split; [assumption|]). right; left; reflexivity.
Qed.
Example C59_example_after_ctrl_dep : forall a,
  exists E f, allowed a E /\ handover a E (Ev 0 0) f /\ writes E (Ev 0 0) 0 /\ reads E f 0 /\ rf E (Ev 0 0) f.
Proof.
  intros a. exists (mp_rc a), (Ev 1 (2 + size a PCtrl)).
  destruct (mp_rc_handover a) as (H & H1 & H2). split; [exact (mp_rc_allowed a)|].
  repeat (split; [assumption|]). right; left; reflexivity.
Qed.
Example C59_example_barriers : forall a, exists E e w r f,
  allowed a E /\ separated a E PWmb e w /\ rf E w r /\ separated a E PRmb r f /\
  writes E e 0 /\ writes E w 1 /\ reads E f 0.
Proof.
  intros a. exists (mp_wr a), (Ev 0 0), (Ev 0 (1 + size a PWmb)), (Ev 1 0), (Ev 1 (1 + size a PRmb)).
  split; [exact (mp_wr_allowed a)|]. exact (mp_wr_separated a).
Qed.
Example C59_example_store_buffering : forall a, exists E e1 f1 e2 f2,
  allowed a E /\ writes E e1 0 /\ reads E f1 1 /\ separated a E PMb e1 f1 /\
  writes E e2 1 /\ reads E f2 0 /\ separated a E PMb e2 f2 /\ fr E f1 e2.
Proof.
  intros a. exists (sb_seq a), (Ev 0 0), (Ev 0 (1 + size a PMb)), (Ev 1 0), (Ev 1 (1 + size a PMb)).
  split; [exact (sb_seq_allowed a)|]. exact (sb_seq_case a).
Qed.
