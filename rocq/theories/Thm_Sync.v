(** C54: on weakly ordered memory the per-CPU spinlock of the tests protects data,
    and needs both its release store and its acquire fence for that.  The machine
    is in SyncModel.v, the lock in ClientModel.v, the vocabulary in ClientSpec.v,
    LinSpec.v and ViewSpec.v. *)
From Coq Require Import ZArith Bool List Lia.
From Verif Require Import RseqIR RseqSpec RseqKernel RseqSim RseqOwn RseqCalls Archs ArchsGood.
From Verif Require Import LinSpec ClientModel ClientSpec ExRseq ClientReplay ExClients.
From Verif Require Import ViewModel ViewSpec SyncModel SyncProofs SyncSc ExSync.
Import ListNotations.
Local Open Scope Z_scope.

(** In every run, whatever the threads see of each other's stores: at most one
    context holds the lock of a CPU, the assertion of rseq_percpu_unlock() never
    fails, and no increment of the protected counters is lost: in the newest
    stores the counts add up to the number of increments. *)
Theorem C54_lock : forall g a tw tx md cpus cnt lk s0,
  lib_text a tw tx -> initial s0 -> 1 < wmod g -> NoDup cpus -> lock_layout g cpus cnt lk ->
  (forall cpu x, In cpu cpus -> In x (span (lk cpu) (wsize g)) -> s_mem s0 x = 0) ->
  (forall t, exists n, map x_loc (t_ctx (s_thr s0 t)) = [Lk_idle n]) ->
  forall wtr C, cpath g tx (lock_client g md cpus cnt lk) lock_rel lock_acq (sync_start s0) wtr C ->
  (forall cpu t u, (holders (w_core (c_w C)) cpu t <= 1)%nat /\
     (t <> u -> holders (w_core (c_w C)) cpu t = O \/ holders (w_core (c_w C)) cpu u = O)) /\
  (forall t x, In x (t_ctx (s_thr (w_core (c_w C)) t)) -> x_loc x <> Lk_assert_failed) /\
  exists m, (forall cpu x, In cpu cpus -> In x (span (cnt cpu) (wsize g)) -> newest (w_hist (c_w C) x) (m x)) /\
    wrap g (total g cpus cnt m) = wrap g (total g cpus cnt (s_mem s0) + count is_count_store (obs wtr)).
Proof. exact lock_weak. Qed.
Print Assumptions C54_lock.

(** The machine has all the runs of the sequentially consistent one, whatever the
    client code and its fences. *)
Theorem C54_includes : forall (Loc : Type) g tx (cl : client Loc) rel acq s0 tr s,
  moves g tx cl (fun _ => True) s0 tr s ->
  exists wtr C, cpath g tx cl rel acq (sync_start s0) wtr C /\ same_steps wtr tr /\
    s_thr s = s_thr (w_core (c_w C)) /\ s_loaded s = s_loaded (w_core (c_w C)) /\
    forall x, newest (w_hist (c_w C) x) (s_mem s x).
Proof. exact sc_is_sync. Qed.
Print Assumptions C54_includes.

(** Without the acquire fence, or with a plain store instead of the release store,
    an increment can be lost. *)
Definition loses_increment (rel : lock_loc -> bool) (acq : lock_loc -> call -> Z -> bool) : Prop :=
  exists g a tw tx md cpus cnt lk s0 wtr C,
  lib_text a tw tx /\ initial s0 /\ 1 < wmod g /\ NoDup cpus /\ lock_layout g cpus cnt lk /\
  (forall cpu x, In cpu cpus -> In x (span (lk cpu) (wsize g)) -> s_mem s0 x = 0) /\
  (forall t, exists n, map x_loc (t_ctx (s_thr s0 t)) = [Lk_idle n]) /\
  cpath g tx (lock_client g md cpus cnt lk) rel acq (sync_start s0) wtr C /\
  count is_count_store (obs wtr) = 2 /\ total g cpus cnt (s_mem s0) = 0 /\
  forall m, (forall cpu x, In cpu cpus -> In x (span (cnt cpu) (wsize g)) -> newest (w_hist (c_w C) x) (m x)) ->
    total g cpus cnt m = 1.

Lemma ex_loses : forall rel acq, sync_check rel acq (sync_acts stale_count) 1 = true -> loses_increment rel acq.
Proof.
  intros rel acq H. destruct (sync_ends _ _ _ _ H) as (wtr & C & H1 & H2 & H3 & H4 & H5 & H6).
  exists demo_cfg, AARCH64, false, dw, CPU_ID, two, ex_cnt, ex_lk, lock_s0, wtr, C.
  split; [apply demo_lib|]. split; [apply cstart_initial|]. split; [reflexivity|]. split; [exact two_nodup|].
  split; [exact lock_layout_ex|]. split; [reflexivity|]. split; [intros t; exists 1%nat; reflexivity|].
  split; [exact H1|]. split; [exact H5|]. split; [reflexivity|exact H6].
Qed.
Theorem C54_no_acquire_refuted : loses_increment lock_rel (fun _ _ _ => false).
Proof. exact (ex_loses _ _ ex_no_acquire). Qed.
Print Assumptions C54_no_acquire_refuted.
Theorem C54_no_release_refuted : loses_increment (fun _ => false) lock_acq.
Proof. exact (ex_loses _ _ ex_no_release). Qed.
Print Assumptions C54_no_release_refuted.

(** The hypotheses are met, and the lock is handed from one CPU to another: thread
    0 takes the lock of CPU 0, is moved to CPU 1, increments and unlocks there;
    thread 1 takes the lock on CPU 0 and increments too. *)
Example C54_case :
  lib_text AARCH64 false dw /\ initial lock_s0 /\ 1 < wmod demo_cfg /\ NoDup two /\
  lock_layout demo_cfg two ex_cnt ex_lk /\
  (forall cpu x, In cpu two -> In x (span (ex_lk cpu) 8) -> s_mem lock_s0 x = 0) /\
  (forall t, exists n, map x_loc (t_ctx (s_thr lock_s0 t)) = [Lk_idle n]) /\
  exists wtr C, cpath demo_cfg dw (lock_client demo_cfg CPU_ID two ex_cnt ex_lk) lock_rel lock_acq (sync_start lock_s0) wtr C /\
    returned 0 0 wtr = true /\ returned 1 0 wtr = true /\ holders (w_core (c_w C)) 0 1 = 1%nat /\
    count is_count_store (obs wtr) = 2 /\
    forall m, (forall cpu x, In cpu two -> In x (span (ex_cnt cpu) 8) -> newest (w_hist (c_w C) x) (m x)) ->
      total demo_cfg two ex_cnt m = 2.
Proof.
  split; [apply demo_lib|]. split; [apply cstart_initial|]. split; [reflexivity|]. split; [exact two_nodup|].
  split; [exact lock_layout_ex|]. split; [reflexivity|]. split; [intros t; exists 1%nat; reflexivity|].
  exact (sync_ends _ _ _ _ ex_fences).
Qed.
