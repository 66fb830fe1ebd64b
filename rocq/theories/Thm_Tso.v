(** C58: on x86, with its store buffers, the membarrier test of tests/param_test.c
    never fails and counts every increment. *)
From Coq Require Import ZArith Bool List Lia.
From Verif Require Import RseqIR RseqSpec RseqKernel RseqSim RseqCalls MemLemmas.
From Verif Require Import Replay ExRseq Archs ArchsGood ClientReplay BarrierSpec ExBarrier TsoModel TsoSpec TsoProofs TsoCount ExTso.
Import ListNotations.
Local Open Scope Z_scope.

(** For every number of threads and CPUs, every number of iterations and every
    schedule of instructions, store buffers, preemptions, migrations, signals and
    kernel work, in cpu_id and mm_cid builds, the manager never finds a counter of
    the inactive list changed since its last barrier. *)
Theorem C58_never_fails : forall g tw tx, lib_text X86_64 tw tx -> forall md L la lb mg todo,
  layout_ok g L -> bases L = [la; lb] -> la <> lb -> forall T T',
  starts g L la mg todo T -> oruns g tx (mt_client g md L la lb) (mt_ask md) T T' -> ~ failed T'.
Proof.
  intros g tw tx Htx md L la lb mg todo Hlay Hb Hne.
  exact (never_fails g tw tx md L la lb mg Htx Hlay Hb Hne todo).
Qed.
Print Assumptions C58_never_fails.

(** When all workers are through, the two lists together hold the number of
    iterations of all workers: no increment is lost, and none is done twice,
    whatever was aborted and restarted on the way. *)
Theorem C58_all_counted : forall g tw tx, lib_text X86_64 tw tx -> forall md L la lb mg todo,
  layout_ok g L -> bases L = [la; lb] -> la <> lb -> forall workers T T' u,
  NoDup workers -> ~ In mg workers -> (forall t, t <> mg -> ~ In t workers -> todo t = 0%nat) ->
  sum (fun t => Z.of_nat (todo t)) workers < wmod g ->
  starts g L la mg todo T -> oruns g tx (mt_client g md L la lb) (mt_ask md) T T' ->
  (forall t, t <> mg -> over T' t) ->
  total g L la lb (sees T' u) = sum (fun t => Z.of_nat (todo t)) workers.
Proof.
  intros g tw tx Htx md L la lb mg todo Hlay Hb Hne workers T T' u.
  exact (all_counted g tw tx md L la lb mg Htx Hlay Hb Hne workers todo T T' u).
Qed.
Print Assumptions C58_all_counted.

(** Non-vacuity, in both builds: when the manager publishes list_b its store is
    pending, thread 0 holds the address of a counter of list_a and has an
    increment of list_a pending.  In the end list_a has counted 1 and list_b 2. *)
Example C58_example : lib_text X86_64 false dx /\ layout_ok demo_cfg ex_L /\ bases ex_L = [ex_a; ex_b] /\ ex_a <> ex_b /\
  starts demo_cfg ex_L ex_a 1 mt_todo mt_T0 /\
  NoDup [0%nat] /\ ~ In 1%nat [0%nat] /\ (forall t, t <> 1%nat -> ~ In t [0%nat] -> mt_todo t = 0%nat) /\
  sum (fun t => Z.of_nat (mt_todo t)) [0%nat] < wmod demo_cfg /\
  forall md, exists T T',
    oruns demo_cfg dx (mt_client demo_cfg md ex_L ex_a ex_b) (mt_ask md) mt_T0 T /\
    (exists l f k, t_ctx (s_thr (o_core T) 0) = {| x_loc := l; x_act := Some f |} :: k /\ f_rs f T2 = node ex_L ex_a 0) /\
    o_buf T 0 <> [] /\ o_buf T 1 <> [] /\
    oruns demo_cfg dx (mt_client demo_cfg md ex_L ex_a ex_b) (mt_ask md) mt_T0 T' /\
    (forall t, t <> 1%nat -> over T' t) /\
    ldw demo_cfg (s_mem (o_core T')) (node ex_L ex_a 0) = 1 /\ ldw demo_cfg (s_mem (o_core T')) (node ex_L ex_b 0) = 2.
Proof.
  split; [exact (demo_lib X86_64 false)|]. split; [exact ex_layout|]. split; [reflexivity|]. split; [discriminate|]. split; [exact mt_starts|].
  split; [constructor; [intros []|constructor]|]. split; [intros [E|[]]; discriminate E|].
  split; [intros t Ht Hn; destruct t as [|t]; [exfalso; apply Hn; left; reflexivity|reflexivity]|].
  split; [vm_compute; reflexivity|exact ex_mt].
Qed.

(** The same test without the barrier (the manager goes on at once) can fail. *)
Theorem C58_without_barrier_refuted : exists g tx md L la lb mg todo T T',
  lib_text X86_64 false tx /\ layout_ok g L /\ bases L = [la; lb] /\ la <> lb /\ starts g L la mg todo T /\
  oruns g tx (mt_client g md L la lb) no_ask T T' /\ failed T'.
Proof.
  destruct ex_mt_nobarrier as (T' & R & F).
  exists demo_cfg, dx, CPU_ID, ex_L, ex_a, ex_b, 1%nat, mt_todo, mt_T0, T'.
  split; [exact (demo_lib X86_64 false)|]. split; [exact ex_layout|]. split; [reflexivity|]. split; [discriminate|]. split; [exact mt_starts|].
  split; [exact R|exact F].
Qed.
Print Assumptions C58_without_barrier_refuted.

(** A barrier on one CPU, as in the cpu_id build, does not do for an mm_cid
    build: the code is right to use the one for all CPUs there
    (tests/param_test.c:330-347). *)
Theorem C58_one_cpu_for_mm_cid_refuted : exists g tx L la lb mg todo T T',
  lib_text X86_64 false tx /\ layout_ok g L /\ bases L = [la; lb] /\ la <> lb /\ starts g L la mg todo T /\
  oruns g tx (mt_client g MM_CID L la lb) (mt_ask CPU_ID) T T' /\ failed T'.
Proof.
  destruct ex_mt_onecpu as (T' & R & F).
  exists demo_cfg, dx, ex_L, ex_a, ex_b, 1%nat, mt_todo, mt_X0, T'.
  split; [exact (demo_lib X86_64 false)|]. split; [exact ex_layout|]. split; [reflexivity|]. split; [discriminate|]. split; [exact mt_X_starts|].
  split; [exact R|exact F].
Qed.
Print Assumptions C58_one_cpu_for_mm_cid_refuted.
