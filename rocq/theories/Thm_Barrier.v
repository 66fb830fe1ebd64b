(** C17: switching a pointer and issuing the expedited rseq membarrier quiesces the
    structure it pointed to, for every program, number of threads and schedule. *)
From Coq Require Import ZArith Bool List Lia.
From Verif Require Import RseqIR RseqSpec RseqKernel RseqSim RseqCalls MemLemmas.
From Verif Require Import Replay ExRseq Archs ArchsGood ClientReplay BarrierSpec BarrierModel BarrierProofs ExBarrier.
Import ListNotations.
Local Open Scope Z_scope.

Lemma not_through_old : forall (Loc : Type) g tw tx (cl : client Loc), lib_text X86_64 tw tx ->
  forall s0 ls sm cpu sm' tr s t ps s' c p off inc old,
  initial s0 -> exec g tx cl s0 ls sm -> membarrier tx cpu sm sm' ->
  path g tx cl sm' tr s -> (forall x l, In (x, l) tr -> ldw g (s_mem x) p <> old) ->
  step g tx cl s (Lwr t ps) s' -> executing s t c ->
  c_op c = AddLoadLoadAddStore p off inc -> c_mode c = CPU_ID -> c_cpu c = cpu ->
  exists x y q, In x (map fst tr) /\ In y (map fst tr) /\ q = ldw g (s_mem x) p /\ q <> old /\
    let a := ldw g (s_mem y) (wrap g (q + off)) in ps = stw g a (wrap g (ldw g (s_mem s) a + inc)).
Proof.
  intros Loc g tw tx cl Htx s0 ls sm cpu sm' tr s t ps s' c p off inc old H0 He Hm Hp Hno Hs Hx Hop Hmd Hc.
  destruct (after_membarrier Loc g tw tx cl Htx s0 ls sm cpu sm' tr s t ps s' c p off inc H0 He Hm Hp Hs Hx Hop Hmd Hc)
    as (tr1 & sa & la & tr2 & sb & lb & tr3 & -> & W).
  exists sa, sb, (ldw g (s_mem sa) p).
  split; [rewrite map_app; apply in_or_app; right; left; reflexivity|].
  split; [rewrite map_app; apply in_or_app; right; right; rewrite map_app; apply in_or_app; right; left; reflexivity|].
  split; [reflexivity|]. split; [|exact W]. apply (Hno sa la). apply in_or_app. right. left. reflexivity.
Qed.

Lemma not_through_old_all : forall (Loc : Type) g tw tx (cl : client Loc), lib_text X86_64 tw tx ->
  forall s0 ls sm tr0 sm' tr s t ps s' c p off inc old,
  initial s0 -> exec g tx cl s0 ls sm -> membarrier_all g tx cl sm tr0 sm' ->
  path g tx cl sm' tr s -> (forall x l, In (x, l) (tr0 ++ tr) -> ldw g (s_mem x) p <> old) ->
  step g tx cl s (Lwr t ps) s' -> executing s t c ->
  c_op c = AddLoadLoadAddStore p off inc ->
  exists x y q, In x (map fst (tr0 ++ tr)) /\ In y (map fst (tr0 ++ tr)) /\ q = ldw g (s_mem x) p /\ q <> old /\
    let a := ldw g (s_mem y) (wrap g (q + off)) in ps = stw g a (wrap g (ldw g (s_mem s) a + inc)).
Proof.
  intros Loc g tw tx cl Htx s0 ls sm tr0 sm' tr s t ps s' c p off inc old H0 He Hm Hp Hno Hs Hx Hop.
  destruct (after_membarrier_all Loc g tw tx cl Htx s0 ls sm tr0 sm' tr s t ps s' c p off inc H0 He Hm Hp Hs Hx Hop)
    as (tr1 & sa & la & tr2 & sb & lb & tr3 & E & W).
  rewrite E in *. exists sa, sb, (ldw g (s_mem sa) p).
  split; [rewrite map_app; apply in_or_app; right; left; reflexivity|].
  split; [rewrite map_app; apply in_or_app; right; right; rewrite map_app; apply in_or_app; right; left; reflexivity|].
  split; [reflexivity|]. split; [|exact W]. apply (Hno sa la). apply in_or_app. right. left. reflexivity.
Qed.

Lemma mb_stable : forall g tw tx, lib_text X86_64 tw tx -> forall L la lb,
  layout_ok g L -> bases L = [la; lb] ->
  let cl := mb_client g CPU_ID L la lb in
  forall s0 ls sm cpu sm' tr s b, initial s0 -> lists_set g L (s_mem s0) ->
  exec g tx cl s0 ls sm -> membarrier tx cpu sm sm' -> path g tx cl sm' tr s ->
  item_of L b cpu -> (forall x l, In (x, l) tr -> ldw g (s_mem x) (ptr L) <> b) ->
  ldw g (s_mem s) (node L b cpu) = ldw g (s_mem sm) (node L b cpu).
Proof.
  intros g tw tx Htx L la lb Hlay Hb cl s0 ls sm cpu sm' tr s b.
  exact (list_quiescent mb_loc g tw tx cl Htx L CPU_ID Hlay (mb_switches g CPU_ID L la lb Hb) s0 ls sm cpu sm' tr s b eq_refl).
Qed.
Lemma mb_stable_all : forall g tw tx, lib_text X86_64 tw tx -> forall md L la lb,
  layout_ok g L -> bases L = [la; lb] ->
  let cl := mb_client g md L la lb in
  forall s0 ls sm tr0 sm' tr s b cpu, initial s0 -> lists_set g L (s_mem s0) ->
  exec g tx cl s0 ls sm -> membarrier_all g tx cl sm tr0 sm' -> path g tx cl sm' tr s ->
  item_of L b cpu -> (forall x l, In (x, l) (tr0 ++ tr) -> ldw g (s_mem x) (ptr L) <> b) ->
  ldw g (s_mem s) (node L b cpu) = ldw g (s_mem sm') (node L b cpu).
Proof.
  intros g tw tx Htx md L la lb Hlay Hb cl s0 ls sm tr0 sm' tr s b cpu.
  exact (list_quiescent_all mb_loc g tw tx cl Htx L md Hlay (mb_switches g md L la lb Hb) s0 ls sm tr0 sm' tr s b cpu).
Qed.

(** ** C17 *)
(** After the pointer at [p] was switched (it never holds [old] again in [tr]) and
    rseq_membarrier_expedited(cpu) took effect between [sm] and [sm'], whatever a call
    of rseq_load_add_load_load_add_store() for that CPU stores, whether it had begun
    before or not, goes through another value of the pointer, and the field of what it
    points to was also read after the barrier. *)
Theorem C17_not_through_old : forall (Loc : Type) g tw tx (cl : client Loc), lib_text X86_64 tw tx ->
  forall s0 ls sm cpu sm' tr s t ps s' c p off inc old,
  initial s0 -> exec g tx cl s0 ls sm -> membarrier tx cpu sm sm' ->
  path g tx cl sm' tr s -> (forall x l, In (x, l) tr -> ldw g (s_mem x) p <> old) ->
  step g tx cl s (Lwr t ps) s' -> executing s t c ->
  c_op c = AddLoadLoadAddStore p off inc -> c_mode c = CPU_ID -> c_cpu c = cpu ->
  exists x y q, In x (map fst tr) /\ In y (map fst tr) /\ q = ldw g (s_mem x) p /\ q <> old /\
    let a := ldw g (s_mem y) (wrap g (q + off)) in ps = stw g a (wrap g (ldw g (s_mem s) a + inc)).
Proof. exact not_through_old. Qed.
Print Assumptions C17_not_through_old.

(** The barrier on all CPUs, used by mm_cid builds: the same for every call. *)
Theorem C17_not_through_old_all : forall (Loc : Type) g tw tx (cl : client Loc), lib_text X86_64 tw tx ->
  forall s0 ls sm tr0 sm' tr s t ps s' c p off inc old,
  initial s0 -> exec g tx cl s0 ls sm -> membarrier_all g tx cl sm tr0 sm' ->
  path g tx cl sm' tr s -> (forall x l, In (x, l) (tr0 ++ tr) -> ldw g (s_mem x) p <> old) ->
  step g tx cl s (Lwr t ps) s' -> executing s t c ->
  c_op c = AddLoadLoadAddStore p off inc ->
  exists x y q, In x (map fst (tr0 ++ tr)) /\ In y (map fst (tr0 ++ tr)) /\ q = ldw g (s_mem x) p /\ q <> old /\
    let a := ldw g (s_mem y) (wrap g (q + off)) in ps = stw g a (wrap g (ldw g (s_mem s) a + inc)).
Proof. exact not_through_old_all. Qed.
Print Assumptions C17_not_through_old_all.

(** The membarrier test: once list [b] is no longer active and the barrier for [cpu]
    took effect, the counter of [b] for [cpu] does not change (until [b] is active
    again).  This is what the test checks (param_test.c:1562-1592). *)
Theorem C17_list_stable : forall g tw tx, lib_text X86_64 tw tx -> forall L la lb,
  layout_ok g L -> bases L = [la; lb] ->
  let cl := mb_client g CPU_ID L la lb in
  forall s0 ls sm cpu sm' tr s b, initial s0 -> lists_set g L (s_mem s0) ->
  exec g tx cl s0 ls sm -> membarrier tx cpu sm sm' -> path g tx cl sm' tr s ->
  item_of L b cpu -> (forall x l, In (x, l) tr -> ldw g (s_mem x) (ptr L) <> b) ->
  ldw g (s_mem s) (node L b cpu) = ldw g (s_mem sm) (node L b cpu).
Proof. exact mb_stable. Qed.
Print Assumptions C17_list_stable.

(** The same with the barrier on all CPUs, in both builds, for every CPU. *)
Theorem C17_list_stable_all : forall g tw tx, lib_text X86_64 tw tx -> forall md L la lb,
  layout_ok g L -> bases L = [la; lb] ->
  let cl := mb_client g md L la lb in
  forall s0 ls sm tr0 sm' tr s b cpu, initial s0 -> lists_set g L (s_mem s0) ->
  exec g tx cl s0 ls sm -> membarrier_all g tx cl sm tr0 sm' -> path g tx cl sm' tr s ->
  item_of L b cpu -> (forall x l, In (x, l) (tr0 ++ tr) -> ldw g (s_mem x) (ptr L) <> b) ->
  ldw g (s_mem s) (node L b cpu) = ldw g (s_mem sm') (node L b cpu).
Proof. exact mb_stable_all. Qed.
Print Assumptions C17_list_stable_all.

(** Without the barrier it fails: the counter of list_a changes after list_b was made
    active, because the worker had read the pointer before. *)
Theorem C17_without_barrier_refuted : exists tr s1 tr2 s2,
  path demo_cfg dx mb mb_s0 tr s1 /\ path demo_cfg dx mb s1 tr2 s2 /\
  not_a tr2 = true /\ ldw demo_cfg (s_mem s1) 16 = ex_b /\
  wat s1 ex_a 0 = 0 /\ wat s2 ex_a 0 = 1.
Proof. exact ex_no_barrier. Qed.
Print Assumptions C17_without_barrier_refuted.

Lemma mb_s0_initial : initial mb_s0.
Proof. apply cstart_initial. Qed.

(** The hypotheses are met: the worker is interrupted by the barrier when it has read
    the old pointer and the address of the old node; it then increments the new one. *)
Example C17_case :
  lib_text X86_64 false dx /\ initial mb_s0 /\ layout_ok demo_cfg ex_L /\ lists_set demo_cfg ex_L (s_mem mb_s0) /\
  exists tr sm sm' tr2 s2,
  path demo_cfg dx mb mb_s0 tr sm /\ membarrier dx 0 sm sm' /\ path demo_cfg dx mb sm' tr2 s2 /\
  (forall x l, In (x, l) tr2 -> ldw demo_cfg (s_mem x) (ptr ex_L) <> ex_a) /\
  (exists l f k, t_ctx (s_thr sm 0) = {| x_loc := l; x_act := Some f |} :: k /\ f_rs f T2 = node ex_L ex_a 0) /\
  wat s2 ex_a 0 = 0 /\ wat s2 ex_b 0 = 1.
Proof.
  split; [exact (demo_lib X86_64 false)|]. split; [exact mb_s0_initial|]. split; [exact ex_layout|].
  split; [exact ex_lists|exact ex_barrier].
Qed.
Example C17_case_all : exists tr sm tr0 sm' tr2 s2,
  path demo_cfg dx mbc mb_s0 tr sm /\ membarrier_all demo_cfg dx mbc sm tr0 sm' /\ path demo_cfg dx mbc sm' tr2 s2 /\
  (forall x l, In (x, l) (tr0 ++ tr2) -> ldw demo_cfg (s_mem x) (ptr ex_L) <> ex_a) /\
  (exists l f k, t_ctx (s_thr sm 0) = {| x_loc := l; x_act := Some f |} :: k /\ f_rs f T2 = node ex_L ex_a 0) /\
  wat s2 ex_a 0 = 0 /\ wat s2 ex_b 0 = 1.
Proof. exact ex_barrier_all. Qed.
