(** What the membarrier test checks.  Definitions only. *)
From Coq Require Import ZArith Bool List.
From Verif Require Import RseqIR RseqSpec RseqKernel BarrierSpec TsoModel.
Import ListNotations.
Local Open Scope Z_scope.

(** The beginning of the test, tests/param_test.c:1547-1557: the lists are set up
    with counters 0 (1454-1478), list_a is active, thread [mg] is the manager
    with expect_b = 0 and cpu_b = 0 (1513-1514); the other threads are workers,
    [todo t] is how often [t] increments (opt_reps).  Nothing is pending. *)
Definition starts (g : cfg) (L : layout) (la : Z) (mg : nat) (todo : nat -> nat) (T : tso mt_loc) : Prop :=
  initial (o_core T) /\
  (forall t, o_buf T t = [] /\ o_mb T t = None) /\
  t_ctx (s_thr (o_core T) mg) = [{| x_loc := Mcheck true 0 0; x_act := None |}] /\
  (forall t, t <> mg -> t_ctx (s_thr (o_core T) t) = [{| x_loc := Tread (todo t); x_act := None |}]) /\
  0 < ncpus L /\ lists_set g L (s_mem (o_core T)) /\ ldw g (s_mem (o_core T)) (ptr L) = la /\
  (forall b c, item_of L b c -> ldw g (s_mem (o_core T)) (node L b c) = 0).

(** Some thread has printed "Membarrier test failed" (1565, 1588). *)
Definition failed (T : tso mt_loc) : Prop :=
  exists t x, In x (t_ctx (s_thr (o_core T) t)) /\ x_loc x = Mfailed.

(** Thread [t] has left its loop, and, having exited, has no store pending (the
    manager counts when main has joined the workers, 1669-1678). *)
Definition over (T : tso mt_loc) (t : nat) : Prop :=
  t_ctx (s_thr (o_core T) t) = [{| x_loc := Tread 0; x_act := None |}] /\ o_buf T t = [].

(** test_membarrier_count_percpu_list() of both lists, 1491-1501, 1603-1604, in
    the memory [m]. *)
Fixpoint sum {A} (f : A -> Z) (l : list A) : Z := match l with [] => 0 | a :: r => f a + sum f r end.
Definition cpus (L : layout) : list Z := map Z.of_nat (seq 0 (Z.to_nat (ncpus L))).
Definition total (g : cfg) (L : layout) (la lb : Z) (m : mem) : Z :=
  sum (counter g L m la) (cpus L) + sum (counter g L m lb) (cpus L).
