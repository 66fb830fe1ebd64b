(** fork() and the state of librseq's initialisation and registration:
    src/rseq.c:154-297 as modelled in RegModel.v, run by a process and by the
    children it forks, as tests/fork_test.c:30-97 does. *)
From Coq Require Import ZArith Bool List.
From Verif Require Import RegModel.
Import ListNotations.
Local Open Scope Z_scope.

(** The last value of every variable. *)
Definition newest (s : state) : view := fun v => Nat.pred (length (hist s v)).

(** fork(2) by thread [t], between two calls of the library (tests/fork_test.c:71):
    the child has a copy of the memory (init_done, init_lock and the public
    symbols, src/rseq.c:35-56), one thread, and the kernel keeps the registration
    of that thread (tests/fork_test.c:22-24).  The other threads are gone, and a
    lock that one of them holds stays taken: src/rseq.c has no pthread_atfork()
    handler.  The copy has the last value of each variable, for every thread that
    the child will have; simplification: fork() is one step. *)
Definition fork_child (s : state) (t : nat) : state :=
  {| hist := hist s; rel := rel s; owner := owner s; lview := newest s;
     kreg := fun u => if Nat.eqb u t then kreg s t else None;
     pcs := fun _ => Idle;
     views := fun _ => newest s;
     inited := fun u => if Nat.eqb u t then inited s t else false |}.

(** Runs of a process from a state. *)
Inductive runs_from (y : sys) (s0 : state) : list label -> state -> Prop :=
  | rf_nil : runs_from y s0 [] s0
  | rf_step : forall tr s l s', runs_from y s0 tr s -> step y s l s' -> runs_from y s0 (tr ++ [l]) s'.

(** Runs of a program and, whenever it forks, of the child, which may fork in
    turn.  [ok] says which forks are allowed. *)
Inductive lineage (y : sys) (ok : state -> nat -> Prop) : list label -> state -> Prop :=
  | l_start : lineage y ok [] initial
  | l_step : forall tr s l s', lineage y ok tr s -> step y s l s' -> lineage y ok (tr ++ [l]) s'
  | l_fork : forall tr s t, lineage y ok tr s -> pcs s t = Idle -> ok s t -> lineage y ok tr (fork_child s t).

(** tests/fork_test.c:38-40: the direct system call in the child; true: it
    succeeds, which the test refuses. *)
Definition child_syscall (y : sys) (s : state) (t : nat) : bool := sys_register y (kreg (fork_child s t) t) 32.
