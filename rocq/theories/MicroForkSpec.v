(** The notions in which C68 is stated. *)
From Coq Require Import ZArith Bool List.
From Verif Require Import UtilsModel RseqIR PoolVM PoolModel PoolWorld MicroModel MicroSpec.
Import ListNotations.
Local Open Scope Z_scope.

Section Spec.
Variable e : env.

(** A thread of the program has the mutex of the pool. *)
Definition busy (m : mstate) (id : Z) : Prop := exists t, inside (m_task m t) id.
(** The item is in the hands of a call: about to be returned, or given to free. *)
Definition in_flight (m : mstate) (i : Z * Z) : Prop := exists t, owns (m_task m t) = Some i.

(** The child exactly as fork() leaves it: all the pools, with their mutexes as they
    were, and no call in progress. *)
Definition as_forked (m : mstate) : mstate :=
  {| m_vm := fork e (m_vm m); m_pools := m_pools m; m_lock := m_lock m; m_task := fun _ => TIdle; m_held := m_held m |}.
(** Any steps at all of any threads, except to destroy the pool. *)
Inductive later (id : Z) (m : mstate) : mstate -> Prop :=
| later_here : later id m m
| later_step m1 a m2 x : later id m m1 -> (forall an, a <> AOp (ODestroy id an)) -> mstep e a m1 = Some (Ok (m2, x)) -> later id m m2.
End Spec.
