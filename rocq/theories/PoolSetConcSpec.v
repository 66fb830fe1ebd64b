(** Vocabulary of the properties of concurrent allocations from a pool set.
    Definitions only. *)
From Coq Require Import ZArith Bool List.
From Verif Require Import RseqIR PoolVM PoolModel PoolWorld PoolSetModel PoolSetSpec PoolSetConc.
Import ListNotations.
Local Open Scope Z_scope.

(** The thread stays in the same call. *)
Definition stays (t : Z) (tr : list (machine * act)) : Prop :=
  forall m a, In (m, a) tr -> a <> Leave t.
(** The thread has returned from the call with [g]. *)
Definition returns (m : machine) (t : Z) (g : got) : Prop :=
  exists k, m_call m t = Some k /\ k_phase k = Returned g.

(** At the instant [m], in which [a] is done: the set has no pool with items of
    [z] bytes, or this pool has no room.  It has no room when no item of it is
    freed, and it is at its limit or the system refuses thread [t] memory for a
    new range. *)
Definition lacks (e : env) (t : Z) (z : Z) (m : machine) (a : act) : Prop :=
  forall o id P, member (m_S m) (m_w m) o id P -> item_len P = z ->
    count id (m_F m) = 0 /\
    (max_nr_ranges (pattr P) <> 0 /\ count id (m_L m) = max_nr_ranges (pattr P) * (stride (pattr P) / item_len P) \/
     exists an, a = Advance t an /\ ~ system_grants e P an (w_vm (m_w m))).
Definition lacked (e : env) (t : Z) (z : Z) (tr : list (machine * act)) : Prop :=
  exists m a, In (m, a) tr /\ lacks e t z m a.

(** At the instant [m], some pool of the set whose items have [len] bytes would
    serve an allocation, even without help from the system. *)
Definition has_room (e : env) (len : Z) (m : machine) : Prop :=
  exists o id P, member (m_S m) (m_w m) o id P /\ len <= item_len P /\
    forall an, exists w a, run1 e (OMalloc id an) (m_w m) = Ok (w, OutItem a).

(** The number of steps of its call that the thread does. *)
Fixpoint steps_of (t : Z) (tr : list (machine * act)) : Z :=
  match tr with
  | [] => 0
  | (_, Advance u _) :: tr => (if u =? t then 1 else 0) + steps_of t tr
  | _ :: tr => steps_of t tr
  end.
