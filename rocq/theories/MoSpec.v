(** What the names of the memory-ordering macros promise, whatever else the
    threads do.  Definitions only. *)
From Coq Require Import ZArith List Relations.
From Verif Require Import Archs MoModel.
Import ListNotations.

(** From position [i] on, thread [t] executed macro [p]. *)
Definition runs (a : arch) (E : exec) (t i : nat) (p : prim) : Prop :=
  exists pre post, trace E t = pre ++ expand a p ++ post /\ length pre = i.
Definition size (a : arch) (p : prim) : nat := length (expand a p).

(** [e] is before, and [f] after, one execution of macro [p]. *)
Definition separated (a : arch) (E : exec) (p : prim) (e f : event) : Prop :=
  exists t i j k, runs a E t i p /\ e = Ev t j /\ (j < i)%nat /\ f = Ev t k /\ (i + size a p <= k)%nat.

(** [w] is the store of an rseq_smp_store_release(). *)
Definition released (a : arch) (E : exec) (w : event) : Prop :=
  exists t i j x rel, runs a E t i (PStoreRel x) /\
    w = Ev t j /\ (i <= j < i + size a (PStoreRel x))%nat /\ ins E w = Some (St x rel).

(** [r] is the load of an rseq_smp_load_acquire(), and [f] is [r] or behind that
    macro. *)
Definition acquired (a : arch) (E : exec) (r f : event) : Prop :=
  exists t i j n x acq, runs a E t i (PLoadAcq n x) /\
    r = Ev t j /\ (i <= j < i + size a (PLoadAcq n x))%nat /\ ins E r = Some (Ld n x acq) /\
    (f = r \/ exists k, f = Ev t k /\ (i + size a (PLoadAcq n x) <= k)%nat).
(** [r] is a load that decided a branch, then the thread executed
    rseq_smp_acquire__after_ctrl_dep(), and [f] is behind that. *)
Definition acquired_ctrl (a : arch) (E : exec) (r f : event) : Prop :=
  exists b, decides E r b /\ separated a E PCtrl b f.

(** Access [f] learned from a store-release that access [e] is done: [e] is that store or
    earlier in its thread; a load-acquire (or a load, a branch and the barrier for
    that) returned the value of the store; [f] is that load or later. *)
Definition handover1 (a : arch) (E : exec) (e f : event) : Prop :=
  (exists x, acc E e x) /\ (exists y, acc E f y) /\
  exists w r, (e = w \/ before e w) /\ released a E w /\ rf E w r /\
    (acquired a E r f \/ acquired_ctrl a E r f).
(** ... through any number of threads. *)
Definition handover (a : arch) (E : exec) := clos_trans event (handover1 a E).

(** The accesses [e] and [f] took effect in this order, if they are to the same
    location: [f] does not miss the store [e], nor overtake it, nor does [e] return
    the value of [f] or of something newer, nor [f] something older than [e] did. *)
Definition in_order (E : exec) (e f : event) : Prop :=
  forall x,
    (writes E e x -> reads E f x -> forall w, rf E w f -> w = e \/ co E e w) /\
    (writes E e x -> writes E f x -> co E e f) /\
    (reads E e x -> writes E f x -> forall w, rf E w e -> co E w f) /\
    (reads E e x -> reads E f x -> forall w w', rf E w e -> rf E w' f -> w = w' \/ co E w w').
