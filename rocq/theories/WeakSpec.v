(** What C18 says about runs of [WeakModel].  Definitions only. *)
From Coq Require Import ZArith Bool List.
From Verif Require Import RseqIR RseqSpec RseqKernel Archs WeakModel.
Import ListNotations.
Local Open Scope Z_scope.

(** The call was made to a RELEASE variant of a helper. *)
Definition release_call (a : arch) (tw : bool) (tx : text) (c : call) : Prop :=
  exists P kd md, tx (c_code c) = Some (P, kd) /\ helper a tw true md kd = Some P.

(** Call number [k] made the store of the bytes [ps], which is number [n] of CPU [i]. *)
Definition store_of (s : wstate) (k i n : nat) (ps : list (Z * Z)) : Prop :=
  exists fin rel, nth_error (w_log s i) n = Some (WS (Some k) fin rel ps).
(** It is the store that ended the critical section of the call. *)
Definition final_store (s : wstate) (k i n : nat) (ps : list (Z * Z)) : Prop :=
  exists rel, nth_error (w_log s i) n = Some (WS (Some k) true rel ps).
(** Any store, by whomever. *)
Definition any_store (s : wstate) (i n : nat) (ps : list (Z * Z)) : Prop :=
  exists own fin rel, nth_error (w_log s i) n = Some (WS own fin rel ps).

(** CPU [j] observes store [n] of CPU [i]: a load of [j] that happens now finds it,
    or something that overwrote it.  (Loads of [j] that are ordered, by acquire
    loads, happen one after the other.) *)
Definition observes (s : wstate) (j i n : nat) : Prop := In (i, n) (w_vis s j).

(** All loads of call [k], in the run [xs], found the memory [m], and the index
    field [idx] (its CPU is the only one that writes what it reads). *)
Definition loads_from (a : arch) (g : cfg) (tx : text) (cpus : nat -> nat) (xs : list wact) (k : nat) (m : mem) (idx : Z) : Prop :=
  forall xs1 t m' idx' xs2 s f, xs = xs1 ++ AInstr t m' idx' :: xs2 -> wrun a g tx (wstart cpus) xs1 = Some s ->
    w_act (w_thr s t) = Some (k, f) -> m' = m /\ idx' = idx.
