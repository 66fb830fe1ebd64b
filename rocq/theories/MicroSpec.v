(** The notions in which C65 is stated. *)
From Coq Require Import ZArith Bool List.
From Verif Require Import UtilsModel RseqIR PoolVM PoolModel PoolWorld MicroModel.
Import ListNotations.
Local Open Scope Z_scope.

Section Spec.
Variable e : env.

(** A state that some schedule of a program leads to. *)
Definition mprogram (v0 : vm) (m : mstate) : Prop := machine_ok e /\ address_space_ok e v0 /\ mrun e v0 m.

(** A thread is between taking the mutex of a pool and releasing it. *)
Definition inside (tk : task) (id : Z) : Prop :=
  match tk with
  | TMHead i _ _ | TMNext i _ _ | TMPop i _ _ _ | TMCheck i _ _ _ _ | TMFresh i _ _ | TMUnlock i _ _
  | TFClear i _ _ | TFHead i _ _ | TFPoison i _ _ _ | TFLink i _ _ | TFPush i _ | TFUnlock i => i = id
  | TIdle | TWant _ _ | TFill _ _ _ _ => False
  end.
(** A thread waits for the mutex of a pool. *)
Definition waits (tk : task) (id : Z) : Prop := match tk with TWant i _ => i = id | _ => False end.

(** What an allocation promises about the bytes of the item, on every CPU. *)
Definition contains (P : pool) (c : content) (v : vm) (a : Z) : Prop :=
  forall cpu k, 0 <= cpu < max_nr_cpus (pattr P) ->
  match c with
  | Any => True
  | Zeroed => 0 <= k < item_len P -> byte (view e v) (percpu_ptr P a cpu + k) = 0
  | Bytes bs => 0 <= k < Z.of_nat (length bs) -> byte (view e v) (percpu_ptr P a cpu + k) = nth (Z.to_nat k) bs 0
  end.

(** [during t n m m']: any number of steps of all the threads from [m] to [m'];
    [n] of them are steps of [t], and none of those returns from the call. *)
Definition is_step (t : Z) (a : action) : bool := match a with AStep t' _ => t' =? t | _ => false end.
Inductive during (v0 : vm) (t : Z) : nat -> mstate -> mstate -> Prop :=
| dur_here m : during v0 t 0 m m
| dur_step n m m1 a m2 x :
    during v0 t n m m1 -> permitted e v0 m1 a -> mstep e a m1 = Some (Ok (m2, x)) ->
    (is_step t a = true -> x = None) ->
    during v0 t (if is_step t a then S n else n) m m2.

(** Following the links from [h] visits the items [l] and ends. *)
Fixpoint linked (P : pool) (v : vm) (h : Z) (l : list Z) : Prop :=
  match l with
  | [] => h = 0
  | a :: l => h <> 0 /\ h = percpu_to_free_list_ptr e P a /\ linked P v (load_word e v h) l
  end.
(** An item that has been handed out at least once. *)
Definition handed_out (P : pool) (a : Z) : Prop :=
  exists r, In r (range_list P) /\ 0 <= a - base r < next_unused r /\ (item_len P | a - base r).
End Spec.
