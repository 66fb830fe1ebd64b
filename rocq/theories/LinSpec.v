(** What it means that helper calls take effect one after the other
    (linearizability), for the data structures built on the helpers (C11-C15).

    The events of a run are: a context calls a helper, a call takes effect, the
    comparison of a call fails, a call returns, client code makes a plain store.
    Calls, returns and plain stores are observed in the concrete machine; the
    moments at which calls take effect or fail their comparison are what a
    linearization adds. *)
From Coq Require Import ZArith Bool List.
From Verif Require Import RseqIR RseqSpec RseqKernel RseqSim RseqCalls.
Import ListNotations.
Local Open Scope Z_scope.

Section Events.
Variable Loc : Type.

(** [t]: the thread; [l]: the local state of the calling context; [m]: the
    shared memory just before the event. *)
Inductive event :=
  | Inv (t : nat) (l : Loc) (c : call) (m : mem)
  | Eff (t : nat) (l : Loc) (c : call) (m : mem)
  | Cmp (t : nat) (l : Loc) (c : call) (m : mem)
  | Ret (t : nat) (l : Loc) (c : call) (r : Z) (m : mem)
  | Wrt (t : nat) (l : Loc) (ps : list (Z * Z)) (m : mem).

Definition ev_thread (e : event) : nat :=
  match e with Inv t _ _ _ | Eff t _ _ _ | Cmp t _ _ _ | Ret t _ _ _ _ | Wrt t _ _ _ => t end.

Definition is_eff (e : event) : bool := match e with Eff _ _ _ _ => true | _ => false end.

Definition is_silent (e : event) : bool := match e with Eff _ _ _ _ | Cmp _ _ _ _ => true | _ => false end.

(** The events of a linearization that are observed. *)
Definition observed (evs : list event) : list event := filter (fun e => negb (is_silent e)) evs.

(** The observed events of a run of the concrete machine. *)
Definition obs1 (p : state Loc * clabel) : list event :=
  let (s, l) := p in
  match l with
  | Lcall t c => match t_ctx (s_thr s t) with x :: _ => [Inv t (x_loc x) c (s_mem s)] | [] => [] end
  | Lret t c r => match t_ctx (s_thr s t) with x :: _ => [Ret t (x_loc x) c r (s_mem s)] | [] => [] end
  | Lwr t ps => match t_ctx (s_thr s t) with
                | {| x_loc := l; x_act := None |} :: _ => [Wrt t l ps (s_mem s)] | _ => [] end
  | _ => []
  end.
Definition obs (tr : list (state Loc * clabel)) : list event := flat_map obs1 tr.

(** How far an open call has got: its comparison has failed, or it has taken
    effect, in the given memory. *)
Inductive progress := Undone | Refused (m : mem) | Took (m : mem).

(** The calls of thread [t] open after some events, innermost first (the calls
    of a signal handler nest inside the interrupted one), each with the local
    state of its context.  A call takes effect or fails its comparison at most
    once, between its call and its return; it returns 0 exactly if it took
    effect, and 1 only if its comparison failed.  [res c me mr] relates the
    memory [me] in which a call took effect to the memory [mr] when it returns. *)
Inductive calls_ok (res : call -> mem -> mem -> Prop) (t : nat)
  : list event -> list (Loc * call * progress) -> Prop :=
  | co_nil : calls_ok res t [] []
  | co_inv : forall evs k l c m, calls_ok res t evs k ->
      calls_ok res t (evs ++ [Inv t l c m]) ((l, c, Undone) :: k)
  | co_eff : forall evs k l c m, calls_ok res t evs ((l, c, Undone) :: k) ->
      calls_ok res t (evs ++ [Eff t l c m]) ((l, c, Took m) :: k)
  | co_cmp : forall evs k l c m, calls_ok res t evs ((l, c, Undone) :: k) ->
      calls_ok res t (evs ++ [Cmp t l c m]) ((l, c, Refused m) :: k)
  | co_ret0 : forall evs k l c me m, calls_ok res t evs ((l, c, Took me) :: k) -> res c me m ->
      calls_ok res t (evs ++ [Ret t l c 0 m]) k
  | co_ret1 : forall evs k l c me m, calls_ok res t evs ((l, c, Refused me) :: k) ->
      calls_ok res t (evs ++ [Ret t l c 1 m]) k
  | co_abort : forall evs k l c o m, calls_ok res t evs ((l, c, o) :: k) -> (forall me, o <> Took me) ->
      calls_ok res t (evs ++ [Ret t l c (-1) m]) k
  | co_write : forall evs k l ps m, calls_ok res t evs k ->
      calls_ok res t (evs ++ [Wrt t l ps m]) k
  | co_other : forall evs k e, calls_ok res t evs k -> ev_thread e <> t ->
      calls_ok res t (evs ++ [e]) k.

(** Helper calls in progress in a thread of the concrete machine, innermost first. *)
Definition in_progress (s : state Loc) (t : nat) : list (Loc * call) :=
  flat_map (fun x => match x_act x with Some f => [(x_loc x, f_call f)] | None => [] end) (t_ctx (s_thr s t)).

(** [evs] is a linearization of the run [tr] that ends in [s]. *)
Definition linearization (g : cfg) (res : call -> mem -> mem -> Prop)
    (tr : list (state Loc * clabel)) (s : state Loc) (evs : list event) : Prop :=
  observed evs = obs tr /\
  (forall t, exists k, calls_ok res t evs k /\ map fst k = in_progress s t) /\
  (forall t l c m, In (Eff t l c m) evs -> exists att fin, pseudo g (c_op c) m = OCommit att fin) /\
  (forall t l c m, In (Cmp t l c m) evs -> pseudo g (c_op c) m = OFail).

(** Nothing is said about the memory at the return. *)
Definition any_res : call -> mem -> mem -> Prop := fun _ _ _ => True.

(** The local states of the contexts of a thread, innermost first, and whether
    each is inside a helper call. *)
Definition contexts (s : state Loc) (t : nat) : list (Loc * bool) :=
  map (fun x => (x_loc x, match x_act x with Some _ => true | None => false end)) (t_ctx (s_thr s t)).
End Events.

Arguments Inv {Loc}. Arguments Eff {Loc}. Arguments Cmp {Loc}. Arguments Ret {Loc}. Arguments Wrt {Loc}.
Arguments ev_thread {Loc}. Arguments is_eff {Loc}. Arguments is_silent {Loc}. Arguments observed {Loc}. Arguments obs1 {Loc}. Arguments obs {Loc}.
Arguments calls_ok {Loc}. Arguments in_progress {Loc}. Arguments linearization {Loc}. Arguments contexts {Loc}.
