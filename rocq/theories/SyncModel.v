(** The machine of ViewModel.v with release stores and acquire fences.
    Definitions only.

    ViewModel.v has no way for client code to order its accesses, so locks cannot
    be studied there.  This machine adds what the locking code of the tests relies
    on (rseq_this_cpu_lock() and rseq_percpu_unlock(), tests/param_test.c:431-467,
    tests/basic_percpu_ops_test.c:82-112):
    - a store may be a store-release (rseq_smp_store_release(),
      include/rseq/arch/*.h): the store carries
      the view of the storing thread with it, the stores that are ordered before it;
    - a load that returns such a store obtains that view, but only an acquire fence
      (rseq_smp_acquire__after_ctrl_dep()) executed later makes the thread use it;
    - the loads of the helpers are coherent: after a thread has read a store to a
      byte it, and by the context switches whoever runs on the same CPU later, will
      not read an older one.
    Everything else is as in ViewModel.v, plain loads of client code included:
    they return any store not older than the view and do not change the view. *)
From Coq Require Import ZArith Bool List.
From Verif Require Import RseqIR RseqSpec RseqKernel ClientModel ViewModel.
Import ListNotations.
Local Open Scope Z_scope.
Local Arguments s_thr {Loc}. Local Arguments s_mem {Loc}. Local Arguments s_loaded {Loc}.
Local Arguments t_on {Loc}. Local Arguments t_ctx {Loc}. Local Arguments t_area {Loc}.
Local Arguments x_loc {Loc}. Local Arguments x_act {Loc}.
Local Arguments set_m {Loc}. Local Arguments step {Loc}. Local Arguments call_ok {Loc}.

Section Sync.
Variable Loc : Type.
Variable g : cfg.
Variable tx : text.
Variable cl : client Loc.
(** Which plain stores of client code are release stores, and after which helper
    returns client code executes an acquire fence: by the local state of the
    context before the step (and the call and its result). *)
Variable rel : Loc -> bool.
Variable acq : Loc -> call -> Z -> bool.

(** [c_w]: as in ViewModel.v.  [c_got]: per thread, the views obtained by loads and
    not yet in use.  [c_msg]: the view that a store, given by byte and time stamp,
    carries. *)
Record cstate := {
  c_w : wstate Loc;
  c_got : nat -> view;
  c_msg : Z -> nat -> view }.

(** The bytes that the step of [t] from [s] to [s'] loads in a helper: those of
    the next instruction of the helper [t] is in, if [s'] is behind it. *)
Definition loads (s : state Loc) (m : mem) (t : nat) (s' : state Loc) : list Z :=
  match t_ctx (s_thr s t), t_ctx (s_thr s' t) with
  | x :: _, x' :: _ =>
    match x_act x, x_act x' with
    | Some f, Some f' =>
      match tx (c_code (f_call f)) with
      | Some (P, _) =>
        match istep g P m (index (t_area (s_thr s t)) (pmode P)) (f_pc f) (f_rs f) with
        | Some (pc', _, _, rd) => if Nat.eqb (f_pc f') pc' then rd else []
        | None => []
        end
      | None => []
      end
    | _, _ => []
    end
  | _, _ => []
  end.

Definition releases (s : state Loc) (l : clabel) : bool :=
  match l with
  | Lwr t _ => match t_ctx (s_thr s t) with
      | x :: _ => match x_act x with None => rel (x_loc x) | Some _ => false end
      | [] => false end
  | _ => false
  end.
Definition acquires (s : state Loc) (l : clabel) : bool :=
  match l with
  | Lret t c r => match t_ctx (s_thr s t) with x :: _ => acq (x_loc x) c r | [] => false end
  | _ => false
  end.

(** The view of a thread after it loaded the bytes [rd] from the stores with the
    time stamps [ix], and the views it has obtained then. *)
Definition view_read (rd : list Z) (ix : Z -> nat) (v : view) : view :=
  fun x => if existsb (Z.eqb x) rd then Nat.max (v x) (ix x) else v x.
Definition got_read (msg : Z -> nat -> view) (rd : list Z) (ix : Z -> nat) (p : view) : view :=
  fun y => fold_right (fun x n => Nat.max (msg x (ix x) y) n) (p y) rd.

(** New stores carry [v] if they are release stores and nothing otherwise. *)
Definition carry (r : bool) (v : view) (h : Z -> list (nat * Z)) (msg : Z -> nat -> view) : Z -> nat -> view :=
  fun x i => if existsb (fun e => Nat.eqb (fst e) i) (h x) then msg x i
             else if r then v else fun _ => 0%nat.

(** One step of thread [t], with memory [m] made of the stores with time stamps
    [ix]. *)
Inductive cstep : cstate -> clabel -> cstate -> Prop :=
  | C_step : forall C t m ix l s' h' v',
      let W := c_w C in
      let rd := loads (w_core W) m t s' in
      let v1 := view_read rd ix (w_thr W t) in
      let p1 := got_read (c_msg C) rd ix (c_got C t) in
      let on := t_on (s_thr (w_core W) t) in
      let on' := t_on (s_thr s' t) in
      let va := if acquires (w_core W) l then join v' p1 else v' in
      (forall x, In (ix x, m x) (w_hist W x) /\ (w_thr W t x <= ix x)%nat) ->
      step g tx cl (set_m (w_core W) m) l s' ->
      acts t (w_core W) l s' ->
      stores (wrote l) (w_hist W) v1 h' v' ->
      cstep C l
        {| c_w := {| w_core := s'; w_hist := h';
                     w_thr := fun u => if Nat.eqb u t then arrive W on on' va else w_thr W u;
                     w_cpu := leave_cpu W on on' (join v' p1);
                     w_cid := leave_cid W on on' (join v' p1) |};
           c_got := fun u => if Nat.eqb u t then p1 else c_got C u;
           c_msg := carry (releases (w_core W) l) v1 (w_hist W) (c_msg C) |}.

Inductive cpath : cstate -> list (state Loc * clabel) -> cstate -> Prop :=
  | cpath_nil : forall C, cpath C [] C
  | cpath_snoc : forall C tr C' l C'', cpath C tr C' -> cstep C' l C'' ->
      call_ok (w_core (c_w C')) l -> cpath C (tr ++ [(w_core (c_w C'), l)]) C''.

Definition sync_start (s : state Loc) : cstate :=
  {| c_w := wstart s; c_got := fun _ _ => 0%nat; c_msg := fun _ _ _ => 0%nat |}.
End Sync.
Arguments c_w {Loc}. Arguments c_got {Loc}. Arguments c_msg {Loc}.
Arguments loads {Loc}. Arguments releases {Loc}. Arguments acquires {Loc}.
Arguments cstep {Loc}. Arguments cpath {Loc}. Arguments sync_start {Loc}.

(** The lock of the tests.  rseq_percpu_unlock() releases with
    rseq_smp_store_release(), tests/param_test.c:466. *)
Definition lock_rel (l : lock_loc) : bool := match l with Lk_release _ _ => true | _ => false end.
(** rseq_this_cpu_lock() executes rseq_smp_acquire__after_ctrl_dep() when the helper
    has returned 0, tests/param_test.c:447-455. *)
Definition lock_acq (l : lock_loc) (_ : call) (r : Z) : bool :=
  match l with Lk_try _ _ => r =? 0 | _ => false end.
