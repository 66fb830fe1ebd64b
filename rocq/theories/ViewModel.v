(** The machine of RseqKernel.v on weakly ordered memory.  Definitions only.

    Memory is no longer one value per byte: every byte has a set of stores that
    were made to it, each with a time stamp, and every thread has a view, the
    oldest store to each byte it may still read.  A load may return any store
    that is not older than the view, so different threads may see different
    values, and a thread may see stores of another thread in an order that is not
    the program order.  A store gets any unused time stamp above the storing
    thread's view: the stores to one byte are totally ordered (cache coherence),
    and a thread sees its own stores.  Loads do not change the view, so not even
    two loads of the same byte by one thread are ordered; loads of several bytes
    may be torn.

    The only thing that orders the accesses of different threads is the kernel:
    the context switch away from a CPU, and the one that gives the CPU to another
    thread of the process later, are memory barriers on that CPU, and likewise for
    the hand-over of an mm_cid (the kernel does a full barrier in
    context_switch() / finish_task_switch(), see the ordering comments that
    include/rseq/ relies on by documenting that the per-CPU data is only accessed
    by the thread currently running on that CPU; membarrier() and the locks of
    client code are not used here).

    Restriction: a load only returns a store that has already been made (no load
    buffering), and registers, signals, rseq areas and the scheduler stay as they
    are in RseqKernel.v. *)
From Coq Require Import ZArith Bool List.
From Verif Require Import RseqIR RseqSpec RseqKernel.
Import ListNotations.
Local Open Scope Z_scope.
Local Arguments s_thr {Loc}. Local Arguments s_mem {Loc}. Local Arguments s_loaded {Loc}.
Local Arguments t_on {Loc}. Local Arguments set_m {Loc}. Local Arguments step {Loc}. Local Arguments call_ok {Loc}.

(** Per byte: the oldest time stamp that may still be read. *)
Definition view := Z -> nat.
Definition join (v w : view) : view := fun x => Nat.max (v x) (w x).

Section Weak.
Variable Loc : Type.

(** [w_core]: threads, rseq areas, loaded code, as in RseqKernel.v; its memory
    component is not used.  [w_hist]: the stores made to each byte.  [w_thr]: the
    views of the threads.  [w_cpu], [w_cid]: the view the last switch away from a
    CPU, or from an mm_cid, left there. *)
Record wstate := {
  w_core : state Loc;
  w_hist : Z -> list (nat * Z);
  w_thr : nat -> view;
  w_cpu : Z -> view;
  w_cid : Z -> view }.

(** [m] is a memory that thread [t] may see: for every byte, one of the stores
    made to it, not older than the view of [t]. *)
Definition sees (W : wstate) (t : nat) (m : mem) : Prop :=
  forall x, exists i, In (i, m x) (w_hist W x) /\ (w_thr W t x <= i)%nat.

(** Stores of the bytes [ps], in order, by a thread with view [v]. *)
Inductive stores : list (Z * Z) -> (Z -> list (nat * Z)) -> view -> (Z -> list (nat * Z)) -> view -> Prop :=
  | stores_nil : forall h v, stores [] h v h v
  | stores_cons : forall x b ps h v i h' v',
      (v x < i)%nat -> (forall c, ~ In (i, c) (h x)) ->
      stores ps (fun y => if y =? x then (i, b) :: h y else h y) (fun y => if y =? x then i else v y) h' v' ->
      stores ((x, b) :: ps) h v h' v'.

(** The bytes a step stores. *)
Definition wrote (l : clabel) : list (Z * Z) := match l with Lwr _ ps => ps | _ => [] end.

(** The step from [s] to [s'] is one of thread [t], or of the kernel on behalf of
    [t]: no other thread changes, and if it has a label the label names [t].
    Steps that change nothing at all are left out. *)
Definition acts (t : nat) (s : state Loc) (l : clabel) (s' : state Loc) : Prop :=
  (forall u, u <> t -> s_thr s' u = s_thr s u) /\
  match l with
  | Ltau => s_thr s' t <> s_thr s t \/ exists id, s_loaded s' id <> s_loaded s id
  | Lcall u _ | Lret u _ _ | Lwr u _ | Lbug u => u = t
  end.

(** Views after a step of [t] that takes it from [o] to [o'] (CPU and mm_cid, if
    it runs): when it stops running its view is left at the CPU and at the
    mm_cid; when it starts running it picks up what was left there. *)
Definition arrive (W : wstate) (o o' : option (Z * Z)) (v : view) : view :=
  match o, o' with
  | None, Some (cpu, cid) => join v (join (w_cpu W cpu) (w_cid W cid))
  | _, _ => v
  end.
Definition leave_cpu (W : wstate) (o o' : option (Z * Z)) (v : view) : Z -> view :=
  match o, o' with
  | Some (cpu, _), None => fun c => if c =? cpu then join (w_cpu W c) v else w_cpu W c
  | _, _ => w_cpu W
  end.
Definition leave_cid (W : wstate) (o o' : option (Z * Z)) (v : view) : Z -> view :=
  match o, o' with
  | Some (_, cid), None => fun c => if c =? cid then join (w_cid W c) v else w_cid W c
  | _, _ => w_cid W
  end.

(** One step: thread [t] takes a step of the machine of RseqKernel.v on a memory
    [m] it may see; what the step stores is added to the stores of the bytes. *)
Inductive wstep (g : cfg) (tx : text) (cl : client Loc) : wstate -> clabel -> wstate -> Prop :=
  | W_step : forall W t m l s' h' v',
      sees W t m ->
      step g tx cl (set_m (w_core W) m) l s' ->
      acts t (w_core W) l s' ->
      stores (wrote l) (w_hist W) (w_thr W t) h' v' ->
      wstep g tx cl W l
        {| w_core := s'; w_hist := h';
           w_thr := fun u => if Nat.eqb u t
                             then arrive W (t_on (s_thr (w_core W) t)) (t_on (s_thr s' t)) v'
                             else w_thr W u;
           w_cpu := leave_cpu W (t_on (s_thr (w_core W) t)) (t_on (s_thr s' t)) v';
           w_cid := leave_cid W (t_on (s_thr (w_core W) t)) (t_on (s_thr s' t)) v' |}.

(** Runs, with the thread part of the state before each step. *)
Inductive wpath (g : cfg) (tx : text) (cl : client Loc) : wstate -> list (state Loc * clabel) -> wstate -> Prop :=
  | wpath_nil : forall W, wpath g tx cl W [] W
  | wpath_snoc : forall W tr W' l W'', wpath g tx cl W tr W' -> wstep g tx cl W' l W'' ->
      call_ok (w_core W') l -> wpath g tx cl W (tr ++ [(w_core W', l)]) W''.

(** The start: the initial memory is the only store to each byte. *)
Definition wstart (s : state Loc) : wstate :=
  {| w_core := s; w_hist := fun x => [(0%nat, s_mem s x)];
     w_thr := fun _ _ => 0%nat; w_cpu := fun _ _ => 0%nat; w_cid := fun _ _ => 0%nat |}.
End Weak.
Arguments w_core {Loc}. Arguments w_hist {Loc}. Arguments w_thr {Loc}. Arguments w_cpu {Loc}. Arguments w_cid {Loc}.
Arguments sees {Loc}. Arguments acts {Loc}. Arguments arrive {Loc}. Arguments leave_cpu {Loc}. Arguments leave_cid {Loc}.
Arguments wstep {Loc}. Arguments wpath {Loc}. Arguments wstart {Loc}.
