(** Programs made of several per-CPU data structures (as tests/param_test.c and
    tests/basic_percpu_ops_test.c are: every test allocates its counter, lock,
    list or buffer, and all run in one process).  Definitions only.

    A program is any client of the machine of RseqKernel.v.  [uses] says that
    it touches each of its structures only by running the code of that structure
    (ClientModel.v).  What else it does (other memory, its control flow, when it
    enters and leaves the code of a structure, how many structures it has) is
    left open. *)
From Coq Require Import ZArith Bool List.
From Verif Require Import RseqIR RseqSpec RseqKernel LinSpec ClientModel.
Import ListNotations.
Local Open Scope Z_scope.

(** The structures of tests/param_test.c: counters used through
    rseq_load_add_store() in any way (lines 577-609 are one way, [K_inc]),
    spinlocks with counters (431-467, 497-533), lists (685-751), buffers of
    pointers (887-958) and of records (1121-1201).  The arguments are those of
    the clients of ClientModel.v; [load] is what a racy plain load may return. *)
Inductive kind :=
  | K_nothing
  | K_count (cnt : Z -> Z) (inc : Z)
  | K_inc (cnt : Z -> Z)
  | K_lock (cnt lk : Z -> Z)
  | K_list (nodes : list Z) (hd : Z -> Z) (off : Z) (nodesz : nat) (slot : nat -> nat -> Z)
      (live : nat -> nat -> Prop) (load : mem -> Z -> Z -> Prop)
  | K_buf (ofs arr : Z -> Z) (buflen : Z -> nat) (load : mem -> Z -> Z -> Prop)
  | K_rec (ofs arr : Z -> Z) (buflen : Z -> nat) (reclen : nat) (arg out : nat -> nat -> Z)
      (live : nat -> nat -> Prop) (load : mem -> Z -> Z -> Prop).

(** Each structure is indexed by cpu_id or by mm_cid, over its own set of CPUs. *)
Record piece := { p_mode : imode; p_cpus : list Z; p_kind : kind }.

Definition kind_loc (k : kind) : Type :=
  match k with
  | K_nothing | K_count _ _ => unit
  | K_inc _ => inc_loc
  | K_lock _ _ => lock_loc
  | K_list _ _ _ _ _ _ _ => list_loc
  | K_buf _ _ _ _ => buf_loc
  | K_rec _ _ _ _ _ _ _ _ => rec_loc
  end.
Definition piece_loc (p : piece) : Type := kind_loc (p_kind p).

(** Code that calls rseq_load_add_store(&count[cpu], inc, cpu) at any time, from
    handlers too, and does nothing else. *)
Definition count_client (md : imode) (cpus : list Z) (cnt : Z -> Z) (inc : Z) : client unit :=
  {| cl_call := fun _ _ c => In (c_cpu c) cpus /\ c_mode c = md /\ c_op c = AddStore (cnt (c_cpu c)) inc;
     cl_ret := fun l _ _ => l;
     cl_write := fun _ _ _ _ => False;
     cl_tau := fun _ _ _ => False;
     cl_sig := fun _ _ => True;
     cl_done := fun _ => True |}.
Definition idle_client : client unit :=
  {| cl_call := fun _ _ _ => False;
     cl_ret := fun l _ _ => l;
     cl_write := fun _ _ _ _ => False;
     cl_tau := fun _ _ _ => False;
     cl_sig := fun _ _ => True;
     cl_done := fun _ => True |}.

(** The code of a structure. *)
Definition kind_client (g : cfg) (md : imode) (cpus : list Z) (k : kind) : client (kind_loc k) :=
  match k with
  | K_nothing => idle_client
  | K_count cnt inc => count_client md cpus cnt inc
  | K_inc cnt => inc_client md cpus cnt
  | K_lock cnt lk => lock_client g md cpus cnt lk
  | K_list nodes hd off nodesz slot live load => list_client_of g md cpus hd off nodesz slot live load
  | K_buf ofs arr buflen load => buf_client_of g md cpus load ofs arr buflen
  | K_rec ofs arr buflen reclen arg out live load => rec_client_of md cpus live load ofs arr buflen reclen arg out
  end.
Definition piece_client (g : cfg) (p : piece) : client (piece_loc p) :=
  kind_client g (p_mode p) (p_cpus p) (p_kind p).

(** The bytes a structure occupies: its per-CPU words and arrays, its nodes, and
    the local variables its code keeps on the stacks of the threads. *)
Definition piece_bytes (g : cfg) (p : piece) (a : Z) : Prop :=
  let cpu_word f := exists cpu, In cpu (p_cpus p) /\ In a (span (f cpu) (wsize g)) in
  match p_kind p with
  | K_nothing => False
  | K_count cnt _ | K_inc cnt => cpu_word cnt
  | K_lock cnt lk => cpu_word cnt \/ cpu_word lk
  | K_list nodes hd off nodesz slot live _ =>
      cpu_word hd \/ (exists n, In n nodes /\ In a (span n nodesz)) \/
      exists t d, live t d /\ In a (span (slot t d) (wsize g))
  | K_buf ofs arr buflen _ =>
      cpu_word ofs \/ exists cpu, In cpu (p_cpus p) /\ In a (span (arr cpu) (buflen cpu * wsize g))
  | K_rec ofs arr buflen reclen arg out live _ =>
      cpu_word ofs \/ (exists cpu, In cpu (p_cpus p) /\ In a (span (arr cpu) (buflen cpu * reclen))) \/
      exists t d, live t d /\ (In a (span (arg t d) reclen) \/ In a (span (out t d) reclen))
  end.

Section Program.
Variable Loc : Type.
Variable g : cfg.
Variable ps : nat -> piece.                       (* the structures of the program *)
Variable turn : Loc -> option nat.                (* whose code a context is in, if any *)
Variable view : forall i, Loc -> piece_loc (ps i).   (* its local state in the code of structure i *)

(** The program [P] touches structure [i] only by running its code. *)
Record uses (P : client Loc) : Prop := {
  u_call : forall l m c, cl_call _ P l m c ->
    exists i, turn l = Some i /\ cl_call _ (piece_client g (ps i)) (view i l) m c;
  u_ret : forall l c r i, turn l = Some i ->
    view i (cl_ret _ P l c r) = cl_ret _ (piece_client g (ps i)) (view i l) c r /\
    forall j, j <> i -> view j (cl_ret _ P l c r) = view j l;
  u_write : forall l m bs l', cl_write _ P l m bs l' ->
    (exists i, turn l = Some i /\ cl_write _ (piece_client g (ps i)) (view i l) m bs (view i l') /\
       forall j, j <> i -> view j l' = view j l) \/
    (turn l = None /\ (forall i a, In a (map fst bs) -> ~ piece_bytes g (ps i) a) /\ forall j, view j l' = view j l);
  u_tau : forall l m l', cl_tau _ P l m l' ->
    (exists i, turn l = Some i /\ cl_tau _ (piece_client g (ps i)) (view i l) m (view i l') /\
       forall j, j <> i -> view j l' = view j l) \/
    (forall j, view j l' = view j l);
  u_sig : forall l l', cl_sig _ P l l' -> forall i, cl_sig _ (piece_client g (ps i)) (view i l) (view i l');
  u_done : forall l, cl_done _ P l -> forall i, cl_done _ (piece_client g (ps i)) (view i l)
}.

(** Structure [i] in a state of the program: memory, and the contexts as the
    code of the structure sees them (in a helper call, if the call is one of its). *)
Definition mine (i : nat) (l : Loc) : bool := match turn l with Some j => Nat.eqb j i | None => false end.
Definition seen_ctx (i : nat) (x : ctx Loc) : ctx (piece_loc (ps i)) :=
  {| x_loc := view i (x_loc x); x_act := if mine i (x_loc x) then x_act x else None |}.
Definition seen (i : nat) (s : state Loc) : state (piece_loc (ps i)) :=
  {| s_mem := s_mem s;
     s_thr := fun t => {| t_area := t_area (s_thr s t); t_reg := t_reg (s_thr s t); t_on := t_on (s_thr s t);
                          t_ctx := map (seen_ctx i) (t_ctx (s_thr s t)); t_dead := t_dead (s_thr s t) |};
     s_loaded := s_loaded s |}.

(** The calls, returns and plain stores of the code of structure [i]. *)
Definition event_of (i : nat) (e : event Loc) : list (event (piece_loc (ps i))) :=
  match e with
  | Inv t l c m => if mine i l then [Inv t (view i l) c m] else []
  | Eff t l c m => if mine i l then [Eff t (view i l) c m] else []
  | Cmp t l c m => if mine i l then [Cmp t (view i l) c m] else []
  | Ret t l c r m => if mine i l then [Ret t (view i l) c r m] else []
  | Wrt t l bs m => if mine i l then [Wrt t (view i l) bs m] else []
  end.
Definition events_of (i : nat) (es : list (event Loc)) : list (event (piece_loc (ps i))) := flat_map (event_of i) es.
End Program.

Arguments uses {Loc}. Arguments mine {Loc}. Arguments seen_ctx {Loc}. Arguments seen {Loc}. Arguments event_of {Loc}. Arguments events_of {Loc}.
