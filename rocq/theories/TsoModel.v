(** The machine of RseqKernel.v on x86-TSO, with the expedited rseq membarrier as
    a system call of the threads, and the whole membarrier test of
    tests/param_test.c:1418-1627 (built on x86-64 only) as its client.
    Definitions only. *)
From Coq Require Import ZArith Bool List.
From Verif Require Import RseqIR RseqSpec RseqKernel BarrierSpec.
Import ListNotations.
Local Open Scope Z_scope.

Section Tso.
Variable Loc : Type.

(** [o_core]: the threads and the shared memory.  [o_buf t]: the stores thread
    [t] has executed and that the other processors do not see yet, oldest first.
    [o_mb t]: [Some d] while [t] is inside sys_membarrier(), where [d] says which
    CPUs the kernel has dealt with. *)
Record tso := { o_core : state Loc; o_buf : nat -> list (list (Z * Z)); o_mb : nat -> option (Z -> bool) }.

(** The memory thread [t] sees: a load takes the newest of its own pending
    stores to the address if there is one, else the shared memory. *)
Definition flush (m : mem) (b : list (list (Z * Z))) : mem := fold_left wr b m.
Definition sees (T : tso) (t : nat) : mem := flush (s_mem (o_core T)) (o_buf T t).

Definition wrote (l : clabel) : list (list (Z * Z)) := match l with Lwr _ ps => [ps] | _ => [] end.
Definition upd {A} (f : nat -> A) (t : nat) (a : A) : nat -> A := fun u => if Nat.eqb u t then a else f u.

(** One step.  [ask l] = [Some (D, l')]: at [l] the program calls
    sys_membarrier(MEMBARRIER_CMD_PRIVATE_EXPEDITED_RSEQ) for the CPUs in [D] and
    goes on at [l'] when it returns 0 or fails with ENXIO (no such CPU).

    - [O_step]: thread [t] does a step of RseqKernel.v on the memory it sees; a
      store goes to its buffer.  It leaves its CPU only with an empty buffer:
      the processor drains it on interrupts, exceptions and serialising
      instructions, and the scheduler has a full barrier.  Calls are made as in
      [exec] (see [call_ok]).
    - [O_drain]: the oldest pending store of [t] reaches the shared memory.
    - [O_enter]: entry of sys_membarrier(), which is a full barrier.
    - [O_ipi]: the kernel deals with [cpu] for [t]: the thread that runs there,
      if there is one, is interrupted (a full barrier) and its critical section
      is restarted.
    - [O_idle]: the kernel sees that no thread of the process runs on the CPUs
      [S].
    - [O_exit]: sys_membarrier() returns when all CPUs in [D] were dealt with.

    Simplification: an instruction that adds to memory is one step. *)
Inductive ostep (g : cfg) (tx : text) (cl : client Loc) (ask : Loc -> option ((Z -> Prop) * Loc)) : tso -> tso -> Prop :=
  | O_step : forall T t l s',
      step g tx cl (set_m (o_core T) (sees T t)) l s' ->
      (forall u, u <> t -> s_thr s' u = s_thr (o_core T) u) ->
      (forall u ps, l = Lwr u ps -> u = t) ->
      (t_on (s_thr s' t) <> t_on (s_thr (o_core T) t) -> o_buf T t = []) ->
      call_ok (o_core T) l ->
      ostep g tx cl ask T
        {| o_core := set_m s' (s_mem (o_core T)); o_buf := upd (o_buf T) t (o_buf T t ++ wrote l); o_mb := o_mb T |}
  | O_drain : forall T t ps b,
      o_buf T t = ps :: b ->
      ostep g tx cl ask T
        {| o_core := set_m (o_core T) (wr (s_mem (o_core T)) ps); o_buf := upd (o_buf T) t b; o_mb := o_mb T |}
  | O_enter : forall T t l k D l',
      running (s_thr (o_core T) t) ->
      t_ctx (s_thr (o_core T) t) = {| x_loc := l; x_act := None |} :: k ->
      ask l = Some (D, l') -> o_mb T t = None -> o_buf T t = [] ->
      ostep g tx cl ask T {| o_core := o_core T; o_buf := o_buf T; o_mb := upd (o_mb T) t (Some (fun _ => false)) |}
  | O_ipi : forall T t d cpu u cid,
      o_mb T t = Some d ->
      t_on (s_thr (o_core T) u) = Some (cpu, cid) -> t_dead (s_thr (o_core T) u) = false ->
      o_buf T u = [] ->
      ostep g tx cl ask T
        {| o_core := set_t (o_core T) u (fixup tx (s_loaded (o_core T)) (s_thr (o_core T) u));
           o_buf := o_buf T; o_mb := upd (o_mb T) t (Some (fun c => (c =? cpu) || d c)) |}
  | O_idle : forall T t d (I : Z -> bool),
      o_mb T t = Some d ->
      (forall c u cid, I c = true -> t_on (s_thr (o_core T) u) <> Some (c, cid)) ->
      ostep g tx cl ask T
        {| o_core := o_core T; o_buf := o_buf T; o_mb := upd (o_mb T) t (Some (fun c => I c || d c)) |}
  | O_exit : forall T t l k D l' d,
      running (s_thr (o_core T) t) ->
      t_ctx (s_thr (o_core T) t) = {| x_loc := l; x_act := None |} :: k ->
      ask l = Some (D, l') -> o_mb T t = Some d -> (forall c, D c -> d c = true) ->
      ostep g tx cl ask T
        {| o_core := set_t (o_core T) t (set_ctx (s_thr (o_core T) t) ({| x_loc := l'; x_act := None |} :: k));
           o_buf := o_buf T; o_mb := upd (o_mb T) t None |}.

Inductive oruns (g : cfg) (tx : text) (cl : client Loc) (ask : Loc -> option ((Z -> Prop) * Loc)) : tso -> tso -> Prop :=
  | or_nil : forall T, oruns g tx cl ask T T
  | or_step : forall T T' T'', oruns g tx cl ask T T' -> ostep g tx cl ask T' T'' -> oruns g tx cl ask T T''.
End Tso.

Arguments o_core {Loc}. Arguments o_buf {Loc}. Arguments o_mb {Loc}.
Arguments sees {Loc}. Arguments ostep {Loc}. Arguments oruns {Loc}.

(** ** The membarrier test *)

(** Worker (1418-1453): [Tread n]: [n] iterations to go, about to read the
    current cpu number or mm_cid; [Tcall n cpu]: about to call the helper, or in
    it.  Manager (1557-1601), where [a] = true when list_a is "active": [Mcheck a
    cpu e]: about to compare [e] (expect_b or expect_a) with the counter of the
    inactive list for [cpu] (1564, 1587); [Mstore a cpu]: about to make the other
    list active (1570, 1593), with [cpu] just drawn (1559, 1582); [Mwait a cpu]: in
    rseq_membarrier_expedited(cpu) (1571, 1594); [Mread a cpu]: about to read the
    counter (1580, 1600); [Mend]: out of the loop (1557); [Mfailed]: "Membarrier
    test failed" (1565, 1588). *)
Inductive mt_loc :=
  | Tread (n : nat) | Tcall (n : nat) (cpu : Z)
  | Mcheck (a : bool) (cpu e : Z) | Mstore (a : bool) (cpu : Z) | Mwait (a : bool) (cpu : Z) | Mread (a : bool) (cpu : Z)
  | Mend | Mfailed.

(** rseq_percpu_ptr(list, cpu)->head->data (1564, 1580, 1587, 1600). *)
Definition counter (g : cfg) (L : layout) (m : mem) (b cpu : Z) : Z := ldw g m (ldw g m (wrap g (b + field L cpu))).

(** [la], [lb]: list_a and list_b.  The run begins when they are initialised and
    list_a is published (1547-1555).  Simplifications: get_current_cpu_id() may
    give any number in range, which the helper then checks; the manager may
    leave the loop at any time; the two loads of [counter] are one step. *)
Definition mt_client (g : cfg) (md : imode) (L : layout) (la lb : Z) : client mt_loc :=
  {| cl_call := fun l _ c => exists n cpu code, l = Tcall (S n) cpu /\ 0 <= cpu < ncpus L /\
       c = {| c_code := code; c_op := AddLoadLoadAddStore (ptr L) (field L cpu) 1; c_cpu := cpu; c_mode := md |};
     cl_ret := fun l _ r => match l with
       | Tcall (S n) _ => if r =? 0 then Tread n else Tread (S n)
       | l => l end;
     cl_write := fun l _ ps l' => exists a cpu, l = Mstore a cpu /\
       ps = stw g (ptr L) (if a then lb else la) /\ l' = Mwait (negb a) cpu;
     cl_tau := fun l m l' => match l with
       | Tread (S n) => exists cpu, 0 <= cpu < ncpus L /\ l' = Tcall (S n) cpu
       | Mcheck a cpu e =>
           (a = true /\ l' = Mend) \/
           if e =? counter g L m (if a then lb else la) cpu
           then exists cpu', 0 <= cpu' < ncpus L /\ l' = Mstore a cpu'
           else l' = Mfailed
       | Mread a cpu => l' = Mcheck a cpu (counter g L m (if a then lb else la) cpu)
       | _ => False
       end;
     cl_sig := fun _ l' => l' = Tread 0;
     cl_done := fun l => l = Tread 0 |}.

(** rseq_membarrier_expedited(): on one CPU in the cpu_id build (365-367), on all
    in the mm_cid build (341-347). *)
Definition mb_target (md : imode) (cpu c : Z) : Prop := match md with CPU_ID => c = cpu | MM_CID => True end.
Definition mt_ask (md : imode) (l : mt_loc) : option ((Z -> Prop) * mt_loc) :=
  match l with Mwait a cpu => Some (mb_target md cpu, Mread a cpu) | _ => None end.
