(** Concrete machine: threads executing the instruction sequences of the
    helpers, and the kernel side of restartable sequences as documented in
    doc/man/rseq.2 and include/rseq/abi.h.  Definitions only.

    Simplifications:
    - sequentially consistent shared memory (see WeakModel.v for ordering);
    - the kernel fix-up is performed in one step when a thread is resumed, when
      a signal is delivered, or at any other return to user mode (S_ipi);
    - a thread (un)registers only while it runs no helper and no signal handler. *)
From Coq Require Import ZArith Bool List.
From Verif Require Import RseqIR RseqSpec.
Import ListNotations.
Local Open Scope Z_scope.

(** Kind of helper an instruction sequence implements. *)
Inductive kind := KCbneStore | KAddStore | KPop | KAddLoadLoad | KCbne2 | KStoreStore | KMemcpy.
Definition kind_of (op : opcall) : kind :=
  match op with
  | CbneStore _ _ _ => KCbneStore | AddStore _ _ => KAddStore
  | CbeqStoreAddLoadStore _ _ _ _ => KPop | AddLoadLoadAddStore _ _ _ => KAddLoadLoad
  | CbneLoadCbneStore _ _ _ _ _ => KCbne2 | CbneStoreStore _ _ _ _ _ => KStoreStore
  | CbneMemcpyStore _ _ _ _ _ _ => KMemcpy
  end.

(** Text segment: the instruction sequences present in the program, each
    instance with an identity (its address). *)
Definition text := nat -> option (program * kind).

(** Value of the input operands of the asm statement of a call; the cpu argument
    is compared as a 32-bit quantity. *)
Definition arg (c : call) (r : reg) : option Z :=
  match r with
  | Rcpu => Some (c_cpu c mod 2 ^ 32)
  | _ =>
    match c_op c with
    | CbneStore v expect newv =>
        match r with Rv => Some v | Rexpect => Some expect | Rnewv => Some newv | _ => None end
    | AddStore v count => match r with Rv => Some v | Rcount => Some count | _ => None end
    | CbeqStoreAddLoadStore v expectnot voffp load =>
        match r with Rv => Some v | Rexpectnot => Some expectnot | Rvoffp => Some voffp
                   | Rload => Some load | _ => None end
    | AddLoadLoadAddStore ptr off inc =>
        match r with Rptr => Some ptr | Roff => Some off | Rinc => Some inc | _ => None end
    | CbneLoadCbneStore v expect v2 expect2 newv =>
        match r with Rv => Some v | Rexpect => Some expect | Rv2 => Some v2
                   | Rexpect2 => Some expect2 | Rnewv => Some newv | _ => None end
    | CbneStoreStore v expect v2 newv2 newv =>
        match r with Rv => Some v | Rexpect => Some expect | Rv2 => Some v2
                   | Rnewv2 => Some newv2 | Rnewv => Some newv | _ => None end
    | CbneMemcpyStore v expect dst src len newv =>
        match r with Rv => Some v | Rexpect => Some expect | Rdst => Some dst | Rsrc => Some src
                   | Rlen => Some (Z.of_nat len) | Rnewv => Some newv | _ => None end
    end
  end.

(** Registers at the start of the asm statement: the operands, and whatever
    [junk] the other registers hold. *)
Definition init_regs (c : call) (junk : regs) : regs :=
  fun r => match arg c r with Some z => z | None => junk r end.

(** A helper run with no interruption and no other thread, from instruction
    [pc] and registers [rs]: the value it returns and the final memory.  [None]
    if it does not return within [fuel] instructions, or ends in rseq_bug(). *)
Fixpoint run_alone (g : cfg) (P : program) (idx : Z) (fuel : nat) (m : mem) (pc : nat) (rs : regs)
  : option (Z * mem) :=
  match fuel with
  | O => None
  | S n =>
    match istep g P m idx pc rs with
    | Some (pc', rs', EWr ps, _) => run_alone g P idx n (wr m ps) pc' rs'
    | Some (_, _, EExit x, _) =>
        match exit_ret x with Some r => Some (r, m) | None => None end
    | Some (pc', rs', _, _) => run_alone g P idx n m pc' rs'
    | None => None
    end
  end.

Record frame := { f_call : call; f_pc : nat; f_rs : regs }.

Section Machine.
Variable Loc : Type.

Record ctx := { x_loc : Loc; x_act : option frame }.

(** Per-thread rseq area (include/rseq/abi.h:66-178), the fields used by the
    helpers; unsigned 32-bit. *)
Record area := { rseq_cs : option nat; cpu_field : Z; cid_field : Z }.

(** [t_on]: the CPU and mm_cid the thread currently runs with, if it runs. *)
Record thread := {
  t_area : area; t_reg : bool; t_on : option (Z * Z); t_ctx : list ctx; t_dead : bool }.

Record state := { s_mem : mem; s_thr : nat -> thread; s_loaded : nat -> bool }.

Definition index (a : area) (md : imode) : Z :=
  match md with CPU_ID => cpu_field a | MM_CID => cid_field a end.

Definition set_area (th : thread) (a : area) : thread :=
  {| t_area := a; t_reg := t_reg th; t_on := t_on th; t_ctx := t_ctx th; t_dead := t_dead th |}.
Definition set_cs (th : thread) (o : option nat) : thread :=
  set_area th {| rseq_cs := o; cpu_field := cpu_field (t_area th); cid_field := cid_field (t_area th) |}.
Definition set_ctx (th : thread) (k : list ctx) : thread :=
  {| t_area := t_area th; t_reg := t_reg th; t_on := t_on th; t_ctx := k; t_dead := t_dead th |}.
Definition set_on (th : thread) (o : option (Z * Z)) : thread :=
  {| t_area := t_area th; t_reg := t_reg th; t_on := o; t_ctx := t_ctx th; t_dead := t_dead th |}.
Definition kill (th : thread) : thread :=
  {| t_area := t_area th; t_reg := t_reg th; t_on := None; t_ctx := t_ctx th; t_dead := true |}.

Definition set_t (s : state) (t : nat) (th : thread) : state :=
  {| s_mem := s_mem s; s_thr := fun u => if Nat.eqb u t then th else s_thr s u;
     s_loaded := s_loaded s |}.
Definition set_m (s : state) (m : mem) : state :=
  {| s_mem := m; s_thr := s_thr s; s_loaded := s_loaded s |}.

(** doc/man/rseq.2 (rseq_cs): the descriptor is valid when the abort address
    lies outside of the critical section and the four bytes before it are the
    signature given at registration. *)
Definition desc_ok (P : program) : bool :=
  negb (Nat.leb (cs_start P) (cs_abort P) && Nat.ltb (cs_abort P) (cs_commit P)) &&
  Nat.ltb (cs_start P) (cs_commit P) &&
  match cs_abort P with
  | O => false
  | S a => match nth_error (code P) a with Some ISig => true | _ => false end
  end.

Definition in_cs (P : program) (pc : nat) : bool :=
  Nat.leb (cs_start P) pc && Nat.ltb pc (cs_commit P).

(** Kernel fix-up on return to user mode, doc/man/rseq.2: if rseq_cs is set and
    the instruction pointer is inside the critical section, move it to the abort
    handler; in both cases clear rseq_cs.  An invalid or unreadable descriptor
    kills the thread (SIGSEGV). *)
Definition fixup (tx : text) (loaded : nat -> bool) (th : thread) : thread :=
  if negb (t_reg th) then th
  else
  match rseq_cs (t_area th) with
  | None => th
  | Some id =>
    match (if loaded id then tx id else None) with
    | None => kill th
    | Some (P, _) =>
      if negb (desc_ok P) then kill th
      else
        let th' := set_cs th None in
        match t_ctx th with
        | {| x_loc := l; x_act := Some f |} :: k =>
            if Nat.eqb (c_code (f_call f)) id && in_cs P (f_pc f)
            then set_ctx th'
                   ({| x_loc := l;
                       x_act := Some {| f_call := f_call f; f_pc := cs_abort P; f_rs := f_rs f |} |} :: k)
            else th'
        | _ => th'
        end
    end
  end.

(** Observable labels. *)
Inductive clabel :=
  | Ltau | Lcall (t : nat) (c : call) | Lret (t : nat) (c : call) (r : Z)
  | Lwr (t : nat) (ps : list (Z * Z)) | Lbug (t : nat).

Definition running (th : thread) : Prop := t_on th <> None /\ t_dead th = false.

(** No other thread runs on that CPU or with that mm_cid. *)
Definition cpu_free (s : state) (t : nat) (cpu cid : Z) : Prop :=
  forall u c d, u <> t -> t_on (s_thr s u) = Some (c, d) -> c <> cpu /\ d <> cid.

(** Frames of a thread that execute in code instance [id]. *)
Definition in_code (id : nat) (x : ctx) : Prop :=
  exists f, x_act x = Some f /\ c_code (f_call f) = id.

Inductive step (g : cfg) (tx : text) (cl : client Loc) : state -> clabel -> state -> Prop :=
  (* -- user mode: one instruction of the innermost helper call -- *)
  | S_instr : forall s t l k f P kd pc' rs' e rd,
      running (s_thr s t) ->
      t_ctx (s_thr s t) = {| x_loc := l; x_act := Some f |} :: k ->
      tx (c_code (f_call f)) = Some (P, kd) -> s_loaded s (c_code (f_call f)) = true ->
      istep g P (s_mem s) (index (t_area (s_thr s t)) (pmode P)) (f_pc f) (f_rs f)
        = Some (pc', rs', e, rd) ->
      e = ENone \/ e = ECs ->
      step g tx cl s Ltau
        (set_t s t
          (set_ctx (match e with ECs => set_cs (s_thr s t) (Some (c_code (f_call f)))
                               | _ => s_thr s t end)
             ({| x_loc := l; x_act := Some {| f_call := f_call f; f_pc := pc'; f_rs := rs' |} |} :: k)))
  | S_store : forall s t l k f P kd pc' rs' ps rd,
      running (s_thr s t) ->
      t_ctx (s_thr s t) = {| x_loc := l; x_act := Some f |} :: k ->
      tx (c_code (f_call f)) = Some (P, kd) -> s_loaded s (c_code (f_call f)) = true ->
      istep g P (s_mem s) (index (t_area (s_thr s t)) (pmode P)) (f_pc f) (f_rs f)
        = Some (pc', rs', EWr ps, rd) ->
      step g tx cl s (Lwr t ps)
        (set_m
          (set_t s t
            (set_ctx (s_thr s t)
               ({| x_loc := l; x_act := Some {| f_call := f_call f; f_pc := pc'; f_rs := rs' |} |} :: k)))
          (wr (s_mem s) ps))
  | S_return : forall s t l k f P kd pc' rs' x rd r,
      running (s_thr s t) ->
      t_ctx (s_thr s t) = {| x_loc := l; x_act := Some f |} :: k ->
      tx (c_code (f_call f)) = Some (P, kd) -> s_loaded s (c_code (f_call f)) = true ->
      istep g P (s_mem s) (index (t_area (s_thr s t)) (pmode P)) (f_pc f) (f_rs f)
        = Some (pc', rs', EExit x, rd) ->
      exit_ret x = Some r ->
      step g tx cl s (Lret t (f_call f) r)
        (set_t s t (set_ctx (s_thr s t)
           ({| x_loc := cl_ret _ cl l (f_call f) r; x_act := None |} :: k)))
  | S_bug : forall s t l k f P kd pc' rs' x rd,
      running (s_thr s t) ->
      t_ctx (s_thr s t) = {| x_loc := l; x_act := Some f |} :: k ->
      tx (c_code (f_call f)) = Some (P, kd) -> s_loaded s (c_code (f_call f)) = true ->
      istep g P (s_mem s) (index (t_area (s_thr s t)) (pmode P)) (f_pc f) (f_rs f)
        = Some (pc', rs', EExit x, rd) ->
      exit_ret x = None ->
      step g tx cl s (Lbug t) (set_t s t (kill (s_thr s t)))
  (* -- user mode: client code -- *)
  | S_call : forall s t l k c P kd junk,
      running (s_thr s t) ->
      t_ctx (s_thr s t) = {| x_loc := l; x_act := None |} :: k ->
      cl_call _ cl l (s_mem s) c ->
      tx (c_code c) = Some (P, kd) -> s_loaded s (c_code c) = true ->
      kd = kind_of (c_op c) -> pmode P = c_mode c ->
      - 2 ^ 31 <= c_cpu c < 2 ^ 31 ->
      step g tx cl s (Lcall t c)
        (set_t s t (set_ctx (s_thr s t)
          ({| x_loc := l; x_act := Some {| f_call := c; f_pc := 0; f_rs := init_regs c junk |} |} :: k)))
  | S_write : forall s t l k ps l',
      running (s_thr s t) ->
      t_ctx (s_thr s t) = {| x_loc := l; x_act := None |} :: k ->
      cl_write _ cl l (s_mem s) ps l' ->
      step g tx cl s (Lwr t ps)
        (set_m (set_t s t (set_ctx (s_thr s t) ({| x_loc := l'; x_act := None |} :: k)))
           (wr (s_mem s) ps))
  | S_local : forall s t l k l',
      running (s_thr s t) ->
      t_ctx (s_thr s t) = {| x_loc := l; x_act := None |} :: k ->
      cl_tau _ cl l (s_mem s) l' ->
      step g tx cl s Ltau
        (set_t s t (set_ctx (s_thr s t) ({| x_loc := l'; x_act := None |} :: k)))
  (* rseq_clear_rseq_cs() / rseq_prepare_unload(), include/rseq/rseq.h:210-231 *)
  | S_clear_cs : forall s t l k,
      running (s_thr s t) ->
      t_ctx (s_thr s t) = {| x_loc := l; x_act := None |} :: k ->
      step g tx cl s Ltau (set_t s t (set_cs (s_thr s t) None))
  (* unloading a code instance that no thread is executing *)
  | S_unload : forall s id,
      (forall t x, In x (t_ctx (s_thr s t)) -> ~ in_code id x) ->
      step g tx cl s Ltau
        {| s_mem := s_mem s; s_thr := s_thr s;
           s_loaded := fun i => if Nat.eqb i id then false else s_loaded s i |}
  (* -- kernel -- *)
  | S_preempt : forall s t,
      running (s_thr s t) ->
      step g tx cl s Ltau (set_t s t (set_on (s_thr s t) None))
  | S_resume : forall s t cpu cid,
      t_on (s_thr s t) = None -> t_dead (s_thr s t) = false ->
      0 <= cpu < 2 ^ 31 -> 0 <= cid < 2 ^ 31 ->
      cpu_free s t cpu cid ->
      step g tx cl s Ltau
        (set_t s t
          (let th := set_on (s_thr s t) (Some (cpu, cid)) in
           let th := if t_reg th
                     then set_area th {| rseq_cs := rseq_cs (t_area th);
                                         cpu_field := cpu; cid_field := cid |}
                     else th in
           fixup tx (s_loaded s) th))
  | S_ipi : forall s t,
      running (s_thr s t) ->
      step g tx cl s Ltau (set_t s t (fixup tx (s_loaded s) (s_thr s t)))
  | S_signal : forall s t x k l',
      running (s_thr s t) ->
      t_ctx (s_thr s t) = x :: k ->
      cl_sig _ cl (x_loc x) l' ->
      step g tx cl s Ltau
        (set_t s t
          (let th := fixup tx (s_loaded s) (s_thr s t) in
           set_ctx th ({| x_loc := l'; x_act := None |} :: t_ctx th)))
  | S_sigret : forall s t l x k,
      running (s_thr s t) ->
      t_ctx (s_thr s t) = {| x_loc := l; x_act := None |} :: x :: k ->
      cl_done _ cl l ->
      step g tx cl s Ltau (set_t s t (set_ctx (s_thr s t) (x :: k)))
  (* rseq(2) registration and unregistration: the kernel publishes the current
     cpu and mm_cid, respectively resets them to RSEQ_CPU_ID_UNINITIALIZED and 0 *)
  | S_register : forall s t l cpu cid,
      running (s_thr s t) -> t_reg (s_thr s t) = false ->
      t_ctx (s_thr s t) = [{| x_loc := l; x_act := None |}] ->
      t_on (s_thr s t) = Some (cpu, cid) ->
      step g tx cl s Ltau
        (set_t s t {| t_area := {| rseq_cs := None; cpu_field := cpu; cid_field := cid |};
                      t_reg := true; t_on := t_on (s_thr s t); t_ctx := t_ctx (s_thr s t);
                      t_dead := false |})
  | S_unregister : forall s t l,
      running (s_thr s t) -> t_reg (s_thr s t) = true ->
      t_ctx (s_thr s t) = [{| x_loc := l; x_act := None |}] ->
      step g tx cl s Ltau
        (set_t s t {| t_area := {| rseq_cs := rseq_cs (t_area (s_thr s t));
                                   cpu_field := 2 ^ 32 - 1; cid_field := 0 |};
                      t_reg := false; t_on := t_on (s_thr s t); t_ctx := t_ctx (s_thr s t);
                      t_dead := false |}).

(** Initial states: every thread is idle, registered or not, running or not. *)
Definition thread_init (th : thread) : Prop :=
  t_dead th = false /\ rseq_cs (t_area th) = None /\
  (exists l, t_ctx th = [{| x_loc := l; x_act := None |}]) /\
  (t_reg th = false -> cpu_field (t_area th) = 2 ^ 32 - 1 /\ cid_field (t_area th) = 0) /\
  (forall cpu cid, t_on th = Some (cpu, cid) -> 0 <= cpu < 2 ^ 31 /\ 0 <= cid < 2 ^ 31) /\
  (forall cpu cid, t_reg th = true -> t_on th = Some (cpu, cid) ->
     cpu_field (t_area th) = cpu /\ cid_field (t_area th) = cid).

Definition initial (s : state) : Prop :=
  (forall t, thread_init (s_thr s t)) /\
  (forall t u c1 d1 c2 d2, t <> u -> t_on (s_thr s t) = Some (c1, d1) ->
     t_on (s_thr s u) = Some (c2, d2) -> c1 <> c2 /\ d1 <> d2) /\
  (forall id, s_loaded s id = true).

(** The abstract view of an initial state (no helper call is in progress). *)
Definition abs_init (s : state) : astate Loc :=
  {| a_mem := s_mem s;
     a_on := fun t => if t_reg (s_thr s t) then t_on (s_thr s t) else None;
     a_thr := fun t => map (fun x => {| a_loc := x_loc x; a_act := None |}) (t_ctx (s_thr s t)) |}.

(** Runs of the concrete machine.  A call made by a thread that is not
    registered with rseq must not use the value an unregistered area shows: -1
    in cpu_id mode, 0 in mm_cid mode (see C06). *)
Definition unreg_index (md : imode) : Z := match md with CPU_ID => -1 | MM_CID => 0 end.
Definition call_ok (s : state) (l : clabel) : Prop :=
  match l with
  | Lcall t c => t_reg (s_thr s t) = true \/ c_cpu c <> unreg_index (c_mode c)
  | _ => True
  end.

Inductive exec (g : cfg) (tx : text) (cl : client Loc) : state -> list clabel -> state -> Prop :=
  | exec_nil : forall s, exec g tx cl s [] s
  | exec_snoc : forall s ls s' l s'', exec g tx cl s ls s' -> step g tx cl s' l s'' ->
      call_ok s' l -> exec g tx cl s (ls ++ [l]) s''.

(** A run with the state before each step. *)
Inductive path (g : cfg) (tx : text) (cl : client Loc) : state -> list (state * clabel) -> state -> Prop :=
  | path_nil : forall s, path g tx cl s [] s
  | path_snoc : forall s tr s' l s'', path g tx cl s tr s' -> step g tx cl s' l s'' ->
      call_ok s' l -> path g tx cl s (tr ++ [(s', l)]) s''.

(** Nesting depth of a thread: 1, plus one per signal handler being run. *)
Definition depth (s : state) (t : nat) : nat := length (t_ctx (s_thr s t)).

(** The life of a call [c] of thread [t]: it is made in state [s1], the machine
    runs through [tr] (all threads, the kernel, and signal handlers of [t] take
    steps), and then this very call returns [r], leading to [s4]. *)
Definition lifetime (g : cfg) (tx : text) (cl : client Loc) (t : nat) (c : call)
    (s1 : state) (tr : list (state * clabel)) (s3 : state) (r : Z) (s4 : state) : Prop :=
  exists s2, step g tx cl s1 (Lcall t c) s2 /\ call_ok s1 (Lcall t c) /\
    path g tx cl s2 tr s3 /\
    (forall s' c' r', In (s', Lret t c' r') tr -> depth s' t <> depth s1 t) /\
    step g tx cl s3 (Lret t c r) s4 /\ depth s3 t = depth s1 t.

(** The writes made by the call itself (not by the signal handlers that
    interrupted it), with the state in which each is made. *)
Definition own_writes (t d : nat) (tr : list (state * clabel)) : list (state * list (Z * Z)) :=
  flat_map (fun p => match snd p with
    | Lwr u ps => if Nat.eqb u t && Nat.eqb (depth (fst p) t) d then [(fst p, ps)] else []
    | _ => [] end) tr.

(** Thread [t] is registered and runs where the cpu argument of [c] says. *)
Definition runs_on (s : state) (t : nat) (c : call) : Prop :=
  t_reg (s_thr s t) = true /\ on_index (t_on (s_thr s t)) (c_mode c) = Some (c_cpu c).

(** Observable events of a run: calls, returns with their value, and every
    write to shared memory. *)
Inductive vis := VCall (t : nat) (c : call) | VRet (t : nat) (c : call) (r : Z)
  | VWrite (t : nat) (ps : list (Z * Z)) | VBug (t : nat).
Definition cvis1 (l : clabel) : list vis :=
  match l with
  | Ltau => [] | Lcall t c => [VCall t c] | Lret t c r => [VRet t c r]
  | Lwr t ps => [VWrite t ps] | Lbug t => [VBug t]
  end.
Definition avis1 (l : alabel) : list vis :=
  match l with
  | ALtau | ALfail _ _ => [] | ALcall t c => [VCall t c] | ALret t c r => [VRet t c r]
  | ALattempt t _ ps | ALcommit t _ ps | ALwrite t ps => [VWrite t ps]
  end.
Definition cvis (ls : list clabel) : list vis := flat_map cvis1 ls.
Definition avis (ls : list alabel) : list vis := flat_map avis1 ls.

End Machine.
