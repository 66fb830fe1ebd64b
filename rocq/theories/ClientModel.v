(** Data structures built on the helpers, as the project's own programs use
    them: the per-CPU counter, spinlock, list, buffer and memcpy buffer of
    tests/param_test.c and tests/basic_percpu_ops_test.c.  Each is a [client] of
    the machine of RseqKernel.v.  Definitions only.

    Common simplifications:
    - get_current_cpu_id() may return any CPU of [cpus]: the thread may migrate
      right after, and the helper checks the number anyway.
    - rseq_percpu_ptr(p, cpu)->field is a function of the CPU giving an address.
    - The instance of the helper that is called ([c_code]) is left open.
    - Printing, statistics and thread creation are left out. *)
From Coq Require Import ZArith Bool List.
From Verif Require Import RseqIR RseqSpec RseqKernel.
Import ListNotations.
Local Open Scope Z_scope.

Section Clients.
Variable g : cfg.
Variable md : imode.          (* RSEQ_PERCPU: index by cpu_id or by mm_cid *)
Variable cpus : list Z.

(** ** Counter: test_percpu_inc_thread(), tests/param_test.c:577-609 *)
Variable cnt : Z -> Z.        (* &rseq_percpu_ptr(data, cpu)->count *)

(** [Inc_read n]: [n] iterations left, about to read the CPU number;
    [Inc_call n cpu]: about to call, or inside, the helper. *)
Inductive inc_loc := Inc_read (n : nat) | Inc_call (n : nat) (cpu : Z).

Definition inc_client : client inc_loc :=
  {| cl_call := fun l _ c => exists n cpu, l = Inc_call n cpu /\ In cpu cpus /\
       c_op c = AddStore (cnt cpu) 1 /\ c_cpu c = cpu /\ c_mode c = md;
     cl_ret := fun l _ r => match l with
       | Inc_call n _ => if r =? 0 then Inc_read (pred n) else Inc_read n
       | _ => l end;
     cl_write := fun _ _ _ _ => False;
     cl_tau := fun l _ l' => exists n cpu, l = Inc_read (S n) /\ In cpu cpus /\ l' = Inc_call (S n) cpu;
     (* the signal handlers of the test do not touch the counters *)
     cl_sig := fun _ l' => l' = Inc_read 0;
     cl_done := fun l => l = Inc_read 0 |}.

(** ** Spinlock: rseq_this_cpu_lock(), rseq_percpu_unlock() and
    test_percpu_spinlock_thread(), tests/basic_percpu_ops_test.c:82-136 (same in
    tests/param_test.c:431-467) *)
Variable lk : Z -> Z.         (* &lock->c[cpu].v *)

Inductive lock_loc :=
  | Lk_idle (n : nat)                    (* n iterations left *)
  | Lk_try (n : nat) (cpu : Z)           (* in rseq_this_cpu_lock() *)
  | Lk_held (n : nat) (cpu : Z)          (* lock taken *)
  | Lk_read (n : nat) (cpu v : Z)        (* count++: the count has been read *)
  | Lk_wrote (n : nat) (cpu : Z)         (* count++: done *)
  | Lk_release (n : nat) (cpu : Z)       (* in rseq_percpu_unlock(), assertion passed *)
  | Lk_assert_failed.                    (* assert(lock->c[cpu].v == 1) failed *)

Definition lock_client : client lock_loc :=
  {| cl_call := fun l _ c => exists n cpu, l = Lk_try n cpu /\ In cpu cpus /\
       c_op c = CbneStore (lk cpu) 0 1 /\ c_cpu c = cpu /\ c_mode c = md;
     cl_ret := fun l _ r => match l with
       | Lk_try n cpu => if r =? 0 then Lk_held n cpu else Lk_idle n   (* retry *)
       | _ => l end;
     cl_write := fun l _ ps l' =>
       (exists n cpu v, l = Lk_read n cpu v /\ ps = stw g (cnt cpu) (wrap g (v + 1)) /\ l' = Lk_wrote n cpu) \/
       (exists n cpu, l = Lk_release n cpu /\ ps = stw g (lk cpu) 0 /\ l' = Lk_idle (pred n));
     cl_tau := fun l m l' =>
       (exists n cpu, l = Lk_idle (S n) /\ In cpu cpus /\ l' = Lk_try (S n) cpu) \/
       (exists n cpu, l = Lk_held n cpu /\ l' = Lk_read n cpu (ldw g m (cnt cpu))) \/
       (exists n cpu, l = Lk_wrote n cpu /\
          l' = if ldw g m (lk cpu) =? 1 then Lk_release n cpu else Lk_assert_failed);
     (* signal handlers may take the locks too *)
     cl_sig := fun _ l' => exists n, l' = Lk_idle n;
     cl_done := fun l => l = Lk_idle 0 |}.

(** ** List: this_cpu_list_push() and this_cpu_list_pop(),
    tests/basic_percpu_ops_test.c:173-230 (same in tests/param_test.c:685-751) *)
Variable hd : Z -> Z.         (* &list->c[cpu].head *)
Variable off : Z.             (* offsetof(struct percpu_list_node, next) *)
Variable nodesz : nat.        (* sizeof(struct percpu_list_node) *)
Variable slot : nat -> nat -> Z.   (* &head, local variable of pop, per context *)
(** The contexts that may call pop (and push of records): the thread, and the
    nesting depth of signal handlers.  The address space has room for the local
    variables of finitely many of them. *)
Variable live : nat -> nat -> Prop.

Definition nxt (n : Z) : Z := wrap g (n + off).

Inductive list_pc :=
  | L_idle
  | L_push (cpu n expect : Z)    (* head read into expect *)
  | L_pushw (cpu n expect : Z)   (* node->next written *)
  | L_pop (cpu : Z)
  | L_got.                       (* pop's helper returned 0 *)

(** [ll_hold]: the nodes the context holds besides the one being pushed. *)
Record list_loc := { ll_tid : nat; ll_depth : nat; ll_hold : list Z; ll_pc : list_pc }.

Definition ll_set (l : list_loc) (h : list Z) (p : list_pc) : list_loc :=
  {| ll_tid := ll_tid l; ll_depth := ll_depth l; ll_hold := h; ll_pc := p |}.

(** What a plain load of a shared per-CPU word by client code returns, when
    other threads may be writing the word: [load m p v] says that loading the
    word at [p] of memory [m] may give [v]. *)
Variable load : mem -> Z -> Z -> Prop.

Definition list_client_of : client list_loc :=
  {| cl_call := fun l _ c => c_mode c = md /\
       match ll_pc l with
       | L_pushw cpu n e => c_op c = CbneStore (hd cpu) e n /\ c_cpu c = cpu
       | L_pop cpu => c_op c = CbeqStoreAddLoadStore (hd cpu) 0 off (slot (ll_tid l) (ll_depth l)) /\ c_cpu c = cpu
       | _ => False
       end;
     cl_ret := fun l _ r => match ll_pc l with
       | L_pushw cpu n e => if r =? 0 then ll_set l (ll_hold l) L_idle else ll_set l (n :: ll_hold l) L_idle
       | L_pop cpu => if r =? 0 then ll_set l (ll_hold l) L_got else ll_set l (ll_hold l) L_idle
       | _ => l end;
     cl_write := fun l _ ps l' =>
       (* node->next = expect *)
       (exists cpu n e, ll_pc l = L_push cpu n e /\ ps = stw g (nxt n) e /\
          l' = ll_set l (ll_hold l) (L_pushw cpu n e)) \/
       (* a context may write to the nodes it holds *)
       (exists n, ll_pc l = L_idle /\ In n (ll_hold l) /\ incl (map fst ps) (span n nodesz) /\ l' = l);
     cl_tau := fun l m l' =>
       (exists cpu n h1 h2 e, ll_pc l = L_idle /\ In cpu cpus /\ ll_hold l = h1 ++ n :: h2 /\
          load m (hd cpu) e /\ l' = ll_set l (h1 ++ h2) (L_push cpu n e)) \/
       (exists cpu, ll_pc l = L_idle /\ In cpu cpus /\ live (ll_tid l) (ll_depth l) /\
          l' = ll_set l (ll_hold l) (L_pop cpu)) \/
       (ll_pc l = L_got /\
          l' = ll_set l (ldw g m (slot (ll_tid l) (ll_depth l)) :: ll_hold l) L_idle);
     (* signal handlers may push and pop, and give back what they popped *)
     cl_sig := fun l l' =>
       l' = {| ll_tid := ll_tid l; ll_depth := S (ll_depth l); ll_hold := []; ll_pc := L_idle |};
     cl_done := fun l => ll_pc l = L_idle /\ ll_hold l = [] |}.

(** ** Buffer of pointers: this_cpu_buffer_push() and this_cpu_buffer_pop(),
    tests/param_test.c:887-958.  The fields buflen and array of struct
    percpu_buffer are written before the threads start and are constants here. *)
Variable ofs : Z -> Z.        (* &cpubuffer->offset *)
Variable arr : Z -> Z.        (* cpubuffer->array *)
Variable buflen : Z -> nat.   (* cpubuffer->buflen *)

(** &cpubuffer->array[i] *)
Definition arr_slot (cpu i : Z) : Z := arr cpu + i * Z.of_nat (wsize g).

Inductive buf_loc :=
  | B_idle
  | B_push (v : Z)                 (* about to push v *)
  | B_push2 (v cpu o : Z)          (* offset read, not full *)
  | B_pop                          (* about to pop *)
  | B_pop1 (cpu o : Z)             (* offset read, not 0 *)
  | B_pop2 (cpu o v : Z)           (* array[offset - 1] read *)
  | B_pushed (b : bool)            (* push returns b *)
  | B_popped (o : option Z).       (* pop returns o *)

Definition buf_client_of : client buf_loc :=
  {| cl_call := fun l _ c => c_mode c = md /\
       match l with
       | B_push2 v cpu o => c_op c = CbneStoreStore (ofs cpu) o (arr_slot cpu o) v (o + 1) /\ c_cpu c = cpu
       | B_pop2 cpu o v => c_op c = CbneLoadCbneStore (ofs cpu) o (arr_slot cpu (o - 1)) v (o - 1) /\ c_cpu c = cpu
       | _ => False
       end;
     cl_ret := fun l _ r => match l with
       | B_push2 v cpu o => if r =? 0 then B_pushed true else B_push v
       | B_pop2 cpu o v => if r =? 0 then B_popped (Some v) else B_pop
       | _ => l end;
     cl_write := fun _ _ _ _ => False;
     cl_tau := fun l m l' =>
       match l with
       | B_idle | B_pushed _ | B_popped _ => (exists v, 0 <= v < wmod g /\ l' = B_push v) \/ l' = B_pop \/ l' = B_idle
       | B_push v => exists cpu o, In cpu cpus /\ load m (ofs cpu) o /\
           l' = if o =? Z.of_nat (buflen cpu) then B_pushed false else B_push2 v cpu o
       | B_pop => exists cpu o, In cpu cpus /\ load m (ofs cpu) o /\
           l' = if o =? 0 then B_popped None else B_pop1 cpu o
       | B_pop1 cpu o => exists v, load m (arr_slot cpu (o - 1)) v /\ l' = B_pop2 cpu o v
       | _ => False
       end;
     (* signal handlers may push and pop too *)
     cl_sig := fun _ l' => l' = B_idle;
     cl_done := fun l => l = B_idle |}.

(** ** Buffer of records: this_cpu_memcpy_buffer_push() and
    this_cpu_memcpy_buffer_pop(), tests/param_test.c:1121-1201 *)
Variable reclen : nat.        (* sizeof(struct percpu_memcpy_buffer_node) *)
Variable arg : nat -> nat -> Z.    (* &item, the by-value parameter of push, per context *)
Variable out : nat -> nat -> Z.    (* item, where the caller wants the popped record *)

(** &cpubuffer->array[i] *)
Definition rec_slot (cpu i : Z) : Z := arr cpu + i * Z.of_nat reclen.

(** The bytes of a record in memory, and a store of them. *)
Definition bytes_at (m : mem) (a : Z) (n : nat) : list Z := map (byte m) (span a n).
Definition put_bytes (a : Z) (bs : list Z) : list (Z * Z) := combine (span a (length bs)) bs.

Inductive rec_pc :=
  | M_idle
  | M_arg (item : list Z)          (* push called with this record *)
  | M_push (item : list Z)         (* the record is in the parameter *)
  | M_push2 (item : list Z) (cpu o : Z)
  | M_pop
  | M_pop2 (cpu o : Z)
  | M_pushed (b : bool) (item : list Z)
  | M_popped (b : bool).

Record rec_loc := { rl_tid : nat; rl_depth : nat; rl_pc : rec_pc }.
Definition rl_set (l : rec_loc) (p : rec_pc) : rec_loc :=
  {| rl_tid := rl_tid l; rl_depth := rl_depth l; rl_pc := p |}.

Definition rec_client_of : client rec_loc :=
  {| cl_call := fun l _ c => c_mode c = md /\
       match rl_pc l with
       | M_push2 item cpu o => c_cpu c = cpu /\
           c_op c = CbneMemcpyStore (ofs cpu) o (rec_slot cpu o) (arg (rl_tid l) (rl_depth l)) reclen (o + 1)
       | M_pop2 cpu o => c_cpu c = cpu /\
           c_op c = CbneMemcpyStore (ofs cpu) o (out (rl_tid l) (rl_depth l)) (rec_slot cpu (o - 1)) reclen (o - 1)
       | _ => False
       end;
     cl_ret := fun l _ r => match rl_pc l with
       | M_push2 item cpu o => if r =? 0 then rl_set l (M_pushed true item) else rl_set l (M_push item)
       | M_pop2 cpu o => if r =? 0 then rl_set l (M_popped true) else rl_set l M_pop
       | _ => l end;
     cl_write := fun l _ ps l' =>
       (exists item, rl_pc l = M_arg item /\ ps = put_bytes (arg (rl_tid l) (rl_depth l)) item /\
          l' = rl_set l (M_push item));
     cl_tau := fun l m l' =>
       match rl_pc l with
       | M_idle | M_pushed _ _ | M_popped _ =>
           (live (rl_tid l) (rl_depth l) /\
             ((exists item, length item = reclen /\ Forall (fun b => 0 <= b < 256) item /\ l' = rl_set l (M_arg item)) \/
              l' = rl_set l M_pop)) \/
           l' = rl_set l M_idle
       | M_push item => exists cpu o, In cpu cpus /\ load m (ofs cpu) o /\
           l' = if o =? Z.of_nat (buflen cpu) then rl_set l (M_pushed false item)
                else rl_set l (M_push2 item cpu o)
       | M_pop => exists cpu o, In cpu cpus /\ load m (ofs cpu) o /\
           l' = if o =? 0 then rl_set l (M_popped false) else rl_set l (M_pop2 cpu o)
       | _ => False
       end;
     cl_sig := fun l l' => l' = {| rl_tid := rl_tid l; rl_depth := S (rl_depth l); rl_pc := M_idle |};
     cl_done := fun l => rl_pc l = M_idle |}.
End Clients.

(** The clients as written: a load returns the word that is in memory. *)
Definition plain_load (g : cfg) : mem -> Z -> Z -> Prop := fun m p v => v = ldw g m p.
Definition list_client g md cpus hd off nodesz slot live :=
  list_client_of g md cpus hd off nodesz slot live (plain_load g).
Definition buf_client g md cpus ofs arr buflen := buf_client_of g md cpus (plain_load g) ofs arr buflen.
Definition rec_client g md cpus live ofs arr buflen reclen arg out :=
  rec_client_of md cpus live (plain_load g) ofs arr buflen reclen arg out.

(** Less precise: such a load returns any word whatsoever. *)
Definition any_load (g : cfg) : mem -> Z -> Z -> Prop := fun _ _ v => 0 <= v < wmod g.
