(** C11-C15: the per-CPU data structures of the project's programs, on every
    architecture, for every number of threads, CPUs and signal handlers and every
    schedule of the machine of RseqKernel.v.  The data structures are in
    ClientModel.v; [linearization] is in LinSpec.v, the rest of the vocabulary in
    ClientSpec.v; the concrete cases are built in ExClients.v. *)
From Coq Require Import ZArith Bool List Lia.
From Verif Require Import RseqIR RseqSpec RseqKernel RseqSim RseqCalls Archs ArchsGood.
From Verif Require Import LinSpec ClientModel ClientSpec CntProofs LockProofs ListClientProofs BufProofs RecProofs.
From Verif Require Import ExRseq ClientReplay ExClients.
Import ListNotations.
Local Open Scope Z_scope.

(** ** C11 *)

(** Any code that uses the counters only through rseq_load_add_store.  [n] calls
    have taken effect: at least those that returned 0, and at most those and the
    calls still in progress; when no call is in progress, exactly those. *)
Theorem C11_counter_sum : forall (Loc : Type) g a tw tx md cpus cnt inc (cl : client Loc) s0,
  lib_text a tw tx -> initial s0 -> NoDup cpus -> words_apart g cpus cnt -> counter_code g md cpus cnt inc cl ->
  forall tr s, path g tx cl s0 tr s ->
  exists n, wrap g (total g cpus cnt (s_mem s)) = wrap g (total g cpus cnt (s_mem s0) + n * inc) /\
    count is_ret0 (map snd tr) <= n /\
    n <= count is_ret0 (map snd tr) + (count is_call (map snd tr) - count is_ret (map snd tr)) /\
    (quiescent s -> n = count is_ret0 (map snd tr)).
Proof. exact counter_sum. Qed.
Print Assumptions C11_counter_sum.

(** The test program: when all threads have finished, the counters add up to the
    iterations asked for. *)
Theorem C11_counter_test : forall g a tw tx md cpus cnt s0 N R,
  lib_text a tw tx -> initial s0 -> NoDup cpus -> words_apart g cpus cnt ->
  (forall t, inc_start s0 t (R t)) -> (forall t, (N <= t)%nat -> R t = O) ->
  forall tr s, path g tx (inc_client md cpus cnt) s0 tr s -> (forall t, inc_finished s t) ->
  wrap g (total g cpus cnt (s_mem s)) = wrap g (total g cpus cnt (s_mem s0) + Z.of_nat (sum_to N R)).
Proof. exact counter_test. Qed.
Print Assumptions C11_counter_test.

(** Two threads with two and one iterations, migrated and interrupted in the
    middle: six calls, three of which return 0. *)
Example C11_case :
  lib_text X86_64 false dx /\ initial inc_s0 /\ NoDup two /\ words_apart demo_cfg two ex_cnt /\
  counter_code demo_cfg CPU_ID two ex_cnt 1 (inc_client CPU_ID two ex_cnt) /\
  (forall t, inc_start inc_s0 t (inc_iter t)) /\ (forall t, (2 <= t)%nat -> inc_iter t = O) /\
  exists tr s, path demo_cfg dx (inc_client CPU_ID two ex_cnt) inc_s0 tr s /\
    (forall t, inc_finished s t) /\ total demo_cfg two ex_cnt (s_mem s) = 3 /\
    count is_call (map snd tr) = 6 /\ count is_ret0 (map snd tr) = 3 /\
    ldw demo_cfg (s_mem s) (ex_cnt 0) = 1 /\ ldw demo_cfg (s_mem s) (ex_cnt 1) = 2.
Proof.
  split; [apply demo_lib|]. split; [apply cstart_initial|]. split; [exact two_nodup|]. split; [exact words_apart_ex|].
  split; [apply inc_code|]. split; [intros t; reflexivity|].
  split; [intros [|[|t]] H; try lia; reflexivity|]. exact ex_counter.
Qed.

(** ** C12 *)

(** The lock of a CPU is held by at most one context of at most one thread, the
    assertion in rseq_percpu_unlock() never fails, and the counters add up to the
    number of increments made under the locks. *)
Theorem C12_lock_excludes : forall g a tw tx md cpus cnt lk s0,
  lib_text a tw tx -> initial s0 -> 1 < wmod g -> NoDup cpus -> lock_layout g cpus cnt lk ->
  (forall t, exists n, map x_loc (t_ctx (s_thr s0 t)) = [Lk_idle n]) ->
  forall tr s, path g tx (lock_client g md cpus cnt lk) s0 tr s ->
  (forall cpu t u, (holders s cpu t <= 1)%nat /\ (t <> u -> holders s cpu t = O \/ holders s cpu u = O)) /\
  (forall t x, In x (t_ctx (s_thr s t)) -> x_loc x <> Lk_assert_failed) /\
  wrap g (total g cpus cnt (s_mem s)) = wrap g (total g cpus cnt (s_mem s0) + count is_count_store (obs tr)).
Proof. exact lock_excludes. Qed.
Print Assumptions C12_lock_excludes.

(** Thread 0 holds the lock of CPU 0 while preempted, thread 1 is refused it
    (return value 1) when it runs on that CPU, aborted when a migration hits its
    call, and its signal handler takes the lock of CPU 1. *)
Example C12_case :
  lib_text X86_64 false dx /\ initial lock_s0 /\ 1 < wmod demo_cfg /\ NoDup two /\
  lock_layout demo_cfg two ex_cnt ex_lk /\
  (forall t, exists n, map x_loc (t_ctx (s_thr lock_s0 t)) = [Lk_idle n]) /\
  exists tr s, path demo_cfg dx (lock_client demo_cfg CPU_ID two ex_cnt ex_lk) lock_s0 tr s /\
    holders s 0 0 = 1%nat /\ holders s 1 1 = 1%nat /\ holders s 0 1 = 0%nat /\
    returned 1 1 tr = true /\ returned 1 (-1) tr = true /\ total demo_cfg two ex_cnt (s_mem s) = 2.
Proof.
  split; [apply demo_lib|]. split; [apply cstart_initial|]. split; [reflexivity|]. split; [exact two_nodup|].
  split; [exact lock_layout_ex|]. split; [intros t; exists 1%nat; reflexivity|]. exact ex_lock.
Qed.

(** ** C13 *)

(** At every moment every node is in exactly one place; and the calls can be
    given moments, between call and return, at which they take effect one after
    the other on plain stacks: a pop that returns 0 has stored the node that was
    on top at that moment, and a pop that returns 1 saw an empty list. *)
Theorem C13_list_conserved : forall g a tw tx md cpus nodes hd off nodesz slot live s0,
  lib_text a tw tx -> initial s0 -> list_layout g cpus nodes hd off nodesz slot live ->
  list_start g cpus nodes hd off slot s0 ->
  forall tr s, path g tx (list_client g md cpus hd off nodesz slot live) s0 tr s ->
  (exists whr, nodes_conserved g cpus nodes hd off slot s whr) /\
  exists L0 evs L,
    (forall cpu, In cpu cpus -> chain g off (s_mem s0) (ldw g (s_mem s0) (hd cpu)) (L0 cpu)) /\
    linearization g (popped_node g) tr s evs /\ list_run g hd L0 evs = Some L /\
    (forall cpu, In cpu cpus -> chain g off (s_mem s) (ldw g (s_mem s) (hd cpu)) (L cpu)).
Proof. exact list_conserved_plain. Qed.
Print Assumptions C13_list_conserved.

(** The same if the racy plain load of the list head in push returns any word
    whatsoever, as it may when another thread is writing the head.  C13_case below is a case
    with [load := plain_load demo_cfg]; likewise for C14 and C15. *)
Theorem C13_racy_loads : forall g a tw tx md cpus nodes hd off nodesz slot live (load : mem -> Z -> Z -> Prop) s0,
  lib_text a tw tx -> initial s0 -> list_layout g cpus nodes hd off nodesz slot live ->
  list_start g cpus nodes hd off slot s0 -> (forall m p v, load m p v -> 0 <= v < wmod g) ->
  forall tr s, path g tx (list_client_of g md cpus hd off nodesz slot live load) s0 tr s ->
  (exists whr, nodes_conserved g cpus nodes hd off slot s whr) /\
  exists L0 evs L,
    (forall cpu, In cpu cpus -> chain g off (s_mem s0) (ldw g (s_mem s0) (hd cpu)) (L0 cpu)) /\
    linearization g (popped_node g) tr s evs /\ list_run g hd L0 evs = Some L /\
    (forall cpu, In cpu cpus -> chain g off (s_mem s) (ldw g (s_mem s) (hd cpu)) (L cpu)).
Proof. exact list_conserved. Qed.
Print Assumptions C13_racy_loads.

(** Three nodes, an ABA: the push of thread 0 is interrupted after it read the
    head, the signal handler pops that node and pushes it back; thread 1 moves to
    CPU 0 and pops the node pushed by thread 0. *)
Example C13_case :
  lib_text X86_64 false dx /\ initial list_s0 /\
  list_layout demo_cfg two ex_nodes ex_hd 8 16 ex_slot ex_live /\
  list_start demo_cfg two ex_nodes ex_hd 8 ex_slot list_s0 /\
  exists tr s, path demo_cfg dx (list_client demo_cfg CPU_ID two ex_hd 8 16 ex_slot ex_live) list_s0 tr s /\
    ldw demo_cfg (s_mem s) (ex_hd 0) = 64 /\ returned 0 (-1) tr = true /\
    t_ctx (s_thr s 1) = [{| x_loc := {| ll_tid := 1; ll_depth := 0; ll_hold := [96; 128]; ll_pc := L_idle |}; x_act := None |}].
Proof.
  split; [apply demo_lib|]. split; [apply cstart_initial|]. split; [exact list_layout_ex|]. split; [exact list_start_ex|].
  exact ex_list.
Qed.

(** ** C14 *)

(** The calls can be given moments, between call and return, at which they take
    effect one after the other on bounded stacks, and memory holds those stacks. *)
Theorem C14_buffers_are_stacks : forall g a tw tx md cpus ofs arr buflen S0 s0,
  lib_text a tw tx -> initial s0 -> buf_layout g cpus ofs arr buflen ->
  (forall t, map x_loc (t_ctx (s_thr s0 t)) = [B_idle]) ->
  buffers_hold g cpus ofs arr (s_mem s0) S0 -> (forall cpu, In cpu cpus -> (length (S0 cpu) <= buflen cpu)%nat) ->
  forall tr s, path g tx (buf_client g md cpus ofs arr buflen) s0 tr s ->
  exists evs S, linearization g any_res tr s evs /\ buf_run buflen S0 evs = Some S /\
    buffers_hold g cpus ofs arr (s_mem s) S /\ (forall cpu, In cpu cpus -> (length (S cpu) <= buflen cpu)%nat).
Proof. intros g a tw tx md cpus. exact (buffers_are_stacks g a tw tx md cpus (plain_load g)). Qed.
Print Assumptions C14_buffers_are_stacks.

(** The same whatever the racy plain loads of offset and array element return. *)
Theorem C14_racy_loads : forall g a tw tx md cpus load ofs arr buflen S0 s0,
  lib_text a tw tx -> initial s0 -> buf_layout g cpus ofs arr buflen ->
  (forall t, map x_loc (t_ctx (s_thr s0 t)) = [B_idle]) ->
  buffers_hold g cpus ofs arr (s_mem s0) S0 -> (forall cpu, In cpu cpus -> (length (S0 cpu) <= buflen cpu)%nat) ->
  forall tr s, path g tx (buf_client_of g md cpus load ofs arr buflen) s0 tr s ->
  exists evs S, linearization g any_res tr s evs /\ buf_run buflen S0 evs = Some S /\
    buffers_hold g cpus ofs arr (s_mem s) S /\ (forall cpu, In cpu cpus -> (length (S cpu) <= buflen cpu)%nat).
Proof. exact buffers_are_stacks. Qed.
Print Assumptions C14_racy_loads.

(** A push interrupted by a handler that pushes; a push refused as the buffer is
    full; a pop by the other thread after a migration. *)
Example C14_case :
  lib_text X86_64 false dx /\ initial buf_s0 /\ buf_layout demo_cfg two ex_ofs ex_arr ex_len /\
  (forall t, map x_loc (t_ctx (s_thr buf_s0 t)) = [B_idle]) /\
  buffers_hold demo_cfg two ex_ofs ex_arr (s_mem buf_s0) (fun _ => []) /\
  exists tr s, path demo_cfg dx (buf_client demo_cfg CPU_ID two ex_ofs ex_arr ex_len) buf_s0 tr s /\ returned 0 1 tr = true /\
    t_ctx (s_thr s 0) = [{| x_loc := B_pushed false; x_act := None |}] /\
    t_ctx (s_thr s 1) = [{| x_loc := B_popped (Some 9); x_act := None |}] /\
    ldw demo_cfg (s_mem s) (ex_ofs 0) = 1 /\ ldw demo_cfg (s_mem s) (ex_arr 0) = 7.
Proof.
  split; [apply demo_lib|]. split; [apply cstart_initial|]. split; [exact buf_layout_ex|]. split; [intros t; reflexivity|].
  split; [intros cpu _; split; [reflexivity|exact Logic.I]|]. exact ex_buf.
Qed.

(** ** C15 *)
Theorem C15_records_are_whole : forall g a tw tx md cpus ofs arr buflen reclen arg out live S0 s0,
  lib_text a tw tx -> initial s0 -> rec_layout g cpus ofs arr buflen reclen arg out live ->
  (forall t, map x_loc (t_ctx (s_thr s0 t)) = [{| rl_tid := t; rl_depth := 0; rl_pc := M_idle |}]) ->
  rec_buffers_hold g cpus ofs arr reclen (s_mem s0) S0 -> (forall cpu, In cpu cpus -> (length (S0 cpu) <= buflen cpu)%nat) ->
  forall tr s, path g tx (rec_client g md cpus live ofs arr buflen reclen arg out) s0 tr s ->
  exists evs S, linearization g popped_record tr s evs /\ rec_run buflen S0 evs = Some S /\
    rec_buffers_hold g cpus ofs arr reclen (s_mem s) S /\ (forall cpu, In cpu cpus -> (length (S cpu) <= buflen cpu)%nat).
Proof.
  intros g a tw tx md cpus ofs arr buflen reclen arg out live.
  exact (records_are_whole g a tw tx md cpus ofs arr buflen reclen arg out live (plain_load g)).
Qed.
Print Assumptions C15_records_are_whole.

(** The same whatever the racy plain load of the offset returns. *)
Theorem C15_racy_loads : forall g a tw tx md cpus ofs arr buflen reclen arg out live load S0 s0,
  lib_text a tw tx -> initial s0 -> rec_layout g cpus ofs arr buflen reclen arg out live ->
  (forall t, map x_loc (t_ctx (s_thr s0 t)) = [{| rl_tid := t; rl_depth := 0; rl_pc := M_idle |}]) ->
  rec_buffers_hold g cpus ofs arr reclen (s_mem s0) S0 -> (forall cpu, In cpu cpus -> (length (S0 cpu) <= buflen cpu)%nat) ->
  forall tr s, path g tx (rec_client_of md cpus live load ofs arr buflen reclen arg out) s0 tr s ->
  exists evs S, linearization g popped_record tr s evs /\ rec_run buflen S0 evs = Some S /\
    rec_buffers_hold g cpus ofs arr reclen (s_mem s) S /\ (forall cpu, In cpu cpus -> (length (S cpu) <= buflen cpu)%nat).
Proof. exact records_are_whole. Qed.
Print Assumptions C15_racy_loads.

(** A push aborted in the middle of the copy and retried; the other thread moves
    to that CPU and pops the record. *)
Example C15_case :
  lib_text X86_64 false dx /\ initial rec_s0 /\
  rec_layout demo_cfg two ex_ofs ex_arr ex_len 3 ex_arg ex_out ex_live /\
  (forall t, map x_loc (t_ctx (s_thr rec_s0 t)) = [{| rl_tid := t; rl_depth := 0; rl_pc := M_idle |}]) /\
  rec_buffers_hold demo_cfg two ex_ofs ex_arr 3 (s_mem rec_s0) (fun _ => []) /\
  exists tr s, path demo_cfg dx (rec_client demo_cfg CPU_ID two ex_live ex_ofs ex_arr ex_len 3 ex_arg ex_out) rec_s0 tr s /\
    returned 0 (-1) tr = true /\
    t_ctx (s_thr s 1) = [{| x_loc := {| rl_tid := 1; rl_depth := 0; rl_pc := M_popped true |}; x_act := None |}] /\
    bytes_at (s_mem s) (ex_out 1 0) 3 = [7; 8; 9] /\ ldw demo_cfg (s_mem s) (ex_ofs 0) = 0.
Proof.
  split; [apply demo_lib|]. split; [apply cstart_initial|]. split; [exact rec_layout_ex|]. split; [intros t; reflexivity|].
  split; [intros cpu _; split; [reflexivity|exact Logic.I]|]. exact ex_rec.
Qed.
