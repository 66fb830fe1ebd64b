(** C53: on weakly ordered memory the helpers behave as on sequentially consistent
    memory, for client code that leaves the data of a CPU to the helpers called
    for that CPU.  The weakly ordered machine is in ViewModel.v, the ownership
    discipline in ViewSpec.v, the data structures in ClientModel.v and their
    vocabulary in ClientSpec.v and LinSpec.v. *)
From Coq Require Import ZArith Bool List Lia.
From Verif Require Import RseqIR RseqSpec RseqKernel RseqSim RseqOwn RseqCalls Archs ArchsGood.
From Verif Require Import LinSpec ClientModel ClientSpec ExRseq ClientReplay ExClients.
From Verif Require Import ViewModel ViewSpec ViewProofs ViewClients ViewSc ExView.
Import ListNotations.
Local Open Scope Z_scope.

(** Every run on weakly ordered memory is a run on sequentially consistent memory:
    same calls, stores, return values and thread states in the same order, and the
    memory at the end is the newest store to every byte. *)
Theorem C53_sequential : forall (Loc : Type) g a tw tx (cl : client Loc) s0,
  lib_text a tw tx -> initial s0 -> owned_client g cl (abs_init s0) ->
  forall wtr W, wpath g tx cl (wstart s0) wtr W ->
  exists tr s, path g tx cl s0 tr s /\ same_steps wtr tr /\
    s_thr s = s_thr (w_core W) /\ s_loaded s = s_loaded (w_core W) /\
    forall x, newest (w_hist W x) (s_mem s x).
Proof. exact weak_is_sc. Qed.
Print Assumptions C53_sequential.

(** And the weakly ordered machine has all the runs of the sequentially consistent
    one, whatever the client code. *)
Theorem C53_includes : forall (Loc : Type) g tx (cl : client Loc) s0 tr s,
  moves g tx cl (fun _ => True) s0 tr s ->
  exists wtr W, wpath g tx cl (wstart s0) wtr W /\ same_steps wtr tr /\
    s_thr s = s_thr (w_core W) /\ s_loaded s = s_loaded (w_core W) /\
    forall x, newest (w_hist W x) (s_mem s x).
Proof. exact sc_is_weak. Qed.
Print Assumptions C53_includes.

(** The counters of C11. *)
Theorem C53_counter : forall g a tw tx md cpus cnt s0,
  lib_text a tw tx -> initial s0 -> NoDup cpus -> words_apart g cpus cnt ->
  forall wtr W, wpath g tx (inc_client md cpus cnt) (wstart s0) wtr W ->
  exists m n, (forall x, newest (w_hist W x) (m x)) /\
    wrap g (total g cpus cnt m) = wrap g (total g cpus cnt (s_mem s0) + n) /\
    count is_ret0 (map snd wtr) <= n /\
    n <= count is_ret0 (map snd wtr) + (count is_call (map snd wtr) - count is_ret (map snd wtr)) /\
    (quiescent (w_core W) -> n = count is_ret0 (map snd wtr)).
Proof. exact counter_weak. Qed.
Print Assumptions C53_counter.

(** The lists of C13.  The plain load of the list head in push may be stale here,
    and so the run [tr] with the same steps is one of the machine in which that
    load returns anything; it only serves to say when the calls take effect. *)
Theorem C53_lists : forall g a tw tx md cpus nodes hd off nodesz slot live s0,
  lib_text a tw tx -> initial s0 -> list_layout g cpus nodes hd off nodesz slot live ->
  list_start g cpus nodes hd off slot s0 ->
  forall wtr W, wpath g tx (list_client g md cpus hd off nodesz slot live) (wstart s0) wtr W ->
  exists m tr, (forall x, newest (w_hist W x) (m x)) /\ same_steps wtr tr /\
    (exists whr, nodes_conserved g cpus nodes hd off slot (set_m (w_core W) m) whr) /\
    exists L0 evs L,
      (forall cpu, In cpu cpus -> chain g off (s_mem s0) (ldw g (s_mem s0) (hd cpu)) (L0 cpu)) /\
      linearization g (popped_node g) tr (set_m (w_core W) m) evs /\ list_run g hd L0 evs = Some L /\
      (forall cpu, In cpu cpus -> chain g off m (ldw g m (hd cpu)) (L cpu)).
Proof. exact list_weak. Qed.
Print Assumptions C53_lists.

(** The buffers of C14. *)
Theorem C53_buffers : forall g a tw tx md cpus ofs arr buflen S0 s0,
  lib_text a tw tx -> initial s0 -> buf_layout g cpus ofs arr buflen ->
  (forall t, map x_loc (t_ctx (s_thr s0 t)) = [B_idle]) ->
  buffers_hold g cpus ofs arr (s_mem s0) S0 -> (forall cpu, In cpu cpus -> (length (S0 cpu) <= buflen cpu)%nat) ->
  forall wtr W, wpath g tx (buf_client g md cpus ofs arr buflen) (wstart s0) wtr W ->
  exists m tr evs S, (forall x, newest (w_hist W x) (m x)) /\ same_steps wtr tr /\
    linearization g any_res tr (set_m (w_core W) m) evs /\ buf_run buflen S0 evs = Some S /\
    buffers_hold g cpus ofs arr m S /\ (forall cpu, In cpu cpus -> (length (S cpu) <= buflen cpu)%nat).
Proof. exact buf_weak. Qed.
Print Assumptions C53_buffers.

(** The buffers of records of C15. *)
Theorem C53_records : forall g a tw tx md cpus ofs arr buflen reclen arg out live S0 s0,
  lib_text a tw tx -> initial s0 -> rec_layout g cpus ofs arr buflen reclen arg out live ->
  (forall t, map x_loc (t_ctx (s_thr s0 t)) = [{| rl_tid := t; rl_depth := 0; rl_pc := M_idle |}]) ->
  rec_buffers_hold g cpus ofs arr reclen (s_mem s0) S0 -> (forall cpu, In cpu cpus -> (length (S0 cpu) <= buflen cpu)%nat) ->
  forall wtr W, wpath g tx (rec_client g md cpus live ofs arr buflen reclen arg out) (wstart s0) wtr W ->
  exists m tr evs S, (forall x, newest (w_hist W x) (m x)) /\ same_steps wtr tr /\
    linearization g popped_record tr (set_m (w_core W) m) evs /\ rec_run buflen S0 evs = Some S /\
    rec_buffers_hold g cpus ofs arr reclen m S /\ (forall cpu, In cpu cpus -> (length (S cpu) <= buflen cpu)%nat).
Proof. exact rec_weak. Qed.
Print Assumptions C53_records.

(** Concrete cases.  The hypotheses of C53_sequential for the counters and, with
    loads of the offset that return anything, for the buffers; the layouts are those of
    C11_case to C15_case. *)
Example C53_case_hyp : lib_text X86_64 false dx /\ initial inc_s0 /\ initial buf_s0 /\
  owned_client demo_cfg (inc_client CPU_ID two ex_cnt) (abs_init inc_s0) /\
  owned_client demo_cfg (buf_client_of demo_cfg CPU_ID two (any_load demo_cfg) ex_ofs ex_arr ex_len) (abs_init buf_s0) /\
  owned_client demo_cfg (list_client_of demo_cfg CPU_ID two ex_hd 8 16 ex_slot ex_live (any_load demo_cfg)) (abs_init list_s0).
Proof.
  split; [apply demo_lib|]. split; [apply cstart_initial|]. split; [apply cstart_initial|].
  split; [exact (inc_owned demo_cfg CPU_ID two ex_cnt inc_s0 two_nodup words_apart_ex)|]. split.
  - apply (buf_owned demo_cfg CPU_ID two ex_ofs ex_arr ex_len (fun _ => [])); auto.
    + exact buf_layout_ex.
    + intros c Hc. apply two_cases in Hc. destruct Hc as [-> | ->]; repeat split; cbn; intros; lia.
    + intros. cbn. lia.
  - exact (list_owned demo_cfg CPU_ID two ex_nodes ex_hd 8 16 ex_slot ex_live list_s0
      (cstart_initial _ _) list_layout_ex list_start_ex).
Qed.

(** A run of the sequentially consistent machine that C53_includes is about: that
    of C11_case. *)
Example C53_case_moves : exists tr s,
  moves demo_cfg dx (inc_client CPU_ID two ex_cnt) (fun _ => True) inc_s0 tr s /\
  count is_call (map snd tr) = 6 /\ count is_ret0 (map snd tr) = 3.
Proof. exact ex_moves. Qed.

(** A run of the buffer client on weakly ordered memory that is not one of the
    sequentially consistent machine with that client: thread 1 reads a stale
    offset.  Its helper call, once it runs on CPU 0, sees the newer one and returns
    1, so the element pushed by thread 0 is not lost. *)
Example C53_case_weak : exists wtr W m, wpath demo_cfg dx ex_buf_client (wstart buf_s0) wtr W /\
  returned 0 0 wtr = true /\ returned 1 1 wtr = true /\
  (forall x, newest (w_hist W x) (m x)) /\ ldw demo_cfg m (ex_ofs 0) = 1 /\ ldw demo_cfg m (ex_arr 0) = 7 /\
  forall tr s, path demo_cfg dx ex_buf_client buf_s0 tr s -> ~ same_steps wtr tr.
Proof. exact ex_stale. Qed.
