(** C01-C10, C16 and C19: the per-CPU helpers.

    Common hypotheses: [lib_text a tw tx] says that the code in memory is made of
    the library's helpers for architecture [a], built with or without
    COMPARE_TWICE; [initial s0] that all threads start idle; [safe_client] that
    the program, seen with indivisible helpers (the abstract machine of
    RseqSpec.v), passes usable arguments and does not write the locations a
    running call uses.  [lifetime] is the life of one call (RseqKernel.v). *)
From Coq Require Import ZArith Bool List Lia.
From Verif Require Import RseqIR RseqSpec RseqKernel RseqSafe RseqProps RseqMisc RseqFacts Archs Replay ExRseq.
Import ListNotations.
Local Open Scope Z_scope.

(** C01: a call that returns 0 has made its final store in one step, at a moment
    [sc] when the thread ran where the cpu argument says and the documented
    operation succeeds on the memory of that moment; the final store leaves the
    memory as the whole documented operation would, all at once (the attempt
    writes, made earlier, already have their documented values); and nothing is
    written after it. *)
Theorem C01_success_atomic : forall (Loc : Type) g a tw tx (cl : client Loc) s0,
  lib_text a tw tx -> initial s0 -> safe_client g cl (abs_init s0) ->
  forall ls s1 t c tr s3 s4, exec g tx cl s0 ls s1 ->
  lifetime g tx cl t c s1 tr s3 0 s4 ->
  exists tr1 sc tr2 att fin,
    tr = tr1 ++ (sc, Lwr t fin) :: tr2 /\ depth sc t = depth s1 t /\ runs_on sc t c /\
    pseudo g (c_op c) (s_mem sc) = OCommit att fin /\
    meq (wr (s_mem sc) fin) (wr (wr (s_mem sc) att) fin) /\
    (forall s ps, In (s, ps) (own_writes t (depth s1 t) tr1) ->
       runs_on s t c /\ exists att' fin', pseudo g (c_op c) (s_mem s) = OCommit att' fin' /\ incl ps att') /\
    own_writes t (depth s1 t) tr2 = [].
Proof. exact c01. Qed.
Print Assumptions C01_success_atomic.

Example C01_case : initial (demo1 0 0) /\ safe_client demo_cfg script_client (abs_init (demo1 0 0)) /\
  lib_text X86_64 false dx /\
  exists tr s3 s4, lifetime demo_cfg dx script_client 0 (k_store 0 16 7 8 0 5) (demo1 0 0) tr s3 0 s4 /\
    map snd (own_writes 0 1 tr) = [w16; w8].
Proof. exact (conj (ex_initial 0 0) (conj (demo1_safe 0) (conj (demo_lib X86_64 false) ex_success))). Qed.

(** C01, all calls together: whatever the threads, the scheduler, signals and
    unloading do, the calls, results and writes observed are those of a run in
    which every helper is one indivisible step, and the memories agree. *)
Theorem C01_refines_indivisible_helpers : forall (Loc : Type) g a tw tx (cl : client Loc) s0,
  lib_text a tw tx -> initial s0 -> safe_client g cl (abs_init s0) ->
  forall ls s, exec g tx cl s0 ls s ->
  exists als a', aexec g cl (abs_init s0) als a' /\ avis als = cvis ls /\ a_mem a' = s_mem s.
Proof. exact refines. Qed.
Print Assumptions C01_refines_indivisible_helpers.

(** C02: a call that returns 1 has written nothing, and at some moment of its
    life, on the right CPU, the documented comparison really failed. *)
Theorem C02_mismatch : forall (Loc : Type) g a tw tx (cl : client Loc) s0,
  lib_text a tw tx -> initial s0 -> safe_client g cl (abs_init s0) ->
  forall ls s1 t c tr s3 s4, exec g tx cl s0 ls s1 ->
  lifetime g tx cl t c s1 tr s3 1 s4 ->
  own_writes t (depth s1 t) tr = [] /\
  exists s l, In (s, l) tr /\ runs_on s t c /\ pseudo g (c_op c) (s_mem s) = OFail.
Proof. exact c02. Qed.
Print Assumptions C02_mismatch.

Example C02_case : initial (demo1 0 1) /\ safe_client demo_cfg script_client (abs_init (demo1 0 1)) /\
  exists tr s3 s4, lifetime demo_cfg dx script_client 0 (k_store 0 16 7 8 1 5) (demo1 0 1) tr s3 1 s4 /\
    map snd (own_writes 0 1 tr) = [].
Proof. exact (conj (ex_initial 0 1) (conj (demo1_safe 1) ex_mismatch)). Qed.

(** C03: a call that returns -1 has not made its final store: all it has written
    are attempt locations, with the values the operation documents. *)
Theorem C03_abort_never_publishes : forall (Loc : Type) g a tw tx (cl : client Loc) s0,
  lib_text a tw tx -> initial s0 -> safe_client g cl (abs_init s0) ->
  forall ls s1 t c tr s3 s4, exec g tx cl s0 ls s1 ->
  lifetime g tx cl t c s1 tr s3 (-1) s4 ->
  forall s ps, In (s, ps) (own_writes t (depth s1 t) tr) ->
    runs_on s t c /\ exists att fin, pseudo g (c_op c) (s_mem s) = OCommit att fin /\ incl ps att.
Proof. exact c03. Qed.
Print Assumptions C03_abort_never_publishes.

(** The only results are 0, 1 and -1. *)
Theorem C03_results : forall (Loc : Type) g a tw tx (cl : client Loc) s0,
  lib_text a tw tx -> initial s0 -> safe_client g cl (abs_init s0) ->
  forall ls s1 t c tr s3 r s4, exec g tx cl s0 ls s1 ->
  lifetime g tx cl t c s1 tr s3 r s4 -> r = 0 \/ r = 1 \/ r = -1.
Proof. exact returns. Qed.
Print Assumptions C03_results.

(** Preempted after its attempt store and moved to another CPU, while another
    thread completes a call; and interrupted by a signal before any store. *)
Example C03_case_preempted : exists tr s3 s4,
  lifetime demo_cfg dx script_client 0 (k_store 0 16 7 8 0 5) (demo1 0 0) tr s3 (-1) s4 /\
  map snd (own_writes 0 1 tr) = [w16].
Proof. exact ex_abort. Qed.
Example C03_case_signal : exists tr s3 s4,
  lifetime demo_cfg dx script_client 0 (k_store 0 16 7 8 0 5) (demo1 0 0) tr s3 (-1) s4 /\
  map snd (own_writes 0 1 tr) = [].
Proof. exact ex_signal. Qed.

(** C04: two running threads are never both between the index check and the
    commit of calls for the same index. *)
Theorem C04_exclusion : forall (Loc : Type) g a tw tx (cl : client Loc) s0,
  lib_text a tw tx -> initial s0 -> safe_client g cl (abs_init s0) ->
  forall ls s t u c d, exec g tx cl s0 ls s ->
  running (s_thr s t) -> running (s_thr s u) -> in_window tx s t c -> in_window tx s u d ->
  c_mode c = c_mode d -> c_cpu c = c_cpu d -> t = u.
Proof. exact c04. Qed.
Print Assumptions C04_exclusion.

Example C04_case : exists ls s, exec demo_cfg dx script_client (demo1 0 0) ls s /\
  in_window dx s 0 dk0 /\ in_window dx s 1 dk1.
Proof. exact ex_two_windows. Qed.

(** C04: a thread descheduled in between resumes at the abort handler, wherever
    it resumes. *)
Theorem C04_interrupted_aborts : forall (Loc : Type) g a tw tx (cl : client Loc) s0,
  lib_text a tw tx -> initial s0 -> safe_client g cl (abs_init s0) ->
  forall ls s t s' c, exec g tx cl s0 ls s ->
  t_on (s_thr s t) = None -> in_window tx s t c -> s_loaded s (c_code c) = true ->
  step g tx cl s Ltau s' -> t_on (s_thr s' t) <> None ->
  exists l f k P kd, t_ctx (s_thr s' t) = {| x_loc := l; x_act := Some f |} :: k /\
    f_call f = c /\ tx (c_code c) = Some (P, kd) /\ f_pc f = cs_abort P.
Proof. exact resumed. Qed.
Print Assumptions C04_interrupted_aborts.

Example C04_case_resumed : exists ls s s', exec demo_cfg dx script_client (demo1 0 0) ls s /\
  t_on (s_thr s 0) = None /\ in_window dx s 0 dk0 /\ s_loaded s (c_code dk0) = true /\
  step demo_cfg dx script_client s Ltau s' /\ t_on (s_thr s' 0) <> None.
Proof. exact ex_resumed. Qed.

(** C04: a signal handler never runs on top of a call that is inside its
    critical section: the call has been moved to its abort handler first. *)
Theorem C04_handler_never_inside : forall (Loc : Type) g a tw tx (cl : client Loc) s0,
  lib_text a tw tx -> initial s0 -> safe_client g cl (abs_init s0) ->
  forall ls s t x k y f, exec g tx cl s0 ls s -> t_reg (s_thr s t) = true ->
  t_ctx (s_thr s t) = x :: k -> In y k -> x_act y = Some f -> ~ in_section tx f.
Proof. exact c04_handler. Qed.
Print Assumptions C04_handler_never_inside.

(** C05: a call during which the thread never runs, registered, on the CPU given
    as argument returns -1 and writes nothing. *)
Theorem C05_wrong_cpu : forall (Loc : Type) g a tw tx (cl : client Loc) s0,
  lib_text a tw tx -> initial s0 -> safe_client g cl (abs_init s0) ->
  forall ls s1 t c tr s3 r s4, exec g tx cl s0 ls s1 ->
  lifetime g tx cl t c s1 tr s3 r s4 ->
  (forall s l, In (s, l) tr -> ~ runs_on s t c) ->
  r = -1 /\ own_writes t (depth s1 t) tr = [].
Proof. exact c05. Qed.
Print Assumptions C05_wrong_cpu.

Example C05_case : exists tr s3 s4,
  lifetime demo_cfg dx script_client 0 (k_store 3 16 7 8 0 5) (demo1 3 0) tr s3 (-1) s4 /\
  map snd (own_writes 0 1 tr) = [].
Proof. exact ex_wrong_cpu. Qed.

(** C05: every write of every call is made on the right CPU. *)
Theorem C05_writes_on_right_cpu : forall (Loc : Type) g a tw tx (cl : client Loc) s0,
  lib_text a tw tx -> initial s0 -> safe_client g cl (abs_init s0) ->
  forall ls s1 t c tr s3 r s4, exec g tx cl s0 ls s1 ->
  lifetime g tx cl t c s1 tr s3 r s4 ->
  forall s ps, In (s, ps) (own_writes t (depth s1 t) tr) -> runs_on s t c.
Proof. exact c05_writes. Qed.
Print Assumptions C05_writes_on_right_cpu.

(** C06 is false: an unregistered thread calling a helper in mm_cid mode with cpu
    argument 0 commits and gets 0 (the mm_cid field of an unregistered area is
    0). *)
Theorem C06_unregistered_mm_cid_refuted : exists ls s,
  steps script demo_cfg dx script_client demo2 ls s /\
  lib_text X86_64 false dx /\ initial demo2 /\ t_reg (s_thr demo2 0) = false /\
  t_reg (s_thr s 0) = false /\ In (Lret 0 k_cid 0) ls /\ In (Lwr 0 (stw demo_cfg 8 5)) ls /\
  ldw demo_cfg (s_mem s) 8 = 5.
Proof. exact ex_unregistered_full. Qed.
Print Assumptions C06_unregistered_mm_cid_refuted.

(** C06, what holds: the call fails if the thread stays unregistered, provided the
    cpu argument is not the value shown by an unregistered area ([call_ok], part
    of [lifetime]: 0 in mm_cid mode, -1 in cpu_id mode).  Missing: cpu argument 0
    in mm_cid mode, refuted above. *)
Theorem C06_unregistered_partial : forall (Loc : Type) g a tw tx (cl : client Loc) s0,
  lib_text a tw tx -> initial s0 -> safe_client g cl (abs_init s0) ->
  forall ls s1 t c tr s3 r s4, exec g tx cl s0 ls s1 ->
  lifetime g tx cl t c s1 tr s3 r s4 ->
  (forall s l, In (s, l) tr -> t_reg (s_thr s t) = false) ->
  r = -1 /\ own_writes t (depth s1 t) tr = [].
Proof. exact c06. Qed.
Print Assumptions C06_unregistered_partial.

(** C07: with COMPARE_TWICE, the exits to rseq_bug() are never taken. *)
Theorem C07_error_exits_unreachable : forall (Loc : Type) g a tx (cl : client Loc) s0,
  lib_text a true tx -> initial s0 -> safe_client g cl (abs_init s0) ->
  forall ls s, exec g tx cl s0 ls s -> forall t, ~ In (Lbug t) ls.
Proof. exact c07_twice. Qed.
Print Assumptions C07_error_exits_unreachable.

Example C07_case : exists tr s3 s4,
  lifetime demo_cfg (demo_text X86_64 true) script_client 0 (k_store 0 16 7 8 0 5) (demo1 0 0) tr s3 0 s4 /\
  map snd (own_writes 0 1 tr) = [w16; w8].
Proof. exact ex_twice. Qed.

(** C08: the kernel never kills a thread because of its rseq area, as long as
    code is not unloaded while some area points into it. *)
Theorem C08_never_killed : forall (Loc : Type) g a tw tx (cl : client Loc) s0,
  lib_text a tw tx -> initial s0 -> safe_client g cl (abs_init s0) ->
  forall ls s, careful_exec g tx cl s0 ls s -> forall t, t_dead (s_thr s t) = false.
Proof. exact c08. Qed.
Print Assumptions C08_never_killed.

Example C08_case : exists ls s, careful_exec demo_cfg dx script_client (demo1 0 0) ls s /\
  s_loaded s 5 = false /\ t_on (s_thr s 0) = Some (3, 3).
Proof. exact ex_careful. Qed.
(** ... and the condition on unloading cannot be dropped. *)
Example C08_case_unload_needed : exists ls s, exec demo_cfg dx script_client (demo1 0 0) ls s /\
  t_dead (s_thr s 0) = true.
Proof. exact ex_unload_kills. Qed.

(** C08: every descriptor emitted is one the kernel accepts: a non-empty section,
    an abort handler outside of it, preceded by the signature, and leading to the
    -1 return. *)
Theorem C08_descriptors : forall a tw tx id P kd, lib_text a tw tx -> tx id = Some (P, kd) ->
  (cs_start P < cs_commit P)%nat /\
  ~ (cs_start P <= cs_abort P < cs_commit P)%nat /\
  (0 < cs_abort P)%nat /\ nth_error (code P) (cs_abort P - 1) = Some ISig /\
  exit_of P (cs_abort P) = Some XAbort.
Proof. exact desc_facts. Qed.
Print Assumptions C08_descriptors.

(** C09: on every architecture, each helper, run without interruption, does
    exactly what the pseudo-code says: -1 and no change if the index field differs
    from the cpu argument, 1 and no change if the comparison fails, 0 and the
    documented memory otherwise. *)
Theorem C09_every_architecture : forall g a tw rel md kd P, helper a tw rel md kd = Some P ->
  forall c m idx junk, kind_of (c_op c) = kd ->
  (idx = c_cpu c mod 2 ^ 32 -> op_wf g (c_op c) m) ->
  exists r m', run_alone g P idx (step_bound (c_op c) + length (code P)) m 0 (init_regs c junk) = Some (r, m') /\
  (idx <> c_cpu c mod 2 ^ 32 -> r = -1 /\ meq m' m) /\
  (idx = c_cpu c mod 2 ^ 32 -> pseudo g (c_op c) m = OFail -> r = 1 /\ meq m' m) /\
  (forall att fin, idx = c_cpu c mod 2 ^ 32 -> pseudo g (c_op c) m = OCommit att fin ->
     r = 0 /\ meq m' (wr (wr m att) fin)).
Proof. exact c09. Qed.
Print Assumptions C09_every_architecture.

(** Every architecture has every helper, except that the pointer-chasing add
    exists on x86-64 only. *)
Example C09_case : forall a tw rel md kd,
  helper a tw rel md kd <> None <->
  (kd = KAddLoadLoad -> a = X86_64) /\
  (rel = true -> kd = KStoreStore \/ kd = KMemcpy).
Proof. exact helper_exists. Qed.

(** C10: a call made on the right CPU and not disturbed returns 0 or 1, within a
    bound that depends only on the length given to the memcpy helper. *)
Theorem C10_progress : forall (Loc : Type) g a tw tx (cl : client Loc), lib_text a tw tx ->
  forall (s1 : RseqKernel.state Loc) t c s2,
  step g tx cl s1 (Lcall t c) s2 -> call_ok s1 (Lcall t c) ->
  (index (t_area (s_thr s1 t)) (c_mode c) = c_cpu c mod 2 ^ 32 -> op_wf g (c_op c) (s_mem s1)) ->
  exists tr s3 r s4, lifetime g tx cl t c s1 tr s3 r s4 /\
    (forall s l, In (s, l) tr -> l = Ltau \/ exists ps, l = Lwr t ps) /\
    (length tr < 104 + 8 * op_len (c_op c))%nat /\
    (index (t_area (s_thr s1 t)) (c_mode c) = c_cpu c mod 2 ^ 32 -> r = 0 \/ r = 1).
Proof. exact c10. Qed.
Print Assumptions C10_progress.

Example C10_case : exists s2, step demo_cfg dx script_client (demo1 0 0) (Lcall 0 dk0) s2 /\
  call_ok (demo1 0 0) (Lcall 0 dk0) /\ op_wf demo_cfg (c_op dk0) (s_mem (demo1 0 0)) /\
  index (t_area (s_thr (demo1 0 0) 0)) (c_mode dk0) = c_cpu dk0 mod 2 ^ 32.
Proof. exact ex_call. Qed.

(** C16: the entry points of rseq.h run the code for the requested memory order
    and index mode, with the field of that mode; any other combination returns
    -1 and does nothing. *)
Theorem C16_dispatch : forall g a tw ar junk m mo mode op cpu,
  (supported_mo op mo = false \/ (mode <> 0 /\ mode <> 1) -> forall fuel,
     call_entry g a tw ar fuel junk m mo mode op cpu = Some (-1, m)) /\
  (supported_mo op mo = true -> (kind_of op = KAddLoadLoad -> a = X86_64) ->
   forall idx, (mode = 0 /\ idx = cpu_field ar \/ mode = 1 /\ idx = cid_field ar) ->
   (idx = cpu mod 2 ^ 32 -> op_wf g op m) ->
   exists r m', call_entry g a tw ar (104 + 8 * op_len op) junk m mo mode op cpu = Some (r, m') /\
   (idx <> cpu mod 2 ^ 32 -> r = -1 /\ meq m' m) /\
   (idx = cpu mod 2 ^ 32 -> pseudo g op m = OFail -> r = 1 /\ meq m' m) /\
   (forall att fin, idx = cpu mod 2 ^ 32 -> pseudo g op m = OCommit att fin ->
      r = 0 /\ meq m' (wr (wr m att) fin))).
Proof. exact c16. Qed.
Print Assumptions C16_dispatch.

Example C16_case :
  supported_mo (CbneStoreStore 8 0 16 7 5) 3 = true /\ supported_mo (CbneStore 8 0 5) 3 = false /\
  supported_mo (CbneStoreStore 8 0 16 7 5) 1 = false.
Proof. repeat split. Qed.

(** C19: after a thread has called rseq_prepare_unload() outside of the code and
    as long as it does not call that code again, it is not in the code and its
    area does not point to its descriptors. *)
Theorem C19_prepared : forall (Loc : Type) g tx (cl : client Loc) s tr s' t id,
  prepared_in g tx cl s tr s' t id ->
  (forall x, In x (t_ctx (s_thr s' t)) -> ~ in_code id x) /\ rseq_cs (t_area (s_thr s' t)) <> Some id.
Proof. exact prepared_in_ok. Qed.
Print Assumptions C19_prepared.

(** C19: nor does a thread that never called the code. *)
Theorem C19_never_called : forall (Loc : Type) g tx (cl : client Loc) s0 tr s' t id,
  initial s0 -> path g tx cl s0 tr s' ->
  (forall sx c, In (sx, Lcall t c) tr -> c_code c <> id) ->
  (forall x, In x (t_ctx (s_thr s' t)) -> ~ in_code id x) /\ rseq_cs (t_area (s_thr s' t)) <> Some id.
Proof. exact never_called_ok. Qed.
Print Assumptions C19_never_called.

(** C19: so unloading a code that every thread has prepared for, or never called,
    is harmless: no thread is ever killed by the kernel. *)
Theorem C19_unload_safe : forall (Loc : Type) g a tw tx (cl : client Loc) s0,
  lib_text a tw tx -> initial s0 -> safe_client g cl (abs_init s0) ->
  forall tr s', path g tx cl s0 tr s' ->
  (forall tr1 s1 tr2 s2 l id, tr = tr1 ++ (s1, l) :: tr2 -> hd_error (map fst tr2 ++ [s']) = Some s2 ->
     s_loaded s1 id = true -> s_loaded s2 id = false ->
     forall t, prepared_in g tx cl s0 tr1 s1 t id \/
       (forall sx c, In (sx, Lcall t c) tr1 -> c_code c <> id)) ->
  forall t, t_dead (s_thr s' t) = false.
Proof. exact c19. Qed.
Print Assumptions C19_unload_safe.

Example C19_case : exists tr s', path demo_cfg dx script_client (demo1 0 0) tr s' /\
  prepared_in demo_cfg dx script_client (demo1 0 0) tr s' 0 5 /\
  (exists sx, In (sx, Lcall 0 dk0) tr) /\ c_code dk0 = 5%nat.
Proof. exact ex_prepared. Qed.
