(** Vocabulary of C61: what every structure of a program guarantees. *)
From Coq Require Import ZArith Bool List.
From Verif Require Import RseqIR RseqSpec RseqKernel RseqSim RseqCalls LinSpec ClientModel ClientSpec ComposeModel.
Import ListNotations.
Local Open Scope Z_scope.

(** The memory of a structure is laid out as its code expects (C11-C15). *)
Definition piece_ok (g : cfg) (p : piece) : Prop :=
  let cpus := p_cpus p in
  match p_kind p with
  | K_nothing => True
  | K_count cnt _ | K_inc cnt => NoDup cpus /\ words_apart g cpus cnt
  | K_lock cnt lk => 1 < wmod g /\ NoDup cpus /\ lock_layout g cpus cnt lk
  | K_list nodes hd off nodesz slot live load =>
      list_layout g cpus nodes hd off nodesz slot live /\ forall m q v, load m q v -> 0 <= v < wmod g
  | K_buf ofs arr buflen _ => buf_layout g cpus ofs arr buflen
  | K_rec ofs arr buflen reclen arg out live _ => rec_layout g cpus ofs arr buflen reclen arg out live
  end.

(** No byte belongs to two structures. *)
Definition separate (g : cfg) (ps : nat -> piece) : Prop :=
  forall i j a, i <> j -> piece_bytes g (ps i) a -> piece_bytes g (ps j) a -> False.

(** How the threads and the memory of a structure start. *)
Definition kind_start (g : cfg) (cpus : list Z) (k : kind) : state (kind_loc k) -> Prop :=
  match k with
  | K_nothing | K_count _ _ => fun _ => True
  | K_inc _ => fun s => forall t, exists n, inc_start s t n
  | K_lock _ _ => fun s => forall t, exists n, map x_loc (t_ctx (s_thr s t)) = [Lk_idle n]
  | K_list nodes hd off nodesz slot live _ => list_start g cpus nodes hd off slot
  | K_buf ofs arr buflen _ => fun s =>
      (forall t, map x_loc (t_ctx (s_thr s t)) = [B_idle]) /\
      exists S0, buffers_hold g cpus ofs arr (s_mem s) S0 /\ forall cpu, In cpu cpus -> (length (S0 cpu) <= buflen cpu)%nat
  | K_rec ofs arr buflen reclen arg out live _ => fun s =>
      (forall t, map x_loc (t_ctx (s_thr s t)) = [{| rl_tid := t; rl_depth := 0; rl_pc := M_idle |}]) /\
      exists S0, rec_buffers_hold g cpus ofs arr reclen (s_mem s) S0 /\ forall cpu, In cpu cpus -> (length (S0 cpu) <= buflen cpu)%nat
  end.
Definition piece_start (g : cfg) (p : piece) (s : state (piece_loc p)) : Prop := kind_start g (p_cpus p) (p_kind p) s.

(** [linearization] (LinSpec.v) for given observed events [os]. *)
Definition linearized {L} (g : cfg) (res : call -> mem -> mem -> Prop) (os : list (event L)) (s : state L)
    (evs : list (event L)) : Prop :=
  observed evs = os /\
  (forall t, exists k, calls_ok res t evs k /\ map fst k = in_progress s t) /\
  (forall t l c m, In (Eff t l c m) evs -> exists att fin, pseudo g (c_op c) m = OCommit att fin) /\
  (forall t l c m, In (Cmp t l c m) evs -> pseudo g (c_op c) m = OFail).

Definition ev_call {L} (e : event L) : bool := match e with Inv _ _ _ _ => true | _ => false end.
Definition ev_ret {L} (e : event L) : bool := match e with Ret _ _ _ _ _ => true | _ => false end.
Definition ev_ret0 {L} (e : event L) : bool := match e with Ret _ _ _ r _ => r =? 0 | _ => false end.

(** C11: the counters add up to the calls that took effect. *)
Definition counted {L} (g : cfg) (cpus : list Z) (cnt : Z -> Z) (inc : Z) (s0 s : state L) (os : list (event L)) : Prop :=
  exists n, wrap g (total g cpus cnt (s_mem s)) = wrap g (total g cpus cnt (s_mem s0) + n * inc) /\
    count ev_ret0 os <= n /\ n <= count ev_ret0 os + (count ev_call os - count ev_ret os) /\
    (quiescent s -> n = count ev_ret0 os).

(** What a structure guarantees between the state [s0] at the start and a later
    state [s], with the calls, returns and stores [os] of its code in between:
    the conclusions of C11-C15. *)
Definition kind_good (g : cfg) (cpus : list Z) (k : kind)
  : state (kind_loc k) -> state (kind_loc k) -> list (event (kind_loc k)) -> Prop :=
  match k with
  | K_nothing => fun _ _ _ => True
  | K_count cnt inc => fun s0 s os => counted g cpus cnt inc s0 s os
  | K_inc cnt => fun s0 s os => counted g cpus cnt 1 s0 s os /\
      forall N R, (forall t, inc_start s0 t (R t)) -> (forall t, (N <= t)%nat -> R t = O) ->
        (forall t, inc_finished s t) ->
        wrap g (total g cpus cnt (s_mem s)) = wrap g (total g cpus cnt (s_mem s0) + Z.of_nat (sum_to N R))
  | K_lock cnt lk => fun s0 s os =>
      (forall cpu t u, (holders s cpu t <= 1)%nat /\ (t <> u -> holders s cpu t = O \/ holders s cpu u = O)) /\
      (forall t x, In x (t_ctx (s_thr s t)) -> x_loc x <> Lk_assert_failed) /\
      wrap g (total g cpus cnt (s_mem s)) = wrap g (total g cpus cnt (s_mem s0) + count is_count_store os)
  | K_list nodes hd off nodesz slot live _ => fun s0 s os =>
      (exists whr, nodes_conserved g cpus nodes hd off slot s whr) /\
      exists L0 evs L,
        (forall cpu, In cpu cpus -> chain g off (s_mem s0) (ldw g (s_mem s0) (hd cpu)) (L0 cpu)) /\
        linearized g (popped_node g) os s evs /\ list_run g hd L0 evs = Some L /\
        (forall cpu, In cpu cpus -> chain g off (s_mem s) (ldw g (s_mem s) (hd cpu)) (L cpu))
  | K_buf ofs arr buflen _ => fun s0 s os =>
      forall S0, buffers_hold g cpus ofs arr (s_mem s0) S0 -> (forall cpu, In cpu cpus -> (length (S0 cpu) <= buflen cpu)%nat) ->
      exists evs S, linearized g any_res os s evs /\ buf_run buflen S0 evs = Some S /\
        buffers_hold g cpus ofs arr (s_mem s) S /\ (forall cpu, In cpu cpus -> (length (S cpu) <= buflen cpu)%nat)
  | K_rec ofs arr buflen reclen arg out live _ => fun s0 s os =>
      forall S0, rec_buffers_hold g cpus ofs arr reclen (s_mem s0) S0 -> (forall cpu, In cpu cpus -> (length (S0 cpu) <= buflen cpu)%nat) ->
      exists evs S, linearized g popped_record os s evs /\ rec_run buflen S0 evs = Some S /\
        rec_buffers_hold g cpus ofs arr reclen (s_mem s) S /\ (forall cpu, In cpu cpus -> (length (S cpu) <= buflen cpu)%nat)
  end.
Definition piece_good (g : cfg) (p : piece) (s0 s : state (piece_loc p)) (os : list (event (piece_loc p))) : Prop :=
  kind_good g (p_cpus p) (p_kind p) s0 s os.
