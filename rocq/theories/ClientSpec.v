(** Vocabulary of the statements C11-C15. *)
From Coq Require Import ZArith Bool List.
From Verif Require Import RseqIR RseqSpec RseqKernel RseqSim RseqCalls LinSpec ClientModel.
Import ListNotations.
Local Open Scope Z_scope.

(** ** Counters (C11, C12) *)

(** Sum over the CPUs of a per-CPU word. *)
Definition total (g : cfg) (cpus : list Z) (cnt : Z -> Z) (m : mem) : Z :=
  fold_right (fun cpu s => ldw g m (cnt cpu) + s) 0 cpus.

(** The counters of different CPUs do not overlap. *)
Definition words_apart (g : cfg) (cpus : list Z) (p : Z -> Z) : Prop :=
  forall c d, In c cpus -> In d cpus -> c <> d -> disjoint (span (p c) (wsize g)) (span (p d) (wsize g)).

(** Client code that only uses the counters through
    rseq_load_add_store(&count[cpu], inc, cpu); whatever else it does, its plain
    stores do not overwrite the counters. *)
Definition counter_code {Loc} (g : cfg) (md : imode) (cpus : list Z) (cnt : Z -> Z) (inc : Z) (cl : client Loc) : Prop :=
  (forall l m c, cl_call _ cl l m c ->
     In (c_cpu c) cpus /\ c_mode c = md /\ c_op c = AddStore (cnt (c_cpu c)) inc) /\
  (forall l m ps l' cpu, cl_write _ cl l m ps l' -> In cpu cpus ->
     disjoint (map fst ps) (span (cnt cpu) (wsize g))).

(** Number of calls made, of returns, and of returns of 0, in a run. *)
Definition is_call (l : clabel) : bool := match l with Lcall _ _ => true | _ => false end.
Definition is_ret (l : clabel) : bool := match l with Lret _ _ _ => true | _ => false end.
Definition is_ret0 (l : clabel) : bool := match l with Lret _ _ r => r =? 0 | _ => false end.
Definition count {A} (f : A -> bool) (ls : list A) : Z := Z.of_nat (length (filter f ls)).

(** No helper call is in progress. *)
Definition quiescent {Loc} (s : state Loc) : Prop := forall t, in_progress s t = [].

(** Thread [t] is about to run [n] iterations of the counter test; or has done them. *)
Definition inc_start (s : state inc_loc) (t n : nat) : Prop :=
  t_ctx (s_thr s t) = [{| x_loc := Inc_read n; x_act := None |}].
Definition inc_finished (s : state inc_loc) (t : nat) : Prop :=
  t_ctx (s_thr s t) = [{| x_loc := Inc_read 0; x_act := None |}].

(** [f 0 + ... + f (n - 1)] *)
Fixpoint sum_to (n : nat) (f : nat -> nat) : nat := match n with O => O | S n' => (sum_to n' f + f n')%nat end.

(** ** Spinlock (C12) *)

(** The context has returned from rseq_this_cpu_lock() with [cpu] and not yet
    completed rseq_percpu_unlock(). *)
Definition holding (cpu : Z) (l : lock_loc) : bool :=
  match l with
  | Lk_held _ c | Lk_read _ c _ | Lk_wrote _ c | Lk_release _ c => c =? cpu
  | _ => false
  end.
(** Number of contexts of thread [t] that hold the lock of [cpu]. *)
Definition holders (s : state lock_loc) (cpu : Z) (t : nat) : nat :=
  length (filter (fun x => holding cpu (x_loc x)) (t_ctx (s_thr s t))).

(** The store of count++ by client code. *)
Definition is_count_store (e : event lock_loc) : bool :=
  match e with Wrt _ (Lk_read _ _ _) _ _ => true | _ => false end.

(** Lock words and counters of all CPUs are separate. *)
Definition lock_layout (g : cfg) (cpus : list Z) (cnt lk : Z -> Z) : Prop :=
  words_apart g cpus cnt /\ words_apart g cpus lk /\
  forall c d, In c cpus -> In d cpus -> disjoint (span (cnt c) (wsize g)) (span (lk d) (wsize g)).

(** ** Lists (C13) *)

(** [l] is the chain of nodes that starts with pointer [a]. *)
Fixpoint chain (g : cfg) (off : Z) (m : mem) (a : Z) (l : list Z) : Prop :=
  match l with
  | [] => a = 0
  | n :: l' => a = n /\ n <> 0 /\ chain g off m (ldw g m (nxt g off n)) l'
  end.

(** Where a node is: on the list of a CPU, or held by the context at depth [d]
    of thread [t]. *)
Inductive place := OnList (cpu : Z) | Held (t d : nat).

(** What a byte of memory belongs to. *)
Inductive list_obj := Head (cpu : Z) | Node (n : Z) | Local (t d : nat) | Other.

(** Heads, nodes and local variables are separate objects; nodes are not NULL,
    and contain their next field. *)
Definition list_layout (g : cfg) (cpus nodes : list Z) (hd : Z -> Z) (off : Z) (nodesz : nat)
    (slot : nat -> nat -> Z) (live : nat -> nat -> Prop) : Prop :=
  exists lay : Z -> list_obj,
    (forall cpu a, In cpu cpus -> In a (span (hd cpu) (wsize g)) -> lay a = Head cpu) /\
    (forall n a, In n nodes -> In a (span n nodesz) -> lay a = Node n) /\
    (forall n, In n nodes -> incl (span (nxt g off n) (wsize g)) (span n nodesz)) /\
    (forall t d a, live t d -> In a (span (slot t d) (wsize g)) -> lay a = Local t d) /\
    (forall n, In n nodes -> 0 < n < wmod g).

(** The nodes a context holds, judging from its local state and whether it is
    inside a helper call: during a push the node being pushed is held until the
    moment the helper makes its store, and during a pop the node is held from
    that moment on. *)
Definition holds_nodes (g : cfg) (slot : nat -> nat -> Z) (m : mem) (l : list_loc) (in_call : bool) (V : list Z) : Prop :=
  let got := ldw g m (slot (ll_tid l) (ll_depth l)) in
  match ll_pc l, in_call with
  | L_push _ n _, _ => V = n :: ll_hold l
  | L_pushw _ n _, false => V = n :: ll_hold l
  | L_pushw _ n _, true => V = n :: ll_hold l \/ V = ll_hold l
  | L_pop _, true => V = ll_hold l \/ V = got :: ll_hold l
  | L_got, _ => V = got :: ll_hold l
  | _, _ => V = ll_hold l
  end.

(** The context at depth [d] (0 is the thread itself, then its handlers). *)
Definition context_at {Loc} (s : state Loc) (t d : nat) : option (Loc * bool) :=
  nth_error (rev (contexts s t)) d.

(** Every node is in exactly one place: [whr] tells which. *)
Definition nodes_conserved (g : cfg) (cpus nodes : list Z) (hd : Z -> Z) (off : Z) (slot : nat -> nat -> Z)
    (s : state list_loc) (whr : Z -> place) : Prop :=
  (forall cpu, In cpu cpus -> exists L, chain g off (s_mem s) (ldw g (s_mem s) (hd cpu)) L /\ NoDup L /\
     forall n, In n L <-> In n nodes /\ whr n = OnList cpu) /\
  (forall t d, exists V, NoDup V /\ (forall n, In n V <-> In n nodes /\ whr n = Held t d) /\
     match context_at s t d with
     | Some (l, b) => holds_nodes g slot (s_mem s) l b V
     | None => V = []
     end) /\
  (forall n cpu, In n nodes -> whr n = OnList cpu -> In cpu cpus).

(** Initial states: lists made of nodes, every thread holding some nodes. *)
Definition list_start (g : cfg) (cpus nodes : list Z) (hd : Z -> Z) (off : Z) (slot : nat -> nat -> Z)
    (s : state list_loc) : Prop :=
  (forall t, exists h, map x_loc (t_ctx (s_thr s t)) = [{| ll_tid := t; ll_depth := 0; ll_hold := h; ll_pc := L_idle |}]) /\
  exists whr, nodes_conserved g cpus nodes hd off slot s whr.

(** Lists as stacks of nodes: a push that takes effect puts its node on top, a
    pop that takes effect finds the top node in the head of the list and removes
    it, and a pop that fails its comparison finds the list empty. *)
Definition list_step (g : cfg) (hd : Z -> Z) (S : Z -> list Z) (e : event list_loc) : option (Z -> list Z) :=
  match e with
  | Eff _ l _ m =>
    match ll_pc l with
    | L_pushw cpu n _ => Some (fun c => if c =? cpu then n :: S cpu else S c)
    | L_pop cpu => match S cpu with
        | n :: S' => if ldw g m (hd cpu) =? n then Some (fun c => if c =? cpu then S' else S c) else None
        | [] => None
        end
    | _ => None
    end
  | Cmp _ l _ _ =>
    match ll_pc l with
    | L_pushw _ _ _ => Some S
    | L_pop cpu => match S cpu with [] => Some S | _ => None end
    | _ => None
    end
  | _ => Some S
  end.
Fixpoint list_run (g : cfg) (hd : Z -> Z) (S : Z -> list Z) (evs : list (event list_loc)) : option (Z -> list Z) :=
  match evs with
  | [] => Some S
  | e :: evs' => match list_step g hd S e with Some S' => list_run g hd S' evs' | None => None end
  end.

(** When pop's helper returns 0, the local variable holds the node that was at
    the head when the pop took effect. *)
Definition popped_node (g : cfg) (c : call) (me mr : mem) : Prop :=
  match c_op c with
  | CbeqStoreAddLoadStore v _ _ load => ldw g mr load = ldw g me v
  | _ => True
  end.

(** ** Buffers (C14, C15) *)

Inductive buf_obj := Offset (cpu : Z) | Array (cpu : Z) | Mine (t : nat) | Elsewhere.

Definition buf_layout (g : cfg) (cpus : list Z) (ofs arr : Z -> Z) (buflen : Z -> nat) : Prop :=
  exists lay : Z -> buf_obj,
    (forall cpu a, In cpu cpus -> In a (span (ofs cpu) (wsize g)) -> lay a = Offset cpu) /\
    (forall cpu a, In cpu cpus -> In a (span (arr cpu) (buflen cpu * wsize g)) -> lay a = Array cpu) /\
    (forall cpu, In cpu cpus -> Z.of_nat (buflen cpu) < wmod g).

(** Stacks of the CPUs, top first. *)
Definition stacks (A : Type) := Z -> list A.
Definition set_stack {A} (S : stacks A) (cpu : Z) (l : list A) : stacks A :=
  fun c => if c =? cpu then l else S c.

(** The buffer of a CPU in memory holds the stack [S]. *)
Fixpoint stack_in (g : cfg) (arr : Z -> Z) (m : mem) (cpu : Z) (S : list Z) : Prop :=
  match S with
  | [] => True
  | x :: S' => ldw g m (arr_slot g arr cpu (Z.of_nat (length S'))) = x /\ stack_in g arr m cpu S'
  end.
Definition buffers_hold (g : cfg) (cpus : list Z) (ofs arr : Z -> Z) (m : mem) (S : stacks Z) : Prop :=
  forall cpu, In cpu cpus ->
    ldw g m (ofs cpu) = Z.of_nat (length (S cpu)) /\ stack_in g arr m cpu (S cpu).


(** Bounded stacks: push needs room, pop needs (and yields) the top. *)
Definition buf_step (buflen : Z -> nat) (S : stacks Z) (e : event buf_loc) : option (stacks Z) :=
  match e with
  | Eff _ (B_push2 v cpu _) _ _ =>
      if (length (S cpu) <? buflen cpu)%nat then Some (set_stack S cpu (v :: S cpu)) else None
  | Eff _ (B_pop2 cpu _ v) _ _ =>
      match S cpu with
      | x :: S' => if x =? v then Some (set_stack S cpu S') else None
      | [] => None
      end
  | Eff _ _ _ _ => None
  | _ => Some S
  end.
Fixpoint buf_run (buflen : Z -> nat) (S : stacks Z) (evs : list (event buf_loc)) : option (stacks Z) :=
  match evs with
  | [] => Some S
  | e :: evs' => match buf_step buflen S e with Some S' => buf_run buflen S' evs' | None => None end
  end.

(** ** Records (C15) *)
Definition rec_layout (g : cfg) (cpus : list Z) (ofs arr : Z -> Z) (buflen : Z -> nat) (reclen : nat)
    (arg out : nat -> nat -> Z) (live : nat -> nat -> Prop) : Prop :=
  (exists lay : Z -> buf_obj,
    (forall cpu a, In cpu cpus -> In a (span (ofs cpu) (wsize g)) -> lay a = Offset cpu) /\
    (forall cpu a, In cpu cpus -> In a (span (arr cpu) (buflen cpu * reclen)) -> lay a = Array cpu) /\
    (forall t d a, live t d -> In a (span (arg t d) reclen) \/ In a (span (out t d) reclen) -> lay a = Mine t)) /\
  (forall cpu, In cpu cpus -> Z.of_nat (buflen cpu) < wmod g /\
     0 <= arr cpu /\ arr cpu + Z.of_nat (buflen cpu * reclen) <= wmod g) /\
  (forall t d, live t d -> 0 <= arg t d /\ arg t d + Z.of_nat reclen <= wmod g /\
     0 <= out t d /\ out t d + Z.of_nat reclen <= wmod g) /\
  (forall t d d', live t d -> live t d' -> d <> d' -> disjoint (span (arg t d) reclen) (span (arg t d') reclen) /\
     disjoint (span (out t d) reclen) (span (out t d') reclen)) /\
  (forall t d d', live t d -> live t d' -> disjoint (span (arg t d) reclen) (span (out t d') reclen)).

Fixpoint records_in (arr : Z -> Z) (reclen : nat) (m : mem) (cpu : Z) (S : list (list Z)) : Prop :=
  match S with
  | [] => True
  | x :: S' => bytes_at m (rec_slot arr reclen cpu (Z.of_nat (length S'))) reclen = x /\ records_in arr reclen m cpu S'
  end.
Definition rec_buffers_hold (g : cfg) (cpus : list Z) (ofs arr : Z -> Z) (reclen : nat) (m : mem) (S : stacks (list Z)) : Prop :=
  forall cpu, In cpu cpus ->
    ldw g m (ofs cpu) = Z.of_nat (length (S cpu)) /\ records_in arr reclen m cpu (S cpu).

(** A push that takes effect pushes the record push was called with; a pop that
    takes effect copies the top record, byte for byte. *)
Definition rec_step (buflen : Z -> nat) (S : stacks (list Z)) (e : event rec_loc) : option (stacks (list Z)) :=
  match e with
  | Eff _ l c m =>
    match rl_pc l, c_op c with
    | M_push2 item cpu _, _ =>
        if (length (S cpu) <? buflen cpu)%nat then Some (set_stack S cpu (item :: S cpu)) else None
    | M_pop2 cpu _, CbneMemcpyStore _ _ _ src len _ =>
        match S cpu with
        | x :: S' => if list_eq_dec Z.eq_dec (bytes_at m src len) x then Some (set_stack S cpu S') else None
        | [] => None
        end
    | _, _ => None
    end
  | _ => Some S
  end.
Fixpoint rec_run (buflen : Z -> nat) (S : stacks (list Z)) (evs : list (event rec_loc)) : option (stacks (list Z)) :=
  match evs with
  | [] => Some S
  | e :: evs' => match rec_step buflen S e with Some S' => rec_run buflen S' evs' | None => None end
  end.

(** When pop's helper returns 0, the caller's buffer holds the bytes of the
    record that was copied when the pop took effect. *)
Definition popped_record (c : call) (me mr : mem) : Prop :=
  match c_op c with
  | CbneMemcpyStore _ expect dst src len newv => newv = expect - 1 -> bytes_at mr dst len = bytes_at me src len
  | _ => True
  end.
