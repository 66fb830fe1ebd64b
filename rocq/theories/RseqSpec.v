(** Specification of the critical-section helpers, transcribed from
    include/rseq/pseudocode.h, and the abstract machine in which every helper
    is one indivisible step. *)
From Coq Require Import ZArith Bool List.
From Verif Require Import RseqIR.
Import ListNotations.
Local Open Scope Z_scope.

(** The seven helpers with their arguments (include/rseq/pseudocode.h). *)
Inductive opcall :=
  | CbneStore (v expect newv : Z)
  | AddStore (v count : Z)
  | CbeqStoreAddLoadStore (v expectnot voffp load : Z)
  | AddLoadLoadAddStore (ptr off inc : Z)
  | CbneLoadCbneStore (v expect v2 expect2 newv : Z)
  | CbneStoreStore (v expect v2 newv2 newv : Z)
  | CbneMemcpyStore (v expect dst src : Z) (len : nat) (newv : Z).

(** Outcome of the pseudo-code on a memory: the comparison fails, or the
    attempt writes followed by the final write (as byte writes). *)
Inductive outcome :=
  | OFail
  | OCommit (att fin : list (Z * Z)).

Definition memcpy_bytes (m : mem) (dst src : Z) (len : nat) : list (Z * Z) :=
  map (fun i => (dst + Z.of_nat i, byte m (src + Z.of_nat i))) (seq 0 len).

(** include/rseq/pseudocode.h:37-140, one case per helper. *)
Definition pseudo (g : cfg) (op : opcall) (m : mem) : outcome :=
  match op with
  | CbneStore v expect newv =>
      if ldw g m v =? expect then OCommit [] (stw g v newv) else OFail
  | AddStore v count =>
      OCommit [] (stw g v (wrap g (ldw g m v + count)))
  | CbeqStoreAddLoadStore v expectnot voffp load =>
      let r1 := ldw g m v in
      if r1 =? expectnot then OFail
      else OCommit (stw g load r1) (stw g v (ldw g m (wrap g (r1 + voffp))))
  | AddLoadLoadAddStore ptr off inc =>
      let r2 := ldw g m (wrap g (ldw g m ptr + off)) in
      OCommit [] (stw g r2 (wrap g (ldw g m r2 + inc)))
  | CbneLoadCbneStore v expect v2 expect2 newv =>
      if ldw g m v =? expect then
        if ldw g m v2 =? expect2 then OCommit [] (stw g v newv) else OFail
      else OFail
  | CbneStoreStore v expect v2 newv2 newv =>
      if ldw g m v =? expect then OCommit (stw g v2 newv2) (stw g v newv) else OFail
  | CbneMemcpyStore v expect dst src len newv =>
      if ldw g m v =? expect then OCommit (memcpy_bytes m dst src len) (stw g v newv) else OFail
  end.

(** Bytes of shared memory the pseudo-code reads on memory [m]. *)
Definition read_foot (g : cfg) (op : opcall) (m : mem) : list Z :=
  let w a := span a (wsize g) in
  match op with
  | CbneStore v _ _ => w v
  | AddStore v _ => w v
  | CbeqStoreAddLoadStore v expectnot voffp _ =>
      w v ++ (if ldw g m v =? expectnot then [] else w (wrap g (ldw g m v + voffp)))
  | AddLoadLoadAddStore ptr off _ =>
      w ptr ++ w (wrap g (ldw g m ptr + off)) ++ w (ldw g m (wrap g (ldw g m ptr + off)))
  | CbneLoadCbneStore v expect v2 _ _ =>
      w v ++ (if ldw g m v =? expect then w v2 else [])
  | CbneStoreStore v _ _ _ _ => w v
  | CbneMemcpyStore v expect _ src len _ =>
      w v ++ (if ldw g m v =? expect then span src len else [])
  end.

(** The documented attempt writes on memory [m] (empty if the comparison fails). *)
Definition attempts (g : cfg) (op : opcall) (m : mem) : list (Z * Z) :=
  match pseudo g op m with OFail => [] | OCommit att _ => att end.

(** Helpers that make a single comparison. *)
Definition one_compare (op : opcall) : bool :=
  match op with
  | CbneStore _ _ _ | CbeqStoreAddLoadStore _ _ _ _ | CbneStoreStore _ _ _ _ _
  | CbneMemcpyStore _ _ _ _ _ _ => true
  | _ => false
  end.

(** Locations in use by a call: what it reads, and where it attempts to write. *)
Definition in_use (g : cfg) (op : opcall) (m : mem) : list Z :=
  read_foot g op m ++ map fst (attempts g op m).

Definition disjoint (l1 l2 : list Z) : Prop := forall a, In a l1 -> In a l2 -> False.

(** Arguments are usable: the attempt locations overlap neither the locations
    the call reads nor each other (v2, *load and dst are distinct from v and
    from what is read), and the byte ranges of memcpy, if it is going to copy,
    do not wrap around the end of the address space. *)
Definition op_wf (g : cfg) (op : opcall) (m : mem) : Prop :=
  disjoint (map fst (attempts g op m)) (read_foot g op m) /\
  match op with
  | CbneMemcpyStore v expect dst src len _ => ldw g m v = expect ->
      0 <= src /\ 0 <= dst /\ src + Z.of_nat len <= wmod g /\ dst + Z.of_nat len <= wmod g
  | _ => True
  end.

(** A call: which code runs, the operation, and the cpu argument. *)
Record call := { c_code : nat; c_op : opcall; c_cpu : Z; c_mode : imode }.

(** ** Abstract machine

    Threads run client code (an arbitrary transition system over a local state
    [Loc]); a helper call is in progress ([Pending w], where [w] tells whether it
    has already written some of its attempt locations) until it takes effect in
    one step, then [Finished r] until it returns [r].  A signal suspends the
    current context and starts a handler context on the same thread. *)
Inductive status := Pending (wrote : bool) | Finished (r : Z).

Definition meq (m m' : mem) : Prop := forall a, m a = m' a.

Section Abstract.
Variable Loc : Type.

(** What the client code of a thread may do. *)
Record client := {
  cl_call : Loc -> mem -> call -> Prop;           (* may call a helper *)
  cl_ret : Loc -> call -> Z -> Loc;               (* local state after the return value *)
  cl_write : Loc -> mem -> list (Z * Z) -> Loc -> Prop;  (* may do a plain store *)
  cl_tau : Loc -> mem -> Loc -> Prop;             (* local step, may read memory *)
  cl_sig : Loc -> Loc -> Prop;                    (* local state of a signal handler *)
  cl_done : Loc -> Prop                           (* the handler may return *)
}.

Record actx := { a_loc : Loc; a_act : option (call * status) }.

(** [a_on t]: the (cpu, mm_cid) pair thread t currently runs with, None if it is
    not running or not registered with rseq. *)
Record astate := { a_mem : mem; a_on : nat -> option (Z * Z); a_thr : nat -> list actx }.

Definition on_index (o : option (Z * Z)) (md : imode) : option Z :=
  match o with
  | None => None
  | Some (cpu, cid) => Some (match md with CPU_ID => cpu | MM_CID => cid end)
  end.

(** The call runs where its cpu argument says. *)
Definition on_right_cpu (s : astate) (t : nat) (c : call) : Prop :=
  on_index (a_on s t) (c_mode c) = Some (c_cpu c).

Definition set_thr (s : astate) (t : nat) (k : list actx) : astate :=
  {| a_mem := a_mem s; a_on := a_on s;
     a_thr := fun u => if Nat.eqb u t then k else a_thr s u |}.
Definition set_amem (s : astate) (m : mem) : astate :=
  {| a_mem := m; a_on := a_on s; a_thr := a_thr s |}.
Definition set_aon (s : astate) (on : nat -> option (Z * Z)) : astate :=
  {| a_mem := a_mem s; a_on := on; a_thr := a_thr s |}.

(** Two running threads never share a CPU nor an mm_cid. *)
Definition exclusive (on : nat -> option (Z * Z)) : Prop :=
  forall t u c1 d1 c2 d2, t <> u -> on t = Some (c1, d1) -> on u = Some (c2, d2) ->
    c1 <> c2 /\ d1 <> d2.

(** Labels of the abstract steps: which thread writes which bytes. *)
Inductive alabel := ALtau | ALcall (t : nat) (c : call) | ALret (t : nat) (c : call) (r : Z)
  | ALattempt (t : nat) (c : call) (ps : list (Z * Z))
  | ALcommit (t : nat) (c : call) (ps : list (Z * Z))
  | ALwrite (t : nat) (ps : list (Z * Z))
  | ALfail (t : nat) (c : call).

Inductive astep (g : cfg) (cl : client) : astate -> alabel -> astate -> Prop :=
  | A_call : forall s t l k c,
      a_thr s t = {| a_loc := l; a_act := None |} :: k ->
      cl_call cl l (a_mem s) c ->
      astep g cl s (ALcall t c)
        (set_thr s t ({| a_loc := l; a_act := Some (c, Pending false) |} :: k))
  | A_ret : forall s t l k c r,
      a_thr s t = {| a_loc := l; a_act := Some (c, Finished r) |} :: k ->
      astep g cl s (ALret t c r) (set_thr s t ({| a_loc := cl_ret cl l c r; a_act := None |} :: k))
  | A_write : forall s t l k ps l' m',
      a_thr s t = {| a_loc := l; a_act := None |} :: k ->
      cl_write cl l (a_mem s) ps l' ->
      meq m' (wr (a_mem s) ps) ->
      astep g cl s (ALwrite t ps) (set_amem (set_thr s t ({| a_loc := l'; a_act := None |} :: k)) m')
  | A_tau : forall s t l k l',
      a_thr s t = {| a_loc := l; a_act := None |} :: k ->
      cl_tau cl l (a_mem s) l' ->
      astep g cl s ALtau (set_thr s t ({| a_loc := l'; a_act := None |} :: k))
  | A_sig : forall s t x k l',
      a_thr s t = x :: k -> cl_sig cl (a_loc x) l' ->
      astep g cl s ALtau (set_thr s t ({| a_loc := l'; a_act := None |} :: x :: k))
  | A_sigret : forall s t l x k,
      a_thr s t = {| a_loc := l; a_act := None |} :: x :: k -> cl_done cl l ->
      astep g cl s ALtau (set_thr s t (x :: k))
  | A_sched : forall s on', exclusive on' ->
      astep g cl s ALtau (set_aon s on')
  (* the helper writes part of its attempt locations, with the final values *)
  | A_attempt : forall s t l k c w att fin ps m',
      a_thr s t = {| a_loc := l; a_act := Some (c, Pending w) |} :: k ->
      on_right_cpu s t c ->
      pseudo g (c_op c) (a_mem s) = OCommit att fin -> incl ps att ->
      meq m' (wr (a_mem s) ps) ->
      astep g cl s (ALattempt t c ps) 
        (set_amem (set_thr s t ({| a_loc := l; a_act := Some (c, Pending true) |} :: k)) m')
  (* the helper takes effect, all at once *)
  | A_commit : forall s t l k c w att fin m',
      a_thr s t = {| a_loc := l; a_act := Some (c, Pending w) |} :: k ->
      on_right_cpu s t c ->
      pseudo g (c_op c) (a_mem s) = OCommit att fin ->
      meq m' (wr (wr (a_mem s) att) fin) ->
      astep g cl s (ALcommit t c fin)
        (set_amem (set_thr s t ({| a_loc := l; a_act := Some (c, Finished 0) |} :: k)) m')
  (* the comparison fails; nothing has been written *)
  | A_fail : forall s t l k c,
      a_thr s t = {| a_loc := l; a_act := Some (c, Pending false) |} :: k ->
      on_right_cpu s t c ->
      pseudo g (c_op c) (a_mem s) = OFail ->
      astep g cl s (ALfail t c) (set_thr s t ({| a_loc := l; a_act := Some (c, Finished 1) |} :: k))
  (* the helper is aborted: nothing more happens.  A call whose comparison has
     failed may still be aborted before it returns. *)
  | A_abort : forall s t l k c st,
      a_thr s t = {| a_loc := l; a_act := Some (c, st) |} :: k ->
      (exists w, st = Pending w) \/ st = Finished 1 ->
      astep g cl s ALtau (set_thr s t ({| a_loc := l; a_act := Some (c, Finished (-1)) |} :: k)).

(** The call of thread t that is in progress, on its CPU, and not interrupted. *)
Definition in_flight (s : astate) (t : nat) (c : call) : Prop :=
  on_right_cpu s t c /\
  exists l k w, a_thr s t = {| a_loc := l; a_act := Some (c, Pending w) |} :: k.

(** A write of bytes [ps] by thread t leaves alone the locations that other
    threads' in-flight calls are using, except the compared word of a call that
    makes one comparison which currently fails (such a call either has already
    failed, or sees the new value). *)
Definition no_interference (g : cfg) (s : astate) (t : nat) (ps : list (Z * Z)) : Prop :=
  forall u c, u <> t -> in_flight s u c ->
    disjoint (map fst ps) (in_use g (c_op c) (a_mem s)) \/
    (one_compare (c_op c) = true /\ pseudo g (c_op c) (a_mem s) = OFail).

(** Which thread writes which bytes in a step. *)
Definition writes (l : alabel) : option (nat * list (Z * Z)) :=
  match l with
  | ALattempt t _ ps | ALcommit t _ ps | ALwrite t ps => Some (t, ps)
  | _ => None
  end.

(** Runs of the abstract machine. *)
Inductive aexec (g : cfg) (cl : client) : astate -> list alabel -> astate -> Prop :=
  | aexec_nil : forall s, aexec g cl s [] s
  | aexec_snoc : forall s ls s' l s'', aexec g cl s ls s' -> astep g cl s' l s'' ->
      aexec g cl s (ls ++ [l]) s''.

(** What a client must guarantee, judged in the abstract machine only: the
    arguments of calls in flight are usable, and no thread writes a location
    that another thread's in-flight call is using. *)
Definition safe_client (g : cfg) (cl : client) (s0 : astate) : Prop :=
  forall ls s, aexec g cl s0 ls s ->
    (forall t c, in_flight s t c -> op_wf g (c_op c) (a_mem s)) /\
    (forall l s' t ps, astep g cl s l s' -> writes l = Some (t, ps) -> no_interference g s t ps).

End Abstract.
