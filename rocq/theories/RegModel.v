(** Model of src/rseq.c: initialisation of the public symbols and registration of
    threads.  Definitions only.

    Threads race.  The memory model is release/acquire: every variable has the
    list of the values written to it, every thread a lower bound on the positions
    it may still read (its view); a release store publishes the view of its
    thread, an acquire load that reads it and taking a mutex adopt the published
    view.  Simplification: stores are appended to the list of their variable in
    the order in which they are executed. *)
From Coq Require Import ZArith Bool List.
Import ListNotations.
Local Open Scope Z_scope.

(** The static and public variables, src/rseq.c:36-55: init_done, rseq_offset,
    rseq_size, rseq_flags, rseq_ownership. *)
Inductive var := VDone | VOff | VSize | VFlags | VOwn.
Definition var_eqb (a b : var) : bool :=
  match a, b with VDone, VDone | VOff, VOff | VSize, VSize | VFlags, VFlags | VOwn, VOwn => true | _, _ => false end.

(** Initial values; rseq_size is -1U, src/rseq.c:51 *)
Definition start (v : var) : Z := match v with VSize => 2 ^ 32 - 1 | _ => 0 end.

(** What the program runs on: the symbols of libc that dlsym() finds, whether
    the kernel has the system call, getauxval(AT_RSEQ_FEATURE_SIZE), and the
    offset of __rseq_abi from the thread pointer. *)
Record sys := { libc_off : option Z; libc_size : option Z; libc_flags : option Z;
                k_has : bool; k_aux : Z; tls_off : Z }.

(** get_rseq_kernel_feature_size(), src/rseq.c:138-152; None: the assertion fails *)
Definition feature_size (y : sys) : option Z :=
  if 1024 <? k_aux y then None else Some (if k_aux y =? 0 then 20 else k_aux y).

(** The stores of rseq_init(), src/rseq.c:226-287, in program order. *)
Definition init_stores (y : sys) : option (list (var * Z)) :=
  match libc_size y, libc_off y, libc_flags y with
  | Some sz, Some off, Some fl =>
    if sz =? 0 then Some [(VOwn, 1); (VOff, tls_off y); (VFlags, 0); (VSize, 0)]
    else if (sz =? 20) || (sz =? 32)
    then match feature_size y with
         | Some f => Some [(VOff, off); (VFlags, fl); (VSize, if f <? 32 then f else 32)]
         | None => None
         end
    else Some [(VOff, off); (VFlags, fl); (VSize, sz)]
  | _, _, _ => Some [(VOwn, 1); (VOff, tls_off y); (VFlags, 0); (VSize, 0)]
  end.

(** get_rseq_min_alloc_size(), src/rseq.c:118-126 *)
Definition min_alloc (size : Z) : Z := if size <? 32 then 32 else size.

(** ** The kernel: rseq(2) with the area and signature of librseq, which is
    aligned on 1024 bytes.  A length of 32 is always accepted; kernels that
    advertise a feature size accept lengths that cover it. *)
Definition accepts (y : sys) (len : Z) : bool :=
  (len =? 32) || ((32 <? len) && negb (k_aux y =? 0) && (k_aux y <=? len)).
(** [kreg]: the length the thread is registered with. *)
Definition sys_register (y : sys) (kreg : option Z) (len : Z) : bool :=
  k_has y && match kreg with Some _ => false | None => accepts y len end.
Definition sys_unregister (y : sys) (kreg : option Z) (len : Z) : bool :=
  k_has y && match kreg with Some l => l =? len | None => false end.

(** ** Threads *)

(** [CInit]: rseq_init() (run as a constructor); [CReg]:
    rseq_register_current_thread(); [CUnreg]: rseq_unregister_current_thread(). *)
Inductive api := CInit | CReg | CUnreg.

(** Program points of a call. *)
Inductive pc :=
  | Idle
  | I_load (c : api)                       (* src/rseq.c:218: load-acquire of init_done *)
  | I_lock (c : api)                       (* src/rseq.c:225 *)
  | I_check (c : api)                      (* src/rseq.c:226 *)
  | I_store (c : api) (ws : list (var * Z)) (* src/rseq.c:238-287 *)
  | I_done (c : api)                       (* src/rseq.c:294: store-release *)
  | I_unlock (c : api)                     (* src/rseq.c:296 *)
  | I_ret (c : api)                        (* end of rseq_init() *)
  | R_own                                  (* src/rseq.c:160 *)
  | R_len                                  (* src/rseq.c:164: reads rseq_size *)
  | R_sys (len : Z)                        (* src/rseq.c:164 *)
  | R_failed                               (* src/rseq.c:171 *)
  | R_size                                 (* src/rseq.c:183 *)
  | R_set                                  (* src/rseq.c:184 *)
  | U_own                                  (* src/rseq.c:194 *)
  | U_len | U_sys (len : Z)                (* src/rseq.c:198 *)
  | P_ret (c : api) (r : Z)                (* about to return *)
  | P_dead.                                (* abort() *)

Definition view := var -> nat.
Definition bottom : view := fun _ => O.
Definition join (a b : view) : view := fun v => Nat.max (a v) (b v).
Definition see (w : view) (v : var) (i : nat) : view := fun u => if var_eqb u v then Nat.max (w u) i else w u.

Record state := {
  hist : var -> list Z;          (* values of each variable, oldest first *)
  rel : nat -> view;             (* view published with the i-th value of init_done *)
  owner : option nat;            (* init_lock *)
  lview : view;                  (* view published by the last unlock *)
  kreg : nat -> option Z;        (* kernel: registration of each thread *)
  pcs : nat -> pc;
  views : nat -> view;
  inited : nat -> bool }.        (* the thread has returned from rseq_init(), or was
                                    created by such a thread *)

Definition initial : state :=
  {| hist := fun v => [start v]; rel := fun _ => bottom; owner := None; lview := bottom;
     kreg := fun _ => None; pcs := fun _ => Idle; views := fun _ => bottom; inited := fun _ => false |}.

Definition upd {A} (f : nat -> A) (t : nat) (x : A) : nat -> A := fun u => if Nat.eqb u t then x else f u.
Definition goto (s : state) (t : nat) (p : pc) (w : view) : state :=
  {| hist := hist s; rel := rel s; owner := owner s; lview := lview s; kreg := kreg s;
     pcs := upd (pcs s) t p; views := upd (views s) t w; inited := inited s |}.

(** Thread [t] may read position [i] of variable [v], with value [z]. *)
Definition readable (s : state) (t : nat) (v : var) (i : nat) (z : Z) : Prop :=
  (views s t v <= i)%nat /\ nth_error (hist s v) i = Some z.

(** A store of [z] to [v] by thread [t], which goes on at [p]. *)
Definition store (s : state) (t : nat) (v : var) (z : Z) (p : pc) (release : bool) : state :=
  let i := length (hist s v) in
  let w := see (views s t) v i in
  {| hist := fun u => if var_eqb u v then hist s u ++ [z] else hist s u;
     rel := if release then upd (rel s) i w else rel s;
     owner := owner s; lview := lview s; kreg := kreg s;
     pcs := upd (pcs s) t p; views := upd (views s) t w; inited := inited s |}.

Inductive label :=
  | LCall (t : nat) (c : api)
  | LRet (t : nat) (c : api) (r : Z)
  | LSys (t : nat) (c : api) (len : Z) (ok : bool)
  | LStore (t : nat) (v : var) (z : Z)
  | LAbort (t : nat)
  | LSpawn (t u : nat)
  | LTau.

Definition after_init (c : api) : pc := match c with CReg => R_own | _ => P_ret c 0 end.

Inductive step (y : sys) : state -> label -> state -> Prop :=
  | S_call : forall s t c, pcs s t = Idle ->
      (* rseq_init() is a constructor: threads unregister after it *)
      (c = CUnreg -> inited s t = true) ->
      step y s (LCall t c) (goto s t (match c with CUnreg => U_own | _ => I_load c end) (views s t))
  | S_load : forall s t c i z, pcs s t = I_load c -> readable s t VDone i z ->
      step y s LTau (goto s t (if z =? 0 then I_lock c else I_ret c) (join (see (views s t) VDone i) (rel s i)))
  | S_lock : forall s t c, pcs s t = I_lock c -> owner s = None ->
      step y s LTau
        {| hist := hist s; rel := rel s; owner := Some t; lview := lview s; kreg := kreg s;
           pcs := upd (pcs s) t (I_check c); views := upd (views s) t (join (views s t) (lview s)); inited := inited s |}
  | S_check : forall s t c i z, pcs s t = I_check c -> readable s t VDone i z -> z <> 0 ->
      step y s LTau (goto s t (I_unlock c) (see (views s t) VDone i))
  | S_first : forall s t c i ws, pcs s t = I_check c -> readable s t VDone i 0 -> init_stores y = Some ws ->
      step y s LTau (goto s t (I_store c ws) (see (views s t) VDone i))
  | S_assert : forall s t c i, pcs s t = I_check c -> readable s t VDone i 0 -> init_stores y = None ->
      step y s (LAbort t) (goto s t P_dead (views s t))
  | S_store : forall s t c v z ws, pcs s t = I_store c ((v, z) :: ws) ->
      step y s (LStore t v z) (store s t v z (I_store c ws) false)
  | S_stored : forall s t c, pcs s t = I_store c [] ->
      step y s LTau (goto s t (I_done c) (views s t))
  | S_done : forall s t c, pcs s t = I_done c ->
      step y s (LStore t VDone 1) (store s t VDone 1 (I_unlock c) true)
  | S_unlock : forall s t c, pcs s t = I_unlock c ->
      step y s LTau
        {| hist := hist s; rel := rel s; owner := None; lview := views s t; kreg := kreg s;
           pcs := upd (pcs s) t (I_ret c); views := views s; inited := inited s |}
  | S_inited : forall s t c, pcs s t = I_ret c ->
      step y s LTau
        {| hist := hist s; rel := rel s; owner := owner s; lview := lview s; kreg := kreg s;
           pcs := upd (pcs s) t (after_init c); views := views s; inited := upd (inited s) t true |}
  (* pthread_create(): the new thread [u] starts with the view of [t] *)
  | S_spawn : forall s t u, inited s t = true -> pcs s u = Idle ->
      step y s (LSpawn t u)
        {| hist := hist s; rel := rel s; owner := owner s; lview := lview s; kreg := kreg s;
           pcs := pcs s; views := upd (views s) u (join (views s u) (views s t)); inited := upd (inited s) u true |}
  (* rseq_register_current_thread(), src/rseq.c:154-188 *)
  | S_rown : forall s t i z, pcs s t = R_own -> readable s t VOwn i z ->
      step y s LTau (goto s t (if z =? 0 then P_ret CReg 0 else R_len) (see (views s t) VOwn i))
  | S_rlen : forall s t i z, pcs s t = R_len -> readable s t VSize i z ->
      step y s LTau (goto s t (R_sys (min_alloc z)) (see (views s t) VSize i))
  | S_rsys : forall s t len, pcs s t = R_sys len ->
      let ok := sys_register y (kreg s t) len in
      step y s (LSys t CReg len ok)
        {| hist := hist s; rel := rel s; owner := owner s; lview := lview s;
           kreg := if ok then upd (kreg s) t (Some len) else kreg s;
           pcs := upd (pcs s) t (if ok then R_size else R_failed); views := views s; inited := inited s |}
  | S_failed : forall s t i z, pcs s t = R_failed -> readable s t VSize i z -> z <= 0 ->
      step y s LTau (goto s t (P_ret CReg (-1)) (see (views s t) VSize i))
  | S_incoherent : forall s t i z, pcs s t = R_failed -> readable s t VSize i z -> 0 < z ->
      step y s (LAbort t) (goto s t P_dead (see (views s t) VSize i))
  | S_rsize : forall s t i z, pcs s t = R_size -> readable s t VSize i z ->
      step y s LTau (goto s t (if z =? 0 then R_set else P_ret CReg 0) (see (views s t) VSize i))
  | S_rset : forall s t f, pcs s t = R_set -> feature_size y = Some f ->
      step y s (LStore t VSize f) (store s t VSize f (P_ret CReg 0) false)
  | S_rassert : forall s t, pcs s t = R_set -> feature_size y = None ->
      step y s (LAbort t) (goto s t P_dead (views s t))
  (* rseq_unregister_current_thread(), src/rseq.c:190-202 *)
  | S_uown : forall s t i z, pcs s t = U_own -> readable s t VOwn i z ->
      step y s LTau (goto s t (if z =? 0 then P_ret CUnreg 0 else U_len) (see (views s t) VOwn i))
  | S_ulen : forall s t i z, pcs s t = U_len -> readable s t VSize i z ->
      step y s LTau (goto s t (U_sys (min_alloc z)) (see (views s t) VSize i))
  | S_usys : forall s t len, pcs s t = U_sys len ->
      let ok := sys_unregister y (kreg s t) len in
      step y s (LSys t CUnreg len ok)
        {| hist := hist s; rel := rel s; owner := owner s; lview := lview s;
           kreg := if ok then upd (kreg s) t None else kreg s;
           pcs := upd (pcs s) t (P_ret CUnreg (if ok then 0 else -1)); views := views s; inited := inited s |}
  | S_ret : forall s t c r, pcs s t = P_ret c r ->
      step y s (LRet t c r) (goto s t Idle (views s t)).

(** Runs, from the start of the program. *)
Inductive run (y : sys) : list label -> state -> Prop :=
  | run_nil : run y [] initial
  | run_step : forall tr s l s', run y tr s -> step y s l s' -> run y (tr ++ [l]) s'.

(** ** Queries *)

(** rseq_node_id_available(), rseq_mm_cid_available(), include/rseq/rseq.h:182-200,
    on the value read from rseq_size; the fields end at bytes 24 and 28 of struct
    rseq_abi, include/rseq/abi.h. *)
Definition to_int32 (z : Z) : Z := (z + 2 ^ 31) mod 2 ^ 32 - 2 ^ 31.
Definition node_id_available (size : Z) : bool := 24 <=? to_int32 size.
Definition mm_cid_available (size : Z) : bool := 28 <=? to_int32 size.

(** rseq(NULL, 0, 0, 0) as the kernel answers it: the error. *)
Definition ENOSYS : Z := 38.
Definition EINVAL : Z := 22.
Definition sys_rseq_null (y : sys) : Z := if k_has y then EINVAL else ENOSYS.

(** rseq_available(), src/rseq.c:89-115, on the values read from rseq_size and
    rseq_ownership; None: abort(). *)
Inductive query := QKernel | QLibc | QOther (n : Z).
Definition available (y : sys) (q : query) (size own : Z) : option bool :=
  match q with
  | QKernel =>
    let errno := sys_rseq_null y in
    if errno =? ENOSYS then Some false else if errno =? EINVAL then Some true else None
  | QLibc => Some (negb (size =? 0) && (own =? 0))
  | QOther _ => Some false
  end.

(** rseq_exit(), src/rseq.c:304-311: what it leaves in rseq_offset, rseq_size and
    rseq_ownership. *)
Definition after_exit (off size own : Z) : Z * Z * Z :=
  if own =? 0 then (off, size, own) else (0, 2 ^ 32 - 1, 0).
