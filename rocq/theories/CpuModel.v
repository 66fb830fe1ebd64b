(** Reading the current CPU, node and concurrency id: the queries of
    include/rseq/rseq.h:140-208 and their fallbacks in src/rseq.c:313-338, by one
    thread.  Definitions only.

    Simplifications: rseq_init() has run (it is a constructor), so that
    rseq_get_abi() (include/rseq/rseq.h:84-88) finds the area of the thread; the
    other threads appear in the value of rseq_size only. *)
From Coq Require Import ZArith Bool List.
Import ListNotations.
Local Open Scope Z_scope.

(** int32_t to uint32_t and back *)
Definition u32 (z : Z) : Z := z mod 2 ^ 32.
Definition s32 (z : Z) : Z := (z + 2 ^ 31) mod 2 ^ 32 - 2 ^ 31.

(** Fields of struct rseq_abi, include/rseq/abi.h:61-173, as unsigned numbers. *)
Record area := { cpu_id_start : Z; cpu_id : Z; node_id : Z; mm_cid : Z }.
(** Initial value of __rseq_abi, src/rseq.c:74-77; RSEQ_ABI_CPU_ID_UNINITIALIZED is
    -1, include/rseq/abi.h:23. The kernel stores the same on unregistration. *)
Definition unset : area := {| cpu_id_start := 0; cpu_id := u32 (-1); node_id := 0; mm_cid := 0 |}.

(** Where the thread runs. *)
Record place := { p_cpu : Z; p_node : Z; p_cid : Z }.

(** The machine: the CPUs are 0 .. m_cpus - 1; [m_node]: their nodes; [m_feat]: the
    feature size of the kernel (28 when it knows mm_cid). *)
Record machine := { m_cpus : Z; m_node : Z -> Z; m_feat : Z }.
(** The fields that the kernel knows: doc/man/rseq.2, node_id and mm_cid. *)
Definition knows_node (M : machine) : bool := 24 <=? m_feat M.
Definition knows_cid (M : machine) : bool := 28 <=? m_feat M.
Definition shown (M : machine) (p : place) : area :=
  {| cpu_id_start := p_cpu p; cpu_id := p_cpu p;
     node_id := if knows_node M then p_node p else 0; mm_cid := if knows_cid M then p_cid p else 0 |}.

(** [in_current]: the thread is in rseq_current_cpu(), about to call the fallback. *)
Record state := { s_reg : bool; s_area : area; s_at : place; in_current : bool }.

Inductive action :=
(* the kernel: the thread goes on elsewhere; rseq(2) *)
| KRun (p : place) | KRegister | KUnregister
(* the program; [ok]: the system call succeeds *)
| PStart | PRaw | PCurrent | PFallback (ok : bool) | PNode (size : Z) | PCid | PFallbackNode (ok : bool).
Inductive event :=
| ENone | EStart (v : Z) | ERaw (v : Z) | EEnter | ECurrent (v : Z) | ENode (v : Z) | ECid (v : Z) | EFbNode (v : Z)
| EAbort.

(** rseq_current_cpu_raw(), include/rseq/rseq.h:148-152 *)
Definition current_cpu_raw (a : area) : Z := s32 (cpu_id a).
(** rseq_cpu_start(), include/rseq/rseq.h:165-169 *)
Definition cpu_start (a : area) : Z := cpu_id_start a.
(** rseq_node_id_available(), include/rseq/rseq.h:182-186 *)
Definition node_id_available (size : Z) : bool := 24 <=? s32 size.
(** rseq_current_node_id(), include/rseq/rseq.h:191-196; None: the assertion fails *)
Definition current_node_id (size : Z) (a : area) : option Z := if node_id_available size then Some (node_id a) else None.
(** rseq_current_mm_cid(), include/rseq/rseq.h:204-208 *)
Definition current_mm_cid (a : area) : Z := mm_cid a.
(** rseq_fallback_current_cpu(), src/rseq.c:313-323; None: abort() *)
Definition fallback_current_cpu (ok : bool) (p : place) : option Z := if ok then Some (p_cpu p) else None.
(** rseq_fallback_current_node(), src/rseq.c:325-338 *)
Definition fallback_current_node (ok : bool) (p : place) : Z := if ok then s32 (p_node p) else -1.

Definition place_ok (M : machine) (p : place) : bool :=
  (0 <=? p_cpu p) && (p_cpu p <? m_cpus M) && (p_node p =? m_node M (p_cpu p)) && (0 <=? p_cid p) && (p_cid p <? 2 ^ 31).

(** One step; None: not possible. *)
Definition step (M : machine) (s : state) (x : action) : option (state * event) :=
  let idle := negb (in_current s) in
  match x with
  | KRun p =>
    if place_ok M p then
      Some ({| s_reg := s_reg s; s_area := if s_reg s then shown M p else s_area s; s_at := p; in_current := in_current s |}, ENone)
    else None
  | KRegister => (* called by the thread *)
    if idle && negb (s_reg s) then
      Some ({| s_reg := true; s_area := shown M (s_at s); s_at := s_at s; in_current := false |}, ENone)
    else None
  | KUnregister =>
    if idle && s_reg s then Some ({| s_reg := false; s_area := unset; s_at := s_at s; in_current := false |}, ENone) else None
  | PStart => if idle then Some (s, EStart (cpu_start (s_area s))) else None
  | PRaw => if idle then Some (s, ERaw (current_cpu_raw (s_area s))) else None
  | PCurrent => (* rseq_current_cpu(), include/rseq/rseq.h:171-180 *)
    if idle then
      let cpu := current_cpu_raw (s_area s) in
      if cpu <? 0 then Some ({| s_reg := s_reg s; s_area := s_area s; s_at := s_at s; in_current := true |}, EEnter)
      else Some (s, ECurrent (u32 cpu))
    else None
  | PFallback ok =>
    if idle then None
    else
      let s' := {| s_reg := s_reg s; s_area := s_area s; s_at := s_at s; in_current := false |} in
      match fallback_current_cpu ok (s_at s) with Some cpu => Some (s', ECurrent (u32 cpu)) | None => Some (s', EAbort) end
  | PNode size =>
    if idle then
      match current_node_id size (s_area s) with Some v => Some (s, ENode v) | None => Some (s, EAbort) end
    else None
  | PCid => if idle then Some (s, ECid (current_mm_cid (s_area s))) else None
  | PFallbackNode ok => if idle then Some (s, EFbNode (fallback_current_node ok (s_at s))) else None
  end.

(** A run of a thread, from its start at [p]: its states and events, newest first. *)
Definition first (p : place) : state := {| s_reg := false; s_area := unset; s_at := p; in_current := false |}.
Inductive run (M : machine) (p : place) : list (state * event) -> state -> Prop :=
| run_nil : run M p [] (first p)
| run_step h s x s' e : run M p h s -> step M s x = Some (s', e) -> run M p ((s, e) :: h) s'.
