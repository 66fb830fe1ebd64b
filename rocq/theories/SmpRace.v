(** Concurrent calls of rseq_get_max_nr_cpus() (src/rseq.c: get_possible_cpus_array_len(),
    src/smp.c:231-278).  Definitions only.

    The cached length (src/smp.c:26) is a plain int that threads read and write
    without any lock.  It has the values [vals], in the order of the stores to it; a
    load returns any of them that is not older than the newest one the thread
    knows of ([seen]).  The read at the return may be one of its own or the value
    the thread already has (compilers do both): the newest known value is among
    those it may return. *)
From Coq Require Import ZArith Bool List.
From Verif Require Import SmpModel.
Import ListNotations.
Local Open Scope Z_scope.

Inductive pc :=
  | Out                                  (* not in a call *)
  | Check                                (* before the test, src/smp.c:274 *)
  | Update                               (* in update_possible_cpus_array_len_cache() *)
  | Put (n : Z)                          (* before the store, src/smp.c:258 *)
  | Last.                                (* before the return, src/smp.c:277 *)

Record rstate := { vals : list Z; seen : nat -> nat; at_ : nat -> pc }.
Definition start : rstate := {| vals := [0]; seen := fun _ => O; at_ := fun _ => Out |}.
Definition set {A} (f : nat -> A) (t : nat) (x : A) : nat -> A := fun u => if Nat.eqb u t then x else f u.

Inductive label :=
  | LCall (t : nat)
  | LLoad (t : nat)
  | LComp (t : nat) (e : env)            (* the system answered [e] *)
  | LStore (t : nat) (n : Z)
  | LRet (t : nat) (v : Z)
  | LSync (t u : nat).                   (* [t] synchronises with what [u] did so far *)
Definition who (l : label) : nat :=
  match l with LCall t | LLoad t | LComp t _ | LStore t _ | LRet t _ | LSync t _ => t end.

Inductive rstep (lb : Z) : rstate -> label -> rstate -> Prop :=
  | R_call : forall s t, at_ s t = Out ->
      rstep lb s (LCall t) {| vals := vals s; seen := seen s; at_ := set (at_ s) t Check |}
  | R_load : forall s t i c, at_ s t = Check -> (seen s t <= i)%nat -> nth_error (vals s) i = Some c ->
      rstep lb s (LLoad t)
        {| vals := vals s; seen := set (seen s) t i; at_ := set (at_ s) t (if c =? 0 then Update else Last) |}
  | R_comp : forall s t e n, at_ s t = Update -> compute_len lb e = Len n ->
      rstep lb s (LComp t e)
        {| vals := vals s; seen := seen s; at_ := set (at_ s) t (if n <? 1 then Last else Put n) |}
  | R_store : forall s t n, at_ s t = Put n ->
      rstep lb s (LStore t n)
        {| vals := vals s ++ [n]; seen := set (seen s) t (length (vals s)); at_ := set (at_ s) t Last |}
  | R_ret : forall s t i v, at_ s t = Last -> (seen s t <= i)%nat -> nth_error (vals s) i = Some v ->
      rstep lb s (LRet t v) {| vals := vals s; seen := set (seen s) t i; at_ := set (at_ s) t Out |}
  | R_sync : forall s t u,
      rstep lb s (LSync t u) {| vals := vals s; seen := set (seen s) t (Nat.max (seen s t) (seen s u)); at_ := at_ s |}.

Inductive rrun (lb : Z) : list label -> rstate -> Prop :=
  | rrun_nil : rrun lb [] start
  | rrun_snoc : forall tr s l s', rrun lb tr s -> rstep lb s l s' -> rrun lb (tr ++ [l]) s'.

(** Event [i] of the run happens before event [j]. *)
Inductive before (tr : list label) : nat -> nat -> Prop :=
  | b_same : forall i j a b, (i < j)%nat -> nth_error tr i = Some a -> nth_error tr j = Some b -> who a = who b -> before tr i j
  | b_sync : forall i j a t u, (i < j)%nat -> nth_error tr i = Some a -> nth_error tr j = Some (LSync t u) -> who a = u -> before tr i j
  | b_trans : forall i j k, before tr i j -> before tr j k -> before tr i k.
