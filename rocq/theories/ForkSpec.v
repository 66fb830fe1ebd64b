(** What C66 talks about: the life of a program from some point on, its children
    included. *)
From Coq Require Import ZArith Bool List.
From Verif Require Import PoolVM PoolModel PoolWorld.
Import ListNotations.
Local Open Scope Z_scope.

(** The memory of a program that has not used madvise(), nor mapped files. *)
Definition ordinary (v0 : vm) : Prop := forall q, link v0 q = None /\ dontfork v0 q = false /\ wipefork v0 q = false.

Section Spec.
Variable e : env.

(** The same steps as those of [reach] (PoolWorld.v), from any world.  The rest of the
    process leaves [keep] alone, the headers of pools that are still to be destroyed. *)
Inductive goes_on (strict : bool) (v0 : vm) (keep : Z -> Prop) (w0 : world) (L0 F0 : ledger) : world -> ledger -> ledger -> Prop :=
| on_start : goes_on strict v0 keep w0 L0 F0 w0 L0 F0
| on_step w L F o w' x :
    goes_on strict v0 keep w0 L0 F0 w L F -> allowed e strict v0 w L o -> run1 e o w = Ok (w', x) ->
    goes_on strict v0 keep w0 L0 F0 w' (live_after o x L) (freed_after o x L F)
| on_fork w L F :
    goes_on strict v0 keep w0 L0 F0 w L F -> plain_fork e v0 w ->
    goes_on strict v0 keep w0 L0 F0 (child e w) (inherited w L) (inherited w F)
| on_rest w L F v' :
    goes_on strict v0 keep w0 L0 F0 w L F -> rest_acts e v0 w v' -> (forall a, keep a -> same_at e (w_vm w) v' a) ->
    goes_on strict v0 keep w0 L0 F0 {| w_vm := v'; w_pools := w_pools w |} L F.

(** The two pages in front of a range, with its mark and its description. *)
Definition in_headers (P : pool) (a : Z) : Prop :=
  exists r, In r (range_list P) /\ base r - 2 * e_page e <= a < base r.
(** All the memory that was mapped for a pool. *)
Definition in_pool (P : pool) (a : Z) : Prop :=
  exists r, In r (range_list P) /\ base r - 2 * e_page e <= a < mmap_addr r + mmap_len r.
End Spec.
