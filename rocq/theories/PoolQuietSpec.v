(** Vocabulary of C39: pools whose memory stays untouched on idle CPUs.
    Definitions only. *)
From Coq Require Import ZArith Bool List.
From Verif Require Import UtilsModel RseqIR PoolVM PoolModel PoolWorld.
Import ListNotations.
Local Open Scope Z_scope.

(** A COW_ZERO pool without init callback, whose poison value, if any, is 0, and a
    CPU that does not hold the links between free items: CPU 0 does unless the
    pool is robust (include/rseq/mempool.h:529-549). *)
Definition lazy (P : pool) (cpu : Z) : Prop :=
  populate_policy (pattr P) = COW_ZERO /\ init_set (pattr P) = false /\
  (poison_set (pattr P) = true -> poison (pattr P) = 0) /\
  0 <= cpu < max_nr_cpus (pattr P) /\ (robust_set (pattr P) = true \/ cpu <> 0).

(** The memory of the pool for one CPU. *)
Definition on_cpu (P : pool) (cpu x : Z) : Prop :=
  exists r, In r (range_list P) /\
    base r + stride (pattr P) * cpu <= x < base r + stride (pattr P) * (cpu + 1).

(** [lo, lo + g): a part of that memory which consists of whole pages and whole items. *)
Definition part (e : env) (P : pool) (cpu lo g : Z) : Prop :=
  0 < g /\ (e_page e | g) /\ (item_len P | g) /\
  exists r k, In r (range_list P) /\ 0 <= k /\ g * (k + 1) <= stride (pattr P) /\
    lo = base r + stride (pattr P) * cpu + g * k.

(** The program asks for zero contents only in the pool [id]. *)
Definition zero_content (id : Z) (o : op) : Prop :=
  match o with OFill i _ (Bytes bs) => i = id -> Forall (eq 0) bs | _ => True end.
(** It does not itself write to the memory [A] of the pool [id], where [A] may
    depend on the present state of the pool. *)
Definition spares (id : Z) (A : pool -> Z -> Prop) (w : world) (o : op) : Prop :=
  match o with
  | OWrite ps => forall P x, lookup id (w_pools w) = Some P -> In x (map fst ps) -> ~ A P x
  | _ => True
  end.

(** The histories in which every operation does so. *)
Inductive quiet (e : env) (strict : bool) (v0 : vm) (id : Z) (A : pool -> Z -> Prop) : world -> ledger -> ledger -> Prop :=
| quiet_start : quiet e strict v0 id A {| w_vm := v0; w_pools := [] |} [] []
| quiet_step w live freed o w' x :
    quiet e strict v0 id A w live freed -> allowed e strict v0 w live o -> run1 e o w = Ok (w', x) ->
    zero_content id o -> spares id A w o ->
    quiet e strict v0 id A w' (live_after o x live) (freed_after o x live freed)
| quiet_fork w live freed :
    quiet e strict v0 id A w live freed -> plain_fork e v0 w ->
    quiet e strict v0 id A (child e w) (inherited w live) (inherited w freed)
| quiet_rest w live freed v' :
    quiet e strict v0 id A w live freed -> rest_acts e v0 w v' ->
    quiet e strict v0 id A {| w_vm := v'; w_pools := w_pools w |} live freed.
