(** Programs whose per-CPU structures live in pool memory (as those of
    tests/param_test.c do: locks 503-575, counters 611-683, lists 797-885, buffers
    1012-1119 and 1256-1360 are all placed in items of pools).  Definitions only.

    The machine of RseqKernel.v runs the program; the world of PoolWorld.v is its
    address space and its pools.  The program's stores go to the address space
    (with copy-on-write), and its pool calls change what it reads. *)
From Coq Require Import ZArith Bool List.
From Verif Require Import RseqIR RseqSpec RseqKernel UtilsModel PoolVM PoolModel PoolWorld ClientModel ComposeModel.
Import ListNotations.
Local Open Scope Z_scope.

Record jstate (Loc : Type) := { j_s : state Loc; j_w : world; j_live : ledger; j_freed : ledger }.
Arguments j_s {Loc}. Arguments j_w {Loc}. Arguments j_live {Loc}. Arguments j_freed {Loc}.
Arguments Build_jstate {Loc}.

(** A pool call: not a store of the program, and it leaves alone the items in
    [busy], which hold structures: they are not filled again, not freed, and
    their pools are not destroyed. *)
Definition pool_call (busy : ledger) (o : op) : Prop :=
  match o with
  | OCreate _ _ _ _ _ | OMalloc _ _ => True
  | OFill id a _ => ~ In (id, a) busy
  | OFree a _ => forall id, ~ In (id, a) busy
  | ODestroy id _ => forall a, ~ In (id, a) busy
  | OWrite _ => False
  end.

Section Joint.
Variable Loc : Type.
Variable e : env.
Variable v0 : vm.                                 (* the address space before the first pool *)
Variable g : cfg.
Variable tx : text.
Variable pcs : nat -> piece.
Variable turn : Loc -> option nat.
Variable view : forall i, Loc -> piece_loc (pcs i).
Variable P : client Loc.
Variable busy : ledger.

(** What the program reads and what the address space holds are the same, in the
    memory the program may use: its own, and the live items. *)
Definition agrees (m : mem) (w : world) (L : ledger) : Prop :=
  forall a, good_write e v0 w L a -> m a = PoolVM.view e (w_vm w) a.

(** The bytes [bs] are what a pool call changed in the usable memory. *)
Definition changes (m : mem) (w : world) (L : ledger) (w' : world) (L' : ledger) (bs : list (Z * Z)) : Prop :=
  agrees (wr m bs) w' L' /\
  forall a, In a (map fst bs) -> good_write e v0 w L a -> PoolVM.view e (w_vm w') a <> PoolVM.view e (w_vm w) a.

(** The context of thread [t] that runs. *)
Definition top_is (s : state Loc) (t : nat) (l : Loc) (o : option frame) (k : list (ctx Loc)) : Prop :=
  t_ctx (s_thr s t) = {| x_loc := l; x_act := o |} :: k.
(** Thread [t] runs code of the program that is not the code of a structure. *)
Definition at_large (s : state Loc) (t : nat) : Prop :=
  exists l o k, top_is s t l o k /\ turn l = None.

(** Steps.  A store is done by the processor (RseqKernel.v) and lands in the
    address space; it faults (no step) on an address that is not mapped.  Outside
    the code of its structures the program only stores to usable memory.  A pool
    call is made by a thread that is outside the code of the structures. *)
Inductive jstep : jstate Loc -> clabel -> jstate Loc -> Prop :=
  | J_step : forall s w L F l s',
      step g tx P s l s' -> call_ok s l -> (forall t bs, l <> Lwr t bs) ->
      jstep (Build_jstate s w L F) l (Build_jstate s' w L F)
  | J_store : forall s w L F t bs s' w' x,
      step g tx P s (Lwr t bs) s' -> call_ok s (Lwr t bs) -> run1 e (OWrite bs) w = Ok (w', x) ->
      (at_large s t -> forall a, In a (map fst bs) -> good_write e v0 w L a) ->
      jstep (Build_jstate s w L F) (Lwr t bs) (Build_jstate s' w' L F)
  | J_call : forall s w L F t l k l' o w' x bs,
      running (s_thr s t) -> top_is s t l None k -> turn l = None -> (forall i, view i l' = view i l) ->
      pool_call busy o -> allowed e true v0 w L o -> run1 e o w = Ok (w', x) ->
      changes (s_mem s) w L w' (live_after o x L) bs ->
      jstep (Build_jstate s w L F) (Lwr t bs)
        (Build_jstate (set_m (set_t s t (set_ctx (s_thr s t) ({| x_loc := l'; x_act := None |} :: k))) (wr (s_mem s) bs))
           w' (live_after o x L) (freed_after o x L F)).

(** Runs, with the states of the machine before each step. *)
Inductive jpath : jstate Loc -> list (state Loc * clabel) -> jstate Loc -> Prop :=
  | jpath_nil : forall j, jpath j [] j
  | jpath_snoc : forall j0 tr j l j', jpath j0 tr j -> jstep j l j' -> jpath j0 (tr ++ [(j_s j, l)]) j'.
End Joint.

Arguments at_large {Loc}. Arguments top_is {Loc}. Arguments jstep {Loc}. Arguments jpath {Loc}.
