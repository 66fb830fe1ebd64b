(** Vocabulary of the properties of pool sets and attribute objects.  Definitions only. *)
From Coq Require Import ZArith Bool List.
From Verif Require Import UtilsModel RseqIR PoolVM PoolModel PoolWorld PoolSetModel.
Import ListNotations.
Local Open Scope Z_scope.

(** The pool [P] (handle [id]) is in the set, at position [o]. *)
Definition member (S : pset) (w : world) (o id : Z) (P : pool) : Prop :=
  S o = Some id /\ lookup id (w_pools w) = Some P.
(** The entries of the set are existing pools, at the position of their size. *)
Definition set_ok (S : pset) (w : world) : Prop :=
  forall o id, S o = Some id -> exists P, lookup id (w_pools w) = Some P /\ item_order P = o.

(** The pool has no freed item, and is at its limit or (in the world of the
    attempt) the system refuses memory for a new range. *)
Definition no_room (e : env) (s : bool) (v0 : vm) (L F : ledger) (id : Z) (P : pool) (an : answers) : Prop :=
  count id F = 0 /\
  (max_nr_ranges (pattr P) <> 0 /\ count id L = max_nr_ranges (pattr P) * (stride (pattr P) / item_len P) \/
   exists w1, history e s v0 w1 L F /\ lookup id (w_pools w1) = Some P /\ ~ system_grants e P an (w_vm w1)).

(** What a call of an allocation function of the set, for [len] bytes, did: it
    served the item from the smallest fitting member with room, or there is none.
    [zero]: whether the item must be zero. *)
Definition served (e : env) (s : bool) (v0 : vm) (w : world) (L F : ledger) (S : pset) (len : Z) (ans : Z -> answers)
    (zero : bool) (r : res (got * world)) : Prop :=
  match r with
  | Ok (Got a, w') => exists o id P, member S w o id P /\ len <= item_len P /\
      (forall o' id' P', member S w o' id' P' -> len <= item_len P' -> item_len P' < item_len P ->
         no_room e s v0 L F id' P' (ans o')) /\
      history e s v0 w' ((id, a) :: L) (filter (fun i => negb (same_item i (id, a))) F) /\ set_ok S w' /\
      (zero = true -> forall cpu k, 0 <= cpu < max_nr_cpus (pattr P) -> 0 <= k < item_len P ->
         byte (view e (w_vm w')) (percpu_ptr P a cpu + k) = 0)
  | Ok (Null err, w') => err = ENOMEM /\
      (forall o' id' P', member S w o' id' P' -> len <= item_len P' -> no_room e s v0 L F id' P' (ans o')) /\
      history e s v0 w' L F /\ set_ok S w'
  | Abort =>     (* only what a direct allocation from a member may report (C29) *)
      exists o id P w1, member S w1 o id P /\ history e s v0 w1 L F /\ run1 e (OMalloc id (ans o)) w1 = Abort
  | Undef => False
  end.

(** The handle is in the set. *)
Definition in_set (S : pset) (id : Z) : Prop := exists o, S o = Some id.

(** ** Attribute objects *)
Inductive field := FFunc | FPriv | FInit | FRobust | FType | FStride | FCpus | FRanges | FPoisonSet | FPoison | FPolicy.
Definition get (x : aobj) (f : field) : Z :=
  let a := a_attr x in
  match f with
  | FFunc => a_func x | FPriv => a_priv x | FInit => Z.b2z (init_set a) | FRobust => Z.b2z (robust_set a)
  | FType => type a | FStride => stride a | FCpus => max_nr_cpus a | FRanges => max_nr_ranges a
  | FPoisonSet => Z.b2z (poison_set a) | FPoison => poison a | FPolicy => populate_policy a
  end.
(** What include/rseq/mempool.h:437-580 says each setter sets. *)
Definition documented (c : setter) (f : field) : option Z :=
  match c, f with
  | SInit g _, FFunc => Some g
  | SInit _ p, FPriv => Some p
  | SInit _ _, FInit => Some 1
  | SRobust, FRobust => Some 1
  | SPercpu _ _, FType => Some TYPE_PERCPU
  | SPercpu st _, FStride => Some st
  | SPercpu _ n, FCpus => Some n
  | SGlobal _, FType => Some TYPE_GLOBAL
  | SGlobal st, FStride => Some st
  | SGlobal _, FCpus => Some 0       (* "max_nr_cpus" is meaningless for a global pool *)
  | SRanges n, FRanges => Some n
  | SPoison _, FPoisonSet => Some 1
  | SPoison p, FPoison => Some p
  | SPolicy p, FPolicy => Some p
  | _, _ => None
  end.
(** The value that the last call of [cs] that is about [f] gave it, or [d]. *)
Fixpoint last_set (says : setter -> field -> option Z) (cs : list setter) (f : field) (d : Z) : Z :=
  match cs with
  | [] => d
  | c :: cs => last_set says cs f (match says c f with Some v => v | None => d end)
  end.
(** What the code does: rseq_mempool_attr_set_init also chooses the policy. *)
Definition actual (c : setter) (f : field) : option Z :=
  match c, f with SInit _ _, FPolicy => Some COW_INIT | _, _ => documented c f end.
Definition run_setters (h : objects) (cs : list (Z * setter)) : objects := fold_left call_on cs h.
(** The calls of [cs] on the object [x]. *)
Definition on_object (x : Z) (cs : list (Z * setter)) : list setter := map snd (filter (fun c => fst c =? x) cs).
