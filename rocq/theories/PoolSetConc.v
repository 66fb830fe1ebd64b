(** Model of src/rseq-mempool.c, third part: allocations from one pool set by any
    number of threads at the same time.  Executable definitions only, no proofs.

    __rseq_mempool_set_malloc (1237-1278) holds the mutex of the set only while it
    looks for a pool (1248-1261), and the mutex of the pool only while it takes an
    item (1066-1115).  So a call is a sequence of separate steps, and other threads may
    do anything between two of them.

    Simplification: filling the item (1116-1119) is one step; C38 is about
    interruptions inside it. *)
From Coq Require Import ZArith Bool List.
From Verif Require Import UtilsModel RseqIR PoolVM PoolModel PoolWorld PoolSetModel.
Import ListNotations.
Local Open Scope Z_scope.

(** Where a call is in __rseq_mempool_set_malloc. *)
Inductive phase :=
| Looking (min_order : Z)          (* 1247: label again *)
| Taking (order id : Z)            (* 1263: the pool [id] was found at [order] *)
| Filling (order id item : Z)      (* 1115: it gave [item]; its mutex is released *)
| Returned (g : got).              (* 1277 *)
(** A call for [k_len] bytes; [k_zero] is its parameter zeroed. *)
Record call := { k_len : Z; k_zero : bool; k_phase : phase }.
Definition at_phase (k : call) (p : phase) : call := {| k_len := k_len k; k_zero := k_zero k; k_phase := p |}.

(** The process: its pools, the items it holds and has freed, the set and the
    call of the set each thread is in. *)
Record machine := { m_w : world; m_L : ledger; m_F : ledger; m_S : pset; m_call : Z -> option call }.

Inductive act :=
| Begin (t len : Z) (zero : bool)     (* thread [t] calls an allocation function of the set *)
| Advance (t : Z) (an : answers)      (* it does the next step of this call *)
| Leave (t : Z)                       (* it continues with the result *)
| Other (o : op)                      (* some thread does something else to the pools *)
| Add (id : Z).                       (* some thread adds a pool to the set *)

Section Conc.
Variable e : env.

(** 1249-1259: the first entry, from the orders [os], whose items have [len] bytes. *)
Fixpoint find_fit (os : list Z) (S : pset) (w : world) (len : Z) : res (option (Z * Z)) :=
  match os with
  | [] => Ok None
  | o :: os =>
    match S o with
    | None => find_fit os S w len                                           (* 1254-1255 *)
    | Some id =>
      match lookup id (w_pools w) with
      | None => Undef
      | Some P => if len <=? item_len P then Ok (Some (o, id)) else find_fit os S w len   (* 1256 *)
      end
    end
  end.

Definition set_call (m : machine) (t : Z) (k : option call) : Z -> option call :=
  fun u => if u =? t then k else m_call m u.
Definition with_call (m : machine) (t : Z) (k : option call) : machine :=
  {| m_w := m_w m; m_L := m_L m; m_F := m_F m; m_S := m_S m; m_call := set_call m t k |}.
(** The call [o] on the pools, whose outcome the threads learn. *)
Definition do_op (m : machine) (o : op) : res (machine * out) :=
  do x <- run1 e o (m_w m);
  let '(w, y) := x in
  Ok ({| m_w := w; m_L := live_after o y (m_L m); m_F := freed_after o y (m_L m) (m_F m);
         m_S := m_S m; m_call := m_call m |}, y).

(** 1237-1278  the steps of __rseq_mempool_set_malloc *)
Definition advance (m : machine) (t : Z) (k : call) (an : answers) : res machine :=
  let to m p := Ok (with_call m t (Some (at_phase k p))) in
  match k_phase k with
  | Looking lo =>
    do f <- find_fit (zseq lo (POOL_SET_NR_ENTRIES e - lo)) (m_S m) (m_w m) (k_len k);    (* 1248-1261 *)
    match f with
    | Some (o, id) => to m (Taking o id)
    | None => to m (Returned (Null ENOMEM))                                 (* 1271-1275 *)
    end
  | Taking o id =>
    match lookup id (w_pools (m_w m)) with
    | None => Undef
    | Some P =>
      if item_len P <? k_len k then to m (Returned (Null EINVAL))           (* 1062-1065 *)
      else
        do x <- do_op m (OMalloc id an);                                    (* 1066-1115 *)
        match x with
        | (m, OutItem a) => to m (Filling o id a)
        | (m, _) => to m (Looking (o + 1))                                  (* 1264-1270 *)
        end
    end
  | Filling o id a =>
    do x <- do_op m (OFill id a (content_of (k_zero k) None));              (* 1116-1119 *)
    to (fst x) (Returned (Got a))
  | Returned _ => Undef
  end.

Definition mstep (a : act) (m : machine) : res machine :=
  match a with
  | Begin t len zero =>                                                     (* 1240-1246 *)
    Ok (with_call m t (Some {| k_len := len; k_zero := zero; k_phase := Looking (set_min_order e len) |}))
  | Advance t an => match m_call m t with Some k => advance m t k an | None => Undef end
  | Leave t => Ok (with_call m t None)
  | Other o => do x <- do_op m o; Ok (fst x)
  | Add id =>
    match lookup id (w_pools (m_w m)) with
    | None => Undef
    | Some P => let '(_, _, s) := set_add_pool (m_S m) id P in
      Ok {| m_w := m_w m; m_L := m_L m; m_F := m_F m; m_S := s; m_call := m_call m |}
    end
  end.

(** ** Vocabulary of the properties *)
(** What the threads of a program do.  They do not destroy a pool that belongs to
    the set, and cannot free an item before the call that allocates it returns. *)
Definition permitted (strict : bool) (v0 : vm) (m : machine) (a : act) : Prop :=
  match a with
  | Begin t len _ => m_call m t = None /\ 0 <= len < wmax e
  | Advance t _ => exists k, m_call m t = Some k /\ forall g, k_phase k <> Returned g
  | Leave t => exists k g, m_call m t = Some k /\ k_phase k = Returned g
  | Add id => exists P, lookup id (w_pools (m_w m)) = Some P
  | Other o => allowed e strict v0 (m_w m) (m_L m) o /\
    match o with
    | ODestroy id _ => forall o', m_S m o' <> Some id
    | OFree ptr _ => forall t k o' id', m_call m t = Some k -> k_phase k <> Filling o' id' ptr
    | _ => True
    end
  end.

(** The states passed, each with what was done in it. *)
Inductive run (strict : bool) (v0 : vm) : machine -> list (machine * act) -> machine -> Prop :=
| run_nil m : run strict v0 m [] m
| run_cons m a m1 tr m2 : permitted strict v0 m a -> mstep a m = Ok m1 -> run strict v0 m1 tr m2 ->
    run strict v0 m ((m, a) :: tr) m2.
(** No pool, an empty set and no call. *)
Definition start (v0 : vm) : machine :=
  {| m_w := {| w_vm := v0; w_pools := [] |}; m_L := []; m_F := []; m_S := set_create; m_call := fun _ => None |}.
Definition reachable (strict : bool) (v0 : vm) (m : machine) : Prop :=
  machine_ok e /\ address_space_ok e v0 /\ exists tr, run strict v0 (start v0) tr m.
End Conc.
