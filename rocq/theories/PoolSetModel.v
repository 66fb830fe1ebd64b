(** Model of src/rseq-mempool.c, second part: pool sets (1189-1294) and attribute
    objects (1296-1398).  Executable definitions only, no proofs.

    Simplification: a set is its array of entries, each a pool handle of the
    world (PoolWorld.v) or nothing; its mutex only protects the array. *)
From Coq Require Import ZArith Bool List.
From Verif Require Import UtilsModel RseqIR PoolVM PoolModel PoolWorld.
Import ListNotations.
Local Open Scope Z_scope.

(** struct rseq_mempool_set, src/rseq-mempool.c:183-187: entries, by item order. *)
Definition pset := Z -> option Z.

(** 1189-1198  rseq_mempool_set_create (calloc) *)
Definition set_create : pset := fun _ => None.

(** 1219-1235  rseq_mempool_set_add_pool; [id] is the handle of [P].  Returns the
    value, errno if set, and the set. *)
Definition set_add_pool (S : pset) (id : Z) (P : pool) : Z * option Z * pset :=
  match S (item_order P) with
  | Some _ => (-1, Some EBUSY, S)
  | None => (0, None, fun o => if o =? item_order P then Some id else S o)
  end.

Section Set_.
Variable e : env.

(** The pool of a handle after a call. *)
Definition with_pool (w : world) (id : Z) (P : pool) (v : vm) : world :=
  {| w_vm := v; w_pools := set_pool id P (w_pools w) |}.

(** 1237-1278  __rseq_mempool_set_malloc, from its loop on.  [os] are the orders
    still to be looked at; [ans o] are the answers of the system during the
    allocation from the pool of order [o].  [c] is what __rseq_percpu_malloc does
    with (zeroed, init_ptr). *)
Fixpoint set_malloc_from (os : list Z) (S : pset) (c : content) (len : Z) (ans : Z -> answers) (w : world)
  : res (got * world) :=
  match os with
  | [] => Ok (Null ENOMEM, w)                                               (* 1271-1275 *)
  | o :: os =>
    match S o with
    | None => set_malloc_from os S c len ans w                              (* 1254-1255 *)
    | Some id =>
      match lookup id (w_pools w) with
      | None => Undef
      | Some P =>
        if len <=? item_len P then                                          (* 1256 *)
          do x <- percpu_malloc e P c len (ans o) (w_vm w);                 (* 1263 *)
          match x with
          | (Got a, P, v) => Ok (Got a, with_pool w id P v)
          | (Null err, P, v) =>
            if err =? ENOMEM then set_malloc_from os S c len ans (with_pool w id P v)   (* 1264-1270 *)
            else Ok (Null err, with_pool w id P v)
          end
        else set_malloc_from os S c len ans w
      end
    end
  end.
(** 1240-1246: the first order to look at *)
Definition set_min_order (len : Z) : Z :=
  let order := rseq_get_count_order_ulong (e_wide e) len in
  if POOL_SET_MIN_ENTRY e <? order then order else POOL_SET_MIN_ENTRY e.
Definition set_malloc (S : pset) (c : content) (len : Z) (ans : Z -> answers) (w : world) : res (got * world) :=
  let m := set_min_order len in
  set_malloc_from (zseq m (POOL_SET_NR_ENTRIES e - m)) S c len ans w.

(** 1116-1119: what is done with (zeroed, init_ptr) *)
Definition content_of (zeroed : bool) (init_ptr : option (list Z)) : content :=
  if zeroed then Zeroed else match init_ptr with Some bs => Bytes bs | None => Any end.

(** 1280-1294 *)
Definition set_percpu_malloc S len ans w := set_malloc S (content_of false None) len ans w.
Definition set_percpu_zmalloc S len ans w := set_malloc S (content_of true None) len ans w.
Definition set_percpu_malloc_init S (bs : list Z) ans w :=
  set_malloc S (content_of true (Some bs)) (Z.of_nat (length bs)) ans w.

(** 1200-1217  rseq_mempool_set_destroy *)
Fixpoint set_destroy_from (os : list Z) (S : pset) (ans : Z -> answers) (w : world) : res (Z * pset * world) :=
  match os with
  | [] => Ok (0, S, w)
  | o :: os =>
    match S o with
    | None => set_destroy_from os S ans w
    | Some id =>
      match lookup id (w_pools w) with
      | None => Undef
      | Some P =>
        do x <- mempool_destroy e P (ans o) (w_vm w);
        let '(ret, _, v) := x in
        let w := {| w_vm := v; w_pools := del_pool id (w_pools w) |} in
        if negb (ret =? 0) then Ok (ret, S, w)
        else set_destroy_from os (fun o' => if o' =? o then None else S o') ans w
      end
    end
  end.
Definition set_destroy (S : pset) (ans : Z -> answers) (w : world) : res (Z * pset * world) :=
  set_destroy_from (zseq (POOL_SET_MIN_ENTRY e) (POOL_SET_NR_ENTRIES e - POOL_SET_MIN_ENTRY e)) S ans w.
End Set_.

(** ** Attribute objects *)
(** struct rseq_mempool_attr with the callback and its argument *)
Record aobj := { a_attr : attr; a_func : Z; a_priv : Z }.

(** 1296-1299  rseq_mempool_attr_create (calloc) *)
Definition attr_create : aobj := {| a_attr := attr0; a_func := 0; a_priv := 0 |}.

(** The setters: [None] is a NULL attr; the value returned, errno if set, the object. *)
Definition setter_result : Type := Z * option Z * option aobj.
Definition on_attr (o : option aobj) (f : aobj -> aobj) : setter_result :=
  match o with None => (-1, Some EINVAL, None) | Some x => (0, None, Some (f x)) end.
Definition upd_attr (f : attr -> attr) (x : aobj) : aobj :=
  {| a_attr := f (a_attr x); a_func := a_func x; a_priv := a_priv x |}.

(** 1306-1319  rseq_mempool_attr_set_init *)
Definition attr_set_init (o : option aobj) (func priv : Z) : setter_result :=
  on_attr o (fun x =>
    let a := a_attr x in
    {| a_attr := {| init_set := true; robust_set := robust_set a; type := type a; stride := stride a;
                    max_nr_cpus := max_nr_cpus a; max_nr_ranges := max_nr_ranges a; poison_set := poison_set a;
                    poison := poison a; populate_policy := COW_INIT |};
       a_func := func; a_priv := priv |}).
(** 1321-1329  rseq_mempool_attr_set_robust *)
Definition attr_set_robust (o : option aobj) : setter_result :=
  on_attr o (upd_attr (fun a =>
    {| init_set := init_set a; robust_set := true; type := type a; stride := stride a;
       max_nr_cpus := max_nr_cpus a; max_nr_ranges := max_nr_ranges a; poison_set := poison_set a;
       poison := poison a; populate_policy := populate_policy a |})).
(** 1331-1342  rseq_mempool_attr_set_percpu *)
Definition attr_set_percpu (o : option aobj) (strd n : Z) : setter_result :=
  on_attr o (upd_attr (fun a =>
    {| init_set := init_set a; robust_set := robust_set a; type := TYPE_PERCPU; stride := strd;
       max_nr_cpus := n; max_nr_ranges := max_nr_ranges a; poison_set := poison_set a;
       poison := poison a; populate_policy := populate_policy a |})).
(** 1344-1355  rseq_mempool_attr_set_global *)
Definition attr_set_global (o : option aobj) (strd : Z) : setter_result :=
  on_attr o (upd_attr (fun a =>
    {| init_set := init_set a; robust_set := robust_set a; type := TYPE_GLOBAL; stride := strd;
       max_nr_cpus := 0; max_nr_ranges := max_nr_ranges a; poison_set := poison_set a;
       poison := poison a; populate_policy := populate_policy a |})).
(** 1357-1366  rseq_mempool_attr_set_max_nr_ranges *)
Definition attr_set_max_nr_ranges (o : option aobj) (n : Z) : setter_result :=
  on_attr o (upd_attr (fun a =>
    {| init_set := init_set a; robust_set := robust_set a; type := type a; stride := stride a;
       max_nr_cpus := max_nr_cpus a; max_nr_ranges := n; poison_set := poison_set a;
       poison := poison a; populate_policy := populate_policy a |})).
(** 1368-1378  rseq_mempool_attr_set_poison *)
Definition attr_set_poison (o : option aobj) (p : Z) : setter_result :=
  on_attr o (upd_attr (fun a =>
    {| init_set := init_set a; robust_set := robust_set a; type := type a; stride := stride a;
       max_nr_cpus := max_nr_cpus a; max_nr_ranges := max_nr_ranges a; poison_set := true;
       poison := p; populate_policy := populate_policy a |})).
(** 1380-1389  rseq_mempool_attr_set_populate_policy *)
Definition attr_set_populate_policy (o : option aobj) (pol : Z) : setter_result :=
  on_attr o (upd_attr (fun a =>
    {| init_set := init_set a; robust_set := robust_set a; type := type a; stride := stride a;
       max_nr_cpus := max_nr_cpus a; max_nr_ranges := max_nr_ranges a; poison_set := poison_set a;
       poison := poison a; populate_policy := pol |})).

(** 1391-1398  rseq_mempool_get_max_nr_cpus *)
Definition mempool_get_max_nr_cpus (o : option pool) : Z * option Z :=
  match o with
  | None => (-1, Some EINVAL)
  | Some P => if type (pattr P) =? TYPE_PERCPU then (max_nr_cpus (pattr P), None) else (-1, Some EINVAL)
  end.

(** A setter call of a program, on the attribute object [Some _] or on NULL. *)
Inductive setter :=
| SInit (func priv : Z) | SRobust | SPercpu (strd n : Z) | SGlobal (strd : Z) | SRanges (n : Z)
| SPoison (p : Z) | SPolicy (pol : Z).
Definition call_setter (x : setter) (o : option aobj) : setter_result :=
  match x with
  | SInit f p => attr_set_init o f p
  | SRobust => attr_set_robust o
  | SPercpu s n => attr_set_percpu o s n
  | SGlobal s => attr_set_global o s
  | SRanges n => attr_set_max_nr_ranges o n
  | SPoison p => attr_set_poison o p
  | SPolicy p => attr_set_populate_policy o p
  end.
(** A program that calls setters on attribute objects, by object. *)
Definition objects := Z -> option aobj.
Definition call_on (h : objects) (c : Z * setter) : objects :=
  let '(_, _, o) := call_setter (snd c) (h (fst c)) in
  fun x => if x =? fst c then o else h x.
