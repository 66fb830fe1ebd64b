(** Pool calls of many threads, interleaved memory access by memory access.
    Executable definitions only, no proofs.

    PoolModel.v runs the part of a call that holds the pool's mutex as one step.
    Here a thread takes the mutex, reads and writes the fields of the pool, and
    loads and stores memory, in steps of its own, and any number of threads take
    turns after every step.

    - One step: taking or releasing the mutex, one access to the head of the free
      list, one word of the poison check, one byte compared or stored when an item
      is filled or poisoned, one update of the allocation bitmap.
    - The bytes of one copy of an item are compared, and stored, in any order.
    - Simplified: finding fresh memory (lines 1086-1109, with the system calls
      that create a range) is one step of the thread that holds the mutex.  So are
      rseq_mempool_create, rseq_mempool_destroy and each of the program's stores.
    - Simplified: malloc_init with more bytes than an item has, which returns NULL
      before it takes the mutex (1061-1064), is left out; see C23.
    - Memory is sequentially consistent, and the kernel copies a page in one step
      (C38 is about kernels that do not). *)
From Coq Require Import ZArith Bool List.
From Verif Require Import UtilsModel RseqIR PoolVM PoolModel PoolWorld.
Import ListNotations.
Local Open Scope Z_scope.

(** ** Filling an item, src/rseq-mempool.c:269-300, 302-327, 338-367
    The bytes of a copy of the item are a list of addresses and values. *)
Definition bytes := list (Z * Z).
Inductive phase :=
| PStore (todo : bytes) (rest : list bytes)      (* bzero, memcpy, rseq_poison_item *)
| PCmp (todo all : bytes) (rest : list bytes)    (* rseq_cmp_item, memcmp *)
| PEnd.
(** The loop over the CPUs: compare the next copy. *)
Definition next (rest : list bytes) : phase :=
  match rest with [] => PEnd | w :: rest => PCmp w w rest end.
(** Byte number [k] of the list (the first one if there are fewer), and the others. *)
Definition pick (k : nat) (y : Z * Z) (l : bytes) : (Z * Z) * bytes :=
  match nth_error (y :: l) k with
  | Some z => (z, firstn k (y :: l) ++ skipn (S k) (y :: l))
  | None => (y, l)
  end.

Inductive call :=
| CMalloc (id : Z) (an : answers) (c : content)  (* malloc, zmalloc, malloc_init *)
| CFree (ptr strd : Z).

(** Where a thread is: [TWant] waits for the mutex; the names below give the next
    step.  Arguments are the local variables of the call. *)
Inductive task :=
| TIdle
| TWant (id : Z) (c : call)                                   (* 1065, 1172 *)
| TMHead (id : Z) (an : answers) (c : content)                (* 1067: node = pool->free_list_head *)
| TMNext (id : Z) (c : content) (node : Z)                    (* 1075: load node->next *)
| TMPop (id : Z) (c : content) (node nxt : Z)                 (* 1075: pool->free_list_head = *)
| TMCheck (id : Z) (c : content) (node nxt : Z) (todo : list Z) (* 1077: poison check; then 1108-1109 *)
| TMFresh (id : Z) (an : answers) (c : content)               (* 1086-1109 *)
| TMUnlock (id : Z) (c : content) (found : option (range * Z * Z)) (* 1110 *)
| TFill (id item : Z) (c : content) (ph : phase)              (* 1111-1118 *)
| TFClear (id ptr strd : Z)                                   (* 1173: clear_alloc_slot *)
| TFHead (id ptr strd : Z)                                    (* 1175: head = pool->free_list_head *)
| TFPoison (id ptr hd : Z) (ph : phase)                       (* 1176-1177 *)
| TFLink (id ptr hd : Z)                                      (* 1184: item->next = head *)
| TFPush (id ptr : Z)                                         (* 1185: pool->free_list_head = item *)
| TFUnlock (id : Z).                                          (* 1186 *)

(** [m_lock]: which thread has the mutex of a pool.  [m_held]: the items that calls
    have returned to the program and that it has not passed to free. *)
Record mstate := {
  m_vm : vm; m_pools : list (Z * pool); m_lock : Z -> option Z; m_task : Z -> task; m_held : ledger
}.
Definition mworld (m : mstate) : world := {| w_vm := m_vm m; w_pools := m_pools m |}.
Definition upd {A : Type} (f : Z -> A) (k : Z) (x : A) : Z -> A := fun i => if i =? k then x else f i.

Definition set_vm (m : mstate) (v : vm) : mstate :=
  {| m_vm := v; m_pools := m_pools m; m_lock := m_lock m; m_task := m_task m; m_held := m_held m |}.
Definition put_pool (m : mstate) (id : Z) (P : pool) : mstate :=
  {| m_vm := m_vm m; m_pools := set_pool id P (m_pools m); m_lock := m_lock m; m_task := m_task m; m_held := m_held m |}.
Definition set_lock (m : mstate) (id : Z) (o : option Z) : mstate :=
  {| m_vm := m_vm m; m_pools := m_pools m; m_lock := upd (m_lock m) id o; m_task := m_task m; m_held := m_held m |}.
Definition goto (m : mstate) (t : Z) (k : task) : mstate :=
  {| m_vm := m_vm m; m_pools := m_pools m; m_lock := m_lock m; m_task := upd (m_task m) t k; m_held := m_held m |}.
Definition set_held (m : mstate) (l : ledger) : mstate :=
  {| m_vm := m_vm m; m_pools := m_pools m; m_lock := m_lock m; m_task := m_task m; m_held := l |}.

Section Micro.
Variable e : env.

(** One step of filling. *)
Definition fill_byte (k : nat) (ph : phase) (v : vm) : res (phase * vm) :=
  match ph with
  | PStore [] rest => Ok (next rest, v)
  | PStore (y :: l) rest =>
    let '(z, todo) := pick k y l in
    if mapped v (page e (fst z)) then Ok (PStore todo rest, store1 e v z) else Undef
  | PCmp [] _ rest => Ok (next rest, v)
  | PCmp (y :: l) all rest =>
    let '(z, todo) := pick k y l in
    if negb (mapped v (page e (fst z))) then Undef
    else if byte (view e v) (fst z) =? snd z mod 256 then Ok (PCmp todo all rest, v)
    else Ok (PStore all rest, v)
  | PEnd => Ok (PEnd, v)
  end.

(** The copies of an item: the initial values if the pool has them (always stored),
    then one copy per CPU (stored if different). *)
Definition fill_start (P : pool) (r : range) (item_offset : Z) (W : Z -> bytes) : phase :=
  let rest := map (fun i => W (range_percpu_ptr e r i item_offset (stride (pattr P)))) (cpus P) in
  match range_init_ptr e r item_offset with
  | None => next rest
  | Some p => PStore (W p) rest
  end.
Definition content_bytes (P : pool) (c : content) (p : Z) : bytes :=
  match c with
  | Any => []
  | Zeroed => zero_bytes p (item_len P)
  | Bytes bs => fill_bytes p bs
  end.
Definition poison_of (P : pool) (p : Z) : bytes := poison_bytes e p (item_len P) (poison (pattr P)).

(** The words that rseq_percpu_check_poison_item compares, 385-403. *)
Definition check_words (P : pool) (r : range) (item_offset : Z) : list Z :=
  if robust_set (pattr P) then
    flat_map (fun p => map (fun o => p + o) (word_offsets e (item_len P)))
      (match range_init_ptr e r item_offset with None => [] | Some p => [p] end ++
       map (fun i => range_percpu_ptr e r i item_offset (stride (pattr P))) (cpus P))
  else [].

(** ptr, range_base and item_offset of lines 1071-1076. *)
Definition node_ptr (P : pool) (node : Z) : Z := free_list_to_percpu_ptr e P node.
Definition node_base (P : pool) (node : Z) : Z := Z.land (node_ptr P node) (notw (e_wide e) (stride (pattr P) - 1)).

(** The next step of thread [t], in a call on a pool that is now [P].  None: the
    thread waits for the mutex.  The value returned is given when the call ends. *)
Definition step_in (t : Z) (k : nat) (m : mstate) (id : Z) (P : pool) (tk : task) : option (res (mstate * option out)) :=
  let v := m_vm m in
  match tk with
  | TIdle => None
  | TWant _ c =>
    match m_lock m id with
    | Some _ => None
    | None => Some (Ok (goto (set_lock m id (Some t)) t
        match c with CMalloc _ an c => TMHead id an c | CFree ptr strd => TFClear id ptr strd end, None))
    end
  | TMHead _ an c =>
    let node := free_list_head P in
    Some (Ok (goto m t (if node =? 0 then TMFresh id an c else TMNext id c node), None))
  | TMNext _ c node => Some
    match find_range (range_list P) (node_base P node) with
    | None => Undef
    | Some r =>
      if accessible e v node (wsz e) then Ok (goto m t (TMPop id c node (load_word e v node)), None) else Undef
    end
  | TMPop _ c node nxt => Some
    match find_range (range_list P) (node_base P node) with
    | None => Undef
    | Some r =>
      Ok (goto (put_pool m id (set_head P nxt)) t (TMCheck id c node nxt (check_words P r (node_ptr P node - node_base P node))), None)
    end
  | TMCheck _ c node nxt (x :: todo) => Some
    (if negb (accessible e v x (wsz e)) then Undef
     else if load_word e v x =? poison (pattr P) then Ok (goto m t (TMCheck id c node nxt todo), None) else Abort)
  | TMCheck _ c node nxt [] => Some
    match find_range (range_list P) (node_base P node) with
    | None => Undef
    | Some r =>
      let off := node_ptr P node - node_base P node in
      do r <- set_alloc_slot e P r off;
      Ok (goto (put_pool m id (set_ranges P (put_range (range_list P) r))) t
            (TMUnlock id c (Some (r, off, node_ptr P node))), None)
    end
  | TMFresh _ an c => Some
    (do x <- malloc_locked e P an v;
     let '(found, P, v) := x in
     Ok (goto (put_pool (set_vm m v) id P) t (TMUnlock id c found), None))
  | TMUnlock _ c found =>
    let m := set_lock m id None in
    Some match found with
    | None => Ok (goto m t TIdle, Some OutNull)
    | Some (r, off, addr) =>
      match c with
      | Any => Ok (set_held (goto m t TIdle) ((id, addr) :: m_held m), Some (OutItem addr))
      | _ => Ok (goto m t (TFill id addr c (fill_start P r off (content_bytes P c))), None)
      end
    end
  | TFill _ item c PEnd => Some (Ok (set_held (goto m t TIdle) ((id, item) :: m_held m), Some (OutItem item)))
  | TFill _ item c ph => Some
    (do x <- fill_byte k ph v; let '(ph, v) := x in Ok (goto (set_vm m v) t (TFill id item c ph), None))
  | TFClear _ ptr strd => Some
    match find_range (range_list P) (free_base e ptr strd) with
    | None => Undef
    | Some r =>
      do r <- clear_alloc_slot e P r (Z.land ptr (strd - 1));
      Ok (goto (put_pool m id (set_ranges P (put_range (range_list P) r))) t (TFHead id ptr strd), None)
    end
  | TFHead _ ptr strd => Some
    match find_range (range_list P) (free_base e ptr strd) with
    | None => Undef
    | Some r =>
      Ok (goto m t (if poison_set (pattr P)
            then TFPoison id ptr (free_list_head P) (fill_start P r (Z.land ptr (strd - 1)) (poison_of P))
            else TFLink id ptr (free_list_head P)), None)
    end
  | TFPoison _ ptr hd PEnd => Some (Ok (goto m t (TFLink id ptr hd), None))
  | TFPoison _ ptr hd ph => Some
    (do x <- fill_byte k ph v; let '(ph, v) := x in Ok (goto (set_vm m v) t (TFPoison id ptr hd ph), None))
  | TFLink _ ptr hd =>
    let item := percpu_to_free_list_ptr e P ptr in
    Some (if accessible e v item (wsz e)
          then Ok (goto (set_vm m (store e v (stw (wcfg e) item hd))) t (TFPush id ptr), None) else Undef)
  | TFPush _ ptr => Some (Ok (goto (put_pool m id (set_head P (percpu_to_free_list_ptr e P ptr))) t (TFUnlock id), None))
  | TFUnlock _ => Some (Ok (goto (set_lock m id None) t TIdle, Some OutUnit))
  end.

(** The pool of the call a thread is in. *)
Definition pool_of (tk : task) : option Z :=
  match tk with
  | TIdle => None
  | TWant id _ | TMHead id _ _ | TMNext id _ _ | TMPop id _ _ _ | TMCheck id _ _ _ _ | TMFresh id _ _ | TMUnlock id _ _
  | TFill id _ _ _ | TFClear id _ _ | TFHead id _ _ | TFPoison id _ _ _ | TFLink id _ _ | TFPush id _ | TFUnlock id => Some id
  end.
Definition advance (t : Z) (k : nat) (m : mstate) : option (res (mstate * option out)) :=
  match pool_of (m_task m t) with
  | None => None
  | Some id =>
    match lookup id (m_pools m) with
    | None => Some Undef
    | Some P => step_in t k m id P (m_task m t)
    end
  end.

(** A thread starts a call; a thread takes its next step; anything else a program
    does with pools; the rest of the process acts (PoolWorld.v: [rest_acts]). *)
Inductive action := ACall (t : Z) (c : call) | AStep (t : Z) (k : nat) | AOp (o : op) | ARest (v' : vm).

Definition mstep (a : action) (m : mstate) : option (res (mstate * option out)) :=
  match a with
  | ACall t c =>
    match m_task m t, c with
    | TIdle, CMalloc id _ _ => Some (Ok (goto m t (TWant id c), None))
    | TIdle, CFree ptr strd =>                                   (* 1165-1169 *)
      Some match find_owner (m_pools m) (free_base e ptr strd) with
           | None => Undef
           | Some (id, _, _) =>
             Ok (set_held (goto m t (TWant id c)) (filter (fun i => negb (same_item i (id, ptr))) (m_held m)), None)
           end
    | _, _ => None
    end
  | AStep t k => advance t k m
  | AOp o =>
    match o with
    | OCreate _ _ _ _ _ | OWrite _ | ODestroy _ _ => Some
      (do x <- run1 e o (mworld m);
       let '(w, x) := x in
       Ok ({| m_vm := w_vm w; m_pools := w_pools w; m_lock := m_lock m; m_task := m_task m;
              m_held := live_after o x (m_held m) |}, Some x))
    | _ => None
    end
  | ARest v' => Some (Ok (set_vm m v', None))
  end.

(** ** What a program may do
    It allocates from pools it has, frees items it holds, writes its own memory and
    the items it holds, and destroys no pool that a call is using. *)
Definition permitted (v0 : vm) (m : mstate) (a : action) : Prop :=
  match a with
  | ACall t (CMalloc id _ c) => exists P, lookup id (m_pools m) = Some P /\ content_fits P c
  | ACall t (CFree ptr strd) => exists id P, lookup id (m_pools m) = Some P /\ In (id, ptr) (m_held m) /\ strd = stride (pattr P)
  | AStep _ _ => True
  | AOp o => allowed e true v0 (mworld m) (m_held m) o /\
    match o with ODestroy id _ => forall t, pool_of (m_task m t) <> Some id | _ => True end
  | ARest v' => rest_acts e v0 (mworld m) v'
  end.

(** ** fork()
    The item a call is about to return, or was given to free. *)
Definition owns (tk : task) : option (Z * Z) :=
  match tk with
  | TWant id (CFree ptr _) => Some (id, ptr)
  | TMUnlock id _ (Some (_, _, a)) => Some (id, a)
  | TFill id a _ _ => Some (id, a)
  | TFClear id ptr _ | TFHead id ptr _ | TFPoison id ptr _ _ | TFLink id ptr _ | TFPush id ptr => Some (id, ptr)
  | _ => None
  end.
(** A thread that is in no call forks; the others do not exist in the child.  Simplified,
    as in PoolWorld.v: the pools the child cannot use are left out, those with initial
    values and those whose mutex another thread had, which nobody will release (C68).
    The items [lost] that other threads were about to get or had just passed to free stay
    allocated; they are counted as held by the child, though it does not know them. *)
Definition unlocked (m : mstate) (id : Z) : bool := match m_lock m id with None => true | Some _ => false end.
Definition usable (m : mstate) : world :=
  {| w_vm := m_vm m; w_pools := filter (fun p => unlocked m (fst p)) (m_pools m) |}.
Definition mchild (m : mstate) (lost : ledger) : mstate :=
  {| m_vm := w_vm (child e (usable m)); m_pools := w_pools (child e (usable m)); m_lock := fun _ => None; m_task := fun _ => TIdle;
     m_held := inherited (usable m) (m_held m ++ lost) |}.
Definition forks (v0 : vm) (m : mstate) (t : Z) (lost : ledger) : Prop :=
  m_task m t = TIdle /\ NoDup lost /\ (forall i, In i lost <-> exists t', owns (m_task m t') = Some i) /\ plain_fork e v0 (mworld m).

Definition m_start (v0 : vm) : mstate :=
  {| m_vm := v0; m_pools := []; m_lock := fun _ => None; m_task := fun _ => TIdle; m_held := [] |}.

(** The runs: every order of steps, in a program and in its children. *)
Inductive mrun (v0 : vm) : mstate -> Prop :=
| mrun_start : mrun v0 (m_start v0)
| mrun_step m a m' x : mrun v0 m -> permitted v0 m a -> mstep a m = Some (Ok (m', x)) -> mrun v0 m'
| mrun_fork m t lost : mrun v0 m -> forks v0 m t lost -> mrun v0 (mchild m lost).
End Micro.
