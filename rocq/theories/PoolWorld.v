(** Histories of calls to the pools.  Definitions only.

    A world is the address space of the process and its pools.  The operations are
    the calls of include/rseq/mempool.h and the program's own memory writes, in
    any order and for any number of pools.  Calls on one pool are serialised by
    its mutex (src/rseq-mempool.c:1066, 1115, 1170, 1186), so a history is a sequence; the
    part of an allocation that runs outside of the mutex (filling the item,
    1116-1119) is an operation of its own, which other operations may precede. *)
From Coq Require Import ZArith Bool List.
From Verif Require Import UtilsModel RseqIR PoolVM PoolModel.
Import ListNotations.
Local Open Scope Z_scope.

Record world := { w_vm : vm; w_pools : list (Z * pool) }.

(** Pools are identified by the handle the program got for them. *)
Inductive op :=
| OCreate (id : Z) (named : bool) (len : Z) (at_ : option attr) (an : answers)
| OMalloc (id : Z) (an : answers)           (* 1053-1115: under the mutex *)
| OFill (id : Z) (item : Z) (c : content)   (* 1116-1119: after it *)
| OFree (ptr strd : Z)
| OWrite (ps : list (Z * Z))                (* the program writes bytes *)
| ODestroy (id : Z) (an : answers).

Inductive out := OutUnit | OutMade | OutErr (err : Z) | OutItem (addr : Z) | OutNull | OutRet (ret : Z).

Section World.
Variable e : env.

Definition lookup (id : Z) (l : list (Z * pool)) : option pool :=
  match find (fun ip => fst ip =? id) l with Some (_, P) => Some P | None => None end.
Definition set_pool (id : Z) (P : pool) (l : list (Z * pool)) : list (Z * pool) :=
  map (fun ip => if fst ip =? id then (id, P) else ip) l.
Definition del_pool (id : Z) (l : list (Z * pool)) : list (Z * pool) :=
  filter (fun ip => negb (fst ip =? id)) l.

(** 1165-1168: the range structure found just below the stride-aligned address
    gives the range and its pool; anywhere else there is no such structure. *)
Fixpoint find_owner (l : list (Z * pool)) (b : Z) : option (Z * pool * range) :=
  match l with
  | [] => None
  | (id, P) :: l =>
    match find_range (range_list P) b with Some r => Some (id, P, r) | None => find_owner l b end
  end.

Definition run1 (o : op) (w : world) : res (world * out) :=
  match o with
  | OCreate id named len at_ an =>
    do x <- mempool_create e named len at_ an (w_vm w);
    match x with
    | (Made P, v) => Ok ({| w_vm := v; w_pools := (id, P) :: w_pools w |}, OutMade)
    | (Failed err, v) => Ok ({| w_vm := v; w_pools := w_pools w |}, OutErr err)
    end
  | OMalloc id an =>
    match lookup id (w_pools w) with
    | None => Undef
    | Some P =>
      do x <- malloc_locked e P an (w_vm w);
      match x with
      | (Some (_, _, addr), P, v) => Ok ({| w_vm := v; w_pools := set_pool id P (w_pools w) |}, OutItem addr)
      | (None, P, v) => Ok ({| w_vm := v; w_pools := set_pool id P (w_pools w) |}, OutNull)
      end
    end
  | OFill id item c =>
    (* range and item_offset are local variables of the call; recomputed here *)
    match lookup id (w_pools w) with
    | None => Undef
    | Some P =>
      match find_range (range_list P) (free_base e item (stride (pattr P))) with
      | None => Undef
      | Some r =>
        do v <- fill_item e P r (item - base r) c (w_vm w);
        Ok ({| w_vm := v; w_pools := w_pools w |}, OutUnit)
      end
    end
  | OFree ptr strd =>
    match find_owner (w_pools w) (free_base e ptr strd) with
    | None => Undef
    | Some (id, P, r) =>
      do x <- free_in e P r ptr strd (w_vm w);
      let '(P, v) := x in Ok ({| w_vm := v; w_pools := set_pool id P (w_pools w) |}, OutUnit)
    end
  | OWrite ps =>
    if forallb (fun p => mapped (w_vm w) (page e (fst p))) ps
    then Ok ({| w_vm := store e (w_vm w) ps; w_pools := w_pools w |}, OutUnit)
    else Undef
  | ODestroy id an =>
    match lookup id (w_pools w) with
    | None => Undef
    | Some P =>
      do x <- mempool_destroy e P an (w_vm w);
      let '(ret, _, v) := x in Ok ({| w_vm := v; w_pools := del_pool id (w_pools w) |}, OutRet ret)
    end
  end.

(** ** What the caller knows
    [live]: items returned by an allocation and not freed since (with their
    pool), [freed]: items freed and not allocated again, the latest first. *)
Definition ledger := list (Z * Z).
Definition same_item (i j : Z * Z) : bool := (fst i =? fst j) && (snd i =? snd j).
Definition holder (live : ledger) (ptr : Z) : option (Z * Z) := find (fun i => snd i =? ptr) live.
Definition live_after (o : op) (x : out) (live : ledger) : ledger :=
  match o, x with
  | OMalloc id _, OutItem a => (id, a) :: live
  | OFree ptr _, _ => filter (fun i => negb (snd i =? ptr)) live
  | ODestroy id _, _ => filter (fun i => negb (fst i =? id)) live
  | _, _ => live
  end.
Definition freed_after (o : op) (x : out) (live freed : ledger) : ledger :=
  match o, x with
  | OMalloc id _, OutItem a => filter (fun i => negb (same_item i (id, a))) freed
  | OFree ptr _, _ => match holder live ptr with Some i => i :: freed | None => freed end
  | ODestroy id _, _ => filter (fun i => negb (fst i =? id)) freed
  | _, _ => freed
  end.

(** The bytes of an item: on each CPU, [item_len] bytes at rseq_percpu_ptr
    (include/rseq/mempool.h:285-288). *)
Definition percpu_ptr (P : pool) (item cpu : Z) : Z := item + stride (pattr P) * cpu.
Definition item_byte (P : pool) (item x : Z) : Prop :=
  exists cpu k, 0 <= cpu < max_nr_cpus (pattr P) /\ 0 <= k < item_len P /\ x = percpu_ptr P item cpu + k.

(** Attributes a C program can build (the setters, C49), and sizes that a size_t
    can hold. *)
Record attr_ok (a : attr) : Prop := {
  ao_type : type a = TYPE_PERCPU \/ type a = TYPE_GLOBAL;
  ao_stride : 0 <= stride a < wmax e;
  ao_poison : 0 <= poison a < wmax e;
  ao_ranges : 0 <= max_nr_ranges a < wmax e
}.
Definition attr_of (o : option attr) : attr := match o with Some a => a | None => attr0 end.
(** The stride and number of CPUs the pool will have. *)
Definition want_stride (a : attr) : Z := if stride a =? 0 then 65536 else stride a.
Definition want_cpus (a : attr) : Z :=
  if type a =? TYPE_GLOBAL then 1 else if max_nr_cpus a =? 0 then e_ncpus e else max_nr_cpus a.
Definition fits (a : attr) : Prop := want_stride a * (want_cpus a + 5) < wmax e.

Definition content_fits (P : pool) (c : content) : Prop :=
  match c with
  | Any | Zeroed => True
  | Bytes bs => Forall (fun b => 0 <= b < 256) bs /\ Z.of_nat (length bs) <= item_len P
  end.

(** A byte the program may write: its own memory (mapped in [v0], before the
    history starts), or a byte of a live item. *)
Definition good_write (v0 : vm) (w : world) (live : ledger) (x : Z) : Prop :=
  mapped v0 (page e x) = true \/
  exists id P a, In (id, P) (w_pools w) /\ In (id, a) live /\ item_byte P a x.
(** The copies of an item: one per CPU, then the initial values of a COW_INIT pool. *)
Definition copies (P : pool) : Z :=
  max_nr_cpus (pattr P) + (if populate_policy (pattr P) =? COW_INIT then 1 else 0).
(** A write through a stale pointer: any item byte of a robust pool, live or not. *)
Definition stray_write (w : world) (x : Z) : Prop :=
  exists id P r, In (id, P) (w_pools w) /\ robust_set (pattr P) = true /\ In r (range_list P) /\
    base r <= x < base r + stride (pattr P) * copies P.

(** Byte [j] of a word holding [p]. *)
Definition word_byte (p j : Z) : Z := p / 256 ^ (if e_big e then wsz e - 1 - j else j) mod 256.

(** The system calls that a new range needs succeed. *)
Definition system_grants (P : pool) (an : answers) (v : vm) : Prop :=
  let areas := copies P + (if robust_set (pattr P) then 1 else 0) in
  mmap_anon e v (2 * e_page e + stride (pattr P) * areas + stride (pattr P) - e_page e) (an_mmap an) <> None /\
  an_trim1 an = true /\ an_trim2 an = true /\ an_memfd an = true /\ an_map_init an = true /\
  (forall cpu, an_map_cpu an cpu = true) /\ an_dontfork an = true /\ an_wipe an = true /\ an_bitmap an = true /\
  (forall cpu, an_init an cpu <> None).

(** [l] are the nodes met by following the links from [h] to the end. *)
Fixpoint follows (v : vm) (h : Z) (l : list Z) : Prop :=
  match l with
  | [] => h = 0
  | n :: l => h = n /\ n <> 0 /\ follows v (load_word e v n) l
  end.
Definition node_in_pool (P : pool) (n : Z) : Prop := percpu_addr_in_pool P (free_list_to_percpu_ptr e P n) = true.

(** ** Vocabulary of the properties *)
(** Number of items of the pool [id] in a ledger. *)
Definition count (id : Z) (l : ledger) : Z := Z.of_nat (length (filter (fun i => fst i =? id) l)).

(** The arguments rseq_mempool_create documents as valid (include/rseq/mempool.h:
    74-127, 383-580); items have 2^o bytes, the smallest power of two that holds
    the length and a pointer. *)
Definition accepted (len : Z) (a : attr) (o : Z) : Prop :=
  wlog e <= o < word_bits (e_wide e) /\ len <= 2 ^ o /\ (forall k, wlog e <= k -> len <= 2 ^ k -> o <= k) /\
  (populate_policy a = COW_INIT \/ populate_policy a = COW_ZERO) /\
  (type a = TYPE_PERCPU -> 0 < max_nr_cpus a \/ max_nr_cpus a = 0 /\ e_ncpus e <> 0) /\
  let s := want_stride a in
  2 ^ o <= s /\ e_page e <= s /\ exists k, s = 2 ^ k.

(** The attributes of the pool, with the documented defaults. *)
Definition completed (a : attr) : attr :=
  let g := type a =? TYPE_GLOBAL in
  let pol := if g then COW_ZERO else populate_policy a in
  {| init_set := init_set a; robust_set := robust_set a; type := type a;
     stride := if stride a =? 0 then 65536 else stride a;
     max_nr_cpus := if g then 1 else if max_nr_cpus a =? 0 then e_ncpus e else max_nr_cpus a;
     max_nr_ranges := max_nr_ranges a;
     poison_set := robust_set a || poison_set a;
     poison := if robust_set a && negb (poison_set a)
               then if pol =? COW_INIT then (if e_wide e then 0x5555555555555555 else 0x55555555) else 0
               else poison a;
     populate_policy := pol |}.

(** An item is intact when all its bytes, in every copy, are those of the poison value. *)
Definition intact (P : pool) (v : vm) (a : Z) : Prop :=
  forall i k, 0 <= i < copies P -> 0 <= k < item_len P ->
    byte (view e v) (percpu_ptr P a i + k) = word_byte (poison (pattr P)) (k mod wsz e).

(** The environment does not make the call fail, and no item of a destroyed pool is live. *)
Definition cooperative (live : ledger) (o : op) : Prop :=
  match o with
  | OCreate _ _ len _ an => len <= 2 ^ (word_bits (e_wide e) - 1) /\ an_trim1 an = true /\ an_trim2 an = true
  | OMalloc _ an => an_trim1 an = true /\ an_trim2 an = true
  | ODestroy id _ => forall a, ~ In (id, a) live
  | _ => True
  end.

(** The memory of a robust pool that only holds free-list links. *)
Definition in_links (P : pool) (x : Z) : Prop :=
  exists r, In r (range_list P) /\
    base r + stride (pattr P) * copies P <= x < base r + stride (pattr P) * (copies P + 1).
(** The place of the link of an item that has been handed out. *)
Definition link_place (P : pool) (n : Z) : Prop :=
  exists r o, In r (range_list P) /\ 0 <= o < next_unused r /\ n = base r + stride (pattr P) * copies P + o.


(** What a program does.  With [strict] it also never writes an item it freed. *)
Definition allowed (strict : bool) (v0 : vm) (w : world) (live : ledger) (o : op) : Prop :=
  match o with
  | OCreate id _ len at_ _ =>
    lookup id (w_pools w) = None /\ 0 <= len < wmax e /\ attr_ok (attr_of at_) /\ fits (attr_of at_)
  | OMalloc id _ | ODestroy id _ => exists P, lookup id (w_pools w) = Some P
  | OFill id item c => exists P, lookup id (w_pools w) = Some P /\ In (id, item) live /\ content_fits P c
  | OFree ptr strd => exists id P, lookup id (w_pools w) = Some P /\ In (id, ptr) live /\ strd = stride (pattr P)
  | OWrite ps =>
    forall x, In x (map fst ps) -> good_write v0 w live x \/ strict = false /\ stray_write w x
  end.

(** The child after fork().  It has the pools without initial values; the mappings of
    the others are not there any more, and all it may do with them is to destroy
    them (include/rseq/mempool.h:527-533; see C37 and C66). *)
Definition shared_init (P : pool) : bool := populate_policy (pattr P) =? COW_INIT.
Definition inherits (w : world) (id : Z) : bool :=
  match lookup id (w_pools w) with Some P => negb (shared_init P) | None => false end.
Definition child (w : world) : world :=
  {| w_vm := fork e (w_vm w); w_pools := filter (fun p => negb (shared_init (snd p))) (w_pools w) |}.
Definition inherited (w : world) (l : ledger) : ledger := filter (fun x => inherits w (fst x)) l.
(** The program itself has not used madvise() on its memory such that it is missing or
    wiped in children. *)
Definition plain_fork (v0 : vm) (w : world) : Prop :=
  (forall a, mapped v0 (page e a) = true -> dontfork (w_vm w) (page e a) = false /\ wipefork (w_vm w) (page e a) = false) /\
  (forall p q, link (w_vm w) p = Some q -> dontfork (w_vm w) p = false ->
     dontfork (w_vm w) q = false /\ wipefork (w_vm w) q = false).

(** A state the kernel can have put the address space in: a page still shared with
    the file is mapped, and so is the page of the file; a page never written is zero. *)
Definition address_space_ok (v : vm) : Prop :=
  (forall p q, link v p = Some q -> link v q = None) /\
  (forall p q, link v p = Some q -> mapped v p = true /\ mapped v q = true) /\
  (forall a, mapped v (page e a) = true -> populated v (page e a) = false ->
     link v (page e a) = None -> data v a = 0).

(** The rest of the process: memory that the program or other libraries map, use, give
    advice about and unmap while the history goes on.  It is everything but the memory of
    [v0] and that of the pools.  Simplified: pages that show the contents of others, as
    those of pools with initial values do, may disappear but not appear. *)
Definition in_use (v0 : vm) (w : world) (a : Z) : Prop :=
  mapped v0 (page e a) = true \/
  exists id P r, In (id, P) (w_pools w) /\ In r (range_list P) /\ mmap_addr r <= a < mmap_addr r + mmap_len r.
Record same_at (v v' : vm) (a : Z) : Prop := {
  sa_view : view e v' a = view e v a;
  sa_mapped : mapped v' (page e a) = mapped v (page e a);
  sa_populated : populated v' (page e a) = populated v (page e a);
  sa_dontfork : dontfork v' (page e a) = dontfork v (page e a);
  sa_wipefork : wipefork v' (page e a) = wipefork v (page e a)
}.
Record rest_acts (v0 : vm) (w : world) (v' : vm) : Prop := {
  ra_space : address_space_ok v';
  ra_same : forall a, in_use v0 w a -> same_at (w_vm w) v' a;
  ra_link : forall p q, link v' p = Some q -> link (w_vm w) p = Some q /\
    dontfork v' p = dontfork (w_vm w) p /\ dontfork v' q = dontfork (w_vm w) q /\ wipefork v' q = wipefork (w_vm w) q
}.

(** The worlds a program can be in, with what it holds and has freed.  When it forks,
    this goes on for the parent, whose memory and pools are as before, and for the
    child.  Between the calls the rest of the process acts. *)
Inductive reach (strict : bool) (v0 : vm) : world -> ledger -> ledger -> Prop :=
| reach_start : reach strict v0 {| w_vm := v0; w_pools := [] |} [] []
| reach_step w live freed o w' x :
    reach strict v0 w live freed -> allowed strict v0 w live o -> run1 o w = Ok (w', x) ->
    reach strict v0 w' (live_after o x live) (freed_after o x live freed)
| reach_fork w live freed :
    reach strict v0 w live freed -> plain_fork v0 w ->
    reach strict v0 (child w) (inherited w live) (inherited w freed)
| reach_rest w live freed v' :
    reach strict v0 w live freed -> rest_acts v0 w v' ->
    reach strict v0 {| w_vm := v'; w_pools := w_pools w |} live freed.

(** The machine: pages are a power of two, and the number of CPUs is not negative. *)
Definition machine_ok : Prop := (exists po, 3 <= po < word_bits (e_wide e) - 1 /\ e_page e = 2 ^ po) /\ 0 <= e_ncpus e.
(** A history from the address space [v0]. *)
Definition history (strict : bool) (v0 : vm) (w : world) (live freed : ledger) : Prop :=
  machine_ok /\ address_space_ok v0 /\ reach strict v0 w live freed.
End World.
