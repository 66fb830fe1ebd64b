(** Vocabulary of C62: where the parts of the structures are. *)
From Coq Require Import ZArith Bool List.
From Verif Require Import RseqIR RseqSpec RseqKernel LinSpec ClientModel ClientSpec ComposeModel ComposeSpec.
From Verif Require Import UtilsModel PoolVM PoolModel PoolWorld PlaceModel.
Import ListNotations.
Local Open Scope Z_scope.

(** The per-CPU words of a structure: the fields of the struct that
    tests/param_test.c allocates from a pool (counter 386-388, lock and counter
    371-378, list head 401-403, offset of a buffer 411-415 and 424-428). *)
Definition kind_words (k : kind) : list (Z -> Z) :=
  match k with
  | K_nothing => []
  | K_count cnt _ | K_inc cnt => [cnt]
  | K_lock cnt lk => [cnt; lk]
  | K_list _ hd _ _ _ _ _ => [hd]
  | K_buf ofs _ _ _ => [ofs]
  | K_rec ofs _ _ _ _ _ _ _ => [ofs]
  end.

(** The rest: nodes and arrays, which tests/param_test.c gets from malloc(), and
    local variables. *)
Definition own_bytes (g : cfg) (p : piece) (a : Z) : Prop :=
  match p_kind p with
  | K_nothing | K_count _ _ | K_inc _ | K_lock _ _ => False
  | K_list nodes _ _ nodesz slot live _ =>
      (exists n, In n nodes /\ In a (span n nodesz)) \/ exists t d, live t d /\ In a (span (slot t d) (wsize g))
  | K_buf _ arr buflen _ => exists cpu, In cpu (p_cpus p) /\ In a (span (arr cpu) (buflen cpu * wsize g))
  | K_rec _ arr buflen reclen arg out live _ =>
      (exists cpu, In cpu (p_cpus p) /\ In a (span (arr cpu) (buflen cpu * reclen))) \/
      exists t d, live t d /\ (In a (span (arg t d) reclen) \/ In a (span (out t d) reclen))
  end.

(** These parts are laid out as the code expects (as in [piece_ok], but without
    the per-CPU words). *)
Definition own_ok (g : cfg) (p : piece) : Prop :=
  let cpus := p_cpus p in
  match p_kind p with
  | K_nothing | K_count _ _ | K_inc _ => True
  | K_lock _ _ => 1 < wmod g
  | K_list nodes hd off nodesz slot live load =>
      list_layout g [] nodes hd off nodesz slot live /\ forall m q v, load m q v -> 0 <= v < wmod g
  | K_buf _ arr buflen _ =>
      (exists lay, forall cpu a, In cpu cpus -> In a (span (arr cpu) (buflen cpu * wsize g)) -> lay a = Array cpu) /\
      forall cpu, In cpu cpus -> Z.of_nat (buflen cpu) < wmod g
  | K_rec _ arr buflen reclen arg out live _ =>
      (exists lay,
        (forall cpu a, In cpu cpus -> In a (span (arr cpu) (buflen cpu * reclen)) -> lay a = Array cpu) /\
        (forall t d a, live t d -> In a (span (arg t d) reclen) \/ In a (span (out t d) reclen) -> lay a = Mine t)) /\
      (forall cpu, In cpu cpus -> Z.of_nat (buflen cpu) < wmod g /\
         0 <= arr cpu /\ arr cpu + Z.of_nat (buflen cpu * reclen) <= wmod g) /\
      (forall t d, live t d -> 0 <= arg t d /\ arg t d + Z.of_nat reclen <= wmod g /\
         0 <= out t d /\ out t d + Z.of_nat reclen <= wmod g) /\
      (forall t d d', live t d -> live t d' -> d <> d' -> disjoint (span (arg t d) reclen) (span (arg t d') reclen) /\
         disjoint (span (out t d) reclen) (span (out t d') reclen)) /\
      (forall t d d', live t d -> live t d' -> disjoint (span (arg t d) reclen) (span (out t d') reclen))
  end.

(** A word at offset [sp_ofs] of the item [sp_item] of pool [sp_pool]. *)
Record spot := { sp_pool : Z; sp_item : Z; sp_ofs : Z }.

(** The word of CPU [cpu] is at rseq_percpu_ptr(item, cpu) + offset, inside the
    item, and the pool has that CPU. *)
Definition word_at (g : cfg) (w : world) (busy : ledger) (cpus : list Z) (f : Z -> Z) (sp : spot) : Prop :=
  exists P, In (sp_pool sp, P) (w_pools w) /\ In (sp_pool sp, sp_item sp) busy /\
    0 <= sp_ofs sp /\ sp_ofs sp + Z.of_nat (wsize g) <= item_len P /\
    forall cpu, In cpu cpus -> 0 <= cpu < max_nr_cpus (pattr P) /\ f cpu = percpu_ptr P (sp_item sp) cpu + sp_ofs sp.
Definition spots_apart (g : cfg) (a b : spot) : Prop :=
  sp_pool a <> sp_pool b \/ sp_item a <> sp_item b \/
  sp_ofs a + Z.of_nat (wsize g) <= sp_ofs b \/ sp_ofs b + Z.of_nat (wsize g) <= sp_ofs a.

(** Word [n] of structure [i] is at [at_ i n].  Different words are in different
    items or at different offsets.  All other parts are in the program's own
    memory, those of different structures apart. *)
Record placement (e : env) (v0 : vm) (g : cfg) (w : world) (busy : ledger) (pcs : nat -> piece) (at_ : nat -> nat -> spot) : Prop := {
  pl_cpus : forall i, NoDup (p_cpus (pcs i));
  pl_word : forall i n f, nth_error (kind_words (p_kind (pcs i))) n = Some f ->
    word_at g w busy (p_cpus (pcs i)) f (at_ i n);
  pl_apart : forall i n j m, (i, n) <> (j, m) ->
    (n < length (kind_words (p_kind (pcs i))))%nat -> (m < length (kind_words (p_kind (pcs j))))%nat ->
    spots_apart g (at_ i n) (at_ j m);
  pl_own : forall i a, own_bytes g (pcs i) a -> mapped v0 (PoolVM.page e a) = true;
  pl_own_apart : forall i j a, i <> j -> own_bytes g (pcs i) a -> own_bytes g (pcs j) a -> False;
  pl_ok : forall i, own_ok g (pcs i)
}.
