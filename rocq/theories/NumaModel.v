(** Model of rseq_mempool_range_init_numa(), src/rseq-mempool.c:405-469.
    Definitions only.  numa_node_of_cpu() and move_pages() answer as the
    parameters say. *)
From Coq Require Import ZArith Bool List.
From Verif Require Import UtilsModel.
Import ListNotations.
Local Open Scope Z_scope.

(** MOVE_PAGES_BATCH_SIZE, src/rseq-mempool.c:56 *)
Definition BATCH : Z := 4096.

(** A call of move_pages(0, count, pages, nodes, status, flags): the entries of
    the arrays that it may read. *)
Record call := { c_count : Z; c_pages : list Z; c_nodes : list Z; c_flags : Z }.

(** [n] entries of the array [a] from index [k]. *)
Fixpoint entries (n : nat) (k : Z) (a : Z -> Z) : list Z :=
  match n with O => [] | S m => a k :: entries m (k + 1) a end.

(** src/rseq-mempool.c:437-440: fill pages[k..max_k); returns the array and the
    variable page. *)
Fixpoint fill (n : nat) (k page addr page_len : Z) (pages : Z -> Z) : (Z -> Z) * Z :=
  match n with
  | O => (pages, page)
  | S m => fill m (k + 1) (page + 1) addr page_len
             (fun i => if i =? k then u64 (addr + u64 (page * page_len)) else pages i)
  end.

(** Conversion of a long to int. *)
Definition to_int (r : Z) : Z := (r + 2 ^ 31) mod 2 ^ 32 - 2 ^ 31.

(** The loop, src/rseq-mempool.c:428-457.  [ans]: the values that move_pages()
    returns, call after call.  [fuel]: bound on the iterations; None: reached. *)
Fixpoint batches (fuel : nat) (nr_pages page addr page_len : Z) (pages nodes : Z -> Z) (flags : Z)
    (ans : nat -> Z) (i : nat) : option (list call * Z) :=
  if page <? nr_pages then
    match fuel with
    | O => None
    | S f =>
      let left := nr_pages - page in
      let max_k := if left <? BATCH then left else BATCH in
      let '(pages', page') := fill (Z.to_nat max_k) 0 page addr page_len pages in
      let c := {| c_count := max_k; c_pages := entries (Z.to_nat max_k) 0 pages';
                  c_nodes := entries (Z.to_nat max_k) 0 nodes; c_flags := flags |} in
      if ans i <? 0 then Some ([c], to_int (ans i))
      else match batches f nr_pages page' addr page_len pages' nodes flags ans (S i) with
           | Some (cs, r) => Some (c :: cs, r)
           | None => None
           end
    end
  else Some ([], 0).

(** src/rseq-mempool.c:405-459, built with libnuma.  [node]: what
    numa_node_of_cpu(cpu) returns; [mem0]: the contents of the uninitialised
    array of pages. *)
Definition init_numa (wide : bool) (addr len flags page_len node : Z) (mem0 : Z -> Z) (ans : nat -> Z) : option (list call * Z) :=
  if flags =? 0 then Some ([], -1)
  else
    let nr_pages := Z.shiftr len (rseq_get_count_order_ulong wide page_len) in
    if node <? 0 then Some ([], -1)
    else batches (Z.to_nat nr_pages) nr_pages 0 addr page_len mem0 (fun _ => node) flags ans 0.
