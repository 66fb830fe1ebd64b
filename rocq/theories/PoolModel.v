(** Model of src/rseq-mempool.c: pools, ranges and items.  Executable definitions
    only, no proofs.

    Simplifications:
    - struct rseq_mempool and struct rseq_mempool_range are records, not bytes of
      the modelled address space; the pool's list of ranges is a Coq list, most
      recent first (list.h is modelled and verified in ListModel.v).  The header
      page that holds a range structure is part of the range's mapping.
    - The functions are sequential: the code runs them under pool->lock, except
      for the initialisation of a newly allocated item (see C38).
    - The signed subtraction of rseq_cmp_item (line 260) is taken modulo 2^64,
      or 2^32. *)
From Coq Require Import ZArith Bool List.
From Verif Require Import UtilsModel RseqIR PoolVM.
Import ListNotations.
Local Open Scope Z_scope.

(** include/rseq/mempool.h:525-549 *)
Definition COW_INIT : Z := 0.
Definition COW_ZERO : Z := 1.
(** src/rseq-mempool.c:78-81 *)
Definition TYPE_PERCPU : Z := 0.
Definition TYPE_GLOBAL : Z := 1.
(** src/rseq-mempool.c:41-64, 70; include/rseq/mempool.h:52 *)
Definition POOL_SET_NR_ENTRIES (e : env) : Z := word_bits (e_wide e).
Definition POOL_HEADER_NR_PAGES : Z := 2.
Definition POOL_SET_MIN_ENTRY (e : env) : Z := if e_wide e then 3 else 2.
Definition DEFAULT_COW_INIT_POISON_VALUE (e : env) : Z := if e_wide e then 0x5555555555555555 else 0x55555555.
Definition DEFAULT_COW_ZERO_POISON_VALUE : Z := 0.
Definition RSEQ_MEMPOOL_STRIDE : Z := 2 ^ 16.

(** struct rseq_mempool_attr, src/rseq-mempool.c:83-100.  init_func and init_priv
    are left out: what the callback does is an input (see [answers]). *)
Record attr := {
  init_set : bool; robust_set : bool; type : Z; stride : Z; max_nr_cpus : Z;
  max_nr_ranges : Z; poison_set : bool; poison : Z; populate_policy : Z
}.

(** struct rseq_mempool_range, src/rseq-mempool.c:104-143 *)
Record range := {
  header : Z; base : Z; init : option Z; next_unused : Z;
  mmap_addr : Z; mmap_len : Z; alloc_bitmap : option (list Z)
}.

(** struct rseq_mempool, src/rseq-mempool.c:145-176 (no lock, no name) *)
Record pool := {
  range_list : list range; nr_ranges : Z; item_len : Z; item_order : Z;
  free_list_head : Z; pattr : attr
}.

(** What the environment does during a call: results of the system calls and of
    the user's init callback (None: it failed; else the bytes it writes, as
    offsets from the address it is given). *)
Record answers := {
  an_mmap : option Z; an_trim1 : bool; an_trim2 : bool;
  an_memfd : bool; an_map_init : bool; an_map_cpu : Z -> bool;
  an_dontfork : bool; an_wipe : bool; an_bitmap : bool;
  an_init : Z -> option (list (Z * Z));
  an_munmap : Z -> bool;            (* by address *)
  an_calloc : bool; an_strdup : bool
}.

Definition set_ranges (P : pool) (l : list range) : pool :=
  {| range_list := l; nr_ranges := nr_ranges P; item_len := item_len P; item_order := item_order P;
     free_list_head := free_list_head P; pattr := pattr P |}.
Definition set_head (P : pool) (h : Z) : pool :=
  {| range_list := range_list P; nr_ranges := nr_ranges P; item_len := item_len P; item_order := item_order P;
     free_list_head := h; pattr := pattr P |}.
Definition set_nr (P : pool) (n : Z) : pool :=
  {| range_list := range_list P; nr_ranges := n; item_len := item_len P; item_order := item_order P;
     free_list_head := free_list_head P; pattr := pattr P |}.
Definition set_unused (r : range) (n : Z) : range :=
  {| header := header r; base := base r; init := init r; next_unused := n;
     mmap_addr := mmap_addr r; mmap_len := mmap_len r; alloc_bitmap := alloc_bitmap r |}.
Definition set_bitmap (r : range) (b : option (list Z)) : range :=
  {| header := header r; base := base r; init := init r; next_unused := next_unused r;
     mmap_addr := mmap_addr r; mmap_len := mmap_len r; alloc_bitmap := b |}.
Definition put_range (l : list range) (r : range) : list range :=
  map (fun x => if base x =? base r then r else x) l.

Section Pool.
Variable e : env.
Notation vm := PoolVM.vm.

(** The CPUs of a pool. *)
Definition cpus (P : pool) : list Z := zseq 0 (max_nr_cpus (pattr P)).

(** 195-200  __rseq_pool_range_percpu_ptr *)
Definition range_percpu_ptr (r : range) (cpu item_offset strd : Z) : Z :=
  uw (e_wide e) (base r + strd * cpu + item_offset).
(** 202-209  __rseq_pool_range_init_ptr *)
Definition range_init_ptr (r : range) (item_offset : Z) : option Z :=
  match init r with None => None | Some i => Some (uw (e_wide e) (i + item_offset)) end.

(** 211-230  __rseq_free_list_to_percpu_ptr *)
Definition free_list_to_percpu_ptr (P : pool) (node : Z) : Z :=
  if robust_set (pattr P) then
    let p := uw (e_wide e) (node - max_nr_cpus (pattr P) * stride (pattr P)) in
    if populate_policy (pattr P) =? COW_INIT then uw (e_wide e) (p - stride (pattr P)) else p
  else
    if populate_policy (pattr P) =? COW_INIT then uw (e_wide e) (node - max_nr_cpus (pattr P) * stride (pattr P)) else node.
(** 232-249  __rseq_percpu_to_free_list_ptr *)
Definition percpu_to_free_list_ptr (P : pool) (p : Z) : Z :=
  if robust_set (pattr P) then
    let p := uw (e_wide e) (p + max_nr_cpus (pattr P) * stride (pattr P)) in
    if populate_policy (pattr P) =? COW_INIT then uw (e_wide e) (p + stride (pattr P)) else p
  else
    if populate_policy (pattr P) =? COW_INIT then uw (e_wide e) (p + max_nr_cpus (pattr P) * stride (pattr P)) else p.

(** Offsets 0, 8, 16, ... (or 0, 4, 8, ...) below len. *)
Definition word_offsets (len : Z) : list Z := map (fun i => wsz e * i) (zseq 0 ((len + (wsz e - 1)) / wsz e)).

(** 251-267  rseq_cmp_item: the first non-zero difference, or 0.  Simplified: the code
    subtracts intptr_t, here the difference is taken modulo the word size; OverModel.v
    has the overflow. *)
Fixpoint cmp_words (v : vm) (p : Z) (offs : list Z) (cmp_value : Z) : Z :=
  match offs with
  | [] => 0
  | o :: offs =>
    let d := uw (e_wide e) (load_word e v (p + o) - cmp_value) in
    if negb (d =? 0) then d else cmp_words v p offs cmp_value
  end.
Definition cmp_item (v : vm) (p len cmp_value : Z) : Z := cmp_words v p (word_offsets len) cmp_value.

Definition fill_bytes (p : Z) (bs : list Z) : list (Z * Z) := combine (span p (length bs)) bs.
Definition zero_bytes (p len : Z) : list (Z * Z) := fill_bytes p (repeat 0 (Z.to_nat len)).
(** 329-336  rseq_poison_item *)
Definition poison_bytes (p len value : Z) : list (Z * Z) :=
  flat_map (fun o => stw (wcfg e) (p + o) value) (word_offsets len).

(** A loop over the CPUs. *)
Fixpoint for_cpus (l : list Z) (f : Z -> vm -> res vm) (v : vm) : res vm :=
  match l with
  | [] => Ok v
  | i :: l => do v <- f i v; for_cpus l f v
  end.

(** 269-300  rseq_percpu_zero_item *)
Definition zero_item (P : pool) (r : range) (item_offset : Z) (v : vm) : res vm :=
  do v <- match range_init_ptr r item_offset with
    | None => Ok v
    | Some p => if accessible e v p (item_len P) then Ok (store e v (zero_bytes p (item_len P))) else Undef
    end;
  for_cpus (cpus P) (fun i v =>
    let p := range_percpu_ptr r i item_offset (stride (pattr P)) in
    if negb (accessible e v p (item_len P)) then Undef
    else if cmp_item v p (item_len P) 0 =? 0 then Ok v
    else Ok (store e v (zero_bytes p (item_len P)))) v.

(** memcmp(init_ptr, p, init_len) == 0 *)
Definition same_bytes (v : vm) (p : Z) (bs : list Z) : bool :=
  forallb (fun xb => byte (view e v) (fst xb) =? snd xb) (fill_bytes p bs).

(** 302-327  rseq_percpu_init_item; [bs] are the init_len bytes at init_ptr *)
Definition init_item (P : pool) (r : range) (item_offset : Z) (bs : list Z) (v : vm) : res vm :=
  let len := Z.of_nat (length bs) in
  do v <- match range_init_ptr r item_offset with
    | None => Ok v
    | Some p => if accessible e v p len then Ok (store e v (fill_bytes p bs)) else Undef
    end;
  for_cpus (cpus P) (fun i v =>
    let p := range_percpu_ptr r i item_offset (stride (pattr P)) in
    if negb (accessible e v p len) then Undef
    else if same_bytes v p bs then Ok v
    else Ok (store e v (fill_bytes p bs))) v.

(** 338-367  rseq_percpu_poison_item *)
Definition poison_item (P : pool) (r : range) (item_offset : Z) (v : vm) : res vm :=
  let value := poison (pattr P) in
  do v <- match range_init_ptr r item_offset with
    | None => Ok v
    | Some p => if accessible e v p (item_len P) then Ok (store e v (poison_bytes p (item_len P) value)) else Undef
    end;
  for_cpus (cpus P) (fun i v =>
    let p := range_percpu_ptr r i item_offset (stride (pattr P)) in
    if negb (accessible e v p (item_len P)) then Undef
    else if cmp_item v p (item_len P) value =? 0 then Ok v
    else Ok (store e v (poison_bytes p (item_len P) value))) v.

(** 369-383  rseq_check_poison_item *)
Definition check_poison (v : vm) (p len value : Z) : res unit :=
  if negb (accessible e v p len) then Undef
  else if cmp_item v p len value =? 0 then Ok tt else Abort.

Fixpoint check_cpus (P : pool) (r : range) (item_offset : Z) (v : vm) (l : list Z) : res unit :=
  match l with
  | [] => Ok tt
  | i :: l =>
    do _ <- check_poison v (range_percpu_ptr r i item_offset (stride (pattr P))) (item_len P) (poison (pattr P));
    check_cpus P r item_offset v l
  end.
(** 385-403  rseq_percpu_check_poison_item *)
Definition check_poison_item (P : pool) (r : range) (item_offset : Z) (v : vm) : res unit :=
  if negb (robust_set (pattr P)) then Ok tt
  else
  do _ <- match range_init_ptr r item_offset with
    | None => Ok tt
    | Some p => check_poison v p (item_len P) (poison (pattr P))
    end;
  check_cpus P r item_offset v (cpus P).

(** 471-486  create_alloc_bitmap: number of words *)
Definition bitmap_words (P : pool) : Z :=
  (Z.shiftr (stride (pattr P)) (item_order P) + word_bits (e_wide e) - 1) / word_bits (e_wide e).

(** 488-499  percpu_addr_in_pool *)
Definition percpu_addr_in_pool (P : pool) (addr : Z) : bool :=
  existsb (fun r => (base r <=? addr) && (addr <? base r + next_unused r)) (range_list P).

(** 501-549  check_free_list: traversal, [n] nodes still allowed; returns the
    number of nodes seen *)
Fixpoint walk_free_list (P : pool) (v : vm) (n : nat) (node : Z) : res Z :=
  if node =? 0 then Ok 0
  else match n with
  | O => Abort
  | S n =>
    if negb (percpu_addr_in_pool P (free_list_to_percpu_ptr P node)) then Abort
    else if negb (accessible e v node (wsz e)) then Undef
    else do k <- walk_free_list P v n (load_word e v node); Ok (k + 1)
  end.
Definition total_item (P : pool) : Z :=
  fold_right (fun r a => Z.shiftr (stride (pattr P)) (item_order P) + a) 0 (range_list P).
Definition total_never_allocated (P : pool) : Z :=
  fold_right (fun r a => Z.shiftr (stride (pattr P) - next_unused r) (item_order P) + a) 0 (range_list P).
Definition check_free_list (P : pool) (v : vm) (mapping_accessible : bool) : res unit :=
  if negb (robust_set (pattr P)) || negb mapping_accessible then Ok tt
  else
  let max_list_traversal := total_item P - total_never_allocated P in
  do total_freed <- walk_free_list P v (Z.to_nat max_list_traversal) (free_list_head P);
  if total_never_allocated P + total_freed =? total_item P then Ok tt else Abort.

(** 551-573  check_range_poison, check_pool_poison *)
Fixpoint check_items (P : pool) (r : range) (v : vm) (l : list Z) : res unit :=
  match l with
  | [] => Ok tt
  | o :: l => do _ <- check_poison_item P r o v; check_items P r v l
  end.
Definition item_offsets (P : pool) (r : range) : list Z :=
  map (fun i => item_len P * i) (zseq 0 ((next_unused r + item_len P - 1) / item_len P)).
Fixpoint check_ranges (P : pool) (v : vm) (l : list range) : res unit :=
  match l with
  | [] => Ok tt
  | r :: l => do _ <- check_items P r v (item_offsets P r); check_ranges P v l
  end.
Definition check_pool_poison (P : pool) (v : vm) (mapping_accessible : bool) : res unit :=
  if negb (robust_set (pattr P)) || negb mapping_accessible then Ok tt
  else check_ranges P v (range_list P).

(** 575-598  destroy_alloc_bitmap *)
Definition destroy_alloc_bitmap (r : range) : res range :=
  match alloc_bitmap r with
  | None => Ok r
  | Some bm =>
    if fold_right (fun w a => rseq_hweight_ulong (e_wide e) w + a) 0 bm =? 0 then Ok (set_bitmap r None) else Abort
  end.

(** 600-615  rseq_mempool_range_destroy; returns whether munmap succeeded *)
Definition range_destroy (an : answers) (r : range) (mapping_accessible : bool) (v : vm)
  : res (bool * range * vm) :=
  do r <- destroy_alloc_bitmap r;
  let '(a, len) := if mapping_accessible then (mmap_addr r, mmap_len r)
                   else (header r, POOL_HEADER_NR_PAGES * e_page e) in
  if an_munmap an a then Ok (true, r, munmap e v a len) else Ok (false, r, v).

(** 739-862  rseq_mempool_range_create *)
Definition map_private_cpus (P : pool) (b file : Z) : list Z -> vm -> vm :=
  fold_left (fun v cpu => mmap_private e v (b + stride (pattr P) * cpu) (stride (pattr P)) file).
Fixpoint run_init (P : pool) (an : answers) (b : Z) (l : list Z) (v : vm) : option vm :=
  match l with
  | [] => Some v
  | cpu :: l =>
    match an_init an cpu with
    | None => None
    | Some ws =>
      run_init P an b l
        (store e v (map (fun ob => (b + stride (pattr P) * cpu + fst ob, snd ob))
           (filter (fun ob => (0 <=? fst ob) && (fst ob <? stride (pattr P))) ws)))
    end
  end.
Definition run_init_global (P : pool) (an : answers) (b : Z) (v : vm) : option vm :=
  match an_init an (-1) with
  | None => None
  | Some ws =>
    Some (store e v (map (fun ob => (b + fst ob, snd ob))
           (filter (fun ob => (0 <=? fst ob) && (fst ob <? stride (pattr P))) ws)))
  end.

Definition range_create (P : pool) (an : answers) (v : vm) : res (option range * pool * vm) :=
  let at_ := pattr P in
  if negb (max_nr_ranges at_ =? 0) && (max_nr_ranges at_ <=? nr_ranges P) then Ok (None, P, v)   (* 750-754 *)
  else
  let header_len := POOL_HEADER_NR_PAGES * e_page e in
  let range_len := uw (e_wide e) (stride at_ * max_nr_cpus at_) in
  let range_len := if populate_policy at_ =? COW_INIT then uw (e_wide e) (range_len + stride at_) else range_len in
  let range_len := if robust_set at_ then uw (e_wide e) (range_len + stride at_) else range_len in
  do m <- aligned_mmap_anonymous e v (e_page e) range_len (stride at_) header_len
            (an_mmap an) (an_trim1 an) (an_trim2 an);
  match m with
  | (None, v) => Ok (None, P, v)
  | (Some (b, hd), v) =>
    let r := {| header := hd; base := b;
                init := if populate_policy at_ =? COW_INIT then Some (uw (e_wide e) (b + stride at_ * max_nr_cpus at_)) else None;
                next_unused := 0; mmap_addr := hd; mmap_len := uw (e_wide e) (header_len + range_len);
                alloc_bitmap := None |} in
    let error_alloc (r : range) (v : vm) : res (option range * pool * vm) :=
      do x <- range_destroy an r true v;
      let '(_, _, v) := x in Ok (None, P, v) in
    let after_init (r : range) (v : vm) : res (option range * pool * vm) :=
      if robust_set at_ && negb (an_bitmap an) then error_alloc r v                    (* 823-826 *)
      else
      let r := if robust_set at_ then set_bitmap r (Some (repeat 0 (Z.to_nat (bitmap_words P)))) else r in
      let iv := if init_set at_
                then if type at_ =? TYPE_GLOBAL then run_init_global P an b v
                     else run_init P an b (cpus P) v
                else Some v in
      match iv with
      | None => error_alloc r v                                                        (* 827-851 *)
      | Some v => Ok (Some r, set_nr P (nr_ranges P + 1), v)                           (* 853-854 *)
      end in
    match init r with
    | None => after_init r v
    | Some ip =>                                                                       (* 774-821 *)
      if negb (an_memfd an) then error_alloc r v
      else if negb (an_map_init an) then error_alloc r v
      else
      let v := mmap_shared e v ip (stride at_) in
      if negb (type at_ =? TYPE_PERCPU) then Abort                                     (* 783 assert *)
      else if negb (forallb (an_map_cpu an) (cpus P)) then error_alloc r v
      else
      let v := map_private_cpus P b ip (cpus P) v in
      if negb (an_dontfork an) then error_alloc r v
      else
      let v := madv_dontfork e v b range_len in
      let v := store e v [(hd, 1)] in                                                  (* 810 *)
      if negb (an_wipe an) then error_alloc r v
      else after_init r (madv_wipefork e v hd (e_page e))
    end
  end.

(** 864-888  pool_mappings_accessible *)
Definition pool_mappings_accessible (P : pool) (v : vm) : res bool :=
  if negb (populate_policy (pattr P) =? COW_INIT) then Ok true
  else match range_list P with
  | [] => Ok true
  | r :: _ =>
    (* the range structure ends at [base], so its page is the second header page *)
    let addr := base r - 2 * e_page e in
    if negb (accessible e v addr 1) then Undef
    else Ok (byte (view e v) addr =? 1)
  end.

(** 890-924  rseq_mempool_destroy.  The result is the value returned, the pool if
    it has not been freed, and the address space. *)
Fixpoint destroy_ranges (P : pool) (an : answers) (acc : bool) (l : list range) (v : vm)
  : res (option pool * vm) :=
  match l with
  | [] => Ok (None, v)
  | r :: l =>
    do x <- range_destroy an r acc v;
    let '(ok, r, v) := x in
    if ok then destroy_ranges P an acc l v
    else Ok (Some (set_ranges P (r :: l)), v)
  end.
Definition mempool_destroy (P : pool) (an : answers) (v : vm) : res (Z * option pool * vm) :=
  do acc <- pool_mappings_accessible P v;
  do _ <- check_free_list P v acc;
  do _ <- check_pool_poison P v acc;
  do x <- destroy_ranges P an acc (range_list P) v;
  let '(P', v) := x in
  Ok (0, P', v).

(** errno values set by the library *)
Definition EINVAL : Z := 22.
Definition ENOMEM : Z := 12.
Definition EBUSY : Z := 16.

(** Result of rseq_mempool_create: a pool, or NULL with errno. *)
Inductive made := Made (P : pool) | Failed (err : Z).

(** struct rseq_mempool_attr attr = {} *)
Definition attr0 : attr :=
  {| init_set := false; robust_set := false; type := 0; stride := 0; max_nr_cpus := 0;
     max_nr_ranges := 0; poison_set := false; poison := 0; populate_policy := 0 |}.

(** 936-999 of rseq_mempool_create: the item length, its order and the completed
    attributes, or errno. *)
Definition complete_attr (len : Z) (at_ : option attr) : res (Z * Z * attr + Z) :=
  let len := if len <? wsz e then wsz e else len in
  let order := rseq_get_count_order_ulong (e_wide e) len in
  if order <? 0 then Ok (inr EINVAL)
  else if word_bits (e_wide e) <=? order then Undef      (* 1UL << 64, or 32 *)
  else
  let len := Z.shiftl 1 order in
  let a := match at_ with Some a => a | None => attr0 end in
  if negb ((populate_policy a =? COW_INIT) || (populate_policy a =? COW_ZERO)) then Ok (inr EINVAL)
  else
  let cpus_policy :=
    if type a =? TYPE_PERCPU then
      if max_nr_cpus a <? 0 then None
      else if max_nr_cpus a =? 0 then
        if e_ncpus e =? 0 then None else Some (e_ncpus e, populate_policy a)
      else Some (max_nr_cpus a, populate_policy a)
    else if type a =? TYPE_GLOBAL then Some (1, if populate_policy a =? COW_INIT then COW_ZERO else populate_policy a)
    else Some (max_nr_cpus a, populate_policy a) in
  match cpus_policy with
  | None => Ok (inr EINVAL)
  | Some (n, pol) =>
    let strd := if stride a =? 0 then RSEQ_MEMPOOL_STRIDE else stride a in
    let '(ps, pv) :=
      if robust_set a && negb (poison_set a)
      then (true, if pol =? COW_INIT then DEFAULT_COW_INIT_POISON_VALUE e else DEFAULT_COW_ZERO_POISON_VALUE)
      else (poison_set a, poison a) in
    if (strd <? len) || (strd <? e_page e) || negb (is_pow2 strd) then Ok (inr EINVAL)
    else Ok (inl (len, order,
      {| init_set := init_set a; robust_set := robust_set a; type := type a; stride := strd;
         max_nr_cpus := n; max_nr_ranges := max_nr_ranges a; poison_set := ps; poison := pv;
         populate_policy := pol |}))
  end.

(** 926-1026  rseq_mempool_create; [named]: pool_name is not NULL.  The pool is
    also returned when the error path could not free it. *)
Definition mempool_create (named : bool) (len : Z) (at_ : option attr) (an : answers) (v : vm)
  : res (made * vm) :=
  do c <- complete_attr len at_;
  match c with
  | inr err => Ok (Failed err, v)
  | inl (len, order, a) =>
    if negb (an_calloc an) then Ok (Failed ENOMEM, v)
    else
    let P := {| range_list := []; nr_ranges := 0; item_len := len; item_order := order;
                free_list_head := 0; pattr := a |} in
    do x <- range_create P an v;
    match x with
    | (None, P, v) =>
      do y <- mempool_destroy P an v;
      let '(_, _, v) := y in Ok (Failed ENOMEM, v)
    | (Some r, P, v) =>
      let P := set_ranges P (r :: range_list P) in
      if named && negb (an_strdup an) then
        do y <- mempool_destroy P an v;
        let '(_, _, v) := y in Ok (Failed ENOMEM, v)
      else Ok (Made P, v)
    end
  end.

(** 1028-1050  set_alloc_slot *)
Definition slot_word (P : pool) (item_offset : Z) : Z := Z.shiftr item_offset (item_order P) / word_bits (e_wide e).
Definition slot_mask (P : pool) (item_offset : Z) : Z := Z.shiftl 1 (Z.shiftr item_offset (item_order P) mod word_bits (e_wide e)).
Definition upd_nth (l : list Z) (k : nat) (w : Z) : list Z := firstn k l ++ w :: skipn (S k) l.
Definition set_alloc_slot (P : pool) (r : range) (item_offset : Z) : res range :=
  match alloc_bitmap r with
  | None => Ok r
  | Some bm =>
    let k := Z.to_nat (slot_word P item_offset) in
    match nth_error bm k with
    | None => Undef
    | Some w =>
      if negb (Z.land w (slot_mask P item_offset) =? 0) then Abort
      else Ok (set_bitmap r (Some (upd_nth bm k (Z.lor w (slot_mask P item_offset)))))
    end
  end.
(** 1138-1161  clear_alloc_slot *)
Definition clear_alloc_slot (P : pool) (r : range) (item_offset : Z) : res range :=
  match alloc_bitmap r with
  | None => Ok r
  | Some bm =>
    let k := Z.to_nat (slot_word P item_offset) in
    match nth_error bm k with
    | None => Undef
    | Some w =>
      if Z.land w (slot_mask P item_offset) =? 0 then Abort
      else Ok (set_bitmap r (Some (upd_nth bm k (Z.land w (notw (e_wide e) (slot_mask P item_offset))))))
    end
  end.

Definition find_range (l : list range) (b : Z) : option range := find (fun r => base r =? b) l.

(** The content given to a newly allocated item. *)
Inductive content := Any | Zeroed | Bytes (bs : list Z).

Definition fill_item (P : pool) (r : range) (item_offset : Z) (c : content) (v : vm) : res vm :=
  match c with
  | Any => Ok v
  | Zeroed => zero_item P r item_offset v
  | Bytes bs => init_item P r item_offset bs v
  end.

(** 1052-1120  __rseq_percpu_malloc: address, or NULL with errno.  The part that
    runs under the pool's lock (1066-1115) comes first; it returns the range and
    the offset of the item found. *)
Inductive got := Got (addr : Z) | Null (err : Z).
Definition malloc_locked (P : pool) (an : answers) (v : vm)
  : res (option (range * Z * Z) * pool * vm) :=
  do x <-
    (let node := free_list_head P in
     if negb (node =? 0) then                                               (* 1068-1081 *)
       let ptr := free_list_to_percpu_ptr P node in
       let range_base := Z.land ptr (notw (e_wide e) (stride (pattr P) - 1)) in
       match find_range (range_list P) range_base with
       | None => Undef
       | Some r =>
         if negb (accessible e v node (wsz e)) then Undef
         else
         let P := set_head P (load_word e v node) in
         let item_offset := ptr - range_base in
         do _ <- check_poison_item P r item_offset v;
         Ok (Some (r, item_offset, free_list_to_percpu_ptr P node), P, v)
       end
     else
     let room := match range_list P with                                    (* 1087-1094 *)
                 | [] => false
                 | r :: _ => uw (e_wide e) (next_unused r + item_len P) <=? stride (pattr P) end in
     do y <-
       (if room then Ok (true, P, v)
        else                                                                (* 1095-1104 *)
        do z <- range_create P an v;
        match z with
        | (None, P, v) => Ok (false, P, v)
        | (Some r, P, v) => Ok (true, set_ranges P (r :: range_list P), v)
        end);
     match y with
     | (true, P, v) =>
       match range_list P with
       | [] => Undef
       | r :: _ =>                                                          (* 1105-1109 *)
         let item_offset := next_unused r in
         let r := set_unused r (uw (e_wide e) (next_unused r + item_len P)) in
         Ok (Some (r, item_offset, base r + item_offset), set_ranges P (put_range (range_list P) r), v)
       end
     | (false, P, v) => Ok (None, P, v)
     end);
  let '(found, P, v) := x in
  match found with
  | None => Ok (None, P, v)
  | Some (r, item_offset, addr) =>
    do r <- set_alloc_slot P r item_offset;                                 (* 1110-1112 *)
    Ok (Some (r, item_offset, addr), set_ranges P (put_range (range_list P) r), v)
  end.
Definition percpu_malloc (P : pool) (c : content) (init_len : Z) (an : answers) (v : vm)
  : res (got * pool * vm) :=
  if item_len P <? init_len then Ok (Null EINVAL, P, v)                     (* 1061-1064 *)
  else
  do x <- malloc_locked P an v;
  match x with
  | (None, P, v) => Ok (Null ENOMEM, P, v)
  | (Some (r, item_offset, addr), P, v) =>
    do v <- fill_item P r item_offset c v;                                  (* 1113-1119 *)
    Ok (Got addr, P, v)
  end.

(** 1122-1136 *)
Definition mempool_percpu_malloc P an v := percpu_malloc P Any 0 an v.
Definition mempool_percpu_zmalloc P an v := percpu_malloc P Zeroed 0 an v.
Definition mempool_percpu_malloc_init P (bs : list Z) an v :=
  percpu_malloc P (Bytes bs) (Z.of_nat (length bs)) an v.

(** 1163-1187  librseq_mempool_percpu_free, once range->pool is known to be [P]
    and the range to be [r] *)
Definition free_in (P : pool) (r : range) (ptr strd : Z) (v : vm) : res (pool * vm) :=
  let item_offset := Z.land ptr (strd - 1) in
  do r <- clear_alloc_slot P r item_offset;
  let P := set_ranges P (put_range (range_list P) r) in
  let hd := free_list_head P in
  do v <- (if poison_set (pattr P) then poison_item P r item_offset v else Ok v);
  let item := percpu_to_free_list_ptr P ptr in
  if negb (accessible e v item (wsz e)) then Undef
  else Ok (set_head P item, store e v (stw (wcfg e) item hd)).

(** The range structure is found just below the stride-aligned address. *)
Definition free_base (ptr strd : Z) : Z := Z.land ptr (notw (e_wide e) (strd - 1)).
End Pool.
