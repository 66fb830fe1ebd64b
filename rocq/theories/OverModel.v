(** The pool calls with the arithmetic of C taken literally where PoolModel.v computes
    modulo 2^64 (or 2^32): rseq_cmp_item (src/rseq-mempool.c:251-267) subtracts two
    intptr_t, and a result that does not fit is undefined.  The definitions are those
    of PoolModel.v and PoolWorld.v, with that test; what they do is described there. *)
From Coq Require Import ZArith Bool List.
From Verif Require Import UtilsModel RseqIR PoolVM PoolModel PoolWorld.
Import ListNotations.
Local Open Scope Z_scope.

Section Over.
Variable e : env.

(** intptr_t: the value of a word taken as a signed number, and what fits. *)
Definition half : Z := 2 ^ (word_bits (e_wide e) - 1).
Definition signed (x : Z) : Z := let x := uw (e_wide e) x in if x <? half then x else x - 2 * half.
Definition fits_word (d : Z) : bool := (- half <=? d) && (d <? half).

(** 251-267  rseq_cmp_item *)
Fixpoint cmp_words_c (v : vm) (p : Z) (offs : list Z) (cmp_value : Z) : res Z :=
  match offs with
  | [] => Ok 0
  | o :: offs =>
    let d := signed (load_word e v (p + o)) - signed cmp_value in        (* 258-260 *)
    if negb (fits_word d) then Undef
    else if negb (d =? 0) then Ok d else cmp_words_c v p offs cmp_value
  end.
Definition cmp_item_c (v : vm) (p len cmp_value : Z) : res Z := cmp_words_c v p (word_offsets e len) cmp_value.

(** 269-300  rseq_percpu_zero_item *)
Definition zero_item_c (P : pool) (r : range) (item_offset : Z) (v : vm) : res vm :=
  do v <- match range_init_ptr e r item_offset with
    | None => Ok v
    | Some p => if accessible e v p (item_len P) then Ok (store e v (zero_bytes p (item_len P))) else Undef
    end;
  for_cpus (cpus P) (fun i v =>
    let p := range_percpu_ptr e r i item_offset (stride (pattr P)) in
    if negb (accessible e v p (item_len P)) then Undef
    else do d <- cmp_item_c v p (item_len P) 0;
    if d =? 0 then Ok v else Ok (store e v (zero_bytes p (item_len P)))) v.
(** 338-367  rseq_percpu_poison_item *)
Definition poison_item_c (P : pool) (r : range) (item_offset : Z) (v : vm) : res vm :=
  let value := poison (pattr P) in
  do v <- match range_init_ptr e r item_offset with
    | None => Ok v
    | Some p => if accessible e v p (item_len P) then Ok (store e v (poison_bytes e p (item_len P) value)) else Undef
    end;
  for_cpus (cpus P) (fun i v =>
    let p := range_percpu_ptr e r i item_offset (stride (pattr P)) in
    if negb (accessible e v p (item_len P)) then Undef
    else do d <- cmp_item_c v p (item_len P) value;
    if d =? 0 then Ok v else Ok (store e v (poison_bytes e p (item_len P) value))) v.
(** 369-383  rseq_check_poison_item *)
Definition check_poison_c (v : vm) (p len value : Z) : res unit :=
  if negb (accessible e v p len) then Undef
  else do d <- cmp_item_c v p len value; if d =? 0 then Ok tt else Abort.
(** 385-403  rseq_percpu_check_poison_item *)
Fixpoint check_cpus_c (P : pool) (r : range) (item_offset : Z) (v : vm) (l : list Z) : res unit :=
  match l with
  | [] => Ok tt
  | i :: l =>
    do _ <- check_poison_c v (range_percpu_ptr e r i item_offset (stride (pattr P))) (item_len P) (poison (pattr P));
    check_cpus_c P r item_offset v l
  end.
Definition check_poison_item_c (P : pool) (r : range) (item_offset : Z) (v : vm) : res unit :=
  if negb (robust_set (pattr P)) then Ok tt
  else
  do _ <- match range_init_ptr e r item_offset with
    | None => Ok tt
    | Some p => check_poison_c v p (item_len P) (poison (pattr P))
    end;
  check_cpus_c P r item_offset v (cpus P).
(** 551-573  check_range_poison, check_pool_poison *)
Fixpoint check_items_c (P : pool) (r : range) (v : vm) (l : list Z) : res unit :=
  match l with
  | [] => Ok tt
  | o :: l => do _ <- check_poison_item_c P r o v; check_items_c P r v l
  end.
Fixpoint check_ranges_c (P : pool) (v : vm) (l : list range) : res unit :=
  match l with
  | [] => Ok tt
  | r :: l => do _ <- check_items_c P r v (item_offsets P r); check_ranges_c P v l
  end.
Definition check_pool_poison_c (P : pool) (v : vm) (mapping_accessible : bool) : res unit :=
  if negb (robust_set (pattr P)) || negb mapping_accessible then Ok tt
  else check_ranges_c P v (range_list P).
(** 890-924  rseq_mempool_destroy *)
Definition mempool_destroy_c (P : pool) (an : answers) (v : vm) : res (Z * option pool * vm) :=
  do acc <- pool_mappings_accessible e P v;
  do _ <- check_free_list e P v acc;
  do _ <- check_pool_poison_c P v acc;
  do x <- destroy_ranges e P an acc (range_list P) v;
  let '(P', v) := x in
  Ok (0, P', v).
(** 926-1026  rseq_mempool_create *)
Definition mempool_create_c (named : bool) (len : Z) (at_ : option attr) (an : answers) (v : vm)
  : res (made * vm) :=
  do c <- complete_attr e len at_;
  match c with
  | inr err => Ok (Failed err, v)
  | inl (len, order, a) =>
    if negb (an_calloc an) then Ok (Failed ENOMEM, v)
    else
    let P := {| range_list := []; nr_ranges := 0; item_len := len; item_order := order;
                free_list_head := 0; pattr := a |} in
    do x <- range_create e P an v;
    match x with
    | (None, P, v) =>
      do y <- mempool_destroy_c P an v;
      let '(_, _, v) := y in Ok (Failed ENOMEM, v)
    | (Some r, P, v) =>
      let P := set_ranges P (r :: range_list P) in
      if named && negb (an_strdup an) then
        do y <- mempool_destroy_c P an v;
        let '(_, _, v) := y in Ok (Failed ENOMEM, v)
      else Ok (Made P, v)
    end
  end.
Definition fill_item_c (P : pool) (r : range) (item_offset : Z) (c : content) (v : vm) : res vm :=
  match c with
  | Any => Ok v
  | Zeroed => zero_item_c P r item_offset v
  | Bytes bs => init_item e P r item_offset bs v
  end.
(** 1066-1115  of __rseq_percpu_malloc *)
Definition malloc_locked_c (P : pool) (an : answers) (v : vm)
  : res (option (range * Z * Z) * pool * vm) :=
  do x <-
    (let node := free_list_head P in
     if negb (node =? 0) then
       let ptr := free_list_to_percpu_ptr e P node in
       let range_base := Z.land ptr (notw (e_wide e) (stride (pattr P) - 1)) in
       match find_range (range_list P) range_base with
       | None => Undef
       | Some r =>
         if negb (accessible e v node (wsz e)) then Undef
         else
         let P := set_head P (load_word e v node) in
         let item_offset := ptr - range_base in
         do _ <- check_poison_item_c P r item_offset v;
         Ok (Some (r, item_offset, free_list_to_percpu_ptr e P node), P, v)
       end
     else
     let room := match range_list P with
                 | [] => false
                 | r :: _ => uw (e_wide e) (next_unused r + item_len P) <=? stride (pattr P) end in
     do y <-
       (if room then Ok (true, P, v)
        else
        do z <- range_create e P an v;
        match z with
        | (None, P, v) => Ok (false, P, v)
        | (Some r, P, v) => Ok (true, set_ranges P (r :: range_list P), v)
        end);
     match y with
     | (true, P, v) =>
       match range_list P with
       | [] => Undef
       | r :: _ =>
         let item_offset := next_unused r in
         let r := set_unused r (uw (e_wide e) (next_unused r + item_len P)) in
         Ok (Some (r, item_offset, base r + item_offset), set_ranges P (put_range (range_list P) r), v)
       end
     | (false, P, v) => Ok (None, P, v)
     end);
  let '(found, P, v) := x in
  match found with
  | None => Ok (None, P, v)
  | Some (r, item_offset, addr) =>
    do r <- set_alloc_slot e P r item_offset;
    Ok (Some (r, item_offset, addr), set_ranges P (put_range (range_list P) r), v)
  end.
(** 1163-1187  librseq_mempool_percpu_free *)
Definition free_in_c (P : pool) (r : range) (ptr strd : Z) (v : vm) : res (pool * vm) :=
  let item_offset := Z.land ptr (strd - 1) in
  do r <- clear_alloc_slot e P r item_offset;
  let P := set_ranges P (put_range (range_list P) r) in
  let hd := free_list_head P in
  do v <- (if poison_set (pattr P) then poison_item_c P r item_offset v else Ok v);
  let item := percpu_to_free_list_ptr e P ptr in
  if negb (accessible e v item (wsz e)) then Undef
  else Ok (set_head P item, store e v (stw (wcfg e) item hd)).

(** [run1] of PoolWorld.v *)
Definition run1_c (o : op) (w : world) : res (world * out) :=
  match o with
  | OCreate id named len at_ an =>
    do x <- mempool_create_c named len at_ an (w_vm w);
    match x with
    | (Made P, v) => Ok ({| w_vm := v; w_pools := (id, P) :: w_pools w |}, OutMade)
    | (Failed err, v) => Ok ({| w_vm := v; w_pools := w_pools w |}, OutErr err)
    end
  | OMalloc id an =>
    match lookup id (w_pools w) with
    | None => Undef
    | Some P =>
      do x <- malloc_locked_c P an (w_vm w);
      match x with
      | (Some (_, _, addr), P, v) => Ok ({| w_vm := v; w_pools := set_pool id P (w_pools w) |}, OutItem addr)
      | (None, P, v) => Ok ({| w_vm := v; w_pools := set_pool id P (w_pools w) |}, OutNull)
      end
    end
  | OFill id item c =>
    match lookup id (w_pools w) with
    | None => Undef
    | Some P =>
      match find_range (range_list P) (free_base e item (stride (pattr P))) with
      | None => Undef
      | Some r =>
        do v <- fill_item_c P r (item - base r) c (w_vm w);
        Ok ({| w_vm := v; w_pools := w_pools w |}, OutUnit)
      end
    end
  | OFree ptr strd =>
    match find_owner (w_pools w) (free_base e ptr strd) with
    | None => Undef
    | Some (id, P, r) =>
      do x <- free_in_c P r ptr strd (w_vm w);
      let '(P, v) := x in Ok ({| w_vm := v; w_pools := set_pool id P (w_pools w) |}, OutUnit)
    end
  | OWrite ps =>
    if forallb (fun p => mapped (w_vm w) (page e (fst p))) ps
    then Ok ({| w_vm := store e (w_vm w) ps; w_pools := w_pools w |}, OutUnit)
    else Undef
  | ODestroy id an =>
    match lookup id (w_pools w) with
    | None => Undef
    | Some P =>
      do x <- mempool_destroy_c P an (w_vm w);
      let '(ret, _, v) := x in Ok ({| w_vm := v; w_pools := del_pool id (w_pools w) |}, OutRet ret)
    end
  end.
End Over.
