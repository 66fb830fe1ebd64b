(** The calls of include/rseq/mempool.h with what they do to the heap, to file
    descriptors and to mutexes (C64).  Executable definitions only, no proofs.

    The functions are those of PoolModel.v and PoolSetModel.v, line by line, with the
    events of ResSpec.v added; C64_same_results says that they compute the same.
    [EUse] marks accesses to what a mutex protects: the free list, the list of ranges,
    their fill and bitmaps; the entries of a set.  Creation and destruction use them
    without the mutex: nobody else has the pool yet, or any more. *)
From Coq Require Import ZArith Bool List.
From Verif Require Import UtilsModel RseqIR PoolVM PoolModel PoolWorld PoolSetModel ResSpec.
From Verif Require SmpModel.
Import ListNotations.
Local Open Scope Z_scope.

(** A computation and the events so far. *)
Definition wr (A : Type) : Type := list event * res A.
Definition wret {A} (x : A) : wr A := ([], Ok x).
Definition lift {A} (r : res A) : wr A := ([], r).
Definition emit (ev : event) : wr unit := ([ev], Ok tt).
Definition wbind {A B} (m : wr A) (f : A -> wr B) : wr B :=
  match m with
  | (t, Ok x) => let '(t', r) := f x in (t ++ t', r)
  | (t, Abort) => (t, Abort)
  | (t, Undef) => (t, Undef)
  end.
Notation "'dw' x <- e1 ; e2" := (wbind e1 (fun x => e2)) (at level 200, x pattern, e1 at level 100, e2 at level 200).

(** What the environment does during a call.  Addresses returned by calloc and
    strdup, 0 for a failure; the descriptor returned by memfd_create, negative for a
    failure; whether ftruncate succeeds.  The rest is as in PoolModel.v. *)
Record sys := {
  s_pool : Z; s_name : Z; s_bitmap : Z; s_fd : Z; s_trunc : bool; s_rest : answers
}.
Definition plain (s : sys) : answers :=
  let an := s_rest s in
  {| an_mmap := an_mmap an; an_trim1 := an_trim1 an; an_trim2 := an_trim2 an;
     an_memfd := (0 <=? s_fd s) && s_trunc s;
     an_map_init := an_map_init an; an_map_cpu := an_map_cpu an;
     an_dontfork := an_dontfork an; an_wipe := an_wipe an;
     an_bitmap := negb (s_bitmap s =? 0); an_init := an_init an; an_munmap := an_munmap an;
     an_calloc := negb (s_pool s =? 0); an_strdup := negb (s_name s =? 0) |}.

(** struct rseq_mempool, src/rseq-mempool.c:145-176, with its address, pool->name
    and range->alloc_bitmap of each range of the list (0: NULL). *)
Record rpool := { core : pool; self : Z; name : Z; bitmaps : list Z }.

Section Res.
Variable e : env.
Notation vm := PoolVM.vm.

(** 575-598  destroy_alloc_bitmap *)
Definition destroy_alloc_bitmap_r (r : range) (bm : Z) : wr range :=
  if bm =? 0 then wret r
  else
  dw _ <- emit (ETouch bm);
  dw r <- lift (destroy_alloc_bitmap e r);
  dw _ <- emit (EFree bm);
  wret r.
(** 600-615  rseq_mempool_range_destroy *)
Definition range_destroy_r (an : answers) (r : range) (bm : Z) (mapping_accessible : bool) (v : vm)
  : wr (bool * range * vm) :=
  dw r <- destroy_alloc_bitmap_r r bm;
  let '(a, len) := if mapping_accessible then (mmap_addr r, mmap_len r)
                   else (header r, POOL_HEADER_NR_PAGES * e_page e) in
  if an_munmap an a then wret (true, r, munmap e v a len) else wret (false, r, v).

(** 701-728  rseq_memfd_create_init: the descriptor, or -1 *)
Definition memfd_create_init (s : sys) : wr Z :=
  if s_fd s <? 0 then wret (s_fd s)
  else
  dw _ <- emit (EOpen (s_fd s));
  if negb (s_trunc s) then
    dw _ <- emit (EClose (s_fd s));
    wret (-1)
  else wret (s_fd s).
(** 730-737  rseq_memfd_close; what close returns is only printed *)
Definition memfd_close (fd : Z) : wr unit := if fd <? 0 then wret tt else emit (EClose fd).

(** 858-861: the error path of rseq_mempool_range_create *)
Definition error_alloc_r (P : pool) (an : answers) (memfd bm : Z) (r : range) (v : vm)
  : wr (option (range * Z) * pool * vm) :=
  dw _ <- memfd_close memfd;
  dw x <- range_destroy_r an r bm true v;
  let '(_, _, v) := x in wret (None, P, v).
(** 827-855: the bitmap and the init callback; memfd is -1 (748, 824) *)
Definition after_init_r (P : pool) (s : sys) (b : Z) (r : range) (v : vm) : wr (option (range * Z) * pool * vm) :=
  let at_ := pattr P in
  let an := plain s in
  let memfd := -1 in
  dw y <-
    (if robust_set at_ then
       if s_bitmap s =? 0 then wret None
       else dw _ <- emit (EAlloc (s_bitmap s));                                        (* 480 *)
            wret (Some (set_bitmap r (Some (repeat 0 (Z.to_nat (bitmap_words e P)))), s_bitmap s))
     else wret (Some (r, 0)));
  match y with
  | None => error_alloc_r P an memfd 0 r v
  | Some (r, bm) =>
    let iv := if init_set at_
              then if type at_ =? TYPE_GLOBAL then run_init_global e P an b v
                   else run_init e P an b (cpus P) v
              else Some v in
    match iv with
    | None => error_alloc_r P an memfd bm r v
    | Some v => wret (Some (r, bm), set_nr P (nr_ranges P + 1), v)
    end
  end.
(** 739-862  rseq_mempool_range_create; with the range comes its bitmap *)
Definition range_create_r (P : pool) (s : sys) (v : vm) : wr (option (range * Z) * pool * vm) :=
  let at_ := pattr P in
  let an := plain s in
  if negb (max_nr_ranges at_ =? 0) && (max_nr_ranges at_ <=? nr_ranges P) then wret (None, P, v)
  else
  let header_len := POOL_HEADER_NR_PAGES * e_page e in
  let range_len := uw (e_wide e) (stride at_ * max_nr_cpus at_) in
  let range_len := if populate_policy at_ =? COW_INIT then uw (e_wide e) (range_len + stride at_) else range_len in
  let range_len := if robust_set at_ then uw (e_wide e) (range_len + stride at_) else range_len in
  dw m <- lift (aligned_mmap_anonymous e v (e_page e) range_len (stride at_) header_len
            (an_mmap an) (an_trim1 an) (an_trim2 an));
  match m with
  | (None, v) => wret (None, P, v)
  | (Some (b, hd), v) =>
    let r := {| header := hd; base := b;
                init := if populate_policy at_ =? COW_INIT then Some (uw (e_wide e) (b + stride at_ * max_nr_cpus at_)) else None;
                next_unused := 0; mmap_addr := hd; mmap_len := uw (e_wide e) (header_len + range_len);
                alloc_bitmap := None |} in
    match init r with
    | None => after_init_r P s b r v
    | Some ip =>
      dw memfd <- memfd_create_init s;                                                 (* 777 *)
      if memfd <? 0 then error_alloc_r P an memfd 0 r v
      else if negb (an_map_init an) then error_alloc_r P an memfd 0 r v
      else
      let v := mmap_shared e v ip (stride at_) in
      if negb (type at_ =? TYPE_PERCPU) then lift Abort
      else if negb (forallb (an_map_cpu an) (cpus P)) then error_alloc_r P an memfd 0 r v
      else
      let v := map_private_cpus e P b ip (cpus P) v in
      if negb (an_dontfork an) then error_alloc_r P an memfd 0 r v
      else
      let v := madv_dontfork e v b range_len in
      let v := store e v [(hd, 1)] in
      if negb (an_wipe an) then error_alloc_r P an memfd 0 r v
      else
      dw _ <- memfd_close memfd;                                                       (* 823-824 *)
      after_init_r P s b r (madv_wipefork e v hd (e_page e))
    end
  end.

(** 890-924  rseq_mempool_destroy *)
Fixpoint destroy_ranges_r (P : pool) (an : answers) (acc : bool) (l : list range) (bms : list Z) (v : vm)
  : wr (option (pool * list Z) * vm) :=
  match l with
  | [] => wret (None, v)
  | r :: l =>
    dw x <- range_destroy_r an r (hd 0 bms) acc v;
    let '(ok, r, v) := x in
    if ok then destroy_ranges_r P an acc l (tl bms) v
    else wret (Some (set_ranges P (r :: l), 0 :: tl bms), v)
  end.
Definition mempool_destroy_r (p : rpool) (s : sys) (v : vm) : wr (Z * option rpool * vm) :=
  let P := core p in
  dw _ <- emit (ETouch (self p));
  dw acc <- lift (pool_mappings_accessible e P v);
  dw _ <- lift (check_free_list e P v acc);
  dw _ <- lift (check_pool_poison e P v acc);
  dw x <- destroy_ranges_r P (plain s) acc (range_list P) (bitmaps p) v;
  let '(rest, v) := x in
  match rest with
  | Some (P, bms) => wret (0, Some {| core := P; self := self p; name := name p; bitmaps := bms |}, v)
  | None =>
    dw _ <- emit (EKill (self p));                                                     (* 919 *)
    dw _ <- emit (ETouch (self p));                                                    (* pool->name *)
    dw _ <- emit (EFree (name p));
    dw _ <- emit (EFree (self p));
    wret (0, None, v)
  end.

(** 926-1026  rseq_mempool_create *)
Inductive rmade := RMade (p : rpool) | RFailed (err : Z).
Definition mempool_create_r (named : bool) (len : Z) (at_ : option attr) (s : sys) (v : vm) : wr (rmade * vm) :=
  dw c <- lift (complete_attr e len at_);
  match c with
  | inr err => wret (RFailed err, v)
  | inl (len, order, a) =>
    if s_pool s =? 0 then wret (RFailed ENOMEM, v)                                     (* 989-991 *)
    else
    dw _ <- emit (EAlloc (s_pool s));
    dw _ <- emit (ETouch (s_pool s));
    dw _ <- emit (EInit (s_pool s));
    let P := {| range_list := []; nr_ranges := 0; item_len := len; item_order := order;
                free_list_head := 0; pattr := a |} in
    dw x <- range_create_r P s v;
    match x with
    | (None, P, v) =>
      dw y <- mempool_destroy_r {| core := P; self := s_pool s; name := 0; bitmaps := [] |} s v;
      let '(_, _, v) := y in wret (RFailed ENOMEM, v)
    | (Some (r, bm), P, v) =>
      let P := set_ranges P (r :: range_list P) in
      let p nm := {| core := P; self := s_pool s; name := nm; bitmaps := [bm] |} in
      if named then                                                                    (* 1011-1015 *)
        if s_name s =? 0 then
          dw y <- mempool_destroy_r (p 0) s v;
          let '(_, _, v) := y in wret (RFailed ENOMEM, v)
        else
        dw _ <- emit (EAlloc (s_name s));
        wret (RMade (p (s_name s)), v)
      else wret (RMade (p 0), v)
    end
  end.

(** 1066-1115 of __rseq_percpu_malloc, under the mutex *)
Definition malloc_locked_r (p : rpool) (s : sys) (v : vm) : wr (option (range * Z * Z) * rpool * vm) :=
  let P := core p in
  let m := self p in
  let with_core P bms := {| core := P; self := self p; name := name p; bitmaps := bms |} in
  dw _ <- emit (ELock m);                                                              (* 1066 *)
  dw _ <- emit (EUse m);
  dw x <-
    (let node := free_list_head P in
     if negb (node =? 0) then
       let ptr := free_list_to_percpu_ptr e P node in
       let range_base := Z.land ptr (notw (e_wide e) (stride (pattr P) - 1)) in
       match find_range (range_list P) range_base with
       | None => lift Undef
       | Some r =>
         if negb (accessible e v node (wsz e)) then lift Undef
         else
         let P := set_head P (load_word e v node) in
         let item_offset := ptr - range_base in
         dw _ <- emit (EUse m);
         dw _ <- lift (check_poison_item e P r item_offset v);
         wret (Some (r, item_offset, free_list_to_percpu_ptr e P node), P, bitmaps p, v)
       end
     else
     let room := match range_list P with
                 | [] => false
                 | r :: _ => uw (e_wide e) (next_unused r + item_len P) <=? stride (pattr P) end in
     dw _ <- emit (EUse m);
     dw y <-
       (if room then wret (true, P, bitmaps p, v)
        else
        dw z <- range_create_r P s v;
        match z with
        | (None, P, v) => wret (false, P, bitmaps p, v)
        | (Some (r, bm), P, v) =>
          dw _ <- emit (EUse m);
          wret (true, set_ranges P (r :: range_list P), bm :: bitmaps p, v)
        end);
     match y with
     | (true, P, bms, v) =>
       match range_list P with
       | [] => lift Undef
       | r :: _ =>
         dw _ <- emit (EUse m);
         let item_offset := next_unused r in
         let r := set_unused r (uw (e_wide e) (next_unused r + item_len P)) in
         wret (Some (r, item_offset, base r + item_offset), set_ranges P (put_range (range_list P) r), bms, v)
       end
     | (false, P, bms, v) => wret (None, P, bms, v)
     end);
  let '(found, P, bms, v) := x in
  match found with
  | None =>
    dw _ <- emit (EUnlock m);                                                          (* 1115 *)
    wret (None, with_core P bms, v)
  | Some (r, item_offset, addr) =>
    dw _ <- emit (EUse m);
    dw r <- lift (set_alloc_slot e P r item_offset);                                   (* 1113-1114 *)
    dw _ <- emit (EUnlock m);
    wret (Some (r, item_offset, addr), with_core (set_ranges P (put_range (range_list P) r)) bms, v)
  end.
(** 1052-1120  __rseq_percpu_malloc *)
Definition percpu_malloc_r (p : rpool) (c : content) (init_len : Z) (s : sys) (v : vm) : wr (got * rpool * vm) :=
  dw _ <- emit (ETouch (self p));
  if item_len (core p) <? init_len then wret (Null EINVAL, p, v)
  else
  dw x <- malloc_locked_r p s v;
  match x with
  | (None, p, v) => wret (Null ENOMEM, p, v)
  | (Some (r, item_offset, addr), p, v) =>
    dw _ <- emit (ETouch (self p));
    dw v <- lift (fill_item e (core p) r item_offset c v);
    wret (Got addr, p, v)
  end.

(** 1163-1187  librseq_mempool_percpu_free, once the range and its pool are found *)
Definition free_in_r (p : rpool) (r : range) (ptr strd : Z) (v : vm) : wr (rpool * vm) :=
  let m := self p in
  dw _ <- emit (ELock m);
  dw _ <- emit (EUse m);
  dw x <- lift (free_in e (core p) r ptr strd v);
  let '(P, v) := x in
  dw _ <- emit (EUse m);
  dw _ <- emit (EUnlock m);
  wret ({| core := P; self := self p; name := name p; bitmaps := bitmaps p |}, v).

(** ** The program's pools, sets and attribute objects, by address *)
Record rworld := { rv : vm; rpools : list rpool; rsets : list (Z * pset); rattrs : list Z }.

Definition find_pool (id : Z) (l : list rpool) : option rpool := find (fun p => self p =? id) l.
Definition put_pool (p : rpool) (l : list rpool) : list rpool := map (fun q => if self q =? self p then p else q) l.
Definition drop_pool (id : Z) (l : list rpool) : list rpool := filter (fun q => negb (self q =? id)) l.
Definition find_set (id : Z) (l : list (Z * pset)) : option pset :=
  match find (fun x => fst x =? id) l with Some (_, E) => Some E | None => None end.
Definition put_set (id : Z) (E : pset) (l : list (Z * pset)) : list (Z * pset) :=
  map (fun x => if fst x =? id then (id, E) else x) l.
Definition with_pool_r (w : rworld) (p : rpool) (v : vm) : rworld :=
  {| rv := v; rpools := put_pool p (rpools w); rsets := rsets w; rattrs := rattrs w |}.

(** 1237-1278  __rseq_mempool_set_malloc, as set_malloc_from of PoolSetModel.v; the
    mutex of the set [id] is held on entry, and released around each allocation. *)
Fixpoint set_malloc_from_r (os : list Z) (id : Z) (E : pset) (c : content) (len : Z) (ans : Z -> sys) (w : rworld)
  : wr (got * rworld) :=
  match os with
  | [] =>
    dw _ <- emit (EUnlock id);                                                         (* 1261 *)
    wret (Null ENOMEM, w)
  | o :: os =>
    dw _ <- emit (EUse id);
    match E o with
    | None => set_malloc_from_r os id E c len ans w
    | Some h =>
      match find_pool h (rpools w) with
      | None => lift Undef
      | Some p =>
        dw _ <- emit (ETouch h);
        if len <=? item_len (core p) then
          dw _ <- emit (EUnlock id);                                                   (* 1261 *)
          dw x <- percpu_malloc_r p c len (ans o) (rv w);
          match x with
          | (Got a, p, v) => wret (Got a, with_pool_r w p v)
          | (Null err, p, v) =>
            if err =? ENOMEM then
              dw _ <- emit (ETouch id);
              dw _ <- emit (ELock id);                                                 (* 1250, again *)
              set_malloc_from_r os id E c len ans (with_pool_r w p v)
            else wret (Null err, with_pool_r w p v)
          end
        else set_malloc_from_r os id E c len ans w
      end
    end
  end.
Definition set_malloc_r (id : Z) (E : pset) (c : content) (len : Z) (ans : Z -> sys) (w : rworld) : wr (got * rworld) :=
  let m := set_min_order e len in
  dw _ <- emit (ETouch id);
  dw _ <- emit (ELock id);                                                             (* 1250 *)
  set_malloc_from_r (zseq m (POOL_SET_NR_ENTRIES e - m)) id E c len ans w.

(** 1200-1217  rseq_mempool_set_destroy *)
Fixpoint set_destroy_from_r (os : list Z) (id : Z) (E : pset) (ans : Z -> sys) (w : rworld) : wr (Z * rworld) :=
  match os with
  | [] =>
    dw _ <- emit (EKill id);
    dw _ <- emit (EFree id);
    wret (0, {| rv := rv w; rpools := rpools w; rsets := filter (fun x => negb (fst x =? id)) (rsets w); rattrs := rattrs w |})
  | o :: os =>
    dw _ <- emit (ETouch id);
    match E o with
    | None => set_destroy_from_r os id E ans w
    | Some h =>
      match find_pool h (rpools w) with
      | None => lift Undef
      | Some p =>
        dw x <- mempool_destroy_r p (ans o) (rv w);
        let '(ret, _, v) := x in
        let w := {| rv := v; rpools := drop_pool h (rpools w); rsets := rsets w; rattrs := rattrs w |} in
        if negb (ret =? 0) then wret (ret, w)
        else set_destroy_from_r os id (fun o' => if o' =? o then None else E o') ans w
      end
    end
  end.

(** ** The calls
    A handle the program does not have makes the call undefined. *)
Inductive rop :=
| RCreate (named : bool) (len : Z) (at_ : option attr) (s : sys)
| RMalloc (id : Z) (c : content) (init_len : Z) (s : sys)
| RFree (ptr strd : Z)
| RWrite (ps : list (Z * Z))                      (* the program writes bytes *)
| RDestroy (id : Z) (s : sys)
| RSetCreate (p : Z)                              (* calloc returns p, or 0 *)
| RSetAdd (set id : Z)
| RSetMalloc (set : Z) (c : content) (len : Z) (ans : Z -> sys)
| RSetDestroy (set : Z) (ans : Z -> sys)
| RAttrCreate (p : Z)
| RAttrDestroy (p : Z).                           (* NULL or an attribute object *)

Inductive rout := ROk | RNull (err : Z) | RItem (a : Z) | RRet (ret : Z).

Fixpoint find_owner_r (l : list rpool) (b : Z) : option (rpool * range) :=
  match l with
  | [] => None
  | p :: l => match find_range (range_list (core p)) b with Some r => Some (p, r) | None => find_owner_r l b end
  end.

Definition run_r (o : rop) (w : rworld) : wr (rworld * rout) :=
  match o with
  | RCreate named len at_ s =>
    dw x <- mempool_create_r named len at_ s (rv w);
    match x with
    | (RMade p, v) => wret ({| rv := v; rpools := p :: rpools w; rsets := rsets w; rattrs := rattrs w |}, ROk)
    | (RFailed err, v) => wret ({| rv := v; rpools := rpools w; rsets := rsets w; rattrs := rattrs w |}, RNull err)
    end
  | RMalloc id c n s =>
    match find_pool id (rpools w) with
    | None => lift Undef
    | Some p =>
      dw x <- percpu_malloc_r p c n s (rv w);
      match x with
      | (Got a, p, v) => wret (with_pool_r w p v, RItem a)
      | (Null err, p, v) => wret (with_pool_r w p v, RNull err)
      end
    end
  | RFree ptr strd =>
    match find_owner_r (rpools w) (free_base e ptr strd) with
    | None => lift Undef
    | Some (p, r) =>
      dw x <- free_in_r p r ptr strd (rv w);
      let '(p, v) := x in wret (with_pool_r w p v, ROk)
    end
  | RWrite ps =>
    if forallb (fun p => mapped (rv w) (page e (fst p))) ps
    then wret ({| rv := store e (rv w) ps; rpools := rpools w; rsets := rsets w; rattrs := rattrs w |}, ROk)
    else lift Undef
  | RDestroy id s =>
    match find_pool id (rpools w) with
    | None => lift Undef
    | Some p =>
      dw x <- mempool_destroy_r p s (rv w);
      let '(ret, _, v) := x in
      wret ({| rv := v; rpools := drop_pool id (rpools w); rsets := rsets w; rattrs := rattrs w |}, RRet ret)
    end
  | RSetCreate p =>                                                                    (* 1189-1198 *)
    if p =? 0 then wret (w, RNull ENOMEM)
    else
    dw _ <- emit (EAlloc p);
    dw _ <- emit (EInit p);
    wret ({| rv := rv w; rpools := rpools w; rsets := (p, set_create) :: rsets w; rattrs := rattrs w |}, ROk)
  | RSetAdd sid id =>                                                                  (* 1219-1235 *)
    match find_set sid (rsets w), find_pool id (rpools w) with
    | Some E, Some p =>
      dw _ <- emit (ETouch id);
      dw _ <- emit (ELock sid);
      dw _ <- emit (EUse sid);
      let '(ret, _, E) := set_add_pool E id (core p) in
      dw _ <- emit (EUnlock sid);
      wret ({| rv := rv w; rpools := rpools w; rsets := put_set sid E (rsets w); rattrs := rattrs w |}, RRet ret)
    | _, _ => lift Undef
    end
  | RSetMalloc sid c len ans =>
    match find_set sid (rsets w) with
    | None => lift Undef
    | Some E =>
      dw x <- set_malloc_r sid E c len ans w;
      match x with
      | (Got a, w) => wret (w, RItem a)
      | (Null err, w) => wret (w, RNull err)
      end
    end
  | RSetDestroy sid ans =>
    match find_set sid (rsets w) with
    | None => lift Undef
    | Some E =>
      dw x <- set_destroy_from_r (zseq (POOL_SET_MIN_ENTRY e) (POOL_SET_NR_ENTRIES e - POOL_SET_MIN_ENTRY e)) sid E ans w;
      let '(ret, w) := x in wret (w, RRet ret)
    end
  | RAttrCreate p =>                                                                   (* 1296-1299 *)
    if p =? 0 then wret (w, RNull ENOMEM)
    else
    dw _ <- emit (EAlloc p);
    wret ({| rv := rv w; rpools := rpools w; rsets := rsets w; rattrs := p :: rattrs w |}, ROk)
  | RAttrDestroy p =>                                                                  (* 1301-1304 *)
    if (p =? 0) || has (rattrs w) p then
      dw _ <- emit (EFree p);
      wret ({| rv := rv w; rpools := rpools w; rsets := rsets w; rattrs := drop (rattrs w) p |}, ROk)
    else lift Undef
  end.
End Res.

(** ** Vocabulary of the theorems *)
(** The blocks of a pool: itself, its name, and the bitmaps of its ranges. *)
Definition nz (p : Z) : list Z := if p =? 0 then [] else [p].
Definition nzs (l : list Z) : list Z := flat_map nz l.
Definition pblocks (p : rpool) : list Z := self p :: nz (name p) ++ nzs (bitmaps p).
(** The blocks and the mutexes of the program's objects. *)
Definition blocks (w : rworld) : list Z := flat_map pblocks (rpools w) ++ map fst (rsets w) ++ rattrs w.
Definition mus (w : rworld) : list Z := map self (rpools w) ++ map fst (rsets w).
(** munmap succeeds whenever the call uses it. *)
Definition always (s : sys) : Prop := forall a, an_munmap (s_rest s) a = true.
Definition unmap_ok (o : rop) : Prop :=
  match o with
  | RCreate _ _ _ s | RDestroy _ s => always s
  | RSetDestroy _ ans => forall o, always (ans o)
  | _ => True
  end.
(** Histories of calls that satisfy [P], with everything they did; [v0] is the
    address space the program starts with. *)
Inductive ran (P : rop -> Prop) (e : env) (v0 : PoolVM.vm) : rworld -> list event -> Prop :=
| ran_start : ran P e v0 {| rv := v0; rpools := []; rsets := []; rattrs := [] |} []
| ran_step w t o t' w' x : ran P e v0 w t -> P o -> run_r e o w = (t', Ok (w', x)) -> ran P e v0 w' (t ++ t').

(** What a thread does in a call that returns, and in any number of such calls; the
    calls of other threads may come in between, so each starts from any state. *)
Definition call_trace (e : env) (l : list event) : Prop :=
  exists P v0 w t o x b, ran P e v0 w t /\ run_r e o w = (l, Ok x) /\ monitor (t ++ l) books0 = Fine b.
Inductive calls (e : env) : list event -> Prop :=
| calls_nil : calls e []
| calls_more l l' : call_trace e l -> calls e l' -> calls e (l ++ l').

(** The same calls in terms of PoolModel.v and PoolSetModel.v, without the events. *)
Definition plain_world (w : rworld) : world :=
  {| w_vm := rv w; w_pools := map (fun p => (self p, core p)) (rpools w) |}.
Definition run_plain (e : env) (o : rop) (w : world) (sets : list (Z * pset)) : res (world * list (Z * pset) * rout) :=
  match o with
  | RCreate named len at_ s =>
    do x <- mempool_create e named len at_ (plain s) (w_vm w);
    match x with
    | (Made P, v) => Ok ({| w_vm := v; w_pools := (s_pool s, P) :: w_pools w |}, sets, ROk)
    | (Failed err, v) => Ok ({| w_vm := v; w_pools := w_pools w |}, sets, RNull err)
    end
  | RMalloc id c n s =>
    match lookup id (w_pools w) with
    | None => Undef
    | Some P =>
      do x <- percpu_malloc e P c n (plain s) (w_vm w);
      match x with
      | (Got a, P, v) => Ok (with_pool w id P v, sets, RItem a)
      | (Null err, P, v) => Ok (with_pool w id P v, sets, RNull err)
      end
    end
  | RFree ptr strd => do x <- run1 e (OFree ptr strd) w; Ok (fst x, sets, ROk)
  | RWrite ps => do x <- run1 e (OWrite ps) w; Ok (fst x, sets, ROk)
  | RDestroy id s =>
    do x <- run1 e (ODestroy id (plain s)) w;
    Ok (fst x, sets, match snd x with OutRet r => RRet r | _ => ROk end)
  | RSetCreate p => Ok (w, if p =? 0 then sets else (p, set_create) :: sets, if p =? 0 then RNull ENOMEM else ROk)
  | RSetAdd sid id =>
    match find_set sid sets, lookup id (w_pools w) with
    | Some E, Some P => let '(ret, _, E) := set_add_pool E id P in Ok (w, put_set sid E sets, RRet ret)
    | _, _ => Undef
    end
  | RSetMalloc sid c len ans =>
    match find_set sid sets with
    | None => Undef
    | Some E =>
      do x <- set_malloc e E c len (fun o => plain (ans o)) w;
      match x with (Got a, w) => Ok (w, sets, RItem a) | (Null err, w) => Ok (w, sets, RNull err) end
    end
  | RSetDestroy sid ans =>
    match find_set sid sets with
    | None => Undef
    | Some E =>
      do x <- set_destroy e E (fun o => plain (ans o)) w;
      let '(ret, _, w) := x in
      Ok (w, if ret =? 0 then filter (fun x => negb (fst x =? sid)) sets else sets, RRet ret)
    end
  | RAttrCreate p => Ok (w, sets, if p =? 0 then RNull ENOMEM else ROk)
  | RAttrDestroy p => Ok (w, sets, ROk)
  end.

(** ** src/smp.c with its descriptors
    [dfd1] and [dfd2] stand for the streams of the two directory scans, [fd] for the
    descriptor of the mask file. *)
Definition scan_events (fd : Z) (d : SmpModel.listing) : list event :=
  match d with None => [] | Some _ => [EOpen fd; EClose fd] end.                      (* src/smp.c:41-66 *)
(** src/smp.c:113-119; __max evaluates the larger argument again *)
Definition fallback_r (lb : Z) (sc1 sc2 dfd1 dfd2 : Z) (d1 d2 : SmpModel.listing) : list event * option Z :=
  let t1 := scan_events dfd1 d1 in
  match SmpModel.plus1 (SmpModel.max_cpuid_from_sysfs lb d1) with
  | Some b => if b <? sc1 then (t1, Some (SmpModel.to_int sc2))
              else (t1 ++ scan_events dfd2 d2, SmpModel.plus1 (SmpModel.max_cpuid_from_sysfs lb d2))
  | None => (t1, None)
  end.
(** src/smp.c:231-259 *)
Definition compute_len_r (lb : Z) (x : SmpModel.env) (fd dfd1 dfd2 : Z) : list event * SmpModel.outcome :=
  let fb := match fallback_r lb (SmpModel.e_sc1 x) (SmpModel.e_sc2 x) dfd1 dfd2 (SmpModel.e_dir1 x) (SmpModel.e_dir2 x) with
            | (t, Some n) => (t, SmpModel.Len n) | (t, None) => (t, SmpModel.Overflow) end in
  if negb (SmpModel.e_open x) then fb else
  let after (y : list event * SmpModel.outcome) := (EOpen fd :: EClose fd :: fst y, snd y) in   (* 142, 174 *)
  match SmpModel.read_loop (SmpModel.e_file x) SmpModel.CPUMASK_SIZE (SmpModel.e_reads x) (SmpModel.e_junk x) 0 with
  | SmpModel.RBlocked => ([EOpen fd], SmpModel.Blocked)
  | SmpModel.RFail => after fb
  | SmpModel.RGot buf total =>
    if Nat.eqb total 0 then after fb else
    match SmpModel.max_cpuid_from_mask lb SmpModel.CPUMASK_SIZE (SmpModel.terminate SmpModel.CPUMASK_SIZE buf total) total with
    | SmpModel.PMax id => after ([], SmpModel.Len (id + 1))
    | SmpModel.PBad => after fb
    | SmpModel.POob => after ([], SmpModel.Oob)
    end
  end.
(** src/smp.c:272-278 *)
Definition get_len_r (lb cache : Z) (x : SmpModel.env) (fd dfd1 dfd2 : Z) : list event * SmpModel.outcome :=
  if negb (cache =? 0) then ([], SmpModel.Len cache) else
  match compute_len_r lb x fd dfd1 dfd2 with
  | (t, SmpModel.Len n) => (t, if n <? 1 then SmpModel.Len cache else SmpModel.Len n)
  | (t, o) => (t, o)
  end.
