(** Address space of a process, as src/rseq-mempool.c uses it.  Executable
    definitions only, no proofs.

    - Memory is byte addressed.  A page may be linked to another page: it is then
      a private mapping (MAP_PRIVATE) of a file page that is mapped shared
      (MAP_SHARED) at the other page, and has not been written yet.  Reading it
      reads the other page; writing it first copies the page (copy-on-write).
    - [populated]: the page has been written, so it has memory of its own (an
      anonymous page that was only read is backed by the shared zero page).
    - madvise() flags: [dontfork] pages do not exist in a child process,
      [wipefork] pages are zero there.
    - Simplification: the kernel's copy of a page is one step (see C38 for the
      code's behaviour when it is not). *)
From Coq Require Import ZArith Bool List.
From Verif Require Import UtilsModel RseqIR.
Import ListNotations.
Local Open Scope Z_scope.

(** Result of a function: it returns, it calls abort() (or an assert() fails), or
    its behaviour is undefined (invalid access, undefined C operation). *)
Inductive res (A : Type) := Ok (x : A) | Abort | Undef.
Arguments Ok {A} x.
Arguments Abort {A}.
Arguments Undef {A}.
Definition bind {A B} (x : res A) (f : A -> res B) : res B :=
  match x with Ok a => f a | Abort => Abort | Undef => Undef end.
Notation "'do' x <- e1 ; e2" := (bind e1 (fun x => e2)) (at level 200, x pattern, e1 at level 100, e2 at level 200).

(** [e_page]: page length; [e_big]: byte order; [e_ncpus]: rseq_get_max_nr_cpus();
    [e_wide]: RSEQ_BITS_PER_LONG == 64, else 32. *)
Record env := { e_page : Z; e_big : bool; e_ncpus : Z; e_wide : bool }.

(** sizeof(void * ) = sizeof(uintptr_t) = sizeof(unsigned long), its logarithm, and
    the number of values of such a type. *)
Definition wsz (e : env) : Z := if e_wide e then 8 else 4.
Definition wlog (e : env) : Z := if e_wide e then 3 else 2.
Definition wmax (e : env) : Z := 2 ^ word_bits (e_wide e).
Definition wcfg (e : env) : cfg := {| wsize := if e_wide e then 8%nat else 4%nat; bigend := e_big e |}.

Record vm := {
  data : mem;
  mapped : Z -> bool;             (* by page number *)
  link : Z -> option Z;
  populated : Z -> bool;
  dontfork : Z -> bool;
  wipefork : Z -> bool
}.

Section VM.
Variable e : env.

Definition page (a : Z) : Z := a / e_page e.

(** What a read of byte [a] returns. *)
Definition view (v : vm) : mem := fun a =>
  match link v (page a) with
  | Some q => data v (q * e_page e + a mod e_page e)
  | None => data v a
  end.

(** One byte written at [a], with copy-on-write of its page. *)
Definition store1 (v : vm) (p : Z * Z) : vm :=
  let '(a, b) := p in
  {| data := fun x =>
       if x =? a then b
       else if page x =? page a then view v x else data v x;
     mapped := mapped v;
     link := fun q => if q =? page a then None else link v q;
     populated := fun q => if q =? page a then true else populated v q;
     dontfork := dontfork v; wipefork := wipefork v |}.
Definition store (v : vm) (ps : list (Z * Z)) : vm := fold_left store1 ps v.

(** [n] consecutive integers. *)
Definition zseq (a : Z) (n : Z) : list Z := map (fun i => a + Z.of_nat i) (seq 0 (Z.to_nat n)).

(** All bytes of [a, a + len) may be accessed. *)
Definition accessible (v : vm) (a len : Z) : bool :=
  forallb (fun i => mapped v (page a + i)) (zseq 0 (page (a + len - 1) - page a + 1)).

Definition load_word (v : vm) (a : Z) : Z := ldw (wcfg e) (view v) a.

(** ** System calls *)
Definition in_pages (a len q : Z) : bool := (page a <=? q) && (q <? page (a + len)).

(** mmap(NULL, len, ..., MAP_ANONYMOUS | MAP_PRIVATE): the kernel chooses an
    unused page-aligned address, or fails.  A choice the kernel could not make
    counts as a failure.  The last page of the address space is never mapped. *)
Definition user_limit : Z := wmax e - e_page e.
Definition mmap_anon (v : vm) (len : Z) (choice : option Z) : option (Z * vm) :=
  match choice with
  | None => None
  | Some a =>
    if (0 <? len) && (len mod e_page e =? 0) && (a mod e_page e =? 0) && (e_page e <=? a) && (a + len <=? user_limit) &&
       forallb (fun i => negb (mapped v (page a + i))) (zseq 0 (len / e_page e))
    then Some (a,
      {| data := fun x => if (a <=? x) && (x <? a + len) then 0 else data v x;
         mapped := fun q => in_pages a len q || mapped v q;
         link := fun q => if in_pages a len q then None else link v q;
         populated := fun q => negb (in_pages a len q) && populated v q;
         dontfork := fun q => negb (in_pages a len q) && dontfork v q;
         wipefork := fun q => negb (in_pages a len q) && wipefork v q |})
    else None
  end.

(** munmap(a, len), when it succeeds. *)
Definition munmap (v : vm) (a len : Z) : vm :=
  {| data := data v;
     mapped := fun q => negb (in_pages a len q) && mapped v q;
     link := fun q => if in_pages a len q then None else link v q;
     populated := fun q => negb (in_pages a len q) && populated v q;
     dontfork := dontfork v; wipefork := wipefork v |}.

(** mmap(a, len, ..., MAP_SHARED | MAP_FIXED, memfd, 0) of a new, zero-filled file. *)
Definition mmap_shared (v : vm) (a len : Z) : vm :=
  {| data := fun x => if (a <=? x) && (x <? a + len) then 0 else data v x;
     mapped := fun q => in_pages a len q || mapped v q;
     link := fun q => if in_pages a len q then None else link v q;
     populated := fun q => negb (in_pages a len q) && populated v q;
     dontfork := fun q => negb (in_pages a len q) && dontfork v q;
     wipefork := fun q => negb (in_pages a len q) && wipefork v q |}.

(** mmap(a, len, ..., MAP_PRIVATE | MAP_FIXED, memfd, 0), the file being mapped
    shared at [file]. *)
Definition mmap_private (v : vm) (a len file : Z) : vm :=
  {| data := data v;
     mapped := fun q => in_pages a len q || mapped v q;
     link := fun q => if in_pages a len q then Some (page file + (q - page a)) else link v q;
     populated := fun q => negb (in_pages a len q) && populated v q;
     dontfork := fun q => negb (in_pages a len q) && dontfork v q;
     wipefork := fun q => negb (in_pages a len q) && wipefork v q |}.

(** madvise(a, len, MADV_DONTFORK) and madvise(a, len, MADV_WIPEONFORK). *)
Definition madv_dontfork (v : vm) (a len : Z) : vm :=
  {| data := data v; mapped := mapped v; link := link v; populated := populated v;
     dontfork := fun q => in_pages a len q || dontfork v q; wipefork := wipefork v |}.
Definition madv_wipefork (v : vm) (a len : Z) : vm :=
  {| data := data v; mapped := mapped v; link := link v; populated := populated v;
     dontfork := dontfork v; wipefork := fun q => in_pages a len q || wipefork v q |}.

(** The address space of the child after fork(). *)
Definition fork (v : vm) : vm :=
  {| data := fun a => if wipefork v (page a) then 0 else data v a;
     mapped := fun q => negb (dontfork v q) && mapped v q;
     link := fun q => if dontfork v q then None else link v q;
     populated := fun q => negb (wipefork v q) && populated v q;
     dontfork := dontfork v; wipefork := wipefork v |}.

(** ** src/rseq-mempool.c:622-699  aligned_mmap_anonymous
    [choice]: address chosen by mmap; [trim1], [trim2]: the two munmap succeed
    (abort otherwise).  Returns None if it returns NULL, else (base, pre_header). *)
Definition aligned_mmap_anonymous (v : vm) (page_size len alignment pre_header_len : Z)
    (choice : option Z) (trim1 trim2 : bool) : res (option (Z * Z) * vm) :=
  if (len <? page_size) || (alignment <? page_size) || negb (is_pow2 alignment) ||
     negb (Z.land len (uw (e_wide e) (alignment - 1)) =? 0)
  then Ok (None, v)                                                     (* 630-634 *)
  else
  let page_order := rseq_get_count_order_ulong (e_wide e) page_size in        (* 635 *)
  if page_order <? 0 then Ok (None, v)
  else if negb (pre_header_len =? 0) && negb (Z.land pre_header_len (uw (e_wide e) (page_size - 1)) =? 0)
  then Ok (None, v)                                                     (* 640-643 *)
  else
  let minimum_page_count := Z.shiftr (uw (e_wide e) (pre_header_len + len)) page_order in
  let page_count := Z.shiftr (uw (e_wide e) (uw (e_wide e) (uw (e_wide e) (pre_header_len + len) + alignment) - page_size)) page_order in
  if page_count <? minimum_page_count then Abort                        (* 648 assert *)
  else
  match mmap_anon v (uw (e_wide e) (Z.shiftl page_count page_order)) choice with
  | None => Ok (None, v)
  | Some (ptr, v) =>
    let total_allocate := uw (e_wide e) (Z.shiftl page_count page_order) in
    do x <-
      (if Z.land (uw (e_wide e) (ptr + pre_header_len)) (uw (e_wide e) (alignment - 1)) =? 0
       then Ok (ptr, page_count, total_allocate, v)                     (* 659-662 *)
       else
       let extra := offset_align (e_wide e) (uw (e_wide e) (ptr + pre_header_len)) alignment in
       if negb (Z.land extra (uw (e_wide e) (page_size - 1)) =? 0) then Abort
       else if negb trim1 then Abort
       else Ok (ptr + extra, page_count - Z.shiftr extra page_order, total_allocate - extra,
                munmap v ptr extra));
    let '(ptr, page_count, total_allocate, v) := x in
    if page_count <? minimum_page_count then Abort                      (* 675 assert *)
    else
    do y <-
      (if minimum_page_count <? page_count then
         let extra_ptr := ptr + Z.shiftl minimum_page_count page_order in
         let extra := Z.shiftl (page_count - minimum_page_count) page_order in
         if negb trim2 then Abort
         else Ok (total_allocate - extra, munmap v extra_ptr extra)
       else Ok (total_allocate, v));
    let '(total_allocate, v) := y in
    if negb (Z.land (uw (e_wide e) (ptr + pre_header_len)) (uw (e_wide e) (alignment - 1)) =? 0) then Abort
    else if negb (total_allocate =? uw (e_wide e) (len + pre_header_len)) then Abort
    else Ok (Some (ptr + pre_header_len, ptr), v)                       (* 692-698 *)
  end.
End VM.
