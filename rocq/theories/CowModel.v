(** Threads that allocate, free, read and write items of one range of a per-CPU
    pool while the kernel copies pages, byte by byte.

    PoolModel.v runs every call as one step.  Here the calls of any number of
    threads interleave, each byte read or written by the C library, the program
    and the kernel being one step, in an order that the schedule chooses.

    Memory: [file] is the content that the pages of the CPUs show before their
    first write: the init area of the range, a shared mapping of the memfd of which
    the pages of the CPUs are private mappings (COW_INIT), or the zero page
    (COW_ZERO); src/rseq-mempool.c:740-862.  A page of a CPU is written only once
    the kernel has made a private copy of it.  The stores of a thread are seen by
    all threads at once (sequential consistency).

    Simplified: one range; the free list is the set of free items, from which malloc
    takes any one; the pool mutex, which only removes interleavings, is not
    modelled (malloc takes an item in one step: src/rseq-mempool.c:1066-1105); the
    allocation bitmap and the range headers are not modelled; the link of a free
    item has arbitrary bytes; memcpy, bzero and the poison loop store each byte of
    their range once, memcmp and rseq_cmp_item read bytes in any order until one
    differs.  No proofs here. *)
From Coq Require Import ZArith Bool List.
Import ListNotations.
Local Open Scope Z_scope.

(** The pool and the kernel.
    [k_serial]: the kernel does not let a thread read through the mapping of a page
    while that page is being copied for that mapping. *)
Record cfg : Type := {
  c_page : Z;            (* page size *)
  c_len : Z;             (* item length: src/rseq-mempool.c:945-953 *)
  c_cpus : Z;            (* max_nr_cpus: src/rseq-mempool.c:88 *)
  c_items : Z;           (* items of a range: stride / item length *)
  c_init : bool;         (* COW_INIT: src/rseq-mempool.c:98, 104-143 *)
  c_robust : bool;       (* src/rseq-mempool.c:85 *)
  c_poison : option (Z -> Z); (* byte of the poison value at each offset of an item: src/rseq-mempool.c:95-96 *)
  k_serial : bool
}.

(** A page of a CPU: shared with [file], being copied (the bytes copied so far), or
    private. *)
Inductive pstate : Type :=
| Shared
| Copying (snap : Z -> option Z)
| Private (m : Z -> Z).

(** The items. [Fresh]: above next_unused; [Busy]: a call is working on it. *)
Inductive istate : Type := Fresh | Live | Freed | Busy.

(** What a call does to its item: src/rseq-mempool.c:270-323, 326-363 and
    364-403 (check). CPU -1 stands for the init area. *)
Inductive phase : Type :=
| PFile (todo : list Z)            (* store to the init area *)
| PCmp (cpu : Z) (todo : list Z)   (* compare the CPU's item *)
| PCopy (cpu : Z) (todo : list Z). (* store to the CPU's item *)
Inductive task : Type :=
| TIdle
| TCheck (it : Z) (c : option (list Z)) (cpu : Z) (todo : list Z) (* malloc: poison check *)
| TFill (it : Z) (bs : list Z) (ph : phase)                      (* malloc: initialisation *)
| TPoison (it : Z) (bs : list Z) (ph : phase)                    (* free: poison *)
| TLink (it : Z) (todo : list Z)                                 (* free: link *)
| TDead.                                                         (* abort() *)

Record state : Type := { s_file : Z -> Z; s_page : Z -> Z -> pstate; s_item : Z -> istate; s_task : Z -> task }.

Inductive action : Type :=
(* the program: calls, stores and loads of bytes of its items *)
| AMalloc (t it : Z) (c : option (list Z))
| AFree (t it : Z)
| AStore (t cpu x b : Z)
| ALoad (t cpu x : Z)
(* the next step of a call, on byte k of the item where one is due *)
| AStep (t k b : Z)
(* the kernel *)
| KStart (cpu pg : Z)
| KByte (cpu x : Z)
| KInstall (cpu pg : Z).

(** What the program sees. *)
Inductive event : Type :=
| EMalloc (t it : Z) (c : option (list Z))  (* malloc returns an item *)
| EFree (t it : Z)                          (* free is called *)
| EStore (t cpu x b : Z)
| ELoad (t cpu x b : Z)
| EAbort (t : Z)                            (* poison corruption is reported *)
| ETau.

Section Model.
Variable g : cfg.

Fixpoint zseq (n : nat) (a : Z) : list Z := match n with O => [] | S n => a :: zseq n (a + 1) end.
Definition below (n : Z) : list Z := zseq (Z.to_nat n) 0.
Definition upd {A : Type} (f : Z -> A) (k : Z) (v : A) : Z -> A := fun x => if x =? k then v else f x.
Definition drop (k : Z) (l : list Z) : list Z := filter (fun j => negb (j =? k)) l.
Definition has (k : Z) (l : list Z) : bool := existsb (Z.eqb k) l.
Definition cpu_ok (cpu : Z) : bool := (0 <=? cpu) && (cpu <? c_cpus g).
Definition pg (x : Z) : Z := x / c_page g.
Definition item (x : Z) : Z := x / c_len g.

Definition set_file s f := {| s_file := f; s_page := s_page s; s_item := s_item s; s_task := s_task s |}.
Definition set_page s cpu p v :=
  {| s_file := s_file s; s_page := upd (s_page s) cpu (upd (s_page s cpu) p v); s_item := s_item s; s_task := s_task s |}.
Definition set_item s it v := {| s_file := s_file s; s_page := s_page s; s_item := upd (s_item s) it v; s_task := s_task s |}.
Definition set_task s t v := {| s_file := s_file s; s_page := s_page s; s_item := s_item s; s_task := upd (s_task s) t v |}.

(** Reading byte x of a CPU (-1: the init area). *)
Definition load (s : state) (cpu x : Z) : option Z :=
  if cpu =? -1 then Some (s_file s x)
  else match s_page s cpu (pg x) with
       | Shared => Some (s_file s x)
       | Copying _ => if k_serial g then None else Some (s_file s x)
       | Private m => Some (m x)
       end.
(** Writing byte x of a CPU: once its page is private. *)
Definition store (s : state) (cpu x b : Z) : option state :=
  match s_page s cpu (pg x) with
  | Private m => Some (set_page s cpu (pg x) (Private (upd m x b)))
  | _ => None
  end.

(** malloc returns (src/rseq-mempool.c:1108-1119), with the item in the hands of
    the program. *)
Definition returns (s : state) (t it : Z) (c : option (list Z)) : option (state * event) :=
  Some (set_task (set_item s it Live) t TIdle, EMalloc t it c).
(** The first phase of storing [n] bytes: the init area if there is one
    (src/rseq-mempool.c:276-278, 310-312, 339-341). *)
Definition first_phase (n : Z) : phase := if c_init g then PFile (below n) else PCmp 0 (below n).
(** src/rseq-mempool.c:1111-1117 *)
Definition begin_fill (s : state) (t it : Z) (c : option (list Z)) : option (state * event) :=
  match c with
  | None => returns s t it None
  | Some bs => Some (set_task s t (TFill it bs (first_phase (Z.of_nat (length bs)))), ETau)
  end.
(** The end of free: the link to the next free item is stored, in the init area
    (COW_INIT) or on CPU 0 (COW_ZERO), or after them all in a robust pool, which
    is not part of the modelled memory (src/rseq-mempool.c:230-250, 1178-1186). *)
Definition begin_link (s : state) (t it : Z) : state :=
  if c_robust g then set_task (set_item s it Freed) t TIdle else set_task s t (TLink it (below 8)).
(** The bytes of the poison value over an item. *)
Definition poison_bytes (p : Z -> Z) : list Z := map p (below (c_len g)).

(** One step of storing [bs] to the item on every CPU where it differs:
    src/rseq-mempool.c:270-323, 326-363. Left: in progress; right: done. *)
Definition fill_step (s : state) (it : Z) (bs : list Z) (ph : phase) (k : Z) : option (state * option phase) :=
  let n := Z.of_nat (length bs) in
  let x := it * c_len g + k in
  let next cpu := if cpu + 1 <? c_cpus g then Some (PCmp (cpu + 1) (below n)) else None in
  match ph with
  | PFile [] => Some (s, if 0 <? c_cpus g then Some (PCmp 0 (below n)) else None)
  | PFile todo => if has k todo then Some (set_file s (upd (s_file s) x (nth (Z.to_nat k) bs 0)), Some (PFile (drop k todo))) else None
  | PCmp cpu [] => Some (s, next cpu)
  | PCmp cpu todo =>
    if has k todo then
      match load s cpu x with
      | Some b => Some (s, Some (if b =? nth (Z.to_nat k) bs 0 then PCmp cpu (drop k todo) else PCopy cpu (below n)))
      | None => None
      end
    else None
  | PCopy cpu [] => Some (s, next cpu)
  | PCopy cpu todo =>
    if has k todo then
      match store s cpu x (nth (Z.to_nat k) bs 0) with Some s' => Some (s', Some (PCopy cpu (drop k todo))) | None => None end
    else None
  end.

(** One step of a call. *)
Definition call_step (s : state) (t k b : Z) : option (state * event) :=
  match s_task s t with
  | TIdle | TDead => None
  | TCheck it c cpu [] => (* src/rseq-mempool.c:396-402 *)
    if cpu + 1 <? c_cpus g then Some (set_task s t (TCheck it c (cpu + 1) (below (c_len g))), ETau) else begin_fill s t it c
  | TCheck it c cpu todo =>
    if has k todo then
      match load s cpu (it * c_len g + k), c_poison g with
      | Some v, Some p =>
        if v =? p k then Some (set_task s t (TCheck it c cpu (drop k todo)), ETau) else Some (set_task s t TDead, EAbort t)
      | _, _ => None
      end
    else None
  | TFill it bs ph =>
    match fill_step s it bs ph k with
    | Some (s', Some ph') => Some (set_task s' t (TFill it bs ph'), ETau)
    | Some (s', None) => returns s' t it (Some bs)
    | None => None
    end
  | TPoison it bs ph =>
    match fill_step s it bs ph k with
    | Some (s', Some ph') => Some (set_task s' t (TPoison it bs ph'), ETau)
    | Some (s', None) => Some (begin_link s' t it, ETau)
    | None => None
    end
  | TLink it [] => Some (set_task (set_item s it Freed) t TIdle, ETau)
  | TLink it todo =>
    if has k todo then
      let x := it * c_len g + k in
      if c_init g then Some (set_task (set_file s (upd (s_file s) x b)) t (TLink it (drop k todo)), ETau)
      else match store s 0 x b with Some s' => Some (set_task s' t (TLink it (drop k todo)), ETau) | None => None end
    else None
  end.

Definition idle (s : state) (t : Z) : bool := match s_task s t with TIdle => true | _ => false end.
Definition live (s : state) (it : Z) : bool := match s_item s it with Live => true | _ => false end.
(** The bytes of a page. *)
Definition page_bytes (p : Z) : list Z := zseq (Z.to_nat (c_page g)) (p * c_page g).

Definition step (s : state) (a : action) : option (state * event) :=
  match a with
  | AMalloc t it c => (* src/rseq-mempool.c:1053-1120 *)
    if idle s t && (0 <=? it) && (it <? c_items g) &&
       (match c with Some bs => Z.of_nat (length bs) <=? c_len g | None => true end) then
      let s' := set_item s it Busy in
      match s_item s it with
      | Fresh => begin_fill s' t it c
      | Freed => if c_robust g then Some (set_task s' t (TCheck it c (if c_init g then -1 else 0) (below (c_len g))), ETau)
                 else begin_fill s' t it c
      | _ => None
      end
    else None
  | AFree t it => (* src/rseq-mempool.c:1163-1187; the program frees its own items *)
    if idle s t && live s it then
      let s' := set_item s it Busy in
      match c_poison g with
      | Some p => Some (set_task s' t (TPoison it (poison_bytes p) (first_phase (c_len g))), EFree t it)
      | None => Some (begin_link s' t it, EFree t it)
      end
    else None
  | AStore t cpu x b => (* the program writes its own items *)
    if idle s t && cpu_ok cpu && live s (item x) then
      match store s cpu x b with Some s' => Some (s', EStore t cpu x b) | None => None end
    else None
  | ALoad t cpu x =>
    if idle s t && cpu_ok cpu && live s (item x) then
      match load s cpu x with Some b => Some (s, ELoad t cpu x b) | None => None end
    else None
  | AStep t k b => call_step s t k b
  | KStart cpu p => (* a write fault *)
    match s_page s cpu p with Shared => Some (set_page s cpu p (Copying (fun _ => None)), ETau) | _ => None end
  | KByte cpu x =>
    match s_page s cpu (pg x) with
    | Copying snap =>
      match snap x with
      | None => Some (set_page s cpu (pg x) (Copying (upd snap x (Some (s_file s x)))), ETau)
      | Some _ => None
      end
    | _ => None
    end
  | KInstall cpu p =>
    match s_page s cpu p with
    | Copying snap =>
      if forallb (fun x => match snap x with Some _ => true | None => false end) (page_bytes p) then
        Some (set_page s cpu p (Private (fun x => match snap x with Some b => b | None => 0 end)), ETau)
      else None
    | _ => None
    end
  end.

(** A new range: no page is written yet; the init area has any content (the file
    of a COW_ZERO pool is the zero page). *)
Definition start (file : Z -> Z) : state :=
  {| s_file := file; s_page := fun _ _ => Shared; s_item := fun _ => Fresh; s_task := fun _ => TIdle |}.

(** Runs, with the events newest first. *)
Inductive run (s0 : state) : list event -> state -> Prop :=
| run_start : run s0 [] s0
| run_step h s a s' ev : run s0 h s -> step s a = Some (s', ev) -> run s0 (ev :: h) s'.
End Model.
