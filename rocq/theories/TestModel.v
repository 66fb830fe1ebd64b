(** Model of a program that keeps its own pointers in pool items: test_mempool_fill of
    tests/mempool_test.c:39-134, the library's own test of the pools.  It allocates items
    until there are none left, links them in a list (src/list.h) whose nodes lie in the
    items, walks the list and changes every item on every CPU, frees the items while it
    walks, allocates twice more, and destroys the pool.  Executable definitions only.

    The program reads and writes the memory of the process (PoolVM.v) word by word.  Each
    assignment of src/list.h is a step of its own.  Reading or writing memory that is not
    mapped is [Undef].  The loops take [fuel]; they give [None] when it runs out.
    Simplified: the pool exists already (56-75 create it: C32, C49), and what ok() prints
    is not modelled; the conditions it checks are in the result or stop the run. *)
From Coq Require Import ZArith Bool List.
From Verif Require Import UtilsModel RseqIR PoolVM PoolModel PoolWorld.
Import ListNotations.
Local Open Scope Z_scope.

Section Test.
Variable e : env.
Variable id : Z.                 (* the pool *)
Variable s : Z.                  (* stride, line 40 *)
Variable nc : Z.                 (* CPU_SETSIZE, line 61 *)
Variable head : Z.               (* address of the variable [list], line 47 *)

(** A word is read, or written. *)
Definition ld (w : world) (a : Z) : res Z :=
  if forallb (fun x => mapped (w_vm w) (page e x)) (span a (wsize (wcfg e))) then Ok (load_word e (w_vm w) a) else Undef.
Definition st (w : world) (a x : Z) : res world :=
  do r <- run1 e (OWrite (stw (wcfg e) a x)) w; Ok (fst r).

(** struct test_data, 33-37: two values, the back reference and the list node (its
    fields next and prev), a word each. *)
Definition VALUE0 : Z := 0.
Definition VALUE1 : Z := wsz e.
Definition BACKREF : Z := 2 * wsz e.
Definition NODE : Z := 3 * wsz e.
Definition TEST_DATA_SIZE : Z := 5 * wsz e.
Definition NEXT : Z := 0.
Definition PREV : Z := wsz e.

(** rseq_percpu_ptr, include/rseq/mempool.h:285-288 *)
Definition pptr (ptr cpu : Z) : Z := ptr + s * cpu.

(** src/list.h:45-46, 41-43: LIST_HEAD(list), line 47 *)
Definition m_init (w : world) : res world :=
  do w <- st w (head + NEXT) head;
  st w (head + PREV) head.

(** src/list.h:52-58 *)
Definition m_add (w : world) (newp : Z) : res world :=
  do n <- ld w (head + NEXT);
  do w <- st w (n + PREV) newp;
  do n <- ld w (head + NEXT);
  do w <- st w (newp + NEXT) n;
  do w <- st w (newp + PREV) head;
  st w (head + NEXT) newp.

(** src/list.h:62-68 *)
Definition m_add_tail (w : world) (newp : Z) : res world :=
  do p <- ld w (head + PREV);
  do w <- st w (p + NEXT) newp;
  do w <- st w (newp + NEXT) head;
  do p <- ld w (head + PREV);
  do w <- st w (newp + PREV) p;
  st w (head + PREV) newp.

(** rseq_mempool_percpu_zmalloc and rseq_mempool_percpu_malloc_init: under the mutex,
    then after it (C22). *)
Definition alloc (w : world) (an : answers) (c : content) : res (world * option Z) :=
  do x <- run1 e (OMalloc id an) w;
  match x with
  | (w, OutItem ptr) => do y <- run1 e (OFill id ptr c) w; Ok (fst y, Some ptr)
  | (w, _) => Ok (w, None)
  end.

(** 77-91.  [k]: count.  Gives the count, the state in which the last call was refused,
    and that after it. *)
Fixpoint fill (ans : nat -> answers) (fuel : nat) (k : nat) (w : world) : res (option (nat * world * world)) :=
  match fuel with
  | O => Ok None
  | S fuel =>
    do x <- alloc w (ans k) Zeroed;
    match x with
    | (w', None) => Ok (Some (k, w, w'))
    | (w, Some ptr) =>
      let cpuptr := pptr ptr 0 in
      do w <- st w (cpuptr + BACKREF) ptr;
      do w <- (if Nat.odd k then m_add w (cpuptr + NODE) else m_add_tail w (cpuptr + NODE));
      fill ans fuel (S k) w
    end
  end.

(** 99-105 *)
Fixpoint bump (ptr : Z) (cpus : list Z) (w : world) : res world :=
  match cpus with
  | [] => Ok w
  | i :: cpus =>
    let cpuptr := pptr ptr i in
    do x <- ld w (cpuptr + VALUE0);
    if negb (x =? 0) then Abort
    else do w <- st w (cpuptr + VALUE0) (x + 1); bump ptr cpus w
  end.

(** 97-106: list_for_each_entry, src/list.h:156-159.  [pos]: the node of iter. *)
Fixpoint check (fuel : nat) (pos : Z) (w : world) : res (option world) :=
  match fuel with
  | O => Ok None
  | S fuel =>
    if pos =? head then Ok (Some w)
    else
      do ptr <- ld w (pos - NODE + BACKREF);
      do w <- bump ptr (zseq 0 nc) w;
      do pos <- ld w (pos + NEXT);
      check fuel pos w
  end.

(** 109-112: list_for_each_entry_safe, src/list.h:166-170. *)
Fixpoint free_all (fuel : nat) (pos tmp : Z) (w : world) : res (option world) :=
  match fuel with
  | O => Ok None
  | S fuel =>
    if pos =? head then Ok (Some w)
    else
      do ptr <- ld w (pos - NODE + BACKREF);
      do x <- run1 e (OFree ptr s) w;
      let w := fst x in
      do tmp' <- ld w (tmp + NEXT);
      free_all fuel tmp tmp' w
  end.

(** 48-55: init_value *)
Definition init_value : list Z :=
  flat_map (fun x => order (wcfg e) (le_bytes (wsize (wcfg e)) x)) [123; 456; 0; 0; 0].

(** [t_count]: line 94; [t_refused]: the state at the refused call; [t_end]: the state at
    the end; [t_values]: the check of line 127; [t_ret]: that of line 133. *)
Record result := { t_count : nat; t_refused : world; t_end : world; t_values : bool; t_ret : option Z }.

(** 47, 77-134.  [ans], [an1], [an2], [an3]: what the system answers. *)
Definition test_fill (ans : nat -> answers) (an1 an2 an3 : answers) (fuel : nat) (w : world) : res (option result) :=
  do w <- m_init w;
  do x <- fill ans fuel O w;
  match x with
  | None => Ok None
  | Some (k, wr, w) =>
    do pos <- ld w (head + NEXT);
    do x <- check fuel pos w;
    match x with
    | None => Ok None
    | Some w =>
      do pos <- ld w (head + NEXT);
      do tmp <- ld w (pos + NEXT);
      do x <- free_all fuel pos tmp w;
      match x with
      | None => Ok None
      | Some w =>
        (* 115-121 *)
        do x <- alloc w an1 Zeroed;
        match x with
        | (_, None) => Abort
        | (w, Some ptr) =>
          do x <- run1 e (OFree ptr s) w; let w := fst x in
          (* 123-131 *)
          do x <- alloc w an2 (Bytes init_value);
          match x with
          | (_, None) => Abort
          | (w, Some ptr) =>
            do a <- ld w (ptr + VALUE0);
            do b <- ld w (ptr + VALUE1);
            do x <- run1 e (OFree ptr s) w; let w := fst x in
            do x <- run1 e (ODestroy id an3) w;
            Ok (Some {| t_count := k; t_refused := wr; t_end := fst x; t_values := (a =? 123) && (b =? 456);
                        t_ret := match snd x with OutRet r => Some r | _ => None end |})
          end
        end
      end
    end
  end.
End Test.
