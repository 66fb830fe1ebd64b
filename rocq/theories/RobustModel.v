(** The library's tests of robust pools (tests/mempool_test.c:139-236), each of which
    misuses a pool once, as programs on the pool model.  run_robust_test (279-310) runs
    each in a child and wants it to end with abort(): the outcome [Abort]. *)
From Coq Require Import ZArith Bool List.
From Verif Require Import RseqIR PoolVM PoolModel PoolWorld TestModel.
Import ListNotations.
Local Open Scope Z_scope.

Section Robust.
Variable e : env.
Variable id : Z.                 (* the pool *)
Variable s : Z.                  (* RSEQ_MEMPOOL_STRIDE, 258 *)
Variable nc : Z.                 (* rseq_mempool_get_max_nr_cpus *)
Variable policy : Z.             (* the parameter of the tests *)

(** rseq_mempool_percpu_malloc.  The tests use the pointer without a look: NULL is
    [Undef]. *)
Definition malloc (w : world) (an : answers) : res (world * Z) :=
  do x <- run1 e (OMalloc id an) w;
  match x with
  | (w, OutItem ptr) => Ok (w, ptr)
  | _ => Undef
  end.
Definition free (w : world) (ptr : Z) : res world := do x <- run1 e (OFree ptr s) w; Ok (fst x).
Definition destroy (w : world) (an : answers) : res world := do x <- run1 e (ODestroy id an) w; Ok (fst x).

(** 139-148 *)
Definition test_robust_double_free (an : answers) (w : world) : res world :=
  do x <- malloc w an; let '(w, ptr) := x in
  do w <- free w ptr;
  free w ptr.

(** 162-165, 193-196: where the program believes the free list to be *)
Definition links_ptr (ptr : Z) : Z := if policy =? COW_ZERO then pptr s ptr nc else pptr s ptr (nc + 1).

(** 150-171.  [fn]: the address of the test function. *)
Definition test_robust_corrupt_after_free (fn : Z) (an an' : answers) (w : world) : res world :=
  do x <- malloc w an; let '(w, ptr) := x in
  let cpuptr := links_ptr ptr in
  do w <- free w ptr;
  do w <- st e w (cpuptr + VALUE0) fn;
  destroy w an'.

(** 173-179 *)
Definition test_robust_memory_leak (an an' : answers) (w : world) : res world :=
  do x <- malloc w an;
  destroy (fst x) an'.

(** 181-204: the last two results are not used. *)
Definition test_robust_free_list_corruption (an an1 an2 : answers) (w : world) : res world :=
  do x <- malloc w an; let '(w, ptr) := x in
  let cpuptr := links_ptr ptr in
  do w <- free w ptr;
  do w <- st e w (cpuptr + VALUE0) cpuptr;
  do x <- run1 e (OMalloc id an1) w;
  do x <- run1 e (OMalloc id an2) (fst x);
  Ok (fst x).

(** 206-220.  [x]: 1 *)
Definition test_robust_poison_corruption_malloc (x : Z) (an an1 : answers) (w : world) : res world :=
  do y <- malloc w an; let '(w, ptr) := y in
  let cpuptr := pptr s ptr 0 in
  do w <- free w ptr;
  do w <- st e w (cpuptr + VALUE0) x;
  do y <- run1 e (OMalloc id an1) w;
  Ok (fst y).

(** 222-236.  [x]: 1 *)
Definition test_robust_poison_corruption_destroy (x : Z) (an an' : answers) (w : world) : res world :=
  do y <- malloc w an; let '(w, ptr) := y in
  let cpuptr := pptr s ptr 0 in
  do w <- free w ptr;
  do w <- st e w (cpuptr + VALUE0) x;
  destroy w an'.

(** 249-268: the attributes of the test pool, percpu for one CPU *)
Definition test_attr : attr :=
  {| init_set := false; robust_set := true; type := TYPE_PERCPU; stride := RSEQ_MEMPOOL_STRIDE; max_nr_cpus := 1;
     max_nr_ranges := max_nr_ranges attr0; poison_set := false; poison := 0; populate_policy := policy |}.

(** 238-277.  The attribute object is always there: without it the test fails like it
    does when the pool is refused.  [None]: NULL. *)
Definition make_test_pool (an : answers) (w : world) : res (option world) :=
  do x <- run1 e (OCreate id true (TEST_DATA_SIZE e) (Some test_attr) an) w;
  Ok (match snd x with OutMade => Some (fst x) | _ => None end).

(** 279-310, with a fork() that works; [w] is the child's world.  1: the child ended by
    abort(). *)
Definition run_robust_test (test : world -> res world) (an : answers) (w : world) : res Z :=
  match make_test_pool an w with
  | Ok (Some w) =>
    match test w with
    | Abort => Ok 1
    | Ok _ => Ok 0                                            (* _exit(EXIT_FAILURE), 301 *)
    | Undef => Undef
    end
  | Ok None => Ok 0                                           (* 298-299 *)
  | Abort => Ok 1
  | Undef => Undef
  end.

(** 334-370: fork_child and run_fork_destroy_pool_test, with a fork() that works.  1: the
    child was not ended by a signal. *)
Definition run_fork_destroy_pool_test (an an' : answers) (w : world) : res Z :=
  do x <- make_test_pool an w;
  match x with
  | None => Ok 0                                              (* _exit(EXIT_FAILURE) *)
  | Some w =>
    match destroy {| w_vm := fork e (w_vm w); w_pools := w_pools w |} an' with
    | Ok _ => Ok 1
    | Abort => Ok 0
    | Undef => Undef
    end
  end.
End Robust.
