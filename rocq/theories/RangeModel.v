(** The ranges of pools as they are linked in memory.  Executable definitions only.

    The description of a range, with its links, lies in the header page of the range's own
    mapping (src/rseq-mempool.c:104-131, 767), the head of the list in the pool
    (145-146).  [live]: the memory of a link pair can be accessed; access to any other is
    [Undef].  The functions of src/list.h are those of ListModel.v, access by access.
    Simplified: of a range only its links, of a pool only the head. *)
From Coq Require Import ZArith Bool List.
From Verif Require Import UtilsModel RseqIR PoolVM ListModel.
Import ListNotations.
Local Open Scope Z_scope.

Definition ldn (live : Z -> bool) (h : lheap) (p : Z) : res Z := if live p then Ok (next h p) else Undef.
Definition ldp (live : Z -> bool) (h : lheap) (p : Z) : res Z := if live p then Ok (prev h p) else Undef.
Definition stn (live : Z -> bool) (h : lheap) (p v : Z) : res lheap := if live p then Ok (set_next h p v) else Undef.
Definition stp (live : Z -> bool) (h : lheap) (p v : Z) : res lheap := if live p then Ok (set_prev h p v) else Undef.

(** src/list.h:45-46 INIT_LIST_HEAD *)
Definition c_init (live : Z -> bool) (h : lheap) (p : Z) : res lheap := do h <- stp live h p p; stn live h p p.
(** src/list.h:52-58 list_add *)
Definition c_add (live : Z -> bool) (h : lheap) (newp head : Z) : res lheap :=
  do n <- ldn live h head; do h <- stp live h n newp;
  do n <- ldn live h head; do h <- stn live h newp n;
  do h <- stp live h newp head;
  stn live h head newp.
(** src/list.h:72-83 list_del, __list_del *)
Definition c_del (live : Z -> bool) (h : lheap) (e : Z) : res lheap :=
  do p <- ldp live h e; do n <- ldn live h e;
  do h <- stp live h n p; stn live h p n.

(** src/list.h:156-159 list_for_each_entry, as in src/rseq-mempool.c:494, 512, 571. *)
Fixpoint c_walk (fuel : nat) (live : Z -> bool) (h : lheap) (head pos : Z) : res (list Z) :=
  match fuel with
  | O => Undef
  | S fuel => if pos =? head then Ok [] else do n <- ldn live h pos; do l <- c_walk fuel live h head n; Ok (pos :: l)
  end.

(** Observed: a range is mapped for the pool, or unmapped; a walk over the ranges of the
    pool visits these, in this order; the pool finds this range first, or none; the pool
    is freed. *)
Inductive revent := RMap (head r : Z) | RUnmap (head r : Z) | RWalk (head : Z) (l : list Z) | RFirst (head : Z) (r : option Z) | RGone (head : Z).
Definition set_live (live : Z -> bool) (p : Z) (b : bool) : Z -> bool := fun q => if q =? p then b else live q.

(** 911-918: the loop of rseq_mempool_destroy, list_for_each_entry_safe of
    src/list.h:166-170.  [ans]: whether munmap succeeds, call by call (then always).
    Result: memory, what is live, what happened (newest first), whether all are gone. *)
Fixpoint c_destroy (fuel : nat) (ans : list bool) (live : Z -> bool) (h : lheap) (head pos p : Z) (log : list revent) :
    res (lheap * (Z -> bool) * list revent * bool) :=
  match fuel with
  | O => Undef
  | S fuel =>
    if pos =? head then Ok (h, live, log, true)
    else
      do h <- c_del live h pos;                                      (* 912 *)
      if hd true ans then                                            (* 913: munmap, 611 or 613 *)
        let live := set_live live pos false in
        do n <- ldn live h p;
        c_destroy fuel (tl ans) live h head p n (RUnmap head pos :: log)
      else
        do h <- c_add live h pos head;                               (* 915 *)
        Ok (h, live, log, false)
  end.

Record rstate := { r_mem : lheap; r_live : Z -> bool; r_pools : list Z; r_log : list revent }.
Definition with_log (st : rstate) (ev : revent) : rstate :=
  {| r_mem := r_mem st; r_live := r_live st; r_pools := r_pools st; r_log := ev :: r_log st |}.

(** [OOpen]: rseq_mempool_create up to the first range (1000-1009); [OGrow]: a range is
    mapped and added (1010-1013 and 1094-1101); [OWalk]: 490-500, 508-515, 565-573;
    [OFirst]: 873-875 and 1086-1088; [ODestroy]: 888-924; [OOther]: memory that is not the
    library's changes, as when addresses are used again for something else. *)
Inductive rop := OOpen (head : Z) | OGrow (head r : Z) | OWalk (head : Z) | OFirst (head : Z) | ODestroy (head : Z) (ans : list bool) | OOther (h' : lheap).
(** No loop takes more turns than there were mappings; a loop that does is [Undef]. *)
Definition fuel_of (st : rstate) : nat := S (length (r_log st)).
Definition rrun1 (o : rop) (st : rstate) : res rstate :=
  match o with
  | OOpen head =>
    let live := set_live (r_live st) head true in
    do h <- c_init live (r_mem st) head;
    Ok {| r_mem := h; r_live := live; r_pools := head :: r_pools st; r_log := r_log st |}
  | OGrow head r =>
    let live := set_live (r_live st) r true in
    do h <- c_add live (r_mem st) r head;
    Ok {| r_mem := h; r_live := live; r_pools := r_pools st; r_log := RMap head r :: r_log st |}
  | OWalk head =>
    do n <- ldn (r_live st) (r_mem st) head;
    do l <- c_walk (fuel_of st) (r_live st) (r_mem st) head n;
    Ok (with_log st (RWalk head l))
  | OFirst head =>
    do n <- ldn (r_live st) (r_mem st) head;
    Ok (with_log st (RFirst head (if head =? n then None else Some n)))
  | ODestroy head ans =>
    do pos <- ldn (r_live st) (r_mem st) head;
    do p <- ldn (r_live st) (r_mem st) pos;
    do x <- c_destroy (fuel_of st) ans (r_live st) (r_mem st) head pos p (r_log st);
    let '(h, live, log, done) := x in
    if done then                                                     (* 919-921 *)
      Ok {| r_mem := h; r_live := set_live live head false; r_pools := filter (fun q => negb (q =? head)) (r_pools st); r_log := RGone head :: log |}
    else Ok {| r_mem := h; r_live := live; r_pools := r_pools st; r_log := log |}
  | OOther h' => Ok {| r_mem := h'; r_live := r_live st; r_pools := r_pools st; r_log := r_log st |}
  end.

(** calloc and mmap return memory that is not in use; pools are used from their creation
    until they are freed; others do not write to the library's memory. *)
Definition rallowed (st : rstate) (o : rop) : Prop :=
  match o with
  | OOpen head => r_live st head = false
  | OGrow head r => In head (r_pools st) /\ r_live st r = false
  | OWalk head | OFirst head | ODestroy head _ => In head (r_pools st)
  | OOther h' => forall a, r_live st a = true -> next h' a = next (r_mem st) a /\ prev h' a = prev (r_mem st) a
  end.
Definition rstart (h : lheap) : rstate := {| r_mem := h; r_live := fun _ => false; r_pools := []; r_log := [] |}.
Inductive rreach : rstate -> Prop :=
| rreach_start h : rreach (rstart h)
| rreach_step st o st' : rreach st -> rallowed st o -> rrun1 o st = Ok st' -> rreach st'.
