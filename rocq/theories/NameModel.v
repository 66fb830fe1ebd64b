(** Names of pools and of the files behind their memory.  Executable definitions only,
    no proofs.

    - Blocks of memory are lists of bytes; reading or writing outside a block, or in one
      that has been freed, is [Undef].
    - Simplified: of a range only the file is modelled, and whether the rest of its
      creation succeeds is an answer of the system (PoolModel.v has the rest). *)
From Coq Require Import ZArith Bool List.
From Verif Require Import UtilsModel RseqIR PoolVM.
Import ListNotations.
Local Open Scope Z_scope.

Definition str := list Z.
Definition heap := Z -> option (list Z).
Definition set_block (h : heap) (p : Z) (b : option (list Z)) : heap := fun q => if q =? p then b else h q.

(** A C string: the bytes up to the first zero byte, which must be there. *)
Fixpoint scan (b : list Z) : res str :=
  match b with
  | [] => Undef
  | c :: b => if c =? 0 then Ok [] else do s <- scan b; Ok (c :: s)
  end.
Definition c_string (h : heap) (p : Z) : res str := match h p with Some b => scan b | None => Undef end.

(** snprintf(buf, size, ...) with the text [s]: at most size - 1 bytes and a zero byte. *)
Definition put (buf : list Z) (i : nat) (c : Z) : res (list Z) :=
  if (i <? length buf)%nat then Ok (firstn i buf ++ c :: skipn (S i) buf) else Undef.
Fixpoint print (size : nat) (buf : list Z) (i : nat) (s : str) : res (list Z * nat) :=
  match s with
  | [] => Ok (buf, i)
  | c :: s => if (S i <? size)%nat then do buf <- put buf i c; print size buf (S i) s else Ok (buf, i)
  end.
Definition snprintf (size : nat) (buf : list Z) (s : str) : res (list Z) :=
  do x <- print size buf 0 s;
  let '(buf, i) := x in if (size =? 0)%nat then Ok buf else put buf i 0.

(** "<anonymous>" and ":rseq-mempool" *)
Definition anonymous : str := [60; 97; 110; 111; 110; 121; 109; 111; 117; 115; 62].
Definition suffix : str := [58; 114; 115; 101; 113; 45; 109; 101; 109; 112; 111; 111; 108].

(** src/rseq-mempool.c:702-713  rseq_memfd_create_init: the name passed to memfd_create,
    as the kernel reads it.  [junk]: what is in buf before. *)
Definition memfd_name (h : heap) (poolname : Z) (junk : list Z) : res str :=
  if poolname =? 0 then Ok (anonymous ++ suffix)                     (* 711-712 *)
  else
    do s <- c_string h poolname;
    do buf <- snprintf 249 junk (s ++ suffix);                       (* 705, 709 *)
    scan buf.

(** struct rseq_mempool, 145-176: whether the pool has initial values; pool->name. *)
Record npool := { p_cow : bool; p_name : Z }.
(** What can be observed: a pool is created, with which name; it is destroyed; a file is
    made for it, with which name; a message about it shows a name. *)
Inductive event := ECreate (id : Z) (name : option str) | EDestroy (id : Z) | EFile (id : Z) (name : str) | EReport (id : Z) (name : str).
(** [n_own]: the blocks of the program.  [n_log]: newest first. *)
Record nstate := { n_heap : heap; n_own : list Z; n_pools : list (Z * npool); n_log : list event }.
Definition find_npool (id : Z) (l : list (Z * npool)) : option npool :=
  match find (fun p => fst p =? id) l with Some p => Some (snd p) | None => None end.
Definition log_event (st : nstate) (ev : event) : nstate :=
  {| n_heap := n_heap st; n_own := n_own st; n_pools := n_pools st; n_log := ev :: n_log st |}.

(** [a_junk]: the buffer before; [a_range]: the range is created; [a_dup]: what strdup
    returns. *)
Record nanswers := { a_junk : list Z; a_range : bool; a_dup : Z }.
(** 740-862  rseq_mempool_range_create, of which 773-779 *)
Definition create_range (id : Z) (P : npool) (a : nanswers) (st : nstate) : res (bool * nstate) :=
  if p_cow P then
    do n <- memfd_name (n_heap st) (p_name P) (a_junk a);
    Ok (a_range a, log_event st (EFile id n))
  else Ok (a_range a, st).

Inductive nop :=
| NCreate (id name : Z) (cow : bool) (a : nanswers) | NRange (id : Z) (a : nanswers) | NReport (id : Z) | NDestroy (id : Z)
| NAlloc (p : Z) (b : list Z) | NStore (p : Z) (i : nat) (c : Z) | NFree (p : Z).

Definition nrun1 (o : nop) (st : nstate) : res nstate :=
  match o with
  | NCreate id name cow a =>                                         (* 926-1027 *)
    do x <- create_range id {| p_cow := cow; p_name := 0 |} a st;    (* 1000, 1010: calloc, name is NULL *)
    let '(ok, st) := x in
    if negb ok then Ok st                                            (* 1022-1026 *)
    else if name =? 0 then
      Ok {| n_heap := n_heap st; n_own := n_own st; n_pools := (id, {| p_cow := cow; p_name := 0 |}) :: n_pools st;
            n_log := ECreate id None :: n_log st |}
    else
      do s <- c_string (n_heap st) name;                             (* 1016: strdup *)
      if a_dup a =? 0 then Ok st
      else Ok {| n_heap := set_block (n_heap st) (a_dup a) (Some (s ++ [0])); n_own := n_own st;
                 n_pools := (id, {| p_cow := cow; p_name := a_dup a |}) :: n_pools st; n_log := ECreate id (Some s) :: n_log st |}
  | NRange id a =>                                                   (* 1094: a full pool grows *)
    match find_npool id (n_pools st) with
    | None => Undef
    | Some P => do x <- create_range id P a st; Ok (snd x)
    end
  | NReport id =>                                                    (* 190-193 get_pool_name *)
    match find_npool id (n_pools st) with
    | None => Undef
    | Some P =>
      if p_name P =? 0 then Ok (log_event st (EReport id anonymous))
      else do s <- c_string (n_heap st) (p_name P); Ok (log_event st (EReport id s))
    end
  | NDestroy id =>                                                   (* 920: free(pool->name) *)
    match find_npool id (n_pools st) with
    | None => Undef
    | Some P =>
      let st' h := {| n_heap := h; n_own := n_own st; n_pools := filter (fun p => negb (fst p =? id)) (n_pools st); n_log := EDestroy id :: n_log st |} in
      if p_name P =? 0 then Ok (st' (n_heap st))
      else match n_heap st (p_name P) with None => Undef | Some _ => Ok (st' (set_block (n_heap st) (p_name P) None)) end
    end
  | NAlloc p b => Ok {| n_heap := set_block (n_heap st) p (Some b); n_own := p :: n_own st; n_pools := n_pools st; n_log := n_log st |}
  | NStore p i c =>
    match n_heap st p with
    | None => Undef
    | Some b => do b <- put b i c; Ok {| n_heap := set_block (n_heap st) p (Some b); n_own := n_own st; n_pools := n_pools st; n_log := n_log st |}
    end
  | NFree p => Ok {| n_heap := set_block (n_heap st) p None; n_own := filter (fun q => negb (q =? p)) (n_own st); n_pools := n_pools st; n_log := n_log st |}
  end.

(** What a program may do: name a pool with a terminated string of its own or NULL, use
    pools it has, and write and free its own blocks.  The allocator returns memory that
    is not in use. *)
Definition fresh (st : nstate) (p : Z) : Prop := p <> 0 /\ n_heap st p = None.
Definition nallowed (st : nstate) (o : nop) : Prop :=
  match o with
  | NCreate id name _ a => find_npool id (n_pools st) = None /\ length (a_junk a) = 249%nat /\ (a_dup a = 0 \/ fresh st (a_dup a)) /\
      (name = 0 \/ In name (n_own st) /\ exists b, n_heap st name = Some b /\ In 0 b)
  | NRange id a => find_npool id (n_pools st) <> None /\ length (a_junk a) = 249%nat
  | NReport id | NDestroy id => find_npool id (n_pools st) <> None
  | NAlloc p _ => fresh st p
  | NStore p i _ => In p (n_own st) /\ exists b, n_heap st p = Some b /\ (i < length b)%nat
  | NFree p => In p (n_own st)
  end.
Definition nstart : nstate := {| n_heap := fun _ => None; n_own := []; n_pools := []; n_log := [] |}.
Inductive nreach : nstate -> Prop :=
| nreach_start : nreach nstart
| nreach_step st o st' : nreach st -> nallowed st o -> nrun1 o st = Ok st' -> nreach st'.
