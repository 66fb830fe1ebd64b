(** Store ordering: the helpers on CPUs whose stores do not reach the other CPUs
    in program order.  Definitions only.

    Every CPU has its own copy of the memory.  A store goes to the log of the CPU
    and to its own copy at once; it reaches the copy of each other CPU at some
    later moment, different for each of them (so the machine need not be
    multi-copy atomic).  What may overtake what depends on the architecture:
    - x86 and s390 keep all stores in order;
    - elsewhere, a store does not overtake earlier ones if a barrier lies between
      them, if it is a store-release instruction, or if they write a common byte.

    Simplifications, all of which only add behaviours, except the last:
    - a load of a helper, or of the index field, may return anything;
    - several threads may run on a CPU at the same time;
    - stores of different CPUs to one location may reach two CPUs in different
      orders;
    - the scheduler does not issue barriers;
    - a thread makes plain stores only while it is in no helper (signal handlers
      are not part of this model). *)
From Coq Require Import ZArith Bool List.
From Verif Require Import RseqIR RseqSpec RseqKernel Archs.
Import ListNotations.
Local Open Scope Z_scope.

(** Architectures whose CPUs make stores visible in program order
    (include/rseq/arch/x86.h:42-46 says so; there and in
    include/rseq/arch/s390.h:52-57 rseq_smp_store_release() is a compiler barrier
    and a store.  On the others it uses a barrier or a store-release instruction.) *)
Definition tso (a : arch) : bool := match a with X86_64 | I386 | S390 => true | _ => false end.

(** Entries of the log of a CPU: barriers and stores.  [own]: which call made the
    store, [None] for plain stores of the program; [fin]: it is the store that ends
    the critical section of that call; [rel]: store-release instruction. *)
Inductive wev := WF | WS (own : option nat) (fin rel : bool) (ps : list (Z * Z)).

(** A thread: its CPU, and the call it executes, with the number of that call. *)
Record wthread := { w_cpu : nat; w_act : option (nat * frame) }.

(** [w_vis j]: the stores in the copy of CPU [j], in the order in which they got
    there; [(i, n)] is entry [n] of the log of CPU [i]. *)
Record wstate := {
  w_log : nat -> list wev;
  w_vis : nat -> list (nat * nat);
  w_thr : nat -> wthread;
  w_calls : list call }.

Definition wset_thr (s : wstate) (t : nat) (th : wthread) : wstate :=
  {| w_log := w_log s; w_vis := w_vis s;
     w_thr := fun u => if Nat.eqb u t then th else w_thr s u; w_calls := w_calls s |}.
(** Add to the log of a CPU. *)
Definition wpush (s : wstate) (i : nat) (e : wev) : wstate :=
  {| w_log := fun k => if Nat.eqb k i then w_log s i ++ [e] else w_log s k;
     w_vis := w_vis s; w_thr := w_thr s; w_calls := w_calls s |}.
(** Entry [n] of CPU [i] reaches CPU [j]. *)
Definition wshow (s : wstate) (j i n : nat) : wstate :=
  {| w_log := w_log s;
     w_vis := fun k => if Nat.eqb k j then w_vis s j ++ [(i, n)] else w_vis s k;
     w_thr := w_thr s; w_calls := w_calls s |}.
(** A store of CPU [i]. *)
Definition wstore (s : wstate) (i : nat) (e : wev) : wstate :=
  wshow (wpush s i e) i i (length (w_log s i)).

Definition vis_mem (p : nat * nat) (l : list (nat * nat)) : bool :=
  existsb (fun q => Nat.eqb (fst p) (fst q) && Nat.eqb (snd p) (snd q)) l.

(** The bytes of two stores overlap. *)
Definition overlap (ps qs : list (Z * Z)) : bool :=
  existsb (fun p => existsb (fun q => fst p =? fst q) qs) ps.
Definition is_fence (e : wev) : bool := match e with WF => true | _ => false end.
(** In the log [l], entry [n] may not overtake the earlier store [n']. *)
Definition ordered (a : arch) (l : list wev) (n' n : nat) : bool :=
  match nth_error l n', nth_error l n with
  | Some (WS _ _ _ ps'), Some (WS _ _ rel ps) =>
      tso a || rel || existsb is_fence (firstn (n - n') (skipn n' l)) || overlap ps' ps
  | _, _ => false
  end.
(** Entry [n] of CPU [i] may now reach CPU [j]. *)
Definition may_show (a : arch) (s : wstate) (j i n : nat) : bool :=
  match nth_error (w_log s i) n with
  | Some (WS _ _ _ _) =>
      negb (vis_mem (i, n) (w_vis s j)) &&
      forallb (fun n' => negb (ordered a (w_log s i) n' n) || vis_mem (i, n') (w_vis s j)) (seq 0 n)
  | _ => false
  end.

Inductive wact :=
  | ACall (t : nat) (c : call) (junk : regs)    (* call a helper *)
  | AInstr (t : nat) (m : mem) (idx : Z)        (* one instruction; loads find [m] and [idx] *)
  | AAbort (t : nat)                            (* interrupted in the critical section *)
  | AMove (t cpu : nat)                         (* migrated elsewhere in the code *)
  | APlain (t : nat) (rel : bool) (ps : list (Z * Z))  (* plain store, or store-release *)
  | AFence (t : nat)                            (* barrier in the program *)
  | AShow (j i n : nat).                        (* a store reaches a CPU *)

(** The call in progress after an instruction. *)
Definition wgo (th : wthread) (k : nat) (f : frame) (pc : nat) (rs : regs) : wthread :=
  {| w_cpu := w_cpu th; w_act := Some (k, {| f_call := f_call f; f_pc := pc; f_rs := rs |}) |}.

(** One step; [None]: not possible.  The helpers are those of part I (Arch_*.v),
    one instruction at a time. *)
Definition wstep (a : arch) (g : cfg) (tx : text) (s : wstate) (x : wact) : option wstate :=
  match x with
  | ACall t c junk =>
      match w_act (w_thr s t) with
      | Some _ => None
      | None =>
        let s' := wset_thr s t {| w_cpu := w_cpu (w_thr s t);
          w_act := Some (length (w_calls s), {| f_call := c; f_pc := 0; f_rs := init_regs c junk |}) |} in
        match tx (c_code c) with
        | Some _ => Some {| w_log := w_log s'; w_vis := w_vis s'; w_thr := w_thr s'; w_calls := w_calls s ++ [c] |}
        | None => None
        end
      end
  | AInstr t m idx =>
      let th := w_thr s t in
      match w_act th with
      | None => None
      | Some (k, f) =>
        match tx (c_code (f_call f)) with
        | None => None
        | Some (P, _) =>
          match istep g P m idx (f_pc f) (f_rs f) with
          | None => None
          | Some (pc', rs', EWr ps, _) =>
              let rel := match nth_error (code P) (f_pc f) with Some (ISt rel _ _) => rel | _ => false end in
              Some (wset_thr (wstore s (w_cpu th) (WS (Some k) (Nat.eqb pc' (cs_commit P)) rel ps)) t (wgo th k f pc' rs'))
          | Some (_, _, EExit _, _) => Some (wset_thr s t {| w_cpu := w_cpu th; w_act := None |})
          | Some (pc', rs', _, _) =>
              let s' := match nth_error (code P) (f_pc f) with Some IFence => wpush s (w_cpu th) WF | _ => s end in
              Some (wset_thr s' t (wgo th k f pc' rs'))
          end
        end
      end
  | AAbort t =>
      let th := w_thr s t in
      match w_act th with
      | None => None
      | Some (k, f) =>
        match tx (c_code (f_call f)) with
        | None => None
        | Some (P, _) => if in_cs P (f_pc f) then Some (wset_thr s t (wgo th k f (cs_abort P) (f_rs f))) else None
        end
      end
  | AMove t cpu =>
      let th := w_thr s t in
      let s' := wset_thr s t {| w_cpu := cpu; w_act := w_act th |} in
      match w_act th with
      | None => Some s'
      | Some (k, f) =>
        match tx (c_code (f_call f)) with
        | None => None
        | Some (P, _) => if in_cs P (f_pc f) then None else Some s'
        end
      end
  | APlain t rel ps =>
      match w_act (w_thr s t) with
      | Some _ => None
      | None => Some (wstore s (w_cpu (w_thr s t)) (WS None false rel ps))
      end
  | AFence t =>
      match w_act (w_thr s t) with
      | Some _ => None
      | None => Some (wpush s (w_cpu (w_thr s t)) WF)
      end
  | AShow j i n => if may_show a s j i n then Some (wshow s j i n) else None
  end.

Fixpoint wrun (a : arch) (g : cfg) (tx : text) (s : wstate) (xs : list wact) : option wstate :=
  match xs with
  | [] => Some s
  | x :: xs => match wstep a g tx s x with Some s' => wrun a g tx s' xs | None => None end
  end.

(** Thread [t] is on CPU [cpus t]; nothing was stored yet. *)
Definition wstart (cpus : nat -> nat) : wstate :=
  {| w_log := fun _ => []; w_vis := fun _ => [];
     w_thr := fun t => {| w_cpu := cpus t; w_act := None |}; w_calls := [] |}.

(** What CPU [j] finds in its copy, [m0] being the memory at the start. *)
Definition ev_bytes (e : option wev) : list (Z * Z) := match e with Some (WS _ _ _ ps) => ps | _ => [] end.
Definition copy_of (m0 : mem) (s : wstate) (j : nat) : mem :=
  fold_left (fun m p => wr m (ev_bytes (nth_error (w_log s (fst p)) (snd p)))) (w_vis s j) m0.
