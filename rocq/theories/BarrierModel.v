(** The threads of the membarrier test, tests/param_test.c:1418-1627, as a client
    of the helpers.  Definitions only. *)
From Coq Require Import ZArith Bool List.
From Verif Require Import RseqIR RseqSpec RseqKernel BarrierSpec.
Import ListNotations.
Local Open Scope Z_scope.

(** Worker (1418-1453): [Wread n]: [n] iterations to go, about to read the
    current cpu number or mm_cid; [Wcall n cpu]: about to call the helper, or
    in it.  Manager (1507-1627): [Mgr b]: about to make list_a ([b] = true) or
    list_b active; its reads of the counters have no effect on the others.
    Which CPU the membarrier that follows each switch is for, and when it takes
    place, is not part of the client: see [membarrier]. *)
Inductive mb_loc := Wread (n : nat) | Wcall (n : nat) (cpu : Z) | Mgr (a : bool).

(** [la], [lb]: list_a and list_b.  Simplification: get_current_cpu_id()
    (326-330, 351-355) may give any number in range, right or wrong, which the
    helper then checks. *)
Definition mb_client (g : cfg) (md : imode) (L : layout) (la lb : Z) : client mb_loc :=
  {| cl_call := fun l _ c => exists n cpu code, l = Wcall (S n) cpu /\ 0 <= cpu < ncpus L /\
       c = {| c_code := code; c_op := AddLoadLoadAddStore (ptr L) (field L cpu) 1; c_cpu := cpu; c_mode := md |};
     cl_ret := fun l _ r => match l with
       | Wcall (S n) _ => if r =? 0 then Wread n else Wread (S n)
       | l => l end;
     cl_write := fun l _ ps l' => exists a, l = Mgr a /\ ps = stw g (ptr L) (if a then la else lb) /\ l' = Mgr (negb a);
     cl_tau := fun l _ l' => exists n cpu, l = Wread (S n) /\ 0 <= cpu < ncpus L /\ l' = Wcall (S n) cpu;
     cl_sig := fun _ l' => l' = Wread 0;
     cl_done := fun l => l = Wread 0 |}.
