(** What has to be checked of one instruction sequence, independently of the
    scheduler and of the other threads: [good].  Definitions only. *)
From Coq Require Import ZArith Bool List Lia.
From Verif Require Import RseqIR RseqSpec RseqKernel.
Import ListNotations.
Local Open Scope Z_scope.

Definition cpuarg (c : call) : Z := c_cpu c mod 2 ^ 32.

(** First branch of the critical section: the comparison of the index field. *)
Definition is_branch (i : instr) : bool :=
  match i with IJne _ | IJe _ | IBne _ _ _ | IBeq _ _ _ | IJmp _ => true | _ => false end.
Fixpoint first_branch (l : list instr) (pos : nat) : nat :=
  match l with [] => pos | i :: r => if is_branch i then pos else first_branch r (S pos) end.
Definition check_pc (P : program) : nat := first_branch (skipn (cs_start P) (code P)) (cs_start P).

(** Branch target of an instruction. *)
Definition target (i : instr) : option nat :=
  match i with IJne l | IJe l | IJmp l | IBne _ _ l | IBeq _ _ l => Some l | _ => None end.

Definition is_mov (i : instr) : bool := match i with IMov _ _ => true | _ => false end.
Definition is_cs (i : instr) : bool := match i with ICs => true | _ => false end.
Definition goes_ge (k : nat) (i : instr) : bool :=
  match target i with None => true | Some l => Nat.leb k l end.
Definition exit_eqb (a b : exit) : bool :=
  match a, b with XOk, XOk | XNe, XNe | XAbort, XAbort | XBug, XBug => true | _, _ => false end.
Definition is_exit_of (P : program) (pc : nat) (x : exit) : bool :=
  match exit_of P pc with Some y => exit_eqb x y | None => false end.

(** Layout: register moves, then the store to rseq_cs, then the critical
    section; afterwards only register moves, jumps and the C labels. *)
Definition static_ok (P : program) : bool :=
  desc_ok P &&
  Nat.ltb 0 (cs_start P) && Nat.leb (cs_commit P) (cs_abort P) &&
  forallb is_mov (firstn (cs_start P - 1) (code P)) &&
  match nth_error (code P) (cs_start P - 1) with Some ICs => true | _ => false end &&
  forallb (fun i => negb (is_cs i)) (skipn (cs_start P) (code P)) &&
  forallb (goes_ge (cs_start P)) (firstn (cs_commit P) (code P)) &&
  forallb (goes_ge (cs_commit P)) (skipn (cs_commit P) (code P)) &&
  is_exit_of P (cs_commit P) XOk && is_exit_of P (cs_abort P) XAbort.

(** Running the code from its first instruction on a fixed memory, recording
    the bytes read and the writes instead of performing them. *)
Record rst := { r_pc : nat; r_rs : regs; r_rd : list Z; r_w : list (Z * Z) }.
Definition rinit (c : call) (junk : regs) : rst :=
  {| r_pc := 0; r_rs := init_regs c junk; r_rd := []; r_w := [] |}.
Definition eff_wr (e : eff) : list (Z * Z) := match e with EWr ps => ps | _ => [] end.
Definition is_wr (e : eff) : bool := match e with EWr _ => true | _ => false end.
Definition is_exit (e : eff) : bool := match e with EExit _ => true | _ => false end.
Definition rnext (s : rst) (pc' : nat) (rs' : regs) (e : eff) (rd : list Z) : rst :=
  {| r_pc := pc'; r_rs := rs'; r_rd := r_rd s ++ rd; r_w := r_w s ++ eff_wr e |}.

Inductive reach (g : cfg) (P : program) (m : mem) (idx : Z) (s0 : rst) : rst -> Prop :=
  | reach_refl : reach g P m idx s0 s0
  | reach_step : forall s pc' rs' e rd,
      reach g P m idx s0 s -> (r_pc s < cs_commit P)%nat ->
      istep g P m idx (r_pc s) (r_rs s) = Some (pc', rs', e, rd) ->
      (pc' < cs_commit P)%nat -> is_exit e = false ->
      reach g P m idx s0 (rnext s pc' rs' e rd).

(** A write before the last one is part of the attempt writes. *)
Definition wr_ok (g : cfg) (c : call) (m : mem) (e : eff) : Prop :=
  match e with
  | EWr ps => exists att fin, pseudo g (c_op c) m = OCommit att fin /\ incl ps att
  | _ => True
  end.

(** Once the compared word has been read and the comparison fails, nothing more
    is read. *)
Definition fail_fast (g : cfg) (c : call) (m : mem) (rd rd' : list Z) : Prop :=
  one_compare (c_op c) = true -> pseudo g (c_op c) m = OFail -> rd = [] \/ rd' = [].

(** [Safe k s]: from [s], every way of running the rest of the helper on memory
    [m] ends within [k] instructions and agrees with the pseudo-code. *)
Inductive Safe (g : cfg) (P : program) (c : call) (m : mem) (idx : Z) : nat -> rst -> Prop :=
  | Safe_in : forall k s pc' rs' e rd,
      (r_pc s < cs_commit P)%nat ->
      istep g P m idx (r_pc s) (r_rs s) = Some (pc', rs', e, rd) ->
      (pc' < cs_commit P)%nat -> is_exit e = false ->
      (r_pc s <= check_pc P)%nat \/ idx = cpuarg c ->
      (rd = [] /\ is_wr e = false) \/ idx = cpuarg c ->
      incl rd (read_foot g (c_op c) m) ->
      wr_ok g c m e ->
      fail_fast g c m (r_rd s) rd ->
      Safe g P c m idx k (rnext s pc' rs' e rd) ->
      Safe g P c m idx (S k) s
  | Safe_commit : forall k s rs' att fin rd,
      (cs_start P <= r_pc s < cs_commit P)%nat ->
      istep g P m idx (r_pc s) (r_rs s) = Some (cs_commit P, rs', EWr fin, rd) ->
      idx = cpuarg c ->
      incl rd (read_foot g (c_op c) m) ->
      pseudo g (c_op c) m = OCommit att fin ->
      incl att (r_w s) ->
      Safe g P c m idx (S k) s
  | Safe_fail : forall k s pc' rs',
      (cs_start P <= r_pc s < cs_commit P)%nat ->
      istep g P m idx (r_pc s) (r_rs s) = Some (pc', rs', ENone, []) ->
      (cs_commit P <= pc')%nat ->
      exit_of P pc' = Some XNe ->
      idx = cpuarg c ->
      pseudo g (c_op c) m = OFail ->
      Safe g P c m idx (S k) s
  | Safe_abort : forall k s pc' rs',
      (cs_start P <= r_pc s < cs_commit P)%nat ->
      (r_pc s <= check_pc P)%nat ->
      istep g P m idx (r_pc s) (r_rs s) = Some (pc', rs', ENone, []) ->
      (cs_commit P <= pc')%nat ->
      exit_of P pc' = Some XAbort ->
      idx <> cpuarg c ->
      Safe g P c m idx (S k) s.

(** Number of instructions: a constant, plus a constant per copied byte. *)
Definition op_len (op : opcall) : nat :=
  match op with CbneMemcpyStore _ _ _ _ len _ => len | _ => 0 end.
Definition step_bound (op : opcall) : nat := 40 + 8 * op_len op.

Definition good (g : cfg) (P : program) (kd : kind) : Prop :=
  static_ok P = true /\
  forall c m idx junk, kind_of (c_op c) = kd ->
    (idx = cpuarg c -> op_wf g (c_op c) m) ->
    Safe g P c m idx (step_bound (c_op c)) (rinit c junk).

Definition good_text (g : cfg) (tx : text) : Prop :=
  forall id P kd, tx id = Some (P, kd) -> good g P kd.
