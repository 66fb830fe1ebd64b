(** C55: the exit points recorded for debuggers. *)
From Coq Require Import ZArith List Lia.
From Verif Require Import RseqIR RseqSpec RseqKernel Archs Arch_x86 RseqKeep RseqExits Thm_RseqKeep.
Import ListNotations.
Local Open Scope nat_scope.

(** As documented: an instruction of the section is followed by one of the section,
    by the post-commit or abort address, or by a recorded exit point.  Missing: the
    copies of four architectures ([with_teardown], see the refutation below). *)
Theorem C55_branch_targets_partial : forall g a tw rel md kd P, helper a tw rel md kd = Some P -> with_teardown a kd = false ->
  forall m idx pc rs pc' rs' e rd, cs_start P <= pc < cs_commit P -> istep g P m idx pc rs = Some (pc', rs', e, rd) ->
  cs_start P <= pc' < cs_commit P \/ pc' = cs_commit P \/ pc' = cs_abort P \/ In pc' (cs_exits P).
Proof.
  intros g a tw rel md kd P H Ht m idx pc rs pc' rs' e rd Hi Hs.
  destruct (branches g a tw rel md kd P H Ht m idx pc rs pc' rs' e rd Hi Hs) as [K|[K|[K|K]]]; auto.
Qed.
Print Assumptions C55_branch_targets_partial.

(** For all helpers: a thread that is in the section does not get out of the helper
    without meeting the post-commit or abort address or a recorded exit point. *)
Theorem C55_stepping_over : forall g a tw rel md kd P, helper a tw rel md kd = Some P -> forall pc rs, inside P pc ->
  forall pc' rs', unseen g P (known_exits P) pc rs pc' rs' -> exit_at P pc' = None.
Proof. exact stopped. Qed.
Print Assumptions C55_stepping_over.

(** The helper returns 1, or reports a bug, at recorded exit points only ... *)
Theorem C55_failures_recorded : forall g a tw rel md kd P, helper a tw rel md kd = Some P -> forall rs0 pc rs,
  run_of g P rs0 pc rs -> exit_at P pc = Some XNe \/ exit_at P pc = Some XBug -> In pc (cs_exits P).
Proof. exact failures_recorded. Qed.
Print Assumptions C55_failures_recorded.

(** ... and these are the only recorded ones. *)
Theorem C55_recorded_are_failures : forall a tw rel md kd P, helper a tw rel md kd = Some P -> forall d, In d (cs_exits P) ->
  ~ inside P d /\ (exit_at P d = Some XNe \/ exit_at P d = Some XBug).
Proof. exact recorded_fail. Qed.
Print Assumptions C55_recorded_are_failures.

(** The x86-64 copy when the comparison fails: three moves and the store of the
    descriptor, the CPU number and the comparison, then the teardown and the exit. *)
Definition cx : program := x64_memcpy false false CPU_ID.
Definition ones : mem := fun _ => 1%Z.
Definition at_branch : nat * regs := match follow g64 cx ones 3 7 0 operands with Some x => x | None => (O, operands) end.
Definition at_result : nat * regs := match follow g64 cx ones 3 12 0 operands with Some x => x | None => (O, operands) end.
Example C55_case : run_of g64 cx operands (fst at_result) (snd at_result) /\ exit_at cx (fst at_result) = Some XNe /\
  inside cx (fst at_branch) /\ cs_exits cx = [fst at_result] /\
  length (cs_exits (x64_memcpy true false CPU_ID)) = 3 /\ with_teardown ARM KMemcpy = false.
Proof.
  split.
  - apply (follow_run g64 cx ones 3%Z operands 12 0 operands); [apply run_start|reflexivity].
  - vm_compute. repeat split; try reflexivity; lia.
Qed.

(** This branch out of the section goes to an instruction that is not recorded. *)
Theorem C55_copy_teardown_refuted : exists g a tw rel md P rs0 pc rs m idx pc' rs' e rd,
  helper a tw rel md KMemcpy = Some P /\ run_of g P rs0 pc rs /\ cs_start P <= pc < cs_commit P /\
  istep g P m idx pc rs = Some (pc', rs', e, rd) /\
  ~ (cs_start P <= pc' < cs_commit P \/ pc' = cs_commit P \/ pc' = cs_abort P \/ In pc' (cs_exits P)).
Proof.
  destruct (istep g64 cx ones 3 (fst at_branch) (snd at_branch)) as [[[[pc' rs'] e] rd]|] eqn:E; [|discriminate E].
  exists g64, X86_64, false, false, CPU_ID, cx, operands, (fst at_branch), (snd at_branch), ones, 3%Z, pc', rs', e, rd.
  split; [reflexivity|]. split; [apply (follow_run g64 cx ones 3%Z operands 7 0 operands); [apply run_start|reflexivity]|].
  split; [vm_compute; lia|]. split; [exact E|]. vm_compute in E. injection E as <- <- <- <-. vm_compute. lia.
Qed.
Print Assumptions C55_copy_teardown_refuted.
