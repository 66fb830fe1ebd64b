(** C50: the operands of a helper survive it. *)
From Coq Require Import ZArith Bool List Lia.
From Verif Require Import RseqIR RseqSpec RseqKernel ArchCommon Arch_x86 Archs RseqKeep.
Import ListNotations.

(** Wherever the helper leaves its asm statement, by falling out of it or through
    any of its C labels, the registers of its operands hold what they held: the
    compiler, which was told that the asm only reads them, may use them again (for
    a retry, or as variables of the function the helper was inlined into). *)
Theorem C50_operands_preserved : forall g a tw rel md kd P rs0 pc rs x, helper a tw rel md kd = Some P ->
  run_of g P rs0 pc rs -> nth_error (code P) pc = Some (IExit x) -> forall r, In r inputs -> rs r = rs0 r.
Proof. exact helpers_keep_operands. Qed.
Print Assumptions C50_operands_preserved.

(** The x86-64 copy interrupted after its first byte: the source register had
    advanced, and is given back at the abort label. *)
Fixpoint follow (g : cfg) (P : program) (m : mem) (idx : Z) (n pc : nat) (rs : regs) : option (nat * regs) :=
  match n with
  | O => Some (pc, rs)
  | S n => match istep g P m idx pc rs with Some (pc', rs', _, _) => follow g P m idx n pc' rs' | None => None end
  end.
Lemma follow_run : forall g P m idx rs0 n pc rs pc' rs', run_of g P rs0 pc rs -> follow g P m idx n pc rs = Some (pc', rs') ->
  run_of g P rs0 pc' rs'.
Proof.
  intros g P m idx rs0 n. induction n as [|n IH]; intros pc rs pc' rs' Hr H; cbn [follow] in H.
  - injection H as <- <-. exact Hr.
  - destruct (istep g P m idx pc rs) as [[[[pc1 rs1] e] rd]|] eqn:E; [|discriminate]. eapply IH; [|exact H]. eapply run_step; eauto.
Qed.
Definition g64 : cfg := {| wsize := 8; bigend := false |}.
Definition operands : regs := fun r =>
  match r with Rcpu => 3 | Rv => 1024 | Rexpect => 0 | Rnewv => 7 | Rdst => 4096 | Rsrc => 8192 | Rlen => 5 | _ => 99 end%Z.
Definition halfway : nat * regs := match follow g64 (x64_memcpy false false CPU_ID) (fun _ => 0%Z) 3 15 0 operands with Some x => x | None => (O, operands) end.
Definition leaving : nat * regs :=
  match follow g64 (x64_memcpy false false CPU_ID) (fun _ => 0%Z) 3 4 (cs_abort (x64_memcpy false false CPU_ID)) (snd halfway) with
  | Some x => x | None => (O, operands) end.
Example ex_C50 : run_of g64 (x64_memcpy false false CPU_ID) operands (fst leaving) (snd leaving) /\
  nth_error (code (x64_memcpy false false CPU_ID)) (fst leaving) = Some (IExit XAbort) /\
  snd halfway Rsrc = 8193%Z /\ snd halfway Rlen = 4%Z /\ snd leaving Rsrc = 8192%Z /\ snd leaving Rlen = 5%Z.
Proof.
  split.
  - apply (follow_run g64 _ (fun _ => 0%Z) 3%Z operands 4 (cs_abort (x64_memcpy false false CPU_ID)) (snd halfway)).
    + apply (run_abort _ _ _ (fst halfway)); [|vm_compute; lia].
      apply (follow_run g64 _ (fun _ => 0%Z) 3%Z operands 15 0 operands); [apply run_start|reflexivity].
    + reflexivity.
  - vm_compute. repeat split; reflexivity.
Qed.
