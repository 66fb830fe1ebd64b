(** Concrete runs of [WeakModel]: one thread on CPU 0 calls a helper, CPU 1 watches. *)
From Coq Require Import ZArith Bool List Lia.
From Verif Require Import RseqIR RseqSpec RseqKernel RseqSafe Archs ArchsGood ExRseq WeakModel WeakSpec.
Import ListNotations.
Local Open Scope Z_scope.

(** The two helpers with a RELEASE variant.  [mc]: the one with memcpy. *)
Definition wx_m : mem := fun x => if x =? 128 then 7 else 0.
Definition wx_call (mc rel : bool) : call :=
  {| c_code := (if mc then if rel then 8 else 6 else if rel then 7 else 5)%nat;
     c_op := if mc then CbneMemcpyStore 0 0 64 128 1 1 else CbneStoreStore 0 0 64 7 1; c_cpu := 0; c_mode := CPU_ID |}.
(** Instructions up to the final store. *)
Definition wx_len (a : arch) (mc rel : bool) : nat :=
  let n x y := if mc then y else x in
  let r := if rel then 1%nat else 0%nat in
  match a with
  | X86_64 | S390 => n 7 18 | I386 => n 8 20 + r | AARCH64 => n 7 14
  | ARM | PPC => n 9 22 + r | LOONGARCH | MIPS | RISCV => n 7 16 + r
  end%nat.
Definition wx_fin (a : arch) (rel : bool) : nat :=
  match a with X86_64 | S390 | AARCH64 => 1 | _ => if rel then 2 else 1 end%nat.
Definition wx_acts (a : arch) (mc rel : bool) : list wact :=
  ACall 0 (wx_call mc rel) (fun _ => 0) :: repeat (AInstr 0 wx_m 0) (wx_len a mc rel).
(** The call, then what reaches CPU 1. *)
Definition wx_run (a : arch) (mc rel : bool) (show : list wact) : option wstate :=
  wrun a demo_cfg (demo_text a false) (wstart (fun t => t)) (wx_acts a mc rel ++ show).

Lemma wx_loads : forall a mc rel j n j' n', loads_from a demo_cfg (demo_text a false) (fun t => t)
  (wx_acts a mc rel ++ [AShow j 0 n; AShow j' 0 n']) 0 wx_m 0.
Proof.
  intros a mc rel j n j' n' xs1 t m' idx' xs2 s f E _ _.
  assert (H : In (AInstr t m' idx') (wx_acts a mc rel ++ [AShow j 0 n; AShow j' 0 n'])) by (rewrite E; apply in_or_app; right; left; reflexivity).
  apply in_app_or in H. destruct H as [[H|H]|[H|[H|[]]]]; try discriminate H.
  apply repeat_spec in H. injection H as -> -> ->. auto.
Qed.
Lemma wx_loads1 : forall a mc rel j n, loads_from a demo_cfg (demo_text a false) (fun t => t)
  (wx_acts a mc rel ++ [AShow j 0 n]) 0 wx_m 0.
Proof.
  intros a mc rel j n xs1 t m' idx' xs2 s f E _ _.
  assert (H : In (AInstr t m' idx') (wx_acts a mc rel ++ [AShow j 0 n])) by (rewrite E; apply in_or_app; right; left; reflexivity).
  apply in_app_or in H. destruct H as [[H|H]|[H|[]]]; try discriminate H.
  apply repeat_spec in H. injection H as -> -> ->. auto.
Qed.
Lemma wx_wf : forall mc rel, op_wf demo_cfg (c_op (wx_call mc rel)) wx_m.
Proof.
  intros mc rel. destruct mc; (split; [intros x H1 H2; vm_compute in H1, H2; lia|]).
  - vm_compute. repeat split; congruence.
  - exact Logic.I.
Qed.
Lemma wx_prog : forall a mc rel, exists P,
  demo_text a false (c_code (wx_call mc rel)) = Some (P, kind_of (c_op (wx_call mc rel))) /\
  helper a false rel CPU_ID (kind_of (c_op (wx_call mc rel))) = Some P.
Proof. intros a mc rel. destruct mc, rel, a; (eexists; split; reflexivity). Qed.

(** Relaxed: the final store overtakes the first one. *)
Definition wx_bad (s : wstate) : bool :=
  match nth_error (w_log s 0%nat) 0, nth_error (w_log s 0%nat) 1 with
  | Some (WS (Some 0%nat) _ _ _), Some (WS (Some 0%nat) true _ _) =>
      vis_mem (0, 1)%nat (w_vis s 1%nat) && negb (vis_mem (0, 0)%nat (w_vis s 1%nat)) &&
      (ldw demo_cfg (copy_of wx_m s 1) 0 =? 1) && (byte (copy_of wx_m s 1) 64 =? 0)
  | _, _ => false
  end.
Lemma wx_relaxed : forall a mc, tso a = false ->
  match wx_run a mc false [AShow 1 0 1] with Some s => wx_bad s && match w_calls s with [c] => Nat.eqb (c_code c) (c_code (wx_call mc false)) | _ => false end | None => false end = true.
Proof. intros a mc H. destruct a; try discriminate H; destruct mc; vm_compute; reflexivity. Qed.

(** Release: it may not, but can be observed after the first. *)
Definition wx_good (a : arch) (s : wstate) : bool :=
  match nth_error (w_log s 0%nat) 0, nth_error (w_log s 0%nat) (wx_fin a true) with
  | Some (WS (Some 0%nat) _ _ ps'), Some (WS (Some 0%nat) true _ _) =>
      existsb (fun p => (fst p =? 64) && (snd p =? 7)) ps' &&
      vis_mem (0, wx_fin a true)%nat (w_vis s 1%nat) && vis_mem (0, 0)%nat (w_vis s 1%nat) &&
      (ldw demo_cfg (copy_of wx_m s 1) 0 =? 1) && (byte (copy_of wx_m s 1) 64 =? 7)
  | _, _ => false
  end.
Lemma wx_release : forall a mc,
  wx_run a mc true [AShow 1 0 (wx_fin a true)] = None /\
  match wx_run a mc true [AShow 1 0 0; AShow 1 0 (wx_fin a true)] with Some s => wx_good a s | None => false end = true.
Proof. intros a mc. destruct a, mc; (split; vm_compute; reflexivity). Qed.
