(** C52: the helpers have no data race on per-CPU data. *)
From Coq Require Import ZArith Bool List Lia.
From Verif Require Import RseqIR RseqSpec RseqKernel RseqSafe MemLemmas RunLemmas RseqSim RseqOwn RseqCalls RseqProps RseqMisc Replay ExRseq.
From Verif Require Import Archs ArchsGood RaceSpec RaceProofs.
Import ListNotations.
Local Open Scope Z_scope.

(** Every byte that a helper reads or writes, it reads or writes while its thread is
    registered and runs where the cpu argument says. *)
Theorem C52_on_cpu : forall (Loc : Type) g a tw tx (cl : client Loc) s0,
  lib_text a tw tx -> initial s0 -> safe_client g cl (abs_init s0) ->
  forall ls s t c w x, exec g tx cl s0 ls s -> touches g tx s t c w x -> runs_on s t c.
Proof. exact touch_right. Qed.
Print Assumptions C52_on_cpu.

(** Two accesses by different threads in calls for the same CPU (or mm_cid) are
    ordered: the first thread is switched out from that CPU in between, and after that
    the second one is switched in. *)
Theorem C52_ordered : forall (Loc : Type) g a tw tx (cl : client Loc) s0,
  lib_text a tw tx -> initial s0 -> safe_client g cl (abs_init s0) ->
  forall ls s1 tr s2 t u c d w w' x y, exec g tx cl s0 ls s1 -> path g tx cl s1 tr s2 -> t <> u ->
  touches g tx s1 t c w x -> touches g tx s2 u d w' y -> c_mode c = c_mode d -> c_cpu c = c_cpu d ->
  switched g tx cl s1 tr s2 (c_mode c) (c_cpu c) t u.
Proof. exact ordered. Qed.
Print Assumptions C52_ordered.

(** Thread 0 stores to byte 8 of the data of CPU 0; thread 1 comes to CPU 0 and reads
    the same byte. *)
Definition touchesb (tx : text) (s : Replay.state) (t : nat) (c : call) (w : bool) (x : Z) : bool :=
  runningb s t &&
  match t_ctx (s_thr s t) with
  | {| x_act := Some f |} :: k =>
    (if call_eq_dec (f_call f) c then true else false) &&
    match tx (c_code c) with
    | Some (P, _) =>
      match istep demo_cfg P (s_mem s) (index (t_area (s_thr s t)) (pmode P)) (f_pc f) (f_rs f) with
      | Some (_, _, e, rd) =>
        if w then match e with EWr ps => existsb (Z.eqb x) (map fst ps) | _ => false end else existsb (Z.eqb x) rd
      | None => false
      end
    | None => false
    end
  | _ => false
  end.
Lemma in_b : forall x l, existsb (Z.eqb x) l = true -> In x l.
Proof. intros x l H. apply existsb_exists in H. destruct H as (y & Hy & E). apply Z.eqb_eq in E. now subst. Qed.
Lemma touchesb_ok : forall tx s t c w x, touchesb tx s t c w x = true -> touches demo_cfg tx s t c w x.
Proof.
  intros tx s t c w x H. unfold touchesb in H. apply andb_prop in H. destruct H as [H1 H]. apply runningb_ok in H1.
  destruct (t_ctx (s_thr s t)) as [|[l [f|]] k] eqn:Ek; try discriminate H. apply andb_prop in H. destruct H as [H2 H].
  destruct (call_eq_dec (f_call f) c) as [Ec|]; [|discriminate H2].
  destruct (tx (c_code c)) as [[P kd]|] eqn:Et; [|discriminate H].
  destruct (istep demo_cfg P (s_mem s) (index (t_area (s_thr s t)) (pmode P)) (f_pc f) (f_rs f)) as [[[[pc' rs'] e] rd]|] eqn:Ei; [|discriminate H].
  split; auto. exists l, f, k, P, kd, pc', rs', e, rd. repeat (split; auto).
  destruct w; [|now apply in_b]. destruct e; try discriminate H. eexists. split; [reflexivity|now apply in_b].
Qed.
Definition two : Replay.state := demo_state true [dk0] [k_store 0 16 5 8 0 6].
Lemma race_case : exists ls s1 tr s2, exec demo_cfg dx script_client two ls s1 /\ path demo_cfg dx script_client s1 tr s2 /\
  touches demo_cfg dx s1 0 dk0 true 8 /\ touches demo_cfg dx s2 1 (k_store 0 16 5 8 0 6) false 8.
Proof.
  set (b1 := rep 6 (DInstr 0)). set (b2 := rep 2 (DInstr 0) ++ [DPreempt 0; DPreempt 1; DResume 1 0 0; DCall 1] ++ rep 3 (DInstr 1)).
  set (chk := match replay demo_cfg dx 2 junk0 true two (DCall 0 :: b1) with
    | Some (_, s1) => touchesb dx s1 0 dk0 true 8 &&
        match replay demo_cfg dx 2 junk0 true s1 b2 with
        | Some (_, s2) => touchesb dx s2 1 (k_store 0 16 5 8 0 6) false 8
        | None => false end
    | None => false end).
  assert (H : chk = true) by (vm_compute; reflexivity). unfold chk in H. clear chk.
  destruct (replay demo_cfg dx 2 junk0 true two (DCall 0 :: b1)) as [[tr1 s1]|] eqn:E1; [|discriminate H].
  apply andb_prop in H. destruct H as [H1 H].
  destruct (replay demo_cfg dx 2 junk0 true s1 b2) as [[tr2 s2]|] eqn:E2; [|discriminate H].
  destruct (replay_path _ _ _ _ _ _ _ _ E1 (demo_quiet _ _ _)) as [P1 Q1].
  destruct (replay_path _ _ _ _ _ _ _ _ E2 Q1) as [P2 _].
  exists (map snd tr1), s1, tr2, s2. split; [apply path_exec; exact P1|]. split; [exact P2|]. split; now apply touchesb_ok.
Qed.
Example C52_case : exists ls s1 tr s2, exec demo_cfg dx script_client two ls s1 /\ path demo_cfg dx script_client s1 tr s2 /\
  touches demo_cfg dx s1 0 dk0 true 8 /\ touches demo_cfg dx s2 1 (k_store 0 16 5 8 0 6) false 8.
Proof. exact race_case. Qed.
Example C52_case_hyp : lib_text X86_64 false dx /\ initial two /\ safe_client demo_cfg script_client (abs_init two).
Proof.
  split; [apply demo_lib|]. split; [apply demo_initial|]. apply demo_safe. intros c [<-|[<-|[]]]; [unfold dk0|]; fit_store.
Qed.
