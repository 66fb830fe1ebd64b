(** Concrete runs of the membarrier test: the worker is interrupted between its
    loads and its store while the manager switches the lists. *)
From Coq Require Import ZArith Bool List Lia.
From Verif Require Import RseqIR RseqSpec RseqKernel RseqSim RseqCalls MemLemmas.
From Verif Require Import Replay ExRseq Archs ArchsGood ClientReplay BarrierSpec BarrierModel.
Import ListNotations.
Local Open Scope Z_scope.

Lemma mb_switches : forall g md L la lb, bases L = [la; lb] -> switches_only g L md (mb_client g md L la lb).
Proof.
  intros g md L la lb E. split.
  - intros l m c (k & cpu & code & -> & Hc & ->). cbn. split; [exact Hc|]. exists 1. auto.
  - intros l m ps l' (a & -> & -> & ->). exists (if a then la else lb). rewrite E. split; [destruct a; cbn; auto|reflexivity].
Qed.

Definition ex_a : Z := 65536.
Definition ex_b : Z := 131072.
Definition ex_L : layout := {| ptr := 16; bases := [ex_a; ex_b]; ncpus := 2;
  field := fun c => 4096 * c + 8; node := fun b c => b + 4096 * c + 256 |}.
Definition ex_m : mem :=
  wr (wr (wr (wr (wr (fun _ => 0) (stw demo_cfg 16 ex_a))
    (stw demo_cfg (ex_a + 8) (ex_a + 256))) (stw demo_cfg (ex_a + 4104) (ex_a + 4352)))
    (stw demo_cfg (ex_b + 8) (ex_b + 256))) (stw demo_cfg (ex_b + 4104) (ex_b + 4352)).

Lemma two_items : forall b c, item_of ex_L b c -> (b = ex_a \/ b = ex_b) /\ (c = 0 \/ c = 1).
Proof. intros b c [[<-|[<-|[]]] H]; cbn in H; split; auto; lia. Qed.
Lemma span8 : forall a x, In x (span a (wsize demo_cfg)) -> a <= x < a + 8.
Proof. intros a x H. unfold span in H. apply in_map_iff in H. destruct H as (i & <- & Hi). apply List.in_seq in Hi. cbn in Hi. lia. Qed.
Ltac apart := let x := fresh in let H1 := fresh in let H2 := fresh in
  intros x H1 H2; apply span8 in H1; apply span8 in H2; cbn in H1, H2; unfold ex_a, ex_b in *;
  vm_compute wmod in *; unfold wrap in *; vm_compute wmod in *; lia.
Lemma ex_layout : layout_ok demo_cfg ex_L.
Proof.
  split; [intros b [<-|[<-|[]]]; vm_compute; auto; split; congruence|]. split; [|split].
  - intros b c H. apply two_items in H. destruct H as [[-> | ->] [-> | ->]]; split; apart.
  - intros b c b' c' H H'. apply two_items in H, H'. destruct H as [[-> | ->] [-> | ->]], H' as [[-> | ->] [-> | ->]]; apart.
  - intros b c b' c' H H' Hn. apply two_items in H, H'. destruct H as [[-> | ->] [-> | ->]], H' as [[-> | ->] [-> | ->]];
      try (exfalso; destruct Hn; congruence); apart.
Qed.
Lemma ex_lists : lists_set demo_cfg ex_L ex_m.
Proof.
  split; [vm_compute; auto|]. intros b c H. apply two_items in H. destruct H as [[-> | ->] [-> | ->]]; vm_compute; reflexivity.
Qed.

(** The choices of the threads, for the code of the given mode. *)
Definition mb_player (md : imode) (code : nat) : player mb_loc :=
  {| pl_call := fun l _ => match l with
       | Wcall (S _) cpu => if (0 <=? cpu) && (cpu <? 2) then
           Some {| c_code := code; c_op := AddLoadLoadAddStore 16 (4096 * cpu + 8) 1; c_cpu := cpu; c_mode := md |} else None
       | _ => None end;
     pl_tau := fun l _ z => match l with
       | Wread (S k) => if (0 <=? z) && (z <? 2) then Some (Wcall (S k) z) else None | _ => None end;
     pl_write := fun l _ => match l with Mgr a => Some (stw demo_cfg 16 (if a then ex_a else ex_b), Mgr (negb a)) | _ => None end;
     pl_sig := fun _ => Some (Wread 0);
     pl_done := fun l => match l with Wread 0 => true | _ => false end |}.
Lemma mb_plays : forall md code, plays (mb_client demo_cfg md ex_L ex_a ex_b) (mb_player md code).
Proof.
  intros md code. split; [|split; [|split; [|split]]].
  - intros [k|[|k] cpu|a] m c H; try discriminate. cbn in H. destruct ((0 <=? cpu) && (cpu <? 2)) eqn:E; [|discriminate].
    apply andb_true_iff in E. destruct E as [E1 E2]. apply Z.leb_le in E1. apply Z.ltb_lt in E2.
    injection H as <-. cbn. exists k, cpu, code. repeat split; auto.
  - intros [[|k]|k cpu|a] m z l' H; try discriminate. cbn in H. destruct ((0 <=? z) && (z <? 2)) eqn:E; [|discriminate].
    apply andb_true_iff in E. destruct E as [E1 E2]. apply Z.leb_le in E1. apply Z.ltb_lt in E2.
    injection H as <-. cbn. exists k, z. repeat split; auto.
  - intros [k|k cpu|a] m ps l' H; try discriminate. injection H as <- <-. cbn. exists a. auto.
  - intros l l' H. injection H as <-. reflexivity.
  - intros [[|k]|k cpu|a] H; try discriminate. reflexivity.
Qed.

Notation mb := (mb_client demo_cfg CPU_ID ex_L ex_a ex_b).
Definition mb_s0 : RseqKernel.state mb_loc := cstart ex_m (fun t => match t with 0%nat => Wread 2 | 1%nat => Mgr false | _ => Wread 0 end).
Definition mb_oth (t : nat) : thread mb_loc := idle_thread (match t with 0%nat => Wread 2 | 1%nat => Mgr false | _ => Wread 0 end) None.
Lemma mb_oth_off : forall t, t_on (mb_oth t) = None.
Proof. reflexivity. Qed.
Lemma mb_stays : stays 2 mb_oth mb_s0.
Proof. apply cstart_stays. Qed.
Lemma path_exec' : forall Loc g tx (cl : client Loc) s tr s', path g tx cl s tr s' -> exec g tx cl s (map snd tr) s'.
Proof. intros Loc g tx cl s tr s' H. induction H; [constructor|]. rewrite map_app. cbn. econstructor; eauto. Qed.

(** The worker has read list_a and its node, and is about to increment; the
    manager makes list_b active. *)
Definition mb_before : list cact := [CTau 0 0; CCall 0] ++ crep 6 (CInstr 0) ++ [CWrite 1].
(** The worker goes on: it finishes or aborts, then it does another iteration. *)
Definition mb_after : list cact := crep 3 (CInstr 0) ++ [CTau 0 0; CCall 0] ++ crep 8 (CInstr 0).
Definition wat (s : RseqKernel.state mb_loc) (b c : Z) : Z := ldw demo_cfg (s_mem s) (node ex_L b c).
Definition not_a (tr : list (RseqKernel.state mb_loc * clabel)) : bool :=
  forallb (fun p => negb (ldw demo_cfg (s_mem (fst p)) 16 =? ex_a)) tr.

Lemma mb_run : forall (code : nat) md s acts (f : list (RseqKernel.state mb_loc * clabel) -> RseqKernel.state mb_loc -> bool),
  stays 2 mb_oth s ->
  ends (mb_client demo_cfg md ex_L ex_a ex_b) demo_cfg dx 2 (mb_player md code) s acts f = true ->
  exists tr s', path demo_cfg dx (mb_client demo_cfg md ex_L ex_a ex_b) s tr s' /\ stays 2 mb_oth s' /\ f tr s' = true.
Proof.
  intros code md s acts f Hst H.
  exact (ends_path mb_loc (mb_client demo_cfg md ex_L ex_a ex_b) demo_cfg dx 2 (mb_player md code) (mb_plays md code) mb_oth mb_oth_off s acts f H Hst).
Qed.

(** Without the barrier, the old list changes after the switch. *)
Lemma ex_no_barrier : exists tr s1 tr2 s2,
  path demo_cfg dx mb mb_s0 tr s1 /\ path demo_cfg dx mb s1 tr2 s2 /\
  not_a tr2 = true /\ ldw demo_cfg (s_mem s1) 16 = ex_b /\
  wat s1 ex_a 0 = 0 /\ wat s2 ex_a 0 = 1.
Proof.
  assert (H : ends mb demo_cfg dx 2 (mb_player CPU_ID 3) mb_s0 mb_before (fun _ s1 =>
     (ldw demo_cfg (s_mem s1) 16 =? ex_b) && (wat s1 ex_a 0 =? 0) &&
     ends mb demo_cfg dx 2 (mb_player CPU_ID 3) s1 mb_after (fun tr2 s2 => not_a tr2 && (wat s2 ex_a 0 =? 1))) = true)
    by (vm_compute; reflexivity).
  destruct (mb_run 3 CPU_ID _ _ _ mb_stays H) as (tr & s1 & P1 & S1 & F1).
  repeat rewrite andb_true_iff in F1. destruct F1 as ((F1 & F2) & F3).
  destruct (mb_run 3 CPU_ID _ _ _ S1 F3) as (tr2 & s2 & P2 & S2 & F4).
  apply andb_true_iff in F4. destruct F4 as [F4 F5]. apply Z.eqb_eq in F1, F2, F5. exists tr, s1, tr2, s2.
  split; [exact P1|]. split; [exact P2|]. split; [exact F4|]. split; [exact F1|]. split; [exact F2|exact F5].
Qed.

Definition restart (s : RseqKernel.state mb_loc) (t : nat) : RseqKernel.state mb_loc :=
  set_t s t (fixup dx (s_loaded s) (s_thr s t)).
Lemma restart_stays : forall s t, stays 2 mb_oth s -> (t < 2)%nat -> stays 2 mb_oth (restart s t).
Proof. intros s t H Ht u Hu. unfold restart. rewrite set_t_other by lia. auto. Qed.
Definition on_cpu (s : RseqKernel.state mb_loc) (t : nat) (c : Z) : bool :=
  match t_on (s_thr s t) with Some (c', d) => (c' =? c) && (d =? c) && negb (t_dead (s_thr s t)) | None => false end.
Lemma on_cpu_ok : forall s t c, on_cpu s t c = true -> t_on (s_thr s t) = Some (c, c) /\ t_dead (s_thr s t) = false.
Proof.
  intros s t c H. unfold on_cpu in H. destruct (t_on (s_thr s t)) as [[c' d]|]; [|discriminate].
  repeat rewrite andb_true_iff in H. destruct H as [[H1 H2] H3]. apply Z.eqb_eq in H1, H2. apply negb_true_iff in H3. subst. auto.
Qed.
Lemma not_a_ok : forall tr, not_a tr = true -> forall x l, In (x, l) tr -> ldw demo_cfg (s_mem x) (ptr ex_L) <> ex_a.
Proof.
  intros tr H x l Hx. unfold not_a in H. rewrite forallb_forall in H. specialize (H _ Hx). apply negb_true_iff, Z.eqb_neq in H. exact H.
Qed.
(** Thread 0 is inside a call, and has already computed the address in the old list. *)
Definition holds_old (s : RseqKernel.state mb_loc) : bool :=
  match t_ctx (s_thr s 0) with {| x_act := Some f |} :: _ => f_rs f T2 =? node ex_L ex_a 0 | _ => false end.
Lemma holds_old_ok : forall s, holds_old s = true ->
  exists l f k, t_ctx (s_thr s 0) = {| x_loc := l; x_act := Some f |} :: k /\ f_rs f T2 = node ex_L ex_a 0.
Proof.
  intros s H. unfold holds_old in H. destruct (t_ctx (s_thr s 0)) as [|[lo [f|]] k]; [discriminate H| |discriminate H].
  apply Z.eqb_eq in H. exists lo, f, k. split; [reflexivity|exact H].
Qed.

(** With the barrier: the interrupted increment is abandoned, the next one goes
    to the new list. *)
Lemma ex_barrier : exists tr sm sm' tr2 s2,
  path demo_cfg dx mb mb_s0 tr sm /\ membarrier dx 0 sm sm' /\ path demo_cfg dx mb sm' tr2 s2 /\
  (forall x l, In (x, l) tr2 -> ldw demo_cfg (s_mem x) (ptr ex_L) <> ex_a) /\
  (exists l f k, t_ctx (s_thr sm 0) = {| x_loc := l; x_act := Some f |} :: k /\ f_rs f T2 = node ex_L ex_a 0) /\
  wat s2 ex_a 0 = 0 /\ wat s2 ex_b 0 = 1.
Proof.
  assert (H : ends mb demo_cfg dx 2 (mb_player CPU_ID 3) mb_s0 mb_before (fun _ sm =>
     on_cpu sm 0 0 &&
     holds_old sm &&
     ends mb demo_cfg dx 2 (mb_player CPU_ID 3) (restart sm 0) mb_after (fun tr2 s2 => not_a tr2 && (wat s2 ex_a 0 =? 0) && (wat s2 ex_b 0 =? 1))) = true)
    by (vm_compute; reflexivity).
  destruct (mb_run 3 CPU_ID _ _ _ mb_stays H) as (tr & sm & P1 & S1 & F1).
  repeat rewrite andb_true_iff in F1. destruct F1 as ((F1 & F2) & F3). apply on_cpu_ok in F1.
  destruct (mb_run 3 CPU_ID _ _ _ (restart_stays sm 0 S1 ltac:(lia)) F3) as (tr2 & s2 & P2 & S2 & F4).
  repeat rewrite andb_true_iff in F4. destruct F4 as ((F4 & F5) & F6). apply Z.eqb_eq in F5, F6.
  exists tr, sm, (restart sm 0), tr2, s2. split; [exact P1|]. split; [left; exists 0%nat, 0; split; [apply F1|split; [apply F1|reflexivity]]|]. split; [exact P2|].
  split; [apply not_a_ok; exact F4|]. split; [exact (holds_old_ok sm F2)|]. split; [exact F5|exact F6].
Qed.

(** The same in an mm_cid build, with the barrier on all CPUs: both threads are
    interrupted, one after the other. *)
Notation mbc := (mb_client demo_cfg MM_CID ex_L ex_a ex_b).
Definition elsewhere (s : RseqKernel.state mb_loc) : Prop :=
  on_cpu s 0 0 = true /\ on_cpu s 1 1 = true /\ stays 2 mb_oth s.
Lemma elsewhere_no : forall s cpu, elsewhere s -> cpu <> 0 -> cpu <> 1 -> forall t cid, t_on (s_thr s t) <> Some (cpu, cid).
Proof.
  intros s cpu (H1 & H2 & H3) Hn0 Hn1 t cid E. apply on_cpu_ok in H1, H2. destruct t as [|[|t]].
  - destruct H1 as [H1 _]. rewrite H1 in E. congruence.
  - destruct H2 as [H2 _]. rewrite H2 in E. congruence.
  - rewrite (H3 (S (S t))) in E by lia. discriminate.
Qed.

Lemma ex_barrier_all : exists tr sm tr0 sm' tr2 s2,
  path demo_cfg dx mbc mb_s0 tr sm /\ membarrier_all demo_cfg dx mbc sm tr0 sm' /\ path demo_cfg dx mbc sm' tr2 s2 /\
  (forall x l, In (x, l) (tr0 ++ tr2) -> ldw demo_cfg (s_mem x) (ptr ex_L) <> ex_a) /\
  (exists l f k, t_ctx (s_thr sm 0) = {| x_loc := l; x_act := Some f |} :: k /\ f_rs f T2 = node ex_L ex_a 0) /\
  wat s2 ex_a 0 = 0 /\ wat s2 ex_b 0 = 1.
Proof.
  assert (H : ends mbc demo_cfg dx 2 (mb_player MM_CID 13) mb_s0 mb_before (fun _ sm =>
     on_cpu sm 0 0 && on_cpu sm 1 1 && on_cpu (restart sm 0) 1 1 && not_a [(sm, Ltau); (restart sm 0, Ltau)] &&
     holds_old sm &&
     ends mbc demo_cfg dx 2 (mb_player MM_CID 13) (restart (restart sm 0) 1) mb_after (fun tr2 s2 => not_a tr2 && (wat s2 ex_a 0 =? 0) && (wat s2 ex_b 0 =? 1))) = true)
    by (vm_compute; reflexivity).
  destruct (mb_run 13 MM_CID _ _ _ mb_stays H) as (tr & sm & P1 & S1 & F1).
  repeat rewrite andb_true_iff in F1. destruct F1 as (((((F1 & F2) & F3) & F7) & F8) & F9).
  pose proof (conj F1 (conj F2 S1)) as Hels. apply on_cpu_ok in F1, F2, F3.
  set (s1 := restart sm 0) in *. set (s2 := restart s1 1) in *.
  pose proof (restart_stays sm 0 S1 ltac:(lia)) as St1. pose proof (restart_stays s1 1 St1 ltac:(lia)) as St2.
  destruct (mb_run 13 MM_CID _ _ _ St2 F9) as (tr2 & s3 & P2 & S2 & F4).
  repeat rewrite andb_true_iff in F4. destruct F4 as ((F4 & F5) & F6). apply Z.eqb_eq in F5, F6.
  assert (Q1 : step demo_cfg dx mbc sm Ltau s1).
  { apply S_ipi. split; [rewrite (proj1 F1); discriminate|apply F1]. }
  assert (Q2 : step demo_cfg dx mbc s1 Ltau s2).
  { apply S_ipi. split; [rewrite (proj1 F3); discriminate|apply F3]. }
  assert (R1 : path demo_cfg dx mbc sm [(sm, Ltau)] s1) by (change [(sm, Ltau)] with ([] ++ [(sm, Ltau)]); econstructor; [constructor|exact Q1|exact Logic.I]).
  assert (R2 : path demo_cfg dx mbc s1 [(s1, Ltau)] s2) by (change [(s1, Ltau)] with ([] ++ [(s1, Ltau)]); econstructor; [constructor|exact Q2|exact Logic.I]).
  assert (R : path demo_cfg dx mbc sm [(sm, Ltau); (s1, Ltau)] s2) by (change [(sm, Ltau); (s1, Ltau)] with ([(sm, Ltau)] ++ [(s1, Ltau)]); econstructor; [exact R1|exact Q2|exact Logic.I]).
  exists tr, sm, [(sm, Ltau); (s1, Ltau)], s2, tr2, s3. split; [exact P1|]. split; [split; [exact R|]|split; [exact P2|]].
  - intros cpu. destruct (Z.eq_dec cpu 0) as [-> | N0]; [|destruct (Z.eq_dec cpu 1) as [-> | N1]].
    + exists [], sm, [(sm, Ltau)], s1, [(s1, Ltau)]. split; [reflexivity|]. split; [cbn; lia|]. split; [constructor|].
      split; [left; exists 0%nat, 0; split; [apply F1|split; [apply F1|reflexivity]]|]. split; [exact R1|exact R2].
    + exists [(sm, Ltau)], s1, [(s1, Ltau)], s2, []. split; [reflexivity|]. split; [cbn; lia|]. split; [exact R1|].
      split; [left; exists 1%nat, 1; split; [apply F3|split; [apply F3|reflexivity]]|]. split; [exact R2|constructor].
    + exists [], sm, [], sm, [(sm, Ltau); (s1, Ltau)]. split; [reflexivity|]. split; [cbn; lia|]. split; [constructor|].
      split; [right; split; [exact (elsewhere_no sm cpu Hels N0 N1)|reflexivity]|]. split; [constructor|exact R].
  - split; [|split; [exact (holds_old_ok sm F8)|split; [exact F5|exact F6]]].
     intros x l Hx. apply in_app_or in Hx. destruct Hx as [Hx|Hx]; [exact (not_a_ok _ F7 x l Hx)|exact (not_a_ok _ F4 x l Hx)].
Qed.
