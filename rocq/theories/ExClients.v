(** Concrete cases for the theorems of Thm_Clients.v: two threads, two CPUs, the
    x86-64 helpers, and given schedules. *)
From Coq Require Import ZArith Bool List Lia.
From Verif Require Import RseqIR RseqSpec RseqKernel RseqSim RseqCalls.
From Verif Require Import Replay ExRseq Archs ArchsGood ClientReplay LinSpec ClientModel ClientSpec.
Import ListNotations.
Local Open Scope Z_scope.

Definition two : list Z := [0; 1].
Definition mem0 : mem := fun _ => 0.
Definition inb (c : Z) : bool := (c =? 0) || (c =? 1).
Lemma inb_ok : forall c, inb c = true -> In c two.
Proof. intros c H. apply orb_true_iff in H. rewrite !Z.eqb_eq in H. cbn. intuition. Qed.
Lemma two_nodup : NoDup two.
Proof. repeat constructor; cbn; intuition lia. Qed.
Lemma two_cases : forall c, In c two -> c = 0 \/ c = 1.
Proof. intros c [<-|[<-|[]]]; auto. Qed.

(** Does the trace contain the return of [r] by thread [t]? *)
Definition returned {A} (t : nat) (r : Z) (tr : list (A * clabel)) : bool :=
  existsb (fun p => match snd p with Lret t' _ r' => Nat.eqb t t' && (r =? r') | _ => false end) tr.

(** ** C11 *)
Definition ex_cnt (c : Z) : Z := 4096 * c + 8.
Definition inc_player : player inc_loc :=
  {| pl_call := fun l _ => match l with
       | Inc_call n cpu => if inb cpu then Some {| c_code := 1; c_op := AddStore (ex_cnt cpu) 1; c_cpu := cpu; c_mode := CPU_ID |} else None
       | _ => None end;
     pl_tau := fun l _ z => match l with
       | Inc_read (S n) => if inb z then Some (Inc_call (S n) z) else None | _ => None end;
     pl_write := fun _ _ => None;
     pl_sig := fun _ => Some (Inc_read 0);
     pl_done := fun l => match l with Inc_read 0 => true | _ => false end |}.
Lemma inc_plays : plays (inc_client CPU_ID two ex_cnt) inc_player.
Proof.
  split; [|split; [|split; [|split]]].
  - intros [n|n cpu] m c H; [discriminate|]. cbn in H. destruct (inb cpu) eqn:E; [|discriminate].
    injection H as <-. cbn. exists n, cpu. repeat split; auto. apply inb_ok; auto.
  - intros [[|n]|n cpu] m z l' H; try discriminate. cbn in H. destruct (inb z) eqn:E; [|discriminate].
    injection H as <-. cbn. exists n, z. repeat split; auto. apply inb_ok; auto.
  - discriminate.
  - intros l l' H. injection H as <-. reflexivity.
  - intros [[|n]|n cpu] H; try discriminate. reflexivity.
Qed.
Lemma words_apart_ex : words_apart demo_cfg two ex_cnt.
Proof.
  intros c d Hc Hd Hn a H1 H2. apply two_cases in Hc, Hd.
  destruct Hc as [-> | ->], Hd as [-> | ->]; try congruence; cbn in H1, H2; lia.
Qed.
(** Iterations: thread 0 does two, thread 1 one. *)
Definition inc_iter (t : nat) : nat := match t with 0%nat => 2 | 1%nat => 1 | _ => 0 end.
Definition inc_s0 := cstart mem0 (fun t => Inc_read (inc_iter t)).
(** Thread 0 reads its CPU number, is migrated from CPU 0 to CPU 1 in the middle
    of the helper and aborts; thread 1, which has read that it is on CPU 1 and is
    migrated to CPU 0 before the call, aborts too; then all iterations are done,
    and a signal interrupts one of them. *)
Definition fin (t : nat) : list cact := crep 30 (CInstr t).
Definition inc_acts : list cact :=
  [CTau 0 0; CCall 0; CInstr 0; CInstr 0; CPreempt 0; CTau 1 1; CPreempt 1; CResume 0 1] ++ fin 0 ++
  [CResume 1 0; CCall 1] ++ fin 1 ++ [CTau 0 1; CCall 0] ++ fin 0 ++ [CTau 1 0; CCall 1] ++ fin 1 ++
  [CTau 0 1; CCall 0; CInstr 0; CInstr 0; CSignal 0; CSigret 0] ++ fin 0 ++ [CTau 0 1; CCall 0] ++ fin 0.
Definition inc_doneb (s : RseqKernel.state inc_loc) (t : nat) : bool :=
  match t_ctx (s_thr s t) with [{| x_loc := Inc_read 0; x_act := None |}] => true | _ => false end.
Lemma ex_counter : exists tr s, path demo_cfg dx (inc_client CPU_ID two ex_cnt) inc_s0 tr s /\
  (forall t, inc_finished s t) /\ total demo_cfg two ex_cnt (s_mem s) = 3 /\
  count is_call (map snd tr) = 6 /\ count is_ret0 (map snd tr) = 3 /\
  ldw demo_cfg (s_mem s) (ex_cnt 0) = 1 /\ ldw demo_cfg (s_mem s) (ex_cnt 1) = 2.
Proof.
  destruct (ends_path inc_loc (inc_client CPU_ID two ex_cnt) demo_cfg dx 2 inc_player inc_plays
    (fun t => idle_thread (Inc_read (inc_iter t)) None) (fun _ => eq_refl) inc_s0 inc_acts
    (fun tr s => inc_doneb s 0 && inc_doneb s 1 && (total demo_cfg two ex_cnt (s_mem s) =? 3) &&
       (count is_call (map snd tr) =? 6) && (count is_ret0 (map snd tr) =? 3) &&
       (ldw demo_cfg (s_mem s) (ex_cnt 0) =? 1) && (ldw demo_cfg (s_mem s) (ex_cnt 1) =? 2)))
    as (tr & s & Hp & Hs & Hf).
  - vm_compute. reflexivity.
  - apply cstart_stays.
  - exists tr, s. split; [exact Hp|]. repeat rewrite andb_true_iff in Hf. rewrite !Z.eqb_eq in Hf.
    destruct Hf as ((((((F1 & F2) & F3) & F4) & F5) & F6) & F7).
    split; [|repeat (split; [assumption|]); assumption].
    intros [|[|t]]; unfold inc_finished.
    + unfold inc_doneb in F1. destruct (t_ctx (s_thr s 0)) as [|[[[|]|] [|]] [|]]; try discriminate; auto.
    + unfold inc_doneb in F2. destruct (t_ctx (s_thr s 1)) as [|[[[|]|] [|]] [|]]; try discriminate; auto.
    + rewrite (Hs (S (S t))) by lia. reflexivity.
Qed.

(** ** C12 *)
Definition ex_lk (c : Z) : Z := 4096 * c + 64.
Definition lock_player : player lock_loc :=
  {| pl_call := fun l _ => match l with
       | Lk_try n cpu => if inb cpu then Some {| c_code := 0; c_op := CbneStore (ex_lk cpu) 0 1; c_cpu := cpu; c_mode := CPU_ID |} else None
       | _ => None end;
     pl_tau := fun l m z => match l with
       | Lk_idle (S n) => if inb z then Some (Lk_try (S n) z) else None
       | Lk_held n cpu => Some (Lk_read n cpu (ldw demo_cfg m (ex_cnt cpu)))
       | Lk_wrote n cpu => Some (if ldw demo_cfg m (ex_lk cpu) =? 1 then Lk_release n cpu else Lk_assert_failed)
       | _ => None end;
     pl_write := fun l _ => match l with
       | Lk_read n cpu v => Some (stw demo_cfg (ex_cnt cpu) (wrap demo_cfg (v + 1)), Lk_wrote n cpu)
       | Lk_release n cpu => Some (stw demo_cfg (ex_lk cpu) 0, Lk_idle (pred n))
       | _ => None end;
     pl_sig := fun _ => Some (Lk_idle 1);
     pl_done := fun l => match l with Lk_idle 0 => true | _ => false end |}.
Lemma lock_plays : plays (lock_client demo_cfg CPU_ID two ex_cnt ex_lk) lock_player.
Proof.
  split; [|split; [|split; [|split]]].
  - intros [] m c H; try discriminate. cbn in H. destruct (inb cpu) eqn:E; [|discriminate].
    injection H as <-. cbn. exists n, cpu. repeat split; auto. apply inb_ok; auto.
  - intros [[|n]| | | | | |] m z l' H; try discriminate; cbn in H.
    + destruct (inb z) eqn:E; [|discriminate]. injection H as <-. left. exists n, z. repeat split; auto. apply inb_ok; auto.
    + injection H as <-. right. left. eauto.
    + injection H as <-. right. right. eauto.
  - intros [] m ps l' H; try discriminate; cbn in H; injection H as <- <-; cbn; [left|right]; eauto 10.
  - intros l l' H. injection H as <-. cbn. eauto.
  - intros [[|n]| | | | | |] H; try discriminate. reflexivity.
Qed.
Lemma lock_layout_ex : lock_layout demo_cfg two ex_cnt ex_lk.
Proof.
  split; [apply words_apart_ex|]. split.
  - intros c d Hc Hd Hn a H1 H2. apply two_cases in Hc, Hd.
    destruct Hc as [-> | ->], Hd as [-> | ->]; try congruence; cbn in H1, H2; lia.
  - intros c d Hc Hd a H1 H2. apply two_cases in Hc, Hd.
    destruct Hc as [-> | ->], Hd as [-> | ->]; cbn in H1, H2; lia.
Qed.
Definition lock_s0 := cstart mem0 (fun t => Lk_idle 1).
(** Thread 0 takes the lock of CPU 0 and is preempted; thread 1 is migrated to
    CPU 0, tries to take that lock and finds it taken; a signal handler of thread
    1 tries too, and takes the lock of CPU 1 after another migration. *)
Definition lock_acts : list cact :=
  [CTau 0 0; CCall 0] ++ fin 0 ++ [CTau 0 0; CPreempt 0; CPreempt 1; CResume 1 0; CTau 1 0; CCall 1] ++ fin 1 ++
  [CTau 1 0; CSignal 1; CTau 1 0; CCall 1; CInstr 1; CPreempt 1; CResume 1 1] ++ fin 1 ++ [CTau 1 1; CCall 1] ++ fin 1 ++
  [CTau 1 0; CWrite 1; CTau 1 0; CResume 0 0; CWrite 0].
Lemma ex_lock : exists tr s, path demo_cfg dx (lock_client demo_cfg CPU_ID two ex_cnt ex_lk) lock_s0 tr s /\
  holders s 0 0 = 1%nat /\ holders s 1 1 = 1%nat /\ holders s 0 1 = 0%nat /\
  returned 1 1 tr = true /\ returned 1 (-1) tr = true /\ total demo_cfg two ex_cnt (s_mem s) = 2.
Proof.
  destruct (ends_path lock_loc (lock_client demo_cfg CPU_ID two ex_cnt ex_lk) demo_cfg dx 2 lock_player lock_plays
    (fun t => idle_thread (Lk_idle 1) None) (fun _ => eq_refl) lock_s0 lock_acts
    (fun tr s => Nat.eqb (holders s 0 0) 1 && Nat.eqb (holders s 1 1) 1 && Nat.eqb (holders s 0 1) 0 &&
       returned 1 1 tr && returned 1 (-1) tr && (total demo_cfg two ex_cnt (s_mem s) =? 2))) as (tr & s & Hp & Hs & Hf).
  - vm_compute. reflexivity.
  - apply cstart_stays.
  - exists tr, s. split; [exact Hp|]. repeat rewrite andb_true_iff in Hf. rewrite !Nat.eqb_eq, Z.eqb_eq in Hf. tauto.
Qed.

(** ** C13 *)
Definition ex_hd (c : Z) : Z := 8 * c.
Definition ex_nodes : list Z := [64; 96; 128].
Definition ex_slot (t d : nat) : Z := 1024 + 16 * Z.of_nat t + 8 * Z.of_nat d.
Definition ex_live (t d : nat) : Prop := (t < 2)%nat /\ (d < 2)%nat.
Definition ex_list_client := list_client demo_cfg CPU_ID two ex_hd 8 16 ex_slot ex_live.

(** Heads at 0 and 8; nodes of 16 bytes at 64, 96 and 128 with the next pointer
    in their second half; local variables from 1024. *)
Lemma live_cases : forall t d, ex_live t d -> (t = 0 \/ t = 1)%nat /\ (d = 0 \/ d = 1)%nat.
Proof. unfold ex_live. lia. Qed.
Lemma list_layout_ex : list_layout demo_cfg two ex_nodes ex_hd 8 16 ex_slot ex_live.
Proof.
  exists (fun a => if a <? 16 then Head (a / 8) else if a <? 1024 then Node (32 * (a / 32))
                   else Local (Z.to_nat ((a - 1024) / 16)) (Z.to_nat (((a - 1024) / 8) mod 2))).
  split; [|split; [|split; [|split]]].
  - intros cpu a Hc Ha. apply two_cases in Hc. destruct Hc as [-> | ->]; cbn in Ha; intuition (subst; reflexivity).
  - intros n a Hn Ha. cbn in Hn. destruct Hn as [<-|[<-|[<-|[]]]]; cbn in Ha; intuition (subst; reflexivity).
  - intros n Hn a Ha. cbn in Hn. destruct Hn as [<-|[<-|[<-|[]]]]; cbn in Ha |- *; intuition.
  - intros t d a Hl Ha. apply live_cases in Hl. destruct Hl as [[-> | ->] [-> | ->]]; cbn in Ha; intuition (subst; reflexivity).
  - intros n Hn. change (wmod demo_cfg) with 18446744073709551616. cbn in Hn. intuition lia.
Qed.

Definition list_player : player list_loc :=
  {| pl_call := fun l _ => match ll_pc l with
       | L_pushw cpu n e => Some {| c_code := 0; c_op := CbneStore (ex_hd cpu) e n; c_cpu := cpu; c_mode := CPU_ID |}
       | L_pop cpu => Some {| c_code := 2; c_op := CbeqStoreAddLoadStore (ex_hd cpu) 0 8 (ex_slot (ll_tid l) (ll_depth l));
                              c_cpu := cpu; c_mode := CPU_ID |}
       | _ => None end;
     (* 0, 1: push the first held node on that list; 2, 3: pop from list 0, 1 *)
     pl_tau := fun l m z => match ll_pc l with
       | L_idle =>
         if inb z then match ll_hold l with n :: h => Some (ll_set l h (L_push z n (ldw demo_cfg m (ex_hd z)))) | [] => None end
         else if inb (z - 2) && (Nat.ltb (ll_tid l) 2) && (Nat.ltb (ll_depth l) 2) then Some (ll_set l (ll_hold l) (L_pop (z - 2)))
         else None
       | L_got => Some (ll_set l (ldw demo_cfg m (ex_slot (ll_tid l) (ll_depth l)) :: ll_hold l) L_idle)
       | _ => None end;
     pl_write := fun l _ => match ll_pc l with
       | L_push cpu n e => Some (stw demo_cfg (nxt demo_cfg 8 n) e, ll_set l (ll_hold l) (L_pushw cpu n e))
       | _ => None end;
     pl_sig := fun l => Some {| ll_tid := ll_tid l; ll_depth := S (ll_depth l); ll_hold := []; ll_pc := L_idle |};
     pl_done := fun l => match ll_pc l, ll_hold l with L_idle, [] => true | _, _ => false end |}.
Lemma list_plays : plays ex_list_client list_player.
Proof.
  split; [|split; [|split; [|split]]].
  - intros [t d h pc] m c H. destruct pc; try discriminate; cbn in H; injection H as <-; cbn; auto.
  - intros [t d h pc] m z l' H. destruct pc; try discriminate; cbn in H.
    + destruct (inb z) eqn:E.
      * destruct h as [|n h]; [discriminate|]. injection H as <-. left. exists z, n, [], h, (ldw demo_cfg m (ex_hd z)). repeat split; auto. apply inb_ok; auto.
      * destruct (inb (z - 2) && _ && _) eqn:E2; [|discriminate]. injection H as <-.
        repeat rewrite andb_true_iff in E2. destruct E2 as [[E2 E3] E4]. apply Nat.leb_le in E3, E4.
        right. left. exists (z - 2). split; [auto|]. split; [apply inb_ok; auto|]. split; [unfold ex_live; cbn; lia|auto].
    + injection H as <-. right. right. auto.
  - intros [t d h pc] m ps l' H. destruct pc; try discriminate; cbn in H. injection H as <- <-. left. cbn. exists cpu, n, expect. auto.
  - intros l l' H. injection H as <-. reflexivity.
  - intros [t d [|n h] pc] H; destruct pc; try discriminate. cbn. auto.
Qed.
(** Node 64 is on the list of CPU 0; thread 0 holds 96, thread 1 holds 128. *)
Definition list_m0 : mem := wr mem0 (stw demo_cfg 0 64).
Definition list_s0 : RseqKernel.state list_loc := cstart list_m0 (fun t =>
  {| ll_tid := t; ll_depth := 0; ll_hold := match t with 0%nat => [96] | 1%nat => [128] | _ => [] end; ll_pc := L_idle |}).
Lemma list_start_ex : list_start demo_cfg two ex_nodes ex_hd 8 ex_slot list_s0.
Proof.
  split; [intros t; eexists; reflexivity|].
  exists (fun n => if n =? 64 then OnList 0 else if n =? 96 then Held 0 0 else Held 1 0). split; [|split].
  - intros cpu Hc. apply two_cases in Hc. destruct Hc as [-> | ->].
    + exists [64]. split; [repeat split; try discriminate; reflexivity|]. split; [repeat constructor; cbn; tauto|].
      intros n. cbn. split; [intros [<-|[]]; auto|]. intros [[<-|[<-|[<-|[]]]] H]; cbn in H; try discriminate; auto.
    + exists []. split; [reflexivity|]. split; [constructor|].
      intros n. cbn. split; [tauto|]. intros [[<-|[<-|[<-|[]]]] H]; cbn in H; discriminate.
  - assert (E : forall n t d, In n ex_nodes -> (if n =? 64 then OnList 0 else if n =? 96 then Held 0 0 else Held 1 0) = Held t d ->
      (n = 96 /\ t = 0%nat /\ d = 0%nat) \/ (n = 128 /\ t = 1%nat /\ d = 0%nat)).
    { intros n t d [<-|[<-|[<-|[]]]] H; cbn in H; inversion H; auto. }
    intros t d. destruct t as [|[|t]]; [destruct d|destruct d|].
    + exists [96]. split; [repeat constructor; cbn; tauto|]. split; [|reflexivity].
      intros n. split; [intros [<-|[]]; cbn; auto|]. intros [H1 H2]. destruct (E _ _ _ H1 H2) as [[-> _]|[_ [H _]]]; cbn; auto; discriminate.
    + exists []. split; [constructor|]. split; [|destruct d; reflexivity].
      intros n. split; [intros []|]. intros [H1 H2]. destruct (E _ _ _ H1 H2) as [[_ [_ H]]|[_ [_ H]]]; discriminate.
    + exists [128]. split; [repeat constructor; cbn; tauto|]. split; [|reflexivity].
      intros n. split; [intros [<-|[]]; cbn; auto|]. intros [H1 H2]. destruct (E _ _ _ H1 H2) as [[_ [H _]]|[-> _]]; cbn; auto; discriminate.
    + exists []. split; [constructor|]. split; [|destruct d; reflexivity].
      intros n. split; [intros []|]. intros [H1 H2]. destruct (E _ _ _ H1 H2) as [[_ [_ H]]|[_ [_ H]]]; discriminate.
    + exists []. split; [constructor|]. split; [|destruct d as [|[|d]]; reflexivity].
      intros n. split; [intros []|]. intros [H1 H2]. destruct (E _ _ _ H1 H2) as [[_ [H _]]|[_ [H _]]]; discriminate.
  - intros n cpu [<-|[<-|[<-|[]]]] H; cbn in H; inversion H; subst; cbn; auto.
Qed.
(** Thread 0 pushes 96 on list 0, but is interrupted by a signal after reading
    the head; the handler pops 64, the list becoming empty, and pushes it back (an ABA); then
    thread 0 pushes; thread 1 is migrated to CPU 0 and pops 96. *)
Definition list_acts : list cact :=
  [CTau 0 0; CWrite 0; CCall 0; CInstr 0; CInstr 0; CSignal 0; CTau 0 2; CCall 0] ++ fin 0 ++
  [CTau 0 0; CTau 0 0; CWrite 0; CCall 0] ++ fin 0 ++ [CSigret 0] ++ fin 0 ++
  [CTau 0 0; CWrite 0; CCall 0] ++ fin 0 ++ [CPreempt 0; CPreempt 1; CResume 1 0; CTau 1 2; CCall 1] ++ fin 1 ++ [CTau 1 0].
Lemma ex_list : exists tr s, path demo_cfg dx ex_list_client list_s0 tr s /\
  ldw demo_cfg (s_mem s) (ex_hd 0) = 64 /\ returned 0 (-1) tr = true /\
  t_ctx (s_thr s 1) = [{| x_loc := {| ll_tid := 1; ll_depth := 0; ll_hold := [96; 128]; ll_pc := L_idle |}; x_act := None |}].
Proof.
  destruct (ends_path list_loc ex_list_client demo_cfg dx 2 list_player list_plays
    (fun t => idle_thread {| ll_tid := t; ll_depth := 0; ll_hold := match t with 0%nat => [96] | 1%nat => [128] | _ => [] end; ll_pc := L_idle |} None)
    (fun _ => eq_refl) list_s0 list_acts
    (fun tr s => (ldw demo_cfg (s_mem s) (ex_hd 0) =? 64) && returned 0 (-1) tr &&
       match t_ctx (s_thr s 1) with
       | [{| x_loc := {| ll_tid := 1; ll_depth := 0; ll_hold := [a; b]; ll_pc := L_idle |}; x_act := None |}] => (a =? 96) && (b =? 128)
       | _ => false end)) as (tr & s & Hp & Hs & Hf).
  - vm_compute. reflexivity.
  - apply (cstart_stays list_m0).
  - exists tr, s. split; [exact Hp|]. repeat rewrite andb_true_iff in Hf. rewrite Z.eqb_eq in Hf. destruct Hf as [[H1 H2] H3].
    split; auto. split; auto.
    destruct (t_ctx (s_thr s 1)) as [|[[[|[|]] [|] [|a [|b [|]]] []] [|]] [|]]; try discriminate.
    apply andb_true_iff in H3. rewrite !Z.eqb_eq in H3. destruct H3 as [-> ->]. reflexivity.
Qed.

(** ** C14 *)
Definition ex_ofs (c : Z) : Z := 8 * c.
Definition ex_arr (c : Z) : Z := 64 + 32 * c.
Definition ex_len (c : Z) : nat := 2.
Definition ex_buf_client := buf_client demo_cfg CPU_ID two ex_ofs ex_arr ex_len.
Lemma buf_layout_ex : buf_layout demo_cfg two ex_ofs ex_arr ex_len.
Proof.
  exists (fun a => if a <? 16 then Offset (a / 8) else Array ((a - 64) / 32)). split; [|split].
  - intros cpu a Hc Ha. apply two_cases in Hc. destruct Hc as [-> | ->]; cbn in Ha; intuition (subst; reflexivity).
  - intros cpu a Hc Ha. apply two_cases in Hc. destruct Hc as [-> | ->]; cbn in Ha; intuition (subst; reflexivity).
  - intros cpu _. reflexivity.
Qed.
Definition buf_player : player buf_loc :=
  {| pl_call := fun l _ => match l with
       | B_push2 v cpu o => Some {| c_code := 5; c_op := CbneStoreStore (ex_ofs cpu) o (arr_slot demo_cfg ex_arr cpu o) v (o + 1);
                                    c_cpu := cpu; c_mode := CPU_ID |}
       | B_pop2 cpu o v => Some {| c_code := 4; c_op := CbneLoadCbneStore (ex_ofs cpu) o (arr_slot demo_cfg ex_arr cpu (o - 1)) v (o - 1);
                                   c_cpu := cpu; c_mode := CPU_ID |}
       | _ => None end;
     (* idle: push [z], or pop if [z] is 0 *)
     pl_tau := fun l m z => match l with
       | B_idle | B_pushed _ | B_popped _ => if z =? 0 then Some B_pop else if (0 <? z) && (z <? 1000) then Some (B_push z) else Some B_idle
       | B_push v => if inb z then Some (if ldw demo_cfg m (ex_ofs z) =? 2 then B_pushed false else B_push2 v z (ldw demo_cfg m (ex_ofs z))) else None
       | B_pop => if inb z then Some (if ldw demo_cfg m (ex_ofs z) =? 0 then B_popped None else B_pop1 z (ldw demo_cfg m (ex_ofs z))) else None
       | B_pop1 cpu o => Some (B_pop2 cpu o (ldw demo_cfg m (arr_slot demo_cfg ex_arr cpu (o - 1))))
       | _ => None end;
     pl_write := fun _ _ => None;
     pl_sig := fun _ => Some B_idle;
     pl_done := fun l => match l with B_idle => true | _ => false end |}.
Lemma buf_plays : plays ex_buf_client buf_player.
Proof.
  assert (Hz : forall z l', (if z =? 0 then Some B_pop else if (0 <? z) && (z <? 1000) then Some (B_push z) else Some B_idle) = Some l' ->
    (exists v, 0 <= v < wmod demo_cfg /\ l' = B_push v) \/ l' = B_pop \/ l' = B_idle).
  { intros z l' H. destruct (z =? 0); [injection H as <-; auto|]. destruct ((0 <? z) && (z <? 1000)) eqn:E; injection H as <-; auto.
    apply andb_true_iff in E. rewrite !Z.ltb_lt in E. left. exists z. split; auto. change (wmod demo_cfg) with 18446744073709551616. lia. }
  split; [|split; [|split; [|split]]].
  - intros [] m c H; try discriminate; cbn in H; injection H as <-; cbn; auto.
  - intros [] m z l' H; try discriminate; cbn in H; try (apply (Hz z); exact H).
    + destruct (inb z) eqn:E; [|discriminate]. injection H as <-. cbn. exists z, (ldw demo_cfg m (ex_ofs z)). split; [apply inb_ok; auto|split; reflexivity].
    + destruct (inb z) eqn:E; [|discriminate]. injection H as <-. cbn. exists z, (ldw demo_cfg m (ex_ofs z)). split; [apply inb_ok; auto|split; reflexivity].
    + injection H as <-. eexists. split; reflexivity.
  - discriminate.
  - intros l l' H. injection H as <-. reflexivity.
  - intros [] H; try discriminate. reflexivity.
Qed.
Definition buf_s0 : RseqKernel.state buf_loc := cstart mem0 (fun _ => B_idle).
(** Thread 0 pushes 7 on CPU 0; pushing 8, it is interrupted between reading the
    offset and the store by a signal handler that pushes 9 and so its push finds
    another offset; it then finds the buffer full; thread 1 moves to CPU 0 and
    pops 9. *)
Definition buf_acts : list cact :=
  [CTau 0 7; CTau 0 0; CCall 0] ++ fin 0 ++ [CTau 0 8; CTau 0 0; CSignal 0; CTau 0 9; CTau 0 0; CCall 0] ++ fin 0 ++
  [CTau 0 5000; CSigret 0; CCall 0] ++ fin 0 ++ [CTau 0 0; CPreempt 0; CPreempt 1; CResume 1 0; CTau 1 0; CTau 1 0; CTau 1 0; CCall 1] ++ fin 1.
Lemma ex_buf : exists tr s, path demo_cfg dx ex_buf_client buf_s0 tr s /\ returned 0 1 tr = true /\
  t_ctx (s_thr s 0) = [{| x_loc := B_pushed false; x_act := None |}] /\
  t_ctx (s_thr s 1) = [{| x_loc := B_popped (Some 9); x_act := None |}] /\
  ldw demo_cfg (s_mem s) (ex_ofs 0) = 1 /\ ldw demo_cfg (s_mem s) (ex_arr 0) = 7.
Proof.
  destruct (ends_path buf_loc ex_buf_client demo_cfg dx 2 buf_player buf_plays (fun t => idle_thread B_idle None)
    (fun _ => eq_refl) buf_s0 buf_acts
    (fun tr s => returned 0 1 tr &&
       match t_ctx (s_thr s 0) with [{| x_loc := B_pushed false; x_act := None |}] => true | _ => false end &&
       match t_ctx (s_thr s 1) with [{| x_loc := B_popped (Some v); x_act := None |}] => v =? 9 | _ => false end &&
       (ldw demo_cfg (s_mem s) (ex_ofs 0) =? 1) && (ldw demo_cfg (s_mem s) (ex_arr 0) =? 7))) as (tr & s & Hp & Hs & Hf).
  - vm_compute. reflexivity.
  - apply cstart_stays.
  - exists tr, s. split; [exact Hp|]. repeat rewrite andb_true_iff in Hf. rewrite !Z.eqb_eq in Hf.
    destruct Hf as ((((H1 & H2) & H3) & H4) & H5). split; auto. split; [|split; auto].
    + destruct (t_ctx (s_thr s 0)) as [|[[| | | | | |[]|] [|]] [|]]; try discriminate; reflexivity.
    + destruct (t_ctx (s_thr s 1)) as [|[[| | | | | | |[v|]] [|]] [|]]; try discriminate. apply Z.eqb_eq in H3. subst. reflexivity.
Qed.

(** ** C15 *)
Definition ex_arg (t d : nat) : Z := 1024 + 16 * Z.of_nat t + 4 * Z.of_nat d.
Definition ex_out (t d : nat) : Z := 2048 + 16 * Z.of_nat t + 4 * Z.of_nat d.
Definition ex_rec_client := rec_client demo_cfg CPU_ID two ex_live ex_ofs ex_arr ex_len 3 ex_arg ex_out.
Lemma rec_layout_ex : rec_layout demo_cfg two ex_ofs ex_arr ex_len 3 ex_arg ex_out ex_live.
Proof.
  change (wmod demo_cfg) with 18446744073709551616. split; [|split; [|split; [|split]]].
  - exists (fun a => if a <? 16 then Offset (a / 8) else if a <? 1024 then Array ((a - 64) / 32)
                     else if a <? 2048 then Mine (Z.to_nat ((a - 1024) / 16)) else Mine (Z.to_nat ((a - 2048) / 16))).
    split; [|split].
    + intros cpu a Hc Ha. apply two_cases in Hc. destruct Hc as [-> | ->]; cbn in Ha; intuition (subst; reflexivity).
    + intros cpu a Hc Ha. apply two_cases in Hc. destruct Hc as [-> | ->]; cbn in Ha; intuition (subst; reflexivity).
    + intros t d a Hl Ha. apply live_cases in Hl. destruct Hl as [[-> | ->] [-> | ->]]; cbn in Ha; intuition (subst; reflexivity).
  - intros cpu Hc. apply two_cases in Hc. destruct Hc as [-> | ->]; cbn; lia.
  - intros t d Hl. apply live_cases in Hl. destruct Hl as [[-> | ->] [-> | ->]]; cbn; lia.
  - intros t d d' Hl Hl' Hn. apply live_cases in Hl, Hl'.
    destruct Hl as [[-> | ->] [-> | ->]], Hl' as [_ [-> | ->]]; try congruence; split; intros a H1 H2; cbn in H1, H2; lia.
  - intros t d d' Hl Hl'. apply live_cases in Hl, Hl'.
    destruct Hl as [[-> | ->] [-> | ->]], Hl' as [_ [-> | ->]]; intros a H1 H2; cbn in H1, H2; lia.
Qed.
Definition rec_player : player rec_loc :=
  {| pl_call := fun l _ => match rl_pc l with
       | M_push2 item cpu o => Some {| c_code := 6; c_cpu := cpu; c_mode := CPU_ID;
           c_op := CbneMemcpyStore (ex_ofs cpu) o (rec_slot ex_arr 3 cpu o) (ex_arg (rl_tid l) (rl_depth l)) 3 (o + 1) |}
       | M_pop2 cpu o => Some {| c_code := 6; c_cpu := cpu; c_mode := CPU_ID;
           c_op := CbneMemcpyStore (ex_ofs cpu) o (ex_out (rl_tid l) (rl_depth l)) (rec_slot ex_arr 3 cpu (o - 1)) 3 (o - 1) |}
       | _ => None end;
     (* idle: push the record z, z + 1, z + 2, or pop if [z] is 0 *)
     pl_tau := fun l m z => match rl_pc l with
       | M_idle | M_pushed _ _ | M_popped _ =>
         if Nat.ltb (rl_tid l) 2 && Nat.ltb (rl_depth l) 2 && (0 <=? z) && (z <? 200)
         then if z =? 0 then Some (rl_set l M_pop) else Some (rl_set l (M_arg [z; z + 1; z + 2]))
         else Some (rl_set l M_idle)
       | M_push item => if inb z then Some (if ldw demo_cfg m (ex_ofs z) =? 2 then rl_set l (M_pushed false item)
                                            else rl_set l (M_push2 item z (ldw demo_cfg m (ex_ofs z)))) else None
       | M_pop => if inb z then Some (if ldw demo_cfg m (ex_ofs z) =? 0 then rl_set l (M_popped false)
                                      else rl_set l (M_pop2 z (ldw demo_cfg m (ex_ofs z)))) else None
       | _ => None end;
     pl_write := fun l _ => match rl_pc l with
       | M_arg item => Some (put_bytes (ex_arg (rl_tid l) (rl_depth l)) item, rl_set l (M_push item))
       | _ => None end;
     pl_sig := fun l => Some {| rl_tid := rl_tid l; rl_depth := S (rl_depth l); rl_pc := M_idle |};
     pl_done := fun l => match rl_pc l with M_idle => true | _ => false end |}.
Lemma rec_plays : plays ex_rec_client rec_player.
Proof.
  split; [|split; [|split; [|split]]].
  - intros [t d pc] m c H. destruct pc; try discriminate; cbn in H; injection H as <-; cbn; auto.
  - assert (Hz : forall l z l', (if Nat.ltb (rl_tid l) 2 && Nat.ltb (rl_depth l) 2 && (0 <=? z) && (z <? 200)
         then if z =? 0 then Some (rl_set l M_pop) else Some (rl_set l (M_arg [z; z + 1; z + 2]))
         else Some (rl_set l M_idle)) = Some l' ->
         (ex_live (rl_tid l) (rl_depth l) /\
             ((exists item, length item = 3%nat /\ Forall (fun b => 0 <= b < 256) item /\ l' = rl_set l (M_arg item)) \/
              l' = rl_set l M_pop)) \/ l' = rl_set l M_idle).
    { intros l z l' H. destruct (_ && _ && _ && _) eqn:E; [|injection H as <-; auto].
      repeat rewrite andb_true_iff in E. destruct E as (((E1 & E2) & E3) & E4).
      apply Nat.ltb_lt in E1, E2. apply Z.leb_le in E3. apply Z.ltb_lt in E4.
      left. split; [split; auto|]. destruct (z =? 0) eqn:E; injection H as <-; auto.
      left. exists [z; z + 1; z + 2]. split; auto. split; auto. repeat constructor; lia. }
    intros [t d pc] m z l' H. destruct pc; try discriminate; try (apply (Hz _ z); exact H); cbn in H.
    + destruct (inb z) eqn:E; [|discriminate]. injection H as <-. cbn. exists z, (ldw demo_cfg m (ex_ofs z)). split; [apply inb_ok; auto|split; reflexivity].
    + destruct (inb z) eqn:E; [|discriminate]. injection H as <-. cbn. exists z, (ldw demo_cfg m (ex_ofs z)). split; [apply inb_ok; auto|split; reflexivity].
  - intros [t d pc] m ps l' H. destruct pc; try discriminate; cbn in H. injection H as <- <-. cbn. eauto.
  - intros l l' H. injection H as <-. reflexivity.
  - intros [t d pc] H. destruct pc; try discriminate. reflexivity.
Qed.
Definition rec_s0 : RseqKernel.state rec_loc := cstart mem0 (fun t => {| rl_tid := t; rl_depth := 0; rl_pc := M_idle |}).
(** Thread 0 pushes the record 7 8 9 on CPU 0, aborted once in the middle of the
    copy; thread 1 moves to CPU 0 and pops the record. *)
Definition rec_acts : list cact :=
  [CTau 0 7; CWrite 0; CTau 0 0; CCall 0] ++ crep 14 (CInstr 0) ++ [CPreempt 0; CResume 0 0] ++ fin 0 ++
  [CTau 0 0; CCall 0] ++ crep 45 (CInstr 0) ++ [CPreempt 0; CPreempt 1; CResume 1 0; CTau 1 0; CTau 1 0; CCall 1] ++ crep 45 (CInstr 1).
Lemma ex_rec : exists tr s, path demo_cfg dx ex_rec_client rec_s0 tr s /\ returned 0 (-1) tr = true /\
  t_ctx (s_thr s 1) = [{| x_loc := {| rl_tid := 1; rl_depth := 0; rl_pc := M_popped true |}; x_act := None |}] /\
  bytes_at (s_mem s) (ex_out 1 0) 3 = [7; 8; 9] /\ ldw demo_cfg (s_mem s) (ex_ofs 0) = 0.
Proof.
  destruct (ends_path rec_loc ex_rec_client demo_cfg dx 2 rec_player rec_plays
    (fun t => idle_thread {| rl_tid := t; rl_depth := 0; rl_pc := M_idle |} None) (fun _ => eq_refl) rec_s0 rec_acts
    (fun tr s => returned 0 (-1) tr &&
       match t_ctx (s_thr s 1) with [{| x_loc := {| rl_tid := 1; rl_depth := 0; rl_pc := M_popped true |}; x_act := None |}] => true | _ => false end &&
       match bytes_at (s_mem s) (ex_out 1 0) 3 with [a; b; c] => (a =? 7) && (b =? 8) && (c =? 9) | _ => false end &&
       (ldw demo_cfg (s_mem s) (ex_ofs 0) =? 0))) as (tr & s & Hp & Hs & Hf).
  - vm_compute. reflexivity.
  - apply (cstart_stays mem0).
  - exists tr, s. split; [exact Hp|]. repeat rewrite andb_true_iff in Hf. rewrite !Z.eqb_eq in Hf.
    destruct Hf as (((H1 & H2) & H3) & H4). split; auto. split; [|split; auto].
    + destruct (t_ctx (s_thr s 1)) as [|[[[|[|]] [|] []] [|]] [|]]; try discriminate; destruct b; try discriminate; reflexivity.
    + destruct (bytes_at (s_mem s) (ex_out 1 0) 3) as [|a [|b [|c [|]]]]; try discriminate.
      repeat rewrite andb_true_iff in H3. rewrite !Z.eqb_eq in H3. destruct H3 as [[-> ->] ->]. reflexivity.
Qed.
