(** C61: in a program with any number of per-CPU structures, each of them keeps
    what it guarantees alone. *)
From Coq Require Import ZArith Bool List Lia.
From Verif Require Import RseqIR RseqSpec RseqKernel RseqSim RseqCalls LinSpec ClientModel ClientSpec.
From Verif Require Import Replay ExRseq Archs ArchsGood ClientReplay ExClients ComposeModel ComposeSpec ComposeFinal.
Import ListNotations.
Local Open Scope Z_scope.

Theorem C61_structures_compose : forall (Loc : Type) g a tw tx (pcs : nat -> piece) turn
    (view : forall i, Loc -> piece_loc (pcs i)) P s0,
  lib_text a tw tx -> initial s0 -> (forall i, piece_ok g (pcs i)) -> separate g pcs ->
  uses g pcs turn view P -> (forall i, piece_start g (pcs i) (seen pcs turn view i s0)) ->
  forall tr s, path g tx P s0 tr s -> forall i,
  piece_good g (pcs i) (seen pcs turn view i s0) (seen pcs turn view i s) (events_of pcs turn view i (obs tr)).
Proof. exact structures_compose. Qed.
Print Assumptions C61_structures_compose.

(** ** A program with a buffer and a counter of the items pushed, that also
    writes to memory of its own. *)
Definition ex_pushed (c : Z) : Z := 16384 + 8 * c.
Definition duo (i : nat) : piece :=
  match i with
  | 0%nat => {| p_mode := CPU_ID; p_cpus := two; p_kind := K_count ex_pushed 5 |}
  | 1%nat => {| p_mode := CPU_ID; p_cpus := two; p_kind := K_buf ex_ofs ex_arr ex_len (plain_load demo_cfg) |}
  | _ => {| p_mode := CPU_ID; p_cpus := []; p_kind := K_nothing |}
  end.
Record duo_loc := { d_turn : option nat; d_buf : buf_loc }.
Definition duo_view (i : nat) (l : duo_loc) : piece_loc (duo i) :=
  match i return piece_loc (duo i) with
  | 0%nat => tt
  | 1%nat => d_buf l
  | _ => tt
  end.
Definition duo_client : client duo_loc :=
  {| cl_call := fun l m c => match d_turn l with
       | Some 0%nat => cl_call _ (count_client CPU_ID two ex_pushed 5) tt m c
       | Some 1%nat => cl_call _ ex_buf_client (d_buf l) m c
       | _ => False end;
     cl_ret := fun l c r => match d_turn l with
       | Some 0%nat => {| d_turn := None; d_buf := d_buf l |}
       | Some 1%nat => {| d_turn := Some 1%nat; d_buf := cl_ret _ ex_buf_client (d_buf l) c r |}
       | _ => l end;
     (* to a variable of its own *)
     cl_write := fun l _ bs l' => d_turn l = None /\ map fst bs = [65536] /\ l' = l;
     cl_tau := fun l m l' =>
       d_buf l' = d_buf l \/
       (d_turn l = Some 1%nat /\ d_turn l' = Some 1%nat /\ cl_tau _ ex_buf_client (d_buf l) m (d_buf l'));
     cl_sig := fun _ l' => l' = {| d_turn := None; d_buf := B_idle |};
     cl_done := fun l => d_buf l = B_idle |}.

(** The choices of the runs: numbers from 2000 on select what to do next, others go to the buffer. *)
Definition duo_player : player duo_loc :=
  {| pl_call := fun l m => match d_turn l with
       | Some 0%nat => Some {| c_code := 1; c_op := AddStore (ex_pushed 0) 5; c_cpu := 0; c_mode := CPU_ID |}
       | Some 1%nat => pl_call buf_player (d_buf l) m
       | _ => None end;
     pl_tau := fun l m z =>
       if z =? 2000 then Some {| d_turn := Some 0%nat; d_buf := d_buf l |} else
       if z =? 2001 then Some {| d_turn := Some 1%nat; d_buf := d_buf l |} else
       if z =? 2002 then Some {| d_turn := None; d_buf := d_buf l |} else
       match d_turn l, pl_tau buf_player (d_buf l) m z with
       | Some 1%nat, Some b => Some {| d_turn := Some 1%nat; d_buf := b |}
       | _, _ => None end;
     pl_write := fun l _ => match d_turn l with None => Some ([(65536, 77)], l) | _ => None end;
     pl_sig := fun _ => Some {| d_turn := None; d_buf := B_idle |};
     pl_done := fun l => match d_buf l with B_idle => true | _ => false end |}.
Lemma duo_plays : plays duo_client duo_player.
Proof.
  destruct buf_plays as (B1 & B2 & _ & _ & _).
  split; [|split; [|split; [|split]]].
  - intros [[[|[|i]]|] b] m c H; try discriminate; cbn [pl_call duo_player d_turn d_buf] in H.
    + injection H as <-. cbn. auto.
    + apply B1 in H. exact H.
  - intros [tu b] m z l' H. cbn [pl_tau duo_player d_turn d_buf] in H.
    destruct (z =? 2000); [injection H as <-; left; reflexivity|].
    destruct (z =? 2001); [injection H as <-; left; reflexivity|].
    destruct (z =? 2002); [injection H as <-; left; reflexivity|].
    destruct tu as [[|[|i]]|]; try discriminate.
    destruct (pl_tau buf_player b m z) as [b'|] eqn:E; [|discriminate].
    injection H as <-. right. cbn [d_turn d_buf]. apply B2 in E. auto.
  - intros [[i|] b] m ps l' H; [discriminate|]. injection H as <- <-. cbn. auto.
  - intros l l' H. injection H as <-. reflexivity.
  - intros [tu []] H; try discriminate. reflexivity.
Qed.

Lemma duo_uses : uses demo_cfg duo d_turn duo_view duo_client.
Proof.
  split.
  - intros [[[|[|i]]|] b] m c H; cbn [cl_call duo_client d_turn d_buf] in H; try contradiction.
    + exists 0%nat. split; [reflexivity|exact H].
    + exists 1%nat. split; [reflexivity|exact H].
  - intros [tu b] c r i H. cbn [d_turn] in H. subst tu. destruct i as [|[|i]].
    + split; [reflexivity|]. intros [|[|j]] Hj; [congruence|reflexivity|reflexivity].
    + split; [reflexivity|]. intros [|[|j]] Hj; [reflexivity|congruence|reflexivity].
    + split; [reflexivity|]. intros [|[|j]] Hj; reflexivity.
  - intros l m bs l' (H1 & H2 & H3). subst l'. right. split; [exact H1|]. split; [|reflexivity].
    intros i x Hx. rewrite H2 in Hx. destruct Hx as [<-|[]]. destruct i as [|[|i]]; cbn [duo].
    + intros (cpu & Hc & Hs). cbn [p_cpus] in Hc. apply two_cases in Hc. destruct Hc as [-> | ->]; cbn in Hs; lia.
    + intros [(cpu & Hc & Hs)|(cpu & Hc & Hs)]; cbn [p_cpus] in Hc; apply two_cases in Hc; destruct Hc as [-> | ->]; cbn in Hs; lia.
    + intros [].
  - intros l m l' [H|(H1 & H2 & H3)].
    + right. intros [|[|j]]; [reflexivity|exact H|reflexivity].
    + left. exists 1%nat. split; [exact H1|]. split; [exact H3|]. intros [|[|j]] Hj; [reflexivity|congruence|reflexivity].
  - intros l l' H [|[|i]]; [exact Logic.I| |exact Logic.I]. cbn in H. subst l'. reflexivity.
  - intros l H [|[|i]]; [exact Logic.I|exact H|exact Logic.I].
Qed.
Lemma duo_separate : separate demo_cfg duo.
Proof.
  assert (H : forall a, piece_bytes demo_cfg (duo 0) a -> 16384 <= a).
  { intros a (cpu & Hc & Hs). apply two_cases in Hc. destruct Hc as [-> | ->]; cbn in Hs; lia. }
  assert (H' : forall a, piece_bytes demo_cfg (duo 1) a -> a < 16384).
  { intros a [(cpu & Hc & Hs)|(cpu & Hc & Hs)]; apply two_cases in Hc; destruct Hc as [-> | ->]; cbn in Hs; lia. }
  intros [|[|i]] [|[|j]] a Hn Hi Hj; try congruence; try contradiction.
  - apply H in Hi. apply H' in Hj. lia.
  - apply H' in Hi. apply H in Hj. lia.
Qed.
Lemma duo_ok : forall i, piece_ok demo_cfg (duo i).
Proof.
  intros [|[|i]].
  - split; [exact two_nodup|]. intros c d Hc Hd Hn a H1 H2. apply two_cases in Hc, Hd.
    destruct Hc as [-> | ->], Hd as [-> | ->]; try congruence; cbn in H1, H2; lia.
  - exact buf_layout_ex.
  - exact Logic.I.
Qed.

Definition duo_s0 : RseqKernel.state duo_loc := cstart mem0 (fun _ => {| d_turn := None; d_buf := B_idle |}).
Lemma duo_start : forall i, piece_start demo_cfg (duo i) (seen duo d_turn duo_view i duo_s0).
Proof.
  intros [|[|i]]; [exact Logic.I| |exact Logic.I].
  split; [intros t; reflexivity|]. exists (fun _ => []). split; [|intros; cbn; lia].
  intros cpu _. split; [reflexivity|exact Logic.I].
Qed.

(** Thread 0 pushes 7 on CPU 0 and counts it; in the middle of its next push a
    signal handler writes the variable of the program and calls the counter;
    the push aborts; thread 0 pushes again.  Thread 1 then moves to CPU 0 and
    tries to count, stopped before the commit. *)
Definition duo_acts : list cact :=
  [CTau 0 2001; CTau 0 7; CTau 0 0; CCall 0] ++ fin 0 ++ [CTau 0 2000; CCall 0] ++ fin 0 ++
  [CTau 0 2001; CTau 0 8; CTau 0 0; CCall 0; CInstr 0; CInstr 0; CSignal 0; CWrite 0; CTau 0 2000; CCall 0] ++ fin 0 ++
  [CSigret 0] ++ fin 0 ++ [CTau 0 0; CCall 0] ++ fin 0 ++
  [CPreempt 0; CPreempt 1; CResume 1 0; CTau 1 2000; CCall 1; CInstr 1; CInstr 1].

Lemma ex_duo : exists tr s, path demo_cfg dx duo_client duo_s0 tr s /\
  returned 0 (-1) tr = true /\
  total demo_cfg two ex_pushed (s_mem s) = 10 /\ ldw demo_cfg (s_mem s) (ex_ofs 0) = 2 /\ byte (s_mem s) 65536 = 77 /\
  length (in_progress (seen duo d_turn duo_view 0 s) 1) = 1%nat /\ length (in_progress (seen duo d_turn duo_view 1 s) 1) = 0%nat /\
  count ev_call (events_of duo d_turn duo_view 0 (obs tr)) = 3 /\ count ev_call (events_of duo d_turn duo_view 1 (obs tr)) = 3.
Proof.
  destruct (ends_path duo_loc duo_client demo_cfg dx 2 duo_player duo_plays
    (fun t => idle_thread {| d_turn := None; d_buf := B_idle |} None)
    (fun _ => eq_refl) duo_s0 duo_acts
    (fun tr s => returned 0 (-1) tr && (total demo_cfg two ex_pushed (s_mem s) =? 10) &&
       (ldw demo_cfg (s_mem s) (ex_ofs 0) =? 2) && (byte (s_mem s) 65536 =? 77) &&
       Nat.eqb (length (in_progress (seen duo d_turn duo_view 0 s) 1)) 1 &&
       Nat.eqb (length (in_progress (seen duo d_turn duo_view 1 s) 1)) 0 &&
       (count ev_call (events_of duo d_turn duo_view 0 (obs tr)) =? 3) &&
       (count ev_call (events_of duo d_turn duo_view 1 (obs tr)) =? 3)))
    as (tr & s & Hp & Hs & Hf).
  - vm_compute. reflexivity.
  - apply cstart_stays.
  - exists tr, s. split; [exact Hp|]. repeat rewrite andb_true_iff in Hf. rewrite !Z.eqb_eq, !Nat.eqb_eq in Hf. tauto.
Qed.

Example C61_case :
  lib_text X86_64 false dx /\ initial duo_s0 /\ (forall i, piece_ok demo_cfg (duo i)) /\ separate demo_cfg duo /\
  uses demo_cfg duo d_turn duo_view duo_client /\
  (forall i, piece_start demo_cfg (duo i) (seen duo d_turn duo_view i duo_s0)) /\
  exists tr s, path demo_cfg dx duo_client duo_s0 tr s /\
  returned 0 (-1) tr = true /\
  total demo_cfg two ex_pushed (s_mem s) = 10 /\ ldw demo_cfg (s_mem s) (ex_ofs 0) = 2 /\ byte (s_mem s) 65536 = 77 /\
  length (in_progress (seen duo d_turn duo_view 0 s) 1) = 1%nat /\ length (in_progress (seen duo d_turn duo_view 1 s) 1) = 0%nat /\
  count ev_call (events_of duo d_turn duo_view 0 (obs tr)) = 3 /\ count ev_call (events_of duo d_turn duo_view 1 (obs tr)) = 3.
Proof.
  split; [apply demo_lib|]. split; [apply cstart_initial|]. split; [exact duo_ok|]. split; [exact duo_separate|].
  split; [exact duo_uses|]. split; [exact duo_start|]. exact ex_duo.
Qed.

(** ** The structures must be apart: two counters in the same words do not each
    add up to their own calls. *)
Definition same (i : nat) : piece :=
  match i with
  | 0%nat | 1%nat => {| p_mode := CPU_ID; p_cpus := two; p_kind := K_count ex_pushed 5 |}
  | _ => {| p_mode := CPU_ID; p_cpus := []; p_kind := K_nothing |}
  end.
Definition same_view (i : nat) (l : option nat) : piece_loc (same i) :=
  match i return piece_loc (same i) with 0%nat => tt | 1%nat => tt | _ => tt end.
Definition same_client : client (option nat) :=
  {| cl_call := fun l m c => match l with
       | Some 0%nat | Some 1%nat => cl_call _ (count_client CPU_ID two ex_pushed 5) tt m c
       | _ => False end;
     cl_ret := fun l _ _ => l;
     cl_write := fun _ _ _ _ => False;
     cl_tau := fun _ _ _ => True;
     cl_sig := fun _ _ => True;
     cl_done := fun _ => True |}.
Definition same_player : player (option nat) :=
  {| pl_call := fun l m => match l with
       | Some 0%nat => Some {| c_code := 1; c_op := AddStore (ex_pushed 0) 5; c_cpu := 0; c_mode := CPU_ID |}
       | _ => None end;
     pl_tau := fun l m z => Some (Some 0%nat);
     pl_write := fun l _ => None;
     pl_sig := fun _ => None;
     pl_done := fun l => false |}.
Lemma same_plays : plays same_client same_player.
Proof.
  split; [|split; [|split; [|split]]]; try (intros; cbn in *; discriminate).
  - intros [[|i]|] m c H; try discriminate. injection H as <-. cbn. auto.
  - intros l m z l' H. exact Logic.I.
Qed.
Lemma same_uses : uses demo_cfg same (fun l => l) same_view same_client.
Proof.
  assert (V : forall j l l', same_view j l = same_view j l') by (intros [|[|j]] l l'; reflexivity).
  split.
  - intros [[|[|i]]|] m c H; cbn in H; try contradiction; [exists 0%nat|exists 1%nat]; (split; [reflexivity|exact H]).
  - intros l c r i _. split; [destruct i as [|[|i]]; reflexivity|]. intros; apply V.
  - intros l m bs l' [].
  - intros l m l' _. right. intros; apply V.
  - intros l l' _ [|[|i]]; exact Logic.I.
  - intros l _ [|[|i]]; exact Logic.I.
Qed.
Definition same_s0 : RseqKernel.state (option nat) := cstart mem0 (fun _ => None).

Theorem C61_shared_bytes_refuted : exists tr s,
  (forall i, piece_ok demo_cfg (same i)) /\ uses demo_cfg same (fun l => l) same_view same_client /\
  (forall i, piece_start demo_cfg (same i) (seen same (fun l => l) same_view i same_s0)) /\
  lib_text X86_64 false dx /\ initial same_s0 /\ path demo_cfg dx same_client same_s0 tr s /\
  ~ piece_good demo_cfg (same 1) (seen same (fun l => l) same_view 1 same_s0) (seen same (fun l => l) same_view 1 s)
      (events_of same (fun l => l) same_view 1 (obs tr)).
Proof.
  destruct (ends_path (option nat) same_client demo_cfg dx 2 same_player same_plays
    (fun t => idle_thread None None) (fun _ => eq_refl) same_s0 ([CTau 0 0; CCall 0] ++ fin 0)
    (fun tr s => (wrap demo_cfg (total demo_cfg two ex_pushed (s_mem s)) =? 5) &&
       (Nat.eqb (length (events_of same (fun l => l) same_view 1 (obs tr))) 0))) as (tr & s & Hp & Hs & Hf).
  - vm_compute. reflexivity.
  - apply cstart_stays.
  - exists tr, s. apply andb_true_iff in Hf. destruct Hf as [F1 F2]. apply Z.eqb_eq in F1. apply Nat.eqb_eq in F2.
    split; [|split; [exact same_uses|split; [|split; [apply demo_lib|split; [apply cstart_initial|split; [exact Hp|]]]]]].
    + intros [|[|i]]; try exact Logic.I; apply (duo_ok 0).
    + intros [|[|i]]; exact Logic.I.
    + destruct (events_of same (fun l => l) same_view 1 (obs tr)); [|discriminate].
      intros (n & H1 & H2 & H3 & _). change (count ev_ret0 _) with 0 in H2, H3.
      change (0 + (count ev_call _ - count ev_ret _)) with 0 in H3.
      assert (n = 0) by (change (n <= 0) in H3; lia). subst n.
      assert (H4 : wrap demo_cfg (total demo_cfg two ex_pushed (s_mem s)) = 0) by exact H1.
      rewrite F1 in H4. discriminate.
Qed.
Print Assumptions C61_shared_bytes_refuted.
