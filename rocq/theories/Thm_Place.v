(** C62: per-CPU structures placed in items of pools, while the program makes
    pool calls. *)
From Coq Require Import ZArith Bool List Lia.
From Verif Require Import RseqIR RseqSpec RseqKernel RseqSim RseqCalls LinSpec ClientModel ClientSpec.
From Verif Require Import Replay ExRseq Archs ArchsGood ClientReplay ExClients ComposeModel ComposeSpec.
From Verif Require Import UtilsModel PoolVM PoolModel PoolWorld PoolHist PoolProps ExPool PlaceModel PlaceSpec PlacePool PlaceFinal ExPlace.
Import ListNotations.
Local Open Scope Z_scope.

Theorem C62_structures_in_pools : forall (Loc : Type) e v0 g a tw tx (pcs : nat -> piece) turn
    (view : forall i, Loc -> piece_loc (pcs i)) P busy at_ j0,
  lib_text a tw tx -> initial (j_s j0) -> uses g pcs turn view P ->
  (forall i, piece_start g (pcs i) (seen pcs turn view i (j_s j0))) ->
  (forall q, link v0 q = None) -> history e true v0 (j_w j0) (j_live j0) (j_freed j0) ->
  agrees e v0 (s_mem (j_s j0)) (j_w j0) (j_live j0) -> incl busy (j_live j0) ->
  placement e v0 g (j_w j0) busy pcs at_ ->
  forall tr j, jpath e v0 g tx pcs turn view P busy j0 tr j ->
  forall i, piece_good g (pcs i) (seen pcs turn view i (j_s j0)) (seen pcs turn view i (j_s j)) (events_of pcs turn view i (obs tr)).
Proof. intros. eapply structures_in_pools; eauto. Qed.
Print Assumptions C62_structures_in_pools.

(** The pools keep theirs: the calls and stores so far are a history of allowed
    uses, so everything Thm_Pool.v says of histories holds; and the structures'
    items are still allocated. *)
Theorem C62_pools_keep_theirs : forall (Loc : Type) e v0 g a tw tx (pcs : nat -> piece) turn
    (view : forall i, Loc -> piece_loc (pcs i)) P busy at_ j0,
  lib_text a tw tx -> initial (j_s j0) -> uses g pcs turn view P ->
  (forall i, piece_start g (pcs i) (seen pcs turn view i (j_s j0))) ->
  (forall q, link v0 q = None) -> history e true v0 (j_w j0) (j_live j0) (j_freed j0) ->
  agrees e v0 (s_mem (j_s j0)) (j_w j0) (j_live j0) -> incl busy (j_live j0) ->
  placement e v0 g (j_w j0) busy pcs at_ ->
  forall tr j, jpath e v0 g tx pcs turn view P busy j0 tr j ->
  history e true v0 (j_w j) (j_live j) (j_freed j) /\ incl busy (j_live j) /\
  agrees e v0 (s_mem (j_s j)) (j_w j) (j_live j).
Proof.
  intros. edestruct (structures_in_pools Loc e v0 g a tw tx pcs turn view P busy at_ j0) as (_ & H9 & H10 & H11 & _); eauto.
Qed.
Print Assumptions C62_pools_keep_theirs.

(** The code of a structure only stores to bytes of that structure, which are
    usable memory; no such store faults. *)
Theorem C62_stores_in_bounds : forall (Loc : Type) e v0 g a tw tx (pcs : nat -> piece) turn
    (view : forall i, Loc -> piece_loc (pcs i)) P busy at_ j0,
  lib_text a tw tx -> initial (j_s j0) -> uses g pcs turn view P ->
  (forall i, piece_start g (pcs i) (seen pcs turn view i (j_s j0))) ->
  (forall q, link v0 q = None) -> history e true v0 (j_w j0) (j_live j0) (j_freed j0) ->
  agrees e v0 (s_mem (j_s j0)) (j_w j0) (j_live j0) -> incl busy (j_live j0) ->
  placement e v0 g (j_w j0) busy pcs at_ ->
  forall tr j, jpath e v0 g tx pcs turn view P busy j0 tr j ->
  forall t bs s', step g tx P (j_s j) (Lwr t bs) s' -> call_ok (j_s j) (Lwr t bs) -> ~ at_large turn (j_s j) t ->
  (exists i, forall x, In x (map fst bs) -> piece_bytes g (pcs i) x) /\
  (forall x, In x (map fst bs) -> good_write e v0 (j_w j) busy x) /\
  exists w', run1 e (OWrite bs) (j_w j) = Ok (w', OutUnit).
Proof.
  intros Loc e v0 g a tw tx pcs turn view P busy at_ j0 H1 H2 H3 H4 H5 H6 H7 H8 H9 tr j Hp t bs s' Hs Hc Hn.
  destruct (structures_in_pools Loc e v0 g a tw tx pcs turn view P busy at_ j0 H1 H2 H3 H4 H5 H6 H7 H8 H9 tr j Hp) as (_ & _ & _ & _ & Hst).
  destruct (Hst t bs s' Hs Hc) as [Hal|Hr]; [contradiction|exact Hr].
Qed.
Print Assumptions C62_stores_in_bounds.

(** Every allowed pool call that returns can be made at any moment by a thread
    that is outside the structures' code. *)
Theorem C62_calls_possible : forall (Loc : Type) e v0 g tx (pcs : nat -> piece) turn (view : forall i, Loc -> piece_loc (pcs i)) P busy j t l k l' o w' x,
  history e true v0 (j_w j) (j_live j) (j_freed j) -> agrees e v0 (s_mem (j_s j)) (j_w j) (j_live j) ->
  running (s_thr (j_s j) t) -> top_is (j_s j) t l None k -> turn l = None -> (forall i, view i l' = view i l) ->
  pool_call busy o -> allowed e true v0 (j_w j) (j_live j) o -> run1 e o (j_w j) = Ok (w', x) ->
  exists bs j', jstep e v0 g tx pcs turn view P busy j (Lwr t bs) j' /\
    j_w j' = w' /\ j_live j' = live_after o x (j_live j) /\ j_freed j' = freed_after o x (j_live j) (j_freed j) /\
    agrees e v0 (s_mem (j_s j')) w' (j_live j') /\ t_ctx (s_thr (j_s j') t) = {| x_loc := l'; x_act := None |} :: k.
Proof. exact calls_possible. Qed.
Print Assumptions C62_calls_possible.

(** A word placed in an item that was just allocated zeroed reads 0 on every CPU:
    a structure there is empty, unlocked, at 0. *)
Theorem C62_zeroed_words : forall e v0 g w L F id it P w' x f busy cpus sp,
  history e true v0 w L F -> In (id, P) (w_pools w) -> In (id, it) L -> run1 e (OFill id it Zeroed) w = Ok (w', x) ->
  word_at g w' busy cpus f sp -> sp_pool sp = id -> sp_item sp = it ->
  forall cpu, In cpu cpus -> ldw g (PoolVM.view e (w_vm w')) (f cpu) = 0.
Proof. exact zeroed_words. Qed.
Print Assumptions C62_zeroed_words.

(** ** A case: thread 0 pushes 7 and counts it.  In its next push a signal handler
    allocates a second item, fills it with 1, 2, 3, writes to it, and frees it;
    the push aborts and is done again. *)
Definition run_acts : list jact :=
  map JC ([CTau 0 2001; CTau 0 7; CTau 0 0; CCall 0] ++ fin 0 ++ [CTau 0 2000; CCall 0] ++ fin 0 ++
    [CTau 0 2001; CTau 0 8; CTau 0 0; CCall 0; CInstr 0; CInstr 0; CSignal 0]) ++
  [JP 0 (OMalloc 7 (grant 0)); JP 0 (OFill 7 1056784 (Bytes [1; 2; 3])); JC (CWrite 0); JP 0 (OFree 1056784 8192); JC (CSigret 0)] ++
  map JC (fin 0 ++ [CTau 0 0; CCall 0] ++ fin 0).
Lemma prog_jok : jok prog_loc 2 (fun t => idle_thread {| g_turn := None; g_buf := B_idle |} None) prog_j0.
Proof. split; [apply cstart_stays|]. split; [exact prog_history|exact prog_agrees]. Qed.
Lemma prog_run : exists tr j, jpath e0 v0 demo_cfg dx two_parts g_turn prog_view prog in_use prog_j0 tr j /\
  returned 0 (-1) tr = true /\ total demo_cfg two pushed (s_mem (j_s j)) = 5 /\ ldw demo_cfg (s_mem (j_s j)) (offs 0) = 2 /\
  length (j_freed j) = 1%nat.
Proof.
  destruct (jends_path prog_loc prog demo_cfg dx 2 prog_player prog_plays
    (fun t => idle_thread {| g_turn := None; g_buf := B_idle |} None) (fun _ => eq_refl)
    two_parts g_turn prog_view in_use prog_j0 run_acts
    (fun tr j => returned 0 (-1) tr && (total demo_cfg two pushed (s_mem (j_s j)) =? 5) &&
       (ldw demo_cfg (s_mem (j_s j)) (offs 0) =? 2) && Nat.eqb (length (j_freed j)) 1)) as (tr & j & Hp & Hf).
  - vm_compute. reflexivity.
  - exact prog_jok.
  - exists tr, j. split; [exact Hp|]. repeat rewrite andb_true_iff in Hf. rewrite !Z.eqb_eq, !Nat.eqb_eq in Hf. tauto.
Qed.
Example C62_case :
  lib_text X86_64 false dx /\ initial (j_s prog_j0) /\ uses demo_cfg two_parts g_turn prog_view prog /\
  (forall i, piece_start demo_cfg (two_parts i) (seen two_parts g_turn prog_view i (j_s prog_j0))) /\
  (forall q, link v0 q = None) /\ history e0 true v0 (j_w prog_j0) (j_live prog_j0) (j_freed prog_j0) /\
  agrees e0 v0 (s_mem (j_s prog_j0)) (j_w prog_j0) (j_live prog_j0) /\ incl in_use (j_live prog_j0) /\
  placement e0 v0 demo_cfg (j_w prog_j0) in_use two_parts spots /\
  exists tr j, jpath e0 v0 demo_cfg dx two_parts g_turn prog_view prog in_use prog_j0 tr j /\
  returned 0 (-1) tr = true /\ total demo_cfg two pushed (s_mem (j_s j)) = 5 /\ ldw demo_cfg (s_mem (j_s j)) (offs 0) = 2 /\
  length (j_freed j) = 1%nat.
Proof.
  split; [apply demo_lib|]. split; [apply cstart_initial|]. split; [exact prog_uses|]. split; [exact prog_start|].
  split; [intros q; reflexivity|]. split; [exact prog_history|]. split; [exact prog_agrees|]. split; [apply incl_refl|].
  split; [exact prog_placement|]. exact prog_run.
Qed.

(** ** The items of the structures must be left alone: if the program fills the
    item of the counter again, the counter no longer adds up. *)
Theorem C62_refilled_item_refuted : exists tr j,
  lib_text X86_64 false dx /\ initial (j_s prog_j0) /\ uses demo_cfg two_parts g_turn prog_view prog /\
  history e0 true v0 (j_w prog_j0) (j_live prog_j0) (j_freed prog_j0) /\ incl in_use (j_live prog_j0) /\
  placement e0 v0 demo_cfg (j_w prog_j0) in_use two_parts spots /\
  jpath e0 v0 demo_cfg dx two_parts g_turn prog_view prog [] prog_j0 tr j /\
  ~ piece_good demo_cfg (two_parts 0) (seen two_parts g_turn prog_view 0 (j_s prog_j0)) (seen two_parts g_turn prog_view 0 (j_s j))
      (events_of two_parts g_turn prog_view 0 (obs tr)).
Proof.
  destruct (jends_path prog_loc prog demo_cfg dx 2 prog_player prog_plays
    (fun t => idle_thread {| g_turn := None; g_buf := B_idle |} None) (fun _ => eq_refl)
    two_parts g_turn prog_view [] prog_j0 (map JC ([CTau 0 2000; CCall 0] ++ fin 0) ++ [JP 0 (OFill 7 1056768 Zeroed)])
    (fun tr j => (wrap demo_cfg (total demo_cfg two pushed (s_mem (j_s j))) =? 0) &&
       (ClientSpec.count ev_ret0 (events_of two_parts g_turn prog_view 0 (obs tr)) =? 1) &&
       (ClientSpec.count ev_call (events_of two_parts g_turn prog_view 0 (obs tr)) =? 1) &&
       (ClientSpec.count ev_ret (events_of two_parts g_turn prog_view 0 (obs tr)) =? 1))) as (tr & j & Hp & Hf).
  - vm_compute. reflexivity.
  - exact prog_jok.
  - repeat rewrite andb_true_iff in Hf. rewrite !Z.eqb_eq in Hf. destruct Hf as (((F1 & F2) & F3) & F4).
    exists tr, j. split; [apply demo_lib|]. split; [apply cstart_initial|]. split; [exact prog_uses|].
    split; [exact prog_history|]. split; [apply incl_refl|]. split; [exact prog_placement|]. split; [exact Hp|].
    intros (n & H1 & H2 & H3 & _). 
    assert (G2 : ClientSpec.count ev_ret0 (events_of two_parts g_turn prog_view 0 (obs tr)) <= n) by exact H2.
    assert (G3 : n <= ClientSpec.count ev_ret0 (events_of two_parts g_turn prog_view 0 (obs tr)) +
      (ClientSpec.count ev_call (events_of two_parts g_turn prog_view 0 (obs tr)) - ClientSpec.count ev_ret (events_of two_parts g_turn prog_view 0 (obs tr)))) by exact H3.
    rewrite F2 in G2, G3. rewrite F3, F4 in G3.
    assert (n = 1) by lia. subst n.
    assert (Hw : wrap demo_cfg (total demo_cfg two pushed (s_mem (j_s j))) = wrap demo_cfg (total demo_cfg two pushed (s_mem prog_s0) + 1 * 5)) by exact H1.
    rewrite F1 in Hw. assert (H0 : wrap demo_cfg (total demo_cfg two pushed (s_mem prog_s0) + 1 * 5) = 5) by (vm_compute; reflexivity).
    rewrite H0 in Hw. discriminate Hw.
Qed.
Print Assumptions C62_refilled_item_refuted.
