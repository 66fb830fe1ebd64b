(** Concrete histories of pool calls in 32-bit programs, and the checker of
    ExPool.v for any machine. *)
From Coq Require Import ZArith Bool List Lia Znumtheory.
From Verif Require Import UtilsModel RseqIR PoolVM PoolModel PoolWorld PoolMap PoolHist PoolProps PoolProps2 PoolProps3 ExPool.
Import ListNotations.
Local Open Scope Z_scope.

Section Any.
Variable e : env.
Definition allowed_on (w : world) (lv : ledger) (o : op) : bool :=
  match o with
  | OCreate id _ len at_ _ =>
    let a := attr_of at_ in
    match lookup id (w_pools w) with Some _ => false | None => true end &&
    (0 <=? len) && (len <? wmax e) && ((type a =? TYPE_PERCPU) || (type a =? TYPE_GLOBAL)) &&
    (0 <=? stride a) && (stride a <? wmax e) && (0 <=? poison a) && (poison a <? wmax e) &&
    (0 <=? max_nr_ranges a) && (max_nr_ranges a <? wmax e) && (want_stride a * (want_cpus e a + 5) <? wmax e)
  | OMalloc id _ | ODestroy id _ => match lookup id (w_pools w) with Some _ => true | None => false end
  | OFill id item c =>
    match lookup id (w_pools w) with
    | Some P => knows lv id item &&
      match c with
      | Bytes bs => forallb (fun b => (0 <=? b) && (b <? 256)) bs && (Z.of_nat (length bs) <=? item_len P)
      | _ => true
      end
    | None => false
    end
  | OFree ptr strd =>
    existsb (fun i => (snd i =? ptr) &&
      match lookup (fst i) (w_pools w) with Some P => strd =? stride (pattr P) | None => false end) lv
  | OWrite ps => forallb (fun p =>
      existsb (fun i => match lookup (fst i) (w_pools w) with Some P => in_item P (snd i) (fst p) | None => false end) lv) ps
  end.
Lemma allowed_on_ok : forall w lv o, allowed_on w lv o = true -> allowed e true v0 w lv o.
Proof.
  intros w lv o H. destruct o; cbn [allowed_on] in H; cbn [allowed].
  - destruct (lookup id (w_pools w)); [discriminate|]. booleans. split; auto. split; [lia|]. split; [|unfold fits; lia].
    constructor; try lia. all: match goal with H : _ || _ = true |- _ => apply orb_prop in H; destruct H as [K|K]; apply Z.eqb_eq in K; auto end.
  - destruct (lookup id (w_pools w)) as [P|]; [exists P; auto|discriminate].
  - destruct (lookup id (w_pools w)) as [P|]; [exists P|discriminate]. booleans. split; auto. split; [now apply knows_in|].
    destruct c; cbn; auto. booleans. split; auto. apply Forall_forall. intros b Hb.
    match goal with H : forallb _ _ = true |- _ => rewrite forallb_forall in H; specialize (H _ Hb) end. booleans. auto.
  - apply existsb_exists in H. destruct H as ([id a] & Hin & H). cbn [fst snd] in H. booleans. subst a.
    destruct (lookup id (w_pools w)) as [P|] eqn:El; [|discriminate]. booleans. exists id, P. auto.
  - intros x Hx. apply in_map_iff in Hx. destruct Hx as (p & <- & Hp). rewrite forallb_forall in H. specialize (H _ Hp).
    left. right. apply existsb_exists in H.
    destruct H as ([id a] & Hin & H). cbn [fst snd] in H. destruct (lookup id (w_pools w)) as [P|] eqn:El; [|discriminate].
    exists id, P, a. split; [now apply lookup_in|]. split; auto. unfold in_item in H. booleans.
    exists ((fst p - a) / stride (pattr P)), ((fst p - a) mod stride (pattr P)).
    pose proof (Z.mod_pos_bound (fst p - a) (stride (pattr P)) ltac:(lia)).
    pose proof (Z.div_mod (fst p - a) (stride (pattr P)) ltac:(lia)).
    split; [split; [apply Z.div_pos; lia|auto]|]. split; [lia|]. unfold percpu_ptr. lia.
  - destruct (lookup id (w_pools w)) as [P|]; [exists P; auto|discriminate].
Qed.

Fixpoint play_on (os : list op) (st : state) : option state :=
  match os with
  | [] => Some st
  | o :: os =>
    let '(w, lv, fr) := st in
    if allowed_on w lv o then
      match run1 e o w with
      | Ok (w', x) => play_on os (w', live_after o x lv, freed_after o x lv fr)
      | _ => None
      end
    else None
  end.
Lemma play_on_reach : forall os w lv fr, reach e true v0 w lv fr ->
  forall w' lv' fr', play_on os (w, lv, fr) = Some (w', lv', fr') -> reach e true v0 w' lv' fr'.
Proof.
  intros os. induction os as [|o os IH]; intros w lv fr Hr w' lv' fr' Hp; cbn [play_on] in Hp.
  - injection Hp as <- <- <-. exact Hr.
  - destruct (allowed_on w lv o) eqn:Ea; [|discriminate].
    destruct (run1 e o w) as [[w1 x]| |] eqn:E; try discriminate. eapply IH; [|exact Hp].
    eapply reach_step; eauto. now apply allowed_on_ok.
Qed.
Definition final_on (os : list op) : state := match play_on os start with Some st => st | None => start end.
(** The history is allowed; what is live and freed; what the test says of the
    pool 7 and of the last world. *)
Definition gives_on (os : list op) (L F : ledger) (test : pool -> world -> bool) : bool :=
  match play_on os start with
  | Some (w, lv, fr) => same_ledger lv L && same_ledger fr F &&
      match lookup 7 (w_pools w) with Some P => test P w | None => false end
  | None => false
  end.
Lemma gives_on_ok : forall os L F test, machine_ok e -> address_space_ok e v0 -> gives_on os L F test = true ->
  exists w P, history e true v0 w L F /\ lookup 7 (w_pools w) = Some P /\ test P w = true.
Proof.
  intros os L F test Hm Hs H. unfold gives_on in H. destruct (play_on os start) as [[[w lv] fr]|] eqn:E; [|discriminate H].
  destruct (lookup 7 (w_pools w)) as [P|] eqn:El; [|rewrite andb_false_r in H; discriminate H]. booleans.
  match goal with H1 : same_ledger lv L = true, H2 : same_ledger fr F = true |- _ => apply same_ledger_ok in H1, H2; subst lv fr end.
  exists w, P. split; [|auto]. split; [exact Hm|]. split; [exact Hs|].
  eapply play_on_reach; [|exact E]. constructor.
Qed.
End Any.

(** A 32-bit big-endian machine. *)
Definition e32 : env := {| e_page := 4096; e_big := true; e_ncpus := 2; e_wide := false |}.
Lemma e32_ok : machine_ok e32.
Proof. split; [exists 12; split; [cbn; lia|reflexivity]|cbn; lia]. Qed.
Lemma e32_space : address_space_ok e32 v0.
Proof. split; [|split]; cbn; [discriminate|discriminate|]. intros a H H'. congruence. Qed.

(** Items of 3 bytes occupy 4, the size of a pointer. *)
Definition os32 : list op :=
  [ OCreate 7 true 3 (Some (attrs true COW_INIT 0)) (grant 1048576);
    OMalloc 7 (grant 0); OMalloc 7 (grant 0); OFill 7 1056772 (Bytes [1; 2; 3]); OMalloc 7 (grant 0);
    OWrite [(1056768 + 8192 + 3, 77)];
    OFree 1056776 8192; OFree 1056768 8192 ].
(** The default poison value; the copy of CPU 1 of the freed items; their links. *)
Definition test32 (P : pool) (w : world) : bool :=
  (item_len P =? 4) && (item_order P =? 2) && (poison (pattr P) =? 0x55555555) && robust_set (pattr P) &&
  forallb (fun k => byte (view e32 (w_vm w)) (1056768 + 8192 + k) =? 0x55) [0; 1; 2; 3] &&
  forallb (fun kb => byte (view e32 (w_vm w)) (1056772 + 8192 + fst kb) =? snd kb) [(0, 1); (1, 2); (2, 3)] &&
  (load_word e32 (w_vm w) (free_list_head P) =? percpu_to_free_list_ptr e32 P 1056776).
Lemma os32_gives : gives_on e32 os32 [(7, 1056772)] [(7, 1056768); (7, 1056776)] test32 = true.
Proof. vm_compute. reflexivity. Qed.

(** The default stride and 65537 CPUs: 2^32 + 2^16 bytes, of which 2^16 are mapped. *)
Definition wide_at : attr :=
  {| init_set := false; robust_set := false; type := TYPE_PERCPU; stride := 0; max_nr_cpus := 65537;
     max_nr_ranges := 1; poison_set := false; poison := 0; populate_policy := COW_ZERO |}.
Definition wide_two : option (world * Z) :=
  match run1 e32 (OCreate 1 true 64 (Some wide_at) (grant 1048576)) {| w_vm := v0; w_pools := [] |} with
  | Ok (w1, OutMade) => match run1 e32 (OMalloc 1 (grant 0)) w1 with Ok (w2, OutItem a) => Some (w2, a) | _ => None end
  | _ => None
  end.
Definition wide_test : bool :=
  match wide_two with
  | Some (w2, a) =>
    match lookup 1 (w_pools w2) with
    | Some P => (1 <? max_nr_cpus (pattr P)) && negb (mapped (w_vm w2) (page e32 (percpu_ptr P a 1)))
    | None => false
    end
  | None => false
  end.
Lemma p_overflow32 : exists e v0 len at_ an an' w1 w2 P a cpu,
  e_wide e = false /\ machine_ok e /\ address_space_ok e v0 /\ 0 <= len < wmax e /\ attr_ok e at_ /\
  stride at_ = 0 /\ max_nr_cpus at_ = 65537 /\
  run1 e (OCreate 1 true len (Some at_) an) {| w_vm := v0; w_pools := [] |} = Ok (w1, OutMade) /\
  run1 e (OMalloc 1 an') w1 = Ok (w2, OutItem a) /\
  In (1, P) (w_pools w2) /\ 0 <= cpu < max_nr_cpus (pattr P) /\
  mapped (w_vm w2) (page e (percpu_ptr P a cpu)) = false.
Proof.
  assert (T : wide_test = true) by (vm_compute; reflexivity). unfold wide_test, wide_two in T.
  destruct (run1 e32 (OCreate 1 true 64 (Some wide_at) (grant 1048576)) {| w_vm := v0; w_pools := [] |}) as [[w1 x1]| |] eqn:E1; try discriminate T.
  destruct x1; try discriminate T.
  destruct (run1 e32 (OMalloc 1 (grant 0)) w1) as [[w2 x2]| |] eqn:E2; try discriminate T.
  destruct x2 as [| | |a| |]; try discriminate T.
  destruct (lookup 1 (w_pools w2)) as [P|] eqn:El; [|discriminate T]. booleans.
  exists e32, v0, 64, wide_at, (grant 1048576), (grant 0), w1, w2, P, a, 1.
  split; [reflexivity|]. split; [exact e32_ok|]. split; [exact e32_space|]. split; [cbv; split; [discriminate|reflexivity]|].
  split; [constructor; cbn; auto; lia|]. split; [reflexivity|]. split; [reflexivity|]. split; [exact E1|]. split; [exact E2|].
  split; [now apply lookup_in|]. split; [lia|]. now apply negb_true_iff.
Qed.
