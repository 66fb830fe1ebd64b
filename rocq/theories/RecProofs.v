(** Proofs for C15: the per-CPU buffers of records. *)
From Coq Require Import ZArith Bool List Lia.
From Verif Require Import RseqIR RseqSpec RseqKernel RseqSafe MemLemmas RunLemmas RseqSim RseqOwn RseqCalls Archs ArchsGood LinSpec LinProofs ClientModel ClientSpec CntProofs BufProofs.
Import ListNotations.
Local Open Scope Z_scope.

Lemma rec_run_snoc : forall bl S evs e, rec_run bl S (evs ++ [e]) =
  match rec_run bl S evs with Some S' => rec_step bl S' e | None => None end.
Proof.
  intros bl S evs. revert S. induction evs as [|e' evs IH]; intros S e; cbn [app rec_run].
  - destruct (rec_step bl S e); auto.
  - destruct (rec_step bl S e'); auto.
Qed.

Lemma rec_run_effects : forall bl evs S, rec_run bl S (effects rec_loc evs) = rec_run bl S evs.
Proof.
  intros bl evs. induction evs as [|e evs IH]; intros S; auto.
  assert (Hc : rec_run bl S (e :: effects rec_loc evs) = rec_run bl S (e :: evs)).
  { cbn [rec_run]. destruct (rec_step bl S e); auto. }
  destruct e; try exact Hc; apply IH.
Qed.

(** ** Bytes *)
Lemma bytes_agree : forall m m' a n, (forall x, In x (span a n) -> m' x = m x) -> bytes_at m' a n = bytes_at m a n.
Proof. intros m m' a n H. unfold bytes_at. apply map_ext_in. intros x Hx. unfold byte. now rewrite H. Qed.

Lemma bytes_other : forall m m' ps a n, meq m' (wr m ps) -> disjoint (map fst ps) (span a n) -> bytes_at m' a n = bytes_at m a n.
Proof. intros m m' ps a n Hm Hd. apply bytes_agree. intros x Hx. rewrite (Hm x). apply wr_notin. intros Hi. exact (Hd x Hi Hx). Qed.

Lemma span_cons : forall a n, span a (S n) = a :: span (a + 1) n.
Proof.
  intros a n. unfold span. cbn [seq map]. rewrite Z.add_0_r. f_equal. rewrite <- seq_shift, map_map. apply map_ext. intros; lia.
Qed.

Lemma bytes_copy : forall m dst src n, bytes_at (wr m (memcpy_bytes m dst src n)) dst n = bytes_at m src n.
Proof.
  intros m dst src n. unfold bytes_at, span. rewrite !map_map. apply map_ext_in. intros i Hi. unfold byte.
  erewrite (wr_functional (memcpy_bytes m dst src n)); [|apply memcpy_functional|].
  - instantiate (1 := byte m (src + Z.of_nat i)). unfold byte. apply Z.mod_mod. lia.
  - unfold memcpy_bytes. apply in_map_iff. exists i. auto.
Qed.

Lemma put_keys : forall a bs, map fst (put_bytes a bs) = span a (length bs).
Proof.
  intros a bs. unfold put_bytes. revert a. induction bs as [|b bs IH]; intros a; auto.
  cbn [length]. rewrite span_cons. cbn. f_equal. apply IH.
Qed.

Lemma bytes_put : forall m a bs, Forall (fun b => 0 <= b < 256) bs -> bytes_at (wr m (put_bytes a bs)) a (length bs) = bs.
Proof.
  intros m a bs. revert m a. induction bs as [|b bs IH]; intros m a H; auto. inversion H as [|x y H1 H2]; subst.
  unfold put_bytes. cbn [length]. rewrite span_cons. cbn [combine]. fold (put_bytes (a + 1) bs). rewrite wr_cons.
  unfold bytes_at. rewrite span_cons. cbn [map]. f_equal.
  - unfold byte. rewrite wr_notin.
    + unfold upd_mem. cbn. rewrite Z.eqb_refl. apply Z.mod_small. auto.
    + rewrite put_keys. intros Hi. apply in_span in Hi. lia.
  - apply IH. auto.
Qed.

Section Rec.
Variables (g : cfg) (md : imode) (cpus : list Z) (ofs arr : Z -> Z) (buflen : Z -> nat) (reclen : nat) (arg out : nat -> nat -> Z) (live : nat -> nat -> Prop) (load : mem -> Z -> Z -> Prop).
Variable lay : Z -> buf_obj.
Hypothesis Lo : forall cpu a, In cpu cpus -> In a (span (ofs cpu) (wsize g)) -> lay a = Offset cpu.
Hypothesis La : forall cpu a, In cpu cpus -> In a (span (arr cpu) (buflen cpu * reclen)) -> lay a = Array cpu.
Hypothesis Lm : forall t d a, live t d -> In a (span (arg t d) reclen) \/ In a (span (out t d) reclen) -> lay a = Mine t.
Hypothesis Lr : forall cpu, In cpu cpus -> Z.of_nat (buflen cpu) < wmod g /\ 0 <= arr cpu /\ arr cpu + Z.of_nat (buflen cpu * reclen) <= wmod g.
Hypothesis Lb : forall t d, live t d -> 0 <= arg t d /\ arg t d + Z.of_nat reclen <= wmod g /\ 0 <= out t d /\ out t d + Z.of_nat reclen <= wmod g.
Hypothesis Ld : forall t d d', live t d -> live t d' -> d <> d' -> disjoint (span (arg t d) reclen) (span (arg t d') reclen) /\
  disjoint (span (out t d) reclen) (span (out t d') reclen).
Hypothesis Lx : forall t d d', live t d -> live t d' -> disjoint (span (arg t d) reclen) (span (out t d') reclen).
Variable S0 : stacks (list Z).
Notation cl := (rec_client_of md cpus live load ofs arr buflen reclen arg out).
Notation slot := (rec_slot arr reclen).
Notation G := (stacks (list Z)).

Definition r_glob (S : G) (es : list (event rec_loc)) (m : mem) : Prop :=
  rec_run buflen S0 es = Some S /\ rec_buffers_hold g cpus ofs arr reclen m S /\
  forall cpu, In cpu cpus -> (length (S cpu) <= buflen cpu)%nat.

Definition r_ctx (_ : G) (m : mem) (t d : nat) (x : actx rec_loc) : Prop :=
  let l := a_loc x in rl_tid l = t /\ rl_depth l = d /\
  match rl_pc l, a_act x with
  | M_idle, None | M_pushed _ _, None | M_popped _, None => True
  | M_pop, None => live t d
  | M_arg item, None => live t d /\ length item = reclen /\ Forall (fun b => 0 <= b < 256) item
  | M_push item, None => live t d /\ bytes_at m (arg t d) reclen = item
  | M_push2 item cpu o, a => live t d /\ In cpu cpus /\ o <> Z.of_nat (buflen cpu) /\ bytes_at m (arg t d) reclen = item /\
      match a with None => True | Some (c, _) => c_mode c = md /\ c_cpu c = cpu /\
        c_op c = CbneMemcpyStore (ofs cpu) o (slot cpu o) (arg t d) reclen (o + 1) end
  | M_pop2 cpu o, a => live t d /\ In cpu cpus /\ o <> 0 /\
      match a with None => True | Some (c, _) => c_mode c = md /\ c_cpu c = cpu /\
        c_op c = CbneMemcpyStore (ofs cpu) o (out t d) (slot cpu (o - 1)) reclen (o - 1) end
  | _, _ => False
  end.
Definition r_absent (_ : G) (_ _ : nat) : Prop := True.

(** Bytes written by the context at depth [d] of thread [t]. *)
Definition r_foot (t d : nat) (ps : list (Z * Z)) : Prop := forall a, In a (map fst ps) ->
  (exists cpu, lay a = Offset cpu \/ lay a = Array cpu) \/
  (live t d /\ (In a (span (arg t d) reclen) \/ In a (span (out t d) reclen))).

Lemma r_arg_same : forall t d ps m m' t' d', r_foot t d ps -> meq m' (wr m ps) -> (t', d') <> (t, d) -> live t' d' ->
  bytes_at m' (arg t' d') reclen = bytes_at m (arg t' d') reclen.
Proof.
  intros t d ps m m' t' d' Hf Hm Hne Hv'. eapply bytes_other; [exact Hm|]. intros a Ha Hb.
  pose proof (Lm t' d' a Hv' (or_introl Hb)) as E. destruct (Hf a Ha) as [(cpu & [H|H])|[Hv H]]; try congruence.
  pose proof (Lm t d a Hv H) as E2. assert (t' = t) by congruence. subst t'.
  destruct H as [H|H]; [|exact (Lx t d' d Hv' Hv a Hb H)]. destruct (Nat.eq_dec d' d) as [->|Hd]; [congruence|].
  exact (proj1 (Ld t d' d Hv' Hv Hd) a Hb H).
Qed.

Lemma r_out_same : forall t d ps m m' t' d', r_foot t d ps -> meq m' (wr m ps) -> (t', d') <> (t, d) -> live t' d' ->
  bytes_at m' (out t' d') reclen = bytes_at m (out t' d') reclen.
Proof.
  intros t d ps m m' t' d' Hf Hm Hne Hv'. eapply bytes_other; [exact Hm|]. intros a Ha Hb.
  pose proof (Lm t' d' a Hv' (or_intror Hb)) as E. destruct (Hf a Ha) as [(cpu & [H|H])|[Hv H]]; try congruence.
  pose proof (Lm t d a Hv H) as E2. assert (t' = t) by congruence. subst t'.
  destruct H as [H|H]; [exact (Lx t d d' Hv Hv' a H Hb)|]. destruct (Nat.eq_dec d' d) as [->|Hd]; [congruence|].
  exact (proj2 (Ld t d' d Hv' Hv Hd) a Hb H).
Qed.

Lemma r_keeps : forall gh m t d gh' m' ps, r_foot t d ps -> meq m' (wr m ps) ->
  keeps rec_loc G r_ctx r_absent gh m t d gh' m'.
Proof.
  intros gh m t d gh' m' ps Hf Hm. split; auto.
  intros t' d' x Hne (H1 & H2 & H3). split; auto. split; auto.
  pose proof (r_arg_same t d ps m m' t' d' Hf Hm Hne) as E.
  destruct (rl_pc (a_loc x)) as [|item|item|item cpu o| |cpu o|b item|b]; auto.
  - destruct (a_act x) as [[c st]|]; auto. destruct H3 as [Hv H3]. rewrite (E Hv). auto.
  - destruct H3 as [Hv H3]. rewrite (E Hv). auto.
Qed.

Lemma r_same : forall gh m t d, keeps rec_loc G r_ctx r_absent gh m t d gh m.
Proof. intros. split; auto. Qed.

Lemma r_slot_lay : forall cpu i a, In cpu cpus -> 0 <= i < Z.of_nat (buflen cpu) -> In a (span (slot cpu i) reclen) -> lay a = Array cpu.
Proof. intros cpu i a Hc Hi Ha. apply La; auto. eapply slot_in; eauto. Qed.

Lemma records_in_same : forall m m' cpu S, (forall i, 0 <= i < Z.of_nat (length S) -> bytes_at m' (slot cpu i) reclen = bytes_at m (slot cpu i) reclen) ->
  records_in arr reclen m cpu S -> records_in arr reclen m' cpu S.
Proof.
  intros m m' cpu S. induction S as [|x S IH]; intros H Hs; cbn in *; auto. destruct Hs as [H1 H2]. split.
  - rewrite H; [auto|lia].
  - apply IH; auto. intros i Hi. apply H. lia.
Qed.

(** A write to the first free slot of one CPU, or to memory of a thread. *)
Lemma r_hold_free : forall m m' ps S, rec_buffers_hold g cpus ofs arr reclen m S ->
  (forall c, In c cpus -> (length (S c) <= buflen c)%nat) ->
  (forall a, In a (map fst ps) -> (exists t, lay a = Mine t) \/
     exists cpu, In cpu cpus /\ (length (S cpu) < buflen cpu)%nat /\ In a (span (slot cpu (Z.of_nat (length (S cpu)))) reclen)) ->
  meq m' (wr m ps) -> rec_buffers_hold g cpus ofs arr reclen m' S.
Proof.
  intros m m' ps S Hb Hlen Hf Hm c Hcc. destruct (Hb c Hcc) as [H1 H2]. split.
  - rewrite <- H1. eapply ldw_wr_other; [exact Hm|]. intros a Ha Hb'. pose proof (Lo c a Hcc Hb') as E.
    destruct (Hf a Ha) as [(t & F)|(cpu & F1 & F2 & F3)]; [congruence|].
    pose proof (r_slot_lay cpu (Z.of_nat (length (S cpu))) a F1 ltac:(lia) F3). congruence.
  - eapply records_in_same; [|exact H2]. intros i Hi. eapply bytes_other; [exact Hm|]. intros a Ha Hb'.
    pose proof (Hlen c Hcc) as Hl. pose proof (r_slot_lay c i a Hcc ltac:(lia) Hb') as E.
    destruct (Hf a Ha) as [(t & F)|(cpu & F1 & F2 & F3)]; [congruence|].
    pose proof (r_slot_lay cpu (Z.of_nat (length (S cpu))) a F1 ltac:(lia) F3). assert (cpu = c) by congruence. subst cpu.
    eapply (slots_apart (arr c) reclen i (Z.of_nat (length (S c)))); [| | |exact Hb'|exact F3]; lia.
Qed.

(** The store to the offset of one CPU. *)
Lemma r_offset_store : forall m m' S cpu v l, In cpu cpus -> rec_buffers_hold g cpus ofs arr reclen m S ->
  (forall c, In c cpus -> (length (S c) <= buflen c)%nat) -> (length l <= buflen cpu)%nat ->
  meq m' (wr m (stw g (ofs cpu) v)) -> v = Z.of_nat (length l) -> records_in arr reclen m cpu l ->
  rec_buffers_hold g cpus ofs arr reclen m' (set_stack S cpu l).
Proof.
  intros m m' S cpu v l Hc Hb Hlen Hll Hm Hv Hr c Hcc. unfold set_stack. destruct (Lr cpu Hc) as [Hbl _].
  assert (Hrec : forall c' l', In c' cpus -> (length l' <= buflen c')%nat -> records_in arr reclen m c' l' -> records_in arr reclen m' c' l').
  { intros c' l' Hc' Hl' H. eapply records_in_same; [|exact H]. intros i Hi. eapply bytes_other; [exact Hm|]. rewrite stw_keys.
    intros a Ha Hb'. pose proof (Lo cpu a Hc Ha). pose proof (r_slot_lay c' i a Hc' ltac:(lia) Hb'). congruence. }
  destruct (Z.eqb_spec c cpu) as [->|Hne].
  - split; [|auto]. rewrite (ldw_wr_same g m m' _ v Hm); lia.
  - destruct (Hb c Hcc) as [H1 H2]. split; [|auto]. rewrite <- H1. eapply ldw_wr_other; [exact Hm|]. rewrite stw_keys.
    intros a Ha Hb'. pose proof (Lo cpu a Hc Ha). pose proof (Lo c a Hcc Hb'). congruence.
Qed.

(** The comparison of the helper makes up for whatever the load returned. *)
Lemma r_room_push : forall gh m cpu o, rec_buffers_hold g cpus ofs arr reclen m gh ->
  (forall c, In c cpus -> (length (gh c) <= buflen c)%nat) -> In cpu cpus ->
  o <> Z.of_nat (buflen cpu) -> ldw g m (ofs cpu) = o -> 0 <= o < Z.of_nat (buflen cpu).
Proof. intros gh m cpu o H1 H2 Hc Hn E. destruct (H1 cpu Hc) as [Hl _]. specialize (H2 cpu Hc). lia. Qed.
Lemma r_room_pop : forall gh m cpu o, rec_buffers_hold g cpus ofs arr reclen m gh ->
  (forall c, In c cpus -> (length (gh c) <= buflen c)%nat) -> In cpu cpus ->
  o <> 0 -> ldw g m (ofs cpu) = o -> 0 < o <= Z.of_nat (buflen cpu).
Proof. intros gh m cpu o H1 H2 Hc Hn E. destruct (H1 cpu Hc) as [Hl _]. specialize (H2 cpu Hc). lia. Qed.

Lemma r_inv : client_inv rec_loc g cl G r_glob r_ctx r_absent.
Proof.
  split; try (intros; exact Logic.I).
  - (* call *) intros gh es m t d l c _ (H1 & H2 & H) [Hm Hc]. split; auto. split; auto. cbn [a_loc a_act] in *. rewrite H1, H2 in Hc.
    destruct (rl_pc l); try contradiction; tauto.
  - (* ret *) intros gh es m t d l c r HG (H1 & H2 & H). exists gh. split; auto. split; [|apply r_same].
    unfold r_ctx. cbn [a_loc a_act cl_ret rec_client_of] in *. destruct (rl_pc l) eqn:E; try contradiction; destruct (r =? 0); cbn; tauto.
  - (* write *) intros gh es m t d l ps l' m' (HG1 & HG2 & HG3) (H1 & H2 & H) (item & E & -> & ->) Hm.
    cbn [a_loc a_act] in *. rewrite E in H. rewrite H1, H2 in *. destruct H as (Hv & Hl & Hr).
    assert (Hk : forall a, In a (map fst (put_bytes (arg t d) item)) -> In a (span (arg t d) reclen)).
    { intros a Ha. rewrite put_keys, Hl in Ha. auto. }
    exists gh. split; [|split].
    + split; [rewrite rec_run_snoc, HG1; reflexivity|]. split; auto. eapply r_hold_free; [exact HG2|exact HG3| |exact Hm].
      intros a Ha. left. exists t. apply (Lm t d); auto.
    + split; auto. split; auto. cbn. split; auto. rewrite <- Hl. rewrite <- (bytes_put m (arg t d) item Hr) at 2. apply bytes_agree. intros; apply Hm.
    + eapply r_keeps; [|exact Hm]. intros a Ha. right. split; auto.
  - (* tau *) intros gh es m t d l l' HG (H1 & H2 & H) Ht. exists gh. split; auto. split; [|apply r_same].
    cbn [a_loc a_act] in *. cbn [cl_tau rec_client_of] in Ht.
    unfold r_ctx. destruct (rl_pc l) as [|item|item|item cpu o| |cpu o|b item|b] eqn:E; try contradiction.
    + rewrite H1, H2 in Ht. destruct Ht as [[Hv [(item & Hi1 & Hi2 & ->)| ->]]| ->]; cbn; auto.
    + destruct Ht as (cpu & o & Hc & _ & ->).
      destruct (Z.eqb_spec o (Z.of_nat (buflen cpu))); cbn; auto. tauto.
    + destruct Ht as (cpu & o & Hc & _ & ->).
      destruct (Z.eqb_spec o 0); cbn; auto. tauto.
    + rewrite H1, H2 in Ht. destruct Ht as [[Hv [(it & Hi1 & Hi2 & ->)| ->]]| ->]; cbn; auto.
    + rewrite H1, H2 in Ht. destruct Ht as [[Hv [(it & Hi1 & Hi2 & ->)| ->]]| ->]; cbn; auto.
  - (* sig *) intros gh es m t d x l' _ (H1 & H2 & _) -> _. unfold r_ctx. cbn. rewrite H1, H2. auto.
  - (* attempt *) intros gh es m t d l c w att fin ps m' (HG1 & HG2 & HG3) (H1 & H2 & H) Hp Hi Hm. cbn [a_loc a_act] in *.
    assert (Hin : forall a, In a (map fst ps) -> In a (map fst att)).
    { intros a Ha. apply in_map_iff in Ha. destruct Ha as (p & <- & Ha). apply in_map. auto. }
    exists gh. destruct (rl_pc l) as [|item|item|item cpu o| |cpu o|b item|b] eqn:E; try contradiction.
    + destruct H as (Hv & A1 & A2n & A3 & A4 & A5 & A6). rewrite A6 in Hp. cbn in Hp.
      destruct (Z.eqb_spec (ldw g m (ofs cpu)) o) as [Eo|]; [|discriminate]. injection Hp as <- <-.
      assert (A2 : 0 <= o < Z.of_nat (buflen cpu)) by (apply (r_room_push gh m cpu o); auto). rewrite memcpy_keys in Hin.
      destruct (HG2 cpu A1) as [Hl _]. rewrite Eo in Hl.
      split; [|split].
      * split; auto. split; auto. eapply r_hold_free; [exact HG2|exact HG3| |exact Hm].
        intros a Ha. right. exists cpu. split; auto. split; [lia|]. rewrite <- Hl. auto.
      * split; auto. split; auto. cbn. rewrite E. split; auto. split; auto. split; auto. split; auto. rewrite <- A3.
        eapply bytes_other; [exact Hm|]. intros a Ha Hb. pose proof (r_slot_lay cpu o a A1 A2 (Hin a Ha)).
        pose proof (Lm t d a Hv (or_introl Hb)). congruence.
      * eapply r_keeps; [|exact Hm]. intros a Ha. left. exists cpu. right. eapply r_slot_lay; eauto.
    + destruct H as (Hv & A1 & A2n & A4 & A5 & A6). rewrite A6 in Hp. cbn in Hp.
      destruct (Z.eqb_spec (ldw g m (ofs cpu)) o) as [Eo|]; [|discriminate]. injection Hp as <- <-.
      assert (A2 : 0 < o <= Z.of_nat (buflen cpu)) by (apply (r_room_pop gh m cpu o); auto). rewrite memcpy_keys in Hin.
      split; [|split].
      * split; auto. split; auto. eapply r_hold_free; [exact HG2|exact HG3| |exact Hm].
        intros a Ha. left. exists t. apply (Lm t d); auto.
      * split; auto. split; auto. cbn. rewrite E. tauto.
      * eapply r_keeps; [|exact Hm]. intros a Ha. right. auto.
  - (* commit *) intros gh es m t d l c w att fin m' (HG1 & HG2 & HG3) (H1 & H2 & H) Hp Hm. cbn [a_loc a_act] in *.
    destruct (rl_pc l) as [|item|item|item cpu o| |cpu o|b item|b] eqn:E; try contradiction.
    + destruct H as (Hv & A1 & A2n & A3 & A4 & A5 & A6). rewrite A6 in Hp. cbn in Hp.
      destruct (Z.eqb_spec (ldw g m (ofs cpu)) o) as [Eo|]; [|discriminate]. injection Hp as <- <-.
      assert (A2 : 0 <= o < Z.of_nat (buflen cpu)) by (apply (r_room_push gh m cpu o); auto).
      destruct (HG2 cpu A1) as [Hl _]. rewrite Eo in Hl.
      set (att := memcpy_bytes m (slot cpu o) (arg t d) reclen) in *.
      assert (Hka : map fst att = span (slot cpu o) reclen) by apply memcpy_keys.
      assert (Hfree : rec_buffers_hold g cpus ofs arr reclen (wr m att) gh).
      { eapply (r_hold_free m _ att); [exact HG2|exact HG3| |intros a; reflexivity].
        intros a Ha. right. exists cpu. split; auto. split; [lia|]. rewrite <- Hl, <- Hka. auto. }
      assert (Hm' : meq m' (wr m (att ++ stw g (ofs cpu) (o + 1)))) by (intros a; rewrite (Hm a), wr_app; reflexivity).
      exists (set_stack gh cpu (item :: gh cpu)). split; [|split].
      * split; [|split].
        { rewrite rec_run_snoc, HG1. cbn [rec_step]. rewrite E. destruct (Nat.ltb_spec (length (gh cpu)) (buflen cpu)); [reflexivity|lia]. }
        { eapply (r_offset_store (wr m att)); [exact A1|exact Hfree|exact HG3| |exact Hm| |].
          - cbn. lia.
          - cbn [length]. lia.
          - cbn [records_in]. rewrite <- Hl. split; [unfold att; rewrite bytes_copy; auto|]. apply Hfree. auto. }
        { intros c' Hc'. unfold set_stack. destruct (Z.eqb_spec c' cpu) as [->|Hne]; auto. cbn. lia. }
      * split; auto. split; auto. cbn. rewrite E. split; auto. split; auto. split; auto. split; auto. rewrite <- A3.
        eapply bytes_other; [exact Hm'|]. rewrite map_app, Hka, stw_keys. intros a Ha Hb.
        pose proof (Lm t d a Hv (or_introl Hb)). apply in_app_or in Ha. destruct Ha as [Ha|Ha].
        { pose proof (r_slot_lay cpu o a A1 A2 Ha). congruence. }
        { pose proof (Lo cpu a A1 Ha). congruence. }
      * eapply r_keeps; [|exact Hm']. intros a Ha. rewrite map_app, Hka, stw_keys in Ha. left. exists cpu.
        apply in_app_or in Ha. destruct Ha as [Ha|Ha]; [right; eapply r_slot_lay; eauto|left; auto].
    + destruct H as (Hv & A1 & A2n & A4 & A5 & A6). rewrite A6 in Hp. cbn in Hp.
      destruct (Z.eqb_spec (ldw g m (ofs cpu)) o) as [Eo|]; [|discriminate]. injection Hp as <- <-.
      assert (A2 : 0 < o <= Z.of_nat (buflen cpu)) by (apply (r_room_pop gh m cpu o); auto).
      destruct (HG2 cpu A1) as [Hl Hst]. rewrite Eo in Hl.
      destruct (gh cpu) as [|x S'] eqn:ES; [cbn in Hl; lia|]. cbn [length records_in] in Hl, Hst. destruct Hst as [Hx Hst].
      set (att := memcpy_bytes m (out t d) (slot cpu (o - 1)) reclen) in *.
      assert (Hka : map fst att = span (out t d) reclen) by apply memcpy_keys.
      assert (Hfree : rec_buffers_hold g cpus ofs arr reclen (wr m att) gh).
      { eapply (r_hold_free m _ att); [exact HG2|exact HG3| |intros a; reflexivity].
        intros a Ha. left. exists t. apply (Lm t d); auto. rewrite <- Hka. auto. }
      assert (Hm' : meq m' (wr m (att ++ stw g (ofs cpu) (o - 1)))) by (intros a; rewrite (Hm a), wr_app; reflexivity).
      assert (Hlen : (S (length S') <= buflen cpu)%nat) by (pose proof (HG3 cpu A1) as Hq; rewrite ES in Hq; exact Hq).
      exists (set_stack gh cpu S'). split; [|split].
      * split; [|split].
        { rewrite rec_run_snoc, HG1. cbn [rec_step]. rewrite E, A6, ES.
          replace (o - 1) with (Z.of_nat (length S')) by lia. rewrite Hx.
          destruct (list_eq_dec Z.eq_dec x x); [reflexivity|congruence]. }
        { eapply (r_offset_store (wr m att)); [exact A1|exact Hfree|exact HG3|lia|exact Hm|lia|].
          destruct (Hfree cpu A1) as [_ F]. rewrite ES in F. apply F. }
        { intros c' Hc'. unfold set_stack. destruct (Z.eqb_spec c' cpu) as [->|Hne]; auto. lia. }
      * split; auto. split; auto. cbn. rewrite E. tauto.
      * eapply r_keeps; [|exact Hm']. intros a Ha. rewrite map_app, Hka, stw_keys in Ha.
        apply in_app_or in Ha. destruct Ha as [Ha|Ha]; [right; auto|left; exists cpu; left; auto].
  - (* fail *) intros gh es m t d l c (HG1 & HG2 & HG3) H _. split.
    + split; auto. rewrite rec_run_snoc, HG1. reflexivity.
    + unfold r_ctx in *. cbn in *. destruct (rl_pc l); auto.
  - (* abort *) intros gh es m t d l c st _ H _. unfold r_ctx in *. cbn in *. destruct (rl_pc l); auto.
Qed.

Definition r_own (_ : G) (a : Z) : owner :=
  match lay a with Offset cpu | Array cpu => OCpu md cpu | Mine t => OThr t | Elsewhere => ONone end.

Lemma r_slot_bounds : forall cpu i, In cpu cpus -> 0 <= i < Z.of_nat (buflen cpu) -> 0 <= slot cpu i /\ slot cpu i + Z.of_nat reclen <= wmod g.
Proof. intros cpu i Hc Hi. destruct (Lr cpu Hc) as (_ & H1 & H2). unfold rec_slot. nia. Qed.

Lemma r_wf : forall gh es m t d l c w, r_glob gh es m -> r_ctx gh m t d {| a_loc := l; a_act := Some (c, Pending w) |} ->
  op_wf g (c_op c) m /\ forall a, In a (touched g (c_op c) m) -> usable (r_own gh) t c a.
Proof.
  intros gh es m t d l c w (_ & HG2 & HG3) (H1 & H2 & H). cbn [a_loc a_act] in *.
  destruct (rl_pc l) as [|item|item|item cpu o| |cpu o|b item|b]; try contradiction.
  - destruct H as (Hv & A1 & A2n & A3 & A4 & A5 & A6). rewrite A6.
    assert (Ho : forall a, In a (span (ofs cpu) (wsize g)) -> usable (r_own gh) t c a).
    { intros a Ha. left. unfold r_own. rewrite (Lo cpu a A1 Ha), A4, A5. reflexivity. }
    assert (Hg : forall a, In a (span (arg t d) reclen) -> usable (r_own gh) t c a).
    { intros a Ha. right. unfold r_own. rewrite (Lm t d a Hv (or_introl Ha)). reflexivity. }
    pose proof (Lb t d Hv) as B2.
    unfold op_wf, touched, in_use, attempts. cbn -[memcpy_bytes].
    destruct (Z.eqb_spec (ldw g m (ofs cpu)) o) as [Eo|Eo]; cbn -[memcpy_bytes]; rewrite ?memcpy_keys, ?stw_keys, ?app_nil_r.
    + pose proof (r_room_push gh m cpu o HG2 HG3 A1 A2n Eo) as A2. pose proof (r_slot_bounds cpu o A1 A2) as B1.
      assert (Hs : forall a, In a (span (slot cpu o) reclen) -> usable (r_own gh) t c a).
      { intros a Ha. left. unfold r_own. rewrite (r_slot_lay cpu o a A1 A2 Ha), A4, A5. reflexivity. }
      split.
      * split; [|tauto]. intros a Ha Hb. pose proof (r_slot_lay cpu o a A1 A2 Ha). apply in_app_or in Hb. destruct Hb as [Hb|Hb].
        { pose proof (Lo cpu a A1 Hb). congruence. }
        { pose proof (Lm t d a Hv (or_introl Hb)). congruence. }
      * intros a Ha. repeat (apply in_app_or in Ha; destruct Ha as [Ha|Ha]); auto.
    + split; [|auto]. split; [intros a []|intros F; contradiction].
  - destruct H as (Hv & A1 & A2n & A4 & A5 & A6). rewrite A6.
    assert (Ho : forall a, In a (span (ofs cpu) (wsize g)) -> usable (r_own gh) t c a).
    { intros a Ha. left. unfold r_own. rewrite (Lo cpu a A1 Ha), A4, A5. reflexivity. }
    assert (Hg : forall a, In a (span (out t d) reclen) -> usable (r_own gh) t c a).
    { intros a Ha. right. unfold r_own. rewrite (Lm t d a Hv (or_intror Ha)). reflexivity. }
    pose proof (Lb t d Hv) as B2.
    unfold op_wf, touched, in_use, attempts. cbn -[memcpy_bytes].
    destruct (Z.eqb_spec (ldw g m (ofs cpu)) o) as [Eo|Eo]; cbn -[memcpy_bytes]; rewrite ?memcpy_keys, ?stw_keys, ?app_nil_r.
    + pose proof (r_room_pop gh m cpu o HG2 HG3 A1 A2n Eo) as A2.
      assert (A2' : 0 <= o - 1 < Z.of_nat (buflen cpu)) by lia.
      pose proof (r_slot_bounds cpu (o - 1) A1 A2') as B1.
      assert (Hs : forall a, In a (span (slot cpu (o - 1)) reclen) -> usable (r_own gh) t c a).
      { intros a Ha. left. unfold r_own. rewrite (r_slot_lay cpu (o - 1) a A1 A2' Ha), A4, A5. reflexivity. }
      split.
      * split; [|tauto]. intros a Ha Hb. pose proof (Lm t d a Hv (or_intror Ha)). apply in_app_or in Hb. destruct Hb as [Hb|Hb].
        { pose proof (Lo cpu a A1 Hb). congruence. }
        { pose proof (r_slot_lay cpu (o - 1) a A1 A2' Hb). congruence. }
      * intros a Ha. repeat (apply in_app_or in Ha; destruct Ha as [Ha|Ha]); auto.
    + split; [|auto]. split; [intros a []|intros F; contradiction].
Qed.

Lemma r_safe : forall (s0 : astate rec_loc) gh0, holds_inv rec_loc G r_glob r_ctx r_absent gh0 [] s0 ->
  exclusive (a_on s0) -> safe_client g cl s0.
Proof.
  intros s0 gh0 H0 Hex.
  apply (inv_safe rec_loc g cl G r_glob r_ctx r_absent r_inv r_own r_wf) with (gh0 := gh0); auto.
  intros gh es m t d l ps l' HG (H1 & H2 & H) (item & E & -> & ->).
  eapply (own_write rec_loc g G r_glob r_ctx r_own r_wf); [exact HG|].
  cbn [a_loc a_act] in *. rewrite E in H. destruct H as (Hv & Hl & _).
  intros a Ha. rewrite put_keys, Hl, H1, H2 in Ha. unfold r_own. now rewrite (Lm t d a Hv (or_introl Ha)).
Qed.

Lemma r_stk_in : forall gh m t k x, Stk rec_loc G r_ctx gh m t k -> In x k ->
  exists d, (d < length k)%nat /\ r_ctx gh m t d x.
Proof.
  intros gh m t k x. induction k as [|y k IH]; intros H Hi; [destruct Hi|]. destruct H as [H1 H2].
  destruct Hi as [->|Hi]; [exists (length k); cbn; auto|]. destruct (IH H2 Hi) as (d & Hd & J). exists d. cbn. auto.
Qed.

Lemma r_res1 : forall (s0 : astate rec_loc) gh0, holds_inv rec_loc G r_glob r_ctx r_absent gh0 [] s0 ->
  forall evs s t l k c w att fin m', apath g cl s0 evs s ->
  a_thr s t = {| a_loc := l; a_act := Some (c, Pending w) |} :: k ->
  pseudo g (c_op c) (a_mem s) = OCommit att fin -> meq m' (wr (wr (a_mem s) att) fin) -> popped_record c (a_mem s) m'.
Proof.
  intros s0 gh0 H0 evs s t l k c w att fin m' Hp E Hps Hm.
  destruct (inv_path rec_loc g cl G _ _ _ r_inv _ _ _ Hp _ H0) as (gh & [HG HS]).
  pose proof (proj1 (HS t)) as S. rewrite E in S. destruct S as [(S1 & S2 & S3) _]. unfold popped_record. cbn [a_loc a_act] in *.
  destruct (rl_pc l) as [|item|item|item cpu o| |cpu o|b item|b]; try contradiction.
  - destruct S3 as (Hv & A1 & A2 & A3 & A4 & A5 & A6). rewrite A6. lia.
  - destruct S3 as (Hv & A1 & A2 & A4 & A5 & A6). rewrite A6 in *. intros _. cbn in Hps.
    destruct (ldw g (a_mem s) (ofs cpu) =? o); [|discriminate]. injection Hps as <- <-.
    rewrite (bytes_other (wr (a_mem s) (memcpy_bytes (a_mem s) (out t (length k)) (slot cpu (o - 1)) reclen)) m' _ _ _ Hm).
    + apply bytes_copy.
    + rewrite stw_keys. intros a Ha Hb. pose proof (Lo cpu a A1 Ha). pose proof (Lm t (length k) a Hv (or_intror Hb)). congruence.
Qed.

Lemma r_res2 : forall (s0 : astate rec_loc) gh0, holds_inv rec_loc G r_glob r_ctx r_absent gh0 [] s0 ->
  forall evs s l s' t x c me, apath g cl s0 evs s -> astep g cl s l s' ->
  In x (a_thr s t) -> a_act x = Some (c, Finished 0) -> popped_record c me (a_mem s) -> popped_record c me (a_mem s').
Proof.
  intros s0 gh0 H0 evs s l s' t x c me Hp Hs Hx Ex Hr.
  destruct (inv_path rec_loc g cl G _ _ _ r_inv _ _ _ Hp _ H0) as (gh & [HG HS]).
  destruct (r_stk_in _ _ _ _ _ (proj1 (HS t)) Hx) as (d & Hd & HC). pose proof HC as (T1 & T2 & T3). rewrite Ex in T3.
  unfold popped_record in *.
  destruct (rl_pc (a_loc x)) as [|item|item|item cpu o| |cpu o|b item|b]; try contradiction.
  { destruct T3 as (Hv & A1 & A2 & A3 & A4 & A5 & A6). rewrite A6. lia. }
  destruct T3 as (Hv & A1 & A2 & A4 & A5 & A6). rewrite A6 in *. intros Hn. rewrite <- (Hr Hn). clear Hr Hn.
  assert (Hfoot : forall u k y ps m', a_thr s u = y :: k -> (y = x -> False) -> r_foot u (length k) ps -> meq m' (wr (a_mem s) ps) ->
    bytes_at m' (out t d) reclen = bytes_at (a_mem s) (out t d) reclen).
  { intros u k y ps m' Eu Hy Hf Hm. eapply r_out_same; eauto. intros F. injection F as Fu Fd. subst u.
    pose proof (proj1 (HS t)) as St. rewrite Eu in St, Hx. destruct Hx as [Hx|Hx]; [auto|].
    destruct (r_stk_in _ _ _ _ _ (proj2 St) Hx) as (d' & Hd' & (_ & T2' & _)). lia. }
  assert (Hcall : forall u k l0 c0 w att fin ps m', a_thr s u = {| a_loc := l0; a_act := Some (c0, Pending w) |} :: k ->
    pseudo g (c_op c0) (a_mem s) = OCommit att fin -> incl ps (att ++ fin) -> meq m' (wr (a_mem s) ps) ->
    bytes_at m' (out t d) reclen = bytes_at (a_mem s) (out t d) reclen).
  { intros u k l0 c0 w att fin ps m' Eu Hps Hi Hm. eapply (Hfoot u k _ ps m' Eu); [intros F; subst x; discriminate| |exact Hm].
    pose proof (proj1 (HS u)) as Su. rewrite Eu in Su. destruct Su as [(U1 & U2 & U3) _]. cbn [a_loc a_act] in *.
    intros a Ha. apply in_map_iff in Ha. destruct Ha as (p & <- & Ha). apply Hi in Ha. apply in_app_or in Ha.
    destruct (rl_pc l0) as [|it|it|it cpu1 o1| |cpu1 o1|b it|b]; try contradiction.
    - destruct U3 as (Hvu & B1 & B2n & B3 & B4 & B5 & B6). rewrite B6 in Hps. cbn in Hps.
      destruct (Z.eqb_spec (ldw g (a_mem s) (ofs cpu1)) o1) as [Eo|]; [|discriminate]. injection Hps as <- <-.
      pose proof (r_room_push gh (a_mem s) cpu1 o1 (proj1 (proj2 HG)) (proj2 (proj2 HG)) B1 B2n Eo) as B2.
      left. exists cpu1. destruct Ha as [Ha|Ha]; apply (in_map fst) in Ha; [rewrite memcpy_keys in Ha|rewrite stw_keys in Ha].
      + right. eapply r_slot_lay; eauto.
      + left. auto.
    - destruct U3 as (Hvu & B1 & B2 & B4 & B5 & B6). rewrite B6 in Hps. cbn in Hps.
      destruct (ldw g (a_mem s) (ofs cpu1) =? o1); [|discriminate]. injection Hps as <- <-.
      destruct Ha as [Ha|Ha]; apply (in_map fst) in Ha; [rewrite memcpy_keys in Ha|rewrite stw_keys in Ha].
      + right. auto.
      + left. exists cpu1. left. auto. }
  destruct Hs as [s u l1 k c1 E1 Hc|s u l1 k c1 r E1|s u l1 k ps l2 m2 E1 Hw Hm|s u l1 k l2 E1 Ht|s u y k l2 E1 Hg|s u l1 y k E1 Hdn|s on' _|s u l1 k c1 w att fin ps m2 E1 _ Ep Hi Hm|s u l1 k c1 w att fin m2 E1 _ Ep Hm|s u l1 k c1 E1 _ Ep|s u l1 k c1 st E1 Hst];
    cbn [a_mem set_thr set_amem set_aon] in *; auto.
  - eapply (Hfoot u k _ ps m2 E1); [intros F; subst x; discriminate| |exact Hm].
    pose proof (proj1 (HS u)) as Su. rewrite E1 in Su. destruct Su as [(U1 & U2 & U3) _]. cbn [a_loc a_act] in *.
    destruct Hw as (item & E & -> & ->). rewrite E in U3. destruct U3 as (Hvu & Hl & _).
    intros a Ha. rewrite put_keys, Hl, U1, U2 in Ha. auto.
  - eapply Hcall; eauto. intros p Hp'. apply in_or_app. left. auto.
  - eapply (Hcall u k l1 c1 w att fin (att ++ fin) m2 E1 Ep); [intros p Hp'; auto|].
    intros a. rewrite (Hm a), wr_app. reflexivity.
Qed.
End Rec.

Lemma rec_inv0 : forall g md cpus ofs arr buflen reclen arg out live S0 s0,
  (forall t, map x_loc (t_ctx (s_thr s0 t)) = [{| rl_tid := t; rl_depth := 0; rl_pc := M_idle |}]) ->
  rec_buffers_hold g cpus ofs arr reclen (s_mem s0) S0 -> (forall cpu, In cpu cpus -> (length (S0 cpu) <= buflen cpu)%nat) ->
  holds_inv rec_loc (stacks (list Z)) (r_glob g cpus ofs arr buflen reclen S0)
    (r_ctx md cpus ofs arr buflen reclen arg out live) r_absent S0 [] (abs_init s0).
Proof.
  intros g md cpus ofs arr buflen reclen arg out live S0 s0 Hst Hb Hlen.
  split; [split; [reflexivity|auto]|]. intros t. split; [|intros; exact Logic.I]. specialize (Hst t). cbn.
  destruct (t_ctx (s_thr s0 t)) as [|x [|? ?]]; try discriminate. cbn in *. injection Hst as ->. unfold r_ctx. cbn. auto.
Qed.

(** C15 *)
Theorem records_are_whole : forall g a tw tx md cpus ofs arr buflen reclen arg out live load S0 s0,
  lib_text a tw tx -> initial s0 -> rec_layout g cpus ofs arr buflen reclen arg out live ->
  (forall t, map x_loc (t_ctx (s_thr s0 t)) = [{| rl_tid := t; rl_depth := 0; rl_pc := M_idle |}]) ->
  rec_buffers_hold g cpus ofs arr reclen (s_mem s0) S0 -> (forall cpu, In cpu cpus -> (length (S0 cpu) <= buflen cpu)%nat) ->
  forall tr s, path g tx (rec_client_of md cpus live load ofs arr buflen reclen arg out) s0 tr s ->
  exists evs S, linearization g popped_record tr s evs /\ rec_run buflen S0 evs = Some S /\
    rec_buffers_hold g cpus ofs arr reclen (s_mem s) S /\ (forall cpu, In cpu cpus -> (length (S cpu) <= buflen cpu)%nat).
Proof.
  intros g a tw tx md cpus ofs arr buflen reclen arg out live load S0 s0 Htx Hi ((lay & Lo & La & Lm) & Lr & Lb & Ld & Lx) Hst Hb Hlen tr s Hp.
  assert (Hgood : good_text g tx) by (eapply lib_good; eauto).
  set (cl := rec_client_of md cpus live load ofs arr buflen reclen arg out) in *.
  pose proof (rec_inv0 g md cpus ofs arr buflen reclen arg out live S0 s0 Hst Hb Hlen) as H0.
  assert (Hsafe : safe_client g cl (abs_init s0)).
  { eapply (r_safe g md cpus ofs arr buflen reclen arg out live load lay); eauto. apply init_exclusive; auto. }
  destruct (linearizes rec_loc g tx cl Hgood popped_record s0 tr s Hi Hsafe
     (r_res1 g md cpus ofs arr buflen reclen arg out live load lay Lo La Lm Lr Ld Lx S0 _ _ H0)
     (r_res2 g md cpus ofs arr buflen reclen arg out live load lay Lo La Lm Lr Ld Lx S0 _ _ H0) Hp) as (evs & aa & A1 & A2 & A3).
  destruct (inv_path rec_loc g cl (stacks (list Z)) _ _ _ (r_inv g md cpus ofs arr buflen reclen arg out live load lay Lo La Lm Lr Ld Lx S0) _ _ _ A1 _ H0) as (gh & [HG _]).
  replace (a_mem aa) with (s_mem s) in * by (symmetry; apply A2). destruct HG as (G1 & G2 & G3).
  exists evs, gh. split; auto. split; auto. rewrite rec_run_effects in G1. exact G1.
Qed.
