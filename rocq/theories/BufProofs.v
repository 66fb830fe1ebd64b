(** Proofs for C14: the per-CPU buffers of pointers. *)
From Coq Require Import ZArith Bool List Lia.
From Verif Require Import RseqIR RseqSpec RseqKernel RseqSafe MemLemmas RunLemmas RseqSim RseqOwn RseqCalls Archs ArchsGood LinSpec LinProofs ClientModel ClientSpec CntProofs.
Import ListNotations.
Local Open Scope Z_scope.

Lemma in_span : forall x a n, In x (span a n) <-> a <= x < a + Z.of_nat n.
Proof.
  intros x a n. unfold span. rewrite in_map_iff. split.
  - intros (i & <- & Hi). apply List.in_seq in Hi. lia.
  - intros H. exists (Z.to_nat (x - a)). split; [lia|]. apply List.in_seq. lia.
Qed.

Lemma slots_apart : forall a n i j, 0 <= i -> 0 <= j -> i <> j ->
  disjoint (span (a + i * Z.of_nat n) n) (span (a + j * Z.of_nat n) n).
Proof. intros a n i j Hi Hj Hne x Hx Hy. apply in_span in Hx. apply in_span in Hy. nia. Qed.

Lemma slot_in : forall a n len i x, 0 <= i < Z.of_nat len -> In x (span (a + i * Z.of_nat n) n) -> In x (span a (len * n)).
Proof. intros a n len i x Hi Hx. apply in_span in Hx. apply in_span. nia. Qed.

Lemma buf_run_snoc : forall bl S evs e, buf_run bl S (evs ++ [e]) =
  match buf_run bl S evs with Some S' => buf_step bl S' e | None => None end.
Proof.
  intros bl S evs. revert S. induction evs as [|e' evs IH]; intros S e; cbn [app buf_run].
  - destruct (buf_step bl S e); auto.
  - destruct (buf_step bl S e'); auto.
Qed.

Lemma buf_run_effects : forall bl evs S, buf_run bl S (effects buf_loc evs) = buf_run bl S evs.
Proof.
  intros bl evs. induction evs as [|e evs IH]; intros S; auto.
  assert (Hc : buf_run bl S (e :: effects buf_loc evs) = buf_run bl S (e :: evs)).
  { cbn [buf_run]. destruct (buf_step bl S e); auto. }
  destruct e; try exact Hc; apply IH.
Qed.

Section Buf.
Variables (g : cfg) (md : imode) (cpus : list Z) (load : mem -> Z -> Z -> Prop) (ofs arr : Z -> Z) (buflen : Z -> nat).
Variable lay : Z -> buf_obj.
Hypothesis Lo : forall cpu a, In cpu cpus -> In a (span (ofs cpu) (wsize g)) -> lay a = Offset cpu.
Hypothesis La : forall cpu a, In cpu cpus -> In a (span (arr cpu) (buflen cpu * wsize g)) -> lay a = Array cpu.
Hypothesis Lr : forall cpu, In cpu cpus -> Z.of_nat (buflen cpu) < wmod g.
Variable S0 : stacks Z.
Notation cl := (buf_client_of g md cpus load ofs arr buflen).
Notation slot := (arr_slot g arr).

Definition b_glob (S : stacks Z) (es : list (event buf_loc)) (m : mem) : Prop :=
  buf_run buflen S0 es = Some S /\ buffers_hold g cpus ofs arr m S /\
  forall cpu, In cpu cpus -> (length (S cpu) <= buflen cpu)%nat.

Definition b_ctx (_ : stacks Z) (_ : mem) (_ _ : nat) (x : actx buf_loc) : Prop :=
  match a_loc x, a_act x with
  | B_idle, None | B_pushed _, None | B_popped _, None | B_pop, None => True
  | B_push v, None => 0 <= v < wmod g
  | B_push2 v cpu o, a => In cpu cpus /\ 0 <= v < wmod g /\ o <> Z.of_nat (buflen cpu) /\
      match a with None => True | Some (c, _) => c_mode c = md /\ c_cpu c = cpu /\
        c_op c = CbneStoreStore (ofs cpu) o (slot cpu o) v (o + 1) end
  | B_pop1 cpu o, None => In cpu cpus /\ o <> 0
  | B_pop2 cpu o v, a => In cpu cpus /\ o <> 0 /\
      match a with None => True | Some (c, _) => c_mode c = md /\ c_cpu c = cpu /\
        c_op c = CbneLoadCbneStore (ofs cpu) o (slot cpu (o - 1)) v (o - 1) end
  | _, _ => False
  end.
Definition b_absent (_ : stacks Z) (_ _ : nat) : Prop := True.

Lemma b_keeps : forall gh m t d gh' m', keeps buf_loc (stacks Z) b_ctx b_absent gh m t d gh' m'.
Proof. intros. split; auto. Qed.

Lemma b_slot_lay : forall cpu i a, In cpu cpus -> 0 <= i < Z.of_nat (buflen cpu) -> In a (span (slot cpu i) (wsize g)) -> lay a = Array cpu.
Proof. intros cpu i a Hc Hi Ha. apply La; auto. eapply slot_in; eauto. Qed.

Lemma stack_in_same : forall m m' cpu S, (forall i, 0 <= i < Z.of_nat (length S) -> ldw g m' (slot cpu i) = ldw g m (slot cpu i)) ->
  stack_in g arr m cpu S -> stack_in g arr m' cpu S.
Proof.
  intros m m' cpu S. induction S as [|x S IH]; intros H Hs; cbn in *; auto. destruct Hs as [H1 H2]. split.
  - rewrite H; [auto|lia].
  - apply IH; auto. intros i Hi. apply H. lia.
Qed.

(** A write that only touches the first free slot of one CPU. *)
Lemma b_hold_free : forall m m' ps S cpu, In cpu cpus -> buffers_hold g cpus ofs arr m S ->
  (forall c, In c cpus -> (length (S c) <= buflen c)%nat) -> (length (S cpu) < buflen cpu)%nat ->
  incl (map fst ps) (span (slot cpu (Z.of_nat (length (S cpu)))) (wsize g)) -> meq m' (wr m ps) ->
  buffers_hold g cpus ofs arr m' S.
Proof.
  intros m m' ps S cpu Hc Hb Hlen Hl Hi Hm c Hcc. destruct (Hb c Hcc) as [H1 H2].
  assert (Hlay : forall a, In a (map fst ps) -> lay a = Array cpu).
  { intros a Ha. apply Hi in Ha. eapply b_slot_lay; eauto. lia. }
  split.
  - rewrite <- H1. eapply ldw_wr_other; [exact Hm|]. intros a Ha Hb'. specialize (Hlay a Ha).
    pose proof (Lo c a Hcc Hb'). congruence.
  - eapply stack_in_same; [|exact H2]. intros i Hii. eapply ldw_wr_other; [exact Hm|]. intros a Ha Hb'.
    destruct (Z.eq_dec c cpu) as [->|Hne].
    + apply Hi in Ha. eapply (slots_apart (arr cpu) (wsize g) i (Z.of_nat (length (S cpu)))); [| | |exact Hb'|exact Ha]; lia.
    + specialize (Hlay a Ha). pose proof (Hlen c Hcc). rewrite (b_slot_lay c i a Hcc) in Hlay; [congruence|lia|auto].
Qed.

Lemma b_inv : client_inv buf_loc g cl (stacks Z) b_glob b_ctx b_absent.
Proof.
  split; try (intros; exact Logic.I).
  - (* call *) intros gh es m t d l c _ H [Hm Hc]. unfold b_ctx in *. cbn in *. destruct l; try contradiction; tauto.
  - (* ret *) intros gh es m t d l c r HG H. exists gh. split; auto. split; [|apply b_keeps].
    unfold b_ctx in *. cbn in *. destruct l; try contradiction; destruct (r =? 0); cbn; tauto.
  - intros gh es m t d l ps l' m' _ _ [].
  - (* tau *) intros gh es m t d l l' HG H Ht. exists gh. split; auto. split; [|apply b_keeps].
    unfold b_ctx in *. cbn in *. destruct l as [|v|v cpu o| |cpu o|cpu o v|b|o]; try contradiction.
    + destruct Ht as [(v & Hv & ->)|[-> | ->]]; auto.
    + destruct Ht as (cpu & o & Hc & _ & ->). destruct (Z.eqb_spec o (Z.of_nat (buflen cpu))); auto.
    + destruct Ht as (cpu & o & Hc & _ & ->). destruct (Z.eqb_spec o 0); auto.
    + destruct Ht as (v & _ & ->). tauto.
    + destruct Ht as [(v & Hv & ->)|[-> | ->]]; auto.
    + destruct Ht as [(v & Hv & ->)|[-> | ->]]; auto.
  - (* sig *) intros gh es m t d x l' _ _ -> _. exact Logic.I.
  - (* attempt *) intros gh es m t d l c w att fin ps m' (HG1 & HG2 & HG3) H Hp Hi Hm.
    exists gh. split; [|split; [|apply b_keeps]]; [|unfold b_ctx in *; cbn in *; destruct l; auto].
    split; auto. split; auto. unfold b_ctx in H. cbn in H. destruct l as [|v|v cpu o| |cpu o|cpu o v|b|o]; try contradiction.
    + destruct H as (H1 & H2 & H3 & H4 & H5 & H6). rewrite H6 in Hp. cbn in Hp.
      destruct (Z.eqb_spec (ldw g m (ofs cpu)) o) as [Eo|]; [|discriminate]. injection Hp as <- <-.
      destruct (HG2 cpu H1) as [Hl _]. rewrite Eo in Hl. pose proof (HG3 cpu H1) as Hlq.
      eapply (b_hold_free m m' ps gh cpu); eauto; [lia|]. rewrite <- Hl, <- stw_keys with (v := v). intros a Ha.
      apply in_map_iff in Ha. destruct Ha as (p & <- & Ha). apply in_map. auto.
    + destruct H as (H1 & H2 & H4 & H5 & H6). rewrite H6 in Hp. cbn in Hp.
      destruct (ldw g m (ofs cpu) =? o); [|discriminate]. destruct (ldw g m (slot cpu (o - 1)) =? v); [|discriminate].
      injection Hp as <- <-. assert (ps = []) as -> by (destruct ps as [|p ps]; auto; destruct (Hi p (or_introl eq_refl))).
      intros c' Hc'. destruct (HG2 c' Hc') as [J1 J2]. split; [rewrite (ldw_meq g _ _ _ Hm); auto|].
      eapply stack_in_same; [|exact J2]. intros. apply ldw_meq. exact Hm.
  - (* commit *) intros gh es m t d l c w att fin m' (HG1 & HG2 & HG3) H Hp Hm.
    unfold b_ctx in H. cbn in H. destruct l as [|v|v cpu o| |cpu o|cpu o v|b|o]; try contradiction.
    + destruct H as (H1 & H2 & H3 & H4 & H5 & H6). rewrite H6 in Hp. cbn in Hp.
      destruct (Z.eqb_spec (ldw g m (ofs cpu)) o) as [Eo|]; [|discriminate]. injection Hp as <- <-.
      destruct (HG2 cpu H1) as [Hl _]. rewrite Eo in Hl. pose proof (Lr cpu H1) as Hr. pose proof (HG3 cpu H1) as Hlq.
      assert (H3' : 0 <= o < Z.of_nat (buflen cpu)) by lia.
      assert (Hfree : buffers_hold g cpus ofs arr (wr m (stw g (slot cpu o) v)) gh).
      { eapply (b_hold_free m _ (stw g (slot cpu o) v) gh cpu); eauto; [lia| |intros a; reflexivity].
        rewrite stw_keys, Hl. intros a; auto. }
      exists (set_stack gh cpu (v :: gh cpu)). split; [|split; [|apply b_keeps]].
      * split; [|split].
        { rewrite buf_run_snoc, HG1. cbn [buf_step]. destruct (Nat.ltb_spec (length (gh cpu)) (buflen cpu)); [reflexivity|lia]. }
        { intros c' Hc'. destruct (Hfree c' Hc') as [F1 F2]. unfold set_stack. destruct (Z.eqb_spec c' cpu) as [->|Hne].
          - split.
            + cbn [length]. rewrite (ldw_wr_same g _ m' (ofs cpu) (o + 1) Hm); lia.
            + cbn. rewrite <- Hl. split.
              * rewrite (ldw_wr_other g _ m' _ (slot cpu o) Hm); [apply ldw_stw; auto|].
                rewrite stw_keys. intros a Ha Hb'.
                pose proof (Lo cpu a H1 Ha). pose proof (b_slot_lay cpu o a H1 H3' Hb'). congruence.
              * eapply stack_in_same; [|exact F2]. intros i Hii. eapply ldw_wr_other; [exact Hm|]. rewrite stw_keys.
                intros a Ha Hb'. pose proof (Lo cpu a H1 Ha). pose proof (HG3 cpu H1).
                rewrite (b_slot_lay cpu i a H1) in *; auto; [congruence|lia].
          - split.
            + rewrite <- F1. eapply ldw_wr_other; [exact Hm|]. rewrite stw_keys. intros a Ha Hb'.
              pose proof (Lo cpu a H1 Ha). pose proof (Lo c' a Hc' Hb'). congruence.
            + eapply stack_in_same; [|exact F2]. intros i Hii. eapply ldw_wr_other; [exact Hm|]. rewrite stw_keys.
              intros a Ha Hb'. pose proof (Lo cpu a H1 Ha). pose proof (HG3 c' Hc').
              rewrite (b_slot_lay c' i a Hc') in *; auto; [congruence|lia]. }
        { intros c' Hc'. unfold set_stack. destruct (Z.eqb_spec c' cpu) as [->|Hne]; auto. cbn. lia. }
      * unfold b_ctx. cbn. tauto.
    + destruct H as (H1 & H2 & H4 & H5 & H6). rewrite H6 in Hp. cbn in Hp.
      destruct (Z.eqb_spec (ldw g m (ofs cpu)) o) as [Eo|]; [|discriminate].
      destruct (Z.eqb_spec (ldw g m (slot cpu (o - 1))) v) as [Ev|]; [|discriminate].
      injection Hp as <- <-. cbn [wr fold_left] in Hm. destruct (HG2 cpu H1) as [Hl Hst]. rewrite Eo in Hl. pose proof (Lr cpu H1) as Hr.
      destruct (gh cpu) as [|x S'] eqn:ES; [cbn in Hl; lia|]. cbn [length stack_in] in Hl, Hst. destruct Hst as [Hx Hst].
      pose proof (HG3 cpu H1) as Hlq. rewrite ES in Hlq. cbn in Hlq.
      assert (Hxv : x = v). { rewrite <- Hx, <- Ev. f_equal. f_equal. lia. }
      exists (set_stack gh cpu S'). split; [|split; [|apply b_keeps]].
      * split; [|split].
        { rewrite buf_run_snoc, HG1. cbn. rewrite ES, Hxv, Z.eqb_refl. reflexivity. }
        { intros c' Hc'. destruct (HG2 c' Hc') as [F1 F2]. unfold set_stack. destruct (Z.eqb_spec c' cpu) as [->|Hne].
          - split.
            + rewrite (ldw_wr_same g _ m' (ofs cpu) (o - 1) Hm); lia.
            + eapply stack_in_same; [|exact Hst]. intros i Hii. eapply ldw_wr_other; [exact Hm|]. rewrite stw_keys.
              intros a Ha Hb'. pose proof (Lo cpu a H1 Ha). pose proof (HG3 cpu H1) as Hl3. rewrite ES in Hl3. cbn in Hl3.
              rewrite (b_slot_lay cpu i a H1) in *; auto; [congruence|lia].
          - split.
            + rewrite <- F1. eapply ldw_wr_other; [exact Hm|]. rewrite stw_keys. intros a Ha Hb'.
              pose proof (Lo cpu a H1 Ha). pose proof (Lo c' a Hc' Hb'). congruence.
            + eapply stack_in_same; [|exact F2]. intros i Hii. eapply ldw_wr_other; [exact Hm|]. rewrite stw_keys.
              intros a Ha Hb'. pose proof (Lo cpu a H1 Ha). pose proof (HG3 c' Hc').
              rewrite (b_slot_lay c' i a Hc') in *; auto; [congruence|lia]. }
        { intros c' Hc'. unfold set_stack. destruct (Z.eqb_spec c' cpu) as [->|Hne]; auto.
          pose proof (HG3 cpu H1) as Hl3. rewrite ES in Hl3. cbn in Hl3. lia. }
      * unfold b_ctx. cbn. tauto.
  - (* fail *) intros gh es m t d l c (HG1 & HG2 & HG3) H _. split.
    + split; auto. rewrite buf_run_snoc, HG1. reflexivity.
    + unfold b_ctx in *. cbn in *. destruct l; auto.
  - (* abort *) intros gh es m t d l c st _ H _. unfold b_ctx in *. cbn in *. destruct l; auto.
Qed.

Definition b_own (_ : stacks Z) (a : Z) : owner :=
  match lay a with Offset cpu | Array cpu => OCpu md cpu | _ => ONone end.

Lemma b_wf : forall gh es m t d l c w, b_glob gh es m -> b_ctx gh m t d {| a_loc := l; a_act := Some (c, Pending w) |} ->
  op_wf g (c_op c) m /\ forall a, In a (touched g (c_op c) m) -> usable (b_own gh) t c a.
Proof.
  intros gh es m t d l c w (_ & HG2 & HG3) H. unfold b_ctx in H. cbn in H. destruct l as [|v|v cpu o| |cpu o|cpu o v|b|o]; try contradiction.
  - destruct H as (H1 & H2 & H3 & H4 & H5 & H6). rewrite H6.
    assert (Ho : forall a, In a (span (ofs cpu) (wsize g)) -> usable (b_own gh) t c a).
    { intros a Ha. left. unfold b_own. rewrite (Lo cpu a H1 Ha), H4, H5. reflexivity. }
    unfold op_wf, touched, in_use, attempts. cbn. destruct (HG2 cpu H1) as [Hl _]. pose proof (HG3 cpu H1) as Hlq.
    destruct (Z.eqb_spec (ldw g m (ofs cpu)) o) as [Eo|]; cbn; rewrite ?stw_keys, ?app_nil_r; split; auto.
    + split; auto. intros a Ha Hb. assert (H3' : 0 <= o < Z.of_nat (buflen cpu)) by lia.
      pose proof (b_slot_lay cpu o a H1 H3' Ha). pose proof (Lo cpu a H1 Hb). congruence.
    + assert (H3' : 0 <= o < Z.of_nat (buflen cpu)) by lia.
      assert (Hs : forall a, In a (span (slot cpu o) (wsize g)) -> usable (b_own gh) t c a).
      { intros a Ha. left. unfold b_own. rewrite (b_slot_lay cpu o a H1 H3' Ha), H4, H5. reflexivity. }
      intros a Ha. apply in_app_or in Ha. destruct Ha as [Ha|Ha]; auto. apply in_app_or in Ha. destruct Ha; auto.
    + split; auto. intros a [].
  - destruct H as (H1 & H2 & H4 & H5 & H6). rewrite H6.
    assert (Ho : forall a, In a (span (ofs cpu) (wsize g)) -> usable (b_own gh) t c a).
    { intros a Ha. left. unfold b_own. rewrite (Lo cpu a H1 Ha), H4, H5. reflexivity. }
    unfold op_wf, touched, in_use, attempts. cbn. destruct (HG2 cpu H1) as [Hl _]. pose proof (HG3 cpu H1) as Hlq.
    destruct (Z.eqb_spec (ldw g m (ofs cpu)) o) as [Eo|]; cbn; rewrite ?app_nil_r.
    + assert (Hs : forall a, In a (span (slot cpu (o - 1)) (wsize g)) -> usable (b_own gh) t c a).
      { intros a Ha. left. unfold b_own. rewrite (b_slot_lay cpu (o - 1) a H1 ltac:(lia) Ha), H4, H5. reflexivity. }
      destruct (ldw g m (slot cpu (o - 1)) =? v); cbn; rewrite ?app_nil_r, ?stw_keys; (split; [split; auto; intros a []|]);
        intros a Ha; repeat (apply in_app_or in Ha; destruct Ha as [Ha|Ha]); auto.
    + split; auto. split; auto. intros a [].
Qed.

Lemma b_safe : forall (s0 : astate buf_loc) gh0, holds_inv buf_loc (stacks Z) b_glob b_ctx b_absent gh0 [] s0 ->
  exclusive (a_on s0) -> safe_client g cl s0.
Proof.
  intros s0 gh0 H0 Hex.
  apply (inv_safe buf_loc g cl (stacks Z) b_glob b_ctx b_absent b_inv b_own b_wf) with (gh0 := gh0); auto.
  intros gh es m t d l ps l' HG H [].
Qed.
End Buf.

Lemma buf_inv0 : forall g md cpus ofs arr buflen S0 s0,
  (forall t, map x_loc (t_ctx (s_thr s0 t)) = [B_idle]) ->
  buffers_hold g cpus ofs arr (s_mem s0) S0 -> (forall cpu, In cpu cpus -> (length (S0 cpu) <= buflen cpu)%nat) ->
  holds_inv buf_loc (stacks Z) (b_glob g cpus ofs arr buflen S0) (b_ctx g md cpus ofs arr buflen) b_absent S0 [] (abs_init s0).
Proof.
  intros g md cpus ofs arr buflen S0 s0 Hst Hb Hlen.
  split; [split; [reflexivity|auto]|]. intros t. split; [|intros; exact Logic.I]. specialize (Hst t). cbn.
  destruct (t_ctx (s_thr s0 t)) as [|x [|? ?]]; try discriminate. cbn in *. injection Hst as ->. unfold b_ctx. cbn. auto.
Qed.

(** C14 *)
Theorem buffers_are_stacks : forall g a tw tx md cpus load ofs arr buflen S0 s0,
  lib_text a tw tx -> initial s0 -> buf_layout g cpus ofs arr buflen ->
  (forall t, map x_loc (t_ctx (s_thr s0 t)) = [B_idle]) ->
  buffers_hold g cpus ofs arr (s_mem s0) S0 -> (forall cpu, In cpu cpus -> (length (S0 cpu) <= buflen cpu)%nat) ->
  forall tr s, path g tx (buf_client_of g md cpus load ofs arr buflen) s0 tr s ->
  exists evs S, linearization g any_res tr s evs /\ buf_run buflen S0 evs = Some S /\
    buffers_hold g cpus ofs arr (s_mem s) S /\ (forall cpu, In cpu cpus -> (length (S cpu) <= buflen cpu)%nat).
Proof.
  intros g a tw tx md cpus load ofs arr buflen S0 s0 Htx Hi (lay & Lo & La & Lr) Hst Hb Hlen tr s Hp.
  assert (Hgood : good_text g tx) by (eapply lib_good; eauto).
  set (cl := buf_client_of g md cpus load ofs arr buflen) in *.
  pose proof (buf_inv0 g md cpus ofs arr buflen S0 s0 Hst Hb Hlen) as H0.
  assert (Hsafe : safe_client g cl (abs_init s0)).
  { eapply (b_safe g md cpus load ofs arr buflen lay); eauto. apply init_exclusive; auto. }
  destruct (linearizes buf_loc g tx cl Hgood any_res s0 tr s Hi Hsafe (fun _ _ _ _ _ _ _ _ _ _ _ _ _ _ => Logic.I)
     (fun _ _ _ _ _ _ _ _ _ _ _ _ _ => Logic.I) Hp) as (evs & aa & A1 & A2 & A3).
  destruct (inv_path buf_loc g cl (stacks Z) _ _ _ (b_inv g md cpus load ofs arr buflen lay Lo La Lr S0) _ _ _ A1 _ H0) as (gh & [HG _]).
  replace (a_mem aa) with (s_mem s) in * by (symmetry; apply A2). destruct HG as (G1 & G2 & G3).
  exists evs, gh. split; auto. split; auto. rewrite buf_run_effects in G1. exact G1.
Qed.
