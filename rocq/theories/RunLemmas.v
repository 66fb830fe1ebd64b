(** Properties of [reach] and [Safe], independent of threads. *)
From Coq Require Import ZArith Bool List Lia.
From Verif Require Import RseqIR RseqSpec RseqKernel RseqSafe MemLemmas.
Import ListNotations.
Local Open Scope Z_scope.

Lemma istep_agree : forall g P m m' idx pc rs pc' rs' e rd,
  istep g P m idx pc rs = Some (pc', rs', e, rd) -> agree rd m m' ->
  istep g P m' idx pc rs = Some (pc', rs', e, rd).
Proof.
  intros g P m m' idx pc rs pc' rs' e rd H Ha. unfold istep in *.
  destruct (nth_error (code P) pc) as [i|]; [|discriminate].
  destruct i; inversion H; subst; auto.
  - now rewrite (ldw_agree g m m' _ Ha).
  - unfold byte. rewrite Ha; auto. now left.
  - now rewrite (ldw_agree g m m' _ Ha).
  - now rewrite (ldw_agree g m m' _ Ha).
Qed.

Lemma reach_agree : forall g P m m' idx s0 s,
  reach g P m idx s0 s -> agree (r_rd s) m m' -> reach g P m' idx s0 s.
Proof.
  intros g P m m' idx s0 s H. induction H as [|s pc' rs' e rd Hr IH Hp Hs Hp' He]; intros Ha.
  - constructor.
  - cbn in Ha. apply agree_app in Ha. destruct Ha as [H1 H2].
    apply reach_step; auto. eapply istep_agree; eauto.
Qed.

Lemma wr_ok_incl : forall g c m e, wr_ok g c m e -> incl (eff_wr e) (attempts g (c_op c) m).
Proof.
  intros g c m e H. destruct e; cbn in *; try apply incl_nil_l.
  destruct H as (att & fin & Hp & Hi). unfold attempts. now rewrite Hp.
Qed.

(** What a correct sequence has done after some steps inside the sequence. *)
Lemma reach_safe : forall g P c m idx s0 s k,
  reach g P m idx s0 s -> Safe g P c m idx k s0 ->
  r_rd s0 = [] -> r_w s0 = [] ->
  (exists k', Safe g P c m idx k' s) /\
  incl (r_rd s) (read_foot g (c_op c) m) /\
  incl (r_w s) (attempts g (c_op c) m) /\
  (idx <> cpuarg c -> r_rd s = [] /\ r_w s = []).
Proof.
  intros g P c m idx s0 s k H Hs Hrd Hw.
  induction H as [|s pc' rs' e rd Hr IH Hp Hi Hp' He].
  - rewrite Hrd, Hw. repeat split; eauto using incl_nil_l.
  - destruct IH as ((k' & Hk) & I1 & I2 & I3).
    inversion Hk; subst.
    + rewrite Hi in H0. inversion H0; subst. cbn [rnext r_rd r_w]. repeat split.
      * eauto.
      * apply incl_app; auto.
      * apply incl_app; auto. apply wr_ok_incl; auto.
      * destruct H4 as [[-> _]|]; [|congruence]. rewrite (proj1 (I3 H9)). auto.
      * destruct H4 as [[_ Hx]|]; [|congruence]. rewrite (proj2 (I3 H9)).
        destruct e0; cbn in *; try discriminate; auto.
    + rewrite Hi in H0. inversion H0; subst. lia.
    + rewrite Hi in H0. inversion H0; subst. lia.
    + rewrite Hi in H1. inversion H1; subst. lia.
Qed.

(** ** Static layout *)
Section Static.
Variables (P : program).
Hypothesis Hok : static_ok P = true.

Lemma static_facts :
  desc_ok P = true /\ (0 < cs_start P)%nat /\ (cs_start P < cs_commit P)%nat /\
  (cs_commit P <= cs_abort P)%nat /\
  (forall pc i, (pc < cs_start P - 1)%nat -> nth_error (code P) pc = Some i ->
     exists d s, i = IMov d s) /\
  nth_error (code P) (cs_start P - 1) = Some ICs /\
  (forall pc i, (cs_start P <= pc)%nat -> nth_error (code P) pc = Some i -> i <> ICs) /\
  (forall pc i l, (pc < cs_commit P)%nat -> nth_error (code P) pc = Some i ->
     target i = Some l -> (cs_start P <= l)%nat) /\
  (forall pc i l, (cs_commit P <= pc)%nat -> nth_error (code P) pc = Some i ->
     target i = Some l -> (cs_commit P <= l)%nat) /\
  exit_of P (cs_commit P) = Some XOk /\ exit_of P (cs_abort P) = Some XAbort.
Proof.
  unfold static_ok in Hok. repeat rewrite andb_true_iff in Hok.
  destruct Hok as (((((((((Hd & H0) & Hc) & Hm) & Hcs) & Hn) & Hg1) & Hg2) & Hx) & Ha).
  assert (nth_firstn : forall n (l : list instr) pc i,
    (pc < n)%nat -> nth_error l pc = Some i -> In i (firstn n l)).
  { clear. induction n; intros; [lia|]. destruct l; [destruct pc; discriminate|].
    destruct pc; cbn in *; [inversion H0; auto|]. right. apply (IHn l pc); auto. lia. }
  assert (nth_skipn : forall n (l : list instr) pc i,
    (n <= pc)%nat -> nth_error l pc = Some i -> In i (skipn n l)).
  { clear. induction n; intros; cbn; [eapply nth_error_In; eauto|].
    destruct l; [destruct pc; discriminate|]. destruct pc; [lia|]. cbn in H0.
    apply (IHn l pc); auto. lia. }
  rewrite forallb_forall in Hm, Hn, Hg1, Hg2.
  pose proof Hd as Hd'. unfold desc_ok in Hd'. repeat rewrite andb_true_iff in Hd'.
  destruct Hd' as ((_ & Hlt) & _). apply Nat.ltb_lt in Hlt, H0. apply Nat.leb_le in Hc.
  repeat split; auto.
  - intros pc i Hp Hi. specialize (Hm i (nth_firstn _ _ _ _ Hp Hi)).
    destruct i; try discriminate; eauto.
  - destruct (nth_error (code P) (cs_start P - 1)) as [[]|]; try discriminate; auto.
  - intros pc i Hp Hi ->. specialize (Hn ICs (nth_skipn _ _ _ _ Hp Hi)). discriminate.
  - intros pc i l Hp Hi Ht. specialize (Hg1 i (nth_firstn _ _ _ _ Hp Hi)).
    unfold goes_ge in Hg1. rewrite Ht in Hg1. now apply Nat.leb_le.
  - intros pc i l Hp Hi Ht. specialize (Hg2 i (nth_skipn _ _ _ _ Hp Hi)).
    unfold goes_ge in Hg2. rewrite Ht in Hg2. now apply Nat.leb_le.
  - unfold is_exit_of in Hx. destruct (exit_of P (cs_commit P)) as [[]|]; try discriminate; auto.
  - unfold is_exit_of in Ha. destruct (exit_of P (cs_abort P)) as [[]|]; try discriminate; auto.
Qed.

(** The instructions before the critical section only move registers. *)
Lemma prelude_step : forall g m idx pc rs pc' rs' e rd,
  (pc < cs_start P)%nat -> istep g P m idx pc rs = Some (pc', rs', e, rd) ->
  pc' = S pc /\ rd = [] /\
  ((e = ENone /\ (pc' < cs_start P)%nat) \/ (e = ECs /\ pc' = cs_start P)) /\
  forall m' idx', istep g P m' idx' pc rs = Some (pc', rs', e, rd).
Proof.
  intros g m idx pc rs pc' rs' e rd Hp Hi.
  destruct static_facts as (_ & H0 & _ & _ & Hm & Hcs & _).
  unfold istep in *. destruct (Nat.eq_dec pc (cs_start P - 1)) as [->|Hne].
  - rewrite Hcs in *. inversion Hi; subst. repeat split; auto. right. split; auto. lia.
  - destruct (nth_error (code P) pc) as [i|] eqn:E; [|discriminate].
    destruct (Hm pc i ltac:(lia) E) as (d & s & ->).
    inversion Hi; subst. repeat split; auto. left. split; auto. lia.
Qed.

(** Going forward never re-enters the prelude. *)
Lemma istep_start : forall g m idx pc rs pc' rs' e rd,
  (cs_start P <= pc)%nat -> istep g P m idx pc rs = Some (pc', rs', e, rd) ->
  (cs_start P <= pc')%nat.
Proof.
  intros g m idx pc rs pc' rs' e rd Hp Hi.
  destruct static_facts as (_ & H0 & Hlt & _ & _ & _ & _ & Hg1 & Hg2 & _).
  unfold istep in Hi. destruct (nth_error (code P) pc) as [i|] eqn:E; [|discriminate].
  assert (Ht : forall l, target i = Some l -> (cs_start P <= l)%nat).
  { intros l Hl. destruct (lt_dec pc (cs_commit P)).
    - eapply Hg1; eauto.
    - assert (cs_commit P <= l)%nat by (eapply (Hg2 pc); eauto; lia). lia. }
  destruct i; inversion Hi; subst; try lia; cbn in Ht;
    repeat match goal with |- context [if ?b then _ else _] => destruct b end;
    try lia; apply Ht; auto.
Qed.

Lemma istep_nocs : forall g m idx pc rs pc' rs' rd,
  (cs_start P <= pc)%nat -> istep g P m idx pc rs = Some (pc', rs', ECs, rd) -> False.
Proof.
  intros g m idx pc rs pc' rs' rd Hp Hi.
  destruct static_facts as (_ & _ & _ & _ & _ & _ & Hn & _).
  unfold istep in Hi. destruct (nth_error (code P) pc) as [i|] eqn:E; [|discriminate].
  specialize (Hn pc i Hp E). destruct i; try discriminate; congruence.
Qed.

Lemma reach_prelude : forall g m idx s0 s, (r_pc s0 < cs_start P)%nat ->
  reach g P m idx s0 s -> (r_pc s < cs_start P)%nat ->
  (forall m' idx', reach g P m' idx' s0 s) /\ r_rd s = r_rd s0 /\ r_w s = r_w s0.
Proof.
  intros g m idx s0 s H0 H. induction H as [|s pc' rs' e rd Hr IH Hp Hi Hp' He]; intros Hs.
  - repeat split; auto. intros. constructor.
  - cbn [rnext r_pc] in Hs. destruct (le_lt_dec (cs_start P) (r_pc s)) as [Hge|Hlt].
    { pose proof (istep_start _ _ _ _ _ _ _ _ _ Hge Hi). lia. }
    destruct (IH Hlt) as (I1 & I2 & I3).
    destruct (prelude_step _ _ _ _ _ _ _ _ _ Hlt Hi) as (-> & -> & He' & Hind).
    destruct He' as [[-> _]|[_ Hx]]; [|lia].
    cbn [rnext r_rd r_w eff_wr]. rewrite !app_nil_r. repeat split; auto.
    intros m' idx'. apply reach_step; auto.
Qed.

(** ** After the critical section *)
Lemma tail_exit_mono : forall n k pc x, tail_exit P n pc = Some x -> (n <= k)%nat ->
  tail_exit P k pc = Some x.
Proof.
  induction n; intros k pc x H Hk; [discriminate|]. destruct k; [lia|].
  cbn in *. destruct (nth_error (code P) pc) as [[]|]; try discriminate; auto; apply IHn; auto; lia.
Qed.

Lemma tail_step : forall g m idx pc rs pc' rs' e rd x,
  (cs_commit P <= pc)%nat -> exit_of P pc = Some x ->
  istep g P m idx pc rs = Some (pc', rs', e, rd) ->
  (e = ENone /\ (cs_commit P <= pc')%nat /\ exit_of P pc' = Some x) \/ e = EExit x.
Proof.
  intros g m idx pc rs pc' rs' e rd x Hp Hx Hi.
  destruct static_facts as (_ & _ & _ & _ & _ & _ & _ & _ & Hg2 & _).
  unfold exit_of in *. destruct (length (code P)) as [|n] eqn:En; [discriminate|].
  cbn in Hx. unfold istep in Hi. destruct (nth_error (code P) pc) as [i|] eqn:E; [|discriminate].
  destruct i; inversion Hi; subst; try discriminate.
  - left. repeat split; auto. eapply tail_exit_mono; eauto.
  - left. repeat split; auto.
    + eapply Hg2; eauto; reflexivity.
    + eapply tail_exit_mono; eauto.
  - right. congruence.
Qed.

End Static.
