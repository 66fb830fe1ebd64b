(** Proofs about the rseq membarrier. *)
From Coq Require Import ZArith Bool List Lia.
From Verif Require Import RseqIR RseqSpec RseqKernel RseqSafe MemLemmas RunLemmas RseqSim RseqOwn RseqCalls ArchCommon Arch_x86 Archs BarrierSpec.
Import ListNotations.
Local Open Scope Z_scope.

Section Barrier.
Variables (Loc : Type) (g : cfg) (tw : bool) (tx : text) (cl : client Loc).
Hypothesis Htx : lib_text X86_64 tw tx.

Notation state := (RseqKernel.state Loc).
Notation thread := (RseqKernel.thread Loc).
Notation ctx := (RseqKernel.ctx Loc).

Let n : nat := if tw then 2%nat else 0%nat.
Definition PG (md : imode) : program := x64_add_load_load_add_store tw md.

Lemma pg_start : forall md, cs_start (PG md) = 1%nat.
Proof. intros md. unfold PG. destruct tw, md; reflexivity. Qed.
Lemma pg_commit : forall md, cs_commit (PG md) = (7 + n)%nat.
Proof. intros md. unfold PG, n. destruct tw, md; reflexivity. Qed.
Lemma pg_abort : forall md, (7 + n <= cs_abort (PG md))%nat.
Proof. intros md. unfold PG, n. destruct tw, md; vm_compute; lia. Qed.
Lemma pg_desc : forall md, desc_ok (PG md) = true.
Proof. intros md. unfold PG. destruct tw, md; reflexivity. Qed.
Lemma pg_mode : forall md, pmode (PG md) = md.
Proof. intros md. unfold PG. destruct tw, md; reflexivity. Qed.

Definition inside (pc : nat) : Prop := (1 <= pc < 7 + n)%nat.
Lemma in_cs_inside : forall md pc, in_cs (PG md) pc = true <-> inside pc.
Proof.
  intros md pc. unfold in_cs, inside. rewrite pg_start, pg_commit, andb_true_iff, Nat.leb_le, Nat.ltb_lt. reflexivity.
Qed.

(** Frames of the helper. *)
Definition ours (md : imode) (f : frame) : Prop := tx (c_code (f_call f)) = Some (PG md, KAddLoadLoad).

(** What holds of a frame at any depth. *)
Definition base (reg : bool) (f : frame) : Prop :=
  (exists P kd, tx (c_code (f_call f)) = Some (P, kd) /\ kd = kind_of (c_op (f_call f)) /\
     pmode P = c_mode (f_call f)) /\
  forall md, ours md f ->
    - 2 ^ 31 <= c_cpu (f_call f) < 2 ^ 31 /\
    f_rs f Rcpu = c_cpu (f_call f) mod 2 ^ 32 /\
    (forall p off inc, c_op (f_call f) = AddLoadLoadAddStore p off inc ->
       f_rs f Rptr = p /\ f_rs f Roff = off /\ f_rs f Rinc = inc) /\
    (reg = false -> c_cpu (f_call f) <> unreg_index md /\
       (inside (f_pc f) -> (f_pc f < 3)%nat /\ (f_pc f = 2%nat -> f_rs f ZF = 0))).

(** What holds of the innermost frame of a registered thread. *)
Definition armed (cs : option nat) (f : frame) : Prop :=
  forall md, ours md f -> inside (f_pc f) -> cs = Some (c_code (f_call f)).
Definition checked (a : area) (f : frame) : Prop :=
  forall md, ours md f -> inside (f_pc f) ->
    ((3 <= f_pc f)%nat -> index a md = f_rs f Rcpu) /\
    (f_pc f = 2%nat -> f_rs f ZF <> 0 -> index a md = f_rs f Rcpu).
(** and of the others *)
Definition out (f : frame) : Prop := forall md, ours md f -> ~ inside (f_pc f).

Definition on_frame (Q : frame -> Prop) (x : ctx) : Prop := forall f, x_act x = Some f -> Q f.
Definition hd_ok (Q : frame -> Prop) (k : list ctx) : Prop :=
  match k with [] => True | x :: _ => on_frame Q x end.
Definition tl_ok (Q : frame -> Prop) (k : list ctx) : Prop := Forall (on_frame Q) (tl k).

Definition area_ok (th : thread) : Prop :=
  (t_reg th = false -> forall md, index (t_area th) md = unreg_index md mod 2 ^ 32) /\
  (t_reg th = true -> forall c d, t_on th = Some (c, d) ->
     cpu_field (t_area th) = c /\ cid_field (t_area th) = d) /\
  (forall c d, t_on th = Some (c, d) -> 0 <= c < 2 ^ 31 /\ 0 <= d < 2 ^ 31).

Record TI (th : thread) : Prop := {
  ti_area : area_ok th;
  ti_base : Forall (on_frame (base (t_reg th))) (t_ctx th);
  ti_armed : t_reg th = true -> hd_ok (armed (rseq_cs (t_area th))) (t_ctx th);
  ti_checked : t_reg th = true -> t_dead th = false -> hd_ok (checked (t_area th)) (t_ctx th);
  ti_low : t_reg th = true -> t_dead th = false -> tl_ok out (t_ctx th) }.

(** ** The code *)

(** The instruction of the helper. *)
Lemma pg_step : forall md m idx pc rs pc' rs' e rd,
  istep g (PG md) m idx pc rs = Some (pc', rs', e, rd) ->
  (pc = 0%nat /\ pc' = 1%nat /\ rs' = rs /\ e = ECs) \/
  (pc = 1%nat /\ pc' = 2%nat /\ rs' = setr rs ZF (if idx =? rs Rcpu then 1 else 0) /\ e = ENone) \/
  (pc = 2%nat /\ (if rs ZF =? 0 then (7 + n <= pc')%nat else pc' = 3%nat) /\ rs' = rs /\ e = ENone) \/
  (tw = true /\ pc = 3%nat /\ pc' = 4%nat /\ rs' = setr rs ZF (if idx =? rs Rcpu then 1 else 0) /\ e = ENone) \/
  (tw = true /\ pc = 4%nat /\ (if rs ZF =? 0 then (7 + n <= pc')%nat else pc' = 5%nat) /\ rs' = rs /\ e = ENone) \/
  (pc = (3 + n)%nat /\ pc' = (4 + n)%nat /\ rs' = setr rs T1 (ldw g m (rs Rptr)) /\ e = ENone) \/
  (pc = (4 + n)%nat /\ pc' = (5 + n)%nat /\ rs' = setr rs T1 (wrap g (rs T1 + rs Roff)) /\ e = ENone) \/
  (pc = (5 + n)%nat /\ pc' = (6 + n)%nat /\ rs' = setr rs T2 (ldw g m (rs T1)) /\ e = ENone) \/
  (pc = (6 + n)%nat /\ pc' = (7 + n)%nat /\ rs' = rs /\
     e = EWr (stw g (rs T2) (wrap g (ldw g m (rs T2) + rs Rinc)))) \/
  ((7 + n <= pc)%nat /\ (7 + n <= pc')%nat /\ rs' = rs /\ (e = ENone \/ exists x, e = EExit x)).
Proof.
  intros md m idx pc rs pc' rs' e rd H. subst n. unfold PG, istep in H.
  destruct tw; cbn [plus];
    (do 9 (destruct pc as [|pc]; [cbn in H; injection H as <- <- <- _; try destruct (rs ZF =? 0); cbn; intuition (try lia; eauto)|]));
    (do 12 (destruct pc as [|pc]; [cbn in H; try discriminate H; injection H as <- <- <- _; cbn; intuition (try lia; eauto)|]));
    cbn in H; try discriminate H; destruct pc; cbn in H; discriminate H.
Qed.

(** ** The kernel's fix-up *)
Lemma out_armed : forall cs f, out f -> armed cs f.
Proof. intros cs f H md Ho Hi. exfalso. exact (H md Ho Hi). Qed.
Lemma out_checked : forall a f, out f -> checked a f.
Proof. intros a f H md Ho Hi. exfalso. exact (H md Ho Hi). Qed.
Lemma hd_impl : forall (P Q : frame -> Prop) k, (forall f, P f -> Q f) -> hd_ok P k -> hd_ok Q k.
Proof. intros P Q [|x k] H HP; cbn in *; auto. intros f Hf. apply H. apply HP. exact Hf. Qed.

Lemma ours_same : forall md f pc rs, ours md {| f_call := f_call f; f_pc := pc; f_rs := rs |} -> ours md f.
Proof. intros md f pc rs H. exact H. Qed.

Lemma fixup_spec : forall ld (th : thread),
  Forall (on_frame (base (t_reg th))) (t_ctx th) ->
  (t_reg th = true -> hd_ok (armed (rseq_cs (t_area th))) (t_ctx th)) ->
  let th' := fixup tx ld th in
  t_reg th' = t_reg th /\ Forall (on_frame (base (t_reg th))) (t_ctx th') /\ tl (t_ctx th') = tl (t_ctx th) /\
  ((t_on th' = None /\ t_area th' = t_area th /\ t_ctx th' = t_ctx th /\ t_dead th' = true) \/
   (t_dead th' = t_dead th /\ t_on th' = t_on th /\ (forall md, index (t_area th') md = index (t_area th) md) /\
    (t_reg th = true -> hd_ok out (t_ctx th')) /\ (t_reg th = false -> th' = th))).
Proof.
  intros ld th Hb Ha. unfold fixup. destruct (t_reg th) eqn:Er; cbn [negb].
  2:{ rewrite Er. split; [reflexivity|]. split; [exact Hb|]. split; [reflexivity|]. right. split; [reflexivity|]. split; [reflexivity|]. split; [intros []; reflexivity|]. split; [discriminate|reflexivity]. }
  specialize (Ha eq_refl).
  destruct (rseq_cs (t_area th)) as [id|] eqn:Ecs.
  2:{ rewrite Er. split; [reflexivity|]. split; [exact Hb|]. split; [reflexivity|]. right. split; [reflexivity|]. split; [reflexivity|]. split; [intros []; reflexivity|]. split; [|discriminate].
      intros _. eapply hd_impl; [|exact Ha]. intros f Hf md Ho Hi. specialize (Hf md Ho Hi). discriminate. }
  destruct (if ld id then tx id else None) as [[P kd]|] eqn:Et.
  2:{ cbn. rewrite Er. split; [reflexivity|]. split; [exact Hb|]. split; [reflexivity|]. left. auto. }
  destruct (desc_ok P) eqn:Ed; cbn [negb].
  2:{ cbn. rewrite Er. split; [reflexivity|]. split; [exact Hb|]. split; [reflexivity|]. left. auto. }
  assert (Htid : tx id = Some (P, kd)) by (destruct (ld id); [exact Et|discriminate]).
  destruct (t_ctx th) as [|[l [f|]] k] eqn:Ek; cbn [set_ctx set_cs set_area t_reg t_ctx t_on t_area].
  - rewrite Er, Ek. split; [reflexivity|]. split; [constructor|]. split; [reflexivity|]. right.
    split; [reflexivity|]. split; [reflexivity|]. split; [intros []; reflexivity|]. split; [intros _; exact Logic.I|discriminate].
  - destruct (Nat.eqb (c_code (f_call f)) id && in_cs P (f_pc f)) eqn:Ein; cbn [set_ctx set_cs set_area t_reg t_ctx t_on t_area].
    + rewrite Er. split; [reflexivity|]. apply andb_true_iff in Ein. destruct Ein as [E1 E2]. apply Nat.eqb_eq in E1.
      assert (Hout : forall md, ours md f -> ~ inside (cs_abort P)).
      { intros md Ho Hi. unfold ours in Ho. rewrite E1, Htid in Ho. injection Ho as -> _. unfold inside in Hi.
        pose proof (pg_abort md). lia. }
      inversion Hb as [|? ? B1 B2]; subst. split; [|split; [reflexivity|]].
      * constructor; [|exact B2]. intros f' Hf'. cbn in Hf'. injection Hf' as <-. destruct (B1 f eq_refl) as [C1 C2].
        split; [exact C1|]. intros md Ho. destruct (C2 md Ho) as (D1 & D2 & D3 & D4). cbn [f_call f_rs f_pc].
        split; [exact D1|]. split; [exact D2|]. split; [exact D3|]. intros Hr. destruct (D4 Hr) as [D5 D6].
        split; [exact D5|]. intros Hi. exfalso. exact (Hout md Ho Hi).
      * right. split; [reflexivity|]. split; [reflexivity|]. split; [intros []; reflexivity|]. split; [|discriminate]. intros _. cbn.
        intros f' Hf'. cbn in Hf'. injection Hf' as <-. intros md Ho Hi. exact (Hout md Ho Hi).
    + rewrite Er, Ek. split; [reflexivity|]. split; [exact Hb|]. split; [reflexivity|]. right.
      split; [reflexivity|]. split; [reflexivity|]. split; [intros []; reflexivity|]. split; [|discriminate]. intros _. cbn.
      intros f' Hf'. cbn in Hf'. injection Hf' as <-. intros md Ho Hi.
      pose proof (Ha f eq_refl md Ho Hi) as E. injection E as E. subst id. rewrite Nat.eqb_refl in Ein.
      unfold ours in Ho. rewrite Htid in Ho. injection Ho as -> _. apply (in_cs_inside md) in Hi. rewrite Hi in Ein. discriminate.
  - rewrite Er, Ek. split; [reflexivity|]. split; [exact Hb|]. split; [reflexivity|]. right.
    split; [reflexivity|]. split; [reflexivity|]. split; [intros []; reflexivity|]. split; [|discriminate]. intros _. cbn. intros f' Hf'. discriminate Hf'.
Qed.

Lemma fixup_ti : forall ld th, TI th -> TI (fixup tx ld th).
Proof.
  intros ld th [A B C D E]. destruct (fixup_spec ld th B C) as (F1 & F2 & F3 & [(F4 & F5 & F6 & F0)|(F0 & F4 & F5 & F6 & F7)]).
  - constructor; rewrite ?F1, ?F5, ?F6, ?F0; auto; [|discriminate|discriminate]. destruct A as (A1 & A2 & A3). split; [|split]; rewrite ?F1, ?F4, ?F5; auto; intros; discriminate.
  - destruct (t_reg th) eqn:Er.
    + constructor; rewrite ?F1.
      * destruct A as (A1 & A2 & A3). split; [|split]; rewrite ?F1, ?F4; auto; [discriminate|].
        intros _ c d Hon. destruct (A2 Er c d Hon) as [G1 G2]. pose proof (F5 CPU_ID) as H1. pose proof (F5 MM_CID) as H2. cbn in H1, H2.
        rewrite H1, H2. auto.
      * exact F2.
      * intros _. eapply hd_impl; [|exact (F6 eq_refl)]. intros f. apply out_armed.
      * intros _ _. eapply hd_impl; [|exact (F6 eq_refl)]. intros f. apply out_checked.
      * intros _ Hd. unfold tl_ok. rewrite F3. apply E; [auto|]. rewrite <- F0. exact Hd.
    + rewrite (F7 eq_refl). constructor; try rewrite Er; auto.
Qed.

(** ** One step of one thread *)

Definition opd_of (f : frame) := f_call f.

(** The frame after an instruction of the helper. *)
Lemma instr_base : forall reg f P kd m idx pc' rs' e rd,
  base reg f -> tx (c_code (f_call f)) = Some (P, kd) ->
  istep g P m idx (f_pc f) (f_rs f) = Some (pc', rs', e, rd) ->
  (reg = false -> idx = unreg_index (pmode P) mod 2 ^ 32) ->
  base reg {| f_call := f_call f; f_pc := pc'; f_rs := rs' |}.
Proof.
  intros reg f P kd m idx pc' rs' e rd [B1 B2] Ht Hs Hidx. split; [exact B1|]. intros md Ho. pose proof Ho as Ho'.
  unfold ours in Ho'. cbn [f_call] in Ho'. rewrite Ht in Ho'. injection Ho' as -> ->.
  destruct (B2 md Ho) as (D1 & D2 & D3 & D4). cbn [f_call f_rs f_pc]. split; [exact D1|].
  assert (Hreg : rs' Rcpu = f_rs f Rcpu /\ rs' Rptr = f_rs f Rptr /\ rs' Roff = f_rs f Roff /\ rs' Rinc = f_rs f Rinc).
  { apply pg_step in Hs. repeat destruct Hs as [Hs|Hs]; repeat match goal with H : _ /\ _ |- _ => destruct H end; subst rs'; repeat split; reflexivity. }
  destruct Hreg as (R1 & R2 & R3 & R4). rewrite R1, R2, R3, R4. split; [exact D2|]. split; [exact D3|].
  intros Hr. destruct (D4 Hr) as [D5 D6]. split; [exact D5|]. intros Hi. rewrite pg_mode in Hidx. specialize (Hidx Hr).
  assert (Hne : idx =? f_rs f Rcpu = false).
  { apply Z.eqb_neq. rewrite Hidx, D2. intros E.
    assert (Hu : - 2 ^ 31 <= unreg_index md < 2 ^ 31) by (destruct md; cbn; lia).
    apply D5. revert E. clear - D1 Hu. intros E.
    assert (forall x, - 2 ^ 31 <= x < 2 ^ 31 -> x mod 2 ^ 32 = if x <? 0 then x + 2 ^ 32 else x) as Hm.
    { intros x Hx. destruct (x <? 0) eqn:El.
      - apply Z.ltb_lt in El. symmetry. apply (Z.mod_unique _ _ (-1)); lia.
      - apply Z.ltb_ge in El. apply Z.mod_small. lia. }
    rewrite !Hm in E by assumption. destruct (unreg_index md <? 0) eqn:E1, (c_cpu (f_call f) <? 0) eqn:E2;
      try apply Z.ltb_lt in E1; try apply Z.ltb_ge in E1; try apply Z.ltb_lt in E2; try apply Z.ltb_ge in E2; lia. }
  unfold inside in *. apply pg_step in Hs. 
  repeat destruct Hs as [Hs|Hs]; repeat match goal with H : _ /\ _ |- _ => destruct H end; subst rs'; try lia.
  - subst pc'. split; [intros; lia|]. intros _. cbn. rewrite Hne. reflexivity.
  - exfalso. destruct D6 as [D7 D8]; [lia|]. match goal with H : context [if f_rs f ZF =? 0 then _ else _] |- _ => rewrite D8 in H by assumption; cbn in H; lia end.
Qed.

Lemma instr_armed : forall f P kd m idx pc' rs' e rd cs, armed cs f ->
  tx (c_code (f_call f)) = Some (P, kd) ->
  istep g P m idx (f_pc f) (f_rs f) = Some (pc', rs', e, rd) ->
  armed (match e with ECs => Some (c_code (f_call f)) | _ => cs end) {| f_call := f_call f; f_pc := pc'; f_rs := rs' |}.
Proof.
  intros f P kd m idx pc' rs' e rd cs Ha Ht Hs md Ho Hi. cbn [f_call f_pc] in *. pose proof Ho as Ho'.
  unfold ours in Ho'. cbn [f_call] in Ho'. rewrite Ht in Ho'. injection Ho' as -> ->. apply pg_step in Hs. unfold inside in *.
  assert (e = ECs \/ (f_pc f <> 0 /\ f_pc f < 7 + n)%nat /\ e <> ECs) as [-> | [Hpc He]].
  { repeat destruct Hs as [Hs|Hs]; repeat match goal with H : _ /\ _ |- _ => destruct H end; subst; auto;
      try (right; split; [lia|discriminate]); try lia. }
  - reflexivity.
  - destruct e; try congruence; apply (Ha md Ho); unfold inside; lia.
Qed.

Lemma instr_checked : forall f P kd m a pc' rs' e rd, checked a f ->
  tx (c_code (f_call f)) = Some (P, kd) ->
  istep g P m (index a (pmode P)) (f_pc f) (f_rs f) = Some (pc', rs', e, rd) ->
  checked a {| f_call := f_call f; f_pc := pc'; f_rs := rs' |}.
Proof.
  intros f P kd m a pc' rs' e rd Ha Ht Hs md Ho Hi. cbn [f_call f_pc f_rs] in *. pose proof Ho as Ho'.
  unfold ours in Ho'. cbn [f_call] in Ho'. rewrite Ht in Ho'. injection Ho' as -> ->. rewrite pg_mode in Hs. apply pg_step in Hs.
  assert (Hck : inside (f_pc f) -> (3 <= f_pc f)%nat -> index a md = f_rs f Rcpu).
  { intros H1 H2. destruct (Ha md Ho H1) as [H3 H4]. auto. }
  unfold inside in *. 
  repeat destruct Hs as [Hs|Hs]; repeat match goal with H : _ /\ _ |- _ => destruct H end; subst rs'; try lia.
  - subst pc'. split; [intros; lia|]. intros _. cbn. destruct (index a md =? f_rs f Rcpu) eqn:E; [apply Z.eqb_eq in E; auto|congruence].
  - destruct (f_rs f ZF =? 0) eqn:E; [lia|]. apply Z.eqb_neq in E. subst pc'. split; [|intros; lia]. intros _.
    destruct (Ha md Ho) as [_ H3]; [unfold inside; lia|]. auto.
  - subst pc'. split; [|intros; lia]. intros _. cbn. apply Hck; lia.
  - subst pc'. split; [|intros; lia]. intros _. cbn. apply Hck; lia.
  - subst pc'. split; [|intros; lia]. intros _. cbn. apply Hck; lia.
  - subst pc'. split; [|intros; lia]. intros _. cbn. apply Hck; lia.
Qed.

(** Replacing the innermost context. *)
Lemma ti_top : forall (th : thread) x x' k cs,
  TI th -> t_ctx th = x :: k ->
  on_frame (base (t_reg th)) x' ->
  (t_reg th = true -> on_frame (armed cs) x') ->
  (t_reg th = true -> t_dead th = false -> on_frame (checked (t_area th)) x') ->
  TI (set_ctx (set_cs th cs) (x' :: k)).
Proof.
  intros th x x' k cs [A B C D E] Ek Hb Ha Hc. rewrite Ek in B, C, D, E. inversion B as [|? ? B1 B2]; subst.
  constructor; cbn [set_ctx set_cs set_area t_reg t_ctx t_on t_area rseq_cs].
  - exact A.
  - constructor; auto.
  - intros Hr. cbn. auto.
  - intros Hr Hd. cbn. intros f Hf md Ho Hi. destruct (Hc Hr Hd f Hf md Ho Hi) as [G1 G3]. split; destruct md; auto.
  - intros Hr Hd. exact (E Hr Hd).
Qed.
Lemma ti_top' : forall (th : thread) x x' k, 
  TI th -> t_ctx th = x :: k ->
  on_frame (base (t_reg th)) x' ->
  (t_reg th = true -> on_frame (armed (rseq_cs (t_area th))) x') ->
  (t_reg th = true -> t_dead th = false -> on_frame (checked (t_area th)) x') ->
  TI (set_ctx th (x' :: k)).
Proof.
  intros th x x' k H Ek Hb Ha Hc. pose proof (ti_top th x x' k (rseq_cs (t_area th)) H Ek Hb Ha Hc) as G.
  destruct th as [[cs cf df] rg on ct dd]. exact G.
Qed.

Lemma no_frame : forall Q (l : Loc), on_frame Q {| x_loc := l; x_act := None |}.
Proof. intros Q l f H. discriminate H. Qed.

(** ** One step of the machine *)
Definition Inv (s : state) : Prop :=
  (forall t, TI (s_thr s t)) /\
  (forall t u c1 d1 c2 d2, t <> u -> t_on (s_thr s t) = Some (c1, d1) ->
     t_on (s_thr s u) = Some (c2, d2) -> c1 <> c2 /\ d1 <> d2).

(** A step that changes thread [t] only, and does not put it on another CPU. *)
Lemma inv_set : forall s t th, Inv s -> TI th -> (t_on th = t_on (s_thr s t) \/ t_on th = None) ->
  Inv (set_t s t th).
Proof.
  intros s t th [H1 H2] Hth Hon. split.
  - intros u. cbn. destruct (Nat.eqb u t); auto.
  - intros a b c1 d1 c2 d2 Hn. cbn. destruct (Nat.eqb a t) eqn:Ea, (Nat.eqb b t) eqn:Eb; intros G1 G2.
    + apply Nat.eqb_eq in Ea, Eb. congruence.
    + apply Nat.eqb_eq in Ea. subst a. destruct Hon as [Hon|Hon]; rewrite Hon in G1; [|discriminate]. eapply H2; eauto.
    + apply Nat.eqb_eq in Eb. subst b. destruct Hon as [Hon|Hon]; rewrite Hon in G2; [|discriminate]. eapply H2; eauto.
    + eapply H2; eauto.
Qed.
Lemma inv_mem : forall s m, Inv s -> Inv (set_m s m).
Proof. intros s m [H1 H2]. split; auto. Qed.

Lemma initial_inv : forall s, initial s -> Inv s.
Proof.
  intros s (H1 & H2 & _). split; [|exact H2]. intros t. destruct (H1 t) as (_ & A2 & (l & A3) & A4 & A5 & A6).
  constructor; rewrite ?A3.
  - split; [|split; auto]. intros Hr md. destruct (A4 Hr) as [E1 E2]. destruct md; cbn; rewrite ?E1, ?E2; reflexivity.
  - constructor; [|constructor]. apply no_frame.
  - intros _. apply no_frame.
  - intros _ _. apply no_frame.
  - intros _ _. constructor.
Qed.

Lemma on_just : forall (Q : frame -> Prop) (l : Loc) f, Q f -> on_frame Q {| x_loc := l; x_act := Some f |}.
Proof. intros Q l f H f' Hf'. cbn in Hf'. injection Hf' as <-. exact H. Qed.

Lemma step_inv : forall s l s', Inv s -> step g tx cl s l s' -> call_ok s l -> Inv s'.
Proof.
  intros s l s' Hi Hs Hok. pose proof Hi as [HT HD].
  destruct Hs as [s t l k f P kd pc' rs' e rd Hrun Ek Et Hld Hst He
    |s t l k f P kd pc' rs' ps rd Hrun Ek Et Hld Hst
    |s t l k f P kd pc' rs' x rd r Hrun Ek Et Hld Hst Hx
    |s t l k f P kd pc' rs' x rd Hrun Ek Et Hld Hst Hx
    |s t l k c P kd junk Hrun Ek Hc Et Hld Hkd Hmd Hcpu
    |s t l k ps l' Hrun Ek Hw
    |s t l k l' Hrun Ek Hw
    |s t l k Hrun Ek
    |s id Hun
    |s t Hrun
    |s t cpu cid Hon Hdead Hcpu Hcid Hfree
    |s t Hrun
    |s t x k l' Hrun Ek Hsig
    |s t l x k Hrun Ek Hdone
    |s t l cpu cid Hrun Hreg Ek Hon
    |s t l Hrun Hreg Ek].
  - pose proof (HT t) as Ht. pose proof (ti_base _ Ht) as B. rewrite Ek in B. inversion B as [|? ? B1 B2]; subst.
    assert (Hb : base (t_reg (s_thr s t)) {| f_call := f_call f; f_pc := pc'; f_rs := rs' |}).
    { eapply instr_base; [apply (B1 f eq_refl)|exact Et|exact Hst|]. intros Hr. apply (ti_area _ Ht). exact Hr. }
    pose proof (proj2 Hrun) as Hdead.
    assert (Hch : t_reg (s_thr s t) = true -> checked (t_area (s_thr s t)) {| f_call := f_call f; f_pc := pc'; f_rs := rs' |}).
    { intros Hr. pose proof (ti_checked _ Ht Hr (proj2 Hrun)) as C. rewrite Ek in C. eapply instr_checked; [apply (C f eq_refl)|exact Et|exact Hst]. }
    assert (Ha : t_reg (s_thr s t) = true -> armed (match e with ECs => Some (c_code (f_call f)) | _ => rseq_cs (t_area (s_thr s t)) end) {| f_call := f_call f; f_pc := pc'; f_rs := rs' |}).
    { intros Hr. pose proof (ti_armed _ Ht Hr) as C. rewrite Ek in C. eapply instr_armed; [apply (C f eq_refl)|exact Et|exact Hst]. }
    apply inv_set; [exact Hi| |left; destruct He as [-> | ->]; reflexivity].
    destruct He as [-> | ->].
    + eapply ti_top'; [exact Ht|exact Ek|apply on_just; exact Hb|intros Hr; apply on_just; auto|intros Hr _; apply on_just; auto].
    + eapply ti_top; [exact Ht|exact Ek|apply on_just; exact Hb|intros Hr; apply on_just; auto|intros Hr _; apply on_just; auto].
  - pose proof (HT t) as Ht. pose proof (ti_base _ Ht) as B. rewrite Ek in B. inversion B as [|? ? B1 B2]; subst.
    apply inv_mem. apply inv_set; [exact Hi| |left; reflexivity].
    eapply ti_top'; [exact Ht|exact Ek|apply on_just|intros Hr; apply on_just|intros Hr _; apply on_just].
    + eapply instr_base; [apply (B1 f eq_refl)|exact Et|exact Hst|]. intros Hr. apply (ti_area _ Ht). exact Hr.
    + pose proof (ti_armed _ Ht Hr) as C. rewrite Ek in C.
      exact (instr_armed _ _ _ _ _ _ _ _ _ _ (C f eq_refl) Et Hst).
    + pose proof (ti_checked _ Ht Hr (proj2 Hrun)) as C. rewrite Ek in C. eapply instr_checked; [apply (C f eq_refl)|exact Et|exact Hst].
  - apply inv_set; [exact Hi| |left; reflexivity].
    eapply ti_top'; [apply HT|exact Ek|apply no_frame|intros _; apply no_frame|intros _ _; apply no_frame].
  - apply inv_set; [exact Hi| |right; reflexivity]. destruct (HT t) as [A B C D E].
    constructor; cbn; auto; try discriminate. destruct A as (A1 & A2 & A3). split; [|split]; cbn; auto; intros; discriminate.
  - apply inv_set; [exact Hi| |left; reflexivity]. pose proof (HT t) as Ht.
    eapply ti_top'; [exact Ht|exact Ek|apply on_just|intros _; apply on_just|intros _ _; apply on_just].
    + split; [exists P, kd; auto|]. intros md Ho. cbn [f_call f_pc f_rs] in *. unfold ours in Ho. cbn [f_call] in Ho. rewrite Et in Ho.
      injection Ho as -> ->. rewrite pg_mode in Hmd. split; [exact Hcpu|]. split; [reflexivity|].
      split; [intros p off inc E; unfold init_regs, arg; rewrite E; auto|]. intros Hr. split; [|unfold inside; lia].
      cbn in Hok. destruct Hok as [Hok|Hok]; [congruence|]. rewrite Hmd. exact Hok.
    + intros md Ho Hin. unfold inside in Hin. cbn in Hin. lia.
    + intros md Ho Hin. unfold inside in Hin. cbn in Hin. lia.
  - apply inv_mem. apply inv_set; [exact Hi| |left; reflexivity].
    eapply ti_top'; [apply HT|exact Ek|apply no_frame|intros _; apply no_frame|intros _ _; apply no_frame].
  - apply inv_set; [exact Hi| |left; reflexivity].
    eapply ti_top'; [apply HT|exact Ek|apply no_frame|intros _; apply no_frame|intros _ _; apply no_frame].
  - apply inv_set; [exact Hi| |left; reflexivity].
    assert (E : set_cs (s_thr s t) None = set_ctx (set_cs (s_thr s t) None) ({| x_loc := l; x_act := None |} :: k)).
    { unfold set_ctx, set_cs, set_area. cbn. rewrite <- Ek. reflexivity. }
    rewrite E. eapply ti_top; [apply HT|exact Ek|apply no_frame|intros _; apply no_frame|intros _ _; apply no_frame].
  - split; [exact HT|exact HD].
  - apply inv_set; [exact Hi| |right; reflexivity]. destruct (HT t) as [A B C D E].
    constructor; cbn; auto; try discriminate. destruct A as (A1 & A2 & A3). split; [|split]; cbn; auto; intros; discriminate.
  - (* resume *)
    set (th1 := let th := set_on (s_thr s t) (Some (cpu, cid)) in
                if t_reg th then set_area th {| rseq_cs := rseq_cs (t_area th); cpu_field := cpu; cid_field := cid |} else th).
    assert (Hr1 : t_reg th1 = t_reg (s_thr s t)) by (unfold th1; cbn; destruct (t_reg (s_thr s t)) eqn:E; cbn; auto).
    assert (Hc1 : t_ctx th1 = t_ctx (s_thr s t)) by (unfold th1; cbn; destruct (t_reg (s_thr s t)); reflexivity).
    assert (Ho1 : t_on th1 = Some (cpu, cid)) by (unfold th1; cbn; destruct (t_reg (s_thr s t)); reflexivity).
    assert (Hcs1 : rseq_cs (t_area th1) = rseq_cs (t_area (s_thr s t))) by (unfold th1; cbn; destruct (t_reg (s_thr s t)); reflexivity).
    assert (Ha1 : area_ok th1).
    { destruct (ti_area _ (HT t)) as (A1 & A2 & A3). split; [|split].
      - rewrite Hr1. intros Hr. unfold th1. cbn. rewrite Hr. cbn. apply A1. exact Hr.
      - rewrite Hr1, Ho1. intros Hr c d Hcd. injection Hcd as <- <-. unfold th1. cbn. rewrite Hr. cbn. auto.
      - rewrite Ho1. intros c d Hcd. injection Hcd as <- <-. auto. }
    destruct (HT t) as [A B C D E].
    assert (B1 : Forall (on_frame (base (t_reg th1))) (t_ctx th1)) by (rewrite Hr1, Hc1; exact B).
    assert (C1 : t_reg th1 = true -> hd_ok (armed (rseq_cs (t_area th1))) (t_ctx th1)) by (rewrite Hr1, Hc1, Hcs1; exact C).
    pose proof (fixup_spec (s_loaded s) th1 B1 C1) as F.
    change (Inv (set_t s t (fixup tx (s_loaded s) th1))).
    assert (HTI : TI (fixup tx (s_loaded s) th1)).
    { destruct F as (F1 & F2 & F3 & [(F4 & F5 & F6 & F0)|(F0 & F4 & F5 & F6 & F7)]).
      - constructor; rewrite ?F1, ?F5, ?F6, ?F0; auto; [|discriminate|discriminate].
        destruct Ha1 as (A1 & A2 & A3). split; [|split]; rewrite ?F1, ?F4, ?F5; auto; intros; discriminate.
      - assert (G : area_ok (fixup tx (s_loaded s) th1)).
        { destruct Ha1 as (A1 & A2 & A3). split; [|split]; rewrite ?F1, ?F4; auto.
          - intros Hr md. rewrite F5. auto.
          - intros Hr c d Hcd. destruct (A2 Hr c d Hcd) as [G1 G2]. pose proof (F5 CPU_ID) as J1. pose proof (F5 MM_CID) as J2.
            cbn in J1, J2. rewrite J1, J2. auto. }
        constructor; rewrite ?F1; auto.
        + intros Hr. eapply hd_impl; [|exact (F6 Hr)]. intros f. apply out_armed.
        + intros Hr _. eapply hd_impl; [|exact (F6 Hr)]. intros f. apply out_checked.
        + intros Hr _. unfold tl_ok. rewrite F3, Hc1. apply E; [rewrite <- Hr1; exact Hr|exact Hdead]. }
    split.
    + intros u. cbn. destruct (Nat.eqb u t); auto.
    + intros a b c1 d1 c2 d2 Hn. cbn.
      assert (Hon' : forall c d, t_on (fixup tx (s_loaded s) th1) = Some (c, d) -> c = cpu /\ d = cid).
      { intros c d Hcd. destruct F as (_ & _ & _ & [(F4 & _)|(_ & F4 & _)]); rewrite F4 in Hcd; [discriminate|].
        rewrite Ho1 in Hcd. injection Hcd as <- <-. auto. }
      destruct (Nat.eqb a t) eqn:Ea, (Nat.eqb b t) eqn:Eb; intros G1 G2.
      * apply Nat.eqb_eq in Ea, Eb. congruence.
      * apply Nat.eqb_neq in Eb. apply Hon' in G1. destruct G1 as [-> ->]. destruct (Hfree b c2 d2 Eb G2). split; congruence.
      * apply Nat.eqb_neq in Ea. apply Hon' in G2. destruct G2 as [-> ->]. exact (Hfree a c1 d1 Ea G1).
      * eapply HD; eauto.
  - apply inv_set; [exact Hi|apply fixup_ti; apply HT|].
    destruct (HT t) as [A B C D E]. destruct (fixup_spec (s_loaded s) _ B C) as (_ & _ & _ & [(F4 & _)|(_ & F4 & _)]); auto.
  - destruct (HT t) as [A B C D E]. pose proof (fixup_ti (s_loaded s) _ (HT t)) as [A' B' C' D' E'].
    destruct (fixup_spec (s_loaded s) _ B C) as (F1 & F2 & F3 & F).
    apply inv_set; [exact Hi| |].
    2:{ cbn. destruct F as [(F4 & _)|(_ & F4 & _)]; auto. }
    constructor; cbn [set_ctx t_reg t_ctx t_on t_area t_dead]; auto.
    + constructor; [apply no_frame|exact B'].
    + intros _. apply no_frame.
    + intros _ _. apply no_frame.
    + intros Hr Hd. unfold tl_ok. cbn [tl]. rewrite F1 in Hr.
      destruct F as [(F4 & F5 & F6 & F0)|(F0 & F4 & F5 & F6 & F7)].
      * congruence.
      * specialize (F6 Hr). specialize (E' ltac:(rewrite F1; exact Hr) Hd). unfold tl_ok in E'.
        destruct (t_ctx (fixup tx (s_loaded s) (s_thr s t))) as [|y k']; [constructor|]. constructor; [exact F6|exact E'].
  - apply inv_set; [exact Hi| |left; reflexivity]. destruct (HT t) as [A B C D E]. rewrite Ek in B, C, D, E.
    inversion B as [|? ? B1 B2]; subst.
    assert (Ho : t_reg (s_thr s t) = true -> on_frame out x).
    { intros Hr. specialize (E Hr (proj2 Hrun)). unfold tl_ok in E. cbn in E. inversion E; auto. }
    constructor; cbn [set_ctx t_reg t_ctx t_on t_area t_dead]; auto.
    + intros Hr f Hf. apply out_armed. exact (Ho Hr f Hf).
    + intros Hr _ f Hf. apply out_checked. exact (Ho Hr f Hf).
    + intros Hr Hd. specialize (E Hr Hd). unfold tl_ok in *. cbn in *. inversion E; auto.
  - apply inv_set; [exact Hi| |left; reflexivity]. destruct (HT t) as [A B C D E]. rewrite Ek.
    constructor; cbn [t_reg t_ctx t_on t_area t_dead].
    + destruct A as (A1 & A2 & A3). split; [|split]; cbn; [discriminate| |exact A3].
      rewrite Hon. intros _ c d Hcd. injection Hcd as <- <-. auto.
    + constructor; [apply no_frame|constructor].
    + intros _. apply no_frame.
    + intros _ _. apply no_frame.
    + intros _ _. constructor.
  - apply inv_set; [exact Hi| |left; reflexivity]. destruct (HT t) as [A B C D E]. rewrite Ek.
    constructor; cbn [t_reg t_ctx t_on t_area t_dead]; try discriminate.
    + destruct A as (A1 & A2 & A3). split; [|split]; cbn; [|discriminate|exact A3]. intros _ []; reflexivity.
    + constructor; [apply no_frame|constructor].
Qed.

(** ** What the innermost frame of a thread has read, and when *)
Definition seen (tr : list (state * clabel)) (f : frame) : Prop :=
  forall md p off inc, ours md f -> c_op (f_call f) = AddLoadLoadAddStore p off inc ->
    (f_pc f = (4 + n)%nat -> exists sa la, In (sa, la) tr /\ f_rs f T1 = ldw g (s_mem sa) p) /\
    (f_pc f = (5 + n)%nat -> exists sa la, In (sa, la) tr /\ f_rs f T1 = wrap g (ldw g (s_mem sa) p + off)) /\
    (f_pc f = (6 + n)%nat -> exists tr1 sa la tr2 sb lb tr3,
       tr = tr1 ++ (sa, la) :: tr2 ++ (sb, lb) :: tr3 /\
       f_rs f T2 = reached_through g (s_mem sa) (s_mem sb) p off).

Lemma out_seen : forall tr f, out f -> seen tr f.
Proof.
  intros tr f Ho md p off inc H1 H2. specialize (Ho md H1). unfold inside in Ho. split; [|split]; intros; lia.
Qed.
Lemma seen_more : forall tr x f, seen tr f -> seen (tr ++ [x]) f.
Proof.
  intros tr x f H md p off inc H1 H2. destruct (H md p off inc H1 H2) as (A & B & C). split; [|split]; intros E.
  - destruct (A E) as (sa & la & I1 & I2). exists sa, la. split; [apply in_or_app; left; exact I1|exact I2].
  - destruct (B E) as (sa & la & I1 & I2). exists sa, la. split; [apply in_or_app; left; exact I1|exact I2].
  - destruct (C E) as (tr1 & sa & la & tr2 & sb & lb & tr3 & I1 & I2). exists tr1, sa, la, tr2, sb, lb, (tr3 ++ [x]).
    split; [|exact I2]. rewrite I1. rewrite <- app_assoc. cbn. rewrite <- app_assoc. reflexivity.
Qed.

Lemma instr_seen : forall reg tr s l f P kd idx pc' rs' e rd, base reg f -> seen tr f ->
  tx (c_code (f_call f)) = Some (P, kd) ->
  istep g P (s_mem s) idx (f_pc f) (f_rs f) = Some (pc', rs', e, rd) ->
  seen (tr ++ [(s, l)]) {| f_call := f_call f; f_pc := pc'; f_rs := rs' |}.
Proof.
  intros reg tr s l f P kd idx pc' rs' e rd [_ Hb] Hse Ht Hs md p off inc Ho Hop. cbn [f_call f_pc f_rs] in *. pose proof Ho as Ho'.
  unfold ours in Ho'. cbn [f_call] in Ho'. rewrite Ht in Ho'. injection Ho' as -> ->. apply pg_step in Hs.
  destruct (Hb md Ho) as (_ & _ & D3 & _). destruct (D3 p off inc Hop) as (R1 & R2 & R3).
  destruct (Hse md p off inc Ho Hop) as (A & B & C).
  repeat destruct Hs as [Hs|Hs]; repeat match goal with H : _ /\ _ |- _ => destruct H end; subst rs';
    try (assert (Hn : n = 2%nat) by (unfold n; match goal with H : tw = true |- _ => rewrite H end; reflexivity));
    try (split; [|split]; intros E; exfalso; try destruct (f_rs f ZF =? 0); lia).
  - split; [|split]; intros E; try (exfalso; lia). exists s, l. split; [apply in_or_app; right; left; reflexivity|].
    cbn. rewrite R1. reflexivity.
  - split; [|split]; intros E; try (exfalso; lia). destruct A as (sa & la & I1 & I2); [assumption|].
    exists sa, la. split; [apply in_or_app; left; exact I1|]. cbn. rewrite I2, R2. reflexivity.
  - split; [|split]; intros E; try (exfalso; lia). destruct B as (sa & la & I1 & I2); [assumption|].
    apply in_split in I1. destruct I1 as (tr1 & tr2 & ->). exists tr1, sa, la, tr2, s, l, [].
    split; [rewrite <- app_assoc; reflexivity|]. cbn. rewrite I2. reflexivity.
Qed.

Definition HI (t : nat) (Q : call -> Prop) (tr : list (state * clabel)) (s : state) : Prop :=
  t_reg (s_thr s t) = true -> t_on (s_thr s t) <> None -> t_dead (s_thr s t) = false ->
  hd_ok (fun f => Q (f_call f) -> seen tr f) (t_ctx (s_thr s t)).

Lemma hi_same : forall t Q tr x s s', HI t Q tr s -> s_thr s' t = s_thr s t -> HI t Q (tr ++ [x]) s'.
Proof.
  intros t Q tr x s s' H E. unfold HI. rewrite E. intros H1 H2 H3. eapply hd_impl; [|exact (H H1 H2 H3)].
  intros f Hf Hq. apply seen_more. auto.
Qed.
Lemma hi_out : forall t Q tr s, (t_reg (s_thr s t) = true -> t_on (s_thr s t) <> None -> t_dead (s_thr s t) = false -> hd_ok out (t_ctx (s_thr s t))) ->
  HI t Q tr s.
Proof. intros t Q tr s H H1 H2 H3. eapply hd_impl; [|exact (H H1 H2 H3)]. intros f Hf _. apply out_seen. exact Hf. Qed.

Lemma thr_same : forall (s : state) t th, s_thr (set_t s t th) t = th.
Proof. intros. cbn. rewrite Nat.eqb_refl. reflexivity. Qed.
Lemma thr_other : forall (s : state) t th u, u <> t -> s_thr (set_t s t th) u = s_thr s u.
Proof. intros s t th u H. cbn. apply Nat.eqb_neq in H. rewrite H. reflexivity. Qed.

Lemma fixup_out : forall s u th, s_thr s u = fixup tx (s_loaded s) th ->
  Forall (on_frame (base (t_reg th))) (t_ctx th) ->
  (t_reg th = true -> hd_ok (armed (rseq_cs (t_area th))) (t_ctx th)) ->
  t_reg (s_thr s u) = true -> t_on (s_thr s u) <> None -> t_dead (s_thr s u) = false -> hd_ok out (t_ctx (s_thr s u)).
Proof.
  intros s u th E Hb Ha Hr Hon Hd. rewrite E in *.
  destruct (fixup_spec (s_loaded s) th Hb Ha) as (F1 & _ & _ & [(F4 & _)|(_ & _ & _ & F6 & _)]); [congruence|]. apply F6. congruence.
Qed.

Lemma hi_step : forall u Q tr s l s', Inv s -> HI u Q tr s -> step g tx cl s l s' -> HI u Q (tr ++ [(s, l)]) s'.
Proof.
  intros u Q tr s l s' Hi Hh Hs. pose proof Hi as [HT HD].
  destruct Hs as [s t l k f P kd pc' rs' e rd Hrun Ek Et Hld Hst He
    |s t l k f P kd pc' rs' ps rd Hrun Ek Et Hld Hst
    |s t l k f P kd pc' rs' x rd r Hrun Ek Et Hld Hst Hx
    |s t l k f P kd pc' rs' x rd Hrun Ek Et Hld Hst Hx
    |s t l k c P kd junk Hrun Ek Hc Et Hld Hkd Hmd Hcpu
    |s t l k ps l' Hrun Ek Hw
    |s t l k l' Hrun Ek Hw
    |s t l k Hrun Ek
    |s id Hun
    |s t Hrun
    |s t cpu cid Hon Hdead Hcpu Hcid Hfree
    |s t Hrun
    |s t x k l' Hrun Ek Hsig
    |s t l x k Hrun Ek Hdone
    |s t l cpu cid Hrun Hreg Ek Hon
    |s t l Hrun Hreg Ek];
    try (destruct (Nat.eq_dec u t) as [-> | Hne];
         [|apply (hi_same _ _ _ _ s); [exact Hh|cbn [s_thr set_m]; apply thr_other; exact Hne]]).
  - unfold HI. rewrite thr_same. intros H1 H2 H3.
    assert (H : hd_ok (fun f => Q (f_call f) -> seen tr f) (t_ctx (s_thr s t))).
    { destruct He as [-> | ->]; apply Hh; auto. }
    pose proof (ti_base _ (HT t)) as B. rewrite Ek in B. inversion B as [|? ? B1 B2]; subst. rewrite Ek in H.
    assert (G : Q (f_call f) -> seen (tr ++ [(s, Ltau)]) {| f_call := f_call f; f_pc := pc'; f_rs := rs' |}).
    { intros Hq. eapply instr_seen; [exact (B1 f eq_refl)|exact (H f eq_refl Hq)|exact Et|exact Hst]. }
    destruct He as [-> | ->]; cbn [set_ctx t_ctx hd_ok]; apply on_just; exact G.
  - unfold HI. cbn [s_thr set_m]. rewrite thr_same. cbn [set_ctx t_ctx hd_ok t_reg t_on t_dead]. intros H1 H2 H3.
    pose proof (Hh H1 H2 H3) as H. rewrite Ek in H.
    pose proof (ti_base _ (HT t)) as B. rewrite Ek in B. inversion B as [|? ? B1 B2]; subst.
    apply on_just. cbn [f_call]. intros Hq. eapply instr_seen; [exact (B1 f eq_refl)|exact (H f eq_refl Hq)|exact Et|exact Hst].
  - apply hi_out. rewrite thr_same. intros _ _ _. apply no_frame.
  - apply hi_out. rewrite thr_same. cbn. intros; congruence.
  - apply hi_out. rewrite thr_same. intros _ _ _. apply on_just. intros md _ Hin. unfold inside in Hin. cbn in Hin. lia.
  - apply hi_out. cbn [s_thr set_m]. rewrite thr_same. intros _ _ _. apply no_frame.
  - apply hi_out. rewrite thr_same. intros _ _ _. apply no_frame.
  - apply hi_out. rewrite thr_same. intros _ _ _. cbn [set_cs set_area t_ctx]. rewrite Ek. apply no_frame.
  - apply (hi_same _ _ _ _ s); [exact Hh|reflexivity].
  - apply hi_out. rewrite thr_same. cbn. intros; congruence.
  - set (th1 := let th := set_on (s_thr s t) (Some (cpu, cid)) in
                if t_reg th then set_area th {| rseq_cs := rseq_cs (t_area th); cpu_field := cpu; cid_field := cid |} else th).
    assert (Hr1 : t_reg th1 = t_reg (s_thr s t)) by (unfold th1; cbn; destruct (t_reg (s_thr s t)) eqn:E; cbn; auto).
    assert (Hc1 : t_ctx th1 = t_ctx (s_thr s t)) by (unfold th1; cbn; destruct (t_reg (s_thr s t)); reflexivity).
    assert (Hcs1 : rseq_cs (t_area th1) = rseq_cs (t_area (s_thr s t))) by (unfold th1; cbn; destruct (t_reg (s_thr s t)); reflexivity).
    destruct (HT t) as [A B C D E]. apply hi_out. apply (fixup_out _ t th1); [apply thr_same|rewrite Hr1, Hc1; exact B|rewrite Hr1, Hc1, Hcs1; exact C].
  - destruct (HT t) as [A B C D E]. apply hi_out. apply (fixup_out _ t (s_thr s t)); [apply thr_same|exact B|exact C].
  - apply hi_out. rewrite thr_same. intros _ _ _. apply no_frame.
  - apply hi_out. rewrite thr_same. intros H1 _ H3. pose proof (ti_low _ (HT t) H1 H3) as H. rewrite Ek in H.
    unfold tl_ok in H. cbn in H. inversion H; auto.
  - apply hi_out. rewrite thr_same. intros _ _ _. cbn [t_ctx]. rewrite Ek. apply no_frame.
  - apply hi_out. rewrite thr_same. intros _ _ _. cbn [t_ctx]. rewrite Ek. apply no_frame.
Qed.

Lemma path_hi : forall s tr s', path g tx cl s tr s' -> forall u Q tr0, Inv s -> HI u Q tr0 s -> Inv s' /\ HI u Q (tr0 ++ tr) s'.
Proof.
  intros s tr s' H. induction H as [s|s tr s' l s'' Hp IH Hs Hok]; intros u Q tr0 Hi Hh.
  - rewrite app_nil_r. auto.
  - destruct (IH u Q tr0 Hi Hh) as [H1 H2]. split; [eapply step_inv; eauto|]. rewrite app_assoc. apply hi_step; auto.
Qed.
Lemma path_inv : forall s tr s', path g tx cl s tr s' -> Inv s -> Inv s'.
Proof. intros s tr s' H. induction H as [|s tr s' l s'' Hp IH Hs Hok]; intros Hi; [exact Hi|]. exact (step_inv _ _ _ (IH Hi) Hs Hok). Qed.
Lemma exec_inv : forall s tr s', exec g tx cl s tr s' -> Inv s -> Inv s'.
Proof. intros s tr s' H. induction H as [|s tr s' l s'' Hp IH Hs Hok]; intros Hi; [exact Hi|]. exact (step_inv _ _ _ (IH Hi) Hs Hok). Qed.

(** ** A write of the helper *)
Lemma write_seen : forall s t ps s' c p off inc Q tr, Inv s -> HI t Q tr s ->
  step g tx cl s (Lwr t ps) s' -> executing s t c -> c_op c = AddLoadLoadAddStore p off inc -> Q c ->
  exists tr1 sa la tr2 sb lb tr3, tr = tr1 ++ (sa, la) :: tr2 ++ (sb, lb) :: tr3 /\
    let a := reached_through g (s_mem sa) (s_mem sb) p off in
    ps = stw g a (wrap g (ldw g (s_mem s) a + inc)).
Proof.
  intros s t ps s' c p off inc Q tr [HT HD] Hh Hs (l0 & pc0 & rs0 & k0 & Ex) Hop Hq.
  inversion Hs as [|? ? l k f P kd pc' rs' ? rd Hrun Ek Et Hld Hst| | | |? ? l k ? l' Hrun Ek Hw| | | | | | | | | |]; subst; rewrite Ex in Ek;
    [|discriminate Ek]. injection Ek as <- <- <-. cbn [f_call f_pc f_rs] in *.
  pose proof (ti_base _ (HT t)) as B. rewrite Ex in B. inversion B as [|? ? B1 B2]; subst.
  destruct (B1 _ eq_refl) as [(P' & kd' & C1 & C2 & C3) C4]. cbn [f_call] in *. rewrite Et in C1. injection C1 as <- <-.
  rewrite Hop in C2. cbn in C2. subst kd. destruct (Htx _ _ _ Et) as (rel & md & Hh'). cbn in Hh'. destruct rel; [discriminate|]. injection Hh' as <-.
  assert (Ho : ours md {| f_call := c; f_pc := pc0; f_rs := rs0 |}) by exact Et.
  destruct (C4 md Ho) as (_ & _ & D3 & D4). destruct (D3 p off inc Hop) as (R1 & R2 & R3). cbn [f_rs f_pc] in *.
  change (x64_add_load_load_add_store tw md) with (PG md) in Hst. apply pg_step in Hst.
  assert (Hpc : pc0 = (6 + n)%nat /\ ps = stw g (rs0 T2) (wrap g (ldw g (s_mem s) (rs0 T2) + rs0 Rinc))).
  { repeat destruct Hst as [Hst|Hst]; repeat match goal with H : _ /\ _ |- _ => destruct H end; subst; try discriminate.
    - match goal with H : EWr _ = EWr _ |- _ => injection H as -> end. auto.
    - repeat match goal with H : _ \/ _ |- _ => destruct H end; try discriminate; match goal with H : exists _, _ |- _ => destruct H; discriminate end. }
  destruct Hpc as [-> ->]. destruct (t_reg (s_thr s t)) eqn:Er.
  2:{ exfalso. destruct (D4 eq_refl) as [_ D5]. destruct D5 as [D5 _]; unfold inside; lia. }
  destruct Hrun as [Hon Hdd]. pose proof (Hh Er Hon Hdd) as H. rewrite Ex in H. specialize (H _ eq_refl Hq md p off inc Ho Hop).
  destruct H as (_ & _ & H). destruct (H eq_refl) as (tr1 & sa & la & tr2 & sb & lb & tr3 & I1 & I2).
  exists tr1, sa, la, tr2, sb, lb, tr3. split; [exact I1|]. cbn [f_rs] in I2. cbv zeta. rewrite <- I2, R3. reflexivity.
Qed.

(** ** The barriers *)
Definition for_cpu (cpu : Z) (c : call) : Prop := c_mode c = CPU_ID /\ c_cpu c = cpu.

Lemma fixup_inv : forall s t, Inv s -> t_dead (s_thr s t) = false -> Inv (set_t s t (fixup tx (s_loaded s) (s_thr s t))).
Proof.
  intros s t Hi Hd. apply inv_set; [exact Hi|apply fixup_ti; apply Hi|].
  destruct Hi as [HT _]. destruct (HT t) as [A B C D E].
  destruct (fixup_spec (s_loaded s) _ B C) as (_ & _ & _ & [(F4 & _)|(_ & F4 & _)]); auto.
Qed.

Lemma restart_hi : forall s t Q tr, Inv s -> HI t Q tr (set_t s t (fixup tx (s_loaded s) (s_thr s t))).
Proof.
  intros s t Q tr [HT _]. destruct (HT t) as [A B C D E]. apply hi_out. apply (fixup_out _ t (s_thr s t)); [apply thr_same|exact B|exact C].
Qed.
Lemma stopped_hi : forall s t Q tr, t_on (s_thr s t) = None -> HI t Q tr s.
Proof. intros s t Q tr H. apply hi_out. congruence. Qed.

Lemma membarrier_inv : forall cpu s s', Inv s -> membarrier tx cpu s s' -> Inv s'.
Proof. intros cpu s s' Hi [(t & cid & _ & Hd & ->)|[_ ->]]; [|exact Hi]. apply fixup_inv; auto. Qed.

Lemma mode_ours : forall reg f md, base reg f -> ours md f -> c_mode (f_call f) = md.
Proof.
  intros reg f md [(P & kd & H1 & H2 & H3) _] Ho. unfold ours in Ho. rewrite H1 in Ho. injection Ho as -> _. rewrite pg_mode in H3. auto.
Qed.

Lemma elsewhere_hi : forall s t cpu tr, Inv s -> (forall cid, t_on (s_thr s t) <> Some (cpu, cid)) -> HI t (for_cpu cpu) tr s.
Proof.
  intros s t cpu tr [HT _] Hno Hr Hon Hd. destruct (HT t) as [A B C D E].
  destruct (t_ctx (s_thr s t)) as [|x k] eqn:Ek; [exact Logic.I|]. cbn. intros f Hf [Q1 Q2].
  pose proof (Forall_inv B f Hf) as Hb. specialize (D Hr Hd f Hf).
  intros md p off inc Ho Hop. rewrite (mode_ours _ _ _ Hb Ho) in Q1. subst md.
  destruct Hb as [_ Hb]. destruct (Hb CPU_ID Ho) as (D1 & D2 & _).
  assert (Hin : (3 <= f_pc f)%nat -> (f_pc f < 7 + n)%nat -> False).
  { intros H1 H2. destruct (D CPU_ID Ho) as [D3 _]; [unfold inside; lia|]. specialize (D3 H1). cbn in D3.
    destruct (t_on (s_thr s t)) as [[c d]|] eqn:Eon; [|congruence]. destruct A as (_ & A2 & A3).
    destruct (A2 Hr c d Eon) as [E1 _]. destruct (A3 c d Eon) as [E2 _]. rewrite E1, D2, Q2 in D3. rewrite Q2 in D1.
    assert (Hcc : c = cpu).
    { destruct (Z_lt_le_dec cpu 0).
      - assert (cpu mod 2 ^ 32 = cpu + 2 ^ 32) by (symmetry; apply (Z.mod_unique _ _ (-1)); lia). lia.
      - rewrite Z.mod_small in D3 by lia. exact D3. }
    apply (Hno d). rewrite Hcc. reflexivity. }
  split; [|split]; intros; exfalso; apply Hin; lia.
Qed.

Lemma membarrier_hi : forall cpu s s' t tr, Inv s -> membarrier tx cpu s s' -> HI t (for_cpu cpu) tr s'.
Proof.
  intros cpu s s' t tr Hi [(u & cid & Hu & Hd & ->)|[Hno ->]].
  - destruct (Nat.eq_dec t u) as [-> | Hne]; [apply restart_hi; exact Hi|].
    apply elsewhere_hi; [apply fixup_inv; auto|]. rewrite thr_other by exact Hne. intros d Ht.
    destruct Hi as [_ HD]. destruct (HD t u cpu d cpu cid Hne Ht Hu). congruence.
  - apply elsewhere_hi; auto.
Qed.

Lemma membarrier_restarts : forall cpu s s' t cid tr Q, Inv s -> membarrier tx cpu s s' ->
  t_on (s_thr s t) = Some (cpu, cid) -> HI t Q tr s'.
Proof.
  intros cpu s s' t cid tr Q Hi [(u & cid' & Hu & Hd & ->)|[Hno ->]] Ht; [|exfalso; exact (Hno t cid Ht)].
  destruct (Nat.eq_dec t u) as [-> | Hne]; [apply restart_hi; exact Hi|].
  destruct Hi as [_ HD]. destruct (HD t u _ _ _ _ Hne Ht Hu). congruence.
Qed.

(** A thread changes CPU only by leaving the one it runs on. *)
Lemma step_on : forall s l s' t, Inv s -> step g tx cl s l s' ->
  t_on (s_thr s' t) = t_on (s_thr s t) \/ t_on (s_thr s' t) = None \/ t_on (s_thr s t) = None.
Proof.
  intros s l s' u Hi Hs. pose proof Hi as [HT HD].
  destruct Hs as [s t l k f P kd pc' rs' e rd Hrun Ek Et Hld Hst He
    |s t l k f P kd pc' rs' ps rd Hrun Ek Et Hld Hst
    |s t l k f P kd pc' rs' x rd r Hrun Ek Et Hld Hst Hx
    |s t l k f P kd pc' rs' x rd Hrun Ek Et Hld Hst Hx
    |s t l k c P kd junk Hrun Ek Hc Et Hld Hkd Hmd Hcpu
    |s t l k ps l' Hrun Ek Hw
    |s t l k l' Hrun Ek Hw
    |s t l k Hrun Ek
    |s id Hun
    |s t Hrun
    |s t cpu cid Hon Hdead Hcpu Hcid Hfree
    |s t Hrun
    |s t x k l' Hrun Ek Hsig
    |s t l x k Hrun Ek Hdone
    |s t l cpu cid Hrun Hreg Ek Hon
    |s t l Hrun Hreg Ek];
    try (destruct (Nat.eq_dec u t) as [-> | Hne]; [|left; cbn [s_thr set_m]; rewrite thr_other by exact Hne; reflexivity]);
    try (left; cbn [s_thr set_m]; rewrite thr_same; try (destruct He as [-> | ->]); reflexivity).
  - right. left. rewrite thr_same. reflexivity.
  - left. reflexivity.
  - right. left. rewrite thr_same. reflexivity.
  - right. right. exact Hon.
  - rewrite thr_same. destruct (HT t) as [A B C D E].
    destruct (fixup_spec (s_loaded s) _ B C) as (_ & _ & _ & [(F4 & _)|(_ & F4 & _)]); auto.
  - rewrite thr_same. destruct (HT t) as [A B C D E]. cbn.
    destruct (fixup_spec (s_loaded s) _ B C) as (_ & _ & _ & [(F4 & _)|(_ & F4 & _)]); auto.
Qed.

Lemma path_app : forall s tr1 s1, path g tx cl s tr1 s1 -> forall tr2 s2, path g tx cl s1 tr2 s2 -> path g tx cl s (tr1 ++ tr2) s2.
Proof.
  intros s tr1 s1 H1 tr2 s2 H2. induction H2 as [s1|s1 tr2 s' l s'' Hp IH Hs Hok].
  - rewrite app_nil_r. exact H1.
  - rewrite app_assoc. econstructor; [apply IH; exact H1|exact Hs|exact Hok].
Qed.

Lemma path_stays : forall s tr s', path g tx cl s tr s' -> Inv s -> forall t cpu cid, t_on (s_thr s t) = Some (cpu, cid) ->
  t_on (s_thr s' t) = Some (cpu, cid) \/
  exists tra sx trb, tr = tra ++ trb /\ path g tx cl s tra sx /\ t_on (s_thr sx t) = None /\ path g tx cl sx trb s'.
Proof.
  intros s tr s' H. induction H as [s|s tr s' l s'' Hp IH Hs Hok]; intros Hi t cpu cid Hon; [auto|].
  destruct (IH Hi t cpu cid Hon) as [H|(tra & sx & trb & E1 & E2 & E3 & E4)].
  - destruct (step_on s' l s'' t (path_inv _ _ _ Hp Hi) Hs) as [G|[G|G]].
    + left. congruence.
    + right. exists (tr ++ [(s', l)]), s'', []. rewrite app_nil_r. split; [reflexivity|]. split; [econstructor; eauto|]. split; [exact G|constructor].
    + congruence.
  - right. exists tra, sx, (trb ++ [(s', l)]). rewrite E1, app_assoc. split; [reflexivity|]. split; [exact E2|]. split; [exact E3|].
    econstructor; eauto.
Qed.

Lemma all_restarts : forall s tr s' t Q, Inv s -> membarrier_all g tx cl s tr s' ->
  exists tra trb, tr = tra ++ trb /\ HI t Q trb s' /\ Inv s'.
Proof.
  intros s tr s' t Q Hi [Hp Hb]. destruct (t_on (s_thr s t)) as [[cpu cid]|] eqn:Eon.
  - destruct (Hb cpu) as (tr1 & sm & mid & sm' & tr2 & -> & _ & P1 & Hm & P2 & P3).
    pose proof (path_inv _ _ _ P1 Hi) as Him.
    destruct (path_stays _ _ _ P1 Hi t cpu cid Eon) as [H|(tra & sx & trb & -> & E2 & E3 & E4)].
    + exists (tr1 ++ mid), tr2. split; [rewrite app_assoc; reflexivity|].
      destruct (path_hi _ _ _ P3 t Q [] (membarrier_inv _ _ _ Him Hm) (membarrier_restarts _ _ _ _ _ _ _ Him Hm H)) as [G1 G2].
      split; [exact G2|exact G1].
    + exists tra, (trb ++ mid ++ tr2). split; [rewrite <- app_assoc; reflexivity|].
      pose proof (path_app _ _ _ E4 _ _ (path_app _ _ _ P2 _ _ P3)) as P4.
      destruct (path_hi _ _ _ P4 t Q [] (path_inv _ _ _ E2 Hi) (stopped_hi _ _ _ _ E3)) as [G1 G2].
      split; [exact G2|exact G1].
  - exists [], tr. split; [reflexivity|]. destruct (path_hi _ _ _ Hp t Q [] Hi (stopped_hi _ _ _ _ Eon)) as [G1 G2].
    split; [exact G2|exact G1].
Qed.

(** ** The theorems *)
Theorem after_membarrier : forall s0 ls sm cpu sm' tr s t ps s' c p off inc,
  initial s0 -> exec g tx cl s0 ls sm -> membarrier tx cpu sm sm' ->
  path g tx cl sm' tr s -> step g tx cl s (Lwr t ps) s' -> executing s t c ->
  c_op c = AddLoadLoadAddStore p off inc -> c_mode c = CPU_ID -> c_cpu c = cpu ->
  exists tr1 sa la tr2 sb lb tr3, tr = tr1 ++ (sa, la) :: tr2 ++ (sb, lb) :: tr3 /\
    let a := reached_through g (s_mem sa) (s_mem sb) p off in
    ps = stw g a (wrap g (ldw g (s_mem s) a + inc)).
Proof.
  intros s0 ls sm cpu sm' tr s t ps s' c p off inc H0 He Hm Hp Hs Hx Hop Hmd Hcpu.
  pose proof (exec_inv _ _ _ He (initial_inv _ H0)) as Hi.
  destruct (path_hi _ _ _ Hp t (for_cpu cpu) [] (membarrier_inv _ _ _ Hi Hm) (membarrier_hi _ _ _ _ _ Hi Hm)) as [H1 H2].
  exact (write_seen s t ps s' c p off inc (for_cpu cpu) tr H1 H2 Hs Hx Hop (conj Hmd Hcpu)).
Qed.

Theorem after_membarrier_all : forall s0 ls sm tr0 sm' tr s t ps s' c p off inc,
  initial s0 -> exec g tx cl s0 ls sm -> membarrier_all g tx cl sm tr0 sm' ->
  path g tx cl sm' tr s -> step g tx cl s (Lwr t ps) s' -> executing s t c ->
  c_op c = AddLoadLoadAddStore p off inc ->
  exists tr1 sa la tr2 sb lb tr3, tr0 ++ tr = tr1 ++ (sa, la) :: tr2 ++ (sb, lb) :: tr3 /\
    let a := reached_through g (s_mem sa) (s_mem sb) p off in
    ps = stw g a (wrap g (ldw g (s_mem s) a + inc)).
Proof.
  intros s0 ls sm tr0 sm' tr s t ps s' c p off inc H0 He Hm Hp Hs Hx Hop.
  pose proof (exec_inv _ _ _ He (initial_inv _ H0)) as Hi.
  destruct (all_restarts sm tr0 sm' t (fun _ => True) Hi Hm) as (tra & trb & -> & G1 & G2).
  destruct (path_hi _ _ _ Hp t _ trb G2 G1) as [H1 H2].
  destruct (write_seen s t ps s' c p off inc _ _ H1 H2 Hs Hx Hop Logic.I) as (tr1 & sa & la & tr2 & sb & lb & tr3 & E & W).
  exists (tra ++ tr1), sa, la, tr2, sb, lb, tr3. split; [|exact W]. rewrite <- !app_assoc. rewrite E. reflexivity.
Qed.

(** ** The lists of tests/param_test.c *)
Lemma fixup_ctx : forall (R : frame -> Prop) ld (th : thread), Forall (on_frame R) (t_ctx th) ->
  (forall f P kd, R f -> tx (c_code (f_call f)) = Some (P, kd) ->
     R {| f_call := f_call f; f_pc := cs_abort P; f_rs := f_rs f |}) ->
  Forall (on_frame R) (t_ctx (fixup tx ld th)).
Proof.
  intros R ld th H HR. unfold fixup. destruct (negb (t_reg th)); [exact H|].
  destruct (rseq_cs (t_area th)) as [id|]; [|exact H].
  destruct (if ld id then tx id else None) as [[P kd]|] eqn:Et; [|exact H].
  destruct (negb (desc_ok P)); [exact H|]. destruct (t_ctx th) as [|[l [f|]] k] eqn:Ek; try (cbn; rewrite Ek; exact H).
  destruct (Nat.eqb (c_code (f_call f)) id && in_cs P (f_pc f)) eqn:Ein; [|cbn; rewrite Ek; exact H].
  apply andb_true_iff in Ein. destruct Ein as [E1 _]. apply Nat.eqb_eq in E1.
  cbn. inversion H as [|? ? B1 B2]; subst. constructor; [|exact B2]. apply on_just. apply (HR f P kd (B1 f eq_refl)).
  destruct (ld (c_code (f_call f))); [exact Et|discriminate].
Qed.

Variables (L : layout) (lmd : imode).
Hypothesis Hlay : layout_ok g L.
Hypothesis Hcl : switches_only g L lmd cl.

(** What the frames hold. *)
Definition FS (f : frame) : Prop :=
  tx (c_code (f_call f)) = Some (PG lmd, KAddLoadLoad) /\
  (exists inc, c_op (f_call f) = AddLoadLoadAddStore (ptr L) (field L (c_cpu (f_call f))) inc) /\ c_mode (f_call f) = lmd /\ 0 <= c_cpu (f_call f) < ncpus L /\
  f_rs f Rptr = ptr L /\ f_rs f Roff = field L (c_cpu (f_call f)) /\
  (f_pc f = (4 + n)%nat -> In (f_rs f T1) (bases L)) /\
  (f_pc f = (5 + n)%nat -> exists b, In b (bases L) /\ f_rs f T1 = wrap g (b + field L (c_cpu (f_call f)))) /\
  (f_pc f = (6 + n)%nat -> exists b, In b (bases L) /\ f_rs f T2 = node L b (c_cpu (f_call f))).
Definition LI (s : state) : Prop :=
  lists_set g L (s_mem s) /\ forall t, Forall (on_frame FS) (t_ctx (s_thr s t)).

Lemma li_set : forall s t th, LI s -> Forall (on_frame FS) (t_ctx th) -> LI (set_t s t th).
Proof. intros s t th [H1 H2] H. split; [exact H1|]. intros u. cbn. destruct (Nat.eqb u t); auto. Qed.
Lemma li_mem : forall s m, LI s -> lists_set g L m -> LI (set_m s m).
Proof. intros s m [H1 H2] H. split; [exact H|exact H2]. Qed.

Lemma fs_abort : forall f P kd, FS f -> tx (c_code (f_call f)) = Some (P, kd) ->
  FS {| f_call := f_call f; f_pc := cs_abort P; f_rs := f_rs f |}.
Proof.
  intros f P kd (A & B & C & C' & D & E & _) Ht. rewrite A in Ht. injection Ht as <- _.
  unfold FS. cbn [f_call f_pc f_rs]. pose proof (pg_abort lmd).
  split; [exact A|]. split; [exact B|]. split; [exact C|]. split; [exact C'|]. split; [exact D|]. split; [exact E|].
  split; [|split]; intros; exfalso; lia.
Qed.

Lemma fs_instr : forall f P kd m idx pc' rs' e rd, lists_set g L m -> FS f -> tx (c_code (f_call f)) = Some (P, kd) ->
  istep g P m idx (f_pc f) (f_rs f) = Some (pc', rs', e, rd) ->
  FS {| f_call := f_call f; f_pc := pc'; f_rs := rs' |} /\
  (forall ps, e = EWr ps -> exists b v, item_of L b (c_cpu (f_call f)) /\ ps = stw g (node L b (c_cpu (f_call f))) v).
Proof.
  intros f P kd m idx pc' rs' e rd [Hm1 Hm2] (A & B & C & C' & D & E & F1 & F2 & F3) Ht Hs. rewrite A in Ht. injection Ht as <- <-.
  apply pg_step in Hs. unfold FS. cbn [f_call f_pc f_rs].
  assert (Hreg : rs' Rptr = f_rs f Rptr /\ rs' Roff = f_rs f Roff).
  { repeat destruct Hs as [Hs|Hs]; repeat match goal with H : _ /\ _ |- _ => destruct H end; subst rs'; split; reflexivity. }
  destruct Hreg as [R1 R2]. rewrite R1, R2.
  split.
  - split; [exact A|]. split; [exact B|]. split; [exact C|]. split; [exact C'|]. split; [exact D|]. split; [exact E|]. clear R1 R2.
    repeat destruct Hs as [Hs|Hs]; repeat match goal with H : _ /\ _ |- _ => destruct H end; subst rs';
    try (assert (Hn : n = 2%nat) by (unfold n; match goal with H : tw = true |- _ => rewrite H end; reflexivity));
    try (split; [|split]; intros Epc; exfalso; try destruct (f_rs f ZF =? 0); lia).
    + split; [|split]; intros Epc; try (exfalso; lia). cbn. rewrite D. exact Hm1.
    + split; [|split]; intros Epc; try (exfalso; lia). exists (f_rs f T1). split; [auto|]. cbn. rewrite E. reflexivity.
    + split; [|split]; intros Epc; try (exfalso; lia). destruct F2 as (b & G1 & G2); [assumption|]. exists b. split; [exact G1|].
      cbn. rewrite G2. apply Hm2. split; [exact G1|lia].
  - intros ps ->.
    repeat destruct Hs as [Hs|Hs]; repeat match goal with H : _ /\ _ |- _ => destruct H end; try discriminate.
    + destruct F3 as (b & G1 & G2); [assumption|]. exists b. rewrite <- G2. match goal with H : EWr _ = EWr _ |- _ => injection H as -> end. eexists. split; [split; [exact G1|lia]|reflexivity].
    + match goal with H : _ \/ _ |- _ => destruct H as [H|[? H]]; discriminate H end.
Qed.

Lemma lists_node : forall m b c v, item_of L b c -> lists_set g L m -> lists_set g L (wr m (stw g (node L b c) v)).
Proof.
  intros m b c v Hb [H1 H2]. destruct Hlay as (L1 & L2 & L3 & L4). split.
  - rewrite ldw_stw_other; [exact H1|]. apply (proj2 (L2 b c Hb)).
  - intros b' c' Hb'. rewrite ldw_stw_other; [auto|]. apply L3; auto.
Qed.
Lemma lists_ptr : forall m b, In b (bases L) -> lists_set g L m -> lists_set g L (wr m (stw g (ptr L) b)).
Proof.
  intros m b Hb [H1 H2]. destruct Hlay as (L1 & L2 & L3 & L4). split.
  - rewrite ldw_stw; [exact Hb|auto].
  - intros b' c' Hb'. rewrite ldw_stw_other; [auto|]. apply (proj1 (L2 b' c' Hb')).
Qed.

Lemma step_li : forall s l s', LI s -> step g tx cl s l s' -> LI s' /\
  (s_mem s' = s_mem s \/ (exists b, In b (bases L) /\ s_mem s' = wr (s_mem s) (stw g (ptr L) b)) \/
   exists t c ps inc b v, l = Lwr t ps /\ executing s t c /\ c_mode c = lmd /\
     c_op c = AddLoadLoadAddStore (ptr L) (field L (c_cpu c)) inc /\
     item_of L b (c_cpu c) /\ ps = stw g (node L b (c_cpu c)) v /\ s_mem s' = wr (s_mem s) ps).
Proof.
  intros s l s' Hi Hs. pose proof Hi as [HM HF].
  assert (Htop : forall t x k x', t_ctx (s_thr s t) = x :: k -> on_frame FS x' -> Forall (on_frame FS) (x' :: k)).
  { intros t x k x' Ek Hx. pose proof (HF t) as H. rewrite Ek in H. inversion H; subst. constructor; auto. }
  assert (Hin : forall t l k f, t_ctx (s_thr s t) = {| x_loc := l; x_act := Some f |} :: k -> FS f).
  { intros t l0 k f Ek. pose proof (HF t) as H. rewrite Ek in H. exact (Forall_inv H f eq_refl). }
  destruct Hs as [s t l k f P kd pc' rs' e rd Hrun Ek Et Hld Hst He
    |s t l k f P kd pc' rs' ps rd Hrun Ek Et Hld Hst
    |s t l k f P kd pc' rs' x rd r Hrun Ek Et Hld Hst Hx
    |s t l k f P kd pc' rs' x rd Hrun Ek Et Hld Hst Hx
    |s t l k c P kd junk Hrun Ek Hc Et Hld Hkd Hmd Hcpu
    |s t l k ps l' Hrun Ek Hw
    |s t l k l' Hrun Ek Hw
    |s t l k Hrun Ek
    |s id Hun
    |s t Hrun
    |s t cpu cid Hon Hdead Hcpu Hcid Hfree
    |s t Hrun
    |s t x k l' Hrun Ek Hsig
    |s t l x k Hrun Ek Hdone
    |s t l cpu cid Hrun Hreg Ek Hon
    |s t l Hrun Hreg Ek].
  - split; [|left; reflexivity]. apply li_set; [exact Hi|]. destruct (fs_instr f P kd _ _ _ _ _ _ HM (Hin _ _ _ _ Ek) Et Hst) as [G _].
    destruct He as [-> | ->]; cbn [set_ctx t_ctx]; eapply Htop; eauto; apply on_just; exact G.
  - destruct (fs_instr f P kd _ _ _ _ _ _ HM (Hin _ _ _ _ Ek) Et Hst) as [G W]. destruct (W ps eq_refl) as (b & v & Hb & Hps).
    destruct (Hin _ _ _ _ Ek) as (A & (inc & B) & C & _). split.
    + apply li_mem; [|rewrite Hps; apply lists_node; auto]. apply li_set; [exact Hi|]. cbn [set_ctx t_ctx]. eapply Htop; eauto. apply on_just; exact G.
    + right. right. exists t, (f_call f), ps, inc, b, v. split; [reflexivity|]. split; [|auto 8].
      destruct f as [c pc rs]. exists l, pc, rs, k. exact Ek.
  - split; [|left; reflexivity]. apply li_set; [exact Hi|]. cbn [set_ctx t_ctx]. eapply Htop; eauto. apply no_frame.
  - split; [|left; reflexivity]. apply li_set; [exact Hi|]. apply HF.
  - split; [|left; reflexivity]. apply li_set; [exact Hi|]. cbn [set_ctx t_ctx]. eapply Htop; eauto. apply on_just.
    destruct (proj1 Hcl l (s_mem s) c Hc) as (Hcc & inc & Hop & Hm).
    rewrite Hop in Hkd. cbn in Hkd. subst kd. destruct (Htx _ _ _ Et) as (rel & md & Hh'). cbn in Hh'. destruct rel; [discriminate|]. injection Hh' as <-.
    change (x64_add_load_load_add_store tw md) with (PG md) in *. rewrite pg_mode, Hm in Hmd. subst md.
    unfold FS. cbn [f_call f_pc f_rs]. split; [exact Et|]. split; [exists inc; exact Hop|]. split; [exact Hm|]. split; [exact Hcc|].
    unfold init_regs, arg. rewrite Hop. split; [reflexivity|]. split; [reflexivity|]. split; [|split]; intros; exfalso; lia.
  - destruct (proj2 Hcl _ _ _ _ Hw) as (b & Hb & ->). split.
    + apply li_mem; [|apply lists_ptr; auto]. apply li_set; [exact Hi|]. cbn [set_ctx t_ctx]. eapply Htop; eauto. apply no_frame.
    + right. left. exists b. split; [exact Hb|reflexivity].
  - split; [|left; reflexivity]. apply li_set; [exact Hi|]. cbn [set_ctx t_ctx]. eapply Htop; eauto. apply no_frame.
  - split; [|left; reflexivity]. apply li_set; [exact Hi|]. apply HF.
  - split; [|left; reflexivity]. split; [exact HM|exact HF].
  - split; [|left; reflexivity]. apply li_set; [exact Hi|]. apply HF.
  - split; [|left; reflexivity]. apply li_set; [exact Hi|]. apply fixup_ctx; [|exact fs_abort].
    cbn. destruct (t_reg (s_thr s t)); apply HF.
  - split; [|left; reflexivity]. apply li_set; [exact Hi|]. apply fixup_ctx; [apply HF|exact fs_abort].
  - split; [|left; reflexivity]. apply li_set; [exact Hi|]. cbn [set_ctx t_ctx]. constructor; [apply no_frame|].
    apply fixup_ctx; [apply HF|exact fs_abort].
  - split; [|left; reflexivity]. apply li_set; [exact Hi|]. cbn [set_ctx t_ctx]. pose proof (HF t) as H. rewrite Ek in H.
    inversion H; auto.
  - split; [|left; reflexivity]. apply li_set; [exact Hi|]. apply HF.
  - split; [|left; reflexivity]. apply li_set; [exact Hi|]. apply HF.
Qed.

Lemma initial_li : forall s, initial s -> lists_set g L (s_mem s) -> LI s.
Proof.
  intros s (H & _) Hl. split; [exact Hl|]. intros t. destruct (H t) as (_ & _ & (l & E) & _). rewrite E.
  constructor; [apply no_frame|constructor].
Qed.
Lemma exec_li : forall s tr s', exec g tx cl s tr s' -> LI s -> LI s'.
Proof. intros s tr s' H. induction H as [|s tr s' l s'' Hp IH Hs Hok]; intros Hi; [exact Hi|]. exact (proj1 (step_li _ _ _ (IH Hi) Hs)). Qed.
Lemma path_li : forall s tr s', path g tx cl s tr s' -> LI s -> LI s' /\ forall x l, In (x, l) tr -> LI x.
Proof.
  intros s tr s' H. induction H as [|s tr s' l s'' Hp IH Hs Hok]; intros Hi; [split; [exact Hi|intros x l []]|].
  destruct (IH Hi) as [H1 H2]. split; [exact (proj1 (step_li _ _ _ H1 Hs))|].
  intros x l0 Hx. apply in_app_or in Hx. destruct Hx as [Hx|[Hx|[]]]; [eauto|]. injection Hx as <- _. exact H1.
Qed.
Lemma membarrier_li : forall cpu s s', membarrier tx cpu s s' -> LI s -> LI s' /\ s_mem s' = s_mem s.
Proof.
  intros cpu s s' [(t & cid & _ & _ & ->)|[_ ->]] Hi; [|auto]. split; [|reflexivity]. apply li_set; [exact Hi|].
  apply fixup_ctx; [apply Hi|exact fs_abort].
Qed.

Theorem list_quiescent : forall s0 ls sm cpu sm' tr s b,
  lmd = CPU_ID -> initial s0 -> lists_set g L (s_mem s0) ->
  exec g tx cl s0 ls sm -> membarrier tx cpu sm sm' -> path g tx cl sm' tr s ->
  item_of L b cpu -> (forall x l, In (x, l) tr -> ldw g (s_mem x) (ptr L) <> b) ->
  ldw g (s_mem s) (node L b cpu) = ldw g (s_mem sm) (node L b cpu).
Proof.
  intros s0 ls sm cpu sm' tr s b Elmd H0 Hl He Hm Hp Hb.
  pose proof (exec_li _ _ _ He (initial_li _ H0 Hl)) as Him. destruct (membarrier_li _ _ _ Hm Him) as [Him' Em].
  rewrite <- Em. pose proof (membarrier_inv _ _ _ (exec_inv _ _ _ He (initial_inv _ H0)) Hm) as Hinv.
  destruct Hlay as (L1 & L2 & L3 & L4).
  induction Hp as [|sm' tr s l s' Hp IH Hs Hok]; intros Hno; [reflexivity|].
  specialize (IH Hm Him' Em Hinv). rewrite <- IH by (intros x y Hx; apply (Hno x y); apply in_or_app; left; exact Hx).
  destruct (path_li _ _ _ Hp Him') as [Hls Hin]. destruct (step_li _ _ _ Hls Hs) as [_ [E|[(b' & Hb' & E)|(t & c & ps & inc & b' & v & -> & Hx & Hmd & Hop & Hb' & Hps & E)]]].
  - rewrite E. reflexivity.
  - rewrite E. apply ldw_stw_other. intros x X1 X2. exact (proj2 (L2 b cpu Hb) x X2 X1).
  - destruct (Z.eq_dec (c_cpu c) cpu) as [Ec|Ec]; [|rewrite E, Hps; apply ldw_stw_other; apply L4; auto].
    destruct (after_membarrier s0 ls sm cpu sm' tr s t ps s' c _ _ _ H0 He Hm Hp Hs Hx Hop (eq_trans Hmd Elmd) Ec)
      as (tr1 & sa & la & tr2 & sb & lb & tr3 & Etr & W). cbv zeta in W.
    assert (Ia : In (sa, la) tr) by (rewrite Etr; apply in_or_app; right; left; reflexivity).
    assert (Ib : In (sb, lb) tr) by (rewrite Etr; apply in_or_app; right; right; apply in_or_app; right; left; reflexivity).
    destruct (Hin _ _ Ia) as [[A1 A2] _]. destruct (Hin _ _ Ib) as [[B1 B2] _].
    unfold reached_through in W. rewrite Ec in W. rewrite (B2 _ _ (conj A1 (proj2 Hb))) in W.
    assert (Hq : ldw g (s_mem sa) (ptr L) <> b) by (apply (Hno sa la); apply in_or_app; left; exact Ia).
    rewrite E, W. apply ldw_stw_other. apply L4; [split; [exact A1|apply Hb]|exact Hb|left; exact Hq].
Qed.

Theorem list_quiescent_all : forall s0 ls sm tr0 sm' tr s b cpu,
  initial s0 -> lists_set g L (s_mem s0) ->
  exec g tx cl s0 ls sm -> membarrier_all g tx cl sm tr0 sm' -> path g tx cl sm' tr s ->
  item_of L b cpu -> (forall x l, In (x, l) (tr0 ++ tr) -> ldw g (s_mem x) (ptr L) <> b) ->
  ldw g (s_mem s) (node L b cpu) = ldw g (s_mem sm') (node L b cpu).
Proof.
  intros s0 ls sm tr0 sm' tr s b cpu H0 Hl He Hm Hp Hb.
  pose proof (exec_li _ _ _ He (initial_li _ H0 Hl)) as Him. pose proof Hm as [Hp0 _].
  destruct (path_li _ _ _ Hp0 Him) as [Him' Hin0]. destruct Hlay as (L1 & L2 & L3 & L4).
  induction Hp as [|sm' tr s l s' Hp IH Hs Hok]; intros Hno; [reflexivity|].
  specialize (IH Hm Hp0 Him'). rewrite <- IH by (intros x y Hx; apply (Hno x y); rewrite app_assoc; apply in_or_app; left; exact Hx).
  destruct (path_li _ _ _ Hp Him') as [Hls Hin]. destruct (step_li _ _ _ Hls Hs) as [_ [E|[(b' & Hb' & E)|(t & c & ps & inc & b' & v & -> & Hx & Hmd & Hop & Hb' & Hps & E)]]].
  - rewrite E. reflexivity.
  - rewrite E. apply ldw_stw_other. intros x X1 X2. exact (proj2 (L2 b cpu Hb) x X2 X1).
  - destruct (after_membarrier_all s0 ls sm tr0 sm' tr s t ps s' c _ _ _ H0 He Hm Hp Hs Hx Hop)
      as (tr1 & sa & la & tr2 & sb & lb & tr3 & Etr & W). cbv zeta in W.
    assert (Ia : In (sa, la) (tr0 ++ tr)) by (rewrite Etr; apply in_or_app; right; left; reflexivity).
    assert (Ib : In (sb, lb) (tr0 ++ tr)) by (rewrite Etr; apply in_or_app; right; right; apply in_or_app; right; left; reflexivity).
    assert (Hall : forall x y, In (x, y) (tr0 ++ tr) -> LI x) by (intros x y Hxy; apply in_app_or in Hxy; destruct Hxy; eauto).
    destruct (Hall _ _ Ia) as [[A1 A2] _]. destruct (Hall _ _ Ib) as [[B1 B2] _].
    unfold reached_through in W. rewrite (B2 _ _ (conj A1 (proj2 Hb'))) in W.
    assert (Hq : ldw g (s_mem sa) (ptr L) <> b) by (apply (Hno sa la); rewrite app_assoc; apply in_or_app; left; exact Ia).
    rewrite E, W. apply ldw_stw_other. apply L4; [split; [exact A1|apply Hb']|exact Hb|left; exact Hq].
Qed.

End Barrier.
