(** The membarrier test on x86-TSO: invariants. *)
From Coq Require Import ZArith Bool List Lia.
From Verif Require Import RseqIR RseqSpec RseqKernel RseqSafe MemLemmas RunLemmas RseqSim RseqOwn RseqCalls ArchCommon Arch_x86 Archs BarrierSpec BarrierProofs TsoModel.
Import ListNotations.
Local Open Scope Z_scope.

Lemma flush_app : forall b m c, flush m (b ++ c) = flush (flush m b) c.
Proof. intros. unfold flush. apply fold_left_app. Qed.

Section Tso.
Variables (g : cfg) (tw : bool) (tx : text) (md : imode) (L : layout) (la lb : Z) (mg : nat).
Hypothesis Htx : lib_text X86_64 tw tx.
Hypothesis Hlay : layout_ok g L.
Hypothesis Hbases : bases L = [la; lb].
Hypothesis Hne : la <> lb.

Let n : nat := if tw then 2%nat else 0%nat.
Notation cl := (mt_client g md L la lb).
Notation state := (RseqKernel.state mt_loc).
Notation thread := (RseqKernel.thread mt_loc).
Notation ctx := (RseqKernel.ctx mt_loc).
Notation Inv := (Inv mt_loc tw tx).
Notation LI := (LI mt_loc g tw tx L md).
Notation FS := (FS g tw tx L md).
Notation on_frame := (on_frame mt_loc).
Notation hd_ok := (hd_ok mt_loc).
Notation out := (out tw tx).
Notation TI := (TI mt_loc tw tx).
Notation inside := (inside tw).

Lemma mt_switches : switches_only g L md cl.
Proof.
  split.
  - intros l m c (k & cpu & code & -> & Hc & ->). cbn. split; [exact Hc|]. exists 1. auto.
  - intros l m ps l' (a & cpu & -> & -> & ->). exists (if a then lb else la). rewrite Hbases. split; [destruct a; cbn; auto|reflexivity].
Qed.

(** ** What a call holds of a list *)
Definition fresh (old : Z) (f : frame) : Prop :=
  (f_pc f = (4 + n)%nat -> f_rs f T1 <> old) /\
  (f_pc f = (5 + n)%nat -> exists b, In b (bases L) /\ b <> old /\ f_rs f T1 = wrap g (b + field L (c_cpu (f_call f)))) /\
  (f_pc f = (6 + n)%nat -> exists b, In b (bases L) /\ b <> old /\ f_rs f T2 = node L b (c_cpu (f_call f))).

Lemma fresh_out : forall old f, FS f -> out f -> fresh old f.
Proof.
  intros old f (A & _) Ho. specialize (Ho md A). unfold BarrierProofs.inside in Ho. fold n in Ho. split; [|split]; intros E; exfalso; apply Ho; lia.
Qed.

Lemma fresh_instr : forall old f P kd m idx pc' rs' e rd, lists_set g L m -> ldw g m (ptr L) <> old ->
  FS f -> fresh old f -> tx (c_code (f_call f)) = Some (P, kd) ->
  istep g P m idx (f_pc f) (f_rs f) = Some (pc', rs', e, rd) ->
  fresh old {| f_call := f_call f; f_pc := pc'; f_rs := rs' |} /\
  (forall ps, e = EWr ps -> exists b v, item_of L b (c_cpu (f_call f)) /\ b <> old /\ ps = stw g (node L b (c_cpu (f_call f))) v).
Proof.
  intros old f P kd m idx pc' rs' e rd [Hm1 Hm2] Hp (A & B & C & C' & D & E & F1 & F2 & F3) (G1 & G2 & G3) Ht Hs.
  rewrite A in Ht. injection Ht as <- <-. apply (pg_step g tw tx Htx) in Hs. fold n in Hs, F1, F2, F3. unfold fresh. cbn [f_call f_pc f_rs].
  split.
  - repeat destruct Hs as [Hs|Hs]; repeat match goal with H : _ /\ _ |- _ => destruct H end; subst rs';
    try (assert (Hn : n = 2%nat) by (unfold n; match goal with H : tw = true |- _ => rewrite H end; reflexivity));
    try (split; [|split]; intros Epc; exfalso; try destruct (f_rs f ZF =? 0); lia).
    + split; [|split]; intros Epc; try (exfalso; lia). cbn. rewrite D. exact Hp.
    + split; [|split]; intros Epc; try (exfalso; lia). exists (f_rs f T1). split; [auto|]. split; [auto|]. cbn. rewrite E. reflexivity.
    + split; [|split]; intros Epc; try (exfalso; lia). destruct G2 as (b & J1 & J2 & J3); [assumption|]. exists b. split; [exact J1|]. split; [exact J2|].
      cbn. rewrite J3. apply Hm2. split; [exact J1|lia].
  - intros ps ->.
    repeat destruct Hs as [Hs|Hs]; repeat match goal with H : _ /\ _ |- _ => destruct H end; try discriminate.
    + destruct G3 as (b & J1 & J2 & J3); [assumption|]. exists b. rewrite <- J3. match goal with H : EWr _ = EWr _ |- _ => injection H as -> end.
      eexists. split; [split; [exact J1|lia]|]. split; [exact J2|reflexivity].
    + match goal with H : _ \/ _ |- _ => destruct H as [H|[? H]]; discriminate H end.
Qed.

(** Of the innermost call of a thread that runs. *)
Definition HF (old : Z) (th : thread) : Prop :=
  t_reg th = true -> t_on th <> None -> t_dead th = false -> hd_ok (fresh old) (t_ctx th).

Lemma hf_out : forall old th, Forall (on_frame FS) (t_ctx th) ->
  (t_reg th = true -> t_on th <> None -> t_dead th = false -> hd_ok out (t_ctx th)) -> HF old th.
Proof.
  intros old th HF H H1 H2 H3. specialize (H H1 H2 H3). destruct (t_ctx th) as [|x k]; [exact Logic.I|]. cbn in *.
  intros f Hf. apply fresh_out; [exact (Forall_inv HF f Hf)|exact (H f Hf)].
Qed.

Lemma fixup_hf : forall old ld th, TI th -> Forall (on_frame FS) (t_ctx (fixup tx ld th)) -> HF old (fixup tx ld th).
Proof.
  intros old ld th [A B C D E] HFS. apply hf_out; [exact HFS|]. intros Hr Hon Hd.
  destruct (fixup_spec mt_loc tw tx Htx ld th B C) as (F1 & _ & _ & [(F4 & _)|(_ & _ & _ & F6 & _)]); [congruence|]. apply F6. congruence.
Qed.

Lemma hf_step : forall old u s l s', Inv s -> LI s -> ldw g (s_mem s) (ptr L) <> old ->
  HF old (s_thr s u) -> step g tx cl s l s' -> HF old (s_thr s' u).
Proof.
  intros old u s l s' Hi HL Hp Hh Hs. pose proof Hi as [HT HD].
  pose proof (proj1 (step_li mt_loc g tw tx cl Htx L md Hlay mt_switches s l s' HL Hs)) as HL'.
  pose proof (proj2 HL u) as HFu. pose proof (proj2 HL' u) as HFu'. pose proof (proj1 HL) as HM.
  destruct Hs as [s t l k f P kd pc' rs' e rd Hrun Ek Et Hld Hst He
    |s t l k f P kd pc' rs' ps rd Hrun Ek Et Hld Hst
    |s t l k f P kd pc' rs' x rd r Hrun Ek Et Hld Hst Hx
    |s t l k f P kd pc' rs' x rd Hrun Ek Et Hld Hst Hx
    |s t l k c P kd junk Hrun Ek Hc Et Hld Hkd Hmd Hcpu
    |s t l k ps l' Hrun Ek Hw
    |s t l k l' Hrun Ek Hw
    |s t l k Hrun Ek
    |s id Hun
    |s t Hrun
    |s t cpu cid Hon Hdead Hcpu Hcid Hfree
    |s t Hrun
    |s t x k l' Hrun Ek Hsig
    |s t l x k Hrun Ek Hdone
    |s t l cpu cid Hrun Hreg Ek Hon
    |s t l Hrun Hreg Ek];
    try (destruct (Nat.eq_dec u t) as [-> | Hno];
         [|cbn [s_thr set_m]; rewrite thr_other by exact Hno; exact Hh]);
    try (cbn [s_thr set_m] in *; rewrite thr_same in *).
  - intros H1 H2 H3.
    assert (H : hd_ok (fresh old) (t_ctx (s_thr s t))).
    { destruct He as [-> | ->]; apply Hh; auto. }
    rewrite Ek in H, HFu.
    pose proof (proj1 (fresh_instr old f P kd _ _ _ _ _ _ HM Hp (Forall_inv HFu f eq_refl) (H f eq_refl) Et Hst)) as G.
    destruct He as [-> | ->]; cbn [set_ctx t_ctx BarrierProofs.hd_ok]; apply on_just; exact G.
  - cbn [s_thr set_m]. intros H1 H2 H3. pose proof (Hh H1 H2 H3) as H. rewrite Ek in H, HFu.
    cbn [set_ctx t_ctx BarrierProofs.hd_ok]. apply on_just.
    exact (proj1 (fresh_instr old f P kd _ _ _ _ _ _ HM Hp (Forall_inv HFu f eq_refl) (H f eq_refl) Et Hst)).
  - intros _ _ _. apply no_frame.
  - intros _ H2. cbn in H2. congruence.
  - apply hf_out; [exact HFu'|]. intros _ _ _. apply on_just. intros m _ Hin. unfold BarrierProofs.inside in Hin. cbn in Hin. lia.
  - intros _ _ _. apply no_frame.
  - intros _ _ _. apply no_frame.
  - intros _ _ _. cbn [set_cs set_area t_ctx]. rewrite Ek. apply no_frame.
  - exact Hh.
  - intros _ H2. cbn in H2. congruence.
  - set (th1 := let th := set_on (s_thr s t) (Some (cpu, cid)) in
                if t_reg th then set_area th {| rseq_cs := rseq_cs (t_area th); cpu_field := cpu; cid_field := cid |} else th) in *.
    assert (Hr1 : t_reg th1 = t_reg (s_thr s t)) by (unfold th1; cbn; destruct (t_reg (s_thr s t)) eqn:E; cbn; auto).
    assert (Hc1 : t_ctx th1 = t_ctx (s_thr s t)) by (unfold th1; cbn; destruct (t_reg (s_thr s t)); reflexivity).
    assert (Hcs1 : rseq_cs (t_area th1) = rseq_cs (t_area (s_thr s t))) by (unfold th1; cbn; destruct (t_reg (s_thr s t)); reflexivity).
    destruct (HT t) as [A B C D E]. apply hf_out; [exact HFu'|]. intros Hr Ho Hd.
    destruct (fixup_spec mt_loc tw tx Htx (s_loaded s) th1) as (F1 & _ & _ & [(F4 & _)|(_ & _ & _ & F6 & _)]).
    + rewrite Hr1, Hc1. exact B.
    + rewrite Hr1, Hc1, Hcs1. exact C.
    + cbn zeta in *. congruence.
    + apply F6. cbn zeta in *. congruence.
  - apply fixup_hf; [apply HT|exact HFu'].
  - intros _ _ _. apply no_frame.
  - intros H1 H2 H3. cbn in H1, H2, H3. pose proof (ti_low _ _ _ _ (HT t) H1 H3) as H. rewrite Ek in H.
    unfold tl_ok in H. cbn in H. cbn [set_ctx t_ctx BarrierProofs.hd_ok]. intros f Hf. apply fresh_out.
    + exact (Forall_inv HFu' f Hf).
    + exact (Forall_inv H f Hf).
  - intros _ _ _. cbn [t_ctx]. rewrite Ek. apply no_frame.
  - intros _ _ _. cbn [t_ctx]. rewrite Ek. apply no_frame.
Qed.

(** ** The stores of the workers *)
Definition idx (o : option (Z * Z)) : option Z :=
  match o with Some (c, d) => Some (match md with CPU_ID => c | MM_CID => d end) | None => None end.

Definition worker_loc (l : mt_loc) : Prop := match l with Tread _ | Tcall _ _ => True | _ => False end.
Definition wshape (th : thread) : Prop := Forall (fun x => worker_loc (x_loc x)) (t_ctx th).

Lemma mod_small' : forall c, - 2 ^ 31 <= c < 2 ^ 31 -> forall d, 0 <= d < 2 ^ 31 -> d = c mod 2 ^ 32 -> d = c.
Proof.
  intros c Hc d Hd E. destruct (Z_lt_le_dec c 0).
  - assert (c mod 2 ^ 32 = c + 2 ^ 32) by (symmetry; apply (Z.mod_unique _ _ (-1)); lia). lia.
  - rewrite Z.mod_small in E by lia. exact E.
Qed.

(** A worker stores from the last instruction of a call. *)
Lemma store_frame : forall s t ps s', Inv s -> LI s -> wshape (s_thr s t) -> step g tx cl s (Lwr t ps) s' ->
  exists l k f, t_ctx (s_thr s t) = {| x_loc := l; x_act := Some f |} :: k /\ FS f /\ f_pc f = (6 + n)%nat /\
    idx (t_on (s_thr s t)) = Some (c_cpu (f_call f)) /\
    t_reg (s_thr s t) = true /\ t_on (s_thr s t) <> None /\ t_dead (s_thr s t) = false /\
    ps = stw g (f_rs f T2) (wrap g (ldw g (s_mem s) (f_rs f T2) + f_rs f Rinc)) /\
    s_thr s' t = set_ctx (s_thr s t) ({| x_loc := l; x_act := Some {| f_call := f_call f; f_pc := (7 + n)%nat; f_rs := f_rs f |} |} :: k).
Proof.
  intros s t ps s' [HT HD] HL Hw Hs.
  inversion Hs as [|? ? l k f P kd pc' rs' ? rd Hrun Ek Et Hld Hst| | | |? ? l k ? l' Hrun Ek Hw'| | | | | | | | | |]; subst.
  2:{ exfalso. unfold wshape in Hw. rewrite Ek in Hw. apply Forall_inv in Hw. destruct Hw' as (a & cpu & -> & _). exact Hw. }
  pose proof (proj2 HL t) as HFS. rewrite Ek in HFS. pose proof (Forall_inv HFS f eq_refl) as Hf. pose proof Hf as (A & B & C & C' & D & E & F).
  exists l, k, f. rewrite A in Et. injection Et as <- <-. split; [exact Ek|]. split; [exact Hf|].
  pose proof (pg_step g tw tx Htx _ _ _ _ _ _ _ _ _ Hst) as Hp. fold n in Hp.
  assert (Hpc : f_pc f = (6 + n)%nat /\ pc' = (7 + n)%nat /\ rs' = f_rs f /\ ps = stw g (f_rs f T2) (wrap g (ldw g (s_mem s) (f_rs f T2) + f_rs f Rinc))).
  { repeat destruct Hp as [Hp|Hp]; repeat match goal with H : _ /\ _ |- _ => destruct H end; subst; try discriminate.
    - match goal with H : EWr _ = EWr _ |- _ => injection H as -> end. auto.
    - repeat match goal with H : _ \/ _ |- _ => destruct H end; try discriminate; match goal with H : exists _, _ |- _ => destruct H; discriminate end. }
  destruct Hpc as (Hpc & -> & -> & ->). split; [exact Hpc|].
  destruct (HT t) as [I1 I2 I3 I4 I5]. rewrite Ek in I2, I3, I4. destruct (Forall_inv I2 f eq_refl) as [_ J]. destruct (J md A) as (J1 & J2 & J3 & J4).
  destruct (t_reg (s_thr s t)) eqn:Er.
  2:{ exfalso. destruct (J4 eq_refl) as [_ J5]. destruct J5 as [J5 _]; unfold BarrierProofs.inside; fold n; rewrite ?Hpc; lia. }
  destruct Hrun as [Hon Hdd]. specialize (I4 eq_refl Hdd f eq_refl md A). destruct I4 as [I4 _].
  { unfold BarrierProofs.inside; fold n; rewrite Hpc; lia. }
  specialize (I4 ltac:(lia)). rewrite J2 in I4. destruct I1 as (_ & K2 & K3).
  destruct (t_on (s_thr s t)) as [[c d]|] eqn:Eon; [|congruence].
  destruct (K2 Er c d eq_refl) as [M1 M2]. destruct (K3 c d eq_refl) as [M3 M4].
  split; [|split; [reflexivity|split; [discriminate|split; [exact Hdd|split; [reflexivity|]]]]].
  - cbn. f_equal. destruct md; cbn in I4; [rewrite M1 in I4|rewrite M2 in I4]; apply mod_small'; auto.
  - cbn [s_thr set_m]. rewrite thr_same. reflexivity.
Qed.

Lemma store_entry : forall s t ps s', Inv s -> LI s -> wshape (s_thr s t) -> step g tx cl s (Lwr t ps) s' ->
  exists b k v, item_of L b k /\ idx (t_on (s_thr s t)) = Some k /\ ps = stw g (node L b k) v.
Proof.
  intros s t ps s' Hi HL Hw Hs. destruct (store_frame s t ps s' Hi HL Hw Hs) as (l & k & f & Ek & Hf & Hpc & Hidx & _ & _ & _ & Hps & _).
  destruct Hf as (A & B & C & C' & D & E & F1 & F2 & F3). destruct (F3 Hpc) as (b & G1 & G2).
  exists b, (c_cpu (f_call f)), (wrap g (ldw g (s_mem s) (f_rs f T2) + f_rs f Rinc)). rewrite <- G2. split; [split; assumption|]. auto.
Qed.
Lemma store_fresh : forall old s t ps s', Inv s -> LI s -> wshape (s_thr s t) -> HF old (s_thr s t) -> step g tx cl s (Lwr t ps) s' ->
  exists b k v, item_of L b k /\ b <> old /\ ps = stw g (node L b k) v.
Proof.
  intros old s t ps s' Hi HL Hw Hh Hs. destruct (store_frame s t ps s' Hi HL Hw Hs) as (l & k & f & Ek & Hf & Hpc & Hidx & R1 & R2 & R3 & Hps & _).
  destruct Hf as (A & B & C & C' & D & E & F). specialize (Hh R1 R2 R3). rewrite Ek in Hh. destruct (Hh f eq_refl) as (_ & _ & G).
  destruct (G Hpc) as (b & G1 & G2 & G3).
  exists b, (c_cpu (f_call f)), (wrap g (ldw g (s_mem s) (f_rs f T2) + f_rs f Rinc)). rewrite <- G3. split; [split; assumption|]. auto.
Qed.

(** ** Where the threads are *)
Lemma fixup_locs : forall ld (th : thread), map (@x_loc mt_loc) (t_ctx (fixup tx ld th)) = map (@x_loc mt_loc) (t_ctx th).
Proof.
  intros ld th. unfold fixup. destruct (negb (t_reg th)); [reflexivity|]. destruct (rseq_cs (t_area th)) as [id|]; [|reflexivity].
  destruct (if ld id then tx id else None) as [[P kd]|]; [|reflexivity]. destruct (negb (desc_ok P)); [reflexivity|].
  destruct (t_ctx th) as [|[l [f|]] k] eqn:Ek; try (cbn; rewrite Ek; reflexivity).
  destruct (Nat.eqb (c_code (f_call f)) id && in_cs P (f_pc f)); cbn; [reflexivity|rewrite Ek; reflexivity].
Qed.
Lemma fixup_wshape : forall ld th, wshape th -> wshape (fixup tx ld th).
Proof.
  intros ld th H. unfold wshape in *. rewrite Forall_forall in *. intros x Hx.
  assert (Hin : In (x_loc x) (map (@x_loc mt_loc) (t_ctx th))) by (rewrite <- (fixup_locs ld); apply in_map; exact Hx).
  apply in_map_iff in Hin. destruct Hin as (y & <- & Hy). auto.
Qed.

Lemma wrk_step : forall u s l s', wshape (s_thr s u) -> step g tx cl s l s' -> wshape (s_thr s' u).
Proof.
  intros u s l s' Hh Hs.
  destruct Hs as [s t l k f P kd pc' rs' e rd Hrun Ek Et Hld Hst He
    |s t l k f P kd pc' rs' ps rd Hrun Ek Et Hld Hst
    |s t l k f P kd pc' rs' x rd r Hrun Ek Et Hld Hst Hx
    |s t l k f P kd pc' rs' x rd Hrun Ek Et Hld Hst Hx
    |s t l k c P kd junk Hrun Ek Hc Et Hld Hkd Hmd Hcpu
    |s t l k ps l' Hrun Ek Hw
    |s t l k l' Hrun Ek Hw
    |s t l k Hrun Ek
    |s id Hun
    |s t Hrun
    |s t cpu cid Hon Hdead Hcpu Hcid Hfree
    |s t Hrun
    |s t x k l' Hrun Ek Hsig
    |s t l x k Hrun Ek Hdone
    |s t l cpu cid Hrun Hreg Ek Hon
    |s t l Hrun Hreg Ek];
    try (destruct (Nat.eq_dec u t) as [-> | Hno];
         [|cbn [s_thr set_m]; rewrite thr_other by exact Hno; exact Hh]);
    try (cbn [s_thr set_m] in *; rewrite thr_same in * ); try exact Hh;
    try (unfold wshape in *; rewrite Ek in Hh; pose proof (Forall_inv Hh) as H1; pose proof (Forall_inv_tail Hh) as H2; cbn in H1).
  - destruct He as [-> | ->]; cbn [set_ctx t_ctx]; constructor; auto.
  - cbn [set_ctx t_ctx]; constructor; auto.
  - cbn [set_ctx t_ctx]; constructor; auto. cbn. destruct l as [i|[|i] cpu| | | | | |]; try exact H1. destruct (r =? 0); exact Logic.I.
  - cbn [set_ctx t_ctx]; constructor; auto.
  - destruct Hw as (a & cpu & -> & _). destruct H1.
  - cbn [set_ctx t_ctx]; constructor; auto. destruct l as [[|i]|i cpu| | | | | |]; try destruct H1; cbn in Hw; try destruct Hw as (cpu & _ & ->); try exact Logic.I; destruct Hw.
  - apply fixup_wshape. unfold wshape. cbn. destruct (t_reg (s_thr s t)); exact Hh.
  - apply fixup_wshape. exact Hh.
  - cbn [set_ctx t_ctx]. constructor; [cbn in Hsig; rewrite Hsig; exact Logic.I|]. apply fixup_wshape. unfold wshape. rewrite Ek. exact Hh.
  - cbn [set_ctx t_ctx]. exact H2.
Qed.

(** The manager: signal handlers above one of its locations. *)
Definition hx : ctx := {| x_loc := Tread 0; x_act := None |}.
Definition mshape (th : thread) (M : mt_loc) : Prop := exists h, t_ctx th = repeat hx h ++ [{| x_loc := M; x_act := None |}].
Lemma mshape_unique : forall th M M', mshape th M -> mshape th M' -> M = M'.
Proof.
  intros th M M' [h H] [h' H']. rewrite H in H'. apply (f_equal (fun k => last k {| x_loc := Mend; x_act := None |})) in H'.
  rewrite !last_last in H'. congruence.
Qed.
Lemma mshape_fixup : forall ld th M, mshape th M -> mshape (fixup tx ld th) M.
Proof.
  intros ld th M [h H]. exists h. rewrite <- H. unfold fixup. destruct (negb (t_reg th)); [reflexivity|]. destruct (rseq_cs (t_area th)) as [id|]; [|reflexivity].
  destruct (if ld id then tx id else None) as [[P kd]|]; [|reflexivity]. destruct (negb (desc_ok P)); [reflexivity|].
  destruct (t_ctx th) as [|[l [f|]] k] eqn:Ek; try (cbn; rewrite Ek; reflexivity).
  exfalso. destruct h; cbn in H; discriminate H.
Qed.
Lemma mshape_top : forall th M x k, mshape th M -> t_ctx th = x :: k ->
  x_act x = None /\ ((x_loc x = M /\ k = []) \/ (x_loc x = Tread 0 /\ exists h, k = repeat hx h ++ [{| x_loc := M; x_act := None |}])).
Proof.
  intros th M x k [h H] E. rewrite E in H. destruct h as [|h]; cbn in H; injection H as -> ->; split; auto. right. split; [reflexivity|]. exists h. reflexivity.
Qed.

Lemma mgr_step : forall u M s l s', ~ worker_loc M -> mshape (s_thr s u) M -> step g tx cl s l s' ->
  exists M', mshape (s_thr s' u) M' /\
    ((M' = M /\ (forall ps, l <> Lwr u ps)) \/ (cl_tau _ cl M (s_mem s) M' /\ (forall ps, l <> Lwr u ps)) \/
     (exists ps, l = Lwr u ps /\ cl_write _ cl M (s_mem s) ps M')).
Proof.
  intros u M s l s' Hnw Hh Hs.
  destruct Hs as [s t l k f P kd pc' rs' e rd Hrun Ek Et Hld Hst He
    |s t l k f P kd pc' rs' ps rd Hrun Ek Et Hld Hst
    |s t l k f P kd pc' rs' x rd r Hrun Ek Et Hld Hst Hx
    |s t l k f P kd pc' rs' x rd Hrun Ek Et Hld Hst Hx
    |s t l k c P kd junk Hrun Ek Hc Et Hld Hkd Hmd Hcpu
    |s t l k ps l' Hrun Ek Hw
    |s t l k l' Hrun Ek Hw
    |s t l k Hrun Ek
    |s id Hun
    |s t Hrun
    |s t cpu cid Hon Hdead Hcpu Hcid Hfree
    |s t Hrun
    |s t x k l' Hrun Ek Hsig
    |s t l x k Hrun Ek Hdone
    |s t l cpu cid Hrun Hreg Ek Hon
    |s t l Hrun Hreg Ek];
    try (destruct (Nat.eq_dec u t) as [-> | Hno];
         [|exists M; cbn [s_thr set_m]; rewrite thr_other by exact Hno; split; [exact Hh|left; split; [reflexivity|intros ps0 E; try discriminate E; try (injection E as E _; congruence)]]]);
    try (destruct (mshape_top _ _ _ _ Hh Ek) as [HA HB]; cbn [x_act x_loc] in HA, HB; try discriminate HA);
    try (cbn [s_thr set_m]; rewrite thr_same).
  - destruct Hc as (i & cpu & code & -> & _ & _). exfalso. destruct HB as [[<- _]|[HB _]]; [exact (Hnw Logic.I)|discriminate HB].
  - exists l'. destruct Hw as (a & cpu & -> & -> & ->). destruct HB as [[<- ->]|[HB _]]; [|discriminate HB].
    split; [exists O; reflexivity|]. right. right. exists (stw g (ptr L) (if a then lb else la)). split; [reflexivity|]. exists a, cpu. auto.
  - destruct HB as [[<- ->]|[HB (h & ->)]].
    + exists l'. split; [exists O; reflexivity|]. right. left. split; [exact Hw|discriminate].
    + subst l. destruct Hw.
  - exists M. split; [exact Hh|]. left. split; [reflexivity|discriminate].
  - exists M. split; [exact Hh|]. left. split; [reflexivity|discriminate].
  - exists M. split; [exact Hh|]. left. split; [reflexivity|discriminate].
  - exists M. split; [|left; split; [reflexivity|discriminate]]. apply mshape_fixup. destruct Hh as [h Hh]. exists h. cbn. destruct (t_reg (s_thr s t)); exact Hh.
  - exists M. split; [|left; split; [reflexivity|discriminate]]. apply mshape_fixup. exact Hh.
  - exists M. split; [|left; split; [reflexivity|discriminate]]. cbn in Hsig. subst l'. destruct (mshape_fixup (s_loaded s) _ _ Hh) as [h E].
    exists (S h). cbn [set_ctx t_ctx]. rewrite E. reflexivity.
  - exists M. split; [|left; split; [reflexivity|discriminate]]. destruct HB as [[_ HB]|[_ (h & HB)]]; [discriminate HB|].
    exists h. exact HB.
  - exists M. split; [exact Hh|]. left. split; [reflexivity|discriminate].
  - exists M. split; [exact Hh|]. left. split; [reflexivity|discriminate].
Qed.

(** ** The invariant *)
Notation T_ := (tso mt_loc).
Definition act (a : bool) : Z := if a then la else lb.
Definition old (a : bool) : Z := if a then lb else la.
Lemma act_old : forall a, act a <> old a.
Proof. intros []; cbn; congruence. Qed.
Lemma old_neg : forall a, old (negb a) = act a.
Proof. intros []; reflexivity. Qed.
Lemma act_in : forall a, In (act a) (bases L).
Proof. intros a. rewrite Hbases. destruct a; cbn; auto. Qed.
Lemma old_in : forall a, In (old a) (bases L).
Proof. intros a. rewrite Hbases. destruct a; cbn; auto. Qed.

(** No thread that runs on one of the CPUs [D] holds anything of list [b]. *)
Definition covered (b : Z) (D : Z -> Prop) (T : T_) : Prop :=
  forall t c d, t <> mg -> t_on (s_thr (o_core T) t) = Some (c, d) -> D c ->
    HF b (s_thr (o_core T) t) /\
    forall ps, In ps (o_buf T t) -> exists b' k v, item_of L b' k /\ b' <> b /\ ps = stw g (node L b' k) v.

Definition at_rest (T : T_) (a : bool) : Prop := o_buf T mg = [] /\ ldw g (s_mem (o_core T)) (ptr L) = act a.
Definition phase (T : T_) (M : mt_loc) : Prop :=
  match M with
  | Mcheck a cpu e => o_mb T mg = None /\ at_rest T a /\ 0 <= cpu < ncpus L /\ covered (old a) (mb_target md cpu) T /\
      ldw g (s_mem (o_core T)) (node L (old a) cpu) = e
  | Mstore a cpu => o_mb T mg = None /\ at_rest T a /\ 0 <= cpu < ncpus L
  | Mwait a cpu => 0 <= cpu < ncpus L /\
      match o_mb T mg with
      | None => at_rest T a \/ (o_buf T mg = [stw g (ptr L) (act a)] /\ ldw g (s_mem (o_core T)) (ptr L) = old a)
      | Some d => at_rest T a /\ covered (old a) (fun c => d c = true) T
      end
  | Mread a cpu => o_mb T mg = None /\ at_rest T a /\ 0 <= cpu < ncpus L /\ covered (old a) (mb_target md cpu) T
  | Mend => o_mb T mg = None /\ o_buf T mg = []
  | _ => False
  end.
Lemma phase_mgr : forall T M, phase T M -> ~ worker_loc M.
Proof. intros T M H Hw. destruct M; try exact Hw; exact H. Qed.

Record OI (T : T_) : Prop := {
  oi_inv : Inv (o_core T);
  oi_li : LI (o_core T);
  oi_mgr : exists M, mshape (s_thr (o_core T) mg) M /\ phase T M;
  oi_wrk : forall t, t <> mg -> wshape (s_thr (o_core T) t);
  oi_mbs : forall t, t <> mg -> o_mb T t = None;
  oi_buf : forall t, t <> mg -> forall ps, In ps (o_buf T t) ->
    exists b k v, item_of L b k /\ idx (t_on (s_thr (o_core T) t)) = Some k /\ ps = stw g (node L b k) v }.

(** The pointer and the lists, as every thread sees them. *)
Lemma flush_nodes : forall b m, (forall ps, In ps b -> exists b k v, item_of L b k /\ ps = stw g (node L b k) v) ->
  lists_set g L m -> lists_set g L (flush m b) /\ ldw g (flush m b) (ptr L) = ldw g m (ptr L).
Proof.
  induction b as [|ps b IH]; intros m Hb Hm; [split; [exact Hm|reflexivity]|]. cbn.
  destruct (Hb ps (or_introl eq_refl)) as (b0 & k & v & Hi & ->).
  destruct (IH (wr m (stw g (node L b0 k) v))) as [H1 H2].
  - intros ps Hps. apply Hb. right. exact Hps.
  - apply lists_node; auto.
  - split; [exact H1|]. unfold flush in *. rewrite H2. apply ldw_stw_other. apply (proj2 (proj1 (proj2 Hlay) b0 k Hi)).
Qed.
Lemma worker_sees : forall T t, OI T -> t <> mg -> lists_set g L (sees T t) /\ ldw g (sees T t) (ptr L) = ldw g (s_mem (o_core T)) (ptr L).
Proof.
  intros T t H Ht. apply flush_nodes; [|apply H]. intros ps Hps. destruct (oi_buf _ H t Ht ps Hps) as (b & k & v & H1 & _ & H2). eauto.
Qed.
Lemma manager_sees : forall T, OI T -> lists_set g L (sees T mg).
Proof.
  intros T H. pose proof (proj1 (oi_li _ H)) as Hl. destruct (oi_mgr _ H) as (M & _ & Hp). unfold sees.
  assert (Hb : o_buf T mg = [] \/ exists a, o_buf T mg = [stw g (ptr L) (act a)]).
  { destruct M as [| |a cpu e|a cpu|a cpu|a cpu| |]; cbn in Hp; try contradiction.
    - left. apply Hp. 
    - left. apply Hp.
    - destruct Hp as [_ Hp]. destruct (o_mb T mg); [left; apply Hp|]. destruct Hp as [Hp|Hp]; [left; apply Hp|right; exists a; apply Hp].
    - left. apply Hp.
    - left. apply Hp. }
  destruct Hb as [-> | (a & ->)]; [exact Hl|]. cbn. apply lists_ptr; [exact Hlay|apply act_in|exact Hl].
Qed.
Lemma any_sees : forall T t, OI T -> lists_set g L (sees T t).
Proof. intros T t H. destruct (Nat.eq_dec t mg) as [-> | Ht]; [apply manager_sees; exact H|apply worker_sees; auto]. Qed.

Lemma covered_same : forall b D T T', covered b D T -> s_thr (o_core T') = s_thr (o_core T) ->
  (forall t ps, t <> mg -> In ps (o_buf T' t) -> In ps (o_buf T t)) -> covered b D T'.
Proof.
  intros b D T T' H E1 E2 t c d Ht Hon Hc. rewrite E1 in *. destruct (H t c d Ht Hon Hc) as [G1 G2]. split; [exact G1|]. intros ps Hps. auto.
Qed.
Lemma covered_mono : forall b (D D' : Z -> Prop) T, (forall c, D' c -> D c) -> covered b D T -> covered b D' T.
Proof. intros b D D' T H HC t c d Ht Hon Hc. exact (HC t c d Ht Hon (H c Hc)). Qed.

Lemma upd_same : forall A (f : nat -> A) t a, upd f t a t = a.
Proof. intros. unfold upd. rewrite Nat.eqb_refl. reflexivity. Qed.
Lemma upd_other : forall A (f : nat -> A) t a u, u <> t -> upd f t a u = f u.
Proof. intros A f t a u H. unfold upd. apply Nat.eqb_neq in H. rewrite H. reflexivity. Qed.
Lemma mshape_ctx : forall th th' M, t_ctx th' = t_ctx th -> mshape th M -> mshape th' M.
Proof. intros th th' M E [h H]. exists h. congruence. Qed.

(** A step of a worker. *)
Lemma covered_step : forall b D T t l s' cb, OI T -> t <> mg -> covered b D T -> ldw g (s_mem (o_core T)) (ptr L) <> b ->
  step g tx cl (set_m (o_core T) (sees T t)) l s' ->
  (forall u, u <> t -> s_thr s' u = s_thr (o_core T) u) -> (forall u ps, l = Lwr u ps -> u = t) ->
  (t_on (s_thr s' t) <> t_on (s_thr (o_core T) t) -> o_buf T t = []) ->
  covered b D {| o_core := set_m s' (s_mem (o_core T)); o_buf := upd (o_buf T) t (o_buf T t ++ wrote l); o_mb := cb |}.
Proof.
  intros b D T t l s' cb H Ht HC Hp Hs Hoth Hl Hon u c d Hu Hc Hd. cbn in *.
  destruct (Nat.eq_dec u t) as [-> | Hut].
  2:{ rewrite Hoth in * by exact Hut. rewrite upd_other by exact Hut. exact (HC u c d Hu Hc Hd). }
  rewrite upd_same. destruct (worker_sees T t H Ht) as [HS1 HS2].
  assert (Hi : Inv (set_m (o_core T) (sees T t))) by (apply inv_mem; apply H).
  assert (HL : LI (set_m (o_core T) (sees T t))) by (split; [exact HS1|apply (oi_li _ H)]).
  assert (Hpp : ldw g (s_mem (set_m (o_core T) (sees T t))) (ptr L) <> b) by (cbn; rewrite HS2; exact Hp).
  assert (Hold : HF b (s_thr (o_core T) t) /\ forall ps, In ps (o_buf T t) -> exists b' k v, item_of L b' k /\ b' <> b /\ ps = stw g (node L b' k) v).
  { destruct (step_on mt_loc g tw tx cl Htx _ l s' t Hi Hs) as [E|[E|E]]; cbn in E.
    - rewrite E in Hc. exact (HC t c d Hu Hc Hd).
    - congruence.
    - split; [intros _ G; congruence|]. rewrite Hon by congruence. intros ps []. }
  destruct Hold as [Hf Hb]. split; [exact (hf_step b t _ l s' Hi HL Hpp Hf Hs)|].
  intros ps Hps. apply in_app_or in Hps. destruct Hps as [Hps|Hps]; [auto|].
  destruct l as [| | |u ps0|]; try destruct Hps. specialize (Hl u ps0 eq_refl). subst u ps0.
  apply (store_fresh b _ t ps s' Hi HL); [apply H; exact Ht|exact Hf|exact Hs]. contradiction.
Qed.

Lemma counter_node : forall m b cpu, lists_set g L m -> item_of L b cpu -> counter g L m b cpu = ldw g m (node L b cpu).
Proof. intros m b cpu [_ H] Hi. unfold counter. rewrite H by exact Hi. reflexivity. Qed.

Lemma oi_step : forall T T', OI T -> ostep g tx cl (mt_ask md) T T' -> OI T'.
Proof.
  intros T T' H Hs. pose proof H as [HI HL (M & HM & HP) HW HMB HB].
  destruct Hs as [T t l s' Hs Hoth Hl Hon Hok|T t ps b Eb|T t l k D l' Hrun Ek Ha Emb Eb|T t d cpu u cid Emb Hu Hdu Ebu|T t d J Emb HJ|T t l k D l' d Hrun Ek Ha Emb Hall].
  - (* a step of a thread *)
    assert (Hi : Inv (set_m (o_core T) (sees T t))) by (apply inv_mem; exact HI).
    assert (HLt : LI (set_m (o_core T) (sees T t))) by (split; [apply any_sees; exact H|apply HL]).
    assert (Hi' : Inv s') by (refine (step_inv mt_loc g tw tx cl Htx _ l s' Hi Hs _); exact Hok).
    pose proof (proj1 (step_li mt_loc g tw tx cl Htx L md Hlay mt_switches _ l s' HLt Hs)) as HL'.
    assert (Hout1 : forall u, u <> mg -> wshape (s_thr s' u)).
    { intros u Hu. refine (wrk_step u _ l s' _ Hs). cbn. apply HW. exact Hu. }
    assert (HLI : LI (set_m s' (s_mem (o_core T)))) by (split; [apply HL|apply HL']).
    destruct (Nat.eq_dec t mg) as [-> | Ht].
    + (* the manager *)
      constructor; cbn [o_core o_buf o_mb].
      * apply inv_mem. exact Hi'.
      * exact HLI.
      * destruct (mgr_step mg M (set_m (o_core T) (sees T mg)) l s' (phase_mgr _ _ HP) HM Hs) as (M' & HM' & HC).
        assert (HCov : forall b D cb ob, covered b D T -> covered b D {| o_core := set_m s' (s_mem (o_core T)); o_buf := upd (o_buf T) mg ob; o_mb := cb |}).
        { intros b D cb ob HC0 u c d Hu Hc Hd. cbn in *. rewrite Hoth in * by exact Hu. rewrite upd_other by exact Hu. exact (HC0 u c d Hu Hc Hd). }
        exists M'. split; [exact HM'|].
        destruct HC as [[-> Hnw]|[[HC Hnw]|(ps & -> & HC)]].
        -- assert (Hwr : wrote l = []) by (destruct l as [| | |u ps|]; try reflexivity; exfalso; rewrite (Hl u ps eq_refl) in Hnw; exact (Hnw ps eq_refl)).
           rewrite Hwr. destruct M as [| |a cpu e|a cpu|a cpu|a cpu| |]; cbn [phase at_rest o_core o_buf o_mb s_mem set_m] in *; try contradiction; rewrite ?upd_same, ?app_nil_r; unfold at_rest in *; cbn [o_core o_buf o_mb s_mem set_m] in *; rewrite ?upd_same, ?app_nil_r.
           ++ destruct HP as (P1 & P2 & P3 & P4 & P5). split; [exact P1|]. split; [exact P2|]. split; [exact P3|]. split; [apply HCov; exact P4|exact P5].
           ++ exact HP.
           ++ destruct HP as [P1 P2]. split; [exact P1|]. destruct (o_mb T mg); [|exact P2]. split; [apply P2|apply HCov; apply P2].
           ++ destruct HP as (P1 & P2 & P3 & P4). split; [exact P1|]. split; [exact P2|]. split; [exact P3|]. apply HCov; exact P4.
           ++ exact HP.
        -- assert (Hwr : wrote l = []) by (destruct l as [| | |u ps|]; try reflexivity; exfalso; rewrite (Hl u ps eq_refl) in Hnw; exact (Hnw ps eq_refl)).
           rewrite Hwr. destruct M as [| |a cpu e|a cpu|a cpu|a cpu| |]; cbn [phase cl_tau mt_client] in HP, HC; try contradiction.
           ++ destruct HP as (P1 & [P2 P2'] & P3 & P4 & P5). destruct HC as [[_ ->]|HC].
              ** cbn. rewrite upd_same, P2. auto.
              ** assert (Hc : counter g L (sees T mg) (if a then lb else la) cpu = e).
                 { rewrite <- P5. cbn. unfold sees. rewrite P2. cbn. apply counter_node; [apply HL|]. split; [apply old_in|exact P3]. }
                 cbn [s_mem set_m] in HC. rewrite Hc, Z.eqb_refl in HC. destruct HC as (cpu' & Hc' & ->). cbn. unfold at_rest. cbn. rewrite upd_same, P2. auto.
           ++ destruct HP as (P1 & [P2 P2'] & P3 & P4). subst M'. cbn. unfold at_rest. cbn. rewrite upd_same, P2. split; [exact P1|]. split; [auto|].
              split; [exact P3|]. split; [apply HCov; exact P4|]. unfold sees. rewrite P2. cbn. symmetry. apply counter_node; [apply HL|]. split; [apply old_in|exact P3].
        -- destruct HC as (a & cpu & -> & -> & ->). destruct HP as (P1 & [P2 P2'] & P3). cbn [phase o_core o_buf o_mb s_mem set_m]. split; [exact P3|]. rewrite P1. right.
           rewrite upd_same, P2. cbn. rewrite P2'. destruct a; auto.
      * exact Hout1.
      * exact HMB.
      * intros u Hu. rewrite upd_other by exact Hu. cbn. rewrite Hoth by exact Hu. apply HB. exact Hu.
    + (* a worker *)
      constructor; cbn [o_core o_buf o_mb].
      * apply inv_mem. exact Hi'.
      * exact HLI.
      * exists M. split; [cbn; rewrite Hoth by auto; exact HM|].
        assert (HCov : forall a D, covered (old a) D T -> ldw g (s_mem (o_core T)) (ptr L) = act a ->
           covered (old a) D {| o_core := set_m s' (s_mem (o_core T)); o_buf := upd (o_buf T) t (o_buf T t ++ wrote l); o_mb := o_mb T |}).
        { intros a D HC0 Ea. apply covered_step; auto. rewrite Ea. apply act_old. }
        destruct M as [| |a cpu e|a cpu|a cpu|a cpu| |]; cbn [phase] in *; try contradiction; unfold at_rest in *; cbn [o_core o_buf o_mb s_mem set_m] in *; rewrite ?upd_other by auto.
        -- destruct HP as (P1 & P2 & P3 & P4 & P5). split; [exact P1|]. split; [exact P2|]. split; [exact P3|]. split; [apply HCov; [exact P4|apply P2]|exact P5].
        -- exact HP.
        -- destruct HP as [P1 P2]. split; [exact P1|]. destruct (o_mb T mg); [|exact P2]. split; [apply P2|]. apply HCov; apply P2.
        -- destruct HP as (P1 & P2 & P3 & P4). split; [exact P1|]. split; [exact P2|]. split; [exact P3|]. apply HCov; [exact P4|apply P2].
        -- exact HP.
      * exact Hout1.
      * exact HMB.
      * intros u Hu. cbn. destruct (Nat.eq_dec u t) as [-> | Hut].
        2:{ rewrite upd_other, Hoth by exact Hut. apply HB. exact Hu. }
        rewrite upd_same. intros ps Hps. apply in_app_or in Hps.
        assert (Hsame : o_buf T t <> [] -> t_on (s_thr s' t) = t_on (s_thr (o_core T) t)).
        { intros Hnb. destruct (step_on mt_loc g tw tx cl Htx _ l s' t Hi Hs) as [E|E]; [exact E|].
          destruct (t_on (s_thr s' t)) as [[c1 d1]|] eqn:E1, (t_on (s_thr (o_core T) t)) as [[c2 d2]|] eqn:E2; try reflexivity.
          - exfalso. cbn in E. rewrite E2 in E. destruct E as [E|E]; discriminate E.
          - exfalso. apply Hnb. apply Hon. discriminate.
          - exfalso. apply Hnb. apply Hon. discriminate. }
        destruct Hps as [Hps|Hps].
        -- rewrite Hsame by (intros E; rewrite E in Hps; exact Hps). apply HB; auto.
        -- destruct l as [| | |u ps0|]; try destruct Hps; [|contradiction]. specialize (Hl u ps0 eq_refl). subst u ps0.
           pose proof (store_frame _ t ps s' Hi HLt (HW t Ht) Hs) as (l0 & k0 & f0 & _ & _ & _ & _ & _ & _ & _ & _ & E).
           rewrite E. cbn [set_ctx t_on]. exact (store_entry _ t ps s' Hi HLt (HW t Ht) Hs).
  - (* a store reaches the memory *)
    destruct (Nat.eq_dec t mg) as [-> | Ht].
    + destruct M as [| |a cpu e|a cpu|a cpu|a cpu| |]; cbn [phase] in HP; try contradiction; unfold at_rest in HP.
      1: destruct HP as (_ & (HP & _) & _); congruence.
      1: destruct HP as (_ & (HP & _) & _); congruence.
      2: destruct HP as (_ & (HP & _) & _); congruence.
      2: destruct HP as (_ & HP); congruence.
      destruct HP as [P1 P2]. destruct (o_mb T mg) as [d|] eqn:Emb; [destruct P2 as [[P2 _] _]; congruence|].
      destruct P2 as [[P2 _]|[P2 P3]]; [congruence|]. rewrite Eb in P2. injection P2 as -> ->.
      constructor; cbn [o_core o_buf o_mb]; auto.
      * split; [|apply HL]. cbn. apply lists_ptr; [exact Hlay|apply act_in|apply HL].
      * exists (Mwait a cpu). split; [exact HM|]. cbn. rewrite Emb. split; [exact P1|]. left. unfold at_rest. cbn. rewrite upd_same. split; [reflexivity|].
        apply ldw_stw. apply (proj1 Hlay). apply act_in.
      * intros u Hu. rewrite upd_other by exact Hu. apply HB. exact Hu.
    + destruct (HB t Ht ps) as (b0 & k0 & v0 & E1 & E2 & E3); [rewrite Eb; left; reflexivity|].
      assert (Hpt : ldw g (wr (s_mem (o_core T)) ps) (ptr L) = ldw g (s_mem (o_core T)) (ptr L)).
      { rewrite E3. apply ldw_stw_other. apply (proj2 (proj1 (proj2 Hlay) b0 k0 E1)). }
      assert (HCov : forall b1 D, covered b1 D T -> covered b1 D {| o_core := set_m (o_core T) (wr (s_mem (o_core T)) ps); o_buf := upd (o_buf T) t b; o_mb := o_mb T |}).
      { intros b1 D HC0. apply (covered_same _ _ T); [exact HC0|reflexivity|]. cbn. intros u qs Hu Hq. destruct (Nat.eq_dec u t) as [-> | Hut].
        - rewrite upd_same in Hq. rewrite Eb. right. exact Hq.
        - rewrite upd_other in Hq by exact Hut. exact Hq. }
      constructor; cbn [o_core o_buf o_mb]; auto.
      * split; [|apply HL]. cbn. rewrite E3. apply lists_node; [exact Hlay|exact E1|apply HL].
      * exists M. split; [exact HM|].
        destruct M as [| |a cpu e|a cpu|a cpu|a cpu| |]; cbn [phase] in *; try contradiction; unfold at_rest in *; cbn [o_core o_buf o_mb s_mem set_m] in *; rewrite ?upd_other by auto; rewrite ?Hpt.
        -- destruct HP as (P1 & P2 & P3 & P4 & P5). split; [exact P1|]. split; [exact P2|]. split; [exact P3|]. split; [apply HCov; exact P4|].
           rewrite <- P5. destruct (t_on (s_thr (o_core T) t)) as [[c d]|] eqn:Eon; [|discriminate E2]. cbn in E2. injection E2 as E2.
           assert (Hdec : mb_target md cpu c \/ k0 <> cpu).
           { destruct md; cbn in *; [|auto]. destruct (Z.eq_dec c cpu); [auto|right; congruence]. }
           destruct Hdec as [HD|HD].
           ++ destruct (proj2 (P4 t c d Ht Eon HD) ps) as (b2 & k2 & v2 & F1 & F2 & F3); [rewrite Eb; left; reflexivity|].
              rewrite F3. apply ldw_stw_other. apply Hlay; [exact F1|split; [apply old_in|exact P3]|auto].
           ++ rewrite E3. apply ldw_stw_other. apply Hlay; [exact E1|split; [apply old_in|exact P3]|auto].
        -- exact HP.
        -- destruct HP as [P1 P2]. split; [exact P1|]. destruct (o_mb T mg); [|exact P2]. split; [apply P2|]. apply HCov; apply P2.
        -- destruct HP as (P1 & P2 & P3 & P4). auto.
        -- exact HP.
      * cbn. intros u Hu qs Hq. destruct (Nat.eq_dec u t) as [-> | Hut].
        -- rewrite upd_same in Hq. apply HB; [exact Hu|]. rewrite Eb. right. exact Hq.
        -- rewrite upd_other in Hq by exact Hut. apply HB; auto.
  - (* sys_membarrier() begins *)
    destruct l as [| | | |a cpu| | |]; try discriminate Ha. assert (Et : t = mg).
    { destruct (Nat.eq_dec t mg) as [E|E]; [exact E|]. pose proof (HW t E) as W. unfold wshape in W. rewrite Ek in W. destruct (Forall_inv W). }
    subst t. destruct (mshape_top _ _ _ _ HM Ek) as [_ [[E _]|[E _]]]; [|discriminate E]. cbn in E. subst M.
    cbn [phase] in HP. destruct HP as [P1 P2]. rewrite Emb in P2. destruct P2 as [P2|[P2 _]]; [|congruence].
    constructor; cbn [o_core o_buf o_mb]; auto.
    + exists (Mwait a cpu). split; [exact HM|]. cbn. rewrite upd_same. split; [exact P1|]. split; [exact P2|]. intros u c d _ _ Hd. discriminate Hd.
    + intros u Hu. rewrite upd_other by exact Hu. auto.
  - (* the kernel deals with a CPU *)
    assert (Et : t = mg) by (destruct (Nat.eq_dec t mg) as [E|E]; [exact E|]; rewrite (HMB t E) in Emb; discriminate Emb). subst t.
    assert (Ew : exists a cpu0, M = Mwait a cpu0).
    { destruct M as [| |a c e|a c|a c|a c| |]; cbn [phase] in HP; try contradiction; try (destruct HP as [HP _]; congruence). eauto. }
    destruct Ew as (a & cpu0 & ->). cbn [phase] in HP. destruct HP as [P1 P2]. rewrite Emb in P2. destruct P2 as [P2 P3].
    assert (HFS : forall v, Forall (on_frame FS) (t_ctx (fixup tx (s_loaded (o_core T)) (s_thr (o_core T) v)))).
    { intros v. apply fixup_ctx; [apply HL|apply (fs_abort g tw tx Htx L md)]. }
    constructor; cbn [o_core o_buf o_mb].
    + apply fixup_inv; [exact Htx|exact HI|exact Hdu].
    + apply li_set; [exact HL|apply HFS].
    + exists (Mwait a cpu0). split.
      * destruct (Nat.eq_dec mg u) as [<- | Hmu]; [rewrite thr_same; apply mshape_fixup; exact HM|rewrite thr_other by exact Hmu; exact HM].
      * cbn. rewrite upd_same. split; [exact P1|]. split; [exact P2|].
        intros t c d0 Ht Hc Hd. cbn [o_core o_buf] in *. destruct (Nat.eq_dec t u) as [-> | Htu].
        -- rewrite thr_same. split; [|rewrite Ebu; intros ps []]. apply fixup_hf; [apply HI|apply HFS].
        -- rewrite thr_other in * by exact Htu. apply (P3 t c d0 Ht Hc).
           destruct (c =? cpu) eqn:Ec; [|exact Hd]. apply Z.eqb_eq in Ec. subst c. exfalso.
           destruct HI as [_ HD]. destruct (HD t u cpu d0 cpu cid Htu Hc Hu). congruence.
    + intros t Ht. destruct (Nat.eq_dec t u) as [-> | Htu]; [rewrite thr_same; apply fixup_wshape; auto|rewrite thr_other by exact Htu; auto].
    + intros t Ht. rewrite upd_other by exact Ht. auto.
    + intros t Ht ps Hps. destruct (Nat.eq_dec t u) as [-> | Htu]; [rewrite Ebu in Hps; destruct Hps|rewrite thr_other by exact Htu; auto].
  - (* CPUs without a thread *)
    assert (Et : t = mg) by (destruct (Nat.eq_dec t mg) as [E|E]; [exact E|]; rewrite (HMB t E) in Emb; discriminate Emb). subst t.
    assert (Ew : exists a cpu0, M = Mwait a cpu0).
    { destruct M as [| |a c e|a c|a c|a c| |]; cbn [phase] in HP; try contradiction; try (destruct HP as [HP _]; congruence). eauto. }
    destruct Ew as (a & cpu0 & ->). cbn [phase] in HP. destruct HP as [P1 P2]. rewrite Emb in P2. destruct P2 as [P2 P3].
    constructor; cbn [o_core o_buf o_mb]; auto.
    + exists (Mwait a cpu0). split; [exact HM|]. cbn. rewrite upd_same. split; [exact P1|]. split; [exact P2|].
      intros t c d0 Ht Hc Hd. apply (P3 t c d0 Ht Hc). cbn in Hc. destruct (J c) eqn:Ec; [|exact Hd]. exfalso. exact (HJ c t d0 Ec Hc).
    + intros u Hu. rewrite upd_other by exact Hu. auto.
  - (* sys_membarrier() returns *)
    assert (Et : t = mg) by (destruct (Nat.eq_dec t mg) as [E|E]; [exact E|]; rewrite (HMB t E) in Emb; discriminate Emb). subst t.
    destruct l as [| | | |a cpu| | |]; try discriminate Ha. cbn in Ha. injection Ha as <- <-.
    destruct (mshape_top _ _ _ _ HM Ek) as [_ [[E ->]|[E _]]]; [|discriminate E]. cbn in E. subst M.
    cbn [phase] in HP. destruct HP as [P1 P2]. rewrite Emb in P2. destruct P2 as [P2 P3].
    constructor; cbn [o_core o_buf o_mb].
    + apply inv_set; [exact HI| |left; reflexivity]. eapply ti_top'; [apply HI|exact Ek|apply no_frame|intros _; apply no_frame|intros _ _; apply no_frame].
    + apply li_set; [exact HL|]. cbn [set_ctx t_ctx]. constructor; [apply no_frame|constructor].
    + exists (Mread a cpu). split; [rewrite thr_same; exists O; reflexivity|]. cbn. rewrite upd_same. split; [reflexivity|]. split; [exact P2|]. split; [exact P1|].
      intros t c d0 Ht Hc Hd. cbn [o_core o_buf] in *. rewrite thr_other in * by exact Ht. exact (P3 t c d0 Ht Hc (Hall c Hd)).
    + intros t Ht. rewrite thr_other by exact Ht. auto.
    + intros t Ht. rewrite upd_other by exact Ht. auto.
    + intros t Ht ps Hps. rewrite thr_other by exact Ht. auto.
Qed.
End Tso.
