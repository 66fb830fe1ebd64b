(** The accesses of the helpers to per-CPU data are ordered (C52): proofs. *)
From Coq Require Import ZArith Bool List Lia Arith.
From Verif Require Import RseqIR RseqSpec RseqKernel RseqSafe RseqProps MemLemmas RunLemmas RseqSim RseqCalls RseqMisc.
From Verif Require Import Archs ArchsGood RaceSpec.
Import ListNotations.
Local Open Scope Z_scope.
Arguments touches {Loc} _ _ _ _ _ _ _.
Arguments holds {Loc} _ _ _ _.
Arguments switched {Loc} _ _ _ _ _ _ _ _ _ _.

(** ** Where the instructions that access memory are *)
Definition is_access (i : instr) : bool :=
  match i with ILd _ _ | ISt _ _ _ | ILdB _ _ | IStB _ _ | IAddM _ _ | ICmpM _ _ => true | _ => false end.
Definition placed (P : program) : bool :=
  forallb (fun n => match nth_error (code P) n with
                    | Some i => if is_access i then Nat.ltb (check_pc P) n && Nat.ltb n (cs_commit P) else true
                    | None => true end) (seq 0 (length (code P))).
Definition all_placed : bool :=
  forallb (fun a => forallb (fun tw => forallb (fun rel => forallb (fun md => forallb (fun kd =>
    match helper a tw rel md kd with Some P => placed P | None => true end)
    [KCbneStore; KAddStore; KPop; KAddLoadLoad; KCbne2; KStoreStore; KMemcpy]) [CPU_ID; MM_CID]) [true; false]) [true; false])
    [X86_64; I386; AARCH64; ARM; LOONGARCH; MIPS; PPC; RISCV; S390].
Lemma all_placed_true : all_placed = true.
Proof. vm_compute. reflexivity. Qed.
Lemma helper_placed : forall a tw rel md kd P, helper a tw rel md kd = Some P -> placed P = true.
Proof.
  intros a tw rel md kd P H. pose proof all_placed_true as HA. unfold all_placed in HA.
  rewrite forallb_forall in HA. assert (Ia : In a [X86_64; I386; AARCH64; ARM; LOONGARCH; MIPS; PPC; RISCV; S390]) by (destruct a; cbn; tauto).
  specialize (HA a Ia). cbv beta in HA. rewrite forallb_forall in HA.
  assert (It : In tw [true; false]) by (destruct tw; cbn; tauto). specialize (HA tw It). cbv beta in HA. rewrite forallb_forall in HA.
  assert (Ir : In rel [true; false]) by (destruct rel; cbn; tauto). specialize (HA rel Ir). cbv beta in HA. rewrite forallb_forall in HA.
  assert (Im : In md [CPU_ID; MM_CID]) by (destruct md; cbn; tauto). specialize (HA md Im). cbv beta in HA. rewrite forallb_forall in HA.
  assert (Ik : In kd [KCbneStore; KAddStore; KPop; KAddLoadLoad; KCbne2; KStoreStore; KMemcpy]) by (destruct kd; cbn; tauto).
  specialize (HA kd Ik). cbv beta in HA. rewrite H in HA. exact HA.
Qed.
Lemma access_placed : forall g P m idx pc rs pc' rs' e rd, placed P = true -> istep g P m idx pc rs = Some (pc', rs', e, rd) ->
  (exists ps, e = EWr ps) \/ rd <> [] -> (check_pc P < pc < cs_commit P)%nat.
Proof.
  intros g P m idx pc rs pc' rs' e rd Hp Hs Ha. unfold istep in Hs. destruct (nth_error (code P) pc) as [i|] eqn:E; [|discriminate Hs].
  unfold placed in Hp. rewrite forallb_forall in Hp. specialize (Hp pc). rewrite E in Hp.
  assert (Hb : In pc (seq 0 (length (code P)))). { apply List.in_seq. apply nth_error_Some_lt in E || (assert (pc < length (code P))%nat by (apply nth_error_Some; congruence)); lia. }
  specialize (Hp Hb). assert (Hi : is_access i = true).
  { destruct i; try reflexivity; try discriminate Hs; injection Hs as <- <- <- <-; destruct Ha as [[ps Ha]|Ha]; try discriminate Ha; congruence. }
  rewrite Hi in Hp. apply andb_prop in Hp. destruct Hp as [H1 H2]. apply Nat.ltb_lt in H1, H2. lia.
Qed.

(** ** Who runs where *)
Lemma fixup_on : forall Loc tx ld (th : thread Loc), t_on (fixup tx ld th) = t_on th \/ t_on (fixup tx ld th) = None.
Proof.
  intros Loc tx ld th. unfold fixup. destruct (negb (t_reg th)); auto. destruct (rseq_cs (t_area th)); auto.
  destruct (if ld n then tx n else None) as [[P kd]|]; [|right; reflexivity].
  destruct (negb (desc_ok P)); [right; reflexivity|]. left. destruct (t_ctx th) as [|[l [f|]] k]; try reflexivity.
  destruct (_ && _); reflexivity.
Qed.

Section Run.
Variables (Loc : Type) (g : cfg) (a : arch) (tw : bool) (tx : text) (cl : client Loc) (s0 : state Loc).
Hypothesis Htx : lib_text a tw tx.
Hypothesis Hinit : initial s0.
Hypothesis Hclient : safe_client g cl (abs_init s0).
Let Hgood : good_text g tx := lib_good g a tw tx Htx.

Lemma step_on : forall s l s', step g tx cl s l s' ->
  exists t, (forall u, u <> t -> s_thr s' u = s_thr s u) /\
    (t_on (s_thr s' t) = t_on (s_thr s t) \/ t_on (s_thr s' t) = None \/ t_on (s_thr s t) = None).
Proof.
  intros s l s' Hs.
  assert (Hk : forall (s1 : state Loc) t th', s_thr s1 = (fun u => if Nat.eqb u t then th' else s_thr s u) ->
     (t_on th' = t_on (s_thr s t) \/ t_on th' = None \/ t_on (s_thr s t) = None) ->
     exists t, (forall u, u <> t -> s_thr s1 u = s_thr s u) /\
       (t_on (s_thr s1 t) = t_on (s_thr s t) \/ t_on (s_thr s1 t) = None \/ t_on (s_thr s t) = None)).
  { intros s1 t th' E Ho. exists t. rewrite E. split; [|now rewrite Nat.eqb_refl].
    intros u Hu. destruct (Nat.eqb_spec u t); [contradiction|reflexivity]. }
  destruct Hs; try (eapply (Hk _ t); [reflexivity|]); cbn [t_on set_ctx set_cs set_area set_on kill]; auto.
  - destruct e; auto.
  - exists O. cbn. auto.
  - destruct (fixup_on _ tx (s_loaded s) (s_thr s t)) as [E|E]; rewrite E; auto.
  - destruct (fixup_on _ tx (s_loaded s) (s_thr s t)) as [E|E]; rewrite E; auto.
Qed.

Lemma flip : forall (Q : state Loc -> bool) s tr s', path g tx cl s tr s' -> Q s = true -> Q s' = false ->
  exists A sp lp sp' B, tr = A ++ (sp, lp) :: B /\ path g tx cl s A sp /\ step g tx cl sp lp sp' /\ path g tx cl sp' B s' /\
    Q sp = true /\ Q sp' = false.
Proof.
  intros Q s tr s' Hp. induction Hp as [s|s tr s' l s'' Hp IH Hs Hok]; intros H1 H2; [congruence|].
  destruct (Q s') eqn:E.
  - exists tr, s', l, s'', []. repeat split; auto. apply path_nil.
  - destruct (IH H1 eq_refl) as (A & sp & lp & sp' & B & -> & P1 & P2 & P3 & P4 & P5).
    exists A, sp, lp, sp', (B ++ [(s', l)]). rewrite <- app_assoc. repeat split; auto. eapply path_snoc; eauto.
Qed.
Lemma exec_path : forall s tr s', path g tx cl s tr s' -> forall ls, exec g tx cl s0 ls s -> exists ls', exec g tx cl s0 ls' s'.
Proof.
  intros s tr s' Hp. induction Hp as [s|s tr s' l s'' Hp IH Hs Hok]; intros ls He; [eauto|].
  destruct (IH ls He) as [ls' He']. eexists. eapply exec_snoc; eauto.
Qed.

Definition holdsb (s : state Loc) (md : imode) (i : Z) (t : nat) : bool :=
  match on_index (t_on (s_thr s t)) md with Some j => j =? i | None => false end.
Lemma holdsb_ok : forall s md i t, holdsb s md i t = true <-> holds s md i t.
Proof.
  intros s md i t. unfold holdsb, holds. destruct (on_index _ md) as [j|]; [|split; discriminate].
  rewrite Z.eqb_eq. split; [intros ->; auto|congruence].
Qed.

Lemma one_holder : forall ls s md i t u, exec g tx cl s0 ls s -> holds s md i t -> holds s md i u -> t = u.
Proof.
  intros ls s md i t u He H1 H2. destruct (Nat.eq_dec t u) as [|Hn]; auto. exfalso.
  destruct (exec_tied Loc g tx cl Hgood s0 Hinit Hclient _ _ He) as (b & _ & (_ & _ & Hex)). unfold holds in *.
  destruct (t_on (s_thr s t)) as [[c1 d1]|] eqn:E1; [|discriminate]. destruct (t_on (s_thr s u)) as [[c2 d2]|] eqn:E2; [|discriminate].
  destruct (Hex t u c1 d1 c2 d2 Hn E1 E2). cbn in *. destruct md; congruence.
Qed.

Lemma switch : forall ls s1 tr s2 md i t u, exec g tx cl s0 ls s1 -> path g tx cl s1 tr s2 -> t <> u ->
  holds s1 md i t -> holds s2 md i u -> switched g tx cl s1 tr s2 md i t u.
Proof.
  intros ls s1 tr s2 md i t u He Hp Hn H1 H2.
  destruct (exec_path _ _ _ Hp _ He) as [ls2 He2].
  destruct (flip (fun s => holdsb s md i t) s1 tr s2 Hp) as (A & sp & lp & sp' & B & -> & PA & Sp & PB & Q1 & Q2).
  { now apply holdsb_ok. }
  { destruct (holdsb s2 md i t) eqn:E; auto. exfalso. apply holdsb_ok in E. apply Hn. exact (one_holder _ _ _ _ _ _ He2 E H2). }
  destruct (exec_path _ _ _ PA _ He) as [lsp Hep].
  destruct (step_on _ _ _ Sp) as (v & Hv & Ho).
  assert (v = t). { destruct (Nat.eq_dec v t) as [|Hne]; auto. exfalso. unfold holdsb in Q1, Q2. rewrite (Hv t) in Q2 by auto. congruence. }
  subst v. apply holdsb_ok in Q1.
  assert (E1 : t_on (s_thr sp' t) = None).
  { destruct Ho as [Ho|[Ho|Ho]]; auto; exfalso.
    - unfold holds in Q1. unfold holdsb in Q2. rewrite Ho, Q1, Z.eqb_refl in Q2. discriminate Q2.
    - unfold holds in Q1. rewrite Ho in Q1. discriminate Q1. }
  assert (Qu : holdsb sp' md i u = false).
  { destruct (holdsb sp' md i u) eqn:E; auto. exfalso. unfold holdsb in E. rewrite (Hv u) in E by auto.
    apply Hn. apply (one_holder _ _ md i t u Hep Q1). now apply holdsb_ok. }
  destruct (flip (fun s => negb (holdsb s md i u)) sp' B s2 PB) as (C & sr & lr & sr' & D & -> & PC & Sr & PD & R1 & R2).
  { now rewrite Qu. }
  { apply holdsb_ok in H2. now rewrite H2. }
  apply negb_true_iff in R1. apply negb_false_iff in R2.
  destruct (step_on _ _ _ Sr) as (v & Hw & Ho2).
  assert (v = u). { destruct (Nat.eq_dec v u) as [|Hne]; auto. exfalso. unfold holdsb in R1, R2. rewrite (Hw u) in R2 by auto. congruence. }
  subst v. apply holdsb_ok in R2.
  exists A, sp, lp, sp', C, sr, lr, sr', D. repeat (split; auto).
  destruct Ho2 as [Ho2|[Ho2|Ho2]]; auto; exfalso.
  - unfold holds in R2. unfold holdsb in R1. rewrite <- Ho2, R2, Z.eqb_refl in R1. discriminate R1.
  - unfold holds in R2. rewrite Ho2 in R2. discriminate R2.
Qed.

Lemma touch_right : forall ls s t c w x, exec g tx cl s0 ls s -> touches g tx s t c w x -> runs_on s t c.
Proof.
  intros ls s t c w x He (Hr & l & f & k & P & kd & pc' & rs' & e & rd & H1 & H2 & H3 & H4 & H5).
  destruct (Htx _ _ _ H3) as (rel & md & Hh).
  eapply (window_right Loc g tx cl Hgood s0 Hinit Hclient _ _ _ _ He Hr).
  exists l, f, k, P, kd. repeat split; auto; eapply access_placed; eauto using helper_placed;
    (destruct w; [destruct H5 as (ps & -> & _); eauto|right; intros ->; destruct H5]).
Qed.

Lemma ordered : forall ls s1 tr s2 t u c d w w' x y, exec g tx cl s0 ls s1 -> path g tx cl s1 tr s2 -> t <> u ->
  touches g tx s1 t c w x -> touches g tx s2 u d w' y -> c_mode c = c_mode d -> c_cpu c = c_cpu d ->
  switched g tx cl s1 tr s2 (c_mode c) (c_cpu c) t u.
Proof.
  intros ls s1 tr s2 t u c d w w' x y He Hp Hn H1 H2 Em Ec. destruct (exec_path _ _ _ Hp _ He) as [ls2 He2].
  apply (switch ls); auto.
  - apply (touch_right _ _ _ _ _ _ He H1).
  - unfold holds. rewrite Em, Ec. apply (touch_right _ _ _ _ _ _ He2 H2).
Qed.
End Run.
