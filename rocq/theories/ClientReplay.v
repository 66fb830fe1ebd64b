(** Executing given runs of the clients of ClientModel.v, to exhibit concrete
    cases: as Replay.v, for any client whose choices are given. *)
From Coq Require Import ZArith Bool List Lia.
From Verif Require Import RseqIR RseqSpec RseqKernel RseqSafe MemLemmas RunLemmas RseqSim RseqOwn RseqCalls RseqProps.
From Verif Require Import Replay ExRseq Archs ArchsGood.
Import ListNotations.
Local Open Scope Z_scope.

Section CReplay.
Variable Loc : Type.
Variable cl : client Loc.

(** A way to resolve the choices of the client: which call it makes, its next
    internal step given a number, its next store, the local state of its signal
    handler, and whether a handler is done. *)
Record player := {
  pl_call : Loc -> mem -> option call;
  pl_tau : Loc -> mem -> Z -> option Loc;
  pl_write : Loc -> mem -> option (list (Z * Z) * Loc);
  pl_sig : Loc -> option Loc;
  pl_done : Loc -> bool }.

Definition plays (p : player) : Prop :=
  (forall l m c, pl_call p l m = Some c -> cl_call _ cl l m c) /\
  (forall l m z l', pl_tau p l m z = Some l' -> cl_tau _ cl l m l') /\
  (forall l m ps l', pl_write p l m = Some (ps, l') -> cl_write _ cl l m ps l') /\
  (forall l l', pl_sig p l = Some l' -> cl_sig _ cl l l') /\
  (forall l, pl_done p l = true -> cl_done _ cl l).

Inductive cact :=
  | CInstr (t : nat) | CCall (t : nat) | CTau (t : nat) (z : Z) | CWrite (t : nat)
  | CPreempt (t : nat) | CResume (t : nat) (cpu : Z) | CSignal (t : nat) | CSigret (t : nat).

Variables (g : cfg) (tx : text) (n : nat) (p : player).
Hypothesis Hp : plays p.
Let state := RseqKernel.state Loc.

Definition onb (s : state) (t : nat) : bool :=
  Nat.ltb t n && match t_on (s_thr s t) with Some _ => negb (t_dead (s_thr s t)) | None => false end.
Definition cfreeb (s : state) (t : nat) (cpu cid : Z) : bool :=
  forallb (fun u => Nat.eqb u t ||
    match t_on (s_thr s u) with Some (c, d) => negb (c =? cpu) && negb (d =? cid) | None => true end) (seq 0 n).

(** mm_cid is the CPU number in these runs. *)
Definition cdo1 (s : state) (a : cact) : option (clabel * state) :=
  match a with
  | CInstr t =>
    if negb (onb s t) then None else
    match t_ctx (s_thr s t) with
    | {| x_loc := l; x_act := Some f |} :: k =>
      match tx (c_code (f_call f)), s_loaded s (c_code (f_call f)) with
      | Some (P, _), true =>
        match istep g P (s_mem s) (index (t_area (s_thr s t)) (pmode P)) (f_pc f) (f_rs f) with
        | Some (pc', rs', ENone, _) =>
          Some (Ltau, set_t s t (set_ctx (s_thr s t)
             ({| x_loc := l; x_act := Some {| f_call := f_call f; f_pc := pc'; f_rs := rs' |} |} :: k)))
        | Some (pc', rs', ECs, _) =>
          Some (Ltau, set_t s t (set_ctx (set_cs (s_thr s t) (Some (c_code (f_call f))))
             ({| x_loc := l; x_act := Some {| f_call := f_call f; f_pc := pc'; f_rs := rs' |} |} :: k)))
        | Some (pc', rs', EWr ps, _) =>
          Some (Lwr t ps, set_m (set_t s t (set_ctx (s_thr s t)
             ({| x_loc := l; x_act := Some {| f_call := f_call f; f_pc := pc'; f_rs := rs' |} |} :: k)))
             (wr (s_mem s) ps))
        | Some (pc', rs', EExit x, _) =>
          match exit_ret x with
          | Some r => Some (Lret t (f_call f) r,
              set_t s t (set_ctx (s_thr s t) ({| x_loc := cl_ret _ cl l (f_call f) r; x_act := None |} :: k)))
          | None => None
          end
        | None => None
        end
      | _, _ => None
      end
    | _ => None
    end
  | CCall t =>
    if negb (onb s t) then None else
    match t_ctx (s_thr s t) with
    | {| x_loc := l; x_act := None |} :: k =>
      match pl_call p l (s_mem s) with
      | Some c =>
        match tx (c_code c), s_loaded s (c_code c) with
        | Some (P, kd), true =>
          if kind_eqb kd (kind_of (c_op c)) && mode_eqb (pmode P) (c_mode c) &&
             (- 2 ^ 31 <=? c_cpu c) && (c_cpu c <? 2 ^ 31) && t_reg (s_thr s t)
          then Some (Lcall t c, set_t s t (set_ctx (s_thr s t)
            ({| x_loc := l; x_act := Some {| f_call := c; f_pc := 0; f_rs := init_regs c junk0 |} |} :: k)))
          else None
        | _, _ => None
        end
      | None => None
      end
    | _ => None
    end
  | CTau t z =>
    if negb (onb s t) then None else
    match t_ctx (s_thr s t) with
    | {| x_loc := l; x_act := None |} :: k =>
      match pl_tau p l (s_mem s) z with
      | Some l' => Some (Ltau, set_t s t (set_ctx (s_thr s t) ({| x_loc := l'; x_act := None |} :: k)))
      | None => None
      end
    | _ => None
    end
  | CWrite t =>
    if negb (onb s t) then None else
    match t_ctx (s_thr s t) with
    | {| x_loc := l; x_act := None |} :: k =>
      match pl_write p l (s_mem s) with
      | Some (ps, l') => Some (Lwr t ps, set_m (set_t s t (set_ctx (s_thr s t) ({| x_loc := l'; x_act := None |} :: k)))
           (wr (s_mem s) ps))
      | None => None
      end
    | _ => None
    end
  | CPreempt t =>
    if negb (onb s t) then None else Some (Ltau, set_t s t (set_on (s_thr s t) None))
  | CResume t cpu =>
    if Nat.ltb t n && match t_on (s_thr s t) with None => negb (t_dead (s_thr s t)) | Some _ => false end &&
       (0 <=? cpu) && (cpu <? 2 ^ 31) && cfreeb s t cpu cpu
    then Some (Ltau, set_t s t
          (let th := set_on (s_thr s t) (Some (cpu, cpu)) in
           let th := if t_reg th
                     then set_area th {| rseq_cs := rseq_cs (t_area th);
                                         cpu_field := cpu; cid_field := cpu |}
                     else th in
           fixup tx (s_loaded s) th))
    else None
  | CSignal t =>
    if negb (onb s t) then None else
    match t_ctx (s_thr s t) with
    | x :: k => match pl_sig p (x_loc x) with
      | Some l' => Some (Ltau, set_t s t
          (let th := fixup tx (s_loaded s) (s_thr s t) in
           set_ctx th ({| x_loc := l'; x_act := None |} :: t_ctx th)))
      | None => None
      end
    | [] => None
    end
  | CSigret t =>
    if negb (onb s t) then None else
    match t_ctx (s_thr s t) with
    | {| x_loc := l; x_act := None |} :: x :: k =>
      if pl_done p l then Some (Ltau, set_t s t (set_ctx (s_thr s t) (x :: k))) else None
    | _ => None
    end
  end.

(** Threads from [n] on do nothing. *)
Variable others : nat -> thread Loc.
Hypothesis Hoth : forall t, t_on (others t) = None.
Definition stays (s : state) : Prop := forall t, (n <= t)%nat -> s_thr s t = others t.

Lemma onb_ok : forall s t, onb s t = true -> running (s_thr s t) /\ (t < n)%nat.
Proof.
  intros s t H. unfold onb in H. apply andb_true_iff in H. destruct H as [H1 H]. apply Nat.ltb_lt in H1.
  split; auto. unfold running. destruct (t_on (s_thr s t)); [|discriminate].
  split; [discriminate|]. destruct (t_dead (s_thr s t)); auto; discriminate.
Qed.
Lemma stays_set : forall s t th', stays s -> (t < n)%nat -> stays (set_t s t th').
Proof. intros s t th' H Ht u Hu. rewrite set_t_other by lia. auto. Qed.
Lemma stays_setm : forall s m, stays s -> stays (set_m s m).
Proof. intros s m H u Hu. apply (H u Hu). Qed.

Lemma cfreeb_ok : forall s t cpu cid, stays s -> cfreeb s t cpu cid = true -> cpu_free s t cpu cid.
Proof.
  intros s t cpu cid Hq H u c d Hu E. destruct (lt_dec u n) as [Hlt|Hge].
  - unfold cfreeb in H. rewrite forallb_forall in H. specialize (H u).
    rewrite List.in_seq in H. specialize (H ltac:(lia)). rewrite E in H. apply orb_true_iff in H.
    destruct H as [H|H]; [apply Nat.eqb_eq in H; congruence|].
    apply andb_true_iff in H. destruct H as [H1 H2]. apply negb_true_iff in H1, H2.
    apply Z.eqb_neq in H1, H2. auto.
  - rewrite (Hq u ltac:(lia)), Hoth in E. discriminate.
Qed.

Lemma cdo1_ok : forall s a l s', cdo1 s a = Some (l, s') -> stays s ->
  step g tx cl s l s' /\ stays s' /\ call_ok s l.
Proof.
  destruct Hp as (P1 & P2 & P3 & P4 & P5).
  intros s a l s' H Hq.
  assert (Hg : forall t (X : option (clabel * state)),
     (if negb (onb s t) then None else X) = Some (l, s') ->
     (t < n)%nat /\ running (s_thr s t) /\ X = Some (l, s')).
  { intros t X HX. destruct (onb s t) eqn:E; [|discriminate]. apply onb_ok in E. tauto. }
  destruct a; cbn [cdo1] in H.
  - destruct (Hg _ _ H) as (Ht & Hr & H1). clear H Hg.
    destruct (t_ctx (s_thr s t)) as [|[lo [f|]] k] eqn:Ek; try discriminate.
    destruct (tx (c_code (f_call f))) as [[P kd]|] eqn:Etx; [|discriminate].
    destruct (s_loaded s (c_code (f_call f))) eqn:Eld; [|discriminate].
    destruct (istep g P (s_mem s) (index (t_area (s_thr s t)) (pmode P)) (f_pc f) (f_rs f))
      as [[[[pc' rs'] e] rd]|] eqn:Ei; [|discriminate].
    destruct e as [|ps| |x].
    + inversion H1; subst. split; [|split; [apply stays_set; auto|exact Logic.I]].
      eapply (S_instr Loc g tx cl s t lo k f P kd pc' rs' ENone rd); eauto.
    + inversion H1; subst. split; [|split; [apply stays_setm, stays_set; auto|exact Logic.I]].
      eapply (S_store Loc g tx cl s t lo k f P kd pc' rs' ps rd); eauto.
    + inversion H1; subst. split; [|split; [apply stays_set; auto|exact Logic.I]].
      eapply (S_instr Loc g tx cl s t lo k f P kd pc' rs' ECs rd); eauto.
    + destruct (exit_ret x) as [r|] eqn:Ex; [|discriminate].
      inversion H1; subst. split; [|split; [apply stays_set; auto|exact Logic.I]].
      eapply (S_return Loc g tx cl s t lo k f P kd pc' rs' x rd r); eauto.
  - destruct (Hg _ _ H) as (Ht & Hr & H1). clear H Hg.
    destruct (t_ctx (s_thr s t)) as [|[lo [f|]] k] eqn:Ek; try discriminate.
    destruct (pl_call p lo (s_mem s)) as [c|] eqn:Ec; [|discriminate].
    destruct (tx (c_code c)) as [[P kd]|] eqn:Etx; [|discriminate].
    destruct (s_loaded s (c_code c)) eqn:Eld; [|discriminate].
    destruct (kind_eqb kd (kind_of (c_op c)) && mode_eqb (pmode P) (c_mode c) &&
           (- 2 ^ 31 <=? c_cpu c) && (c_cpu c <? 2 ^ 31) && t_reg (s_thr s t)) eqn:E; [|discriminate].
    repeat rewrite andb_true_iff in E. destruct E as ((((E1 & E2) & E3) & E4) & E5).
    inversion H1; subst. split; [|split; [apply stays_set; auto|left; auto]].
    eapply (S_call Loc g tx cl s t lo k c P kd junk0); eauto.
    + destruct kd, (kind_of (c_op c)); try discriminate; auto.
    + destruct (pmode P), (c_mode c); try discriminate; auto.
    + apply Z.leb_le in E3. apply Z.ltb_lt in E4. lia.
  - destruct (Hg _ _ H) as (Ht & Hr & H1). destruct (t_ctx (s_thr s t)) as [|[lo [f|]] k] eqn:Ek; try discriminate.
    destruct (pl_tau p lo (s_mem s) z) as [l'|] eqn:El; [|discriminate].
    inversion H1; subst. split; [|split; [apply stays_set; auto|exact Logic.I]]. eapply S_local; eauto.
  - destruct (Hg _ _ H) as (Ht & Hr & H1). destruct (t_ctx (s_thr s t)) as [|[lo [f|]] k] eqn:Ek; try discriminate.
    destruct (pl_write p lo (s_mem s)) as [[ps l']|] eqn:El; [|discriminate].
    inversion H1; subst. split; [|split; [apply stays_setm, stays_set; auto|exact Logic.I]]. eapply S_write; eauto.
  - destruct (Hg _ _ H) as (Ht & Hr & H1). inversion H1; subst.
    split; [apply S_preempt; auto|split; [apply stays_set; auto|exact Logic.I]].
  - destruct (Nat.ltb t n && _ && _ && _ && _) eqn:E; [|discriminate].
    repeat rewrite andb_true_iff in E. destruct E as ((((E1 & E2) & E3) & E4) & E7).
    apply Nat.ltb_lt in E1. apply Z.leb_le in E3. apply Z.ltb_lt in E4.
    inversion H; subst. split; [|split; [apply stays_set; auto|exact Logic.I]]. apply S_resume; try lia; auto.
    + destruct (t_on (s_thr s t)); auto; discriminate.
    + destruct (t_on (s_thr s t)); try discriminate. destruct (t_dead (s_thr s t)); auto; discriminate.
    + apply cfreeb_ok; auto.
  - destruct (Hg _ _ H) as (Ht & Hr & H1). destruct (t_ctx (s_thr s t)) as [|x k] eqn:Ek; [discriminate|].
    destruct (pl_sig p (x_loc x)) as [l'|] eqn:El; [|discriminate].
    inversion H1; subst. split; [eapply S_signal; eauto|split; [apply stays_set; auto|exact Logic.I]].
  - destruct (Hg _ _ H) as (Ht & Hr & H1).
    destruct (t_ctx (s_thr s t)) as [|[lo [f|]] [|x k]] eqn:Ek; try discriminate.
    destruct (pl_done p lo) eqn:Ed; [|discriminate].
    inversion H1; subst. split; [eapply S_sigret; eauto|split; [apply stays_set; auto|exact Logic.I]].
Qed.

(** [CInstr] of a thread that is not in a helper is skipped. *)
Definition skipb (s : state) (a : cact) : bool :=
  match a with
  | CInstr t => match t_ctx (s_thr s t) with {| x_act := None |} :: _ => true | _ => false end
  | _ => false
  end.
Fixpoint creplay (s : state) (acts : list cact) : option (list (state * clabel) * state) :=
  match acts with
  | [] => Some ([], s)
  | a :: acts =>
    if skipb s a then creplay s acts else
    match cdo1 s a with
    | Some (l, s1) => match creplay s1 acts with Some (tr, s2) => Some ((s, l) :: tr, s2) | None => None end
    | None => None
    end
  end.

Lemma cpath_app : forall s tr s', path g tx cl s tr s' -> forall tr' s'',
  path g tx cl s' tr' s'' -> path g tx cl s (tr ++ tr') s''.
Proof.
  intros s tr s' H tr' s'' H'. induction H'.
  - rewrite app_nil_r. auto.
  - rewrite app_assoc. econstructor; eauto.
Qed.

Lemma creplay_path : forall acts s tr s', creplay s acts = Some (tr, s') -> stays s ->
  path g tx cl s tr s' /\ stays s'.
Proof.
  induction acts as [|a acts IH]; cbn [creplay]; intros s tr s' H Hq.
  - inversion H; subst. split; auto. constructor.
  - destruct (skipb s a); [eauto|]. destruct (cdo1 s a) as [[l s1]|] eqn:E; [|discriminate].
    destruct (creplay s1 acts) as [[tr1 s2]|] eqn:Er; [|discriminate].
    inversion H; subst. destruct (cdo1_ok _ _ _ _ E Hq) as (H1 & H2 & H5).
    destruct (IH _ _ _ Er H2) as [H3 H4]. split; auto.
    change ((s, l) :: tr1) with ([(s, l)] ++ tr1). eapply cpath_app; eauto.
    change [(s, l)] with ([] ++ [(s, l)]). econstructor; [constructor|exact H1|exact H5].
Qed.

(** A run that ends in a state with the (decidable) property [f]. *)
Definition ends (s : state) (acts : list cact) (f : list (state * clabel) -> state -> bool) : bool :=
  match creplay s acts with Some (tr, s') => f tr s' | None => false end.
Lemma ends_path : forall s acts f, ends s acts f = true -> stays s ->
  exists tr s', path g tx cl s tr s' /\ stays s' /\ f tr s' = true.
Proof.
  intros s acts f H Hq. unfold ends in H. destruct (creplay s acts) as [[tr s']|] eqn:E; [|discriminate].
  destruct (creplay_path _ _ _ _ E Hq) as [H1 H2]. eauto.
Qed.
End CReplay.

Arguments pl_call {Loc}. Arguments pl_tau {Loc}. Arguments pl_write {Loc}. Arguments pl_sig {Loc}. Arguments pl_done {Loc}.
Arguments plays {Loc}. Arguments ends {Loc}. Arguments stays {Loc}. Arguments creplay {Loc}.

(** ** Two threads, both registered, thread 0 on CPU 0 and thread 1 on CPU 1;
    every thread starts in a given local state, all other threads do not run. *)
Section CStart.
Context {Loc : Type}.
Definition idle_thread (l : Loc) (on : option (Z * Z)) : thread Loc :=
  {| t_area := {| rseq_cs := None;
                  cpu_field := match on with Some (c, _) => c | None => 0 end;
                  cid_field := match on with Some (_, d) => d | None => 0 end |};
     t_reg := true; t_on := on; t_ctx := [{| x_loc := l; x_act := None |}]; t_dead := false |}.
Definition cstart (m : mem) (l : nat -> Loc) : RseqKernel.state Loc :=
  {| s_mem := m;
     s_thr := fun t => idle_thread (l t) (match t with 0%nat => Some (0, 0) | 1%nat => Some (1, 1) | _ => None end);
     s_loaded := fun _ => true |}.
Lemma cstart_initial : forall m l, initial (cstart m l).
Proof.
  intros m l. split; [|split].
  - intros t. cbn. destruct t as [|[|t]]; cbn; repeat split; try (eexists; reflexivity); intros; try discriminate;
      try (inversion H; subst; lia); inversion H0; subst; auto.
  - intros t u c1 d1 c2 d2 Hn H1 H2. cbn in *.
    destruct t as [|[|t]]; destruct u as [|[|u]]; cbn in *; try congruence;
      inversion H1; inversion H2; subst; split; lia.
  - auto.
Qed.
Lemma cstart_stays : forall m l, stays 2 (fun t => idle_thread (l t) None) (cstart m l).
Proof. intros m l t Ht. destruct t as [|[|t]]; try lia. reflexivity. Qed.
End CStart.

Fixpoint crep (n : nat) (x : cact) : list cact := match n with O => [] | S n => x :: crep n x end.
