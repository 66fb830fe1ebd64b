(** Executing given runs of the concrete machine, to exhibit concrete cases.
    The client is a script: each thread makes a fixed list of helper calls. *)
From Coq Require Import ZArith Bool List Lia.
From Verif Require Import RseqIR RseqSpec RseqKernel RseqSafe MemLemmas RunLemmas RseqSim RseqOwn RseqCalls RseqProps.
Import ListNotations.
Local Open Scope Z_scope.

Definition script := list call.
Definition script_client : client script :=
  {| cl_call := fun l _ c => exists r, l = c :: r;
     cl_ret := fun l _ _ => tl l;
     cl_write := fun _ _ _ _ => False;
     cl_tau := fun _ _ _ => False;
     cl_sig := fun _ l' => l' = [];
     cl_done := fun l => l = [] |}.

Inductive action :=
  | DInstr (t : nat)                      (* the next instruction of thread t *)
  | DCall (t : nat)                       (* thread t makes its next call *)
  | DPreempt (t : nat) | DResume (t : nat) (cpu cid : Z) | DIpi (t : nat)
  | DSignal (t : nat) | DSigret (t : nat)
  | DClear (t : nat) | DUnload (id : nat).

Definition state := state script.

Definition runningb (s : state) (t : nat) : bool :=
  match t_on (s_thr s t) with Some _ => negb (t_dead (s_thr s t)) | None => false end.
Definition freeb (n : nat) (s : state) (t : nat) (cpu cid : Z) : bool :=
  forallb (fun u => Nat.eqb u t ||
    match t_on (s_thr s u) with Some (c, d) => negb (c =? cpu) && negb (d =? cid) | None => true end) (seq 0 n).
Definition unusedb (n : nat) (s : state) (id : nat) : bool :=
  forallb (fun u => forallb (fun x => match x_act x with
     | Some f => negb (Nat.eqb (c_code (f_call f)) id) | None => true end) (t_ctx (s_thr s u))) (seq 0 n).
Definition kind_eqb (a b : kind) : bool :=
  match a, b with
  | KCbneStore, KCbneStore | KAddStore, KAddStore | KPop, KPop | KAddLoadLoad, KAddLoadLoad
  | KCbne2, KCbne2 | KStoreStore, KStoreStore | KMemcpy, KMemcpy => true | _, _ => false end.
Definition mode_eqb (a b : imode) : bool :=
  match a, b with CPU_ID, CPU_ID | MM_CID, MM_CID => true | _, _ => false end.

Section Replay.
Variables (g : cfg) (tx : text) (n : nat) (junk : regs).

Definition do1 (s : state) (a : action) : option (clabel * state) :=
  match a with
  | DInstr t =>
    if negb (Nat.ltb t n && runningb s t) then None else
    match t_ctx (s_thr s t) with
    | {| x_loc := l; x_act := Some f |} :: k =>
      match tx (c_code (f_call f)), s_loaded s (c_code (f_call f)) with
      | Some (P, _), true =>
        match istep g P (s_mem s) (index (t_area (s_thr s t)) (pmode P)) (f_pc f) (f_rs f) with
        | Some (pc', rs', ENone, _) =>
          Some (Ltau, set_t s t (set_ctx (s_thr s t)
             ({| x_loc := l; x_act := Some {| f_call := f_call f; f_pc := pc'; f_rs := rs' |} |} :: k)))
        | Some (pc', rs', ECs, _) =>
          Some (Ltau, set_t s t (set_ctx (set_cs (s_thr s t) (Some (c_code (f_call f))))
             ({| x_loc := l; x_act := Some {| f_call := f_call f; f_pc := pc'; f_rs := rs' |} |} :: k)))
        | Some (pc', rs', EWr ps, _) =>
          Some (Lwr t ps, set_m (set_t s t (set_ctx (s_thr s t)
             ({| x_loc := l; x_act := Some {| f_call := f_call f; f_pc := pc'; f_rs := rs' |} |} :: k)))
             (wr (s_mem s) ps))
        | Some (pc', rs', EExit x, _) =>
          match exit_ret x with
          | Some r => Some (Lret t (f_call f) r,
              set_t s t (set_ctx (s_thr s t) ({| x_loc := tl l; x_act := None |} :: k)))
          | None => Some (Lbug t, set_t s t (kill (s_thr s t)))
          end
        | None => None
        end
      | _, _ => None
      end
    | _ => None
    end
  | DCall t =>
    if negb (Nat.ltb t n && runningb s t) then None else
    match t_ctx (s_thr s t) with
    | {| x_loc := c :: l; x_act := None |} :: k =>
      match tx (c_code c), s_loaded s (c_code c) with
      | Some (P, kd), true =>
        if kind_eqb kd (kind_of (c_op c)) && mode_eqb (pmode P) (c_mode c) &&
           (- 2 ^ 31 <=? c_cpu c) && (c_cpu c <? 2 ^ 31)
        then Some (Lcall t c, set_t s t (set_ctx (s_thr s t)
          ({| x_loc := c :: l; x_act := Some {| f_call := c; f_pc := 0; f_rs := init_regs c junk |} |} :: k)))
        else None
      | _, _ => None
      end
    | _ => None
    end
  | DPreempt t =>
    if negb (Nat.ltb t n && runningb s t) then None else
    Some (Ltau, set_t s t (set_on (s_thr s t) None))
  | DResume t cpu cid =>
    if Nat.ltb t n && match t_on (s_thr s t) with None => negb (t_dead (s_thr s t)) | Some _ => false end &&
       (0 <=? cpu) && (cpu <? 2 ^ 31) && (0 <=? cid) && (cid <? 2 ^ 31) && freeb n s t cpu cid
    then Some (Ltau, set_t s t
          (let th := set_on (s_thr s t) (Some (cpu, cid)) in
           let th := if t_reg th
                     then set_area th {| rseq_cs := rseq_cs (t_area th);
                                         cpu_field := cpu; cid_field := cid |}
                     else th in
           fixup tx (s_loaded s) th))
    else None
  | DIpi t =>
    if negb (Nat.ltb t n && runningb s t) then None else
    Some (Ltau, set_t s t (fixup tx (s_loaded s) (s_thr s t)))
  | DSignal t =>
    if negb (Nat.ltb t n && runningb s t) then None else
    match t_ctx (s_thr s t) with
    | x :: k => Some (Ltau, set_t s t
          (let th := fixup tx (s_loaded s) (s_thr s t) in
           set_ctx th ({| x_loc := []; x_act := None |} :: t_ctx th)))
    | [] => None
    end
  | DSigret t =>
    if negb (Nat.ltb t n && runningb s t) then None else
    match t_ctx (s_thr s t) with
    | {| x_loc := []; x_act := None |} :: x :: k => Some (Ltau, set_t s t (set_ctx (s_thr s t) (x :: k)))
    | _ => None
    end
  | DClear t =>
    if negb (Nat.ltb t n && runningb s t) then None else
    match t_ctx (s_thr s t) with
    | {| x_loc := l; x_act := None |} :: k => Some (Ltau, set_t s t (set_cs (s_thr s t) None))
    | _ => None
    end
  | DUnload id =>
    if unusedb n s id
    then Some (Ltau, {| s_mem := s_mem s; s_thr := s_thr s;
           s_loaded := fun i => if Nat.eqb i id then false else s_loaded s i |})
    else None
  end.

(** Threads from [n] on stay idle and never run. *)
Definition quiet (s : state) : Prop :=
  forall t, (n <= t)%nat -> t_on (s_thr s t) = None /\ exists l, t_ctx (s_thr s t) = [{| x_loc := l; x_act := None |}].

Lemma runningb_ok : forall s t, runningb s t = true -> running (s_thr s t).
Proof.
  intros s t H. unfold runningb in H. unfold running. destruct (t_on (s_thr s t)); [|discriminate].
  split; [discriminate|]. destruct (t_dead (s_thr s t)); auto; discriminate.
Qed.

Lemma quiet_set : forall s t th', quiet s -> (t < n)%nat -> quiet (set_t s t th').
Proof. intros s t th' H Ht u Hu. rewrite set_t_other by lia. auto. Qed.

Lemma quiet_setm : forall s m, quiet s -> quiet (set_m s m).
Proof. intros s m H u Hu. apply (H u Hu). Qed.

Lemma freeb_ok : forall s t cpu cid, quiet s -> freeb n s t cpu cid = true -> cpu_free s t cpu cid.
Proof.
  intros s t cpu cid Hq H u c d Hu E. destruct (lt_dec u n) as [Hlt|Hge].
  - unfold freeb in H. rewrite forallb_forall in H. specialize (H u).
    rewrite List.in_seq in H. specialize (H ltac:(lia)). rewrite E in H. apply orb_true_iff in H.
    destruct H as [H|H]; [apply Nat.eqb_eq in H; congruence|].
    apply andb_true_iff in H. destruct H as [H1 H2]. apply negb_true_iff in H1, H2.
    apply Z.eqb_neq in H1, H2. auto.
  - destruct (Hq u ltac:(lia)) as [H1 _]. congruence.
Qed.

Lemma do1_ok : forall s a l s', do1 s a = Some (l, s') -> quiet s ->
  step g tx script_client s l s' /\ quiet s'.
Proof.
  intros s a l s' H Hq.
  assert (Hg : forall t (X : option (clabel * state)), 
     (if negb (Nat.ltb t n && runningb s t) then None else X) = Some (l, s') ->
     (t < n)%nat /\ running (s_thr s t) /\ X = Some (l, s')).
  { intros t X HX. destruct (Nat.ltb t n && runningb s t) eqn:E; [|discriminate].
    apply andb_true_iff in E. destruct E as [E1 E2]. apply Nat.ltb_lt in E1. apply runningb_ok in E2. auto. }
  destruct a; cbn [do1] in H.
  - destruct (Hg _ _ H) as (Ht & Hr & H1). clear H Hg.
    destruct (t_ctx (s_thr s t)) as [|[lo [f|]] k] eqn:Ek; try discriminate.
    destruct (tx (c_code (f_call f))) as [[P kd]|] eqn:Etx; [|discriminate].
    destruct (s_loaded s (c_code (f_call f))) eqn:Eld; [|discriminate].
    destruct (istep g P (s_mem s) (index (t_area (s_thr s t)) (pmode P)) (f_pc f) (f_rs f))
      as [[[[pc' rs'] e] rd]|] eqn:Ei; [|discriminate].
    destruct e as [|ps| |x].
    + inversion H1; subst. split; [|apply quiet_set; auto].
      eapply (S_instr script g tx script_client s t lo k f P kd pc' rs' ENone rd); eauto.
    + inversion H1; subst. split; [|apply quiet_setm, quiet_set; auto].
      eapply (S_store script g tx script_client s t lo k f P kd pc' rs' ps rd); eauto.
    + inversion H1; subst. split; [|apply quiet_set; auto].
      eapply (S_instr script g tx script_client s t lo k f P kd pc' rs' ECs rd); eauto.
    + destruct (exit_ret x) as [r|] eqn:Ex.
      * inversion H1; subst. split; [|apply quiet_set; auto].
        eapply (S_return script g tx script_client s t lo k f P kd pc' rs' x rd r); eauto.
      * inversion H1; subst. split; [|apply quiet_set; auto].
        eapply (S_bug script g tx script_client s t lo k f P kd pc' rs' x rd); eauto.
  - destruct (Hg _ _ H) as (Ht & Hr & H1). clear H Hg.
    destruct (t_ctx (s_thr s t)) as [|[[|c lo] [f|]] k] eqn:Ek; try discriminate.
    destruct (tx (c_code c)) as [[P kd]|] eqn:Etx; [|discriminate].
    destruct (s_loaded s (c_code c)) eqn:Eld; [|discriminate].
    destruct (kind_eqb kd (kind_of (c_op c)) && mode_eqb (pmode P) (c_mode c) &&
           (- 2 ^ 31 <=? c_cpu c) && (c_cpu c <? 2 ^ 31)) eqn:E; [|discriminate].
    repeat rewrite andb_true_iff in E. destruct E as (((E1 & E2) & E3) & E4).
    inversion H1; subst. split; [|apply quiet_set; auto].
    eapply (S_call script g tx script_client s t (c :: lo) k c P kd junk); eauto.
    + cbn. eauto.
    + destruct kd, (kind_of (c_op c)); try discriminate; auto.
    + destruct (pmode P), (c_mode c); try discriminate; auto.
    + apply Z.leb_le in E3. apply Z.ltb_lt in E4. lia.
  - destruct (Hg _ _ H) as (Ht & Hr & H1). inversion H1; subst.
    split; [apply S_preempt; auto|apply quiet_set; auto].
  - destruct (Nat.ltb t n && _ && _ && _ && _ && _ && _) eqn:E; [|discriminate].
    repeat rewrite andb_true_iff in E. destruct E as ((((((E1 & E2) & E3) & E4) & E5) & E6) & E7).
    apply Nat.ltb_lt in E1. apply Z.leb_le in E3, E5. apply Z.ltb_lt in E4, E6.
    inversion H; subst. split; [|apply quiet_set; auto]. apply S_resume; try lia; auto.
    + destruct (t_on (s_thr s t)); auto; discriminate.
    + destruct (t_on (s_thr s t)); try discriminate. destruct (t_dead (s_thr s t)); auto; discriminate.
    + apply freeb_ok; auto.
  - destruct (Hg _ _ H) as (Ht & Hr & H1). inversion H1; subst.
    split; [apply S_ipi; auto|apply quiet_set; auto].
  - destruct (Hg _ _ H) as (Ht & Hr & H1). destruct (t_ctx (s_thr s t)) as [|x k] eqn:Ek; [discriminate|].
    inversion H1; subst. split; [eapply S_signal; eauto; reflexivity|apply quiet_set; auto].
  - destruct (Hg _ _ H) as (Ht & Hr & H1).
    destruct (t_ctx (s_thr s t)) as [|[[|c lo] [f|]] [|x k]] eqn:Ek; try discriminate.
    inversion H1; subst. split; [eapply S_sigret; eauto; reflexivity|apply quiet_set; auto].
  - destruct (Hg _ _ H) as (Ht & Hr & H1).
    destruct (t_ctx (s_thr s t)) as [|[lo [f|]] k] eqn:Ek; try discriminate.
    inversion H1; subst. split; [eapply S_clear_cs; eauto|apply quiet_set; auto].
  - destruct (unusedb n s id) eqn:E; [|discriminate]. inversion H; subst. split.
    + apply S_unload. intros t x Hx (f & Ef & Ec). destruct (lt_dec t n) as [Hlt|Hge].
      * unfold unusedb in E. rewrite forallb_forall in E. specialize (E t). rewrite List.in_seq in E.
        specialize (E ltac:(lia)). rewrite forallb_forall in E. specialize (E x Hx). rewrite Ef in E.
        apply negb_true_iff, Nat.eqb_neq in E. auto.
      * destruct (Hq t ltac:(lia)) as [_ (l & El)]. rewrite El in Hx. destruct Hx as [<-|[]]. discriminate.
    + intros t Ht. apply (Hq t Ht).
Qed.

Definition call_okb (s : state) (l : clabel) : bool :=
  match l with
  | Lcall t c => t_reg (s_thr s t) || negb (c_cpu c =? unreg_index (c_mode c))
  | _ => true
  end.

Lemma call_okb_ok : forall s l, call_okb s l = true -> call_ok s l.
Proof.
  intros s [| | | |]; cbn; auto. intros H. apply orb_true_iff in H. destruct H as [H|H]; auto.
  right. apply negb_true_iff, Z.eqb_neq in H. auto.
Qed.

(** [checked]: refuse calls that break [call_ok]. *)
Fixpoint replay (checked : bool) (s : state) (acts : list action) : option (list (state * clabel) * state) :=
  match acts with
  | [] => Some ([], s)
  | a :: acts =>
    match do1 s a with
    | Some (l, s1) =>
      if negb checked || call_okb s l then
        match replay checked s1 acts with
        | Some (tr, s2) => Some ((s, l) :: tr, s2)
        | None => None
        end
      else None
    | None => None
    end
  end.

Lemma path_app : forall s tr s', path g tx script_client s tr s' -> forall tr' s'',
  path g tx script_client s' tr' s'' -> path g tx script_client s (tr ++ tr') s''.
Proof.
  intros s tr s' H tr' s'' H'. induction H'.
  - rewrite app_nil_r. auto.
  - rewrite app_assoc. econstructor; eauto.
Qed.

Lemma replay_path : forall acts s tr s', replay true s acts = Some (tr, s') -> quiet s ->
  path g tx script_client s tr s' /\ quiet s'.
Proof.
  induction acts as [|a acts IH]; cbn [replay]; intros s tr s' H Hq.
  - inversion H; subst. split; auto. constructor.
  - destruct (do1 s a) as [[l s1]|] eqn:E; [|discriminate]. cbn [negb orb] in H.
    destruct (call_okb s l) eqn:Eo; [|discriminate].
    destruct (replay true s1 acts) as [[tr1 s2]|] eqn:Er; [|discriminate].
    inversion H; subst. destruct (do1_ok _ _ _ _ E Hq) as [H1 H2].
    destruct (IH _ _ _ Er H2) as [H3 H4]. split; auto.
    change ((s, l) :: tr1) with ([(s, l)] ++ tr1). eapply path_app; eauto.
    change [(s, l)] with ([] ++ [(s, l)]). econstructor; [constructor|exact H1|apply call_okb_ok; auto].
Qed.

Lemma replay_steps : forall b acts s tr s', replay b s acts = Some (tr, s') -> quiet s ->
  steps script g tx script_client s (map snd tr) s' /\ quiet s'.
Proof.
  intros b. induction acts as [|a acts IH]; cbn [replay]; intros s tr s' H Hq.
  - inversion H; subst. split; auto. constructor.
  - destruct (do1 s a) as [[l s1]|] eqn:E; [|discriminate].
    destruct (negb b || call_okb s l); [|discriminate].
    destruct (replay b s1 acts) as [[tr1 s2]|] eqn:Er; [|discriminate].
    inversion H; subst. destruct (do1_ok _ _ _ _ E Hq) as [H1 H2].
    destruct (IH _ _ _ Er H2) as [H3 H4]. split; auto. cbn. econstructor; eauto.
Qed.

Lemma path_exec : forall s tr s', path g tx script_client s tr s' -> exec g tx script_client s (map snd tr) s'.
Proof. intros s tr s' H. induction H; [constructor|]. rewrite map_app. cbn. econstructor; eauto. Qed.
End Replay.
