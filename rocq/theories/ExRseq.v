(** Concrete runs used to show that the theorems of Thm_Rseq.v speak about
    something: two threads, an x86-64 program, and given schedules. *)
From Coq Require Import ZArith Bool List Lia.
From Verif Require Import RseqIR RseqSpec RseqKernel RseqSafe MemLemmas RunLemmas RseqSim RseqOwn RseqCalls RseqSeq RseqProps RseqMisc Replay.
From Verif Require Import Archs ArchsGood.
Import ListNotations.
Local Open Scope Z_scope.

(** One instance of each helper, relaxed and release, for both modes. *)
Definition instance (id : nat) : option (bool * imode * kind) :=
  match id with
  | 0%nat => Some (false, CPU_ID, KCbneStore) | 1%nat => Some (false, CPU_ID, KAddStore)
  | 2%nat => Some (false, CPU_ID, KPop) | 3%nat => Some (false, CPU_ID, KAddLoadLoad)
  | 4%nat => Some (false, CPU_ID, KCbne2) | 5%nat => Some (false, CPU_ID, KStoreStore)
  | 6%nat => Some (false, CPU_ID, KMemcpy) | 7%nat => Some (true, CPU_ID, KStoreStore)
  | 8%nat => Some (true, CPU_ID, KMemcpy)
  | 10%nat => Some (false, MM_CID, KCbneStore) | 11%nat => Some (false, MM_CID, KAddStore)
  | 12%nat => Some (false, MM_CID, KPop) | 13%nat => Some (false, MM_CID, KAddLoadLoad)
  | 14%nat => Some (false, MM_CID, KCbne2) | 15%nat => Some (false, MM_CID, KStoreStore)
  | 16%nat => Some (false, MM_CID, KMemcpy) | 17%nat => Some (true, MM_CID, KStoreStore)
  | 18%nat => Some (true, MM_CID, KMemcpy)
  | _ => None
  end.
Definition demo_text (a : arch) (tw : bool) : text := fun id =>
  match instance id with
  | Some (rel, md, kd) => match helper a tw rel md kd with Some P => Some (P, kd) | None => None end
  | None => None
  end.
Lemma demo_lib : forall a tw, lib_text a tw (demo_text a tw).
Proof.
  intros a tw id P kd H. unfold demo_text in H. destruct (instance id) as [[[rel md] kd']|]; [|discriminate].
  destruct (helper a tw rel md kd') as [P'|] eqn:E; [|discriminate]. inversion H; subst. eauto.
Qed.

Definition demo_cfg : cfg := {| wsize := 8; bigend := false |}.

(** Thread 0 runs on CPU 0, thread 1 on CPU 1; both registered, each with its
    list of calls.  The data of CPU [n] is at addresses 4096 n .. 4096 n + 4095. *)
Definition demo_thread (reg : bool) (on : option (Z * Z)) (l : script) : thread script :=
  {| t_area := {| rseq_cs := None;
                  cpu_field := if reg then match on with Some (c, _) => c | None => 0 end else 2 ^ 32 - 1;
                  cid_field := if reg then match on with Some (_, d) => d | None => 0 end else 0 |};
     t_reg := reg; t_on := on; t_ctx := [{| x_loc := l; x_act := None |}]; t_dead := false |}.
Definition demo_state (reg : bool) (l0 l1 : script) : Replay.state :=
  {| s_mem := fun _ => 0;
     s_thr := fun t => match t with
       | 0%nat => demo_thread reg (Some (0, 0)) l0
       | 1%nat => demo_thread true (Some (1, 1)) l1
       | _ => demo_thread true None [] end;
     s_loaded := fun _ => true |}.

Lemma demo_initial : forall reg l0 l1, initial (demo_state reg l0 l1).
Proof.
  intros reg l0 l1. split; [|split].
  - intros t. cbn. destruct t as [|[|t]]; cbn.
    + repeat split; try (eexists; reflexivity); intros; try (destruct reg; discriminate || auto; fail);
        try (inversion H; subst; lia); try (inversion H0; subst; destruct reg; auto; discriminate).
    + repeat split; try (eexists; reflexivity); intros; try discriminate; try (inversion H; subst; lia);
        inversion H0; subst; auto.
    + repeat split; try (eexists; reflexivity); intros; discriminate.
  - intros t u c1 d1 c2 d2 Hn H1 H2. cbn in *.
    destruct t as [|[|t]]; destruct u as [|[|u]]; cbn in *; try congruence;
      inversion H1; inversion H2; subst; split; lia.
  - auto.
Qed.

Lemma demo_quiet : forall reg l0 l1, quiet 2 (demo_state reg l0 l1).
Proof. intros reg l0 l1 t Ht. destruct t as [|[|t]]; try lia. cbn. split; auto. eexists. reflexivity. Qed.

(** Scripts whose calls stay in the data of the CPU they are for. *)
Definition demo_own (a : Z) : owner := OCpu CPU_ID (a / 4096).

Lemma demo_safe : forall reg l0 l1,
  (forall c, In c (l0 ++ l1) -> fits demo_cfg demo_own 0 c) ->
  safe_client demo_cfg script_client (abs_init (demo_state reg l0 l1)).
Proof.
  intros reg l0 l1 H.
  apply (partitioned_safe script demo_cfg script_client demo_own (fun t l => forall c, In c l -> fits demo_cfg demo_own t c)).
  - assert (Ht : forall t c, fits demo_cfg demo_own 0 c -> fits demo_cfg demo_own t c).
    { intros t c Hf m. destruct (Hf m) as [H1 H2]. split; auto. intros a Ha. destruct (H2 a Ha) as [E|E]; [left; auto|discriminate]. }
    split; cbn.
    + intros t l m c HL (r & ->). apply HL. left. auto.
    + intros t l c r HL c' Hc'. apply HL. destruct l; cbn in *; auto.
    + intros; contradiction.
    + intros; contradiction.
    + intros t l l' HL -> c0 [].
  - apply init_exclusive, demo_initial.
  - assert (Ht : forall t c, In c (l0 ++ l1) -> fits demo_cfg demo_own t c).
    { intros t c Hc m. destruct (H c Hc m) as [H1 H2]. split; auto. intros a Ha. destruct (H2 a Ha) as [E|E]; [left; auto|discriminate]. }
    intros t x Hx. cbn in Hx. destruct t as [|[|t]]; cbn in Hx; destruct Hx as [<-|[]]; split; cbn; auto;
      try (intros c Hc; apply Ht, in_or_app; auto).
    contradiction.
Qed.

(** ** A whole call, replayed *)
Definition call_eq_dec : forall c c' : call, {c = c'} + {c <> c'}.
Proof. repeat decide equality. Defined.

Section Life.
Variables (tx : text) (junk : regs).

Definition no_ret (t d : nat) (p : Replay.state * clabel) : bool :=
  match snd p with
  | Lret u _ _ => negb (Nat.eqb u t && Nat.eqb (depth (fst p) t) d)
  | _ => true
  end.

(** From [s1]: thread [t] makes its next call, [acts] happens, the call returns. *)
Definition life (s1 : Replay.state) (t : nat) (acts : list action)
  : option (call * list (Replay.state * clabel) * Replay.state * Z * Replay.state) :=
  match do1 demo_cfg tx 2 junk s1 (DCall t) with
  | Some (Lcall t1 c, s2) =>
    if Nat.eqb t1 t && call_okb s1 (Lcall t c) then
      match replay demo_cfg tx 2 junk true s2 acts with
      | Some (tr, s3) =>
        match do1 demo_cfg tx 2 junk s3 (DInstr t) with
        | Some (Lret t2 c2 r, s4) =>
          if Nat.eqb t2 t && (if call_eq_dec c2 c then true else false) &&
             forallb (no_ret t (depth s1 t)) tr && Nat.eqb (depth s3 t) (depth s1 t)
          then Some (c, tr, s3, r, s4) else None
        | _ => None
        end
      | None => None
      end
    else None
  | _ => None
  end.

Lemma life_ok : forall s1 t acts c tr s3 r s4, quiet 2 s1 -> life s1 t acts = Some (c, tr, s3, r, s4) ->
  lifetime demo_cfg tx script_client t c s1 tr s3 r s4.
Proof.
  intros s1 t acts c tr s3 r s4 Hq H. unfold life in H.
  destruct (do1 demo_cfg tx 2 junk s1 (DCall t)) as [[l1 s2]|] eqn:E1; [|discriminate].
  destruct l1 as [|t1 c1| | |]; try discriminate.
  destruct (Nat.eqb t1 t && call_okb s1 (Lcall t c1)) eqn:E2; [|discriminate].
  apply andb_true_iff in E2. destruct E2 as [E2 E3]. apply Nat.eqb_eq in E2. subst t1.
  destruct (replay demo_cfg tx 2 junk true s2 acts) as [[tr1 s3']|] eqn:E4; [|discriminate].
  destruct (do1 demo_cfg tx 2 junk s3' (DInstr t)) as [[l2 s4']|] eqn:E5; [|discriminate].
  destruct l2 as [| |t2 c2 r2| |]; try discriminate.
  destruct (_ && _ && _ && _) eqn:E6; [|discriminate]. inversion H; subst. clear H.
  repeat rewrite andb_true_iff in E6. destruct E6 as (((F1 & F2) & F3) & F4).
  apply Nat.eqb_eq in F1, F4. subst t2. destruct (call_eq_dec c2 c); [subst c2|discriminate].
  destruct (do1_ok _ _ _ _ _ _ _ _ E1 Hq) as [G1 Hq2].
  destruct (replay_path _ _ _ _ _ _ _ _ E4 Hq2) as [G2 Hq3].
  destruct (do1_ok _ _ _ _ _ _ _ _ E5 Hq3) as [G3 _].
  exists s2. split; [exact G1|]. split; [apply call_okb_ok; exact E3|].
  split; [exact G2|]. split; [|split; [exact G3|exact F4]].
  intros s' c' r' Hin Hd. rewrite forallb_forall in F3. specialize (F3 _ Hin). unfold no_ret in F3. cbn in F3.
  rewrite Nat.eqb_refl, Hd, Nat.eqb_refl in F3. discriminate.
Qed.
End Life.

Definition junk0 : regs := fun _ => 0.
Fixpoint rep (n : nat) (x : action) : list action := match n with O => [] | S n => x :: rep n x end.
(** The writes of the call itself: addresses and bytes only. *)
Definition wrote (t d : nat) (tr : list (Replay.state * clabel)) : list (list (Z * Z)) :=
  map snd (own_writes t d tr).

(** *** The runs *)
Definition dx := demo_text X86_64 false.
Definition k_store (cpu v2 newv2 v e n : Z) : call :=
  {| c_code := 5; c_op := CbneStoreStore v e v2 newv2 n; c_cpu := cpu; c_mode := CPU_ID |}.

Ltac fit_store :=
  intros m; unfold k_store, op_wf, touched, in_use, attempts, pseudo, read_foot; cbn [c_op c_mode c_cpu]; split; [split; [|exact Logic.I]|];
  [ destruct (ldw _ _ _ =? _); cbn; intros a H1 H2; try contradiction; cbn in *; intuition lia
  | destruct (ldw _ _ _ =? _); intros a Ha; left; unfold demo_own; cbn in *; f_equal; intuition (subst; reflexivity) ].

(** The state in which thread 0 is to do [store-store] on the data of CPU [cpu]. *)
Definition demo1 (cpu e : Z) : Replay.state := demo_state true [k_store cpu 16 7 8 e 5] [k_store 1 4112 1 4104 0 2].
Lemma demo1_safe : forall e, safe_client demo_cfg script_client (abs_init (demo1 0 e)).
Proof. intros e. apply demo_safe. intros c [<-|[<-|[]]]; fit_store. Qed.



(** Checks a replayed call: return value and own writes. *)
Definition zz_dec : forall x y : Z * Z, {x = y} + {x <> y}.
Proof. repeat decide equality. Defined.
Definition writes_eqb (a b : list (list (Z * Z))) : bool :=
  if list_eq_dec (list_eq_dec zz_dec) a b then true else false.

Definition gives (tx : text) (s : Replay.state) (t : nat) (acts : list action) (c0 : call) (r0 : Z) (w0 : list (list (Z * Z))) : bool :=
  match life tx junk0 s t acts with
  | Some (c, tr, s3, r, s4) =>
      (if call_eq_dec c c0 then true else false) && (r =? r0) && writes_eqb (wrote t (depth s t) tr) w0
  | None => false
  end.
Lemma gives_life : forall tx s t acts c r w, quiet 2 s -> gives tx s t acts c r w = true ->
  exists tr s3 s4, lifetime demo_cfg tx script_client t c s tr s3 r s4 /\ map snd (own_writes t (depth s t) tr) = w.
Proof.
  intros tx s t acts c r w Hq H. unfold gives in H.
  destruct (life tx junk0 s t acts) as [[[[[c1 tr] s3] r1] s4]|] eqn:E; [|discriminate].
  repeat rewrite andb_true_iff in H. destruct H as [[H1 H2] H3].
  destruct (call_eq_dec c1 c); [subst c1|discriminate]. apply Z.eqb_eq in H2. subst r1.
  unfold writes_eqb in H3. destruct (list_eq_dec _ _ _) as [E3|]; [|discriminate].
  exists tr, s3, s4. split; [eapply life_ok; eauto|exact E3].
Qed.

Definition w16 : list (Z * Z) := stw demo_cfg 16 7.
Definition w8 : list (Z * Z) := stw demo_cfg 8 5.

(** Uninterrupted: success. *)
Lemma ex_success : exists tr s3 s4,
  lifetime demo_cfg dx script_client 0 (k_store 0 16 7 8 0 5) (demo1 0 0) tr s3 0 s4 /\
  map snd (own_writes 0 1 tr) = [w16; w8].
Proof. apply (gives_life dx (demo1 0 0) 0 (rep 7 (DInstr 0))); [apply demo_quiet|vm_compute; reflexivity]. Qed.
(** Uninterrupted: the comparison fails. *)
Lemma ex_mismatch : exists tr s3 s4,
  lifetime demo_cfg dx script_client 0 (k_store 0 16 7 8 1 5) (demo1 0 1) tr s3 1 s4 /\
  map snd (own_writes 0 1 tr) = [].
Proof. apply (gives_life dx (demo1 0 1) 0 (rep 5 (DInstr 0))); [apply demo_quiet|vm_compute; reflexivity]. Qed.
(** Preempted just before the committing store, resumed on another CPU, while
    the other thread goes through a call of its own. *)
Definition acts_abort : list action :=
  rep 6 (DInstr 0) ++ [DCall 1; DPreempt 0] ++ rep 8 (DInstr 1) ++ [DResume 0 2 2; DInstr 0].
Lemma ex_abort : exists tr s3 s4,
  lifetime demo_cfg dx script_client 0 (k_store 0 16 7 8 0 5) (demo1 0 0) tr s3 (-1) s4 /\
  map snd (own_writes 0 1 tr) = [w16].
Proof. apply (gives_life dx (demo1 0 0) 0 acts_abort); [apply demo_quiet|vm_compute; reflexivity]. Qed.
(** A signal in the middle. *)
Lemma ex_signal : exists tr s3 s4,
  lifetime demo_cfg dx script_client 0 (k_store 0 16 7 8 0 5) (demo1 0 0) tr s3 (-1) s4 /\
  map snd (own_writes 0 1 tr) = [].
Proof.
  apply (gives_life dx (demo1 0 0) 0 (rep 4 (DInstr 0) ++ [DSignal 0; DSigret 0; DInstr 0]));
    [apply demo_quiet|vm_compute; reflexivity].
Qed.
(** The call is for CPU 3, the thread runs on CPU 0. *)
Lemma ex_wrong_cpu : exists tr s3 s4,
  lifetime demo_cfg dx script_client 0 (k_store 3 16 7 8 0 5) (demo1 3 0) tr s3 (-1) s4 /\
  map snd (own_writes 0 1 tr) = [].
Proof. apply (gives_life dx (demo1 3 0) 0 (rep 4 (DInstr 0))); [apply demo_quiet|vm_compute; reflexivity]. Qed.

Lemma ex_start : forall cpu e, exec demo_cfg dx script_client (demo1 cpu e) [] (demo1 cpu e).
Proof. intros. constructor. Qed.
Lemma ex_initial : forall cpu e, initial (demo1 cpu e).
Proof. intros. apply demo_initial. Qed.

(** ** States along a run *)
Definition at_ (tx : text) (s : Replay.state) (acts : list action) (P : Replay.state -> bool) : bool :=
  match replay demo_cfg tx 2 junk0 true s acts with Some (_, s') => P s' | None => false end.
Lemma at_exec : forall tx s acts P, quiet 2 s -> at_ tx s acts P = true ->
  exists ls s', exec demo_cfg tx script_client s ls s' /\ P s' = true.
Proof.
  intros tx s acts P Hq H. unfold at_ in H.
  destruct (replay demo_cfg tx 2 junk0 true s acts) as [[tr s']|] eqn:E; [|discriminate].
  destruct (replay_path _ _ _ _ _ _ _ _ E Hq) as [Hp _]. apply path_exec in Hp. eauto.
Qed.

Definition in_windowb (tx : text) (s : Replay.state) (t : nat) (c : call) : bool :=
  match t_ctx (s_thr s t) with
  | {| x_act := Some f |} :: k =>
    match tx (c_code (f_call f)) with
    | Some (P, _) => (if call_eq_dec (f_call f) c then true else false) &&
        Nat.ltb (check_pc P) (f_pc f) && Nat.ltb (f_pc f) (cs_commit P)
    | None => false
    end
  | _ => false
  end.
Lemma in_windowb_ok : forall tx s t c, in_windowb tx s t c = true -> in_window tx s t c.
Proof.
  intros tx s t c H. unfold in_windowb in H. destruct (t_ctx (s_thr s t)) as [|[l [f|]] k] eqn:E; try discriminate.
  destruct (tx (c_code (f_call f))) as [[P kd]|] eqn:Et; [|discriminate].
  repeat rewrite andb_true_iff in H. destruct H as [[H1 H2] H3]. destruct (call_eq_dec (f_call f) c); [|discriminate].
  subst c. apply Nat.ltb_lt in H2, H3. exists l, f, k, P, kd. auto.
Qed.
Definition dk0 : call := k_store 0 16 7 8 0 5.
Definition dk1 : call := k_store 1 4112 1 4104 0 2.

(** Both threads are past the check at the same time, each on its own CPU. *)
Lemma ex_two_windows : exists ls s, exec demo_cfg dx script_client (demo1 0 0) ls s /\
  in_window dx s 0 dk0 /\ in_window dx s 1 dk1.
Proof.
  destruct (at_exec dx (demo1 0 0) ([DCall 0; DCall 1] ++ rep 6 (DInstr 0) ++ rep 5 (DInstr 1))
    (fun s => in_windowb dx s 0 dk0 && in_windowb dx s 1 dk1)) as (ls & s & H1 & H2).
  { apply demo_quiet. } { vm_compute; reflexivity. }
  apply andb_true_iff in H2. destruct H2. exists ls, s. split; auto. split; apply in_windowb_ok; auto.
Qed.

(** A thread is preempted inside the window and resumed. *)
Lemma ex_resumed : exists ls s s', exec demo_cfg dx script_client (demo1 0 0) ls s /\
  t_on (s_thr s 0) = None /\ in_window dx s 0 dk0 /\ s_loaded s (c_code dk0) = true /\
  step demo_cfg dx script_client s Ltau s' /\ t_on (s_thr s' 0) <> None.
Proof.
  set (acts := DCall 0 :: rep 6 (DInstr 0) ++ [DPreempt 0]).
  set (chk := fun s : Replay.state => in_windowb dx s 0 dk0 && s_loaded s 5%nat &&
     match t_on (s_thr s 0) with None => true | _ => false end &&
     match do1 demo_cfg dx 2 junk0 s (DResume 0 2 2) with
     | Some (Ltau, s') => match t_on (s_thr s' 0) with None => false | _ => true end | _ => false end).
  assert (H : at_ dx (demo1 0 0) acts chk = true) by (vm_compute; reflexivity).
  unfold at_ in H. destruct (replay demo_cfg dx 2 junk0 true (demo1 0 0) acts) as [[tr s]|] eqn:E; [|discriminate].
  destruct (replay_path _ _ _ _ _ _ _ _ E (demo_quiet _ _ _)) as [Hp Hq].
  unfold chk in H. repeat rewrite andb_true_iff in H. destruct H as [[[H1 H2] H3] H4].
  destruct (do1 demo_cfg dx 2 junk0 s (DResume 0 2 2)) as [[[] s']|] eqn:E2; try discriminate.
  exists (map snd tr), s, s'. split; [apply path_exec; auto|]. split; [destruct (t_on (s_thr s 0)); auto; discriminate|].
  split; [apply in_windowb_ok; auto|]. split; auto. split; [apply (do1_ok _ _ _ _ _ _ _ _ E2 Hq)|].
  destruct (t_on (s_thr s' 0)); congruence.
Qed.

(** ** Unloading *)
(** The code is unloaded although thread 0's area still points to its
    descriptor: the thread is killed. *)
Lemma ex_unload_kills : exists ls s, exec demo_cfg dx script_client (demo1 0 0) ls s /\ t_dead (s_thr s 0) = true.
Proof.
  apply (at_exec dx (demo1 0 0) (DCall 0 :: rep 8 (DInstr 0) ++ [DUnload 5; DPreempt 0; DResume 0 0 0])
    (fun s => t_dead (s_thr s 0))); [apply demo_quiet|vm_compute; reflexivity].
Qed.

(** *** Careful runs, replayed *)
Definition areas_clear (n : nat) (s : Replay.state) (id : nat) : bool :=
  forallb (fun t => match rseq_cs (t_area (s_thr s t)) with Some i => negb (Nat.eqb i id) | None => true end) (seq 0 n).
Definition careful_act (s : Replay.state) (a : action) : bool :=
  match a with DUnload id => areas_clear 2 s id | _ => true end.
Fixpoint careful_replay (tx : text) (s : Replay.state) (acts : list action) : option (list clabel * Replay.state) :=
  match acts with
  | [] => Some ([], s)
  | a :: acts =>
    match do1 demo_cfg tx 2 junk0 s a with
    | Some (l, s1) =>
      if call_okb s l && careful_act s a then
        match careful_replay tx s1 acts with Some (ls, s2) => Some (l :: ls, s2) | None => None end
      else None
    | None => None
    end
  end.

Definition asleep (s : Replay.state) : Prop :=
  forall t, (2 <= t)%nat -> rseq_cs (t_area (s_thr s t)) = None.

Lemma do1_loaded : forall tx s a l s', do1 demo_cfg tx 2 junk0 s a = Some (l, s') ->
  (forall id, a <> DUnload id) -> s_loaded s' = s_loaded s.
Proof.
  intros tx s a l s' H Hn.
  destruct a; try (exfalso; eapply Hn; reflexivity); cbn [do1] in H;
    repeat match type of H with
    | (if ?b then _ else _) = _ => destruct b
    | (match ?x with _ => _ end) = _ => destruct x
    end; try discriminate; inversion H; reflexivity.
Qed.
Lemma do1_asleep : forall tx s a l s', do1 demo_cfg tx 2 junk0 s a = Some (l, s') -> asleep s -> asleep s'.
Proof.
  intros tx s a l s' H Hs t Ht. specialize (Hs t Ht).
  assert (Hset : forall u th', (u < 2)%nat -> s_thr (set_t s u th') t = s_thr s t).
  { intros u th' Hu. apply set_t_other. lia. }
  destruct a; cbn [do1] in H;
    try (destruct (Nat.ltb t0 2) eqn:Elt; cbn [negb andb] in H; [apply Nat.ltb_lt in Elt|discriminate]);
    repeat match type of H with
    | (if ?b then _ else _) = _ => destruct b
    | (match ?x with _ => _ end) = _ => destruct x
    end; try discriminate; inversion H; subst; cbn [s_thr set_m]; try rewrite Hset by lia; auto.
Qed.

Lemma careful_replay_ok : forall tx acts s0 ls0 s ls s',
  careful_exec demo_cfg tx script_client s0 ls0 s -> careful_replay tx s acts = Some (ls, s') ->
  quiet 2 s -> asleep s -> careful_exec demo_cfg tx script_client s0 (ls0 ++ ls) s'.
Proof.
  intros tx. induction acts as [|a acts IH]; cbn [careful_replay]; intros s0 ls0 s ls s' He H Hq Hs.
  - inversion H; subst. rewrite app_nil_r. auto.
  - destruct (do1 demo_cfg tx 2 junk0 s a) as [[l s1]|] eqn:E; [|discriminate].
    destruct (call_okb s l && careful_act s a) eqn:Eo; [|discriminate].
    apply andb_true_iff in Eo. destruct Eo as [Eo Ec].
    destruct (careful_replay tx s1 acts) as [[ls1 s2]|] eqn:Er; [|discriminate]. inversion H; subst.
    destruct (do1_ok _ _ _ _ _ _ _ _ E Hq) as [H1 H2].
    change (l :: ls1) with ([l] ++ ls1). rewrite app_assoc.
    eapply IH; eauto; [|eapply do1_asleep; eauto].
    econstructor; eauto; [apply call_okb_ok; auto|].
    intros id L1 L2 t Hcs.
    assert (Hu : a = DUnload id).
    { destruct a as [| | | | | | | |i]; try (exfalso; rewrite (do1_loaded _ _ _ _ _ E) in L2 by (intros ?; discriminate); rewrite L1 in L2; discriminate L2).
      cbn [do1] in E. destruct (unusedb 2 s i); [|discriminate]. inversion E; subst. cbn in L2.
      destruct (Nat.eqb_spec id i); [congruence|congruence]. }
    subst a. cbn [careful_act] in Ec. unfold areas_clear in Ec. rewrite forallb_forall in Ec.
    destruct (lt_dec t 2) as [Hlt|Hge]; [|rewrite Hs in Hcs by lia; discriminate].
    specialize (Ec t). rewrite List.in_seq in Ec. specialize (Ec ltac:(lia)). rewrite Hcs, Nat.eqb_refl in Ec. discriminate.
Qed.

(** With rseq_prepare_unload() called first, nothing happens to the thread. *)
Lemma ex_careful : exists ls s, careful_exec demo_cfg dx script_client (demo1 0 0) ls s /\
  s_loaded s 5 = false /\ t_on (s_thr s 0) = Some (3, 3).
Proof.
  set (acts := DCall 0 :: rep 6 (DInstr 0) ++ [DIpi 0; DInstr 0; DInstr 0; DClear 0; DUnload 5; DPreempt 0; DResume 0 3 3]).
  set (chk := fun s : Replay.state => negb (s_loaded s 5%nat) &&
     match t_on (s_thr s 0) with Some (a, b) => (a =? 3) && (b =? 3) | None => false end).
  assert (H : match careful_replay dx (demo1 0 0) acts with Some (_, s) => chk s | None => false end = true)
    by (vm_compute; reflexivity).
  destruct (careful_replay dx (demo1 0 0) acts) as [[ls s]|] eqn:E; [|discriminate].
  exists ls, s. split.
  - apply (careful_replay_ok dx acts (demo1 0 0) [] (demo1 0 0)); auto; [constructor|apply demo_quiet|].
    intros t Ht. destruct t as [|[|t]]; try lia; auto.
  - unfold chk in H. apply andb_true_iff in H. destruct H as [H1 H2]. split.
    + destruct (s_loaded s 5%nat); auto; discriminate.
    + destruct (t_on (s_thr s 0)) as [[x y]|]; [|discriminate]. apply andb_true_iff in H2. destruct H2 as [H2 H3].
      apply Z.eqb_eq in H2, H3. congruence.
Qed.

(** ** Unregistered thread, mm_cid mode, cpu argument 0 *)
Definition k_cid : call := {| c_code := 10; c_op := CbneStore 8 0 5; c_cpu := 0; c_mode := MM_CID |}.
Definition demo2 : Replay.state := demo_state false [k_cid] [].
Lemma ex_unregistered : exists ls s, steps script demo_cfg dx script_client demo2 ls s /\
  t_reg (s_thr s 0) = false /\ In (Lret 0 k_cid 0) ls /\ In (Lwr 0 (stw demo_cfg 8 5)) ls /\
  ldw demo_cfg (s_mem s) 8 = 5.
Proof.
  set (acts := DCall 0 :: rep 7 (DInstr 0)).
  set (is_ret := fun l => match l with Lret 0 c r => (if call_eq_dec c k_cid then true else false) && (r =? 0) | _ => false end).
  set (is_wr := fun l => match l with Lwr 0 ps => if list_eq_dec zz_dec ps (stw demo_cfg 8 5) then true else false | _ => false end).
  set (chk := fun (tr : list (Replay.state * clabel)) (s : Replay.state) =>
     negb (t_reg (s_thr s 0)) && existsb is_ret (map snd tr) && existsb is_wr (map snd tr) && (ldw demo_cfg (s_mem s) 8 =? 5)).
  assert (H : match replay demo_cfg dx 2 junk0 false demo2 acts with Some (tr, s) => chk tr s | None => false end = true)
    by (vm_compute; reflexivity).
  destruct (replay demo_cfg dx 2 junk0 false demo2 acts) as [[tr s]|] eqn:E; [|discriminate].
  destruct (replay_steps _ _ _ _ _ _ _ _ _ E (demo_quiet _ _ _)) as [Hs _].
  exists (map snd tr), s. split; auto. unfold chk in H. repeat rewrite andb_true_iff in H. destruct H as [[[H1 H2] H3] H4].
  split; [destruct (t_reg (s_thr s 0)); auto; discriminate|]. apply existsb_exists in H2, H3.
  destruct H2 as (l & L1 & L2), H3 as (l' & L3 & L4). apply Z.eqb_eq in H4. split; [|split; auto].
  - destruct l as [| |[|] c r| |]; try discriminate. unfold is_ret in L2. apply andb_true_iff in L2. destruct L2 as [L2 L2'].
    destruct (call_eq_dec c k_cid); [|discriminate]. apply Z.eqb_eq in L2'. subst. auto.
  - destruct l' as [| | |[|] ps|]; try discriminate. unfold is_wr in L4. destruct (list_eq_dec zz_dec ps (stw demo_cfg 8 5)); [|discriminate].
    subst. auto.
Qed.

Lemma ex_unregistered_full : exists ls s,
  steps script demo_cfg dx script_client demo2 ls s /\
  lib_text X86_64 false dx /\ initial demo2 /\ t_reg (s_thr demo2 0) = false /\
  t_reg (s_thr s 0) = false /\ In (Lret 0 k_cid 0) ls /\ In (Lwr 0 (stw demo_cfg 8 5)) ls /\
  ldw demo_cfg (s_mem s) 8 = 5.
Proof.
  destruct ex_unregistered as (ls & s & H1 & H2 & H3 & H4 & H5). exists ls, s.
  split; auto. split; [apply demo_lib|]. split; [apply demo_initial|]. auto.
Qed.

Lemma ex_twice : exists tr s3 s4,
  lifetime demo_cfg (demo_text X86_64 true) script_client 0 (k_store 0 16 7 8 0 5) (demo1 0 0) tr s3 0 s4 /\
  map snd (own_writes 0 1 tr) = [w16; w8].
Proof. apply (gives_life _ (demo1 0 0) 0 (rep 11 (DInstr 0))); [apply demo_quiet|vm_compute; reflexivity]. Qed.

Lemma ex_call : exists s2, step demo_cfg dx script_client (demo1 0 0) (Lcall 0 dk0) s2 /\
  call_ok (demo1 0 0) (Lcall 0 dk0) /\ op_wf demo_cfg (c_op dk0) (s_mem (demo1 0 0)) /\
  index (t_area (s_thr (demo1 0 0) 0)) (c_mode dk0) = c_cpu dk0 mod 2 ^ 32.
Proof.
  assert (H : match do1 demo_cfg dx 2 junk0 (demo1 0 0) (DCall 0) with
     | Some (Lcall 0 c, _) => if call_eq_dec c dk0 then true else false | _ => false end = true) by (vm_compute; reflexivity).
  destruct (do1 demo_cfg dx 2 junk0 (demo1 0 0) (DCall 0)) as [[[|[|] c| | |] s2]|] eqn:E; try discriminate.
  destruct (call_eq_dec c dk0); [subst c|discriminate]. destruct (do1_ok _ _ _ _ _ _ _ _ E (demo_quiet _ _ _)) as [Hs _].
  exists s2. split; auto. split; [left; reflexivity|]. split; [|reflexivity].
  assert (Hf : fits demo_cfg demo_own 0 dk0) by (unfold dk0; fit_store). apply Hf.
Qed.

(** Thread 0 makes its call, returns, and calls rseq_prepare_unload(). *)
Lemma ex_prepared : exists tr s', path demo_cfg dx script_client (demo1 0 0) tr s' /\
  prepared_in demo_cfg dx script_client (demo1 0 0) tr s' 0 5 /\
  (exists sx, In (sx, Lcall 0 dk0) tr) /\ c_code dk0 = 5%nat.
Proof.
  set (acts := DCall 0 :: rep 8 (DInstr 0)).
  set (chk := fun (tr : list (Replay.state * clabel)) (s : Replay.state) =>
     match t_ctx (s_thr s 0) with [{| x_act := None |}] => true | _ => false end &&
     match do1 demo_cfg dx 2 junk0 s (DClear 0) with Some (Ltau, _) => true | _ => false end &&
     match tr with (_, Lcall 0 c) :: _ => if call_eq_dec c dk0 then true else false | _ => false end).
  assert (H : match replay demo_cfg dx 2 junk0 true (demo1 0 0) acts with Some (tr, s) => chk tr s | None => false end = true)
    by (vm_compute; reflexivity).
  destruct (replay demo_cfg dx 2 junk0 true (demo1 0 0) acts) as [[tr s]|] eqn:E; [|discriminate].
  destruct (replay_path _ _ _ _ _ _ _ _ E (demo_quiet _ _ _)) as [Hp Hq].
  unfold chk in H. repeat rewrite andb_true_iff in H. destruct H as [[H1 H2] H3].
  destruct (t_ctx (s_thr s 0)) as [|[lo [|]] [|]] eqn:Ek; try discriminate H1.
  destruct (do1 demo_cfg dx 2 junk0 s (DClear 0)) as [[[] s']|] eqn:E2; try discriminate H2.
  destruct (do1_ok _ _ _ _ _ _ _ _ E2 Hq) as [Hs _].
  assert (Es : s' = set_t s 0 (set_cs (s_thr s 0) None)).
  { cbn [do1] in E2. rewrite Ek in E2. destruct (negb _); [discriminate|]. inversion E2. reflexivity. }
  exists (tr ++ [(s, Ltau)]), s'. split; [econstructor; eauto; exact Logic.I|]. split; [|split; auto].
  - exists tr, s, []. split; auto. split; [rewrite Ek; intros x [<-|[]] (f & F & _); discriminate|].
    split; [rewrite <- Es; constructor|]. split; auto.
  - destruct tr as [|[sx [|[|] c| | |]] tr]; try discriminate H3. destruct (call_eq_dec c dk0) as [->|]; [|discriminate H3].
    exists sx. left. auto.
Qed.
