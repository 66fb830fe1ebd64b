(** Concrete runs of the membarrier test on x86-TSO. *)
From Coq Require Import ZArith Bool List Lia.
From Verif Require Import RseqIR RseqSpec RseqKernel RseqSim RseqCalls MemLemmas.
From Verif Require Import Replay ExRseq Archs ArchsGood ClientReplay BarrierSpec ExBarrier TsoModel TsoSpec.
Import ListNotations.
Local Open Scope Z_scope.

Section OReplay.
Variables (Loc : Type) (cl : client Loc) (g : cfg) (tx : text) (n : nat) (p : player Loc) (others : nat -> thread Loc).
Variables (ask : Loc -> option ((Z -> Prop) * Loc)) (askb : Loc -> Z -> bool).
Hypothesis Hp : plays cl p.
Hypothesis Hoth : forall t, t_on (others t) = None.
Hypothesis Haskb : forall l D l', ask l = Some (D, l') -> forall c, D c -> askb l c = true.

Definition who (a : cact) : nat :=
  match a with CInstr t | CCall t | CTau t _ | CWrite t | CPreempt t | CResume t _ | CSignal t | CSigret t => t end.
Lemma cdo1_who : forall s a l s', cdo1 Loc cl g tx n p s a = Some (l, s') ->
  (forall u, u <> who a -> s_thr s' u = s_thr s u) /\ (forall u ps, l = Lwr u ps -> u = who a).
Proof.
  intros s a l s' H.
  assert (Hg : forall t (X : option (clabel * RseqKernel.state Loc)), (if negb (onb Loc n s t) then None else X) = Some (l, s') -> X = Some (l, s')).
  { intros t X HX. destruct (onb Loc n s t); [exact HX|discriminate HX]. }
  assert (Hf : forall t th l0, Some (l0, set_t s t th) = Some (l, s') -> (forall u ps, l0 <> Lwr u ps) ->
     (forall u, u <> t -> s_thr s' u = s_thr s u) /\ (forall u ps, l = Lwr u ps -> u = t)).
  { intros t th l0 E Hn. injection E as <- <-. split; [intros u Hu; apply set_t_other; exact Hu|intros u ps E; destruct (Hn u ps E)]. }
  assert (Hw : forall t th ps m, Some (Lwr t ps, set_m (set_t s t th) m) = Some (l, s') ->
     (forall u, u <> t -> s_thr s' u = s_thr s u) /\ (forall u ps, l = Lwr u ps -> u = t)).
  { intros t th ps m E. injection E as <- <-. split; [intros u Hu; apply (set_t_other _ _ _ _ _ Hu)|intros u ps' E; injection E as <- _; reflexivity]. }
  destruct a; cbn [cdo1 who] in *; try apply Hg in H.
  - destruct (t_ctx (s_thr s t)) as [|[lo [f|]] k]; try discriminate H.
    destruct (tx (c_code (f_call f))) as [[P kd]|]; [|discriminate H]. destruct (s_loaded s (c_code (f_call f))); [|discriminate H].
    destruct (istep _ _ _ _ _ _) as [[[[pc' rs'] e] rd]|]; [|discriminate H]. destruct e as [|ps| |x].
    + refine (Hf _ _ _ H _). discriminate.
    + exact (Hw _ _ _ _ H).
    + refine (Hf _ _ _ H _). discriminate.
    + destruct (exit_ret x); [|discriminate H]. refine (Hf _ _ _ H _). discriminate.
  - destruct (t_ctx (s_thr s t)) as [|[lo [f|]] k]; try discriminate H. destruct (pl_call p lo (s_mem s)) as [c|]; [|discriminate H].
    destruct (tx (c_code c)) as [[P kd]|]; [|discriminate H]. destruct (s_loaded s (c_code c)); [|discriminate H].
    destruct (_ && _); [|discriminate H]. refine (Hf _ _ _ H _). discriminate.
  - destruct (t_ctx (s_thr s t)) as [|[lo [f|]] k]; try discriminate H. destruct (pl_tau p lo (s_mem s) z); [|discriminate H]. refine (Hf _ _ _ H _). discriminate.
  - destruct (t_ctx (s_thr s t)) as [|[lo [f|]] k]; try discriminate H. destruct (pl_write p lo (s_mem s)) as [[ps l']|]; [|discriminate H]. exact (Hw _ _ _ _ H).
  - refine (Hf _ _ _ H _). discriminate.
  - destruct (_ && _); [|discriminate H]. refine (Hf _ _ _ H _). discriminate.
  - destruct (t_ctx (s_thr s t)) as [|x k]; try discriminate H. destruct (pl_sig p (x_loc x)); [|discriminate H]. refine (Hf _ _ _ H _). discriminate.
  - destruct (t_ctx (s_thr s t)) as [|[lo [f|]] [|x k]]; try discriminate H. destruct (pl_done p lo); [|discriminate H]. refine (Hf _ _ _ H _). discriminate.
Qed.

(** [XExit]: the kernel sees which CPUs run no thread of the process, then
    sys_membarrier() returns. *)
Inductive oact := XC (a : cact) | XDrain (t : nat) | XEnter (t : nat) | XIpi (t u : nat) | XExit (t : nat).

Definition emptyb (T : tso Loc) (t : nat) : bool := match o_buf T t with [] => true | _ => false end.
Definition sameon (a b : option (Z * Z)) : bool :=
  match a, b with None, None => true | Some (c, d), Some (c', d') => (c =? c') && (d =? d') | _, _ => false end.
Definition off (s : RseqKernel.state Loc) (c : Z) : bool :=
  forallb (fun u => match t_on (s_thr s u) with Some (c', _) => negb (c' =? c) | None => true end) (seq 0 n).

Definition odo (T : tso Loc) (a : oact) : option (tso Loc) :=
  match a with
  | XC a =>
    let t := who a in
    match cdo1 Loc cl g tx n p (set_m (o_core T) (sees T t)) a with
    | Some (l, s') =>
      if Nat.ltb t n && (sameon (t_on (s_thr s' t)) (t_on (s_thr (o_core T) t)) || emptyb T t)
      then Some {| o_core := set_m s' (s_mem (o_core T)); o_buf := upd (o_buf T) t (o_buf T t ++ wrote l); o_mb := o_mb T |}
      else None
    | None => None
    end
  | XDrain t =>
    match o_buf T t with
    | ps :: b => Some {| o_core := set_m (o_core T) (wr (s_mem (o_core T)) ps); o_buf := upd (o_buf T) t b; o_mb := o_mb T |}
    | [] => None
    end
  | XEnter t =>
    match t_ctx (s_thr (o_core T) t) with
    | {| x_loc := l; x_act := None |} :: k =>
      match ask l, o_mb T t with
      | Some _, None =>
        if onb Loc n (o_core T) t && emptyb T t
        then Some {| o_core := o_core T; o_buf := o_buf T; o_mb := upd (o_mb T) t (Some (fun _ => false)) |}
        else None
      | _, _ => None
      end
    | _ => None
    end
  | XIpi t u =>
    match o_mb T t, t_on (s_thr (o_core T) u) with
    | Some d, Some (cpu, cid) =>
      if onb Loc n (o_core T) u && emptyb T u
      then Some {| o_core := set_t (o_core T) u (fixup tx (s_loaded (o_core T)) (s_thr (o_core T) u));
                   o_buf := o_buf T; o_mb := upd (o_mb T) t (Some (fun c => (c =? cpu) || d c)) |}
      else None
    | _, _ => None
    end
  | XExit t =>
    match t_ctx (s_thr (o_core T) t) with
    | {| x_loc := l; x_act := None |} :: k =>
      match ask l, o_mb T t with
      | Some (_, l'), Some d =>
        if onb Loc n (o_core T) t &&
           forallb (fun u => match t_on (s_thr (o_core T) u) with Some (c, _) => negb (askb l c) || d c | None => true end) (seq 0 n)
        then Some {| o_core := set_t (o_core T) t (set_ctx (s_thr (o_core T) t) ({| x_loc := l'; x_act := None |} :: k));
                     o_buf := o_buf T; o_mb := upd (upd (o_mb T) t (Some (fun c => off (o_core T) c || d c))) t None |}
        else None
      | _, _ => None
      end
    | _ => None
    end
  end.

Notation stays := (stays n others).
Definition quiet (T : tso Loc) : Prop := stays (o_core T) /\ forall t, (n <= t)%nat -> o_buf T t = [].
Lemma off_ok : forall s c u cid, stays s -> off s c = true -> t_on (s_thr s u) <> Some (c, cid).
Proof.
  intros s c u cid Hq H E. destruct (lt_dec u n) as [Hu|Hu].
  - unfold off in H. rewrite forallb_forall in H. specialize (H u). rewrite List.in_seq in H. specialize (H ltac:(lia)). rewrite E, Z.eqb_refl in H. discriminate H.
  - rewrite (Hq u ltac:(lia)), Hoth in E. discriminate E.
Qed.
Lemma off_no : forall s (f : Z -> bool) c,
  forallb (fun u => match t_on (s_thr s u) with Some (c, _) => f c | None => true end) (seq 0 n) = true -> off s c || f c = true.
Proof.
  intros s f c H. destruct (off s c) eqn:E; [reflexivity|]. cbn. unfold off in E. rewrite forallb_forall in H.
  apply not_false_iff_true. intros Hc. apply eq_true_false_abs with (2 := E). apply forallb_forall. intros u Hu. specialize (H u Hu).
  destruct (t_on (s_thr s u)) as [[c' d']|]; [|reflexivity]. apply negb_true_iff. apply Z.eqb_neq. intros ->. congruence.
Qed.
Lemma odo_ok : forall T a T', odo T a = Some T' -> quiet T -> oruns g tx cl ask T T' /\ quiet T'.
Proof.
  intros T a T' H [Hq Hqb].
  assert (Hone : forall T1 T2, ostep g tx cl ask T1 T2 -> oruns g tx cl ask T1 T2) by (intros T1 T2 Hs; econstructor; [constructor|exact Hs]).
  destruct a as [a|t|t|t u|t]; cbn [odo] in H.
  - destruct (cdo1 Loc cl g tx n p (set_m (o_core T) (sees T (who a))) a) as [[l s']|] eqn:E; [|discriminate H].
    destruct (_ && _) eqn:Eon; [|discriminate H]. injection H as <-. apply andb_true_iff in Eon. destruct Eon as [Elt Eon]. apply Nat.ltb_lt in Elt.
    destruct (cdo1_ok Loc cl g tx n p Hp others Hoth _ a l s' E) as (H1 & H2 & H3); [intros u Hu; exact (Hq u Hu)|].
    destruct (cdo1_who _ a l s' E) as [H4 H5]. split; [|split; cbn; intros u Hu; [exact (H2 u Hu)|unfold upd; destruct (Nat.eqb_spec u (who a)); [lia|auto]]]. apply Hone.
    refine (O_step Loc g tx cl ask T (who a) l s' H1 H4 H5 _ H3).
    intros Hne. apply orb_true_iff in Eon. destruct Eon as [Eon|Eon].
    + exfalso. apply Hne. unfold sameon in Eon. destruct (t_on (s_thr s' (who a))) as [[c d]|], (t_on (s_thr (o_core T) (who a))) as [[c' d']|]; try discriminate Eon; [|reflexivity].
      apply andb_true_iff in Eon. destruct Eon as [E1 E2]. apply Z.eqb_eq in E1, E2. subst. reflexivity.
    + unfold emptyb in Eon. destruct (o_buf T (who a)); [reflexivity|discriminate Eon].
  - destruct (o_buf T t) as [|ps b] eqn:E; [discriminate H|]. injection H as <-. split; [|split; cbn; intros u Hu; [exact (Hq u Hu)|unfold upd; destruct (Nat.eqb_spec u t) as [-> |]; [rewrite (Hqb t Hu) in E; discriminate E|auto]]]. apply Hone. apply O_drain. exact E.
  - destruct (t_ctx (s_thr (o_core T) t)) as [|[l [f|]] k] eqn:Ek; try discriminate H. destruct (ask l) as [[D l']|] eqn:Ea; [|discriminate H].
    destruct (o_mb T t) eqn:Em; [discriminate H|]. destruct (_ && _) eqn:Ec; [|discriminate H]. injection H as <-. apply andb_true_iff in Ec. destruct Ec as [E1 E2].
    apply onb_ok in E1. split; [|split; [exact Hq|exact Hqb]]. apply Hone. eapply O_enter; eauto; [apply E1|]. unfold emptyb in E2. destruct (o_buf T t); [reflexivity|discriminate E2].
  - destruct (o_mb T t) as [d|] eqn:Em; [|discriminate H]. destruct (t_on (s_thr (o_core T) u)) as [[c cid]|] eqn:Eu; [|discriminate H].
    destruct (_ && _) eqn:Ec; [|discriminate H]. injection H as <-. apply andb_true_iff in Ec. destruct Ec as [E1 E2]. apply onb_ok in E1. destruct E1 as [[_ E1] E3].
    split; [|split; cbn; intros v Hv; [rewrite set_t_other by lia; exact (Hq v Hv)|exact (Hqb v Hv)]]. apply Hone. eapply O_ipi; eauto. unfold emptyb in E2. destruct (o_buf T u); [reflexivity|discriminate E2].
  - destruct (t_ctx (s_thr (o_core T) t)) as [|[l [f|]] k] eqn:Ek; try discriminate H. destruct (ask l) as [[D l']|] eqn:Ea; [|discriminate H].
    destruct (o_mb T t) as [d|] eqn:Em; [|discriminate H]. destruct (_ && _) eqn:Ec; [|discriminate H]. injection H as <-. apply andb_true_iff in Ec. destruct Ec as [E1 E2].
    apply onb_ok in E1. destruct E1 as [E1 E3]. split; [|split; cbn; intros v Hv; [rewrite set_t_other by lia; exact (Hq v Hv)|exact (Hqb v Hv)]].
    econstructor; [apply Hone; apply (O_idle Loc g tx cl ask T t d (off (o_core T)) Em); intros c u cid Hc; exact (off_ok _ _ _ _ Hq Hc)|].
    refine (O_exit Loc g tx cl ask {| o_core := o_core T; o_buf := o_buf T; o_mb := upd (o_mb T) t (Some (fun c => off (o_core T) c || d c)) |} t l k D l' _ E1 Ek Ea _ _).
    + cbn. unfold upd. rewrite Nat.eqb_refl. reflexivity.
    + intros c Hc. pose proof (Haskb l D l' Ea c Hc) as Hb. pose proof (off_no (o_core T) (fun c => negb (askb l c) || d c) c E2) as Ho. cbn in Ho. rewrite Hb in Ho. exact Ho.
Qed.

Fixpoint oreplay (T : tso Loc) (acts : list oact) : option (tso Loc) :=
  match acts with [] => Some T | a :: r => match odo T a with Some T9 => oreplay T9 r | None => None end end.
Lemma oruns_app : forall A B C, oruns g tx cl ask A B -> oruns g tx cl ask B C -> oruns g tx cl ask A C.
Proof. intros A B C H1 H2. induction H2 as [|B C D H2 IH Hs]; [exact H1|]. econstructor; [apply IH; exact H1|exact Hs]. Qed.
Lemma oreplay_ok : forall acts T T', oreplay T acts = Some T' -> quiet T -> oruns g tx cl ask T T' /\ quiet T'.
Proof.
  induction acts as [|a r IH]; intros T T' H Hq; cbn in H; [injection H as <-; split; [constructor|exact Hq]|].
  destruct (odo T a) as [T9|] eqn:E; [|discriminate H]. destruct (odo_ok T a T9 E Hq) as [H1 H2]. destruct (IH T9 T' H H2) as [H3 H4].
  split; [|exact H4]. exact (oruns_app _ _ _ H1 H3).
Qed.
Definition oends (T : tso Loc) (acts : list oact) (f : tso Loc -> bool) : bool := match oreplay T acts with Some T' => f T' | None => false end.
Lemma oends_ok : forall T acts f, oends T acts f = true -> quiet T ->
  exists T', oruns g tx cl ask T T' /\ quiet T' /\ f T' = true.
Proof.
  intros T acts f H Hq. unfold oends in H. destruct (oreplay T acts) as [T'|] eqn:E; [|discriminate H]. destruct (oreplay_ok _ _ _ E Hq) as [H1 H2]. eauto.
Qed.
End OReplay.

(** ** The test, with one worker (thread 0) and the manager (thread 1) *)
Definition mt_player (md : imode) (code : nat) : player mt_loc :=
  {| pl_call := fun l _ => match l with
       | Tcall (S _) cpu => if (0 <=? cpu) && (cpu <? 2) then
           Some {| c_code := code; c_op := AddLoadLoadAddStore 16 (4096 * cpu + 8) 1; c_cpu := cpu; c_mode := md |} else None
       | _ => None end;
     pl_tau := fun l m z => match l with
       | Tread (S k) => if (0 <=? z) && (z <? 2) then Some (Tcall (S k) z) else None
       | Mcheck a cpu e => if e =? counter demo_cfg ex_L m (if a then ex_b else ex_a) cpu
           then if (0 <=? z) && (z <? 2) then Some (Mstore a z) else if a then Some Mend else None
           else Some Mfailed
       | Mread a cpu => Some (Mcheck a cpu (counter demo_cfg ex_L m (if a then ex_b else ex_a) cpu))
       | _ => None end;
     pl_write := fun l _ => match l with Mstore a cpu => Some (stw demo_cfg 16 (if a then ex_b else ex_a), Mwait (negb a) cpu) | _ => None end;
     pl_sig := fun _ => Some (Tread 0);
     pl_done := fun l => match l with Tread 0 => true | _ => false end |}.
Lemma in2 : forall z, (0 <=? z) && (z <? 2) = true -> 0 <= z < 2.
Proof. intros z E. apply andb_true_iff in E. destruct E as [E1 E2]. apply Z.leb_le in E1. apply Z.ltb_lt in E2. lia. Qed.
Lemma mt_plays : forall md code, plays (mt_client demo_cfg md ex_L ex_a ex_b) (mt_player md code).
Proof.
  intros md code. split; [|split; [|split; [|split]]].
  - intros l m c H. destruct l as [|[|k] cpu| | | | | |]; try discriminate H. cbn in H. destruct (_ && _) eqn:E; [|discriminate H].
    injection H as <-. exists k, cpu, code. split; [reflexivity|]. split; [exact (in2 _ E)|reflexivity].
  - intros l m z l' H. destruct l as [[|k]|k cpu|a cpu e| | |a cpu| |]; try discriminate H; cbn [pl_tau mt_player cl_tau mt_client] in *.
    + destruct (_ && _) eqn:E; [|discriminate H]. injection H as <-. exists z. split; [exact (in2 _ E)|reflexivity].
    + destruct (e =? _) eqn:Ee.
      * destruct (_ && _) eqn:E; [injection H as <-; right; exists z; split; [exact (in2 _ E)|reflexivity]|]. destruct a; [|discriminate H]. injection H as <-. left. auto.
      * injection H as <-. right. reflexivity.
    + injection H as <-. reflexivity.
  - intros l m ps l' H. destruct l as [|k cpu| |a cpu| | | |]; try discriminate H. injection H as <- <-. exists a, cpu. auto.
  - intros l l' H. injection H as <-. reflexivity.
  - intros l H. destruct l as [[|k]|k cpu| | | | | |]; try discriminate H. reflexivity.
Qed.

Definition mt_todo (t : nat) : nat := match t with 0%nat => 3%nat | _ => 0%nat end.
Definition mt_at (t : nat) : mt_loc := match t with 1%nat => Mcheck true 0 0 | t => Tread (mt_todo t) end.
Definition mt_T0 : tso mt_loc := {| o_core := cstart ex_m mt_at; o_buf := fun _ => []; o_mb := fun _ => None |}.
Definition mt_oth (t : nat) : thread mt_loc := idle_thread (mt_at t) None.
Lemma mt_quiet : quiet mt_loc 2 mt_oth mt_T0.
Proof. split; [apply cstart_stays|reflexivity]. Qed.
Lemma mt_starts : starts demo_cfg ex_L ex_a 1 mt_todo mt_T0.
Proof.
  split; [apply cstart_initial|]. split; [intros t; split; reflexivity|]. split; [reflexivity|].
  split; [intros t Ht; destruct t as [|[|t]]; [reflexivity|contradiction|reflexivity]|]. split; [cbn; lia|].
  split; [exact ex_lists|]. split; [vm_compute; reflexivity|].
  intros b c H. apply two_items in H. destruct H as [[-> | ->] [-> | ->]]; vm_compute; reflexivity.
Qed.

Definition mt_askb (md : imode) (l : mt_loc) (c : Z) : bool := match md with CPU_ID => match l with Mwait _ cpu => c =? cpu | _ => true end | MM_CID => true end.
Lemma mt_askb_ok : forall md l D l', mt_ask md l = Some (D, l') -> forall c, D c -> mt_askb md l c = true.
Proof. intros md l D l' H c Hc. destruct md; [|reflexivity]. destruct l; try discriminate H. cbn in H. injection H as <- <-. cbn in *. apply Z.eqb_eq. exact Hc. Qed.
(** The same test without the barrier. *)
Definition no_ask (l : mt_loc) : option ((Z -> Prop) * mt_loc) :=
  match l with Mwait a cpu => Some (fun _ => False, Mread a cpu) | _ => None end.
Lemma no_askb_ok : forall l D l', no_ask l = Some (D, l') -> forall c, D c -> (fun (_ : mt_loc) (_ : Z) => false) l c = true.
Proof. intros l D l' H c Hc. destruct l; try discriminate H. cbn in H. injection H as <- <-. destruct Hc. Qed.

Fixpoint xrep (n : nat) (x : oact) : list oact := match n with O => [] | S n => x :: xrep n x end.
(** An increment by thread 0: draw, call, six instructions before the store, the
    store, the return. *)
Definition w_until : list oact := [XC (CTau 0 0); XC (CCall 0)] ++ xrep 6 (XC (CInstr 0)).
Definition w_store : list oact := xrep 2 (XC (CInstr 0)).
Definition overb (T : tso mt_loc) (t : nat) : bool :=
  match t_ctx (s_thr (o_core T) t) with [{| x_loc := Tread 0; x_act := None |}] => emptyb mt_loc T t | _ => false end.
Lemma overb_ok : forall T t, overb T t = true -> over T t.
Proof.
  intros T t H. unfold overb in H. destruct (t_ctx (s_thr (o_core T) t)) as [|[[[|k]| | | | | | |] [f|]] [|y r]] eqn:E; try discriminate H.
  split; [exact E|]. unfold emptyb in H. destruct (o_buf T t); [reflexivity|discriminate H].
Qed.
Definition failedb (T : tso mt_loc) : bool :=
  match t_ctx (s_thr (o_core T) 1) with {| x_loc := Mfailed |} :: _ => true | _ => false end.
Lemma failedb_ok : forall T, failedb T = true -> failed T.
Proof.
  intros T H. unfold failedb in H. destruct (t_ctx (s_thr (o_core T) 1)) as [|[[| | | | | | |] a] r] eqn:E; try discriminate H.
  exists 1%nat, {| x_loc := Mfailed; x_act := a |}. rewrite E. split; [left; reflexivity|reflexivity].
Qed.
Definition pending (T : tso mt_loc) (t : nat) : bool := negb (emptyb mt_loc T t).
Definition cntb (T : tso mt_loc) (b c : Z) : Z := ldw demo_cfg (s_mem (o_core T)) (node ex_L b c).

(** Thread 0 increments list_a, with its store still pending, and is inside its
    second increment of list_a when the manager publishes list_b. *)
Definition mt_before : list oact := w_until ++ w_store ++ w_until ++ [XC (CTau 1 0); XC (CWrite 1)].
(** The barrier on all CPUs with a thread; thread 0 starts over, and finishes. *)
Definition mt_barrier : list oact := [XDrain 1; XEnter 1; XDrain 0; XIpi 1 0; XIpi 1 1; XC (CInstr 0); XC (CInstr 0); XExit 1].
Definition mt_after : list oact := w_until ++ w_store ++ [XC (CTau 1 0)] ++ [XDrain 0; XC (CTau 1 0)] ++ w_until ++ w_store ++ [XDrain 0].

Lemma mt_run : forall md code T acts f, quiet mt_loc 2 mt_oth T ->
  oends mt_loc (mt_client demo_cfg md ex_L ex_a ex_b) demo_cfg dx 2 (mt_player md code) (mt_ask md) (mt_askb md) T acts f = true ->
  exists T', oruns demo_cfg dx (mt_client demo_cfg md ex_L ex_a ex_b) (mt_ask md) T T' /\ quiet mt_loc 2 mt_oth T' /\ f T' = true.
Proof.
  intros md code T acts f Hq H.
  exact (oends_ok mt_loc (mt_client demo_cfg md ex_L ex_a ex_b) demo_cfg dx 2 (mt_player md code) mt_oth (mt_ask md) (mt_askb md)
    (mt_plays md code) (fun _ => eq_refl) (mt_askb_ok md) T acts f H Hq).
Qed.
Definition mt_code (md : imode) : nat := match md with CPU_ID => 3%nat | MM_CID => 13%nat end.
Definition inside_old (T : tso mt_loc) : bool :=
  match t_ctx (s_thr (o_core T) 0) with {| x_act := Some f |} :: _ => f_rs f T2 =? node ex_L ex_a 0 | _ => false end.

(** In the middle, thread 0 holds the address of the old list and has a store
    pending, and so has the manager; in the end, all is counted. *)
Lemma ex_mt : forall md, exists T T', 
  oruns demo_cfg dx (mt_client demo_cfg md ex_L ex_a ex_b) (mt_ask md) mt_T0 T /\
  (exists l f k, t_ctx (s_thr (o_core T) 0) = {| x_loc := l; x_act := Some f |} :: k /\ f_rs f T2 = node ex_L ex_a 0) /\
  o_buf T 0 <> [] /\ o_buf T 1 <> [] /\
  oruns demo_cfg dx (mt_client demo_cfg md ex_L ex_a ex_b) (mt_ask md) mt_T0 T' /\
  (forall t, t <> 1%nat -> over T' t) /\
  ldw demo_cfg (s_mem (o_core T')) (node ex_L ex_a 0) = 1 /\ ldw demo_cfg (s_mem (o_core T')) (node ex_L ex_b 0) = 2.
Proof.
  intros md.
  assert (H : oends mt_loc (mt_client demo_cfg md ex_L ex_a ex_b) demo_cfg dx 2 (mt_player md (mt_code md)) (mt_ask md) (mt_askb md) mt_T0 mt_before
     (fun T => inside_old T && pending T 0 && pending T 1 &&
       oends mt_loc (mt_client demo_cfg md ex_L ex_a ex_b) demo_cfg dx 2 (mt_player md (mt_code md)) (mt_ask md) (mt_askb md) T (mt_barrier ++ mt_after)
         (fun T' => overb T' 0 && (cntb T' ex_a 0 =? 1) && (cntb T' ex_b 0 =? 2))) = true)
    by (destruct md; vm_compute; reflexivity).
  destruct (mt_run md (mt_code md) _ _ _ mt_quiet H) as (T & R1 & S1 & F). repeat rewrite andb_true_iff in F. destruct F as (((F1 & F2) & F3) & F4).
  destruct (mt_run md (mt_code md) _ _ _ S1 F4) as (T' & R2 & S2 & F). repeat rewrite andb_true_iff in F. destruct F as ((F5 & F6) & F7).
  exists T, T'. split; [exact R1|]. split.
  { unfold inside_old in F1. destruct (t_ctx (s_thr (o_core T) 0)) as [|[lo [f|]] k]; [discriminate F1| |discriminate F1].
    apply Z.eqb_eq in F1. exists lo, f, k. split; [reflexivity|exact F1]. }
  split; [unfold pending, emptyb in F2; destruct (o_buf T 0); [discriminate F2|discriminate]|].
  split; [unfold pending, emptyb in F3; destruct (o_buf T 1); [discriminate F3|discriminate]|].
  split; [exact (oruns_app _ _ _ _ _ _ _ _ R1 R2)|]. split; [|apply Z.eqb_eq in F6, F7; split; [exact F6|exact F7]].
  intros t Ht. destruct t as [|[|t]]; [apply overb_ok; exact F5|contradiction|].
  destruct S2 as [S2 S3]. split; [rewrite (S2 (S (S t)) ltac:(lia)); reflexivity|apply S3; lia].
Qed.

(** Without the barrier the test fails: thread 0 stores to list_a after the
    manager has read its counter. *)
Definition mt_nobarrier : list oact :=
  w_until ++ [XC (CTau 1 0); XC (CWrite 1); XDrain 1; XEnter 1; XExit 1; XC (CTau 1 0)] ++ w_store ++ [XDrain 0; XC (CTau 1 0)].
Lemma ex_mt_nobarrier : exists T', oruns demo_cfg dx (mt_client demo_cfg CPU_ID ex_L ex_a ex_b) no_ask mt_T0 T' /\ failed T'.
Proof.
  assert (H : oends mt_loc (mt_client demo_cfg CPU_ID ex_L ex_a ex_b) demo_cfg dx 2 (mt_player CPU_ID 3) no_ask (fun _ _ => false) mt_T0 mt_nobarrier failedb = true)
    by (vm_compute; reflexivity).
  destruct (oends_ok mt_loc (mt_client demo_cfg CPU_ID ex_L ex_a ex_b) demo_cfg dx 2 (mt_player CPU_ID 3) mt_oth no_ask (fun _ _ => false)
    (mt_plays CPU_ID 3) (fun _ => eq_refl) no_askb_ok _ _ _ H mt_quiet) as (T' & R & _ & F).
  exists T'. split; [exact R|apply failedb_ok; exact F].
Qed.

(** In an mm_cid build a barrier on the CPU with the number of the counter is not
    enough: thread 0 has mm_cid 0 and runs on CPU 1. *)
Definition mt_X0 : tso mt_loc :=
  {| o_core := {| s_mem := ex_m;
       s_thr := fun t => idle_thread (mt_at t) (match t with 0%nat => Some (1, 0) | 1%nat => Some (0, 1) | _ => None end);
       s_loaded := fun _ => true |};
     o_buf := fun _ => []; o_mb := fun _ => None |}.
Lemma mt_X_quiet : quiet mt_loc 2 mt_oth mt_X0.
Proof. split; [intros t Ht; destruct t as [|[|t]]; try lia; reflexivity|reflexivity]. Qed.
Lemma mt_X_starts : starts demo_cfg ex_L ex_a 1 mt_todo mt_X0.
Proof.
  destruct mt_starts as (_ & S2 & S3 & S4 & S5 & S6 & S7 & S8). split.
  - clear. split; [|split].
    + intros t. cbn. destruct t as [|[|t]]; cbn; repeat split; try (eexists; reflexivity); intros; try discriminate;
        try (inversion H; subst; lia); inversion H0; subst; auto.
    + intros t u c1 d1 c2 d2 Hn H1 H2. cbn in *.
      destruct t as [|[|t]]; destruct u as [|[|u]]; cbn in *; try congruence; inversion H1; inversion H2; subst; split; lia.
    + auto.
  - split; [exact S2|]. split; [reflexivity|]. split; [|split; [exact S5|split; [exact S6|split; [exact S7|exact S8]]]].
    intros t Ht. destruct t as [|[|t]]; [reflexivity|contradiction|reflexivity].
Qed.
Definition mt_onecpu : list oact :=
  w_until ++ [XC (CTau 1 0); XC (CWrite 1); XDrain 1; XEnter 1; XIpi 1 1; XExit 1; XC (CTau 1 0)] ++ w_store ++ [XDrain 0; XC (CTau 1 0)].
Lemma ex_mt_onecpu : exists T', oruns demo_cfg dx (mt_client demo_cfg MM_CID ex_L ex_a ex_b) (mt_ask CPU_ID) mt_X0 T' /\ failed T'.
Proof.
  assert (H : oends mt_loc (mt_client demo_cfg MM_CID ex_L ex_a ex_b) demo_cfg dx 2 (mt_player MM_CID 13) (mt_ask CPU_ID) (mt_askb CPU_ID) mt_X0 mt_onecpu failedb = true)
    by (vm_compute; reflexivity).
  destruct (oends_ok mt_loc (mt_client demo_cfg MM_CID ex_L ex_a ex_b) demo_cfg dx 2 (mt_player MM_CID 13) mt_oth (mt_ask CPU_ID) (mt_askb CPU_ID)
    (mt_plays MM_CID 13) (fun _ => eq_refl) (mt_askb_ok CPU_ID) _ _ _ H mt_X_quiet) as (T' & R & _ & F).
  exists T'. split; [exact R|apply failedb_ok; exact F].
Qed.
