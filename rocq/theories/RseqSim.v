(** The concrete machine refines the abstract machine. *)
From Coq Require Import ZArith Bool List Lia.
From Verif Require Import RseqIR RseqSpec RseqKernel RseqSafe MemLemmas RunLemmas.
Import ListNotations.
Local Open Scope Z_scope.

Arguments x_loc {Loc} _.
Arguments x_act {Loc} _.
Arguments t_area {Loc} _.
Arguments t_reg {Loc} _.
Arguments t_on {Loc} _.
Arguments t_ctx {Loc} _.
Arguments t_dead {Loc} _.
Arguments s_mem {Loc} _ _.
Arguments s_thr {Loc} _ _.
Arguments s_loaded {Loc} _ _.
Arguments a_loc {Loc} _.
Arguments a_act {Loc} _.
Arguments a_mem {Loc} _ _.
Arguments a_on {Loc} _ _.
Arguments a_thr {Loc} _ _.
Arguments set_ctx {Loc} _ _.
Arguments set_on {Loc} _ _.
Arguments set_cs {Loc} _ _.
Arguments set_area {Loc} _ _.
Arguments kill {Loc} _.
Arguments fixup {Loc} _ _ _.
Arguments set_t {Loc} _ _ _.
Arguments set_m {Loc} _ _.
Arguments in_flight {Loc} _ _ _.
Arguments on_right_cpu {Loc} _ _ _.
Arguments no_interference {Loc} _ _ _ _.
Arguments astep {Loc} _ _ _ _ _.
Arguments aexec {Loc} _ _ _ _ _.
Arguments step {Loc} _ _ _ _ _ _.
Arguments exec {Loc} _ _ _ _ _ _.
Arguments running {Loc} _.
Arguments call_ok {Loc} _ _.
Arguments set_thr {Loc} _ _ _.
Arguments set_amem {Loc} _ _.
Arguments set_aon {Loc} _ _.
Arguments safe_client {Loc} _ _ _.
Arguments initial {Loc} _.
Arguments abs_init {Loc} _.
Arguments cpu_free {Loc} _ _ _ _.
Arguments thread_init {Loc} _.

Section Sim.
Variable Loc : Type.
Variable g : cfg.
Variable tx : text.
Variable cl : client Loc.
Hypothesis Hgood : good_text g tx.

Notation ctx := (ctx Loc).
Notation thread := (thread Loc).
Notation state := (state Loc).
Notation actx := (actx Loc).
Notation astate := (astate Loc).

Definition in_seq (P : program) (pc : nat) : Prop := (cs_start P <= pc < cs_commit P)%nat.

(** A frame inside the critical section: it can be reached from the start of
    the sequence on the current memory. *)
Definition fr_cs (P : program) (c : call) (f : frame) (m : mem) (idx : Z) (wrote : bool) : Prop :=
  exists junk s, reach g P m idx (rinit c junk) s /\ r_pc s = f_pc f /\ r_rs s = f_rs f /\
    sat m (r_w s) /\ (wrote = true -> idx = cpuarg c /\ pseudo g (c_op c) m <> OFail) /\
    (one_compare (c_op c) = true -> pseudo g (c_op c) m = OFail -> r_rd s = []).

(** A frame inside the critical section that has read a word different from the
    expected one, in memory [m0]: it can only fail. *)
Definition fr_doom (P : program) (c : call) (f : frame) (idx : Z) : Prop :=
  exists m0 s k, Safe g P c m0 idx k s /\ r_pc s = f_pc f /\ r_rs s = f_rs f /\ idx = cpuarg c /\
    one_compare (c_op c) = true /\ pseudo g (c_op c) m0 = OFail /\ r_rd s <> [].

Definition fr_pre (P : program) (c : call) (f : frame) : Prop :=
  exists junk s, (forall m idx, reach g P m idx (rinit c junk) s) /\
    r_pc s = f_pc f /\ r_rs s = f_rs f /\ r_rd s = [] /\ r_w s = [].

Definition fr_tail (P : program) (f : frame) (st : status) : Prop :=
  exists x r, exit_of P (f_pc f) = Some x /\ exit_ret x = Some r /\ st = Finished r.

Definition frame_rel (th : thread) (m : mem) (ld : nat -> bool) (top : bool) (f : frame) (st : status) : Prop :=
  let c := f_call f in
  exists P, tx (c_code c) = Some (P, kind_of (c_op c)) /\ pmode P = c_mode c /\
    - 2 ^ 31 <= c_cpu c < 2 ^ 31 /\ ld (c_code c) = true /\
    (t_reg th = false -> index (t_area th) (c_mode c) <> cpuarg c) /\
    ( ((cs_commit P <= f_pc f)%nat /\ fr_tail P f st) \/
      ((f_pc f < cs_start P)%nat /\ st = Pending false /\ fr_pre P c f) \/
      (in_seq P (f_pc f) /\
        (t_reg th = true -> top = true /\ rseq_cs (t_area th) = Some (c_code c)) /\
        ((exists w, st = Pending w /\
           (t_reg th = false \/ t_on th <> None ->
              fr_cs P c f m (index (t_area th) (c_mode c)) w)) \/
         (st = Finished 1 /\
           (t_reg th = false \/ t_on th <> None ->
              fr_doom P c f (index (t_area th) (c_mode c)))))) ).

Definition ctx_rel (th : thread) (m : mem) (ld : nat -> bool) (top : bool) (x : ctx) (ax : actx) : Prop :=
  x_loc x = a_loc ax /\
  match x_act x, a_act ax with
  | None, None => True
  | Some f, Some (c, st) => c = f_call f /\ frame_rel th m ld top f st
  | _, _ => False
  end.

Fixpoint stack_rel (th : thread) (m : mem) (ld : nat -> bool) (top : bool)
    (k : list ctx) (ak : list actx) : Prop :=
  match k, ak with
  | [], [] => True
  | x :: k', ax :: ak' => ctx_rel th m ld top x ax /\ stack_rel th m ld false k' ak'
  | _, _ => False
  end.

Definition fields_ok (th : thread) : Prop :=
  (t_reg th = false -> cpu_field (t_area th) = 2 ^ 32 - 1 /\ cid_field (t_area th) = 0) /\
  (forall cpu cid, t_on th = Some (cpu, cid) -> 0 <= cpu < 2 ^ 31 /\ 0 <= cid < 2 ^ 31) /\
  (forall cpu cid, t_reg th = true -> t_on th = Some (cpu, cid) ->
     cpu_field (t_area th) = cpu /\ cid_field (t_area th) = cid).

Definition thread_rel (m : mem) (ld : nat -> bool) (th : thread) (on : option (Z * Z)) (ak : list actx) : Prop :=
  on = (if t_reg th then t_on th else None) /\ fields_ok th /\
  stack_rel th m ld true (t_ctx th) ak.

Definition Rel (s : state) (a : astate) : Prop :=
  a_mem a = s_mem s /\
  (forall t, thread_rel (s_mem s) (s_loaded s) (s_thr s t) (a_on a t) (a_thr a t)) /\
  exclusive (fun t => t_on (s_thr s t)).

(** ** Facts *)

Lemma tx_good : forall id P kd, tx id = Some (P, kd) -> static_ok P = true.
Proof. intros id P kd H. exact (proj1 (Hgood id P kd H)). Qed.

(** What is known of a frame in its critical section. *)
Lemma fr_cs_safe : forall P c f m idx w,
  tx (c_code c) = Some (P, kind_of (c_op c)) -> fr_cs P c f m idx w ->
  (idx = cpuarg c -> op_wf g (c_op c) m) ->
  exists junk s k, reach g P m idx (rinit c junk) s /\ r_pc s = f_pc f /\ r_rs s = f_rs f /\
    sat m (r_w s) /\ (w = true -> idx = cpuarg c /\ pseudo g (c_op c) m <> OFail) /\
    Safe g P c m idx k s /\
    incl (r_rd s) (read_foot g (c_op c) m) /\
    incl (r_w s) (attempts g (c_op c) m) /\
    (idx <> cpuarg c -> r_rd s = [] /\ r_w s = []) /\
    (one_compare (c_op c) = true -> pseudo g (c_op c) m = OFail -> r_rd s = []).
Proof.
  intros P c f m idx w Ht (junk & s & Hr & Hp & Hrs & Hsat & Hw & Hff) Hwf.
  destruct (Hgood _ _ _ Ht) as [_ Hs]. specialize (Hs c m idx junk eq_refl Hwf).
  destruct (reach_safe _ _ _ _ _ _ _ _ Hr Hs eq_refl eq_refl) as ((k' & Hk) & I1 & I2 & I3).
  exists junk, s, k'. repeat split; auto; try (apply Hw; assumption); try (apply I3; assumption).
Qed.

(** The frame relation under a change of everything else. *)
Lemma frame_change : forall th m ld top f st th' m' ld' top',
  frame_rel th m ld top f st ->
  t_reg th' = t_reg th ->
  (t_reg th = false -> forall md, index (t_area th') md = index (t_area th) md) ->
  (ld (c_code (f_call f)) = true -> ld' (c_code (f_call f)) = true) ->
  (t_reg th = true -> top = true ->
     (top' = true /\ rseq_cs (t_area th') = rseq_cs (t_area th) /\
     (t_on th' <> None -> t_on th <> None /\
        (forall md, index (t_area th') md = index (t_area th) md) /\
        (forall P w, tx (c_code (f_call f)) = Some (P, kind_of (c_op (f_call f))) -> pmode P = c_mode (f_call f) ->
           - 2 ^ 31 <= c_cpu (f_call f) < 2 ^ 31 -> in_seq P (f_pc f) ->
           st = Pending w ->
           index (t_area th) (c_mode (f_call f)) = cpuarg (f_call f) ->
           op_wf g (c_op (f_call f)) m /\
           (agree (in_use g (c_op (f_call f)) m) m m' \/
            one_compare (c_op (f_call f)) = true /\ pseudo g (c_op (f_call f)) m = OFail)))) \/
   (forall P kd, tx (c_code (f_call f)) = Some (P, kd) -> ~ in_seq P (f_pc f))) ->
  frame_rel th' m' ld' top' f st.
Proof.
  intros th m ld top f st th' m' ld' top' (P & Ht & Hm & Hr & Hl & Hu & Hc) Hreg Harea Hld Hcs.
  exists P. repeat split; auto; try lia.
  { rewrite Hreg. intros H. rewrite Harea by auto. auto. }
  destruct Hc as [Hc|[Hc|Hc]]; [left; auto|right; left; auto|right; right].
  destruct Hc as (Hin & Htop & Hc). split; auto. rewrite Hreg. split.
  { intros H. destruct (Htop H) as [-> Hx]. destruct (Hcs H eq_refl) as [(H1 & H2 & _)|H1].
    - rewrite H2. auto.
    - exfalso. eapply H1; eauto. }
  destruct Hc as [(w & Hw & Hf)|(Hw & Hf)].
  2:{ right. split; auto. intros Hon. destruct (t_reg th) eqn:Er.
      - destruct Hon as [|Hon]; [discriminate|]. destruct (Htop eq_refl) as [-> _].
        destruct (Hcs eq_refl eq_refl) as [(_ & _ & H1)|H1]; [|exfalso; eapply H1; eauto].
        destruct (H1 Hon) as (H2 & H3 & _). rewrite H3. auto.
      - rewrite Harea by auto. auto. }
  left. exists w. split; auto.
  intros Hon. destruct (t_reg th) eqn:Er.
  - destruct Hon as [|Hon]; [discriminate|].
    destruct (Htop eq_refl) as [-> _].
    destruct (Hcs eq_refl eq_refl) as [(_ & _ & H1)|H1]; [|exfalso; eapply H1; eauto].
    destruct (H1 Hon) as (H2 & H3 & H4). rewrite H3. clear H1.
    specialize (Hf (or_intror H2)).
    assert (Hwf : index (t_area th) (c_mode (f_call f)) = cpuarg (f_call f) ->
                  op_wf g (c_op (f_call f)) m) by (intros Hi; apply (H4 P w); auto).
    destruct (fr_cs_safe _ _ _ _ _ _ Ht Hf Hwf)
      as (junk & s & k & S1 & S2 & S3 & S4 & S5 & S6 & S7 & S8 & S9 & S10).
    exists junk, s.
    destruct (Z.eq_dec (index (t_area th) (c_mode (f_call f))) (cpuarg (f_call f))) as [Hi|Hi].
    + destruct (H4 P w Ht Hm Hr Hin Hw Hi) as [_ [Hag|[H5 H6]]].
      * unfold in_use in Hag.
        apply agree_app in Hag. destruct Hag as [Ha1 Ha2].
        destruct (pseudo_agree _ _ _ _ Ha1) as [Hps _].
        split; [|split; [auto|split; [auto|split; [|split]]]].
        -- eapply reach_agree; eauto. exact (agree_incl _ _ _ _ Ha1 S7).
        -- intros a b Hab. rewrite <- (S4 a b Hab). apply Ha2.
           apply (in_map fst _ (a, b)), S8, Hab.
        -- rewrite Hps. auto.
        -- rewrite Hps. auto.
      * assert (E1 : r_rd s = []) by auto.
        assert (E2 : r_w s = []).
        { unfold attempts in S8. rewrite H6 in S8. destruct (r_w s) as [|x l]; auto.
          destruct (S8 x (or_introl eq_refl)). }
        split; [|split; [auto|split; [auto|split; [|split]]]].
        -- eapply reach_agree; eauto. rewrite E1. intros a [].
        -- rewrite E2. intros a b [].
        -- intros E. destruct (S5 E). contradiction.
        -- auto.
    + destruct (S9 Hi) as [E1 E2]. split; [|split; [auto|split; [auto|split; [|split]]]].
      * eapply reach_agree; eauto. rewrite E1. intros a [].
      * rewrite E2. intros a b [].
      * intros E. exfalso. apply Hi, S5; auto.
      * auto.
  - rewrite Harea by auto. specialize (Hf (or_introl eq_refl)). specialize (Hu eq_refl).
    assert (Hwf : index (t_area th) (c_mode (f_call f)) = cpuarg (f_call f) ->
                  op_wf g (c_op (f_call f)) m) by (intros; contradiction).
    destruct (fr_cs_safe _ _ _ _ _ _ Ht Hf Hwf)
      as (junk & s & k & S1 & S2 & S3 & S4 & S5 & S6 & S7 & S8 & S9 & S10).
    exists junk, s. destruct (S9 Hu) as [E1 E2]. split; [|split; [auto|split; [auto|split; [|split]]]].
    * eapply reach_agree; eauto. rewrite E1. intros a [].
    * rewrite E2. intros a b [].
    * intros E. exfalso. apply Hu, S5; auto.
    * auto.
Qed.

Lemma stack_change : forall th m ld th' m' ld' k ak,
  stack_rel th m ld false k ak ->
  t_reg th' = t_reg th ->
  (t_reg th = false -> forall md, index (t_area th') md = index (t_area th) md) ->
  (forall x f, In x k -> x_act x = Some f -> ld (c_code (f_call f)) = true -> ld' (c_code (f_call f)) = true) ->
  forall top', stack_rel th' m' ld' top' k ak.
Proof.
  intros th m ld th' m' ld'. induction k as [|x k IH]; intros [|ax ak] H Hreg Har Hld top'; auto.
  cbn [stack_rel] in *. destruct H as [[H1 H2] H3]. split.
  - split; auto. destruct (x_act x) as [f|] eqn:Ef; destruct (a_act ax) as [[c st]|]; auto.
    destruct H2 as [-> H2]. split; auto. eapply frame_change; eauto.
    + eapply Hld; eauto. now left.
    + intros _ [=].
  - apply IH; auto. intros y f Hy. apply Hld. now right.
Qed.

(** A stack that stays as it is, because nothing it depends on changes. *)
Lemma stack_same : forall th m ld th' ld' k ak top,
  stack_rel th m ld top k ak ->
  t_reg th' = t_reg th -> t_area th' = t_area th ->
  (t_on th' <> None -> t_on th <> None) ->
  (forall x f, In x k -> x_act x = Some f -> ld (c_code (f_call f)) = true -> ld' (c_code (f_call f)) = true) ->
  stack_rel th' m ld' top k ak.
Proof.
  intros th m ld th' ld'. induction k as [|x k IH]; intros [|ax ak] top H Hreg Har Hon Hld; auto.
  cbn [stack_rel] in *. destruct H as [[H1 H2] H3]. split.
  - split; auto. destruct (x_act x) as [f|] eqn:Ef; destruct (a_act ax) as [[c st]|]; auto.
    destruct H2 as [-> H2]. split; auto.
    destruct H2 as (P & A1 & A2 & A3 & A4 & A5 & A6). exists P. rewrite Hreg, Har.
    repeat split; auto; try lia.
    + eapply Hld; eauto. now left.
    + destruct A6 as [A6|[A6|(B1 & B3 & B4)]]; auto. right; right.
      split; [auto|split; [auto|]]. destruct B4 as [(w & B2 & B4)|[B2 B4]].
      * left. exists w. split; auto. intros [Hx|Hx]; apply B4; auto.
      * right. split; auto. intros [Hx|Hx]; apply B4; auto.
  - apply IH; auto. intros y f Hy. apply Hld. now right.
Qed.

Lemma mod32_signed : forall x y, 0 <= x < 2 ^ 31 -> - 2 ^ 31 <= y < 2 ^ 31 -> x = y mod 2 ^ 32 -> x = y.
Proof.
  intros x y Hx Hy H. destruct (Z_lt_le_dec y 0).
  - rewrite <- (Z_mod_plus_full y 1 (2 ^ 32)) in H. rewrite Z.mod_small in H by lia. lia.
  - rewrite Z.mod_small in H by lia. auto.
Qed.

(** A registered running thread whose index matches runs where it should. *)
Lemma right_cpu : forall s a t c, Rel s a -> t_reg (s_thr s t) = true -> t_on (s_thr s t) <> None ->
  - 2 ^ 31 <= c_cpu c < 2 ^ 31 ->
  index (t_area (s_thr s t)) (c_mode c) = cpuarg c -> on_right_cpu a t c.
Proof.
  intros s a t c (Hm & Ht & He) Hreg Hon Hr Hi. destruct (Ht t) as (H1 & (_ & H2 & H3) & _).
  unfold on_right_cpu. rewrite H1, Hreg. destruct (t_on (s_thr s t)) as [[cpu cid]|]; [|congruence].
  destruct (H2 cpu cid eq_refl) as [H4 H5]. destruct (H3 cpu cid Hreg eq_refl) as [H6 H7].
  unfold index, cpuarg in *. cbn. f_equal.
  destruct (c_mode c); subst; eapply mod32_signed; eauto.
Qed.

(** Writes that do not interfere leave other threads' stacks related. *)
Lemma stack_write : forall s a u ps top,
  Rel s a ->
  (forall t c, in_flight a t c -> op_wf g (c_op c) (a_mem a)) ->
  (forall c, in_flight a u c -> disjoint (map fst ps) (in_use g (c_op c) (a_mem a)) \/
     (one_compare (c_op c) = true /\ pseudo g (c_op c) (a_mem a) = OFail)) ->
  top = true ->
  stack_rel (s_thr s u) (wr (s_mem s) ps) (s_loaded s) top (t_ctx (s_thr s u)) (a_thr a u).
Proof.
  intros s a u ps top HR Hwf Hdis ->. pose proof HR as (Hm & Ht & _).
  destruct (Ht u) as (_ & _ & Hst).
  assert (Htop : forall ax k c w, a_thr a u = ax :: k -> a_act ax = Some (c, Pending w) ->
            on_right_cpu a u c -> in_flight a u c).
  { intros ax k c w E1 E2 E3. split; auto. exists (a_loc ax), k, w. rewrite E1.
    destruct ax; cbn in *; subst; auto. }
  destruct (t_ctx (s_thr s u)) as [|x k]; destruct (a_thr a u) as [|ax ak]; auto.
  cbn [stack_rel] in *. destruct Hst as [[H1 H2] H3]. split.
  - split; auto. destruct (x_act x) as [f|] eqn:Ef; destruct (a_act ax) as [[c st]|] eqn:Ea; auto.
    destruct H2 as [-> H2]. split; auto. eapply frame_change; eauto.
    intros Hreg _. left. split; [auto|]. split; [auto|]. intros Hon. split; [auto|]. split; [auto|].
    intros P w E1 E2 E3 E4 E5 E6. subst st.
    assert (Hfl : in_flight a u (f_call f)) by (eapply Htop; eauto; eapply right_cpu; eauto).
    split; [rewrite <- Hm; apply (Hwf u); auto|].
    destruct (Hdis _ Hfl) as [Hd|Hd]; rewrite Hm in Hd; [left|right; auto]. apply agree_wr. auto.
  - eapply stack_change; eauto.
Qed.

(** ** The kernel fix-up *)
Definition nocs (k : list ctx) : Prop :=
  forall x f P kd, In x k -> x_act x = Some f -> tx (c_code (f_call f)) = Some (P, kd) -> ~ in_seq P (f_pc f).

Lemma stack_free : forall th m ld top k ak th' m' top',
  stack_rel th m ld top k ak -> nocs k ->
  t_reg th' = t_reg th ->
  (t_reg th = false -> forall md, index (t_area th') md = index (t_area th) md) ->
  stack_rel th' m' ld top' k ak.
Proof.
  intros th m ld. intros top k. revert top. induction k as [|x k IH]; intros top [|ax ak] th' m' top' H Hn Hreg Har; auto.
  cbn [stack_rel] in *. destruct H as [[H1 H2] H3]. split.
  - split; auto. destruct (x_act x) as [f|] eqn:Ef; destruct (a_act ax) as [[c st]|]; auto.
    destruct H2 as [-> H2]. split; auto. eapply frame_change; eauto.
    intros _ _. right. intros P kd. eapply Hn; eauto. now left.
  - eapply IH; eauto. intros y f P kd Hy. eapply Hn; eauto. now right.
Qed.

Lemma stack_lower_nocs : forall th m ld k ak, t_reg th = true ->
  stack_rel th m ld false k ak -> nocs k.
Proof.
  intros th m ld. induction k as [|x k IH]; intros [|ax ak] Hreg H; try contradiction.
  - intros ? ? ? ? [].
  - cbn [stack_rel] in H. destruct H as [[H1 H2] H3]. intros y f P kd [<-|Hy] Hf Ht Hin.
    + rewrite Hf in H2. destruct (a_act ax) as [[c st]|]; [|contradiction].
      destruct H2 as [-> (P' & A1 & A2 & A3 & A4 & A5 & A6)]. rewrite A1 in Ht. inversion Ht; subst.
      unfold in_seq in *. destruct (static_facts P (tx_good _ _ _ A1)) as (_ & _ & Hlt & _).
      destruct A6 as [[B1 _]|[[B1 _]|(B1 & B3 & _)]]; try lia.
      destruct (B3 Hreg). discriminate.
    + eapply IH; eauto.
Qed.

Lemma in_cs_spec : forall P pc, in_cs P pc = true <-> in_seq P pc.
Proof.
  intros. unfold in_cs, in_seq. rewrite andb_true_iff, Nat.leb_le, Nat.ltb_lt. tauto.
Qed.

Definition abort_of (ak ak' : list actx) : Prop :=
  exists l c st k, ak = {| a_loc := l; a_act := Some (c, st) |} :: k /\
    ((exists w, st = Pending w) \/ st = Finished 1) /\
    ak' = {| a_loc := l; a_act := Some (c, Finished (-1)) |} :: k.

(** [th0] is related; [th] is the same thread after updating the cpu fields. *)
Lemma fixup_stack : forall th0 th m ld ak,
  t_reg th0 = true -> t_reg th = true -> t_ctx th = t_ctx th0 ->
  rseq_cs (t_area th) = rseq_cs (t_area th0) ->
  stack_rel th0 m ld true (t_ctx th0) ak ->
  exists ak', (ak' = ak \/ abort_of ak ak') /\
    nocs (t_ctx (fixup tx ld th)) /\
    forall th' m' top', t_reg th' = true -> stack_rel th' m' ld top' (t_ctx (fixup tx ld th)) ak'.
Proof.
  intros th0 th m ld ak Hr0 Hr Hctx Hcs Hst.
  (* when the stack is unchanged and no frame is in a critical section *)
  assert (Hsame : t_ctx (fixup tx ld th) = t_ctx th0 -> nocs (t_ctx th0) ->
    exists ak', (ak' = ak \/ abort_of ak ak') /\
    nocs (t_ctx (fixup tx ld th)) /\
    forall th' m' top', t_reg th' = true -> stack_rel th' m' ld top' (t_ctx (fixup tx ld th)) ak').
  { intros E Hn. exists ak. rewrite E. repeat split; auto. intros th' m' top' H.
    eapply stack_free; eauto; congruence. }
  (* which frame can be in a critical section *)
  assert (Htop : nocs (t_ctx th0) \/
    exists l f k P ax ak', t_ctx th0 = {| x_loc := l; x_act := Some f |} :: k /\ ak = ax :: ak' /\
      tx (c_code (f_call f)) = Some (P, kind_of (c_op (f_call f))) /\ in_seq P (f_pc f) /\
      rseq_cs (t_area th0) = Some (c_code (f_call f)) /\ ld (c_code (f_call f)) = true /\ nocs k).
  { destruct (t_ctx th0) as [|x k] eqn:E; [left; intros ? ? ? ? []|].
    destruct ak as [|ax ak]; [contradiction|]. cbn [stack_rel] in Hst. destruct Hst as [[H1 H2] H3].
    pose proof (stack_lower_nocs _ _ _ _ _ Hr0 H3) as Hlow.
    destruct (x_act x) as [f|] eqn:Ef.
    - destruct (a_act ax) as [[c st]|]; [|contradiction]. destruct H2 as [-> (P & A1 & A2 & A3 & A4 & A5 & A6)].
      destruct (static_facts P (tx_good _ _ _ A1)) as (_ & _ & Hlt & _).
      destruct A6 as [[B1 _]|[[B1 _]|(B1 & B3 & _)]].
      + left. intros y f' P' kd [<-|Hy] Hf Ht; [|eapply Hlow; eauto].
        rewrite Ef in Hf. inversion Hf; subst. rewrite A1 in Ht. inversion Ht; subst. unfold in_seq; lia.
      + left. intros y f' P' kd [<-|Hy] Hf Ht; [|eapply Hlow; eauto].
        rewrite Ef in Hf. inversion Hf; subst. rewrite A1 in Ht. inversion Ht; subst. unfold in_seq; lia.
      + right. exists (x_loc x), f, k, P, ax, ak. destruct (B3 Hr0) as [_ B4].
        repeat split; auto; try apply B1. destruct x; cbn in *; subst; auto.
    - left. intros y f' P' kd [<-|Hy] Hf Ht; [congruence|eapply Hlow; eauto]. }
  unfold fixup in *. rewrite Hr in *. cbn [negb] in *. rewrite Hcs in *.
  destruct (rseq_cs (t_area th0)) as [id|] eqn:Eid.
  2:{ apply Hsame; auto. destruct Htop as [|(l & f & k & P & ax & ak' & _ & _ & _ & _ & Hx & _)]; auto. discriminate. }
  destruct Htop as [Hn|(l & f & k & P & ax & ak' & Ek & Eak & Ht & Hin & Hx & Hl & Hlow)].
  - apply Hsame; auto. destruct (if ld id then tx id else None) as [[P kd]|] eqn:Etx; auto.
    destruct (ld id); [|discriminate].
    destruct (negb (desc_ok P)); auto. rewrite Hctx.
    destruct (t_ctx th0) as [|[l [f|]] k] eqn:Ek; try (cbn; auto; fail).
    destruct (Nat.eqb (c_code (f_call f)) id && in_cs P (f_pc f)) eqn:Ec; [|cbn; auto].
    exfalso. apply andb_true_iff in Ec. destruct Ec as [E1 E2]. apply Nat.eqb_eq in E1.
    apply in_cs_spec in E2. subst id. eapply (Hn _ f P kd); [left; reflexivity|reflexivity|auto|auto].
  - clear Hsame. inversion Hx; subst id. rewrite Hl, Ht.
    destruct (static_facts P (tx_good _ _ _ Ht)) as (Hd & _ & _ & Hab & _ & _ & _ & _ & _ & _ & Hxa).
    rewrite Hd. cbn [negb]. rewrite Hctx, Ek. rewrite Nat.eqb_refl.
    rewrite (proj2 (in_cs_spec P (f_pc f)) Hin). cbn [andb].
    rewrite Ek in Hst. subst ak. cbn [stack_rel] in Hst. destruct Hst as [[H1 H2] H3].
    cbn [x_act x_loc] in *. destruct ax as [al [[c st]|]]; cbn [a_act a_loc] in *; [|contradiction].
    destruct H2 as [-> (P' & A1 & A2 & A3 & A4 & A5 & A6)]. rewrite Ht in A1. inversion A1; subst P'.
    subst l. assert (Hst : (exists w, st = Pending w) \/ st = Finished 1).
    { unfold in_seq in Hin. destruct (static_facts P (tx_good _ _ _ Ht)) as (_ & _ & Hlt & _).
      destruct A6 as [[B1 _]|[[B1 _]|(B1 & B3 & [(w & B2 & _)|[B2 _]])]]; try lia; eauto. }
    exists ({| a_loc := al; a_act := Some (f_call f, Finished (-1)) |} :: ak').
    cbn [t_ctx set_ctx set_cs set_area]. split; [right; exists al, (f_call f), st, ak'; auto|].
    split.
    + intros y f' P' kd [<-|Hy] Hf Htx; [|eapply Hlow; eauto].
      cbn in Hf. inversion Hf; subst. cbn [f_call f_pc] in *. rewrite Ht in Htx. inversion Htx; subst.
      unfold in_seq. lia.
    + intros th' m' top' Hr'. cbn [stack_rel]. split.
      * split; auto. cbn [x_act a_act]. split; auto.
        exists P. cbn [f_call f_pc]. repeat split; auto; try lia; try congruence.
        left. split; auto. exists XAbort, (-1). auto.
      * eapply stack_free; eauto; congruence.
Qed.

Lemma fixup_fields : forall ld (th : thread),
  t_reg (fixup tx ld th) = t_reg th /\
  cpu_field (t_area (fixup tx ld th)) = cpu_field (t_area th) /\
  cid_field (t_area (fixup tx ld th)) = cid_field (t_area th) /\
  (t_on (fixup tx ld th) = t_on th \/ t_on (fixup tx ld th) = None).
Proof.
  intros. unfold fixup. destruct (t_reg th) eqn:E; cbn [negb]; [|auto].
  destruct (rseq_cs (t_area th)) as [id|]; auto.
  destruct (if ld id then tx id else None) as [[P kd]|]; [|cbn; auto].
  destruct (negb (desc_ok P)); [cbn; auto|].
  destruct (t_ctx th) as [|[l [f|]] k]; try (cbn; auto; fail).
  destruct (Nat.eqb (c_code (f_call f)) id && in_cs P (f_pc f)); cbn; auto.
Qed.

Lemma fixup_unreg : forall ld (th : thread), t_reg th = false -> fixup tx ld th = th.
Proof. intros. unfold fixup. rewrite H. auto. Qed.

Lemma index_fields : forall a a' md, cpu_field a = cpu_field a' -> cid_field a = cid_field a' ->
  index a md = index a' md.
Proof. intros. destruct md; auto. Qed.

(** ** Building the relation after a step of thread [t] *)
Lemma Rel_step : forall s a s' a' t,
  Rel s a ->
  (forall u, u <> t -> s_thr s' u = s_thr s u) ->
  s_loaded s' = s_loaded s ->
  (forall u, u <> t -> a_thr a' u = a_thr a u /\ a_on a' u = a_on a u) ->
  a_mem a' = s_mem s' -> s_mem s' = s_mem s ->
  thread_rel (s_mem s') (s_loaded s') (s_thr s' t) (a_on a' t) (a_thr a' t) ->
  exclusive (fun t => t_on (s_thr s' t)) ->
  Rel s' a'.
Proof.
  intros s a s' a' t (Hm & Ht & He) H1 H2 H3 H4 H5 H6 H7. split; [auto|split; auto].
  intros u. destruct (Nat.eq_dec u t) as [->|Hu]; auto.
  destruct (H3 u Hu) as [-> ->]. rewrite H1, H5, H2 by auto. auto.
Qed.

Lemma Rel_step_wr : forall s a s' a' t ps,
  Rel s a ->
  (forall t c, in_flight a t c -> op_wf g (c_op c) (a_mem a)) ->
  no_interference g a t ps ->
  (forall u, u <> t -> s_thr s' u = s_thr s u) ->
  s_loaded s' = s_loaded s ->
  (forall u, u <> t -> a_thr a' u = a_thr a u /\ a_on a' u = a_on a u) ->
  a_mem a' = s_mem s' -> s_mem s' = wr (s_mem s) ps ->
  thread_rel (s_mem s') (s_loaded s') (s_thr s' t) (a_on a' t) (a_thr a' t) ->
  exclusive (fun t => t_on (s_thr s' t)) ->
  Rel s' a'.
Proof.
  intros s a s' a' t ps HR Hwf Hni H1 H2 H3 H4 H5 H6 H7. split; [auto|split; auto].
  intros u. destruct (Nat.eq_dec u t) as [->|Hu]; auto.
  destruct (H3 u Hu) as [E1 E2]. rewrite E1, E2. rewrite H1, H5, H2 by auto.
  pose proof HR as (Hm & Ht & He). destruct (Ht u) as (I1 & I2 & I3). split; [auto|split; auto].
  eapply stack_write; eauto.
Qed.

Lemma exclusive_sub : forall (s s' : state), exclusive (fun t => t_on (s_thr s t)) ->
  (forall t : nat, t_on (s_thr s' t) = t_on (s_thr s t : thread) \/ t_on (s_thr s' t : thread) = None) ->
  exclusive (fun t => t_on (s_thr s' t)).
Proof.
  intros s s' H Hs t u c1 d1 c2 d2 Hn H1 H2.
  destruct (Hs t) as [Ea|Ea], (Hs u) as [Eb|Eb]; try congruence.
  rewrite Ea in H1. rewrite Eb in H2. eapply H; eauto.
Qed.

Lemma exclusive_reg : forall (s : state), exclusive (fun t => t_on (s_thr s t)) ->
  exclusive (fun t => if t_reg (s_thr s t : thread) then t_on (s_thr s t) else None).
Proof.
  intros s H t u c1 d1 c2 d2 Hn H1 H2.
  destruct (t_reg (s_thr s t)), (t_reg (s_thr s u)); try discriminate. eapply H; eauto.
Qed.

(** ** Simulation *)
Lemma top_frame : forall s a t l f k, Rel s a ->
  t_ctx (s_thr s t) = {| x_loc := l; x_act := Some f |} :: k ->
  exists st ak, a_thr a t = {| a_loc := l; a_act := Some (f_call f, st) |} :: ak /\
    frame_rel (s_thr s t) (s_mem s) (s_loaded s) true f st /\
    stack_rel (s_thr s t) (s_mem s) (s_loaded s) false k ak.
Proof.
  intros s a t l f k (_ & Ht & _) E. destruct (Ht t) as (_ & _ & H). rewrite E in H.
  destruct (a_thr a t) as [|[al aa] ak]; [contradiction|]. cbn [stack_rel] in H. destruct H as [[H1 H2] H3].
  cbn in H1, H2. destruct aa as [[c st]|]; [|contradiction]. destruct H2 as [-> H2]. subst al.
  exists st, ak. auto.
Qed.

Lemma top_idle : forall s a t l k, Rel s a ->
  t_ctx (s_thr s t) = {| x_loc := l; x_act := None |} :: k ->
  exists ak, a_thr a t = {| a_loc := l; a_act := None |} :: ak /\
    stack_rel (s_thr s t) (s_mem s) (s_loaded s) false k ak.
Proof.
  intros s a t l k (_ & Ht & _) E. destruct (Ht t) as (_ & _ & H). rewrite E in H.
  destruct (a_thr a t) as [|[al aa] ak]; [contradiction|]. cbn [stack_rel] in H. destruct H as [[H1 H2] H3].
  cbn in H1, H2. destruct aa as [[c st]|]; [contradiction|]. subst al.
  exists ak. auto.
Qed.

(** Same thread, up to its stack and rseq_cs. *)
Definition like (th th' : thread) : Prop :=
  t_reg th' = t_reg th /\ t_on th' = t_on th /\
  cpu_field (t_area th') = cpu_field (t_area th) /\ cid_field (t_area th') = cid_field (t_area th).

Lemma like_index : forall th th' md, like th th' -> index (t_area th') md = index (t_area th) md.
Proof. intros th th' md (_ & _ & H1 & H2). destruct md; auto. Qed.

Lemma like_fields : forall th th', like th th' -> fields_ok th -> fields_ok th'.
Proof.
  intros th th' (H1 & H2 & H3 & H4). unfold fields_ok. rewrite H1, H2, H3, H4. auto.
Qed.

Lemma set_t_same : forall (s : state) t th, s_thr (set_t s t th) t = th.
Proof. intros. cbn. now rewrite Nat.eqb_refl. Qed.
Lemma set_t_other : forall (s : state) t th u, u <> t -> s_thr (set_t s t th) u = s_thr s u.
Proof. intros. cbn. apply Nat.eqb_neq in H. now rewrite H. Qed.

(** Thread [t] becomes [th'], abstract stack [ak']; nothing else changes. *)
Lemma Rel_like : forall s a t th' ak' a',
  Rel s a -> like (s_thr s t) th' ->
  a_mem a' = a_mem a -> (forall u, a_on a' u = a_on a u) ->
  (forall u, a_thr a' u = if Nat.eqb u t then ak' else a_thr a u) ->
  stack_rel th' (s_mem s) (s_loaded s) true (t_ctx th') ak' ->
  Rel (set_t s t th') a'.
Proof.
  intros s a t th' ak' a' HR Hl Hm Ho Ha Hst. pose proof HR as (Hm0 & Ht & He).
  eapply Rel_step with (t := t); eauto.
  - intros. now apply set_t_other.
  - intros u Hu. rewrite Ha. apply Nat.eqb_neq in Hu. now rewrite Hu.
  - cbn. congruence.
  - rewrite set_t_same. rewrite Ha, Nat.eqb_refl, Ho. cbn. destruct (Ht t) as (I1 & I2 & I3).
    pose proof Hl as (L1 & L2 & _). split; [rewrite L1, L2; auto|]. split; auto. eapply like_fields; eauto.
  - eapply exclusive_sub; eauto. intros u. destruct (Nat.eq_dec u t) as [->|Hu].
    + rewrite set_t_same. left. apply Hl.
    + rewrite set_t_other by auto. auto.
Qed.

(** A step of the innermost frame that only changes that frame. *)
Lemma Rel_frame : forall s a t l f k ak th' f' st' a',
  Rel s a -> like (s_thr s t) th' ->
  t_ctx th' = {| x_loc := l; x_act := Some f' |} :: k ->
  t_ctx (s_thr s t) = {| x_loc := l; x_act := Some f |} :: k ->
  stack_rel (s_thr s t) (s_mem s) (s_loaded s) false k ak ->
  frame_rel th' (s_mem s) (s_loaded s) true f' st' ->
  a_mem a' = a_mem a -> (forall u, a_on a' u = a_on a u) ->
  (forall u, a_thr a' u = if Nat.eqb u t then {| a_loc := l; a_act := Some (f_call f', st') |} :: ak else a_thr a u) ->
  Rel (set_t s t th') a'.
Proof.
  intros s a t l f k ak th' f' st' a' HR Hl Ek' Ek Hk Hf Hm Ho Ha.
  eapply Rel_like; eauto. rewrite Ek'. cbn [stack_rel]. split.
  - split; cbn; auto.
  - eapply stack_change; eauto; [apply Hl|intros; now apply like_index].
Qed.

Lemma a_thr_same : forall (a : astate) t ak, a_thr a t = ak ->
  forall u, a_thr a u = if Nat.eqb u t then ak else a_thr a u.
Proof. intros. destruct (Nat.eqb_spec u t); subst; auto. Qed.

(** At most one step, or only silent ones. *)
Definition short (ls : list alabel) : Prop :=
  (length ls <= 1)%nat \/ forall l, In l ls -> l = ALtau.

Definition sim_result (s' : state) (a : astate) (v : list vis) : Prop :=
  exists ls a', aexec g cl a ls a' /\ Rel s' a' /\ avis ls = v /\ short ls.

Lemma sim_zero : forall s' a, Rel s' a -> sim_result s' a [].
Proof. intros. exists [], a. split; [apply aexec_nil|split; auto]. split; auto. left. cbn. lia. Qed.

Lemma sim_one : forall s' a l a', astep g cl a l a' -> Rel s' a' -> sim_result s' a (avis1 l).
Proof.
  intros. exists [l], a'. split; [|split; auto].
  - change [l] with ([] ++ [l]). econstructor; [constructor|auto].
  - split; [cbn; apply app_nil_r|]. left. cbn. lia.
Qed.

Lemma sim_two : forall s' a a1 a2, astep g cl a ALtau a1 -> astep g cl a1 ALtau a2 -> Rel s' a2 ->
  sim_result s' a [].
Proof.
  intros. exists ([] ++ [ALtau] ++ [ALtau]), a2. split; [|split; auto].
  - rewrite app_assoc. econstructor; [econstructor; [constructor|eauto]|eauto].
  - split; auto. right. intros l [<-|[<-|[]]]; auto.
Qed.

Section Step.
Variables (s : state) (a : astate).
Hypothesis HR : Rel s a.
Hypothesis Hwf : forall t c, in_flight a t c -> op_wf g (c_op c) (a_mem a).
Hypothesis Hni : forall l a' t ps, astep g cl a l a' -> writes l = Some (t, ps) -> no_interference g a t ps.

(** The innermost frame of a running thread, in its critical section. *)
Lemma cs_frame : forall t l f ak st P w, running (s_thr s t) ->
  a_thr a t = {| a_loc := l; a_act := Some (f_call f, st) |} :: ak ->
  tx (c_code (f_call f)) = Some (P, kind_of (c_op (f_call f))) ->
  - 2 ^ 31 <= c_cpu (f_call f) < 2 ^ 31 ->
  (t_reg (s_thr s t) = false -> index (t_area (s_thr s t)) (c_mode (f_call f)) <> cpuarg (f_call f)) ->
  st = Pending w ->
  (t_reg (s_thr s t) = false \/ t_on (s_thr s t) <> None ->
           fr_cs P (f_call f) f (s_mem s) (index (t_area (s_thr s t)) (c_mode (f_call f))) w) ->
  let idx := index (t_area (s_thr s t)) (c_mode (f_call f)) in
  (idx = cpuarg (f_call f) -> on_right_cpu a t (f_call f) /\ in_flight a t (f_call f) /\
                              op_wf g (c_op (f_call f)) (s_mem s)) /\
  exists junk r n, reach g P (s_mem s) idx (rinit (f_call f) junk) r /\ r_pc r = f_pc f /\ r_rs r = f_rs f /\
    sat (s_mem s) (r_w r) /\ (w = true -> idx = cpuarg (f_call f) /\ pseudo g (c_op (f_call f)) (s_mem s) <> OFail) /\
    Safe g P (f_call f) (s_mem s) idx n r /\
    incl (r_rd r) (read_foot g (c_op (f_call f)) (s_mem s)) /\
    incl (r_w r) (attempts g (c_op (f_call f)) (s_mem s)) /\
    (one_compare (c_op (f_call f)) = true -> pseudo g (c_op (f_call f)) (s_mem s) = OFail -> r_rd r = []).
Proof.
  intros t l f ak st P w [Hon _] Ea Htx Hr Hu -> Hf idx.
  pose proof HR as (Hm & _ & _).
  assert (Hright : idx = cpuarg (f_call f) -> on_right_cpu a t (f_call f)).
  { intros Hi. apply right_cpu with (s := s); auto.
    destruct (t_reg (s_thr s t)) eqn:E; auto. exfalso. apply (Hu eq_refl). exact Hi. }
  assert (Hfl : idx = cpuarg (f_call f) -> in_flight a t (f_call f)).
  { intros Hi. split; auto. exists l, ak, w. auto. }
  assert (Hop : idx = cpuarg (f_call f) -> op_wf g (c_op (f_call f)) (s_mem s)).
  { intros Hi. rewrite <- Hm. apply (Hwf t). auto. }
  split; [auto|].
  destruct (fr_cs_safe _ _ _ _ _ _ Htx (Hf (or_intror Hon)) Hop)
    as (junk & r & n & S1 & S2 & S3 & S4 & S5 & S6 & S7 & S8 & S9 & S10).
  exists junk, r, n. auto 12.
Qed.

(** A frame that can only fail goes on towards its failure. *)
Lemma doom_step : forall P c f m idx pc' rs' e rd, static_ok P = true ->
  in_seq P (f_pc f) -> fr_doom P c f idx ->
  istep g P m idx (f_pc f) (f_rs f) = Some (pc', rs', e, rd) ->
  e = ENone /\
  ((in_seq P pc' /\ fr_doom P c {| f_call := c; f_pc := pc'; f_rs := rs' |} idx) \/
   ((cs_commit P <= pc')%nat /\ exit_of P pc' = Some XNe)).
Proof.
  intros P c f m idx pc' rs' e rd Hok Hin (m0 & r & k & HS & E1 & E2 & Hi & Ho & Hp & Hrd) Hs.
  rewrite <- E1, <- E2 in Hs. rewrite <- E1 in Hin. inversion HS; subst.
  - destruct (H7 Ho Hp) as [Hz|Hz]; [contradiction|subst rd0].
    assert (H9 : istep g P m (cpuarg c) (r_pc r) (r_rs r) = Some (pc'0, rs'0, e0, []))
      by (eapply istep_agree; eauto; intros x []).
    rewrite Hs in H9. inversion H9; subst pc'0 rs'0 e0 rd.
    destruct e; cbn in *; try discriminate.
    + split; auto. left. split.
      * unfold in_seq in *. split; auto. eapply (istep_start P Hok); [|exact Hs]. apply Hin.
      * exists m0. do 2 eexists. split; [exact H8|]. repeat split; auto. cbn. rewrite app_nil_r. auto.
    + destruct H6 as (att & fin & H6 & _). congruence.
    + exfalso. eapply (istep_nocs P Hok); [|exact Hs]. apply Hin.
  - congruence.
  - assert (H9 : istep g P m (cpuarg c) (r_pc r) (r_rs r) = Some (pc'0, rs'0, ENone, []))
      by (eapply istep_agree; eauto; intros x []).
    rewrite Hs in H9. inversion H9; subst. auto.
  - congruence.
Qed.

Lemma sim_instr : forall t l k f P kd pc' rs' e rd,
  running (s_thr s t) ->
  t_ctx (s_thr s t) = {| x_loc := l; x_act := Some f |} :: k ->
  tx (c_code (f_call f)) = Some (P, kd) ->
  istep g P (s_mem s) (index (t_area (s_thr s t)) (pmode P)) (f_pc f) (f_rs f) = Some (pc', rs', e, rd) ->
  e = ENone \/ e = ECs ->
  sim_result (set_t s t
          (set_ctx (match e with ECs => set_cs (s_thr s t) (Some (c_code (f_call f)))
                               | _ => s_thr s t end)
             ({| x_loc := l; x_act := Some {| f_call := f_call f; f_pc := pc'; f_rs := rs' |} |} :: k))) a [].
Proof.
  intros t l k f P kd pc' rs' e rd Hrun Ek Htx Hi He.
  destruct (top_frame _ _ _ _ _ _ HR Ek) as (st & ak & Ea & Hf & Hk).
  pose proof Hf as (P0 & A1 & A2 & A3 & A4 & A5 & A6).
  rewrite A1 in Htx. inversion Htx; subst P0 kd. clear Htx. rewrite A2 in Hi.
  pose proof (tx_good _ _ _ A1) as Hok.
  destruct (static_facts P Hok) as (_ & _ & Hlt & _).
  set (th' := set_ctx _ _).
  assert (Hlike : like (s_thr s t) th').
  { subst th'. destruct He as [-> | ->]; repeat split. }
  (* frame_rel of the new frame, with the unchanged part filled in *)
  assert (Hbuild : forall st', 
     (((cs_commit P <= pc')%nat /\ fr_tail P {| f_call := f_call f; f_pc := pc'; f_rs := rs' |} st') \/
      ((pc' < cs_start P)%nat /\ st' = Pending false /\ fr_pre P (f_call f) {| f_call := f_call f; f_pc := pc'; f_rs := rs' |}) \/
      (in_seq P pc' /\
        (t_reg th' = true -> true = true /\ rseq_cs (t_area th') = Some (c_code (f_call f))) /\
        ((exists w, st' = Pending w /\ (t_reg th' = false \/ t_on th' <> None ->
           fr_cs P (f_call f) {| f_call := f_call f; f_pc := pc'; f_rs := rs' |} (s_mem s) (index (t_area th') (c_mode (f_call f))) w)) \/
         (st' = Finished 1 /\ (t_reg th' = false \/ t_on th' <> None ->
           fr_doom P (f_call f) {| f_call := f_call f; f_pc := pc'; f_rs := rs' |} (index (t_area th') (c_mode (f_call f)))))))) ->
     frame_rel th' (s_mem s) (s_loaded s) true {| f_call := f_call f; f_pc := pc'; f_rs := rs' |} st').
  { intros st' H. exists P. cbn [f_call f_pc]. repeat split; auto; try lia.
    rewrite (like_index _ _ _ Hlike). rewrite (proj1 Hlike). auto. }
  assert (Hsame : frame_rel th' (s_mem s) (s_loaded s) true {| f_call := f_call f; f_pc := pc'; f_rs := rs' |} st ->
     sim_result (set_t s t th') a []).
  { intros H. apply sim_zero. eapply Rel_frame; eauto.
    - reflexivity.
    - intros u. cbn [f_call]. destruct (Nat.eqb_spec u t); subst; auto. }
  destruct A6 as [[B1 (x & r & B2 & B3 & B4)]|[(B1 & B2 & B3)|(B1 & B3 & [(w & B2 & B4)|[B2 B4]])]].
  - (* after the critical section *)
    destruct (tail_step P Hok _ _ _ _ _ _ _ _ _ _ B1 B2 Hi) as [(C1 & C2 & C3)| ->].
    + apply Hsame, Hbuild. left. split; auto. exists x, r. auto.
    + destruct He; discriminate.
  - (* prelude *)
    destruct (prelude_step P Hok _ _ _ _ _ _ _ _ _ B1 Hi) as (C1 & -> & C2 & C3).
    destruct B3 as (junk & r & D1 & D2 & D3 & D4 & D5).
    assert (Hr : forall m idx, reach g P m idx (rinit (f_call f) junk) (rnext r pc' rs' e [])).
    { intros m idx. apply reach_step; auto.
      - rewrite D2. lia.
      - rewrite D2, D3. auto.
      - destruct C2 as [[_ C2]|[_ C2]]; lia.
      - destruct C2 as [[-> _]|[-> _]]; auto. }
    destruct C2 as [[-> C2]|[-> C2]].
    + apply Hsame, Hbuild. right. left. repeat split; auto.
      exists junk, (rnext r pc' rs' ENone []). repeat split; auto; cbn; rewrite ?D4, ?D5; auto.
    + apply Hsame, Hbuild. right. right. split; [unfold in_seq; lia|].
      split; [intros; split; reflexivity|]. left. exists false. split; auto.
      intros _. exists junk, (rnext r pc' rs' ECs []). split; [auto|split; [auto|split; [auto|split; [|split]]]].
      * cbn. rewrite D5. intros x y [].
      * discriminate.
      * cbn. rewrite D4. auto.
  - (* critical section *)
    assert (e = ENone).
    { destruct He as [|He]; auto. subst e. exfalso. exact (istep_nocs P Hok _ _ _ _ _ _ _ _ (proj1 B1) Hi). }
    subst e. clear He.
    destruct (cs_frame _ _ _ _ _ _ _ Hrun Ea A1 A3 A5 B2 B4)
      as (Hidx & junk & r & n & S1 & S2 & S3 & S4 & S5 & S6 & S7 & S8 & S9).
    rewrite <- S2, <- S3 in Hi.
    inversion S6; subst.
    + (* stays inside *)
      rewrite Hi in H0. inversion H0; subst pc'0 rs'0 e rd0.
      assert (Hge : (cs_start P <= r_pc r)%nat) by (rewrite S2; apply B1).
      pose proof (istep_start P Hok _ _ _ _ _ _ _ _ _ Hge Hi) as Hge'.
      assert (Hdec : (one_compare (c_op (f_call f)) = true /\ pseudo g (c_op (f_call f)) (s_mem s) = OFail /\ rd <> []) \/
        (one_compare (c_op (f_call f)) = true -> pseudo g (c_op (f_call f)) (s_mem s) = OFail -> r_rd r ++ rd = [])).
      { destruct (one_compare (c_op (f_call f))); [|right; discriminate].
        destruct (pseudo g (c_op (f_call f)) (s_mem s)); [|right; discriminate].
        destruct rd as [|y rd']; [right; intros; rewrite S9 by auto; auto|left; repeat split; discriminate]. }
      destruct Hdec as [(Hoc & Hps & Hrd)|Hnf].
      * (* reads an unexpected value *)
        assert (w = false) by (destruct w; auto; exfalso; apply S5; auto). subst w.
        assert (Hic : index (t_area (s_thr s t)) (c_mode (f_call f)) = cpuarg (f_call f))
          by (destruct H4 as [[H4 _]|H4]; [contradiction|auto]).
        destruct (Hidx Hic) as (Hright & _ & _). pose proof HR as (Hm & _ & _).
        eapply (sim_one _ _ (ALfail t (f_call f))).
        -- eapply A_fail; eauto. rewrite Hm. auto.
        -- apply (Rel_frame s a t l f k ak th' {| f_call := f_call f; f_pc := pc'; f_rs := rs' |} (Finished 1));
             auto; try reflexivity.
           apply Hbuild. right. right. split; [unfold in_seq in *; lia|]. split; [auto|].
           right. split; auto. intros _. exists (s_mem s). do 2 eexists.
           split; [rewrite (like_index _ _ _ Hlike); exact H8|].
           rewrite (like_index _ _ _ Hlike). repeat split; auto.
           cbn. rewrite S9 by auto. auto.
      * apply Hsame, Hbuild. right. right.
        split; [unfold in_seq in *; lia|]. split; [auto|].
        left. exists w. split; auto.
        intros _. exists junk, (rnext r pc' rs' ENone rd).
        split; [|split; [auto|split; [auto|split; [|split]]]].
        -- rewrite (like_index _ _ _ Hlike). apply reach_step; auto.
        -- cbn. rewrite app_nil_r. auto.
        -- rewrite (like_index _ _ _ Hlike). auto.
        -- auto.
    + rewrite Hi in H0. discriminate.
    + (* comparison failed *)
      rewrite Hi in H0. inversion H0; subst pc'0 rs'0 rd.
      assert (w = false) by (destruct w; auto; exfalso; apply S5; auto). subst w.
      destruct (Hidx H3) as (Hright & _ & _). pose proof HR as (Hm & _ & _).
      eapply (sim_one _ _ (ALfail t (f_call f))).
      * eapply A_fail; eauto. rewrite Hm. auto.
      * apply (Rel_frame s a t l f k ak th' {| f_call := f_call f; f_pc := pc'; f_rs := rs' |} (Finished 1));
          auto; try reflexivity.
        apply Hbuild. left. split; auto. exists XNe, 1. auto.
    + (* index mismatch *)
      rewrite Hi in H1. inversion H1; subst pc'0 rs'0 rd.
      eapply (sim_one _ _ ALtau).
      * eapply A_abort; eauto.
      * apply (Rel_frame s a t l f k ak th' {| f_call := f_call f; f_pc := pc'; f_rs := rs' |} (Finished (-1)));
          auto; try reflexivity.
        apply Hbuild. left. split; auto. exists XAbort, (-1). auto.
  - (* about to fail *)
    destruct Hrun as [Hon _]. specialize (B4 (or_intror Hon)). subst st.
    destruct (doom_step _ _ _ _ _ _ _ _ _ Hok B1 B4 Hi) as [-> [[C1 C2]|[C1 C2]]].
    + apply Hsame, Hbuild. right. right. split; auto.
    + apply Hsame, Hbuild. left. split; auto. exists XNe, 1. auto.
Qed.

Lemma Rel_like_wr : forall t th' ak' ps,
  like (s_thr s t) th' -> no_interference g a t ps ->
  stack_rel th' (wr (s_mem s) ps) (s_loaded s) true (t_ctx th') ak' ->
  Rel (set_m (set_t s t th') (wr (s_mem s) ps)) (set_amem (set_thr a t ak') (wr (s_mem s) ps)).
Proof.
  intros t th' ak' ps Hl Hn Hst. pose proof HR as (Hm0 & Ht & He).
  eapply Rel_step_wr with (t := t) (ps := ps); eauto; try reflexivity.
  - intros u Hu. cbn. apply Nat.eqb_neq in Hu. now rewrite Hu.
  - intros u Hu. cbn. apply Nat.eqb_neq in Hu. now rewrite Hu.
  - cbn. rewrite Nat.eqb_refl. destruct (Ht t) as (I1 & I2 & I3).
    pose proof Hl as (L1 & L2 & _). split; [rewrite L1, L2; auto|]. split; auto. eapply like_fields; eauto.
  - eapply exclusive_sub; eauto. intros u. cbn. destruct (Nat.eqb_spec u t) as [->|Hu]; auto.
    left. apply Hl.
Qed.

Lemma sim_store : forall t l k f P kd pc' rs' ps rd,
  running (s_thr s t) ->
  t_ctx (s_thr s t) = {| x_loc := l; x_act := Some f |} :: k ->
  tx (c_code (f_call f)) = Some (P, kd) ->
  istep g P (s_mem s) (index (t_area (s_thr s t)) (pmode P)) (f_pc f) (f_rs f) = Some (pc', rs', EWr ps, rd) ->
  sim_result (set_m (set_t s t (set_ctx (s_thr s t)
     ({| x_loc := l; x_act := Some {| f_call := f_call f; f_pc := pc'; f_rs := rs' |} |} :: k)))
     (wr (s_mem s) ps)) a [VWrite t ps].
Proof.
  intros t l k f P kd pc' rs' ps rd Hrun Ek Htx Hi.
  destruct (top_frame _ _ _ _ _ _ HR Ek) as (st & ak & Ea & Hf & Hk).
  pose proof Hf as (P0 & A1 & A2 & A3 & A4 & A5 & A6).
  rewrite A1 in Htx. inversion Htx; subst P0 kd. clear Htx. rewrite A2 in Hi.
  pose proof (tx_good _ _ _ A1) as Hok. pose proof HR as (Hm & _ & _).
  set (th' := set_ctx _ _).
  assert (Hlike : like (s_thr s t) th') by (subst th'; repeat split).
  destruct A6 as [[B1 (x & r & B2 & B3 & B4)]|[(B1 & B2 & B3)|(B1 & B3 & [(w & B2 & B4)|[B2 B4]])]].
  - destruct (tail_step P Hok _ _ _ _ _ _ _ _ _ _ B1 B2 Hi) as [(C1 & C2 & C3)|C1]; discriminate.
  - destruct (prelude_step P Hok _ _ _ _ _ _ _ _ _ B1 Hi) as (C1 & -> & [[C2 _]|[C2 _]] & C3); discriminate.
  - destruct (cs_frame _ _ _ _ _ _ _ Hrun Ea A1 A3 A5 B2 B4)
      as (Hidx & junk & r & n & S1 & S2 & S3 & S4 & S5 & S6 & S7 & S8 & S9).
    rewrite <- S2, <- S3 in Hi. set (idx := index (t_area (s_thr s t)) (c_mode (f_call f))) in *.
    inversion S6; subst.
    + (* attempt *)
      rewrite Hi in H0. inversion H0; subst pc'0 rs'0 e rd0. cbn [eff_wr is_wr] in *.
      assert (Ei : idx = cpuarg (f_call f)) by (destruct H4 as [[_ H4]|H4]; [discriminate|auto]).
      destruct (Hidx Ei) as (Hright & Hfl & Hop).
      destruct Hop as [Hdis Hop].
      destruct H6 as (att & fin & Eps & H6).
      assert (Hatt : attempts g (c_op (f_call f)) (s_mem s) = att) by (unfold attempts; now rewrite Eps).
      rewrite Hatt in *.
      assert (Hst : astep g cl a (ALattempt t (f_call f) ps)
         (set_amem (set_thr a t ({| a_loc := l; a_act := Some (f_call f, Pending true) |} :: ak)) (wr (s_mem s) ps))).
      { eapply A_attempt; eauto; rewrite Hm; eauto; try (intros x; reflexivity). }
      assert (Hag : agree (read_foot g (c_op (f_call f)) (s_mem s)) (s_mem s) (wr (s_mem s) ps)).
      { apply agree_wr. intros x Hx Hy. apply (Hdis x); auto.
        apply in_map_iff in Hx. destruct Hx as (p & <- & Hp). apply in_map. auto. }
      refine (sim_one _ _ _ _ Hst _). apply Rel_like_wr; auto.
      { eapply Hni; [exact Hst|reflexivity]. }
      subst th'. cbn [t_ctx set_ctx stack_rel]. split.
      * split; auto. cbn [x_act a_act]. split; auto. exists P. cbn [f_call f_pc].
        repeat split; auto; try lia. right. right.
        assert (Hge : (cs_start P <= r_pc r)%nat) by (rewrite S2; apply B1).
        pose proof (istep_start P Hok _ _ _ _ _ _ _ _ _ Hge Hi) as Hge'.
        split; [unfold in_seq in *; lia|]. split; [auto|]. left. exists true. split; auto.
        intros _. exists junk, (rnext r pc' rs' (EWr ps) rd). cbn [index t_area set_ctx]. fold idx.
        split; [|split; [auto|split; [auto|split; [|split]]]].
        -- apply reach_step; auto.
           ++ eapply reach_agree; eauto. exact (agree_incl _ _ _ _ Hag S7).
           ++ eapply istep_agree; eauto. exact (agree_incl _ _ _ _ Hag H5).
        -- cbn [rnext r_w eff_wr]. intros x b Hx. apply in_app_or in Hx.
           assert (Hin : In (x, b) att) by (destruct Hx; auto).
           destruct (in_dec Z.eq_dec x (map fst ps)) as [Hp|Hp].
           ++ destruct (wr_in ps (s_mem s) x Hp) as (b' & Hb & ->).
              eapply (attempts_functional g (c_op (f_call f)) (s_mem s)); rewrite Hatt; eauto.
           ++ rewrite wr_notin by auto. destruct Hx as [Hx|Hx]; auto.
              exfalso. apply Hp. apply (in_map fst _ _ Hx).
        -- intros _. split; auto. destruct (pseudo_agree _ _ _ _ Hag) as [-> _]. rewrite Eps. discriminate.
        -- destruct (pseudo_agree _ _ _ _ Hag) as [-> _]. rewrite Eps. discriminate.
      * eapply stack_change; eauto.
    + (* commit *)
      rewrite Hi in H0. inversion H0; subst rs'0 fin rd0. subst pc'.
      destruct (Hidx H1) as (Hright & Hfl & Hop).
      assert (Hst : astep g cl a (ALcommit t (f_call f) ps)
         (set_amem (set_thr a t ({| a_loc := l; a_act := Some (f_call f, Finished 0) |} :: ak)) (wr (s_mem s) ps))).
      { eapply A_commit; eauto; rewrite Hm; eauto. apply wr_ext. intros x. symmetry. apply wr_sat.
        eapply sat_incl; eauto. }
      refine (sim_one _ _ _ _ Hst _). apply Rel_like_wr; auto.
      { eapply Hni; [exact Hst|reflexivity]. }
      subst th'. cbn [t_ctx set_ctx stack_rel]. split.
      * split; auto. cbn [x_act a_act]. split; auto. exists P. cbn [f_call f_pc].
        repeat split; auto; try lia. left.
        destruct (static_facts P Hok) as (_ & _ & _ & _ & _ & _ & _ & _ & _ & Hx & _).
        split; auto. exists XOk, 0. auto.
      * eapply stack_change; eauto.
    + rewrite Hi in H0. discriminate.
    + rewrite Hi in H1. discriminate.
  - destruct Hrun as [Hon _]. specialize (B4 (or_intror Hon)).
    destruct (doom_step _ _ _ _ _ _ _ _ _ Hok B1 B4 Hi) as [C1 _]. discriminate.
Qed.

(** Leaving the asm statement: the frame is past its critical section. *)
Lemma exit_tail : forall t l k f P kd pc' rs' x rd,
  running (s_thr s t) ->
  t_ctx (s_thr s t) = {| x_loc := l; x_act := Some f |} :: k ->
  tx (c_code (f_call f)) = Some (P, kd) ->
  istep g P (s_mem s) (index (t_area (s_thr s t)) (pmode P)) (f_pc f) (f_rs f) = Some (pc', rs', EExit x, rd) ->
  exists r ak, exit_ret x = Some r /\
    a_thr a t = {| a_loc := l; a_act := Some (f_call f, Finished r) |} :: ak /\
    stack_rel (s_thr s t) (s_mem s) (s_loaded s) false k ak.
Proof.
  intros t l k f P kd pc' rs' x rd Hrun Ek Htx Hi.
  destruct (top_frame _ _ _ _ _ _ HR Ek) as (st & ak & Ea & Hf & Hk).
  pose proof Hf as (P0 & A1 & A2 & A3 & A4 & A5 & A6).
  rewrite A1 in Htx. inversion Htx; subst P0 kd. clear Htx. rewrite A2 in Hi.
  pose proof (tx_good _ _ _ A1) as Hok.
  destruct A6 as [[B1 (y & r & B2 & B3 & B4)]|[(B1 & B2 & B3)|(B1 & B3 & [(w & B2 & B4)|[B2 B4]])]].
  - destruct (tail_step P Hok _ _ _ _ _ _ _ _ _ _ B1 B2 Hi) as [(C1 & C2 & C3)|C1]; [discriminate|].
    inversion C1; subst. exists r, ak. auto.
  - destruct (prelude_step P Hok _ _ _ _ _ _ _ _ _ B1 Hi) as (C1 & -> & [[C2 _]|[C2 _]] & C3); discriminate.
  - destruct (cs_frame _ _ _ _ _ _ _ Hrun Ea A1 A3 A5 B2 B4)
      as (Hidx & junk & r & n & S1 & S2 & S3 & S4 & S5 & S6 & S7 & S8 & S9).
    rewrite <- S2, <- S3 in Hi.
    inversion S6; subst.
    + rewrite Hi in H0. inversion H0; subst e. discriminate.
    + rewrite Hi in H0. discriminate.
    + rewrite Hi in H0. discriminate.
    + rewrite Hi in H1. discriminate.
  - destruct Hrun as [Hon _]. specialize (B4 (or_intror Hon)).
    destruct (doom_step _ _ _ _ _ _ _ _ _ Hok B1 B4 Hi) as [C1 _]. discriminate.
Qed.

Lemma sim_return : forall t l k f P kd pc' rs' x rd r,
  running (s_thr s t) ->
  t_ctx (s_thr s t) = {| x_loc := l; x_act := Some f |} :: k ->
  tx (c_code (f_call f)) = Some (P, kd) ->
  istep g P (s_mem s) (index (t_area (s_thr s t)) (pmode P)) (f_pc f) (f_rs f) = Some (pc', rs', EExit x, rd) ->
  exit_ret x = Some r ->
  sim_result (set_t s t (set_ctx (s_thr s t) ({| x_loc := cl_ret _ cl l (f_call f) r; x_act := None |} :: k)))
    a [VRet t (f_call f) r].
Proof.
  intros t l k f P kd pc' rs' x rd r Hrun Ek Htx Hi Hr.
  destruct (exit_tail _ _ _ _ _ _ _ _ _ _ Hrun Ek Htx Hi) as (r' & ak & E1 & E2 & E3).
  rewrite Hr in E1. inversion E1; subst r'.
  eapply (sim_one _ _ (ALret t (f_call f) r)); [eapply A_ret; exact E2|].
  eapply Rel_like; eauto; try reflexivity; [repeat split|].
  cbn [t_ctx set_ctx stack_rel]. split; [split; cbn; auto|]. eapply stack_change; eauto.
Qed.

Lemma sim_call : forall t l k c P kd junk,
  t_ctx (s_thr s t) = {| x_loc := l; x_act := None |} :: k ->
  cl_call _ cl l (s_mem s) c ->
  tx (c_code c) = Some (P, kd) -> s_loaded s (c_code c) = true ->
  kd = kind_of (c_op c) -> pmode P = c_mode c ->
  - 2 ^ 31 <= c_cpu c < 2 ^ 31 ->
  t_reg (s_thr s t) = true \/ c_cpu c <> unreg_index (c_mode c) ->
  sim_result (set_t s t (set_ctx (s_thr s t)
    ({| x_loc := l; x_act := Some {| f_call := c; f_pc := 0; f_rs := init_regs c junk |} |} :: k))) a [VCall t c].
Proof.
  intros t l k c P kd junk Ek Hc Htx Hl Hkd Hm Hr Hu. subst kd.
  destruct (top_idle _ _ _ _ _ HR Ek) as (ak & Ea & Hk). pose proof HR as (Hmm & Ht & _).
  rewrite <- Hmm in Hc.
  eapply (sim_one _ _ (ALcall t c)); [eapply A_call; [exact Ea|exact Hc]|].
  eapply Rel_like; eauto; try reflexivity; [repeat split|].
  cbn [t_ctx set_ctx stack_rel]. split.
  - split; auto. cbn [x_act a_act]. split; auto. exists P. cbn [f_call f_pc t_reg set_ctx t_area].
    destruct (static_facts P (tx_good _ _ _ Htx)) as (_ & H0 & _).
    repeat split; auto; try lia.
    + intros Hreg. destruct Hu as [Hu|Hu]; [congruence|].
      destruct (Ht t) as (_ & (Hf & _) & _). destruct (Hf Hreg) as [F1 F2].
      unfold index, cpuarg, unreg_index in *. destruct (c_mode c); [rewrite F1|rewrite F2]; intros E; apply Hu.
      * destruct (Z_lt_le_dec (c_cpu c) 0).
        -- rewrite <- (Z_mod_plus_full (c_cpu c) 1 (2 ^ 32)) in E. rewrite Z.mod_small in E by lia. lia.
        -- rewrite Z.mod_small in E by lia. lia.
      * destruct (Z_lt_le_dec (c_cpu c) 0).
        -- rewrite <- (Z_mod_plus_full (c_cpu c) 1 (2 ^ 32)) in E. rewrite Z.mod_small in E by lia. lia.
        -- rewrite Z.mod_small in E by lia. lia.
    + right. left. repeat split; auto. exists junk, (rinit c junk). repeat split; auto. intros. constructor.
  - eapply stack_change; eauto.
Qed.

Lemma sim_write : forall t l k ps l',
  t_ctx (s_thr s t) = {| x_loc := l; x_act := None |} :: k ->
  cl_write _ cl l (s_mem s) ps l' ->
  sim_result (set_m (set_t s t (set_ctx (s_thr s t) ({| x_loc := l'; x_act := None |} :: k)))
           (wr (s_mem s) ps)) a [VWrite t ps].
Proof.
  intros t l k ps l' Ek Hc.
  destruct (top_idle _ _ _ _ _ HR Ek) as (ak & Ea & Hk). pose proof HR as (Hmm & Ht & _).
  assert (Hst : astep g cl a (ALwrite t ps)
     (set_amem (set_thr a t ({| a_loc := l'; a_act := None |} :: ak)) (wr (s_mem s) ps))).
  { eapply A_write; eauto; rewrite Hmm; auto. intros x; reflexivity. }
  refine (sim_one _ _ _ _ Hst _). apply Rel_like_wr; [repeat split|eapply Hni; [exact Hst|reflexivity]|].
  cbn [t_ctx set_ctx stack_rel]. split; [split; cbn; auto|]. eapply stack_change; eauto.
Qed.

Lemma sim_local : forall t l k l',
  t_ctx (s_thr s t) = {| x_loc := l; x_act := None |} :: k ->
  cl_tau _ cl l (s_mem s) l' ->
  sim_result (set_t s t (set_ctx (s_thr s t) ({| x_loc := l'; x_act := None |} :: k))) a [].
Proof.
  intros t l k l' Ek Hc.
  destruct (top_idle _ _ _ _ _ HR Ek) as (ak & Ea & Hk). pose proof HR as (Hmm & Ht & _).
  rewrite <- Hmm in Hc.
  eapply (sim_one _ _ ALtau); [eapply A_tau; [exact Ea|exact Hc]|].
  eapply Rel_like; eauto; try reflexivity; [repeat split|].
  cbn [t_ctx set_ctx stack_rel]. split; [split; cbn; auto|]. eapply stack_change; eauto.
Qed.

Lemma sim_clear : forall t l k,
  t_ctx (s_thr s t) = {| x_loc := l; x_act := None |} :: k ->
  sim_result (set_t s t (set_cs (s_thr s t) None)) a [].
Proof.
  intros t l k Ek. destruct (top_idle _ _ _ _ _ HR Ek) as (ak & Ea & Hk).
  apply sim_zero. eapply Rel_like; eauto; [repeat split|apply (a_thr_same _ _ _ Ea)|].
  cbn [t_ctx set_cs set_area]. rewrite Ek. cbn [stack_rel]. split; [split; cbn; auto|].
  eapply stack_change; eauto.
Qed.

Lemma sim_sigret : forall t l x k,
  t_ctx (s_thr s t) = {| x_loc := l; x_act := None |} :: x :: k ->
  cl_done _ cl l ->
  sim_result (set_t s t (set_ctx (s_thr s t) (x :: k))) a [].
Proof.
  intros t l x k Ek Hd. destruct (top_idle _ _ _ _ _ HR Ek) as (ak & Ea & Hk).
  destruct ak as [|ax ak]; [contradiction|].
  eapply (sim_one _ _ ALtau); [eapply A_sigret; [exact Ea|exact Hd]|].
  eapply Rel_like; eauto; try reflexivity; [repeat split|].
  cbn [t_ctx set_ctx]. eapply stack_change; eauto.
Qed.

Lemma sim_unload : forall id,
  (forall t x, In x (t_ctx (s_thr s t)) -> ~ in_code Loc id x) ->
  sim_result {| s_mem := s_mem s; s_thr := s_thr s;
           s_loaded := fun i => if Nat.eqb i id then false else s_loaded s i |} a [].
Proof.
  intros id Hid. apply sim_zero. destruct HR as (Hm & Ht & He). split; [auto|split; auto].
  intros t. destruct (Ht t) as (I1 & I2 & I3). split; [auto|split; auto]. cbn [s_mem s_thr s_loaded].
  eapply stack_same; eauto. intros x f Hx Hf Hl.
  destruct (Nat.eqb_spec (c_code (f_call f)) id); auto.
  exfalso. apply (Hid t x Hx). exists f. auto.
Qed.

(** Scheduling steps: thread [t] becomes [th'], possibly aborting its call. *)
Lemma sim_sched : forall t th' ak',
  fields_ok th' ->
  (ak' = a_thr a t \/ abort_of (a_thr a t) ak') ->
  stack_rel th' (s_mem s) (s_loaded s) true (t_ctx th') ak' ->
  exclusive (fun u => t_on (s_thr (set_t s t th') u)) ->
  sim_result (set_t s t th') a [].
Proof.
  intros t th' ak' Hf Hak Hst Hex. pose proof HR as (Hm & Ht & He).
  set (on' := fun u => if t_reg (s_thr (set_t s t th') u) then t_on (s_thr (set_t s t th') u) else None).
  assert (S1 : astep g cl a ALtau (set_aon a on')) by (apply A_sched, exclusive_reg; auto).
  assert (HRel : forall a', a_mem a' = a_mem a -> a_on a' = on' ->
    (forall u, a_thr a' u = if Nat.eqb u t then ak' else a_thr a u) -> Rel (set_t s t th') a').
  { intros a' E1 E2 E3. split; [cbn; congruence|]. split; auto. intros u. rewrite E2, E3.
    destruct (Nat.eqb_spec u t) as [->|Hu].
    - rewrite set_t_same. split; [unfold on'; now rewrite set_t_same|]. split; auto.
    - unfold on'. rewrite set_t_other by auto. destruct (Ht u) as (J1 & J2 & J3). split; auto. }
  destruct Hak as [->|(l & c & st & k & E1 & E0 & E2)].
  - refine (sim_one _ _ _ _ S1 _). apply HRel; auto. intros u. cbn. destruct (Nat.eqb_spec u t); subst; auto.
  - eapply (sim_two _ _ _ _ S1).
    + eapply A_abort; [exact E1|exact E0].
    + apply HRel; auto. intros u. rewrite E2. reflexivity.
Qed.

Lemma exclusive_set : forall t th', 
  (t_on th' = None \/ t_on th' = t_on (s_thr s t) \/
   exists cpu cid, t_on th' = Some (cpu, cid) /\ cpu_free s t cpu cid) ->
  exclusive (fun u => t_on (s_thr (set_t s t th') u)).
Proof.
  intros t th' H. destruct HR as (_ & _ & He). intros u v c1 d1 c2 d2 Hne Hu Hv.
  cbn [s_thr set_t] in Hu, Hv.
  destruct (Nat.eqb_spec u t) as [->|Hut]; destruct (Nat.eqb_spec v t) as [->|Hvt]; try congruence.
  - destruct H as [H|[H|(cpu & cid & H & Hfree)]]; try congruence.
    + rewrite H in Hu. eapply (He t v); eauto.
    + rewrite H in Hu. inversion Hu; subst. destruct (Hfree v c2 d2 Hvt Hv). split; auto.
  - destruct H as [H|[H|(cpu & cid & H & Hfree)]]; try congruence.
    + rewrite H in Hv. eapply (He u t); eauto.
    + rewrite H in Hv. inversion Hv; subst. destruct (Hfree u c1 d1 Hut Hu). split; auto.
  - eapply (He u v); eauto.
Qed.

Lemma sim_preempt : forall t,
  sim_result (set_t s t (set_on (s_thr s t) None)) a [].
Proof.
  intros t. pose proof HR as (Hm & Ht & He). destruct (Ht t) as (I1 & I2 & I3).
  apply sim_sched with (ak' := a_thr a t); auto.
  - destruct I2 as (F1 & F2 & F3). split; [auto|]. cbn. split; intros; discriminate.
  - eapply stack_same; eauto; cbn; congruence.
  - apply exclusive_set. auto.
Qed.

Lemma fixup_fields_ok : forall ld th, fields_ok th -> fields_ok (fixup tx ld th).
Proof.
  intros ld th (F1 & F2 & F3). destruct (fixup_fields ld th) as (G1 & G2 & G3 & G4).
  unfold fields_ok. rewrite G1, G2, G3. split; [auto|].
  destruct G4 as [-> | ->]; [auto|]. split; intros; discriminate.
Qed.

Lemma sim_ipi : forall t,
  sim_result (set_t s t (fixup tx (s_loaded s) (s_thr s t))) a [].
Proof.
  intros t. pose proof HR as (Hm & Ht & He). destruct (Ht t) as (I1 & I2 & I3).
  destruct (fixup_fields (s_loaded s) (s_thr s t)) as (G1 & G2 & G3 & G4).
  destruct (t_reg (s_thr s t)) eqn:Hreg.
  - destruct (fixup_stack (s_thr s t) (s_thr s t) _ _ _ Hreg Hreg eq_refl eq_refl I3) as (ak' & H1 & H2 & H3).
    apply sim_sched with (ak' := ak'); auto.
    + apply fixup_fields_ok; auto.
    + apply exclusive_set. tauto.
  - rewrite fixup_unreg by auto. apply sim_sched with (ak' := a_thr a t); auto. apply exclusive_set. auto.
Qed.

Lemma sim_resume : forall t cpu cid,
  0 <= cpu < 2 ^ 31 -> 0 <= cid < 2 ^ 31 -> cpu_free s t cpu cid ->
  sim_result (set_t s t
          (let th := set_on (s_thr s t) (Some (cpu, cid)) in
           let th := if t_reg th
                     then set_area th {| rseq_cs := rseq_cs (t_area th);
                                         cpu_field := cpu; cid_field := cid |}
                     else th in
           fixup tx (s_loaded s) th)) a [].
Proof.
  intros t cpu cid Hc1 Hc2 Hfree. pose proof HR as (Hm & Ht & He). destruct (Ht t) as (I1 & I2 & I3).
  cbv zeta. cbn [t_reg set_on]. destruct (t_reg (s_thr s t)) eqn:Hreg.
  - set (th := set_area _ _).
    assert (R1 : t_reg th = true) by auto.
    destruct (fixup_stack (s_thr s t) th _ _ _ Hreg R1 eq_refl eq_refl I3) as (ak' & H1 & H2 & H3).
    destruct (fixup_fields (s_loaded s) th) as (G1 & G2 & G3 & G4).
    apply sim_sched with (ak' := ak'); auto.
    + apply fixup_fields_ok. split; [rewrite R1; discriminate|].
      split; intros cpu' cid'; cbn; intros; [inversion H|inversion H0]; subst; auto.
    + apply H3. rewrite G1. auto.
    + apply exclusive_set. destruct G4 as [G4|G4]; auto. right. right. exists cpu, cid. rewrite G4. auto.
  - rewrite fixup_unreg by auto. apply sim_sched with (ak' := a_thr a t); auto.
    + destruct I2 as (F1 & F2 & F3). split; [auto|]. cbn. split; intros; [inversion H; subst; auto|congruence].
    + assert (Hst : stack_rel (s_thr s t) (s_mem s) (s_loaded s) true (t_ctx (s_thr s t)) (a_thr a t)) by auto.
      cbn [t_ctx set_on]. clear I3. revert Hst.
      assert (G : forall k ak top, stack_rel (s_thr s t) (s_mem s) (s_loaded s) top k ak ->
        stack_rel (set_on (s_thr s t) (Some (cpu, cid))) (s_mem s) (s_loaded s) top k ak); [|apply G].
      induction k as [|x k IH]; intros [|ax ak] top H; auto. cbn [stack_rel] in *. destruct H as [[H1 H2] H3].
      split; [|auto]. split; auto.
      destruct (x_act x) as [f|]; destruct (a_act ax) as [[c st]|]; auto. destruct H2 as [-> H2]. split; auto.
      eapply frame_change; eauto. congruence.
    + apply exclusive_set. right. right. exists cpu, cid. auto.
Qed.

Lemma sim_signal : forall t x k l',
  t_ctx (s_thr s t) = x :: k ->
  cl_sig _ cl (x_loc x) l' ->
  sim_result (set_t s t
          (let th := fixup tx (s_loaded s) (s_thr s t) in
           set_ctx th ({| x_loc := l'; x_act := None |} :: t_ctx th))) a [].
Proof.
  intros t x k l' Ek Hsig. cbv zeta. pose proof HR as (Hm & Ht & He). destruct (Ht t) as (I1 & I2 & I3).
  destruct (fixup_fields (s_loaded s) (s_thr s t)) as (G1 & G2 & G3 & G4).
  set (th := fixup tx (s_loaded s) (s_thr s t)) in *.
  set (th' := set_ctx th _).
  assert (Hax : exists ax ak, a_thr a t = ax :: ak /\ a_loc ax = x_loc x).
  { rewrite Ek in I3. destruct (a_thr a t) as [|ax ak]; [contradiction|].
    destruct I3 as [[I3 _] _]. eauto. }
  destruct Hax as (ax & ak & Ea & El).
  (* after the fix-up: no frame in a critical section, or unregistered *)
  assert (Hst : exists ak', (ak' = a_thr a t \/ abort_of (a_thr a t) ak') /\
    stack_rel th' (s_mem s) (s_loaded s) false (t_ctx th) ak').
  { destruct (t_reg (s_thr s t)) eqn:Hreg.
    - destruct (fixup_stack (s_thr s t) (s_thr s t) _ _ _ Hreg Hreg eq_refl eq_refl I3) as (ak' & H1 & H2 & H3).
      exists ak'. split; auto.
    - exists (a_thr a t). split; auto. unfold th', th in *. rewrite fixup_unreg by auto.
      revert I3. generalize (t_ctx (s_thr s t)) at 1 3. intros kk H.
      destruct kk as [|y kk]; destruct (a_thr a t) as [|ay aak]; auto.
      cbn [stack_rel] in *. destruct H as [[J1 J2] J3]. split.
      + split; auto. destruct (x_act y) as [f|]; destruct (a_act ay) as [[c st]|]; auto.
        destruct J2 as [-> J2]. split; auto. eapply frame_change; eauto. congruence.
      + eapply stack_change; eauto. }
  destruct Hst as (ak' & Hak & Hst).
  set (on' := fun u => if t_reg (s_thr (set_t s t th') u) then t_on (s_thr (set_t s t th') u) else None).
  assert (Hex : exclusive (fun u => t_on (s_thr (set_t s t th') u))).
  { apply exclusive_set. unfold th'. cbn. tauto. }
  assert (S1 : astep g cl a ALtau (set_aon a on')) by (apply A_sched, exclusive_reg; auto).
  assert (HRel : forall a', a_mem a' = a_mem a -> a_on a' = on' ->
    (forall u, a_thr a' u = if Nat.eqb u t then {| a_loc := l'; a_act := None |} :: ak' else a_thr a u) ->
    Rel (set_t s t th') a').
  { intros a' E1 E2 E3. split; [cbn; congruence|]. split; auto. intros u. rewrite E2, E3.
    destruct (Nat.eqb_spec u t) as [->|Hu].
    - rewrite set_t_same. split; [unfold on'; now rewrite set_t_same|]. split.
      + pose proof (fixup_fields_ok (s_loaded s) _ I2) as F. unfold fields_ok in *. unfold th'. cbn. auto.
      + unfold th' at 2. cbn [t_ctx set_ctx s_mem s_loaded set_t stack_rel]. split; [split; cbn; auto|auto].
    - unfold on'. rewrite set_t_other by auto. destruct (Ht u) as (J1 & J2 & J3). split; auto. }
  destruct Hak as [->|(l & c & st & kk & E1 & E0 & E2)].
  - refine (sim_two _ _ _ (set_thr (set_aon a on') t ({| a_loc := l'; a_act := None |} :: a_thr a t)) S1 _ _).
    + rewrite Ea. apply A_sig; cbn; auto. now rewrite El.
    + apply HRel; reflexivity.
  - assert (S2 : astep g cl (set_aon a on') ALtau (set_thr (set_aon a on') t ak')).
    { rewrite E2. eapply A_abort; [exact E1|exact E0]. }
    assert (S3 : astep g cl (set_thr (set_aon a on') t ak') ALtau
       (set_thr (set_thr (set_aon a on') t ak') t ({| a_loc := l'; a_act := None |} :: ak'))).
    { rewrite E2. apply A_sig; cbn; [now rewrite Nat.eqb_refl|].
      rewrite E1 in Ea. inversion Ea; subst. cbn in El. rewrite El. auto. }
    exists ([] ++ [ALtau] ++ [ALtau] ++ [ALtau]), (set_thr (set_thr (set_aon a on') t ak') t ({| a_loc := l'; a_act := None |} :: ak')).
    split; [|split; [|split; [reflexivity|right; intros ? [<-|[<-|[<-|[]]]]; auto]]].
    + rewrite !app_assoc. econstructor; [econstructor; [econstructor; [constructor|eauto]|eauto]|eauto].
    + apply HRel; try reflexivity. intros u. cbn. destruct (Nat.eqb u t); auto.
Qed.

Lemma sim_idle_area : forall t l th',
  t_ctx (s_thr s t) = [{| x_loc := l; x_act := None |}] -> t_ctx th' = t_ctx (s_thr s t) ->
  t_on th' = t_on (s_thr s t) -> fields_ok th' ->
  sim_result (set_t s t th') a [].
Proof.
  intros t l th' Ek Ek' Eo Hf. destruct (top_idle _ _ _ _ _ HR Ek) as (ak & Ea & Hk).
  destruct ak; [|contradiction].
  apply sim_sched with (ak' := a_thr a t); auto.
  - rewrite Ek', Ek, Ea. cbn. split; auto. split; cbn; auto.
  - apply exclusive_set. auto.
Qed.

End Step.

(** No error exit (C07) and every step is simulated. *)
Lemma sim_step : forall s a, Rel s a ->
  (forall t c, in_flight a t c -> op_wf g (c_op c) (a_mem a)) ->
  (forall l a' t ps, astep g cl a l a' -> writes l = Some (t, ps) -> no_interference g a t ps) ->
  forall l s', step g tx cl s l s' -> call_ok s l ->
  sim_result s' a (cvis1 l) /\ (forall t, l <> Lbug t).
Proof.
  intros s a HR Hwf Hni l s' Hs Hc. pose proof HR as (_ & Ht & _).
  destruct Hs; cbn [cvis1]; (split; [|try discriminate]).
  - eapply sim_instr; eauto.
  - eapply sim_store; eauto.
  - eapply sim_return; eauto.
  - exfalso. destruct (exit_tail s a HR Hwf _ _ _ _ _ _ _ _ _ _ H H0 H1 H3) as (r & _ & E & _). congruence.
  - exfalso. destruct (exit_tail s a HR Hwf _ _ _ _ _ _ _ _ _ _ H H0 H1 H3) as (r & _ & E & _). congruence.
  - eapply sim_call; eauto.
  - eapply sim_write; eauto.
  - eapply sim_local; eauto.
  - eapply sim_clear; eauto.
  - eapply sim_unload; eauto.
  - eapply sim_preempt; eauto.
  - eapply sim_resume; eauto.
  - eapply sim_ipi; eauto.
  - eapply sim_signal; eauto.
  - eapply sim_sigret; eauto.
  - eapply sim_idle_area; eauto.
    destruct (Ht t) as (_ & (F1 & F2 & F3) & _). split; cbn; [discriminate|]. split; auto.
    intros cpu' cid' _ E. rewrite H2 in E. inversion E; subst; auto.
  - eapply sim_idle_area; eauto.
    destruct (Ht t) as (_ & (F1 & F2 & F3) & _). split; cbn; [auto|]. split; auto. discriminate.
Qed.

Lemma Rel_initial : forall s, initial s -> Rel s (abs_init s).
Proof.
  intros s (H1 & H2 & H3). split; [reflexivity|]. split; [|exact H2].
  intros t. destruct (H1 t) as (D1 & D2 & (l & D3) & D4 & D5 & D6).
  split; [reflexivity|]. split; [split; auto|]. cbn. rewrite D3. cbn. split; auto. split; cbn; auto.
Qed.

Lemma aexec_app : forall s ls s' ls' s'', aexec g cl s ls s' -> aexec g cl s' ls' s'' ->
  aexec g cl s (ls ++ ls') s''.
Proof.
  intros s ls s' ls' s'' H1 H2. induction H2; [rewrite app_nil_r; auto|].
  rewrite app_assoc. econstructor; eauto.
Qed.

(** Every run of the concrete machine is a run of the abstract machine with the
    same calls, returns and writes. *)
Lemma refinement : forall s0 ls s, initial s0 -> safe_client g cl (abs_init s0) ->
  exec g tx cl s0 ls s ->
  (forall t, ~ In (Lbug t) ls) /\
  exists als a, aexec g cl (abs_init s0) als a /\ avis als = cvis ls /\ Rel s a.
Proof.
  intros s0 ls s Hi Hc He. induction He as [|s0 ls s' l s'' He IH Hs Hok].
  - split; [auto|]. exists [], (abs_init s). split; [apply aexec_nil|]. split; auto. apply Rel_initial; auto.
  - destruct (IH Hi Hc) as (Hb & als & a & H1 & H2 & H3).
    destruct (Hc als a H1) as [Hwf Hni].
    destruct (sim_step s' a H3 Hwf Hni l s'' Hs Hok) as [(als' & a' & J1 & J2 & J3 & _) Hl].
    split.
    + intros t Hin. apply in_app_or in Hin. destruct Hin as [Hin|[Hin|[]]]; [eapply Hb; eauto|].
      exact (Hl t Hin).
    + exists (als ++ als'), a'. split; [eapply aexec_app; eauto|]. split; auto.
      unfold avis, cvis in *. rewrite !flat_map_app. rewrite H2, J3. cbn. now rewrite app_nil_r.
Qed.

End Sim.
