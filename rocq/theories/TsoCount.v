(** The membarrier test on x86-TSO: no increment is lost. *)
From Coq Require Import ZArith Bool List Lia.
From Verif Require Import RseqIR RseqSpec RseqKernel RseqSafe MemLemmas RunLemmas RseqSim RseqOwn RseqCalls ArchCommon Arch_x86 Archs BarrierSpec BarrierProofs TsoModel TsoSpec TsoProofs.
Import ListNotations.
Local Open Scope Z_scope.

(** ** Sums *)
Lemma sum_ext : forall A (f h : A -> Z) l, (forall a, In a l -> f a = h a) -> sum f l = sum h l.
Proof. induction l as [|a l IH]; intros H; [reflexivity|]. cbn. rewrite (H a (or_introl eq_refl)), IH; [reflexivity|]. intros b Hb. apply H. right. exact Hb. Qed.
Lemma sum_upd : forall A (f h : A -> Z) l x d, NoDup l -> In x l -> h x = f x + d -> (forall a, a <> x -> h a = f a) -> sum h l = sum f l + d.
Proof.
  induction l as [|a l IH]; intros x d Hn Hx E1 E2; [destruct Hx|]. inversion Hn as [|? ? N1 N2]; subst. cbn. destruct Hx as [-> | Hx].
  - rewrite E1, (sum_ext _ h f l); [lia|]. intros b Hb. apply E2. intros ->. contradiction.
  - rewrite (IH x d N2 Hx E1 E2), E2; [lia|]. intros ->. contradiction.
Qed.
Lemma sum_nonneg : forall A (f : A -> Z) l, (forall a, In a l -> 0 <= f a) -> 0 <= sum f l.
Proof. induction l as [|a l IH]; intros H; [cbn; lia|]. cbn. pose proof (H a (or_introl eq_refl)). specialize (IH (fun b Hb => H b (or_intror Hb))). lia. Qed.
Lemma sum_bound : forall A (f : A -> Z) l x, (forall a, In a l -> 0 <= f a) -> In x l -> f x <= sum f l.
Proof.
  induction l as [|a l IH]; intros x H Hx; [destruct Hx|]. cbn. pose proof (H a (or_introl eq_refl)).
  assert (Hr : forall b, In b l -> 0 <= f b) by (intros b Hb; apply H; right; exact Hb). destruct Hx as [-> | Hx].
  - pose proof (sum_nonneg _ _ _ Hr). lia.
  - pose proof (IH x Hr Hx). lia.
Qed.
Lemma sum_app : forall A (f : A -> Z) l k, sum f (l ++ k) = sum f l + sum f k.
Proof. induction l as [|a l IH]; intros k; [reflexivity|]. cbn. rewrite IH. lia. Qed.
Lemma sum_map : forall A B (f : B -> Z) (h : A -> B) l, sum f (map h l) = sum (fun a => f (h a)) l.
Proof. induction l as [|a l IH]; [reflexivity|]. cbn. rewrite IH. reflexivity. Qed.

Section Count.
Variables (g : cfg) (tw : bool) (tx : text) (md : imode) (L : layout) (la lb : Z) (mg : nat).
Hypothesis Htx : lib_text X86_64 tw tx.
Hypothesis Hlay : layout_ok g L.
Hypothesis Hbases : bases L = [la; lb].
Hypothesis Hne : la <> lb.

Let n : nat := if tw then 2%nat else 0%nat.
Notation cl := (mt_client g md L la lb).
Notation state := (RseqKernel.state mt_loc).
Notation thread := (RseqKernel.thread mt_loc).
Notation ctx := (RseqKernel.ctx mt_loc).
Notation Inv := (Inv mt_loc tw tx).
Notation LI := (LI mt_loc g tw tx L md).
Notation FS := (FS g tw tx L md).
Notation on_frame := (on_frame mt_loc).
Notation OI := (OI g tw tx md L la lb mg).
Notation T_ := (tso mt_loc).
Notation idx := (idx md).

(** ** The end of the helper *)
Lemma pg_tail : forall m i pc rs pc' rs' e rd, istep g (PG tw md) m i pc rs = Some (pc', rs', e, rd) ->
  (pc = (7 + n)%nat -> exists x, e = EExit x /\ exit_ret x = Some 0) /\
  (pc <> (7 + n)%nat -> pc' = (7 + n)%nat -> exists ps, e = EWr ps) /\
  (pc <> (7 + n)%nat -> forall x, e = EExit x -> exit_ret x <> Some 0).
Proof.
  intros m i pc rs pc' rs' e rd H. subst n. unfold PG, istep in H.
  assert (Hfin : forall x y : exit, EExit x = EExit y -> exit_ret x <> Some 0 -> exit_ret y <> Some 0) by (intros x y E; injection E as ->; auto).
  destruct tw; cbn [plus];
    (do 21 (destruct pc as [|pc]; [cbn in H; first [discriminate H|injection H as <- <- <- _; split; [|split]; intros;
       try destruct (rs ZF =? 0); try discriminate; try lia; eauto; (eapply Hfin; [eassumption|]; discriminate)]|]));
    cbn in H; try discriminate H; destruct pc; cbn in H; discriminate H.
Qed.
Lemma pg_abort_ne : cs_abort (PG tw md) <> (7 + n)%nat.
Proof. subst n. unfold PG. destruct tw, md; vm_compute; discriminate. Qed.

(** ** What a worker has still to do *)
Definition iters (l : mt_loc) : Z := match l with Tread i | Tcall i _ => Z.of_nat i | _ => 0 end.
Definition stored (x : ctx) : bool := match x_act x with Some f => Nat.eqb (f_pc f) (7 + n) | None => false end.
Definition pend (x : ctx) : Z := iters (x_loc x) - if stored x then 1 else 0.
Definition left (th : thread) : Z := sum pend (t_ctx th).
Definition frm (x : ctx) : Prop := forall f, x_act x = Some f ->
  (exists i c, x_loc x = Tcall (S i) c) /\ c_op (f_call f) = AddLoadLoadAddStore (ptr L) (field L (c_cpu (f_call f))) 1.
Definition wf (th : thread) : Prop := Forall frm (t_ctx th).

Lemma frm_none : forall l, frm {| x_loc := l; x_act := None |}.
Proof. intros l f H. discriminate H. Qed.
Lemma frm_same : forall l f pc rs, frm {| x_loc := l; x_act := Some f |} -> frm {| x_loc := l; x_act := Some {| f_call := f_call f; f_pc := pc; f_rs := rs |} |}.
Proof. intros l f pc rs H f' E. injection E as <-. exact (H f eq_refl). Qed.

Lemma fixup_left : forall ld th, Forall (on_frame FS) (t_ctx th) -> wf th -> wf (fixup tx ld th) /\ left (fixup tx ld th) = left th.
Proof.
  intros ld th HFS Hw. unfold fixup. destruct (negb (t_reg th)); [auto|]. destruct (rseq_cs (t_area th)) as [id|]; [|auto].
  destruct (if ld id then tx id else None) as [[P kd]|] eqn:Et; [|auto]. destruct (negb (desc_ok P)); [auto|].
  unfold wf, left in *. destruct (t_ctx th) as [|[l [f|]] k] eqn:Ek; try (cbn; rewrite Ek; auto).
  destruct (Nat.eqb (c_code (f_call f)) id && in_cs P (f_pc f)) eqn:Ein; [|cbn; rewrite Ek; auto].
  apply andb_true_iff in Ein. destruct Ein as [E1 E2]. apply Nat.eqb_eq in E1.
  destruct (Forall_inv HFS f eq_refl) as (A & _).
  assert (HP : P = PG tw md) by (subst id; destruct (ld (c_code (f_call f))); [rewrite A in Et; injection Et as <- _; reflexivity|discriminate Et]).
  subst P. apply (in_cs_inside tw tx Htx) in E2. unfold inside in E2. fold n in E2. cbn [set_ctx set_cs set_area t_ctx]. split.
  - constructor; [|exact (Forall_inv_tail Hw)]. apply frm_same. exact (Forall_inv Hw).
  - cbn [sum]. f_equal. unfold pend, stored. cbn [x_act x_loc f_pc].
    pose proof pg_abort_ne as Ha. apply Nat.eqb_neq in Ha. rewrite Ha.
    assert (Hb : f_pc f <> (7 + n)%nat) by lia. apply Nat.eqb_neq in Hb. rewrite Hb. reflexivity.
Qed.

Lemma wf_step : forall u s l s', Forall (on_frame FS) (t_ctx (s_thr s u)) -> wf (s_thr s u) -> step g tx cl s l s' -> wf (s_thr s' u).
Proof.
  intros u s l s' HFS Hh Hs.
  destruct Hs as [s t l k f P kd pc' rs' e rd Hrun Ek Et Hld Hst He
    |s t l k f P kd pc' rs' ps rd Hrun Ek Et Hld Hst
    |s t l k f P kd pc' rs' x rd r Hrun Ek Et Hld Hst Hx
    |s t l k f P kd pc' rs' x rd Hrun Ek Et Hld Hst Hx
    |s t l k c P kd junk Hrun Ek Hc Et Hld Hkd Hmd Hcpu
    |s t l k ps l' Hrun Ek Hw
    |s t l k l' Hrun Ek Hw
    |s t l k Hrun Ek
    |s id Hun
    |s t Hrun
    |s t cpu cid Hon Hdead Hcpu Hcid Hfree
    |s t Hrun
    |s t x k l' Hrun Ek Hsig
    |s t l x k Hrun Ek Hdone
    |s t l cpu cid Hrun Hreg Ek Hon
    |s t l Hrun Hreg Ek];
    try (destruct (Nat.eq_dec u t) as [-> | Hno];
         [|cbn [s_thr set_m]; rewrite thr_other by exact Hno; exact Hh]);
    try (cbn [s_thr set_m] in *; rewrite thr_same in * ); try exact Hh;
    try (unfold wf in Hh; rewrite Ek in Hh; pose proof (Forall_inv Hh) as H1; pose proof (Forall_inv_tail Hh) as H2; cbn in H1).
  - unfold wf. destruct He as [-> | ->]; cbn [set_ctx t_ctx]; constructor; auto; apply frm_same; exact H1.
  - unfold wf. cbn [set_ctx t_ctx]; constructor; auto; apply frm_same; exact H1.
  - unfold wf. cbn [set_ctx t_ctx]; constructor; auto; apply frm_none.
  - unfold wf. cbn [set_ctx t_ctx]; constructor; auto. destruct Hc as (i & cpu & code & -> & _ & ->). intros f Hf. cbn in Hf. injection Hf as <-. cbn. eauto.
  - unfold wf. cbn [set_ctx t_ctx]; constructor; auto; apply frm_none.
  - unfold wf. cbn [set_ctx t_ctx]; constructor; auto; apply frm_none.
  - apply fixup_left; [|unfold wf]; cbn; destruct (t_reg (s_thr s t)); assumption.
  - apply fixup_left; assumption.
  - unfold wf. cbn [set_ctx t_ctx]. constructor; [apply frm_none|]. apply fixup_left; [assumption|unfold wf; rewrite Ek; exact Hh].
  - unfold wf. cbn [set_ctx t_ctx]. exact H2.
Qed.

Lemma left_step : forall u s l s', wshape (s_thr s u) -> Forall (on_frame FS) (t_ctx (s_thr s u)) -> wf (s_thr s u) -> step g tx cl s l s' ->
  (forall ps, l <> Lwr u ps) -> left (s_thr s' u) = left (s_thr s u).
Proof.
  intros u s l s' Hsh HFS Hh Hs Hnw.
  destruct Hs as [s t l k f P kd pc' rs' e rd Hrun Ek Et Hld Hst He
    |s t l k f P kd pc' rs' ps rd Hrun Ek Et Hld Hst
    |s t l k f P kd pc' rs' x rd r Hrun Ek Et Hld Hst Hx
    |s t l k f P kd pc' rs' x rd Hrun Ek Et Hld Hst Hx
    |s t l k c P kd junk Hrun Ek Hc Et Hld Hkd Hmd Hcpu
    |s t l k ps l' Hrun Ek Hw
    |s t l k l' Hrun Ek Hw
    |s t l k Hrun Ek
    |s id Hun
    |s t Hrun
    |s t cpu cid Hon Hdead Hcpu Hcid Hfree
    |s t Hrun
    |s t x k l' Hrun Ek Hsig
    |s t l x k Hrun Ek Hdone
    |s t l cpu cid Hrun Hreg Ek Hon
    |s t l Hrun Hreg Ek];
    try (destruct (Nat.eq_dec u t) as [-> | Hno];
         [|cbn [s_thr set_m]; rewrite thr_other by exact Hno; reflexivity]);
    try (cbn [s_thr set_m] in *; rewrite thr_same in * ); try reflexivity;
    try (exfalso; exact (Hnw _ eq_refl)).
  - assert (HA : tx (c_code (f_call f)) = Some (PG tw md, KAddLoadLoad)) by (rewrite Ek in HFS; exact (proj1 (Forall_inv HFS f eq_refl))).
    rewrite HA in Et. injection Et as <- <-. destruct (pg_tail _ _ _ _ _ _ _ _ Hst) as (G1 & G2 & _).
    assert (H1 : f_pc f <> (7 + n)%nat) by (intros E; destruct (G1 E) as (x & -> & _); destruct He; discriminate).
    assert (H2 : pc' <> (7 + n)%nat) by (intros E; destruct (G2 H1 E) as (x & ->); destruct He; discriminate).
    apply Nat.eqb_neq in H1, H2. unfold left. rewrite Ek.
    destruct He as [-> | ->]; cbn [set_ctx t_ctx sum]; f_equal; unfold pend, stored; cbn [x_act x_loc f_pc]; rewrite H1, H2; reflexivity.
  - assert (HA : tx (c_code (f_call f)) = Some (PG tw md, KAddLoadLoad)) by (rewrite Ek in HFS; exact (proj1 (Forall_inv HFS f eq_refl))).
    rewrite HA in Et. injection Et as <- <-. destruct (pg_tail _ _ _ _ _ _ _ _ Hst) as (G1 & _ & G3).
    unfold left, wf in *. rewrite Ek in *. cbn [set_ctx t_ctx sum]. f_equal. destruct (Forall_inv Hh f eq_refl) as [(i & c & El) _]. cbn in El. subst l.
    unfold pend, stored. cbn [x_act x_loc cl_ret mt_client iters]. destruct (Nat.eqb_spec (f_pc f) (7 + n)) as [E|E].
    + destruct (G1 E) as (y & Ey & E0). injection Ey as <-. rewrite Hx in E0. injection E0 as ->. cbn [Z.eqb iters]. lia.
    + pose proof (G3 E x eq_refl) as E0. rewrite Hx in E0. destruct (r =? 0) eqn:Er; [apply Z.eqb_eq in Er; congruence|]. cbn [iters]. lia.
  - unfold left. rewrite Ek. reflexivity.
  - unfold left. rewrite Ek. cbn [set_ctx t_ctx sum]. f_equal. unfold wshape in Hsh. rewrite Ek in Hsh. apply Forall_inv in Hsh. cbn in Hsh.
    destruct l as [[|i]|i cpu| | | | | |]; try destruct Hsh; cbn in Hw; try destruct Hw. destruct H as [_ ->]. reflexivity.
  - change (t_reg (set_on (s_thr s t) (Some (cpu, cid)))) with (t_reg (s_thr s t)). destruct (t_reg (s_thr s t)).
    + exact (proj2 (fixup_left (s_loaded s) (set_area (set_on (s_thr s t) (Some (cpu, cid))) _) HFS Hh)).
    + exact (proj2 (fixup_left (s_loaded s) (set_on (s_thr s t) (Some (cpu, cid))) HFS Hh)).
  - apply fixup_left; assumption.
  - unfold left. cbn [set_ctx t_ctx sum]. cbn in Hsig. rewrite Hsig. exact (proj2 (fixup_left (s_loaded s) _ HFS Hh)).
  - unfold left. rewrite Ek. cbn [set_ctx t_ctx sum]. cbn in Hdone. rewrite Hdone. reflexivity.
Qed.

Lemma pend_nonneg : forall x, worker_loc (x_loc x) -> frm x -> 0 <= pend x.
Proof.
  intros x Hw H. unfold pend, stored. destruct (x_act x) as [f|] eqn:E.
  - destruct (H f E) as [(i & c & ->) _]. cbn [iters]. destruct (Nat.eqb (f_pc f) (7 + n)); lia.
  - destruct (x_loc x); cbn [iters]; lia.
Qed.
Lemma left_nonneg : forall th, wshape th -> wf th -> 0 <= left th.
Proof.
  intros th Hw H. apply sum_nonneg. intros x Hx. unfold wshape, wf in *. rewrite Forall_forall in *. apply pend_nonneg; auto.
Qed.

(** A store. *)
Lemma left_store : forall s t ps s', Inv s -> LI s -> wshape (s_thr s t) -> wf (s_thr s t) -> step g tx cl s (Lwr t ps) s' ->
  left (s_thr s' t) = left (s_thr s t) - 1 /\ 1 <= left (s_thr s t) /\ t_on (s_thr s' t) = t_on (s_thr s t) /\
  exists b k, item_of L b k /\ idx (t_on (s_thr s t)) = Some k /\ ps = stw g (node L b k) (wrap g (ldw g (s_mem s) (node L b k) + 1)).
Proof.
  intros s t ps s' Hi HL Hw Hf Hs.
  destruct (store_frame g tw tx md L la lb Htx s t ps s' Hi HL Hw Hs) as (l & k & f & Ek & HF & Hpc & Hidx & R1 & R2 & R3 & Hps & Hs').
  pose proof Hf as Hf'. unfold wf in Hf'. rewrite Ek in Hf'. destruct (Forall_inv Hf' f eq_refl) as [(i & c & El) Hop]. cbn in El. subst l.
  rewrite Hs'. split; [|split; [|split]].
  - unfold left. rewrite Ek. cbn [set_ctx t_ctx sum]. unfold pend at 1 3, stored. cbn [x_act x_loc f_pc].
    rewrite Hpc. fold n. rewrite Nat.eqb_refl. assert (E : Nat.eqb (6 + n) (7 + n) = false) by (apply Nat.eqb_neq; lia). rewrite E. lia.
  - unfold left, wshape in *. rewrite Ek in *. cbn [sum]. unfold pend at 1, stored. cbn [x_act x_loc f_pc iters].
    rewrite Hpc. fold n. assert (E : Nat.eqb (6 + n) (7 + n) = false) by (apply Nat.eqb_neq; lia). rewrite E.
    assert (0 <= sum pend k). { apply sum_nonneg. intros x Hx. apply Forall_inv_tail in Hw, Hf'. rewrite Forall_forall in *. apply pend_nonneg; auto. }
    lia.
  - reflexivity.
  - destruct HF as (A & B & C & C' & D & E & F1 & F2 & F3). destruct (F3 Hpc) as (b & G1 & G2).
    exists b, (c_cpu (f_call f)). split; [split; assumption|]. split; [exact Hidx|]. rewrite <- G2.
    destruct Hi as [HT _]. destruct (HT t) as [_ I2 _ _ _]. rewrite Ek in I2. destruct (Forall_inv I2 f eq_refl) as [_ J]. destruct (J md A) as (_ & _ & J3 & _).
    destruct (J3 _ _ _ Hop) as (_ & _ & J4). rewrite <- J4. exact Hps.
Qed.

(** ** The counters *)
Definition vals (T : T_) (V : Z -> Z -> Z) : Prop := forall b k, item_of L b k ->
  0 <= V b k /\
  (forall t, t <> mg -> idx (t_on (s_thr (o_core T) t)) = Some k -> ldw g (sees T t) (node L b k) = wrap g (V b k)) /\
  ((forall t, t <> mg -> idx (t_on (s_thr (o_core T) t)) <> Some k) -> ldw g (s_mem (o_core T)) (node L b k) = wrap g (V b k)).

Lemma idx_excl : forall s, Inv s -> forall t u k, idx (t_on (s_thr s t)) = Some k -> idx (t_on (s_thr s u)) = Some k -> t = u.
Proof.
  intros s [_ HD] t u k H1 H2. destruct (Nat.eq_dec t u) as [E|E]; [exact E|]. exfalso.
  destruct (t_on (s_thr s t)) as [[c d]|] eqn:E1; [|discriminate H1]. destruct (t_on (s_thr s u)) as [[c' d']|] eqn:E2; [|discriminate H2].
  destruct (HD t u c d c' d' E E1 E2). cbn in H1, H2. destruct md; congruence.
Qed.

Lemma vals_move : forall T T' V t, vals T V -> Inv (o_core T) -> Inv (o_core T') -> s_mem (o_core T') = s_mem (o_core T) ->
  (forall u, u <> mg -> o_buf T' u = o_buf T u) -> (forall u, u <> t -> s_thr (o_core T') u = s_thr (o_core T) u) ->
  (t_on (s_thr (o_core T') t) = t_on (s_thr (o_core T) t) \/
   (o_buf T t = [] /\ (t_on (s_thr (o_core T') t) = None \/ t_on (s_thr (o_core T) t) = None))) -> vals T' V.
Proof.
  intros T T' V t HV Hi Hi' Em Eb Et Hon b k Hb. destruct (HV b k Hb) as (V0 & V1 & V2). split; [exact V0|].
  assert (Hsees : forall u, u <> mg -> sees T' u = sees T u) by (intros u Hu; unfold sees; rewrite Em, Eb by exact Hu; reflexivity).
  destruct Hon as [Hon|[Hbt Hon]].
  - assert (Hall : forall u, t_on (s_thr (o_core T') u) = t_on (s_thr (o_core T) u)).
    { intros u. destruct (Nat.eq_dec u t) as [-> | Hu]; [exact Hon|]. rewrite Et by exact Hu. reflexivity. }
    split; [intros u Hu Hk; rewrite Hall in Hk; rewrite Hsees by exact Hu; auto|].
    intros Hk. rewrite Em. apply V2. intros u Hu. rewrite <- Hall. auto.
  - assert (Hmem : sees T t = s_mem (o_core T)) by (unfold sees; rewrite Hbt; reflexivity). split.
    + intros u Hu Hk. rewrite Hsees by exact Hu. destruct (Nat.eq_dec u t) as [-> | Hut].
      2:{ rewrite Et in Hk by exact Hut. auto. }
      destruct Hon as [Hon|Hon]; [rewrite Hon in Hk; discriminate Hk|]. rewrite Hmem. apply V2. intros v Hv Hkv.
      destruct (Nat.eq_dec v t) as [-> | Hvt]; [rewrite Hon in Hkv; discriminate Hkv|]. rewrite <- Et in Hkv by exact Hvt.
      apply Hvt. exact (idx_excl _ Hi' v t k Hkv Hk).
    + intros Hno. rewrite Em. destruct (Nat.eq_dec t mg) as [-> | Htm].
      { apply V2. intros v Hv. rewrite <- Et by exact Hv. auto. }
      destruct (idx (t_on (s_thr (o_core T) t))) as [k'|] eqn:Ek.
      * destruct (Z.eq_dec k' k) as [-> | Hkk]; [rewrite <- Hmem; apply V1; auto|]. apply V2. intros v Hv.
        destruct (Nat.eq_dec v t) as [-> | Hvt]; [congruence|]. rewrite <- Et by exact Hvt. auto.
      * apply V2. intros v Hv. destruct (Nat.eq_dec v t) as [-> | Hvt]; [congruence|]. rewrite <- Et by exact Hvt. auto.
Qed.

Lemma flush_agree : forall b a m m', agree a m m' -> agree a (flush m b) (flush m' b).
Proof.
  induction b as [|ps b IH]; intros a m m' H; [exact H|]. cbn. apply IH. clear IH. revert m m' H.
  induction ps as [|[x v] ps IH]; intros m m' H; [exact H|]. rewrite !wr_cons. apply IH. intros y Hy. unfold upd_mem. cbn. destruct (Z.eqb y x); [reflexivity|]. apply H. exact Hy.
Qed.
Lemma flush_other : forall b m a v c, disjoint (span a (wsize g)) (span c (wsize g)) ->
  ldw g (flush (wr m (stw g a v)) b) c = ldw g (flush m b) c.
Proof.
  intros b m a v c H. apply ldw_agree. apply flush_agree. intros x Hx. apply wr_notin. rewrite stw_keys. intros Hy. exact (H x Hy Hx).
Qed.

(** ** The sum *)
Definition tot (V : Z -> Z -> Z) : Z := sum (V la) (cpus L) + sum (V lb) (cpus L).
Lemma cpus_in : forall c, In c (cpus L) <-> 0 <= c < ncpus L.
Proof.
  intros c. unfold cpus. rewrite in_map_iff. split.
  - intros (i & <- & Hi). apply List.in_seq in Hi. lia.
  - intros H. exists (Z.to_nat c). split; [lia|]. apply List.in_seq. lia.
Qed.
Lemma cpus_nodup : NoDup (cpus L).
Proof. unfold cpus. apply FinFun.Injective_map_NoDup; [intros a b; apply Nat2Z.inj|apply seq_NoDup]. Qed.
Definition bump (V : Z -> Z -> Z) (b0 k0 : Z) : Z -> Z -> Z := fun b k => if (b =? b0) && (k =? k0) then V b k + 1 else V b k.
Lemma bump_same : forall V b k, bump V b k b k = V b k + 1.
Proof. intros. unfold bump. rewrite !Z.eqb_refl. reflexivity. Qed.
Lemma bump_other : forall V b0 k0 b k, b <> b0 \/ k <> k0 -> bump V b0 k0 b k = V b k.
Proof. intros V b0 k0 b k H. unfold bump. destruct (Z.eqb_spec b b0), (Z.eqb_spec k k0); cbn; auto. destruct H; contradiction. Qed.
Lemma tot_bump : forall V b k, item_of L b k -> tot (bump V b k) = tot V + 1.
Proof.
  intros V b k [Hb Hk]. apply cpus_in in Hk. rewrite Hbases in Hb. unfold tot. destruct Hb as [<- |[<- |[]]].
  - rewrite (sum_upd _ (V la) (bump V la k la) (cpus L) k 1 cpus_nodup Hk (bump_same _ _ _)) by (intros a Ha; apply bump_other; auto).
    rewrite (sum_ext _ (bump V la k lb) (V lb)) by (intros a Ha; apply bump_other; auto). lia.
  - rewrite (sum_upd _ (V lb) (bump V lb k lb) (cpus L) k 1 cpus_nodup Hk (bump_same _ _ _)) by (intros a Ha; apply bump_other; auto).
    rewrite (sum_ext _ (bump V lb k la) (V la)) by (intros a Ha; apply bump_other; auto). lia.
Qed.

Section Work.
Variables (W : list nat) (todo : nat -> nat).
Hypothesis HNW : NoDup W.

Record CI (T : T_) : Prop := {
  ci_oi : OI T;
  ci_wf : forall t, t <> mg -> wf (s_thr (o_core T) t);
  ci_out : forall t, t <> mg -> ~ In t W -> left (s_thr (o_core T) t) = 0;
  ci_mgr : ~ In mg W;
  ci_val : exists V, vals T V /\ tot V + sum (fun t => left (s_thr (o_core T) t)) W = sum (fun t => Z.of_nat (todo t)) W }.

Lemma mgr_buf : forall T, OI T -> o_buf T mg = [] \/ exists a, o_buf T mg = [stw g (ptr L) (act la lb a)].
Proof.
  intros T H. destruct (oi_mgr _ _ _ _ _ _ _ _ _ H) as (M & _ & Hp). destruct M as [| |a cpu e|a cpu|a cpu|a cpu| |]; cbn in Hp; try contradiction.
  - left. apply Hp.
  - left. apply Hp.
  - destruct Hp as [_ Hp]. destruct (o_mb T mg); [left; apply Hp|]. destruct Hp as [Hp|Hp]; [left; apply Hp|right; exists a; apply Hp].
  - left. apply Hp.
  - left. apply Hp.
Qed.
Lemma disj_sym : forall a b : list Z, disjoint a b -> disjoint b a.
Proof. intros a b H x Hx Hy. exact (H x Hy Hx). Qed.

(** Steps that store nothing. *)
Lemma ci_quiet : forall T T' t, CI T -> OI T' -> s_mem (o_core T') = s_mem (o_core T) ->
  (forall u, u <> mg -> o_buf T' u = o_buf T u) -> (forall u, u <> t -> s_thr (o_core T') u = s_thr (o_core T) u) ->
  (t_on (s_thr (o_core T') t) = t_on (s_thr (o_core T) t) \/
   (o_buf T t = [] /\ (t_on (s_thr (o_core T') t) = None \/ t_on (s_thr (o_core T) t) = None))) ->
  (t <> mg -> wf (s_thr (o_core T') t) /\ left (s_thr (o_core T') t) = left (s_thr (o_core T) t)) -> CI T'.
Proof.
  intros T T' t H Ho Em Eb Et Hon Hw. destruct H as [H1 H2 H3 H4 (V & H5 & H6)].
  assert (Hl : forall u, u <> mg -> left (s_thr (o_core T') u) = left (s_thr (o_core T) u)).
  { intros u Hu. destruct (Nat.eq_dec u t) as [-> | Hut]; [apply Hw; exact Hu|rewrite Et by exact Hut; reflexivity]. }
  constructor; auto.
  - intros u Hu. destruct (Nat.eq_dec u t) as [-> | Hut]; [apply Hw; exact Hu|rewrite Et by exact Hut; auto].
  - intros u Hu Hi. rewrite Hl by exact Hu. auto.
  - exists V. split; [apply (vals_move T T' V t); auto; [apply H1|apply Ho]|]. rewrite <- H6. f_equal. apply sum_ext.
    intros u Hu. apply Hl. intros ->. contradiction.
Qed.

Lemma ci_step : forall T T', CI T -> ostep g tx cl (mt_ask md) T T' -> CI T'.
Proof.
  intros T T' HC Hs. pose proof (ci_oi _ HC) as H.
  assert (H' : OI T') by (refine (oi_step g tw tx md L la lb mg Htx Hlay Hbases Hne T T' H Hs)).
  destruct Hs as [T t l s' Hs Hoth Hl Hon Hok|T t ps b Eb|T t l k D l' Hrun Ek Ha Emb Eb|T t d cpu u cid Emb Hu Hdu Ebu|T t d J Emb HJ|T t l k D l' d Hrun Ek Ha Emb Hall].
  - assert (Hi : Inv (set_m (o_core T) (sees T t))) by (apply inv_mem; apply H).
    assert (HLt : LI (set_m (o_core T) (sees T t))) by (split; [refine (any_sees g tw tx md L la lb mg Hlay Hbases T t H)|apply H]).
    assert (Hsw : t_on (s_thr s' t) = t_on (s_thr (o_core T) t) \/
       (o_buf T t = [] /\ (t_on (s_thr s' t) = None \/ t_on (s_thr (o_core T) t) = None))).
    { destruct (step_on mt_loc g tw tx cl Htx _ l s' t Hi Hs) as [E|E]; [left; exact E|]. cbn in E.
      destruct (t_on (s_thr s' t)) as [[c1 d1]|] eqn:E1, (t_on (s_thr (o_core T) t)) as [[c2 d2]|] eqn:E2; try (left; reflexivity).
      - destruct E as [E|E]; discriminate E.
      - right. split; [apply Hon; discriminate|auto].
      - right. split; [apply Hon; discriminate|auto]. }
    destruct (Nat.eq_dec t mg) as [-> | Ht].
    { apply (ci_quiet T _ mg HC H'); cbn [o_core o_buf set_m s_thr s_mem]; auto.
      - intros u Hu. apply upd_other. exact Hu.
      - intros E. contradiction. }
    assert (HFS : Forall (on_frame FS) (t_ctx (s_thr (set_m (o_core T) (sees T t)) t))) by apply HLt.
    assert (Hwf' : wf (s_thr s' t)) by (refine (wf_step t _ l s' HFS _ Hs); cbn; apply HC; exact Ht).
    assert (Hcase : (exists ps, l = Lwr t ps) \/ (wrote l = [] /\ forall ps, l <> Lwr t ps)).
    { destruct l as [| | |v qs|]; try (right; split; [reflexivity|intros ps E; discriminate E]). left. exists qs. rewrite (Hl v qs eq_refl). reflexivity. }
    destruct Hcase as [(ps & ->)|[Hwr Hnw]].
    2:{ apply (ci_quiet T _ t HC H'); cbn [o_core o_buf set_m s_thr s_mem]; auto.
      - intros u Hu. destruct (Nat.eq_dec u t) as [-> | Hut]; [rewrite upd_same, Hwr; apply app_nil_r|apply upd_other; exact Hut].
      - intros _. split; [exact Hwf'|]. refine (left_step t _ l s' _ HFS _ Hs Hnw); cbn; [apply H|apply HC]; exact Ht. }
    pose proof HC as [C1 C2 C3 C4 (V & C5 & C6)].
    destruct (left_store _ t ps s' Hi HLt (oi_wrk _ _ _ _ _ _ _ _ _ H t Ht) (C2 t Ht) Hs) as (E1 & E2 & E3 & b0 & k0 & Hb0 & Hk0 & Eps).
    cbn [set_m s_thr s_mem] in E1, E2, E3, Hk0, Eps.
    assert (HtW : In t W). { destruct (in_dec Nat.eq_dec t W) as [HW|HW]; [exact HW|]. rewrite (C3 t Ht HW) in E2. lia. }
    assert (Hsees : flush (s_mem (o_core T)) (o_buf T t ++ [ps]) = wr (sees T t) ps) by (rewrite flush_app; reflexivity).
    assert (Hother : forall u, u <> t -> left (s_thr s' u) = left (s_thr (o_core T) u)) by (intros u Hu; rewrite Hoth by exact Hu; reflexivity).
    constructor; cbn [o_core o_buf set_m s_thr s_mem]; auto.
    + intros u Hu. destruct (Nat.eq_dec u t) as [-> | Hut]; [exact Hwf'|]. rewrite Hoth by exact Hut. auto.
    + intros u Hu HuW. rewrite Hother by (intros ->; contradiction). auto.
    + exists (bump V b0 k0). split.
      * assert (Hall : forall u, t_on (s_thr s' u) = t_on (s_thr (o_core T) u)).
        { intros u. destruct (Nat.eq_dec u t) as [-> | Hu]; [exact E3|]. rewrite Hoth by exact Hu. reflexivity. }
        intros b k Hb. unfold sees. cbn [o_core o_buf set_m s_thr s_mem wrote]. destruct (C5 b k Hb) as (V0 & V1 & V2).
        assert (Hd : (b = b0 /\ k = k0) \/ (b <> b0 \/ k <> k0)) by (destruct (Z.eq_dec b b0), (Z.eq_dec k k0); auto).
        destruct Hd as [[-> ->]|Hd].
        -- rewrite bump_same. split; [lia|]. split.
           ++ intros u Hu Hk. rewrite Hall in Hk. assert (u = t) by (refine (idx_excl (o_core T) _ u t k0 Hk Hk0); apply H). subst u.
              rewrite upd_same, Hsees, Eps, ldw_stw by (apply Z.mod_pos_bound; pose proof (ldw_range g (sees T t) 0); lia).
              rewrite (V1 t Ht Hk0). unfold wrap. rewrite Zplus_mod_idemp_l. reflexivity.
           ++ intros Hno. exfalso. apply (Hno t Ht). rewrite Hall. exact Hk0.
        -- rewrite bump_other by exact Hd. split; [exact V0|]. split.
           ++ intros u Hu Hk. rewrite Hall in Hk. destruct (Nat.eq_dec u t) as [-> | Hut].
              ** rewrite upd_same, Hsees, Eps, ldw_stw_other; [apply V1; auto|]. apply Hlay; auto. destruct Hd; [left|right]; auto.
              ** rewrite upd_other by exact Hut. apply V1; auto.
           ++ intros Hno. apply V2. intros u Hu. rewrite <- Hall. auto.
      * rewrite tot_bump by exact Hb0.
        rewrite (sum_upd _ (fun u => left (s_thr (o_core T) u)) (fun u => left (s_thr s' u)) W t (-1) HNW HtW) by (auto; lia). lia.
  - (* a store reaches the memory *)
    pose proof HC as [C1 C2 C3 C4 (V & C5 & C6)]. constructor; cbn [o_core o_buf set_m s_thr s_mem]; auto.
    exists V. split; [|exact C6]. intros b1 k1 Hb. destruct (C5 b1 k1 Hb) as (V0 & V1 & V2). unfold sees. cbn [o_core o_buf set_m s_thr s_mem].
    split; [exact V0|]. destruct (Nat.eq_dec t mg) as [-> | Ht].
    + destruct (mgr_buf T H) as [E|(a & E)]; [congruence|]. rewrite Eb in E. injection E as -> ->.
      assert (Hd : disjoint (span (ptr L) (wsize g)) (span (node L b1 k1) (wsize g))) by (apply disj_sym; apply (proj2 (proj1 (proj2 Hlay) b1 k1 Hb))).
      split.
      * intros u Hu Hk. rewrite upd_other by exact Hu. rewrite flush_other by exact Hd. apply V1; auto.
      * intros Hno. rewrite ldw_stw_other by exact Hd. apply V2; auto.
    + destruct (oi_buf _ _ _ _ _ _ _ _ _ H t Ht ps) as (b0 & k0 & v0 & F1 & F2 & F3); [rewrite Eb; left; reflexivity|]. subst ps. split.
      * intros u Hu Hk. destruct (Nat.eq_dec u t) as [-> | Hut].
        -- rewrite upd_same. rewrite <- (V1 t Ht Hk). unfold sees. rewrite Eb. reflexivity.
        -- rewrite upd_other by exact Hut. rewrite flush_other; [apply V1; auto|]. apply Hlay; auto. right. intros ->.
           apply Hut. refine (idx_excl (o_core T) _ u t k1 Hk F2). apply H.
      * intros Hno. rewrite ldw_stw_other; [apply V2; auto|]. apply Hlay; auto. right. intros ->. exact (Hno t Ht F2).
  - destruct HC as [C1 C2 C3 C4 C5]. constructor; auto.
  - assert (HFS : Forall (on_frame FS) (t_ctx (s_thr (o_core T) u))) by apply H.
    apply (ci_quiet T _ u HC H'); cbn [o_core o_buf]; auto.
    + intros v Hv. rewrite thr_other by exact Hv. reflexivity.
    + rewrite thr_same. destruct (fixup_fields mt_loc tx (s_loaded (o_core T)) (s_thr (o_core T) u)) as (_ & _ & _ & [E|E]); [left; exact E|right; auto].
    + intros Hum. rewrite thr_same. apply fixup_left; [exact HFS|apply HC; exact Hum].
  - destruct HC as [C1 C2 C3 C4 C5]. constructor; auto.
  - assert (Et : t = mg). { destruct (Nat.eq_dec t mg) as [E|E]; [exact E|]. rewrite (oi_mbs _ _ _ _ _ _ _ _ _ H t E) in Emb. discriminate Emb. }
    subst t. apply (ci_quiet T _ mg HC H'); cbn [o_core o_buf]; auto.
    + intros v Hv. rewrite thr_other by exact Hv. reflexivity.
    + left. rewrite thr_same. reflexivity.
    + intros E. contradiction.
Qed.

(** ** Beginning and end *)
Lemma starts_oi : forall T, starts g L la mg todo T -> OI T.
Proof.
  intros T (S1 & S2 & S3 & S4 & S5 & S6 & S7 & S8). constructor.
  - apply initial_inv. exact S1.
  - split; [exact S6|]. intros t. destruct (Nat.eq_dec t mg) as [-> | Ht]; [rewrite S3|rewrite S4 by exact Ht]; (constructor; [intros f Hf; discriminate Hf|constructor]).
  - exists (Mcheck true 0 0). split; [exists O; exact S3|]. cbn. split; [apply S2|]. split; [split; [apply S2|exact S7]|]. split; [lia|]. split.
    + intros t c d Ht _ _. split; [|rewrite (proj1 (S2 t)); intros ps []]. intros _ _ _. rewrite (S4 t Ht). intros f Hf. discriminate Hf.
    + apply S8. split; [rewrite Hbases; right; left; reflexivity|lia].
  - intros t Ht. unfold wshape. rewrite (S4 t Ht). repeat constructor.
  - intros t _. apply S2.
  - intros t _ ps Hps. rewrite (proj1 (S2 t)) in Hps. destruct Hps.
Qed.
Lemma starts_ci : forall T, starts g L la mg todo T -> ~ In mg W -> (forall t, t <> mg -> ~ In t W -> todo t = O) -> CI T.
Proof.
  intros T HS Hm Hout. pose proof (starts_oi T HS) as Ho. destruct HS as (S1 & S2 & S3 & S4 & S5 & S6 & S7 & S8).
  assert (Hl : forall t, t <> mg -> left (s_thr (o_core T) t) = Z.of_nat (todo t)).
  { intros t Ht. unfold left. rewrite (S4 t Ht). cbn [sum pend stored x_act x_loc iters]. unfold pend. cbn. lia. }
  constructor; auto.
  - intros t Ht. unfold wf. rewrite (S4 t Ht). constructor; [apply frm_none|constructor].
  - intros t Ht HW. rewrite Hl, Hout by auto. reflexivity.
  - exists (fun _ _ => 0). split.
    + intros b k Hb. split; [lia|]. split.
      * intros t Ht _. unfold sees. rewrite (proj1 (S2 t)). cbn. rewrite S8 by exact Hb. reflexivity.
      * intros _. rewrite S8 by exact Hb. reflexivity.
    + unfold tot. assert (Hz : forall l : list Z, sum (fun _ : Z => 0) l = 0) by (induction l as [|a l IH]; [reflexivity|cbn; rewrite IH; reflexivity]).
      rewrite !Hz. cbn [Z.add]. apply sum_ext. intros t Ht. apply Hl. intros ->. contradiction.
Qed.
Lemma runs_oi : forall T T', OI T -> oruns g tx cl (mt_ask md) T T' -> OI T'.
Proof. intros T T' H Hr. induction Hr as [|T T' T'' Hr IH Hs]; [exact H|]. exact (oi_step g tw tx md L la lb mg Htx Hlay Hbases Hne T' T'' (IH H) Hs). Qed.
Lemma runs_ci : forall T T', CI T -> oruns g tx cl (mt_ask md) T T' -> CI T'.
Proof. intros T T' H Hr. induction Hr as [|T T' T'' Hr IH Hs]; [exact H|]. exact (ci_step T' T'' (IH H) Hs). Qed.

Lemma ci_total : forall T u, CI T -> (forall t, t <> mg -> over T t) -> sum (fun t => Z.of_nat (todo t)) W < wmod g ->
  total g L la lb (sees T u) = sum (fun t => Z.of_nat (todo t)) W.
Proof.
  intros T u HC Hov Hlt. pose proof HC as [C1 C2 C3 C4 (V & C5 & C6)].
  assert (Hleft : sum (fun t => left (s_thr (o_core T) t)) W = 0).
  { assert (Hz : forall l : list nat, sum (fun _ : nat => 0) l = 0) by (induction l as [|a l IH]; [reflexivity|cbn; rewrite IH; reflexivity]).
    rewrite (sum_ext _ _ (fun _ => 0)); [apply Hz|]. intros t Ht. assert (Htm : t <> mg) by (intros ->; contradiction).
    unfold left. rewrite (proj1 (Hov t Htm)). reflexivity. }
  rewrite Hleft, Z.add_0_r in C6. rewrite <- C6 in Hlt |- *.
  assert (Hmem : forall b k, item_of L b k -> ldw g (s_mem (o_core T)) (node L b k) = wrap g (V b k)).
  { intros b k Hb. destruct (C5 b k Hb) as (V0 & V1 & V2). destruct (Z.eq_dec (ldw g (s_mem (o_core T)) (node L b k)) (wrap g (V b k))) as [E|E]; [exact E|].
    apply V2. intros t Ht Hk. apply E. rewrite <- (V1 t Ht Hk). unfold sees. rewrite (proj2 (Hov t Ht)). reflexivity. }
  assert (Hsees : forall b k, item_of L b k -> ldw g (sees T u) (node L b k) = wrap g (V b k)).
  { intros b k Hb. rewrite <- (Hmem b k Hb). unfold sees. destruct (Nat.eq_dec u mg) as [-> | Hu]; [|rewrite (proj2 (Hov u Hu)); reflexivity].
    destruct (mgr_buf T C1) as [-> | (a & ->)]; [reflexivity|]. cbn. apply ldw_stw_other. apply disj_sym. apply (proj2 (proj1 (proj2 Hlay) b k Hb)). }
  assert (Hnn : forall b, In b (bases L) -> forall k, In k (cpus L) -> 0 <= V b k).
  { intros b Hb k Hk. apply cpus_in in Hk. apply (C5 b k). split; assumption. }
  assert (Ha : In la (bases L)) by (rewrite Hbases; left; reflexivity).
  assert (Hb : In lb (bases L)) by (rewrite Hbases; right; left; reflexivity).
  pose proof (sum_nonneg _ _ _ (Hnn la Ha)) as N1. pose proof (sum_nonneg _ _ _ (Hnn lb Hb)) as N2. unfold tot in Hlt.
  assert (Hc : forall b, In b (bases L) -> sum (V b) (cpus L) < wmod g -> sum (counter g L (sees T u) b) (cpus L) = sum (V b) (cpus L)).
  { intros b Hbb Hsm. apply sum_ext. intros k Hk. pose proof (sum_bound _ _ _ k (Hnn b Hbb) Hk) as B1. pose proof (Hnn b Hbb k Hk) as B2. apply cpus_in in Hk.
    rewrite (counter_node g L).
    - rewrite Hsees by (split; assumption). apply Z.mod_small. lia.
    - refine (any_sees g tw tx md L la lb mg Hlay Hbases T u C1).
    - split; assumption. }
  unfold total, tot. rewrite !Hc by (auto; lia). reflexivity.
Qed.
End Work.

Lemma never_fails : forall todo T T', starts g L la mg todo T -> oruns g tx cl (mt_ask md) T T' -> ~ failed T'.
Proof.
  intros todo T T' HS Hr (t & x & Hx & Ex). pose proof (runs_oi T T' (starts_oi todo T HS) Hr) as H.
  destruct (Nat.eq_dec t mg) as [-> | Ht].
  - destruct (oi_mgr _ _ _ _ _ _ _ _ _ H) as (M & (h & EM) & HP). rewrite EM in Hx. apply in_app_or in Hx. destruct Hx as [Hx|[<- |[]]].
    + apply repeat_spec in Hx. subst x. discriminate Ex.
    + cbn in Ex. subst M. exact HP.
  - pose proof (oi_wrk _ _ _ _ _ _ _ _ _ H t Ht) as Hw. unfold wshape in Hw. rewrite Forall_forall in Hw. specialize (Hw x Hx). rewrite Ex in Hw. exact Hw.
Qed.
Lemma all_counted : forall W todo T T' u, NoDup W -> ~ In mg W -> (forall t, t <> mg -> ~ In t W -> todo t = O) ->
  sum (fun t => Z.of_nat (todo t)) W < wmod g ->
  starts g L la mg todo T -> oruns g tx cl (mt_ask md) T T' -> (forall t, t <> mg -> over T' t) ->
  total g L la lb (sees T' u) = sum (fun t => Z.of_nat (todo t)) W.
Proof.
  intros W todo T T' u HN Hm Ho Hlt HS Hr Hov. refine (ci_total W todo T' u _ Hov Hlt).
  exact (runs_ci W todo HN T T' (starts_ci W todo T HS Hm Ho) Hr).
Qed.
End Count.
