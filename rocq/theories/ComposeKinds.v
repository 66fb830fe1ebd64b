(** Proofs for C61, the structures: each of the codes of ClientModel.v is a
    [struc] (ComposeProofs.v), and keeps its guarantees (ComposeSpec.v) while
    others write elsewhere. *)
From Coq Require Import ZArith Bool List Lia.
From Verif Require Import RseqIR RseqSpec RseqKernel RseqSafe MemLemmas RunLemmas RseqSim RseqOwn RseqCalls LinSpec LinProofs ClientModel ClientSpec CntProofs LockProofs BufProofs RecProofs OwnedProofs ListClientProofs ComposeModel ComposeSpec ComposeProofs.
Import ListNotations.
Local Open Scope Z_scope.

(** ** Helpers *)
Definition like {L} (a b : astate L) : Prop := a_mem a = a_mem b /\ forall t, a_thr a t = a_thr b t.

Lemma holds_like : forall L G Glob Ctx Abs gh es (a b : astate L), like a b ->
  holds_inv L G Glob Ctx Abs gh es b -> holds_inv L G Glob Ctx Abs gh es a.
Proof. intros L G Glob Ctx Abs gh es a b [E1 E2] [H1 H2]. split; rewrite E1; auto. intros t. rewrite E2. apply H2. Qed.

Lemma ldw_out : forall g (dom : Z -> Prop) m ps m' a, meq m' (wr m ps) -> outside dom ps ->
  (forall x, In x (span a (wsize g)) -> dom x) -> ldw g m' a = ldw g m a.
Proof. intros g dom m ps m' a Hm Ho Hd. eapply ldw_wr_other; [exact Hm|]. intros x Hx Hy. exact (Ho x Hx (Hd x Hy)). Qed.

Lemma bytes_out : forall (dom : Z -> Prop) m ps m' a n, meq m' (wr m ps) -> outside dom ps ->
  (forall x, In x (span a n) -> dom x) -> bytes_at m' a n = bytes_at m a n.
Proof. intros dom m ps m' a n Hm Ho Hd. eapply bytes_other; [exact Hm|]. intros x Hx Hy. exact (Ho x Hx (Hd x Hy)). Qed.

(** ** No structure *)
Definition z_ctx (_ : unit) (_ : mem) (_ _ : nat) (x : actx unit) : Prop := a_act x = None.

Lemma z_inv : forall g, client_inv unit g idle_client unit (fun _ _ _ => True) z_ctx (fun _ _ _ => True).
Proof.
  intros g. split; unfold z_ctx; cbn; try (intros; contradiction); try (intros; discriminate); auto.
Qed.

Definition z_struc (g : cfg) : struc g idle_client (fun _ => False) any_res.
Proof.
  refine {| sG := unit; sGlob := fun _ _ _ => True; sCtx := z_ctx; sAbs := fun _ _ _ => True; sOwn := fun _ _ => ONone; st_inv := z_inv g |};
    unfold z_ctx; cbn; intros; try contradiction; try discriminate; try exact Logic.I. split; auto.
Defined.

(** ** Counters *)
Section Count.
Variables (Loc : Type) (g : cfg) (md : imode) (cpus : list Z) (cnt : Z -> Z) (inc : Z) (cl : client Loc).
Hypothesis Hnd : NoDup cpus.
Hypothesis Hap : words_apart g cpus cnt.
Hypothesis Hcl : counter_code g md cpus cnt inc cl.
Hypothesis Hnw : forall l m ps l', ~ cl_write _ cl l m ps l'.
Variable T0 : Z.
Notation dom := (fun a => exists cpu, In cpu cpus /\ In a (span (cnt cpu) (wsize g))).

Definition c_struc : struc g cl dom any_res.
Proof.
  refine {| sG := unit; sGlob := c_glob Loc g cpus cnt inc T0; sCtx := c_ctx Loc md cpus cnt inc; sAbs := c_absent; sOwn := c_own g md cpus cnt;
            st_inv := c_inv Loc g md cpus cnt inc cl Hnd Hap Hcl T0; st_wf := c_wf Loc g md cpus cnt inc Hap T0 |}.
  - intros gh es m t d l ps l' _ _ Hw. destruct (Hnw _ _ _ _ Hw).
  - intros gh es m t d l c w _ (H1 & H2 & H3) a Ha. rewrite H3 in Ha. exists (c_cpu c). split; auto.
    unfold touched, in_use, attempts in Ha. cbn in Ha. rewrite app_nil_r, stw_keys in Ha. apply in_app_or in Ha. destruct Ha; auto.
  - intros gh es m t d l ps l' _ _ Hw. destruct (Hnw _ _ _ _ Hw).
  - intros gh es m ps m' Hm Ho HG. split; [|auto]. unfold c_glob in *. rewrite (total_ext g cpus cnt m m'); auto.
    intros cpu Hc. eapply ldw_out; [exact Hm|exact Ho|]. cbn. eauto.
  - intros. exact Logic.I.
  - intros. exact Logic.I.
  - intros. exact Logic.I.
Defined.
End Count.

Lemma count_code : forall g md cpus cnt inc, counter_code g md cpus cnt inc (count_client md cpus cnt inc).
Proof. intros. split; [auto|]. intros ? ? ? ? ? []. Qed.

(** ** Locks *)
Section Lock.
Variables (g : cfg) (md : imode) (cpus : list Z) (cnt lk : Z -> Z).
Hypothesis Hw1 : 1 < wmod g.
Hypothesis Hnd : NoDup cpus.
Hypothesis Hlay : lock_layout g cpus cnt lk.
Variable T0 : Z.
Notation dom := (fun a => (exists cpu, In cpu cpus /\ In a (span (cnt cpu) (wsize g))) \/ exists cpu, In cpu cpus /\ In a (span (lk cpu) (wsize g))).

Definition l_struc : struc g (lock_client g md cpus cnt lk) dom any_res.
Proof.
  refine {| sG := lghost; sGlob := l_glob g cpus cnt lk T0; sCtx := l_ctx g md cpus cnt lk; sAbs := l_absent; sOwn := fun _ => c_own g md cpus lk tt;
            st_inv := l_inv g md cpus cnt lk Hw1 Hnd Hlay T0; st_wf := l_wf g md cpus cnt lk Hlay T0;
            st_write := l_write g md cpus cnt lk Hlay T0 |}.
  - intros gh es m t d l c w _ H a Ha. unfold l_ctx in H. cbn in H. destruct l as [|n cpu| | | | |]; try contradiction.
    destruct H as [(Hi & Hop & Hc & Hmd) _]. rewrite Hop in Ha. right. exists cpu. split; auto.
    unfold touched, in_use, attempts in Ha. cbn in Ha. destruct (ldw g m (lk cpu) =? 0); cbn in Ha; rewrite ?app_nil_r in Ha; auto.
    rewrite stw_keys in Ha. apply in_app_or in Ha. destruct Ha; auto.
  - intros gh es m t d l ps l' [HG1 _] H [(n & cpu & v & -> & -> & ->)|(n & cpu & -> & -> & ->)] a Ha; rewrite stw_keys in Ha; cbn in H.
    + left. exists cpu. split; auto. apply HG1. rewrite (proj2 (proj1 H cpu) eq_refl). discriminate.
    + right. exists cpu. split; auto. apply HG1. rewrite (proj2 (H cpu) eq_refl). discriminate.
  - intros gh es m ps m' Hm Ho [HG1 HG2]. split; [split|].
    + intros cpu Hc. destruct (HG1 cpu Hc) as [Hi Hl]. split; auto. rewrite <- Hl. eapply ldw_out; [exact Hm|exact Ho|]. cbn. eauto.
    + rewrite (total_ext g cpus cnt m m'); auto. intros cpu Hc. eapply ldw_out; [exact Hm|exact Ho|]. cbn. eauto.
    + intros t d [l o] H. unfold l_ctx in *. cbn [a_loc a_act] in *. destruct l; auto. destruct o as [[? ?]|]; auto.
      destruct H as [Ho1 H]. split; auto. rewrite <- H. destruct (HG1 cpu) as [Hi _]; [rewrite (proj2 (Ho1 cpu) eq_refl); discriminate|].
      eapply ldw_out; [exact Hm|exact Ho|]. cbn. eauto.
  - intros. exact Logic.I.
  - intros. exact Logic.I.
  - intros. exact Logic.I.
Defined.
End Lock.

(** ** Lists *)
Section Lists.
Variables (g : cfg) (md : imode) (cpus nodes : list Z) (hd : Z -> Z) (off : Z) (nodesz : nat) (slot : nat -> nat -> Z) (live : nat -> nat -> Prop) (load : mem -> Z -> Z -> Prop).
Hypothesis Lw : forall m p v, load m p v -> 0 <= v < wmod g.
Variable lay : Z -> list_obj.
Hypothesis Lh : forall cpu a, In cpu cpus -> In a (span (hd cpu) (wsize g)) -> lay a = Head cpu.
Hypothesis Ln : forall n a, In n nodes -> In a (span n nodesz) -> lay a = Node n.
Hypothesis Lx : forall n, In n nodes -> incl (span (nxt g off n) (wsize g)) (span n nodesz).
Hypothesis Ls : forall t d a, live t d -> In a (span (slot t d) (wsize g)) -> lay a = Local t d.
Hypothesis Lr : forall n, In n nodes -> 0 < n < wmod g.
Variable L0 : Z -> list Z.
Notation cl := (list_client_of g md cpus hd off nodesz slot live load).
Notation dom := (fun a => (exists cpu, In cpu cpus /\ In a (span (hd cpu) (wsize g))) \/
  (exists n, In n nodes /\ In a (span n nodesz)) \/ exists t d, live t d /\ In a (span (slot t d) (wsize g))).

(** The invariant, seen from any moment of a run. *)
Lemma p_now : forall gh es s, holds_inv list_loc lgh (p_glob g cpus nodes hd off L0) (p_ctx g md cpus hd off slot live) p_absent gh es s ->
  holds_inv list_loc lgh (p_glob g cpus nodes hd off (gL gh)) (p_ctx g md cpus hd off slot live) p_absent gh [] s.
Proof. intros gh es s [(G1 & G2 & G3 & G4) H]. split; auto. split; auto. Qed.

Lemma p_nx_out : forall m ps m' n, meq m' (wr m ps) -> outside dom ps -> In n nodes -> ldw g m' (nxt g off n) = ldw g m (nxt g off n).
Proof. intros m ps m' n Hm Ho Hn. eapply ldw_out; [exact Hm|exact Ho|]. intros x Hx. right. left. exists n. split; auto. apply Lx; auto. Qed.

Definition p_struc : struc g cl dom (popped_node g).
Proof.
  refine {| sG := lgh; sGlob := p_glob g cpus nodes hd off L0; sCtx := p_ctx g md cpus hd off slot live; sAbs := p_absent; sOwn := p_own md lay;
            st_inv := p_inv g md cpus nodes hd off nodesz slot live load Lw lay Lh Ln Lx Ls Lr L0;
            st_wf := p_wf g md cpus nodes hd off nodesz slot live lay Lh Ln Lx Ls L0 |}.
  - intros gh es m t d l ps l' HG H Hw.
    eapply (own_write list_loc g lgh _ _ _ (p_wf g md cpus nodes hd off nodesz slot live lay Lh Ln Lx Ls L0)); [exact HG|].
    intros a Ha. destruct (p_write_own g md cpus nodes hd off nodesz slot live load lay Ln Lx L0 _ _ _ _ _ _ _ _ HG H Hw a Ha) as (n & E & _ & J).
    unfold p_own. now rewrite E, J.
  - intros gh es m t d l c w (G1 & G2 & G3 & G4) (H1 & H2 & H3) a Ha. cbn [a_loc a_act] in *.
    destruct (ll_pc l) as [|cpu n e|cpu n e|cpu|]; try contradiction; destruct H3 as ((A1 & A2 & A3 & A4) & A5); rewrite A3 in Ha.
    + left. exists cpu. split; auto. unfold touched, in_use, attempts in Ha. cbn in Ha. destruct (ldw g m (hd cpu) =? e); cbn in Ha;
          rewrite ?app_nil_r in Ha; auto. rewrite stw_keys in Ha. apply in_app_or in Ha. destruct Ha; auto.
    + destruct A5 as [Hv A5]. unfold touched, in_use, attempts in Ha. cbn in Ha. destruct (Z.eqb_spec (ldw g m (hd cpu)) 0) as [Ee|Hnz].
      * cbn in Ha. rewrite !app_nil_r in Ha. left. eauto.
      * destruct (G1 cpu A1) as (C1 & C2 & C3). destruct (gL gh cpu) as [|n L'] eqn:EL; [cbn in C1; contradiction|].
        cbn [ClientSpec.chain] in C1. destruct C1 as (En & Hn0 & C1). rewrite En in *.
        destruct (proj1 (C3 n) (or_introl eq_refl)) as [J1 J2]. change (wrap g (n + off)) with (nxt g off n) in Ha.
        rewrite !stw_keys in Ha.
        apply in_app_or in Ha. destruct Ha as [Ha|Ha]; [apply in_app_or in Ha; destruct Ha as [Ha|Ha]; [apply in_app_or in Ha; destruct Ha as [Ha|Ha]|]|]; eauto.
        { right. left. exists n. split; auto. apply Lx; auto. }
        { right. right. eauto. }
  - intros gh es m t d l ps l' (G1 & G2 & G3 & G4) (H1 & H2 & H3) [(cpu & n & e & E & -> & ->)|(n & E & Hn & Hi & ->)] a Ha;
      cbn [a_loc a_act] in *; rewrite E in H3; right; left; exists n; destruct (G2 t d) as [N1 I1].
    + destruct H3 as (A & B & C). destruct (proj1 (I1 n)) as [J1 J2]; [rewrite B; left; auto|]. rewrite stw_keys in Ha.
      split; auto. apply Lx; auto.
    + destruct (proj1 (I1 n)) as [J1 J2]; [rewrite H3; auto|]. split; auto.
  - intros gh es m ps m' Hm Ho (G1 & G2 & G3 & G4).
    assert (Hsl : forall t d, live t d -> ldw g m' (slot t d) = ldw g m (slot t d)).
    { intros t d Hv. eapply ldw_out; [exact Hm|exact Ho|]. intros x Hx. right. right. eauto. }
    split.
    + split; [|auto]. intros cpu Hc. destruct (G1 cpu Hc) as (C1 & C2 & C3). split; [|auto].
      rewrite (ldw_out g dom m ps m' (hd cpu) Hm Ho) by (intros x Hx; left; eauto).
      eapply chain_same; [|exact C1]. intros n Hn. apply p_nx_out with (ps := ps); auto. apply C3; auto.
    + intros t d [l o] (H1 & H2 & H3). split; auto. split; auto. cbn [a_loc a_act] in *.
      assert (Hx : forall n h, gV gh t d = n :: h -> ldw g m' (nxt g off n) = ldw g m (nxt g off n)).
      { intros n h E. apply p_nx_out with (ps := ps); auto. apply (proj2 (G2 t d)). rewrite E. left. auto. }
      destruct (ll_pc l) as [|cpu n e|cpu n e|cpu|], o as [[c st]|]; auto.
      * destruct H3 as [A B]. split; auto. destruct st as [w|r]; [|destruct r]; auto;
          destruct B as [B1 B2]; (split; [auto|]); rewrite (Hx n (ll_hold l)); auto.
      * destruct H3 as (A & B & C). split; auto. split; auto. rewrite (Hx n (ll_hold l)); auto.
      * destruct H3 as (A & B & C). split; auto. split; auto. rewrite (Hsl t d B). exact C.
      * destruct H3 as (A & B). split; auto. rewrite (Hsl t d A). exact B.
  - intros gh es s t l k c w att fin m' H E Hp Hm. apply p_now in H.
    exact (p_res1 g md cpus nodes hd off nodesz slot live load Lw lay Lh Ln Lx Ls Lr (gL gh) s gh H [] s t l k c w att fin m' (ap_nil _ _ _ _) E Hp Hm).
  - intros gh es s l s' t x c me H Hs Hx Ex Hr. apply p_now in H.
    exact (p_res2 g md cpus nodes hd off nodesz slot live load Lw lay Lh Ln Lx Ls Lr (gL gh) s gh H [] s l s' t x c me (ap_nil _ _ _ _) Hs Hx Ex Hr).
  - intros gh es s t x c me ps m' [HG HS] Hx Ex Hm Ho Hr. destruct (HS t) as [S1 _].
    destruct (stk_in g md cpus hd off slot live _ _ _ _ _ S1 Hx) as (d & Hd & (T1 & T2 & T3)). rewrite Ex in T3. unfold popped_node in *.
    destruct (ll_pc (a_loc x)) as [|cpu n e|cpu n e|cpu|] eqn:E; try contradiction; destruct T3 as ((A1 & A2 & A3 & A4) & A5); rewrite A3 in *; auto.
    rewrite <- Hr. destruct A5 as [Hv _]. eapply ldw_out; [exact Hm|exact Ho|]. intros y Hy. right. right. eauto.
Defined.
End Lists.

(** ** Buffers of pointers *)
Section Buf.
Variables (g : cfg) (md : imode) (cpus : list Z) (load : mem -> Z -> Z -> Prop) (ofs arr : Z -> Z) (buflen : Z -> nat).
Variable lay : Z -> buf_obj.
Hypothesis Lo : forall cpu a, In cpu cpus -> In a (span (ofs cpu) (wsize g)) -> lay a = Offset cpu.
Hypothesis La : forall cpu a, In cpu cpus -> In a (span (arr cpu) (buflen cpu * wsize g)) -> lay a = Array cpu.
Hypothesis Lr : forall cpu, In cpu cpus -> Z.of_nat (buflen cpu) < wmod g.
Variable S0 : stacks Z.
Notation cl := (buf_client_of g md cpus load ofs arr buflen).
Notation dom := (fun a => (exists cpu, In cpu cpus /\ In a (span (ofs cpu) (wsize g))) \/
  exists cpu, In cpu cpus /\ In a (span (arr cpu) (buflen cpu * wsize g))).

Lemma b_slot_dom : forall cpu i a, In cpu cpus -> 0 <= i < Z.of_nat (buflen cpu) -> In a (span (arr_slot g arr cpu i) (wsize g)) -> dom a.
Proof. intros cpu i a Hc Hi Ha. right. exists cpu. split; auto. eapply slot_in; eauto. Qed.

Definition b_struc : struc g cl dom any_res.
Proof.
  refine {| sG := stacks Z; sGlob := b_glob g cpus ofs arr buflen S0; sCtx := b_ctx g md cpus ofs arr buflen; sAbs := b_absent; sOwn := b_own md lay;
            st_inv := b_inv g md cpus load ofs arr buflen lay Lo La Lr S0; st_wf := b_wf g md cpus ofs arr buflen lay Lo La S0 |}.
  - intros gh es m t d l ps l' _ _ [].
  - intros gh es m t d l c w (_ & HG2 & HG3) H a Ha. unfold b_ctx in H. cbn in H. destruct l as [|v|v cpu o| |cpu o|cpu o v|b|o]; try contradiction.
    + destruct H as (H1 & H2 & H3 & H4 & H5 & H6). rewrite H6 in Ha.
      assert (Ho : forall a, In a (span (ofs cpu) (wsize g)) -> dom a) by (intros; left; eauto).
      unfold touched, in_use, attempts in Ha. cbn in Ha. destruct (HG2 cpu H1) as [Hl _]. pose proof (HG3 cpu H1) as Hlq.
      destruct (Z.eqb_spec (ldw g m (ofs cpu)) o) as [Eo|]; cbn in Ha; rewrite ?stw_keys, ?app_nil_r in Ha; [|exact (Ho a Ha)].
      assert (H3' : 0 <= o < Z.of_nat (buflen cpu)) by lia.
      repeat (apply in_app_or in Ha; destruct Ha as [Ha|Ha]); first [exact (Ho a Ha)|exact (b_slot_dom cpu o a H1 H3' Ha)].
    + destruct H as (H1 & H2 & H4 & H5 & H6). rewrite H6 in Ha.
      assert (Ho : forall a, In a (span (ofs cpu) (wsize g)) -> dom a) by (intros; left; eauto).
      unfold touched, in_use, attempts in Ha. cbn in Ha. destruct (HG2 cpu H1) as [Hl _]. pose proof (HG3 cpu H1) as Hlq.
      destruct (Z.eqb_spec (ldw g m (ofs cpu)) o) as [Eo|]; cbn in Ha; rewrite ?app_nil_r in Ha; [|exact (Ho a Ha)].
      assert (Hs : forall a, In a (span (arr_slot g arr cpu (o - 1)) (wsize g)) -> dom a).
      { intros b Hb. apply (b_slot_dom cpu (o - 1) b H1); [lia|exact Hb]. }
      destruct (ldw g m (arr_slot g arr cpu (o - 1)) =? v); cbn in Ha; rewrite ?app_nil_r, ?stw_keys in Ha;
        repeat (apply in_app_or in Ha; destruct Ha as [Ha|Ha]); first [exact (Ho a Ha)|exact (Hs a Ha)].
  - intros gh es m t d l ps l' _ _ [].
  - intros gh es m ps m' Hm Ho (HG1 & HG2 & HG3). split; [|auto]. split; auto. split; auto.
    intros cpu Hc. destruct (HG2 cpu Hc) as [H1 H2]. pose proof (HG3 cpu Hc). split.
    + rewrite <- H1. eapply ldw_out; [exact Hm|exact Ho|]. intros x Hx. left. eauto.
    + eapply stack_in_same; [|exact H2]. intros i Hi. eapply ldw_out; [exact Hm|exact Ho|]. intros x Hx. apply (b_slot_dom cpu i x Hc); [lia|exact Hx].
  - intros. exact Logic.I.
  - intros. exact Logic.I.
  - intros. exact Logic.I.
Defined.
End Buf.

(** ** Buffers of records *)
Section Rec.
Variables (g : cfg) (md : imode) (cpus : list Z) (ofs arr : Z -> Z) (buflen : Z -> nat) (reclen : nat) (arg out : nat -> nat -> Z) (live : nat -> nat -> Prop) (load : mem -> Z -> Z -> Prop).
Variable lay : Z -> buf_obj.
Hypothesis Lo : forall cpu a, In cpu cpus -> In a (span (ofs cpu) (wsize g)) -> lay a = Offset cpu.
Hypothesis La : forall cpu a, In cpu cpus -> In a (span (arr cpu) (buflen cpu * reclen)) -> lay a = Array cpu.
Hypothesis Lm : forall t d a, live t d -> In a (span (arg t d) reclen) \/ In a (span (out t d) reclen) -> lay a = Mine t.
Hypothesis Lr : forall cpu, In cpu cpus -> Z.of_nat (buflen cpu) < wmod g /\ 0 <= arr cpu /\ arr cpu + Z.of_nat (buflen cpu * reclen) <= wmod g.
Hypothesis Lb : forall t d, live t d -> 0 <= arg t d /\ arg t d + Z.of_nat reclen <= wmod g /\ 0 <= out t d /\ out t d + Z.of_nat reclen <= wmod g.
Hypothesis Ld : forall t d d', live t d -> live t d' -> d <> d' -> disjoint (span (arg t d) reclen) (span (arg t d') reclen) /\
  disjoint (span (out t d) reclen) (span (out t d') reclen).
Hypothesis Lx : forall t d d', live t d -> live t d' -> disjoint (span (arg t d) reclen) (span (out t d') reclen).
Variable S0 : stacks (list Z).
Notation cl := (rec_client_of md cpus live load ofs arr buflen reclen arg out).
Notation dom := (fun a => (exists cpu, In cpu cpus /\ In a (span (ofs cpu) (wsize g))) \/
  (exists cpu, In cpu cpus /\ In a (span (arr cpu) (buflen cpu * reclen))) \/
  exists t d, live t d /\ (In a (span (arg t d) reclen) \/ In a (span (out t d) reclen))).
Notation G := (stacks (list Z)).
Notation rh S := (holds_inv rec_loc G (r_glob g cpus ofs arr buflen reclen S) (r_ctx md cpus ofs arr buflen reclen arg out live) r_absent).

Lemma r_now : forall gh es s, rh S0 gh es s -> rh gh gh [] s.
Proof. intros gh es s [(G1 & G2 & G3) H]. split; auto. split; auto. Qed.

Lemma r_slot_dom : forall cpu i a, In cpu cpus -> 0 <= i < Z.of_nat (buflen cpu) -> In a (span (rec_slot arr reclen cpu i) reclen) -> dom a.
Proof. intros cpu i a Hc Hi Ha. right. left. exists cpu. split; auto. eapply slot_in; eauto. Qed.

Definition r_struc : struc g cl dom popped_record.
Proof.
  refine {| sG := G; sGlob := r_glob g cpus ofs arr buflen reclen S0; sCtx := r_ctx md cpus ofs arr buflen reclen arg out live; sAbs := r_absent; sOwn := r_own md lay;
            st_inv := r_inv g md cpus ofs arr buflen reclen arg out live load lay Lo La Lm Lr Ld Lx S0;
            st_wf := r_wf g md cpus ofs arr buflen reclen arg out live load lay Lo La Lm Lr Lb S0 |}.
  - intros gh es m t d l ps l' HG (H1 & H2 & H) (item & E & -> & ->).
    eapply (own_write rec_loc g G _ _ _ (r_wf g md cpus ofs arr buflen reclen arg out live load lay Lo La Lm Lr Lb S0)); [exact HG|].
    cbn [a_loc a_act] in *. rewrite E in H. destruct H as (Hv & Hl & _).
    intros a Ha. rewrite put_keys, Hl, H1, H2 in Ha. unfold r_own. now rewrite (Lm t d a Hv (or_introl Ha)).
  - intros gh es m t d l c w (_ & HG2 & HG3) (H1 & H2 & H) a Ha. cbn [a_loc a_act] in *.
    destruct (rl_pc l) as [|item|item|item cpu o| |cpu o|b item|b]; try contradiction.
    + destruct H as (Hv & A1 & A2n & A3 & A4 & A5 & A6). rewrite A6 in Ha.
      assert (Ho : forall a, In a (span (ofs cpu) (wsize g)) -> dom a) by (intros; left; eauto).
      assert (Hg : forall a, In a (span (arg t d) reclen) -> dom a) by (intros; right; right; eauto).
      unfold touched, in_use, attempts in Ha. cbn -[memcpy_bytes] in Ha.
      destruct (Z.eqb_spec (ldw g m (ofs cpu)) o) as [Eo|Eo]; cbn -[memcpy_bytes] in Ha; rewrite ?memcpy_keys, ?stw_keys, ?app_nil_r in Ha; [|exact (Ho a Ha)].
      pose proof (r_room_push g cpus ofs arr buflen reclen gh m cpu o HG2 HG3 A1 A2n Eo) as A2.
      repeat (apply in_app_or in Ha; destruct Ha as [Ha|Ha]); first [exact (Ho a Ha)|exact (Hg a Ha)|exact (r_slot_dom cpu o a A1 A2 Ha)].
    + destruct H as (Hv & A1 & A2n & A4 & A5 & A6). rewrite A6 in Ha.
      assert (Ho : forall a, In a (span (ofs cpu) (wsize g)) -> dom a) by (intros; left; eauto).
      assert (Hg : forall a, In a (span (out t d) reclen) -> dom a) by (intros; right; right; eauto).
      unfold touched, in_use, attempts in Ha. cbn -[memcpy_bytes] in Ha.
      destruct (Z.eqb_spec (ldw g m (ofs cpu)) o) as [Eo|Eo]; cbn -[memcpy_bytes] in Ha; rewrite ?memcpy_keys, ?stw_keys, ?app_nil_r in Ha; [|exact (Ho a Ha)].
      pose proof (r_room_pop g cpus ofs arr buflen reclen gh m cpu o HG2 HG3 A1 A2n Eo) as A2.
      assert (A2' : 0 <= o - 1 < Z.of_nat (buflen cpu)) by lia.
      repeat (apply in_app_or in Ha; destruct Ha as [Ha|Ha]); first [exact (Ho a Ha)|exact (Hg a Ha)|exact (r_slot_dom cpu (o - 1) a A1 A2' Ha)].
  - intros gh es m t d l ps l' _ (H1 & H2 & H) (item & E & -> & ->) a Ha. cbn [a_loc a_act] in *. rewrite E in H.
    destruct H as (Hv & Hl & _). rewrite put_keys, Hl, H1, H2 in Ha. right. right. eauto.
  - intros gh es m ps m' Hm Ho (HG1 & HG2 & HG3). split.
    + split; auto. split; auto. intros cpu Hc. destruct (HG2 cpu Hc) as [H1 H2]. pose proof (HG3 cpu Hc). split.
      * rewrite <- H1. eapply ldw_out; [exact Hm|exact Ho|]. intros x Hx. left. eauto.
      * eapply records_in_same; [|exact H2]. intros i Hi. eapply bytes_out; [exact Hm|exact Ho|]. intros x Hx. apply (r_slot_dom cpu i x Hc); [lia|exact Hx].
    + intros t d x (H1 & H2 & H3). split; auto. split; auto.
      assert (E : live t d -> bytes_at m' (arg t d) reclen = bytes_at m (arg t d) reclen).
      { intros Hv. eapply bytes_out; [exact Hm|exact Ho|]. intros y Hy. right. right. eauto. }
      destruct (rl_pc (a_loc x)) as [|item|item|item cpu o| |cpu o|b item|b]; auto.
      * destruct (a_act x) as [[c st]|]; auto. destruct H3 as [Hv H3]. rewrite (E Hv). auto.
      * destruct H3 as [Hv H3]. rewrite (E Hv). auto.
  - intros gh es s t l k c w att fin m' H E Hp Hm. apply r_now in H.
    exact (r_res1 g md cpus ofs arr buflen reclen arg out live load lay Lo La Lm Lr Ld Lx gh s gh H [] s t l k c w att fin m' (ap_nil _ _ _ _) E Hp Hm).
  - intros gh es s l s' t x c me H Hs Hx Ex Hr. apply r_now in H.
    exact (r_res2 g md cpus ofs arr buflen reclen arg out live load lay Lo La Lm Lr Ld Lx gh s gh H [] s l s' t x c me (ap_nil _ _ _ _) Hs Hx Ex Hr).
  - intros gh es s t x c me ps m' [HG HS] Hx Ex Hm Ho Hr. destruct (HS t) as [S1 _].
    destruct (r_stk_in md cpus ofs arr buflen reclen arg out live _ _ _ _ _ S1 Hx) as (d & Hd & (T1 & T2 & T3)). rewrite Ex in T3. unfold popped_record in *.
    destruct (rl_pc (a_loc x)) as [|item|item|item cpu o| |cpu o|b item|b]; try contradiction.
    { destruct T3 as (Hv & A1 & A2 & A3 & A4 & A5 & A6). rewrite A6. lia. }
    destruct T3 as (Hv & A1 & A2 & A4 & A5 & A6). rewrite A6 in *. intros Hn. rewrite <- (Hr Hn).
    eapply bytes_out; [exact Hm|exact Ho|]. intros y Hy. right. right. eauto.
Defined.
End Rec.
