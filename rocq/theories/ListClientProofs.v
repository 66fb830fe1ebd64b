(** Proofs for C13: the per-CPU lists. *)
From Coq Require Import ZArith Bool List Lia Permutation.
From Verif Require Import RseqIR RseqSpec RseqKernel RseqSafe MemLemmas RunLemmas RseqSim RseqOwn RseqCalls Archs ArchsGood LinSpec LinProofs OwnedProofs ClientModel ClientSpec CntProofs.
Import ListNotations.
Local Open Scope Z_scope.

Record lgh := { gW : Z -> place; gL : Z -> list Z; gV : nat -> nat -> list Z }.

Lemma list_run_snoc : forall g hd S evs e, list_run g hd S (evs ++ [e]) =
  match list_run g hd S evs with Some S' => list_step g hd S' e | None => None end.
Proof.
  intros g hd S evs. revert S. induction evs as [|e' evs IH]; intros S e; cbn.
  - destruct (list_step g hd S e); auto.
  - destruct (list_step g hd S e'); auto.
Qed.

Section ListInv.
Variables (g : cfg) (md : imode) (cpus nodes : list Z) (hd : Z -> Z) (off : Z) (nodesz : nat) (slot : nat -> nat -> Z) (live : nat -> nat -> Prop) (load : mem -> Z -> Z -> Prop).
Hypothesis Lw : forall m p v, load m p v -> 0 <= v < wmod g.
Variable lay : Z -> list_obj.
Hypothesis Lh : forall cpu a, In cpu cpus -> In a (span (hd cpu) (wsize g)) -> lay a = Head cpu.
Hypothesis Ln : forall n a, In n nodes -> In a (span n nodesz) -> lay a = Node n.
Hypothesis Lx : forall n, In n nodes -> incl (span (nxt g off n) (wsize g)) (span n nodesz).
Hypothesis Ls : forall t d a, live t d -> In a (span (slot t d) (wsize g)) -> lay a = Local t d.
Hypothesis Lr : forall n, In n nodes -> 0 < n < wmod g.
Variable L0 : Z -> list Z.
Notation cl := (list_client_of g md cpus hd off nodesz slot live load).
Notation chain := (chain g off).
Notation nx := (nxt g off).

Definition p_glob (gh : lgh) (es : list (event list_loc)) (m : mem) : Prop :=
  (forall cpu, In cpu cpus -> chain m (ldw g m (hd cpu)) (gL gh cpu) /\ NoDup (gL gh cpu) /\
     forall n, In n (gL gh cpu) <-> In n nodes /\ gW gh n = OnList cpu) /\
  (forall t d, NoDup (gV gh t d) /\ forall n, In n (gV gh t d) <-> In n nodes /\ gW gh n = Held t d) /\
  (forall n cpu, In n nodes -> gW gh n = OnList cpu -> In cpu cpus) /\
  list_run g hd L0 es = Some (gL gh).

Definition p_ctx (gh : lgh) (m : mem) (t d : nat) (x : actx list_loc) : Prop :=
  let l := a_loc x in let V := gV gh t d in
  ll_tid l = t /\ ll_depth l = d /\
  match ll_pc l, a_act x with
  | L_idle, None => V = ll_hold l
  | L_push cpu n e, None => In cpu cpus /\ V = n :: ll_hold l /\ 0 <= e < wmod g
  | L_pushw cpu n e, None => In cpu cpus /\ V = n :: ll_hold l /\ ldw g m (nx n) = e
  | L_pushw cpu n e, Some (c, st) =>
      (In cpu cpus /\ c_mode c = md /\ c_op c = CbneStore (hd cpu) e n /\ c_cpu c = cpu) /\
      match st with Finished 0 => V = ll_hold l | _ => V = n :: ll_hold l /\ ldw g m (nx n) = e end
  | L_pop cpu, None => In cpu cpus /\ live t d /\ V = ll_hold l
  | L_pop cpu, Some (c, st) =>
      (In cpu cpus /\ c_mode c = md /\ c_op c = CbeqStoreAddLoadStore (hd cpu) 0 off (slot t d) /\ c_cpu c = cpu) /\ live t d /\
      match st with Finished 0 => V = ldw g m (slot t d) :: ll_hold l | _ => V = ll_hold l end
  | L_got, None => live t d /\ V = ldw g m (slot t d) :: ll_hold l
  | _, _ => False
  end.
Definition p_absent (gh : lgh) (t d : nat) : Prop := gV gh t d = [].

(** ** Memory *)
Definition p_foot (gh : lgh) (t d : nat) (ps : list (Z * Z)) : Prop := forall a, In a (map fst ps) ->
  (exists cpu, lay a = Head cpu) \/ (exists n, lay a = Node n /\ gW gh n = Held t d) \/ lay a = Local t d.

Lemma nxt_same : forall gh t d ps m m' n, p_foot gh t d ps -> meq m' (wr m ps) -> In n nodes -> gW gh n <> Held t d ->
  ldw g m' (nx n) = ldw g m (nx n).
Proof.
  intros gh t d ps m m' n Hf Hm Hn Hw. eapply ldw_wr_other; [exact Hm|]. intros a Ha Hb.
  pose proof (Ln n a Hn (Lx n Hn a Hb)) as E. destruct (Hf a Ha) as [(cpu & H)|[(k & H & Hk)|H]]; try congruence.
Qed.

Lemma slot_same : forall gh t d ps m m' t' d', p_foot gh t d ps -> meq m' (wr m ps) -> (t', d') <> (t, d) -> live t' d' ->
  ldw g m' (slot t' d') = ldw g m (slot t' d').
Proof.
  intros gh t d ps m m' t' d' Hf Hm Hw Hv. eapply ldw_wr_other; [exact Hm|]. intros a Ha Hb.
  pose proof (Ls t' d' a Hv Hb) as E. destruct (Hf a Ha) as [(cpu & H)|[(k & H & Hk)|H]]; congruence.
Qed.

Lemma head_same : forall ps m m' cpu, In cpu cpus -> (forall a, In a (map fst ps) -> lay a <> Head cpu) ->
  meq m' (wr m ps) -> ldw g m' (hd cpu) = ldw g m (hd cpu).
Proof.
  intros ps m m' cpu Hc Hf Hm. eapply ldw_wr_other; [exact Hm|]. intros a Ha Hb. exact (Hf a Ha (Lh cpu a Hc Hb)).
Qed.

Lemma chain_same : forall m m' l a, (forall n, In n l -> ldw g m' (nx n) = ldw g m (nx n)) -> chain m a l -> chain m' a l.
Proof.
  intros m m' l. induction l as [|n l IH]; intros a H Hc; cbn in *; auto.
  destruct Hc as (-> & Hn & Hc). split; auto. split; auto. rewrite H by auto. apply IH; auto.
Qed.

Lemma p_keeps : forall gh es m t d gh' m' ps, p_glob gh es m -> p_foot gh t d ps -> meq m' (wr m ps) ->
  (forall t' d', (t', d') <> (t, d) -> gV gh' t' d' = gV gh t' d') ->
  keeps list_loc lgh p_ctx p_absent gh m t d gh' m'.
Proof.
  intros gh es m t d gh' m' ps HG Hf Hm HV. destruct HG as (_ & G2 & _). split.
  - intros t' d' [l o] Hne H. unfold p_ctx in *. cbn [a_loc a_act] in *. rewrite (HV t' d' Hne).
    pose proof (slot_same gh t d ps m m' t' d' Hf Hm Hne) as Hsl.
    assert (Hx : forall n h, gV gh t' d' = n :: h -> ldw g m' (nx n) = ldw g m (nx n)).
    { intros n h E. destruct (G2 t' d') as [_ I1]. destruct (proj1 (I1 n)) as [J1 J2]; [rewrite E; left; auto|].
      eapply nxt_same; eauto. rewrite J2. congruence. }
    destruct H as (H1 & H2 & H3). split; auto. split; auto.
    destruct (ll_pc l) as [|cpu n e|cpu n e|cpu|], o as [[c st]|]; auto.
    + destruct H3 as [A B]. split; auto. destruct st as [w|r]; [|destruct r]; auto;
        destruct B as [B1 B2]; (split; [auto|]); rewrite (Hx n (ll_hold l)); auto.
    + destruct H3 as (A & B & C). split; auto. split; auto. rewrite (Hx n (ll_hold l)); auto.
    + destruct H3 as (A & B & C). split; auto. split; auto. rewrite (Hsl B). exact C.
    + destruct H3 as (A & B). split; auto. rewrite (Hsl A). exact B.
  - intros t' d' Hne. unfold p_absent. rewrite (HV t' d' Hne). auto.
Qed.

Lemma p_same : forall gh m t d, keeps list_loc lgh p_ctx p_absent gh m t d gh m.
Proof. intros. split; auto. Qed.

Lemma not_held_on : forall gh es m cpu n t d, p_glob gh es m -> In cpu cpus -> In n (gL gh cpu) -> gW gh n <> Held t d.
Proof. intros gh es m cpu n t d (G1 & _) Hc Hn. destruct (G1 cpu Hc) as (_ & _ & I1). destruct (proj1 (I1 n) Hn) as [_ ->]. discriminate. Qed.

(** A change of memory that leaves the heads alone. *)
Lemma p_glob_mem : forall gh es m t d m' ps, p_glob gh es m -> p_foot gh t d ps ->
  (forall a cpu, In a (map fst ps) -> lay a <> Head cpu) -> meq m' (wr m ps) -> p_glob gh es m'.
Proof.
  intros gh es m t d m' ps HG Hf Hh Hm. pose proof HG as (G1 & G2 & G3). split; [|split; auto].
  intros cpu Hc. destruct (G1 cpu Hc) as (C & N & I1). split; [|split; auto].
  rewrite (head_same ps m m' cpu Hc (fun a Ha => Hh a cpu Ha) Hm).
  eapply chain_same; [|exact C]. intros n Hn. eapply nxt_same; eauto.
  - apply I1; auto.
  - eapply not_held_on; eauto.
Qed.

Definition set_v (V : nat -> nat -> list Z) (t d : nat) (l : list Z) : nat -> nat -> list Z :=
  fun u e => if Nat.eqb u t && Nat.eqb e d then l else V u e.
Lemma set_v_same : forall V t d l, set_v V t d l t d = l.
Proof. intros. unfold set_v. now rewrite !Nat.eqb_refl. Qed.
Lemma set_v_other : forall V t d l t' d', (t', d') <> (t, d) -> set_v V t d l t' d' = V t' d'.
Proof.
  intros. unfold set_v. destruct (Nat.eqb_spec t' t) as [->|]; auto. destruct (Nat.eqb_spec d' d) as [->|]; auto. congruence.
Qed.
Definition set_w (W : Z -> place) (n : Z) (p : place) : Z -> place := fun k => if k =? n then p else W k.

Lemma foot_nil : forall gh t d, p_foot gh t d [].
Proof. intros gh t d a []. Qed.

(** ** Ownership *)
Definition p_own (gh : lgh) (a : Z) : owner :=
  match lay a with
  | Head cpu => OCpu md cpu
  | Node n => match gW gh n with OnList cpu => OCpu md cpu | Held t _ => OThr t end
  | Local t _ => OThr t
  | Other => ONone
  end.

Lemma p_inv_own : client_own list_loc g cl lgh p_glob p_ctx p_absent p_own.
Proof.
  split.
  - (* call *) intros gh es m t d l c HG (H1 & H2 & H3) [Hm Hc]. unfold p_ctx in *. cbn [a_loc a_act] in *. split; auto. split; auto.
    destruct (ll_pc l) as [|cpu n e|cpu n e|cpu|]; try contradiction.
    + destruct H3 as (A & B & C), Hc as [Hc1 Hc2]. auto.
    + destruct H3 as (A & B & C), Hc as [Hc1 Hc2]. rewrite H1, H2 in Hc1. auto.
  - (* ret *) intros gh es m t d l c r HG (H1 & H2 & H3). exists gh. split; auto. split; [|split; [apply p_same|intros x; reflexivity]].
    unfold p_ctx in *. cbn [a_loc a_act cl_ret list_client_of] in *.
    destruct (ll_pc l) as [|cpu n e|cpu n e|cpu|] eqn:E; try contradiction; destruct H3 as [_ H3].
    + destruct (Z.eqb_spec r 0) as [->|Hr]; cbn; split; auto. split; auto. destruct r; [congruence|apply H3|apply H3].
    + destruct H3 as [Hv H3]. destruct (Z.eqb_spec r 0) as [->|Hr]; cbn; split; auto. split; auto. destruct r; [congruence|auto|auto].
  - (* write *) intros gh es m t d l ps l' m' HG H [(cpu & n & e & E & -> & ->)|(n & E & Hn & Hi & ->)] Hm.
    + unfold p_ctx in H. cbn [a_loc a_act] in H. rewrite E in H. destruct H as (H1 & H2 & A & B & C).
      pose proof HG as (G1 & G2 & G3 & G4). destruct (G2 t d) as [N1 I1].
      destruct (proj1 (I1 n)) as [J1 J2]; [rewrite B; left; auto|].
      assert (Hf : p_foot gh t d (stw g (nx n) e)).
      { intros a Ha. rewrite stw_keys in Ha. right. left. exists n. split; auto. apply Ln; auto. apply Lx; auto. }
      assert (HG' : p_glob gh es m').
      { eapply p_glob_mem; eauto. intros a c Ha. rewrite stw_keys in Ha. rewrite (Ln n a J1 (Lx n J1 a Ha)). discriminate. }
      exists gh. split; [|split].
      * destruct HG' as (G1' & G2' & G3' & G4'). split; auto. split; auto. split; auto. rewrite list_run_snoc, G4'. reflexivity.
      * unfold p_ctx. cbn. split; auto. split; auto. split; auto. split; auto. eapply ldw_wr_same; eauto.
      * split; [eapply p_keeps; eauto|intros x; reflexivity].
    + unfold p_ctx in H. cbn [a_loc a_act] in H. rewrite E in H. destruct H as (H1 & H2 & H3).
      pose proof HG as (G1 & G2 & G3 & G4). destruct (G2 t d) as [N1 I1].
      destruct (proj1 (I1 n)) as [J1 J2]; [rewrite H3; auto|].
      assert (Hf : p_foot gh t d ps).
      { intros a Ha. right. left. exists n. split; auto. }
      exists gh. split; [|split].
      * assert (HG' : p_glob gh es m').
        { eapply p_glob_mem; eauto. intros a c Ha. rewrite (Ln n a J1 (Hi a Ha)). discriminate. }
        destruct HG' as (G1' & G2' & G3' & G4'). split; auto. split; auto. split; auto. rewrite list_run_snoc, G4'. reflexivity.
      * unfold p_ctx. cbn. rewrite E. auto.
      * split; [eapply p_keeps; eauto|intros x; reflexivity].
  - (* tau *) intros gh es m t d l l' HG H Ht. unfold p_ctx in H. cbn [a_loc a_act] in H. destruct H as (H1 & H2 & H3).
    destruct Ht as [(cpu & n & h1 & h2 & e & E & Hc & Eh & He & ->)|[(cpu & E & Hc & Hv & ->)|(E & ->)]]; rewrite E in H3.
    + exists {| gW := gW gh; gL := gL gh; gV := set_v (gV gh) t d (n :: h1 ++ h2) |}.
      assert (HP : Permutation (gV gh t d) (n :: h1 ++ h2)).
      { rewrite H3, Eh. symmetry. apply Permutation_middle. }
      split; [|split].
      * destruct HG as (G1 & G2 & G3 & G4). split; auto. split; auto. cbn. intros t' d'.
        destruct (G2 t' d') as [N1 I1]. unfold set_v. destruct (Nat.eqb_spec t' t) as [->|]; cbn; auto.
        destruct (Nat.eqb_spec d' d) as [->|]; auto. split.
        { eapply Permutation_NoDup; eauto. }
        intros k. rewrite <- I1. split; intros Hk; [eapply Permutation_in; [symmetry; exact HP|exact Hk]|eapply Permutation_in; eauto].
      * unfold p_ctx. cbn. split; auto. split; auto. split; auto. split; [apply set_v_same|]. eapply Lw; eauto.
      * split; [|intros x; reflexivity]. split.
        { intros t' d' y Hne. unfold p_ctx. cbn [gV]. rewrite (set_v_other _ t d _ t' d' Hne). auto. }
        { intros t' d' Hne. unfold p_absent. cbn [gV]. rewrite (set_v_other _ t d _ t' d' Hne). auto. }
    + exists gh. split; auto. split; [|split; [apply p_same|intros x; reflexivity]]. unfold p_ctx. cbn. rewrite H1, H2 in *. auto.
    + exists gh. split; auto. split; [|split; [apply p_same|intros x; reflexivity]]. unfold p_ctx. cbn. rewrite H1, H2 in *. destruct H3. auto.
  - (* sig *) intros gh es m t d x l' _ (H1 & H2 & _) -> Ha. unfold p_ctx. cbn. rewrite H1, H2. auto.
  - (* sigret *) intros gh es m t d l _ (H1 & H2 & H3) [E1 E2]. cbn in *. rewrite E1 in H3. unfold p_absent. congruence.
  - (* attempt *) intros gh es m t d l c w att fin ps m' HG H Hp Hi Hm.
    unfold p_ctx in H. cbn [a_loc a_act] in H. destruct H as (H1 & H2 & H3).
    destruct (ll_pc l) as [|cpu n e|cpu n e|cpu|] eqn:E; try contradiction; destruct H3 as ((A1 & A2 & A3 & A4) & A5); rewrite A3 in Hp; cbn in Hp.
    + destruct (Z.eqb_spec (ldw g m (hd cpu)) e) as [Ee|]; [|discriminate]. injection Hp as <- <-.
      assert (ps = []) as -> by (destruct ps as [|p ps]; auto; destruct (Hi p (or_introl eq_refl))).
      assert (Hf : p_foot gh t d []) by (intros a []).
      exists gh. split; [|split].
      * eapply (p_glob_mem gh es m t d m' []); auto.
      * unfold p_ctx. cbn [a_loc a_act]. split; auto. split; auto. rewrite E. split; auto.
        destruct A5 as [A5 A6]. split; auto. rewrite <- A6. apply ldw_meq. exact Hm.
      * split; [eapply p_keeps; eauto|intros x; reflexivity].
    + destruct A5 as [Hv A5]. destruct (Z.eqb_spec (ldw g m (hd cpu)) 0) as [Ee|]; [discriminate|]. injection Hp as <- <-.
      assert (Hl : forall a, In a (map fst ps) -> lay a = Local t d).
      { intros a Ha. apply Ls; auto. rewrite <- stw_keys with (v := ldw g m (hd cpu)). apply in_map_iff in Ha.
        destruct Ha as (p & <- & Hp). apply in_map. auto. }
      assert (Hf : p_foot gh t d ps) by (intros a Ha; right; right; auto).
      exists gh. split; [|split].
      * eapply p_glob_mem; eauto. intros a c0 Ha. rewrite (Hl a Ha). discriminate.
      * unfold p_ctx. cbn [a_loc a_act]. split; auto. split; auto. rewrite E. split; auto.
      * split; [eapply p_keeps; eauto|intros x; reflexivity].
  - (* commit *) intros gh es m t d l c w att fin m' HG H Hp Hm.
    unfold p_ctx in H. cbn [a_loc a_act] in H. destruct H as (H1 & H2 & H3).
    pose proof HG as (G1 & G2 & G3 & G4).
    destruct (ll_pc l) as [|cpu n e|cpu n e|cpu|] eqn:E; try contradiction; destruct H3 as ((A1 & A2 & A3 & A4) & A5); rewrite A3 in Hp; cbn in Hp.
    + destruct (Z.eqb_spec (ldw g m (hd cpu)) e) as [Ee|]; [|discriminate]. injection Hp as <- <-.
      cbn [wr fold_left] in Hm. destruct A5 as [A5 A6].
      destruct (G2 t d) as [N1 I1]. destruct (proj1 (I1 n)) as [J1 J2]; [rewrite A5; left; auto|].
      assert (Hk : forall a, In a (map fst (stw g (hd cpu) n)) -> lay a = Head cpu).
      { intros a Ha. rewrite stw_keys in Ha. apply Lh; auto. }
      assert (Hf : p_foot gh t d (stw g (hd cpu) n)) by (intros a Ha; left; eauto).
      destruct (G1 cpu A1) as (C1 & C2 & C3).
      assert (Hnn : ~ In n (gL gh cpu)) by (intros Hn; apply C3 in Hn; destruct Hn; congruence).
      assert (Hx : ldw g m' (nx n) = e).
      { rewrite <- A6. eapply ldw_wr_other; [exact Hm|]. intros a Ha Hb. specialize (Hk a Ha).
        rewrite (Ln n a J1 (Lx n J1 a Hb)) in Hk. discriminate. }
      exists {| gW := set_w (gW gh) n (OnList cpu);
                gL := fun c0 => if c0 =? cpu then n :: gL gh cpu else gL gh c0;
                gV := set_v (gV gh) t d (ll_hold l) |}. split; [|split].
      * split; [|split; [|split]]; cbn [gW gL gV].
        { intros c0 Hc0. destruct (G1 c0 Hc0) as (D1 & D2 & D3). destruct (Z.eqb_spec c0 cpu) as [Ec|Hne].
          - subst c0. split; [|split].
            + cbn. split; [eapply ldw_wr_same; [exact Hm|apply Lr in J1; lia]|]. split; [apply Lr in J1; lia|].
              rewrite Hx, <- Ee. eapply chain_same; [|exact C1]. intros k Hk'. eapply nxt_same; eauto.
              * apply C3 in Hk'. apply Hk'.
              * eapply not_held_on; eauto.
            + constructor; auto.
            + intros k. unfold set_w. destruct (Z.eqb_spec k n) as [->|Hkn].
              * split; [auto|]. intros _. left. auto.
              * rewrite <- C3. split; [intros [F|F]; [congruence|auto]|intros F; right; auto].
          - split; [|split; auto].
            + rewrite (head_same (stw g (hd cpu) n) m m' c0 Hc0); [|intros a Ha; rewrite (Hk a Ha); congruence|exact Hm].
              eapply chain_same; [|exact D1]. intros k Hk'. eapply nxt_same; eauto.
              * apply D3 in Hk'. apply Hk'.
              * eapply not_held_on; [exact HG|exact Hc0|exact Hk'].
            + intros k. unfold set_w. destruct (Z.eqb_spec k n) as [->|Hkn]; [|apply D3].
              rewrite D3, J2. split; intros [F1 F2]; [discriminate|]. inversion F2. congruence. }
        { intros t' d'. destruct (G2 t' d') as [M1 M2].
          unfold set_v. destruct (Nat.eqb_spec t' t) as [->|Ht]; [destruct (Nat.eqb_spec d' d) as [->|Hd]|]; cbn.
          - rewrite A5 in *. inversion N1 as [|x y N2 N3]; subst. split; auto. intros k. unfold set_w.
            destruct (Z.eqb_spec k n) as [->|Hkn]; [split; [contradiction|intros [_ F]; discriminate]|].
            rewrite <- I1. cbn. split; [auto|intros [F|F]; [congruence|auto]].
          - split; auto. intros k. rewrite M2. unfold set_w. destruct (Z.eqb_spec k n) as [->|Hkn]; [|reflexivity].
            rewrite J2. split; intros [F1 F2]; [inversion F2; congruence|discriminate].
          - split; auto. intros k. rewrite M2. unfold set_w. destruct (Z.eqb_spec k n) as [->|Hkn]; [|reflexivity].
            rewrite J2. split; intros [F1 F2]; [inversion F2; congruence|discriminate]. }
        { intros k c0 Hk'. unfold set_w. destruct (Z.eqb_spec k n) as [->|Hkn]; [|eauto]. intros F. inversion F. subst; auto. }
        { rewrite list_run_snoc, G4. cbn. rewrite E. reflexivity. }
      * unfold p_ctx. cbn [a_loc a_act gV]. split; auto. split; auto. rewrite E. split; auto. apply set_v_same.
      * split; [eapply p_keeps; eauto; intros; apply set_v_other; auto|].
        intros x. unfold usable, p_own. cbn [gW]. destruct (lay x) as [|k| |]; auto. unfold set_w.
        destruct (Z.eqb_spec k n) as [->|]; auto. right. rewrite J2, A2, A4. auto.
    + destruct A5 as [Hv A5]. destruct (Z.eqb_spec (ldw g m (hd cpu)) 0) as [Ee|Hnz]; [discriminate|]. injection Hp as <- <-.
      destruct (G1 cpu A1) as (C1 & C2 & C3).
      destruct (gL gh cpu) as [|n L'] eqn:EL; [cbn in C1; contradiction|].
      cbn [ClientSpec.chain] in C1. destruct C1 as (En & Hn0 & C1). rewrite En in *.
      destruct (proj1 (C3 n) (or_introl eq_refl)) as [J1 J2].
      change (wrap g (n + off)) with (nx n) in Hm. set (nv := ldw g m (nx n)) in *.
      assert (Hm' : meq m' (wr m (stw g (slot t d) n ++ stw g (hd cpu) nv))).
      { intros a. rewrite (Hm a). unfold wr. rewrite fold_left_app. reflexivity. }
      assert (Hk : forall a, In a (map fst (stw g (hd cpu) nv)) -> lay a = Head cpu).
      { intros a Ha. rewrite stw_keys in Ha. apply Lh; auto. }
      assert (Hk2 : forall a, In a (map fst (stw g (slot t d) n)) -> lay a = Local t d).
      { intros a Ha. rewrite stw_keys in Ha. apply Ls; auto. }
      assert (Hk3 : forall a, In a (map fst (stw g (slot t d) n ++ stw g (hd cpu) nv)) -> lay a = Local t d \/ lay a = Head cpu).
      { intros a Ha. rewrite map_app in Ha. apply in_app_or in Ha. destruct Ha; auto. }
      assert (Hf : p_foot gh t d (stw g (slot t d) n ++ stw g (hd cpu) nv)).
      { intros a Ha. destruct (Hk3 a Ha) as [->| ->]; eauto. }
      assert (Hslot : ldw g m' (slot t d) = n).
      { rewrite (ldw_meq g _ _ _ Hm). rewrite (ldw_wr_other g (wr m (stw g (slot t d) n)) _ (stw g (hd cpu) nv) _ (fun a => eq_refl)).
        - apply ldw_stw. pose proof (Lr n J1). lia.
        - intros a Ha Hb. specialize (Hk a Ha). rewrite (Ls t d a Hv Hb) in Hk. discriminate. }
      inversion C2 as [|x y N2 N3]; subst x y.
      exists {| gW := set_w (gW gh) n (Held t d);
                gL := fun c0 => if c0 =? cpu then L' else gL gh c0;
                gV := set_v (gV gh) t d (n :: ll_hold l) |}. split; [|split].
      * split; [|split; [|split]]; cbn [gW gL gV].
        { intros c0 Hc0. destruct (G1 c0 Hc0) as (D1 & D2 & D3). destruct (Z.eqb_spec c0 cpu) as [Ec|Hne].
          - subst c0. split; [|split; auto].
            + rewrite (ldw_wr_same g (wr m (stw g (slot t d) n)) m' (hd cpu) nv Hm); [|unfold nv; apply ldw_range].
              eapply chain_same; [|exact C1]. intros k Hk'.
              assert (Hin : In k (gL gh cpu)) by (rewrite EL; right; auto).
              eapply nxt_same; eauto.
              * apply C3. right; auto.
              * eapply not_held_on; eauto.
            + intros k. unfold set_w. destruct (Z.eqb_spec k n) as [->|Hkn].
              * split; [contradiction|intros [_ F]; discriminate].
              * rewrite <- C3. cbn. split; [auto|intros [F|F]; [congruence|auto]].
          - split; [|split; auto].
            + rewrite (head_same (stw g (slot t d) n ++ stw g (hd cpu) nv) m m' c0 Hc0); [|intros a Ha; destruct (Hk3 a Ha) as [F|F]; rewrite F; congruence|exact Hm'].
              eapply chain_same; [|exact D1]. intros k Hk'. eapply nxt_same; eauto.
              * apply D3 in Hk'. apply Hk'.
              * eapply not_held_on; [exact HG|exact Hc0|exact Hk'].
            + intros k. unfold set_w. destruct (Z.eqb_spec k n) as [->|Hkn]; [|apply D3].
              rewrite D3, J2. split; intros [F1 F2]; [inversion F2; congruence|discriminate]. }
        { intros t' d'. destruct (G2 t' d') as [M1 M2].
          unfold set_v. destruct (Nat.eqb_spec t' t) as [->|Ht]; [destruct (Nat.eqb_spec d' d) as [->|Hd]|]; cbn.
          - rewrite A5 in *. split.
            + constructor; auto. intros F. apply M2 in F. destruct F. congruence.
            + intros k. unfold set_w. destruct (Z.eqb_spec k n) as [->|Hkn]; [split; auto|].
              rewrite <- M2. split; [intros [F|F]; [congruence|auto]|auto].
          - split; auto. intros k. rewrite M2. unfold set_w. destruct (Z.eqb_spec k n) as [->|Hkn]; [|reflexivity].
            rewrite J2. split; intros [F1 F2]; [discriminate|inversion F2; congruence].
          - split; auto. intros k. rewrite M2. unfold set_w. destruct (Z.eqb_spec k n) as [->|Hkn]; [|reflexivity].
            rewrite J2. split; intros [F1 F2]; [discriminate|inversion F2; congruence]. }
        { intros k c0 Hk'. unfold set_w. destruct (Z.eqb_spec k n) as [->|Hkn]; [discriminate|eauto]. }
        { rewrite list_run_snoc, G4. cbn. rewrite E, EL, En, Z.eqb_refl. reflexivity. }
      * unfold p_ctx. cbn [a_loc a_act gV]. split; auto. split; auto. rewrite E. split; auto. split; auto. rewrite Hslot. apply set_v_same.
      * split; [eapply p_keeps; eauto; intros; apply set_v_other; auto|].
        intros x. unfold usable, p_own. cbn [gW]. destruct (lay x) as [|k| |]; auto. unfold set_w.
        destruct (Z.eqb_spec k n) as [->|]; auto. right. rewrite J2, A2, A4. auto.
  - (* fail *) intros gh es m t d l c HG (H1 & H2 & H3) Hp. cbn [a_loc a_act] in *.
    pose proof HG as (G1 & G2 & G3 & G4). split.
    + split; auto. split; auto. split; auto. rewrite list_run_snoc, G4. cbn.
      destruct (ll_pc l) as [|cpu n e|cpu n e|cpu|]; try contradiction; auto.
      destruct H3 as ((A1 & A2 & A3 & A4) & A5). rewrite A3 in Hp. cbn in Hp.
      destruct (Z.eqb_spec (ldw g m (hd cpu)) 0) as [Ee|]; [|discriminate].
      destruct (G1 cpu A1) as (C1 & _). destruct (gL gh cpu) as [|n L']; auto. cbn in C1. destruct C1 as (F & F' & _). congruence.
    + unfold p_ctx. cbn. split; auto.
  - (* abort *) intros gh es m t d l c st _ (H1 & H2 & H3) Hst. unfold p_ctx. cbn in *. split; auto. split; auto.
    destruct (ll_pc l); auto; [destruct H3 as [H3 H4]; split; auto|destruct H3 as (H3 & Hv & H4); split; auto; split; auto]; destruct Hst as [(w & ->)| ->]; auto.
Qed.

Lemma p_inv : client_inv list_loc g cl lgh p_glob p_ctx p_absent.
Proof. exact (own_inv _ _ _ _ _ _ _ _ p_inv_own). Qed.

Lemma p_wf : forall gh es m t d l c w, p_glob gh es m -> p_ctx gh m t d {| a_loc := l; a_act := Some (c, Pending w) |} ->
  op_wf g (c_op c) m /\ forall a, In a (touched g (c_op c) m) -> usable (p_own gh) t c a.
Proof.
  intros gh es m t d l c w (G1 & G2 & G3 & G4) (H1 & H2 & H3). cbn [a_loc a_act] in *.
  destruct (ll_pc l) as [|cpu n e|cpu n e|cpu|]; try contradiction; destruct H3 as ((A1 & A2 & A3 & A4) & A5); rewrite A3.
  - split.
    + split; auto. intros a Ha. unfold attempts in Ha. cbn in Ha. destruct (ldw g m (hd cpu) =? e); destruct Ha.
    + intros a Ha. assert (Hs : In a (span (hd cpu) (wsize g))).
      { unfold touched, in_use, attempts in Ha. cbn in Ha. destruct (ldw g m (hd cpu) =? e); cbn in Ha;
          rewrite ?app_nil_r in Ha; auto. rewrite stw_keys in Ha. apply in_app_or in Ha. destruct Ha; auto. }
      left. unfold p_own. rewrite (Lh cpu a A1 Hs), A2, A4. reflexivity.
  - destruct A5 as [Hv A5]. unfold op_wf, touched, in_use, attempts. cbn. destruct (Z.eqb_spec (ldw g m (hd cpu)) 0) as [Ee|Hnz].
    + split; [split; auto; intros a []|]. cbn. rewrite !app_nil_r. intros a Ha.
      left. unfold p_own. rewrite (Lh cpu a A1 Ha), A2, A4. reflexivity.
    + destruct (G1 cpu A1) as (C1 & C2 & C3). destruct (gL gh cpu) as [|n L'] eqn:EL; [cbn in C1; contradiction|].
      cbn [ClientSpec.chain] in C1. destruct C1 as (En & Hn0 & C1). rewrite En in *.
      destruct (proj1 (C3 n) (or_introl eq_refl)) as [J1 J2]. change (wrap g (n + off)) with (nx n).
      assert (Hx : forall a, In a (span (nx n) (wsize g)) -> lay a = Node n) by (intros a Ha; apply Ln; auto; apply Lx; auto).
      rewrite !stw_keys. split.
      * split; auto. intros a Ha Hb. apply Ls in Ha; auto. apply in_app_or in Hb. destruct Hb as [Hb|Hb].
        { rewrite (Lh cpu a A1 Hb) in Ha. discriminate. }
        { rewrite (Hx a Hb) in Ha. discriminate. }
      * intros a Ha. unfold usable, p_own. rewrite A2, A4.
        apply in_app_or in Ha. destruct Ha as [Ha|Ha]; [apply in_app_or in Ha; destruct Ha as [Ha|Ha]; [apply in_app_or in Ha; destruct Ha as [Ha|Ha]|]|].
        { rewrite (Lh cpu a A1 Ha). auto. }
        { rewrite (Hx a Ha), J2. auto. }
        { rewrite (Ls t d a Hv Ha). auto. }
        { rewrite (Lh cpu a A1 Ha). auto. }
Qed.

Lemma p_write_own : forall gh es m t d l ps l', p_glob gh es m -> p_ctx gh m t d {| a_loc := l; a_act := None |} ->
  cl_write _ cl l m ps l' -> forall a, In a (map fst ps) -> exists n, lay a = Node n /\ In n nodes /\ gW gh n = Held t d.
Proof.
  intros gh es m t d l ps l' (G1 & G2 & G3 & G4) (H1 & H2 & H3) [(cpu & n & e & E & -> & ->)|(n & E & Hn & Hi & ->)] a Ha;
    cbn [a_loc a_act] in *; rewrite E in H3; exists n; destruct (G2 t d) as [N1 I1].
  - destruct H3 as (A & B & C). destruct (proj1 (I1 n)) as [J1 J2]; [rewrite B; left; auto|]. rewrite stw_keys in Ha.
    split; auto. apply Ln; auto. apply Lx; auto.
  - destruct (proj1 (I1 n)) as [J1 J2]; [rewrite H3; auto|]. split; auto.
Qed.

Lemma p_safe : forall (s0 : astate list_loc) gh0, holds_inv list_loc lgh p_glob p_ctx p_absent gh0 [] s0 ->
  exclusive (a_on s0) -> safe_client g cl s0.
Proof.
  intros s0 gh0 H0 Hex.
  apply (inv_safe list_loc g cl lgh p_glob p_ctx p_absent p_inv p_own p_wf) with (gh0 := gh0); auto.
  intros gh es m t d l ps l' HG H Hw. eapply (own_write list_loc g lgh p_glob p_ctx p_own p_wf); [exact HG|].
  intros a Ha. destruct (p_write_own _ _ _ _ _ _ _ _ HG H Hw a Ha) as (n & E & _ & J). unfold p_own. now rewrite E, J.
Qed.

Lemma stk_in : forall gh m t k x, Stk list_loc lgh p_ctx gh m t k -> In x k ->
  exists d, (d < length k)%nat /\ p_ctx gh m t d x.
Proof.
  intros gh m t k x. induction k as [|y k IH]; intros H Hi; [destruct Hi|]. destruct H as [H1 H2].
  destruct Hi as [->|Hi]; [exists (length k); cbn; auto|]. destruct (IH H2 Hi) as (d & Hd & J). exists d. cbn. auto.
Qed.

(** The popped node stays in the local variable until the helper returns. *)
Lemma p_res2 : forall (s0 : astate list_loc) gh0, holds_inv list_loc lgh p_glob p_ctx p_absent gh0 [] s0 ->
  forall evs s l s' t x c me, apath g cl s0 evs s -> astep g cl s l s' ->
  In x (a_thr s t) -> a_act x = Some (c, Finished 0) -> popped_node g c me (a_mem s) -> popped_node g c me (a_mem s').
Proof.
  intros s0 gh0 H0 evs s l s' t x c me Hp Hs Hx Ex Hr.
  destruct (inv_path list_loc g cl lgh _ _ _ p_inv _ _ _ Hp _ H0) as (gh & [HG HS]).
  destruct (stk_in _ _ _ _ _ (proj1 (HS t)) Hx) as (d & Hd & HC). pose proof HC as (T1 & T2 & T3). rewrite Ex in T3.
  destruct (ll_pc (a_loc x)) as [|cpu n e|cpu n e|cpu|] eqn:E; try contradiction; destruct T3 as ((A1 & A2 & A3 & A4) & A5);
    unfold popped_node in *; rewrite A3 in *; auto. rewrite <- Hr. destruct A5 as [Hv A5].
  (* the local variable of [x] is not written *)
  assert (Hfoot : forall u k y ps m', a_thr s u = y :: k -> (y = x -> False) -> p_foot gh u (length k) ps -> meq m' (wr (a_mem s) ps) ->
    ldw g m' (slot t d) = ldw g (a_mem s) (slot t d)).
  { intros u k y ps m' Eu Hy Hf Hm. eapply slot_same; eauto. intros F. injection F as Fu Fd. subst u.
    pose proof (proj1 (HS t)) as St. rewrite Eu in St, Hx. destruct Hx as [Hx|Hx]; [auto|]. destruct (stk_in _ _ _ _ _ (proj2 St) Hx) as (d' & Hd' & (_ & T2' & _)). lia. }
  assert (Hcall : forall u k l0 c0 w att fin ps m', a_thr s u = {| a_loc := l0; a_act := Some (c0, Pending w) |} :: k ->
    pseudo g (c_op c0) (a_mem s) = OCommit att fin -> incl ps (att ++ fin) -> meq m' (wr (a_mem s) ps) ->
    ldw g m' (slot t d) = ldw g (a_mem s) (slot t d)).
  { intros u k l0 c0 w att fin ps m' Eu Hps Hi Hm. eapply (Hfoot u k _ ps m' Eu); [intros F; subst x; discriminate| |exact Hm].
    pose proof (proj1 (HS u)) as Su. rewrite Eu in Su. destruct Su as [(U1 & U2 & U3) _]. cbn [a_loc a_act] in *.
    destruct (ll_pc l0) as [|cpu1 n e|cpu1 n e|cpu1|]; try contradiction; destruct U3 as ((B1 & B2 & B3 & B4) & B5); rewrite B3 in Hps; cbn in Hps.
    - destruct (ldw g (a_mem s) (hd cpu1) =? e); [|discriminate]. injection Hps as <- <-. intros a Ha. left. exists cpu1.
      apply Lh; auto. apply in_map_iff in Ha. destruct Ha as (p & <- & Ha). apply Hi in Ha. cbn in Ha. rewrite <- stw_keys with (v := n). apply in_map; auto.
    - destruct B5 as [Hvu _]. destruct (ldw g (a_mem s) (hd cpu1) =? 0); [discriminate|]. injection Hps as <- <-. intros a Ha.
      apply in_map_iff in Ha. destruct Ha as (p & <- & Ha). apply Hi in Ha. apply in_app_or in Ha. destruct Ha as [Ha|Ha]; apply (in_map fst) in Ha; rewrite stw_keys in Ha.
      + right. right. apply Ls; auto.
      + left. exists cpu1. apply Lh; auto. }
  destruct Hs as [s u l1 k c1 E1 Hc|s u l1 k c1 r E1|s u l1 k ps l2 m2 E1 Hw Hm|s u l1 k l2 E1 Ht|s u y k l2 E1 Hg|s u l1 y k E1 Hdn|s on' _|s u l1 k c1 w att fin ps m2 E1 _ Ep Hi Hm|s u l1 k c1 w att fin m2 E1 _ Ep Hm|s u l1 k c1 E1 _ Ep|s u l1 k c1 st E1 Hst];
    cbn [a_mem set_thr set_amem set_aon] in *; auto.
  - eapply (Hfoot u k _ ps m2 E1); [intros F; subst x; discriminate| |exact Hm].
    pose proof (proj1 (HS u)) as Su. rewrite E1 in Su. destruct Su as [Su _].
    intros a Ha. destruct (p_write_own _ _ _ _ _ _ _ _ HG Su Hw a Ha) as (n & F1 & F2 & F3). eauto.
  - eapply Hcall; eauto. intros p Hp'. apply in_or_app. left. auto.
  - eapply (Hcall u k l1 c1 w att fin (att ++ fin) m2 E1 Ep); [intros p Hp'; auto|].
    intros a. rewrite (Hm a). unfold wr. now rewrite fold_left_app.
Qed.

Lemma p_res1 : forall (s0 : astate list_loc) gh0, holds_inv list_loc lgh p_glob p_ctx p_absent gh0 [] s0 ->
  forall evs s t l k c w att fin m', apath g cl s0 evs s ->
  a_thr s t = {| a_loc := l; a_act := Some (c, Pending w) |} :: k ->
  pseudo g (c_op c) (a_mem s) = OCommit att fin -> meq m' (wr (wr (a_mem s) att) fin) -> popped_node g c (a_mem s) m'.
Proof.
  intros s0 gh0 H0 evs s t l k c w att fin m' Hp E Hps Hm.
  destruct (inv_path list_loc g cl lgh _ _ _ p_inv _ _ _ Hp _ H0) as (gh & [HG HS]).
  pose proof (proj1 (HS t)) as S. rewrite E in S. destruct S as [S _].
  destruct (p_inv.(ci_commit _ _ _ _ _ _ _) gh _ _ _ _ _ _ _ _ _ _ HG S Hps Hm) as (gh' & HG' & HC' & _).
  destruct S as (S1 & S2 & S3). unfold popped_node. cbn [a_loc a_act] in *.
  destruct (ll_pc l) as [|cpu n e|cpu n e|cpu|] eqn:El; try contradiction; destruct S3 as ((A1 & A2 & A3 & A4) & A5); rewrite A3 in *; auto.
  cbn in Hps. destruct (Z.eqb_spec (ldw g (a_mem s) (hd cpu)) 0) as [|Hnz]; [discriminate|]. injection Hps as <- <-.
  rewrite (ldw_meq g _ _ _ Hm). rewrite (ldw_wr_other g (wr (a_mem s) (stw g (slot t (length k)) (ldw g (a_mem s) (hd cpu)))) _ _ _ (fun a => eq_refl)).
  - apply ldw_stw. apply ldw_range.
  - intros a Ha Hb. rewrite stw_keys in Ha. pose proof (Lh cpu a A1 Ha). pose proof (Ls t (length k) a (proj1 A5) Hb). congruence.
Qed.
End ListInv.

Lemma list_run_effects : forall g hd evs S, list_run g hd S (effects list_loc evs) = list_run g hd S evs.
Proof.
  intros g hd evs. induction evs as [|e evs IH]; intros S; auto.
  assert (Hc : list_run g hd S (e :: effects list_loc evs) = list_run g hd S (e :: evs)).
  { cbn [list_run]. destruct (list_step g hd S e); auto. }
  destruct e; try exact Hc; apply IH.
Qed.

Lemma stk_nth : forall Loc G (Ctx : G -> mem -> nat -> nat -> actx Loc -> Prop) gh m t k d x, Stk Loc G Ctx gh m t k ->
  nth_error (rev k) d = Some x -> Ctx gh m t d x.
Proof.
  intros Loc G Ctx gh m t k. induction k as [|y k IH]; intros d x H E; cbn in E; [destruct d; discriminate|].
  destruct H as [H1 H2]. destruct (Nat.lt_ge_cases d (length (rev k))) as [Hl|Hl].
  - rewrite nth_error_app1 in E by auto. auto.
  - rewrite nth_error_app2 in E by auto. rewrite rev_length in *.
    destruct (d - length k)%nat as [|n] eqn:En; cbn in E; [|destruct n; discriminate]. inversion E; subst.
    replace d with (length k) by lia. auto.
Qed.

Lemma lists_choice : forall (P : Z -> list Z -> Prop) cpus, (forall cpu, In cpu cpus -> exists L, P cpu L) ->
  exists L, forall cpu, In cpu cpus -> P cpu (L cpu).
Proof.
  intros P cpus. induction cpus as [|c cpus IH]; intros H; [exists (fun _ => []); intros ? []|].
  destruct IH as (L & HL); [intros; apply H; right; auto|]. destruct (H c (or_introl eq_refl)) as (Lc & Hc).
  exists (fun x => if x =? c then Lc else L x). intros x Hx. destruct (Z.eqb_spec x c) as [->|Hn]; auto.
  destruct Hx as [->|Hx]; [congruence|auto].
Qed.

Lemma list_inv0 : forall g md cpus nodes hd off slot live s0, initial s0 -> list_start g cpus nodes hd off slot s0 ->
  exists L0 gh0, (forall cpu, In cpu cpus -> chain g off (s_mem s0) (ldw g (s_mem s0) (hd cpu)) (L0 cpu)) /\
    holds_inv list_loc lgh (p_glob g cpus nodes hd off L0) (p_ctx g md cpus hd off slot live) p_absent gh0 [] (abs_init s0).
Proof.
  intros g md cpus nodes hd off slot live s0 Hi [Hst (whr & W1 & W2 & W3)].
  destruct (lists_choice _ cpus W1) as (L0 & HL0).
  set (V0 := fun t d : nat => match d with O => match t_ctx (s_thr s0 t) with x :: _ => ll_hold (x_loc x) | [] => [] end | S _ => [] end).
  assert (Hctx : forall t, exists x, t_ctx (s_thr s0 t) = [x] /\ x_act x = None /\
    x_loc x = {| ll_tid := t; ll_depth := 0; ll_hold := V0 t O; ll_pc := L_idle |}).
  { intros t. destruct (Hst t) as (h & E). unfold V0. destruct (t_ctx (s_thr s0 t)) as [|x [|? ?]] eqn:Ex; try discriminate.
    exists x. split; auto. cbn in E. injection E as E. rewrite E. cbn. split; auto.
    destruct Hi as (Hthr & _). destruct (Hthr t) as (_ & _ & (l & El) & _). rewrite Ex in El. injection El as ->. reflexivity. }
  set (gh0 := {| gW := whr; gL := L0; gV := V0 |}).
  exists L0, gh0. split; [intros; apply HL0; auto|].
  { split.
    - split; [exact HL0|]. split; [|split; [exact W3|reflexivity]].
      intros t d. destruct (W2 t d) as (V & N1 & N2 & N3). cbn [gV gh0].
      replace (V0 t d) with V; [split; auto|].
      destruct (Hctx t) as (x & E1 & E2 & E3). unfold context_at, contexts in N3. rewrite E1 in N3. cbn in N3.
      destruct d as [|d]; cbn in N3.
      + rewrite E2, E3 in N3. unfold holds_nodes in N3. cbn in N3. exact N3.
      + replace (nth_error [] d) with (@None (list_loc * bool)) in N3 by (destruct d; auto). exact N3.
    - intros t. destruct (Hctx t) as (x & E1 & E2 & E3). cbn [abs_init a_thr a_mem]. rewrite E1. cbn. split.
      + split; auto. unfold p_ctx. cbn. rewrite E3. cbn. auto.
      + intros d Hd. unfold p_absent. cbn. destruct d; [lia|reflexivity]. }
Qed.

(** C13 *)
Theorem list_conserved : forall g a tw tx md cpus nodes hd off nodesz slot live (load : mem -> Z -> Z -> Prop) s0,
  lib_text a tw tx -> initial s0 -> list_layout g cpus nodes hd off nodesz slot live ->
  list_start g cpus nodes hd off slot s0 -> (forall m p v, load m p v -> 0 <= v < wmod g) ->
  forall tr s, path g tx (list_client_of g md cpus hd off nodesz slot live load) s0 tr s ->
  (exists whr, nodes_conserved g cpus nodes hd off slot s whr) /\
  exists L0 evs L,
    (forall cpu, In cpu cpus -> chain g off (s_mem s0) (ldw g (s_mem s0) (hd cpu)) (L0 cpu)) /\
    linearization g (popped_node g) tr s evs /\ list_run g hd L0 evs = Some L /\
    (forall cpu, In cpu cpus -> chain g off (s_mem s) (ldw g (s_mem s) (hd cpu)) (L cpu)).
Proof.
  intros g a tw tx md cpus nodes hd off nodesz slot live load s0 Htx Hi (lay & Lh & Ln & Lx & Ls & Lr) Hstart Lw tr s Hp.
  assert (Hgood : good_text g tx) by (eapply lib_good; eauto).
  set (cl := list_client_of g md cpus hd off nodesz slot live load) in *.
  destruct (list_inv0 g md cpus nodes hd off slot live s0 Hi Hstart) as (L0 & gh0 & HL0 & H0).
  assert (Hsafe : safe_client g cl (abs_init s0)).
  { eapply (p_safe g md cpus nodes hd off nodesz slot live load Lw lay); eauto. apply init_exclusive; auto. }
  destruct (linearizes list_loc g tx cl Hgood (popped_node g) s0 tr s Hi Hsafe
     (p_res1 g md cpus nodes hd off nodesz slot live load Lw lay Lh Ln Lx Ls Lr L0 _ _ H0)
     (p_res2 g md cpus nodes hd off nodesz slot live load Lw lay Lh Ln Lx Ls Lr L0 _ _ H0) Hp) as (evs & aa & A1 & A2 & A3).
  destruct (inv_path list_loc g cl lgh _ _ _ (p_inv g md cpus nodes hd off nodesz slot live load Lw lay Lh Ln Lx Ls Lr L0) _ _ _ A1 _ H0) as (gh & [HG HS]).
  replace (a_mem aa) with (s_mem s) in * by (symmetry; apply A2).
  destruct HG as (G1 & G2 & G3 & G4). split.
  - exists (gW gh). split; [|split; auto].
    + intros cpu Hc. exists (gL gh cpu). apply G1; auto.
    + intros t d. destruct (G2 t d) as [N1 N2]. destruct (HS t) as [S1 S2]. exists (gV gh t d). split; auto. split; auto.
      unfold context_at. rewrite (rel_contexts list_loc g tx s aa t A2). rewrite <- map_rev, nth_error_map.
      destruct (nth_error (rev (a_thr aa t)) d) as [ax|] eqn:En; cbn.
      * pose proof (stk_nth _ _ _ _ _ _ _ _ _ S1 En) as (C1 & C2 & C3). destruct ax as [l o]. cbn [a_loc a_act] in *.
        unfold holds_nodes. rewrite C1, C2. destruct (ll_pc l) as [|cpu n e|cpu n e|cpu|], o as [[c st]|]; try contradiction; auto.
        { apply C3. }
        { destruct C3 as [_ C3]. destruct st as [w|[| |]]; try (left; apply C3). right; auto. }
        { apply C3. }
        { destruct C3 as (_ & _ & C3). destruct st as [w|[| |]]; auto. }
        { apply C3. }
        { apply C3. }
      * apply S2. apply nth_error_None in En. rewrite rev_length in En. auto.
  - exists L0, evs, (gL gh). split; [exact HL0|]. split; auto. split.
    + rewrite list_run_effects in G4. exact G4.
    + intros; apply G1; auto.
Qed.

Lemma list_conserved_plain : forall g a tw tx md cpus nodes hd off nodesz slot live s0,
  lib_text a tw tx -> initial s0 -> list_layout g cpus nodes hd off nodesz slot live ->
  list_start g cpus nodes hd off slot s0 ->
  forall tr s, path g tx (list_client g md cpus hd off nodesz slot live) s0 tr s ->
  (exists whr, nodes_conserved g cpus nodes hd off slot s whr) /\
  exists L0 evs L,
    (forall cpu, In cpu cpus -> chain g off (s_mem s0) (ldw g (s_mem s0) (hd cpu)) (L0 cpu)) /\
    linearization g (popped_node g) tr s evs /\ list_run g hd L0 evs = Some L /\
    (forall cpu, In cpu cpus -> chain g off (s_mem s) (ldw g (s_mem s) (hd cpu)) (L cpu)).
Proof.
  intros g a tw tx md cpus nodes hd off nodesz slot live s0 H1 H2 H3 H4 tr s Hp.
  apply (list_conserved g a tw tx md cpus nodes hd off nodesz slot live (plain_load g) s0 H1 H2 H3 H4); auto.
  intros m p v ->. apply ldw_range.
Qed.
