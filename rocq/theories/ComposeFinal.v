(** Proofs for C61: what every structure of a program guarantees. *)
From Coq Require Import ZArith Bool List Lia.
From Verif Require Import RseqIR RseqSpec RseqKernel RseqSafe MemLemmas RunLemmas RseqSim RseqOwn RseqCalls Archs ArchsGood LinSpec LinProofs ClientModel ClientSpec CntProofs LockProofs BufProofs RecProofs OwnedProofs ListClientProofs ComposeModel ComposeSpec ComposeProofs ComposeKinds.
Import ListNotations.
Local Open Scope Z_scope.

Definition kind_res (g : cfg) (k : kind) : call -> mem -> mem -> Prop :=
  match k with
  | K_list _ _ _ _ _ _ _ => popped_node g
  | K_rec _ _ _ _ _ _ _ _ => popped_record
  | _ => any_res
  end.

Lemma like_idle : forall L (s0 : state L) a0, like a0 (abs_init s0) -> forall t x, In x (a_thr a0 t) -> a_act x = None.
Proof. intros L s0 a0 [_ E] t x Hx. rewrite E in Hx. eapply abs_init_idle; eauto. Qed.

Lemma lock_idle : forall s0 : state lock_loc, (forall t, exists n, map x_loc (t_ctx (s_thr s0 t)) = [Lk_idle n]) ->
  forall t, exists n, a_thr (abs_init s0) t = [{| a_loc := Lk_idle n; a_act := None |}].
Proof.
  intros s0 Hst t. destruct (Hst t) as (n & E). exists n. cbn. destruct (t_ctx (s_thr s0 t)) as [|x [|? ?]]; try discriminate.
  cbn in *. injection E as E. rewrite E. reflexivity.
Qed.

Lemma piece_struc : forall g p (s0 : state (piece_loc p)) a0,
  piece_ok g p -> initial s0 -> piece_start g p s0 -> like a0 (abs_init s0) ->
  exists (S : struc g (piece_client g p) (piece_bytes g p) (kind_res g (p_kind p))) gh0, sholds S gh0 [] a0.
Proof.
  intros g [md cpus k] s0 a0 Hok Hi Hst Hlk.
  destruct k as [|cnt inc|cnt|cnt lk|nodes hd off nodesz slot live load|ofs arr buflen load|ofs arr buflen reclen arg out live load];
    unfold piece_ok, piece_start, piece_loc in *; cbn [p_kind p_cpus p_mode kind_loc kind_start] in *.
  - exists (z_struc g), tt. split; [exact Logic.I|]. intros t. split; [|intros; exact Logic.I].
    pose proof (like_idle _ _ _ Hlk t) as H. induction (a_thr a0 t) as [|x k IH]; cbn; auto.
    split; [apply H; left; auto|]. apply IH. intros y Hy. apply H. right. auto.
  - destruct Hok as [Hnd Hap].
    exists (c_struc _ g md cpus cnt inc _ Hnd Hap (count_code g md cpus cnt inc) (fun _ _ _ _ H => H) (total g cpus cnt (a_mem a0))), tt.
    apply c_init; [|reflexivity]. exact (like_idle _ _ _ Hlk).
  - destruct Hok as [Hnd Hap].
    exists (c_struc _ g md cpus cnt 1 _ Hnd Hap (inc_code g md cpus cnt) (fun _ _ _ _ H => H) (total g cpus cnt (a_mem a0))), tt.
    apply c_init; [|reflexivity]. exact (like_idle _ _ _ Hlk).
  - destruct Hok as (Hw1 & Hnd & Hlay).
    exists (l_struc g md cpus cnt lk Hw1 Hnd Hlay (total g cpus cnt (a_mem a0))), (fun _ => None).
    apply l_init; [|reflexivity]. intros t. rewrite (proj2 Hlk). apply lock_idle. exact Hst.
  - destruct Hok as ((lay & Lh & Ln & Lx & Ls & Lr) & Lw).
    destruct (list_inv0 g md cpus nodes hd off slot live s0 Hi Hst) as (L0 & gh0 & HL0 & H0).
    exists (p_struc g md cpus nodes hd off nodesz slot live load Lw lay Lh Ln Lx Ls Lr L0), gh0.
    eapply holds_like; [exact Hlk|exact H0].
  - destruct Hok as (lay & Lo & La & Lr). destruct Hst as (Hst & S0 & Hb & Hlen).
    exists (b_struc g md cpus load ofs arr buflen lay Lo La Lr S0), S0.
    eapply holds_like; [exact Hlk|]. exact (buf_inv0 g md cpus ofs arr buflen S0 s0 Hst Hb Hlen).
  - destruct Hok as ((lay & Lo & La & Lm) & Lr & Lb & Ld & Lx). destruct Hst as (Hst & S0 & Hb & Hlen).
    exists (r_struc g md cpus ofs arr buflen reclen arg out live load lay Lo La Lm Lr Lb Ld Lx S0), S0.
    eapply holds_like; [exact Hlk|]. exact (rec_inv0 g md cpus ofs arr buflen reclen arg out live S0 s0 Hst Hb Hlen).
Qed.

(** ** Counting calls *)
Lemma linearized_bounds : forall L g res os (s : state L) evs, linearized g res os s evs ->
  let n := Z.of_nat (length (filter is_eff evs)) in
  count ev_ret0 os <= n /\ n <= count ev_ret0 os + (count ev_call os - count ev_ret os) /\ (quiescent s -> n = count ev_ret0 os).
Proof.
  intros L g res os s evs (L1 & L2 & _) n. subst os. unfold count.
  rewrite !observed_filter by (intros []; cbn; auto; discriminate).
  destruct (bound_threads _ evs) as (N & HN). subst n. rewrite !(count_split _ _ evs N HN).
  change (@ev_ret0 L) with (@is_ret0_ev L). change (@ev_ret L) with (@is_ret_ev L). change (@ev_call L) with (@is_inv L).
  assert (Hd : forall k : list (L * call * progress), (done_in L k <= length k)%nat).
  { intros k. unfold done_in. induction k as [|p k IH]; cbn; auto. destruct (snd p); cbn; lia. }
  assert (A1 : (sum_to N (fun t => cnt_th (is_ret0_ev L) t evs) <= sum_to N (fun t => cnt_th is_eff t evs))%nat).
  { apply sum_to_le. intros t _. destruct (L2 t) as (k & K1 & _). destruct (calls_count _ _ _ _ _ K1). lia. }
  assert (A2 : (sum_to N (fun t => cnt_th is_eff t evs) + sum_to N (fun t => cnt_th (is_ret_ev L) t evs) <=
      sum_to N (fun t => cnt_th (is_ret0_ev L) t evs) + sum_to N (fun t => cnt_th (is_inv L) t evs))%nat).
  { rewrite <- !sum_to_add. apply sum_to_le. intros t _. destruct (L2 t) as (k & K1 & _).
    destruct (calls_count _ _ _ _ _ K1). specialize (Hd k). lia. }
  split; [lia|]. split; [lia|]. intros Hq. f_equal. apply sum_to_ext. intros t _.
  destruct (L2 t) as (k & K1 & K2). rewrite (Hq t) in K2. destruct k; [|discriminate].
  destruct (calls_count _ _ _ _ _ K1) as [E _]. cbn in E. lia.
Qed.

Notation seen_by s a := (forall t, contexts s t = map (fun x => (a_loc x, match a_act x with Some _ => true | None => false end)) (a_thr a t)).

Lemma counted_path : forall L g md cpus cnt inc (cl : client L) (dom : Z -> Prop) res os (s0 s : state L) a0 a evs,
  NoDup cpus -> words_apart g cpus cnt -> counter_code g md cpus cnt inc cl ->
  (forall x, (exists cpu, In cpu cpus /\ In x (span (cnt cpu) (wsize g))) -> dom x) ->
  like a0 (abs_init s0) -> bpath g cl dom a0 evs a -> a_mem a = s_mem s -> linearized g res os s evs ->
  wrap g (total g cpus cnt (s_mem s)) = wrap g (total g cpus cnt (s_mem s0) + n_eff L (effects L evs) * inc) /\
  counted g cpus cnt inc s0 s os.
Proof.
  intros L g md cpus cnt inc cl dom res os s0 s a0 a evs Hnd Hap Hcl Hd Hlk Hb Em Hl.
  assert (H0 : holds_inv L unit (c_glob L g cpus cnt inc (total g cpus cnt (s_mem s0))) (c_ctx L md cpus cnt inc) c_absent tt [] a0).
  { apply c_init; [exact (like_idle _ _ _ Hlk)|]. rewrite (proj1 Hlk). reflexivity. }
  destruct (bpath_ci g cl dom unit _ _ _ (c_inv L g md cpus cnt inc cl Hnd Hap Hcl (total g cpus cnt (s_mem s0)))) with (3 := H0) (2 := Hb) as ([] & [HG _]).
  { intros gh es m ps m' Hm Ho HG. split; [|auto]. unfold c_glob in *. rewrite (total_ext g cpus cnt m m'); auto.
    intros cpu Hc. eapply ldw_out; [exact Hm|exact Ho|]. intros x Hx. apply Hd. eauto. }
  unfold c_glob in HG. rewrite Em in HG. split; [exact HG|].
  exists (n_eff L (effects L evs)). split; [exact HG|]. replace (n_eff L (effects L evs)) with (Z.of_nat (length (filter is_eff evs))) by (unfold n_eff, count; now rewrite filter_effects).
  exact (linearized_bounds L g res os s evs Hl).
Qed.

Lemma holders_seen : forall (s : state lock_loc) a cpu t, seen_by s a ->
  holders s cpu t = length (filter (fun x => holding cpu (a_loc x)) (a_thr a t)).
Proof.
  intros s a cpu t E. specialize (E t). unfold holders, contexts in *.
  assert (E1 : map x_loc (t_ctx (s_thr s t)) = map a_loc (a_thr a t)).
  { apply (f_equal (map fst)) in E. rewrite !map_map in E. cbn in E. exact E. }
  clear E. revert E1. generalize (a_thr a t). induction (t_ctx (s_thr s t)) as [|x xs IH]; intros ak E; destruct ak as [|ax ak]; try discriminate; auto.
  cbn in E. injection E as E1 E2. cbn [filter]. rewrite E1. destruct (holding cpu (a_loc ax)); cbn [length]; rewrite (IH _ E2); auto.
Qed.

Lemma piece_extract : forall g p (s0 s : state (piece_loc p)) a0 a evs os,
  piece_ok g p -> initial s0 -> piece_start g p s0 -> like a0 (abs_init s0) ->
  bpath g (piece_client g p) (piece_bytes g p) a0 evs a -> a_mem a = s_mem s -> seen_by s a ->
  linearized g (kind_res g (p_kind p)) os s evs -> piece_good g p s0 s os.
Proof.
  intros g [md cpus k] s0 s a0 a evs os Hok Hi Hst Hlk Hb Em Hc Hl.
  destruct k as [|cnt inc|cnt|cnt lk|nodes hd off nodesz slot live load|ofs arr buflen load|ofs arr buflen reclen arg out live load];
    unfold piece_ok, piece_start, piece_loc, piece_good, piece_client in *;
    cbn [p_kind p_cpus p_mode kind_loc kind_start kind_good kind_client kind_res] in *.
  - exact Logic.I.
  - destruct Hok as [Hnd Hap].
    exact (proj2 (counted_path unit g md cpus cnt inc _ _ any_res os s0 s a0 a evs Hnd Hap (count_code g md cpus cnt inc) (fun _ H => H) Hlk Hb Em Hl)).
  - destruct Hok as [Hnd Hap].
    destruct (counted_path inc_loc g md cpus cnt 1 _ _ any_res os s0 s a0 a evs Hnd Hap (inc_code g md cpus cnt) (fun _ H => H) Hlk Hb Em Hl) as [HG Hcnt].
    split; [exact Hcnt|]. intros N R HR HN Hfin.
    assert (Hini : holds_inv inc_loc _ i_glob (i_ctx R) i_absent (fun _ => O) [] a0).
    { split; [intros t; reflexivity|]. intros t. split; [|intros; exact Logic.I].
      rewrite (proj2 Hlk). cbn [abs_init a_thr]. rewrite (HR t). cbn. auto. }
    destruct (bpath_ci g _ _ (nat -> nat) _ _ _ (i_inv g md cpus cnt R) (fun _ _ _ _ _ _ _ H => conj H (fun _ _ _ H => H)) _ _ _ Hb _ Hini) as (gh & [HG2 HS2]).
    assert (Hall : forall t, cnt_th is_eff t (effects inc_loc evs) = R t).
    { intros t. rewrite <- HG2. destruct (HS2 t) as [H1 _]. pose proof (Hc t) as E.
      unfold contexts in E. rewrite (Hfin t) in E. cbn in E.
      destruct (a_thr a t) as [|ax [|? ?]]; try discriminate. cbn in E. injection E as E1 E2. cbn in H1.
      rewrite <- E1 in H1. destruct (a_act ax); [discriminate|]. lia. }
    rewrite HG. f_equal. rewrite Z.mul_1_r. f_equal. unfold n_eff, count. f_equal.
    destruct (bound_threads _ (effects inc_loc evs)) as (M & HM).
    rewrite (count_split _ _ _ (max N M)).
    + rewrite (sum_to_ext _ _ R) by (intros; apply Hall). apply sum_to_zeros; [lia|auto].
    + intros e He. specialize (HM e He). lia.
  - destruct Hok as (Hw1 & Hnd & Hlay). set (T0 := total g cpus cnt (s_mem s0)).
    assert (H0 : sholds (l_struc g md cpus cnt lk Hw1 Hnd Hlay T0) (fun _ => None) [] a0).
    { apply l_init; [|rewrite (proj1 Hlk); reflexivity]. intros t. rewrite (proj2 Hlk). apply lock_idle. exact Hst. }
    destruct (bpath_inv g _ _ _ (l_struc g md cpus cnt lk Hw1 Hnd Hlay T0) _ _ _ Hb _ H0) as (gh & [HG HS]).
    cbn [sG sGlob sCtx sAbs l_struc] in *.
    split; [|split].
    + intros cpu t u. rewrite !(holders_seen s a cpu _ Hc). destruct (HS t) as [S1 _], (HS u) as [S2 _].
      destruct (stk_holders _ _ _ _ _ _ _ _ _ cpu S1) as [B1 B2]. destruct (stk_holders _ _ _ _ _ _ _ _ _ cpu S2) as [B3 B4].
      split; auto. intros Hn.
      destruct (length (filter (fun x => holding cpu (a_loc x)) (a_thr a t))) as [|n1] eqn:F1; auto.
      destruct (length (filter (fun x => holding cpu (a_loc x)) (a_thr a u))) as [|n2] eqn:F2; auto.
      destruct B2 as (d1 & _ & G1); [lia|]. destruct B4 as (d2 & _ & G2); [lia|]. congruence.
    + intros t x Hx E. pose proof (Hc t) as Hct. unfold contexts in Hct.
      assert (Hin : In (Lk_assert_failed, match x_act x with Some _ => true | None => false end)
        (map (fun x => (x_loc x, match x_act x with Some _ => true | None => false end)) (t_ctx (s_thr s t)))).
      { rewrite <- E. apply in_map_iff. exists x. auto. }
      rewrite Hct in Hin. apply in_map_iff in Hin. destruct Hin as (ax & E1 & Hax). destruct (HS t) as [S1 _].
      revert S1 Hax E1. generalize (a_thr a t). clear. intros k. induction k as [|y k IH]; intros S1 Hax E1; [destruct Hax|].
      destruct S1 as [H1 H2]. destruct Hax as [->|Hax]; [|apply IH; auto].
      injection E1 as E1 _. unfold l_ctx in H1. rewrite E1 in H1. destruct (a_act ax) as [[? ?]|]; contradiction.
    + destruct HG as [_ HG]. rewrite Em in HG. rewrite HG.
      f_equal. f_equal. unfold n_cs, count. rewrite filter_cs. f_equal. f_equal.
      destruct Hl as [Hl _]. rewrite <- Hl. symmetry. apply observed_filter. intros [| | | |]; cbn; auto; discriminate.
  - destruct Hok as ((lay & Lh & Ln & Lx & Ls & Lr) & Lw).
    destruct (list_inv0 g md cpus nodes hd off slot live s0 Hi Hst) as (L0 & gh0 & HL0 & H0).
    destruct (bpath_inv g _ _ _ (p_struc g md cpus nodes hd off nodesz slot live load Lw lay Lh Ln Lx Ls Lr L0) _ _ _ Hb gh0) as (gh & [HG HS]).
    { eapply holds_like; [exact Hlk|exact H0]. }
    cbn [sG sGlob sCtx sAbs p_struc] in *. rewrite Em in *. destruct HG as (G1 & G2 & G3 & G4). split.
    + exists (gW gh). split; [|split; auto].
      * intros cpu Hcpu. exists (gL gh cpu). apply G1; auto.
      * intros t d. destruct (G2 t d) as [N1 N2]. destruct (HS t) as [S1 S2]. exists (gV gh t d). split; auto. split; auto.
        unfold context_at. rewrite (Hc t). rewrite <- map_rev, nth_error_map.
        destruct (nth_error (rev (a_thr a t)) d) as [ax|] eqn:En; cbn.
        { pose proof (stk_nth _ _ _ _ _ _ _ _ _ S1 En) as (C1 & C2 & C3). destruct ax as [l o]. cbn [a_loc a_act] in *.
          unfold holds_nodes. rewrite C1, C2. destruct (ll_pc l) as [|cpu n e|cpu n e|cpu|], o as [[c st]|]; try contradiction; auto.
          - apply C3.
          - destruct C3 as [_ C3]. destruct st as [w|[| |]]; try (left; apply C3). right; auto.
          - apply C3.
          - destruct C3 as (_ & _ & C3). destruct st as [w|[| |]]; auto.
          - apply C3.
          - apply C3. }
        { apply S2. apply nth_error_None in En. rewrite rev_length in En. auto. }
    + exists L0, evs, (gL gh). split; [exact HL0|]. split; [exact Hl|]. split.
      * rewrite list_run_effects in G4. exact G4.
      * intros; apply G1; auto.
  - destruct Hok as (lay & Lo & La & Lr). destruct Hst as (Hst & _). intros S0 Hbh Hlen.
    destruct (bpath_inv g _ _ _ (b_struc g md cpus load ofs arr buflen lay Lo La Lr S0) _ _ _ Hb S0) as (gh & [HG HS]).
    { eapply holds_like; [exact Hlk|]. exact (buf_inv0 g md cpus ofs arr buflen S0 s0 Hst Hbh Hlen). }
    cbn [sG sGlob sCtx sAbs b_struc] in *. rewrite Em in *. destruct HG as (G1 & G2 & G3).
    exists evs, gh. split; [exact Hl|]. split; [rewrite buf_run_effects in G1; exact G1|]. auto.
  - destruct Hok as ((lay & Lo & La & Lm) & Lr & Lb & Ld & Lx). destruct Hst as (Hst & _). intros S0 Hbh Hlen.
    destruct (bpath_inv g _ _ _ (r_struc g md cpus ofs arr buflen reclen arg out live load lay Lo La Lm Lr Lb Ld Lx S0) _ _ _ Hb S0) as (gh & [HG HS]).
    { eapply holds_like; [exact Hlk|]. exact (rec_inv0 g md cpus ofs arr buflen reclen arg out live S0 s0 Hst Hbh Hlen). }
    cbn [sG sGlob sCtx sAbs r_struc] in *. rewrite Em in *. destruct HG as (G1 & G2 & G3).
    exists evs, gh. split; [exact Hl|]. split; [rewrite rec_run_effects in G1; exact G1|]. auto.
Qed.

Lemma initial_seen : forall Loc pcs turn (view : forall i, Loc -> piece_loc (pcs i)) i s0, initial s0 -> initial (seen pcs turn view i s0).
Proof.
  intros Loc pcs turn view i s0 (H1 & H2 & H3). split; [|split; [exact H2|exact H3]]. intros t. specialize (H1 t).
  unfold thread_init in *. cbn [seen s_thr t_area t_reg t_on t_ctx t_dead]. destruct H1 as (A & B & (l & C) & D).
  split; [exact A|]. split; [exact B|]. split; [|exact D]. exists (view i l). rewrite C. cbn. unfold seen_ctx. cbn.
  destruct (mine turn i l); reflexivity.
Qed.

Lemma like_seen : forall Loc pcs turn (view : forall i, Loc -> piece_loc (pcs i)) i s0,
  like (proj Loc pcs turn view i (abs_init s0)) (abs_init (seen pcs turn view i s0)).
Proof.
  intros. split; [reflexivity|]. intros t. cbn. rewrite !map_map. apply map_ext. intros x. unfold pctx. cbn.
  destruct (mine turn i (x_loc x)); reflexivity.
Qed.

(** C61 *)
Theorem structures_compose : forall (Loc : Type) g a tw tx (pcs : nat -> piece) turn (view : forall i, Loc -> piece_loc (pcs i)) P s0,
  lib_text a tw tx -> initial s0 -> (forall i, piece_ok g (pcs i)) -> separate g pcs -> uses g pcs turn view P ->
  (forall i, piece_start g (pcs i) (seen pcs turn view i s0)) ->
  forall tr s, path g tx P s0 tr s ->
  forall i, piece_good g (pcs i) (seen pcs turn view i s0) (seen pcs turn view i s) (events_of pcs turn view i (obs tr)).
Proof.
  intros Loc g a tw tx pcs turn view P s0 Htx Hi Hok Hsep Hu Hst tr s Hp i.
  assert (Hgood : good_text g tx) by (eapply lib_good; eauto).
  destruct (composed Loc g tx pcs turn view P (fun i => kind_res g (p_kind (pcs i))) s0 tr s Hgood Hi Hu Hsep) as (aa & HR & H); auto.
  { intros j. apply (piece_struc g (pcs j) (seen pcs turn view j s0)); auto; [apply initial_seen; auto|apply like_seen]. }
  destruct (H i) as (evs & Hb & Hl).
  eapply piece_extract; [apply Hok|apply initial_seen; auto|apply Hst|apply like_seen|exact Hb| | |exact Hl].
  - symmetry. cbn. symmetry. apply HR.
  - intros t. eapply seen_contexts; eauto.
Qed.
