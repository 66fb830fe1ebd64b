(** Proofs about concurrent allocations from a pool set (PoolSetConc.v). *)
From Coq Require Import ZArith Bool List Lia Znumtheory Sorted.
From Verif Require Import UtilsModel UtilsLemmas RseqIR MemLemmas PoolVM PoolVMLemmas PoolModel PoolInv PoolItem PoolMap PoolRange PoolBitmap PoolOps PoolMalloc PoolFree PoolWorld PoolDestroy PoolCreate PoolHist PoolProps PoolProps2 PoolProps3 PoolProps4 PoolSetModel PoolSetSpec PoolSetProofs PoolSetConc PoolSetConcSpec.
Import ListNotations.
Local Open Scope Z_scope.

Section Conc.
Variable e : env.
Variable s : bool.
Variable v0 : vm.

(** ** What every reachable state satisfies *)
Definition phase_ok (m : machine) (k : call) : Prop :=
  match k_phase k with
  | Looking lo => wlog e <= lo <= word_bits (e_wide e)
  | Taking o id => wlog e <= o < word_bits (e_wide e) /\ m_S m o = Some id /\ k_len k <= 2 ^ o
  | Filling o id a => wlog e <= o < word_bits (e_wide e) /\ m_S m o = Some id /\ k_len k <= 2 ^ o /\ In (id, a) (m_L m)
  | Returned _ => True
  end.
Record minv (m : machine) : Prop := {
  mi_hist : history e s v0 (m_w m) (m_L m) (m_F m);
  mi_set : set_ok (m_S m) (m_w m);
  mi_call : forall t k, m_call m t = Some k -> phase_ok m k /\ 0 <= k_len k < wmax e
}.

Lemma min_order_range : forall len, 0 <= len < wmax e -> wlog e <= set_min_order e len <= word_bits (e_wide e).
Proof.
  intros len H. unfold set_min_order. change (POOL_SET_MIN_ENTRY e) with (wlog e). pose proof (wlog_range e) as Hwl. pose proof (wb_range (e_wide e)) as Hwb.
  destruct (count_order_full (e_wide e) len) as [H0 H1]; [fold (wmax e); lia|].
  destruct (Z.eq_dec len 0) as [->|Hne].
  - rewrite H0 by reflexivity. replace (wlog e <? -1) with false by lia. lia.
  - destruct (H1 Hne) as (H2 & H3 & H4). specialize (H4 (word_bits (e_wide e)) ltac:(lia) ltac:(fold (wmax e); lia)).
    destruct (wlog e <? rseq_get_count_order_ulong (e_wide e) len) eqn:E; lia.
Qed.

Lemma find_fit_spec : forall len w S os, set_ok S w -> StronglySorted Z.lt os ->
  match find_fit os S w len with
  | Ok (Some (o, id)) => In o os /\ (exists P, member S w o id P /\ len <= item_len P) /\
      forall o' id' P', In o' os -> o' < o -> member S w o' id' P' -> item_len P' < len
  | Ok None => forall o' id' P', In o' os -> member S w o' id' P' -> item_len P' < len
  | Abort => False
  | Undef => False
  end.
Proof.
  intros len w S os HS. induction os as [|o os IH]; intros Hso; cbn [find_fit].
  - intros o' id' P' [].
  - inversion Hso as [|? ? Hso' Hlt]; subst. rewrite Forall_forall in Hlt. specialize (IH Hso').
    destruct (S o) as [id|] eqn:ES.
    + destruct (HS _ _ ES) as (P & Hl & Eo). rewrite Hl. destruct (len <=? item_len P) eqn:El.
      * split; [now left|]. split; [exists P; split; [split; auto|lia]|]. intros o' id' P' [<-|Hin] Ho'; [lia|]. specialize (Hlt _ Hin). lia.
      * assert (Hhead : forall id' P', member S w o id' P' -> item_len P' < len).
        { intros id' P' [E1 E2]. rewrite ES in E1. injection E1 as <-. rewrite Hl in E2. injection E2 as <-. lia. }
        destruct (find_fit os S w len) as [[[o1 id1]|]| |]; auto.
        -- destruct IH as (H1 & H2 & H3). split; [now right|]. split; auto. intros o' id' P' [<-|Hin] Ho' Hm; eauto.
        -- intros o' id' P' [<-|Hin] Hm; eauto.
    + assert (Hhead : forall id' P', member S w o id' P' -> item_len P' < len) by (intros id' P' [E1 E2]; congruence).
      destruct (find_fit os S w len) as [[[o1 id1]|]| |]; auto.
      * destruct IH as (H1 & H2 & H3). split; [now right|]. split; auto. intros o' id' P' [<-|Hin] Ho' Hm; eauto.
      * intros o' id' P' [<-|Hin] Hm; eauto.
Qed.

(** Only a call of the program on an item removes it from what it holds. *)
Lemma live_kept : forall o x L i, In i L -> (forall p st, o = OFree p st -> snd i <> p) ->
  (forall id an, o = ODestroy id an -> fst i <> id) -> In i (live_after o x L).
Proof.
  intros o x L i Hin Hf Hd. destruct o; destruct x; cbn [live_after]; auto; try (now right);
    apply filter_In; split; auto; apply negb_true_iff, Z.eqb_neq; eauto.
Qed.

Lemma phase_keep : forall m m' k, phase_ok m k -> (forall o id, m_S m o = Some id -> m_S m' o = Some id) ->
  (forall o id a, k_phase k = Filling o id a -> In (id, a) (m_L m) -> In (id, a) (m_L m')) -> phase_ok m' k.
Proof.
  intros m m' k H HS HL. unfold phase_ok in *. destruct (k_phase k); auto.
  - destruct H as (H1 & H2 & H3). auto.
  - destruct H as (H1 & H2 & H3 & H4). split; auto. split; auto. split; auto. eapply HL; eauto.
Qed.

Lemma do_op_inv : forall m o m' x, minv m -> allowed e s v0 (m_w m) (m_L m) o ->
  (forall id an o', o = ODestroy id an -> m_S m o' <> Some id) ->
  (forall p st, o = OFree p st -> forall t k o' id', m_call m t = Some k -> k_phase k <> Filling o' id' p) ->
  do_op e m o = Ok (m', x) -> minv m' /\ m_S m' = m_S m /\ m_call m' = m_call m /\
    run1 e o (m_w m) = Ok (m_w m', x) /\ m_L m' = live_after o x (m_L m) /\ m_F m' = freed_after o x (m_L m) (m_F m).
Proof.
  intros m o m' x HI Ha Hd Hf E. unfold do_op in E. destruct (run1 e o (m_w m)) as [[w y]| |] eqn:R; cbn [bind] in E; try discriminate E.
  injection E as <- <-. cbn [m_S m_call m_w m_L m_F].
  assert (HI' : minv {| m_w := w; m_L := live_after o y (m_L m); m_F := freed_after o y (m_L m) (m_F m); m_S := m_S m; m_call := m_call m |}).
  { constructor; cbn [m_S m_call m_w m_L m_F].
    - apply (hist_step e s v0 (m_w m) _ _ o w y (mi_hist _ HI) Ha R).
    - eapply p_set_kept; eauto using mi_hist, mi_set.
    - intros t k Hk. destruct (mi_call _ HI t k Hk) as [Hp Hl]. split; auto.
      eapply phase_keep; [exact Hp|cbn [m_S]; auto|]. cbn [m_L]. intros o' id a Ep Hin. unfold phase_ok in Hp. rewrite Ep in Hp.
      apply live_kept; auto; cbn [fst snd].
      + intros p st -> <-. apply (Hf a st eq_refl t k o' id Hk Ep).
      + intros id' an -> <-. apply (Hd id an o' eq_refl). tauto. }
  auto 10.
Qed.

Lemma with_call_inv : forall m t k, minv m -> phase_ok m k /\ 0 <= k_len k < wmax e -> minv (with_call m t (Some k)).
Proof.
  intros m t k HI Hk. constructor; cbn.
  - apply (mi_hist _ HI).
  - apply (mi_set _ HI).
  - intros u k' Hk'. unfold set_call in Hk'. destruct (u =? t).
    + injection Hk' as <-. exact Hk.
    + apply (mi_call _ HI u k' Hk').
Qed.

(** What the steps of a call do. *)
Definition took (m : machine) (t : Z) (an : answers) (k : call) (m' : machine) : Prop :=
  match k_phase k with
  | Looking lo =>
    (exists o id P, m' = with_call m t (Some (at_phase k (Taking o id))) /\ lo <= o < word_bits (e_wide e) /\
       member (m_S m) (m_w m) o id P /\ k_len k <= item_len P /\
       forall o' id' P', lo <= o' < o -> member (m_S m) (m_w m) o' id' P' -> item_len P' < k_len k) \/
    m' = with_call m t (Some (at_phase k (Returned (Null ENOMEM)))) /\
       (forall o' id' P', lo <= o' < word_bits (e_wide e) -> member (m_S m) (m_w m) o' id' P' -> item_len P' < k_len k)
  | Taking o id => exists P m1 x, member (m_S m) (m_w m) o id P /\ k_len k <= item_len P /\
      do_op e m (OMalloc id an) = Ok (m1, x) /\
      ((exists a, x = OutItem a /\ m' = with_call m1 t (Some (at_phase k (Filling o id a)))) \/
       x = OutNull /\ m' = with_call m1 t (Some (at_phase k (Looking (o + 1)))))
  | Filling o id a => exists P m1 x, member (m_S m) (m_w m) o id P /\
      do_op e m (OFill id a (content_of (k_zero k) None)) = Ok (m1, x) /\
      m' = with_call m1 t (Some (at_phase k (Returned (Got a))))
  | Returned _ => False
  end.

Lemma advance_took : forall m t k an m', minv m -> m_call m t = Some k -> advance e m t k an = Ok m' -> took m t an k m'.
Proof.
  intros m t k an m' HI Hk E. destruct (mi_call _ HI t k Hk) as [Hp Hl]. unfold advance in E. unfold took. unfold phase_ok in Hp.
  destruct (k_phase k) as [lo|o id|o id a|g].
  - pose proof (find_fit_spec (k_len k) (m_w m) (m_S m) (zseq lo (POOL_SET_NR_ENTRIES e - lo)) (mi_set _ HI) (zseq_sorted _ _)) as K.
    change (POOL_SET_NR_ENTRIES e) with (word_bits (e_wide e)) in *.
    destruct (find_fit (zseq lo (word_bits (e_wide e) - lo)) (m_S m) (m_w m) (k_len k)) as [[[o id]|]| |]; cbn [bind] in E; try discriminate E; injection E as <-.
    + left. destruct K as (K1 & (P & K2 & K3) & K4). apply in_zseq in K1. exists o, id, P. split; auto. split; [lia|]. split; auto. split; auto.
      intros o' id' P' Ho'. apply K4; [apply in_zseq|]; lia.
    + right. split; auto. intros o' id' P' Ho'. apply K. apply in_zseq. lia.
  - destruct Hp as (H1 & H2 & H3). destruct (mi_set _ HI _ _ H2) as (P & HlP & Eo). rewrite HlP in E.
    assert (Hm : member (m_S m) (m_w m) o id P) by (split; auto).
    destruct (member_len e s v0 _ _ _ _ _ _ _ (mi_hist _ HI) (mi_set _ HI) Hm) as [EL _].
    replace (item_len P <? k_len k) with false in E by lia.
    destruct (do_op e m (OMalloc id an)) as [[m1 x]| |] eqn:Ed; cbn [bind] in E; try discriminate E.
    exists P, m1, x. split; auto. split; [lia|]. split; auto.
    assert (Hx : x = OutNull \/ exists a, x = OutItem a).
    { unfold do_op in Ed. cbn [run1] in Ed. rewrite HlP in Ed.
      destruct (malloc_locked e P an (w_vm (m_w m))) as [[[[[[? ?] ?]|] ?] ?]| |]; cbn [bind] in Ed; try discriminate Ed;
        injection Ed as _ <-; eauto. }
    destruct Hx as [-> | (a & ->)]; injection E as <-; [now right|left; eauto].
  - destruct Hp as (H1 & H2 & H3 & H4). destruct (mi_set _ HI _ _ H2) as (P & HlP & Eo).
    destruct (do_op e m (OFill id a (content_of (k_zero k) None))) as [[m1 x]| |] eqn:Ed; cbn [bind] in E; try discriminate E.
    injection E as <-. exists P, m1, x. split; [split; auto|]. auto.
  - discriminate E.
Qed.

Lemma at_phase_phase : forall k p, k_phase (at_phase k p) = p.
Proof. reflexivity. Qed.

Lemma content_any : forall P z, content_fits P (content_of z None).
Proof. intros P z. destruct z; exact Logic.I. Qed.

Lemma fill_allowed : forall m t k o id a, minv m -> m_call m t = Some k -> k_phase k = Filling o id a ->
  allowed e s v0 (m_w m) (m_L m) (OFill id a (content_of (k_zero k) None)).
Proof.
  intros m t k o id a HI Hk Ep. destruct (mi_call _ HI t k Hk) as [Hp _]. unfold phase_ok in Hp. rewrite Ep in Hp.
  destruct Hp as (H1 & H2 & H3 & H4). destruct (mi_set _ HI _ _ H2) as (P & Hl & _). exists P. split; auto. split; auto. apply content_any.
Qed.
Lemma take_allowed : forall m t k o id an, minv m -> m_call m t = Some k -> k_phase k = Taking o id ->
  allowed e s v0 (m_w m) (m_L m) (OMalloc id an).
Proof.
  intros m t k o id an HI Hk Ep. destruct (mi_call _ HI t k Hk) as [Hp _]. unfold phase_ok in Hp. rewrite Ep in Hp.
  destruct Hp as (H1 & H2 & H3). destruct (mi_set _ HI _ _ H2) as (P & Hl & _). exists P. auto.
Qed.
Lemma malloc_inv : forall m t k o id an m1 x, minv m -> m_call m t = Some k -> k_phase k = Taking o id ->
  do_op e m (OMalloc id an) = Ok (m1, x) -> minv m1 /\ m_S m1 = m_S m /\ m_call m1 = m_call m /\
    run1 e (OMalloc id an) (m_w m) = Ok (m_w m1, x) /\ m_L m1 = live_after (OMalloc id an) x (m_L m) /\
    m_F m1 = freed_after (OMalloc id an) x (m_L m) (m_F m).
Proof.
  intros m t k o id an m1 x HI Hk Ep Ed. eapply do_op_inv; eauto using take_allowed; intros; discriminate.
Qed.
Lemma fill_inv : forall m t k o id a m1 x, minv m -> m_call m t = Some k -> k_phase k = Filling o id a ->
  do_op e m (OFill id a (content_of (k_zero k) None)) = Ok (m1, x) -> minv m1 /\ m_S m1 = m_S m /\ m_call m1 = m_call m /\
    run1 e (OFill id a (content_of (k_zero k) None)) (m_w m) = Ok (m_w m1, x) /\ m_L m1 = m_L m /\ m_F m1 = m_F m.
Proof.
  intros m t k o id a m1 x HI Hk Ep Ed.
  destruct (do_op_inv m _ m1 x HI (fill_allowed _ _ _ _ _ _ HI Hk Ep)) as (H1 & H2 & H3 & H4 & H5 & H6);
    [intros; discriminate|intros; discriminate|exact Ed|]. cbn [live_after] in H5. cbn [freed_after] in H6. tauto.
Qed.

Lemma advance_inv : forall m t k an m', minv m -> m_call m t = Some k -> advance e m t k an = Ok m' -> minv m'.
Proof.
  intros m t k an m' HI Hk E. pose proof (advance_took _ _ _ _ _ HI Hk E) as K. unfold took in K.
  destruct (mi_call _ HI t k Hk) as [Hp Hl]. unfold phase_ok in Hp.
  destruct (k_phase k) as [lo|o id|o id a|g] eqn:Ep.
  - destruct K as [(o & id & P & -> & Ho & Hm & Hle & _)|(-> & _)]; apply with_call_inv; auto; split; auto; unfold phase_ok; cbn [at_phase k_phase k_len]; auto.
    destruct (member_len e s v0 _ _ _ _ _ _ _ (mi_hist _ HI) (mi_set _ HI) Hm) as [EL _]. destruct Hm. rewrite <- EL. split; [lia|]. auto.
  - destruct K as (P & m1 & x & Hm & Hle & Ed & K).
    destruct (malloc_inv _ _ _ _ _ _ _ _ HI Hk Ep Ed) as (HI1 & ES & EC & R & EL & EF).
    destruct K as [(a & -> & ->)|(-> & ->)]; apply with_call_inv; auto; split; auto; unfold phase_ok; cbn [at_phase k_phase k_len].
    + rewrite ES, EL. cbn [live_after]. destruct Hp as (H1 & H2 & H3). split; auto. split; auto. split; auto. now left.
    + lia.
  - destruct K as (P & m1 & x & Hm & Ed & ->).
    destruct (fill_inv _ _ _ _ _ _ _ _ HI Hk Ep Ed) as (HI1 & ES & EC & R & EL & EF).
    apply with_call_inv; auto. split; auto. exact Logic.I.
  - destruct K.
Qed.

Lemma mstep_inv : forall m a m', minv m -> permitted e s v0 m a -> mstep e a m = Ok m' -> minv m'.
Proof.
  intros m a m' HI Hp E. destruct a as [t len zero|t an|t|o|id]; cbn [mstep] in E; cbn [permitted] in Hp.
  - injection E as <-. apply with_call_inv; auto. unfold phase_ok. cbn [k_phase k_len]. destruct Hp as [_ Hp]. split; auto. apply min_order_range; auto.
  - destruct (m_call m t) as [k|] eqn:Hk; [|discriminate E]. eapply advance_inv; eauto.
  - injection E as <-. constructor; cbn; [apply (mi_hist _ HI)|apply (mi_set _ HI)|].
    intros u k Hk. unfold set_call in Hk. destruct (u =? t); [discriminate Hk|]. apply (mi_call _ HI u k Hk).
  - destruct (do_op e m o) as [[m1 x]| |] eqn:Ed; cbn [bind] in E; try discriminate E. injection E as <-. cbn [fst]. destruct Hp as [Ha Hp].
    eapply do_op_inv; eauto.
    + intros id an o' ->. apply Hp.
    + intros p st ->. exact Hp.
  - destruct Hp as (P & Hl). rewrite Hl in E. destruct (set_add_pool (m_S m) id P) as [[r er] S'] eqn:Ea. injection E as <-.
    unfold set_add_pool in Ea. destruct (m_S m (item_order P)) as [i|] eqn:Es.
    + injection Ea as _ _ <-. constructor; cbn; [apply (mi_hist _ HI)|apply (mi_set _ HI)|]. apply (mi_call _ HI).
    + injection Ea as _ _ <-. constructor; cbn; [apply (mi_hist _ HI)| |].
      * intros o i Hi. destruct (o =? item_order P) eqn:Eo; [|apply (mi_set _ HI); auto]. apply Z.eqb_eq in Eo. injection Hi as <-. eauto.
      * intros t k Hk. destruct (mi_call _ HI t k Hk) as [H1 H2]. split; auto. eapply phase_keep; [exact H1| |cbn; auto].
        cbn. intros o i Hi. destruct (o =? item_order P) eqn:Eo; auto. apply Z.eqb_eq in Eo. congruence.
Qed.

Lemma run_inv : forall m tr m', run e s v0 m tr m' -> minv m -> minv m' /\ forall m1 a, In (m1, a) tr -> minv m1 /\ permitted e s v0 m1 a.
Proof.
  induction 1 as [m|m a m1 tr m2 Hp E _ IH]; intros HI.
  - split; auto. intros ? ? [].
  - assert (HI1 : minv m1) by (eapply mstep_inv; eauto). destruct (IH HI1) as [H1 H2]. split; auto.
    intros m' a' [Heq|Hin]; auto. injection Heq as <- <-. auto.
Qed.

Lemma run_app : forall m tr m1, run e s v0 m tr m1 -> forall tr' m2, run e s v0 m1 tr' m2 -> run e s v0 m (tr ++ tr') m2.
Proof. induction 1; intros tr' m3 H'; [exact H'|]. cbn. econstructor; eauto. Qed.

Lemma reachable_inv : forall m, reachable e s v0 m -> minv m.
Proof.
  intros m (H1 & H2 & tr & R). refine (proj1 (run_inv _ _ _ R _)). constructor; cbn.
  - split; auto. split; auto. constructor.
  - intros o id H. discriminate H.
  - intros t k H. discriminate H.
Qed.
Lemma reachable_run : forall m tr m', reachable e s v0 m -> run e s v0 m tr m' -> reachable e s v0 m'.
Proof. intros m tr m' (H1 & H2 & tr0 & R0) R. split; auto. split; auto. exists (tr0 ++ tr). eapply run_app; eauto. Qed.

(** ** One call among all the others *)
Variable t len : Z.
Variable zero : bool.
Hypothesis Hlen : 0 <= len < wmax e.

Definition served_by (pre : list (machine * act)) (a : Z) : Prop :=
  exists pre1 m an pre2 o id P m1, pre = pre1 ++ (m, Advance t an) :: pre2 /\
    member (m_S m) (m_w m) o id P /\ len <= item_len P /\ run1 e (OMalloc id an) (m_w m) = Ok (m1, OutItem a) /\
    ~ In (id, a) (m_L m) /\ (exists m' a', In (m', a') pre1) /\
    forall o', wlog e <= o' < o -> len <= 2 ^ o' -> lacked e t (2 ^ o') pre1.

Definition so_far (pre : list (machine * act)) (p : phase) : Prop :=
  match p with
  | Looking lo => forall o', wlog e <= o' < lo -> len <= 2 ^ o' -> lacked e t (2 ^ o') pre
  | Taking o id => (exists m a, In (m, a) pre) /\ forall o', wlog e <= o' < o -> len <= 2 ^ o' -> lacked e t (2 ^ o') pre
  | Filling o id a => served_by pre a
  | Returned (Got a) => served_by pre a
  | Returned (Null err) => err = ENOMEM /\ (exists m a, In (m, a) pre) /\
      forall o', wlog e <= o' < word_bits (e_wide e) -> len <= 2 ^ o' -> lacked e t (2 ^ o') pre
  end.
Definition tinv (pre : list (machine * act)) (m : machine) : Prop :=
  exists k, m_call m t = Some k /\ k_len k = len /\ k_zero k = zero /\ so_far pre (k_phase k).

Lemma lacked_more : forall z pre x, lacked e t z pre -> lacked e t z (pre ++ x).
Proof. intros z pre x (m & a & Hin & H). exists m, a. split; auto. apply in_or_app. auto. Qed.
Lemma served_more : forall a pre x, served_by pre a -> served_by (pre ++ x) a.
Proof.
  intros a pre x (p1 & m & an & p2 & o & id & P & m1 & -> & H). exists p1, m, an, (p2 ++ x), o, id, P, m1. split; auto. rewrite <- app_assoc. reflexivity.
Qed.
Lemma so_far_more : forall p pre x, so_far pre p -> so_far (pre ++ x) p.
Proof.
  assert (K : forall pre (x : list (machine * act)), (exists m a, In (m, a) pre) -> exists m a, In (m, a) (pre ++ x)).
  { intros pre x (m & a & H). exists m, a. apply in_or_app. auto. }
  intros p pre x H. destruct p as [lo|o id|o id a|[a|err]]; cbn [so_far] in *.
  - intros o' H1 H2. apply lacked_more; auto.
  - destruct H as [H0 H]. split; auto. intros o' H1 H2. apply lacked_more; auto.
  - apply served_more; auto.
  - apply served_more; auto.
  - destruct H as (H0 & H1 & H). split; auto. split; auto. intros o' H2 H3. apply lacked_more; auto.
Qed.

(** A size of which the look found no pool. *)
Lemma look_lacks : forall m o' a, minv m -> wlog e <= o' -> len <= 2 ^ o' ->
  (forall id P, member (m_S m) (m_w m) o' id P -> item_len P < len) -> lacks e t (2 ^ o') m a.
Proof.
  intros m o' a HI Ho' Hl Hno o id P Hm Hz. exfalso. pose proof (wlog_range e) as Hwl.
  destruct (member_len e s v0 _ _ _ _ _ _ _ (mi_hist _ HI) (mi_set _ HI) Hm) as [EL Ho].
  assert (o = o') by (apply (Z.pow_inj_r 2); lia). subst o. specialize (Hno _ _ Hm). lia.
Qed.

Lemma here : forall (pre : list (machine * act)) m a, In (m, a) (pre ++ [(m, a)]).
Proof. intros pre m a. apply in_or_app. right. now left. Qed.

Lemma advance_tinv : forall pre m k an m', minv m -> m_call m t = Some k -> k_len k = len -> k_zero k = zero -> so_far pre (k_phase k) ->
  advance e m t k an = Ok m' -> tinv (pre ++ [(m, Advance t an)]) m'.
Proof.
  pose proof (wlog_range e) as Hwl.
  intros pre m k an m' HI Hk Elen Ezero Hso E. pose proof (advance_took _ _ _ _ _ HI Hk E) as K. unfold took in K.
  destruct (mi_call _ HI t k Hk) as [Hp _]. unfold phase_ok in Hp.
  assert (Hput : forall m1 p, so_far (pre ++ [(m, Advance t an)]) p -> tinv (pre ++ [(m, Advance t an)]) (with_call m1 t (Some (at_phase k p)))).
  { intros m1 p H. exists (at_phase k p). cbn. unfold set_call. rewrite Z.eqb_refl. auto. }
  destruct (k_phase k) as [lo|o id|o id a|g] eqn:Ep; cbn [so_far] in Hso.
  - destruct K as [(o & id & P & -> & Ho & Hm & Hle & Hno)|(-> & Hno)]; apply Hput; cbn [so_far].
    + split; [eauto using here|]. intros o' H1 H2. destruct (Z_lt_ge_dec o' lo); [apply lacked_more, Hso; lia|].
      exists m, (Advance t an). split; [apply here|]. apply look_lacks; auto; [lia|]. intros id' P' Hm'. rewrite <- Elen. apply (Hno o' id' P'); [lia|exact Hm'].
    + split; auto. split; [eauto using here|]. intros o' H1 H2. destruct (Z_lt_ge_dec o' lo); [apply lacked_more, Hso; lia|].
      exists m, (Advance t an). split; [apply here|]. apply look_lacks; auto; [lia|]. intros id' P' Hm'. rewrite <- Elen. apply (Hno o' id' P'); [lia|exact Hm'].
  - destruct K as (P & m1 & x & Hm & Hle & Ed & K). destruct Hso as [Hsome Hso].
    destruct (malloc_inv _ _ _ _ _ _ _ _ HI Hk Ep Ed) as (HI1 & ES & EC & R & EL & EF).
    destruct K as [(a & -> & ->)|(-> & ->)]; apply Hput; cbn [so_far].
    + exists pre, m, an, [], o, id, P, (m_w m1). split; auto. split; auto. split; [lia|]. split; auto. split; [|auto].
      intros Hin. cbn [live_after] in EL. destruct (wi_known _ _ _ _ _ _ (hist_inv _ _ _ _ _ _ (mi_hist _ HI1)) id a) as [Q HQ].
      { apply in_or_app. left. rewrite EL. now left. }
      pose proof (items_app_nodup_l e s v0 _ _ _ id Q (hist_inv _ _ _ _ _ _ (mi_hist _ HI1)) HQ) as Hnd.
      rewrite EL, items_cons in Hnd. cbn [fst snd] in Hnd. rewrite Z.eqb_refl in Hnd. inversion Hnd as [|? ? Hni _]; subst. apply Hni, in_items, Hin.
    + intros o' H1 H2. destruct (Z_lt_ge_dec o' o); [apply lacked_more, Hso; lia|]. assert (o' = o) by lia. subst o'.
      exists m, (Advance t an). split; [apply here|]. intros o2 id2 P2 Hm2 Hz.
      destruct (member_len e s v0 _ _ _ _ _ _ _ (mi_hist _ HI) (mi_set _ HI) Hm2) as [EL2 Ho2].
      assert (o2 = o) by (apply (Z.pow_inj_r 2); lia). subst o2. destruct Hm as [M1 M2], Hm2 as [M3 M4].
      rewrite M1 in M3. injection M3 as <-. rewrite M2 in M4. injection M4 as <-.
      destruct (p_null e s v0 _ _ _ (mi_hist _ HI) id P an _ _ M2 R eq_refl) as (N1 & N2 & N3). split; auto.
      destruct N3 as [N3|N3]; [now left|right; eauto].
  - destruct K as (P & m1 & x & Hm & Ed & ->). apply Hput. cbn [so_far]. apply served_more. exact Hso.
  - destruct K.
Qed.

Lemma step_tinv : forall pre m a m', minv m -> permitted e s v0 m a -> mstep e a m = Ok m' -> a <> Leave t -> tinv pre m ->
  tinv (pre ++ [(m, a)]) m'.
Proof.
  intros pre m a m' HI Hp E Hnl (k & Hk & El & Ez & Hso).
  assert (Hkeep : m_call m' t = m_call m t -> tinv (pre ++ [(m, a)]) m').
  { intros Eq. exists k. rewrite Eq. split; auto. split; auto. split; auto. apply so_far_more; auto. }
  destruct a as [u l z|u an|u|o|id]; cbn [mstep] in E; cbn [permitted] in Hp.
  - injection E as <-. apply Hkeep. cbn. unfold set_call. destruct (t =? u) eqn:Et; auto. apply Z.eqb_eq in Et. subst u. destruct Hp. congruence.
  - destruct (Z.eq_dec u t) as [->|Hne].
    + rewrite Hk in E. eapply advance_tinv; eauto.
    + destruct (m_call m u) as [k'|] eqn:Hk'; [|discriminate E]. apply Hkeep.
      pose proof (advance_took _ _ _ _ _ HI Hk' E) as K. unfold took in K. destruct (mi_call _ HI u k' Hk') as [Hpu _]. unfold phase_ok in Hpu.
      assert (Hoth : forall mm p, m_call (with_call mm u p) t = m_call mm t).
      { intros mm p. cbn. unfold set_call. replace (t =? u) with false by lia. reflexivity. }
      destruct (k_phase k') as [lo|o id|o id a|g] eqn:Ep.
      * destruct K as [(o & id & P & -> & _)|(-> & _)]; apply Hoth.
      * destruct K as (P & m1 & x & Hm & Hle & Ed & K). destruct (malloc_inv _ _ _ _ _ _ _ _ HI Hk' Ep Ed) as (_ & _ & EC & _).
        destruct K as [(a & _ & ->)|(_ & ->)]; rewrite Hoth, EC; reflexivity.
      * destruct K as (P & m1 & x & Hm & Ed & ->). destruct (fill_inv _ _ _ _ _ _ _ _ HI Hk' Ep Ed) as (_ & _ & EC & _). rewrite Hoth, EC. reflexivity.
      * destruct K.
  - injection E as <-. apply Hkeep. cbn. unfold set_call. destruct (t =? u) eqn:Et; auto. apply Z.eqb_eq in Et. subst u. now destruct Hnl.
  - destruct (do_op e m o) as [[m1 x]| |] eqn:Ed; cbn [bind] in E; try discriminate E. injection E as <-. cbn [fst]. apply Hkeep.
    unfold do_op in Ed. destruct (run1 e o (m_w m)) as [[w y]| |]; cbn [bind] in Ed; try discriminate Ed. injection Ed as <- _. reflexivity.
  - destruct Hp as (P & Hl). rewrite Hl in E. destruct (set_add_pool (m_S m) id P) as [[r er] S']. injection E as <-. apply Hkeep. reflexivity.
Qed.

Lemma run_tinv : forall m tr m', run e s v0 m tr m' -> minv m -> stays t tr -> forall pre, tinv pre m -> tinv (pre ++ tr) m'.
Proof.
  induction 1 as [m|m a m1 tr m2 Hp E _ IH]; intros HI Hst pre Ht; [now rewrite app_nil_r|].
  replace (pre ++ (m, a) :: tr) with ((pre ++ [(m, a)]) ++ tr) by (rewrite <- app_assoc; reflexivity).
  apply IH; [eapply mstep_inv; eauto|intros m' a' Hin; apply (Hst m' a'); now right|].
  eapply step_tinv; eauto. apply (Hst m a). now left.
Qed.

Lemma begin_tinv : forall m, tinv [] (with_call m t (Some {| k_len := len; k_zero := zero; k_phase := Looking (set_min_order e len) |})).
Proof.
  intros m. eexists. cbn [with_call m_call]. unfold set_call. rewrite Z.eqb_refl. split; [reflexivity|]. cbn [k_len k_zero k_phase so_far].
  split; auto. split; auto. intros o' H1 H2. pose proof (min_order_range len Hlen).
  pose proof (min_order_spec e len o' Hlen ltac:(lia) H2) as K. apply in_zseq in K. lia.
Qed.

Lemma size_class : forall z, (exists o, wlog e <= o < word_bits (e_wide e) /\ z = 2 ^ o) \/ ~ exists o, wlog e <= o < word_bits (e_wide e) /\ z = 2 ^ o.
Proof.
  intros z. pose proof (wlog_range e) as Hwl. destruct (Z.eq_dec z (2 ^ Z.log2 z)) as [E|E].
  - destruct (Z_le_gt_dec (wlog e) (Z.log2 z)); [destruct (Z_lt_ge_dec (Z.log2 z) (word_bits (e_wide e)))|].
    + left. eauto.
    + right. intros (o & Ho & ->). rewrite Z.log2_pow2 in *; lia.
    + right. intros (o & Ho & ->). rewrite Z.log2_pow2 in *; lia.
  - right. intros (o & Ho & ->). apply E. rewrite Z.log2_pow2; lia.
Qed.
Lemma lacked_all : forall pre b, (exists m a, In (m, a) pre) -> (forall m a, In (m, a) pre -> minv m) ->
  (forall o', wlog e <= o' < b -> len <= 2 ^ o' -> lacked e t (2 ^ o') pre) ->
  forall z, len <= z -> (z < 2 ^ b \/ word_bits (e_wide e) <= b) -> lacked e t z pre.
Proof.
  intros pre b (m & a & Hin) Hinv H z Hz Hb. pose proof (wlog_range e) as Hwl. destruct (size_class z) as [(o & Ho & ->)|Hn].
  - apply H; auto. destruct Hb as [Hb|Hb]; [|lia]. split; [lia|]. apply (Z.pow_lt_mono_r_iff 2); try lia.
    destruct (Z_lt_ge_dec b 0); [rewrite (Z.pow_neg_r 2 b) in Hb by lia; lia|lia].
  - exists m, a. split; auto. intros o id P Hm E. exfalso. apply Hn. exists o.
    destruct (member_len e s v0 _ _ _ _ _ _ _ (mi_hist _ (Hinv _ _ Hin)) (mi_set _ (Hinv _ _ Hin)) Hm) as [EL [Ho _]]. split; auto. congruence.
Qed.

Lemma p_conc_served : forall m0 tr m g, reachable e s v0 m0 -> run e s v0 m0 ((m0, Begin t len zero) :: tr) m -> stays t tr -> returns m t g ->
  match g with
  | Got a => exists tr1 m1 an tr2 o id P w1, tr = tr1 ++ (m1, Advance t an) :: tr2 /\
      member (m_S m1) (m_w m1) o id P /\ len <= item_len P /\
      run1 e (OMalloc id an) (m_w m1) = Ok (w1, OutItem a) /\ ~ In (id, a) (m_L m1) /\
      forall z, len <= z < item_len P -> lacked e t z tr1
  | Null err => err = ENOMEM /\ forall z, len <= z -> lacked e t z tr
  end.
Proof.
  intros m0 tr m g HR Hrun Hst (k & Hk & Eg). inversion Hrun as [|? ? m1 ? ? Hp E Hrun']; subst.
  pose proof (reachable_inv _ HR) as HI. assert (HI1 : minv m1) by (eapply mstep_inv; eauto). cbn [mstep] in E. injection E as E.
  destruct (run_inv _ _ _ Hrun' HI1) as [_ Hall].
  assert (Ht : tinv ([] ++ tr) m).
  { eapply run_tinv; eauto. rewrite <- E. apply begin_tinv. }
  cbn [app] in Ht. destruct Ht as (k' & Hk' & _ & _ & Hso). rewrite Hk in Hk'. injection Hk' as <-. rewrite Eg in Hso. cbn [so_far] in Hso.
  destruct g as [a|err].
  - destruct Hso as (p1 & m2 & an & p2 & o & id & P & w1 & -> & Hm & Hle & R & Hn & Hsome & Hl).
    exists p1, m2, an, p2, o, id, P, w1. split; auto. split; auto. split; auto. split; auto. split; auto.
    intros z [Hz1 Hz2]. apply (lacked_all p1 o); auto.
    + intros m' a' Hin. apply (Hall m' a'). apply in_or_app. auto.
    + left. destruct (Hall m2 (Advance t an)) as [HI2 _]; [apply in_or_app; right; now left|].
      destruct (member_len e s v0 _ _ _ _ _ _ _ (mi_hist _ HI2) (mi_set _ HI2) Hm) as [EL _]. lia.
  - destruct Hso as (-> & Hsome & Hl). split; auto. intros z Hz. apply (lacked_all tr (word_bits (e_wide e))); auto; [|right; lia].
    intros m' a' Hin. apply (Hall m' a' Hin).
Qed.

(** ** The number of steps *)
Definition rank (m : machine) : Z :=
  match m_call m t with
  | Some k => match k_phase k with Looking lo => 2 * (word_bits (e_wide e) - lo) + 2 | Taking o _ => 2 * (word_bits (e_wide e) - o) + 1 | Filling _ _ _ => 1 | Returned _ => 0 end
  | None => 0
  end.
Lemma rank_pos : forall m, minv m -> 0 <= rank m.
Proof.
  intros m HI. unfold rank. destruct (m_call m t) as [k|] eqn:Hk; [|lia]. destruct (mi_call _ HI t k Hk) as [Hp _]. unfold phase_ok in Hp.
  destruct (k_phase k); lia.
Qed.
Lemma rank_with : forall m k, rank (with_call m t (Some k)) =
  match k_phase k with Looking lo => 2 * (word_bits (e_wide e) - lo) + 2 | Taking o _ => 2 * (word_bits (e_wide e) - o) + 1 | Filling _ _ _ => 1 | Returned _ => 0 end.
Proof. intros m k. unfold rank. cbn. unfold set_call. rewrite Z.eqb_refl. reflexivity. Qed.
Lemma rank_down : forall m k an m', minv m -> m_call m t = Some k -> advance e m t k an = Ok m' -> rank m' < rank m.
Proof.
  intros m k an m' HI Hk E. pose proof (advance_took _ _ _ _ _ HI Hk E) as K. unfold took in K.
  destruct (mi_call _ HI t k Hk) as [Hp _]. unfold phase_ok in Hp. unfold rank at 2. rewrite Hk.
  destruct (k_phase k) as [lo|o id|o id a|g].
  - destruct K as [(o & id & P & -> & Ho & _)|(-> & _)]; rewrite rank_with; cbn [at_phase k_phase]; lia.
  - destruct K as (P & m1 & x & _ & _ & _ & [(a & _ & ->)|(_ & ->)]); rewrite rank_with; cbn [at_phase k_phase]; lia.
  - destruct K as (P & m1 & x & _ & _ & ->). rewrite rank_with. cbn [at_phase k_phase]. lia.
  - destruct K.
Qed.
Lemma steps_rank : forall m tr m', run e s v0 m tr m' -> minv m -> stays t tr -> (exists k, m_call m t = Some k) ->
  steps_of t tr + rank m' <= rank m.
Proof.
  induction 1 as [m|m a m1 tr m2 Hp E Hr IH]; intros HI Hst Hk; [cbn; lia|].
  assert (HI1 : minv m1) by (eapply mstep_inv; eauto). destruct Hk as (k & Hk).
  assert (Hst' : stays t tr) by (intros m' a' Hin; apply (Hst m' a'); now right).
  assert (Hnl : a <> Leave t) by (apply (Hst m a); now left).
  assert (Hk1 : exists k1, m_call m1 t = Some k1 /\ ((forall an, a <> Advance t an) -> k1 = k)).
  { destruct a as [u l z|u an|u|o|id]; cbn [mstep] in E; cbn [permitted] in Hp.
    - injection E as <-. cbn. unfold set_call. destruct (t =? u) eqn:Et; [|eauto]. apply Z.eqb_eq in Et. subst u. destruct Hp. congruence.
    - destruct (m_call m u) as [k'|] eqn:Hk'; [|discriminate E].
      pose proof (advance_took _ _ _ _ _ HI Hk' E) as K. unfold took in K.
      assert (Hoth : forall mm p, m_call mm = m_call m -> exists k1, m_call (with_call mm u (Some p)) t = Some k1 /\ ((forall an0, Advance u an <> Advance t an0) -> k1 = k)).
      { intros mm p Em. cbn. unfold set_call. destruct (t =? u) eqn:Et.
        - exists p. split; auto. intros Hne. apply Z.eqb_eq in Et. subst u. exfalso. apply (Hne an). reflexivity.
        - exists k. rewrite Em. auto. }
      destruct (k_phase k') as [lo|o id|o id a|g] eqn:Ep.
      + destruct K as [(o & id & P & -> & _)|(-> & _)]; apply Hoth; reflexivity.
      + destruct K as (P & m1' & x & Hm & Hle & Ed & K). destruct (malloc_inv _ _ _ _ _ _ _ _ HI Hk' Ep Ed) as (_ & _ & EC & _).
        destruct K as [(a & _ & ->)|(_ & ->)]; apply Hoth; exact EC.
      + destruct K as (P & m1' & x & Hm & Ed & ->). destruct (fill_inv _ _ _ _ _ _ _ _ HI Hk' Ep Ed) as (_ & _ & EC & _). apply Hoth; exact EC.
      + destruct K.
    - injection E as <-. cbn. unfold set_call. destruct (t =? u) eqn:Et; [|eauto]. apply Z.eqb_eq in Et. subst u. now destruct Hnl.
    - destruct (do_op e m o) as [[m1' x]| |] eqn:Ed; cbn [bind] in E; try discriminate E. injection E as <-. cbn [fst].
      unfold do_op in Ed. destruct (run1 e o (m_w m)) as [[w y]| |]; cbn [bind] in Ed; try discriminate Ed. injection Ed as <- _. eauto.
    - destruct Hp as (P & Hl). rewrite Hl in E. destruct (set_add_pool (m_S m) id P) as [[r er] S']. injection E as <-. eauto. }
  destruct Hk1 as (k1 & Hk1 & Hsame). specialize (IH HI1 Hst' (ex_intro _ k1 Hk1)).
  assert (Hother : (forall an, a <> Advance t an) -> rank m1 = rank m).
  { intros Hne. unfold rank. rewrite Hk, Hk1, (Hsame Hne). reflexivity. }
  destruct a as [u l z|u an|u|o|id]; cbn [steps_of]; try (rewrite <- Hother by (intros; discriminate); lia).
  destruct (Z.eqb_spec u t) as [->|Hne].
  - cbn [mstep] in E. rewrite Hk in E. pose proof (rank_down _ _ _ _ HI Hk E). lia.
  - rewrite <- Hother by (intros an0 Eq; injection Eq; congruence). lia.
Qed.
Lemma p_conc_steps : forall m0 tr m, reachable e s v0 m0 -> run e s v0 m0 ((m0, Begin t len zero) :: tr) m -> stays t tr -> steps_of t tr <= if e_wide e then 124 else 62.
Proof.
  intros m0 tr m HR Hrun Hst. inversion Hrun as [|? ? m1 ? ? Hp E Hrun']; subst.
  pose proof (reachable_inv _ HR) as HI. assert (HI1 : minv m1) by (eapply mstep_inv; eauto). cbn [mstep] in E. injection E as E.
  assert (Hk : exists k, m_call m1 t = Some k) by (rewrite <- E; cbn; unfold set_call; rewrite Z.eqb_refl; eauto).
  pose proof (steps_rank _ _ _ Hrun' HI1 Hst Hk) as K. destruct (run_inv _ _ _ Hrun' HI1) as [HI2 _]. pose proof (rank_pos _ HI2).
  assert (E1 : rank m1 = 2 * (word_bits (e_wide e) - set_min_order e len) + 2) by (rewrite <- E; apply rank_with).
  pose proof (min_order_range len Hlen) as R. clear - K E1 R H. unfold wlog in R. destruct (e_wide e); cbn [word_bits] in *; lia.
Qed.
End Conc.

(** ** Contents and safety *)
Lemma p_conc_history : forall e s v0 m, reachable e s v0 m -> history e s v0 (m_w m) (m_L m) (m_F m) /\ set_ok (m_S m) (m_w m).
Proof. intros e s v0 m H. pose proof (reachable_inv _ _ _ _ H) as HI. split; [apply (mi_hist _ _ _ _ HI)|apply (mi_set _ _ _ _ HI)]. Qed.

Lemma p_conc_content : forall e s v0 m t an m' a k, reachable e s v0 m -> permitted e s v0 m (Advance t an) -> mstep e (Advance t an) m = Ok m' ->
  m_call m' t = Some k -> k_phase k = Returned (Got a) ->
  exists o id P, member (m_S m') (m_w m') o id P /\ In (id, a) (m_L m') /\ k_len k <= item_len P /\
    (k_zero k = true -> forall cpu j, 0 <= cpu < max_nr_cpus (pattr P) -> 0 <= j < item_len P ->
       byte (view e (w_vm (m_w m'))) (percpu_ptr P a cpu + j) = 0).
Proof.
  intros e s v0 m t an m' a k HR (k0 & Hk0 & Hnr) E Hk Ep. pose proof (reachable_inv _ _ _ _ HR) as HI. cbn [mstep] in E. rewrite Hk0 in E.
  pose proof (advance_took e s v0 _ _ _ _ _ HI Hk0 E) as K. unfold took in K.
  assert (Hw : forall m1 p, m' = with_call m1 t (Some (at_phase k0 p)) -> k = at_phase k0 p).
  { intros m1 p ->. cbn in Hk. unfold set_call in Hk. rewrite Z.eqb_refl in Hk. congruence. }
  destruct (mi_call _ _ _ _ HI t k0 Hk0) as [Hp _]. unfold phase_ok in Hp.
  destruct (k_phase k0) as [lo|o id|o id a0|g] eqn:Ep0.
  - destruct K as [(o & id & P & Em & _)|(Em & _)]; pose proof (Hw _ _ Em) as ->; cbn in Ep; discriminate Ep.
  - destruct K as (P & m1 & x & _ & _ & _ & [(a1 & _ & Em)|(_ & Em)]); pose proof (Hw _ _ Em) as ->; cbn in Ep; discriminate Ep.
  - destruct K as (P & m1 & x & Hm & Ed & Em). pose proof (Hw _ _ Em) as ->. cbn in Ep. injection Ep as ->.
    destruct (fill_inv e s v0 _ _ _ _ _ _ _ _ HI Hk0 Ep0 Ed) as (HI1 & ES & EC & R & EL & EF).
    destruct Hp as (H1 & H2 & H3 & H4). destruct Hm as [M1 M2].
    destruct (member_len e s v0 _ _ _ _ _ _ _ (mi_hist _ _ _ _ HI) (mi_set _ _ _ _ HI) (conj M1 M2)) as [ELn _].
    exists o, id, P. subst m'. cbn [with_call m_S m_w m_L at_phase k_len k_zero]. rewrite ES, EL.
    split; [split; auto; rewrite (fill_keeps e _ _ _ _ _ _ R); auto|]. split; auto. split; [lia|].
    intros Hz. rewrite Hz in R. cbn [content_of] in R. intros cpu j Hc Hj.
    apply (p_fill_zero e s v0 _ _ _ (mi_hist _ _ _ _ HI) id P a _ _ M2 H4 R cpu j Hc Hj).
  - exfalso. apply (Hnr g). reflexivity.
Qed.

Lemma p_conc_runs : forall e s v0 m t an, reachable e s v0 m -> permitted e s v0 m (Advance t an) ->
  (exists m', mstep e (Advance t an) m = Ok m') \/
  mstep e (Advance t an) m = Abort /\ exists o id P, member (m_S m) (m_w m) o id P /\ run1 e (OMalloc id an) (m_w m) = Abort.
Proof.
  intros e s v0 m t an HR (k & Hk & Hnr). pose proof (reachable_inv _ _ _ _ HR) as HI. cbn [mstep]. rewrite Hk. unfold advance.
  destruct (mi_call _ _ _ _ HI t k Hk) as [Hp _]. unfold phase_ok in Hp.
  destruct (k_phase k) as [lo|o id|o id a|g] eqn:Ep.
  - pose proof (find_fit_spec (k_len k) (m_w m) (m_S m) (zseq lo (POOL_SET_NR_ENTRIES e - lo)) (mi_set _ _ _ _ HI) (zseq_sorted _ _)) as K.
    destruct (find_fit _ _ _ _) as [[[o id]|]| |]; cbn [bind]; eauto; destruct K.
  - destruct Hp as (H1 & H2 & H3). destruct (mi_set _ _ _ _ HI _ _ H2) as (P & Hl & Eo). rewrite Hl.
    destruct (member_len e s v0 _ _ _ _ _ _ _ (mi_hist _ _ _ _ HI) (mi_set _ _ _ _ HI) (conj H2 Hl)) as [EL _].
    replace (item_len P <? k_len k) with false by lia. unfold do_op.
    pose proof (malloc_split e s v0 _ _ _ (mi_hist _ _ _ _ HI) id P Any (k_len k) an Hl Logic.I ltac:(lia)) as K.
    destruct (run1 e (OMalloc id an) (m_w m)) as [[w x]| |] eqn:R; cbn [bind].
    + left. destruct x; eauto.
    + right. split; auto. exists o, id, P. split; [split; auto|exact R].
    + destruct K.
  - left. destruct Hp as (H1 & H2 & H3 & H4). destruct (mi_set _ _ _ _ HI _ _ H2) as (P & Hl & Eo). unfold do_op.
    destruct (fill_run e s v0 _ _ _ (hist_inv _ _ _ _ _ _ (mi_hist _ _ _ _ HI)) id P a (content_of (k_zero k) None) (lookup_in _ _ _ Hl) H4 (content_any _ _)) as (w2 & r & E & _).
    rewrite E. cbn [bind]. eauto.
  - exfalso. apply (Hnr g). reflexivity.
Qed.
Lemma p_conc_no_alarm : forall e v0 m t an, reachable e true v0 m -> permitted e true v0 m (Advance t an) ->
  an_trim1 an = true -> an_trim2 an = true -> exists m', mstep e (Advance t an) m = Ok m'.
Proof.
  intros e v0 m t an HR Hp T1 T2. destruct (p_conc_runs e true v0 m t an HR Hp) as [H|(_ & o & id & P & [_ Hl] & R)]; auto. exfalso.
  destruct (p_conc_history _ _ _ _ HR) as [HH _].
  destruct (p_no_alarm e true v0 _ _ _ HH (OMalloc id an) eq_refl (ex_intro _ P Hl) (conj T1 T2)) as (w' & x & R'). congruence.
Qed.
