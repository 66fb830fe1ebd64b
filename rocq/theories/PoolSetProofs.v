(** Proofs about pool sets and attribute objects (PoolSetModel.v). *)
From Coq Require Import ZArith Bool List Lia Znumtheory Sorted.
From Verif Require Import UtilsModel UtilsLemmas RseqIR MemLemmas PoolVM PoolVMLemmas PoolModel PoolInv PoolItem PoolMap PoolRange PoolBitmap PoolOps PoolMalloc PoolFree PoolWorld PoolDestroy PoolCreate PoolHist PoolProps PoolProps2 PoolProps3 PoolProps4 PoolSetModel PoolSetSpec.
Import ListNotations.
Local Open Scope Z_scope.

Lemma zseq_sorted : forall a n, StronglySorted Z.lt (zseq a n).
Proof.
  intros a n. unfold zseq. generalize (Z.to_nat n) as k. intros k. generalize 0%nat as b. induction k as [|k IH]; intros b; cbn.
  - constructor.
  - constructor; [apply IH|]. apply Forall_forall. intros x Hx. apply in_map_iff in Hx. destruct Hx as (i & <- & Hi).
    apply in_seq in Hi. lia.
Qed.

Lemma lookup_set_same : forall id P l Q, lookup id l = Some Q -> lookup id (set_pool id P l) = Some P.
Proof.
  intros id P l Q. unfold lookup, set_pool. induction l as [|[j R] l IH]; cbn; [discriminate|].
  destruct (j =? id) eqn:E; cbn.
  - rewrite Z.eqb_refl. auto.
  - rewrite E. exact IH.
Qed.
Lemma lookup_set_other : forall id id' P l, id <> id' -> lookup id' (set_pool id P l) = lookup id' l.
Proof.
  intros id id' P l Hne. unfold lookup, set_pool. induction l as [|[j R] l IH]; cbn; auto.
  destruct (j =? id) eqn:E; cbn.
  - apply Z.eqb_eq in E. subst j. replace (id =? id') with false by lia. exact IH.
  - destruct (j =? id') eqn:E2; [reflexivity|exact IH].
Qed.
Lemma lookup_del_other : forall id id' l, id <> id' -> lookup id' (del_pool id l) = lookup id' l.
Proof.
  intros id id' l Hne. unfold lookup, del_pool. induction l as [|[j R] l IH]; cbn; auto.
  destruct (j =? id) eqn:E; cbn.
  - apply Z.eqb_eq in E. subst j. replace (id =? id') with false by lia. exact IH.
  - destruct (j =? id') eqn:E2; [reflexivity|exact IH].
Qed.

Section Sets.
Variable e : env.

Lemma fill_keeps : forall id a c w1 w2 x, run1 e (OFill id a c) w1 = Ok (w2, x) -> w_pools w2 = w_pools w1.
Proof.
  intros id a c w1 w2 x R. cbn [run1] in R. destruct (lookup id (w_pools w1)) as [Q|]; [|discriminate].
  destruct (find_range _ _) as [r|]; [|discriminate].
  destruct (fill_item e Q r (a - base r) c (w_vm w1)) as [v3| |]; cbn [bind] in R; try discriminate.
  injection R as <- _. reflexivity.
Qed.

(** ** Entries *)
Lemma member_unique : forall S w o id P, set_ok S w -> member S w o id P -> item_order P = o.
Proof. intros S w o id P H [H1 H2]. destruct (H o id H1) as (Q & HQ & E). congruence. Qed.

Lemma member_len : forall s v0 w L F S o id P, history e s v0 w L F -> set_ok S w -> member S w o id P ->
  item_len P = 2 ^ o /\ (wlog e <= o < word_bits (e_wide e) /\ 2 <= o).
Proof.
  intros s v0 w L F S o id P HH HS Hm. pose proof (member_unique _ _ _ _ _ HS Hm) as E. destruct Hm as [_ Hl].
  pose proof (wi_pools _ _ _ _ _ _ (hist_inv _ _ _ _ _ _ HH) _ _ (lookup_in _ _ _ Hl)) as HI.
  pose proof (pi_geom _ _ _ _ _ HI) as HG. destruct (g_stride _ _ HG) as (so & H1 & H2 & H3 & H4).
  pose proof (g_item _ _ HG). pose proof (g_order _ _ HG). subst o. lia.
Qed.

Lemma p_set_add : forall s v0 w L F S id P, history e s v0 w L F -> set_ok S w -> lookup id (w_pools w) = Some P ->
  ((exists o id' P', member S w o id' P' /\ item_len P' = item_len P) -> set_add_pool S id P = (-1, Some EBUSY, S)) /\
  ((forall o id' P', member S w o id' P' -> item_len P' <> item_len P) ->
   exists S', set_add_pool S id P = (0, None, S') /\ set_ok S' w /\
     (forall o id' P', member S' w o id' P' <-> member S w o id' P' \/ o = item_order P /\ id' = id /\ P' = P)).
Proof.
  intros s v0 w L F S id P HH HS Hl.
  pose proof (pi_geom _ _ _ _ _ (wi_pools _ _ _ _ _ _ (hist_inv _ _ _ _ _ _ HH) _ _ (lookup_in _ _ _ Hl))) as HG.
  assert (K : forall o id' P', member S w o id' P' -> item_len P' = item_len P -> o = item_order P).
  { intros o id' P' Hm E. destruct (member_len _ _ _ _ _ _ _ _ _ HH HS Hm) as [E1 E2]. pose proof (g_item _ _ HG).
    pose proof (g_order _ _ HG). apply (Z.pow_inj_r 2); lia. }
  split.
  - intros (o & id' & P' & Hm & E). unfold set_add_pool. rewrite <- (K _ _ _ Hm E). destruct Hm as [-> _]. reflexivity.
  - intros Hno. unfold set_add_pool. destruct (S (item_order P)) as [id'|] eqn:E.
    + exfalso. destruct (HS _ _ E) as (P' & Hl' & Eo). apply (Hno (item_order P) id' P'); [split; auto|].
      destruct (member_len _ _ _ _ _ _ _ _ _ HH HS (conj E Hl')) as [-> _]. rewrite (g_item _ _ HG). reflexivity.
    + eexists. split; [reflexivity|]. split.
      * intros o i Hi. destruct (o =? item_order P) eqn:Eo.
        -- apply Z.eqb_eq in Eo. injection Hi as <-. exists P. auto.
        -- apply HS. exact Hi.
      * intros o i Q. unfold member. destruct (o =? item_order P) eqn:Eo.
        -- apply Z.eqb_eq in Eo. subst o. rewrite E. split.
           ++ intros [Hi Hq]. injection Hi as <-. rewrite Hl in Hq. injection Hq as <-. auto.
           ++ intros [[Hi _]|(_ & -> & ->)]; [discriminate|auto].
        -- split; [auto|]. intros [H|(Ho & _)]; [exact H|lia].
Qed.

(** ** Allocation *)
Lemma set_malloc_loop : forall S c len ans os s v0 w L F,
  history e s v0 w L F -> set_ok S w -> StronglySorted Z.lt os ->
  (forall o id P, member S w o id P -> len <= item_len P -> content_fits P c) ->
  match set_malloc_from e os S c len ans w with
  | Ok (Got a, w') => exists o id P, In o os /\ member S w o id P /\ len <= item_len P /\
      (forall o' id' P', In o' os -> o' < o -> member S w o' id' P' -> len <= item_len P' -> no_room e s v0 L F id' P' (ans o')) /\
      history e s v0 w' ((id, a) :: L) (filter (fun i => negb (same_item i (id, a))) F) /\ set_ok S w' /\
      (forall cpu, 0 <= cpu < max_nr_cpus (pattr P) -> holds e P c (w_vm w') a cpu)
  | Ok (Null err, w') => err = ENOMEM /\
      (forall o' id' P', In o' os -> member S w o' id' P' -> len <= item_len P' -> no_room e s v0 L F id' P' (ans o')) /\
      history e s v0 w' L F /\ set_ok S w'
  | Abort => exists o id P w1, In o os /\ member S w1 o id P /\ history e s v0 w1 L F /\
      run1 e (OMalloc id (ans o)) w1 = Abort
  | Undef => False
  end.
Proof.
  intros S c len ans os. induction os as [|o os IH]; intros s v0 w L F HH HS Hso Hc; cbn [set_malloc_from].
  - split; auto. split; [intros o' id' P' []|]. auto.
  - inversion Hso as [|? ? Hso' Hlt]; subst. rewrite Forall_forall in Hlt.
    destruct (S o) as [id|] eqn:ES.
    2:{ pose proof (IH s v0 w L F HH HS Hso' Hc) as K. destruct (set_malloc_from e os S c len ans w) as [[[a|err] w']| |]; auto.
        - destruct K as (o1 & id & P & H1 & H2 & H3 & H4 & H5). exists o1, id, P. split; [now right|]. split; auto. split; auto.
          split; auto. intros o' id' P' [->|Hin] Ho' Hm Hl; [destruct Hm; congruence|]. eapply H4; eauto.
        - destruct K as (H1 & H2 & H3). split; auto. split; auto. intros o' id' P' [->|Hin] Hm Hl; [destruct Hm; congruence|].
          eapply H2; eauto.
        - destruct K as (o1 & id & P & w1 & H1 & H2 & H3). exists o1, id, P, w1. split; [now right|]. auto. }
    destruct (HS _ _ ES) as (P & Hl & Eo). rewrite Hl.
    destruct (len <=? item_len P) eqn:El.
    2:{ pose proof (IH s v0 w L F HH HS Hso' Hc) as K. destruct (set_malloc_from e os S c len ans w) as [[[a|err] w']| |]; auto.
        - destruct K as (o1 & id1 & P1 & H1 & H2 & H3 & H4 & H5). exists o1, id1, P1. split; [now right|]. split; auto. split; auto.
          split; auto. intros o' id' P' [<-|Hin] Ho' Hm Hl'; [|eapply H4; eauto]. destruct Hm as [E1 E2]. rewrite ES in E1.
          injection E1 as <-. rewrite Hl in E2. injection E2 as <-. lia.
        - destruct K as (H1 & H2 & H3). split; auto. split; auto. intros o' id' P' [<-|Hin] Hm Hl'; [|eapply H2; eauto].
          destruct Hm as [E1 E2]. rewrite ES in E1. injection E1 as <-. rewrite Hl in E2. injection E2 as <-. lia.
        - destruct K as (o1 & id1 & P1 & w1 & H1 & H2 & H3). exists o1, id1, P1, w1. split; [now right|]. auto. }
    apply Z.leb_le in El.
    assert (Hm0 : member S w o id P) by (split; auto). pose proof (Hc _ _ _ Hm0 El) as Hcp.
    pose proof (p_call e s v0 w L F HH id P c len (ans o) Hl Hcp El) as K.
    pose proof (malloc_content e s v0 w L F HH id P c len (ans o)) as Kc.
    destruct (percpu_malloc e P c len (ans o) (w_vm w)) as [[[[a|err] P1] v1]| |] eqn:Ep; [| | |destruct K].
    + cbn [bind]. destruct K as (w1 & w2 & R1 & R2 & Lk & Ev).
      assert (Ew : w2 = with_pool w id P1 v1).
      { cbn [run1] in R1, R2. rewrite Hl in R1.
        destruct (malloc_locked e P (ans o) (w_vm w)) as [[[[[[r of] a']|] P2] v2]| |]; cbn [bind] in R1; try discriminate.
        injection R1 as <- <-. cbn [w_pools w_vm] in R2. rewrite (lookup_set_same _ _ _ _ Hl) in R2.
        destruct (find_range (range_list P2) (free_base e a' (stride (pattr P2)))) as [r'|]; [|discriminate].
        destruct (fill_item e P2 r' (a' - base r') c v2) as [v3| |]; cbn [bind] in R2; try discriminate.
        injection R2 as <-. cbn [w_pools w_vm] in Lk, Ev. rewrite (lookup_set_same _ _ _ _ Hl) in Lk. injection Lk as <-.
        subst v3. reflexivity. }
      subst w2.
      assert (HH1 : history e s v0 w1 ((id, a) :: L) (filter (fun i => negb (same_item i (id, a))) F)).
      { pose proof (hist_step e s v0 w L F (OMalloc id (ans o)) w1 (OutItem a) HH (ex_intro _ P Hl) R1) as K. exact K. }
      assert (Hsame : same P P1).
      { pose proof (malloc_split e s v0 w L F HH id P c len (ans o) Hl Hcp El) as Ks. rewrite R1 in Ks.
        destruct Ks as (w2 & P2 & _ & _ & Hsame & Epp). rewrite Ep in Epp. injection Epp as <- _. exact Hsame. }
      assert (Hl1 : exists Q, lookup id (w_pools w1) = Some Q /\ item_len Q = item_len P).
      { exists P1. rewrite <- (fill_keeps _ _ _ _ _ _ R2). split; [exact Lk|]. apply Hsame. }
      destruct Hl1 as (Q & HQ & EQ).
      assert (HH2 : history e s v0 (with_pool w id P1 v1) ((id, a) :: L) (filter (fun i => negb (same_item i (id, a))) F)).
      { pose proof (hist_step e s v0 w1 _ _ (OFill id a c) (with_pool w id P1 v1) OutUnit HH1) as K. apply K; [|exact R2].
        exists Q. split; auto. split; [now left|]. destruct c; auto. cbn in *. rewrite EQ. exact Hcp. }
      exists o, id, P. split; [now left|]. split; auto. split; auto. split.
      { intros o' id' P' [<-|Hin] Ho'; [lia|]. specialize (Hlt _ Hin). lia. }
      split; [exact HH2|]. split.
      { intros o' id' Hi. destruct (HS _ _ Hi) as (P' & Hl' & Eo'). cbn [w_pools with_pool].
        destruct (Z.eq_dec id id') as [<-|Hne].
        - exists P1. rewrite (lookup_set_same _ _ _ _ Hl). split; auto.
          assert (P' = P) by congruence. subst P'.
          rewrite <- Eo'. apply Hsame.
        - exists P'. rewrite lookup_set_other by auto. auto. }
      { intros cpu Hcpu. exact (Kc a P1 v1 Hl Hcp El eq_refl cpu Hcpu). }
    + cbn [bind]. destruct K as (-> & w1 & R1 & Lk & Ev).
      replace (ENOMEM =? ENOMEM) with true by reflexivity.
      destruct (p_null e s v0 w L F HH id P (ans o) w1 OutNull Hl R1 eq_refl) as (N1 & N2 & N3).
      assert (Ew : w1 = with_pool w id P1 v1).
      { cbn [run1] in R1. rewrite Hl in R1.
        destruct (malloc_locked e P (ans o) (w_vm w)) as [[[[[[r of] a']|] P2] v2]| |]; cbn [bind] in R1; try discriminate.
        injection R1 as <-. cbn [w_pools w_vm] in Lk, Ev. rewrite (lookup_set_same _ _ _ _ Hl) in Lk. injection Lk as <-.
        subst v2. reflexivity. }
      subst w1. rewrite N2 in Lk. injection Lk as <-.
      assert (HH1 : history e s v0 (with_pool w id P v1) L F).
      { pose proof (hist_step e s v0 w L F (OMalloc id (ans o)) (with_pool w id P v1) OutNull HH (ex_intro _ P Hl) R1) as K. exact K. }
      assert (Hlk : forall id', lookup id' (w_pools (with_pool w id P v1)) = lookup id' (w_pools w)).
      { intros id'. cbn [w_pools with_pool]. destruct (Z.eq_dec id id') as [<-|Hne].
        - rewrite (lookup_set_same _ _ _ _ Hl). auto.
        - apply lookup_set_other; auto. }
      assert (HS1 : set_ok S (with_pool w id P v1)) by (intros o' id' Hi; rewrite Hlk; apply HS; auto).
      assert (Hmem : forall o' id' P', member S (with_pool w id P v1) o' id' P' <-> member S w o' id' P').
      { intros o' id' P'. unfold member. rewrite Hlk. tauto. }
      assert (Hnr : no_room e s v0 L F id P (ans o)).
      { split; auto. destruct N3 as [N3|N3]; [now left|]. right. exists w. auto. }
      assert (Hhead : forall o' id' P', o' = o -> member S w o' id' P' -> no_room e s v0 L F id' P' (ans o')).
      { intros o' id' P' -> [E1 E2]. rewrite ES in E1. injection E1 as <-. rewrite Hl in E2. injection E2 as <-. exact Hnr. }
      pose proof (IH s v0 (with_pool w id P v1) L F HH1 HS1 Hso') as K.
      assert (Hc1 : forall o0 id0 P0, member S (with_pool w id P v1) o0 id0 P0 -> len <= item_len P0 -> content_fits P0 c).
      { intros o0 id0 P0 Hm. apply Hmem in Hm. eapply Hc; eauto. }
      specialize (K Hc1). clear IH.
      destruct (set_malloc_from e os S c len ans (with_pool w id P v1)) as [[[a|err] w']| |]; auto.
      * destruct K as (o1 & id1 & P1 & H1 & H2 & H3 & H4 & H5). exists o1, id1, P1. apply Hmem in H2.
        split; [now right|]. split; auto. split; auto. split; auto. intros o' id' P' [<-|Hin] Ho' Hm Hl'; [now apply (Hhead o)|].
        apply (H4 o'); auto. now apply Hmem.
      * destruct K as (H1 & H2 & H3). split; auto. split; auto. intros o' id' P' [<-|Hin] Hm Hl'; [now apply (Hhead o)|].
        apply (H2 o'); auto. now apply Hmem.
      * destruct K as (o1 & id1 & P1 & w1 & H1 & H2 & H3). exists o1, id1, P1, w1. split; [now right|]. auto.
    + cbn [bind]. exists o, id, P, w. split; [now left|]. auto.
Qed.

Lemma min_order_spec : forall len o, 0 <= len < wmax e -> wlog e <= o < word_bits (e_wide e) -> len <= 2 ^ o -> In o (zseq (set_min_order e len) (word_bits (e_wide e) - set_min_order e len)).
Proof.
  intros len o Hlen Ho Hl. unfold set_min_order. change (POOL_SET_MIN_ENTRY e) with (wlog e). pose proof (wlog_range e) as Hwl. pose proof (wb_range (e_wide e)) as Hwb.
  destruct (count_order_full (e_wide e) len) as [H0 H1]; [fold (wmax e); lia|].
  apply in_zseq. destruct (Z.eq_dec len 0) as [->|Hne].
  - rewrite H0 by reflexivity. replace (wlog e <? -1) with false by lia. lia.
  - destruct (H1 Hne) as (H2 & H3 & H4). specialize (H4 o ltac:(lia) Hl).
    destruct (wlog e <? rseq_get_count_order_ulong (e_wide e) len) eqn:E; lia.
Qed.

Lemma p_set_malloc : forall s v0 w L F, history e s v0 w L F -> forall S c len ans, set_ok S w -> 0 <= len < wmax e ->
  (forall o id P, member S w o id P -> len <= item_len P -> content_fits P c) ->
  match set_malloc e S c len ans w with
  | Ok (Got a, w') => exists o id P, member S w o id P /\ len <= item_len P /\
      (forall o' id' P', member S w o' id' P' -> len <= item_len P' -> item_len P' < item_len P ->
         no_room e s v0 L F id' P' (ans o')) /\
      history e s v0 w' ((id, a) :: L) (filter (fun i => negb (same_item i (id, a))) F) /\ set_ok S w' /\
      (forall cpu, 0 <= cpu < max_nr_cpus (pattr P) -> holds e P c (w_vm w') a cpu)
  | Ok (Null err, w') => err = ENOMEM /\
      (forall o' id' P', member S w o' id' P' -> len <= item_len P' -> no_room e s v0 L F id' P' (ans o')) /\
      history e s v0 w' L F /\ set_ok S w'
  | Abort => exists o id P w1, member S w1 o id P /\ history e s v0 w1 L F /\ run1 e (OMalloc id (ans o)) w1 = Abort
  | Undef => False
  end.
Proof.
  intros s v0 w L F HH S c len ans HS Hlen Hc. unfold set_malloc. change (POOL_SET_NR_ENTRIES e) with (word_bits (e_wide e)).
  pose proof (set_malloc_loop S c len ans (zseq (set_min_order e len) (word_bits (e_wide e) - set_min_order e len)) s v0 w L F HH HS (zseq_sorted _ _) Hc) as K.
  destruct (set_malloc_from e _ S c len ans w) as [[[a|err] w']| |]; auto.
  - destruct K as (o & id & P & H1 & H2 & H3 & H4 & H5). exists o, id, P. split; auto. split; auto. split; auto.
    intros o' id' P' Hm Hl' Hlt. destruct (member_len _ _ _ _ _ _ _ _ _ HH HS Hm) as [E1 E2].
    destruct (member_len _ _ _ _ _ _ _ _ _ HH HS H2) as [E3 E4].
    apply (H4 o'); auto; [apply min_order_spec; auto; lia|].
    destruct (Z_lt_le_dec o' o); auto. exfalso. rewrite E1, E3 in Hlt.
    assert (2 ^ o <= 2 ^ o') by (apply Z.pow_le_mono_r; lia). lia.
  - destruct K as (H1 & H2 & H3). split; auto. split; auto. intros o' id' P' Hm Hl'.
    destruct (member_len _ _ _ _ _ _ _ _ _ HH HS Hm) as [E1 E2]. apply (H2 o'); auto. apply min_order_spec; auto; lia.
  - destruct K as (o & id & P & w1 & _ & H). exists o, id, P, w1. exact H.
Qed.

(** ** A set over a history *)
Lemma free_in_order : forall P r ptr strd v P' v', free_in e P r ptr strd v = Ok (P', v') -> item_order P' = item_order P.
Proof.
  intros P r ptr strd v P' v' H. unfold free_in in H. destruct (clear_alloc_slot e P r _) as [r'| |]; cbn [bind] in H; try discriminate.
  destruct (if poison_set _ then _ else _) as [v1| |]; cbn [bind] in H; try discriminate.
  destruct (negb _); [discriminate|]. injection H as <- _. reflexivity.
Qed.
Lemma find_owner_in : forall l b i P r, find_owner l b = Some (i, P, r) -> In (i, P) l.
Proof.
  intros l b i P r. induction l as [|[j Q] l IH]; cbn [find_owner]; [discriminate|].
  destruct (find_range (range_list Q) b); intros H; [injection H as -> -> _; now left|right; auto].
Qed.
Lemma lookup_set_some : forall id P l id' Q, lookup id l <> None -> lookup id' l = Some Q -> item_order Q = item_order P \/ id <> id' ->
  exists Q', lookup id' (set_pool id P l) = Some Q' /\ item_order Q' = item_order Q.
Proof.
  intros id P l id' Q Hn Hl Ho. destruct (Z.eq_dec id id') as [<-|Hne].
  - exists P. rewrite (lookup_set_same _ _ _ _ Hl). split; auto. destruct Ho; [auto|contradiction].
  - exists Q. rewrite lookup_set_other by auto. auto.
Qed.

Lemma p_set_kept : forall s v0 w L F S o w' x, history e s v0 w L F -> set_ok S w -> allowed e s v0 w L o ->
  run1 e o w = Ok (w', x) -> (forall id an o', o = ODestroy id an -> S o' <> Some id) -> set_ok S w'.
Proof.
  intros s v0 w L F S o w' x HH HS Hok R Hd. pose proof (hist_inv _ _ _ _ _ _ HH) as HW.
  pose proof (hist_step e s v0 w L F o w' x HH Hok R) as HH'. pose proof (hist_inv _ _ _ _ _ _ HH') as HW'.
  intros o' id' Hi. destruct (HS _ _ Hi) as (Q & HQ & EQ).
  destruct o as [id named len at_ an|id an|id item c|ptr strd|ps|id an]; cbn [run1] in R; cbn [allowed] in Hok.
  - destruct (mempool_create e named len at_ an (w_vm w)) as [[[P|err] v]| |]; cbn [bind] in R; try discriminate;
      injection R as <- _; cbn [w_pools].
    + exists Q. split; auto. unfold lookup. cbn [find fst]. destruct (id =? id') eqn:E; [|exact HQ].
      apply Z.eqb_eq in E. subst id'. destruct Hok as [Hn _]. congruence.
    + exists Q. auto.
  - destruct Hok as (P & Hl). rewrite Hl in R.
    pose proof (malloc_locked_spec e P (items id F) (items id L) an (w_vm w) (wi_pools _ _ _ _ _ _ HW _ _ (lookup_in _ _ _ Hl)) (wi_wf _ _ _ _ _ _ HW)) as Hp.
    assert (K : forall P1, same P P1 -> exists P0, lookup id' (set_pool id P1 (w_pools w)) = Some P0 /\ item_order P0 = o').
    { intros P1 Hs. destruct (lookup_set_some id P1 (w_pools w) id' Q) as (Q' & H1 & H2); auto; [congruence| |].
      - destruct (Z.eq_dec id id') as [<-|]; auto. left. rewrite Hl in HQ. injection HQ as <-. symmetry. apply Hs.
      - exists Q'. split; auto. congruence. }
    destruct Hp as [Ef Ht|a free' Ef Hrob Hnp|a free' r off P' Ef Hpo Hsm Hr Ea Hdd Ho Hol Hnr Hg HI'
      |a r off P' v' Ef Hsm Hr Ea Hdd Ho Hol Hg HI' Hwf' Hfr|v' Ef Hfull Hwhy Hwf' Hfr]; cbn [bind] in R; try discriminate;
      injection R as <- _; cbn [w_pools]; apply K; auto using same_refl.
  - exists Q. rewrite (fill_keeps id item c w w' x); auto.
  - destruct Hok as (id & P & Hl & Ha & ->).
    destruct (find_owner (w_pools w) (free_base e ptr (stride (pattr P)))) as [[[i Pi] ri]|] eqn:Ef; [|discriminate].
    destruct (free_in e Pi ri ptr (stride (pattr P)) (w_vm w)) as [[P1 v1]| |] eqn:Efr; cbn [bind] in R; try discriminate.
    injection R as <- _. cbn [w_pools].
    assert (Ho1 : item_order P1 = item_order Pi) by (apply (free_in_order _ _ _ _ _ _ _ Efr)).
    pose proof (find_owner_in _ _ _ _ _ Ef) as Hin.
    assert (Hli : lookup i (w_pools w) = Some Pi) by (apply lookup_some; [apply (wi_ids _ _ _ _ _ _ HW)|exact Hin]).
    destruct (lookup_set_some i P1 (w_pools w) id' Q) as (Q' & H1 & H2); auto; [congruence| |exists Q'; split; auto; congruence].
    destruct (Z.eq_dec i id') as [<-|]; auto. left. rewrite Hli in HQ. injection HQ as <-. auto.
  - destruct (forallb _ ps); [|discriminate]. injection R as <- _. exists Q. auto.
  - destruct Hok as (P & Hl). rewrite Hl in R.
    destruct (mempool_destroy e P an (w_vm w)) as [[[ret P'] v]| |]; cbn [bind] in R; try discriminate. injection R as <- _.
    cbn [w_pools]. exists Q. rewrite lookup_del_other; auto. intros ->. apply (Hd id' an o'); auto.
Qed.

(** ** Destruction of the set *)
Lemma lookup_del_same : forall id l, lookup id (del_pool id l) = None.
Proof.
  intros id l. unfold lookup, del_pool. induction l as [|[j R] l IH]; cbn; auto.
  destruct (j =? id) eqn:E; cbn; [exact IH|]. rewrite E. exact IH.
Qed.

Lemma count_zero : forall id (M : ledger), (forall a, ~ In (id, a) M) -> count id M = 0.
Proof.
  intros id M. unfold count. induction M as [|[i a] M IH]; cbn; auto. intros H. destruct (i =? id) eqn:E.
  - apply Z.eqb_eq in E. subst i. exfalso. apply (H a). now left.
  - apply IH. intros b Hb. apply (H b). now right.
Qed.

Lemma set_destroy_loop : forall ans os S s v0 w L F, history e s v0 w L F -> set_ok S w -> NoDup os ->
  match set_destroy_from e os S ans w with
  | Ok (ret, S', w') => ret = 0 /\ exists L' F', history e s v0 w' L' F' /\
      (forall o, S' o = if in_dec Z.eq_dec o os then None else S o) /\
      (forall id, (exists o, In o os /\ S o = Some id) -> lookup id (w_pools w') = None /\ count id L' = 0 /\ count id F' = 0) /\
      (forall id, ~ (exists o, In o os /\ S o = Some id) -> lookup id (w_pools w') = lookup id (w_pools w)) /\
      (forall i, In i L' <-> In i L /\ ~ exists o, In o os /\ S o = Some (fst i)) /\
      (forall i, In i F' <-> In i F /\ ~ exists o, In o os /\ S o = Some (fst i))
  | Abort => exists o id P w1 L1 F1, In o os /\ S o = Some id /\ lookup id (w_pools w) = Some P /\
      history e s v0 w1 L1 F1 /\ lookup id (w_pools w1) = Some P /\ items id L1 = items id L /\ items id F1 = items id F /\
      run1 e (ODestroy id (ans o)) w1 = Abort
  | Undef => False
  end.
Proof.
  intros ans os. induction os as [|o os IH]; intros S s v0 w L F HH HS Hnd; cbn [set_destroy_from].
  - split; auto. exists L, F. split; auto. split; [intros o; destruct (in_dec Z.eq_dec o []) as [[]|]; auto|].
    split; [intros id (o & [] & _)|]. split; auto. split; (intros i; split; [intros H; split; auto; intros (o & [] & _)|intros [H _]; exact H]).
  - inversion Hnd as [|? ? Hno Hnd']; subst. destruct (S o) as [id|] eqn:ES.
    2:{ specialize (IH S s v0 w L F HH HS Hnd').
        assert (K : forall id, (exists o0, In o0 (o :: os) /\ S o0 = Some id) <-> exists o0, In o0 os /\ S o0 = Some id).
        { intros id. split; intros (o0 & Hin & E); exists o0; split; auto; [|now right]. destruct Hin as [<-|]; auto; congruence. }
        destruct (set_destroy_from e os S ans w) as [[[ret S'] w']| |]; auto.
        - destruct IH as (-> & L' & F' & H1 & H2 & H3 & H4 & H5 & H6). split; auto. exists L', F'. split; auto. split.
          + intros o0. rewrite H2. destruct (in_dec Z.eq_dec o0 os) as [Hi|Hi], (in_dec Z.eq_dec o0 (o :: os)) as [Hj|Hj]; auto.
            * exfalso. apply Hj. now right.
            * destruct Hj as [<-|Hj]; [auto|contradiction].
          + split; [intros id Hid; apply H3, K, Hid|]. split; [intros id Hid; apply H4; rewrite <- K; exact Hid|].
            split; intros i; rewrite K; auto.
        - destruct IH as (o1 & id & P & w1 & L1 & F1 & H1 & H2). exists o1, id, P, w1, L1, F1. split; auto. now right. }
    destruct (HS _ _ ES) as (P & Hl & Eo). rewrite Hl.
    assert (R : run1 e (ODestroy id (ans o)) w = do x <- mempool_destroy e P (ans o) (w_vm w);
        let '(ret, _, v) := x in Ok ({| w_vm := v; w_pools := del_pool id (w_pools w) |}, OutRet ret)).
    { cbn [run1]. rewrite Hl. reflexivity. }
    pose proof (mempool_destroy_spec e P (items id F) (items id L) (ans o) (w_vm w)
      (wi_pools _ _ _ _ _ _ (hist_inv _ _ _ _ _ _ HH) _ _ (lookup_in _ _ _ Hl)) (wi_wf _ _ _ _ _ _ (hist_inv _ _ _ _ _ _ HH))) as Hp.
    assert (Habort : mempool_destroy e P (ans o) (w_vm w) = Abort ->
      exists o0 id0 P0 w1 L1 F1, In o0 (o :: os) /\ S o0 = Some id0 /\ lookup id0 (w_pools w) = Some P0 /\
        history e s v0 w1 L1 F1 /\ lookup id0 (w_pools w1) = Some P0 /\ items id0 L1 = items id0 L /\ items id0 F1 = items id0 F /\
        run1 e (ODestroy id0 (ans o0)) w1 = Abort).
    { intros E. exists o, id, P, w, L, F. rewrite E in R. cbn [bind] in R. split; [now left|]. split; [exact ES|]. split; [exact Hl|]. split; [exact HH|]. auto. }
    destruct (mempool_destroy e P (ans o) (w_vm w)) as [[[ret Po] v']| |] eqn:Ed; cbn [bind] in R |- *; [|apply Habort; auto|inversion Hp].
    assert (ret = 0) by (inversion Hp; auto). subst ret. cbn [negb Z.eqb].
    set (w1 := {| w_vm := v'; w_pools := del_pool id (w_pools w) |}) in *.
    set (S1 := fun o' => if o' =? o then None else S o').
    pose proof (hist_step e s v0 w L F (ODestroy id (ans o)) w1 (OutRet 0) HH (ex_intro _ P Hl) R) as HH1.
    cbn [live_after freed_after] in HH1.
    assert (Huniq : forall o0, S o0 = Some id -> o0 = o).
    { intros o0 E. destruct (HS _ _ E) as (P0 & Hl0 & E0). congruence. }
    assert (HS1 : set_ok S1 w1).
    { intros o0 id0 E. unfold S1 in E. destruct (o0 =? o) eqn:Eo0; [discriminate|]. destruct (HS _ _ E) as (P0 & Hl0 & E0).
      exists P0. split; auto. cbn [w1 w_pools]. rewrite lookup_del_other; auto. intros ->. apply Huniq in E. lia. }
    assert (K : forall id0, (exists o0, In o0 (o :: os) /\ S o0 = Some id0) <-> id0 = id \/ exists o0, In o0 os /\ S1 o0 = Some id0).
    { intros id0. unfold S1. split.
      - intros (o0 & [<-|Hin] & E); [left; congruence|]. right. exists o0. split; auto. destruct (o0 =? o) eqn:Eo0; auto.
        apply Z.eqb_eq in Eo0. subst o0. contradiction.
      - intros [->|(o0 & Hin & E)]; [exists o; split; auto; now left|]. destruct (o0 =? o); [discriminate|]. exists o0. split; auto. now right. }
    assert (Kn : ~ exists o0, In o0 os /\ S1 o0 = Some id).
    { intros (o0 & Hin & E). unfold S1 in E. destruct (o0 =? o) eqn:Eo0; [discriminate|]. apply Huniq in E. lia. }
    assert (Kf : forall (M : ledger) i, In i (filter (fun i => negb (fst i =? id)) M) <-> In i M /\ fst i <> id).
    { intros M i. rewrite filter_In. destruct (fst i =? id) eqn:E; cbn; intuition lia. }
    specialize (IH S1 s v0 w1 _ _ HH1 HS1 Hnd').
    destruct (set_destroy_from e os S1 ans w1) as [[[ret S'] w']| |]; auto.
    + destruct IH as (-> & L' & F' & H1 & H2 & H3 & H4 & H5 & H6). split; auto. exists L', F'. split; auto. split.
      * intros o0. rewrite H2. unfold S1. destruct (in_dec Z.eq_dec o0 os) as [Hi|Hi], (in_dec Z.eq_dec o0 (o :: os)) as [Hj|Hj]; auto.
        -- exfalso. apply Hj. now right.
        -- destruct Hj as [<-|Hj]; [now rewrite Z.eqb_refl|contradiction].
        -- replace (o0 =? o) with false; auto. symmetry. apply Z.eqb_neq. intros ->. apply Hj. now left.
      * split; [|split; [|split]].
        -- intros id0 Hid. apply K in Hid. destruct Hid as [->|Hid]; [|apply H3, Hid]. rewrite (H4 id Kn). cbn [w1 w_pools].
           split; [apply lookup_del_same|].
           split; apply count_zero; intros a Ha; [apply H5 in Ha|apply H6 in Ha]; destruct Ha as [Ha _]; apply Kf in Ha; cbn in Ha; lia.
        -- intros id0 Hid. rewrite K in Hid. rewrite H4 by tauto. cbn [w1 w_pools]. apply lookup_del_other. intros ->. tauto.
        -- intros i. rewrite H5, Kf, K. tauto.
        -- intros i. rewrite H6, Kf, K. tauto.
    + destruct IH as (o1 & id1 & P1 & w2 & L1 & F1 & G1 & G2 & G3 & G4 & G5 & G6 & G7 & G8). unfold S1 in G2.
      destruct (o1 =? o) eqn:Eo1; [discriminate|].
      assert (Hne : id <> id1) by (intros ->; apply Huniq in G2; lia).
      exists o1, id1, P1, w2, L1, F1. split; [now right|]. split; auto. split.
      { cbn [w1 w_pools] in G3. now rewrite lookup_del_other in G3. }
      split; auto. split; auto. rewrite G6, G7, !items_del. replace (id1 =? id) with false by lia. auto.
Qed.
End Sets.

(** ** The public calls *)
Lemma p_served : forall e s v0 w L F, history e s v0 w L F -> forall S len ans, set_ok S w -> 0 <= len < wmax e ->
  forall zero, served e s v0 w L F S len ans zero (set_malloc e S (content_of zero None) len ans w).
Proof.
  intros e s v0 w L F HH S len ans HS Hlen zero.
  assert (Hc : forall o id P, member S w o id P -> len <= item_len P -> content_fits P (content_of zero None)) by (intros; destruct zero; exact Logic.I).
  pose proof (p_set_malloc e s v0 w L F HH S (content_of zero None) len ans HS Hlen Hc) as K.
  unfold served. destruct (set_malloc e S (content_of zero None) len ans w) as [[[a|err] w']| |]; auto.
  destruct K as (o & id & P & H1 & H2 & H3 & H4 & H5 & H6). exists o, id, P. repeat (split; [assumption|]).
  intros -> cpu k Hcpu Hk. exact (H6 cpu Hcpu k Hk).
Qed.
Lemma p_set_zmalloc_served : forall e s v0 w L F, history e s v0 w L F -> forall S len ans, set_ok S w -> 0 <= len < wmax e ->
  served e s v0 w L F S len ans true (set_percpu_zmalloc e S len ans w).
Proof. intros e s v0 w L F HH S len ans HS Hlen. apply (p_served e s v0 w L F HH S len ans HS Hlen true). Qed.
Lemma p_set_malloc_served : forall e s v0 w L F, history e s v0 w L F -> forall S len ans, set_ok S w -> 0 <= len < wmax e ->
  served e s v0 w L F S len ans false (set_percpu_malloc e S len ans w).
Proof. intros e s v0 w L F HH S len ans HS Hlen. apply (p_served e s v0 w L F HH S len ans HS Hlen false). Qed.
Lemma p_set_malloc_init_served : forall e s v0 w L F, history e s v0 w L F -> forall S bs ans, set_ok S w ->
  Z.of_nat (length bs) < wmax e ->
  served e s v0 w L F S (Z.of_nat (length bs)) ans true (set_percpu_malloc_init e S bs ans w).
Proof. intros e s v0 w L F HH S bs ans HS Hlen. assert (0 <= Z.of_nat (length bs) < wmax e) by lia. now apply (p_served e s v0 w L F HH S (Z.of_nat (length bs)) ans HS). Qed.

Lemma p_set_no_alarm : forall e v0 w L F, history e true v0 w L F -> forall S len ans, set_ok S w -> 0 <= len < wmax e ->
  (forall o, an_trim1 (ans o) = true /\ an_trim2 (ans o) = true) ->
  set_percpu_malloc e S len ans w <> Abort /\ set_percpu_zmalloc e S len ans w <> Abort.
Proof.
  intros e v0 w L F HH S len ans HS Hlen Ht.
  assert (K : forall zero, set_malloc e S (content_of zero None) len ans w <> Abort).
  { intros zero E. pose proof (p_served e true v0 w L F HH S len ans HS Hlen zero) as H. rewrite E in H.
    destruct H as (o & id & P & w1 & [_ Hl] & HH1 & R).
    destruct (p_no_alarm e true v0 w1 L F HH1 (OMalloc id (ans o)) eq_refl (ex_intro _ P Hl) (Ht o)) as (w' & x & R'). congruence. }
  split; [apply (K false)|apply (K true)].
Qed.

Lemma p_set_destroy : forall e s v0 w L F, history e s v0 w L F -> forall S ans, set_ok S w ->
  match set_destroy e S ans w with
  | Ok (ret, S', w') => ret = 0 /\ exists L' F', history e s v0 w' L' F' /\
      (forall id, in_set S id -> lookup id (w_pools w') = None) /\
      (forall id, ~ in_set S id -> lookup id (w_pools w') = lookup id (w_pools w)) /\
      (forall i, In i L' <-> In i L /\ ~ in_set S (fst i)) /\ (forall i, In i F' <-> In i F /\ ~ in_set S (fst i))
  | Abort => exists o id P w1 L1 F1, S o = Some id /\ lookup id (w_pools w) = Some P /\
      history e s v0 w1 L1 F1 /\ lookup id (w_pools w1) = Some P /\ (forall a, In (id, a) L1 <-> In (id, a) L) /\
      run1 e (ODestroy id (ans o)) w1 = Abort
  | Undef => False
  end.
Proof.
  intros e s v0 w L F HH S ans HS. unfold set_destroy. change (POOL_SET_MIN_ENTRY e) with (wlog e). change (POOL_SET_NR_ENTRIES e) with (word_bits (e_wide e)).
  pose proof (set_destroy_loop e ans (zseq (wlog e) (word_bits (e_wide e) - wlog e)) S s v0 w L F HH HS (NoDup_zseq _ _)) as K.
  assert (E : forall id, in_set S id <-> exists o, In o (zseq (wlog e) (word_bits (e_wide e) - wlog e)) /\ S o = Some id).
  { intros id. split; [|intros (o & _ & E); exists o; exact E]. intros [o Ho]. exists o. split; auto.
    destruct (HS _ _ Ho) as (P & Hl & _). destruct (member_len _ _ _ _ _ _ _ _ _ _ HH HS (conj Ho Hl)) as [_ Hb]. apply in_zseq. lia. }
  destruct (set_destroy_from e (zseq (wlog e) (word_bits (e_wide e) - wlog e)) S ans w) as [[[ret S'] w']| |]; auto.
  - destruct K as (H0 & L' & F' & H1 & H2 & H3 & H4 & H5 & H6). split; auto. exists L', F'. split; auto.
    split; [intros id Hi; apply H3, E, Hi|]. split; [intros id Hi; apply H4; rewrite <- E; exact Hi|].
    split; intros i; rewrite E; auto.
  - destruct K as (o & id & P & w1 & L1 & F1 & _ & H1 & H2 & H3 & H4 & H5 & H6 & H7). exists o, id, P, w1, L1, F1.
    split; auto. split; auto. split; auto. split; auto. split; auto. intros a. rewrite <- !in_items, H5. tauto.
Qed.

(** After a well-behaved program freed everything, destroying the set succeeds. *)
Lemma p_set_destroy_ok : forall e v0 w L F, history e true v0 w L F -> forall S ans, set_ok S w ->
  (forall id a, in_set S id -> ~ In (id, a) L) -> exists S' w', set_destroy e S ans w = Ok (0, S', w').
Proof.
  intros e v0 w L F HH S ans HS Hnone. pose proof (p_set_destroy e true v0 w L F HH S ans HS) as K.
  destruct (set_destroy e S ans w) as [[[ret S'] w']| |]; [destruct K as (-> & _); eauto| |destruct K].
  exfalso. destruct K as (o & id & P & w1 & L1 & F1 & Ho & Hl & HH1 & Hl1 & HL & R).
  destruct (p_no_alarm e true v0 w1 L1 F1 HH1 (ODestroy id (ans o)) eq_refl (ex_intro _ P Hl1)) as (w' & x & R'); [|congruence].
  intros a Ha. apply HL in Ha. apply (Hnone id a); auto. exists o. exact Ho.
Qed.

(** ** Attribute objects *)
Lemma p_setter_result : forall c x, exists y, call_setter c (Some x) = (0, None, Some y).
Proof. intros c x. destruct c; cbn; eauto. Qed.
Lemma p_setter_null : forall c, call_setter c None = (-1, Some EINVAL, None).
Proof. intros c. destruct c; reflexivity. Qed.
Lemma p_setter_field : forall c x r err y f, call_setter c (Some x) = (r, err, Some y) ->
  get y f = match actual c f with Some v => v | None => get x f end.
Proof. intros c x r err y f H. destruct c; cbn in H; injection H as <- <- <-; destruct f; reflexivity. Qed.

Lemma p_setters : forall cs h x o, h x = Some o -> exists o', run_setters h cs x = Some o' /\
  forall f, get o' f = last_set actual (on_object x cs) f (get o f).
Proof.
  intros cs. induction cs as [|[y c] cs IH]; intros h x o Hx; cbn [run_setters fold_left].
  - exists o. auto.
  - unfold on_object. cbn [filter fst]. destruct (y =? x) eqn:E.
    + apply Z.eqb_eq in E. subst y. destruct (p_setter_result c o) as (y & Ey).
      destruct (IH (call_on h (x, c)) x y) as (o' & H1 & H2).
      { unfold call_on. cbn [fst snd]. rewrite Hx, Ey, Z.eqb_refl. reflexivity. }
      exists o'. split; auto. intros f. rewrite H2. cbn [map snd last_set]. rewrite (p_setter_field _ _ _ _ _ f Ey). reflexivity.
    + apply IH. unfold call_on. cbn [fst snd]. destruct (call_setter c (h y)) as [[r er] o1]. replace (x =? y) with false by lia. exact Hx.
Qed.
Lemma last_set_ext : forall g g' cs f d, (forall c, In c cs -> g c f = g' c f) -> last_set g cs f d = last_set g' cs f d.
Proof. intros g g' cs f. induction cs as [|c cs IH]; intros d H; cbn; auto. rewrite (H c) by now left. apply IH. intros c' Hc'. apply H. now right. Qed.
Lemma p_setters_documented : forall cs h x o, h x = Some o -> exists o', run_setters h cs x = Some o' /\
  forall f, (f = FPolicy -> forall g p, ~ In (x, SInit g p) cs) -> get o' f = last_set documented (on_object x cs) f (get o f).
Proof.
  intros cs h x o Hx. destruct (p_setters cs h x o Hx) as (o' & H1 & H2). exists o'. split; auto. intros f Hf. rewrite H2.
  apply last_set_ext. intros c Hc. unfold on_object in Hc. apply in_map_iff in Hc. destruct Hc as ([y c'] & Ec & Hc). cbn in Ec. subst c'.
  apply filter_In in Hc. cbn in Hc. destruct Hc as [Hc E]. apply Z.eqb_eq in E. subst y.
  destruct c; auto. destruct f; auto. exfalso. exact (Hf eq_refl _ _ Hc).
Qed.
Lemma p_setters_null : forall cs h x, h x = None -> run_setters h cs x = None.
Proof.
  intros cs. induction cs as [|[y c] cs IH]; intros h x Hx; cbn [run_setters fold_left]; auto. apply IH.
  unfold call_on. cbn [fst snd]. destruct (call_setter c (h y)) as [[r er] o1] eqn:E. destruct (x =? y) eqn:Ex; auto.
  apply Z.eqb_eq in Ex. subst y. rewrite Hx, p_setter_null in E. injection E as _ _ <-. reflexivity.
Qed.
Lemma p_max_nr_cpus : forall e named len at_ an v P v', 0 <= len <= 2 ^ (word_bits (e_wide e) - 1) -> machine_ok e -> address_space_ok e v ->
  attr_ok e (attr_of at_) -> fits e (attr_of at_) -> mempool_create e named len at_ an v = Ok (Made P, v') ->
  mempool_get_max_nr_cpus (Some P) =
  if type (attr_of at_) =? TYPE_PERCPU then (want_cpus e (attr_of at_), None) else (-1, Some EINVAL).
Proof.
  intros e named len at_ an v P v' Hl He Hv Ha Hf E. pose proof (p_create_made e named len at_ an v Hl He Hv Ha Hf) as K.
  rewrite E in K. destruct K as (o & _ & _ & Ep & _). unfold mempool_get_max_nr_cpus. rewrite Ep.
  unfold completed. cbn [type max_nr_cpus]. reflexivity.
Qed.
