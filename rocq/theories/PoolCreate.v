(** Creation of a pool. *)
From Coq Require Import ZArith Bool List Lia Znumtheory Permutation.
From Verif Require Import UtilsModel UtilsLemmas RseqIR MemLemmas PoolVM PoolVMLemmas PoolModel PoolInv PoolItem PoolMap PoolRange PoolBitmap PoolOps PoolMalloc PoolFree PoolDestroy PoolWorld.
Import ListNotations.
Local Open Scope Z_scope.

Lemma attr0_ok : forall e, attr_ok e attr0.
Proof. intros e. pose proof (wmax_range e). constructor; cbn; auto; lia. Qed.

Section Create.
Variable e : env.
Notation attr_ok := (attr_ok e).
Notation accepted := (accepted e).
Notation completed := (completed e).
Hypothesis He : env_ok e.
Notation psz := (e_page e).
Notation page := (PoolVM.page e).

(** The item order: smallest power of two holding max(len, sizeof(void * )) bytes. *)
Lemma order_spec : forall len, 0 <= len < wmax e ->
  let o := rseq_get_count_order_ulong (e_wide e) (if len <? wsz e then wsz e else len) in
  wlog e <= o <= word_bits (e_wide e) /\ len <= 2 ^ o /\ (forall k, wlog e <= k -> len <= 2 ^ k -> o <= k).
Proof.
  intros len Hl. pose proof (wsz_range e) as Hws. pose proof (wmax_range e) as Hwm. pose proof (wlog_range e) as Hwl. pose proof (wsz_pow e) as Hwp.
  set (l := if len <? wsz e then wsz e else len).
  assert (Hl' : wsz e <= l < wmax e /\ len <= l) by (unfold l; destruct (len <? wsz e) eqn:E; lia).
  destruct (count_order_full (e_wide e) l) as [_ H']; [fold (wmax e); lia|].
  destruct (H' ltac:(lia)) as (H1 & H2 & H3). cbn zeta.
  set (o := rseq_get_count_order_ulong (e_wide e) l) in *. split; [|split].
  - split; [|lia]. destruct (Z_lt_le_dec o (wlog e)) as [Hlt|]; auto. exfalso.
    assert (2 ^ o < 2 ^ wlog e) by (apply Z.pow_lt_mono_r; lia). lia.
  - lia.
  - intros k Hk Hkl. apply H3; [lia|]. unfold l. destruct (len <? wsz e) eqn:E; auto.
    rewrite Hwp. apply Z.pow_le_mono_r; lia.
Qed.

Lemma complete_attr_spec : forall len at_, 0 <= len < wmax e -> attr_ok (attr_of at_) -> 
  let a := attr_of at_ in
  (exists o, accepted len a o /\ complete_attr e len at_ = Ok (inl (2 ^ o, o, completed a))) \/
  ((forall o, ~ accepted len a o) /\ complete_attr e len at_ = Ok (inr EINVAL)) \/
  (2 ^ (word_bits (e_wide e) - 1) < len /\ complete_attr e len at_ = Undef).
Proof.
  intros len at_ Hlen Ha. cbn zeta. pose proof (wsz_range e) as Hws. pose proof (wmax_range e) as Hwm. pose proof (wlog_range e) as Hwl. pose proof (wb_range (e_wide e)) as Hwb. pose proof (order_spec len Hlen) as Ho. cbn zeta in Ho.
  unfold complete_attr. fold (attr_of at_). set (a := attr_of at_) in *.
  set (o := rseq_get_count_order_ulong (e_wide e) (if len <? wsz e then wsz e else len)) in *.
  destruct Ho as (H1 & H2 & H3).
  replace (o <? 0) with false by lia.
  destruct (word_bits (e_wide e) <=? o) eqn:E64.
  { right. right. split; auto. destruct (Z_le_gt_dec len (2 ^ (word_bits (e_wide e) - 1))); [|lia]. exfalso.
    specialize (H3 (word_bits (e_wide e) - 1)). lia. }
  assert (Huniq : forall o', accepted len a o' -> o' = o).
  { intros o' (K1 & K2 & K3 & _). specialize (K3 o). specialize (H3 o'). lia. }
  rewrite Z.shiftl_1_l.
  destruct ((populate_policy a =? COW_INIT) || (populate_policy a =? COW_ZERO)) eqn:Ep; cbn [negb].
  2:{ right. left. split; auto. intros o' (_ & _ & _ & K & _). apply orb_false_iff in Ep. destruct Ep as [E1 E2].
      apply Z.eqb_neq in E1. apply Z.eqb_neq in E2. tauto. }
  apply orb_prop in Ep. rewrite !Z.eqb_eq in Ep.
  set (s := if stride a =? 0 then RSEQ_MEMPOOL_STRIDE else stride a).
  assert (Hs : 0 < s < wmax e).
  { unfold s. pose proof (ao_stride _ _ Ha). destruct (stride a =? 0) eqn:E; [unfold RSEQ_MEMPOOL_STRIDE; lia|lia]. }
  assert (Hdec : (s <? 2 ^ o) || (s <? psz) || negb (is_pow2 s) = false <-> 2 ^ o <= s /\ psz <= s /\ exists k, s = 2 ^ k).
  { rewrite !orb_false_iff, !Z.ltb_ge, negb_false_iff. rewrite is_pow2_correct by lia. split.
    - intros [[K1 K2] [K|(k & Hk & K)]]; [lia|]. split; auto. split; auto. exists k. auto.
    - intros (K1 & K2 & k & K). split; auto. right. exists k. split; auto.
      assert (0 <= k). { destruct (Z_lt_le_dec k 0); auto. rewrite Z.pow_neg_r in K by auto. lia. }
      split; auto. apply Z.pow_lt_mono_r_iff with 2; lia. }
  assert (Hfin : forall n pol,
    (type a = TYPE_PERCPU -> 0 < max_nr_cpus a \/ max_nr_cpus a = 0 /\ e_ncpus e <> 0) ->
    completed a = {| init_set := init_set a; robust_set := robust_set a; type := type a; stride := s;
         max_nr_cpus := n; max_nr_ranges := max_nr_ranges a;
         poison_set := robust_set a || poison_set a;
         poison := if robust_set a && negb (poison_set a)
               then if pol =? COW_INIT then DEFAULT_COW_INIT_POISON_VALUE e else DEFAULT_COW_ZERO_POISON_VALUE
               else poison a;
         populate_policy := pol |} ->
    let r := (let '(ps, pv) :=
      if robust_set a && negb (poison_set a)
      then (true, if pol =? COW_INIT then DEFAULT_COW_INIT_POISON_VALUE e else DEFAULT_COW_ZERO_POISON_VALUE)
      else (poison_set a, poison a) in
    if (s <? 2 ^ o) || (s <? psz) || negb (is_pow2 s) then Ok (inr EINVAL)
    else Ok (inl (2 ^ o, o,
      {| init_set := init_set a; robust_set := robust_set a; type := type a; stride := s;
         max_nr_cpus := n; max_nr_ranges := max_nr_ranges a; poison_set := ps; poison := pv;
         populate_policy := pol |}))) in
    (exists o, accepted len a o /\ r = Ok (inl (2 ^ o, o, completed a))) \/
    ((forall o, ~ accepted len a o) /\ r = Ok (inr EINVAL)) \/ (2 ^ (word_bits (e_wide e) - 1) < len /\ r = Undef)).
  { intros n pol Hcp Hc. cbn zeta.
    destruct ((s <? 2 ^ o) || (s <? psz) || negb (is_pow2 s)) eqn:Es.
    - right. left. split.
      + intros o' Hacc. pose proof (Huniq _ Hacc). subst o'. destruct Hacc as (_ & _ & _ & _ & _ & K). fold s in K.
        apply Hdec in K. congruence.
      + destruct (robust_set a && negb (poison_set a)); reflexivity.
    - left. exists o. split.
      + split; [lia|]. split; auto. split; auto. split; [tauto|]. split; auto. fold s. apply Hdec. auto.
      + rewrite Hc. destruct (robust_set a), (poison_set a); reflexivity. }
  destruct (type a =? TYPE_PERCPU) eqn:Et.
  - apply Z.eqb_eq in Et.
    destruct (max_nr_cpus a <? 0) eqn:En.
    { right. left. split; auto. intros o' (_ & _ & _ & _ & K & _). specialize (K Et). lia. }
    assert (Eg : type a =? TYPE_GLOBAL = false) by (rewrite Et; reflexivity).
    destruct (max_nr_cpus a =? 0) eqn:Ez.
    + destruct (e_ncpus e =? 0) eqn:Ene.
      { right. left. split; auto. intros o' (_ & _ & _ & _ & K & _). specialize (K Et). lia. }
      apply (Hfin (e_ncpus e) (populate_policy a)).
      * intros _. right. lia.
      * unfold completed. rewrite Eg, Ez. reflexivity.
    + apply (Hfin (max_nr_cpus a) (populate_policy a)).
      * intros _. left. lia.
      * unfold completed. rewrite Eg, Ez. reflexivity.
  - apply Z.eqb_neq in Et. destruct (ao_type _ _ Ha) as [|Eg]; [contradiction|].
    assert (Eg' : type a =? TYPE_GLOBAL = true) by (apply Z.eqb_eq; auto). rewrite Eg'.
    apply (Hfin 1 (if populate_policy a =? COW_INIT then COW_ZERO else populate_policy a)).
    + intros; contradiction.
    + unfold completed. rewrite Eg'. destruct Ep as [-> | ->]; reflexivity.
Qed.

Lemma accepted_geom : forall len a o P, attr_ok a -> accepted len a o -> fits e a -> 0 <= e_ncpus e ->
  pattr P = completed a -> item_len P = 2 ^ o -> item_order P = o -> geom e P.
Proof.
  intros len a o P Ha. pose proof (wsz_range e) as Hws. pose proof (wmax_range e) as Hwm. pose proof (wlog_range e) as Hwl. pose proof (wb_range (e_wide e)) as Hwb.
  intros (Ho & Hlen & Hmin & Hpol & Hcpu & Hs) Hfit Hn Epa El Eo.
  cbn zeta in Hs. unfold want_stride in Hs. set (s := if stride a =? 0 then 65536 else stride a) in *.
  destruct Hs as (Hs1 & Hs2 & k & Hk).
  assert (Hsr : 0 < s < wmax e).
  { unfold s. pose proof (ao_stride _ _ Ha). destruct (stride a =? 0) eqn:E; [lia|lia]. }
  assert (Hk0 : 0 <= k < word_bits (e_wide e)).
  { assert (0 <= k). { destruct (Z_lt_le_dec k 0); auto. rewrite Z.pow_neg_r in Hk by auto. lia. }
    split; auto. apply Z.pow_lt_mono_r_iff with 2; try lia. rewrite <- Hk. exact (proj2 Hsr). }
  constructor; rewrite ?Epa, ?El, ?Eo; auto.
  - exists k. split; [lia|]. split; [lia|]. split; [|exact Hk].
    apply Z.pow_le_mono_r_iff with 2; lia.
  - lia.
  - cbn. destruct (type a =? TYPE_GLOBAL) eqn:Eg; [lia|].
    destruct (ao_type _ _ Ha) as [Et|Et]; [|rewrite Et in Eg; discriminate].
    destruct (Hcpu Et) as [|[Hz Hne]].
    + destruct (max_nr_cpus a =? 0) eqn:Ez; lia.
    + rewrite Hz. cbn. lia.
  - cbn. destruct (type a =? TYPE_GLOBAL); auto.
  - cbn. destruct (type a =? TYPE_GLOBAL) eqn:Eg; [discriminate|].
    intros _. destruct (ao_type _ _ Ha) as [Et|Et]; auto. rewrite Et in Eg. discriminate.
  - cbn. pose proof (ao_poison _ _ Ha).
    destruct (robust_set a && negb (poison_set a)); auto.
    unfold wmax. destruct (_ =? COW_INIT), (e_wide e); cbn; lia.
  - cbn. intros ->. reflexivity.
Qed.

(** A pool without ranges, or with one unused range. *)
Lemma pinv_new : forall P v rs, geom e P -> range_list P = rs -> (rs = [] \/ exists r, rs = [r] /\ rinv e P v r /\ next_unused r = 0 /\ blank_bitmap e P r) ->
  free_list_head P = 0 -> nr_ranges P = Z.of_nat (length rs) ->
  max_nr_ranges (pattr P) = 0 \/ nr_ranges P <= max_nr_ranges (pattr P) ->
  pinv e P [] [] v.
Proof.
  intros P v rs HG Er Hrs Hh Hn Hm. constructor; auto; rewrite ?Er; auto.
  - destruct Hrs as [->|(r & -> & HR & _)]; auto.
  - destruct Hrs as [->|(r & -> & HR & _)]; repeat constructor.
  - destruct Hrs as [->|(r & -> & HR & _)]; constructor.
  - intros a. cbn. split; [intros []|]. intros (r & Hr & Ho & _). rewrite Er in Hr.
    destruct Hrs as [->|(r' & -> & HR & Hu & _)]; [destruct Hr|]. destruct Hr as [<-|[]]. lia.
  - constructor.
  - intros _ r o Hr _ _. cbn [In]. destruct Hrs as [->|(r' & -> & HR & Hu & Hb)]; [destruct Hr|].
    destruct Hr as [<-|[]]. rewrite Hb. split; [discriminate|intros []].
Qed.

Lemma destroy_fresh : forall P an v, pinv e P [] [] v -> vmwf e v ->
  exists Po v', mempool_destroy e P an v = Ok (0, Po, v') /\ vmwf e v' /\ vframe e (fun a => ~ pregion P a) v v'.
Proof.
  intros P an v HI Hwf. pose proof (mempool_destroy_spec e P [] [] an v HI Hwf) as Hd.
  inversion Hd as [Hrob Hl|a Hrob _ Hf|Po v3 _ Hwf3 Hfr3 _ _ _ _ E]; [congruence|destruct Hf|].
  exists Po, v3. auto.
Qed.

Inductive create_post (len : Z) (at_ : option attr) (named : bool) (an : answers) (v : vm) : res (made * vm) -> Prop :=
| cp_undef : 2 ^ (word_bits (e_wide e) - 1) < len -> create_post len at_ named an v Undef
| cp_trim o : accepted len (attr_of at_) o -> an_trim1 an = false \/ an_trim2 an = false -> create_post len at_ named an v Abort
| cp_einval : (forall o, ~ accepted len (attr_of at_) o) -> create_post len at_ named an v (Ok (Failed EINVAL, v))
| cp_enomem o v' : accepted len (attr_of at_) o -> vmwf e v' -> vframe e (fun a => mapped v (page a) = true) v v' ->
    (an_calloc an = false \/ named = true /\ an_strdup an = false \/
     exists P, pattr P = completed (attr_of at_) /\ sys_refuses e P an v) ->
    create_post len at_ named an v (Ok (Failed ENOMEM, v'))
| cp_made o P v' : accepted len (attr_of at_) o -> pattr P = completed (attr_of at_) -> item_len P = 2 ^ o -> item_order P = o ->
    pinv e P [] [] v' -> vmwf e v' -> vframe e (fun a => mapped v (page a) = true) v v' ->
    (forall a, pregion P a -> mapped v (page a) = false) -> nr_ranges P = 1 ->
    create_post len at_ named an v (Ok (Made P, v')).

Lemma mempool_create_spec : forall named len at_ an v, 0 <= len < wmax e -> attr_ok (attr_of at_) -> 0 <= e_ncpus e ->
  fits e (attr_of at_) -> vmwf e v ->
  create_post len at_ named an v (mempool_create e named len at_ an v).
Proof.
  intros named len at_ an v Hlen Ha Hn Hfit Hwf. unfold mempool_create.
  destruct (complete_attr_spec len at_ Hlen Ha) as [(o & Hacc & E)|[[Hno E]|[Hbig E]]]; rewrite E; cbn [bind].
  2:{ apply cp_einval; auto. }
  2:{ apply cp_undef; auto. }
  destruct (an_calloc an) eqn:Ec; cbn [negb].
  2:{ eapply cp_enomem; eauto using vframe_refl. }
  set (P := {| range_list := []; nr_ranges := 0; item_len := 2 ^ o; item_order := o; free_list_head := 0; pattr := completed (attr_of at_) |}).
  assert (HG : geom e P) by (eapply accepted_geom; eauto).
  assert (Hmax0 : 0 <= max_nr_ranges (pattr P)) by apply (ao_ranges _ _ Ha).
  destruct (range_create_spec e P an v HG Hwf) as [(ro & P2 & v2 & E2 & Hwf2 & Hfr & Hro)|[E2 Ht]]; rewrite E2; cbn [bind].
  2:{ eapply cp_trim; eauto. }
  destruct ro as [r|].
  - destruct Hro as (-> & Hmax & HR & Hnu & Hblank & Hfresh). cbn [range_list set_nr set_ranges nr_ranges P] in *.
    set (P3 := set_ranges (set_nr P (0 + 1)) [r]).
    assert (HS : same P P3) by (repeat split).
    assert (HI : pinv e P3 [] [] v2).
    { eapply pinv_new with (rs := [r]); eauto.
      - eapply s_geom; eauto.
      - right. exists r. split; auto. split; [eapply s_rinv; eauto|]. split; auto.
      - cbn. cbn in Hmax. lia. }
    assert (Hreg : forall a, pregion P3 a -> mapped v (page a) = false).
    { intros a (x & [<-|[]] & Hx). auto. }
    change (set_ranges (set_nr P 1) (r :: range_list (set_nr P 1))) with P3.
    destruct (named && negb (an_strdup an)) eqn:En.
    + destruct (destroy_fresh P3 an v2 HI Hwf2) as (Po & v3 & Ed & Hwf3 & Hfr3).
      apply andb_prop in En. destruct En as [-> En]. apply negb_true_iff in En.
      match goal with |- context [mempool_destroy e ?x an v2] => replace (mempool_destroy e x an v2) with (Ok (0, Po, v3)) by (symmetry; exact Ed) end.
      cbn [bind].
      eapply cp_enomem; eauto.
      eapply vframe_trans; [exact Hfr|]. eapply vframe_sub; [exact Hfr3|]. intros a Hm Hp. apply Hreg in Hp. congruence.
    + eapply cp_made with (P := P3); eauto.
  - destruct Hro as (-> & Hro).
    assert (HI : pinv e P [] [] v2).
    { eapply pinv_new with (rs := []); eauto. }
    destruct (destroy_fresh P an v2 HI Hwf2) as (Po & v3 & Ed & Hwf3 & Hfr3). rewrite Ed. cbn [bind]. eapply cp_enomem; eauto.
    + eapply vframe_trans; [exact Hfr|]. eapply vframe_sub; [exact Hfr3|]. intros a Hm (x & [] & _).
    + right. right. exists P. split; auto. destruct Hro as [[H1 H2]|H]; auto. cbn in H1, H2, Hmax0. lia.
Qed.
End Create.
