(** The forms of the pool properties that Thm_Pool.v states. *)
From Coq Require Import ZArith Bool List Lia Znumtheory Permutation.
From Verif Require Import UtilsModel UtilsLemmas RseqIR MemLemmas PoolVM PoolVMLemmas PoolModel PoolInv PoolItem PoolMap PoolRange PoolBitmap PoolOps PoolMalloc PoolFree PoolWorld PoolDestroy PoolCreate PoolHist PoolProps PoolProps2 PoolProps3.
Import ListNotations.
Local Open Scope Z_scope.

Section Props.
Variable e : env.
Notation psz := (e_page e).
Notation page := (PoolVM.page e).

(** ** Mapping and creation *)
Lemma p_aligned_mmap : forall v len k hdr choice t1 t2, machine_ok e -> address_space_ok e v ->
  0 <= k < word_bits (e_wide e) -> psz <= 2 ^ k -> psz <= len -> (2 ^ k | len) -> 0 <= hdr -> (psz | hdr) -> hdr + len + 2 ^ k < wmax e ->
  match aligned_mmap_anonymous e v psz len (2 ^ k) hdr choice t1 t2 with
  | Ok (Some (b, h), v') =>
    (2 ^ k | b) /\ h = b - hdr /\ 0 < h /\
    (forall a, h <= a < h + hdr + len -> mapped v (page a) = false /\ mapped v' (page a) = true /\ view e v' a = 0) /\
    (forall a, ~ h <= a < h + hdr + len -> mapped v' (page a) = mapped v (page a)) /\
    (forall a, mapped v (page a) = true -> view e v' a = view e v a)
  | Ok (None, v') => v' = v /\ mmap_anon e v (hdr + len + 2 ^ k - psz) choice = None
  | Abort => t1 = false \/ t2 = false
  | Undef => False
  end.
Proof.
  intros v len k hdr choice t1 t2 [He _] Hsp Hk Hpk Hpl Hd Hh Hhd Hfit.
  assert (Hp : 0 < psz) by (destruct He as (po & Hpo & ->); apply Z.pow_pos_nonneg; lia).
  destruct (aligned_mmap_spec e He v len k hdr choice t1 t2 Hk Hpk Hpl Hd Hh Hhd Hfit (space_wf _ _ Hsp))
    as [(b & h & v' & -> & H1 & H2 & H3 & H4 & HN)|[[-> H]|[-> H]]]; auto.
  split; auto. split; auto. split; [lia|]. destruct HN as [HF NM NL NZ NP ND NW]. destruct HF as [F1 F2 F3 F4 F5].
  assert (Hpk2 : (psz | 2 ^ k)).
  { destruct He as (po & Hpo & Ep). rewrite Ep in *. apply div_pow2. apply Z.pow_le_mono_r_iff in Hpk; lia. }
  assert (Hhp : (psz | h)).
  { rewrite H2. apply Z.divide_sub_r; auto. apply (Z.divide_trans _ (2 ^ k)); auto. }
  assert (Hlp : (psz | hdr + len)) by (apply Z.divide_add_r; auto; apply (Z.divide_trans _ (2 ^ k)); auto).
  assert (K : forall a, in_pages e h (hdr + len) (page a) = true <-> h <= a < h + hdr + len).
  { intros a. rewrite in_pages_iff; auto. lia. }
  split; [|split].
  - intros a Ha. apply K in Ha. split; auto. split; auto. unfold view. rewrite NL by auto. apply NZ. apply K in Ha. lia.
  - intros a Ha. apply F4. apply not_true_false. rewrite K. auto.
  - intros a Ha. apply (fr_view _ _ _ _ F3). auto.
Qed.

(** Other arguments are refused. *)
Lemma p_aligned_mmap_refuses : forall v len al hdr choice t1 t2, machine_ok e ->
  0 < len < wmax e -> 0 < al < wmax e -> 0 <= hdr < wmax e ->
  ~ (psz <= len /\ psz <= al /\ (exists k, al = 2 ^ k) /\ (al | len) /\ (psz | hdr)) ->
  aligned_mmap_anonymous e v psz len al hdr choice t1 t2 = Ok (None, v).
Proof.
  intros v len al hdr choice t1 t2 [(po & Hpo & Ep) _] Hl Ha Hh Hno. pose proof (wmax_range e) as Hwm. pose proof (wb_range (e_wide e)) as Hwb. unfold aligned_mmap_anonymous.
  destruct (len <? psz) eqn:E1; [reflexivity|]. destruct (al <? psz) eqn:E2; [reflexivity|].
  destruct (is_pow2 al) eqn:E3; [|reflexivity]. cbn [orb negb].
  apply is_pow2_correct in E3; [|lia]. destruct E3 as [|(k & Hk & E3)]; [lia|].
  assert (Hk64 : k < word_bits (e_wide e)) by (apply Z.pow_lt_mono_r_iff with 2; try lia; rewrite <- E3; apply Ha).
  assert (E4 : Z.land len (uw (e_wide e) (al - 1)) = len mod al) by (rewrite E3; apply land_low_uw; lia).
  rewrite E4. destruct (len mod al =? 0) eqn:E5; [|reflexivity]. cbn [negb].
  apply Z.eqb_eq in E5. apply Z.mod_divide in E5; [|lia].
  assert (Hco : rseq_get_count_order_ulong (e_wide e) psz = po) by (rewrite Ep; apply count_order_pow2; lia).
  rewrite Hco. replace (po <? 0) with false by lia.
  assert (E6 : Z.land hdr (uw (e_wide e) (psz - 1)) = hdr mod psz) by (rewrite Ep; apply land_low_uw; lia). rewrite E6.
  assert (Hp0 : 0 < psz) by (rewrite Ep; apply Z.pow_pos_nonneg; lia).
  destruct (hdr =? 0) eqn:E7; cbn [negb andb].
  - exfalso. apply Hno. apply Z.eqb_eq in E7. subst hdr. apply Z.ltb_ge in E1. apply Z.ltb_ge in E2.
    repeat split; auto; [exists k; auto|apply Z.divide_0_r].
  - destruct (hdr mod psz =? 0) eqn:E8; [|reflexivity]. exfalso. apply Hno. apply Z.ltb_ge in E1. apply Z.ltb_ge in E2.
    apply Z.eqb_eq in E8. apply Z.mod_divide in E8; [|lia]. repeat split; auto. exists k; auto.
Qed.

Lemma half_wmax : 4 <= wsz e <= 8 /\ wmax e = 2 * 2 ^ (word_bits (e_wide e) - 1) /\ 2 ^ 31 <= 2 ^ (word_bits (e_wide e) - 1).
Proof.
  split; [apply wsz_range|]. pose proof (wb_range (e_wide e)). split.
  - unfold wmax. rewrite <- Z.pow_succ_r by lia. f_equal. lia.
  - apply Z.pow_le_mono_r; lia.
Qed.

Lemma p_create_einval : forall named len at_ an v, 0 <= len <= 2 ^ (word_bits (e_wide e) - 1) -> machine_ok e -> attr_ok e (attr_of at_) ->
  (forall o, ~ accepted e len (attr_of at_) o) -> mempool_create e named len at_ an v = Ok (Failed EINVAL, v).
Proof.
  intros named len at_ an v Hl [He _] Ha Hno. unfold mempool_create.
  destruct (complete_attr_spec e len at_ ltac:(destruct half_wmax as (_ & ? & ?); lia) Ha) as [(o & Hacc & _)|[[_ ->]|[H _]]]; [|reflexivity|lia].
  exfalso. eapply Hno; eauto.
Qed.

Lemma p_create_huge : forall named len at_ an v, 2 ^ (word_bits (e_wide e) - 1) < len < wmax e -> mempool_create e named len at_ an v = Undef.
Proof.
  intros named len at_ an v Hl. destruct half_wmax as (Hws & _ & Hh). unfold mempool_create, complete_attr. replace (len <? wsz e) with false by lia.
  destruct (count_order_full (e_wide e) len) as [_ H]; [fold (wmax e); lia|]. destruct (H ltac:(lia)) as (H1 & H2 & _).
  assert (word_bits (e_wide e) <= rseq_get_count_order_ulong (e_wide e) len).
  { destruct (Z_lt_le_dec (rseq_get_count_order_ulong (e_wide e) len) (word_bits (e_wide e))); auto.
    assert (2 ^ rseq_get_count_order_ulong (e_wide e) len <= 2 ^ (word_bits (e_wide e) - 1)) by (apply Z.pow_le_mono_r; lia). lia. }
  replace (_ <? 0) with false by lia. replace (word_bits (e_wide e) <=? _) with true by lia. reflexivity.
Qed.

Lemma p_create_made : forall named len at_ an v, 0 <= len <= 2 ^ (word_bits (e_wide e) - 1) -> machine_ok e -> address_space_ok e v ->
  attr_ok e (attr_of at_) -> fits e (attr_of at_) ->
  match mempool_create e named len at_ an v with
  | Ok (Made P, v') => exists o, accepted e len (attr_of at_) o /\ item_len P = 2 ^ o /\ pattr P = completed e (attr_of at_) /\
      free_list_head P = 0 /\ nr_ranges P = 1 /\
      (forall a, mapped v (page a) = true -> mapped v' (page a) = true /\ view e v' a = view e v a)
  | Ok (Failed err, v') => (err = EINVAL /\ v' = v /\ forall o, ~ accepted e len (attr_of at_) o) \/
      (err = ENOMEM /\ (an_calloc an = false \/ named = true /\ an_strdup an = false \/
         exists P, pattr P = completed e (attr_of at_) /\ ~ system_grants e P an v) /\
       forall a, mapped v (page a) = true -> mapped v' (page a) = true /\ view e v' a = view e v a)
  | Abort => an_trim1 an = false \/ an_trim2 an = false
  | Undef => False
  end.
Proof.
  intros named len at_ an v Hl [He Hn] Hsp Ha Hf.
  pose proof (mempool_create_spec e He named len at_ an v ltac:(destruct half_wmax as (_ & ? & ?); lia) Ha Hn Hf (space_wf _ _ Hsp)) as Hp.
  assert (K : forall v', vframe e (fun a => mapped v (page a) = true) v v' ->
    forall a, mapped v (page a) = true -> mapped v' (page a) = true /\ view e v' a = view e v a).
  { intros v' Hfr a Hm. rewrite (fr_mapped _ _ _ _ Hfr) by auto. rewrite (fr_view _ _ _ _ Hfr) by auto. auto. }
  destruct Hp as [Hp|o Hp Ht|Hno|o v' Hacc Hwf' Hfr Hr'|o P' v' Hacc Ea El Eo HI' Hwf' Hfr Hreg Hnr]; auto.
  - lia.
  - right. split; auto. split; [|apply K; auto]. destruct Hr' as [H|[H|(P & H1 & H2)]]; auto.
    right. right. exists P. split; auto. intros (G1 & _ & _ & G2 & G3 & G4 & G5 & G6 & G7 & G8).
    destruct H2 as [Hr|[Hr|[Hr|[(cpu & _ & Hr)|[Hr|[Hr|[Hr|(cpu & _ & Hr)]]]]]]].
    + apply G1. exact Hr.
    + congruence.
    + congruence.
    + rewrite G4 in Hr. discriminate.
    + congruence.
    + congruence.
    + congruence.
    + apply (G8 cpu Hr).
  - exists o. split; auto. split; auto. split; auto. split.
    { pose proof (pi_chain _ _ _ _ _ HI') as Hc. exact Hc. }
    split; auto.
Qed.

Section One.
Variables (s : bool) (v0 : vm) (w : world) (L F : ledger).
Hypothesis HH : history e s v0 w L F.
Let HW : winv e s v0 w L F := hist_inv _ _ _ _ _ _ HH.
Notation v := (w_vm w).

(** ** Contents *)
Lemma p_zmalloc : forall id P an a P' v', lookup id (w_pools w) = Some P ->
  mempool_percpu_zmalloc e P an v = Ok (Got a, P', v') ->
  forall cpu k, 0 <= cpu < max_nr_cpus (pattr P) -> 0 <= k < item_len P ->
    byte (view e v') (percpu_ptr P a cpu + k) = 0.
Proof.
  intros id P an a P' v' Hl Hm cpu k Hc Hk. pose proof (lookup_in _ _ _ Hl) as Hin.
  pose proof (wi_pools _ _ _ _ _ _ HW _ _ Hin) as HI. pose proof (item_pos _ _ (pi_geom _ _ _ _ _ HI)).
  pose proof (malloc_content e s v0 w L F HH id P Zeroed 0 an a P' v' Hl Logic.I ltac:(lia) Hm cpu Hc) as K.
  apply K. exact Hk.
Qed.
Lemma p_fill_zero : forall id P a w' x, lookup id (w_pools w) = Some P -> In (id, a) L ->
  run1 e (OFill id a Zeroed) w = Ok (w', x) ->
  forall cpu k, 0 <= cpu < max_nr_cpus (pattr P) -> 0 <= k < item_len P ->
    byte (view e (w_vm w')) (percpu_ptr P a cpu + k) = 0.
Proof.
  intros id P a w' x Hl Ha Hrun cpu k Hc Hk.
  pose proof (fill_content e s v0 w L F HH id P a Zeroed w' x (lookup_in _ _ _ Hl) Ha Logic.I Hrun cpu Hc) as K.
  apply K. exact Hk.
Qed.
Lemma p_malloc_init : forall id P bs an a P' v', lookup id (w_pools w) = Some P ->
  Forall (fun b => 0 <= b < 256) bs ->
  mempool_percpu_malloc_init e P bs an v = Ok (Got a, P', v') ->
  Z.of_nat (length bs) <= item_len P /\
  forall cpu k, 0 <= cpu < max_nr_cpus (pattr P) -> 0 <= k < Z.of_nat (length bs) ->
    byte (view e v') (percpu_ptr P a cpu + k) = nth (Z.to_nat k) bs 0.
Proof.
  intros id P bs an a P' v' Hl Hb Hm.
  assert (Hlen : Z.of_nat (length bs) <= item_len P).
  { unfold mempool_percpu_malloc_init, percpu_malloc in Hm. destruct (item_len P <? Z.of_nat (length bs)) eqn:E; [discriminate|lia]. }
  split; auto. intros cpu k Hc Hk.
  pose proof (malloc_content e s v0 w L F HH id P (Bytes bs) _ an a P' v' Hl (conj Hb Hlen) Hlen Hm cpu Hc) as K.
  apply K. exact Hk.
Qed.
Lemma p_fill_init : forall id P a bs w' x, lookup id (w_pools w) = Some P -> In (id, a) L ->
  Forall (fun b => 0 <= b < 256) bs -> Z.of_nat (length bs) <= item_len P ->
  run1 e (OFill id a (Bytes bs)) w = Ok (w', x) ->
  forall cpu k, 0 <= cpu < max_nr_cpus (pattr P) -> 0 <= k < Z.of_nat (length bs) ->
    byte (view e (w_vm w')) (percpu_ptr P a cpu + k) = nth (Z.to_nat k) bs 0.
Proof.
  intros id P a bs w' x Hl Ha Hb Hlen Hrun cpu k Hc Hk.
  pose proof (fill_content e s v0 w L F HH id P a (Bytes bs) w' x (lookup_in _ _ _ Hl) Ha (conj Hb Hlen) Hrun cpu Hc) as K.
  apply K. exact Hk.
Qed.
Lemma p_too_long : forall P bs an, item_len P < Z.of_nat (length bs) ->
  mempool_percpu_malloc_init e P bs an v = Ok (Null EINVAL, P, v).
Proof.
  intros P bs an H. unfold mempool_percpu_malloc_init, percpu_malloc. replace (item_len P <? _) with true by lia. reflexivity.
Qed.

(** The three allocation calls are an allocation, then the filling of the item. *)
Lemma p_call : forall id P c len an, lookup id (w_pools w) = Some P -> content_fits P c -> len <= item_len P ->
  match percpu_malloc e P c len an v with
  | Ok (Got a, P', v') => exists w1 w2, run1 e (OMalloc id an) w = Ok (w1, OutItem a) /\
      run1 e (OFill id a c) w1 = Ok (w2, OutUnit) /\ lookup id (w_pools w2) = Some P' /\ w_vm w2 = v'
  | Ok (Null err, P', v') => err = ENOMEM /\ exists w1, run1 e (OMalloc id an) w = Ok (w1, OutNull) /\
      lookup id (w_pools w1) = Some P' /\ w_vm w1 = v'
  | Abort => run1 e (OMalloc id an) w = Abort
  | Undef => False
  end.
Proof.
  intros id P c len an Hl Hc Hlen. pose proof (malloc_split e s v0 w L F HH id P c len an Hl Hc Hlen) as H.
  destruct (run1 e (OMalloc id an) w) as [[w1 x]| |] eqn:E; [| |destruct H].
  - assert (Hx : x = OutNull \/ exists a, x = OutItem a).
    { cbn [run1] in E. rewrite Hl in E. destruct (malloc_locked e P an v) as [[[[[[? ?] ?]|] ?] ?]| |]; cbn [bind] in E; try discriminate;
        injection E as _ <-; eauto. }
    destruct Hx as [->|[a ->]].
    + destruct H as (P' & H1 & ->). split; auto. exists w1. auto.
    + destruct H as (w2 & P' & H1 & H2 & _ & ->). exists w1, w2. auto.
  - rewrite H. reflexivity.
Qed.

(** ** Capacity *)
Lemma p_allocates : forall id P an, s = true -> lookup id (w_pools w) = Some P -> system_grants e P an v ->
  max_nr_ranges (pattr P) = 0 \/ count id L < max_nr_ranges (pattr P) * (stride (pattr P) / item_len P) ->
  exists w' a, run1 e (OMalloc id an) w = Ok (w', OutItem a).
Proof.
  intros id P an Hs Hl Hg Hroom. destruct (p_no_alarm e s v0 w L F HH (OMalloc id an) Hs) as (w' & x & E).
  - exists P. auto.
  - cbn. destruct Hg as (_ & H1 & H2 & _). auto.
  - assert (Hx : x = OutNull \/ exists a, x = OutItem a).
    { cbn [run1] in E. rewrite Hl in E. destruct (malloc_locked e P an v) as [[[[[[? ?] ?]|] ?] ?]| |]; cbn [bind] in E; try discriminate;
        injection E as _ <-; eauto. }
    destruct Hx as [->|[a ->]]; [|eauto]. exfalso.
    destruct (p_null e s v0 w L F HH id P an w' OutNull Hl E eq_refl) as (_ & _ & [[H1 H2]|H]); [|contradiction]. lia.
Qed.

(** ** Leaks *)
Lemma p_leak_iff : forall id P an, s = true -> lookup id (w_pools w) = Some P -> robust_set (pattr P) = true ->
  run1 e (ODestroy id an) w = Abort <-> exists a, In (id, a) L.
Proof.
  intros id P an Hs Hl Hrob. split.
  - intros H. destruct (items id L) as [|a l] eqn:E.
    + exfalso. destruct (p_no_alarm e s v0 w L F HH (ODestroy id an) Hs) as (w' & x & E').
      * exists P. auto.
      * cbn. intros a Ha. apply in_items in Ha. rewrite E in Ha. destruct Ha.
      * congruence.
    + exists a. apply in_items. rewrite E. now left.
  - intros (a & Ha). exact (p_destroy_leak e s v0 w L F HH id P a an Hl Hrob Ha).
Qed.

(** ** Corruption *)
Lemma p_use_after_free : forall id P a i k an, lookup id (w_pools w) = Some P -> robust_set (pattr P) = true ->
  In (id, a) F -> 0 <= i < copies P -> 0 <= k < item_len P ->
  byte (view e v) (percpu_ptr P a i + k) <> word_byte e (poison (pattr P)) (k mod wsz e) ->
  run1 e (ODestroy id an) w = Abort /\
  (forall w', run1 e (OMalloc id an) w <> Ok (w', OutItem a)) /\
  (find (fun j => fst j =? id) F = Some (id, a) -> run1 e (OMalloc id an) w = Abort).
Proof.
  intros id P a i k an Hl Hrob Ha Hi Hk Hne.
  assert (Hn : ~ intact e P v a) by (intros H; apply Hne; apply H; auto).
  split; [exact (p_destroy_corrupt e s v0 w L F HH id P a an Hl Hrob Ha Hn)|].
  exact (p_malloc_corrupt e s v0 w L F HH id P a an Hl Hrob Ha Hn).
Qed.
Lemma p_free_fills : forall id P a w' x, lookup id (w_pools w) = Some P -> robust_set (pattr P) = true -> In (id, a) L ->
  run1 e (OFree a (stride (pattr P))) w = Ok (w', x) ->
  forall i k, 0 <= i < copies P -> 0 <= k < item_len P ->
    byte (view e (w_vm w')) (percpu_ptr P a i + k) = word_byte e (poison (pattr P)) (k mod wsz e).
Proof.
  intros id P a w' x Hl Hrob Ha Hrun i k Hi Hk.
  exact (p_free_poisons e s v0 w L F HH id P a w' x Hl Hrob Ha Hrun i k Hi Hk).
Qed.
End One.
End Props.

Lemma p_child_headers : forall e s v0 w L F, history e s v0 w L F ->
  forall id P, lookup id (w_pools w) = Some P -> populate_policy (pattr P) = COW_INIT ->
  forall r a, In r (range_list P) -> mmap_addr r <= a < mmap_addr r + mmap_len r ->
    mapped (fork e (w_vm w)) (page e a) = (a <? base r).
Proof.
  intros e s v0 w L F HH id P Hl Hp.
  pose proof (fun an => p_child e s v0 w L F HH id P an Hl Hp) as K. cbv zeta in K.
  exact (proj1 (K {| an_mmap := None; an_trim1 := true; an_trim2 := true; an_memfd := true; an_map_init := true;
     an_map_cpu := fun _ => true; an_dontfork := true; an_wipe := true; an_bitmap := true;
     an_init := fun _ => Some []; an_munmap := fun _ => true; an_calloc := true; an_strdup := true |})).
Qed.
Lemma p_child_destroy : forall e s v0 w L F, history e s v0 w L F ->
  forall id P an, lookup id (w_pools w) = Some P -> populate_policy (pattr P) = COW_INIT ->
  let child := {| w_vm := fork e (w_vm w); w_pools := w_pools w |} in
  run1 e (ODestroy id an) child <> Undef /\
  ((robust_set (pattr P) = false \/ forall a, ~ In (id, a) L) -> (forall a, an_munmap an a = true) ->
   exists w', run1 e (ODestroy id an) child = Ok (w', OutRet 0) /\
     lookup id (w_pools w') = None /\
     (forall a, (exists r, In r (range_list P) /\ mmap_addr r <= a < mmap_addr r + mmap_len r) ->
        mapped (w_vm w') (page e a) = false) /\
     (forall a, ~ (exists r, In r (range_list P) /\ mmap_addr r <= a < mmap_addr r + mmap_len r) ->
        mapped (w_vm w') (page e a) = mapped (fork e (w_vm w)) (page e a) /\ view e (w_vm w') a = view e (fork e (w_vm w)) a)).
Proof.
  intros e s v0 w L F HH id P an Hl Hp child.
  destruct (p_child e s v0 w L F HH id P an Hl Hp) as (_ & H1 & H2 & _). exact (conj H1 H2).
Qed.
Lemma p_huge_len : forall e, exists len, 0 <= len < wmax e /\
  forall named at_ an v, mempool_create e named len at_ an v = Undef.
Proof.
  intros e. destruct (half_wmax e) as (_ & H & H'). exists (2 ^ (word_bits (e_wide e) - 1) + 1).
  split; [lia|]. intros. apply p_create_huge. lia.
Qed.
