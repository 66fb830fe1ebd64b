(** Proofs for C67. *)
From Coq Require Import ZArith Bool List Lia Znumtheory.
From Verif Require Import UtilsModel UtilsLemmas RseqIR MemLemmas PoolVM PoolVMLemmas PoolModel PoolInv PoolItem PoolMap PoolRange PoolBitmap PoolOps PoolMalloc PoolFree PoolWorld PoolDestroy PoolCreate PoolHist PoolProps OverModel OverSpec.
Import ListNotations.
Local Open Scope Z_scope.

Section Over.
Variable e : env.
Notation psz := (e_page e).
Notation page := (PoolVM.page e).

(** ** Signed words *)
Lemma half_wmax : wmax e = 2 * half e /\ 0 < half e.
Proof.
  unfold wmax, half. pose proof (wb_range (e_wide e)) as Hwb. split.
  - replace (word_bits (e_wide e)) with (word_bits (e_wide e) - 1 + 1) at 1 by ring. rewrite Z.pow_add_r; lia.
  - apply Z.pow_pos_nonneg; lia.
Qed.
Lemma signed_eq : forall x, 0 <= x < wmax e -> signed e x = if x <? half e then x else x - 2 * half e.
Proof. intros x Hx. unfold signed. rewrite (ue_small e) by exact Hx. reflexivity. Qed.
Lemma signed_range : forall x, 0 <= x < wmax e -> - half e <= signed e x < half e.
Proof.
  intros x Hx. destruct half_wmax as [H1 H2]. rewrite signed_eq by exact Hx. destruct (Z.ltb_spec x (half e)); lia.
Qed.
Lemma signed_inj : forall x y, 0 <= x < wmax e -> 0 <= y < wmax e -> signed e x = signed e y -> x = y.
Proof.
  intros x y Hx Hy. destruct half_wmax as [H1 H2]. rewrite !signed_eq by assumption.
  destruct (Z.ltb_spec x (half e)); destruct (Z.ltb_spec y (half e)); lia.
Qed.
Lemma fits_iff : forall d, fits_word e d = true <-> - half e <= d < half e.
Proof. intros d. unfold fits_word. rewrite andb_true_iff, Z.leb_le, Z.ltb_lt. tauto. Qed.

(** ** Comparisons *)
Definition no_overflow (v : vm) (p : Z) (offs : list Z) (c : Z) : Prop :=
  forall o, In o offs -> fits_word e (signed e (load_word e v (p + o)) - signed e c) = true.
Lemma cmp_same : forall v p c offs, 0 <= c < wmax e -> no_overflow v p offs c ->
  exists d, cmp_words_c e v p offs c = Ok d /\ (d =? 0) = (cmp_words e v p offs c =? 0).
Proof.
  intros v p c offs Hc. induction offs as [|o offs IH]; intros H; cbn [cmp_words_c cmp_words]; [exists 0; auto|].
  rewrite (H o) by (left; reflexivity). cbn [negb]. pose proof (load_word_range e v (p + o)) as Hr.
  set (x := load_word e v (p + o)) in *.
  destruct (Z.eq_dec x c) as [E|Hne].
  - rewrite E. rewrite !Z.sub_diag. assert (E0 : uw (e_wide e) 0 = 0) by (apply (ue_small e); pose proof (wmax_range e); lia).
    rewrite E0. cbn [Z.eqb negb]. apply IH. intros o' Ho'. apply H. right; exact Ho'.
  - assert (N1 : signed e x - signed e c =? 0 = false).
    { apply Z.eqb_neq. intros K. apply Hne. apply signed_inj; auto. lia. }
    assert (N2 : uw (e_wide e) (x - c) =? 0 = false).
    { apply Z.eqb_neq. unfold uw. fold (wmax e). intros K. apply Z.mod_divide in K; [|lia]. destruct K as [k Hk]. assert (k = 0) by nia. lia. }
    rewrite N1, N2. cbn [negb]. exists (signed e x - signed e c). rewrite N1, N2. auto.
Qed.
(** A comparison that finds no difference has not overflowed. *)
Lemma cmp_equal : forall v p c offs, 0 <= c < wmax e -> cmp_words e v p offs c = 0 -> cmp_words_c e v p offs c = Ok 0.
Proof.
  intros v p c offs Hc H. pose proof H as Hz. rewrite cmp_words_zero in Hz by exact Hc.
  destruct (cmp_same v p c offs Hc) as (d & E & Ed).
  - intros o Ho. rewrite (Hz o Ho), Z.sub_diag. apply fits_iff. destruct half_wmax. lia.
  - rewrite H in Ed. cbn in Ed. apply Z.eqb_eq in Ed. subst d. exact E.
Qed.
Lemma no_overflow_zero : forall v p offs, no_overflow v p offs 0.
Proof.
  intros v p offs o _. apply fits_iff. destruct half_wmax as [H1 H2]. pose proof (signed_range _ (load_word_range e v (p + o))) as H.
  assert (E : signed e 0 = 0). { rewrite signed_eq by lia. destruct (Z.ltb_spec 0 (half e)); lia. }
  rewrite E. lia.
Qed.

(** ** Zeroing *)
Lemma for_cpus_ext : forall (f g : Z -> vm -> res vm), (forall i v, f i v = g i v) -> forall l v, for_cpus l f v = for_cpus l g v.
Proof.
  intros f g H l. induction l as [|i l IH]; intros v; cbn [for_cpus]; [reflexivity|]. rewrite H. destruct (g i v); cbn [bind]; auto.
Qed.
Lemma zero_same : forall P r off v, zero_item_c e P r off v = zero_item e P r off v.
Proof.
  intros P r off v. unfold zero_item_c, zero_item. destruct (match range_init_ptr e r off with None => _ | Some _ => _ end) as [v1| |]; cbn [bind]; auto.
  apply for_cpus_ext. intros i w. cbv zeta. destruct (negb _); auto.
  destruct (cmp_same w (range_percpu_ptr e r i off (stride (pattr P))) 0 (word_offsets e (item_len P))) as (d & E & Ed).
  - pose proof (wmax_range e). lia.
  - apply no_overflow_zero.
  - unfold cmp_item_c, cmp_item. rewrite E. cbn [bind]. rewrite Ed. reflexivity.
Qed.

(** ** Calls that do not abort *)
Definition upto {A} (c m : res A) : Prop := m = Abort \/ c = m.
Lemma upto_refl : forall {A} (m : res A), upto m m.
Proof. intros A m. right. reflexivity. Qed.
Lemma upto_bind : forall {A B} (c m : res A) (kc km : A -> res B), upto c m -> (forall x, upto (kc x) (km x)) -> upto (bind c kc) (bind m km).
Proof.
  intros A B c m kc km [E|E] H; rewrite E; [left; reflexivity|]. destruct m as [x| |]; cbn [bind]; auto; [left|right]; reflexivity.
Qed.
Lemma check_upto : forall v p len c, 0 <= c < wmax e -> upto (check_poison_c e v p len c) (check_poison e v p len c).
Proof.
  intros v p len c Hc. unfold check_poison_c, check_poison. destruct (negb _); [apply upto_refl|].
  destruct (cmp_item e v p len c =? 0) eqn:E; [|left; reflexivity]. apply Z.eqb_eq in E.
  unfold cmp_item_c. rewrite cmp_equal by assumption. right. reflexivity.
Qed.
Definition poison_ok (P : pool) : Prop := 0 <= poison (pattr P) < wmax e.
Lemma check_cpus_upto : forall P r off v l, poison_ok P -> upto (check_cpus_c e P r off v l) (check_cpus e P r off v l).
Proof.
  intros P r off v l HP. induction l as [|i l IH]; cbn [check_cpus_c check_cpus]; [apply upto_refl|].
  apply upto_bind; [now apply check_upto|auto].
Qed.
Lemma check_item_upto : forall P r off v, poison_ok P -> upto (check_poison_item_c e P r off v) (check_poison_item e P r off v).
Proof.
  intros P r off v HP. unfold check_poison_item_c, check_poison_item. destruct (negb _); [apply upto_refl|].
  apply upto_bind; [|intros _; now apply check_cpus_upto]. destruct (range_init_ptr e r off); [now apply check_upto|apply upto_refl].
Qed.
Lemma check_pool_upto : forall P v acc, poison_ok P -> upto (check_pool_poison_c e P v acc) (check_pool_poison e P v acc).
Proof.
  intros P v acc HP. unfold check_pool_poison_c, check_pool_poison. destruct (_ || _); [apply upto_refl|].
  induction (range_list P) as [|r l IH]; cbn [check_ranges_c check_ranges]; [apply upto_refl|].
  apply upto_bind; [|auto]. induction (item_offsets P r) as [|o l' IH']; cbn [check_items_c check_items]; [apply upto_refl|].
  apply upto_bind; [now apply check_item_upto|auto].
Qed.
Lemma destroy_upto : forall P an v, poison_ok P -> upto (mempool_destroy_c e P an v) (mempool_destroy e P an v).
Proof.
  intros P an v HP. unfold mempool_destroy_c, mempool_destroy. apply upto_bind; [apply upto_refl|intros acc].
  apply upto_bind; [apply upto_refl|intros _]. apply upto_bind; [now apply check_pool_upto|intros _; apply upto_refl].
Qed.
Lemma malloc_upto : forall P an v, poison_ok P -> upto (malloc_locked_c e P an v) (malloc_locked e P an v).
Proof.
  intros P an v HP. unfold malloc_locked_c, malloc_locked. apply upto_bind; [|intros x; apply upto_refl]. cbv zeta.
  destruct (negb _); [|apply upto_refl]. destruct (find_range _ _) as [r|]; [|apply upto_refl]. destruct (negb _); [apply upto_refl|].
  apply upto_bind; [now apply check_item_upto|intros _; apply upto_refl].
Qed.
Lemma range_create_attr : forall P an v ro P' v', range_create e P an v = Ok (ro, P', v') -> pattr P' = pattr P.
Proof.
  intros P an v ro P' v' H. unfold range_create in H. cbv zeta in H.
  repeat match type of H with
  | (if ?b then _ else _) = Ok _ => destruct b
  | bind ?y _ = Ok _ => destruct y as [?x| |]; cbn [bind] in H; try discriminate H
  | (match ?x with _ => _ end) = Ok _ => destruct x
  end; try discriminate H; injection H as <- <- <-; reflexivity.
Qed.
Lemma create_upto : forall named len at_ an v, attr_ok e (attr_of at_) -> upto (mempool_create_c e named len at_ an v) (mempool_create e named len at_ an v).
Proof.
  intros named len at_ an v Ha. unfold mempool_create_c, mempool_create.
  destruct (complete_attr e len at_) as [[[[l o] a]|err]| |] eqn:Ec; cbn [bind]; try apply upto_refl.
  destruct (negb _); [apply upto_refl|].
  assert (Hp : 0 <= poison a < wmax e).
  { unfold complete_attr in Ec. cbv zeta in Ec. change (match at_ with Some a => a | None => attr0 end) with (attr_of at_) in Ec.
    pose proof (ao_poison _ _ Ha) as Hpo. pose proof (wmax_range e) as Hw.
    assert (Hd : 0 <= DEFAULT_COW_INIT_POISON_VALUE e < wmax e).
    { unfold DEFAULT_COW_INIT_POISON_VALUE, wmax, word_bits. destruct (e_wide e); lia. }
    destruct (robust_set (attr_of at_) && negb (poison_set (attr_of at_))) in Ec; cbv beta iota in Ec;
    repeat match type of Ec with
    | (if ?b then _ else _) = Ok _ => destruct b
    | (match ?x with Some _ => _ | None => _ end) = Ok _ => destruct x as [[? ?]|]
    end; try discriminate Ec; injection Ec as <- <- <-; cbn [poison]; try exact Hpo.
    all: match goal with |- context [if ?b then _ else _] => destruct b end; auto; unfold DEFAULT_COW_ZERO_POISON_VALUE; lia. }
  match goal with |- upto (bind ?y _) _ => destruct y as [[[ro P] w]| |] eqn:E; cbn [bind]; try apply upto_refl end.
  apply range_create_attr in E. cbn [pattr] in E.
  destruct ro as [r|].
  - destruct (_ && _); [|apply upto_refl]. apply upto_bind; [|intros x; apply upto_refl]. apply destroy_upto. unfold poison_ok. cbn [pattr set_ranges]. rewrite E. exact Hp.
  - apply upto_bind; [|intros x; apply upto_refl]. apply destroy_upto. unfold poison_ok. rewrite E. exact Hp.
Qed.

(** ** Freeing *)
Lemma store_link_keep : forall ps v q r, link v q = Some r -> (forall x, In x (map fst ps) -> page x <> q) -> link (store e v ps) q = Some r.
Proof.
  induction ps as [|[x b] ps IH]; intros v q r Hl H; [exact Hl|]. rewrite store_cons. apply IH.
  - cbn [store1 link]. replace (q =? page x) with false; [exact Hl|]. symmetry. apply Z.eqb_neq. intros E. apply (H x); [left; reflexivity|auto].
  - intros y Hy. apply H. right; exact Hy.
Qed.

Section Item.
Variables (P : pool) (r : range) (off : Z).
Hypothesis HG : geom e P.
Hypothesis Ho : 0 <= off.
Hypothesis Hol : off + item_len P <= strd P.
Hypothesis Hd : (item_len P | off).
Notation w := (poison (pattr P)).
Notation at_cpu i := (base r + strd P * i + off).
Notation W := (fun p => poison_bytes e p (item_len P) w).

(** A word of a CPU's copy is the poison already, or its difference from it fits. *)
Definition word_ok (v : vm) (i k : Z) : Prop :=
  load_word e v (at_cpu i + wsz e * k) = w \/ fits_word e (signed e (load_word e v (at_cpu i + wsz e * k)) - signed e w) = true.
Definition copy_ok (v : vm) (i : Z) : Prop := forall k, 0 <= k -> wsz e * k < item_len P -> word_ok v i k.

Lemma copy_no_overflow : forall v i, copy_ok v i -> no_overflow v (at_cpu i) (word_offsets e (item_len P)) w.
Proof.
  intros v i H o Hin. apply in_word_offsets in Hin; [|pose proof (item_pos _ _ HG); lia]. destruct Hin as (k & -> & Hk & Hlt).
  destruct (H k Hk Hlt) as [E|E]; [|exact E]. rewrite E, Z.sub_diag. apply fits_iff. destruct half_wmax. lia.
Qed.
Lemma HWb : block W (item_len P).
Proof. apply poison_block; [pose proof (item_pos _ _ HG); lia|apply (eight_item _ _ HG)]. Qed.

Lemma cpus_same : forall l v, vmwf e v -> rinv e P v r -> NoDup l -> (forall i, In i l -> 0 <= i < ncpus P) -> (forall i, In i l -> copy_ok v i) ->
  for_cpus l (fun i v => let p := range_percpu_ptr e r i off (strd P) in
    if negb (accessible e v p (item_len P)) then Undef
    else do d <- cmp_item_c e v p (item_len P) w;
    if d =? 0 then Ok v else Ok (store e v (W p))) v =
  for_cpus l (fun i v => let p := range_percpu_ptr e r i off (strd P) in
    if negb (accessible e v p (item_len P)) then Undef
    else if cmp_item e v p (item_len P) w =? 0 then Ok v else Ok (store e v (W p))) v.
Proof.
  pose proof (item_pos _ _ HG) as Hip. pose proof (nd_bounds P) as HB1. pose proof (na_bounds P) as HB2. pose proof (strd_pos _ _ HG) as Hsp.
  induction l as [|j l IH]; intros v Hwf HR Hnd Hl Hok; cbn [for_cpus]; [reflexivity|].
  inversion Hnd as [|? ? Hj Hnd']; subst. assert (Hjr : 0 <= j < ncpus P) by (apply Hl; now left). cbv zeta.
  rewrite (PoolItem.percpu_ptr e P v) by (auto; lia). destruct (negb _); cbn [bind]; [reflexivity|].
  destruct (cmp_same v (at_cpu j) w (word_offsets e (item_len P)) (g_poison _ _ HG) (copy_no_overflow v j (Hok j (or_introl eq_refl)))) as (d & E & Ed).
  unfold cmp_item_c, cmp_item. rewrite E. cbn [bind]. rewrite Ed. destruct (cmp_words _ _ _ _ _ =? 0); cbn [bind].
  - apply IH; auto; intros i Hi; [apply Hl|apply Hok]; right; exact Hi.
  - apply IH; auto.
    + apply store_wf; auto.
    + apply (store_item_rinv e P v r W (item_len P) j off); auto; [exact HWb|lia].
    + intros i Hi. apply Hl. right; exact Hi.
    + intros i Hi k Hk Hlt. assert (Hij : i <> j) by (intros ->; contradiction). assert (Hir : 0 <= i < ncpus P) by (apply Hl; right; exact Hi).
      assert (Ew : load_word e (store e v (W (at_cpu j))) (at_cpu i + wsz e * k) = load_word e v (at_cpu i + wsz e * k)).
      { apply load_word_ext. intros x Hx. apply view_store_other; [apply (g_psz _ _ HG)|exact Hwf|]. intros y Hy Hal.
        apply HWb in Hy. destruct (eight_item _ _ HG) as [m Hm]. pose proof (wsz_range e) as Hws.
        assert (Exy : x = y) by (eapply alias_cpu; eauto; nia). subst y. assert (k < m) by nia.
        assert (i < j \/ j < i) as [?|?] by lia; nia. }
      unfold word_ok. rewrite Ew. apply (Hok i); auto. right; exact Hi.
Qed.

Lemma poison_same : forall v, vmwf e v -> rinv e P v r -> (forall i, 0 <= i < ncpus P -> copy_ok v i) ->
  poison_item_c e P r off v = poison_item e P r off v.
Proof.
  intros v Hwf HR Hok. unfold poison_item_c, poison_item. cbv zeta.
  pose proof (item_pos _ _ HG) as Hip. pose proof (nd_bounds P) as HB1. pose proof (na_bounds P) as HB2. pose proof (strd_pos _ _ HG) as Hsp.
  pose proof (g_psz _ _ HG) as Hp0. pose proof (psz_strd _ _ HG) as Hps.
  assert (Hcp : forall i, In i (cpus P) -> 0 <= i < ncpus P) by (intros i Hi; unfold cpus in Hi; apply in_zseq in Hi; lia).
  rewrite (init_ptr e P v) by (auto; lia). destruct (cow_init P) eqn:Ec; cbn [bind].
  2:{ apply cpus_same; auto. apply NoDup_zseq. }
  destruct (accessible _ _ _ _); cbn [bind]; [|reflexivity].
  assert (End : nd P = ncpus P + 1) by (unfold nd; rewrite Ec; reflexivity). pose proof (g_cpus _ _ HG) as Hc1.
  set (v1 := store e v (W (at_cpu (ncpus P)))).
  assert (Hwf1 : vmwf e v1) by (apply store_wf; auto).
  assert (HR1 : rinv e P v1 r) by (apply (store_item_rinv e P v r W (item_len P) (ncpus P) off); auto; [exact HWb|lia]).
  apply cpus_same; auto; [apply NoDup_zseq|]. intros i Hi. apply Hcp in Hi. intros k Hk Hlt.
  pose proof (wsz_range e) as Hws. destruct (eight_item _ _ HG) as [m Hm].
  set (a := at_cpu i + wsz e * k).
  destruct (g_stride _ _ HG) as (so & Hso & Hpso & _ & Hstr). destruct (g_env _ _ HG) as (po & Hpo & Epo). pose proof (wlog_range e) as Hwl.
  assert (Dpg : (wsz e | psz)).
  { rewrite (wsz_pow e), Epo. exists (2 ^ (po - wlog e)). rewrite <- Z.pow_add_r by lia. f_equal. lia. }
  assert (Dws : (wsz e | strd P)) by (eapply Z.divide_trans; [exact Dpg|exact Hps]).
  assert (Da : (wsz e | a)).
  { unfold a. destruct (r_al _ _ _ _ HR) as [c Hc]. destruct Hd as [d Hd']. destruct Dws as [s' Hs'].
    exists (c * s' + s' * i + d * m + k). rewrite Hc, Hd', Hm, Hs'. ring. }
  assert (Hpage : forall x, a <= x < a + wsz e -> page x = page a).
  { intros x Hx. unfold PoolVM.page. destruct Da as [c Hc], Dpg as [d Hdd]. rewrite Hdd in *. rewrite (Z.mul_comm d).
    assert (0 < d) by nia. rewrite <- !Z.div_div by lia. f_equal. rewrite Hc, Z.div_mul by lia.
    symmetry. apply (Z.div_unique x (wsz e) c (x - a)); lia. }
  assert (Db : (psz | base r + strd P * i)).
  { apply Z.divide_add_r; [eapply Z.divide_trans; [exact Hps|exact (r_al _ _ _ _ HR)]|apply Z.divide_mul_l; exact Hps]. }
  assert (Hab : base r + strd P * i <= a /\ a + wsz e <= base r + strd P * i + strd P).
  { unfold a. split; [lia|]. assert (k < m) by nia. nia. }
  assert (Hpa : base r + strd P * i <= page a * psz <= a).
  { split.
    - destruct Db as [c Hc]. rewrite Hc in *. apply Z.mul_le_mono_nonneg_r; [lia|]. unfold PoolVM.page. apply Z.div_le_lower_bound; lia.
    - unfold PoolVM.page. rewrite Z.mul_comm. apply Z.mul_div_le. lia. }
  unfold word_ok. fold a. destruct (link v (page a)) as [q|] eqn:El.
  - left. assert (Hreg : region r (page a * psz)).
    { unfold region. rewrite (r_addr _ _ _ _ HR), (r_len _ _ _ _ HR). nia. }
    destruct (r_link _ _ _ _ HR _ _ El (or_introl Hreg)) as (_ & Hp1 & Hq & Hdv).
    assert (El1 : link v1 (page a) = Some q).
    { apply store_link_keep; [exact El|]. intros x Hx E. apply HWb in Hx.
      assert (page x * psz <= x) by (unfold PoolVM.page; rewrite Z.mul_comm; apply Z.mul_div_le; lia).
      assert (base r + strd P * ncpus P <= page x * psz).
      { assert (Dc : (psz | base r + strd P * ncpus P)).
        { apply Z.divide_add_r; [eapply Z.divide_trans; [exact Hps|exact (r_al _ _ _ _ HR)]|apply Z.divide_mul_l; exact Hps]. }
        destruct Dc as [c Hc]. rewrite Hc in *. apply Z.mul_le_mono_nonneg_r; [lia|]. unfold PoolVM.page. apply Z.div_le_lower_bound; lia. }
      rewrite E in *. lia. }
    assert (Et : q * psz - page a * psz = strd P * (ncpus P - i)).
    { destruct Hdv as [t Ht]. rewrite Z.mul_sub_distr_r in Ht. rewrite Ht. rewrite End in Hq.
      assert (t = ncpus P - i) by nia. subst t. ring. }
    set (x0 := at_cpu (ncpus P) + wsz e * k). assert (E0 : x0 = a + strd P * (ncpus P - i)) by (unfold x0, a; ring).
    assert (Ex : forall x, a <= x < a + wsz e -> view e v1 x = view e v1 (x - a + x0)).
    { intros x Hx. unfold view. rewrite (Hpage x Hx), El1.
      assert (Em : x mod psz = x - page a * psz).
      { rewrite <- (Hpage x Hx). unfold PoolVM.page. pose proof (Z.div_mod x psz ltac:(lia)). lia. }
      assert (Eq : q * psz + x mod psz = x - a + x0) by (rewrite Em, E0, <- Et; ring).
      assert (Epx : page (x - a + x0) = q).
      { rewrite <- Eq. apply (page_at e Hp0). apply Z.mod_pos_bound. lia. }
      rewrite Epx, (wf_chain _ _ Hwf1 _ _ El1), Eq. reflexivity. }
    transitivity (load_word e v1 x0).
    + unfold load_word, ldw. f_equal. f_equal. unfold span. rewrite !map_map. apply map_ext_in. intros j Hj. apply List.in_seq in Hj.
      unfold byte. f_equal. pose proof (wsz_nat e) as Hn. rewrite Ex by lia. f_equal. lia.
    + assert (Hg : good e v1 (W (at_cpu (ncpus P)))) by (apply good_store; auto; apply HWb).
      rewrite (poison_good e v1 (at_cpu (ncpus P)) (item_len P) w) in Hg; [|lia|exact (g_poison _ _ HG)]. apply Hg; auto.
  - assert (Ew : load_word e v1 a = load_word e v a).
    { apply load_word_ext. intros x Hx. apply view_store_other; auto. intros y Hy [E|[E _]].
      - subst y. apply HWb in Hy. assert (strd P * (i + 1) <= strd P * ncpus P) by (apply Z.mul_le_mono_nonneg_l; lia). lia.
      - rewrite (Hpage x Hx) in E. congruence. }
    rewrite Ew. apply (Hok i); auto.
Qed.
End Item.

(** ** Every call *)
Definition is_free (o : op) : bool := match o with OFree _ _ => true | _ => false end.
Section Hist.
Variables (s : bool) (v0 : vm) (wd : world) (L F : ledger).
Hypothesis HH : history e s v0 wd L F.
Let HWd : winv e s v0 wd L F := hist_inv e _ _ _ _ _ HH.

Lemma p_others : forall o, allowed e s v0 wd L o -> is_free o = false -> run1 e o wd = Abort \/ run1_c e o wd = run1 e o wd.
Proof.
  intros o Hok Hf. change (upto (run1_c e o wd) (run1 e o wd)).
  destruct o as [id named len at_ an|id an|id item c|ptr st|ps|id an]; cbn [run1 run1_c]; try discriminate Hf; try apply upto_refl.
  - apply upto_bind; [|intros x; apply upto_refl]. apply create_upto. apply Hok.
  - destruct Hok as (P & Hl). rewrite Hl. apply upto_bind; [|intros x; apply upto_refl]. apply malloc_upto.
    apply (g_poison _ _ (pi_geom _ _ _ _ _ (wi_pools _ _ _ _ _ _ HWd _ _ (lookup_in _ _ _ Hl)))).
  - destruct (lookup id (w_pools wd)) as [P|]; [|apply upto_refl]. destruct (find_range _ _) as [r|]; [|apply upto_refl].
    apply upto_bind; [|intros x; apply upto_refl]. destruct c as [| |bs]; cbn [fill_item fill_item_c]; [apply upto_refl| |apply upto_refl].
    rewrite zero_same. apply upto_refl.
  - destruct Hok as (P & Hl). rewrite Hl. apply upto_bind; [|intros x; apply upto_refl]. apply destroy_upto.
    apply (g_poison _ _ (pi_geom _ _ _ _ _ (wi_pools _ _ _ _ _ _ HWd _ _ (lookup_in _ _ _ Hl)))).
Qed.

Lemma p_free : forall id P a, lookup id (w_pools wd) = Some P -> In (id, a) L ->
  (poison_set (pattr P) = false \/
   forall cpu k, 0 <= cpu < max_nr_cpus (pattr P) -> 0 <= k -> wsz e * k < item_len P ->
     fits_word e (signed e (load_word e (w_vm wd) (PoolWorld.percpu_ptr P a cpu + wsz e * k)) - signed e (poison (pattr P))) = true) ->
  run1_c e (OFree a (strd P)) wd = run1 e (OFree a (strd P)) wd.
Proof.
  intros id P a Hl Ha Hfit. pose proof (lookup_in _ _ _ Hl) as Hin. pose proof (wi_pools _ _ _ _ _ _ HWd _ _ Hin) as HI.
  pose proof (pi_geom _ _ _ _ _ HI) as HG. pose proof (item_pos _ _ HG) as Hip.
  destruct (live_range e s v0 wd L F HWd id P a Hin Ha) as (r & off & Hr & Ea & HR & Hd & Ho & Hol).
  cbn [run1 run1_c]. unfold free_base. replace (Z.land a (notw (e_wide e) (strd P - 1))) with (base r) by (rewrite Ea; symmetry; apply (base_of e P (w_vm wd) r HG HR); lia).
  rewrite (find_owner_spec e s v0 wd L F id P r HWd Hin Hr).
  assert (Ef : free_in_c e P r a (strd P) (w_vm wd) = free_in e P r a (strd P) (w_vm wd)); [|rewrite Ef; reflexivity].
  unfold free_in_c, free_in. cbv zeta. replace (Z.land a (strd P - 1)) with off by (rewrite Ea; symmetry; apply (offset_of e P (w_vm wd) r HG HR); lia).
  assert (Hsub : forall r', clear_alloc_slot e P r off = Ok r' -> base r' = base r /\ init r' = init r).
  { intros r' E. unfold clear_alloc_slot in E. destruct (alloc_bitmap r); [|injection E as <-; auto].
    destruct (nth_error _ _); [|discriminate E]. destruct (_ =? 0); [discriminate E|]. injection E as <-. auto. }
  destruct (clear_alloc_slot e P r off) as [r'| |]; cbn [bind]; auto. destruct (Hsub r' eq_refl) as [Eb Ei]. clear Hsub.
  cbn [pattr set_ranges free_list_head]. destruct (poison_set (pattr P)); [|reflexivity]. destruct Hfit as [K|Hfit]; [discriminate K|].
  assert (Ep : poison_item_c e (set_ranges P (put_range (range_list P) r')) r' off (w_vm wd) =
               poison_item e (set_ranges P (put_range (range_list P) r')) r' off (w_vm wd)); [|rewrite Ep; reflexivity].
  transitivity (poison_item_c e P r off (w_vm wd)).
  { unfold poison_item_c, range_init_ptr, range_percpu_ptr, cpus. cbn [pattr set_ranges item_len]. rewrite Eb, Ei. reflexivity. }
  transitivity (poison_item e P r off (w_vm wd)).
  2:{ unfold poison_item, range_init_ptr, range_percpu_ptr, cpus. cbn [pattr set_ranges item_len]. rewrite Eb, Ei. reflexivity. }
  apply poison_same; auto; [apply (wi_wf _ _ _ _ _ _ HWd)|]. intros i Hi k Hk Hlt. right.
  specialize (Hfit i k Hi Hk Hlt). unfold PoolWorld.percpu_ptr in Hfit. rewrite Ea in Hfit.
  replace (base r + off + strd P * i + wsz e * k) with (base r + strd P * i + off + wsz e * k) in Hfit by ring. exact Hfit.
Qed.
End Hist.

(** ** The specification *)
Let bits := word_bits (e_wide e).
Lemma bits_half : 2 ^ bits = 2 * half e.
Proof. unfold half, bits. destruct (e_wide e); reflexivity. Qed.
Lemma signed_spec : forall x, 0 <= x < wmax e -> signed e x = as_signed bits x.
Proof.
  intros x Hx. rewrite signed_eq by exact Hx. unfold as_signed. destruct half_wmax as [H1 H2].
  assert (E2 : 2 ^ bits = 2 * half e) by apply bits_half. change (2 ^ (bits - 1)) with (half e). rewrite E2.
  destruct (Z.ltb_spec x (half e)).
  - rewrite Z.mod_small by lia. lia.
  - replace (x + half e) with (x - half e + 1 * (2 * half e)) by ring. rewrite Z.mod_add, Z.mod_small by lia. lia.
Qed.
Lemma fits_spec : forall x y, 0 <= x < wmax e -> 0 <= y < wmax e -> fits_word e (signed e x - signed e y) = true <-> subtractable bits x y.
Proof. intros x y Hx Hy. rewrite fits_iff, !signed_spec by assumption. reflexivity. Qed.
Lemma zero_subtractable : forall x, 0 <= x < wmax e -> subtractable bits x 0.
Proof.
  intros x Hx. apply fits_spec; [exact Hx|pose proof (wmax_range e); lia|]. apply fits_iff. destruct half_wmax as [H1 H2].
  pose proof (signed_range x Hx). assert (E : signed e 0 = 0). { rewrite signed_eq by lia. destruct (Z.ltb_spec 0 (half e)); lia. } lia.
Qed.
Lemma same_side : forall x y, 0 <= x < wmax e -> 0 <= y < wmax e -> x < half e -> y < half e -> subtractable bits x y.
Proof.
  intros x y Hx Hy H1 H2. apply fits_spec; auto. apply fits_iff. rewrite !signed_eq by assumption.
  destruct (Z.ltb_spec x (half e)), (Z.ltb_spec y (half e)); lia.
Qed.
End Over.
