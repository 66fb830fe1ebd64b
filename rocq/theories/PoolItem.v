(** Initialising, poisoning and checking one item. *)
From Coq Require Import ZArith Bool List Lia Znumtheory.
From Verif Require Import UtilsModel UtilsLemmas RseqIR MemLemmas PoolVM PoolVMLemmas PoolModel PoolInv.
Import ListNotations.
Local Open Scope Z_scope.

(** Common form of zero_item, init_item and poison_item. *)
Definition fill_step (e : env) (W : Z -> list (Z * Z)) (len : Z) (test : vm -> Z -> bool)
    (P : pool) (r : range) (off : Z) (i : Z) (v : vm) : res vm :=
  let p := range_percpu_ptr e r i off (stride (pattr P)) in
  if negb (accessible e v p len) then Undef
  else if test v p then Ok v
  else Ok (store e v (W p)).
Definition fill_gen (e : env) (W : Z -> list (Z * Z)) (len : Z) (test : vm -> Z -> bool)
    (P : pool) (r : range) (off : Z) (v : vm) : res vm :=
  do v <- match range_init_ptr e r off with
    | None => Ok v
    | Some p => if accessible e v p len then Ok (store e v (W p)) else Undef
    end;
  for_cpus (cpus P) (fill_step e W len test P r off) v.

Lemma zero_item_gen : forall e P r off v, zero_item e P r off v =
  fill_gen e (fun p => zero_bytes p (item_len P)) (item_len P)
    (fun v p => cmp_item e v p (item_len P) 0 =? 0) P r off v.
Proof. reflexivity. Qed.
Lemma init_item_gen : forall e P r off bs v, init_item e P r off bs v =
  fill_gen e (fun p => fill_bytes p bs) (Z.of_nat (length bs))
    (fun v p => same_bytes e v p bs) P r off v.
Proof. reflexivity. Qed.
Lemma poison_item_gen : forall e P r off v, poison_item e P r off v =
  fill_gen e (fun p => poison_bytes e p (item_len P) (poison (pattr P))) (item_len P)
    (fun v p => cmp_item e v p (item_len P) (poison (pattr P)) =? 0) P r off v.
Proof. reflexivity. Qed.

Section Item.
Variable e : env.
Notation psz := (e_page e).
Notation page := (PoolVM.page e).
Notation geom := (geom e).

(** The bytes [ws] are in memory. *)
Definition good (v : vm) (ws : list (Z * Z)) : Prop :=
  forall x b, In (x, b) ws -> byte (view e v) x = b mod 256.

Lemma good_store : forall v ws, 0 < psz -> vmwf e v -> functional ws -> good (store e v ws) ws.
Proof.
  intros v ws Hpsz Hwf Hf x b Hin. unfold byte.
  rewrite (view_store_val e Hpsz ws v x b); auto.
Qed.

Lemma good_ext : forall v v' ws, (forall x, In x (map fst ws) -> view e v' x = view e v x) -> good v ws -> good v' ws.
Proof.
  intros v v' ws H Hg x b Hin. unfold byte. rewrite H; [apply Hg; auto|].
  apply in_map_iff. exists (x, b). auto.
Qed.

(** ** Pointers *)
Lemma percpu_ptr : forall P v r i off, geom P -> rinv e P v r -> 0 <= i < ncpus P -> 0 <= off < strd P ->
  range_percpu_ptr e r i off (strd P) = base r + strd P * i + off.
Proof.
  intros P v r i off HG HR Hi Ho. unfold range_percpu_ptr. apply (ue_small e).
  pose proof (r_hi _ _ _ _ HR). pose proof (r_lo _ _ _ _ HR). pose proof (g_psz _ _ HG).
  pose proof (strd_pos _ _ HG). pose proof (nd_bounds P). pose proof (na_bounds P). nia.
Qed.

Lemma init_ptr : forall P v r off, geom P -> rinv e P v r -> 0 <= off < strd P ->
  range_init_ptr e r off = if cow_init P then Some (base r + strd P * ncpus P + off) else None.
Proof.
  intros P v r off HG HR Ho. unfold range_init_ptr. rewrite (r_init _ _ _ _ HR).
  pose proof (na_bounds P) as HN. pose proof (r_hi _ _ _ _ HR). pose proof (r_lo _ _ _ _ HR). pose proof (g_psz _ _ HG).
  pose proof (strd_pos _ _ HG). pose proof (g_cpus _ _ HG). unfold nd in HN.
  destruct (cow_init P); auto. f_equal. apply (ue_small e). nia.
Qed.

Lemma item_accessible : forall P v r i off len, geom P -> rinv e P v r -> 0 <= i < na P ->
  0 <= off -> off + Z.max len 1 <= strd P ->
  accessible e v (base r + strd P * i + off) len = true.
Proof.
  intros P v r i off len HG HR Hi Ho Hl. apply accessible_true; [apply (g_psz _ _ HG)|].
  intros x Hx. apply (r_map _ _ _ _ HR). unfold region.
  rewrite (r_addr _ _ _ _ HR), (r_len _ _ _ _ HR). pose proof (g_psz _ _ HG). nia.
Qed.

Definition cpu_keys (P : pool) (r : range) (off len : Z) (ws : list (Z * Z)) : Prop :=
  forall x, In x (map fst ws) -> exists o, off <= o < off + len /\ x = base r + o.

(** A block written in area [i] of an item. *)
Definition block (W : Z -> list (Z * Z)) (len : Z) : Prop :=
  forall p, functional (W p) /\ forall x, In x (map fst (W p)) -> p <= x < p + len.

Lemma store_item_frame : forall P v r W len i off, geom P -> vmwf e v -> rinv e P v r -> block W len ->
  0 <= off -> off + Z.max len 1 <= strd P -> 0 <= i < na P ->
  vframe e (fun a => ~ inF P r off len a) v (store e v (W (base r + strd P * i + off))).
Proof.
  intros P v r W len i off HG Hwf HR HW Ho Hl Hi.
  apply vframe_store; [apply (g_psz _ _ HG)|auto|]. intros x a Hx Ha Hal. apply Ha.
  eapply alias_inF; eauto. apply HW in Hx.
  replace x with (base r + strd P * i + (x - (base r + strd P * i))) by ring.
  apply inF_area; try lia.
Qed.

Lemma store_item_rinv : forall P v r W len i off, geom P -> vmwf e v -> rinv e P v r -> block W len ->
  0 <= off -> 0 <= i ->
  rinv e P (store e v (W (base r + strd P * i + off))) r.
Proof.
  intros P v r W len i off HG Hwf HR HW Ho Hi. eapply rinv_store; eauto.
  intros x Hx. right. apply HW in Hx. pose proof (strd_pos _ _ HG). nia.
Qed.

Section Fill.
Variables (W : Z -> list (Z * Z)) (len : Z) (test : vm -> Z -> bool).
Hypothesis HW : block W len.
Hypothesis Hlen : 0 <= len.
Hypothesis Htest : forall v p, test v p = true -> good v (W p).

Lemma fill_cpus : forall P r off l v, geom P -> vmwf e v -> rinv e P v r ->
  0 <= off -> off + Z.max len 1 <= strd P -> NoDup l -> (forall i, In i l -> 0 <= i < ncpus P) ->
  exists v', for_cpus l (fill_step e W len test P r off) v = Ok v' /\
    vmwf e v' /\ rinv e P v' r /\ vframe e (fun a => ~ inF P r off len a) v v' /\
    (forall i, In i l -> good v' (W (base r + strd P * i + off))) /\
    (forall i, 0 <= i < nd P -> ~ In i l -> forall x, strd P * i <= x - base r < strd P * i + strd P ->
       view e v' x = view e v x) /\
    (forall q, mapped v' q = mapped v q).
Proof.
  intros P r off l. induction l as [|j l IH]; intros v HG Hwf HR Ho Hol Hnd Hl.
  - exists v. split; [reflexivity|]. split; [auto|]. split; [auto|]. split; [apply vframe_refl|]. split; [intros i []|auto].
  - inversion Hnd as [|? ? Hj Hnd']; subst.
    assert (Hjr : 0 <= j < ncpus P) by (apply Hl; now left).
    pose proof (nd_bounds P) as HB1. pose proof (na_bounds P) as HB2. pose proof (strd_pos _ _ HG) as Hsp.
    cbn [for_cpus]. unfold fill_step at 1. cbv zeta. rewrite (percpu_ptr P v) by (auto; lia).
    rewrite (item_accessible P v) by (auto; lia). cbn [negb].
    set (p := base r + strd P * j + off) in *.
    assert (Hstep : exists v1, (if test v p then Ok v else Ok (store e v (W p))) = Ok v1 /\ vmwf e v1 /\
              rinv e P v1 r /\ vframe e (fun a => ~ inF P r off len a) v v1 /\ good v1 (W p) /\
              (forall i, 0 <= i < nd P -> i <> j -> forall x, strd P * i <= x - base r < strd P * i + strd P ->
                 view e v1 x = view e v x) /\ (forall q, mapped v1 q = mapped v q)).
    { destruct (test v p) eqn:Et.
      - exists v. split; [auto|]. split; [auto|]. split; [auto|]. split; [apply vframe_refl|]. split; [now apply Htest|auto].
      - exists (store e v (W p)). split; [reflexivity|]. split; [apply store_wf; auto|].
        split; [eapply store_item_rinv; eauto; lia|]. split; [eapply store_item_frame; eauto; lia|].
        split; [apply good_store; auto; [apply (g_psz _ _ HG)|apply HW]|]. split; [|intros q; apply store_mapped].
        intros i Hi Hij x Hx. apply view_store_other; [apply (g_psz _ _ HG)|auto|].
        intros y Hy Hal. apply HW in Hy.
        assert (x = y) by (eapply alias_cpu; eauto; unfold p in Hy; nia). subst y.
        unfold p in Hy. assert (i < j \/ j < i) as [?|?] by lia; nia. }
    destruct Hstep as (v1 & -> & Hwf1 & HR1 & HF1 & Hg1 & Ho1 & Hm1). cbn [bind].
    destruct (IH v1 HG Hwf1 HR1 Ho Hol Hnd') as (v2 & -> & Hwf2 & HR2 & HF2 & Hg2 & Ho2 & Hm2).
    { intros i Hi. apply Hl. now right. }
    exists v2. split; [reflexivity|]. split; [auto|]. split; [auto|].
    split; [eapply vframe_trans; eauto|]. split; [|split].
    + intros i [<-|Hi]; auto.
      eapply good_ext; [|exact Hg1]. intros x Hx. apply HW in Hx.
      unfold p in Hx. apply (Ho2 j); auto; lia.
    + intros i Hi Hni x Hx. rewrite (Ho2 i Hi) by (auto; intros H; apply Hni; now right).
      apply (Ho1 i Hi); auto. intros ->. apply Hni. now left.
    + intros q. now rewrite Hm2.
Qed.

Lemma fill_gen_spec : forall P v r off, geom P -> vmwf e v -> rinv e P v r ->
  0 <= off -> off + Z.max len 1 <= strd P ->
  exists v', fill_gen e W len test P r off v = Ok v' /\
    vmwf e v' /\ rinv e P v' r /\ vframe e (fun a => ~ inF P r off len a) v v' /\
    (forall i, 0 <= i < nd P -> good v' (W (base r + strd P * i + off))) /\
    (forall q, mapped v' q = mapped v q).
Proof.
  intros P v r off HG Hwf HR Ho Hol. unfold fill_gen. rewrite (init_ptr P v) by (auto; lia).
  pose proof (nd_bounds P) as HB1. pose proof (na_bounds P) as HB2. pose proof (strd_pos _ _ HG) as Hsp.
  assert (Hinit : exists v1,
    match (if cow_init P then Some (base r + strd P * ncpus P + off) else None) with
    | None => Ok v
    | Some p => if accessible e v p len then Ok (store e v (W p)) else Undef
    end = Ok v1 /\ vmwf e v1 /\ rinv e P v1 r /\ vframe e (fun a => ~ inF P r off len a) v v1 /\
    (cow_init P = true -> good v1 (W (base r + strd P * ncpus P + off))) /\ (forall q, mapped v1 q = mapped v q)).
  { unfold nd in HB1, HB2. destruct (cow_init P) eqn:Ec.
    - assert (Hi : 0 <= ncpus P < na P) by (pose proof (g_cpus _ _ HG); unfold na, nd in *; rewrite Ec in *; lia).
      rewrite (item_accessible P v) by (auto; lia).
      exists (store e v (W (base r + strd P * ncpus P + off))). split; [reflexivity|].
      split; [apply store_wf; auto|]. split; [eapply store_item_rinv; eauto; lia|].
      split; [eapply store_item_frame; eauto; lia|].
      split; [intros _; apply good_store; auto; [apply (g_psz _ _ HG)|apply HW] | intros q; apply store_mapped].
    - exists v. split; [auto|]. split; [auto|]. split; [auto|]. split; [apply vframe_refl|]. split; [discriminate|auto]. }
  destruct Hinit as (v1 & -> & Hwf1 & HR1 & HF1 & Hg1 & Hm1). cbn [bind].
  destruct (fill_cpus P r off (cpus P) v1 HG Hwf1 HR1 Ho Hol) as (v2 & -> & Hwf2 & HR2 & HF2 & Hg2 & Ho2 & Hm2).
  { apply NoDup_zseq. }
  { intros i Hi. unfold cpus in Hi. apply in_zseq in Hi. lia. }
  exists v2. split; [reflexivity|]. split; [auto|]. split; [auto|].
  split; [eapply vframe_trans; eauto|]. split; [|intros q; now rewrite Hm2].
  intros i Hi. destruct (Z_lt_dec i (ncpus P)) as [Hlt|Hge].
  - apply Hg2. unfold cpus. apply in_zseq. lia.
  - assert (i = ncpus P /\ cow_init P = true) as [-> Ec].
    { unfold nd in Hi. destruct (cow_init P); split; auto; lia. }
    eapply good_ext; [|apply Hg1; auto]. intros x Hx. apply HW in Hx.
    apply (Ho2 (ncpus P)); auto.
    + unfold cpus. intros H. apply in_zseq in H. lia.
    + lia.
Qed.
End Fill.

(** ** The three fillings *)
Lemma fill_bytes_block : forall bs, block (fun p => fill_bytes p bs) (Z.of_nat (length bs)).
Proof.
  intros bs p. unfold fill_bytes. split.
  - apply combine_functional. apply NoDup_span.
  - intros x Hx. apply in_map_iff in Hx. destruct Hx as ([y b] & <- & Hin).
    apply in_combine_l in Hin. apply in_span in Hin. exact Hin.
Qed.

Lemma zero_block : forall n, 0 <= n -> block (fun p => zero_bytes p n) n.
Proof.
  intros n Hn p. pose proof (fill_bytes_block (repeat 0 (Z.to_nat n)) p) as H.
  rewrite repeat_length in H. rewrite Z2Nat.id in H by lia. exact H.
Qed.

Lemma in_word_offsets : forall len o, 0 <= len -> In o (word_offsets e len) <-> exists k, o = wsz e * k /\ 0 <= k /\ wsz e * k < len.
Proof.
  intros len o Hl. unfold word_offsets. rewrite in_map_iff. split.
  - intros (k & <- & Hk). apply in_zseq in Hk. exists k. split; auto. split; [lia|].
    pose proof (wsz_range e). pose proof (Z.mul_div_le (len + (wsz e - 1)) (wsz e) ltac:(lia)). nia.
  - intros (k & -> & Hk & Hlt). exists k. split; auto. apply in_zseq. split; [lia|].
    pose proof (wsz_range e). assert (k + 1 <= (len + (wsz e - 1)) / wsz e) by (apply Z.div_le_lower_bound; lia). lia.
Qed.

Lemma in_stw : forall a w x b, In (x, b) (stw (wcfg e) a w) -> a <= x < a + wsz e.
Proof.
  intros a w x b Hin. assert (In x (map fst (stw (wcfg e) a w))) as H by (apply in_map_iff; exists (x, b); auto).
  rewrite stw_keys in H. apply in_span in H. rewrite wsz_nat in H. exact H.
Qed.

Lemma stw_byte : forall a w x b, In (x, b) (stw (wcfg e) a w) -> 0 <= b < 256.
Proof.
  intros a w x b Hin. unfold stw in Hin. apply in_combine_r in Hin.
  assert (HF := le_bytes_range (wsize (wcfg e)) w). unfold order in Hin.
  rewrite Forall_forall in HF. apply HF. destruct (bigend (wcfg e)); auto. now apply in_rev.
Qed.

Lemma poison_block : forall n w, 0 <= n -> (wsz e | n) -> block (fun p => poison_bytes e p n w) n.
Proof.
  intros n w Hn [m Hm] p. split.
  - intros x b b' H1 H2. unfold poison_bytes in *. apply in_flat_map in H1, H2.
    destruct H1 as (o & Ho & H1), H2 as (o' & Ho' & H2).
    apply in_word_offsets in Ho, Ho'; auto. destruct Ho as (k & -> & Hk & _), Ho' as (k' & -> & Hk' & _).
    pose proof (in_stw _ _ _ _ H1). pose proof (in_stw _ _ _ _ H2). pose proof (wsz_range e). assert (k = k') by nia. subst k'.
    eapply stw_functional; eauto.
  - intros x Hx. apply in_map_iff in Hx. destruct Hx as ([y b] & <- & Hin).
    unfold poison_bytes in Hin. apply in_flat_map in Hin. destruct Hin as (o & Ho & Hin).
    apply in_word_offsets in Ho; auto. destruct Ho as (k & -> & Hk & Hlt). apply in_stw in Hin. cbn [fst].
    pose proof (wsz_range e). assert (k < m) by nia. nia.
Qed.

Lemma cmp_words_zero : forall v p w offs, 0 <= w < wmax e ->
  (cmp_words e v p offs w = 0 <-> forall o, In o offs -> load_word e v (p + o) = w).
Proof.
  intros v p w offs Hw. induction offs as [|o offs IH]; cbn [cmp_words].
  - split; auto. intros _ o [].
  - pose proof (load_word_range e v (p + o)) as Hr.
    destruct (uw (e_wide e) (load_word e v (p + o) - w) =? 0) eqn:Ed; cbn [negb].
    + apply Z.eqb_eq in Ed. unfold uw in Ed; fold (wmax e) in Ed.
      assert (load_word e v (p + o) = w).
      { apply Z.mod_divide in Ed; [|lia]. destruct Ed as [c Hc]. assert (c = 0) by nia. subst. lia. }
      rewrite IH. split.
      * intros H' o' [<-|Ho']; auto.
      * intros H' o' Ho'. apply H'. now right.
    + apply Z.eqb_neq in Ed. split; [congruence|].
      intros H'. exfalso. apply Ed. rewrite H' by now left. rewrite Z.sub_diag. reflexivity.
Qed.

Lemma cmp_item_zero : forall v p len w, 0 <= len -> 0 <= w < wmax e ->
  (cmp_item e v p len w = 0 <-> forall k, 0 <= k -> wsz e * k < len -> load_word e v (p + wsz e * k) = w).
Proof.
  intros v p len w Hl Hw. unfold cmp_item. rewrite cmp_words_zero by auto. split.
  - intros H k Hk Hlt. apply H. apply in_word_offsets; auto. eauto.
  - intros H o Ho. apply in_word_offsets in Ho; auto. destruct Ho as (k & -> & Hk & Hlt). auto.
Qed.

Lemma word_good : forall v a w, 0 <= w < wmax e -> (load_word e v a = w <-> good v (stw (wcfg e) a w)).
Proof.
  intros v a w Hw. split.
  - intros H x b Hin. pose proof (in_stw _ _ _ _ Hin) as Hx. pose proof (stw_byte _ _ _ _ Hin) as Hb.
    unfold load_word in H.
    assert (Hq : ldw (wcfg e) (view e v) a = ldw (wcfg e) (wr (view e v) (stw (wcfg e) a w)) a).
    { rewrite H. symmetry. apply ldw_stw. rewrite wmod_wmax; exact Hw. }
    rewrite (ldw_bytes_eq e _ _ _ Hq x Hx). unfold byte.
    rewrite (wr_functional _ (view e v) x b); auto. apply stw_functional.
  - intros H. unfold load_word. transitivity (ldw (wcfg e) (wr (view e v) (stw (wcfg e) a w)) a); [|apply ldw_stw; rewrite wmod_wmax; exact Hw].
    unfold ldw. f_equal. f_equal. apply map_ext_in. intros x Hx. 
    assert (Hin : In x (map fst (stw (wcfg e) a w))) by (rewrite stw_keys; exact Hx).
    destruct (wr_in _ (view e v) _ Hin) as (b & Hb & Hwr). unfold byte at 2. rewrite Hwr.
    apply H. exact Hb.
Qed.

Lemma poison_good : forall v p len w, 0 <= len -> 0 <= w < wmax e ->
  (good v (poison_bytes e p len w) <-> forall k, 0 <= k -> wsz e * k < len -> load_word e v (p + wsz e * k) = w).
Proof.
  intros v p len w Hl Hw. split.
  - intros H k Hk Hlt. apply word_good; auto. intros x b Hin. apply H. apply in_flat_map.
    exists (wsz e * k). split; auto. apply in_word_offsets; eauto.
  - intros H x b Hin. unfold poison_bytes in Hin. apply in_flat_map in Hin. destruct Hin as (o & Ho & Hin).
    apply in_word_offsets in Ho; auto. destruct Ho as (k & -> & Hk & Hlt).
    apply (word_good v (p + wsz e * k) w); auto.
Qed.

Lemma in_zero_bytes : forall p n x b, In (x, b) (zero_bytes p n) <-> b = 0 /\ p <= x < p + Z.max 0 n.
Proof.
  intros p n x b. unfold zero_bytes, fill_bytes. rewrite repeat_length. split.
  - intros H. pose proof (in_combine_l _ _ _ _ H) as H1. pose proof (in_combine_r _ _ _ _ H) as H2.
    apply in_span in H1. apply repeat_spec in H2. split; [auto|]. lia.
  - intros [-> Hx].
    assert (Hc : combine (span p (Z.to_nat n)) (repeat 0 (Z.to_nat n)) = map (fun x => (x, 0)) (span p (Z.to_nat n))).
    { unfold span. generalize (Z.to_nat n) 0%nat. intros m. induction m as [|m IH]; intros s; cbn; auto. now rewrite IH. }
    rewrite Hc. apply in_map_iff. exists x. split; auto. apply in_span. lia.
Qed.

Lemma zero_test : forall n v p, 0 <= n -> (wsz e | n) -> (cmp_item e v p n 0 =? 0) = true -> good v (zero_bytes p n).
Proof.
  intros n v p Hn [m Hm] H x b Hin. apply Z.eqb_eq in H. rewrite cmp_item_zero in H by (pose proof (wmax_range e); lia).
  apply in_zero_bytes in Hin. destruct Hin as [-> Hx].
  pose proof (wsz_range e) as Hws. set (k := (x - p) / wsz e). pose proof (Z.div_mod (x - p) (wsz e) ltac:(lia)) as Hdm.
  pose proof (Z.mod_pos_bound (x - p) (wsz e) ltac:(lia)) as Hmb. fold k in Hdm.
  assert (Hk : 0 <= k) by (unfold k; apply Z.div_pos; lia).
  specialize (H k Hk ltac:(lia)). unfold load_word in H.
  assert (Hz : ldw (wcfg e) (fun _ => 0) (p + wsz e * k) = 0) by (unfold ldw, order, wcfg; cbn [wsize bigend]; destruct (e_wide e), (e_big e); reflexivity).
  rewrite <- Hz in H. rewrite (ldw_bytes_eq e _ _ _ H x) by lia. reflexivity.
Qed.

Lemma init_test : forall bs v p, Forall (fun b => 0 <= b < 256) bs ->
  same_bytes e v p bs = true -> good v (fill_bytes p bs).
Proof.
  intros bs v p Hb H x b Hin. unfold same_bytes in H. rewrite forallb_forall in H.
  specialize (H _ Hin). cbn in H. apply Z.eqb_eq in H. rewrite H.
  symmetry. apply Z.mod_small. unfold fill_bytes in Hin. apply in_combine_r in Hin.
  rewrite Forall_forall in Hb. auto.
Qed.

Lemma poison_test : forall n w v p, 0 <= n -> 0 <= w < wmax e ->
  (cmp_item e v p n w =? 0) = true -> good v (poison_bytes e p n w).
Proof.
  intros n w v p Hn Hw H. apply Z.eqb_eq in H. apply poison_good; auto.
  rewrite cmp_item_zero in H by auto. exact H.
Qed.

(** ** Poison checks *)
Lemma check_poison_spec : forall v p len w, 0 <= len -> 0 <= w < wmax e -> accessible e v p len = true ->
  (check_poison e v p len w = Ok tt /\ forall k, 0 <= k -> wsz e * k < len -> load_word e v (p + wsz e * k) = w) \/
  (check_poison e v p len w = Abort /\ ~ forall k, 0 <= k -> wsz e * k < len -> load_word e v (p + wsz e * k) = w).
Proof.
  intros v p len w Hl Hw Ha. unfold check_poison. rewrite Ha. cbn [negb].
  destruct (cmp_item e v p len w =? 0) eqn:Ec.
  - left. split; auto. apply cmp_item_zero; auto. now apply Z.eqb_eq.
  - right. split; auto. intros H. apply Z.eqb_neq in Ec. apply Ec. apply cmp_item_zero; auto.
Qed.

Lemma check_cpus_spec : forall P v r off l, geom P -> rinv e P v r -> 0 <= off -> off + item_len P <= strd P ->
  (forall i, In i l -> 0 <= i < ncpus P) ->
  (check_cpus e P r off v l = Ok tt /\
     forall i k, In i l -> 0 <= k -> wsz e * k < item_len P -> load_word e v (base r + strd P * i + off + wsz e * k) = poison (pattr P)) \/
  (check_cpus e P r off v l = Abort /\
     ~ forall i k, In i l -> 0 <= k -> wsz e * k < item_len P -> load_word e v (base r + strd P * i + off + wsz e * k) = poison (pattr P)).
Proof.
  intros P v r off l HG HR Ho Hol. pose proof (item_pos _ _ HG) as Hip. pose proof (nd_bounds P). pose proof (na_bounds P).
  induction l as [|j l IH]; intros Hl.
  - left. split; [reflexivity|]. intros i k [].
  - assert (Hj : 0 <= j < ncpus P) by (apply Hl; now left).
    cbn [check_cpus]. rewrite (percpu_ptr P v) by (auto; lia).
    destruct (check_poison_spec v (base r + strd P * j + off) (item_len P) (poison (pattr P))) as [[-> Hg]|[-> Hb]].
    + lia.
    + apply (g_poison _ _ HG).
    + apply (item_accessible P); auto; lia.
    + cbn [bind]. destruct IH as [[-> HI]|[-> HI]]; [intros i Hi; apply Hl; now right| |].
      * left. split; auto. intros i k [<-|Hi]; auto.
      * right. split; auto. intros H'. apply HI. intros i k Hi. apply H'. now right.
    + cbn [bind]. right. split; auto. intros H'. apply Hb. intros k. apply H'. now left.
Qed.

Lemma check_poison_item_spec : forall P v r off, geom P -> rinv e P v r -> 0 <= off -> off + item_len P <= strd P ->
  robust_set (pattr P) = true ->
  (check_poison_item e P r off v = Ok tt /\ poisoned e P v (base r + off)) \/
  (check_poison_item e P r off v = Abort /\ ~ poisoned e P v (base r + off)).
Proof.
  intros P v r off HG HR Ho Hol Hrob. pose proof (item_pos _ _ HG) as Hip.
  unfold check_poison_item. rewrite Hrob. cbn [negb]. rewrite (init_ptr P v) by (auto; lia).
  destruct (check_cpus_spec P v r off (cpus P) HG HR Ho Hol) as [[Hc Hg]|[Hc Hb]].
  { intros i Hi. unfold cpus in Hi. apply in_zseq in Hi. lia. }
  - rewrite Hc. destruct (cow_init P) eqn:Ec.
    + destruct (check_poison_spec v (base r + strd P * ncpus P + off) (item_len P) (poison (pattr P))) as [[-> Hg']|[-> Hb']].
      * lia.
      * apply (g_poison _ _ HG).
      * apply (item_accessible P); auto; try lia. unfold na, nd. rewrite Ec. pose proof (g_cpus _ _ HG). destruct (robust_set (pattr P)); lia.
      * left. split; [reflexivity|]. intros i k Hi Hk Hlt. unfold nd in Hi. rewrite Ec in Hi.
        destruct (Z.eq_dec i (ncpus P)) as [->|Hn].
        -- replace (base r + off + strd P * ncpus P + wsz e * k) with (base r + strd P * ncpus P + off + wsz e * k) by ring. auto.
        -- replace (base r + off + strd P * i + wsz e * k) with (base r + strd P * i + off + wsz e * k) by ring.
           apply Hg; auto. unfold cpus. apply in_zseq. lia.
      * right. split; [reflexivity|]. intros Hp. apply Hb'. intros k Hk Hlt.
        replace (base r + strd P * ncpus P + off + wsz e * k) with (base r + off + strd P * ncpus P + wsz e * k) by ring.
        apply Hp; auto. unfold nd. rewrite Ec. pose proof (g_cpus _ _ HG). lia.
    + left. split; [reflexivity|]. intros i k Hi Hk Hlt. unfold nd in Hi. rewrite Ec in Hi.
      replace (base r + off + strd P * i + wsz e * k) with (base r + strd P * i + off + wsz e * k) by ring.
      apply Hg; auto. unfold cpus. apply in_zseq. lia.
  - right. assert (Hnp : ~ poisoned e P v (base r + off)).
    { intros Hp. apply Hb. intros i k Hi Hk Hlt.
      replace (base r + strd P * i + off + wsz e * k) with (base r + off + strd P * i + wsz e * k) by ring.
      apply Hp; auto. unfold cpus in Hi. apply in_zseq in Hi. pose proof (nd_bounds P). lia. }
    split; auto. rewrite Hc. destruct (cow_init P) eqn:Ec; [|reflexivity].
    destruct (check_poison_spec v (base r + strd P * ncpus P + off) (item_len P) (poison (pattr P))) as [[-> Hg']|[-> Hb']]; try reflexivity.
    + lia.
    + apply (g_poison _ _ HG).
    + apply (item_accessible P); auto; try lia. unfold na, nd. rewrite Ec. pose proof (g_cpus _ _ HG). destruct (robust_set (pattr P)); lia.
Qed.
End Item.
