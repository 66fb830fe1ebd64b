(** Invariant of a pool, and the elementary lemmas about items. *)
From Coq Require Import ZArith Bool List Lia Znumtheory.
From Verif Require Import UtilsModel UtilsLemmas RseqIR MemLemmas PoolVM PoolVMLemmas PoolModel.
Import ListNotations.
Local Open Scope Z_scope.

Definition cow_init (P : pool) : bool := populate_policy (pattr P) =? COW_INIT.
Notation ncpus P := (max_nr_cpus (pattr P)).
Notation strd P := (stride (pattr P)).
(** Number of stride-sized areas that hold item data: one per CPU, and the
    initial values. *)
Definition nd (P : pool) : Z := ncpus P + (if cow_init P then 1 else 0).
(** ... and with the robust pools' area for the free list. *)
Definition na (P : pool) : Z := nd P + (if robust_set (pattr P) then 1 else 0).
(** Area that holds the free-list nodes. *)
Definition nidx (P : pool) : Z :=
  if robust_set (pattr P) || cow_init P then na P - 1 else 0.
Definition node (P : pool) (a : Z) : Z := a + strd P * nidx P.

Lemma nd_bounds : forall P, ncpus P <= nd P <= ncpus P + 1.
Proof. intros P. unfold nd. destruct (cow_init P); lia. Qed.
Lemma na_bounds : forall P, nd P <= na P <= nd P + 1.
Proof. intros P. unfold na. destruct (robust_set (pattr P)); lia. Qed.
Lemma div_pow2 : forall a b, 0 <= a <= b -> (2 ^ a | 2 ^ b).
Proof.
  intros a b H. exists (2 ^ (b - a)). rewrite <- Z.pow_add_r by lia. f_equal. lia.
Qed.

(** A page is a power of two (rseq_get_page_len, src/rseq-utils.h:109-116). *)
Definition env_ok (e : env) : Prop := exists po, 3 <= po < word_bits (e_wide e) - 1 /\ e_page e = 2 ^ po.

Section Inv.
Variable e : env.
Notation psz := (e_page e).
Notation page := (PoolVM.page e).

Record geom (P : pool) : Prop := {
  g_env : env_ok e;
  g_stride : exists so, 0 <= so < word_bits (e_wide e) /\ psz <= 2 ^ so /\ item_order P <= so /\ strd P = 2 ^ so;
  g_order : 2 <= item_order P /\ wlog e <= item_order P;
  g_item : item_len P = 2 ^ item_order P;
  g_cpus : 1 <= ncpus P;
  g_policy : populate_policy (pattr P) = COW_INIT \/ populate_policy (pattr P) = COW_ZERO;
  g_type : populate_policy (pattr P) = COW_INIT -> type (pattr P) = TYPE_PERCPU;
  g_poison : 0 <= poison (pattr P) < wmax e;
  g_robust : robust_set (pattr P) = true -> poison_set (pattr P) = true;
  g_fit : strd P * (ncpus P + 5) < wmax e
}.

Definition region (r : range) (a : Z) : Prop := mmap_addr r <= a < mmap_addr r + mmap_len r.

(** Bytes of the item at offset [off], of length [len], in every area. *)
Definition inF (P : pool) (r : range) (off len a : Z) : Prop :=
  base r <= a < base r + strd P * na P /\ off <= (a - base r) mod strd P < off + len.

Definition rlinks (P : pool) (r : range) (v : vm) : Prop :=
  forall p q, link v p = Some q -> region r (p * psz) \/ region r (q * psz) ->
    cow_init P = true /\
    base r <= p * psz < base r + strd P * ncpus P /\
    base r + strd P * ncpus P <= q * psz < base r + strd P * nd P /\
    (strd P | (q - p) * psz).

(** The bitmap has one bit per item of the range, and nothing else is set. *)
Definition bitmap_ok (P : pool) (r : range) : Prop :=
  exists bm, alloc_bitmap r = Some bm /\ length bm = Z.to_nat (bitmap_words e P) /\
    Forall (fun w => 0 <= w < wmax e) bm /\
    forall k b, 0 <= b < word_bits (e_wide e) -> Z.testbit (nth k bm 0) b = true -> (word_bits (e_wide e) * Z.of_nat k + b) * item_len P < strd P.

Record rinv (P : pool) (v : vm) (r : range) : Prop := {
  r_al : (strd P | base r);
  r_lo : 3 * psz <= base r;
  r_hi : base r + strd P * na P <= wmax e - psz;
  r_hdr : header r = base r - 2 * psz;
  r_addr : mmap_addr r = base r - 2 * psz;
  r_len : mmap_len r = 2 * psz + strd P * na P;
  r_init : init r = if cow_init P then Some (base r + strd P * ncpus P) else None;
  r_unused : 0 <= next_unused r <= strd P;
  r_div : (item_len P | next_unused r);
  r_map : forall a, region r a -> mapped v (page a) = true;
  r_link : rlinks P r v;
  r_bitmap : if robust_set (pattr P) then bitmap_ok P r else alloc_bitmap r = None;
  r_mark : cow_init P = true -> byte (view e v) (header r) = 1;
  r_dontfork : forall a, region r a -> dontfork v (page a) = cow_init P && (base r <=? a);
  r_wipefork : forall a, region r a -> wipefork v (page a) = cow_init P && (a <? base r - psz)
}.

Definition slot_bit (P : pool) (r : range) (o : Z) : bool :=
  match alloc_bitmap r with
  | Some bm => Z.testbit (nth (Z.to_nat (slot_word e P o)) bm 0) (Z.shiftr o (item_order P) mod word_bits (e_wide e))
  | None => false
  end.

Fixpoint chain (P : pool) (v : vm) (h : Z) (l : list Z) : Prop :=
  match l with
  | [] => h = 0
  | a :: l => h = node P a /\ chain P v (load_word e v h) l
  end.

(** [a] is the address of an item of the pool that has been handed out at least once. *)
Definition slot (P : pool) (a : Z) : Prop :=
  exists r, In r (range_list P) /\ 0 <= a - base r < next_unused r /\ (item_len P | a - base r).

Definition apart (r r' : range) : Prop :=
  mmap_addr r + mmap_len r <= mmap_addr r' \/ mmap_addr r' + mmap_len r' <= mmap_addr r.

Record pinv (P : pool) (free live : list Z) (v : vm) : Prop := {
  pi_geom : geom P;
  pi_ranges : Forall (rinv P v) (range_list P);
  pi_apart : ForallOrdPairs apart (range_list P);
  pi_full : Forall (fun r => next_unused r = strd P) (tl (range_list P));
  pi_slots : forall a, In a (free ++ live) <-> slot P a;
  pi_nodup : NoDup (free ++ live);
  pi_bits : robust_set (pattr P) = true -> forall r o, In r (range_list P) ->
    0 <= o < strd P -> (item_len P | o) -> (slot_bit P r o = true <-> In (base r + o) live);
  pi_chain : chain P v (free_list_head P) free;
  pi_nr : nr_ranges P = Z.of_nat (length (range_list P));
  pi_max : max_nr_ranges (pattr P) = 0 \/ nr_ranges P <= max_nr_ranges (pattr P)
}.

(** Every data word of the item is the poison value. *)
Definition poisoned (P : pool) (v : vm) (a : Z) : Prop :=
  forall i k, 0 <= i < nd P -> 0 <= k -> wsz e * k < item_len P ->
    load_word e v (a + strd P * i + wsz e * k) = poison (pattr P).

(** ** Arithmetic of the layout *)
Section Geom.
Variable P : pool.
Hypothesis HG : geom P.

Lemma g_psz : 0 < psz.
Proof. destruct (g_env _ HG) as (po & H & ->). apply Z.pow_pos_nonneg; lia. Qed.
Lemma strd_pos : 0 < strd P.
Proof. destruct (g_stride _ HG) as (so & H & _ & _ & ->). apply Z.pow_pos_nonneg; lia. Qed.
Lemma item_pos : 4 <= item_len P /\ wsz e <= item_len P.
Proof.
  rewrite (g_item _ HG). pose proof (g_order _ HG). pose proof (wsz_range e). assert (wsz e <= 2 ^ item_order P); [|lia].
  rewrite wsz_pow. apply Z.pow_le_mono_r; lia.
Qed.
Lemma psz_strd : (psz | strd P).
Proof.
  destruct (g_stride _ HG) as (so & H & H2 & _ & ->). destruct (g_env _ HG) as (po & Hpo & Hp).
  rewrite Hp in *. apply div_pow2. apply Z.pow_le_mono_r_iff in H2; lia.
Qed.
Lemma item_strd : (item_len P | strd P).
Proof.
  destruct (g_stride _ HG) as (so & H & _ & H2 & ->). rewrite (g_item _ HG). apply div_pow2.
  pose proof (g_order _ HG). pose proof (wlog_range e). lia.
Qed.
Lemma eight_item : (wsz e | item_len P).
Proof. rewrite (g_item _ HG). rewrite wsz_pow. pose proof (wlog_range e). apply div_pow2. pose proof (g_order _ HG). pose proof (wlog_range e). lia. Qed.
Lemma eight_psz : (wsz e | psz).
Proof. destruct (g_env _ HG) as (po & Hpo & ->). rewrite wsz_pow. pose proof (wlog_range e). apply div_pow2. lia. Qed.
Lemma strd_le : strd P < wmax e.
Proof. pose proof (g_fit _ HG). pose proof (g_cpus _ HG). pose proof strd_pos. nia. Qed.
Lemma psz_le_strd : psz <= strd P.
Proof. apply Z.divide_pos_le; [apply strd_pos|apply psz_strd]. Qed.
Lemma nidx_bounds : 0 <= nidx P < na P.
Proof.
  unfold nidx. pose proof (na_bounds P). pose proof (nd_bounds P). pose proof (g_cpus _ HG).
  destruct (robust_set (pattr P) || cow_init P); lia.
Qed.

Lemma room_next : forall n, 0 <= n <= strd P -> (item_len P | n) -> n <> strd P -> n + item_len P <= strd P.
Proof.
  intros n Hn [k ->] Hne. destruct item_strd as [m Hm]. pose proof item_pos.
  assert (k < m) by nia. nia.
Qed.

Lemma slot_room : forall o n, 0 <= n <= strd P -> (item_len P | n) -> 0 <= o < n -> (item_len P | o) -> o + item_len P <= n.
Proof. intros o n Hn [k ->] Ho [j ->]. pose proof item_pos. assert (j < k) by nia. nia. Qed.
End Geom.

(** An address of area [i] of the range. *)
Lemma area_mod : forall s i o b, 0 < s -> 0 <= o < s -> (b + s * i + o - b) mod s = o.
Proof.
  intros s i o b Hs Ho. replace (b + s * i + o - b) with (o + i * s) by ring.
  rewrite Z.mod_add by lia. apply Z.mod_small. lia.
Qed.

Lemma area_dec : forall s n b a, 0 < s -> b <= a < b + s * n ->
  exists i, 0 <= i < n /\ a = b + s * i + (a - b) mod s.
Proof.
  intros s n b a Hs Ha. exists ((a - b) / s). pose proof (Z.div_mod (a - b) s ltac:(lia)).
  split; [|lia]. split; [apply Z.div_pos; lia|]. apply Z.div_lt_upper_bound; lia.
Qed.

Lemma inF_area : forall P r off len i x, 0 < strd P -> 0 <= off -> off + len <= strd P ->
  0 <= i < na P -> off <= x < off + len -> inF P r off len (base r + strd P * i + x).
Proof.
  intros P r off len i x Hs Ho Hol Hi Hx. split.
  - nia.
  - rewrite area_mod by lia. lia.
Qed.

Lemma inF_disjoint : forall P r o o' a, geom P -> (item_len P | o) -> (item_len P | o') ->
  inF P r o (item_len P) a -> inF P r o' (item_len P) a -> o = o'.
Proof.
  intros P r o o' a HG [k ->] [j ->] [_ H1] [_ H2]. pose proof (item_pos _ HG).
  destruct (Z.lt_trichotomy k j) as [Hlt|[->|Hlt]]; [exfalso; nia|auto|exfalso; nia].
Qed.

Lemma inF_sub : forall P r o len len' a, inF P r o len a -> len <= len' -> inF P r o len' a.
Proof. intros P r o len len' a [H1 H2] Hl. split; auto. lia. Qed.

Lemma inF_region : forall P v r off len a, geom P -> rinv P v r -> inF P r off len a -> region r a.
Proof.
  intros P v r off len a HG HR [H _]. unfold region.
  rewrite (r_addr _ _ _ HR), (r_len _ _ _ HR). pose proof (g_psz _ HG). lia.
Qed.

Lemma page_le_addr : forall a, 0 < psz -> page a * psz <= a < page a * psz + psz.
Proof. intros. apply page_bounds. auto. Qed.

Lemma page_down : forall a x, 0 < psz -> (psz | x) -> x <= a -> x <= page a * psz.
Proof.
  intros a x Hpsz [k ->] H. pose proof (page_le_addr a Hpsz).
  assert (k <= page a) by nia. nia.
Qed.
Lemma page_up : forall a x, 0 < psz -> (psz | x) -> page a * psz < x -> a < x.
Proof.
  intros a x Hpsz [k ->] H. pose proof (page_le_addr a Hpsz).
  assert (page a + 1 <= k) by nia. nia.
Qed.
Lemma base_div : forall P v r, geom P -> rinv P v r -> (psz | base r).
Proof. intros P v r HG HR. eapply Z.divide_trans; [apply psz_strd; eauto|apply (r_al _ _ _ HR)]. Qed.

(** Pages of a region are wholly inside it. *)
Lemma region_page : forall P v r a, geom P -> rinv P v r -> region r a -> region r (page a * psz).
Proof.
  intros P v r a HG HR H. unfold region in *. rewrite (r_addr _ _ _ HR), (r_len _ _ _ HR) in *.
  pose proof (page_le_addr a (g_psz _ HG)). split; [|lia]. apply page_down; [apply (g_psz _ HG)| |lia].
  apply Z.divide_sub_r; [eapply base_div; eauto|apply Z.divide_factor_r].
Qed.

Lemma alias_inF : forall P v r off len x a, geom P -> rinv P v r ->
  inF P r off len x -> aliases e v x a -> inF P r off len a.
Proof.
  intros P v r off len x a HG HR Hx [->|[Hl Hmod]]; auto.
  pose proof (inF_region _ _ _ _ _ _ HG HR Hx) as Hreg.
  destruct (r_link _ _ _ HR _ _ Hl) as (Hc & Hp & Hq & Hd).
  - right. eapply region_page; eauto.
  - destruct Hx as [Hx1 Hx2]. pose proof (page_le_addr a (g_psz _ HG)). pose proof (page_le_addr x (g_psz _ HG)).
    pose proof (page_split e (g_psz _ HG) a) as Sa. pose proof (page_split e (g_psz _ HG) x) as Sx.
    assert (Ha : base r <= a < base r + strd P * ncpus P).
    { split; [lia|]. apply page_up; [apply (g_psz _ HG)| |lia].
      apply Z.divide_add_r; [eapply base_div; eauto|]. apply Z.divide_mul_l. now apply psz_strd. }
    pose proof (nd_bounds P). pose proof (na_bounds P). pose proof (strd_pos _ HG).
    split; [nia|].
    replace (a - base r) with (x - base r + - ((page x - page a) * psz)) by lia.
    destruct Hd as [d Hd]. rewrite Hd. replace (- (d * strd P)) with (- d * strd P) by ring.
    rewrite Z.mod_add by lia. exact Hx2.
Qed.

(** Nothing is linked to a CPU's area. *)
Lemma alias_cpu : forall P v r x a, geom P -> rinv P v r ->
  base r <= x < base r + strd P * ncpus P -> aliases e v x a -> a = x.
Proof.
  intros P v r x a HG HR Hx [->|[Hl Hmod]]; auto. exfalso.
  assert (Hreg : region r x).
  { unfold region. rewrite (r_addr _ _ _ HR), (r_len _ _ _ HR). pose proof (nd_bounds P).
    pose proof (na_bounds P). pose proof (strd_pos _ HG). pose proof (g_psz _ HG). nia. }
  destruct (r_link _ _ _ HR _ _ Hl) as (Hc & Hp & Hq & Hd).
  - right. eapply region_page; eauto.
  - pose proof (page_le_addr x (g_psz _ HG)). lia.
Qed.

(** ** The invariant only depends on the range's own memory *)
Lemma rinv_frame : forall P v v' r, geom P -> rinv P v r -> vframe e (region r) v v' -> rinv P v' r.
Proof.
  intros P v v' r HG HR HF. destruct HR. constructor; auto.
  - intros a Ha. rewrite (fr_mapped _ _ _ _ HF); auto.
  - intros p q Hl Hr. apply r_link0; auto.
    destruct Hr as [Hr|Hr].
    + eapply (fr_link _ _ _ _ HF); [exact Hl|exact Hr|]. left. apply page_mul, (g_psz _ HG).
    + eapply (fr_link _ _ _ _ HF); [exact Hl|exact Hr|]. right. apply page_mul, (g_psz _ HG).
  - intros Hc. unfold byte. rewrite (fr_view _ _ _ _ HF); [apply r_mark0; auto|].
    unfold region. rewrite r_addr0, r_len0, r_hdr0. pose proof (g_psz _ HG). pose proof (strd_pos _ HG).
    pose proof (na_bounds P). pose proof (nd_bounds P). pose proof (g_cpus _ HG). nia.
  - intros a Ha. rewrite (fr_dontfork _ _ _ _ HF); auto.
  - intros a Ha. rewrite (fr_wipefork _ _ _ _ HF); auto.
Qed.

(** After stores to item data. *)
Lemma rinv_store : forall P v r ps, geom P -> vmwf e v -> rinv P v r ->
  (forall x, In x (map fst ps) -> ~ region r x \/ base r <= x) -> rinv P (store e v ps) r.
Proof.
  intros P v r ps HG Hwf HR Hps. destruct HR. constructor; auto.
  - intros a Ha. rewrite store_mapped. auto.
  - intros p q Hl Hr. apply store_link in Hl. destruct Hl. apply r_link0; auto.
  - intros Hc. unfold byte. rewrite view_store_other; [apply r_mark0; auto|apply (g_psz _ HG)|auto|].
    intros x Hx Hal.
    assert (Hh : region r (header r)).
    { unfold region. rewrite r_addr0, r_len0, r_hdr0. pose proof (g_psz _ HG). pose proof (strd_pos _ HG).
    pose proof (na_bounds P). pose proof (nd_bounds P). pose proof (g_cpus _ HG). nia. }
    destruct Hal as [E|[Hl Hm]].
    + subst x. destruct (Hps _ Hx) as [H|H]; [auto|]. rewrite r_hdr0 in H. pose proof (g_psz _ HG). lia.
    + destruct (r_link0 _ _ Hl) as (_ & Hp & _).
      * left. eapply region_page; eauto. constructor; auto.
      * pose proof (page_le_addr (header r) (g_psz _ HG)). rewrite r_hdr0 in *. pose proof (g_psz _ HG). lia.
  - intros a Ha. rewrite store_dontfork. auto.
  - intros a Ha. rewrite store_wipefork. auto.
Qed.

Lemma chain_ext : forall P v v' l h,
  (forall a x, In a l -> node P a <= x < node P a + wsz e -> view e v' x = view e v x) ->
  chain P v h l -> chain P v' h l.
Proof.
  intros P v v' l. induction l as [|a l IH]; intros h H Hc; cbn in *; auto.
  destruct Hc as [-> Hc]. split; auto.
  rewrite (load_word_ext e v v'); [apply IH; auto|].
  - intros b x Hb. apply H. now right.
  - intros x Hx. apply (H a); auto.
Qed.

Lemma chain_pool : forall P P' v h l, nidx P' = nidx P -> strd P' = strd P -> chain P v h l -> chain P' v h l.
Proof.
  intros P P' v h l H1 H2. revert h. induction l as [|a l IH]; intros h Hc; cbn in *; auto.
  destruct Hc as [-> Hc]. split; [unfold node; congruence|].
  apply IH. exact Hc.
Qed.
End Inv.
