(** Proofs for C73. *)
From Coq Require Import ZArith Bool List Lia Znumtheory.
From Verif Require Import UtilsModel UtilsLemmas RseqIR RseqSpec MemLemmas PoolVM PoolVMLemmas PoolModel PoolInv PoolItem PoolMap PoolRange PoolBitmap PoolOps PoolMalloc PoolFree PoolWorld PoolDestroy PoolCreate PoolHist PoolProps PoolProps2 PoolProps3 PoolProps4 PlacePool TestModel TestNr RobustModel.
Import ListNotations.
Local Open Scope Z_scope.

(** Stray writes only add histories. *)
Lemma history_weaken : forall e s v0 w L F, history e s v0 w L F -> history e false v0 w L F.
Proof.
  intros e s v0 w L F (Hm & Hs & Hr). split; [exact Hm|]. split; [exact Hs|]. clear Hm Hs.
  induction Hr as [|w live freed o w' x Hr IH Hal Hrun|w live freed Hr IH Hf|w live freed v' Hr IH Ha].
  - constructor.
  - apply (reach_step e false v0 w live freed o w' x IH); [|exact Hrun].
    destruct o; try exact Hal. intros x0 Hx0. destruct (Hal x0 Hx0) as [Q|[_ Q]]; [left; exact Q|right; split; [reflexivity|exact Q]].
  - apply (reach_fork e false v0 w live freed IH Hf).
  - apply (reach_rest e false v0 w live freed v' IH Ha).
Qed.

Section Proofs.
Variable e : env.
Notation page := (PoolVM.page e).
Notation geom := (geom e).
Notation rinv := (rinv e).
Notation W := (wsz e).

(** Taking the item at the head of the free list: either alarm, or its slot is marked,
    and was not. *)
Lemma pop_marks : forall P v an r off, geom P -> Forall (rinv P v) (range_list P) -> ForallOrdPairs apart (range_list P) ->
  In r (range_list P) -> (item_len P | off) -> 0 <= off -> off + item_len P <= strd P -> robust_set (pattr P) = true ->
  free_list_head P = node P (base r + off) ->
  malloc_locked e P an v = Abort \/
  slot_bit e P r off = false /\ exists bm, let r' := set_bitmap r (Some bm) in
    malloc_locked e P an v = Ok (Some (r', off, base r + off), set_ranges (set_head P (load_word e v (free_list_head P))) (put_range (range_list P) r'), v) /\
    bitmap_ok e P r' /\ slot_bit e P r' off = true.
Proof.
  intros P v an r off HG HF HA Hr Hd Ho Hol Hrob Hh.
  pose proof (item_pos _ _ HG) as Hip. assert (Hoff : 0 <= off < strd P) by lia.
  assert (HR : rinv P v r) by (rewrite Forall_forall in HF; exact (HF r Hr)).
  pose proof (node_bounds e P v r HG HR off Hoff) as (Hn1 & Hn2 & Hn3).
  pose proof (node_accessible e P v r HG HR off Ho ltac:(lia)) as Hac.
  unfold malloc_locked. rewrite Hh. set (n := node P (base r + off)) in *.
  replace (n =? 0) with false by (symmetry; apply Z.eqb_neq; lia). cbn [negb].
  assert (Hfn : free_list_to_percpu_ptr e P n = base r + off) by (exact (from_node e P v r HG HR off Hoff)).
  rewrite Hfn. rewrite (base_of e P v r HG HR off Hoff). rewrite (find_range_in e P v (range_list P) r HG HF HA Hr).
  rewrite Hac. cbn [negb].
  set (nx := load_word e v n). replace (base r + off - base r) with off by ring.
  assert (HS : same P (set_head P nx)) by apply set_head_same.
  rewrite (s_fl P _ HS), Hfn.
  destruct (check_poison_item_spec e (set_head P nx) v r off (s_geom P _ HS e HG) (s_rinv P _ HS e v r HR) Ho Hol Hrob) as [[E _]|[E _]];
    rewrite E; cbn [bind]; [|left; reflexivity].
  pose proof (r_bitmap _ _ _ _ HR) as Hbm. rewrite Hrob in Hbm.
  change (set_alloc_slot e (set_head P nx) r off) with (set_alloc_slot e P r off).
  destruct (set_slot_spec e P HG r off Hbm Hoff Hd) as [[_ E2]|(Hb & bm & E2 & Hok & Hb')]; rewrite E2; cbn [bind]; [left; reflexivity|].
  right. split; [exact Hb|]. exists bm. cbv zeta. split; [reflexivity|]. split; [exact Hok|].
  rewrite (Hb' off Hoff Hd), Z.eqb_refl. reflexivity.
Qed.

(** A free list whose first node links to itself: the second allocation at the latest
    reports it. *)
Lemma cycle_detected : forall P v an1 an2 r off, geom P -> Forall (rinv P v) (range_list P) -> ForallOrdPairs apart (range_list P) ->
  In r (range_list P) -> (item_len P | off) -> 0 <= off -> off + item_len P <= strd P -> robust_set (pattr P) = true ->
  free_list_head P = node P (base r + off) -> load_word e v (free_list_head P) = free_list_head P ->
  (do x <- malloc_locked e P an1 v; let '(_, P', v') := x in malloc_locked e P' an2 v') = Abort.
Proof.
  intros P v an1 an2 r off HG HF HA Hr Hd Ho Hol Hrob Hh Hcyc.
  destruct (pop_marks P v an1 r off HG HF HA Hr Hd Ho Hol Hrob Hh) as [E|(Hb & bm & E & Hok & Hb')]; rewrite E; cbn [bind]; [reflexivity|].
  rewrite Hcyc. set (r' := set_bitmap r (Some bm)) in *.
  set (P' := set_ranges (set_head P (free_list_head P)) (put_range (range_list P) r')).
  assert (HR : rinv P v r) by (rewrite Forall_forall in HF; exact (HF r Hr)).
  assert (Htw : twin r r') by apply twin_bitmap.
  assert (HR' : rinv P v r').
  { apply (rinv_twin e P v r r' Htw HR (r_unused _ _ _ _ HR) (r_div _ _ _ _ HR)). rewrite Hrob. exact Hok. }
  assert (HS : same P P') by (repeat split).
  assert (Hr' : In r' (range_list P')) by (apply (put_in (range_list P) r r' Hr Htw); left; reflexivity).
  destruct (pop_marks P' v an2 r' off (s_geom P P' HS e HG)) as [E'|(Hb2 & _)].
  - cbn [P' range_list set_ranges]. assert (K : Forall (rinv P v) (put_range (range_list P) r')) by (apply (put_Forall (range_list P) r r' Hr Htw); assumption).
    rewrite Forall_forall in K |- *. intros x Hx. exact (s_rinv P P' HS e v x (K x Hx)).
  - exact (put_apart e P v (range_list P) r r' HG HF HA Hr Htw).
  - exact Hr'.
  - exact Hd.
  - exact Ho.
  - exact Hol.
  - exact Hrob.
  - rewrite (s_node P P' HS). cbn [P' free_list_head set_ranges set_head]. exact Hh.
  - exact E'.
  - exfalso. rewrite (s_bit P P' HS) in Hb2. rewrite Hb2 in Hb'. discriminate Hb'.
Qed.

Lemma lookup_set : forall id P Q l, lookup id l = Some Q -> lookup id (set_pool id P l) = Some P.
Proof.
  intros id P Q. unfold lookup, set_pool. induction l as [|[i R] l IH]; cbn [find map fst]; [discriminate|].
  destruct (i =? id) eqn:E; cbn [fst]; [rewrite Z.eqb_refl; reflexivity|rewrite E; exact IH].
Qed.

(** The common beginning of the tests: allocate and free. *)
Record begun (s : bool) (v0 : vm) (id : Z) (P : pool) (a : Z) (w2 : world) (P2 : pool) (L2 F2 : ledger) (r : range) : Prop := {
  b_hist : history e s v0 w2 L2 ((id, a) :: F2);
  b_pool : lookup id (w_pools w2) = Some P2;
  b_same : same P P2;
  b_live : ~ In (id, a) L2;
  b_range : In r (range_list P2);
  b_rinv : rinv P2 (w_vm w2) r;
  b_lo : 0 <= a - base r;
  b_hi : a - base r + item_len P2 <= strd P2;
  b_div : (item_len P2 | a - base r)
}.

Section One.
Variables (s : bool) (v0 : vm) (w : world) (L F : ledger).
Hypothesis HH : history e s v0 w L F.
Variables (id : Z) (P : pool) (an : answers) (w1 : world) (a : Z).
Hypothesis Hl : lookup id (w_pools w) = Some P.
Hypothesis Hrob : robust_set (pattr P) = true.
Hypothesis Hm : run1 e (OMalloc id an) w = Ok (w1, OutItem a).

Lemma after_malloc : exists P1 F1, history e s v0 w1 ((id, a) :: L) F1 /\ lookup id (w_pools w1) = Some P1 /\ same P P1.
Proof.
  assert (Hal : allowed e s v0 w L (OMalloc id an)) by (exists P; exact Hl).
  pose proof (hist_step e s v0 w L F _ _ _ HH Hal Hm) as H1.
  destruct (pool_stays e s v0 w L F HH id P _ _ _ (lookup_in _ _ _ Hl) Hal Hm Logic.I) as (P1 & Hi1 & HS1).
  exists P1. eexists. split; [exact H1|]. split; [|exact HS1].
  exact (lookup_some _ _ _ (wi_ids _ _ _ _ _ _ (hist_inv _ _ _ _ _ _ H1)) Hi1).
Qed.

Lemma after_free : exists w2 P2 L2 F2 r, run1 e (OFree a (strd P)) w1 = Ok (w2, OutUnit) /\ begun s v0 id P a w2 P2 L2 F2 r.
Proof.
  destruct after_malloc as (P1 & F1 & H1 & Hl1 & HS1).
  destruct (p_free_ok e s v0 w1 _ _ H1 id P1 a Hl1 (or_introl eq_refl)) as (w2 & Hf).
  assert (Hal : allowed e s v0 w1 ((id, a) :: L) (OFree a (strd P1))).
  { exists id, P1. split; [exact Hl1|]. split; [left; reflexivity|reflexivity]. }
  pose proof (hist_step e s v0 w1 _ _ _ _ _ H1 Hal Hf) as H2.
  destruct (pool_stays e s v0 w1 _ _ H1 id P1 _ _ _ (lookup_in _ _ _ Hl1) Hal Hf Logic.I) as (P2 & Hi2 & HS2).
  cbn [freed_after] in H2. rewrite (holder_spec e s v0 w1 _ _ id a (hist_inv _ _ _ _ _ _ H1) (or_introl eq_refl)) in H2.
  destruct (known_item e s v0 w2 _ _ H2 id P2 a Hi2 (or_introl eq_refl)) as (r & Hr & HR & Ho & Hol & Hd).
  exists w2, P2. eexists. exists F1, r. split.
  - destruct HS1 as (E & _). rewrite E in Hf. exact Hf.
  - constructor.
    + exact H2.
    + exact (lookup_some _ _ _ (wi_ids _ _ _ _ _ _ (hist_inv _ _ _ _ _ _ H2)) Hi2).
    + exact (same_trans _ _ _ HS1 HS2).
    + intros Hi. cbn [live_after] in Hi. apply filter_In in Hi. cbn [snd] in Hi. rewrite Z.eqb_refl in Hi. destruct Hi as [_ Hi]. discriminate Hi.
    + exact Hr.
    + exact HR.
    + exact Ho.
    + exact Hol.
    + exact Hd.
Qed.

Notation st_ := (stride (pattr P)).
Notation nc_ := (max_nr_cpus (pattr P)).
Notation pol_ := (populate_policy (pattr P)).

Lemma malloc_is : malloc e id w an = Ok (w1, a).
Proof. unfold malloc. rewrite Hm. reflexivity. Qed.

Lemma r_double_free : test_robust_double_free e id st_ an w = Abort.
Proof.
  unfold test_robust_double_free. rewrite malloc_is. cbn [bind]. destruct after_free as (w2 & P2 & L2 & F2 & r & Hf & B).
  unfold free. rewrite Hf. cbn [bind fst].
  pose proof (item_pos _ _ (pi_geom _ _ _ _ _ (wi_pools _ _ _ _ _ _ (hist_inv _ _ _ _ _ _ (b_hist _ _ _ _ _ _ _ _ _ _ B)) _ _ (lookup_in _ _ _ (b_pool _ _ _ _ _ _ _ _ _ _ B))))) as Hip.
  destruct (b_same _ _ _ _ _ _ _ _ _ _ B) as (ES & _).
  pose proof (b_lo _ _ _ _ _ _ _ _ _ _ B) as Ho. pose proof (b_hi _ _ _ _ _ _ _ _ _ _ B) as Hhi.
  assert (E : run1 e (OFree (base r + (a - base r)) (strd P2)) w2 = Abort).
  { apply (p_double_free e s v0 w2 L2 _ (b_hist _ _ _ _ _ _ _ _ _ _ B) id P2 r (a - base r) (b_pool _ _ _ _ _ _ _ _ _ _ B)).
    - rewrite ES. exact Hrob.
    - exact (b_range _ _ _ _ _ _ _ _ _ _ B).
    - lia.
    - exact (b_div _ _ _ _ _ _ _ _ _ _ B).
    - replace (base r + (a - base r)) with a by ring. exact (b_live _ _ _ _ _ _ _ _ _ _ B). }
  replace (base r + (a - base r)) with a in E by ring. rewrite ES in E. rewrite E. reflexivity.
Qed.

Lemma r_leak : forall an', test_robust_memory_leak e id an an' w = Abort.
Proof.
  intros an'. unfold test_robust_memory_leak. rewrite malloc_is. cbn [bind fst]. destruct after_malloc as (P1 & F1 & H1 & Hl1 & ES & _).
  unfold destroy. rewrite (p_destroy_leak e s v0 w1 _ _ H1 id P1 a an' Hl1); [reflexivity|rewrite ES; exact Hrob|left; reflexivity].
Qed.

(** A word written to an area of the freed item. *)
Section Write.
Variables (w2 : world) (P2 : pool) (L2 F2 : ledger) (r : range).
Hypothesis B : begun s v0 id P a w2 P2 L2 F2 r.
Let HW2 := hist_inv _ _ _ _ _ _ (b_hist _ _ _ _ _ _ _ _ _ _ B).
Let HI := wi_pools _ _ _ _ _ _ HW2 _ _ (lookup_in _ _ _ (b_pool _ _ _ _ _ _ _ _ _ _ B)).
Let HG := pi_geom _ _ _ _ _ HI.
Let ES : pattr P2 = pattr P := proj1 (b_same _ _ _ _ _ _ _ _ _ _ B).

Lemma rob2 : robust_set (pattr P2) = true.
Proof. rewrite ES. exact Hrob. Qed.
Lemma na2 : na P2 = copies P2 + 1.
Proof. unfold na. rewrite rob2. reflexivity. Qed.
Lemma nd2 : 0 < nd P2.
Proof. pose proof (nd_bounds P2). pose proof (g_cpus _ _ HG). lia. Qed.

Lemma st_area : forall i x, 0 <= i < na P2 -> let q := a + st_ * i in
  st e w2 (q + VALUE0) x = Ok {| w_vm := store e (w_vm w2) (stw (wcfg e) q x); w_pools := w_pools w2 |} /\
  forall y, In y (map fst (stw (wcfg e) q x)) -> base r + st_ * i <= y < base r + st_ * (i + 1).
Proof.
  intros i x Hi q. unfold VALUE0. rewrite Z.add_0_r.
  pose proof (b_lo _ _ _ _ _ _ _ _ _ _ B) as Ho. pose proof (b_hi _ _ _ _ _ _ _ _ _ _ B) as Hhi. pose proof (item_pos _ _ HG) as Hip.
  rewrite ES in Hhi. pose proof (strd_pos _ _ HG) as Hsp. rewrite ES in Hsp.
  assert (K : forall y, In y (map fst (stw (wcfg e) q x)) -> base r + st_ * i <= y < base r + st_ * (i + 1)).
  { intros y Hy. rewrite stw_keys in Hy. apply in_span in Hy. rewrite wsz_nat in Hy. unfold q in Hy. nia. }
  split; [|exact K]. unfold st. cbn [run1].
  assert (E : forallb (fun p => mapped (w_vm w2) (page (fst p))) (stw (wcfg e) q x) = true).
  { apply forallb_forall. intros y Hy. specialize (K (fst y) (in_map fst _ _ Hy)).
    pose proof (b_rinv _ _ _ _ _ _ _ _ _ _ B) as HR. apply (r_map _ _ _ _ HR). unfold region.
    rewrite (r_addr _ _ _ _ HR), (r_len _ _ _ _ HR), ES. pose proof (g_psz _ _ HG). nia. }
  rewrite E. cbn [bind fst]. reflexivity.
Qed.

Definition written i x := {| w_vm := store e (w_vm w2) (stw (wcfg e) (a + st_ * i) x); w_pools := w_pools w2 |}.

Lemma read_back : forall i x, 0 <= x < wmax e -> load_word e (w_vm (written i x)) (a + st_ * i) = x.
Proof. intros i x Hx. apply load_word_store; [exact (g_psz _ _ HG)|exact (wi_wf _ _ _ _ _ _ HW2)|exact Hx]. Qed.

Lemma hist_item : forall i x, 0 <= i < copies P2 -> history e false v0 (written i x) L2 ((id, a) :: F2).
Proof.
  intros i x Hi. destruct (st_area i x) as [E K]; [rewrite na2; lia|].
  unfold st in E. cbv zeta in E.
  pose proof (history_weaken _ _ _ _ _ _ (b_hist _ _ _ _ _ _ _ _ _ _ B)) as H2.
  set (ps := stw (wcfg e) (a + st_ * i) x) in *.
  assert (Hr : run1 e (OWrite ps) w2 = Ok (written i x, OutUnit)).
  { unfold VALUE0 in E. rewrite Z.add_0_r in E. fold ps in E. cbn [run1] in E |- *. destruct (forallb _ ps); [reflexivity|discriminate E]. }
  refine (hist_step e false v0 w2 L2 _ (OWrite ps) (written i x) OutUnit H2 _ Hr).
  intros y Hy. right. split; [reflexivity|]. exists id, P2, r. split; [exact (lookup_in _ _ _ (b_pool _ _ _ _ _ _ _ _ _ _ B))|].
  split; [exact rob2|]. split; [exact (b_range _ _ _ _ _ _ _ _ _ _ B)|]. specialize (K y Hy).
  pose proof (strd_pos _ _ HG) as Hsp. rewrite ES in Hsp |- *. nia.
Qed.

Lemma not_intact : forall i x, 0 <= i < copies P2 -> 0 <= x < wmax e -> x <> poison (pattr P) -> ~ intact e P2 (w_vm (written i x)) a.
Proof.
  intros i x Hi Hx Hne Hin. apply (intact_poisoned e P2 _ a HG) in Hin.
  pose proof (item_pos _ _ HG) as Hip. pose proof (wsz_range e) as Hw.
  specialize (Hin i 0). rewrite <- copies_nd in Hin. specialize (Hin Hi ltac:(lia) ltac:(lia)).
  rewrite ES in Hin. replace (a + st_ * i + wsz e * 0) with (a + st_ * i) in Hin by ring.
  rewrite (read_back i x Hx) in Hin. exact (Hne Hin).
Qed.

Lemma ranges_links : forall x, Forall (rinv P2 (w_vm (written (copies P2) x))) (range_list P2).
Proof.
  intros x. pose proof (pi_ranges _ _ _ _ _ HI) as HF0. rewrite Forall_forall in HF0 |- *. intros r1 Hr1.
  cbn [written w_vm]. apply (rinv_store e P2 (w_vm w2) r1 _ HG (wi_wf _ _ _ _ _ _ HW2) (HF0 _ Hr1)).
  intros y Hy. destruct (st_area (copies P2) x) as [_ Kx]; [pose proof nd2 as Hn; rewrite na2; rewrite copies_nd; lia|]. specialize (Kx y Hy).
  pose proof (strd_pos _ _ HG) as Hsp. rewrite ES in Hsp. pose proof nd2 as Hn. rewrite <- copies_nd in Hn.
  pose proof (b_rinv _ _ _ _ _ _ _ _ _ _ B) as HR.
  assert (Hb : base r <= y) by nia.
  assert (Hreg : region r y).
  { unfold region. rewrite (r_addr _ _ _ _ HR), (r_len _ _ _ _ HR), na2, ES. pose proof (g_psz _ _ HG). nia. }
  destruct (ordpairs_in _ _ _ (pi_apart _ _ _ _ _ HI) Hr1 (b_range _ _ _ _ _ _ _ _ _ _ B)) as [->|Hap]; [right; exact Hb|].
  left. intros Hy2. exact (apart_regions _ _ _ Hap Hy2 Hreg).
Qed.

Lemma head2 : free_list_head P2 = node P2 (base r + (a - base r)) /\ node P2 a = a + st_ * copies P2.
Proof.
  pose proof (pi_chain _ _ _ _ _ HI) as Hch. unfold items in Hch. cbn [filter fst map snd] in Hch. rewrite Z.eqb_refl in Hch.
  cbn [map snd chain] in Hch. destruct Hch as [Hch _]. replace (base r + (a - base r)) with a by ring. split; [exact Hch|].
  unfold node, nidx. rewrite rob2, na2, ES. cbn [orb]. ring.
Qed.

Lemma links_is : links_ptr st_ nc_ pol_ a = a + st_ * copies P2.
Proof.
  unfold links_ptr, copies, pptr. destruct (g_policy _ _ HG) as [E|E]; rewrite ES in E |- *; rewrite E.
  - replace (COW_INIT =? COW_ZERO) with false by reflexivity. rewrite Z.eqb_refl. reflexivity.
  - rewrite Z.eqb_refl. replace (COW_ZERO =? COW_INIT) with false by reflexivity. rewrite Z.add_0_r. reflexivity.
Qed.
End Write.

Lemma r_poison_destroy : forall x an', 0 <= x < wmax e -> x <> poison (pattr P) ->
  test_robust_poison_corruption_destroy e id st_ x an an' w = Abort.
Proof.
  intros x an' Hx Hne. unfold test_robust_poison_corruption_destroy. rewrite malloc_is. cbn [bind].
  destruct after_free as (w2 & P2 & L2 & F2 & r & Hf & B). unfold free. rewrite Hf. cbn [bind fst]. unfold pptr.
  pose proof (nd2 _ _ _ _ _ B) as Hn. rewrite <- copies_nd in Hn.
  destruct (st_area _ _ _ _ _ B 0 x) as [E _]; [rewrite (na2 _ _ _ _ _ B); lia|]. cbv zeta in E. rewrite E. cbn [bind].
  unfold destroy. change {| w_vm := _; w_pools := _ |} with (written w2 0 x).
  rewrite (p_destroy_corrupt e false v0 (written w2 0 x) L2 ((id, a) :: F2) (hist_item _ _ _ _ _ B 0 x ltac:(lia)) id P2 a an'
    (b_pool _ _ _ _ _ _ _ _ _ _ B) (rob2 _ _ _ _ _ B) (or_introl eq_refl) (not_intact _ _ _ _ _ B 0 x ltac:(lia) Hx Hne)). reflexivity.
Qed.

Lemma r_poison_malloc : forall x an1, 0 <= x < wmax e -> x <> poison (pattr P) ->
  test_robust_poison_corruption_malloc e id st_ x an an1 w = Abort.
Proof.
  intros x an1 Hx Hne. unfold test_robust_poison_corruption_malloc. rewrite malloc_is. cbn [bind].
  destruct after_free as (w2 & P2 & L2 & F2 & r & Hf & B). unfold free. rewrite Hf. cbn [bind fst]. unfold pptr.
  pose proof (nd2 _ _ _ _ _ B) as Hn. rewrite <- copies_nd in Hn.
  destruct (st_area _ _ _ _ _ B 0 x) as [E _]; [rewrite (na2 _ _ _ _ _ B); lia|]. cbv zeta in E. rewrite E. cbn [bind].
  change {| w_vm := _; w_pools := _ |} with (written w2 0 x).
  destruct (p_malloc_corrupt e false v0 (written w2 0 x) L2 ((id, a) :: F2) (hist_item _ _ _ _ _ B 0 x ltac:(lia)) id P2 a an1
    (b_pool _ _ _ _ _ _ _ _ _ _ B) (rob2 _ _ _ _ _ B) (or_introl eq_refl) (not_intact _ _ _ _ _ B 0 x ltac:(lia) Hx Hne)) as [_ K].
  rewrite K; [reflexivity|]. cbn [find fst]. rewrite Z.eqb_refl. reflexivity.
Qed.

Lemma r_corrupt : forall fn an', 0 < fn < wmax e -> mapped v0 (page fn) = true ->
  test_robust_corrupt_after_free e id st_ nc_ pol_ fn an an' w = Abort.
Proof.
  intros fn an' Hfn Hmap. unfold test_robust_corrupt_after_free. rewrite malloc_is. cbn [bind].
  destruct after_free as (w2 & P2 & L2 & F2 & r & Hf & B). unfold free. rewrite Hf. cbn [bind fst].
  rewrite (links_is _ _ _ _ _ B). pose proof (nd2 _ _ _ _ _ B) as Hn. rewrite <- copies_nd in Hn.
  destruct (st_area _ _ _ _ _ B (copies P2) fn) as [E _]; [rewrite (na2 _ _ _ _ _ B); lia|]. cbv zeta in E. rewrite E. cbn [bind].
  change {| w_vm := _; w_pools := _ |} with (written w2 (copies P2) fn).
  pose proof (ranges_links _ _ _ _ _ B fn) as HF. pose proof (hist_inv _ _ _ _ _ _ (b_hist _ _ _ _ _ _ _ _ _ _ B)) as HW2.
  pose proof (lookup_in _ _ _ (b_pool _ _ _ _ _ _ _ _ _ _ B)) as Hin.
  pose proof (pi_geom _ _ _ _ _ (wi_pools _ _ _ _ _ _ HW2 _ _ Hin)) as HG. pose proof (rob2 _ _ _ _ _ B) as Hrob2.
  destruct (head2 _ _ _ _ _ B) as [Hh Hnode]. pose proof (read_back _ _ _ _ _ B (copies P2) fn ltac:(lia)) as Hrd.
  rewrite <- Hnode in Hrd. replace (base r + (a - base r)) with a in Hh by ring. rewrite <- Hh in Hrd.
  unfold destroy. cbn [run1]. change (w_pools (written w2 (copies P2) fn)) with (w_pools w2). rewrite (b_pool _ _ _ _ _ _ _ _ _ _ B).
  set (v3 := w_vm (written w2 (copies P2) fn)) in *. unfold mempool_destroy. rewrite (accessible_true_ranges e P2 v3 HG HF). cbn [bind].
  unfold check_free_list. rewrite Hrob2. cbn [negb orb].
  assert (Hnb : 0 < free_list_head P2 < wmax e).
  { pose proof (b_rinv _ _ _ _ _ _ _ _ _ _ B) as HR. pose proof (b_lo _ _ _ _ _ _ _ _ _ _ B). pose proof (b_hi _ _ _ _ _ _ _ _ _ _ B).
    pose proof (item_pos _ _ HG). pose proof (node_bounds e P2 _ r HG HR (a - base r) ltac:(lia)) as K2.
    replace (base r + (a - base r)) with a in K2 by ring. rewrite Hh. lia. }
  assert (Hwalk : forall n, walk_free_list e P2 v3 n (free_list_head P2) = Abort).
  { intros n. destruct n as [|n]; cbn [walk_free_list]; rewrite (proj2 (Z.eqb_neq _ _)) by lia; [reflexivity|].
    destruct (percpu_addr_in_pool P2 _); cbn [negb]; [|reflexivity].
    assert (Hacc : accessible e v3 (free_list_head P2) (wsz e) = true).
    { rewrite Hh. replace a with (base r + (a - base r)) by ring.
      assert (HR3 : rinv P2 v3 r) by (rewrite Forall_forall in HF; exact (HF r (b_range _ _ _ _ _ _ _ _ _ _ B))).
      pose proof (b_hi _ _ _ _ _ _ _ _ _ _ B). pose proof (item_pos _ _ HG).
      exact (node_accessible e P2 v3 r HG HR3 (a - base r) (b_lo _ _ _ _ _ _ _ _ _ _ B) ltac:(lia)). }
    rewrite Hacc. cbn [negb]. rewrite Hrd.
    assert (Hout : walk_free_list e P2 v3 n fn = Abort).
    { destruct n as [|n]; cbn [walk_free_list]; rewrite (proj2 (Z.eqb_neq _ _)) by lia; [reflexivity|].
      destruct (percpu_addr_in_pool P2 (free_list_to_percpu_ptr e P2 fn)) eqn:Ep; cbn [negb]; [|reflexivity]. exfalso.
      destruct (node_place e P2 v3 fn HG HF Hrob2 ltac:(lia) Ep) as (r1 & o & Hr1 & Ho & Eo).
      apply (proj2 (wi_own _ _ _ _ _ _ HW2 fn Hmap) id P2 Hin). exists r1. split; [exact Hr1|].
      assert (HR1 : rinv P2 v3 r1) by (rewrite Forall_forall in HF; exact (HF r1 Hr1)).
      unfold region. rewrite (r_addr _ _ _ _ HR1), (r_len _ _ _ _ HR1), (na2 _ _ _ _ _ B).
      pose proof (g_psz _ _ HG). pose proof (strd_pos _ _ HG). pose proof (r_unused _ _ _ _ HR1). nia. }
    rewrite Hout. reflexivity. }
  rewrite Hwalk. reflexivity.
Qed.

Lemma r_cycle : forall an1 an2, test_robust_free_list_corruption e id st_ nc_ pol_ an an1 an2 w = Abort.
Proof.
  intros an1 an2. unfold test_robust_free_list_corruption. rewrite malloc_is. cbn [bind].
  destruct after_free as (w2 & P2 & L2 & F2 & r & Hf & B). unfold free. rewrite Hf. cbn [bind fst].
  rewrite (links_is _ _ _ _ _ B). pose proof (nd2 _ _ _ _ _ B) as Hn. rewrite <- copies_nd in Hn.
  set (q := a + st_ * copies P2) in *.
  destruct (st_area _ _ _ _ _ B (copies P2) q) as [E _]; [rewrite (na2 _ _ _ _ _ B); lia|]. cbv zeta in E. fold q in E. rewrite E. cbn [bind].
  change {| w_vm := _; w_pools := _ |} with (written w2 (copies P2) q).
  pose proof (ranges_links _ _ _ _ _ B q) as HF. pose proof (hist_inv _ _ _ _ _ _ (b_hist _ _ _ _ _ _ _ _ _ _ B)) as HW2.
  pose proof (lookup_in _ _ _ (b_pool _ _ _ _ _ _ _ _ _ _ B)) as Hin.
  pose proof (wi_pools _ _ _ _ _ _ HW2 _ _ Hin) as HI. pose proof (pi_geom _ _ _ _ _ HI) as HG.
  destruct (head2 _ _ _ _ _ B) as [Hh Hnode]. fold q in Hnode.
  assert (Hq : 0 <= q < wmax e).
  { pose proof (b_rinv _ _ _ _ _ _ _ _ _ _ B) as HR. pose proof (b_lo _ _ _ _ _ _ _ _ _ _ B). pose proof (b_hi _ _ _ _ _ _ _ _ _ _ B).
    pose proof (item_pos _ _ HG). pose proof (node_bounds e P2 _ r HG HR (a - base r) ltac:(lia)) as K2.
    replace (base r + (a - base r)) with a in K2 by ring. rewrite <- Hnode. lia. }
  pose proof (read_back _ _ _ _ _ B (copies P2) q Hq) as Hrd. fold q in Hrd.
  cbn [run1]. change (w_pools (written w2 (copies P2) q)) with (w_pools w2). rewrite (b_pool _ _ _ _ _ _ _ _ _ _ B).
  set (v3 := w_vm (written w2 (copies P2) q)) in *.
  assert (Hcy : load_word e v3 (free_list_head P2) = free_list_head P2).
  { rewrite Hh. replace (base r + (a - base r)) with a by ring. rewrite Hnode. exact Hrd. }
  pose proof (cycle_detected P2 v3 an1 an2 r (a - base r) HG HF (pi_apart _ _ _ _ _ HI) (b_range _ _ _ _ _ _ _ _ _ _ B)
    (b_div _ _ _ _ _ _ _ _ _ _ B) (b_lo _ _ _ _ _ _ _ _ _ _ B) (b_hi _ _ _ _ _ _ _ _ _ _ B) (rob2 _ _ _ _ _ B) Hh Hcy) as C.
  destruct (malloc_locked e P2 an1 v3) as [[[o P3] v4]| |]; cbn [bind] in C |- *; [|reflexivity|discriminate C].
  destruct o as [[[rr oo] aa]|]; cbn [bind fst w_pools w_vm]; rewrite (lookup_set id P3 P2 _ (b_pool _ _ _ _ _ _ _ _ _ _ B)), C; reflexivity.
Qed.
End One.

(** The first allocation from a new pool needs nothing from the system. *)
Lemma fresh_malloc : forall P v an, pinv e P [] [] v -> nr_ranges P = 1 -> robust_set (pattr P) = true ->
  exists r a P', malloc_locked e P an v = Ok (Some (r, 0, a), P', v).
Proof.
  intros P v an HI Hnr Hrob. pose proof (pi_geom _ _ _ _ _ HI) as HG. pose proof (pi_chain _ _ _ _ _ HI) as Hch. cbn [chain] in Hch.
  pose proof (pi_nr _ _ _ _ _ HI) as Hlen. destruct (range_list P) as [|r l] eqn:Er; [cbn [length] in Hlen; lia|].
  assert (HR : rinv P v r).
  { pose proof (pi_ranges _ _ _ _ _ HI) as HF. rewrite Er in HF. inversion HF; subst; assumption. }
  pose proof (item_pos _ _ HG) as Hip. pose proof (r_unused _ _ _ _ HR) as Hun.
  assert (Hil : item_len P <= strd P) by (apply Z.divide_pos_le; [apply (strd_pos _ _ HG)|apply (item_strd _ _ HG)]).
  assert (Hz : next_unused r = 0).
  { destruct (Z.eq_dec (next_unused r) 0) as [E|E]; [exact E|exfalso].
    apply (proj2 (pi_slots _ _ _ _ _ HI (base r))). exists r. rewrite Er. split; [left; reflexivity|].
    replace (base r - base r) with 0 by ring. split; [lia|apply Z.divide_0_r]. }
  assert (Hbit : slot_bit e P r 0 = false).
  { destruct (slot_bit e P r 0) eqn:E; [exfalso|reflexivity].
    apply (proj1 (pi_bits _ _ _ _ _ HI Hrob r 0 ltac:(rewrite Er; left; reflexivity) ltac:(lia) (Z.divide_0_r _)) E). }
  assert (Hu : uw (e_wide e) (0 + item_len P) = item_len P).
  { rewrite Z.add_0_l. unfold uw. change (2 ^ word_bits (e_wide e)) with (wmax e). apply Z.mod_small.
    pose proof (r_lo _ _ _ _ HR). pose proof (r_hi _ _ _ _ HR). pose proof (g_psz _ _ HG). pose proof (strd_pos _ _ HG).
    pose proof (na_bounds P). pose proof (nd_bounds P). pose proof (g_cpus _ _ HG). nia. }
  unfold malloc_locked. rewrite Hch, Er. cbn [Z.eqb negb]. rewrite Hz, Hu. rewrite (proj2 (Z.leb_le _ _) Hil). cbn [bind]. rewrite Er.
  rewrite Hz, Hu. cbn [bind].
  pose proof (r_bitmap _ _ _ _ HR) as Hbm. rewrite Hrob in Hbm.
  match goal with |- context [set_alloc_slot e ?Q ?rr 0] => change (set_alloc_slot e Q rr 0) with (set_alloc_slot e P rr 0); set (r1 := rr) end.
  assert (Hbm1 : bitmap_ok e P r1) by exact Hbm.
  destruct (set_slot_spec e P HG r1 0 Hbm1 ltac:(lia) (Z.divide_0_r _)) as [[Hb _]|(_ & bm & E & _)].
  - exfalso. change (slot_bit e P r1 0) with (slot_bit e P r 0) in Hb. rewrite Hbit in Hb. discriminate Hb.
  - rewrite E. cbn [bind]. eexists. eexists. eexists. reflexivity.
Qed.

Section Child.
Variables (s : bool) (v0 : vm) (w : world) (L F : ledger).
Hypothesis HH : history e s v0 w L F.
Variables (id policy : Z) (anc : answers).
Hypothesis Hnew : lookup id (w_pools w) = None.

Lemma test_pool : 
  make_test_pool e id policy anc w = Abort \/ make_test_pool e id policy anc w = Ok None \/
  exists w1 P, make_test_pool e id policy anc w = Ok (Some w1) /\ history e s v0 w1 L F /\ lookup id (w_pools w1) = Some P /\
    robust_set (pattr P) = true /\ strd P = RSEQ_MEMPOOL_STRIDE /\ max_nr_cpus (pattr P) = 1 /\ populate_policy (pattr P) = policy /\
    poison (pattr P) <> 1 /\ forall an, exists w2 a, run1 e (OMalloc id an) w1 = Ok (w2, OutItem a).
Proof.
  assert (Hlen : 0 <= TEST_DATA_SIZE e < wmax e).
  { unfold TEST_DATA_SIZE. pose proof (wsz_range e). pose proof (wmax_range e). lia. }
  assert (Hao : attr_ok e (test_attr policy)).
  { pose proof (wmax_range e). constructor; cbn [test_attr type stride poison max_nr_ranges attr0].
    - left. reflexivity.
    - change RSEQ_MEMPOOL_STRIDE with 65536. lia.
    - lia.
    - lia. }
  assert (Hfit : fits e (test_attr policy)).
  { unfold fits. change (want_stride (test_attr policy)) with 65536. change (want_cpus e (test_attr policy)) with 1.
    pose proof (wmax_range e). lia. }
  assert (Hal : allowed e s v0 w L (OCreate id true (TEST_DATA_SIZE e) (Some (test_attr policy)) anc)).
  { split; [exact Hnew|]. split; [exact Hlen|]. split; [exact Hao|exact Hfit]. }
  pose proof (hist_inv _ _ _ _ _ _ HH) as HW. pose proof (wi_wf _ _ _ _ _ _ HW) as Hwf.
  destruct HH as ((Henv & Hn) & _).
  unfold make_test_pool.
  pose proof (mempool_create_spec e Henv true _ (Some (test_attr policy)) anc (w_vm w) Hlen Hao Hn Hfit Hwf) as HC.
  remember (mempool_create e true (TEST_DATA_SIZE e) (Some (test_attr policy)) anc (w_vm w)) as R eqn:ER.
  destruct HC as [Hbig|o Hacc Ht|Hno|o v' Hacc Hwf' Hfr Hc|o P v' Hacc Hpa Hil Hio HI Hwf' Hfr Hrg Hnr].
  - exfalso. unfold TEST_DATA_SIZE in Hbig. pose proof (wsz_range e).
    assert (40 <= 2 ^ (word_bits (e_wide e) - 1)) by (unfold word_bits; destruct (e_wide e); cbn; lia). lia.
  - left. cbn [run1]. rewrite <- ER. reflexivity.
  - right. left. cbn [run1]. rewrite <- ER. reflexivity.
  - right. left. cbn [run1]. rewrite <- ER. reflexivity.
  - right. right.
    assert (Hrun : run1 e (OCreate id true (TEST_DATA_SIZE e) (Some (test_attr policy)) anc) w =
      Ok ({| w_vm := v'; w_pools := (id, P) :: w_pools w |}, OutMade)) by (cbn [run1]; rewrite <- ER; reflexivity).
    pose proof (hist_step e s v0 w L F _ _ _ HH Hal Hrun) as H1. cbn [live_after freed_after] in H1.
    eexists. exists P. rewrite Hrun. cbn [bind snd fst]. split; [reflexivity|]. split; [exact H1|].
    assert (Hl : lookup id ((id, P) :: w_pools w) = Some P) by (unfold lookup; cbn [find fst]; rewrite Z.eqb_refl; reflexivity).
    split; [exact Hl|]. rewrite Hpa. split; [reflexivity|]. split; [reflexivity|]. split; [reflexivity|]. split; [reflexivity|]. split.
    + cbn [completed poison attr_of test_attr type robust_set poison_set andb negb]. destruct (_ =? COW_INIT); [destruct (e_wide e)|]; discriminate.
    + intros an. destruct (fresh_malloc P v' an HI Hnr) as (r & a & P' & E); [rewrite Hpa; reflexivity|].
      eexists. exists a. cbn [run1 w_pools w_vm]. rewrite Hl, E. cbn [bind]. reflexivity.
Qed.
End Child.

(** ** Destroying a pool in a forked child *)
Lemma destroy_ranges_quiet : forall P an acc l v, (forall r, In r l -> exists r', destroy_alloc_bitmap e r = Ok r') ->
  exists Po v', destroy_ranges e P an acc l v = Ok (Po, v').
Proof.
  intros P an acc l. induction l as [|r l IH]; intros v Hb; cbn [destroy_ranges]; [eexists; eexists; reflexivity|].
  unfold range_destroy. destruct (Hb r (or_introl eq_refl)) as (r' & E). rewrite E. cbn [bind].
  assert (Hb' : forall x, In x l -> exists x', destroy_alloc_bitmap e x = Ok x') by (intros x Hx; exact (Hb x (or_intror Hx))).
  destruct acc; destruct (an_munmap _ _); cbn [bind]; try (exact (IH _ Hb')); eexists; eexists; reflexivity.
Qed.

Lemma child_quiet : forall v0 w L F id P an, history e true v0 w L F -> plain_fork e v0 w -> lookup id (w_pools w) = Some P ->
  (forall a, ~ In (id, a) L) ->
  exists w', run1 e (ODestroy id an) {| w_vm := fork e (w_vm w); w_pools := w_pools w |} = Ok (w', OutRet 0).
Proof.
  intros v0 w L F id P an HH Hpf Hl Hno. pose proof (lookup_in _ _ _ Hl) as Hin. pose proof (hist_inv _ _ _ _ _ _ HH) as HW.
  pose proof (wi_pools _ _ _ _ _ _ HW _ _ Hin) as HI. pose proof (pi_geom _ _ _ _ _ HI) as HG.
  assert (Hsuff : (exists Po v', mempool_destroy e P an (fork e (w_vm w)) = Ok (0, Po, v')) ->
    exists w', run1 e (ODestroy id an) {| w_vm := fork e (w_vm w); w_pools := w_pools w |} = Ok (w', OutRet 0)).
  { intros (Po & v' & E). cbn [run1 w_pools w_vm]. rewrite Hl, E. cbn [bind]. eexists. reflexivity. }
  apply Hsuff. clear Hsuff. destruct (g_policy _ _ HG) as [Hpol|Hpol].
  - assert (Hne : range_list P <> []).
    { intros E. pose proof (has_range e true v0 w L F id P HH Hin) as H1. pose proof (pi_nr _ _ _ _ _ HI) as H2. rewrite E in H2. cbn [length] in H2. lia. }
    assert (Hbm : forall r, In r (range_list P) -> exists r', destroy_alloc_bitmap e r = Ok r').
    { intros r Hr. pose proof (pi_ranges _ _ _ _ _ HI) as HF. rewrite Forall_forall in HF. pose proof (r_bitmap _ _ _ _ (HF r Hr)) as Hb.
      destruct (robust_set (pattr P)) eqn:Hrob.
      - destruct (destroy_bitmap_spec e P HG r Hb) as [[E _]|[_ (o & Ho & Hd & Hbt)]]; [exists (set_bitmap r None); exact E|exfalso].
        apply (pi_bits _ _ _ _ _ HI Hrob r o Hr Ho Hd) in Hbt. apply in_items in Hbt. exact (Hno _ Hbt).
      - exists r. unfold destroy_alloc_bitmap. rewrite Hb. reflexivity. }
    destruct (destroy_ranges_quiet P an false (range_list P) (fork e (w_vm w)) Hbm) as (Po & v' & E).
    exists Po, v'. unfold mempool_destroy. rewrite (child_marks e true v0 w L F HH id P Hl Hpol Hne). cbn [bind].
    unfold check_free_list, check_pool_poison. rewrite orb_true_r. cbn [bind]. rewrite E. cbn [bind]. reflexivity.
  - assert (Hsh : shared_init P = false) by (unfold shared_init; rewrite Hpol; reflexivity).
    assert (Hc : history e true v0 (child e w) (inherited w L) (inherited w F)).
    { destruct HH as (H1 & H2 & H3). split; [exact H1|]. split; [exact H2|]. exact (reach_fork e true v0 w L F H3 Hpf). }
    assert (Hlc : lookup id (w_pools (child e w)) = Some P).
    { apply lookup_some; [exact (wi_ids _ _ _ _ _ _ (hist_inv _ _ _ _ _ _ Hc))|]. cbn [child w_pools]. apply filter_In. split; [exact Hin|].
      cbn [snd]. rewrite Hsh. reflexivity. }
    destruct (p_no_alarm e true v0 (child e w) _ _ Hc (ODestroy id an) eq_refl) as (w' & x & E).
    + exists P. exact Hlc.
    + intros a Ha. unfold inherited in Ha. apply filter_In in Ha. exact (Hno a (proj1 Ha)).
    + cbn [run1] in E. rewrite Hlc in E. change (w_vm (child e w)) with (fork e (w_vm w)) in E. unfold mempool_destroy in E |- *.
      destruct (pool_mappings_accessible e P (fork e (w_vm w))) as [acc| |]; cbn [bind] in E |- *; [|discriminate E|discriminate E].
      destruct (check_free_list e P (fork e (w_vm w)) acc) as [[]| |]; cbn [bind] in E |- *; [|discriminate E|discriminate E].
      destruct (check_pool_poison e P (fork e (w_vm w)) acc) as [[]| |]; cbn [bind] in E |- *; [|discriminate E|discriminate E].
      destruct (destroy_ranges e P an acc (range_list P) (fork e (w_vm w))) as [[Po v']| |]; cbn [bind] in E |- *; [|discriminate E|discriminate E].
      exists Po, v'. reflexivity.
Qed.
End Proofs.
