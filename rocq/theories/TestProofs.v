(** Proofs for C72. *)
From Coq Require Import ZArith Bool List Lia Znumtheory.
From Verif Require Import UtilsModel UtilsLemmas RseqIR RseqSpec MemLemmas PoolVM PoolVMLemmas PoolModel PoolInv PoolItem PoolMap PoolRange PoolBitmap PoolOps PoolMalloc PoolFree PoolWorld PoolDestroy PoolCreate PoolHist PoolProps PoolProps2 PoolProps3 PoolProps4 PlacePool ListModel ListSpec ListProofs TestModel TestNr.
Import ListNotations.
Local Open Scope Z_scope.

Lemma ldw_bytes : forall g m A x, 0 <= x < wmod g ->
  (forall j, (j < wsize g)%nat -> byte m (A + Z.of_nat j) = nth j (order g (le_bytes (wsize g) x)) 0) -> ldw g m A = x.
Proof.
  intros g m A x Hx H. unfold ldw. replace (map (byte m) (span A (wsize g))) with (order g (le_bytes (wsize g) x)).
  - rewrite order_involutive. apply le_val_bytes. exact Hx.
  - apply (nth_ext _ _ 0 0).
    + rewrite map_length, span_length, order_length, le_bytes_length. reflexivity.
    + rewrite order_length, le_bytes_length. intros j Hj. rewrite <- (H j Hj).
      rewrite (nth_indep _ 0 (byte m 0)) by (rewrite map_length, span_length; exact Hj).
      rewrite map_nth. f_equal. unfold span. rewrite (nth_indep _ 0 (A + Z.of_nat O)) by (rewrite map_length, seq_length; exact Hj).
      rewrite (map_nth (fun i => A + Z.of_nat i)). rewrite seq_nth by exact Hj. reflexivity.
Qed.
Lemma wmod_wmax : forall e, wmod (wcfg e) = wmax e.
Proof. intros e. unfold wmod, wmax, word_bits, wcfg. destruct (e_wide e); reflexivity. Qed.
Lemma zero_bytes_nth : forall e j, nth j (order (wcfg e) (le_bytes (wsize (wcfg e)) 0)) 0 = 0.
Proof. intros [pg [|] n [|]] j; cbn; do 9 (destruct j as [|j]; try reflexivity). Qed.
Lemma init_value_len : forall e, Z.of_nat (length (init_value e)) = 5 * wsz e.
Proof. intros [pg [|] n [|]]; reflexivity. Qed.
Lemma init_value_bytes : forall e, Forall (fun b => 0 <= b < 256) (init_value e).
Proof. intros [pg [|] n [|]]; cbn; repeat (constructor; [lia|]); constructor. Qed.
Lemma init_value_nth : forall e j, (j < wsize (wcfg e))%nat ->
  nth j (init_value e) 0 = nth j (order (wcfg e) (le_bytes (wsize (wcfg e)) 123)) 0 /\
  nth (wsize (wcfg e) + j) (init_value e) 0 = nth j (order (wcfg e) (le_bytes (wsize (wcfg e)) 456)) 0.
Proof. intros [pg [|] n [|]] j Hj; cbn in Hj |- *; do 8 (destruct j as [|j]; [first [lia | split; reflexivity]|]); lia. Qed.

Section Proofs.
Variable e : env.
Variable v0 : vm.
Variables (id s nc il mr head : Z).
Notation page := (PoolVM.page e).
Notation history := (history e true v0).
Notation good := (good_write e v0).
Notation W := (wsz e).
Hypothesis Hlink : forall q, link v0 q = None.
Hypothesis Hhead : forall k, 0 <= k < 2 * W -> mapped v0 (page (head + k)) = true.
Hypothesis Hrange : 0 <= head < wmax e.
Hypothesis Hsize : 5 * W <= il.

(** The pool, with its geometry. *)
Definition geo (w : world) (P : pool) : Prop :=
  lookup id (w_pools w) = Some P /\ stride (pattr P) = s /\ max_nr_cpus (pattr P) = nc /\ item_len P = il /\ max_nr_ranges (pattr P) = mr.

(** Words the program uses: of the list head, and of the items. *)
Inductive wloc := WH (i : Z) | WI (a cpu i : Z).
Definition waddr (l : wloc) : Z := match l with WH i => head + W * i | WI a cpu i => a + s * cpu + W * i end.
Definition wvalid (L : ledger) (l : wloc) : Prop :=
  match l with WH i => 0 <= i < 2 | WI a cpu i => In (id, a) L /\ 0 <= cpu < nc /\ 0 <= i < 5 end.
Definition rd (w : world) (l : wloc) : Z := load_word e (w_vm w) (waddr l).

Lemma W_pos : 0 < W /\ Z.of_nat (wsize (wcfg e)) = W.
Proof. unfold wsz, wcfg. destruct (e_wide e); cbn; lia. Qed.
Lemma span_in : forall a x, In x (span a (wsize (wcfg e))) <-> exists j, 0 <= j < W /\ x = a + j.
Proof.
  intros a x. destruct W_pos as [Hp HW]. unfold span. rewrite in_map_iff. split.
  - intros (i & Hi & Hin). apply in_seq in Hin. exists (Z.of_nat i). lia.
  - intros (j & Hj & ->). exists (Z.to_nat j). rewrite in_seq. lia.
Qed.

Lemma word_item : forall w L F P a cpu i j, history w L F -> geo w P -> wvalid L (WI a cpu i) -> 0 <= j < W ->
  item_byte P a (waddr (WI a cpu i) + j).
Proof.
  intros w L F P a cpu i j HH (Hl & Hs & Hn & Hi & _) (Ha & Hc & Hi5) Hj. destruct W_pos as [Hp _].
  exists cpu, (W * i + j). rewrite Hn, Hi. unfold percpu_ptr. rewrite Hs. cbn [waddr].
  split; [lia|]. split; [nia|ring].
Qed.

Lemma word_good : forall w L F P l j, history w L F -> geo w P -> wvalid L l -> 0 <= j < W -> good w L (waddr l + j).
Proof.
  intros w L F P [i|a cpu i] j HH HG Hv Hj; destruct W_pos as [Hp _].
  - left. cbn [waddr wvalid] in *. rewrite <- Z.add_assoc. apply Hhead. nia.
  - right. exists id, P, a. split; [apply lookup_in, HG|]. split; [apply Hv|]. eapply word_item; eauto.
Qed.

Lemma word_apart : forall w L F P l l' j j', history w L F -> geo w P -> wvalid L l -> wvalid L l' -> l <> l' ->
  0 <= j < W -> 0 <= j' < W -> waddr l + j <> waddr l' + j'.
Proof.
  intros w L F P l l' j j' HH HG Hv Hv' Hne Hj Hj' E. destruct W_pos as [Hp _].
  pose proof (lookup_in _ _ _ (proj1 HG)) as Hin.
  destruct l as [i|a cpu i], l' as [i'|a' cpu' i'].
  - cbn [waddr] in E. assert (i = i') by nia. subst. apply Hne. reflexivity.
  - pose proof (p_bookkeeping e _ _ _ _ _ HH id P a' (waddr (WI a' cpu' i') + j') Hin (proj1 Hv') (word_item _ _ _ _ _ _ _ _ HH HG Hv' Hj')) as [K _].
    rewrite <- E in K. cbn [waddr wvalid] in *. rewrite <- Z.add_assoc in K. rewrite Hhead in K by nia. discriminate K.
  - pose proof (p_bookkeeping e _ _ _ _ _ HH id P a (waddr (WI a cpu i) + j) Hin (proj1 Hv) (word_item _ _ _ _ _ _ _ _ HH HG Hv Hj)) as [K _].
    rewrite E in K. cbn [waddr wvalid] in *. rewrite <- Z.add_assoc in K. rewrite Hhead in K by nia. discriminate K.
  - destruct Hv as (Ha & Hc & Hi), Hv' as (Ha' & Hc' & Hi'). destruct HG as (Hl & Hs & Hn & Hil & _).
    destruct (p_injective e _ _ _ _ _ HH id P a cpu (W * i + j) id P a' cpu' (W * i' + j') Hin Hin Ha Ha') as (_ & -> & -> & Ek);
      try (rewrite Hn; lia); try (rewrite Hil; nia).
    + unfold percpu_ptr. rewrite Hs. cbn [waddr] in E. lia.
    + assert (i = i') by nia. subst. apply Hne. reflexivity.
Qed.

Lemma rd_same : forall w w' l, (forall j, 0 <= j < W -> view e (w_vm w') (waddr l + j) = view e (w_vm w) (waddr l + j)) -> rd w' l = rd w l.
Proof.
  intros w w' l H. unfold rd, load_word. apply ldw_agree. intros x Hx. apply span_in in Hx. destruct Hx as (j & Hj & ->). exact (H j Hj).
Qed.

Lemma ld_ok : forall w L F P l, history w L F -> geo w P -> wvalid L l -> ld e w (waddr l) = Ok (rd w l).
Proof.
  intros w L F P l HH HG Hv. unfold ld. rewrite (proj2 (forallb_forall _ _)); [reflexivity|].
  intros x Hx. apply span_in in Hx. destruct Hx as (j & Hj & ->).
  apply (good_mapped e true v0 w L F HH). eapply word_good; eauto.
Qed.

Lemma st_ok : forall w L F P l x, history w L F -> geo w P -> wvalid L l -> 0 <= x < wmax e ->
  exists w', st e w (waddr l) x = Ok w' /\ history w' L F /\ w_pools w' = w_pools w /\ rd w' l = x /\
    forall l', wvalid L l' -> l' <> l -> rd w' l' = rd w l'.
Proof.
  intros w L F P l x HH HG Hv Hx. destruct W_pos as [Hp HW].
  set (ps := stw (wcfg e) (waddr l) x).
  assert (Hk : forall y, In y (map fst ps) -> good w L y).
  { intros y Hy. unfold ps in Hy. rewrite stw_keys in Hy. apply span_in in Hy. destruct Hy as (j & Hj & ->). eapply word_good; eauto. }
  assert (Hrun : run1 e (OWrite ps) w = Ok ({| w_vm := store e (w_vm w) ps; w_pools := w_pools w |}, OutUnit)).
  { cbn [run1]. rewrite (proj2 (forallb_forall _ _)); [reflexivity|]. intros [y b] Hy. cbn [fst].
    apply (good_mapped e true v0 w L F HH). apply Hk. apply in_map_iff. exists (y, b). auto. }
  set (w' := {| w_vm := store e (w_vm w) ps; w_pools := w_pools w |}) in *.
  assert (HH' : history w' L F).
  { refine (hist_step e true v0 w L F (OWrite ps) w' OutUnit HH _ Hrun). intros y Hy. left. apply Hk. exact Hy. }
  assert (Hview : forall y, good w L y -> wr (view e (w_vm w)) ps y = view e (w_vm w') y).
  { intros y Hy. cbn [w' w_vm]. pose proof (hist_inv e _ _ _ _ _ HH) as HWi.
    refine (store_agrees e (good w L) ps (w_vm w) (view e (w_vm w)) _ (wi_wf _ _ _ _ _ _ HWi) Hk _ (fun _ _ => eq_refl) y Hy).
    - destruct HH as (((po & Hpo & ->) & _) & _). apply Z.pow_pos_nonneg; lia.
    - apply (good_alias e true v0 w L F HH). intros a Ha. exact (hist_links e v0 w L F Hlink HH a Ha). }
  exists w'. split; [unfold st; fold ps; rewrite Hrun; reflexivity|]. split; [exact HH'|]. split; [reflexivity|].
  assert (Hagree : forall l', wvalid L l' -> rd w' l' = ldw (wcfg e) (wr (view e (w_vm w)) ps) (waddr l')).
  { intros l' Hv'. unfold rd, load_word. apply ldw_agree. intros y Hy. apply span_in in Hy. destruct Hy as (j & Hj & ->).
    symmetry. apply Hview. eapply word_good; eauto. }
  split.
  - rewrite Hagree by exact Hv. unfold ps. apply ldw_stw. unfold wmod. unfold wmax, word_bits in Hx. unfold wcfg. destruct (e_wide e); exact Hx.
  - intros l' Hv' Hne. rewrite Hagree by exact Hv'. unfold rd, load_word, ps. apply ldw_stw_other.
    intros y Hy Hy'. apply span_in in Hy. apply span_in in Hy'. destruct Hy as (j & Hj & ->), Hy' as (j' & Hj' & E).
    exact (word_apart _ _ _ _ _ _ j j' HH HG Hv Hv' (fun Q => Hne (eq_sym Q)) Hj Hj' E).
Qed.

(** Pool calls keep the words, but those of an item that is filled or freed. *)
Lemma call_keeps : forall w L F P o w' y l, history w L F -> geo w P -> allowed e true v0 w L o -> run1 e o w = Ok (w', y) ->
  is_store o = false -> wvalid L l ->
  match l, o with
  | WI a _ _, OFill id' a' _ => (id', a') <> (id, a)
  | WI a _ _, OFree a' _ => a' <> a
  | WI a _ _, ODestroy id' _ => id' <> id
  | _, _ => True
  end -> rd w' l = rd w l.
Proof.
  intros w L F P o w' y l HH HG Hal Hrun Hns Hv Ho. apply rd_same. intros j Hj. destruct l as [i|a cpu i].
  - apply (fr_view _ _ _ _ (own_frame e true v0 w L F HH o w' y Hal Hrun Hns)).
    cbn [waddr wvalid] in *. rewrite <- Z.add_assoc. apply Hhead. destruct W_pos. nia.
  - refine (item_frame e _ _ _ _ _ HH id P a _ o w' y (lookup_in _ _ _ (proj1 HG)) (proj1 Hv) (word_item _ _ _ _ _ _ _ _ HH HG Hv Hj) Hal Hrun _).
    destruct o; try exact Ho. discriminate Hns.
Qed.

Lemma call_geo : forall w L F P o w' y, history w L F -> geo w P -> allowed e true v0 w L o -> run1 e o w = Ok (w', y) ->
  match o with ODestroy _ _ => False | _ => True end -> exists P', geo w' P'.
Proof.
  intros w L F P o w' y HH HG Hal Hrun Ho.
  destruct (pool_stays e true v0 w L F HH id P o w' y (lookup_in _ _ _ (proj1 HG)) Hal Hrun) as (P' & Hin & HS).
  { destruct o; try exact Logic.I. destruct Ho. }
  exists P'. pose proof (hist_step e _ _ _ _ _ _ _ _ HH Hal Hrun) as HH'.
  destruct HG as (Hl & Hs & Hn & Hi & Hm). split; [exact (lookup_some _ _ _ (wi_ids _ _ _ _ _ _ (hist_inv e _ _ _ _ _ HH')) Hin)|].
  rewrite (s_attr _ _ HS), (s_len _ _ HS). auto.
Qed.

Lemma item_range : forall w L F P a, history w L F -> geo w P -> In (id, a) L -> 0 <= a < wmax e - 5 * W.
Proof.
  intros w L F P a HH HG Ha. pose proof (lookup_in _ _ _ (proj1 HG)) as Hin.
  destruct (known_item e true v0 w L F HH id P a Hin) as (r & Hr & HR & H1 & H2 & _); [apply in_or_app; auto|].
  pose proof (wi_pools _ _ _ _ _ _ (hist_inv e _ _ _ _ _ HH) _ _ Hin) as HI. pose proof (pi_geom _ _ _ _ _ HI) as HGm.
  pose proof (r_lo _ _ _ _ HR). pose proof (r_hi _ _ _ _ HR). pose proof (strd_pos e _ HGm).
  assert (0 < e_page e) by (destruct HH as (((po & Hpo & ->) & _) & _); apply Z.pow_pos_nonneg; lia).
  assert (1 <= na P). { pose proof (g_cpus _ _ HGm). unfold na. pose proof (nd_bounds P). destruct (robust_set _); lia. }
  destruct HG as (_ & _ & _ & Hi & _). nia.
Qed.

Lemma nc_pos : forall w L F P, history w L F -> geo w P -> 1 <= nc.
Proof.
  intros w L F P HH HG. pose proof (lookup_in _ _ _ (proj1 HG)) as Hin.
  pose proof (wi_pools _ _ _ _ _ _ (hist_inv e _ _ _ _ _ HH) _ _ Hin) as HI.
  pose proof (g_cpus _ _ (pi_geom _ _ _ _ _ HI)) as K. destruct HG as (_ & _ & Hn & _). rewrite <- Hn. exact K.
Qed.

(** ** The list *)
Inductive node := N0 | NI (a : Z).
Definition naddr (n : node) : Z := match n with N0 => head | NI a => pptr s a 0 + NODE e end.
Definition nx (n : node) : wloc := match n with N0 => WH 0 | NI a => WI a 0 3 end.
Definition pv (n : node) : wloc := match n with N0 => WH 1 | NI a => WI a 0 4 end.
Definition nvalid (L : ledger) (n : node) : Prop := match n with N0 => True | NI a => In (id, a) L end.
Definition other (l : wloc) : Prop := match l with WH _ => False | WI _ _ i => i <> 3 /\ i <> 4 end.

Lemma nx_addr : forall n, waddr (nx n) = naddr n + NEXT.
Proof. intros [|a]; cbn [nx waddr naddr]; unfold NEXT, pptr, NODE; ring. Qed.
Lemma pv_addr : forall n, waddr (pv n) = naddr n + PREV e.
Proof. intros [|a]; cbn [pv waddr naddr]; unfold PREV, pptr, NODE; ring. Qed.
Lemma nx_valid : forall w L F P n, history w L F -> geo w P -> nvalid L n -> wvalid L (nx n) /\ wvalid L (pv n).
Proof.
  intros w L F P [|a] HH HG Hn; pose proof (nc_pos _ _ _ _ HH HG); cbn [nx pv wvalid] in *.
  - lia.
  - split; (split; [exact Hn|lia]).
Qed.
Lemma nx_inj : forall n n', nx n = nx n' -> n = n'.
Proof. intros [|a] [|a'] H; cbn in H; try discriminate H; [reflexivity|]. injection H as ->. reflexivity. Qed.
Lemma pv_inj : forall n n', pv n = pv n' -> n = n'.
Proof. intros [|a] [|a'] H; cbn in H; try discriminate H; [reflexivity|]. injection H as ->. reflexivity. Qed.
Lemma nx_pv : forall n n', nx n <> pv n'.
Proof. intros [|a] [|a'] H; cbn in H; discriminate H. Qed.
Lemma other_nx : forall l n, other l -> l <> nx n /\ l <> pv n.
Proof.
  intros [i|a c i] n Ho; [destruct Ho|]. cbn [other] in Ho. destruct Ho as [H3 H4].
  destruct n; cbn; split; intros E; try discriminate E; injection E as _ _ E; lia.
Qed.
Lemma naddr_inj : forall w L F P n n', history w L F -> geo w P -> nvalid L n -> nvalid L n' -> naddr n = naddr n' -> n = n'.
Proof.
  intros w L F P n n' HH HG Hn Hn' E. destruct W_pos as [Hp _].
  assert (D : {n = n'} + {n <> n'}).
  { destruct n as [|a], n' as [|a']; try (right; discriminate); [left; reflexivity|].
    destruct (Z.eq_dec a a') as [->|N]; [left; reflexivity|right; intros Q; injection Q; exact N]. }
  destruct D as [->|N]; [reflexivity|]. exfalso.
  refine (word_apart w L F P (nx n) (nx n') 0 0 HH HG (proj1 (nx_valid _ _ _ _ _ HH HG Hn)) (proj1 (nx_valid _ _ _ _ _ HH HG Hn')) (fun Q => N (nx_inj _ _ Q)) _ _ _); try lia.
  rewrite !nx_addr, E. reflexivity.
Qed.
Lemma naddr_range : forall w L F P n, history w L F -> geo w P -> nvalid L n -> 0 <= naddr n < wmax e.
Proof.
  intros w L F P [|a] HH HG Hn; cbn [naddr nvalid] in *; [exact Hrange|].
  pose proof (item_range _ _ _ _ _ HH HG Hn). destruct W_pos. unfold pptr, NODE. nia.
Qed.

(** The nodes in memory are as in the heap [h] of ListModel.v. *)
Definition shows (w : world) (L : ledger) (h : lheap) : Prop :=
  forall n, nvalid L n -> rd w (nx n) = next h (naddr n) /\ rd w (pv n) = prev h (naddr n).

Definition stepped (w w' : world) (L F : ledger) : Prop :=
  history w' L F /\ w_pools w' = w_pools w /\ forall l, wvalid L l -> other l -> rd w' l = rd w l.
Lemma stepped_trans : forall w1 w2 w3 L F, stepped w1 w2 L F -> stepped w2 w3 L F -> stepped w1 w3 L F.
Proof.
  intros w1 w2 w3 L F (_ & E1 & R1) (H & E2 & R2). split; [exact H|]. split; [congruence|].
  intros l Hv Ho. rewrite (R2 l Hv Ho). exact (R1 l Hv Ho).
Qed.
Lemma geo_pools : forall w w' P, w_pools w' = w_pools w -> geo w P -> geo w' P.
Proof. intros w w' P E HG. unfold geo. rewrite E. exact HG. Qed.

Lemma st_next : forall w L F P h n x, history w L F -> geo w P -> shows w L h -> nvalid L n -> 0 <= x < wmax e ->
  exists w', st e w (naddr n + NEXT) x = Ok w' /\ stepped w w' L F /\ shows w' L (set_next h (naddr n) x).
Proof.
  intros w L F P h n x HH HG HS Hn Hx. destruct (nx_valid _ _ _ _ _ HH HG Hn) as [Hv Hv'].
  destruct (st_ok w L F P (nx n) x HH HG Hv Hx) as (w' & E & HH' & Ep & Er & Ho). rewrite nx_addr in E.
  exists w'. split; [exact E|]. split.
  { split; [exact HH'|]. split; [exact Ep|]. intros l Hl Hot. apply Ho; [exact Hl|]. apply (other_nx l n Hot). }
  intros n' Hn'. destruct (nx_valid _ _ _ _ _ HH HG Hn') as [Hv1 Hv2]. cbn [set_next next prev]. split.
  - destruct (naddr n' =? naddr n) eqn:Eq.
    + apply Z.eqb_eq in Eq. rewrite (naddr_inj _ _ _ _ _ _ HH HG Hn' Hn Eq). exact Er.
    + rewrite Ho; [apply (HS n' Hn')|exact Hv1|]. intros Q. apply nx_inj in Q. subst n'. rewrite Z.eqb_refl in Eq. discriminate Eq.
  - rewrite Ho; [apply (HS n' Hn')|exact Hv2|]. intros Q. symmetry in Q. exact (nx_pv _ _ Q).
Qed.
Lemma st_prev : forall w L F P h n x, history w L F -> geo w P -> shows w L h -> nvalid L n -> 0 <= x < wmax e ->
  exists w', st e w (naddr n + PREV e) x = Ok w' /\ stepped w w' L F /\ shows w' L (set_prev h (naddr n) x).
Proof.
  intros w L F P h n x HH HG HS Hn Hx. destruct (nx_valid _ _ _ _ _ HH HG Hn) as [Hv Hv'].
  destruct (st_ok w L F P (pv n) x HH HG Hv' Hx) as (w' & E & HH' & Ep & Er & Ho). rewrite pv_addr in E.
  exists w'. split; [exact E|]. split.
  { split; [exact HH'|]. split; [exact Ep|]. intros l Hl Hot. apply Ho; [exact Hl|]. apply (other_nx l n Hot). }
  intros n' Hn'. destruct (nx_valid _ _ _ _ _ HH HG Hn') as [Hv1 Hv2]. cbn [set_prev next prev]. split.
  - rewrite Ho; [apply (HS n' Hn')|exact Hv1|]. exact (nx_pv n' n).
  - destruct (naddr n' =? naddr n) eqn:Eq.
    + apply Z.eqb_eq in Eq. rewrite (naddr_inj _ _ _ _ _ _ HH HG Hn' Hn Eq). exact Er.
    + rewrite Ho; [apply (HS n' Hn')|exact Hv2|]. intros Q. apply pv_inj in Q. subst n'. rewrite Z.eqb_refl in Eq. discriminate Eq.
Qed.
Lemma ld_next : forall w L F P h n, history w L F -> geo w P -> shows w L h -> nvalid L n -> ld e w (naddr n + NEXT) = Ok (next h (naddr n)).
Proof.
  intros w L F P h n HH HG HS Hn. destruct (nx_valid _ _ _ _ _ HH HG Hn) as [Hv Hv'].
  rewrite <- nx_addr, (ld_ok _ _ _ _ _ HH HG Hv). f_equal. apply (HS n Hn).
Qed.
Lemma ld_prev : forall w L F P h n, history w L F -> geo w P -> shows w L h -> nvalid L n -> ld e w (naddr n + PREV e) = Ok (prev h (naddr n)).
Proof.
  intros w L F P h n HH HG HS Hn. destruct (nx_valid _ _ _ _ _ HH HG Hn) as [Hv Hv'].
  rewrite <- pv_addr, (ld_ok _ _ _ _ _ HH HG Hv'). f_equal. apply (HS n Hn).
Qed.

Lemma m_add_ok : forall w L F P h n m, history w L F -> geo w P -> shows w L h -> nvalid L n -> nvalid L m -> next h head = naddr m ->
  exists w', m_add e head w (naddr n) = Ok w' /\ stepped w w' L F /\ shows w' L (list_add h (naddr n) head).
Proof.
  intros w L F P h n m HH HG HS Hn Hm Em. unfold m_add.
  pose proof (naddr_range _ _ _ _ _ HH HG Hn) as Rn. pose proof (naddr_range _ _ _ _ _ HH HG Hm) as Rm.
  change head with (naddr N0) at 1. rewrite (ld_next _ _ _ _ h N0 HH HG HS Logic.I). cbn [bind naddr]. rewrite Em.
  destruct (st_prev w L F P h m (naddr n) HH HG HS Hm Rn) as (w1 & E1 & T1 & S1). rewrite E1. cbn [bind].
  pose proof (geo_pools _ _ _ (proj1 (proj2 T1)) HG) as G1.
  pose proof (ld_next _ _ _ _ _ N0 (proj1 T1) G1 S1 Logic.I) as E. cbn [naddr set_prev next] in E. rewrite E, Em. cbn [bind]. clear E.
  destruct (st_next w1 L F P _ n (naddr m) (proj1 T1) G1 S1 Hn Rm) as (w2 & E2 & T2 & S2). rewrite E2. cbn [bind].
  pose proof (geo_pools _ _ _ (proj1 (proj2 T2)) G1) as G2.
  destruct (st_prev w2 L F P _ n head (proj1 T2) G2 S2 Hn Hrange) as (w3 & E3 & T3 & S3). rewrite E3. cbn [bind].
  pose proof (geo_pools _ _ _ (proj1 (proj2 T3)) G2) as G3.
  destruct (st_next w3 L F P _ N0 (naddr n) (proj1 T3) G3 S3 Logic.I Rn) as (w4 & E4 & T4 & S4). cbn [naddr] in E4, S4.
  exists w4. split; [exact E4|]. split.
  - exact (stepped_trans _ _ _ _ _ T1 (stepped_trans _ _ _ _ _ T2 (stepped_trans _ _ _ _ _ T3 T4))).
  - unfold list_add. cbn [set_prev next]. rewrite Em. exact S4.
Qed.

Lemma m_add_tail_ok : forall w L F P h n m, history w L F -> geo w P -> shows w L h -> nvalid L n -> nvalid L m -> prev h head = naddr m ->
  exists w', m_add_tail e head w (naddr n) = Ok w' /\ stepped w w' L F /\ shows w' L (list_add_tail h (naddr n) head).
Proof.
  intros w L F P h n m HH HG HS Hn Hm Em. unfold m_add_tail.
  pose proof (naddr_range _ _ _ _ _ HH HG Hn) as Rn. pose proof (naddr_range _ _ _ _ _ HH HG Hm) as Rm.
  change head with (naddr N0) at 1. rewrite (ld_prev _ _ _ _ h N0 HH HG HS Logic.I). cbn [bind naddr]. rewrite Em.
  destruct (st_next w L F P h m (naddr n) HH HG HS Hm Rn) as (w1 & E1 & T1 & S1). rewrite E1. cbn [bind].
  pose proof (geo_pools _ _ _ (proj1 (proj2 T1)) HG) as G1.
  destruct (st_next w1 L F P _ n head (proj1 T1) G1 S1 Hn Hrange) as (w2 & E2 & T2 & S2). rewrite E2. cbn [bind].
  pose proof (geo_pools _ _ _ (proj1 (proj2 T2)) G1) as G2.
  pose proof (ld_prev _ _ _ _ _ N0 (proj1 T2) G2 S2 Logic.I) as E. cbn [naddr set_next prev] in E. rewrite E, Em. cbn [bind]. clear E.
  destruct (st_prev w2 L F P _ n (naddr m) (proj1 T2) G2 S2 Hn Rm) as (w3 & E3 & T3 & S3). rewrite E3. cbn [bind].
  pose proof (geo_pools _ _ _ (proj1 (proj2 T3)) G2) as G3.
  destruct (st_prev w3 L F P _ N0 (naddr n) (proj1 T3) G3 S3 Logic.I Rn) as (w4 & E4 & T4 & S4). cbn [naddr] in E4, S4.
  exists w4. split; [exact E4|]. split.
  - exact (stepped_trans _ _ _ _ _ T1 (stepped_trans _ _ _ _ _ T2 (stepped_trans _ _ _ _ _ T3 T4))).
  - unfold list_add_tail. cbn [set_next prev]. rewrite Em. exact S4.
Qed.

Lemma m_init_ok : forall w L F P h, history w L F -> geo w P -> shows w L h ->
  exists w', m_init e head w = Ok w' /\ stepped w w' L F /\ exists h', shows w' L h' /\ is_list h' head [].
Proof.
  intros w L F P h HH HG HS. unfold m_init.
  destruct (st_next w L F P h N0 head HH HG HS Logic.I Hrange) as (w1 & E1 & T1 & S1). cbn [naddr] in E1. rewrite E1. cbn [bind].
  pose proof (geo_pools _ _ _ (proj1 (proj2 T1)) HG) as G1.
  destruct (st_prev w1 L F P _ N0 head (proj1 T1) G1 S1 Logic.I Hrange) as (w2 & E2 & T2 & S2). cbn [naddr] in E2.
  exists w2. split; [exact E2|]. split; [exact (stepped_trans _ _ _ _ _ T1 T2)|].
  eexists. split; [exact S2|]. split; [constructor; [intros []|constructor]|]. cbn [chain set_prev set_next next prev naddr].
  rewrite !Z.eqb_refl. auto.
Qed.

(** ** Allocations *)
Lemma rd_zero : forall w L F P w' x a cpu i, history w L F -> geo w P -> In (id, a) L -> run1 e (OFill id a Zeroed) w = Ok (w', x) ->
  wvalid L (WI a cpu i) -> rd w' (WI a cpu i) = 0.
Proof.
  intros w L F P w' x a cpu i HH HG Ha Hrun (_ & Hc & Hi). destruct HG as (Hl & Hs & Hn & Hil & _). destruct W_pos as [Hp HW].
  unfold rd, load_word. apply ldw_bytes.
  { rewrite wmod_wmax. unfold wmax. split; [lia|]. apply Z.pow_pos_nonneg; unfold word_bits; destruct (e_wide e); lia. }
  intros j Hj. rewrite zero_bytes_nth. cbn [waddr].
  pose proof (p_fill_zero e _ _ _ _ _ HH id P a w' x Hl Ha Hrun cpu (W * i + Z.of_nat j)) as K.
  unfold percpu_ptr in K. rewrite Hs, Hn, Hil in K. rewrite Z.add_assoc in K. apply K; [lia|nia].
Qed.
Lemma rd_init : forall w L F P w' x a, history w L F -> geo w P -> In (id, a) L -> run1 e (OFill id a (Bytes (init_value e))) w = Ok (w', x) ->
  rd w' (WI a 0 0) = 123 /\ rd w' (WI a 0 1) = 456.
Proof.
  intros w L F P w' x a HH HG Ha Hrun. pose proof (nc_pos _ _ _ _ HH HG) as Hnc. destruct HG as (Hl & Hs & Hn & Hil & _). destruct W_pos as [Hp HW].
  assert (K : forall k, 0 <= k < 5 * W -> byte (view e (w_vm w')) (a + s * 0 + k) = nth (Z.to_nat k) (init_value e) 0).
  { intros k Hk. pose proof (p_fill_init e _ _ _ _ _ HH id P a (init_value e) w' x Hl Ha (init_value_bytes e)) as K.
    rewrite init_value_len, Hil, Hn in K. specialize (K Hsize Hrun 0 k). unfold percpu_ptr in K. rewrite Hs in K. apply K; lia. }
  assert (Hmax : 456 < wmax e) by (unfold wmax, word_bits; destruct (e_wide e); reflexivity).
  split; unfold rd, load_word; apply ldw_bytes; try (rewrite wmod_wmax; lia); intros j Hj; cbn [waddr].
  - rewrite <- (proj1 (init_value_nth e j Hj)). rewrite Z.mul_0_r, Z.add_0_r. rewrite <- (Nat2Z.id j) at 2. rewrite <- K by lia. f_equal. lia.
  - rewrite <- (proj2 (init_value_nth e j Hj)). rewrite <- (Nat2Z.id (_ + j)). rewrite <- K by lia. f_equal. lia.
Qed.

(** An allocation by the program. *)
Inductive alloc_case (w : world) (L F : ledger) (P : pool) (an : answers) (c : content) : Prop :=
| ac_item a w' F' P' : alloc e id w an c = Ok (w', Some a) -> history w' ((id, a) :: L) F' -> geo w' P' -> ~ In (id, a) L ->
    (forall l, wvalid L l -> rd w' l = rd w l) ->
    (c = Zeroed -> forall cpu i, 0 <= cpu < nc -> 0 <= i < 5 -> rd w' (WI a cpu i) = 0) ->
    (c = Bytes (init_value e) -> rd w' (WI a 0 0) = 123 /\ rd w' (WI a 0 1) = 456) -> alloc_case w L F P an c
| ac_null w' : alloc e id w an c = Ok (w', None) -> history w' L F -> geo w' P ->
    (forall l, wvalid L l -> rd w' l = rd w l) -> count id F = 0 -> 1 <= count id L ->
    (mr <> 0 /\ count id L = mr * (s / il) \/ ~ system_grants e P an (w_vm w)) -> alloc_case w L F P an c.

Lemma content_ok : forall P c, item_len P = il -> c = Zeroed \/ c = Bytes (init_value e) -> content_fits P c.
Proof.
  intros P c Hil [->| ->]; cbn [content_fits]; [exact Logic.I|]. split; [apply init_value_bytes|]. rewrite init_value_len, Hil. exact Hsize.
Qed.

Lemma alloc_ok : forall w L F P an c, history w L F -> geo w P -> an_trim1 an = true -> an_trim2 an = true ->
  c = Zeroed \/ c = Bytes (init_value e) -> alloc_case w L F P an c.
Proof.
  intros w L F P an c HH HG Ht1 Ht2 Hc. pose proof (proj1 HG) as Hl.
  assert (Hal : allowed e true v0 w L (OMalloc id an)) by (exists P; exact Hl).
  destruct (p_no_alarm e _ _ _ _ _ HH (OMalloc id an) eq_refl Hal (conj Ht1 Ht2)) as (w1 & x & Hrun).
  pose proof (hist_step e _ _ _ _ _ _ _ _ HH Hal Hrun) as HH1.
  assert (K1 : forall l, wvalid L l -> rd w1 l = rd w l).
  { intros l Hv. refine (call_keeps w L F P (OMalloc id an) w1 x l HH HG Hal Hrun eq_refl Hv _). destruct l; exact Logic.I. }
  assert (Hx : x = OutNull \/ exists a, x = OutItem a).
  { cbn [run1] in Hrun. rewrite Hl in Hrun. destruct (malloc_locked e P an (w_vm w)) as [[[o P1] v1]| |]; cbn [bind] in Hrun; try discriminate Hrun.
    destruct o as [[[r off] addr]|]; injection Hrun as _ <-; [right; exists addr; reflexivity|left; reflexivity]. }
  destruct Hx as [->|[a ->]].
  - destruct (p_null e _ _ _ _ _ HH id P an w1 OutNull Hl Hrun eq_refl) as (HcF & Hl1 & Hwhy).
    destruct HG as (_ & Hs & Hn & Hil & Hmr).
    apply (ac_null w L F P an c w1).
    + unfold alloc. rewrite Hrun. reflexivity.
    + exact HH1.
    + split; [exact Hl1|]. auto.
    + exact K1.
    + exact HcF.
    + pose proof (lookup_in _ _ _ Hl) as Hin. pose proof (has_range e _ _ _ _ _ id P HH Hin) as H1.
      destruct (counts e _ _ _ _ _ HH id P Hin) as (Hcnt & HGm & HF & Hnr). rewrite HcF in Hcnt. cbn in Hcnt. rewrite Hcnt.
      pose proof (wi_pools _ _ _ _ _ _ (hist_inv e _ _ _ _ _ HH) _ _ Hin) as HI.
      pose proof (malloc_locked_spec e P (items id F) (items id L) an (w_vm w) HI (wi_wf _ _ _ _ _ _ (hist_inv e _ _ _ _ _ HH))) as Hp.
      cbn [run1] in Hrun. rewrite Hl in Hrun.
      destruct Hp as [Ef Ht|a free' Ef Hrob Hnp|a free' r off P' Ef Hpo HS Hr Ea Hd Ho Hol Hnr' Hg HI'
        |a r off P' v' Ef HS Hr Ea Hd Ho Hol Hg HI' Hwf' Hfr|v' Ef Hfull Hwhy' Hwf' Hfr]; cbn [bind] in Hrun; try discriminate Hrun.
      destruct (full_handed e P (w_vm w) _ HGm HF) as (_ & H2 & _). rewrite (H2 Hfull).
      pose proof (item_pos _ _ HGm) as [Hip _]. pose proof (strd_pos e _ HGm). destruct (item_strd e _ HGm) as [k Hk]. rewrite Hk, Z.div_mul by lia.
      assert (1 <= k) by nia. nia.
    + rewrite Hs, Hil, Hmr in Hwhy. exact Hwhy.
  - cbn [live_after freed_after] in HH1. set (F1 := filter _ F) in HH1.
    pose proof (p_live_once e _ _ _ _ _ HH1) as Hnd. inversion Hnd as [|y l Hni _ Ey]; subst y l.
    destruct (call_geo w L F P _ w1 _ HH HG Hal Hrun Logic.I) as (P1 & HG1).
    assert (Hin1 : In (id, a) ((id, a) :: L)) by (left; reflexivity).
    assert (Hal1 : allowed e true v0 w1 ((id, a) :: L) (OFill id a c)).
    { exists P1. split; [apply HG1|]. split; [exact Hin1|]. apply content_ok; [apply HG1|exact Hc]. }
    destruct (p_no_alarm e _ _ _ _ _ HH1 (OFill id a c) eq_refl Hal1 Logic.I) as (w2 & y & Hrun2).
    pose proof (hist_step e _ _ _ _ _ _ _ _ HH1 Hal1 Hrun2) as HH2. cbn [live_after freed_after] in HH2.
    destruct (call_geo w1 _ _ P1 _ w2 _ HH1 HG1 Hal1 Hrun2 Logic.I) as (P2 & HG2).
    apply (ac_item w L F P an c a w2 F1 P2).
    + unfold alloc. rewrite Hrun. cbn [bind]. rewrite Hrun2. reflexivity.
    + exact HH2.
    + exact HG2.
    + exact Hni.
    + intros l Hv. rewrite <- (K1 l Hv).
      refine (call_keeps w1 _ _ P1 (OFill id a c) w2 y l HH1 HG1 Hal1 Hrun2 eq_refl _ _).
      * destruct l as [i|b cpu i]; [exact Hv|]. destruct Hv as (Hb & Hv). split; [right; exact Hb|exact Hv].
      * destruct l as [i|b cpu i]; [exact Logic.I|]. intros Q. injection Q as Q. subst b. exact (Hni (proj1 Hv)).
    + intros -> cpu i Hcp Hi. refine (rd_zero w1 _ _ P1 w2 y a cpu i HH1 HG1 Hin1 Hrun2 _). exact (conj Hin1 (conj Hcp Hi)).
    + intros ->. exact (rd_init w1 _ _ P1 w2 y a HH1 HG1 Hin1 Hrun2).
Qed.
End Proofs.
