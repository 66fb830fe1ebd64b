(** Proofs for C62: the theorems. *)
From Coq Require Import ZArith Bool List Lia.
From Verif Require Import RseqIR RseqSpec RseqKernel RseqSafe MemLemmas RseqSim Archs ArchsGood LinSpec ClientModel ClientSpec ComposeModel ComposeSpec ComposeFinal.
From Verif Require Import UtilsModel PoolVM PoolVMLemmas PoolModel PoolInv PoolOps PoolWorld PoolHist PoolProps PlaceModel PlaceSpec PlacePool PlaceProofs PlaceLayout.
Import ListNotations.
Local Open Scope Z_scope.

Theorem structures_in_pools : forall (Loc : Type) e v0 g a tw tx (pcs : nat -> piece) turn
    (view : forall i, Loc -> piece_loc (pcs i)) P busy at_ j0,
  lib_text a tw tx -> initial (j_s j0) -> uses g pcs turn view P ->
  (forall i, piece_start g (pcs i) (seen pcs turn view i (j_s j0))) ->
  (forall q, link v0 q = None) -> history e true v0 (j_w j0) (j_live j0) (j_freed j0) ->
  agrees e v0 (s_mem (j_s j0)) (j_w j0) (j_live j0) -> incl busy (j_live j0) ->
  placement e v0 g (j_w j0) busy pcs at_ ->
  forall tr j, jpath e v0 g tx pcs turn view P busy j0 tr j ->
  (forall i, piece_good g (pcs i) (seen pcs turn view i (j_s j0)) (seen pcs turn view i (j_s j)) (events_of pcs turn view i (obs tr))) /\
  history e true v0 (j_w j) (j_live j) (j_freed j) /\ incl busy (j_live j) /\
  agrees e v0 (s_mem (j_s j)) (j_w j) (j_live j) /\
  (forall t bs s', step g tx P (j_s j) (Lwr t bs) s' -> call_ok (j_s j) (Lwr t bs) ->
    at_large turn (j_s j) t \/
    (exists i, forall x, In x (map fst bs) -> piece_bytes g (pcs i) x) /\
    (forall x, In x (map fst bs) -> good_write e v0 (j_w j) busy x) /\
    exists w', run1 e (OWrite bs) (j_w j) = Ok (w', OutUnit)).
Proof.
  intros Loc e v0 g a tw tx pcs turn view P busy at_ j0 Htx Hi Hu Hst Hl H0 Hag Hb Hpl tr j Hp.
  assert (Hgood : good_text g tx) by (eapply lib_good; eauto).
  pose proof (placed_ok e v0 g _ _ _ busy pcs at_ H0 Hb Hpl) as Hok.
  pose proof (placed_separate e v0 g _ _ _ busy pcs at_ H0 Hb Hpl) as Hsep.
  pose proof (placed_good e v0 g _ _ _ busy pcs at_ H0 Hb Hpl) as Hpg.
  pose proof (jpath_inv Loc e v0 g tx pcs turn view P busy Hu Hsep Hgood Hok j0 Hi Hst Hl H0 Hag Hb Hpg tr j Hp) as HI.
  pose proof HI as (I1 & I2 & I3 & I4 & I5).
  split.
  { eapply (structures_compose Loc g a tw tx pcs turn view (plus Loc g pcs turn view P)); eauto. apply plus_uses. auto. }
  split; [exact I2|]. split; [exact I3|]. split; [exact I4|].
  intros t bs s' Hs Hc.
  destruct (code_stores Loc e v0 g tx pcs turn view P busy Hu Hsep Hgood Hok j0 Hi Hst tr j t bs s' HI Hs Hc) as [Hal|(i & Hin)]; [left; auto|right].
  split; [exists i; auto|].
  assert (Hgw : forall x, In x (map fst bs) -> good_write e v0 (j_w j) busy x) by (intros; eapply I5; eauto).
  split; [exact Hgw|]. cbn [run1].
  replace (forallb (fun p => mapped (w_vm (j_w j)) (PoolVM.page e (fst p))) bs) with true; [eauto|].
  symmetry. apply forallb_forall. intros p Hin'. eapply (good_mapped e true v0 (j_w j) (j_live j) (j_freed j) I2).
  eapply good_sub; eauto. apply Hgw. apply in_map. auto.
Qed.

(** ** Every pool call is possible *)
Definition item_bytes (Q : pool) (it : Z) : list Z :=
  flat_map (fun cpu => map (fun k => percpu_ptr Q it cpu + k) (zseq 0 (item_len Q))) (zseq 0 (max_nr_cpus (pattr Q))).
Lemma in_item_bytes : forall Q it x, In x (item_bytes Q it) <-> item_byte Q it x.
Proof.
  intros Q it x. unfold item_bytes, item_byte. rewrite in_flat_map. split.
  - intros (cpu & Hc & Hx). apply in_map_iff in Hx. destruct Hx as (k & <- & Hk). apply in_zseq in Hc, Hk. exists cpu, k. split; [lia|]. split; [lia|auto].
  - intros (cpu & k & Hc & Hk & ->). exists cpu. split; [apply in_zseq; lia|]. apply in_map. apply in_zseq. lia.
Qed.
Lemma wr_same : forall (f : Z -> Z) l m a, In a l -> wr m (map (fun x => (x, f x)) l) a = f a.
Proof.
  intros f l m a Hin. assert (Ha : In a (map fst (map (fun x => (x, f x)) l))) by (rewrite map_map; cbn; rewrite map_id; auto).
  destruct (wr_in _ m a Ha) as (b & Hb & ->). apply in_map_iff in Hb. destruct Hb as (y & E & _). inversion E; subst. auto.
Qed.

(** The bytes of live items that a call changed. *)
Definition changed (e : env) (m : mem) (w' : world) (L' : ledger) : list (Z * Z) :=
  map (fun y => (y, PoolVM.view e (w_vm w') y))
    (filter (fun y => negb (m y =? PoolVM.view e (w_vm w') y))
      (flat_map (fun i => match lookup (fst i) (w_pools w') with Some Q => item_bytes Q (snd i) | None => [] end) L')).

Lemma changed_ok : forall e v0 m w L F o w' x, history e true v0 w L F -> agrees e v0 m w L ->
  is_store o = false -> allowed e true v0 w L o -> run1 e o w = Ok (w', x) ->
  changes e v0 m w L w' (live_after o x L) (changed e m w' (live_after o x L)).
Proof.
  intros e v0 m w L F o w' x HH Hag Ho Ha Hrun.
  set (L' := live_after o x L). unfold changed.
  set (cand := flat_map (fun i => match lookup (fst i) (w_pools w') with Some Q => item_bytes Q (snd i) | None => [] end) L').
  set (nv := PoolVM.view e (w_vm w')).
  set (ch := filter (fun y => negb (m y =? nv y)) cand).
  pose proof (hist_step e true v0 w L F o w' x HH Ha Hrun) as HH'. pose proof (hist_inv e _ _ _ _ _ HH') as HW'. fold L' in HH', HW'.
  assert (Hfst : map fst (map (fun y => (y, nv y)) ch) = ch) by (rewrite map_map; cbn; apply map_id).
  split.
  - intros y Hy. destruct (in_dec Z.eq_dec y ch) as [Hin|Hnin]; [apply wr_same; auto|].
    rewrite wr_notin by (rewrite Hfst; auto).
    assert (Hcase : m y = nv y \/ ~ In y cand).
    { destruct (Z.eq_dec (m y) (nv y)) as [|Hne]; [left; auto|right]. intros Hc. apply Hnin. apply filter_In. split; auto.
      apply negb_true_iff. apply Z.eqb_neq. auto. }
    destruct Hcase as [|Hnc]; auto.
    destruct Hy as [Hown|(id & Q & it & H1 & H2 & H3)].
    + rewrite (Hag y (or_introl Hown)). symmetry.
      apply (fr_view _ _ _ _ (own_frame e true v0 w L F HH o w' x Ha Hrun Ho)). auto.
    + exfalso. apply Hnc. apply in_flat_map. exists (id, it). split; auto. cbn [fst snd].
      rewrite (lookup_some _ _ _ (wi_ids _ _ _ _ _ _ HW') H1). apply in_item_bytes. auto.
  - intros y Hy Hgy E. rewrite Hfst in Hy. apply filter_In in Hy. destruct Hy as [_ Hy]. apply negb_true_iff in Hy. apply Z.eqb_neq in Hy.
    apply Hy. rewrite (Hag y Hgy). symmetry. exact E.
Qed.

Theorem calls_possible : forall (Loc : Type) e v0 g tx (pcs : nat -> piece) turn (view : forall i, Loc -> piece_loc (pcs i)) P busy j t l k l' o w' x,
  history e true v0 (j_w j) (j_live j) (j_freed j) -> agrees e v0 (s_mem (j_s j)) (j_w j) (j_live j) ->
  running (s_thr (j_s j) t) -> top_is (j_s j) t l None k -> turn l = None -> (forall i, view i l' = view i l) ->
  pool_call busy o -> allowed e true v0 (j_w j) (j_live j) o -> run1 e o (j_w j) = Ok (w', x) ->
  exists bs j', jstep e v0 g tx pcs turn view P busy j (Lwr t bs) j' /\
    j_w j' = w' /\ j_live j' = live_after o x (j_live j) /\ j_freed j' = freed_after o x (j_live j) (j_freed j) /\
    agrees e v0 (s_mem (j_s j')) w' (j_live j') /\ t_ctx (s_thr (j_s j') t) = {| x_loc := l'; x_act := None |} :: k.
Proof.
  intros Loc e v0 g tx pcs turn view P busy [s w L F] t l k l' o w' x HH Hag Hr Et Htl Hv Hp Ha Hrun. cbn [j_s j_w j_live j_freed] in *.
  assert (Ho : is_store o = false) by (destruct o; auto; contradiction).
  pose proof (changed_ok e v0 (s_mem s) w L F o w' x HH Hag Ho Ha Hrun) as Hch.
  eexists. eexists. split; [eapply (J_call Loc e v0 g tx pcs turn view P busy s w L F t l k l' o w' x); eauto|].
  cbn [j_w j_live j_freed j_s]. repeat split; auto; [apply (proj1 Hch)|]. cbn. rewrite Nat.eqb_refl. reflexivity.
Qed.

(** ** Words of zeroed items *)
Lemma ldw_zero : forall g m a, (forall x, In x (span a (wsize g)) -> byte m x = 0) -> ldw g m a = 0.
Proof.
  intros g m a H. transitivity (ldw g (fun _ => 0) a).
  - unfold ldw. f_equal. f_equal. apply map_ext_in. intros x Hx. rewrite (H x Hx). reflexivity.
  - unfold ldw. assert (E : forall n, le_val (map (byte (fun _ : Z => 0)) (span a n)) = 0 /\ le_val (rev (map (byte (fun _ : Z => 0)) (span a n))) = 0).
    { intros n. assert (Z0 : forall l : list Z, (forall b, In b l -> b = 0) -> le_val l = 0).
      { induction l as [|b l IH]; intros Hb; auto. cbn. rewrite (Hb b) by (left; auto). rewrite IH by (intros; apply Hb; right; auto). reflexivity. }
      assert (Zb : forall b, In b (map (byte (fun _ : Z => 0)) (span a n)) -> b = 0).
      { intros b Hb. apply in_map_iff in Hb. destruct Hb as (? & <- & _). reflexivity. }
      split; apply Z0; auto. intros b Hb. apply Zb. apply in_rev. auto. }
    destruct (E (wsize g)) as [E1 E2]. unfold order. destruct (bigend g); auto.
Qed.

Theorem zeroed_words : forall e v0 g w L F id it P w' x f busy cpus sp,
  history e true v0 w L F -> In (id, P) (w_pools w) -> In (id, it) L -> run1 e (OFill id it Zeroed) w = Ok (w', x) ->
  word_at g w' busy cpus f sp -> sp_pool sp = id -> sp_item sp = it ->
  forall cpu, In cpu cpus -> ldw g (PoolVM.view e (w_vm w')) (f cpu) = 0.
Proof.
  intros e v0 g w L F id it P w' x f busy cpus sp HH Hin Hl Hr (Q & W1 & W2 & W3 & W4 & W5) <- <- cpu Hc.
  assert (Ew : w_pools w' = w_pools w).
  { destruct (fill_run e true v0 w L F (hist_inv e _ _ _ _ _ HH) _ P (sp_item sp) Zeroed Hin Hl Logic.I) as (w2 & r & E & Ep & _).
    rewrite E in Hr. injection Hr as <- <-. auto. }
  rewrite Ew in W1. rewrite (unique_pool e true v0 w L F (hist_inv e _ _ _ _ _ HH) _ _ _ W1 Hin) in *.
  destruct (W5 _ Hc) as [C1 C2]. pose proof (fill_content e true v0 w L F HH _ P _ Zeroed w' x Hin Hl Logic.I Hr cpu C1) as Hz.
  cbn [holds] in Hz. apply ldw_zero. intros y Hy. apply in_span in Hy. rewrite C2 in Hy. unfold percpu_ptr in Hy.
  replace y with (sp_item sp + stride (pattr P) * cpu + (y - (sp_item sp + stride (pattr P) * cpu))) by ring. apply Hz. lia.
Qed.
