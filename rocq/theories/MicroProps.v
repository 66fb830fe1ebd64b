(** C65 from the invariant. *)
From Coq Require Import ZArith Bool List Lia Znumtheory Permutation.
From Verif Require Import UtilsModel UtilsLemmas RseqIR MemLemmas PoolVM PoolVMLemmas PoolModel PoolInv PoolItem PoolMap PoolRange PoolBitmap PoolOps PoolMalloc PoolFree PoolDestroy PoolWorld PoolCreate PoolHist PoolProps MicroModel MicroSpec MicroInv MicroWorld MicroProofs MicroSteps MicroOps MicroFork.
Import ListNotations.
Local Open Scope Z_scope.

Section MPr.
Variable e : env.
Hypothesis He : env_ok e.
Hypothesis Hcp : 0 <= e_ncpus e.
Notation page := (PoolVM.page e).
Notation geom := (geom e).
Notation view := (view e).
Notation minv := (minv e).

(** ** One step *)
Lemma minv_step : forall v0 m G L F a m' x, minv v0 m G L F -> permitted e v0 m a -> mstep e a m = Some (Ok (m', x)) ->
  exists G' L' F', minv v0 m' G' L' F' /\
    (forall id P, In (id, P) G -> (forall an, a <> AOp (ODestroy id an)) -> exists P', In (id, P') G' /\ same P P').
Proof.
  intros v0 m G L F a m' x HM Hp Hs. destruct a as [t c|t k|o|v'].
  4:{ injection Hs as <- <-. exists G, L, F. split; [exact (minv_rest e v0 m G L F HM v' Hp)|]. intros i Q HQ _. exists Q. split; [exact HQ|apply same_refl]. }
  - cbn [mstep] in Hs. destruct (m_task m t) eqn:Et; try (destruct c; discriminate Hs).
    destruct c as [id an c|ptr s]; cbn [permitted] in Hp.
    + destruct Hp as (P & Hl & Hc). injection Hs as <- <-. exists G, L, F. split; [eapply (call_malloc e v0); eauto|].
      intros i Q HQ _. exists Q. split; auto. apply same_refl.
    + destruct Hp as (id & P & Hl & Hh & ->).
      destruct (call_free e v0 m G L F HM t id ptr P Et Hl Hh) as (Q & r & Hf & HM'). rewrite Hf in Hs. injection Hs as <- <-.
      exists G, L, F. split; [exact HM'|]. intros i R HR _. exists R. split; auto. apply same_refl.
  - cbn [mstep] in Hs. destruct (minv_advance e v0 m G L F HM t k _ Hs) as [(m1 & x1 & G1 & L1 & F1 & E & HM1 & _ & Hk)|[E _]]; [|discriminate E].
    injection E as <- <-. exists G1, L1, F1. split; [exact HM1|]. intros i Q HQ _. exact (Hk i Q HQ).
  - destruct (minv_op e He Hcp v0 m G L F HM o _ Hp Hs) as [(m1 & x1 & G1 & L1 & F1 & E & HM1 & Hk & _)|[E|[E _]]]; try discriminate E.
    injection E as <- <-. exists G1, L1, F1. split; [exact HM1|]. intros i Q HQ Hne. exists Q. split; [|apply same_refl].
    apply Hk; auto. intros an ->. exact (Hne an eq_refl).
Qed.

Lemma mrun_inv : forall v0 m, vmwf e v0 -> mrun e v0 m -> exists G L F, minv v0 m G L F.
Proof.
  intros v0 m Hwf H. induction H as [|m a m' x Hr IH Hp Hs|m t lost Hr IH Hf].
  - exists [], [], []. now apply minv_start.
  - destruct IH as (G & L & F & HM). destruct (minv_step _ _ _ _ _ _ _ _ HM Hp Hs) as (G' & L' & F' & HM' & _). eauto.
  - destruct IH as (G & L & F & HM). exact (minv_fork e v0 m G L F t lost HM Hf).
Qed.

Lemma task_other : forall v0 m a m' x t, permitted e v0 m a -> mstep e a m = Some (Ok (m', x)) -> is_step t a = false ->
  m_task m t <> TIdle -> m_task m' t = m_task m t.
Proof.
  intros v0 m a m' x t Hp Hs Hn Hi. destruct a as [t' c|t' k|o|v']; cbn [mstep is_step] in *.
  4:{ injection Hs as <- <-. reflexivity. }
  - assert (Hne : t <> t'). { intros ->. destruct (m_task m t'); try congruence; destruct c; discriminate Hs. }
    destruct (m_task m t'); try (destruct c; discriminate Hs). destruct c as [id an c|ptr s].
    + injection Hs as <- <-. cbn. now apply upd_other.
    + destruct (find_owner _ _) as [[[i Q] r]|]; [|discriminate Hs]. injection Hs as <- <-. cbn. now apply upd_other.
  - apply Z.eqb_neq in Hn. assert (Hne : t <> t') by congruence.
    unfold advance in Hs. destruct (pool_of (m_task m t')) as [id|]; [|discriminate Hs].
    destruct (lookup id (m_pools m)) as [P|]; [|discriminate Hs].
    unfold step_in in Hs.
    destruct (m_task m t') as [|i c|i an c|i c n|i c n nxt|i c n nxt todo|i an c|i c found|i item c ph|i ptr s|i ptr s|i ptr hd ph|i ptr hd|i ptr|i];
      try discriminate Hs;
      repeat match type of Hs with
      | Some (Ok (_, _)) = Some (Ok (_, _)) => injection Hs as <- <-; cbn; now apply upd_other
      | Some Undef = _ => discriminate Hs
      | Some Abort = _ => discriminate Hs
      | None = _ => discriminate Hs
      | context [bind ?y _] => destruct y; cbn [bind] in Hs
      | context [match ?y with _ => _ end] => destruct y; cbn [bind] in Hs
      end.
  - destruct o; try discriminate Hs;
      match type of Hs with context [bind ?y _] => destruct y as [[w y']| |]; cbn [bind] in Hs; try discriminate Hs; injection Hs as <- <-; reflexivity end.
Qed.

(** ** What a thread has asked for, and how far it is *)
Definition asks (tk : task) (id : Z) (c : content) : Prop :=
  match tk with
  | TWant i (CMalloc _ _ c') => i = id /\ c' = c
  | TMHead i _ c' | TMNext i c' _ | TMPop i c' _ _ | TMCheck i c' _ _ _ | TMFresh i _ c' | TMUnlock i c' _ | TFill i _ c' _ => i = id /\ c' = c
  | _ => False
  end.

Fixpoint size_rest (l : list bytes) : Z := match l with [] => 0 | w :: l => 2 * Z.of_nat (length w) + 2 + size_rest l end.
Definition size (ph : phase) : Z :=
  match ph with
  | PStore todo rest => Z.of_nat (length todo) + 1 + size_rest rest
  | PCmp todo all rest => Z.of_nat (length todo) + 1 + (Z.of_nat (length all) + 1) + size_rest rest
  | PEnd => 0
  end.
Lemma size_next : forall rest, size (next rest) = size_rest rest.
Proof. intros [|w rest]; cbn [next size size_rest]; lia. Qed.
Lemma size_rest_pos : forall l, 0 <= size_rest l.
Proof. induction l as [|w l IH]; cbn [size_rest]; lia. Qed.
Lemma size_pos : forall ph, 0 <= size ph.
Proof. intros [t r|t a r|]; cbn [size]; try lia; pose proof (size_rest_pos r); lia. Qed.
Lemma pick_len : forall k y l z todo, pick k y l = (z, todo) -> length todo = length l.
Proof.
  intros k y l z todo H. unfold pick in H. destruct (nth_error (y :: l) k) as [u|] eqn:E.
  - injection H as <- <-. assert (k < length (y :: l))%nat by (apply nth_error_Some; congruence).
    rewrite app_length, firstn_length. change (match y :: l with [] => [] | _ :: l0 => skipn k l0 end) with (skipn (S k) (y :: l)).
    rewrite skipn_length. cbn [length] in *. lia.
  - now injection H as <- <-.
Qed.
Lemma size_step : forall k ph v ph' v', ph <> PEnd -> fill_byte e k ph v = Ok (ph', v') -> size ph' < size ph.
Proof.
  intros k ph v ph' v' Hne H. destruct ph as [todo rest|todo all rest|]; [| |congruence]; cbn [fill_byte] in H.
  - destruct todo as [|y l].
    + injection H as <- <-. rewrite size_next. cbn [size length]. lia.
    + destruct (pick k y l) as [z todo] eqn:E. destruct (mapped v _); [|discriminate H]. injection H as <- <-.
      cbn [size]. rewrite (pick_len _ _ _ _ _ E). cbn [length]. lia.
  - destruct todo as [|y l].
    + injection H as <- <-. rewrite size_next. cbn [size length]. lia.
    + destruct (pick k y l) as [z todo] eqn:E. destruct (negb _); [discriminate H|].
      destruct (_ =? _); injection H as <- <-; cbn [size]; rewrite ?(pick_len _ _ _ _ _ E); cbn [length]; lia.
Qed.

Definition nfill (P : pool) : Z := nd P * (2 * item_len P + 2).
Definition nchk (P : pool) : Z := nd P * item_len P.
Definition rank (P : pool) (tk : task) : Z :=
  match tk with
  | TIdle => 0
  | TFill _ _ _ ph => size ph + 1
  | TMUnlock _ _ _ => nfill P + 2
  | TMFresh _ _ _ => nfill P + 3
  | TMCheck _ _ _ _ todo => Z.of_nat (length todo) + nfill P + 3
  | TMPop _ _ _ _ => nchk P + nfill P + 4
  | TMNext _ _ _ => nchk P + nfill P + 5
  | TMHead _ _ _ => nchk P + nfill P + 6
  | TFUnlock _ => 1
  | TFPush _ _ => 2
  | TFLink _ _ _ => 3
  | TFPoison _ _ _ ph => size ph + 4
  | TFHead _ _ _ => nfill P + 5
  | TFClear _ _ _ => nfill P + 6
  | TWant _ _ => nchk P + nfill P + 7
  end.
Lemma rank_same : forall P P' tk, same P P' -> rank P' tk = rank P tk.
Proof. intros P P' tk HS. unfold rank, nfill, nchk. now rewrite (s_nd P P' HS), (s_len P P' HS). Qed.
Lemma rank_pos : forall P tk, geom P -> tk <> TIdle -> 0 < rank P tk.
Proof.
  intros P tk HG Hne. pose proof (item_pos _ _ HG). pose proof (nd_bounds P). pose proof (g_cpus _ _ HG).
  assert (0 <= nfill P) by (unfold nfill; nia). assert (0 <= nchk P) by (unfold nchk; nia).
  destruct tk; cbn [rank]; try lia; try congruence; match goal with ph : phase |- _ => pose proof (size_pos ph); lia end.
Qed.

Lemma fill_len : forall p bs, length (fill_bytes p bs) = length bs.
Proof. intros p bs. unfold fill_bytes. rewrite combine_length, span_length. apply Nat.min_id. Qed.
Lemma content_len : forall P c p, geom P -> content_fits P c -> Z.of_nat (length (content_bytes P c p)) <= item_len P.
Proof.
  intros P c p HG Hc. pose proof (item_pos _ _ HG). destruct c as [| |bs]; cbn [content_bytes content_fits] in *.
  - cbn. lia.
  - unfold zero_bytes. rewrite fill_len, repeat_length. lia.
  - rewrite fill_len. lia.
Qed.
Lemma flat_len : forall (A B : Type) (f : A -> list B) l n, (forall x, In x l -> (length (f x) <= n)%nat) -> (length (flat_map f l) <= length l * n)%nat.
Proof.
  intros A B f l n H. induction l as [|x l IH]; cbn; auto. rewrite app_length. pose proof (H x (or_introl eq_refl)).
  assert (length (flat_map f l) <= length l * n)%nat by (apply IH; intros y Hy; apply H; now right). lia.
Qed.
Lemma zseq_len : forall a n, Z.of_nat (length (zseq a n)) = Z.max 0 n.
Proof. intros a n. unfold zseq. rewrite map_length, seq_length. lia. Qed.
Lemma words_len : forall P, geom P -> Z.of_nat (length (word_offsets e (item_len P))) * wsz e <= item_len P.
Proof.
  intros P HG. unfold word_offsets. rewrite map_length, zseq_len. pose proof (item_pos _ _ HG). pose proof (wsz_range e).
  destruct (eight_item _ _ HG) as [q Hq]. rewrite Hq.
  replace (q * wsz e + (wsz e - 1)) with (wsz e - 1 + q * wsz e) by ring. rewrite Z.div_add by lia. rewrite Z.div_small by lia.
  nia.
Qed.
Lemma poison_len : forall P p, geom P -> Z.of_nat (length (poison_of e P p)) <= item_len P.
Proof.
  intros P p HG. unfold poison_of, poison_bytes.
  pose proof (flat_len _ _ (fun o => stw (wcfg e) (p + o) (poison (pattr P))) (word_offsets e (item_len P)) (Z.to_nat (wsz e))) as H.
  assert (K : forall x, In x (word_offsets e (item_len P)) -> (length (stw (wcfg e) (p + x) (poison (pattr P))) <= Z.to_nat (wsz e))%nat).
  { intros x _. rewrite <- (map_length fst), stw_keys, span_length. rewrite <- (wsz_nat e). lia. }
  specialize (H K). pose proof (words_len P HG). pose proof (wsz_range e). nia.
Qed.
Lemma cpus_len : forall P, geom P -> Z.of_nat (length (cpus P)) = ncpus P.
Proof. intros P HG. unfold cpus. rewrite zseq_len. pose proof (g_cpus _ _ HG). lia. Qed.
Lemma start_size : forall P a Wb, geom P -> (forall p, Z.of_nat (length (Wb p)) <= item_len P) -> size (start P a Wb) <= nfill P.
Proof.
  intros P a Wb HG HW. unfold start. pose proof (item_pos _ _ HG). pose proof (g_cpus _ _ HG).
  assert (K : size_rest (map (area P a Wb) (cpus P)) <= ncpus P * (2 * item_len P + 2)).
  { rewrite <- (cpus_len P HG). induction (cpus P) as [|i l IH]; cbn [map size_rest length]; [lia|].
    unfold area at 1. pose proof (HW (a + strd P * i)). nia. }
  unfold nfill, nd. destruct (cow_init P).
  - cbn [size]. unfold area at 1. pose proof (HW (a + strd P * ncpus P)). nia.
  - rewrite size_next. lia.
Qed.
Lemma check_len : forall P r off, geom P -> (init r = None <-> cow_init P = false) -> Z.of_nat (length (check_words e P r off)) <= nchk P.
Proof.
  intros P r off HG Hi. pose proof (item_pos _ _ HG). pose proof (nd_bounds P). pose proof (g_cpus _ _ HG). unfold check_words, nchk.
  destruct (robust_set (pattr P)); [|cbn; nia].
  set (l := _ ++ _).
  assert (Hl : Z.of_nat (length l) <= nd P).
  { unfold l. rewrite app_length, map_length. rewrite Nat2Z.inj_add, (cpus_len P HG). unfold nd.
    unfold range_init_ptr. destruct (init r) eqn:E; cbn [length].
    - destruct (cow_init P) eqn:Ec; [lia|]. destruct Hi as [_ Hi]. specialize (Hi eq_refl). discriminate Hi.
    - destruct (cow_init P); lia. }
  pose proof (flat_len _ _ (fun p => map (fun o => p + o) (word_offsets e (item_len P))) l (length (word_offsets e (item_len P)))) as K.
  assert (Hx : forall x, In x l -> (length (map (fun o => (x + o)%Z) (word_offsets e (item_len P))) <= length (word_offsets e (item_len P)))%nat).
  { intros x _. now rewrite map_length. }
  specialize (K Hx). pose proof (words_len P HG). pose proof (wsz_range e).
  assert (Z.of_nat (length (word_offsets e (item_len P))) <= item_len P) by nia. nia.
Qed.

Lemma contains_of : forall P c v a, geom P -> content_fits P c -> phase_ok e P a (content_bytes P c) v PEnd -> contains e P c v a.
Proof.
  intros P c v a HG Hc H cpu k Hcpu. pose proof (nd_bounds P). cbn [phase_ok] in H. specialize (H cpu ltac:(lia)). unfold area in H.
  pose proof (item_pos _ _ HG). unfold PoolWorld.percpu_ptr.
  destruct c as [| |bs]; cbn [content_bytes content_fits] in *; auto; intros Hk.
  - assert (K := H (a + strd P * cpu + k) 0). rewrite K; [reflexivity|]. unfold zero_bytes.
    pose proof (in_fill_bytes (repeat 0 (Z.to_nat (item_len P))) (a + strd P * cpu) k) as Hin. rewrite repeat_length in Hin.
    specialize (Hin ltac:(lia)). rewrite nth_repeat in Hin. exact Hin.
  - rewrite (H _ _ (in_fill_bytes bs (a + strd P * cpu) k Hk)). apply Z.mod_small.
    destruct Hc as [Hf _]. rewrite Forall_forall in Hf. apply Hf. apply nth_In. lia.
Qed.

Lemma own_step : forall v0 m G L F t k m' x id P, minv v0 m G L F -> pool_of (m_task m t) = Some id -> In (id, P) G ->
  advance e t k m = Some (Ok (m', x)) ->
  match x with
  | None => rank P (m_task m' t) < rank P (m_task m t) /\ pool_of (m_task m' t) = Some id /\
      forall c, asks (m_task m t) id c -> asks (m_task m' t) id c
  | Some (OutItem a) => m_vm m' = m_vm m /\ m_held m' = (id, a) :: m_held m /\ m_task m' t = TIdle /\
      (owns (m_task m t) = Some (id, a) /\ forall c, asks (m_task m t) id c -> contains e P c (m_vm m) a)
  | Some _ => m_task m' t = TIdle
  end.
Proof.
  intros v0 m G L F t k m' x id P HM Hpo Hin Hadv. unfold advance in Hadv. rewrite Hpo in Hadv.
  rewrite (look e v0 m G L F HM id P Hin) in Hadv.
  pose proof (geoms e v0 m G L F HM id P Hin) as HG. pose proof (item_pos _ _ HG) as Hip. pose proof (g_cpus _ _ HG) as Hc1.
  pose proof (nd_bounds P) as Hnd.
  assert (Hnf : 0 <= nfill P) by (unfold nfill; nia). assert (Hnc : 0 <= nchk P) by (unfold nchk; nia).
  pose proof (mi_task _ _ _ _ _ _ HM t) as Ht.
  pose proof (mi_w _ _ _ _ _ _ HM) as HW. pose proof (wi_pools _ _ _ _ _ _ HW _ _ Hin) as HI. cbn [w_vm] in HI.
  assert (Hact : forall i, locks (m_task m t) = Some i -> actual e (m_lock m) (m_task m) id P = eff e (m_task m t) P).
  { intros i Hi. pose proof (locks_pool _ _ Hi) as E. rewrite Hpo in E. injection E as <-. now apply (actual_locked e v0 m G L F HM). }
  destruct (m_task m t) as [|i c|i an c|i c n|i c n nxt|i c n nxt todo|i an c|i c found|i item c ph|i ptr s|i ptr s|i ptr hd ph|i ptr hd|i ptr|i] eqn:Et;
    cbn [pool_of] in Hpo; try discriminate Hpo; injection Hpo as ->; cbn [step_in] in Hadv;
    cbn [tok] in Ht; cbn [locks pool_of] in Hact; try rewrite (Hact _ eq_refl) in Hadv; cbn [eff] in Hadv.
  - destruct (m_lock m id); [discriminate Hadv|]. injection Hadv as <- <-. cbn [goto m_task set_lock]. rewrite upd_same.
    destruct c as [i' an c|ptr s]; cbn [rank pool_of asks]; (split; [lia|]); (split; [reflexivity|]); auto.
  - injection Hadv as <- <-. cbn [goto m_task]. rewrite upd_same. destruct (_ =? 0); cbn [rank pool_of asks]; (split; [lia|]); (split; [reflexivity|]); auto.
  - destruct (find_range _ _); [|discriminate Hadv]. destruct (accessible _ _ _ _); [|discriminate Hadv].
    injection Hadv as <- <-. cbn [goto m_task]. rewrite upd_same. cbn [rank pool_of asks]. split; [lia|]. auto.
  - destruct (find_range _ _) as [r|] eqn:Ef; [|discriminate Hadv].
    injection Hadv as <- <-. cbn [goto m_task]. rewrite upd_same. cbn [rank pool_of asks]. split; [|auto].
    assert (HR : rinv e P (m_vm m) r).
    { pose proof (pi_ranges _ _ _ _ _ HI) as HF. rewrite Forall_forall in HF. apply HF. eapply find_range_base; eauto. }
    assert (Hi : init r = None <-> cow_init P = false).
    { rewrite (r_init _ _ _ _ HR). destruct (cow_init P); split; congruence. }
    pose proof (check_len P r (node_ptr e P n - node_base e P n) HG Hi). lia.
  - destruct todo as [|x0 todo].
    + destruct (find_range _ _); [|discriminate Hadv]. destruct (set_alloc_slot _ _ _ _); try discriminate Hadv. cbn [bind] in Hadv.
      injection Hadv as <- <-. cbn [goto m_task]. rewrite upd_same. cbn [rank pool_of asks length]. split; [lia|]. auto.
    + destruct (negb _); [discriminate Hadv|]. destruct (_ =? _); [|discriminate Hadv].
      injection Hadv as <- <-. cbn [goto m_task]. rewrite upd_same. cbn [rank pool_of asks length]. split; [lia|]. auto.
  - destruct (malloc_locked _ _ _ _) as [[[found P1] v1]| |]; try discriminate Hadv. cbn [bind] in Hadv.
    injection Hadv as <- <-. cbn [goto m_task]. rewrite upd_same. cbn [rank pool_of asks]. split; [lia|]. auto.
  - destruct Ht as (P' & Hin' & Hc & Hfound). rewrite (unique e v0 m G L F HM id P P' Hin Hin') in *.
    destruct found as [[[r off] a]|].
    + destruct Hfound as (Ea & Ho & Hol & Hr0).
      assert (HR0 : rinv e P (m_vm m) r) by (pose proof (pi_ranges _ _ _ _ _ HI) as HF; rewrite Forall_forall in HF; auto).
      assert (Htw : twin r r) by (repeat split).
      rewrite (start_eq e P a (content_bytes P c) (m_vm m) r off HG HR0 Ea Ho Hol P r (same_refl P) Htw) in Hadv.
      assert (Hsz : size (start P a (content_bytes P c)) <= nfill P) by (apply start_size; auto; intros p; now apply content_len).
      destruct c as [| |bs]; injection Hadv as <- <-; cbn [goto m_task set_held m_held m_vm set_lock]; rewrite upd_same.
      * do 3 (split; [reflexivity|]). split; [reflexivity|]. intros c [_ <-] cpu kk _. exact Logic.I.
      * cbn [rank pool_of asks]. split; [lia|]. auto.
      * cbn [rank pool_of asks]. split; [lia|]. auto.
    + injection Hadv as <- <-. cbn. now rewrite upd_same.
  - destruct Ht as (P' & Hin' & Hc & Hph). rewrite (unique e v0 m G L F HM id P P' Hin Hin') in *.
    destruct ph as [todo rest|todo all rest|].
    + destruct (fill_byte e k (PStore todo rest) (m_vm m)) as [[ph' v']| |] eqn:Ef; try discriminate Hadv. cbn [bind] in Hadv.
      injection Hadv as <- <-. cbn [goto m_task set_vm]. rewrite upd_same. cbn [rank pool_of asks].
      apply size_step in Ef; [|discriminate]. split; [lia|]. auto.
    + destruct (fill_byte e k (PCmp todo all rest) (m_vm m)) as [[ph' v']| |] eqn:Ef; try discriminate Hadv. cbn [bind] in Hadv.
      injection Hadv as <- <-. cbn [goto m_task set_vm]. rewrite upd_same. cbn [rank pool_of asks].
      apply size_step in Ef; [|discriminate]. split; [lia|]. auto.
    + injection Hadv as <- <-. cbn [goto m_task set_held m_held m_vm]. rewrite upd_same. do 3 (split; [reflexivity|]).
      split; [reflexivity|]. intros c' [_ <-]. now apply contains_of.
  - destruct (find_range _ _); [|discriminate Hadv]. destruct (clear_alloc_slot _ _ _ _); try discriminate Hadv. cbn [bind] in Hadv.
    injection Hadv as <- <-. cbn [goto m_task put_pool]. rewrite upd_same. cbn [rank pool_of asks]. split; [lia|]. auto.
  - destruct Ht as (P' & Hin' & ->). rewrite (unique e v0 m G L F HM id P P' Hin Hin') in *.
    assert (HaL : In (id, ptr) L) by (apply (mi_live _ _ _ _ _ _ HM); right; exists t; now rewrite Et).
    destruct (cleared_spec e v0 _ L F HW id P ptr Hin HaL) as (r1 & r' & Hr & HR & H1 & H2 & H3 & Ef & Eo & Ec & Htw & Ecl & Ef').
    cbn [w_vm] in HR. pose proof (cleared_same e P ptr) as HS. rewrite Ef', Eo in Hadv.
    assert (Epo : poison_of e (cleared e P ptr) = poison_of e P).
    { unfold poison_of. rewrite (s_len P _ HS), (s_attr P _ HS). reflexivity. }
    rewrite Epo in Hadv.
    rewrite (start_eq e P ptr (poison_of e P) (m_vm m) r1 (ptr - base r1) HG HR ltac:(lia) H1 H2 (cleared e P ptr) r' HS Htw) in Hadv.
    assert (Est : start (cleared e P ptr) ptr (poison_of e P) = start P ptr (poison_of e P)).
    { unfold start, area, cpus. rewrite (s_attr P _ HS), (s_cow P _ HS). reflexivity. }
    rewrite Est in Hadv.
    assert (Hsz : size (start P ptr (poison_of e P)) <= nfill P) by (apply start_size; auto; intros p; now apply poison_len).
    injection Hadv as <- <-. cbn [goto m_task]. rewrite upd_same. destruct (poison_set _); cbn [rank pool_of asks]; (split; [lia|]); auto.
  - destruct ph as [todo rest|todo all rest|].
    + destruct (fill_byte e k (PStore todo rest) (m_vm m)) as [[ph' v']| |] eqn:Ef; try discriminate Hadv. cbn [bind] in Hadv.
      injection Hadv as <- <-. cbn [goto m_task set_vm]. rewrite upd_same. cbn [rank pool_of asks].
      apply size_step in Ef; [|discriminate]. split; [lia|]. auto.
    + destruct (fill_byte e k (PCmp todo all rest) (m_vm m)) as [[ph' v']| |] eqn:Ef; try discriminate Hadv. cbn [bind] in Hadv.
      injection Hadv as <- <-. cbn [goto m_task set_vm]. rewrite upd_same. cbn [rank pool_of asks].
      apply size_step in Ef; [|discriminate]. split; [lia|]. auto.
    + injection Hadv as <- <-. cbn [goto m_task]. rewrite upd_same. cbn [rank pool_of asks size]. split; [lia|]. auto.
  - destruct (accessible _ _ _ _); [|discriminate Hadv]. injection Hadv as <- <-. cbn [goto m_task set_vm]. rewrite upd_same.
    cbn [rank pool_of asks]. split; [lia|]. auto.
  - injection Hadv as <- <-. cbn [goto m_task put_pool]. rewrite upd_same. cbn [rank pool_of asks]. split; [lia|]. auto.
  - injection Hadv as <- <-. cbn. now rewrite upd_same.
Qed.

(** ** A call from its start *)
Lemma in_call : forall v0 t n m m' id P c G L F, during e v0 t n m m' -> minv v0 m G L F -> In (id, P) G ->
  pool_of (m_task m t) = Some id ->
  exists G' L' F' P', minv v0 m' G' L' F' /\ In (id, P') G' /\ same P P' /\ pool_of (m_task m' t) = Some id /\
    Z.of_nat n + rank P (m_task m' t) <= rank P (m_task m t) /\ (asks (m_task m t) id c -> asks (m_task m' t) id c).
Proof.
  intros v0 t n m m' id P c G L F Hd HM Hin Hpo. induction Hd as [m|n m m1 a m2 x Hd IH Hp Hs Hx].
  - exists G, L, F, P. split; [exact HM|]. split; [exact Hin|]. split; [apply same_refl|]. split; [exact Hpo|]. split; [cbn; lia|auto].
  - destruct (IH HM Hpo) as (G1 & L1 & F1 & P1 & HM1 & Hin1 & HS1 & Hpo1 & Hr1 & Ha1).
    destruct (minv_step _ _ _ _ _ _ _ _ HM1 Hp Hs) as (G2 & L2 & F2 & HM2 & Hk).
    assert (Hnd : forall an, a <> AOp (ODestroy id an)).
    { intros an ->. cbn [permitted] in Hp. destruct Hp as [_ Hp]. exact (Hp t Hpo1). }
    destruct (Hk id P1 Hin1 Hnd) as (P2 & Hin2 & HS2). exists G2, L2, F2, P2. split; [exact HM2|]. split; [exact Hin2|].
    split; [eapply same_trans; eauto|]. destruct (is_step t a) eqn:Est.
    + specialize (Hx eq_refl). subst x. destruct a as [|t' k| |]; try discriminate Est. cbn in Est. apply Z.eqb_eq in Est. subst t'.
      pose proof (own_step v0 m1 G1 L1 F1 t k m2 None id P1 HM1 Hpo1 Hin1 Hs) as (K1 & K2 & K3). cbv beta iota in *.
      rewrite !(rank_same P P1 _ HS1) in K1. split; [exact K2|]. split; [rewrite Nat2Z.inj_succ; lia|auto].
    + assert (Hne : m_task m1 t <> TIdle) by (intros E; rewrite E in Hpo1; discriminate Hpo1).
      rewrite (task_other v0 m1 a m2 x t Hp Hs Est Hne). auto.
Qed.

(** ** Progress *)
Lemma locks_runs : forall v0 m G L F t id k, minv v0 m G L F -> locks (m_task m t) = Some id -> exists r, advance e t k m = Some r.
Proof.
  intros v0 m G L F t id k HM Hl. pose proof (locks_pool _ _ Hl) as Hpo. unfold advance. rewrite Hpo.
  destruct (lookup id (m_pools m)); [|eauto]. unfold step_in.
  destruct (m_task m t) as [|i c|i an c|i c n|i c n nxt|i c n nxt todo|i an c|i c found|i item c ph|i ptr s|i ptr s|i ptr hd ph|i ptr hd|i ptr|i];
    try discriminate Hl; eauto; repeat match goal with |- context [match ?y with _ => _ end] => destruct y; eauto end.
Qed.
Lemma fill_runs : forall v0 m G L F t id a c ph k, minv v0 m G L F -> m_task m t = TFill id a c ph -> exists r, advance e t k m = Some r.
Proof.
  intros v0 m G L F t id a c ph k HM Et. unfold advance. rewrite Et. cbn [pool_of]. destruct (lookup id (m_pools m)); [|eauto].
  cbn [step_in]. destruct ph; eauto.
Qed.
Lemma inside_locks : forall tk id, inside tk id <-> locks tk = Some id.
Proof. intros tk id. destruct tk; cbn; split; intros H; try discriminate H; try contradiction; congruence. Qed.
End MPr.
