(** Which pages the pools write to (C39): lemmas about [populated]. *)
From Coq Require Import ZArith Bool List Lia Znumtheory.
From Verif Require Import UtilsModel UtilsLemmas RseqIR MemLemmas PoolVM PoolVMLemmas PoolModel PoolInv PoolItem PoolMap PoolRange
  PoolBitmap PoolOps PoolMalloc PoolFree PoolDestroy PoolCreate PoolWorld PoolHist PoolQuietSpec.
Import ListNotations.
Local Open Scope Z_scope.

Section Quiet.
Variable e : env.
Notation psz := (e_page e).
Notation page := (PoolVM.page e).
Notation geom := (geom e).
Notation rinv := (rinv e).
Notation vmwf := (vmwf e).

(** Only pages in [S] may have been written between [v] and [v']. *)
Definition keeps (S : Z -> Prop) (v v' : vm) : Prop :=
  forall q, populated v' q = true -> populated v q = true \/ S q.

Lemma keeps_refl : forall S v, keeps S v v.
Proof. intros S v q H. auto. Qed.
Lemma keeps_trans : forall S v1 v2 v3, keeps S v1 v2 -> keeps S v2 v3 -> keeps S v1 v3.
Proof. intros S v1 v2 v3 H1 H2 q H. destruct (H2 q H) as [H3|H3]; auto. Qed.
Lemma keeps_sub : forall (S S' : Z -> Prop) v v', keeps S v v' -> (forall q, S q -> S' q) -> keeps S' v v'.
Proof. intros S S' v v' H HS q Hq. destruct (H q Hq); auto. Qed.
Lemma keeps_store : forall (S : Z -> Prop) v ps, 0 < psz -> (forall x, In x (map fst ps) -> S (page x)) -> keeps S v (store e v ps).
Proof.
  intros S v ps Hp HS q Hq. apply store_populated in Hq; auto. destruct Hq as [Hq|(x & Hx & <-)]; auto.
Qed.
Lemma keeps_munmap : forall S v a len, keeps S v (munmap e v a len).
Proof. intros S v a len q H. cbn in H. apply andb_prop in H. left. apply H. Qed.
Lemma keeps_shared : forall S v a len, keeps S v (mmap_shared e v a len).
Proof. intros S v a len q H. cbn in H. apply andb_prop in H. left. apply H. Qed.
Lemma keeps_private : forall S v a len f, keeps S v (mmap_private e v a len f).
Proof. intros S v a len f q H. cbn in H. apply andb_prop in H. left. apply H. Qed.
Lemma keeps_private_cpus : forall S P b f l v, keeps S v (map_private_cpus e P b f l v).
Proof.
  intros S P b f l. unfold map_private_cpus. induction l as [|i l IH]; intros v; cbn [fold_left]; [apply keeps_refl|].
  eapply keeps_trans; [apply keeps_private|apply IH].
Qed.
Lemma keeps_dontfork : forall S v a len, keeps S v (madv_dontfork e v a len).
Proof. intros S v a len q H. auto. Qed.
Lemma keeps_wipefork : forall S v a len, keeps S v (madv_wipefork e v a len).
Proof. intros S v a len q H. auto. Qed.

Lemma keeps_mmap_anon : forall S v len c a v', mmap_anon e v len c = Some (a, v') -> keeps S v v'.
Proof.
  intros S v len [c|] a v' H; [|discriminate]. unfold mmap_anon in H. destruct (_ && _); [|discriminate].
  injection H as <- <-. intros q Hq. cbn in Hq. apply andb_prop in Hq. left. apply Hq.
Qed.

Lemma keeps_aligned : forall S v ps len al hdr c t1 t2 x v',
  aligned_mmap_anonymous e v ps len al hdr c t1 t2 = Ok (x, v') -> keeps S v v'.
Proof.
  intros S v ps len al hdr c t1 t2 x v' H. unfold aligned_mmap_anonymous in H.
  destruct (_ || _ || _ || _) in H; [injection H as <- <-; apply keeps_refl|].
  destruct (_ <? 0) in H; [injection H as <- <-; apply keeps_refl|].
  destruct (_ && _) in H; [injection H as <- <-; apply keeps_refl|].
  destruct (_ <? _) in H; [discriminate|].
  destruct (mmap_anon e v _ c) as [(ptr, v1)|] eqn:Em; [|injection H as <- <-; apply keeps_refl].
  eapply keeps_trans; [eapply keeps_mmap_anon; exact Em|]. clear Em v.
  match type of H with bind ?y ?k = _ => destruct y as [(((ptr1, pc1), ta1), v2)| |] eqn:E1; cbn [bind] in H; try discriminate H end.
  eapply keeps_trans with (v2 := v2).
  { destruct (_ =? 0) in E1; [injection E1 as <- <- <- <-; apply keeps_refl|]. cbv zeta in E1.
    destruct (negb _) in E1; [discriminate|]. destruct (negb t1); [discriminate|]. injection E1 as <- <- <- <-. apply keeps_munmap. }
  clear E1 v1. destruct (pc1 <? _) in H; [discriminate|].
  match type of H with bind ?y ?k = _ => destruct y as [(ta2, v3)| |] eqn:E2; cbn [bind] in H; try discriminate H end.
  eapply keeps_trans with (v2 := v3).
  { destruct (_ <? pc1) in E2; [|injection E2 as <- <-; apply keeps_refl]. cbv zeta in E2.
    destruct (negb t2); [discriminate|]. injection E2 as <- <-. apply keeps_munmap. }
  destruct (negb _) in H; [discriminate|]. destruct (negb _) in H; [discriminate|]. injection H as _ <-. apply keeps_refl.
Qed.

Lemma keeps_run_init : forall (S : Z -> Prop) P an b l v v', 0 < psz -> (forall i, In i l -> 0 <= i < ncpus P) -> 0 < strd P ->
  (forall x, b <= x < b + strd P * ncpus P -> S (page x)) ->
  run_init e P an b l v = Some v' -> keeps S v v'.
Proof.
  intros S P an b l. induction l as [|i l IH]; intros v v' Hp Hl Hs HS H; cbn [run_init] in H.
  - injection H as <-. apply keeps_refl.
  - destruct (an_init an i) as [ws|]; [|discriminate]. eapply keeps_trans; [|eapply IH; eauto].
    + apply keeps_store; auto. intros x Hx. apply HS. rewrite map_map in Hx. apply in_map_iff in Hx.
      destruct Hx as ([o c] & <- & Hin). apply filter_In in Hin. destruct Hin as [_ Hb]. cbn in *.
      assert (0 <= i < ncpus P) by (apply Hl; now left).
      apply andb_prop in Hb. destruct Hb as [Hb1 Hb2]. apply Z.leb_le in Hb1. apply Z.ltb_lt in Hb2. nia.
    + intros j Hj. apply Hl. now right.
Qed.

Lemma keeps_range_destroy : forall S an r acc v ok r' v', range_destroy e an r acc v = Ok (ok, r', v') -> keeps S v v'.
Proof.
  intros S an r acc v ok r' v' H. unfold range_destroy in H. destruct (destroy_alloc_bitmap e r) as [r1| |]; cbn [bind] in H; try discriminate.
  destruct (if acc then _ else _) as (a, len). destruct (an_munmap an a); injection H as <- <- <-; [apply keeps_munmap|apply keeps_refl].
Qed.

Lemma keeps_destroy_ranges : forall S P an acc l v x v', destroy_ranges e P an acc l v = Ok (x, v') -> keeps S v v'.
Proof.
  intros S P an acc l. induction l as [|r l IH]; intros v x v' H; cbn [destroy_ranges] in H.
  - injection H as <- <-. apply keeps_refl.
  - destruct (range_destroy e an r acc v) as [((ok, r1), v1)| |] eqn:E; cbn [bind] in H; try discriminate.
    apply keeps_range_destroy with (S := S) in E. destruct ok.
    + eapply keeps_trans; eauto.
    + injection H as <- <-. exact E.
Qed.

Lemma keeps_destroy : forall S P an v x y v', mempool_destroy e P an v = Ok (x, y, v') -> keeps S v v'.
Proof.
  intros S P an v x y v' H. unfold mempool_destroy in H.
  destruct (pool_mappings_accessible e P v) as [acc| |]; cbn [bind] in H; try discriminate.
  destruct (check_free_list e P v acc) as [[]| |]; cbn [bind] in H; try discriminate.
  destruct (check_pool_poison e P v acc) as [[]| |]; cbn [bind] in H; try discriminate.
  destruct (destroy_ranges e P an acc (range_list P) v) as [(x1, v1)| |] eqn:E; cbn [bind] in H; try discriminate.
  injection H as <- <- <-. eapply keeps_destroy_ranges; eauto.
Qed.

(** A new range: only memory that was not mapped is written, and none of it if
    the pool is COW_ZERO and has no init callback. *)
Lemma range_create_keeps : forall P an v ro P' v', geom P -> vmwf v -> range_create e P an v = Ok (ro, P', v') ->
  keeps (fun q => mapped v q = false) v v' /\
  (cow_init P = false -> init_set (pattr P) = false -> forall r x, ro = Some r -> region r x -> populated v' (page x) = false).
Proof.
  intros P an v ro P' v' HG Hwf H. pose proof (g_psz _ _ HG) as Hp0. pose proof (strd_pos _ _ HG) as Hs0.
  pose proof (psz_strd _ _ HG) as Hps. pose proof (psz_le_strd _ _ HG) as Hpls. pose proof (g_cpus _ _ HG) as Hc1.
  pose proof (g_fit _ _ HG) as Hfit. pose proof (nd_bounds P) as HB1. pose proof (na_bounds P) as HB2.
  assert (He : env_ok e) by apply (g_env _ _ HG).
  unfold range_create in H. destruct (negb _ && _) in H.
  { injection H as <- <- <-. split; [apply keeps_refl|]. intros _ _ r x Hr. discriminate Hr. }
  cbv zeta in H. pose proof (range_len_ok e P HG) as HRL. cbv zeta in HRL. rewrite HRL in H. clear HRL.
  unfold POOL_HEADER_NR_PAGES in H. set (L := strd P * na P) in *.
  destruct (g_stride _ _ HG) as (so & Hso & Hpso & _ & Hstr).
  assert (HL0 : psz <= L) by (unfold L; nia). assert (HLs : (strd P | L)) by (unfold L; apply Z.divide_factor_l).
  pose proof (aligned_mmap_spec e He v L so (2 * psz) (an_mmap an) (an_trim1 an) (an_trim2 an)) as HA.
  rewrite <- Hstr in HA. destruct HA as [(b & hd & v1 & Eq & Hb & Ehd & Hlo & Hhi & HN)|[[Eq Hnone]|[Eq Ht]]]; auto; try lia.
  { apply Z.divide_factor_r. }
  { unfold L. nia. }
  2:{ rewrite Eq in H. cbn [bind] in H. injection H as <- <- <-. split; [apply keeps_refl|]. intros _ _ r x Hr. discriminate Hr. }
  2:{ rewrite Eq in H. discriminate H. }
  pose proof (keeps_aligned (fun q => mapped v q = false) _ _ _ _ _ _ _ _ _ _ Eq) as K1.
  rewrite Eq in H. cbn [bind] in H. clear Eq.
  assert (Db : (psz | b)) by (eapply Z.divide_trans; [exact Hps|exact Hb]).
  assert (Dh : (psz | hd)) by (rewrite Ehd; apply Z.divide_sub_r; auto; apply Z.divide_factor_r).
  assert (DL : (psz | 2 * psz + L)).
  { apply Z.divide_add_r; [apply Z.divide_factor_r|]. eapply Z.divide_trans; [exact Hps|exact HLs]. }
  assert (HSin : forall x, hd <= x < b + L -> mapped v (page x) = false /\ populated v1 (page x) = false).
  { intros x Hx. assert (Hin : in_pages e hd (2 * psz + L) (page x) = true) by (apply in_pages_iff; auto; lia).
    split; [apply (fi_fresh _ _ _ _ (nm_fi _ _ _ _ _ HN)), Hin|apply (nm_pop _ _ _ _ _ HN), Hin]. }
  rewrite (ue_small e (2 * psz + L)) in H by (unfold L; nia).
  set (S := fun q => mapped v q = false) in *.
  assert (Herr : forall (r : range) w ro P' v', (do x <- range_destroy e an r true w; let '(_, _, v0) := x in Ok (@None range, P, v0)) = Ok (ro, P', v') ->
            keeps S w v' /\ ro = None).
  { intros r w ro1 P1 v1' Hr. destruct (range_destroy e an r true w) as [((ok, r1), w1)| |] eqn:E; cbn [bind] in Hr; try discriminate.
    injection Hr as <- <- <-. split; auto. eapply keeps_range_destroy; eauto. }
  assert (HG2 : forall x, b <= x < b + strd P * ncpus P -> S (page x)).
  { intros x Hx. apply HSin. unfold L. nia. }
  assert (Hfin : forall r w ro P' v', mmap_addr r = hd -> mmap_len r = 2 * psz + L ->
    (if robust_set (pattr P) && negb (an_bitmap an)
     then (do x <- range_destroy e an r true w; let '(_, _, v0) := x in Ok (@None range, P, v0))
     else match (if init_set (pattr P)
         then if type (pattr P) =? TYPE_GLOBAL then run_init_global e P an b w else run_init e P an b (cpus P) w
         else Some w) with
      | Some v0 => Ok (Some (if robust_set (pattr P) then set_bitmap r (Some (repeat 0 (Z.to_nat (bitmap_words e P)))) else r),
                       set_nr P (nr_ranges P + 1), v0)
      | None => (do x <- range_destroy e an (if robust_set (pattr P) then set_bitmap r (Some (repeat 0 (Z.to_nat (bitmap_words e P)))) else r) true w;
                let '(_, _, v0) := x in Ok (@None range, P, v0))
      end) = Ok (ro, P', v') ->
     keeps S w v' /\ (forall r', ro = Some r' -> mmap_addr r' = hd /\ mmap_len r' = 2 * psz + L) /\
     (init_set (pattr P) = false -> forall r', ro = Some r' -> v' = w)).
  { intros r w ro1 P1 v1' Ea El Hr. destruct (_ && _) in Hr.
    { apply Herr in Hr. destruct Hr as (Hk & ->). split; auto. split; [|intros _]; intros r' Hr'; discriminate Hr'. }
    destruct (init_set (pattr P)).
    - destruct (type (pattr P) =? TYPE_GLOBAL).
      + unfold run_init_global in Hr. destruct (an_init an (-1)) as [ws|].
        * injection Hr as <- <- <-. split.
          { apply keeps_store; auto. intros x Hx. apply HG2. rewrite map_map in Hx. apply in_map_iff in Hx. destruct Hx as ([o c] & <- & Hin).
            apply filter_In in Hin. destruct Hin as [_ Hb']. cbn in *.
            apply andb_prop in Hb'. destruct Hb' as [Hb1 Hb2]. apply Z.leb_le in Hb1. apply Z.ltb_lt in Hb2. nia. }
          split; [|discriminate]. intros r' Hr'. injection Hr' as <-. destruct (robust_set (pattr P)); auto.
        * apply Herr in Hr. destruct Hr as (Hk & ->). split; auto. split; [|intros _]; intros r' Hr'; discriminate Hr'.
      + destruct (run_init e P an b (cpus P) w) as [w2|] eqn:Er.
        * injection Hr as <- <- <-. split.
          { eapply keeps_run_init; eauto. intros i Hi. unfold cpus in Hi. apply in_zseq in Hi. lia. }
          split; [|discriminate]. intros r' Hr'. injection Hr' as <-. destruct (robust_set (pattr P)); auto.
        * apply Herr in Hr. destruct Hr as (Hk & ->). split; auto. split; [|intros _]; intros r' Hr'; discriminate Hr'.
    - injection Hr as <- <- <-. split; [apply keeps_refl|]. split; [|auto]. intros r' Hr'. injection Hr' as <-.
      destruct (robust_set (pattr P)); auto. }
  cbn [init] in H. fold (cow_init P) in H. destruct (cow_init P) eqn:Ec.
  - split; [|discriminate]. eapply keeps_trans; [exact K1|].
    set (ip := uw (e_wide e) _) in H. set (r := {| header := _ |}) in H. clearbody ip.
    assert (Hr1 : mmap_addr r = hd) by reflexivity. assert (Hr2 : mmap_len r = 2 * psz + L) by reflexivity. clearbody r.
    destruct (negb (an_memfd an)) in H; [apply Herr in H; apply H|].
    destruct (negb (an_map_init an)) in H; [apply Herr in H; apply H|].
    destruct (negb (type (pattr P) =? TYPE_PERCPU)) in H; [discriminate|].
    assert (K2 : keeps S v1 (mmap_shared e v1 ip (strd P))) by apply keeps_shared.
    destruct (negb (forallb (an_map_cpu an) (cpus P))) in H.
    { eapply keeps_trans; [exact K2|]. apply Herr in H. apply H. }
    assert (K3 : keeps S v1 (map_private_cpus e P b ip (cpus P) (mmap_shared e v1 ip (strd P)))).
    { eapply keeps_trans; [exact K2|apply keeps_private_cpus]. }
    destruct (negb (an_dontfork an)) in H.
    { eapply keeps_trans; [exact K3|]. apply Herr in H. apply H. }
    set (v2 := map_private_cpus e P b ip (cpus P) (mmap_shared e v1 ip (strd P))) in *. clearbody v2.
    assert (K4 : keeps S v1 (store e (madv_dontfork e v2 b L) [(hd, 1)])).
    { eapply keeps_trans; [exact K3|]. eapply keeps_trans; [apply keeps_dontfork|]. apply keeps_store; auto.
      intros x [<-|[]]. cbn. apply HSin. lia. }
    destruct (negb (an_wipe an)) in H.
    { eapply keeps_trans; [exact K4|]. apply Herr in H. apply H. }
    eapply keeps_trans; [exact K4|]. eapply keeps_trans; [apply keeps_wipefork|].
    apply Hfin in H; auto. apply H.
  - apply Hfin in H; auto. destruct H as (H1 & H2 & H3). split; [eapply keeps_trans; [exact K1|exact H1]|].
    intros _ Hi r x Hro Hx. rewrite (H3 Hi r Hro). apply HSin. destruct (H2 r Hro) as (Ea & El). unfold region in Hx.
    rewrite Ea, El in Hx. lia.
Qed.

Lemma create_keeps : forall named len at_ an v m v', 0 <= len < wmax e -> attr_ok e (attr_of at_) -> fits e (attr_of at_) ->
  env_ok e -> 0 <= e_ncpus e -> vmwf v ->
  mempool_create e named len at_ an v = Ok (m, v') ->
  keeps (fun q => mapped v q = false) v v' /\
  (forall P r x, m = Made P -> cow_init P = false -> init_set (pattr P) = false -> In r (range_list P) -> region r x ->
     populated v' (page x) = false).
Proof.
  intros named len at_ an v m v' Hlen Ha Hfit He Hn Hwf H. unfold mempool_create in H.
  destruct (complete_attr_spec e len at_ Hlen Ha) as [(o & Hacc & E)|[[Hno E]|[Hbig E]]]; rewrite E in H; cbn [bind] in H.
  2:{ injection H as <- <-. split; [apply keeps_refl|]. intros P r x HP. discriminate HP. }
  2:{ discriminate. }
  destruct (an_calloc an) eqn:Ec; cbn [negb] in H.
  2:{ injection H as <- <-. split; [apply keeps_refl|]. intros P r x HP. discriminate HP. }
  set (P := {| range_list := []; nr_ranges := 0; item_len := 2 ^ o; item_order := o; free_list_head := 0; pattr := completed e (attr_of at_) |}) in *.
  assert (HG : geom P) by (eapply accepted_geom; eauto).
  destruct (range_create e P an v) as [((ro, P2), v2)| |] eqn:E2; cbn [bind] in H; try discriminate.
  pose proof (range_create_keeps P an v ro P2 v2 HG Hwf E2) as (K1 & K2).
  assert (HP2 : range_list P2 = [] /\ pattr P2 = pattr P).
  { destruct (range_create_spec e P an v HG Hwf) as [(ro' & P2' & v2' & E2' & _ & _ & Hro)|[E2' _]]; rewrite E2 in E2'; [|discriminate].
    injection E2' as <- <- <-. destruct ro; destruct Hro as (-> & _); auto. }
  destruct HP2 as (HP2 & HP3).
  destruct ro as [r|].
  - destruct (named && negb (an_strdup an)).
    + destruct (mempool_destroy e _ an v2) as [((x1, y1), v3)| |] eqn:Ed; cbn [bind] in H; try discriminate. injection H as <- <-.
      split; [eapply keeps_trans; [exact K1|eapply keeps_destroy; exact Ed]|]. intros Q r' x HQ. discriminate HQ.
    + injection H as <- <-. split; auto. intros Q r' x HQ Hc Hi Hr Hx. injection HQ as <-. cbn [range_list set_ranges] in Hr.
      rewrite HP2 in Hr. destruct Hr as [<-|[]]. unfold cow_init in *. cbn [pattr set_ranges] in Hc, Hi. rewrite HP3 in Hc, Hi. eauto.
  - destruct (mempool_destroy e P2 an v2) as [((x1, y1), v3)| |] eqn:Ed; cbn [bind] in H; try discriminate. injection H as <- <-.
    split; [eapply keeps_trans; [exact K1|eapply keeps_destroy; exact Ed]|]. intros Q r' x HQ. discriminate HQ.
Qed.

(** Allocation under the lock: only a new range is ever written. *)
Definition alike (r r' : range) : Prop := base r = base r' /\ mmap_addr r = mmap_addr r' /\ mmap_len r = mmap_len r'.
Lemma malloc_keeps : forall P free live an v found P' v', pinv e P free live v -> vmwf v ->
  malloc_locked e P an v = Ok (found, P', v') ->
  keeps (fun q => mapped v q = false) v v' /\
  (forall r, In r (range_list P') -> (exists r0, In r0 (range_list P) /\ alike r0 r) \/
     (cow_init P = false -> init_set (pattr P) = false -> forall x, region r x -> populated v' (page x) = false)).
Proof.
  intros P free live an v found P' v' HI Hwf H. pose proof (pi_geom _ _ _ _ _ HI) as HG. unfold malloc_locked in H.
  match type of H with bind ?y ?k = _ => destruct y as [((f1, P1), v1)| |] eqn:E1; cbn [bind] in H; try discriminate H end.
  assert (Hfin : v' = v1 /\ forall r, In r (range_list P') -> exists r1, In r1 (range_list P1) /\ alike r1 r).
  { destruct f1 as [((r, off), addr)|].
    - destruct (set_alloc_slot e P1 r off) as [r'| |] eqn:Es; cbn [bind] in H; try discriminate. injection H as <- <- <-.
      split; auto. intros r1 Hr1. cbn [range_list set_ranges] in Hr1. unfold put_range in Hr1. apply in_map_iff in Hr1.
      destruct Hr1 as (y & Ey & Hy). destruct (base y =? base r') eqn:Eb; [|subst y; exists r1; repeat split; auto].
      assert (Hst : alike r r').
      { unfold set_alloc_slot in Es. destruct (alloc_bitmap r) in Es; [|injection Es as <-; repeat split].
        destruct (nth_error _ _) in Es; [|discriminate Es]. destruct (negb _) in Es; [discriminate Es|]. injection Es as <-. repeat split. }
      subst r1. exists r. split; auto.
      clear - E1. destruct (negb _) in E1.
      + destruct (find_range _ _) eqn:Ef in E1; [|discriminate]. destruct (negb _) in E1; [discriminate|].
        destruct (check_poison_item _ _ _ _ _) as [[]| |] in E1; cbn [bind] in E1; try discriminate. injection E1 as <- _ _ <- _.
        cbn [range_list set_head]. unfold find_range in Ef. apply find_some in Ef. apply Ef.
      + destruct (if _ : bool then _ else _) as [((b, P2), v2)| |] in E1; cbn [bind] in E1; try discriminate.
        destruct b; [|discriminate]. destruct (range_list P2) as [|r2 l] eqn:El in E1; [discriminate|].
        injection E1 as <- _ _ <- _. cbn [range_list set_ranges put_range map base set_unused].
        rewrite Z.eqb_refl. now left.
    - injection H as <- <- <-. split; auto. intros r Hr. exists r. repeat split; auto. }
  destruct Hfin as (-> & Hfin). clear H.
  destruct (negb _) in E1.
  - destruct (find_range _ _) in E1; [|discriminate]. destruct (negb _) in E1; [discriminate|].
    destruct (check_poison_item _ _ _ _ _) as [[]| |] in E1; cbn [bind] in E1; try discriminate. injection E1 as <- <- <-.
    split; [apply keeps_refl|]. intros r0 Hr. left. exact (Hfin r0 Hr).
  - destruct (if _ : bool then _ else _) as [((b, P2), v2)| |] eqn:E2 in E1; cbn [bind] in E1; try discriminate.
    assert (Hrl : v1 = v2 /\ forall r, In r (range_list P1) -> exists r1, In r1 (range_list P2) /\ alike r1 r).
    { destruct b; [|injection E1 as <- <- <-; split; auto; intros r Hr; exists r; repeat split; auto].
      destruct (range_list P2) as [|r2 l] eqn:El in E1; [discriminate|].
      injection E1 as <- <- <-. split; auto. intros r Hr. cbn [range_list set_ranges] in Hr. rewrite El.
      change (In r (map (fun y => if base y =? base r2 then set_unused r2 (uw (e_wide e) (next_unused r2 + item_len P2)) else y) (r2 :: l))) in Hr.
      apply in_map_iff in Hr. destruct Hr as (y & Ey & Hy). destruct (_ =? _) in Ey; subst r.
      - exists r2. split; [now left|repeat split].
      - exists y. repeat split; auto. }
    destruct Hrl as (-> & Hrl). clear E1.
    assert (Hall : forall r, In r (range_list P') -> exists r2, In r2 (range_list P2) /\ alike r2 r).
    { intros r Hr. destruct (Hfin r Hr) as (r1 & Hr1 & A1 & A2 & A3). destruct (Hrl r1 Hr1) as (r2 & Hr2 & B1 & B2 & B3).
      exists r2. repeat split; congruence. }
    match type of E2 with (if ?c then _ else _) = _ => destruct c end.
    + injection E2 as <- <- <-. split; [apply keeps_refl|]. intros r Hr. left. auto.
    + destruct (range_create e P an v) as [((ro, P3), v3)| |] eqn:E3; cbn [bind] in E2; try discriminate.
      pose proof (range_create_keeps P an v ro P3 v3 HG Hwf E3) as (K1 & K2).
      assert (HP3 : range_list P3 = range_list P).
      { destruct (range_create_spec e P an v HG Hwf) as [(ro' & P2' & v2' & E2' & _ & _ & Hro)|[E2' _]]; rewrite E3 in E2'; [|discriminate].
        injection E2' as <- <- <-. destruct ro; destruct Hro as (-> & _); auto. }
      destruct ro as [r0|]; injection E2 as <- <- <-; split; auto; intros r Hr; destruct (Hall r Hr) as (r2 & Hr2 & Al).
      * cbn [range_list set_ranges] in Hr2. rewrite HP3 in Hr2. destruct Hr2 as [<-|Hr2]; [right|left; eauto].
        intros Hc Hi x Hx. eapply K2; eauto. destruct Al as (_ & A2 & A3). unfold region in *. rewrite A2, A3. exact Hx.
      * rewrite HP3 in Hr2. left. eauto.
Qed.

(** Writing an item: only its range is written. *)
Lemma fill_keeps : forall W len test P r off v v', geom P -> rinv P v r -> block W len -> 0 <= len -> off + Z.max len 1 <= strd P -> 0 <= off ->
  fill_gen e W len test P r off v = Ok v' -> keeps (fun q => exists x, region r x /\ page x = q) v v'.
Proof.
  intros W len test P r off v v' HG HR HW Hlen Hol Ho H. pose proof (g_psz _ _ HG) as Hp. pose proof (strd_pos _ _ HG) as Hs.
  pose proof (nd_bounds P) as HB1. pose proof (na_bounds P) as HB2. pose proof (g_cpus _ _ HG) as Hc1.
  assert (Hst : forall i w, 0 <= i < na P -> keeps (fun q => exists x, region r x /\ page x = q) w (store e w (W (base r + strd P * i + off)))).
  { intros i w Hi. apply keeps_store; auto. intros x Hx. exists x. split; auto. apply HW in Hx. unfold region.
    rewrite (r_addr _ _ _ _ HR), (r_len _ _ _ _ HR). nia. }
  unfold fill_gen in H. rewrite (init_ptr e P v) in H by (auto; lia).
  destruct (if cow_init P then _ else _) as [p|] eqn:Ep in H.
  - destruct (cow_init P) eqn:Ec; [|discriminate]. injection Ep as <-. destruct (accessible e v _ len); cbn [bind] in H; [|discriminate].
    apply keeps_trans with (v2 := store e v (W (base r + strd P * ncpus P + off))).
    { apply Hst. unfold na, nd in *. rewrite Ec in *. lia. }
    set (v1 := store e v _) in *. clearbody v1.
    assert (Hl : forall i, In i (cpus P) -> 0 <= i < ncpus P) by (intros i Hi; unfold cpus in Hi; apply in_zseq in Hi; lia).
    revert v1 H Hl. induction (cpus P) as [|i l IH]; intros v1 H Hl; cbn [for_cpus] in H; [injection H as <-; apply keeps_refl|].
    unfold fill_step at 1 in H. cbv zeta in H. assert (Hi : 0 <= i < ncpus P) by (apply Hl; now left).
    rewrite (PoolItem.percpu_ptr e P v) in H by (auto; lia). destruct (negb _) in H; cbn [bind] in H; [discriminate|].
    destruct (test v1 _); cbn [bind] in H; [eapply IH; eauto; intros j Hj; apply Hl; now right|].
    eapply keeps_trans; [apply Hst with (i := i); lia|]. eapply IH; eauto. intros j Hj. apply Hl. now right.
  - cbn [bind] in H. assert (Hl : forall i, In i (cpus P) -> 0 <= i < ncpus P) by (intros i Hi; unfold cpus in Hi; apply in_zseq in Hi; lia).
    clear Ep. assert (HRv : exists w, rinv P w r) by eauto. clear HR. destruct HRv as (w0 & HR).
    revert v H Hl. induction (cpus P) as [|i l IH]; intros v1 H Hl; cbn [for_cpus] in H; [injection H as <-; apply keeps_refl|].
    unfold fill_step at 1 in H. cbv zeta in H. assert (Hi : 0 <= i < ncpus P) by (apply Hl; now left).
    rewrite (PoolItem.percpu_ptr e P w0) in H by (auto; lia). destruct (negb _) in H; cbn [bind] in H; [discriminate|].
    destruct (test v1 _); cbn [bind] in H; [eapply IH; eauto; intros j Hj; apply Hl; now right|].
    eapply keeps_trans; [apply Hst with (i := i); lia|]. eapply IH; eauto. intros j Hj. apply Hl. now right.
Qed.

(** ** A part of the memory of one CPU *)
Section Part.
Variables (P : pool) (cpu lo g : Z) (r : range).
Hypothesis HG : geom P.
Hypothesis Hz : cow_init P = false.
Hypothesis Hg : 0 < g.
Hypothesis Hgp : (psz | g).
Hypothesis Hgi : (item_len P | g).
Hypothesis Hcpu : 0 <= cpu < ncpus P.
Variable k : Z.
Hypothesis Hk : 0 <= k.
Hypothesis Hgk : g * (k + 1) <= strd P.
Hypothesis Elo : lo = base r + strd P * cpu + g * k.

(** None of its pages has been written. *)
Definition calm (v : vm) : Prop := forall x, lo <= x < lo + g -> populated v (page x) = false.

Lemma part_area : forall x, lo <= x < lo + g -> base r + strd P * cpu <= x < base r + strd P * cpu + strd P.
Proof. intros x Hx. rewrite Elo in Hx. nia. Qed.

Lemma part_page : forall v x y, rinv P v r -> lo <= x < lo + g -> page x = page y -> lo <= y < lo + g.
Proof.
  intros v x y HR Hx E. pose proof (g_psz _ _ HG) as Hp.
  assert (Db : (psz | base r)) by (eapply base_div; eauto).
  assert (Dl : (psz | lo)).
  { rewrite Elo. apply Z.divide_add_r; [apply Z.divide_add_r; auto|]; apply Z.divide_mul_l; auto. apply (psz_strd _ _ HG). }
  pose proof (page_bounds e Hp x). pose proof (page_bounds e Hp y). rewrite <- E in H0.
  assert (lo <= page x * psz) by (apply page_down; auto; lia).
  assert (Du : (psz | lo + g)) by (apply Z.divide_add_r; auto).
  assert (page x * psz + psz <= lo + g).
  { destruct Du as [d Ed]. rewrite Ed in *. assert (page x < d) by nia. nia. }
  lia.
Qed.

Lemma part_region : forall v x, rinv P v r -> lo <= x < lo + g -> region r x.
Proof.
  intros v x HR Hx. apply part_area in Hx. unfold region. rewrite (r_addr _ _ _ _ HR), (r_len _ _ _ _ HR).
  pose proof (nd_bounds P). pose proof (na_bounds P). pose proof (strd_pos _ _ HG). pose proof (g_psz _ _ HG). nia.
Qed.

Lemma part_zero : forall v x, vmwf v -> rinv P v r -> calm v -> lo <= x < lo + g -> view e v x = 0.
Proof.
  intros v x Hwf HR Hc Hx. pose proof (part_region v x HR Hx) as Hreg.
  assert (Hl : link v (page x) = None).
  { destruct (link v (page x)) as [q|] eqn:El; auto. destruct (r_link _ _ _ _ HR _ _ El) as (Hci & _); [|congruence].
    left. eapply region_page; eauto. }
  unfold view. rewrite Hl. apply (wf_zero _ _ Hwf); auto. apply (r_map _ _ _ _ HR). exact Hreg.
Qed.

Lemma calm_store : forall v ps, rinv P v r -> calm v -> (forall x, In x (map fst ps) -> ~ lo <= x < lo + g) -> calm (store e v ps).
Proof.
  intros v ps HR Hc Hps x Hx. destruct (populated (store e v ps) (page x)) eqn:E; auto. exfalso.
  apply store_populated in E. destruct E as [E|(y & Hy & E)].
  - rewrite Hc in E; [discriminate|auto].
  - apply (Hps y Hy). eapply part_page; eauto.
Qed.

Lemma calm_keeps : forall S v v', keeps S v v' -> calm v -> (forall x, lo <= x < lo + g -> ~ S (page x)) -> calm v'.
Proof.
  intros S v v' H Hc HS x Hx. destruct (populated v' (page x)) eqn:E; auto. exfalso.
  destruct (H _ E) as [H1|H1]; [rewrite Hc in H1; [discriminate|auto]|exact (HS x Hx H1)].
Qed.

(** Filling an item of this range with zeros does not write there. *)
Lemma fill_calm : forall W len test off v v', block W len -> 0 <= len <= item_len P ->
  (item_len P | off) -> 0 <= off -> off + item_len P <= strd P ->
  (forall v p, (forall x, p <= x < p + len -> view e v x = 0) -> test v p = true) ->
  vmwf v -> rinv P v r -> calm v -> fill_gen e W len test P r off v = Ok v' -> vmwf v' /\ rinv P v' r /\ calm v'.
Proof.
  intros W len test off v v' HW Hlen Hd Ho Hol Ht Hwf HR Hc H. pose proof (strd_pos _ _ HG) as Hs. pose proof (item_pos _ _ HG) as [Hip Hipw].
  unfold fill_gen in H. rewrite (init_ptr e P v) in H by (auto; lia). rewrite Hz in H. cbn [bind] in H.
  assert (Hl : forall i, In i (cpus P) -> 0 <= i < ncpus P) by (intros i Hi; unfold cpus in Hi; apply in_zseq in Hi; lia).
  revert v H Hl Hwf HR Hc. induction (cpus P) as [|i l IH]; intros v H Hl Hwf HR Hc; cbn [for_cpus] in H.
  - injection H as <-. auto.
  - unfold fill_step at 1 in H. cbv zeta in H. assert (Hi : 0 <= i < ncpus P) by (apply Hl; now left).
    rewrite (PoolItem.percpu_ptr e P v) in H by (auto; lia). set (p := base r + strd P * i + off) in *.
    destruct (negb _) in H; cbn [bind] in H; [discriminate|].
    assert (Hl' : forall j, In j l -> 0 <= j < ncpus P) by (intros j Hj; apply Hl; now right).
    destruct (test v p) eqn:Et; cbn [bind] in H; [eapply IH; eauto|].
    assert (Hout : forall x, p <= x < p + item_len P -> ~ lo <= x < lo + g).
    { intros x Hx Hx2. rewrite Ht in Et; [discriminate|]. intros y Hy. apply part_zero; auto.
      assert (Hpl : (item_len P | p - lo)).
      { unfold p. rewrite Elo. replace (_ - _) with (strd P * (i - cpu) + off - g * k) by ring.
        apply Z.divide_sub_r; [apply Z.divide_add_r; auto|]; apply Z.divide_mul_l; auto. apply (item_strd _ _ HG). }
      destruct Hpl as [a Ea]. destruct Hgi as [b Eb]. assert (0 <= a < b) by nia. nia. }
    eapply IH; eauto.
    + apply store_wf; auto.
    + eapply store_item_rinv; eauto; lia.
    + apply calm_store; auto. intros x Hx. apply HW in Hx. apply Hout. lia.
Qed.
End Part.

Lemma zero_fill_test : forall v p n, 0 <= n -> (wsz e | n) -> (forall x, p <= x < p + n -> view e v x = 0) -> (cmp_item e v p n 0 =? 0) = true.
Proof.
  intros v p n Hn [m Hm] H. apply Z.eqb_eq. pose proof (wmax_range e) as Hwm. pose proof (wsz_range e) as Hws. apply cmp_item_zero; try lia. intros k Hk Hlt.
  assert (Hz : load_word e v (p + wsz e * k) = ldw (wcfg e) (fun _ => 0) (p + wsz e * k)).
  { unfold load_word, ldw. f_equal. f_equal. apply map_ext_in. intros x Hx. unfold byte. rewrite H; auto.
    apply in_span in Hx. rewrite wsz_nat in Hx. assert (k < m) by nia. nia. }
  rewrite Hz. unfold ldw, order, wcfg. cbn [wsize bigend]. destruct (e_wide e), (e_big e); reflexivity.
Qed.

Lemma zero_init_test : forall v p bs, Forall (eq 0) bs -> (forall x, p <= x < p + Z.of_nat (length bs) -> view e v x = 0) -> same_bytes e v p bs = true.
Proof.
  intros v p bs Hb H. unfold same_bytes. apply forallb_forall. intros [x b] Hin. cbn [fst snd]. apply Z.eqb_eq.
  unfold fill_bytes in Hin. pose proof (in_combine_l _ _ _ _ Hin) as H1. pose proof (in_combine_r _ _ _ _ Hin) as H2.
  rewrite Forall_forall in Hb. specialize (Hb b H2). apply in_span in H1. unfold byte. rewrite H by lia. subst b. reflexivity.
Qed.

Lemma region_same_page : forall P v r x y, geom P -> rinv P v r -> region r y -> page x = page y -> region r x.
Proof.
  intros P v r x y HG HR Hy E. pose proof (g_psz _ _ HG) as Hp. pose proof (page_bounds e Hp x) as Hx. rewrite E in Hx.
  unfold region in *. rewrite (r_addr _ _ _ _ HR), (r_len _ _ _ _ HR) in *.
  assert (Db : (psz | base r)) by (eapply base_div; eauto).
  assert (D1 : (psz | base r - 2 * psz)) by (apply Z.divide_sub_r; auto; apply Z.divide_factor_r).
  assert (D2 : (psz | base r - 2 * psz + (2 * psz + strd P * na P))).
  { apply Z.divide_add_r; auto. apply Z.divide_add_r; [apply Z.divide_factor_r|]. apply Z.divide_mul_l. apply (psz_strd _ _ HG). }
  pose proof (page_down e y _ Hp D1 ltac:(lia)). pose proof (page_bounds e Hp y).
  split; [lia|]. destruct D2 as [d Ed]. rewrite Ed in *. assert (page y < d) by nia. nia.
Qed.

(** ** Histories *)
Section Hist.
Hypothesis He : env_ok e.
Hypothesis Hcp : 0 <= e_ncpus e.
Variables (strict : bool) (v0 : vm) (id cpu lo g : Z).

Definition still (w : world) : Prop := forall P, lookup id (w_pools w) = Some P -> lazy P cpu -> part e P cpu lo g ->
  forall x, lo <= x < lo + g -> populated (w_vm w) (page x) = false.

Lemma other_region : forall w L F id1 P1 r1 id2 P2 r2 x y, winv e strict v0 w L F ->
  In (id1, P1) (w_pools w) -> In r1 (range_list P1) -> In (id2, P2) (w_pools w) -> In r2 (range_list P2) ->
  region r1 x -> region r2 y -> page x = page y -> id1 = id2 /\ r1 = r2.
Proof.
  intros w L F id1 P1 r1 id2 P2 r2 x y HW H1 Hr1 H2 Hr2 Hx Hy E.
  pose proof (wi_pools _ _ _ _ _ _ HW _ _ H1) as I1. pose proof (wi_pools _ _ _ _ _ _ HW _ _ H2) as I2.
  pose proof (pi_ranges _ _ _ _ _ I2) as F2. rewrite Forall_forall in F2.
  assert (Hx2 : region r2 x) by (eapply region_same_page; eauto; apply (pi_geom _ _ _ _ _ I2)).
  assert (id1 = id2).
  { eapply (wi_apart _ _ _ _ _ _ HW id1 P1 id2 P2 x); eauto; [exists r1|exists r2]; auto. }
  split; auto. subst id2. assert (P1 = P2) by (eapply unique_pool; eauto). subst P2.
  destruct (ordpairs_in _ _ _ (pi_apart _ _ _ _ _ I1) Hr1 Hr2) as [Heq|Hap]; auto. exfalso. eapply apart_regions; eauto.
Qed.

Lemma lookup_set : forall id' Q l P, NoDup (map fst l) -> lookup id (set_pool id' Q l) = Some P ->
  (id' = id /\ P = Q) \/ (id <> id' /\ lookup id l = Some P).
Proof.
  intros id' Q l P Hn H. apply lookup_in in H. apply in_set_pool in H. destruct H as [(-> & -> & _)|[Hne Hi]]; auto.
  right. split; auto. apply lookup_some; auto.
Qed.

Lemma lookup_del : forall id' l P, NoDup (map fst l) -> lookup id (del_pool id' l) = Some P -> lookup id l = Some P.
Proof.
  intros id' l P Hn H. apply lookup_in in H. unfold del_pool in H. apply filter_In in H. apply lookup_some; auto. apply H.
Qed.

Lemma lazy_cow : forall P, lazy P cpu -> cow_init P = false.
Proof. intros P (H & _). unfold cow_init. rewrite H. reflexivity. Qed.

(** Steps that only write memory that was not mapped. *)
Lemma still_fresh : forall w L F v' P x, winv e strict v0 w L F -> still w -> lookup id (w_pools w) = Some P -> lazy P cpu -> part e P cpu lo g ->
  keeps (fun q => mapped (w_vm w) q = false) (w_vm w) v' -> lo <= x < lo + g -> populated v' (page x) = false.
Proof.
  intros w L F v' P x HW HS Hl Hz Hp HK Hx. pose proof (lookup_in _ _ _ Hl) as Hin. pose proof (lazy_cow _ Hz) as Hcw.
  pose proof (wi_pools _ _ _ _ _ _ HW _ _ Hin) as HI. pose proof (pi_ranges _ _ _ _ _ HI) as HF. rewrite Forall_forall in HF.
  destruct (populated v' (page x)) eqn:E; auto. exfalso. destruct (HK _ E) as [H1|H1].
  - rewrite (HS P Hl Hz Hp x Hx) in H1. discriminate.
  - destruct Hp as (Hg & _ & _ & r & k & Hr & Hk & Hgk & Elo). destruct Hz as (_ & _ & _ & Hc & _).
    rewrite (r_map _ _ _ _ (HF r Hr)) in H1; [discriminate|].
    eapply part_region with (g := g) (k := k); eauto; apply (pi_geom _ _ _ _ _ HI).
Qed.

(** Steps that only write one range [r2] of a pool [id2]. *)
Lemma still_range : forall w L F v' P x id2 P2 r2, winv e strict v0 w L F -> still w ->
  lookup id (w_pools w) = Some P -> lazy P cpu -> part e P cpu lo g ->
  In (id2, P2) (w_pools w) -> In r2 (range_list P2) ->
  keeps (fun q => exists y, region r2 y /\ page y = q) (w_vm w) v' -> lo <= x < lo + g ->
  populated v' (page x) = false \/
  (id2 = id /\ P2 = P /\ exists k, 0 <= k /\ g * (k + 1) <= strd P /\ lo = base r2 + strd P * cpu + g * k).
Proof.
  intros w L F v' P x id2 P2 r2 HW HS Hl Hz Hp H2 Hr2 HK Hx. pose proof (lookup_in _ _ _ Hl) as Hin. pose proof (lazy_cow _ Hz) as Hcw.
  pose proof (wi_pools _ _ _ _ _ _ HW _ _ Hin) as HI. pose proof (pi_ranges _ _ _ _ _ HI) as HF. rewrite Forall_forall in HF.
  destruct (populated v' (page x)) eqn:E; auto. right. destruct (HK _ E) as [H1|(y & Hy & Ey)].
  - rewrite (HS P Hl Hz Hp x Hx) in H1. discriminate.
  - destruct Hp as (Hg & _ & _ & r & k & Hr & Hk & Hgk & Elo). destruct Hz as (_ & _ & _ & Hc & _).
    destruct (other_region w L F id P r id2 P2 r2 x y) as (E1 & E2); auto.
    { eapply part_region with (g := g) (k := k); eauto; apply (pi_geom _ _ _ _ _ HI). }
    subst id2 r2. split; auto. split; [eapply unique_pool; eauto|]. eauto.
Qed.

Lemma block_len : forall P c, geom P -> content_fits P c ->
  match c with Any => True | Zeroed => 0 <= item_len P | Bytes bs => Z.of_nat (length bs) <= item_len P end.
Proof. intros P c HG Hc. pose proof (item_pos _ _ HG). destruct c; auto; [lia|apply Hc]. Qed.

Lemma step_still : forall w L F o w' x A, winv e strict v0 w L F -> allowed e strict v0 w L o -> run1 e o w = Ok (w', x) ->
  zero_content id o -> spares id A w o -> (forall P x, part e P cpu lo g -> lo <= x < lo + g -> A P x) ->
  winv e strict v0 w' (live_after o x L) (freed_after o x L F) ->
  still w -> still w'.
Proof.
  intros w L F o w' out A HW Hal Hrun Hzc Hsp HA HW' HS P' Hl' Hz Hp x Hx. pose proof (lazy_cow _ Hz) as Hcw.
  pose proof (wi_wf _ _ _ _ _ _ HW) as Hwf. pose proof (wi_ids _ _ _ _ _ _ HW) as Hids.
  destruct o as [id' named len at_ an|id' an|id' item c|ptr sd|ps|id' an]; cbn [run1] in Hrun.
  - destruct Hal as (Hnone & Hlen & Hat & Hfit).
    destruct (mempool_create e named len at_ an (w_vm w)) as [(m, v')| |] eqn:E; cbn [bind] in Hrun; try discriminate.
    destruct (create_keeps _ _ _ _ _ _ _ Hlen Hat Hfit He Hcp Hwf E) as (K1 & K2).
    destruct m as [Q|err]; injection Hrun as <- <-; cbn [w_vm w_pools] in *.
    + unfold lookup in Hl'. cbn [find fst] in Hl'. destruct (Z.eqb_spec id' id) as [->|Hne].
      * injection Hl' as ->. destruct Hp as (Hg & _ & _ & r & k & Hr & Hk & Hgk & Elo).
        assert (HI : pinv e P' (items id F) (items id L) v') by (apply (wi_pools _ _ _ _ _ _ HW' id P'); now left).
        pose proof (pi_ranges _ _ _ _ _ HI) as HF. rewrite Forall_forall in HF.
        apply (K2 P' r x); auto; [apply Hz|].
        eapply part_region with (g := g) (k := k); eauto; [apply (pi_geom _ _ _ _ _ HI)|apply Hz].
      * exact (still_fresh w L F v' P' x HW HS Hl' Hz Hp K1 Hx).
    + exact (still_fresh w L F v' P' x HW HS Hl' Hz Hp K1 Hx).
  - destruct Hal as (P & Hl). rewrite Hl in Hrun. pose proof (lookup_in _ _ _ Hl) as Hin.
    pose proof (wi_pools _ _ _ _ _ _ HW _ _ Hin) as HI.
    destruct (malloc_locked e P an (w_vm w)) as [((found, P1), v')| |] eqn:E; cbn [bind] in Hrun; try discriminate.
    destruct (malloc_keeps P _ _ an (w_vm w) found P1 v' HI Hwf E) as (K1 & K2).
    assert (HSm : same P P1).
    { pose proof (malloc_locked_spec e P (items id' F) (items id' L) an (w_vm w) HI Hwf) as Hpost. rewrite E in Hpost.
      inversion Hpost; subst; auto. apply same_refl. }
    assert (Hw' : w' = {| w_vm := v'; w_pools := set_pool id' P1 (w_pools w) |}).
    { destruct found as [((?, ?), ?)|]; injection Hrun as <- <-; reflexivity. }
    subst w'. cbn [w_vm w_pools] in *. apply lookup_set in Hl'; auto. destruct Hl' as [(-> & ->)|(Hne & Hl')].
    2:{ exact (still_fresh w L F v' P' x HW HS Hl' Hz Hp K1 Hx). }
    pose proof (s_attr _ _ HSm) as Ea. pose proof (s_len _ _ HSm) as El.
    assert (Hz0 : lazy P cpu) by (unfold lazy in *; rewrite Ea in Hz; exact Hz).
    destruct Hp as (Hg & Hgp & Hgi & r & k & Hr & Hk & Hgk & Elo). destruct (K2 r Hr) as [(r0 & Hr0 & Hb & _)|Hnew].
    + refine (still_fresh w L F v' P x HW HS Hl Hz0 _ K1 Hx). split; auto. split; auto. split; [congruence|]. exists r0, k. rewrite Ea in *. rewrite Hb. auto.
    + assert (HI' : exists L1 F1, pinv e P1 F1 L1 v').
      { eexists. eexists. eapply (wi_pools _ _ _ _ _ _ HW' id P1). cbn [w_pools]. unfold set_pool. apply in_map_iff.
        exists (id, P). cbn [fst]. rewrite Z.eqb_refl. auto. }
      destruct HI' as (L1 & F1 & HI'). pose proof (pi_ranges _ _ _ _ _ HI') as HF. rewrite Forall_forall in HF.
      apply Hnew; [now apply lazy_cow|apply Hz0|].
      eapply part_region with (g := g) (k := k); eauto; [apply (pi_geom _ _ _ _ _ HI')|apply Hz].
  - destruct Hal as (Q & Hl & Hlive & Hfit). pose proof (lookup_in _ _ _ Hl) as Hin. rewrite Hl in Hrun.
    pose proof (wi_pools _ _ _ _ _ _ HW _ _ Hin) as HI. pose proof (pi_geom _ _ _ _ _ HI) as HG.
    destruct (live_range e strict v0 w L F HW _ _ _ Hin Hlive) as (r & off & Hr & Ea & HR & Hd & Ho & Hol).
    pose proof (item_pos _ _ HG) as [Hip Hipw].
    assert (Efr : find_range (range_list Q) (free_base e item (strd Q)) = Some r).
    { unfold free_base. rewrite Ea. rewrite (base_of e Q (w_vm w) r HG HR) by lia. eapply find_range_in; eauto; apply HI. }
    rewrite Efr in Hrun. replace (item - base r) with off in Hrun by lia.
    destruct (fill_item e Q r off c (w_vm w)) as [v'| |] eqn:Ef; cbn [bind] in Hrun; try discriminate.
    injection Hrun as <- <-. cbn [w_vm w_pools] in *.
    assert (Hgen : c = Any /\ v' = w_vm w \/ exists W len test, block W len /\ 0 <= len <= item_len Q /\
      fill_gen e W len test Q r off (w_vm w) = Ok v' /\
      (id' = id -> forall v p, (forall y, p <= y < p + len -> view e v y = 0) -> test v p = true)).
    { destruct c as [| |bs]; cbn [fill_item] in Ef.
      - injection Ef as <-. auto.
      - right. rewrite zero_item_gen in Ef. exists (fun p => zero_bytes p (item_len Q)), (item_len Q), (fun v p => cmp_item e v p (item_len Q) 0 =? 0). split; [apply zero_block; lia|]. split; [lia|]. split; [exact Ef|].
        intros _ v p. apply zero_fill_test; [lia|]. apply (eight_item _ _ HG).
      - right. rewrite init_item_gen in Ef. destruct Hfit as (Hb & Hle). exists (fun p => fill_bytes p bs), (Z.of_nat (length bs)), (fun v p => same_bytes e v p bs). split; [apply fill_bytes_block|]. split; [lia|].
        split; [exact Ef|]. intros Eid v p. apply zero_init_test. apply Hzc. exact Eid. }
    destruct Hgen as [(-> & ->)|(W & len & test & HB & Hlen & Eg & Ht)]; [eapply HS; eauto|].
    destruct (still_range w L F v' P' x id' Q r HW HS Hl' Hz Hp Hin Hr) as [Hok|(-> & -> & k & Hk & Hgk & Elo)]; auto.
    { eapply fill_keeps; eauto; lia. }
    destruct Hp as (Hg & Hgp & Hgi & _). 
    destruct (fill_calm P' cpu lo g r HG (lazy_cow _ Hz) Hg Hgp Hgi ltac:(apply Hz) k Hk Hgk Elo W len test off (w_vm w) v') as (_ & _ & Hc); auto.
    intros y Hy. apply (HS P'); auto. split; auto. split; auto. split; auto. exists r, k. auto.
  - destruct Hal as (id' & Q & Hl & Hlive & ->). pose proof (lookup_in _ _ _ Hl) as Hin.
    pose proof (wi_pools _ _ _ _ _ _ HW _ _ Hin) as HI. pose proof (pi_geom _ _ _ _ _ HI) as HG.
    destruct (live_range e strict v0 w L F HW _ _ _ Hin Hlive) as (r & off & Hr & Ea & HR & Hd & Ho & Hol).
    pose proof (item_pos _ _ HG) as [Hip Hipw]. pose proof (strd_pos _ _ HG) as Hs.
    assert (Efo : find_owner (w_pools w) (free_base e ptr (strd Q)) = Some (id', Q, r)).
    { unfold free_base. rewrite Ea. rewrite (base_of e Q (w_vm w) r HG HR) by lia. eapply find_owner_spec; eauto. }
    rewrite Efo in Hrun. unfold free_in in Hrun.
    replace (Z.land ptr (strd Q - 1)) with off in Hrun by (rewrite Ea; symmetry; eapply offset_of; eauto; lia).
    destruct (clear_alloc_slot e Q r off) as [r1| |] eqn:Ec; cbn [bind] in Hrun; try discriminate.
    assert (Hr1 : exists bm, r1 = set_bitmap r bm).
    { unfold clear_alloc_slot in Ec. destruct (alloc_bitmap r) eqn:Eb; [|injection Ec as <-; exists (alloc_bitmap r); destruct r; reflexivity].
      destruct (nth_error _ _); [|discriminate]. destruct (_ =? 0) in Ec; [discriminate|]. injection Ec as <-. eauto. }
    destruct Hr1 as (bm & ->). cbn [pattr set_ranges] in Hrun. set (Q1 := set_ranges Q (put_range (range_list Q) (set_bitmap r bm))) in *.
    change (poison_item e Q1 (set_bitmap r bm) off (w_vm w)) with (poison_item e Q r off (w_vm w)) in Hrun.
    change (percpu_to_free_list_ptr e Q1 ptr) with (percpu_to_free_list_ptr e Q ptr) in Hrun.
    destruct (if poison_set (pattr Q) then _ else _) as [v1| |] eqn:Epo in Hrun; cbn [bind] in Hrun; try discriminate.
    destruct (negb _) in Hrun; cbn [bind] in Hrun; [discriminate|]. injection Hrun as <- <-. cbn [w_vm w_pools] in *.
    rewrite Ea in *. rewrite (to_node e Q (w_vm w) r HG HR) in * by lia. rewrite node_area in *.
    pose proof (nidx_bounds _ _ HG) as Hni.
    assert (Hnode : forall y w0, In y (map fst (stw (wcfg e) (base r + strd Q * nidx Q + off) w0)) ->
      base r + strd Q * nidx Q + off <= y < base r + strd Q * nidx Q + off + wsz e).
    { intros y w0 Hy. apply in_map_iff in Hy. destruct Hy as ((y', b) & <- & Hy). apply in_stw in Hy. exact Hy. }
    assert (HK1 : keeps (fun q => exists y, region r y /\ page y = q) (w_vm w) v1).
    { destruct (poison_set (pattr Q)); [|injection Epo as <-; apply keeps_refl]. rewrite poison_item_gen in Epo.
      eapply fill_keeps; [exact HG|exact HR| | | | |exact Epo]; try lia. apply poison_block; [lia|apply (eight_item _ _ HG)]. }
    assert (HK2 : keeps (fun q => exists y, region r y /\ page y = q) v1
                    (store e v1 (stw (wcfg e) (base r + strd Q * nidx Q + off) (free_list_head Q1)))).
    { apply keeps_store; [apply (g_psz _ _ HG)|]. intros y Hy. exists y. split; auto. apply Hnode in Hy. unfold region.
      rewrite (r_addr _ _ _ _ HR), (r_len _ _ _ _ HR). pose proof (g_psz _ _ HG). nia. }
    set (Q2 := set_head Q1 _) in *.
    assert (HSm : pattr Q2 = pattr Q /\ item_len Q2 = item_len Q) by (split; reflexivity).
    apply lookup_set in Hl'; auto.
    assert (Hold : exists P, lookup id (w_pools w) = Some P /\ lazy P cpu /\ part e P cpu lo g /\ True).
    { destruct Hl' as [(-> & ->)|(Hne & Hl')]; [|exists P'; auto]. exists Q. split; auto. split; [exact Hz|]. split; [|auto].
      destruct Hp as (Hg & Hgp & Hgi & r2 & k & Hr2 & Hk & Hgk & Elo). split; auto. split; auto. split; auto.
      unfold Q2, Q1 in Hr2. cbn [range_list set_head set_ranges] in Hr2. unfold put_range in Hr2. apply in_map_iff in Hr2.
      destruct Hr2 as (y & Ey & Hy). destruct (base y =? base (set_bitmap r bm)) eqn:Eb.
      - apply Z.eqb_eq in Eb. exists y, k. subst r2. cbn [base set_bitmap] in *. rewrite Eb. auto.
      - subst y. exists r2, k. auto. }
    destruct Hold as (P & Hlk & HzP & HpP & _). clear Hz Hp Hl'.
    destruct (still_range w L F (store e v1 (stw (wcfg e) (base r + strd Q * nidx Q + off) (free_list_head Q1))) P x id' Q r HW HS Hlk HzP HpP Hin Hr)
      as [Hok|(-> & -> & k & Hk & Hgk & Elo)]; auto.
    { eapply keeps_trans; eauto. }
    assert (Hc0 : calm lo g (w_vm w)) by (intros y Hy; eapply HS; eauto).
    destruct HpP as (Hg & Hgp & Hgi & _). pose proof HzP as (_ & _ & Hpo & Hcpu & Hlk2).
    assert (Hc1 : vmwf v1 /\ rinv P v1 r /\ calm lo g v1).
    { destruct (poison_set (pattr P)) eqn:Eps; [|injection Epo as <-; auto]. rewrite poison_item_gen in Epo.
      eapply fill_calm with (k := k) (off := off); try exact Epo; eauto; try lia.
      - now apply lazy_cow.
      - apply poison_block; [lia|apply (eight_item _ _ HG)].
      - intros v p Hv. rewrite (Hpo eq_refl). apply zero_fill_test; auto; [lia|apply (eight_item _ _ HG)]. }
    destruct Hc1 as (_ & HR1 & Hc1).
    pose proof (lazy_cow _ HzP) as Hcw2. eapply calm_store with (P := P) (cpu := cpu) (g := g) (r := r) (k := k) (v := v1); eauto.
    intros y Hy Hin2. apply Hnode in Hy. eapply part_area with (P := P) (cpu := cpu) (r := r) (k := k) in Hin2; eauto.
    assert (Hne : nidx P <> cpu).
    { unfold nidx. rewrite (lazy_cow _ HzP). rewrite orb_false_r. destruct (robust_set (pattr P)) eqn:Er; [|intros E; destruct Hlk2; [discriminate|congruence]].
      unfold na, nd. rewrite (lazy_cow _ HzP), Er. lia. }
    assert (nidx P < cpu \/ cpu < nidx P) as [Hlt|Hlt] by lia; nia.
  - destruct (forallb _ ps) in Hrun; [|discriminate]. injection Hrun as <- <-. cbn [w_vm w_pools] in *.
    pose proof (lookup_in _ _ _ Hl') as Hin. pose proof (wi_pools _ _ _ _ _ _ HW _ _ Hin) as HI.
    pose proof (pi_ranges _ _ _ _ _ HI) as HF. rewrite Forall_forall in HF. pose proof (pi_geom _ _ _ _ _ HI) as HG.
    pose proof Hp as (Hg & Hgp & Hgi & r & k & Hr & Hk & Hgk & Elo). cbn [spares] in Hsp.
    pose proof Hz as (_ & _ & _ & Hcpu & _). eapply calm_store with (P := P') (cpu := cpu) (g := g) (r := r) (k := k); eauto.
    + intros y Hy. eapply HS; eauto.
    + intros y Hy Hin2. apply (Hsp P' y Hl' Hy). apply HA; auto.
  - destruct Hal as (Q & Hl). rewrite Hl in Hrun.
    destruct (mempool_destroy e Q an (w_vm w)) as [((ret, po), v')| |] eqn:E; cbn [bind] in Hrun; try discriminate.
    injection Hrun as <- <-. cbn [w_vm w_pools] in *. apply lookup_del in Hl'; auto.
    refine (still_fresh w L F v' P' x HW HS Hl' Hz Hp _ Hx). eapply keeps_destroy; eauto.
Qed.

Lemma quiet_reach : forall (A : pool -> Z -> Prop) w L F, quiet e strict v0 id A w L F -> reach e strict v0 w L F.
Proof. intros A w L F H. induction H; [constructor|eapply reach_step; eauto|now apply reach_fork|now apply reach_rest]. Qed.

Lemma quiet_still : forall (A : pool -> Z -> Prop) w L F, vmwf v0 -> (forall P x, part e P cpu lo g -> lo <= x < lo + g -> A P x) ->
  quiet e strict v0 id A w L F -> still w.
Proof.
  intros A w L F Hwf HA H. induction H as [|w L F o w' x Hq IH Hal Hrun Hzc Hsp|w L F Hq IH Hpl|w L F v' Hq IH Hra].
  - intros P Hl. discriminate Hl.
  - pose proof (quiet_reach _ _ _ _ Hq) as Hr.
    eapply (step_still w L F o w' x A); eauto; eapply reach_inv; eauto. eapply reach_step; eauto.
  - assert (HW : winv e strict v0 w L F) by (apply (reach_inv e He Hcp); [exact Hwf|eapply quiet_reach; exact Hq]).
    intros P Hl Hz Hp x Hx. cbn [child w_vm fork populated]. rewrite (IH P); auto; [apply andb_false_r|].
    apply lookup_in in Hl. cbn [child w_pools] in Hl. apply filter_In in Hl. apply lookup_some; [apply HW|apply Hl].
  - assert (HW : winv e strict v0 w L F) by (apply (reach_inv e He Hcp); [exact Hwf|eapply quiet_reach; exact Hq]).
    intros P Hl Hz Hp x Hx. cbn [w_vm w_pools] in *. pose proof (lookup_in _ _ _ Hl) as Hin.
    pose proof (wi_pools _ _ _ _ _ _ HW _ _ Hin) as HI. pose proof (pi_ranges _ _ _ _ _ HI) as HF. rewrite Forall_forall in HF.
    pose proof Hp as (Hg & Hgp & Hgi & r & k & Hr & Hk & Hgk & Elo). pose proof Hz as (_ & _ & _ & Hc & _). pose proof (lazy_cow _ Hz) as Hcw.
    assert (Hu : in_use e v0 w x).
    { eapply pool_in_use; [exact Hin|]. exists r. split; [exact Hr|]. eapply part_region with (g := g) (k := k); eauto. apply (pi_geom _ _ _ _ _ HI). }
    rewrite (sa_populated _ _ _ _ (ra_same _ _ _ _ Hra x Hu)). exact (IH P Hl Hz Hp x Hx).
Qed.
End Hist.
End Quiet.
