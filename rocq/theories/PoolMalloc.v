(** Allocation and freeing. *)
From Coq Require Import ZArith Bool List Lia Znumtheory Permutation.
From Verif Require Import UtilsModel UtilsLemmas RseqIR MemLemmas PoolVM PoolVMLemmas PoolModel PoolInv PoolItem PoolMap PoolRange PoolBitmap PoolOps.
Import ListNotations.
Local Open Scope Z_scope.

Section Malloc.
Variable e : env.
Notation psz := (e_page e).
Notation page := (PoolVM.page e).
Notation geom := (geom e).
Notation rinv := (rinv e).
Notation pinv := (pinv e).
Notation poisoned := (poisoned e).

Definition bits (P : pool) (live : list Z) : Prop :=
  robust_set (pattr P) = true -> forall r o, In r (range_list P) ->
    0 <= o < strd P -> (item_len P | o) -> (slot_bit e P r o = true <-> In (base r + o) live).

Lemma slot_put : forall P v r r', geom P -> Forall (rinv P v) (range_list P) -> ForallOrdPairs apart (range_list P) ->
  In r (range_list P) -> twin r r' -> next_unused r' = next_unused r ->
  forall a, slot (set_ranges P (put_range (range_list P) r')) a <-> slot P a.
Proof.
  intros P v r r' HG HF HA Hr Htw Hn a. unfold slot. cbn [range_list set_ranges item_len].
  split; intros (x & Hx & H1 & H2).
  - apply (put_in _ r r') in Hx; auto. destruct Hx as [->|[Hx _]].
    + exists r. destruct Htw as (Hb & _). rewrite Hb, Hn in *. auto.
    + exists x. auto.
  - destruct (Z.eq_dec (base x) (base r)) as [E|E].
    + assert (x = r) by (eapply same_base; eauto). subst x. exists r'.
      split; [apply (put_in _ r r'); auto|]. destruct Htw as (Hb & _). rewrite Hb, Hn. auto.
    + exists x. split; [apply (put_in _ r r'); auto|]. auto.
Qed.

Lemma set_ranges_same : forall P l, same P (set_ranges P l).
Proof. intros. repeat split. Qed.
Lemma set_head_same : forall P l, same P (set_head P l).
Proof. intros. repeat split. Qed.

Lemma twin_bitmap : forall r b, twin r (set_bitmap r b).
Proof. repeat split. Qed.
Lemma twin_unused : forall r n, twin r (set_unused r n).
Proof. repeat split. Qed.

(** End of malloc: the slot found is marked. *)
Lemma finish_alloc : forall P v free live r off,
  geom P -> Forall (rinv P v) (range_list P) -> ForallOrdPairs apart (range_list P) ->
  Forall (fun r => next_unused r = strd P) (tl (range_list P)) ->
  nr_ranges P = Z.of_nat (length (range_list P)) ->
  max_nr_ranges (pattr P) = 0 \/ nr_ranges P <= max_nr_ranges (pattr P) ->
  In r (range_list P) -> 0 <= off < next_unused r -> (item_len P | off) ->
  (forall a, In a (free ++ (base r + off) :: live) <-> slot P a) -> NoDup (free ++ (base r + off) :: live) ->
  bits P live -> chain e P v (free_list_head P) free ->
  exists r', set_alloc_slot e P r off = Ok r' /\ twin r r' /\
    let P' := set_ranges P (put_range (range_list P) r') in
    In r' (range_list P') /\ pinv P' free ((base r + off) :: live) v.
Proof.
  intros P v free live r off HG HF HA Hfull Hnr Hmax Hr Hoff Hd Hslots Hnd Hbits Hch.
  assert (HR : rinv P v r) by (rewrite Forall_forall in HF; auto).
  pose proof (r_unused _ _ _ _ HR) as Hun. pose proof (r_div _ _ _ _ HR) as Hdv.
  assert (Hnl : ~ In (base r + off) live).
  { apply NoDup_remove_2 in Hnd. intros H. apply Hnd, in_or_app. auto. }
  assert (Hmain : exists r', set_alloc_slot e P r off = Ok r' /\ twin r r' /\ next_unused r' = next_unused r /\
    rinv P v r' /\ bits (set_ranges P (put_range (range_list P) r')) ((base r + off) :: live)).
  { destruct (robust_set (pattr P)) eqn:Hrob.
    - pose proof (r_bitmap _ _ _ _ HR) as Hbm. rewrite Hrob in Hbm.
      assert (Hbs : forall r o, In r (range_list P) -> 0 <= o < strd P -> (item_len P | o) ->
        (slot_bit e P r o = true <-> In (base r + o) live)) by (apply Hbits; auto).
      destruct (set_slot_spec e P HG r off Hbm ltac:(lia) Hd) as [[Hb _]|(Hb & bm & E & Hok & Hb')].
      + exfalso. apply Hnl. apply Hbits; auto. lia.
      + exists (set_bitmap r (Some bm)). split; auto. split; [apply twin_bitmap|]. split; [reflexivity|].
        assert (HR' : rinv P v (set_bitmap r (Some bm))).
        { eapply rinv_twin; eauto using twin_bitmap. rewrite Hrob. exact Hok. }
        split; auto. intros _ x o Hx Ho Hdo. cbn [range_list set_ranges item_len pattr] in Hx, Ho, Hdo.
        rewrite (s_bit P) by apply set_ranges_same.
        apply (put_in _ r) in Hx; auto using twin_bitmap.
        destruct Hx as [->|[Hx Hne]].
        * rewrite Hb' by auto. cbn [base set_bitmap In]. destruct (o =? off) eqn:Eo.
          -- apply Z.eqb_eq in Eo. subst o. split; auto.
          -- apply Z.eqb_neq in Eo. rewrite Hbs by auto. split; [auto|]. intros [H|H]; auto. lia.
        * rewrite Hbs by auto. cbn [In]. split; [auto|]. intros [H|H]; auto. exfalso.
          apply Hne. assert (HRx : rinv P v x) by (rewrite Forall_forall in HF; auto).
          destruct (r_al _ _ _ _ HRx) as [j Hj]. destruct (r_al _ _ _ _ HR) as [k Hk].
          rewrite Hj, Hk in *. assert (j = k) by nia. subst; auto.
    - pose proof (r_bitmap _ _ _ _ HR) as Hbm. rewrite Hrob in Hbm.
      exists r. unfold set_alloc_slot. rewrite Hbm. split; [reflexivity|]. split; [apply twin_refl|].
      split; [reflexivity|]. split; [exact HR|]. unfold bits. cbn [pattr set_ranges]. congruence. }
  destruct Hmain as (r' & E & Htw & Hn & HR' & Hbits').
  exists r'. split; auto. split; auto. cbn zeta.
  split; [apply (put_in _ r r'); auto|].
  constructor; cbn [range_list set_ranges nr_ranges pattr free_list_head].
  - eapply s_geom; eauto using set_ranges_same.
  - assert (H : Forall (rinv P v) (put_range (range_list P) r')) by (apply (put_Forall _ r); auto).
    rewrite Forall_forall in H |- *. intros x Hx. eapply s_rinv; [apply set_ranges_same|]. auto.
  - eapply put_apart; eauto.
  - rewrite put_tl. rewrite Forall_forall in Hfull |- *. intros x Hx.
    unfold put_range in Hx. apply in_map_iff in Hx. destruct Hx as (y & Ey & Hy).
    destruct (base y =? base r') eqn:Eb; subst x; auto.
    apply Z.eqb_eq in Eb. assert (y = r).
    { eapply same_base; eauto. + destruct (range_list P); [destruct Hy|now right]. + destruct Htw as (Hb & _). congruence. }
    subst y. rewrite Hn. auto.
  - intros a. rewrite (slot_put P v r r') by auto. auto.
  - auto.
  - auto.
  - eapply s_chain; eauto using set_ranges_same.
  - rewrite put_length. auto.
  - auto.
Qed.

(** Regions only grow, by memory that was not mapped. *)
Definition grows (P P' : pool) (v : vm) : Prop :=
  (forall a, pregion P a -> pregion P' a) /\
  (forall a, pregion P' a -> pregion P a \/ mapped v (page a) = false).

Lemma grows_put : forall P l r r' v, In r l -> twin r r' ->
  (forall x, In x l -> base x = base r -> x = r) -> grows P (set_ranges P l) v ->
  grows P (set_ranges P (put_range l r')) v.
Proof.
  intros P l r r' v Hr Htw Huniq [H1 H2]. split.
  - intros a Ha. destruct (H1 _ Ha) as (x & Hx & Hxa). cbn in Hx. unfold pregion. cbn [range_list set_ranges].
    destruct (Z.eq_dec (base x) (base r)) as [E|E].
    + apply Huniq in E; auto. subst x. exists r'. split; [apply (put_in l r r'); auto|]. now apply (twin_region r).
    + exists x. split; auto. apply (put_in l r r'); auto.
  - intros a (x & Hx & Hxa). cbn [range_list set_ranges] in Hx. apply H2.
    apply (put_in l r r') in Hx; auto. destruct Hx as [->|[Hx _]].
    + exists r. split; auto. now apply (twin_region r) in Hxa.
    + exists x. auto.
Qed.

(** What the locked part of malloc can do. *)
Inductive malloc_post (P : pool) (free live : list Z) (an : answers) (v : vm)
  : res (option (range * Z * Z) * pool * vm) -> Prop :=
| mp_trim : free = [] -> an_trim1 an = false \/ an_trim2 an = false -> malloc_post P free live an v Abort
| mp_corrupt a free' : free = a :: free' -> robust_set (pattr P) = true -> ~ poisoned P v a ->
    malloc_post P free live an v Abort
| mp_reuse a free' r off P' : free = a :: free' -> (robust_set (pattr P) = true -> poisoned P v a) ->
    same P P' -> In r (range_list P') -> a = base r + off -> (item_len P | off) -> 0 <= off -> off + item_len P <= strd P ->
    nr_ranges P' = nr_ranges P -> grows P P' v -> pinv P' free' (a :: live) v ->
    malloc_post P free live an v (Ok (Some (r, off, a), P', v))
| mp_fresh a r off P' v' : free = [] ->
    same P P' -> In r (range_list P') -> a = base r + off -> (item_len P | off) -> 0 <= off -> off + item_len P <= strd P ->
    grows P P' v -> pinv P' [] (a :: live) v' -> vmwf e v' -> vframe e (fun x => mapped v (page x) = true) v v' ->
    malloc_post P free live an v (Ok (Some (r, off, a), P', v'))
| mp_none v' : free = [] -> Forall (fun r => next_unused r = strd P) (range_list P) ->
    max_nr_ranges (pattr P) <> 0 /\ max_nr_ranges (pattr P) <= nr_ranges P \/ sys_refuses e P an v ->
    vmwf e v' -> vframe e (fun x => mapped v (page x) = true) v v' ->
    malloc_post P free live an v (Ok (None, P, v')).

Lemma pregion_mapped : forall P v a, Forall (rinv P v) (range_list P) -> pregion P a -> mapped v (page a) = true.
Proof. intros P v a HF (r & Hr & Ha). rewrite Forall_forall in HF. apply (r_map _ _ _ _ (HF _ Hr)). auto. Qed.

Lemma set_ranges_id : forall P, set_ranges P (range_list P) = P.
Proof. now intros []. Qed.

Lemma grows_refl : forall P v, grows P (set_ranges P (range_list P)) v.
Proof. intros P v. split; [auto|]. intros a H. left. exact H. Qed.

Lemma slot_fresh : forall P v r l a, geom P -> Forall (rinv P v) (range_list P) -> ForallOrdPairs apart (range_list P) ->
  range_list P = r :: l -> next_unused r + item_len P <= strd P ->
  slot (set_ranges P (put_range (range_list P) (set_unused r (next_unused r + item_len P)))) a <->
  slot P a \/ a = base r + next_unused r.
Proof.
  intros P v r l a HG HF HA El Hroom. pose proof (item_pos _ _ HG).
  assert (Hr : In r (range_list P)) by (rewrite El; now left).
  assert (HR : rinv P v r) by (rewrite Forall_forall in HF; auto).
  pose proof (r_unused _ _ _ _ HR) as Hun. pose proof (r_div _ _ _ _ HR) as Hdv.
  set (r' := set_unused r (next_unused r + item_len P)).
  assert (Htw : twin r r') by apply twin_unused.
  unfold slot. cbn [range_list set_ranges item_len]. split.
  - intros (x & Hx & H1 & H2). apply (put_in _ r r') in Hx; auto. destruct Hx as [->|[Hx _]].
    + cbn [base next_unused r' set_unused] in H1, H2.
      destruct (Z_lt_le_dec (a - base r) (next_unused r)).
      * left. exists r. repeat split; auto; lia.
      * right. destruct H2 as [k Hk]. destruct Hdv as [j Hj]. rewrite Hk, Hj in *.
        assert (k = j) by nia. subst k. lia.
    + left. exists x. auto.
  - intros [(x & Hx & H1 & H2)| ->].
    + destruct (Z.eq_dec (base x) (base r)) as [E|E].
      * assert (x = r) by (eapply same_base; eauto). subst x. exists r'.
        split; [apply (put_in _ r r'); auto|]. cbn [base next_unused r' set_unused]. split; auto; lia.
      * exists x. split; [apply (put_in _ r r'); auto|]. auto.
    + exists r'. split; [apply (put_in _ r r'); auto|]. cbn [base next_unused r' set_unused].
      replace (base r + next_unused r - base r) with (next_unused r) by ring. split; auto; lia.
Qed.

(** The item is carved from the first range. *)
Lemma carve : forall P v live r l,
  geom P -> Forall (rinv P v) (range_list P) -> ForallOrdPairs apart (range_list P) ->
  Forall (fun r => next_unused r = strd P) (tl (range_list P)) ->
  nr_ranges P = Z.of_nat (length (range_list P)) ->
  max_nr_ranges (pattr P) = 0 \/ nr_ranges P <= max_nr_ranges (pattr P) ->
  range_list P = r :: l -> next_unused r + item_len P <= strd P ->
  (forall a, In a live <-> slot P a) -> NoDup live -> bits P live -> free_list_head P = 0 ->
  let r1 := set_unused r (uw (e_wide e) (next_unused r + item_len P)) in
  let P1 := set_ranges P (put_range (range_list P) r1) in
  exists r', set_alloc_slot e P1 r1 (next_unused r) = Ok r' /\ twin r r' /\
    let P' := set_ranges P1 (put_range (range_list P1) r') in
    In r' (range_list P') /\ pinv P' [] ((base r + next_unused r) :: live) v /\
    forall w, grows P P' w.
Proof.
  intros P v live r l HG HF HA Hfull Hnr Hmax El Hroom Hslots Hnd Hbits Hh. cbn zeta.
  assert (Hr : In r (range_list P)) by (rewrite El; now left).
  assert (HR : rinv P v r) by (rewrite Forall_forall in HF; auto).
  pose proof (r_unused _ _ _ _ HR) as Hun. pose proof (r_div _ _ _ _ HR) as Hdv.
  pose proof (item_pos _ _ HG) as Hip. pose proof (strd_le _ _ HG) as Hsl.
  rewrite (ue_small e) by lia.
  set (r1 := set_unused r (next_unused r + item_len P)).
  set (P1 := set_ranges P (put_range (range_list P) r1)).
  assert (Htw : twin r r1) by apply twin_unused.
  assert (HS : same P P1) by apply set_ranges_same.
  assert (HR1 : rinv P v r1).
  { eapply rinv_twin; eauto.
    - cbn. lia.
    - cbn. apply Z.divide_add_r; auto. apply Z.divide_refl.
    - pose proof (r_bitmap _ _ _ _ HR) as Hb. exact Hb. }
  destruct (finish_alloc P1 v [] live r1 (next_unused r)) as (r' & E & Htw' & Hin & Hpi).
  - eapply s_geom; eauto.
  - cbn [range_list P1 set_ranges]. assert (H : Forall (rinv P v) (put_range (range_list P) r1)) by (apply (put_Forall _ r); auto).
    rewrite Forall_forall in H |- *. intros x Hx. eapply s_rinv; eauto.
  - cbn [range_list P1 set_ranges]. eapply put_apart; eauto.
  - cbn [range_list P1 set_ranges pattr]. rewrite put_tl. rewrite El in *. cbn [tl] in *.
    rewrite put_absent; auto. intros x Hx Eb. cbn in Eb.
    inversion HA; subst. rewrite Forall_forall in H1. apply H1 in Hx as Hap.
    rewrite Forall_forall in HF. pose proof (HF _ (or_intror Hx)) as HRx.
    eapply (apart_regions r x (base x)); eauto.
    + rewrite Eb. eapply base_region; eauto.
    + eapply base_region; eauto.
  - cbn [nr_ranges P1 set_ranges range_list]. rewrite put_length. auto.
  - auto.
  - cbn [range_list P1 set_ranges]. apply (put_in _ r r1); auto.
  - cbn. lia.
  - exact Hdv.
  - intros a. cbn [app]. unfold P1, r1. rewrite (slot_fresh P v r l a) by auto. cbn [In base set_unused]. rewrite Hslots.
    split; intros [H|H]; auto.
  - cbn [app]. constructor; auto. intros H. apply Hslots in H. destruct H as (x & Hx & H1 & H2).
    cbn [base r1 set_unused] in *.
    destruct (Z.eq_dec (base x) (base r)) as [Eb|Eb].
    + assert (x = r) by (eapply same_base; eauto). subst x. lia.
    + assert (HRx : rinv P v x) by (rewrite Forall_forall in HF; auto).
      pose proof (r_unused _ _ _ _ HRx).
      destruct (r_al _ _ _ _ HRx) as [j Hj]. destruct (r_al _ _ _ _ HR) as [k Hk].
      rewrite Hj, Hk in *. assert (j = k) by nia. subst; auto.
  - intros Hrob x o Hx Ho Hdo. cbn [range_list P1 set_ranges item_len pattr] in *.
    rewrite (s_bit P P1 HS). apply (put_in _ r r1) in Hx; auto. destruct Hx as [->|[Hx _]].
    + change (slot_bit e P r1 o) with (slot_bit e P r o). exact (Hbits Hrob r o Hr Ho Hdo).
    + exact (Hbits Hrob x o Hx Ho Hdo).
  - cbn. exact Hh.
  - exists r'. split; auto. split.
    { destruct Htw' as (?&?&?&?&?). repeat split; assumption. }
    split; auto. split; auto.
    intros w. assert (Hg : grows P P1 w).
    { unfold P1. eapply grows_put; eauto using grows_refl.
      intros x Hx Eb. eapply same_base; eauto. }
    change (grows P (set_ranges P (put_range (range_list P1) r')) w).
    eapply (grows_put P (range_list P1) r1); eauto.
    + cbn [range_list P1 set_ranges]. apply (put_in _ r r1); auto.
    + intros x Hx Eb. cbn [range_list P1 set_ranges] in Hx. apply (put_in _ r r1) in Hx; auto.
      destruct Hx as [|[_ Hne]]; auto. exfalso. apply Hne. exact Eb.
Qed.

Lemma malloc_locked_spec : forall P free live an v, pinv P free live v -> vmwf e v ->
  malloc_post P free live an v (malloc_locked e P an v).
Proof.
  intros P free live an v HI Hwf. pose proof (pi_geom _ _ _ _ _ HI) as HG.
  pose proof (pi_ranges _ _ _ _ _ HI) as HF. pose proof (item_pos _ _ HG) as Hip.
  pose proof (pi_apart _ _ _ _ _ HI) as HA.
  unfold malloc_locked. destruct free as [|a free].
  - pose proof (pi_chain _ _ _ _ _ HI) as Hh. cbn in Hh. rewrite Hh. cbn [Z.eqb negb].
    assert (Hslots : forall a, In a live <-> slot P a) by apply (pi_slots _ _ _ _ _ HI).
    pose proof (pi_nodup _ _ _ _ _ HI) as Hnd. cbn [app] in Hnd.
    pose proof (strd_le _ _ HG) as Hsl.
    set (room := match range_list P with [] => false | r :: _ => uw (e_wide e) (next_unused r + item_len P) <=? strd P end).
    destruct room eqn:Eroom; unfold room in Eroom.
    + assert (exists r l, range_list P = r :: l /\ (uw (e_wide e) (next_unused r + item_len P) <=? strd P) = true) as (r & l & El & Er).
      { destruct (range_list P) as [|r l]; [discriminate|]. eauto. }
      assert (Hr : In r (range_list P)) by (rewrite El; now left).
      assert (HR : rinv P v r) by (rewrite Forall_forall in HF; auto).
      pose proof (r_unused _ _ _ _ HR) as Hun. pose proof (r_div _ _ _ _ HR) as Hdv.
      assert (Hroom : next_unused r + item_len P <= strd P).
      { apply Z.leb_le in Er. destruct (Z.eq_dec (next_unused r) (strd P)) as [Eq|Ne].
        - exfalso. assert (item_len P <= strd P) by (apply Z.divide_pos_le; [apply (strd_pos _ _ HG)|apply (item_strd _ _ HG)]).
          assert (strd P + item_len P < wmax e).
          { pose proof (g_fit _ _ HG). pose proof (g_cpus _ _ HG). pose proof (strd_pos _ _ HG). nia. }
          rewrite (ue_small e) in Er by lia. lia.
        - eapply room_next; eauto. }
      destruct (carve P v live r l) as (r' & E & Htw & Hin & Hpi & Hgr); auto.
      { apply (pi_full _ _ _ _ _ HI). }
      { apply (pi_nr _ _ _ _ _ HI). }
      { apply (pi_max _ _ _ _ _ HI). }
      { exact (pi_bits _ _ _ _ _ HI). }
      cbn [bind]. rewrite El in E |- *. cbn [bind]. rewrite E. cbn [bind].
      replace (base (set_unused r (uw (e_wide e) (next_unused r + item_len P))) + next_unused r) with (base r' + next_unused r)
        by (destruct Htw as (Hb & _); cbn; rewrite Hb; reflexivity).
      rewrite <- El.
      eapply mp_fresh with (v' := v); auto using vframe_refl.
      * repeat split.
      * lia.
      * destruct Htw as (Hb & _). rewrite Hb. exact Hpi.
    + assert (Hall : Forall (fun r => next_unused r = strd P) (range_list P)).
      { pose proof (pi_full _ _ _ _ _ HI) as Hfull. destruct (range_list P) as [|r l]; constructor; auto.
        inversion HF; subst. pose proof (r_unused _ _ _ _ H1) as Hun. pose proof (r_div _ _ _ _ H1) as Hdv.
        destruct (Z.eq_dec (next_unused r) (strd P)) as [|Ne]; auto. exfalso.
        pose proof (room_next _ _ HG _ Hun Hdv Ne). apply Z.leb_gt in Eroom.
        rewrite (ue_small e) in Eroom by lia. lia. }
      destruct (range_create_spec e P an v HG Hwf) as [(ro & P2 & v2 & E & Hwf2 & Hfr & Hro)|[E Ht]]; rewrite E.
      2:{ cbn [bind]. apply mp_trim; auto. }
      cbn [bind]. destruct ro as [r|].
      * destruct Hro as (-> & Hmax & HR & Hnu & Hblank & Hfresh). cbn [bind range_list set_ranges].
        set (P2 := set_ranges (set_nr P (nr_ranges P + 1)) (r :: range_list P)).
        assert (HS : same P P2) by (repeat split).
        assert (HI2 : pinv P [] live v2).
        { eapply pinv_frame; eauto. eapply vframe_sub; [exact Hfr|]. intros x Hx. eapply pregion_mapped; eauto. }
        assert (Hnew : forall x, In x (range_list P) -> apart r x).
        { intros x Hx. assert (HRx : rinv P v x) by (rewrite Forall_forall in HF; auto).
          assert (Hno : forall y, region r y -> region x y -> False).
          { intros y H1 H2. pose proof (Hfresh _ H1). pose proof (r_map _ _ _ _ HRx _ H2). congruence. }
          unfold apart. unfold region in Hno.
          assert (0 < mmap_len r /\ 0 < mmap_len x).
          { rewrite (r_len _ _ _ _ HR), (r_len _ _ _ _ HRx). pose proof (g_psz _ _ HG).
            pose proof (strd_pos _ _ HG). pose proof (na_bounds P). pose proof (nd_bounds P). pose proof (g_cpus _ _ HG). nia. }
          destruct (Z_le_gt_dec (mmap_addr r + mmap_len r) (mmap_addr x)); auto.
          destruct (Z_le_gt_dec (mmap_addr x + mmap_len x) (mmap_addr r)); auto. exfalso.
          apply (Hno (Z.max (mmap_addr r) (mmap_addr x))); lia. }
        destruct (carve P2 v2 live r (range_list P)) as (r' & E' & Htw & Hin & Hpi & Hgr); auto.
        { eapply s_geom; eauto. }
        { cbn [range_list P2 set_ranges]. constructor; [eapply s_rinv; eauto|].
          pose proof (pi_ranges _ _ _ _ _ HI2) as H2. rewrite Forall_forall in H2 |- *. intros x Hx.
          eapply s_rinv; eauto. }
        { cbn [range_list P2 set_ranges]. constructor; auto. apply Forall_forall. auto. }
        { cbn [range_list P2 set_ranges nr_ranges set_nr length].
          rewrite (pi_nr _ _ _ _ _ HI). lia. }
        { cbn [pattr nr_ranges P2 set_ranges set_nr]. lia. }
        { rewrite Hnu. cbn [P2 set_ranges item_len set_nr pattr].
          apply Z.divide_pos_le; [apply (strd_pos _ _ HG)|apply (item_strd _ _ HG)]. }
        { intros a. rewrite Hslots. unfold slot. cbn [range_list P2 set_ranges item_len set_nr]. split.
          - intros (x & Hx & H). exists x. split; [now right|auto].
          - intros (x & [<-|Hx] & H); [rewrite Hnu in H; lia|]. exists x. auto. }
        { intros Hrob x o Hx Ho Hdo. cbn [range_list P2 set_ranges item_len pattr set_nr] in *.
          rewrite (s_bit P P2 HS). destruct Hx as [<-|Hx].
          - rewrite Hblank. split; [discriminate|]. intros Hl. exfalso. apply Hslots in Hl.
            destruct Hl as (x & Hx & H1 & H2). assert (HRx : rinv P v x) by (rewrite Forall_forall in HF; auto).
            pose proof (Hnew _ Hx) as Hap. pose proof (r_unused _ _ _ _ HRx).
            destruct (r_al _ _ _ _ HRx) as [j Hj]. destruct (r_al _ _ _ _ HR) as [k Hk].
            assert (Exr : base x = base r) by (rewrite Hj, Hk in *; assert (j = k) by nia; subst; auto).
            eapply (apart_regions r x (base r)); eauto.
            + eapply base_region; eauto.
            + rewrite <- Exr. eapply base_region; eauto.
          - apply (pi_bits _ _ _ _ _ HI); auto. }
        cbn [item_len P2 set_ranges set_nr range_list] in E', Hin, Hpi, Hgr |- *.
        rewrite Hnu in *. cbn [bind] in *.
        match goal with |- context [set_alloc_slot e ?x ?y ?z] =>
          replace (set_alloc_slot e x y z) with (Ok r') by (symmetry; exact E') end. cbn [bind].
        assert (Hb : base r' = base r) by apply Htw.
        replace (base (set_unused r (uw (e_wide e) (0 + item_len P))) + 0) with (base r' + 0) by (rewrite Hb; reflexivity).
        assert (item_len P <= strd P) by (apply Z.divide_pos_le; [apply (strd_pos _ _ HG)|apply (item_strd _ _ HG)]).
        eapply mp_fresh with (v' := v2); auto using vframe_refl; try lia.
        -- apply Z.divide_0_r.
        -- destruct (Hgr v) as [Hg1 Hg2]. split.
           ++ intros a (x & Hx & Ha). apply Hg1. exists x. split; [now right|auto].
           ++ intros a Ha. destruct (Hg2 _ Ha) as [(x & [<-|Hx] & Hxa)|]; auto.
              left. exists x. auto.
        -- rewrite Hb. exact Hpi.
      * destruct Hro as (-> & Hro). cbn [bind]. eapply mp_none; eauto.
  - pose proof (pi_chain _ _ _ _ _ HI) as Hh. cbn in Hh. destruct Hh as [Hh Hch]. rewrite Hh in *.
    destruct (slot_item e P v a HG HF) as (r & Hr & HR & Ho & Hol & Hd).
    { apply (pi_slots _ _ _ _ _ HI). now left. }
    set (off := a - base r) in *. assert (Ea : a = base r + off) by (unfold off; lia).
    assert (Hoff : 0 <= off < strd P) by lia.
    pose proof (node_bounds e P v r HG HR off Hoff) as (Hn1 & Hn2 & Hn3). rewrite <- Ea in *.
    replace (node P a =? 0) with false by lia. cbn [negb].
    assert (Hfn : free_list_to_percpu_ptr e P (node P a) = a) by (rewrite Ea; eapply from_node; eauto).
    assert (Hbo : Z.land a (notw (e_wide e) (strd P - 1)) = base r) by (rewrite Ea; eapply base_of; eauto).
    rewrite Hfn. rewrite Hbo. rewrite (find_range_in e P v) by auto.
    assert (Hacc : accessible e v (node P a) (wsz e) = true) by (rewrite Ea; eapply node_accessible; eauto; lia).
    rewrite Hacc. cbn [negb]. fold off.
    set (nx := load_word e v (node P a)) in *.
    assert (HS : same P (set_head P nx)) by apply set_head_same.
    rewrite (s_fl P _ HS), Hfn.
    assert (Hck : (check_poison_item e (set_head P nx) r off v = Ok tt /\ (robust_set (pattr P) = true -> poisoned P v a)) \/
                  (check_poison_item e (set_head P nx) r off v = Abort /\ robust_set (pattr P) = true /\ ~ poisoned P v a)).
    { destruct (robust_set (pattr P)) eqn:Hrob.
      - destruct (check_poison_item_spec e (set_head P nx) v r off) as [[H1 H2]|[H1 H2]]; auto.
        + eapply s_geom; eauto.
        + eapply s_rinv; eauto.
        + left. split; auto. intros _. rewrite Ea. exact H2.
        + right. split; auto. split; auto. rewrite Ea. exact H2.
      - left. split; [|discriminate]. unfold check_poison_item. cbn [pattr set_head]. rewrite Hrob. reflexivity. }
    destruct Hck as [[Hck Hp]|(Hck & Hrob & Hp)]; rewrite Hck; cbn [bind]; [|eapply mp_corrupt; eauto].
    assert (Hun : 0 <= off < next_unused r).
    { assert (Hs : slot P a) by (apply (pi_slots _ _ _ _ _ HI); now left).
      destruct Hs as (r2 & Hr2 & Ho2 & _). assert (r2 = r).
      { eapply same_base; eauto. assert (HR2 : rinv P v r2) by (rewrite Forall_forall in HF; auto).
        pose proof (r_unused _ _ _ _ HR2).
        destruct (r_al _ _ _ _ HR2) as [j Hj]. destruct (r_al _ _ _ _ HR) as [k Hk].
        rewrite Hj, Hk in *. unfold off in *. assert (j = k) by nia. subst; auto. }
      subst r2. unfold off. auto. }
    destruct (finish_alloc (set_head P nx) v free live r off) as (r' & E & Htw & Hin & Hpi); auto.
    + eapply s_geom; eauto.
    + cbn [range_list set_head]. rewrite Forall_forall in HF |- *. intros x Hx. eapply s_rinv; eauto.
    + apply (pi_full _ _ _ _ _ HI).
    + apply (pi_nr _ _ _ _ _ HI).
    + apply (pi_max _ _ _ _ _ HI).
    + intros x. rewrite <- Ea. pose proof (pi_slots _ _ _ _ _ HI x) as Hs. cbn [In app] in Hs.
      rewrite in_app_iff in Hs |- *. cbn [In]. unfold slot in *. cbn [range_list set_head item_len]. rewrite <- Hs. tauto.
    + rewrite <- Ea. eapply Permutation_NoDup; [|apply (pi_nodup _ _ _ _ _ HI)].
      cbn [app]. apply Permutation_middle.
    + intros Hrob x o. cbn [range_list set_head item_len pattr]. rewrite (s_bit P _ HS).
      apply (pi_bits _ _ _ _ _ HI); auto.
    + eapply s_chain; eauto.
    + rewrite E. cbn [bind]. rewrite <- Ea in Hpi. destruct Htw as (Hb & Htw').
      assert (Htw : twin r r') by (split; auto).
      eapply mp_reuse; eauto.
      * rewrite Hb. auto.
      * change (grows P (set_ranges P (put_range (range_list P) r')) v).
        eapply grows_put; eauto using grows_refl. intros x Hx Eb. eapply same_base; eauto.
Qed.
End Malloc.
