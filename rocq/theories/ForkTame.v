(** Programs that do not use madvise() themselves can fork: no page that a child keeps
    is a copy of a page that the child does not have. *)
From Coq Require Import ZArith Bool List Lia Znumtheory.
From Verif Require Import UtilsModel UtilsLemmas RseqIR MemLemmas PoolVM PoolVMLemmas PoolModel PoolInv PoolItem PoolMap PoolRange PoolBitmap PoolOps PoolMalloc PoolFree PoolWorld PoolDestroy PoolCreate PoolHist PoolProps PlacePool ForkSpec ForkProofs.
Import ListNotations.
Local Open Scope Z_scope.

Section Tame.
Variable e : env.
Notation psz := (e_page e).
Notation page := (PoolVM.page e).

Definition tame (v : vm) : Prop := forall p q, link v p = Some q -> dontfork v p = false ->
  dontfork v q = false /\ wipefork v q = false.
(** No new copies, and no page of one is marked. *)
Definition calm (v v' : vm) : Prop := forall p q, link v' p = Some q ->
  link v p = Some q /\ dontfork v' p = dontfork v p /\ (dontfork v' q = true -> dontfork v q = true) /\
  (wipefork v' q = true -> wipefork v q = true).
Lemma calm_refl : forall v, calm v v.
Proof. intros v p q H. auto. Qed.
Lemma calm_trans : forall v1 v2 v3, calm v1 v2 -> calm v2 v3 -> calm v1 v3.
Proof.
  intros v1 v2 v3 H1 H2 p q H. destruct (H2 p q H) as (A1 & A2 & A3 & A4). destruct (H1 p q A1) as (B1 & B2 & B3 & B4).
  split; [exact B1|]. split; [congruence|]. auto.
Qed.
Lemma calm_tame : forall v v', calm v v' -> tame v -> tame v'.
Proof.
  intros v v' H K p q Hl Hd. destruct (H p q Hl) as (A1 & A2 & A3 & A4). rewrite A2 in Hd. destruct (K p q A1 Hd) as [B1 B2].
  split; [destruct (dontfork v' q)|destruct (wipefork v' q)]; auto; exfalso; [rewrite A3 in B1|rewrite A4 in B2]; auto; discriminate.
Qed.
Lemma calm_store : forall v ps, calm v (store e v ps).
Proof.
  intros v ps p q H. apply store_link in H. destruct H as [H _]. rewrite !store_dontfork, !store_wipefork. auto.
Qed.
Lemma calm_munmap : forall v a len, calm v (munmap e v a len).
Proof. intros v a len p q H. cbn in *. destruct (in_pages e a len p); [discriminate H|]. auto. Qed.
Lemma calm_shared : forall v a len, calm v (mmap_shared e v a len).
Proof.
  intros v a len p q H. cbn in *. destruct (in_pages e a len p); [discriminate H|]. cbn [negb andb].
  destruct (in_pages e a len q); cbn [negb andb]; auto. repeat split; auto; discriminate.
Qed.
Lemma calm_anon : forall v len c a v', mmap_anon e v len c = Some (a, v') -> calm v v'.
Proof.
  intros v len [c|] a v' H; [|discriminate]. unfold mmap_anon in H. destruct (_ && _); [|discriminate].
  injection H as <- <-. intros p q K. cbn in *. destruct (in_pages e c len p); [discriminate K|]. cbn [negb andb].
  destruct (in_pages e c len q); cbn [negb andb]; auto. repeat split; auto; discriminate.
Qed.
Lemma calm_aligned : forall v ps len al hdr c t1 t2 x v',
  aligned_mmap_anonymous e v ps len al hdr c t1 t2 = Ok (x, v') -> calm v v'.
Proof.
  intros v ps len al hdr c t1 t2 x v' H. unfold aligned_mmap_anonymous in H.
  destruct (_ || _ || _ || _) in H; [injection H as <- <-; apply calm_refl|].
  destruct (_ <? 0) in H; [injection H as <- <-; apply calm_refl|].
  destruct (_ && _) in H; [injection H as <- <-; apply calm_refl|].
  destruct (_ <? _) in H; [discriminate|].
  destruct (mmap_anon e v _ c) as [(ptr, v1)|] eqn:Em; [|injection H as <- <-; apply calm_refl].
  eapply calm_trans; [eapply calm_anon; exact Em|]. clear Em v.
  match type of H with bind ?y ?k = _ => destruct y as [(((ptr1, pc1), ta1), v2)| |] eqn:E1; cbn [bind] in H; try discriminate H end.
  eapply calm_trans with (v2 := v2).
  { destruct (_ =? 0) in E1; [injection E1 as <- <- <- <-; apply calm_refl|]. cbv zeta in E1.
    destruct (negb _) in E1; [discriminate|]. destruct (negb t1); [discriminate|]. injection E1 as <- <- <- <-. apply calm_munmap. }
  clear E1 v1. destruct (pc1 <? _) in H; [discriminate|].
  match type of H with bind ?y ?k = _ => destruct y as [(ta2, v3)| |] eqn:E2; cbn [bind] in H; try discriminate H end.
  eapply calm_trans with (v2 := v3).
  { destruct (_ <? pc1) in E2; [|injection E2 as <- <-; apply calm_refl]. cbv zeta in E2.
    destruct (negb t2); [discriminate|]. injection E2 as <- <-. apply calm_munmap. }
  destruct (negb _) in H; [discriminate|]. destruct (negb _) in H; [discriminate|]. injection H as _ <-. apply calm_refl.
Qed.
Lemma calm_run_init : forall P an b l v v', run_init e P an b l v = Some v' -> calm v v'.
Proof.
  intros P an b l. induction l as [|i l IH]; intros v v' H; cbn [run_init] in H.
  - injection H as <-. apply calm_refl.
  - destruct (an_init an i) as [ws|]; [|discriminate]. eapply calm_trans; [|eapply IH; eauto]. apply calm_store.
Qed.
Lemma calm_range_destroy : forall an r acc v ok r' v', range_destroy e an r acc v = Ok (ok, r', v') -> calm v v'.
Proof.
  intros an r acc v ok r' v' H. unfold range_destroy in H. destruct (destroy_alloc_bitmap e r) as [r1| |]; cbn [bind] in H; try discriminate.
  destruct (if acc then _ else _) as (a, len). destruct (an_munmap an a); injection H as <- <- <-; [apply calm_munmap|apply calm_refl].
Qed.
Lemma calm_destroy_ranges : forall P an acc l v x v', destroy_ranges e P an acc l v = Ok (x, v') -> calm v v'.
Proof.
  intros P an acc l. induction l as [|r l IH]; intros v x v' H; cbn [destroy_ranges] in H.
  - injection H as <- <-. apply calm_refl.
  - destruct (range_destroy e an r acc v) as [((ok, r1), v1)| |] eqn:E; cbn [bind] in H; try discriminate.
    apply calm_range_destroy in E. destruct ok.
    + eapply calm_trans; eauto.
    + injection H as <- <-. exact E.
Qed.
Lemma calm_destroy : forall P an v x y v', mempool_destroy e P an v = Ok (x, y, v') -> calm v v'.
Proof.
  intros P an v x y v' H. unfold mempool_destroy in H.
  destruct (pool_mappings_accessible e P v) as [acc| |]; cbn [bind] in H; try discriminate.
  destruct (check_free_list e P v acc) as [[]| |]; cbn [bind] in H; try discriminate.
  destruct (check_pool_poison e P v acc) as [[]| |]; cbn [bind] in H; try discriminate.
  destruct (destroy_ranges e P an acc (range_list P) v) as [(x1, v1)| |] eqn:E; cbn [bind] in H; try discriminate.
  injection H as <- <- <-. eapply calm_destroy_ranges; eauto.
Qed.

Lemma calm_for_cpus : forall (f : Z -> vm -> res vm), (forall i v v', f i v = Ok v' -> calm v v') ->
  forall l v v', for_cpus l f v = Ok v' -> calm v v'.
Proof.
  intros f Hf l. induction l as [|i l IH]; intros v v' H; cbn [for_cpus] in H; [injection H as <-; apply calm_refl|].
  destruct (f i v) as [v1| |] eqn:E; cbn [bind] in H; try discriminate H. eapply calm_trans; [eapply Hf; exact E|eapply IH; exact H].
Qed.
Ltac calm_item := match goal with
  | H : bind ?y _ = Ok _ |- _ => let v1 := fresh "v1" in let E := fresh "E" in
    destruct y as [v1| |] eqn:E; cbn [bind] in H; try discriminate H;
    eapply calm_trans with (v2 := v1);
    [destruct (range_init_ptr _ _ _) in E; [destruct (accessible _ _ _ _) in E; [|discriminate E]|];
       injection E as <-; [apply calm_store|apply calm_refl]
    |eapply calm_for_cpus; [|exact H]; let i := fresh in let w := fresh in let w' := fresh in let K := fresh "K" in intros i w w' K; cbv beta zeta in K;
       destruct (negb _) in K; [discriminate K|];
       match type of K with (if ?b then _ else _) = _ => destruct b end; injection K as <-; [apply calm_refl|apply calm_store]]
  end.
Lemma calm_fill : forall P r off c v v', fill_item e P r off c v = Ok v' -> calm v v'.
Proof.
  intros P r off c v v' H. destruct c as [| |bs]; cbn [fill_item] in H.
  - injection H as <-. apply calm_refl.
  - unfold zero_item in H. calm_item.
  - unfold init_item in H. cbv zeta in H. calm_item.
Qed.
Lemma calm_poison : forall P r off v v', poison_item e P r off v = Ok v' -> calm v v'.
Proof. intros P r off v v' H. unfold poison_item in H. cbv zeta in H. calm_item. Qed.
Lemma calm_free : forall P r ptr s v P' v', free_in e P r ptr s v = Ok (P', v') -> calm v v'.
Proof.
  intros P r ptr s v P' v' H. unfold free_in in H. cbv zeta in H.
  destruct (clear_alloc_slot e P r _) as [r1| |]; cbn [bind] in H; try discriminate H.
  match type of H with bind ?y _ = _ => destruct y as [v1| |] eqn:E; cbn [bind] in H; try discriminate H end.
  destruct (negb _) in H; [discriminate H|]. injection H as _ <-. eapply calm_trans with (v2 := v1); [|apply calm_store].
  destruct (poison_set _) in E; [eapply calm_poison; exact E|injection E as <-; apply calm_refl].
Qed.

Lemma range_create_tame : forall P an v ro P' v', geom e P -> vmwf e v -> tame v -> range_create e P an v = Ok (ro, P', v') -> tame v'.
Proof.
  intros P an v ro P' v' HG Hwf HT H. pose proof (g_psz _ _ HG) as Hp0. pose proof (strd_pos _ _ HG) as Hs0.
  pose proof (psz_strd _ _ HG) as Hps. pose proof (psz_le_strd _ _ HG) as Hpls. pose proof (g_cpus _ _ HG) as Hc1.
  pose proof (g_fit _ _ HG) as Hfit. pose proof (nd_bounds P) as HB1. pose proof (na_bounds P) as HB2.
  assert (He : env_ok e) by apply (g_env _ _ HG).
  unfold range_create in H. destruct (negb _ && _) in H.
  { injection H as <- <- <-. exact HT. }
  cbv zeta in H. pose proof (range_len_ok e P HG) as HRL. cbv zeta in HRL. rewrite HRL in H. clear HRL.
  unfold POOL_HEADER_NR_PAGES in H. set (N := strd P * na P) in *.
  destruct (g_stride _ _ HG) as (so & Hso & Hpso & _ & Hstr).
  assert (HL0 : psz <= N) by (unfold N; nia). assert (HLs : (strd P | N)) by (unfold N; apply Z.divide_factor_l).
  pose proof (aligned_mmap_spec e He v N so (2 * psz) (an_mmap an) (an_trim1 an) (an_trim2 an)) as HA.
  rewrite <- Hstr in HA. destruct HA as [(b & hd & v1 & Eq & Hb & Ehd & Hlo & Hhi & HN)|[[Eq Hnone]|[Eq Ht]]]; auto; try lia.
  { apply Z.divide_factor_r. }
  { unfold N. nia. }
  2:{ rewrite Eq in H. cbn [bind] in H. injection H as <- <- <-. exact HT. }
  2:{ rewrite Eq in H. discriminate H. }
  pose proof (calm_tame _ _ (calm_aligned _ _ _ _ _ _ _ _ _ _ Eq) HT) as T1.
  rewrite Eq in H. cbn [bind] in H. clear Eq.
  assert (Db : (psz | b)) by (eapply Z.divide_trans; [exact Hps|exact Hb]).
  assert (Dh : (psz | hd)) by (rewrite Ehd; apply Z.divide_sub_r; auto; apply Z.divide_factor_r).
  assert (DN : (psz | N)) by (eapply Z.divide_trans; [exact Hps|exact HLs]).
  assert (DL : (psz | 2 * psz + N)) by (apply Z.divide_add_r; [apply Z.divide_factor_r|exact DN]).
  rewrite (ue_small e (2 * psz + N)) in H by (unfold N; nia).
  assert (Herr : forall (r : range) w ro P' v', tame w -> (do x <- range_destroy e an r true w; let '(_, _, v0) := x in Ok (@None range, P, v0)) = Ok (ro, P', v') ->
            tame v').
  { intros r w ro1 P1 v1' Tw Hr. destruct (range_destroy e an r true w) as [((ok, r1), w1)| |] eqn:E; cbn [bind] in Hr; try discriminate.
    injection Hr as <- <- <-. eapply calm_tame; [eapply calm_range_destroy; exact E|exact Tw]. }
  assert (Hfin : forall r w ro P' v', tame w ->
    (if robust_set (pattr P) && negb (an_bitmap an)
     then (do x <- range_destroy e an r true w; let '(_, _, v0) := x in Ok (@None range, P, v0))
     else match (if init_set (pattr P)
         then if type (pattr P) =? TYPE_GLOBAL then run_init_global e P an b w else run_init e P an b (cpus P) w
         else Some w) with
      | Some v0 => Ok (Some (if robust_set (pattr P) then set_bitmap r (Some (repeat 0 (Z.to_nat (bitmap_words e P)))) else r),
                       set_nr P (nr_ranges P + 1), v0)
      | None => (do x <- range_destroy e an (if robust_set (pattr P) then set_bitmap r (Some (repeat 0 (Z.to_nat (bitmap_words e P)))) else r) true w;
                let '(_, _, v0) := x in Ok (@None range, P, v0))
      end) = Ok (ro, P', v') -> tame v').
  { intros r w ro1 P1 v1' Tw Hr. destruct (_ && _) in Hr; [eapply Herr; [exact Tw|exact Hr]|].
    destruct (init_set (pattr P)).
    - destruct (type (pattr P) =? TYPE_GLOBAL).
      + unfold run_init_global in Hr. destruct (an_init an (-1)) as [ws|]; [|eapply Herr; [exact Tw|exact Hr]].
        injection Hr as _ _ <-. eapply calm_tame; [apply calm_store|exact Tw].
      + destruct (run_init e P an b (cpus P) w) as [w2|] eqn:Er; [|eapply Herr; [exact Tw|exact Hr]].
        injection Hr as _ _ <-. eapply calm_tame; [eapply calm_run_init; exact Er|exact Tw].
    - injection Hr as _ _ <-. exact Tw. }
  cbn [init] in H. fold (cow_init P) in H. destruct (cow_init P) eqn:Ec; [|eapply Hfin; [exact T1|exact H]].
  assert (End : nd P = ncpus P + 1) by (unfold nd; rewrite Ec; reflexivity).
  assert (Eip : uw (e_wide e) (b + strd P * ncpus P) = b + strd P * ncpus P) by (apply (ue_small e); unfold N in *; nia).
  rewrite Eip in H. set (ip := b + strd P * ncpus P) in *. set (r := {| header := _ |}) in H. clearbody r.
  destruct (negb (an_memfd an)) in H; [eapply Herr; [exact T1|exact H]|].
  destruct (negb (an_map_init an)) in H; [eapply Herr; [exact T1|exact H]|].
  destruct (negb (type (pattr P) =? TYPE_PERCPU)) in H; [discriminate|].
  set (v2 := mmap_shared e v1 ip (strd P)) in *.
  assert (T2 : tame v2) by (eapply calm_tame; [apply calm_shared|exact T1]).
  destruct (negb (forallb (an_map_cpu an) (cpus P))) in H; [eapply Herr; [exact T2|exact H]|].
  destruct HN as [NF NM NL NZ NP ND NW]. set (Sf := in_pages e hd (2 * psz + N)) in *.
  assert (Dip : (psz | ip)) by (unfold ip; apply Z.divide_add_r; auto; apply Z.divide_mul_l; auto).
  assert (HF2 : fresh_in e Sf v v2).
  { apply fi_mmap_shared; auto; unfold ip, N in *; nia. }
  assert (NM2 : forall q, Sf q = true -> mapped v2 q = true) by (intros q Hq; cbn; rewrite NM by auto; apply orb_true_r).
  assert (NL2 : forall q, Sf q = true -> link v2 q = None).
  { intros q Hq. cbn. destruct (in_pages e ip (strd P) q); auto. }
  destruct (map_private_spec e P v hd (2 * psz + N) b ip He HG) with (l := cpus P) (v' := v2)
    as (HF3 & NL3 & NM3 & ND3 & NW3); auto; try (unfold ip, N in *; nia).
  { unfold ip. replace (b + strd P * ncpus P - b) with (strd P * ncpus P) by ring. apply Z.divide_factor_l. }
  { intros i Hi. apply in_zseq in Hi. lia. }
  { intros p q Hlk Hp. fold Sf in Hp. rewrite (NL2 _ Hp) in Hlk. discriminate. }
  fold Sf in HF3, NL3, NM3.   set (v3 := map_private_cpus e P b ip (cpus P) v2) in *.
  assert (ND2 : forall q, Sf q = true -> dontfork v3 q = false).
  { intros q Hq. apply ND3. cbn. rewrite ND by auto. apply andb_false_r. }
  assert (NW2 : forall q, Sf q = true -> wipefork v3 q = false).
  { intros q Hq. apply NW3. cbn. rewrite NW by auto. apply andb_false_r. }
  assert (Hold : forall l w p q, (forall i, In i l -> 0 <= i < ncpus P) -> Sf p = false -> Sf q = false ->
    link (map_private_cpus e P b ip l w) p = link w p /\ dontfork (map_private_cpus e P b ip l w) p = dontfork w p /\
    dontfork (map_private_cpus e P b ip l w) q = dontfork w q /\ wipefork (map_private_cpus e P b ip l w) q = wipefork w q).
  { induction l as [|i l IH]; intros w p q Hl Hp Hq; cbn [map_private_cpus fold_left]; [auto|].
    assert (Hi : 0 <= i < ncpus P) by (apply Hl; left; reflexivity).
    assert (Hout : forall x, Sf x = false -> in_pages e (b + strd P * i) (strd P) x = false).
    { intros x Hx. apply not_true_false. intros K. assert (Dbi : (psz | b + strd P * i)) by (apply Z.divide_add_r; auto; apply Z.divide_mul_l; auto).
      apply in_pages_page in K; auto. assert (Sf x = true); [|congruence]. apply in_pages_page; auto. unfold N in *. nia. }
    destruct (IH (mmap_private e w (b + strd P * i) (strd P) ip) p q) as (A1 & A2 & A3 & A4); auto.
    { intros j Hj. apply Hl. right; exact Hj. }
    unfold map_private_cpus in *. rewrite A1, A2, A3, A4. cbn. rewrite (Hout p Hp), (Hout q Hq). auto. }
  assert (T3 : tame v3).
  { intros p q Hl Hd. pose proof (fi_closed _ _ _ _ HF3 _ _ Hl) as Hcl. destruct (Sf p) eqn:Ep.
    - symmetry in Hcl. split; [apply ND2|apply NW2]; exact Hcl.
    - symmetry in Hcl. destruct (Hold (cpus P) v2 p q) as (A1 & A2 & A3 & A4); auto.
      { intros i Hi. apply in_zseq in Hi. lia. }
      fold v3 in A1, A2, A3, A4. rewrite A1 in Hl. rewrite A2 in Hd. rewrite A3, A4. apply (T2 p q Hl Hd). }
  destruct (negb (an_dontfork an)) in H; [eapply Herr; [exact T3|exact H]|].
  set (v4 := madv_dontfork e v3 b N) in *.
  assert (Hlink4 : forall p q, link v4 p = Some q -> in_pages e b N p = in_pages e b N q /\ in_pages e hd psz q = false).
  { intros p q Hl. change (link v3 p = Some q) in Hl. pose proof (fi_closed _ _ _ _ HF3 _ _ Hl) as Hcl. destruct (Sf p) eqn:Ep.
    - destruct (NL3 _ _ Hl Ep) as (K1 & K2 & _). split.
      + transitivity true; [|symmetry]; apply in_pages_page; auto; unfold ip, N in *; nia.
      + apply not_true_false. intros K. apply in_pages_page in K; auto; [|apply Z.divide_refl]. unfold ip in *. nia.
    - symmetry in Hcl. assert (Hnot : forall x, Sf x = false -> in_pages e b N x = false /\ in_pages e hd psz x = false).
      { intros x Hx. split; apply not_true_false; intros K; apply in_pages_page in K; auto using Z.divide_refl;
          (assert (Sf x = true); [|congruence]); apply in_pages_page; auto; nia. }
      destruct (Hnot p Ep) as [-> _]. destruct (Hnot q Hcl) as [-> ->]. auto. }
  assert (T4 : tame v4).
  { intros p q Hl Hd. destruct (Hlink4 p q Hl) as [E1 _]. cbn [v4 madv_dontfork dontfork wipefork] in *. apply orb_false_elim in Hd. destruct Hd as [Hd1 Hd2].
    rewrite <- E1, Hd1. cbn [orb]. exact (T3 p q Hl Hd2). }
  assert (T5 : tame (store e v4 [(hd, 1)])) by (eapply calm_tame; [apply calm_store|exact T4]).
  destruct (negb (an_wipe an)) in H; [eapply Herr; [exact T5|exact H]|].
  eapply Hfin; [|exact H]. intros p q Hl Hd. change (link (store e v4 [(hd, 1)]) p = Some q) in Hl. change (dontfork (store e v4 [(hd, 1)]) p = false) in Hd.
  destruct (T5 p q Hl Hd) as [B1 B2]. change (dontfork (store e v4 [(hd, 1)]) q = false /\ in_pages e hd psz q || wipefork (store e v4 [(hd, 1)]) q = false).
  apply store_link in Hl. destruct Hl as [Hl _]. destruct (Hlink4 p q Hl) as [_ ->]. rewrite B2. auto.
Qed.

Lemma create_tame : forall named len at_ an v m v', 0 <= len < wmax e -> attr_ok e (attr_of at_) -> fits e (attr_of at_) ->
  env_ok e -> 0 <= e_ncpus e -> vmwf e v -> tame v ->
  mempool_create e named len at_ an v = Ok (m, v') -> tame v'.
Proof.
  intros named len at_ an v m v' Hlen Ha Hfit He Hn Hwf HT H. unfold mempool_create in H.
  destruct (complete_attr_spec e len at_ Hlen Ha) as [(o & Hacc & E)|[[Hno E]|[Hbig E]]]; rewrite E in H; cbn [bind] in H.
  2:{ injection H as <- <-. exact HT. }
  2:{ discriminate. }
  destruct (an_calloc an) eqn:Ec; cbn [negb] in H.
  2:{ injection H as <- <-. exact HT. }
  set (P := {| range_list := []; nr_ranges := 0; item_len := 2 ^ o; item_order := o; free_list_head := 0; pattr := completed e (attr_of at_) |}) in *.
  assert (HG : geom e P) by (eapply accepted_geom; eauto).
  destruct (range_create e P an v) as [((ro, P2), v2)| |] eqn:E2; cbn [bind] in H; try discriminate.
  pose proof (range_create_tame P an v ro P2 v2 HG Hwf HT E2) as K1.
  destruct ro as [r|].
  - destruct (named && negb (an_strdup an)).
    + destruct (mempool_destroy e _ an v2) as [((x1, y1), v3)| |] eqn:Ed; cbn [bind] in H; try discriminate. injection H as <- <-.
      eapply calm_tame; [eapply calm_destroy; exact Ed|exact K1].
    + injection H as <- <-. exact K1.
  - destruct (mempool_destroy e P2 an v2) as [((x1, y1), v3)| |] eqn:Ed; cbn [bind] in H; try discriminate. injection H as <- <-.
    eapply calm_tame; [eapply calm_destroy; exact Ed|exact K1].
Qed.
Lemma malloc_tame : forall P an v found P' v', geom e P -> vmwf e v -> tame v -> malloc_locked e P an v = Ok (found, P', v') -> tame v'.
Proof.
  intros P an v found P' v' HG Hwf HT H. unfold malloc_locked in H.
  match type of H with bind ?y ?k = _ => destruct y as [((f1, P1), v1)| |] eqn:E1; cbn [bind] in H; try discriminate H end.
  assert (Hfin : v' = v1).
  { destruct f1 as [((r, off), addr)|]; [|injection H as _ _ <-; reflexivity].
    destruct (set_alloc_slot e P1 r off) as [r'| |] eqn:Es; cbn [bind] in H; try discriminate. injection H as _ _ <-. reflexivity. }
  subst v1. clear H. cbv zeta in E1. destruct (negb _) in E1.
  - destruct (find_range _ _) in E1; [|discriminate]. destruct (negb _) in E1; [discriminate|].
    destruct (check_poison_item _ _ _ _ _) as [[]| |] in E1; cbn [bind] in E1; try discriminate. injection E1 as _ _ <-. exact HT.
  - destruct (if _ : bool then _ else _) as [((b, P2), v2)| |] eqn:E2 in E1; cbn [bind] in E1; try discriminate.
    assert (Hrl : v' = v2).
    { destruct b; [|injection E1 as _ _ <-; reflexivity]. destruct (range_list P2) as [|r2 l] eqn:El in E1; [discriminate|].
      injection E1 as _ _ <-. reflexivity. }
    subst v2. clear E1. match type of E2 with (if ?c then _ else _) = _ => destruct c end; [injection E2 as _ _ <-; exact HT|].
    destruct (range_create e P an v) as [((ro, P3), v3)| |] eqn:E3; cbn [bind] in E2; try discriminate.
    pose proof (range_create_tame P an v ro P3 v3 HG Hwf HT E3) as K1. destruct ro as [r0|]; injection E2 as _ _ <-; exact K1.
Qed.

Lemma tame_fork : forall v, tame v -> tame (fork e v).
Proof.
  intros v H p q Hl Hd. cbn [fork link dontfork wipefork] in *. rewrite Hd in Hl. exact (H p q Hl Hd).
Qed.
Lemma hist_tame : forall s v0 w L F, ordinary v0 -> history e s v0 w L F -> tame (w_vm w).
Proof.
  intros s v0 w L F H0 (Hm & Hs & Hr). induction Hr as [|w L F o w' x Hr IH Hok Hrun|w L F Hr IH Hpl|w L F v' Hr IH Hra].
  - intros p q Hl. cbn in Hl. destruct (H0 p) as [K _]. rewrite K in Hl. discriminate Hl.
  - assert (HH : history e s v0 w L F) by (split; [auto|split; auto]). pose proof (hist_inv e _ _ _ _ _ HH) as HW. pose proof (wi_wf _ _ _ _ _ _ HW) as Hwf.
    destruct o as [id named len at_ an|id an|id item c|ptr st|ps|id an]; cbn [run1] in Hrun.
    + destruct Hok as (_ & Hlen & Hat & Hfit). destruct (mempool_create e named len at_ an (w_vm w)) as [[m v1]| |] eqn:E; cbn [bind] in Hrun; try discriminate Hrun.
      pose proof (create_tame named len at_ an (w_vm w) m v1 Hlen Hat Hfit (hist_env _ _ _ _ _ _ HH) (hist_cp _ _ _ _ _ _ HH) Hwf IH E) as K.
      destruct m; injection Hrun as <- _; exact K.
    + destruct Hok as (P & Hl). rewrite Hl in Hrun. destruct (malloc_locked e P an (w_vm w)) as [[[f P1] v1]| |] eqn:E; cbn [bind] in Hrun; try discriminate Hrun.
      pose proof (wi_pools _ _ _ _ _ _ HW _ _ (lookup_in _ _ _ Hl)) as HI.
      pose proof (malloc_tame P an (w_vm w) f P1 v1 (pi_geom _ _ _ _ _ HI) Hwf IH E) as K.
      destruct f as [[[r off] a]|]; injection Hrun as <- _; exact K.
    + destruct Hok as (P & Hl & _). rewrite Hl in Hrun. destruct (find_range _ _) as [r|]; [|discriminate Hrun].
      destruct (fill_item e P r (item - base r) c (w_vm w)) as [v1| |] eqn:E; cbn [bind] in Hrun; try discriminate Hrun. injection Hrun as <- _.
      eapply calm_tame; [eapply calm_fill; exact E|exact IH].
    + destruct (find_owner _ _) as [[[id P] r]|]; [|discriminate Hrun].
      destruct (free_in e P r ptr st (w_vm w)) as [[P1 v1]| |] eqn:E; cbn [bind] in Hrun; try discriminate Hrun. injection Hrun as <- _.
      eapply calm_tame; [eapply calm_free; exact E|exact IH].
    + destruct (forallb _ ps); [|discriminate Hrun]. injection Hrun as <- _. eapply calm_tame; [apply calm_store|exact IH].
    + destruct Hok as (P & Hl). rewrite Hl in Hrun. destruct (mempool_destroy e P an (w_vm w)) as [[[ret Po] v1]| |] eqn:E; cbn [bind] in Hrun; try discriminate Hrun.
      injection Hrun as <- _. eapply calm_tame; [eapply calm_destroy; exact E|exact IH].
  - cbn [child w_vm]. now apply tame_fork.
  - intros p q Hl Hd. cbn [w_vm] in *. destruct (ra_link _ _ _ _ Hra _ _ Hl) as (Hl' & E1 & E2 & E3). rewrite E1 in Hd. rewrite E2, E3. exact (IH p q Hl' Hd).
Qed.
Lemma hist_flags : forall s v0 w L F, ordinary v0 -> history e s v0 w L F ->
  forall a, mapped v0 (page a) = true -> dontfork (w_vm w) (page a) = false /\ wipefork (w_vm w) (page a) = false.
Proof.
  intros s v0 w L F H0 (Hm & Hs & Hr). induction Hr as [|w L F o w' x Hr IH Hok Hrun|w L F Hr IH Hpl|w L F v' Hr IH Hra]; intros a Ha; [apply H0| | |].
  3:{ pose proof (ra_same _ _ _ _ Hra a (or_introl Ha)) as Hs'. cbn [w_vm]. rewrite (sa_dontfork _ _ _ _ Hs'), (sa_wipefork _ _ _ _ Hs'). exact (IH a Ha). }
  2:{ exact (IH a Ha). }
  assert (HH : history e s v0 w L F) by (split; [auto|split; auto]). destruct (IH a Ha) as [I1 I2].
  destruct (is_store o) eqn:Es.
  - destruct o as [| | | |ps|]; try discriminate Es. cbn [run1] in Hrun. destruct (forallb _ ps); [|discriminate Hrun]. injection Hrun as <- <-.
    cbn [w_vm]. rewrite store_dontfork, store_wipefork. auto.
  - pose proof (own_frame e s v0 w L F HH o w' x Hok Hrun Es) as Hfr.
    rewrite (fr_dontfork _ _ _ _ Hfr), (fr_wipefork _ _ _ _ Hfr) by exact Ha. auto.
Qed.
Lemma hist_forks : forall s v0 w L F, ordinary v0 -> history e s v0 w L F -> plain_fork e v0 w.
Proof. intros s v0 w L F H0 HH. split; [exact (hist_flags s v0 w L F H0 HH)|exact (hist_tame s v0 w L F H0 HH)]. Qed.
End Tame.
