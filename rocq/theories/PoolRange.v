(** Creation and destruction of a range. *)
From Coq Require Import ZArith Bool List Lia Znumtheory.
From Verif Require Import UtilsModel UtilsLemmas RseqIR MemLemmas PoolVM PoolVMLemmas PoolModel PoolInv PoolItem PoolMap.
Import ListNotations.
Local Open Scope Z_scope.

Section Range.
Variable e : env.
Notation psz := (e_page e).
Notation page := (PoolVM.page e).
Notation geom := (geom e).

(** The system, or the user's callback, refuses. *)
Definition sys_refuses (P : pool) (an : answers) (v : vm) : Prop :=
  mmap_anon e v (2 * psz + strd P * na P + strd P - psz) (an_mmap an) = None \/
  an_memfd an = false \/ an_map_init an = false \/ (exists cpu, 0 <= cpu < ncpus P /\ an_map_cpu an cpu = false) \/
  an_dontfork an = false \/ an_wipe an = false \/ an_bitmap an = false \/
  (exists cpu, -1 <= cpu < ncpus P /\ an_init an cpu = None).

Definition blank_bitmap (P : pool) (r : range) : Prop :=
  forall o, slot_bit e P r o = false.

(** Links and data after the private mappings. *)
Lemma map_private_spec : forall P v h len b f, env_ok e -> geom P ->
  (psz | h) -> (psz | len) -> (psz | b) -> (psz | f) -> (strd P | f - b) -> h <= b -> b + strd P * ncpus P <= f -> f + strd P <= h + len ->
  forall l v', (forall i, In i l -> 0 <= i < ncpus P) ->
  fresh_in e (in_pages e h len) v v' ->
  (forall p q, link v' p = Some q -> in_pages e h len p = true ->
     b <= p * psz < b + strd P * ncpus P /\ f <= q * psz < f + strd P /\ (strd P | (q - p) * psz)) ->
  (forall q, in_pages e h len q = true -> mapped v' q = true) ->
  let v2 := map_private_cpus e P b f l v' in
  fresh_in e (in_pages e h len) v v2 /\
  (forall p q, link v2 p = Some q -> in_pages e h len p = true ->
     b <= p * psz < b + strd P * ncpus P /\ f <= q * psz < f + strd P /\ (strd P | (q - p) * psz)) /\
  (forall q, in_pages e h len q = true -> mapped v2 q = true) /\
  (forall q, dontfork v' q = false -> dontfork v2 q = false) /\
  (forall q, wipefork v' q = false -> wipefork v2 q = false).
Proof.
  intros P v h len b f He HG Dh Dl Db Df Dfb H1 H2 H3 l.
  pose proof (g_psz _ _ HG) as Hp0. pose proof (strd_pos _ _ HG) as Hs0. pose proof (psz_strd _ _ HG) as Hps.
  induction l as [|i l IH]; intros v' Hl HF HL HM; cbn [map_private_cpus fold_left].
  - auto.
  - assert (Hi : 0 <= i < ncpus P) by (apply Hl; now left).
    assert (Dbi : (psz | b + strd P * i)) by (apply Z.divide_add_r; auto; apply Z.divide_mul_l; auto).
    assert (HF1 : fresh_in e (in_pages e h len) v (mmap_private e v' (b + strd P * i) (strd P) f)).
    { apply fi_mmap_private; auto; try nia.
      - intros p q Hlk Hp. destruct (HL _ _ Hlk Hp) as (_ & Hq & _).
        apply in_pages_page; auto.
      - intros q Hq. apply in_pages_page in Hq; auto. 
        assert (Hin : in_pages e h len q = true) by (apply in_pages_page; auto; nia).
        split; [auto|]. destruct (link v' q) as [q'|] eqn:El; auto. exfalso.
        destruct (HL _ _ El Hin) as (Hq' & _). nia. }
    destruct (IH (mmap_private e v' (b + strd P * i) (strd P) f)) as (A & B & C & D & E); auto.
    { intros j Hj. apply Hl. now right. }
    { intros p q Hlk Hp. cbn in Hlk. destruct (in_pages e (b + strd P * i) (strd P) p) eqn:Ep; [|auto].
      injection Hlk as <-. apply in_pages_page in Ep; auto. destruct Db as [kb ->], Df as [kf ->].
      destruct Hps as [ks Hks].
      replace (page (kf * psz)) with kf by (symmetry; now apply page_mul).
      replace (page (kb * psz + strd P * i)) with (kb + ks * i).
      2:{ rewrite Hks. replace (kb * psz + ks * psz * i) with ((kb + ks * i) * psz) by ring. symmetry. now apply page_mul. }
      split; [nia|]. split; [nia|].
      replace ((kf + (p - (kb + ks * i)) - p) * psz) with ((kf * psz - kb * psz) - ks * psz * i) by ring.
      rewrite <- Hks. apply Z.divide_sub_r; auto. apply Z.divide_factor_l. }
    { intros q Hq. cbn. rewrite HM by auto. apply orb_true_r. }
    split; [exact A|]. split; [exact B|]. split; [exact C|]. split; intros q Hq.
    + apply D. cbn. rewrite Hq. apply andb_false_r.
    + apply E. cbn. rewrite Hq. apply andb_false_r.
Qed.

Lemma range_len_ok : forall P, geom P ->
  let at_ := pattr P in
  let range_len := uw (e_wide e) (stride at_ * max_nr_cpus at_) in
  let range_len := if populate_policy at_ =? COW_INIT then uw (e_wide e) (range_len + stride at_) else range_len in
  let range_len := if robust_set at_ then uw (e_wide e) (range_len + stride at_) else range_len in
  range_len = strd P * na P.
Proof.
  intros P HG. cbv zeta. pose proof (g_fit _ _ HG) as Hf. pose proof (strd_pos _ _ HG). pose proof (g_cpus _ _ HG).
  unfold na, nd, cow_init. rewrite (ue_small e (strd P * ncpus P)) by nia.
  destruct (populate_policy (pattr P) =? COW_INIT), (robust_set (pattr P));
    rewrite ?(ue_small e (strd P * ncpus P + strd P)) by nia;
    rewrite ?(ue_small e (strd P * ncpus P + strd P + strd P)) by nia; ring.
Qed.

Lemma destroy_blank : forall r, alloc_bitmap r = None \/ (exists n, alloc_bitmap r = Some (repeat 0 n)) ->
  exists r', destroy_alloc_bitmap e r = Ok r' /\ mmap_addr r' = mmap_addr r /\ mmap_len r' = mmap_len r.
Proof.
  intros r [H|[n H]]; unfold destroy_alloc_bitmap; rewrite H; [eauto|].
  assert (fold_right (fun w a => rseq_hweight_ulong (e_wide e) w + a) 0 (repeat 0 n) = 0) as ->.
  { clear H. induction n as [|n IH]; cbn [repeat fold_right]; auto. rewrite IH. destruct (e_wide e); reflexivity. }
  rewrite Z.eqb_refl. eexists. split; [reflexivity|]. auto.
Qed.

Lemma slot_bit_blank : forall P r n, alloc_bitmap r = Some (repeat 0 n) -> blank_bitmap P r.
Proof.
  intros P r n H o. unfold slot_bit. rewrite H. 
  assert (nth (Z.to_nat (slot_word e P o)) (repeat 0 n) 0 = 0) as ->; [|apply Z.bits_0].
  generalize (Z.to_nat (slot_word e P o)). intros k. destruct (Nat.lt_ge_cases k n).
  - apply (repeat_spec n 0). apply nth_In. now rewrite repeat_length.
  - apply nth_overflow. now rewrite repeat_length.
Qed.

(** Outcome of range_create. *)
Definition created (P : pool) (an : answers) (v : vm) (ro : option range) (P' : pool) (v' : vm) : Prop :=
  vmwf e v' /\ vframe e (fun a => mapped v (page a) = true) v v' /\
  match ro with
  | None => P' = P /\ (max_nr_ranges (pattr P) <> 0 /\ max_nr_ranges (pattr P) <= nr_ranges P \/ sys_refuses P an v)
  | Some r => P' = set_nr P (nr_ranges P + 1) /\
      (max_nr_ranges (pattr P) = 0 \/ nr_ranges P < max_nr_ranges (pattr P)) /\
      rinv e P v' r /\ next_unused r = 0 /\ blank_bitmap P r /\
      (forall a, region r a -> mapped v (page a) = false)
  end.

Lemma run_init_spec : forall P an b S v, geom P -> forall l v', (forall i, In i l -> 0 <= i < ncpus P) ->
  (forall x, b <= x < b + strd P * ncpus P -> S (page x) = true) ->
  fresh_in e S v v' ->
  match run_init e P an b l v' with
  | None => exists cpu, In cpu l /\ an_init an cpu = None
  | Some v2 => fresh_in e S v v2 /\ exists ps, v2 = store e v' ps /\ forall x, In x (map fst ps) -> b <= x < b + strd P * ncpus P
  end.
Proof.
  intros P an b S v HG l. pose proof (strd_pos _ _ HG) as Hs0. pose proof (g_psz _ _ HG) as Hp0.
  assert (He : env_ok e) by apply (g_env _ _ HG).
  induction l as [|i l IH]; intros v' Hl HS HF; cbn [run_init].
  - split; auto. exists []. split; auto. intros x [].
  - destruct (an_init an i) as [ws|] eqn:Ei; [|exists i; split; [now left|auto]].
    set (ps := map _ _).
    assert (Hps : forall x, In x (map fst ps) -> b <= x < b + strd P * ncpus P).
    { intros x Hx. unfold ps in Hx. rewrite map_map in Hx. apply in_map_iff in Hx. destruct Hx as ([o c] & <- & Hin).
      apply filter_In in Hin. destruct Hin as [_ Hb]. cbn in *. assert (0 <= i < ncpus P) by (apply Hl; now left).
      apply andb_prop in Hb. destruct Hb as [Hb1 Hb2]. apply Z.leb_le in Hb1. apply Z.ltb_lt in Hb2. nia. }
    specialize (IH (store e v' ps)).
    destruct (run_init e P an b l (store e v' ps)) as [v2|].
    + destruct IH as (A & qs & -> & Hqs); auto.
      { intros j Hj. apply Hl. now right. }
      { apply fi_store; auto. }
      split; auto. exists (ps ++ qs). rewrite store_app. split; auto.
      intros x Hx. rewrite map_app in Hx. apply in_app_or in Hx. destruct Hx; auto.
    + destruct IH as (c & Hc & Hn); auto.
      { intros j Hj. apply Hl. now right. }
      { apply fi_store; auto. }
      exists c. split; auto. now right.
Qed.

Lemma range_create_spec : forall P an v, geom P -> vmwf e v ->
  (exists ro P' v', range_create e P an v = Ok (ro, P', v') /\ created P an v ro P' v') \/
  (range_create e P an v = Abort /\ (an_trim1 an = false \/ an_trim2 an = false)).
Proof.
  intros P an v HG Hwf. assert (He : env_ok e) by apply (g_env _ _ HG).
  pose proof (g_psz _ _ HG) as Hp0. pose proof (strd_pos _ _ HG) as Hs0. pose proof (psz_strd _ _ HG) as Hps.
  pose proof (psz_le_strd _ _ HG) as Hpls. pose proof (g_cpus _ _ HG) as Hc1. pose proof (g_fit _ _ HG) as Hfit.
  pose proof (nd_bounds P) as HB1. pose proof (na_bounds P) as HB2.
  unfold range_create.
  destruct (negb (max_nr_ranges (pattr P) =? 0) && (max_nr_ranges (pattr P) <=? nr_ranges P)) eqn:Emax.
  { left. exists None, P, v. split; [reflexivity|]. split; auto. split; [apply vframe_refl|]. split; auto. left.
    apply andb_prop in Emax. destruct Emax as [E1 E2]. apply negb_true_iff, Z.eqb_neq in E1. apply Z.leb_le in E2. auto. }
  assert (Hroom : max_nr_ranges (pattr P) = 0 \/ nr_ranges P < max_nr_ranges (pattr P)).
  { apply andb_false_iff in Emax. rewrite negb_false_iff, Z.eqb_eq, Z.leb_gt in Emax. auto. }
  clear Emax. cbv zeta. pose proof (range_len_ok P HG) as HRL. cbv zeta in HRL. rewrite HRL. clear HRL.
  unfold POOL_HEADER_NR_PAGES.
  set (L := strd P * na P).
  destruct (g_stride _ _ HG) as (so & Hso & Hpso & _ & Hstr).
  assert (HL0 : psz <= L) by (unfold L; nia).
  assert (HLs : (strd P | L)) by (unfold L; apply Z.divide_factor_l).
  destruct (aligned_mmap_spec e He v L so (2 * psz) (an_mmap an) (an_trim1 an) (an_trim2 an)) as
    [(b & hd & v1 & Eq & Hb & -> & Hlo & Hhi & HN)|[[Eq Hnone]|[Eq Ht]]]; auto; try lia.
  { rewrite <- Hstr. exact HLs. }
  { apply Z.divide_factor_r. }
  { rewrite <- Hstr. unfold L. nia. }
  2:{ rewrite <- Hstr in Eq. rewrite Eq. cbn [bind]. left. exists None, P, v. split; [reflexivity|]. split; auto.
      split; [apply vframe_refl|]. split; auto. right. left. rewrite <- Hstr in Hnone. exact Hnone. }
  2:{ rewrite <- Hstr in Eq. rewrite Eq. cbn [bind]. right. auto. }
  rewrite <- Hstr in Eq, Hb. rewrite Eq. cbn [bind]. clear Eq.
  set (h := b - 2 * psz) in *.
  assert (Db : (psz | b)) by (eapply Z.divide_trans; [exact Hps|exact Hb]).
  assert (Dh : (psz | h)) by (unfold h; apply Z.divide_sub_r; auto; apply Z.divide_factor_r).
  assert (DL : (psz | 2 * psz + L)).
  { apply Z.divide_add_r; [apply Z.divide_factor_r|]. eapply Z.divide_trans; [exact Hps|exact HLs]. }
  set (S := in_pages e h (2 * psz + L)) in *.
  assert (HSin : forall x, h <= x < b + L -> S (page x) = true).
  { intros x Hx. unfold S. apply in_pages_iff; auto. unfold h in *. lia. }
  assert (HSp : forall q, S q = true <-> h <= q * psz < b + L).
  { intros q. unfold S. rewrite in_pages_page by auto. unfold h. split; lia. }
  rewrite (ue_small e (2 * psz + L)) by (unfold L; nia).
  set (r := {| header := h; base := b;
       init := if populate_policy (pattr P) =? COW_INIT then Some (uw (e_wide e) (b + strd P * ncpus P)) else None;
       next_unused := 0; mmap_addr := h; mmap_len := 2 * psz + L; alloc_bitmap := None |}).
  set (err := fun (r : range) (v : vm) => do x <- range_destroy e an r true v; let '(_, _, v0) := x in Ok (@None range, P, v0)).
  (* the error path *)
  assert (Herr : forall r' v', fresh_in e S v v' -> mmap_addr r' = h -> mmap_len r' = 2 * psz + L ->
            (alloc_bitmap r' = None \/ exists n, alloc_bitmap r' = Some (repeat 0 n)) ->
            sys_refuses P an v ->
            exists ro P' v'', err r' v' = Ok (ro, P', v'') /\ created P an v ro P' v'').
  { intros r' v' HF Ha Hl Hbm Href. unfold err, range_destroy.
    destruct (destroy_blank r' Hbm) as (r2 & -> & Ha2 & Hl2). cbn [bind]. rewrite Ha2, Hl2, Ha, Hl.
    destruct (an_munmap an h); cbn [bind].
    - exists None, P, (munmap e v' h (2 * psz + L)). split; [reflexivity|].
      apply fi_munmap in HF; auto. destruct HF. split; auto.
    - exists None, P, v'. split; [reflexivity|]. destruct HF. split; auto. }
  (* the common end *)
  set (fin := fun (r : range) (v : vm) =>
    if robust_set (pattr P) && negb (an_bitmap an) then err r v
    else
      match
        (if init_set (pattr P)
         then if type (pattr P) =? TYPE_GLOBAL then run_init_global e P an b v else run_init e P an b (cpus P) v
         else Some v)
      with
      | Some v0 => Ok (Some (if robust_set (pattr P) then set_bitmap r (Some (repeat 0 (Z.to_nat (bitmap_words e P)))) else r),
                       set_nr P (nr_ranges P + 1), v0)
      | None => err (if robust_set (pattr P) then set_bitmap r (Some (repeat 0 (Z.to_nat (bitmap_words e P)))) else r) v
      end).
  assert (Hinit : init r = if cow_init P then Some (b + strd P * ncpus P) else None).
  { unfold r, cow_init. cbn. destruct (populate_policy (pattr P) =? COW_INIT); auto. f_equal. apply (ue_small e). unfold L in *. nia. }
  assert (Hlo2 : 3 * psz <= b) by (unfold h in Hlo; lia).
  assert (Hreg : forall x, region r x <-> h <= x < b + L) by (intros x; unfold region, r, h; cbn; lia).
  assert (Hfin : forall v', fresh_in e S v v' ->
            (forall q, S q = true -> mapped v' q = true) ->
            (forall p q, link v' p = Some q -> S p = true -> cow_init P = true /\
               b <= p * psz < b + strd P * ncpus P /\
               b + strd P * ncpus P <= q * psz < b + strd P * nd P /\ (strd P | (q - p) * psz)) ->
            (cow_init P = true -> byte (view e v') h = 1) ->
            (forall a, region r a -> dontfork v' (page a) = cow_init P && (b <=? a)) ->
            (forall a, region r a -> wipefork v' (page a) = cow_init P && (a <? b - psz)) ->
            exists ro P' v'', fin r v' = Ok (ro, P', v'') /\ created P an v ro P' v'').
  { intros v' HF HM HLk Hmark Hdf Hwp. unfold fin.
    set (r2 := if robust_set (pattr P) then set_bitmap r (Some (repeat 0 (Z.to_nat (bitmap_words e P)))) else r).
    destruct (robust_set (pattr P) && negb (an_bitmap an)) eqn:Ebm.
    { apply Herr; auto. do 6 right. left. destruct (an_bitmap an); auto. rewrite andb_false_r in Ebm. discriminate. }
    assert (Hr2 : mmap_addr r2 = h /\ mmap_len r2 = 2 * psz + L /\ base r2 = b /\ header r2 = h /\ next_unused r2 = 0 /\ init r2 = init r /\
              (alloc_bitmap r2 = None \/ exists n, alloc_bitmap r2 = Some (repeat 0 n))).
    { unfold r2. destruct (robust_set (pattr P)); repeat split; auto. right. eexists. reflexivity. }
    destruct Hr2 as (A1 & A2 & A3 & A4 & A5 & A6 & A7).
    (* the callback *)
    assert (Hcb : match (if init_set (pattr P)
         then if type (pattr P) =? TYPE_GLOBAL then run_init_global e P an b v' else run_init e P an b (cpus P) v'
         else Some v') with
       | None => exists cpu, -1 <= cpu < ncpus P /\ an_init an cpu = None
       | Some v2 => fresh_in e S v v2 /\ exists ps, v2 = store e v' ps /\ forall x, In x (map fst ps) -> b <= x < b + strd P * ncpus P
       end).
    { destruct (init_set (pattr P)).
      - destruct (type (pattr P) =? TYPE_GLOBAL).
        + unfold run_init_global. destruct (an_init an (-1)) as [ws|] eqn:Ei; [|exists (-1); split; [lia|auto]].
          set (ps := map _ _).
          assert (Hps' : forall x, In x (map fst ps) -> b <= x < b + strd P * ncpus P).
          { intros x Hx. unfold ps in Hx. rewrite map_map in Hx. apply in_map_iff in Hx. destruct Hx as ([o c] & <- & Hin).
            apply filter_In in Hin. destruct Hin as [_ Hb']. cbn in *.
            apply andb_prop in Hb'. destruct Hb' as [Hb1 Hb2]. apply Z.leb_le in Hb1. apply Z.ltb_lt in Hb2. nia. }
          split; [|exists ps; auto]. apply fi_store; auto. intros x Hx. apply Hps' in Hx. apply HSin. unfold h, L. nia.
        + pose proof (run_init_spec P an b S v HG (cpus P) v') as HRI.
          destruct (run_init e P an b (cpus P) v').
          * apply HRI; auto.
            { intros i Hi. apply in_zseq in Hi. lia. }
            { intros x Hx. apply HSin. unfold h, L. nia. }
          * destruct HRI as (c & Hc & Hn); auto.
            { intros i Hi. apply in_zseq in Hi. lia. }
            { intros x Hx. apply HSin. unfold h, L. nia. }
            apply in_zseq in Hc. exists c. split; [lia|auto].
      - split; auto. exists []. split; auto. intros x []. }
    destruct (if init_set (pattr P) then _ else _) as [v2|].
    2:{ apply Herr; auto. do 7 right. exact Hcb. }
    destruct Hcb as (HF2 & ps & -> & Hps').
    exists (Some r2), (set_nr P (nr_ranges P + 1)), (store e v' ps). split; [reflexivity|].
    split; [apply (fi_wf _ _ _ _ HF2)|]. split; [apply (fi_frame _ _ _ _ HF2)|].
    split; auto. split; auto.
    assert (HR : rinv e P v' r2).
    { constructor; rewrite ?A1, ?A2, ?A3, ?A4, ?A5, ?A6; auto.
      - lia.
      - apply Z.divide_0_r.
      - intros a Ha. apply HM. apply HSin. unfold region in Ha. rewrite A1, A2 in Ha. unfold h in *. lia.
      - intros p q Hlk Hpq. rewrite A3. apply HLk; auto.
        assert (HSpq : S p = true \/ S q = true).
        { unfold region in Hpq. rewrite A1, A2 in Hpq. destruct Hpq as [Hpq|Hpq]; [left|right]; apply HSp; unfold h in *; lia. }
        pose proof (fi_closed _ _ _ _ HF _ _ Hlk). destruct HSpq; congruence.
      - unfold r2. destruct (robust_set (pattr P)); [|reflexivity]. eexists. split; [reflexivity|].
        split; [apply repeat_length|].
        split; [apply Forall_forall; intros w Hw; apply repeat_spec in Hw; lia|].
        intros k c _ Ht. exfalso. assert (Hz : nth k (repeat 0 (Z.to_nat (bitmap_words e P))) 0 = 0).
        { destruct (Nat.lt_ge_cases k (Z.to_nat (bitmap_words e P))).
          - eapply repeat_spec. apply nth_In. rewrite repeat_length. eassumption.
          - apply nth_overflow. rewrite repeat_length. auto. }
        rewrite Hz, Z.bits_0 in Ht. discriminate.
      - intros a Ha. apply Hdf. unfold region in *. rewrite A1, A2 in Ha. exact Ha.
      - intros a Ha. apply Hwp. unfold region in *. rewrite A1, A2 in Ha. exact Ha. }
    split.
    { eapply rinv_store; eauto; [apply (fi_wf _ _ _ _ HF)|]. intros x Hx. right. rewrite A3. apply Hps' in Hx. lia. }
    split; auto. split.
    { unfold r2. destruct (robust_set (pattr P)); [eapply slot_bit_blank; reflexivity|intros o; reflexivity]. }
    intros a Ha. apply (fi_fresh _ _ _ _ HF). apply HSin. unfold region in Ha. rewrite A1, A2 in Ha. unfold h in *. lia. }
  destruct HN as [HF NM NL NZ NP ND NW].
  assert (Hmain : exists ro P' v'',
    match init r with
    | Some ip =>
        if negb (an_memfd an) then err r v1
        else if negb (an_map_init an) then err r v1
        else if negb (type (pattr P) =? TYPE_PERCPU) then Abort
        else if negb (forallb (an_map_cpu an) (cpus P)) then err r (mmap_shared e v1 ip (strd P))
        else if negb (an_dontfork an) then err r (map_private_cpus e P b ip (cpus P) (mmap_shared e v1 ip (strd P)))
        else if negb (an_wipe an)
          then err r (store e (madv_dontfork e (map_private_cpus e P b ip (cpus P) (mmap_shared e v1 ip (strd P))) b L) [(h, 1)])
        else fin r (madv_wipefork e (store e (madv_dontfork e (map_private_cpus e P b ip (cpus P) (mmap_shared e v1 ip (strd P))) b L) [(h, 1)]) h psz)
    | None => fin r v1
    end = Ok (ro, P', v'') /\ created P an v ro P' v'').
  { rewrite Hinit. unfold L in *. destruct (cow_init P) eqn:Ecow.
    - assert (Hnd : nd P = ncpus P + 1) by (unfold nd; rewrite Ecow; reflexivity).
      assert (Hty : type (pattr P) = TYPE_PERCPU) by (apply (g_type _ _ HG); unfold cow_init in Ecow; now apply Z.eqb_eq).
      destruct (an_memfd an) eqn:E1; cbn [negb]; [|apply Herr; auto; right; left; auto].
      destruct (an_map_init an) eqn:E2; cbn [negb]; [|apply Herr; auto; right; right; left; auto].
      rewrite Hty. cbn [negb Z.eqb TYPE_PERCPU].
      set (ip := b + strd P * ncpus P).
      assert (Dip : (psz | ip)) by (unfold ip; apply Z.divide_add_r; auto; apply Z.divide_mul_l; auto).
      assert (HF2 : fresh_in e S v (mmap_shared e v1 ip (strd P))).
      { apply fi_mmap_shared; auto; unfold ip, h in *; nia. }
      set (v2 := mmap_shared e v1 ip (strd P)) in *.
      assert (NM2 : forall q, S q = true -> mapped v2 q = true) by (intros q Hq; cbn; rewrite NM by auto; apply orb_true_r).
      assert (NL2 : forall q, S q = true -> link v2 q = None).
      { intros q Hq. cbn. destruct (in_pages e ip (strd P) q); auto. }
      destruct (forallb (an_map_cpu an) (cpus P)) eqn:E3; cbn [negb].
      2:{ apply Herr; auto. right. right. right. left.
          assert (exists c, In c (cpus P) /\ an_map_cpu an c = false) as (c & Hc & Hn).
          { clear -E3. induction (cpus P) as [|c l IH]; cbn in E3; [discriminate|].
            apply andb_false_iff in E3. destruct E3 as [E3|E3]; [exists c; split; [now left|auto]|].
            destruct (IH E3) as (c' & Hc' & Hn). exists c'. split; [now right|auto]. }
          apply in_zseq in Hc. exists c. split; [lia|auto]. }
      destruct (map_private_spec P v h (2 * psz + strd P * na P) b ip He HG) with (l := cpus P) (v' := v2)
        as (HF3 & NL3 & NM3 & ND3 & NW3); auto; try (unfold ip, h; nia).
      { unfold ip. replace (b + strd P * ncpus P - b) with (strd P * ncpus P) by ring. apply Z.divide_factor_l. }
      { intros i Hi. apply in_zseq in Hi. lia. }
      { intros p q Hlk Hp. rewrite (NL2 _ Hp) in Hlk. discriminate. }
      set (v3 := map_private_cpus e P b ip (cpus P) v2) in *. fold S in HF3, NM3, NL3.
      assert (ND2 : forall q, S q = true -> dontfork v3 q = false).
      { intros q Hq. apply ND3. cbn. rewrite ND by auto. apply andb_false_r. }
      assert (NW2 : forall q, S q = true -> wipefork v3 q = false).
      { intros q Hq. apply NW3. cbn. rewrite NW by auto. apply andb_false_r. }
      destruct (an_dontfork an) eqn:E4; cbn [negb]; [|apply Herr; auto; do 4 right; left; auto].
      assert (DL2 : (psz | strd P * na P)) by (apply Z.divide_mul_l; auto).
      assert (HF4 : fresh_in e S v (madv_dontfork e v3 b (strd P * na P))).
      { apply fi_madv_dontfork; auto; unfold h; lia. }
      set (v4 := madv_dontfork e v3 b (strd P * na P)) in *.
      assert (HF5 : fresh_in e S v (store e v4 [(h, 1)])).
      { apply fi_store; auto. intros x [<-|[]]. cbn [fst]. apply HSin. unfold h. nia. }
      destruct (an_wipe an) eqn:E5; cbn [negb]; [|apply Herr; auto; do 5 right; left; auto].
      assert (HF6 : fresh_in e S v (madv_wipefork e (store e v4 [(h, 1)]) h psz)).
      { apply fi_madv_wipefork; auto; try (unfold h; nia). apply Z.divide_refl. }
      apply Hfin; auto.
      + intros p q Hlk Hp. change (link (store e v4 [(h, 1)]) p = Some q) in Hlk. apply store_link in Hlk. destruct Hlk as [Hlk _].
        change (link v3 p = Some q) in Hlk. destruct (NL3 _ _ Hlk Hp) as (B1 & B2 & B3).
        rewrite Hnd. unfold ip in B2. split; auto. split; auto. split; [nia|auto].
      + intros _. unfold byte.
        change (view e (madv_wipefork e (store e v4 [(h, 1)]) h psz) h) with (view e (store e v4 [(h, 1)]) h).
        rewrite (view_store_val e Hp0 _ _ h 1); auto.
        * apply (fi_wf _ _ _ _ HF4).
        * intros x c c' [H|[]] [H'|[]]. congruence.
        * now left.
      + intros a Ha. apply Hreg in Ha. change (dontfork (store e v4 [(h, 1)]) (page a) = true && (b <=? a)). rewrite store_dontfork.
        change (in_pages e b (strd P * na P) (page a) || dontfork v3 (page a) = true && (b <=? a)).
        rewrite ND2 by (apply HSin; auto). rewrite orb_false_r. cbn [andb].
        destruct (b <=? a) eqn:Eb.
        * apply in_pages_iff; auto. lia.
        * apply (not_true_false). intros Hin. apply in_pages_iff in Hin; auto. lia.
      + intros a Ha. apply Hreg in Ha. change (in_pages e h psz (page a) || wipefork (store e v4 [(h, 1)]) (page a) = true && (a <? b - psz)). rewrite store_wipefork.
        change (wipefork v4 (page a)) with (wipefork v3 (page a)).
        rewrite NW2 by (apply HSin; auto). rewrite orb_false_r. cbn [andb].
        destruct (a <? b - psz) eqn:Eb.
        * apply in_pages_iff; auto; [apply Z.divide_refl|]. unfold h in *. lia.
        * apply (not_true_false). intros Hin. apply in_pages_iff in Hin; auto; [|apply Z.divide_refl]. unfold h in *. lia.
    - apply Hfin; auto.
      + intros p q Hlk Hp. rewrite (NL _ Hp) in Hlk. discriminate.
      + discriminate.
      + intros a Ha. apply Hreg in Ha. rewrite ND by (apply HSin; auto). reflexivity.
      + intros a Ha. apply Hreg in Ha. rewrite NW by (apply HSin; auto). reflexivity. }
  left. exact Hmain.
Qed.
End Range.
