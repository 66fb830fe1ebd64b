(** C71. *)
From Coq Require Import ZArith Znumtheory Bool List Lia.
From Verif Require Import MapModel MapSpec.
Import ListNotations.
Local Open Scope Z_scope.

(** ** A program that only concerns itself with memory it has *)
Section Safe.
Variable ps : Z.
Hypothesis Hps : exists j, 0 <= j /\ ps = 2 ^ j.

Lemma ps_pos : 0 < ps.
Proof. destruct Hps as (j & Hj & ->). apply Z.pow_pos_nonneg; lia. Qed.

Definition covered (O : Z -> Prop) (a n : Z) : Prop := 0 < n /\ forall x, a <= x < a + n -> O x.
(** [bad]: a munmap was refused. *)
Definition fin (R : outcome -> (Z -> Prop) -> Prop) (bad : bool) (r : outcome) (O : Z -> Prop) : Prop :=
  match r with
  | NoRange => bad = true \/ forall x, ~ O x
  | Made h b l => (forall x, O x <-> h <= x < h + l) /\ b = h + 2 * ps /\ (ps | h) /\ (ps | l) /\ 2 * ps < l /\ R r O
  | Aborted => True
  end.
Fixpoint safe (R : outcome -> (Z -> Prop) -> Prop) (bad : bool) (O : Z -> Prop) (p : prog) : Prop :=
  match p with
  | PDone r => fin R bad r O
  | PSys c k =>
    match c with
    | CMmap n => 0 < n /\ (ps | n) /\ safe R bad O (k MAP_FAILED) /\
        forall a, 0 < a -> (ps | a) -> (forall x, a <= x < a + n -> ~ O x) -> safe R bad (fun x => O x \/ a <= x < a + n) (k a)
    | CUnmap a n => covered O a n /\ (ps | a) /\ (ps | n) /\ safe R bad (fun x => O x /\ ~ a <= x < a + n) (k 0) /\ forall r, r <> 0 -> safe R true O (k r)
    | CFixed a n => covered O a n /\ (ps | a) /\ (ps | n) /\ forall r, safe R bad O (k r)
    | CAdvise a n => covered O a n /\ (ps | a) /\ (ps | n) /\ forall r, safe R bad O (k r)
    | CTouch a n => covered O a n /\ forall r, safe R bad O (k r)
    | CCall => forall r, safe R bad O (k r)
    end
  end.
Definition respects (R : outcome -> (Z -> Prop) -> Prop) : Prop := forall r O O', (forall x, O x <-> O' x) -> R r O -> R r O'.

Lemma covered_ext : forall O O' a n, (forall x, O x <-> O' x) -> covered O a n -> covered O' a n.
Proof. intros O O' a n H [H1 H2]. split; [exact H1|]. intros x Hx. apply H, H2, Hx. Qed.
Lemma safe_ext : forall R p bad O O', respects R -> (forall x, O x <-> O' x) -> safe R bad O p -> safe R bad O' p.
Proof.
  intros R. induction p as [r|c k IH]; intros bad O O' HR HO H.
  - cbn in *. destruct r as [h b l| |]; cbn in *; [|destruct H as [H|H]; [now left|right; intros x K; exact (H x (proj2 (HO x) K))]|exact H].
    destruct H as (H1 & H2 & H3 & H4 & H5 & H6). split; [intros x; rewrite <- HO; apply H1|]. repeat (split; [assumption|]). exact (HR _ _ _ HO H6).
  - destruct c as [n|a n|a n|a n|a n|]; cbn [safe] in *.
    + destruct H as (H1 & H2 & H3 & H4). split; [exact H1|]. split; [exact H2|]. split; [exact (IH _ _ _ _ HR HO H3)|]. intros a Ha Hd Hf.
      refine (IH _ _ _ _ HR _ (H4 a Ha Hd _)); [intros x; cbn; rewrite HO; tauto|]. intros x Hx K. exact (Hf x Hx (proj1 (HO x) K)).
    + destruct H as (H1 & H2 & H3 & H4 & H5). split; [exact (covered_ext _ _ _ _ HO H1)|]. split; [exact H2|]. split; [exact H3|].
      split; [refine (IH _ _ _ _ HR _ H4); intros x; cbn; rewrite HO; tauto|]. intros r Hr. exact (IH _ _ _ _ HR HO (H5 r Hr)).
    + destruct H as (H1 & H2 & H3 & H4). split; [exact (covered_ext _ _ _ _ HO H1)|]. split; [exact H2|]. split; [exact H3|]. intros r. exact (IH _ _ _ _ HR HO (H4 r)).
    + destruct H as (H1 & H2 & H3 & H4). split; [exact (covered_ext _ _ _ _ HO H1)|]. split; [exact H2|]. split; [exact H3|]. intros r. exact (IH _ _ _ _ HR HO (H4 r)).
    + destruct H as (H1 & H4). split; [exact (covered_ext _ _ _ _ HO H1)|]. intros r. exact (IH _ _ _ _ HR HO (H4 r)).
    + intros r. exact (IH _ _ _ _ HR HO (H r)).
Qed.

(** ** Creating a range *)
Definition empty : Z -> Prop := fun _ => False.
Definition span (a n : Z) : Z -> Prop := fun x => a <= x < a + n.

Lemma ps_al : forall al, (exists i, 0 <= i /\ al = 2 ^ i) -> ps <= al -> (ps | al).
Proof.
  intros al (i & Hi & Ei) Hpa. destruct Hps as (j & Hj & Ej). exists (2 ^ (i - j)). rewrite Ej, Ei in *. rewrite <- Z.pow_add_r; [f_equal; lia| |lia].
  destruct (Z_lt_le_dec i j); [|lia]. assert (2 ^ i < 2 ^ j) by (apply Z.pow_lt_mono_r; lia). lia.
Qed.
Section Aligned.
Variables (R : outcome -> (Z -> Prop) -> Prop) (len al : Z) (k : option (Z * Z) -> prog).
Hypotheses (HR : respects R) (Hal : exists i, 0 <= i /\ al = 2 ^ i) (Hpa : ps <= al) (Hlen : 0 < len) (Hdiv : (al | len)).
Hypothesis Hnone : safe R false empty (k None).
Hypothesis Hsome : forall p, (ps | p) -> (al | p + 2 * ps) -> safe R false (span p (2 * ps + len)) (k (Some (p + 2 * ps, p))).

Lemma ps_len : (ps | len).
Proof. exact (Z.divide_trans _ _ _ (ps_al al Hal Hpa) Hdiv). Qed.
Lemma div_back : forall z, (ps | z) -> z / ps * ps = z.
Proof. intros z [q ->]. rewrite Z.div_mul; [reflexivity|]. pose proof ps_pos. lia. Qed.

Lemma trim_safe : forall p m, (ps | p) -> (al | p + 2 * ps) -> (ps | m) -> 2 * ps + len <= m ->
  safe R false (span p m) (trim ps len (2 * ps) p (m / ps) k).
Proof.
  intros p m Hp Ha Hm Hle. pose proof ps_pos as Hpos. pose proof ps_len as Hpl.
  assert (Hd2 : (ps | 2 * ps + len)) by (apply Z.divide_add_r; [exists 2; lia|exact Hpl]).
  pose proof (div_back _ Hd2) as E1. pose proof (div_back _ Hm) as E2. unfold trim. destruct (Z.ltb_spec ((2 * ps + len) / ps) (m / ps)) as [Hlt|Hge].
  - cbn [safe]. rewrite Z.mul_sub_distr_r, E1, E2. assert (2 * ps + len < m) by (apply (Z.mul_lt_mono_pos_r ps _ _ Hpos) in Hlt; lia). split; [split; [lia|intros x Hx; unfold span; lia]|].
    split; [apply Z.divide_add_r; assumption|]. split; [apply Z.divide_sub_r; assumption|]. split.
    + cbn [Z.eqb]. refine (safe_ext R _ _ _ _ HR _ (Hsome p Hp Ha)). intros x. unfold span. lia.
    + intros r Hr. apply Z.eqb_neq in Hr. rewrite Hr. exact Logic.I.
  - assert (m = 2 * ps + len) by (apply (Z.mul_le_mono_pos_r _ _ ps Hpos) in Hge; lia). subst m. exact (Hsome p Hp Ha).
Qed.
Lemma aligned_safe : safe R false empty (aligned_mmap ps len al (2 * ps) k).
Proof.
  pose proof ps_pos as Hpos. pose proof ps_len as Hpl. pose proof (ps_al al Hal Hpa) as Hpa'. unfold aligned_mmap.
  destruct (_ || _); [exact Hnone|]. assert (Hd : (ps | 2 * ps + len + al - ps)).
  { apply Z.divide_sub_r; [|apply Z.divide_refl]. apply Z.divide_add_r; [|exact Hpa']. apply Z.divide_add_r; [exists 2; lia|exact Hpl]. }
  pose proof (div_back _ Hd) as E. cbn [safe]. rewrite E. split; [lia|]. split; [exact Hd|]. split; [exact Hnone|]. intros p Hp0 Hp _.
  replace (p =? MAP_FAILED) with false by (symmetry; apply Z.eqb_neq; unfold MAP_FAILED; lia).
  assert (Hp2 : (ps | p + 2 * ps)) by (apply Z.divide_add_r; [exact Hp|exists 2; lia]).
  destruct (Z.eqb_spec ((p + 2 * ps) mod al) 0) as [Hz|Hnz].
  - refine (safe_ext R _ _ _ _ HR _ (trim_safe p (2 * ps + len + al - ps) Hp _ Hd _)).
    + intros x. unfold span, empty. tauto.
    + apply Z.mod_divide; [lia|exact Hz].
    + lia.
  - set (extra := (- (p + 2 * ps)) mod al). assert (Hr : 0 <= extra < al) by (apply Z.mod_pos_bound; lia).
    assert (Hex : (al | p + 2 * ps + extra)).
    { apply Z.mod_divide; [lia|]. unfold extra. rewrite Z.add_mod_idemp_r by lia. replace (p + 2 * ps + - (p + 2 * ps)) with 0 by lia. apply Z.mod_0_l. lia. }
    assert (Hep : (ps | extra)).
    { replace extra with ((p + 2 * ps + extra) - (p + 2 * ps)) by lia. apply Z.divide_sub_r; [exact (Z.divide_trans _ _ _ Hpa' Hex)|exact Hp2]. }
    assert (Hne : extra <> 0). { intros K. rewrite K in Hex. apply Hnz. apply Z.mod_divide; [lia|]. rewrite Z.add_0_r in Hex. exact Hex. }
    assert (Hup : extra <= al - ps).
    { destruct Hep as [q Eq], Hpa' as [q' Eq']. assert (q < q') by nia. nia. }
    cbn [safe]. split; [split; [lia|intros x Hx; right; lia]|]. split; [exact Hp|]. split; [exact Hep|]. split.
    + cbn [Z.eqb]. replace ((2 * ps + len + al - ps) / ps - extra / ps) with ((2 * ps + len + al - ps - extra) / ps).
      2:{ destruct Hep as [q ->], Hd as [q' ->]. rewrite <- Z.mul_sub_distr_r. rewrite !Z.div_mul by lia. reflexivity. }
      refine (safe_ext R _ _ _ _ HR _ (trim_safe (p + extra) (2 * ps + len + al - ps - extra) _ _ _ _)).
      * intros x. unfold span, empty. lia.
      * apply Z.divide_add_r; assumption.
      * replace (p + extra + 2 * ps) with (p + 2 * ps + extra) by lia. exact Hex.
      * apply Z.divide_sub_r; assumption.
      * lia.
    + intros r Hr'. apply Z.eqb_neq in Hr'. rewrite Hr'. exact Logic.I.
Qed.
End Aligned.

Lemma per_cpu_safe : forall R bad O f fail k n cpu, safe R bad O fail -> safe R bad O k ->
  (forall i, cpu <= i < cpu + Z.of_nat n -> exists a m, (f i = CFixed a m /\ (ps | a) /\ (ps | m) \/ f i = CTouch a m) /\ covered O a m) ->
  safe R bad O (per_cpu n cpu f fail k).
Proof.
  intros R bad O f fail k. induction n as [|n IH]; intros cpu Hf Hk H; cbn [per_cpu]; [exact Hk|].
  assert (Hn : forall r, safe R bad O (if r =? 0 then per_cpu n (cpu + 1) f fail k else fail)).
  { intros r. destruct (r =? 0); [|exact Hf]. apply IH; auto. intros i Hi. apply H. lia. }
  destruct (H cpu) as (a & m & [(E & Ha & Hm)|E] & Hc); [lia| |]; rewrite E; cbn [safe]; auto.
Qed.
Lemma destroy_safe : forall R k h l, respects R -> (ps | h) -> (ps | l) -> 2 * ps < l ->
  (safe R false empty (k 0)) -> (forall r, r <> 0 -> safe R true (span h l) (k r)) ->
  safe R false (span h l) (range_destroy ps h (h + 2 * ps) l k).
Proof.
  intros R k h l HR Hh Hl Hlt H0 Hr. pose proof ps_pos as Hpos. unfold range_destroy. cbn [safe].
  split; [split; [lia|intros x Hx; unfold span; lia]|]. intros _. split; [split; [lia|auto]|]. split; [exact Hh|]. split; [exact Hl|]. split; [|exact Hr].
  refine (safe_ext R _ _ _ _ HR _ H0). intros x. unfold span, empty. tauto.
Qed.

(** The range made has the stride's alignment and the right size. *)
Definition made_for (c : cfg) (r : outcome) (O : Z -> Prop) : Prop :=
  match r with Made h b l => (c_stride c | b) /\ l = 2 * ps + range_len c | _ => True end.
Lemma made_respects : forall c, respects (made_for c).
Proof. intros c r O O' _ H. destruct r; exact H. Qed.
Lemma range_create_safe : forall c, cfg_ok ps c -> safe (made_for c) false empty (range_create ps c).
Proof.
  intros c (Hst & Hge & Hcpu). pose proof ps_pos as Hpos. unfold range_create, header_len. set (s := c_stride c) in *.
  assert (Hs0 : 0 < s) by lia. set (N := Z.of_nat (c_cpus c)). assert (HN : 1 <= N) by (unfold N; lia).
  assert (Hlen : 0 < range_len c /\ s * N <= range_len c /\ (c_cow c = true -> s * N + s <= range_len c)).
  { unfold range_len. fold s N. destruct (c_cow c), (c_robust c); split; try nia; split; try (intros K; discriminate K); intros; nia. }
  destruct Hlen as (Hlen & Hle & Hlec).
  assert (Hdiv : (s | range_len c)).
  { unfold range_len. fold s N. apply Z.divide_add_r; [apply Z.divide_add_r|]; [apply Z.divide_factor_l| |]; (destruct (c_cow c), (c_robust c); first [apply Z.divide_refl|apply Z.divide_0_r]). }
  assert (Hsp : (ps | s)).
  { exact (ps_al s Hst Hge). }
  apply aligned_safe; auto; [apply made_respects|right; unfold empty; auto|]. intros p Hp Hal.
  set (b := p + 2 * ps) in *. set (L := 2 * ps + range_len c). assert (HL : (ps | L)).
  { apply Z.divide_add_r; [exists 2; lia|exact (Z.divide_trans _ _ _ Hsp Hdiv)]. }
  assert (Hb : (ps | b)) by (apply Z.divide_add_r; [exact Hp|exists 2; lia]).
  assert (Hfail : safe (made_for c) false (span p L) (error_alloc ps p b L)).
  { unfold error_alloc. cbn [safe]. intros _. apply destroy_safe; auto; [apply made_respects|unfold L; lia| |].
    - right. unfold empty. auto.
    - intros r _. left. reflexivity. }
  assert (Hmade : safe (made_for c) false (span p L) (PDone (Made p b L))).
  { cbn [safe fin made_for]. split; [intros x; reflexivity|]. split; [reflexivity|]. split; [exact Hp|]. split; [exact HL|]. split; [unfold L; lia|]. split; [exact Hal|reflexivity]. }
  assert (Hstep : forall r, safe (made_for c) false (span p L) (if r =? 0 then PDone (Made p b L) else error_alloc ps p b L)).
  { intros r. destruct (r =? 0); assumption. }
  assert (Hcpus : forall i, 0 <= i < 0 + N -> covered (span p L) (b + s * i) s).
  { intros i Hi. split; [exact Hs0|]. intros x Hx. unfold span, L, b in *. nia. }
  assert (Hinit : safe (made_for c) false (span p L)
    (if c_init c then if c_global c then PSys (CTouch b s) (fun r => if r =? 0 then PDone (Made p b L) else error_alloc ps p b L)
       else per_cpu (c_cpus c) 0 (fun cpu => CTouch (b + s * cpu) s) (error_alloc ps p b L) (PDone (Made p b L)) else PDone (Made p b L))).
  { destruct (c_init c); [|exact Hmade]. destruct (c_global c).
    - cbn [safe]. split; [|exact Hstep]. pose proof (Hcpus 0) as K. rewrite Z.mul_0_r, Z.add_0_r in K. apply K. lia.
    - apply per_cpu_safe; auto. intros i Hi. exists (b + s * i), s. split; [right; reflexivity|]. apply Hcpus. exact Hi. }
  assert (Hbitmap : forall q, safe (made_for c) false (span p L) q -> safe (made_for c) false (span p L) (if c_robust c then PSys CCall (fun r => if r =? 0 then q else error_alloc ps p b L) else q)).
  { intros q Hq. destruct (c_robust c); [|exact Hq]. cbn [safe]. intros r. destruct (r =? 0); assumption. }
  specialize (Hbitmap _ Hinit).
  match type of Hbitmap with safe _ _ _ ?q => set (Q := q) in * end.
  cbn [safe]. split; [split; [lia|]; intros x Hx; unfold span, L, b in *; lia|]. intros _. destruct (c_cow c) eqn:Ecow; [|exact Hbitmap].
  specialize (Hlec eq_refl). cbn [safe]. intros r0. destruct (r0 =? 0); [|exact Hfail]. cbn [safe].
  assert (Hinitc : covered (span p L) (b + s * N) s) by (split; [exact Hs0|]; intros x Hx; unfold span, L, b in *; nia).
  split; [exact Hinitc|]. split; [apply Z.divide_add_r; [exact Hb|apply Z.divide_mul_l; exact Hsp]|]. split; [exact Hsp|].
  intros r1. destruct (r1 =? 0); [|exact Hfail]. apply per_cpu_safe; auto.
  - cbn [safe]. split; [split; [exact Hlen|]; intros x Hx; unfold span, L, b in *; lia|]. split; [exact Hb|]. split; [exact (Z.divide_trans _ _ _ Hsp Hdiv)|].
    intros r2. destruct (r2 =? 0); [|exact Hfail]. cbn [safe]. split; [split; [lia|]; intros x Hx; unfold span, L in *; lia|]. intros _. cbn [safe].
    split; [split; [lia|]; intros x Hx; unfold span, L in *; lia|]. split; [exact Hp|]. split; [apply Z.divide_refl|]. intros r3. destruct (r3 =? 0); [|exact Hfail].
    cbn [safe]. intros _. exact Hbitmap.
  - intros i Hi. exists (b + s * i), s. split; [|apply Hcpus; exact Hi]. left. split; [reflexivity|]. split; [|exact Hsp].
    apply Z.divide_add_r; [exact Hb|apply Z.divide_mul_l; exact Hsp].
Qed.
End Safe.

(** ** All ranges together *)
Section World.
Variable ps : Z.
Hypothesis Hps : exists j, 0 <= j /\ ps = 2 ^ j.

Definition has (w : mworld) (g : Z) : Z -> Prop := fun x => w_owner w x = Some g.
Record winv (w : mworld) : Prop := {
  wi_safe : forall g p, w_prog w g = Some p -> g <> 0 /\ exists c, w_cfg w g = Some c /\ cfg_ok ps c /\ safe ps (made_for ps c) (w_refused w g) (has w g) p;
  wi_none : forall x g, w_owner w x = Some g -> g = 0 \/ w_prog w g <> None
}.
Lemma upd_same : forall A (f : Z -> A) g v, upd f g v g = v.
Proof. intros. unfold upd. now rewrite Z.eqb_refl. Qed.
Lemma upd_other : forall A (f : Z -> A) g v x, x <> g -> upd f g v x = f x.
Proof. intros A f g v x H. unfold upd. apply Z.eqb_neq in H. now rewrite H. Qed.
Lemma fill_in : forall a n v o x, a <= x < a + n -> fill a n v o x = v.
Proof. intros a n v o x H. unfold fill. replace (a <=? x) with true by (symmetry; apply Z.leb_le; lia). replace (x <? a + n) with true by (symmetry; apply Z.ltb_lt; lia). reflexivity. Qed.
Lemma fill_out : forall a n v o x, ~ a <= x < a + n -> fill a n v o x = o x.
Proof. intros a n v o x H. unfold fill. destruct (Z.leb_spec a x), (Z.ltb_spec x (a + n)); cbn [andb]; try reflexivity. lia. Qed.
Lemma in_or : forall a n x, a <= x < a + n \/ ~ a <= x < a + n.
Proof. intros. lia. Qed.

(** One program goes on: what the others have stays theirs. *)
Lemma winv_go : forall w g p' o' f', winv w -> (exists p, w_prog w g = Some p) ->
  (forall g', g' <> g -> f' g' = w_refused w g') ->
  (forall x g', g' <> g -> o' x = Some g' <-> w_owner w x = Some g') ->
  (forall c, w_cfg w g = Some c -> cfg_ok ps c -> safe ps (made_for ps c) (f' g) (fun x => o' x = Some g) p') ->
  winv {| w_owner := o'; w_prog := upd (w_prog w) g (Some p'); w_cfg := w_cfg w; w_refused := f' |}.
Proof.
  intros w g p' o' f' HI (p & Hp) Hf Ho Hs. constructor; cbn [w_owner w_prog w_cfg w_refused].
  - intros g' q Hq. destruct (Z.eq_dec g' g) as [->|Hne].
    + rewrite upd_same in Hq. injection Hq as <-. destruct (wi_safe _ HI g p Hp) as (H0 & c & Hc & Hok & _). split; [exact H0|]. exists c. split; [exact Hc|]. split; [exact Hok|].
      exact (Hs c Hc Hok).
    + rewrite upd_other in Hq by exact Hne. destruct (wi_safe _ HI g' q Hq) as (H0 & c & Hc & Hok & Hsf). split; [exact H0|]. exists c. split; [exact Hc|]. split; [exact Hok|].
      rewrite (Hf g' Hne). refine (safe_ext ps _ _ _ _ _ (made_respects ps c) _ Hsf). intros x. unfold has. cbn. symmetry. exact (Ho x g' Hne).
  - intros x g' Hx. destruct (Z.eq_dec g' g) as [->|Hne]; [right; rewrite upd_same; discriminate|]. rewrite upd_other by exact Hne. apply (wi_none _ HI x g'). apply (Ho x g' Hne). exact Hx.
Qed.
Lemma winv_step : forall w x w', winv w -> mallowed ps false x w -> mrun1 ps x w = Some w' -> winv w'.
Proof.
  intros w x w' HI Hok Hrun. destruct x as [g c|g|g r|g b n|a n|a n]; cbn [mallowed] in Hok; cbn [mrun1] in Hrun.
  - destruct Hok as (Hg & Hn & Hc). injection Hrun as <-. constructor; cbn [w_owner w_prog w_cfg w_refused].
    + intros g' q Hq. destruct (Z.eq_dec g' g) as [->|Hne].
      * rewrite upd_same in Hq. injection Hq as <-. split; [exact Hg|]. exists c. rewrite !upd_same. split; [reflexivity|]. split; [exact Hc|].
        refine (safe_ext ps _ _ _ _ _ (made_respects ps c) _ (range_create_safe ps Hps c Hc)). intros x. unfold has, empty. cbn. split; [intros []|]. intros Hx.
        destruct (wi_none _ HI x g Hx) as [K|K]; [exact (Hg K)|exact (K Hn)].
      * rewrite upd_other in Hq by exact Hne. rewrite !upd_other by exact Hne. exact (wi_safe _ HI g' q Hq).
    + intros x g' Hx. destruct (wi_none _ HI x g' Hx) as [K|K]; [now left|]. right. unfold upd. destruct (g' =? g); [discriminate|exact K].
  - destruct (w_prog w g) as [[[h b l| |]|]|] eqn:Ep; try discriminate Hrun. injection Hrun as <-.
    apply (winv_go w g); [exact HI|eauto|intros g' Hne; now apply upd_other|tauto|]. intros c Hc Hck. rewrite upd_same.
    destruct (wi_safe _ HI g _ Ep) as (_ & c' & Hc' & _ & Hs). rewrite Hc in Hc'. injection Hc' as <-. cbn [safe fin] in Hs. destruct Hs as (H1 & -> & H3 & H4 & H5 & H6).
    refine (safe_ext ps _ _ _ (span h l) _ (made_respects ps c) _ _); [intros x; symmetry; exact (H1 x)|]. apply destroy_safe; auto; [apply made_respects|cbn; right; auto|].
    intros r Hr. apply Z.eqb_neq in Hr. rewrite Hr. cbn [safe fin]. split; [intros x; reflexivity|]. auto.
  - destruct (w_prog w g) as [[|cl k]|] eqn:Ep; try discriminate Hrun. destruct (wi_safe _ HI g _ Ep) as (_ & c & Hc & _ & Hs).
    assert (Hgo : forall o' f', w' = {| w_owner := o'; w_prog := upd (w_prog w) g (Some (k r)); w_cfg := w_cfg w; w_refused := f' |} ->
      (forall g', g' <> g -> f' g' = w_refused w g') -> (forall x g', g' <> g -> o' x = Some g' <-> w_owner w x = Some g') ->
      safe ps (made_for ps c) (f' g) (fun x => o' x = Some g) (k r) -> winv w').
    { intros o' f' -> Hf Ho Hsf. apply (winv_go w g); [exact HI|eauto|exact Hf|exact Ho|]. intros c' Hc' _. rewrite Hc in Hc'. injection Hc' as <-. exact Hsf. }
    destruct cl as [n|a n|a n|a n|a n|]; cbn [safe] in Hs.
    + destruct Hs as (H1 & H2 & H3 & H4). destruct (Z.eqb_spec r MAP_FAILED) as [Er|Hr]; injection Hrun as <-.
      * subst r. eapply Hgo; [reflexivity|auto|tauto|exact H3].
      * destruct Hok as [K|(K1 & K2 & K3)]; [destruct (Hr K)|]. eapply Hgo; [reflexivity|auto| |].
        -- intros x g' Hne. destruct (in_or r n x) as [Hx|Hx]; [rewrite fill_in by exact Hx; rewrite (K3 x Hx); split; intros K; [congruence|discriminate K]|rewrite fill_out by exact Hx; tauto].
        -- refine (safe_ext ps _ _ _ _ _ (made_respects ps c) _ (H4 r K1 K2 _)).
           ++ intros x. unfold has. cbn beta. destruct (in_or r n x) as [Hx|Hx]; [rewrite fill_in by exact Hx; tauto|rewrite fill_out by exact Hx; tauto].
           ++ intros x Hx Hh. unfold has in Hh. rewrite (K3 x Hx) in Hh. discriminate Hh.
    + destruct Hs as ((H0 & H1) & H2 & H3 & H4 & H5). destruct (Z.eqb_spec r 0) as [Er|Hr]; injection Hrun as <-.
      * subst r. eapply Hgo; [reflexivity|auto| |].
        -- intros x g' Hne. destruct (in_or a n x) as [Hx|Hx]; [rewrite fill_in by exact Hx|rewrite fill_out by exact Hx; tauto]. specialize (H1 x Hx). unfold has in H1.
           split; intros K; [discriminate K|congruence].
        -- refine (safe_ext ps _ _ _ _ _ (made_respects ps c) _ H4). intros x. unfold has. cbn beta. destruct (in_or a n x) as [Hx|Hx]; [rewrite fill_in by exact Hx|rewrite fill_out by exact Hx; tauto].
           split; [tauto|intros K; discriminate K].
      * eapply Hgo; [reflexivity|intros g' Hne; now apply upd_other|tauto|]. rewrite upd_same. exact (H5 r Hr).
    + destruct Hs as ((H0 & H1) & H2 & H3 & H4). destruct (r =? 0); injection Hrun as <-.
      * eapply Hgo; [reflexivity|auto| |].
        -- intros x g' Hne. destruct (in_or a n x) as [Hx|Hx]; [rewrite fill_in by exact Hx|rewrite fill_out by exact Hx; tauto]. specialize (H1 x Hx). unfold has in H1.
           split; intros K; congruence.
        -- refine (safe_ext ps _ _ _ _ _ (made_respects ps c) _ (H4 r)). intros x. unfold has. cbn beta. destruct (in_or a n x) as [Hx|Hx]; [rewrite fill_in by exact Hx|rewrite fill_out by exact Hx; tauto].
           split; [tauto|intros _; exact (H1 x Hx)].
      * eapply Hgo; [reflexivity|auto|tauto|exact (H4 r)].
    + destruct Hs as (_ & _ & _ & H4). injection Hrun as <-. eapply Hgo; [reflexivity|auto|tauto|exact (H4 r)].
    + destruct Hs as (_ & H4). injection Hrun as <-. eapply Hgo; [reflexivity|auto|tauto|exact (H4 r)].
    + injection Hrun as <-. eapply Hgo; [reflexivity|auto|tauto|exact (Hs r)].
  - destruct Hok as [K _]. discriminate K.
  - injection Hrun as <-. constructor; cbn [w_owner w_prog w_cfg w_refused].
    + intros g p Hp. destruct (wi_safe _ HI g p Hp) as (H0 & c & Hc & Hck & Hs). split; [exact H0|]. exists c. split; [exact Hc|]. split; [exact Hck|].
      refine (safe_ext ps _ _ _ _ _ (made_respects ps c) _ Hs). intros x. unfold has. cbn [w_owner]. destruct (in_or a n x) as [Hx|Hx]; [rewrite fill_in by exact Hx|rewrite fill_out by exact Hx; tauto].
      rewrite (Hok x Hx). split; intros K; [discriminate K|congruence].
    + intros x g Hx. destruct (in_or a n x) as [Hy|Hy]; [rewrite fill_in in Hx by exact Hy; left; congruence|rewrite fill_out in Hx by exact Hy; exact (wi_none _ HI x g Hx)].
  - injection Hrun as <-. constructor; cbn [w_owner w_prog w_cfg w_refused].
    + intros g p Hp. destruct (wi_safe _ HI g p Hp) as (H0 & c & Hc & Hck & Hs). split; [exact H0|]. exists c. split; [exact Hc|]. split; [exact Hck|].
      refine (safe_ext ps _ _ _ _ _ (made_respects ps c) _ Hs). intros x. unfold has. cbn [w_owner]. destruct (in_or a n x) as [Hx|Hx]; [rewrite fill_in by exact Hx|rewrite fill_out by exact Hx; tauto].
      rewrite (Hok x Hx). split; intros K; [congruence|discriminate K].
    + intros x g Hx. destruct (in_or a n x) as [Hy|Hy]; [rewrite fill_in in Hx by exact Hy; discriminate Hx|rewrite fill_out in Hx by exact Hy; exact (wi_none _ HI x g Hx)].
Qed.
Lemma mreach_winv : forall w, mreach ps false w -> winv w.
Proof.
  intros w H. induction H as [w [Ho Hp]|w x w' Hr IH Hok Hrun].
  - constructor; [intros g p K; rewrite Hp in K; discriminate K|]. intros x g Hx. left. destruct (Ho x) as [K|K]; congruence.
  - exact (winv_step w x w' IH Hok Hrun).
Qed.
End World.
