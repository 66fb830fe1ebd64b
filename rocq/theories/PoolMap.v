(** Aligned mappings (C33) and the effect of the mapping calls on the rest of the
    address space. *)
From Coq Require Import ZArith Bool List Lia Znumtheory.
From Verif Require Import UtilsModel UtilsLemmas RseqIR MemLemmas PoolVM PoolVMLemmas PoolModel PoolInv.
Import ListNotations.
Local Open Scope Z_scope.

Section Map.
Variable e : env.
Hypothesis He : env_ok e.
Notation psz := (e_page e).
Notation page := (PoolVM.page e).

Lemma psz0 : 0 < psz.
Proof. destruct He as (po & H & ->). apply Z.pow_pos_nonneg; lia. Qed.
Lemma psz_small : 2 * psz < wmax e.
Proof.
  destruct He as (po & H & ->). unfold wmax. pose proof (wb_range (e_wide e)). rewrite <- Z.pow_succ_r by lia. apply Z.pow_lt_mono_r; lia.
Qed.

(** [v'] differs from [v] by what happened inside the pages [S], which were
    unmapped in [v]. *)
Record fresh_in (S : Z -> bool) (v v' : vm) : Prop := {
  fi_fresh : forall q, S q = true -> mapped v q = false;
  fi_wf : vmwf e v';
  fi_frame : vframe e (fun a => mapped v (page a) = true) v v';
  fi_mapped : forall q, S q = false -> mapped v' q = mapped v q;
  fi_closed : forall p q, link v' p = Some q -> S p = S q
}.

Lemma not_true_false : forall b, b <> true -> b = false.
Proof. intros [|]; congruence. Qed.

Lemma fi_madv_dontfork : forall v v' a len b l, (psz | a) -> (psz | len) -> (psz | b) -> (psz | l) ->
  a <= b -> b + l <= a + len ->
  fresh_in (in_pages e a len) v v' -> fresh_in (in_pages e a len) v (madv_dontfork e v' b l).
Proof.
  intros v v' a len b l D1 D2 D3 D4 H1 H2 [F W R M C].
  assert (HR : vframe e (fun a => mapped v (page a) = true) v' (madv_dontfork e v' b l)).
  { constructor; auto. intros x Hx. cbn.
    destruct (in_pages e b l (page x)) eqn:E; auto. exfalso.
    apply in_pages_iff in E; auto using psz0.
    assert (in_pages e a len (page x) = true) as E' by (apply in_pages_iff; auto using psz0; lia).
    apply F in E'. congruence. }
  constructor; auto.
  - destruct W as [W1 W2 W3]. constructor; cbn; eauto.
  - eapply vframe_trans; eauto.
Qed.

Lemma fi_madv_wipefork : forall v v' a len b l, (psz | a) -> (psz | len) -> (psz | b) -> (psz | l) ->
  a <= b -> b + l <= a + len ->
  fresh_in (in_pages e a len) v v' -> fresh_in (in_pages e a len) v (madv_wipefork e v' b l).
Proof.
  intros v v' a len b l D1 D2 D3 D4 H1 H2 [F W R M C].
  assert (HR : vframe e (fun a => mapped v (page a) = true) v' (madv_wipefork e v' b l)).
  { constructor; auto. intros x Hx. cbn.
    destruct (in_pages e b l (page x)) eqn:E; auto. exfalso.
    apply in_pages_iff in E; auto using psz0.
    assert (in_pages e a len (page x) = true) as E' by (apply in_pages_iff; auto using psz0; lia).
    apply F in E'. congruence. }
  constructor; auto.
  - destruct W as [W1 W2 W3]. constructor; cbn; eauto.
  - eapply vframe_trans; eauto.
Qed.

Lemma fi_store : forall v v' S ps, fresh_in S v v' ->
  (forall x, In x (map fst ps) -> S (page x) = true) -> fresh_in S v (store e v' ps).
Proof.
  intros v v' S ps [F W R M C] Hps. constructor; auto.
  - now apply store_wf.
  - eapply vframe_trans; [exact R|]. apply vframe_store; auto using psz0.
    intros x a Hx Ha [->|[Hl _]].
    + apply Hps, F in Hx. congruence.
    + apply C in Hl. rewrite (Hps _ Hx) in Hl. apply F in Hl. congruence.
  - intros q Hq. rewrite store_mapped. auto.
  - intros p q Hl. apply store_link in Hl. apply C. tauto.
Qed.

(** Removing a region no link enters or leaves. *)
Lemma munmap_frame : forall v a len, (psz | a) -> (psz | len) -> vmwf e v ->
  (forall p q, link v p = Some q -> in_pages e a len p = in_pages e a len q) ->
  vmwf e (munmap e v a len) /\ vframe e (fun x => ~ a <= x < a + len) v (munmap e v a len).
Proof.
  intros v a len D1 D2 [W1 W2 W3] C. split.
  - constructor; cbn.
    + intros p q H. destruct (in_pages e a len p) eqn:Ep; [discriminate|].
      rewrite <- (C _ _ H), Ep. eauto.
    + intros p q H. destruct (in_pages e a len p) eqn:Ep; [discriminate|].
      rewrite <- (C _ _ H), Ep. cbn. eauto.
    + intros x Hm Hp Hl. destruct (in_pages e a len (page x)) eqn:Ep; [discriminate|].
      cbn in *. auto.
  - assert (HN : forall x, ~ a <= x < a + len -> in_pages e a len (page x) = false).
    { intros x Hx. apply not_true_false. intros H. apply in_pages_iff in H; auto using psz0. }
    constructor; cbn; auto.
    + intros x Hx. unfold view. cbn. rewrite HN by auto. reflexivity.
    + intros x Hx. rewrite HN by auto. reflexivity.
    + intros p q x Hl Hx _. destruct (in_pages e a len p); [discriminate|auto].
Qed.

Lemma fi_munmap : forall v v' a len, (psz | a) -> (psz | len) ->
  fresh_in (in_pages e a len) v v' -> fresh_in (in_pages e a len) v (munmap e v' a len).
Proof.
  intros v v' a len D1 D2 [F W R M C].
  destruct (munmap_frame v' a len D1 D2 W C) as [W' R'].
  constructor; auto.
  - eapply vframe_trans; [exact R|]. eapply vframe_sub; [exact R'|].
    intros x Hx H. assert (in_pages e a len (page x) = true) by (apply in_pages_iff; auto using psz0).
    apply F in H0. congruence.
  - intros q Hq. cbn. rewrite Hq. cbn. auto.
  - intros p q Hl. cbn in Hl. destruct (in_pages e a len p) eqn:Ep; [discriminate|].
    rewrite <- Ep. auto.
Qed.

Lemma fi_mmap_shared : forall v v' a len b l, (psz | a) -> (psz | len) -> (psz | b) -> (psz | l) ->
  a <= b -> b + l <= a + len ->
  fresh_in (in_pages e a len) v v' -> (forall p, in_pages e a len p = true -> link v' p = None) ->
  fresh_in (in_pages e a len) v (mmap_shared e v' b l).
Proof.
  intros v v' a len b l D1 D2 D3 D4 H1 H2 [F W R M C] HN.
  assert (Hsub : forall q, in_pages e b l q = true -> in_pages e a len q = true).
  { intros q Hq. apply in_pages_page in Hq; auto using psz0. apply in_pages_page; auto using psz0. lia. }
  assert (Hlink : forall p q, link v' p = Some q -> in_pages e a len p = false /\ in_pages e a len q = false).
  { intros p q Hl. pose proof (C _ _ Hl) as HC.
    destruct (in_pages e a len p) eqn:Ep; [rewrite (HN _ Ep) in Hl; discriminate|]. auto. }
  assert (Hout : forall q, in_pages e a len q = false -> in_pages e b l q = false).
  { intros q Hq. apply not_true_false. intros H. apply Hsub in H. congruence. }
  assert (HR : vframe e (fun x => mapped v (page x) = true) v' (mmap_shared e v' b l)).
  { assert (HS : forall x, mapped v (page x) = true -> in_pages e b l (page x) = false).
    { intros x Hx. apply Hout. apply not_true_false. intros H. apply F in H. congruence. }
    assert (HD : forall x, in_pages e b l (page x) = false -> (b <=? x) && (x <? b + l) = false).
    { intros x Hx. apply not_true_false. intros H. apply andb_prop in H. destruct H as [Ha Hb].
      assert (in_pages e b l (page x) = true) by (apply in_pages_iff; auto using psz0; lia). congruence. }
    constructor; cbn.
    - intros x Hx. unfold view. cbn. rewrite HS by auto. destruct (link v' (page x)) as [q|] eqn:El.
      + rewrite HD; auto. rewrite page_at by (auto using psz0; apply mod_lt, psz0).
        apply Hout. eapply Hlink; eauto.
      + rewrite HD; auto.
    - intros x Hx. rewrite HS by auto. reflexivity.
    - intros p q x Hl Hx _. destruct (in_pages e b l p); [discriminate|auto].
    - intros x Hx. rewrite HS by auto. reflexivity.
    - intros x Hx. rewrite HS by auto. reflexivity. }
  constructor; auto.
  - destruct W as [W1 W2 W3]. constructor; cbn.
    + intros p q Hl. destruct (in_pages e b l p); [discriminate|].
      destruct (in_pages e b l q); eauto.
    + intros p q Hl. destruct (in_pages e b l p) eqn:Ep; [discriminate|]. destruct (W2 _ _ Hl) as [-> ->].
      rewrite ?orb_true_r; auto.
    + intros x Hm Hp Hl. destruct ((b <=? x) && (x <? b + l)) eqn:Ex; auto.
      destruct (in_pages e b l (page x)) eqn:Ep.
      * exfalso. apply in_pages_iff in Ep; auto using psz0. lia.
      * cbn in *. auto.
  - eapply vframe_trans; eauto.
  - intros q Hq. cbn. rewrite Hout by auto. cbn. auto.
  - intros p q Hl. cbn in Hl. destruct (in_pages e b l p); [discriminate|auto].
Qed.

Lemma fi_mmap_private : forall v v' a len b l f, (psz | a) -> (psz | len) -> (psz | b) -> (psz | l) -> (psz | f) ->
  a <= b -> b + l <= f -> f + l <= a + len ->
  (forall p q, link v' p = Some q -> in_pages e a len p = true -> in_pages e f l q = true) ->
  (forall q, in_pages e f l q = true -> mapped v' q = true /\ link v' q = None) ->
  fresh_in (in_pages e a len) v v' ->
  fresh_in (in_pages e a len) v (mmap_private e v' b l f).
Proof.
  intros v v' a len b l f D1 D2 D3 D4 D5 H1 H2 H3 HL Hf [F W R M C].
  assert (Hsub : forall q, in_pages e b l q = true -> in_pages e a len q = true).
  { intros q Hq. apply in_pages_page in Hq; auto using psz0. apply in_pages_page; auto using psz0. lia. }
  assert (Hsubf : forall q, in_pages e f l q = true -> in_pages e a len q = true).
  { intros q Hq. apply in_pages_page in Hq; auto using psz0. apply in_pages_page; auto using psz0. lia. }
  assert (Hout : forall q, in_pages e a len q = false -> in_pages e b l q = false).
  { intros q Hq. apply not_true_false. intros H. apply Hsub in H. congruence. }
  assert (Hbf : forall q, in_pages e f l q = true -> in_pages e b l q = false).
  { intros q Hq. apply not_true_false. intros H. apply in_pages_page in H, Hq; auto using psz0. lia. }
  assert (Htgt : forall p, in_pages e b l p = true -> in_pages e f l (page f + (p - page b)) = true).
  { intros p Hp. apply in_pages_page in Hp; auto using psz0. apply in_pages_page; auto using psz0.
    destruct D3 as [kb ->], D5 as [kf ->]. rewrite !page_mul by apply psz0. lia. }
  assert (HR : vframe e (fun x => mapped v (page x) = true) v' (mmap_private e v' b l f)).
  { assert (HS : forall x, mapped v (page x) = true -> in_pages e a len (page x) = false).
    { intros x Hx. apply not_true_false. intros H. apply F in H. congruence. }
    constructor; cbn.
    - intros x Hx. unfold view. cbn. rewrite Hout by auto. reflexivity.
    - intros x Hx. rewrite Hout by auto. reflexivity.
    - intros p q x Hl Hx Hpq. destruct (in_pages e b l p) eqn:Ep; [|auto]. exfalso.
      injection Hl as <-. pose proof (HS _ Hx). destruct Hpq as [<-|Hq].
      + apply Hsub in Ep. congruence.
      + apply Htgt, Hsubf in Ep. congruence.
    - intros x Hx. rewrite Hout by auto. reflexivity.
    - intros x Hx. rewrite Hout by auto. reflexivity. }
  constructor; auto.
  - destruct W as [W1 W2 W3]. constructor; cbn.
    + intros p q Hl. destruct (in_pages e b l p) eqn:Ep.
      * injection Hl as <-. pose proof (Htgt _ Ep) as Ht. rewrite Hbf by auto. now apply Hf.
      * destruct (in_pages e b l q) eqn:Eq; [|eauto]. exfalso.
        pose proof (C _ _ Hl) as HC. rewrite (Hsub _ Eq) in HC.
        pose proof (HL _ _ Hl HC) as HT. apply Hbf in HT. congruence.
    + intros p q Hl. destruct (in_pages e b l p) eqn:Ep.
      * injection Hl as <-. split; auto. destruct (Hf _ (Htgt _ Ep)) as [-> _]. apply orb_true_r.
      * destruct (W2 _ _ Hl) as [-> ->]. rewrite ?orb_true_r; auto.
    + intros x Hm Hp Hl. destruct (in_pages e b l (page x)); [discriminate|]. cbn in *. auto.
  - eapply vframe_trans; eauto.
  - intros q Hq. cbn. rewrite Hout by auto. cbn. auto.
  - intros p q Hl. cbn in Hl. destruct (in_pages e b l p) eqn:Ep; [|auto].
    injection Hl as <-. rewrite (Hsub _ Ep), (Hsubf _ (Htgt _ Ep)). reflexivity.
Qed.

(** ** aligned_mmap_anonymous *)
Lemma mmap_anon_spec : forall v len choice a v', mmap_anon e v len choice = Some (a, v') -> 
  0 < len /\ (psz | len) /\ (psz | a) /\ psz <= a /\ a + len <= wmax e - psz /\
  (forall q, in_pages e a len q = true -> mapped v q = false) /\
  v' = {| data := fun x => if (a <=? x) && (x <? a + len) then 0 else data v x;
         mapped := fun q => in_pages e a len q || mapped v q;
         link := fun q => if in_pages e a len q then None else link v q;
         populated := fun q => negb (in_pages e a len q) && populated v q;
         dontfork := fun q => negb (in_pages e a len q) && dontfork v q;
         wipefork := fun q => negb (in_pages e a len q) && wipefork v q |}.
Proof.
  intros v len [c|] a v' H; [|discriminate]. unfold mmap_anon in H.
  destruct (_ && _) eqn:E; [|discriminate]. injection H as <- <-.
  repeat rewrite andb_true_iff in E. destruct E as (((((E1 & E2) & E3) & E4) & E5) & E6).
  apply Z.ltb_lt in E1. apply Z.eqb_eq in E2, E3. apply Z.leb_le in E4, E5. unfold user_limit in E5.
  pose proof psz0 as Hp. apply Z.mod_divide in E2, E3; try lia.
  repeat split; auto. intros q Hq. apply in_pages_page in Hq; auto using psz0.
  rewrite forallb_forall in E6. specialize (E6 (q - page c)).
  replace (page c + (q - page c)) with q in E6 by ring. apply negb_true_iff. apply E6.
  apply in_zseq. destruct E2 as [kl ->], E3 as [ka ->]. rewrite page_mul by auto. rewrite Z.div_mul by lia. nia.
Qed.

Definition region_pages (h len : Z) := in_pages e h len.

(** A new anonymous mapping [h, h + len). *)
Record new_map (h len : Z) (v v' : vm) : Prop := {
  nm_fi : fresh_in (in_pages e h len) v v';
  nm_mapped : forall q, in_pages e h len q = true -> mapped v' q = true;
  nm_link : forall q, in_pages e h len q = true -> link v' q = None;
  nm_zero : forall a, h <= a < h + len -> data v' a = 0;
  nm_pop : forall q, in_pages e h len q = true -> populated v' q = false;
  nm_df : forall q, in_pages e h len q = true -> dontfork v' q = false;
  nm_wf : forall q, in_pages e h len q = true -> wipefork v' q = false
}.

Lemma mmap_anon_new : forall v len choice a v', vmwf e v -> mmap_anon e v len choice = Some (a, v') ->
  new_map a len v v'.
Proof.
  intros v len choice a v' [W1 W2 W3] H. apply mmap_anon_spec in H.
  destruct H as (L & D1 & D2 & Ha & Hh & Hfree & ->).
  assert (HS : forall q, mapped v q = true -> in_pages e a len q = false).
  { intros q Hq. apply not_true_false. intros H. apply Hfree in H. congruence. }
  assert (HD : forall x, in_pages e a len (page x) = false -> (a <=? x) && (x <? a + len) = false).
  { intros x Hx. apply not_true_false. intros H. apply andb_prop in H. destruct H as [H1 H2].
    assert (in_pages e a len (page x) = true) by (apply in_pages_iff; auto using psz0; lia). congruence. }
  assert (HL : forall q r, link v q = Some r -> in_pages e a len q = false /\ in_pages e a len r = false).
  { intros q r H. apply W2 in H. destruct H. split; auto. }
  constructor; cbn; try (intros q Hq; rewrite Hq; reflexivity).
  - constructor; cbn; auto.
    + constructor; cbn.
      * intros p q Hl. destruct (in_pages e a len p) eqn:Ep; [discriminate|].
        destruct (HL _ _ Hl) as [_ ->]. eauto.
      * intros p q Hl. destruct (in_pages e a len p) eqn:Ep; [discriminate|].
        destruct (W2 _ _ Hl) as [-> ->]. rewrite ?orb_true_r; auto.
      * intros x Hm Hp Hl. destruct ((a <=? x) && (x <? a + len)) eqn:Ex; auto.
        destruct (in_pages e a len (page x)) eqn:Ep; cbn in *; auto.
        apply in_pages_iff in Ep; auto using psz0. lia.
    + constructor; cbn.
      * intros x Hx. unfold view. cbn. rewrite (HS _ Hx). destruct (link v (page x)) as [q|] eqn:El.
        -- rewrite HD; auto. rewrite page_at by (auto using psz0; apply mod_lt, psz0). eapply HL; eauto.
        -- rewrite HD; auto.
      * intros x Hx. rewrite (HS _ Hx). reflexivity.
      * intros p q x Hl Hx _. destruct (in_pages e a len p); [discriminate|auto].
      * intros x Hx. rewrite (HS _ Hx). reflexivity.
      * intros x Hx. rewrite (HS _ Hx). reflexivity.
    + intros q Hq. rewrite Hq. reflexivity.
    + intros p q Hl. destruct (in_pages e a len p) eqn:Ep; [discriminate|].
      destruct (HL _ _ Hl) as [_ ->]. reflexivity.
  - intros x Hx. replace ((a <=? x) && (x <? a + len)) with true; auto. symmetry. apply andb_true_iff. lia.
Qed.

(** Cutting pages off either end of a new mapping. *)
Lemma new_map_cut : forall v v' h len h' len' b l, (psz | h) -> (psz | len) -> (psz | h') -> (psz | len') ->
  (psz | b) -> (psz | l) ->
  (forall x, h <= x < h + len <-> (h' <= x < h' + len' \/ b <= x < b + l)) ->
  (forall x, h' <= x < h' + len' -> ~ b <= x < b + l) ->
  new_map h len v v' -> new_map h' len' v (munmap e v' b l).
Proof.
  intros v v' h len h' len' b l D1 D2 D3 D4 D5 D6 HU HX [[F W R M C] N1 N2 N3 N4 N5 N6].
  assert (Hin : forall q, in_pages e h' len' q = true -> in_pages e h len q = true /\ in_pages e b l q = false).
  { intros q Hq. apply in_pages_page in Hq; auto using psz0. split.
    - apply in_pages_page; auto using psz0. apply HU. auto.
    - apply not_true_false. intros H. apply in_pages_page in H; auto using psz0. eapply HX; eauto. }
  assert (Hb : forall q, in_pages e b l q = true -> in_pages e h len q = true).
  { intros q Hq. apply in_pages_page in Hq; auto using psz0. apply in_pages_page; auto using psz0. apply HU. auto. }
  assert (Hlk : forall p q, link v' p = Some q -> in_pages e h len p = false /\ in_pages e h len q = false).
  { intros p q Hl. pose proof (C _ _ Hl) as HC. destruct (in_pages e h len p) eqn:Ep; auto.
    rewrite (N2 _ Ep) in Hl. discriminate. }
  assert (Hlb : forall p q, link v' p = Some q -> in_pages e b l p = in_pages e b l q).
  { intros p q Hl. destruct (Hlk _ _ Hl) as [A B].
    assert (in_pages e b l p = false) by (apply not_true_false; intros H; apply Hb in H; congruence).
    assert (in_pages e b l q = false) by (apply not_true_false; intros H'; apply Hb in H'; congruence).
    congruence. }
  destruct (munmap_frame v' b l D5 D6 W Hlb) as [W' R'].
  constructor; cbn.
  - constructor; auto.
    + intros q Hq. apply F. now apply Hin.
    + eapply vframe_trans; [exact R|]. eapply vframe_sub; [exact R'|].
      intros x Hx H. assert (in_pages e h len (page x) = true) by (apply Hb; apply in_pages_iff; auto using psz0).
      apply F in H0. congruence.
    + intros q Hq. cbn. destruct (in_pages e b l q) eqn:Eb; cbn.
      * symmetry. apply F. auto.
      * destruct (in_pages e h len q) eqn:Eh; [|auto].
        exfalso. apply in_pages_page in Eh; auto using psz0. apply HU in Eh.
        destruct Eh as [Eh|Eh]; apply in_pages_page in Eh; auto using psz0; congruence.
    + intros p q Hl. cbn in Hl. destruct (in_pages e b l p); [discriminate|].
      destruct (Hlk _ _ Hl) as [A B].
      assert (in_pages e h' len' p = false) by (apply not_true_false; intros H; apply Hin in H; destruct H; congruence).
      assert (in_pages e h' len' q = false) by (apply not_true_false; intros H'; apply Hin in H'; destruct H'; congruence).
      congruence.
  - intros q Hq. destruct (Hin _ Hq) as [A ->]. cbn. auto.
  - intros q Hq. destruct (Hin _ Hq) as [A ->]. auto.
  - intros x Hx. apply N3. apply HU. auto.
  - intros q Hq. destruct (Hin _ Hq) as [A ->]. cbn. auto.
  - intros q Hq. destruct (Hin _ Hq) as [A B]. auto.
  - intros q Hq. destruct (Hin _ Hq) as [A B]. auto.
Qed.

Lemma count_order_pow2 : forall k, 0 <= k < word_bits (e_wide e) -> rseq_get_count_order_ulong (e_wide e) (2 ^ k) = k.
Proof.
  intros k Hk. assert (0 < 2 ^ k) by (apply Z.pow_pos_nonneg; lia).
  assert (2 ^ k < wmax e) by (apply Z.pow_lt_mono_r; lia).
  destruct (count_order_correct (e_wide e) (2 ^ k)) as (H1 & H2 & H3); [unfold wmax in *; lia|].
  cbv zeta in *. pose proof (H3 k ltac:(lia) ltac:(lia)).
  apply Z.pow_le_mono_r_iff in H2; lia.
Qed.

Lemma is_pow2_pow : forall k, 0 <= k < word_bits (e_wide e) -> is_pow2 (2 ^ k) = true.
Proof.
  intros k Hk. pose proof (wb_range (e_wide e)) as Hwb. apply is_pow2_correct; [|right; exists k; split; [lia|reflexivity]].
  assert (0 < 2 ^ k) by (apply Z.pow_pos_nonneg; lia).
  assert (2 ^ k < 2 ^ 64) by (apply Z.pow_lt_mono_r; lia). lia.
Qed.

Lemma land_low_uw : forall x k, 0 <= k < word_bits (e_wide e) -> Z.land x (uw (e_wide e) (2 ^ k - 1)) = x mod 2 ^ k.
Proof.
  intros x k Hk. assert (0 < 2 ^ k) by (apply Z.pow_pos_nonneg; lia).
  assert (2 ^ k < wmax e) by (apply Z.pow_lt_mono_r; lia).
  rewrite (ue_small e) by lia. apply land_low. lia.
Qed.

(** The mapping obtained, and nothing else, remains (C33). *)
Lemma aligned_mmap_spec : forall v len k hdr choice t1 t2,
  0 <= k < word_bits (e_wide e) -> psz <= 2 ^ k -> psz <= len -> (2 ^ k | len) -> 0 <= hdr -> (psz | hdr) ->
  hdr + len + 2 ^ k < wmax e -> vmwf e v ->
  (exists b h v', aligned_mmap_anonymous e v psz len (2 ^ k) hdr choice t1 t2 = Ok (Some (b, h), v') /\
     (2 ^ k | b) /\ h = b - hdr /\ psz <= h /\ b + len <= wmax e - psz /\ new_map h (hdr + len) v v') \/
  (aligned_mmap_anonymous e v psz len (2 ^ k) hdr choice t1 t2 = Ok (None, v) /\
     mmap_anon e v (hdr + len + 2 ^ k - psz) choice = None) \/
  (aligned_mmap_anonymous e v psz len (2 ^ k) hdr choice t1 t2 = Abort /\ (t1 = false \/ t2 = false)).
Proof.
  intros v len k hdr choice t1 t2 Hk Hpk Hpl Hal Hh0 Hh Hov Hwf.
  pose proof psz0 as Hp0. destruct He as (po & Hpo & Hpsz).
  assert (Hk0 : 0 < 2 ^ k) by (apply Z.pow_pos_nonneg; lia).
  assert (Hpok : po <= k) by (rewrite Hpsz in Hpk; apply Z.pow_le_mono_r_iff in Hpk; lia).
  assert (Hpd : (psz | 2 ^ k)) by (rewrite Hpsz; apply div_pow2; lia).
  assert (Hpl' : (psz | len)) by (eapply Z.divide_trans; eauto).
  unfold aligned_mmap_anonymous.
  replace (len <? psz) with false by lia. replace (2 ^ k <? psz) with false by lia.
  rewrite is_pow2_pow by lia. rewrite land_low_uw by lia.
  assert (Hl0 : len mod 2 ^ k = 0) by (apply Z.mod_divide; [lia|auto]). rewrite Hl0.
  cbn [orb negb Z.eqb].
  assert (Hco : rseq_get_count_order_ulong (e_wide e) psz = po) by (rewrite Hpsz; apply count_order_pow2; lia).
  rewrite Hco. replace (po <? 0) with false by lia.
  assert (Hhm : Z.land hdr (uw (e_wide e) (psz - 1)) = 0).
  { rewrite Hpsz. rewrite land_low_uw by lia. rewrite <- Hpsz. apply Z.mod_divide; [lia|auto]. }
  rewrite Hhm. cbn [Z.eqb negb]. rewrite andb_false_r.
  rewrite !(ue_small e (hdr + len)) by lia. rewrite !(ue_small e (hdr + len + 2 ^ k)) by lia.
  rewrite (ue_small e (hdr + len + 2 ^ k - psz)) by lia.
  rewrite !Z.shiftr_div_pow2 by lia. rewrite <- Hpsz.
  set (mc := (hdr + len) / psz). set (pc := (hdr + len + 2 ^ k - psz) / psz).
  assert (Hmc : hdr + len = mc * psz).
  { unfold mc. rewrite Z.mul_comm. apply Z_div_exact_full_2; [lia|]. apply Z.mod_divide; [lia|]. now apply Z.divide_add_r. }
  assert (Hpc : hdr + len + 2 ^ k - psz = pc * psz).
  { unfold pc. rewrite Z.mul_comm. apply Z_div_exact_full_2; [lia|]. apply Z.mod_divide; [lia|].
    apply Z.divide_sub_r; [|apply Z.divide_refl]. apply Z.divide_add_r; [now apply Z.divide_add_r|auto]. }
  clearbody mc pc.
  assert (Hge : mc <= pc) by nia.
  replace (pc <? mc) with false by lia.
  rewrite !Z.shiftl_mul_pow2 by lia. rewrite <- Hpsz. rewrite <- Hpc. rewrite (ue_small e (hdr + len + 2 ^ k - psz)) by lia.
  destruct (mmap_anon e v (hdr + len + 2 ^ k - psz) choice) as [[ptr v1]|] eqn:Em; [|right; left; auto].
  assert (HN := mmap_anon_new _ _ _ _ _ Hwf Em).
  apply mmap_anon_spec in Em. destruct Em as (_ & Dt & Dp & Hplo & Hphi & _ & _).
  (* alignment of the front *)
  rewrite (ue_small e (ptr + hdr)) by lia. rewrite land_low_uw by lia.
  set (x := (- (ptr + hdr)) mod 2 ^ k).
  assert (Hx : 0 <= x < 2 ^ k) by (apply Z.mod_pos_bound; lia).
  assert (Hxd : (2 ^ k | ptr + hdr + x)).
  { unfold x. destruct (offset_align_correct (e_wide e) (ptr + hdr) k ltac:(lia)) as (_ & H & _).
    rewrite offset_align_mod in H by lia. exact H. }
  assert (Hxp : (psz | x)).
  { replace x with (ptr + hdr + x - ptr - hdr) by ring. apply Z.divide_sub_r; auto. apply Z.divide_sub_r; auto.
    eapply Z.divide_trans; [exact Hpd|exact Hxd]. }
  assert (Hxle : x <= 2 ^ k - psz).
  { destruct Hxp as [a Ha]. destruct Hpd as [b Hb]. rewrite Ha, Hb in *. assert (a < b) by nia. nia. }
  assert (Hfront : exists v2,
    (if ((ptr + hdr) mod 2 ^ k =? 0)
     then Ok (ptr, pc, hdr + len + 2 ^ k - psz, v1)
     else
      (let extra := offset_align (e_wide e) (ptr + hdr) (2 ^ k) in
       if negb (Z.land extra (uw (e_wide e) (psz - 1)) =? 0) then Abort
       else if negb t1 then Abort
       else Ok (ptr + extra, pc - Z.shiftr extra po, hdr + len + 2 ^ k - psz - extra, munmap e v1 ptr extra)))
    = (if (negb ((ptr + hdr) mod 2 ^ k =? 0)) && negb t1 then Abort else
       Ok (ptr + x, pc - x / psz, hdr + len + 2 ^ k - psz - x, v2)) /\
    new_map (ptr + x) (hdr + len + 2 ^ k - psz - x) v v2).
  { destruct ((ptr + hdr) mod 2 ^ k =? 0) eqn:E0.
    - exists v1. apply Z.eqb_eq in E0. assert (x = 0) as ->.
      { unfold x. rewrite Z.mod_opp_l_z by lia. reflexivity. }
      rewrite Z.add_0_r, Z.div_0_l, !Z.sub_0_r by lia. split; auto.
    - exists (munmap e v1 ptr x). cbn [negb andb]. rewrite offset_align_mod by lia. fold x. cbv zeta.
      assert (Z.land x (uw (e_wide e) (psz - 1)) = 0) as ->.
      { rewrite Hpsz. rewrite land_low_uw by lia. rewrite <- Hpsz. apply Z.mod_divide; [lia|auto]. }
      cbn [negb Z.eqb]. rewrite Z.shiftr_div_pow2 by lia. rewrite <- Hpsz.
      split; [reflexivity|]. eapply new_map_cut; [| | | | | | | |exact HN]; auto.
      + now apply Z.divide_add_r.
      + apply Z.divide_sub_r; auto.
      + intros y. lia.
      + intros y. lia. }
  cbv zeta in Hfront. destruct Hfront as (v2 & Hfr & HN2). rewrite Hfr; clear Hfr.
  destruct (negb ((ptr + hdr) mod 2 ^ k =? 0) && negb t1) eqn:Et1.
  { right. right. split; [reflexivity|]. left. destruct t1; auto. rewrite andb_false_r in Et1. discriminate. }
  cbn [bind].
  assert (Hxpz : x / psz * psz = x).
  { rewrite Z.mul_comm. symmetry. apply Z_div_exact_full_2; [lia|]. apply Z.mod_divide; [lia|auto]. }
  assert (Hpc2 : mc <= pc - x / psz) by nia.
  replace (pc - x / psz <? mc) with false by lia.
  set (pc2 := pc - x / psz) in *.
  assert (Htot : hdr + len + 2 ^ k - psz - x = pc2 * psz) by (unfold pc2; nia).
  assert (Hback : exists v3,
    (if mc <? pc2
     then
      (let extra_ptr := ptr + x + mc * psz in
       let extra := Z.shiftl (pc2 - mc) po in
       if negb t2 then Abort else Ok (hdr + len + 2 ^ k - psz - x - extra, munmap e v2 extra_ptr extra))
     else Ok (hdr + len + 2 ^ k - psz - x, v2)) =
    (if (mc <? pc2) && negb t2 then Abort else Ok (hdr + len, v3)) /\
    new_map (ptr + x) (hdr + len) v v3).
  { destruct (mc <? pc2) eqn:E1.
    - apply Z.ltb_lt in E1. exists (munmap e v2 (ptr + x + mc * psz) ((pc2 - mc) * psz)). cbv zeta. cbn [andb].
      rewrite Z.shiftl_mul_pow2 by lia. rewrite <- Hpsz. split.
      + destruct t2; cbn [negb]; auto. f_equal. f_equal. lia.
      + eapply new_map_cut; [| | | | | | | |exact HN2].
        * now apply Z.divide_add_r.
        * rewrite Htot. apply Z.divide_factor_r.
        * now apply Z.divide_add_r.
        * rewrite Hmc. apply Z.divide_factor_r.
        * apply Z.divide_add_r; [now apply Z.divide_add_r|apply Z.divide_factor_r].
        * apply Z.divide_factor_r.
        * intros y. rewrite Htot, Hmc. nia.
        * intros y. rewrite Hmc. nia.
    - apply Z.ltb_ge in E1. exists v2. cbn [andb]. assert (pc2 = mc) by lia.
      replace (hdr + len + 2 ^ k - psz - x) with (hdr + len) in * by lia. split; auto. }
  cbv zeta in Hback. destruct Hback as (v3 & Hba & HN3). rewrite Hba; clear Hba.
  destruct ((mc <? pc2) && negb t2) eqn:Et2.
  { right. right. split; [reflexivity|]. right. destruct t2; auto. rewrite andb_false_r in Et2. discriminate. }
  cbn [bind]. left. exists (ptr + x + hdr), (ptr + x), v3.
  rewrite (ue_small e (ptr + x + hdr)) by lia. rewrite land_low_uw by lia.
  assert ((ptr + x + hdr) mod 2 ^ k = 0) as ->.
  { apply Z.mod_divide; [lia|]. replace (ptr + x + hdr) with (ptr + hdr + x) by ring. auto. }
  cbn [negb Z.eqb]. rewrite (Z.add_comm len hdr), (ue_small e) by lia. rewrite Z.eqb_refl. cbn [negb].
  split; [reflexivity|]. split; [replace (ptr + x + hdr) with (ptr + hdr + x) by ring; auto|].
  split; [ring|]. split; [lia|]. split; [lia|auto].
Qed.
End Map.
