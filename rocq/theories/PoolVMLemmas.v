(** Lemmas about the address space of PoolVM.v. *)
From Coq Require Import ZArith Bool List Lia.
From Verif Require Import UtilsModel UtilsLemmas RseqIR MemLemmas PoolVM.
Import ListNotations.
Local Open Scope Z_scope.

Section VML.
Variable e : env.
Hypothesis Hpsz : 0 < e_page e.
Notation psz := (e_page e).
Notation page := (page e).

(** A consistent address space. *)
Record vmwf (v : vm) : Prop := {
  wf_chain : forall p q, link v p = Some q -> link v q = None;
  wf_mapped : forall p q, link v p = Some q -> mapped v p = true /\ mapped v q = true;
  wf_zero : forall a, mapped v (page a) = true -> populated v (page a) = false ->
            link v (page a) = None -> data v a = 0
}.

Definition aliases (v : vm) (x a : Z) : Prop :=
  a = x \/ (link v (page a) = Some (page x) /\ a mod psz = x mod psz).

Lemma page_split : forall a, a = page a * psz + a mod psz.
Proof. intros a. unfold PoolVM.page. pose proof (Z.div_mod a psz ltac:(lia)). lia. Qed.

Lemma mod_lt : forall a, 0 <= a mod psz < psz.
Proof. intros a. apply Z.mod_pos_bound. lia. Qed.

Lemma page_at : forall q o, 0 <= o < psz -> page (q * psz + o) = q.
Proof.
  intros q o Ho. unfold PoolVM.page. rewrite Z.div_add_l by lia. rewrite Z.div_small by lia. lia.
Qed.

Lemma page_mono : forall a b, a <= b -> page a <= page b.
Proof. intros a b H. unfold PoolVM.page. apply Z.div_le_mono; lia. Qed.

Lemma page_bounds : forall a, page a * psz <= a < page a * psz + psz.
Proof. intros a. pose proof (page_split a). pose proof (mod_lt a). lia. Qed.

Lemma page_mul : forall q, page (q * psz) = q.
Proof. intros q. unfold PoolVM.page. apply Z.div_mul. lia. Qed.

(** For aligned addresses, pages and bytes agree. *)
Lemma page_lt_iff : forall a x, (psz | x) -> (page a < page x <-> a < x).
Proof.
  intros a x [k ->]. rewrite page_mul. pose proof (page_bounds a). split; intros; nia.
Qed.
Lemma page_le_iff : forall a x, (psz | x) -> (page x <= page a <-> x <= a).
Proof.
  intros a x [k ->]. rewrite page_mul. pose proof (page_bounds a). split; intros; nia.
Qed.

Lemma in_pages_iff : forall a len x, (psz | a) -> (psz | len) ->
  in_pages e a len (page x) = true <-> a <= x < a + len.
Proof.
  intros a len x Ha Hl. unfold in_pages. rewrite andb_true_iff, Z.leb_le, Z.ltb_lt.
  rewrite page_le_iff by auto. rewrite page_lt_iff by (apply Z.divide_add_r; auto). reflexivity.
Qed.

Lemma in_pages_page : forall a len q, (psz | a) -> (psz | len) ->
  in_pages e a len q = true <-> a <= q * psz < a + len.
Proof. intros a len q Ha Hl. rewrite <- (page_mul q) at 1. apply in_pages_iff; auto. Qed.

(** ** Stores *)
Lemma store_cons : forall v p ps, store e v (p :: ps) = store e (store1 e v p) ps.
Proof. reflexivity. Qed.

Lemma view_store1 : forall v x b a, vmwf v ->
  (aliases v x a -> view e (store1 e v (x, b)) a = b) /\
  (~ aliases v x a -> view e (store1 e v (x, b)) a = view e v a).
Proof.
  intros v x b a Hwf. unfold view at 1 2. cbn [store1 link data].
  destruct (page a =? page x) eqn:Ep.
  - apply Z.eqb_eq in Ep. destruct (a =? x) eqn:Ea.
    + apply Z.eqb_eq in Ea. split; [reflexivity|]. intros H. elim H. now left.
    + apply Z.eqb_neq in Ea. split; [|intros _; reflexivity].
      intros [->|[H1 H2]]; [congruence|].
      exfalso. rewrite Ep in H1. pose proof (wf_chain _ Hwf _ _ H1). congruence.
  - apply Z.eqb_neq in Ep. destruct (link v (page a)) as [q|] eqn:El.
    + rewrite page_at by apply mod_lt.
      destruct (q * psz + a mod psz =? x) eqn:Ey.
      * apply Z.eqb_eq in Ey. split; [reflexivity|].
        intros H. elim H. right. split.
        -- rewrite <- Ey. rewrite page_at by apply mod_lt. exact El.
        -- rewrite <- Ey. rewrite Z.add_comm, Z.mod_add by lia. symmetry. apply Z.mod_mod. lia.
      * apply Z.eqb_neq in Ey. split.
        -- intros [->|[H1 H2]]; [congruence|]. exfalso. apply Ey.
           rewrite El in H1. injection H1 as ->. rewrite H2. symmetry. apply page_split.
        -- intros _. unfold view at 2. rewrite El.
           destruct (q =? page x) eqn:Eq; [|reflexivity].
           unfold view. rewrite page_at by apply mod_lt.
           rewrite (wf_chain _ Hwf _ _ El). reflexivity.
    + destruct (a =? x) eqn:Ea; [apply Z.eqb_eq in Ea; subst; congruence|].
      split; [intros [->|[H1 _]]; [|congruence] | intros _; unfold view; now rewrite El].
      rewrite Z.eqb_refl in Ea. discriminate.
Qed.

Lemma store1_wf : forall v p, vmwf v -> vmwf (store1 e v p).
Proof.
  intros v [x b] Hwf. constructor; cbn [store1 link mapped populated data].
  - intros p q H. destruct (p =? page x); [discriminate|].
    apply (wf_chain _ Hwf) in H. destruct (q =? page x); auto.
  - intros p q H. destruct (p =? page x); [discriminate|]. eapply wf_mapped; eauto.
  - intros a Hm Hp Hl. destruct (a =? x) eqn:Ea.
    + apply Z.eqb_eq in Ea. subst. rewrite Z.eqb_refl in Hp. discriminate.
    + destruct (page a =? page x); [discriminate|]. eapply wf_zero; eauto.
Qed.

Lemma store_wf : forall ps v, vmwf v -> vmwf (store e v ps).
Proof. induction ps; intros v H; auto. rewrite store_cons. apply IHps. now apply store1_wf. Qed.

Lemma store_mapped : forall ps v q, mapped (store e v ps) q = mapped v q.
Proof. induction ps as [|[x b] ps IH]; intros v q; auto. rewrite store_cons, IH. reflexivity. Qed.
Lemma store_dontfork : forall ps v q, dontfork (store e v ps) q = dontfork v q.
Proof. induction ps as [|[x b] ps IH]; intros v q; auto. rewrite store_cons, IH. reflexivity. Qed.
Lemma store_wipefork : forall ps v q, wipefork (store e v ps) q = wipefork v q.
Proof. induction ps as [|[x b] ps IH]; intros v q; auto. rewrite store_cons, IH. reflexivity. Qed.

Lemma store_link : forall ps v q r, link (store e v ps) q = Some r ->
  link v q = Some r /\ (forall x, In x (map fst ps) -> page x <> q).
Proof.
  induction ps as [|[x b] ps IH]; intros v q r H.
  - cbn in H. split; auto.
  - rewrite store_cons in H.
    apply IH in H. destruct H as [H1 H2]. cbn [store1 link] in H1.
    destruct (q =? page x) eqn:Eq; [discriminate|]. apply Z.eqb_neq in Eq.
    split; auto. intros y [<-|Hy]; auto.
Qed.

Lemma store_link_none : forall ps v q, link v q = None -> link (store e v ps) q = None.
Proof.
  intros ps v q H. destruct (link (store e v ps) q) eqn:E; auto.
  apply store_link in E. destruct E. congruence.
Qed.

Lemma store_app : forall ps qs v, store e v (ps ++ qs) = store e (store e v ps) qs.
Proof. intros. unfold store. now rewrite fold_left_app. Qed.

Lemma store_populated : forall ps v q,
  populated (store e v ps) q = true <-> populated v q = true \/ exists x, In x (map fst ps) /\ page x = q.
Proof.
  induction ps as [|[x b] ps IH]; intros v q.
  - cbn. split; [auto|]. intros [H|(x & [] & _)]; auto.
  - rewrite store_cons, IH.
    cbn [store1 populated]. destruct (q =? page x) eqn:Eq.
    + apply Z.eqb_eq in Eq. split; [|auto]. intros _. right. exists x. split; [now left|auto].
    + apply Z.eqb_neq in Eq. split.
      * intros [H|(y & Hy & H)]; [auto|]. right. exists y. split; [now right|auto].
      * intros [H|(y & [<-|Hy] & H)]; [auto|cbn in H; congruence|]. right. exists y. auto.
Qed.

Lemma aliases_store1 : forall v p x a, aliases (store1 e v p) x a -> aliases v x a.
Proof.
  intros v [y b] x a [->|[H1 H2]]; [now left|]. right. split; auto.
  cbn [store1 link] in H1. destruct (page a =? page y); [discriminate|auto].
Qed.

Lemma view_store_other : forall ps v a, vmwf v ->
  (forall x, In x (map fst ps) -> ~ aliases v x a) -> view e (store e v ps) a = view e v a.
Proof.
  induction ps as [|[x b] ps IH]; intros v a Hwf H; auto.
  rewrite store_cons, IH.
  - apply view_store1; auto. apply H. now left.
  - now apply store1_wf.
  - intros y Hy Hal. apply aliases_store1 in Hal. eapply H; [|exact Hal]. now right.
Qed.

Lemma view_store_key : forall ps v a, vmwf v -> In a (map fst ps) ->
  exists b, In (a, b) ps /\ view e (store e v ps) a = b.
Proof.
  intros ps. induction ps as [|[y c] ps IH] using rev_ind; intros v a Hwf Ha; [destruct Ha|].
  rewrite map_app, in_app_iff in Ha. rewrite store_app, store_cons; cbn [store fold_left] in *; fold (store e v ps).
  assert (Hwf' : vmwf (store e v ps)) by now apply store_wf.
  destruct (Z.eq_dec a y) as [->|Hne].
  - exists c. split; [apply in_app_iff; right; now left|].
    apply view_store1; auto. now left.
  - destruct Ha as [Ha|[Ha|[]]]; [|cbn in Ha; congruence].
    destruct (IH v a Hwf Ha) as (b & Hb & Hv). exists b. split; [apply in_app_iff; auto|].
    rewrite <- Hv. apply view_store1; auto. intros [->|[H1 _]]; [congruence|].
    apply store_link in H1. destruct H1 as [_ H1]. eapply H1; eauto.
Qed.

Lemma view_store_val : forall ps v a b, vmwf v -> functional ps -> In (a, b) ps ->
  view e (store e v ps) a = b.
Proof.
  intros ps v a b Hwf Hf Hin.
  destruct (view_store_key ps v a Hwf) as (b' & Hb & Hv).
  - apply in_map_iff. exists (a, b). auto.
  - rewrite Hv. eapply Hf; eauto.
Qed.

(** ** Frames: what an operation leaves alone on the addresses [R]. *)
Record vframe (R : Z -> Prop) (v v' : vm) : Prop := {
  fr_view : forall a, R a -> view e v' a = view e v a;
  fr_mapped : forall a, R a -> mapped v' (page a) = mapped v (page a);
  fr_link : forall p q a, link v' p = Some q -> R a -> (page a = p \/ page a = q) -> link v p = Some q;
  fr_dontfork : forall a, R a -> dontfork v' (page a) = dontfork v (page a);
  fr_wipefork : forall a, R a -> wipefork v' (page a) = wipefork v (page a)
}.

Lemma vframe_refl : forall R v, vframe R v v.
Proof. intros R v. constructor; auto. Qed.

Lemma vframe_trans : forall R v1 v2 v3, vframe R v1 v2 -> vframe R v2 v3 -> vframe R v1 v3.
Proof.
  intros R v1 v2 v3 [A1 A2 A3 A4 A5] [B1 B2 B3 B4 B5]. constructor.
  - intros a H. rewrite B1, A1; auto.
  - intros a H. rewrite B2, A2; auto.
  - intros p q a Hl HR Hp. eapply A3; eauto.
  - intros a H. rewrite B4, A4; auto.
  - intros a H. rewrite B5, A5; auto.
Qed.

Lemma vframe_sub : forall (R R' : Z -> Prop) v v', vframe R v v' -> (forall a, R' a -> R a) -> vframe R' v v'.
Proof.
  intros R R' v v' [A1 A2 A3 A4 A5] H. constructor; eauto.
Qed.

Lemma vframe_store : forall (R : Z -> Prop) v ps, vmwf v ->
  (forall x a, In x (map fst ps) -> R a -> ~ aliases v x a) -> vframe R v (store e v ps).
Proof.
  intros R v ps Hwf H. constructor.
  - intros a Ha. apply view_store_other; auto.
  - intros a _. apply store_mapped.
  - intros p q a Hl _ _. apply store_link in Hl. tauto.
  - intros a _. apply store_dontfork.
  - intros a _. apply store_wipefork.
Qed.

(** ** Access checks *)
Lemma in_zseq : forall a n x, In x (zseq a n) <-> a <= x < a + n.
Proof.
  intros a n x. unfold zseq. rewrite in_map_iff. split.
  - intros (i & <- & Hi). apply in_seq in Hi. lia.
  - intros H. exists (Z.to_nat (x - a)). split; [lia|]. apply in_seq. lia.
Qed.

Lemma NoDup_zseq : forall a n, NoDup (zseq a n).
Proof.
  intros a n. unfold zseq. apply FinFun.Injective_map_NoDup; [|apply seq_NoDup].
  intros i j H. lia.
Qed.

Lemma accessible_true : forall v a len,
  (forall x, a <= x < a + Z.max len 1 -> mapped v (page x) = true) -> accessible e v a len = true.
Proof.
  intros v a len H. unfold accessible. apply forallb_forall. intros i Hi. apply in_zseq in Hi.
  pose proof (page_bounds a) as B1. pose proof (page_bounds (a + len - 1)) as B2.
  assert (Hq : exists x, page x = page a + i /\ a <= x < a + Z.max len 1).
  { destruct (Z.eq_dec i 0) as [->|Hi0].
    - exists a. split; [lia|]. lia.
    - exists ((page a + i) * psz). rewrite page_mul. split; [lia|].
      assert ((page a + i) * psz <= page (a + len - 1) * psz) by nia. nia. }
  destruct Hq as (x & <- & Hx). auto.
Qed.

Lemma accessible_inv : forall v a len x, accessible e v a len = true -> a <= x < a + len -> mapped v (page x) = true.
Proof.
  intros v a len x H Hx. unfold accessible in H. rewrite forallb_forall in H.
  replace (page x) with (page a + (page x - page a)) by lia. apply H. apply in_zseq.
  pose proof (page_mono a x ltac:(lia)). pose proof (page_mono x (a + len - 1) ltac:(lia)). lia.
Qed.

Lemma accessible_ext : forall v v' a len, (forall q, mapped v' q = mapped v q) ->
  accessible e v' a len = accessible e v a len.
Proof.
  intros v v' a len H. unfold accessible. induction (zseq 0 _); cbn; auto. now rewrite H, IHl.
Qed.

(** ** Words *)
Lemma in_span : forall a n x, In x (span a n) <-> a <= x < a + Z.of_nat n.
Proof.
  intros a n x. unfold span. rewrite in_map_iff. split.
  - intros (i & <- & Hi). apply in_seq in Hi. lia.
  - intros H. exists (Z.to_nat (x - a)). split; [lia|]. apply in_seq. lia.
Qed.

Lemma wsz_nat : Z.of_nat (wsize (wcfg e)) = wsz e.
Proof. unfold wcfg, wsz. destruct (e_wide e); reflexivity. Qed.
Lemma wsz_range : 4 <= wsz e <= 8.
Proof. unfold wsz. destruct (e_wide e); lia. Qed.
Lemma wsz_pow : wsz e = 2 ^ wlog e.
Proof. unfold wsz, wlog. destruct (e_wide e); reflexivity. Qed.
Lemma wlog_range : 2 <= wlog e <= 3.
Proof. unfold wlog. destruct (e_wide e); lia. Qed.
Lemma wmod_wmax : wmod (wcfg e) = wmax e.
Proof. unfold wmod, wmax. rewrite wsz_nat. unfold wsz. destruct (e_wide e); reflexivity. Qed.
Lemma wmax_range : 2 ^ 32 <= wmax e <= 2 ^ 64.
Proof. unfold wmax. apply wb_max. Qed.
Lemma ue_small : forall x, 0 <= x < wmax e -> uw (e_wide e) x = x.
Proof. exact (uw_small (e_wide e)). Qed.
Lemma wbits_wsz : word_bits (e_wide e) = 8 * wsz e.
Proof. unfold wsz. destruct (e_wide e); reflexivity. Qed.

Lemma load_word_ext : forall v v' a,
  (forall x, a <= x < a + wsz e -> view e v' x = view e v x) -> load_word e v' a = load_word e v a.
Proof.
  intros v v' a H. unfold load_word. apply ldw_agree. intros x Hx.
  apply in_span in Hx. rewrite wsz_nat in Hx. apply H. lia.
Qed.

Lemma load_word_range : forall v a, 0 <= load_word e v a < wmax e.
Proof. intros v a. rewrite <- wmod_wmax. exact (ldw_range (wcfg e) (view e v) a). Qed.

Lemma load_word_sat : forall v a w, 0 <= w < wmax e ->
  (forall x b, In (x, b) (stw (wcfg e) a w) -> view e v x = b) -> load_word e v a = w.
Proof.
  intros v a w Hw H. unfold load_word.
  transitivity (ldw (wcfg e) (wr (view e v) (stw (wcfg e) a w)) a); [|apply ldw_stw; rewrite wmod_wmax; exact Hw].
  apply ldw_agree. intros x Hx. 
  destruct (in_dec Z.eq_dec x (map fst (stw (wcfg e) a w))) as [Hin|Hn].
  - destruct (wr_in _ (view e v) _ Hin) as (b & Hb & ->). now apply H.
  - now rewrite wr_notin by auto.
Qed.

Lemma load_word_store : forall v a w, vmwf v -> 0 <= w < wmax e ->
  load_word e (store e v (stw (wcfg e) a w)) a = w.
Proof.
  intros v a w Hwf Hw. apply load_word_sat; auto. intros x b Hin.
  apply view_store_val; auto. apply stw_functional.
Qed.

(** A word is determined by its bytes, and conversely. *)
Lemma ldw_bytes_eq : forall m m' a, ldw (wcfg e) m a = ldw (wcfg e) m' a ->
  forall x, a <= x < a + wsz e -> byte m x = byte m' x.
Proof.
  intros m m' a H x Hx. unfold ldw in H.
  assert (Hinj : forall l l', length l = length l' -> Forall (fun b => 0 <= b < 256) l ->
            Forall (fun b => 0 <= b < 256) l' -> le_val l = le_val l' -> l = l').
  { induction l as [|b l IH]; intros [|b' l'] Hlen Hl Hl' Hv; cbn in Hlen; try discriminate; auto.
    inversion Hl; subst. inversion Hl'; subst. cbn [le_val] in Hv.
    assert (b = b') by lia.
    subst. f_equal. apply IH; auto. lia. }
  assert (Hb : forall m0, Forall (fun b => 0 <= b < 256) (map (byte m0) (span a (wsize (wcfg e))))).
  { intros m0. apply Forall_forall. intros y Hy. apply in_map_iff in Hy. destruct Hy as (z & <- & _).
    unfold byte. apply Z.mod_pos_bound. lia. }
  assert (Ho : forall m0, Forall (fun b => 0 <= b < 256) (order (wcfg e) (map (byte m0) (span a (wsize (wcfg e)))))).
  { intros m0. unfold order. destruct (bigend (wcfg e)); auto. now apply Forall_rev. }
  apply Hinj in H; auto.
  - apply (f_equal (order (wcfg e))) in H. rewrite !order_involutive in H.
    rewrite map_ext_in_iff in H. apply H. apply in_span. rewrite wsz_nat. lia.
  - unfold order. destruct (bigend (wcfg e)); rewrite ?rev_length, !map_length; auto.
Qed.
End VML.
