(** Lemmas about byte memories, and framing of the pseudo-code. *)
From Coq Require Import ZArith Bool List Lia FinFun.
From Verif Require Import RseqIR RseqSpec.
Import ListNotations.
Local Open Scope Z_scope.

(** [m] already holds the bytes [ps]. *)
Definition sat (m : mem) (ps : list (Z * Z)) : Prop := forall a b, In (a, b) ps -> m a = b.
Definition functional (ps : list (Z * Z)) : Prop :=
  forall a b b', In (a, b) ps -> In (a, b') ps -> b = b'.
Definition agree (l : list Z) (m m' : mem) : Prop := forall a, In a l -> m' a = m a.

Lemma wr_cons : forall m p ps, wr m (p :: ps) = wr (upd_mem m p) ps.
Proof. reflexivity. Qed.

Lemma wr_app : forall m ps qs, wr m (ps ++ qs) = wr (wr m ps) qs.
Proof. intros. unfold wr. apply fold_left_app. Qed.

Lemma wr_ext : forall ps m m', meq m m' -> meq (wr m ps) (wr m' ps).
Proof.
  induction ps as [|p ps IH]; intros m m' H; [exact H|].
  rewrite !wr_cons. apply IH. intros a. unfold upd_mem. destruct (a =? fst p); auto.
Qed.

Lemma wr_notin : forall ps m a, ~ In a (map fst ps) -> wr m ps a = m a.
Proof.
  induction ps as [|p ps IH]; intros m a H; [reflexivity|].
  rewrite wr_cons, IH by (intros ?; apply H; now right).
  unfold upd_mem. destruct (Z.eqb_spec a (fst p)); auto.
  exfalso. apply H. left. auto.
Qed.

Lemma wr_in : forall ps m a, In a (map fst ps) -> exists b, In (a, b) ps /\ wr m ps a = b.
Proof.
  induction ps as [|p ps IH]; intros m a H; [destruct H|].
  rewrite wr_cons. destruct (in_dec Z.eq_dec a (map fst ps)) as [Hi|Hn].
  - destruct (IH (upd_mem m p) a Hi) as (b & Hb & Hw). exists b. split; [now right|auto].
  - destruct H as [H|H]; [|contradiction]. exists (snd p). split.
    + left. destruct p; cbn in *; subst; auto.
    + rewrite wr_notin by auto. unfold upd_mem. rewrite <- H. now rewrite Z.eqb_refl.
Qed.

Lemma wr_functional : forall ps m a b, functional ps -> In (a, b) ps -> wr m ps a = b.
Proof.
  intros ps m a b Hf Hi.
  destruct (wr_in ps m a (in_map fst _ _ Hi)) as (b' & Hb & Hw).
  rewrite Hw. eapply Hf; eauto.
Qed.

Lemma wr_sat : forall ps m, sat m ps -> meq (wr m ps) m.
Proof.
  intros ps m H a. destruct (in_dec Z.eq_dec a (map fst ps)) as [Hi|Hn].
  - destruct (wr_in ps m a Hi) as (b & Hb & Hw). rewrite Hw. symmetry. auto.
  - apply wr_notin; auto.
Qed.

Lemma sat_incl : forall m ps qs, sat m qs -> incl ps qs -> sat m ps.
Proof. intros m ps qs H Hi a b Hab. apply H, Hi, Hab. Qed.

Lemma agree_sym : forall l m m', agree l m m' -> agree l m' m.
Proof. intros l m m' H a Ha. symmetry. auto. Qed.

Lemma agree_incl : forall l l' m m', agree l m m' -> incl l' l -> agree l' m m'.
Proof. intros l l' m m' H Hi a Ha. auto. Qed.

Lemma agree_app : forall l l' m m', agree (l ++ l') m m' -> agree l m m' /\ agree l' m m'.
Proof. intros l l' m m' H. split; intros a Ha; apply H, in_or_app; auto. Qed.

Lemma agree_wr : forall l m ps, disjoint (map fst ps) l -> agree l m (wr m ps).
Proof. intros l m ps H a Ha. apply wr_notin. intros Hi. exact (H a Hi Ha). Qed.

Lemma ldw_agree : forall g m m' a, agree (span a (wsize g)) m m' -> ldw g m' a = ldw g m a.
Proof.
  intros g m m' a H. unfold ldw. f_equal. f_equal. apply map_ext_in.
  intros x Hx. unfold byte. now rewrite (H x Hx).
Qed.

Lemma memcpy_agree : forall m m' dst src n, agree (span src n) m m' ->
  memcpy_bytes m' dst src n = memcpy_bytes m dst src n.
Proof.
  intros. unfold memcpy_bytes. apply map_ext_in. intros i Hi. f_equal.
  unfold byte. rewrite H; auto. unfold span.
  apply (in_map (fun i => src + Z.of_nat i)). auto.
Qed.

(** The pseudo-code only depends on what it reads. *)
Lemma pseudo_agree : forall g op m m', agree (read_foot g op m) m m' ->
  pseudo g op m' = pseudo g op m /\ read_foot g op m' = read_foot g op m.
Proof.
  intros g op m m' H. destruct op; cbn [read_foot pseudo] in *.
  - rewrite (ldw_agree g m m' v H). auto.
  - rewrite (ldw_agree g m m' v H). auto.
  - apply agree_app in H. destruct H as [H1 H2].
    rewrite (ldw_agree g m m' v H1). destruct (ldw g m v =? expectnot); auto.
    rewrite (ldw_agree g m m' _ H2). auto.
  - apply agree_app in H. destruct H as [H1 H2]. apply agree_app in H2. destruct H2 as [H2 H3].
    rewrite (ldw_agree g m m' ptr H1). rewrite (ldw_agree g m m' _ H2).
    rewrite (ldw_agree g m m' _ H3). auto.
  - apply agree_app in H. destruct H as [H1 H2].
    rewrite (ldw_agree g m m' v H1). destruct (ldw g m v =? expect); auto.
    rewrite (ldw_agree g m m' _ H2). auto.
  - rewrite (ldw_agree g m m' v H). auto.
  - apply agree_app in H. destruct H as [H1 H2].
    rewrite (ldw_agree g m m' v H1). destruct (ldw g m v =? expect); auto.
    rewrite (memcpy_agree m m' dst src len H2). auto.
Qed.

Lemma attempts_agree : forall g op m m', agree (read_foot g op m) m m' ->
  attempts g op m' = attempts g op m.
Proof. intros. unfold attempts. destruct (pseudo_agree g op m m' H) as [-> _]. auto. Qed.

Lemma combine_functional : forall (l : list Z) l', NoDup l -> functional (combine l l').
Proof.
  induction l as [|x l IH]; intros l' Hn a b b' H1 H2; [destruct H1|].
  destruct l' as [|y l']; [destruct H1|]. cbn in H1, H2. inversion Hn as [|? ? Hx Hl]; subst.
  destruct H1 as [H1|H1], H2 as [H2|H2].
  - congruence.
  - inversion H1; subst. apply in_combine_l in H2. contradiction.
  - inversion H2; subst. apply in_combine_l in H1. contradiction.
  - eapply IH; eauto.
Qed.

Lemma NoDup_span : forall a n, NoDup (span a n).
Proof.
  intros. unfold span. apply Injective_map_NoDup; [|apply seq_NoDup].
  intros i j H. lia.
Qed.

Lemma stw_functional : forall g a v, functional (stw g a v).
Proof. intros. unfold stw. apply combine_functional, NoDup_span. Qed.

Lemma memcpy_functional : forall m dst src n, functional (memcpy_bytes m dst src n).
Proof.
  unfold memcpy_bytes. intros m dst src n a b b' H1 H2.
  apply in_map_iff in H1. apply in_map_iff in H2.
  destruct H1 as (i & Hi & _), H2 as (j & Hj & _).
  inversion Hi; subst. inversion Hj; subst. assert (i = j) by lia. now subst.
Qed.

Lemma attempts_functional : forall g op m, functional (attempts g op m).
Proof.
  intros. unfold attempts. destruct op; cbn [pseudo];
    repeat match goal with |- context [if ?b then _ else _] => destruct b end;
    try apply stw_functional; try apply memcpy_functional; intros a b b' [].
Qed.

Lemma le_bytes_length : forall n v, length (le_bytes n v) = n.
Proof. induction n; intros; cbn; auto. Qed.

Lemma order_length : forall g l, length (order g l) = length l.
Proof. intros. unfold order. destruct (bigend g); auto. apply rev_length. Qed.

Lemma span_length : forall a n, length (span a n) = n.
Proof. intros. unfold span. now rewrite map_length, seq_length. Qed.

Lemma stw_keys : forall g a v, map fst (stw g a v) = span a (wsize g).
Proof.
  intros. unfold stw.
  assert (H : length (span a (wsize g)) = length (order g (le_bytes (wsize g) v)))
    by now rewrite order_length, le_bytes_length, span_length.
  revert H. generalize (span a (wsize g)) (order g (le_bytes (wsize g) v)).
  induction l as [|x l IH]; intros [|y l'] H; cbn in *; try discriminate; auto.
  f_equal. apply IH. lia.
Qed.

Lemma memcpy_keys : forall m dst src n, map fst (memcpy_bytes m dst src n) = span dst n.
Proof. intros. unfold memcpy_bytes, span. rewrite map_map. reflexivity. Qed.

Lemma le_val_range : forall l, Forall (fun b => 0 <= b < 256) l ->
  0 <= le_val l < 2 ^ (8 * Z.of_nat (length l)).
Proof.
  induction l as [|b l IH]; intros H; [cbn; lia|].
  inversion H as [|? ? Hb Hl]; subst. specialize (IH Hl). cbn [length le_val].
  replace (8 * Z.of_nat (S (length l))) with (8 + 8 * Z.of_nat (length l)) by lia.
  rewrite Z.pow_add_r by lia. change (2 ^ 8) with 256. lia.
Qed.

Lemma le_val_bytes : forall n v, 0 <= v < 2 ^ (8 * Z.of_nat n) -> le_val (le_bytes n v) = v.
Proof.
  induction n as [|n IH]; intros v H; cbn [le_bytes le_val].
  - cbn in H. lia.
  - rewrite IH.
    + pose proof (Z.div_mod v 256). lia.
    + replace (8 * Z.of_nat (S n)) with (8 + 8 * Z.of_nat n) in H by lia.
      rewrite Z.pow_add_r in H by lia. change (2 ^ 8) with 256 in H.
      split; [apply Z.div_pos; lia|apply Z.div_lt_upper_bound; lia].
Qed.

Lemma le_bytes_range : forall n v, Forall (fun b => 0 <= b < 256) (le_bytes n v).
Proof. induction n; intros; cbn; constructor; auto. apply Z.mod_pos_bound. lia. Qed.

Lemma order_involutive : forall g l, order g (order g l) = l.
Proof. intros. unfold order. destruct (bigend g); auto. apply rev_involutive. Qed.

Lemma ldw_range : forall g m a, 0 <= ldw g m a < wmod g.
Proof.
  intros. unfold ldw, wmod.
  assert (Hl : wsize g = length (order g (map (byte m) (span a (wsize g)))))
    by now rewrite order_length, map_length, span_length.
  set (l := order g (map (byte m) (span a (wsize g)))) in *.
  rewrite Hl. apply le_val_range. subst l. clear Hl.
  assert (H : Forall (fun b => 0 <= b < 256) (map (byte m) (span a (wsize g)))).
  { apply Forall_forall. intros b Hb. apply in_map_iff in Hb. destruct Hb as (x & <- & _).
    unfold byte. apply Z.mod_pos_bound. lia. }
  unfold order. destruct (bigend g); auto. now apply Forall_rev.
Qed.

Lemma map_wr_combine : forall l m bs,
  NoDup l -> length l = length bs -> Forall (fun b => 0 <= b < 256) bs ->
  map (byte (wr m (combine l bs))) l = bs.
Proof.
  induction l as [|a l IH]; intros m bs Hn Hl Hb; destruct bs as [|b bs]; try discriminate; auto.
  inversion Hn as [|? ? Ha Hn']; subst. inversion Hb as [|? ? Hb1 Hb2]; subst.
  cbn [combine]. rewrite wr_cons. cbn [map]. f_equal.
  - unfold byte. rewrite wr_notin.
    + unfold upd_mem. cbn. rewrite Z.eqb_refl. apply Z.mod_small. auto.
    + intros H. apply in_map_iff in H. destruct H as ([x y] & Hx & Hi). cbn in Hx. subst.
      apply in_combine_l in Hi. contradiction.
  - cbn in Hl. apply IH; auto.
Qed.

(** Reading back a stored word. *)
Lemma ldw_stw : forall g m a v, 0 <= v < wmod g -> ldw g (wr m (stw g a v)) a = v.
Proof.
  intros g m a v Hv. unfold ldw, stw. rewrite map_wr_combine.
  - rewrite order_involutive. apply le_val_bytes. exact Hv.
  - apply NoDup_span.
  - now rewrite order_length, le_bytes_length, span_length.
  - unfold order. pose proof (le_bytes_range (wsize g) v) as H.
    destruct (bigend g); auto. now apply Forall_rev.
Qed.

Lemma ldw_stw_other : forall g m a v b, disjoint (span a (wsize g)) (span b (wsize g)) ->
  ldw g (wr m (stw g a v)) b = ldw g m b.
Proof.
  intros. apply ldw_agree. apply agree_wr. rewrite stw_keys. auto.
Qed.
