(** Proofs about the model of src/list.h. *)
From Coq Require Import ZArith Bool List Lia Permutation.
From Verif Require Import ListModel ListSpec.
Import ListNotations.
Local Open Scope Z_scope.

Lemma chain_app : forall h l1 a x l2 b,
  chain h a (l1 ++ x :: l2) b <-> chain h a l1 x /\ chain h x l2 b.
Proof.
  induction l1 as [|y l1 IH]; intros a x l2 b; cbn [app chain].
  - tauto.
  - rewrite IH. tauto.
Qed.

(** The links a chain depends on: next of a :: l, prev of l ++ [b]. *)
Lemma chain_frame : forall h h' l a b,
  (forall x, In x (a :: l) -> next h' x = next h x) ->
  (forall x, In x (b :: l) -> prev h' x = prev h x) ->
  chain h a l b -> chain h' a l b.
Proof.
  induction l as [|x l IH]; intros a b Hn Hp Hc; cbn [chain] in *.
  - destruct Hc. rewrite Hn, Hp by (left; reflexivity). auto.
  - destruct Hc as (H1 & H2 & H3). split; [|split].
    + rewrite Hn by (left; reflexivity). exact H1.
    + rewrite Hp by (right; left; reflexivity). exact H2.
    + apply IH; [| |exact H3].
      * intros y Hy. apply Hn. right. exact Hy.
      * intros y [Hy|Hy]; apply Hp; [left; exact Hy | right; right; exact Hy].
Qed.

Ltac upd := repeat match goal with
  | |- context [?a =? ?b] => destruct (Z.eqb_spec a b); try subst; try congruence
  end.

Ltac inv H := inversion H; subst; clear H.

Ltac unf := unfold list_add, list_add_tail, list_del, list_del__, list_del_init,
  INIT_LIST_HEAD, list_move, list_replace, set_next, set_prev; cbn [next prev].

(** First link of a chain, whatever its length. *)
Definition first_of (l : list Z) (b : Z) : Z := match l with [] => b | x :: _ => x end.
Definition last_of (a : Z) (l : list Z) : Z := last l a.

Lemma chain_next : forall h a l b, chain h a l b -> next h a = first_of l b.
Proof. intros h a [|x l] b H; cbn in *; tauto. Qed.

Lemma last_of_cons : forall a x l, last_of a (x :: l) = last_of x l.
Proof.
  intros a x l. unfold last_of. revert a x. induction l as [|y l IH]; intros a x; [reflexivity|].
  change (last (x :: y :: l) a) with (last (y :: l) a).
  rewrite (IH a y), (IH x y). reflexivity.
Qed.

Lemma chain_prev : forall h l a b, chain h a l b -> prev h b = last_of a l.
Proof.
  induction l as [|x l IH]; intros a b H; cbn [chain] in H.
  - unfold last_of. cbn. tauto.
  - destruct H as (_ & _ & H). rewrite last_of_cons. apply IH. exact H.
Qed.

Lemma last_of_in : forall a l, In (last_of a l) (a :: l).
Proof.
  intros a l. revert a. induction l as [|x l IH]; intros a.
  - left. reflexivity.
  - rewrite last_of_cons. right. apply IH.
Qed.

Lemma first_of_in : forall l b, In (first_of l b) (l ++ [b]).
Proof. intros [|x l] b; cbn; left; reflexivity. Qed.

(** Rebuild a chain when only the end links change. *)
Lemma chain_change_last : forall h h' l a b b',
  NoDup (a :: l) ->
  (forall x, In x (a :: l) -> x <> last_of a l -> next h' x = next h x) ->
  next h' (last_of a l) = b' ->
  (forall x, In x l -> prev h' x = prev h x) ->
  prev h' b' = last_of a l ->
  chain h a l b -> chain h' a l b'.
Proof.
  induction l as [|x l IH]; intros a b b' Hnd Hn Hl Hp Hpl Hc.
  - cbn in *. unfold last_of in *. cbn in *. auto.
  - cbn [chain] in *. destruct Hc as (H1 & H2 & H3). rewrite last_of_cons in *.
    apply NoDup_cons_iff in Hnd as [Hni Hnd].
    split; [|split].
    + rewrite Hn; [exact H1 | left; reflexivity |].
      intros E. apply Hni. rewrite E. apply last_of_in.
    + rewrite Hp by (left; reflexivity). exact H2.
    + apply (IH x b b'); auto.
      * intros y Hy Hne. apply Hn; [right; exact Hy | exact Hne].
      * intros y Hy. apply Hp. right. exact Hy.
Qed.

Lemma NoDup_rot : forall (x : Z) l, NoDup (x :: l) <-> NoDup (l ++ [x]).
Proof.
  intros x l. split; intros H.
  - apply (Permutation_NoDup (l := x :: l)); [|exact H]. apply Permutation_cons_append.
  - apply (Permutation_NoDup (l := l ++ [x])); [|exact H]. symmetry. apply Permutation_cons_append.
Qed.

Lemma chain_change_first : forall h h' l a a' b,
  NoDup (b :: l) ->
  (forall x, In x l -> next h' x = next h x) ->
  next h' a' = first_of l b ->
  (forall x, In x (b :: l) -> x <> first_of l b -> prev h' x = prev h x) ->
  prev h' (first_of l b) = a' ->
  chain h a l b -> chain h' a' l b.
Proof.
  intros h h' [|x l] a a' b Hnd Hn Hf Hp Hpf Hc; cbn [chain first_of] in *.
  - auto.
  - destruct Hc as (H1 & H2 & H3). split; [exact Hf|]. split; [exact Hpf|].
    apply NoDup_cons_iff in Hnd as [Hb Hnd]. apply NoDup_cons_iff in Hnd as [Hx Hnd].
    apply (chain_frame h); [| |exact H3].
    + intros y Hy. apply Hn. exact Hy.
    + intros y Hy. apply Hp; [cbn in *; tauto|].
      intros E. subst y. cbn in *. destruct Hy as [Hy|Hy]; [apply Hb; auto | contradiction].
Qed.

Lemma is_list_first : forall h head xs, is_list h head xs -> next h head = first_of xs head.
Proof. intros h head xs [_ H]. eapply chain_next. exact H. Qed.

Lemma is_list_last : forall h head xs, is_list h head xs -> prev h head = last_of head xs.
Proof. intros h head xs [_ H]. eapply chain_prev. exact H. Qed.

Lemma first_of_in' : forall l b, In (first_of l b) (b :: l).
Proof. intros [|x l] b; cbn; auto. Qed.

Lemma init_list : forall h p, is_list (INIT_LIST_HEAD h p) p [].
Proof.
  intros h p. split.
  - constructor; [intros []|constructor].
  - cbn. rewrite Z.eqb_refl. auto.
Qed.

Lemma init_frame : forall h p, same_outside [p] h (INIT_LIST_HEAD h p).
Proof. intros h p a Ha. cbn in *. unf. upd; tauto. Qed.

(** Decide equalities on addresses, closing absurd cases with membership facts. *)
Ltac dz := repeat match goal with
  | |- context [?a =? ?b] => destruct (Z.eqb_spec a b)
  end.

Ltac dsub := repeat match goal with
  | H : next _ _ = _ |- _ => clear H | H : prev _ _ = _ |- _ => clear H end; subst.

Lemma list_add_next : forall h newp head a,
  newp <> head ->
  next (list_add h newp head) a =
    if a =? head then newp else if a =? newp then next h head else next h a.
Proof. intros. unf. dz; congruence. Qed.
Lemma list_add_prev : forall h newp head a,
  newp <> next h head ->
  prev (list_add h newp head) a =
    if a =? newp then head else if a =? next h head then newp else prev h a.
Proof. intros. unf. dz; congruence. Qed.

Lemma list_add_ok : forall h head xs newp,
  is_list h head xs -> ~ In newp (head :: xs) ->
  is_list (list_add h newp head) head (newp :: xs) /\
  same_outside (newp :: head :: xs) h (list_add h newp head).
Proof.
  intros h head xs newp H Hnew. pose proof (is_list_first _ _ _ H) as Hf.
  destruct H as [Hnd Hc].
  pose proof (first_of_in' xs head) as Hfin.
  assert (Hne : newp <> head) by (intros ->; apply Hnew; left; reflexivity).
  assert (Hne2 : newp <> next h head) by (intros E; apply Hnew; rewrite E, Hf; exact Hfin).
  split; [split|].
  - cbn in Hnew. apply NoDup_cons_iff in Hnd as [H1 H2]. constructor; [cbn; intuition congruence|].
    constructor; [tauto|assumption].
  - cbn [chain]. rewrite list_add_next, list_add_prev by assumption.
    rewrite !Z.eqb_refl. split; [reflexivity|]. split; [reflexivity|].
    apply (chain_change_first h _ xs head newp head); try assumption.
    + intros y Hy. rewrite list_add_next by assumption.
      apply NoDup_cons_iff in Hnd as [H1 H2]. cbn in Hnew. dz; dsub; tauto.
    + rewrite list_add_next by assumption. rewrite Z.eqb_refl, Hf. dz; congruence.
    + intros y Hy Hyf. rewrite list_add_prev by assumption. rewrite Hf. dz; dsub; tauto.
    + rewrite list_add_prev by assumption. rewrite Hf in *. rewrite Z.eqb_refl. dz; congruence.
  - intros a Ha. rewrite list_add_next, list_add_prev by assumption. cbn in Ha.
    assert (a <> next h head) by (intros E; rewrite Hf in E; subst a; cbn in Hfin; tauto).
    dz; dsub; tauto.
Qed.

Lemma list_add_tail_next : forall h newp head a,
  newp <> prev h head ->
  next (list_add_tail h newp head) a =
    if a =? newp then head else if a =? prev h head then newp else next h a.
Proof. intros. unf. dz; congruence. Qed.
Lemma list_add_tail_prev : forall h newp head a,
  newp <> head ->
  prev (list_add_tail h newp head) a =
    if a =? head then newp else if a =? newp then prev h head else prev h a.
Proof. intros. unf. dz; congruence. Qed.

(** Insert [newp] before [pos] anywhere in the ring: list_add_tail with a
    position as second argument (used by list_replace_init). *)
Lemma chain_snoc : forall h a l x b,
  chain h a (l ++ [x]) b <-> chain h a l x /\ next h x = b /\ prev h b = x.
Proof. intros. rewrite chain_app. cbn [chain]. tauto. Qed.

Lemma NoDup_app_disj : forall (l1 l2 : list Z) x, NoDup (l1 ++ l2) -> In x l1 -> In x l2 -> False.
Proof.
  induction l1 as [|y l1 IH]; intros l2 x Hnd H1 H2; [destruct H1|].
  cbn in Hnd. apply NoDup_cons_iff in Hnd as [Hy Hnd]. destruct H1 as [->|H1].
  - apply Hy. apply in_or_app. tauto.
  - eapply IH; eauto.
Qed.

Lemma list_add_tail_ok : forall h head xs newp,
  is_list h head xs -> ~ In newp (head :: xs) ->
  is_list (list_add_tail h newp head) head (xs ++ [newp]) /\
  same_outside (newp :: head :: xs) h (list_add_tail h newp head).
Proof.
  intros h head xs newp H Hnew. pose proof (is_list_last _ _ _ H) as Hl.
  destruct H as [Hnd Hc].
  pose proof (last_of_in head xs) as Hlin.
  assert (Hne : newp <> head) by (intros ->; apply Hnew; left; reflexivity).
  assert (Hne2 : newp <> prev h head) by (intros E; apply Hnew; rewrite E, Hl; exact Hlin).
  split; [split|].
  - apply (proj1 (NoDup_rot newp (head :: xs))). constructor; assumption.
  - rewrite chain_snoc. rewrite list_add_tail_next, list_add_tail_prev by assumption.
    rewrite !Z.eqb_refl. split; [|auto].
    apply (chain_change_last h _ xs head head newp); try assumption.
    + intros y Hy Hyl. rewrite list_add_tail_next by assumption. rewrite Hl. dz; dsub; tauto.
    + rewrite list_add_tail_next by assumption. rewrite Hl in *. rewrite Z.eqb_refl. dz; congruence.
    + intros y Hy. rewrite list_add_tail_prev by assumption.
      apply NoDup_cons_iff in Hnd as [H1 H2]. cbn in Hnew. dz; dsub; tauto.
    + rewrite list_add_tail_prev by assumption. rewrite Z.eqb_refl, Hl. dz; congruence.
  - intros a Ha. rewrite list_add_tail_next, list_add_tail_prev by assumption. cbn in Ha.
    assert (a <> prev h head) by (intros E; rewrite Hl in E; subst a; cbn in Hlin; tauto).
    dz; dsub; tauto.
Qed.

(** Neighbours of an element in the middle of a list. *)
Lemma is_list_mid : forall h head l1 e l2,
  is_list h head (l1 ++ e :: l2) ->
  prev h e = last_of head l1 /\ next h e = first_of l2 head.
Proof.
  intros h head l1 e l2 [_ Hc]. apply chain_app in Hc as [H1 H2]. split.
  - eapply chain_prev; exact H1.
  - eapply chain_next; exact H2.
Qed.

Lemma list_del_next : forall h e a,
  next (list_del h e) a = if a =? prev h e then next h e else next h a.
Proof. intros. unf. reflexivity. Qed.
Lemma list_del_prev : forall h e a,
  prev (list_del h e) a = if a =? next h e then prev h e else prev h a.
Proof. intros. unf. reflexivity. Qed.

Lemma NoDup_mid : forall (l1 l2 : list Z) e, NoDup (l1 ++ e :: l2) ->
  NoDup (l1 ++ l2) /\ ~ In e l1 /\ ~ In e l2.
Proof.
  intros l1 l2 e H. apply NoDup_remove in H as [H1 H2]. split; [exact H1|].
  split; intros G; apply H2; apply in_or_app; tauto.
Qed.

Lemma list_del_ok : forall h head l1 e l2,
  is_list h head (l1 ++ e :: l2) ->
  is_list (list_del h e) head (l1 ++ l2) /\
  (next (list_del h e) e = next h e /\ prev (list_del h e) e = prev h e) /\
  same_outside (head :: l1 ++ l2) h (list_del h e).
Proof.
  intros h head l1 e l2 H. destruct (is_list_mid _ _ _ _ _ H) as [Hp Hn].
  destruct H as [Hnd Hc]. rewrite app_comm_cons in Hnd.
  destruct (NoDup_mid _ _ _ Hnd) as (Hnd' & He1 & He2).
  apply chain_app in Hc as [C1 C2].
  pose proof (last_of_in head l1) as Hlin. pose proof (first_of_in' l2 head) as Hfin.
  assert (Heh : e <> head) by (intros ->; apply He1; left; reflexivity).
  assert (Hep : e <> prev h e) by (intros E; rewrite Hp in E; rewrite E in He1; contradiction).
  assert (Hen : e <> next h e).
  { intros E. rewrite Hn in E. rewrite E in Heh, He2. destruct Hfin as [F|F]; [congruence|contradiction]. }
  assert (Hnd1 : NoDup (head :: l1)).
  { apply NoDup_mid with (l1 := head :: l1) (l2 := l2) (e := e) in Hnd as [G _].
    clear - G. rewrite <- app_comm_cons in G. change (head :: l1 ++ l2) with ((head :: l1) ++ l2) in G.
    revert G. generalize (head :: l1) as l. intros l. induction l; intros G; [constructor|].
    cbn in G. apply NoDup_cons_iff in G as [G1 G2]. constructor; [|auto].
    intros K. apply G1. apply in_or_app. tauto. }
  assert (Hnd2 : NoDup (head :: l2)).
  { cbn in Hnd'. apply NoDup_cons_iff in Hnd' as [G1 G2]. constructor.
    - intros K. apply G1. apply in_or_app. tauto.
    - clear - G2. induction l1; [exact G2|]. cbn in G2. apply NoDup_cons_iff in G2 as [_ G2]. auto. }
  split; [split|split].
  - exact Hnd'.
  - (* the chain without e *)
    destruct l2 as [|y l2].
    + rewrite app_nil_r. cbn [first_of chain] in *. 
      apply (chain_change_last h _ l1 head e head); try assumption.
      * intros x Hx Hxl. rewrite list_del_next, Hp. dz; dsub; tauto.
      * rewrite list_del_next, Hp, Hn, Z.eqb_refl. reflexivity.
      * intros x Hx. rewrite list_del_prev, Hn. apply NoDup_cons_iff in Hnd1 as [G1 _].
        dz; dsub; tauto.
      * rewrite list_del_prev, Hn, Hp, Z.eqb_refl. reflexivity.
    + apply chain_app. cbn [first_of chain] in *. destruct C2 as (_ & _ & D3).
      assert (Hyl1 : ~ In y (head :: l1)).
      { intros K. apply (NoDup_app_disj (head :: l1) (y :: l2) y); [exact Hnd'|exact K|left; reflexivity]. }
      split.
      * apply (chain_change_last h _ l1 head e y); try assumption.
        -- intros x Hx Hxl. rewrite list_del_next, Hp. dz; dsub; tauto.
        -- rewrite list_del_next, Hp, Hn, Z.eqb_refl. reflexivity.
        -- intros x Hx. rewrite list_del_prev, Hn. dz; dsub; [|reflexivity]. exfalso. apply Hyl1. right. exact Hx.
        -- rewrite list_del_prev, Hn, Hp, Z.eqb_refl. reflexivity.
      * apply (chain_frame h); [| |exact D3].
        -- intros x Hx. rewrite list_del_next, Hp. dz; dsub; [|reflexivity]. exfalso.
           apply (NoDup_app_disj (head :: l1) (y :: l2) (last_of head l1)); assumption.
        -- intros x Hx. rewrite list_del_prev, Hn. dz; dsub; [|reflexivity]. exfalso.
           apply NoDup_cons_iff in Hnd2 as [G1 G2]. apply NoDup_cons_iff in G2 as [G2 _].
           destruct Hx as [Hx|Hx]; [subst; apply G1; left; reflexivity| contradiction].
  - rewrite list_del_next, list_del_prev. dz; auto; congruence.
  - intros a Ha. rewrite list_del_next, list_del_prev, Hp, Hn. cbn in *.
    rewrite in_app_iff in Ha.
    assert (a <> last_of head l1) by (intros ->; tauto).
    assert (a <> first_of l2 head) by (intros ->; tauto).
    dz; dsub; tauto.
Qed.

Lemma list_del_init_ok : forall h head l1 e l2,
  is_list h head (l1 ++ e :: l2) ->
  is_list (list_del_init h e) head (l1 ++ l2) /\ is_list (list_del_init h e) e [] /\
  same_outside (head :: l1 ++ e :: l2) h (list_del_init h e).
Proof.
  intros h head l1 e l2 H. destruct (list_del_ok _ _ _ _ _ H) as ([Hnd Hc] & _ & Hfr).
  assert (He : ~ In e (head :: l1 ++ l2)).
  { destruct H as [H _]. rewrite app_comm_cons in H. apply NoDup_remove_2 in H. exact H. }
  unfold list_del_init. split; [split; [exact Hnd|]|split].
  - apply (chain_frame (list_del h e)); [| |exact Hc].
    + intros x Hx. unf. dz; dsub; tauto.
    + intros x Hx. unf. dz; dsub; tauto.
  - apply init_list.
  - intros a Ha.
    assert (Ha1 : ~ In a (head :: l1 ++ l2)).
    { intros K. apply Ha. cbn in *. rewrite !in_app_iff in *. cbn. tauto. }
    assert (Ha2 : a <> e) by (intros ->; apply Ha; cbn; rewrite in_app_iff; cbn; tauto).
    destruct (Hfr a Ha1) as [F1 F2].
    change (next (INIT_LIST_HEAD (list_del h e) e) a) with (if a =? e then e else next (list_del h e) a).
    change (prev (INIT_LIST_HEAD (list_del h e) e) a) with (if a =? e then e else prev (list_del h e) a).
    rewrite F1, F2. dz; tauto.
Qed.

(** A list untouched by an operation is still the same list. *)
Lemma is_list_frame : forall nodes h h' hd xs,
  same_outside nodes h h' -> (forall x, In x (hd :: xs) -> ~ In x nodes) ->
  is_list h hd xs -> is_list h' hd xs.
Proof.
  intros nodes h h' hd xs Hs Hd [Hnd Hc]. split; [exact Hnd|].
  apply (chain_frame h); [| |exact Hc].
  - intros x Hx. apply Hs, Hd, Hx.
  - intros x Hx. apply Hs, Hd, Hx.
Qed.

(** list_move within one list: the element goes to the front. *)
Lemma list_move_same_ok : forall h head l1 e l2,
  is_list h head (l1 ++ e :: l2) ->
  is_list (list_move h e head) head (e :: l1 ++ l2) /\
  same_outside (head :: l1 ++ e :: l2) h (list_move h e head).
Proof.
  intros h head l1 e l2 H. destruct (list_del_ok _ _ _ _ _ H) as (HL & _ & Hfr).
  assert (He : ~ In e (head :: l1 ++ l2)).
  { destruct H as [H _]. rewrite app_comm_cons in H. apply NoDup_remove_2 in H. exact H. }
  destruct (list_add_ok _ _ _ e HL He) as [HA Hfr2].
  split; [exact HA|].
  intros a Ha.
  assert (Ha1 : ~ In a (head :: l1 ++ l2)).
  { intros K. apply Ha. cbn in *. rewrite !in_app_iff in *. cbn. tauto. }
  assert (Ha2 : ~ In a (e :: head :: l1 ++ l2)).
  { intros [K|K]; [|contradiction]. subst a. apply Ha. cbn. rewrite in_app_iff. cbn. tauto. }
  destruct (Hfr a Ha1) as [F1 F2]. destruct (Hfr2 a Ha2) as [G1 G2].
  unfold list_move. fold (list_del h e). rewrite G1, G2, F1, F2. auto.
Qed.

(** list_move to another list. *)
Lemma list_move_other_ok : forall h head l1 e l2 head2 ys,
  is_list h head (l1 ++ e :: l2) -> is_list h head2 ys ->
  (forall x, In x (head :: l1 ++ e :: l2) -> ~ In x (head2 :: ys)) ->
  is_list (list_move h e head2) head (l1 ++ l2) /\
  is_list (list_move h e head2) head2 (e :: ys) /\
  same_outside ((head :: l1 ++ e :: l2) ++ head2 :: ys) h (list_move h e head2).
Proof.
  intros h head l1 e l2 head2 ys H H2 Hd.
  destruct (list_del_ok _ _ _ _ _ H) as (HL & _ & Hfr).
  assert (He : ~ In e (head :: l1 ++ l2)).
  { destruct H as [H _]. rewrite app_comm_cons in H. apply NoDup_remove_2 in H. exact H. }
  assert (Hsub : forall x, In x (head :: l1 ++ l2) -> In x (head :: l1 ++ e :: l2)).
  { intros x. cbn. rewrite !in_app_iff. cbn. tauto. }
  assert (H2' : is_list (list_del h e) head2 ys).
  { eapply is_list_frame; [exact Hfr| |exact H2]. intros x Hx Hx2. apply (Hd x); auto. }
  assert (He2 : ~ In e (head2 :: ys)).
  { apply Hd. right. apply in_or_app. cbn. tauto. }
  destruct (list_add_ok _ _ _ e H2' He2) as [HA Hfr2].
  change (list_move h e head2) with (list_add (list_del h e) e head2).
  split; [|split].
  - eapply is_list_frame; [exact Hfr2| |exact HL].
    intros x Hx [K|K]; [subst; contradiction|]. apply (Hd x); auto.
  - exact HA.
  - intros a Ha. rewrite in_app_iff in Ha.
    assert (Ha1 : ~ In a (head :: l1 ++ l2)) by (intros K; apply Ha; left; auto).
    assert (Ha2 : ~ In a (e :: head2 :: ys)).
    { intros [K|K]; [|tauto]. subst a. apply Ha. left. right. apply in_or_app. cbn. tauto. }
    destruct (Hfr a Ha1) as [F1 F2]. destruct (Hfr2 a Ha2) as [G1 G2].
    rewrite G1, G2, F1, F2. auto.
Qed.

Lemma NoDup_app_l : forall (l1 l2 : list Z), NoDup (l1 ++ l2) -> NoDup l1.
Proof.
  induction l1; intros l2 G; [constructor|]. cbn in G. apply NoDup_cons_iff in G as [G1 G2].
  constructor; [|eauto]. intros K. apply G1. apply in_or_app. tauto.
Qed.
Lemma NoDup_app_r : forall (l1 l2 : list Z), NoDup (l1 ++ l2) -> NoDup l2.
Proof. induction l1; intros l2 G; [exact G|]. cbn in G. apply NoDup_cons_iff in G as [_ G]. auto. Qed.

(** list_replace: the new node takes the place of the old one. *)
Lemma list_replace_ok : forall h head l1 old l2 new_,
  is_list h head (l1 ++ old :: l2) -> ~ In new_ (head :: l1 ++ old :: l2) ->
  is_list (list_replace h old new_) head (l1 ++ new_ :: l2) /\
  same_outside (new_ :: head :: l1 ++ l2) h (list_replace h old new_).
Proof.
  intros h head l1 old l2 new_ H Hnew. destruct (is_list_mid _ _ _ _ _ H) as [Hp Hn].
  destruct H as [Hnd Hc]. rewrite app_comm_cons in Hnd, Hnew.
  apply chain_app in Hc as [C1 C2].
  pose proof (last_of_in head l1) as Hlin. pose proof (first_of_in' l2 head) as Hfin.
  rewrite in_app_iff in Hnew.
  destruct (NoDup_mid _ _ _ Hnd) as (Hnd' & Ho1 & Ho2).
  assert (Hno : new_ <> old) by (intros ->; apply Hnew; right; left; reflexivity).
  assert (Hnp : new_ <> prev h old) by (intros E; rewrite Hp in E; rewrite E in Hnew; tauto).
  assert (Hnn : new_ <> next h old).
  { intros E. rewrite Hn in E. rewrite E in Hnew. cbn in Hnew, Hfin. tauto. }
  assert (Hnd1 : NoDup (head :: l1)) by (apply NoDup_app_l in Hnd; exact Hnd).
  assert (Hnd2 : NoDup (head :: l2)).
  { constructor; [|apply NoDup_app_r in Hnd'; exact Hnd'].
    intros K. apply (NoDup_app_disj (head :: l1) l2 head Hnd'); [left; reflexivity|exact K]. }
  assert (En : forall a, next (list_replace h old new_) a =
     if a =? prev h old then new_ else if a =? new_ then next h old else next h a).
  { intros a. unf. rewrite Z.eqb_refl. dz; congruence. }
  assert (Ep : forall a, prev (list_replace h old new_) a =
     if a =? next h old then new_ else if a =? new_ then prev h old else prev h a).
  { intros a. unf. rewrite !Z.eqb_refl. rewrite ?(proj2 (Z.eqb_neq new_ _) Hnp).
    rewrite ?(proj2 (Z.eqb_neq old new_) (not_eq_sym Hno)). dz; congruence. }
  split; [split|].
  - rewrite app_comm_cons. apply (Permutation_NoDup (l := new_ :: (head :: l1) ++ l2)).
    + apply Permutation_middle.
    + constructor; [|exact Hnd']. rewrite in_app_iff. cbn in *. tauto.
  - apply chain_app. split.
    + apply (chain_change_last h _ l1 head old new_); try assumption.
      * intros x Hx Hxl. rewrite En, Hp. dz; dsub; tauto.
      * rewrite En, Hp, Z.eqb_refl. reflexivity.
      * intros x Hx. rewrite Ep, Hn. dz; dsub; try reflexivity.
        -- exfalso. destruct l2 as [|y l2]; cbn [first_of] in *.
           ++ apply NoDup_cons_iff in Hnd1 as [G _]. contradiction.
           ++ apply (NoDup_app_disj (head :: l1) (y :: l2) y Hnd'); [right; exact Hx|left; reflexivity].
        -- cbn in Hnew. tauto.
      * rewrite Ep. rewrite Z.eqb_refl. dz; congruence.
    + apply (chain_change_first h _ l2 old new_ head); try assumption.
      * intros x Hx. rewrite En, Hp. dz; dsub; try reflexivity.
        -- exfalso. apply (NoDup_app_disj (head :: l1) l2 (last_of head l1) Hnd'); assumption.
        -- cbn in Hnew. tauto.
      * rewrite En, Z.eqb_refl. dz; congruence.
      * intros x Hx Hxf. rewrite Ep, Hn. dz; dsub; try tauto. cbn in *. tauto.
      * rewrite Ep, Hn, Z.eqb_refl. reflexivity.
  - intros a Ha. rewrite En, Ep, Hp, Hn. cbn in Ha, Hlin, Hfin. rewrite in_app_iff in Ha.
    assert (a <> last_of head l1) by (intros ->; tauto).
    assert (a <> first_of l2 head) by (intros ->; tauto).
    dz; dsub; tauto.
Qed.

(** list_replace_init: same, and the old node becomes an empty list. *)
Lemma list_replace_init_ok : forall h head l1 old l2 new_,
  is_list h head (l1 ++ old :: l2) -> ~ In new_ (head :: l1 ++ old :: l2) ->
  is_list (list_replace_init h old new_) head (l1 ++ new_ :: l2) /\
  is_list (list_replace_init h old new_) old [].
Proof.
  intros h head l1 old l2 new_ H Hnew.
  destruct (list_del_ok _ _ _ _ _ H) as (HL & _ & Hfr).
  destruct (is_list_mid _ _ _ _ _ H) as [Hp Hn].
  assert (Hold : ~ In old (head :: l1 ++ l2)).
  { destruct H as [H _]. rewrite app_comm_cons in H. apply NoDup_remove_2 in H. exact H. }
  assert (Hnew' : ~ In new_ (head :: l1 ++ l2)).
  { intros K. apply Hnew. cbn in *. rewrite !in_app_iff in *. cbn. tauto. }
  assert (Hno : new_ <> old) by (intros ->; apply Hnew; right; apply in_or_app; right; left; reflexivity).
  (* rotate the ring so that the insertion point is the head *)
  set (h1 := list_del h old) in *.
  assert (HR : is_list (list_add_tail h1 new_ (next h old)) head (l1 ++ new_ :: l2)).
  { destruct l2 as [|y l2]; cbn [first_of] in Hn.
    - rewrite Hn. rewrite app_nil_r in HL, Hnew'. apply (list_add_tail_ok _ _ _ _ HL Hnew').
    - rewrite Hn. destruct HL as [Hnd Hc]. apply chain_app in Hc as [C1 C2].
      assert (Hrot : is_list h1 y (l2 ++ head :: l1)).
      { split.
        - apply (Permutation_NoDup (l := head :: l1 ++ y :: l2)); [|exact Hnd].
          change (head :: l1 ++ y :: l2) with ((head :: l1) ++ (y :: l2)).
          change (y :: l2 ++ head :: l1) with ((y :: l2) ++ head :: l1). apply Permutation_app_comm.
        - apply chain_app. split; assumption. }
      assert (Hnew2 : ~ In new_ (y :: l2 ++ head :: l1)).
      { intros K. apply Hnew'. cbn in *. rewrite !in_app_iff in *. cbn in *. tauto. }
      destruct (list_add_tail_ok _ _ _ _ Hrot Hnew2) as [[Hnd3 Hc3] _].
      rewrite <- app_assoc, <- app_comm_cons in Hc3. apply chain_app in Hc3 as [D1 D2].
      apply chain_app in D2 as [D2 D3].
      split.
      + apply (Permutation_NoDup (l := y :: (l2 ++ head :: l1) ++ [new_])); [|exact Hnd3].
        rewrite <- app_assoc. cbn [app].
        change (y :: l2 ++ head :: l1 ++ [new_]) with ((y :: l2) ++ (head :: l1 ++ [new_])).
        rewrite (Permutation_app_comm (y :: l2)). cbn [app]. rewrite <- app_assoc. reflexivity.
      + apply chain_app. split; [exact D2|]. cbn [chain] in *. destruct D3 as [D3 D4].
        split; [exact D3|]. split; [exact D4|exact D1]. }
  unfold list_replace_init. fold h1. split.
  - eapply is_list_frame; [apply init_frame| |exact HR].
    intros x Hx [K|[]]. subst x. apply Hold. cbn in *. rewrite !in_app_iff in *. cbn in *.
    destruct Hx as [|[|[|]]]; solve [tauto | congruence].
  - apply init_list.
Qed.

(** list_splice *)
Lemma list_splice_ok : forall h add xs head ys,
  is_list h add xs -> is_list h head ys ->
  (forall x, In x (add :: xs) -> ~ In x (head :: ys)) ->
  is_list (list_splice h add head) head (xs ++ ys) /\
  same_outside (add :: xs ++ head :: ys) h (list_splice h add head).
Proof.
  intros h add xs head ys Ha Hh Hd.
  pose proof (is_list_first _ _ _ Ha) as Hf. pose proof (is_list_last _ _ _ Ha) as Hl.
  pose proof (is_list_first _ _ _ Hh) as Hhf.
  destruct Ha as [Hnda Hca]. destruct Hh as [Hndh Hch].
  destruct xs as [|x xs].
  { cbn [first_of app] in *. unfold list_splice. rewrite Hf, Z.eqb_refl.
    split; [split; assumption|]. intros a _. auto. }
  cbn [first_of] in Hf.
  assert (Hxa : add <> x). { intros ->. apply NoDup_cons_iff in Hnda as [G _]. apply G. left. reflexivity. }
  rewrite last_of_cons in Hl. set (z := last_of x xs) in *.
  assert (Hz : In z (x :: xs)) by apply last_of_in.
  set (f := first_of ys head) in *. assert (Hfi : In f (head :: ys)) by apply first_of_in'.
  assert (Hxh : x <> head). { intros ->. apply (Hd head); [right; left|left]; reflexivity. }
  assert (Hzh : z <> head). { intros E. apply (Hd z); [right; exact Hz|rewrite E; left; reflexivity]. }
  assert (Hzf : z <> f). { intros E. apply (Hd z); [right; exact Hz|rewrite E; exact Hfi]. }
  assert (Hxf : x <> f). { intros E. apply (Hd x); [right; left; reflexivity|rewrite E; exact Hfi]. }
  assert (Haf : add <> f). { intros E. apply (Hd add); [left; reflexivity|rewrite E; exact Hfi]. }
  assert (Hah : add <> head). { intros E. apply (Hd add); [left; reflexivity|rewrite E; left; reflexivity]. }
  assert (Hza : z <> add).
  { intros E. rewrite E in Hz. apply NoDup_cons_iff in Hnda as [G _]. contradiction. }
  assert (En : forall a, next (list_splice h add head) a =
     if a =? head then x else if a =? z then f else next h a).
  { intros a. unfold list_splice. rewrite Hf. destruct (Z.eqb_spec add x); [contradiction|].
    unf. rewrite ?Hf, ?Hhf. rewrite (proj2 (Z.eqb_neq add x) Hxa). rewrite ?Hl.
    rewrite ?(proj2 (Z.eqb_neq head z) (not_eq_sym Hzh)). rewrite ?(proj2 (Z.eqb_neq add z) (not_eq_sym Hza)).
    rewrite ?(proj2 (Z.eqb_neq add f) Haf). rewrite ?Hl.
    clear - Hf Hl Hhf Hxh Hzh Hzf Hxf Haf Hah Hza Hxa. dz; congruence. }
  assert (Ep : forall a, prev (list_splice h add head) a =
     if a =? f then z else if a =? x then head else prev h a).
  { intros a. unfold list_splice. rewrite Hf. destruct (Z.eqb_spec add x); [contradiction|].
    unf. rewrite ?Hf, ?Hhf. rewrite (proj2 (Z.eqb_neq add x) Hxa). rewrite ?Hl.
    rewrite ?(proj2 (Z.eqb_neq head z) (not_eq_sym Hzh)). rewrite ?(proj2 (Z.eqb_neq add z) (not_eq_sym Hza)).
    rewrite ?(proj2 (Z.eqb_neq add f) Haf). rewrite ?Hl.
    clear - Hf Hl Hhf Hxh Hzh Hzf Hxf Haf Hah Hza Hxa. dz; congruence. }
  apply NoDup_cons_iff in Hnda as [Hna Hnda].
  split; [split|].
  - constructor.
    + rewrite in_app_iff. intros [K|K].
      * apply (Hd head); [right; exact K|left; reflexivity].
      * apply NoDup_cons_iff in Hndh as [G _]. contradiction.
    + apply NoDup_cons_iff in Hndh as [G1 G2].
      assert (HD : forall y, In y (x :: xs) -> ~ In y ys).
      { intros y Hy Hy2. apply (Hd y); [right; exact Hy|right; exact Hy2]. }
      revert Hnda HD. generalize (x :: xs) as l. clear - G2. induction l as [|w l IH]; intros Hnda HD; [exact G2|].
      cbn. apply NoDup_cons_iff in Hnda as [K1 K2]. constructor.
      * rewrite in_app_iff. intros [K|K]; [contradiction|]. apply (HD w); [left; reflexivity|exact K].
      * apply IH; [exact K2|]. intros y Hy. apply HD. right. exact Hy.
  - (* chain head (x :: xs ++ ys) head *)
    cbn [chain] in Hca. destruct Hca as (_ & _ & C3).
    cbn [app chain]. rewrite En, Ep, !Z.eqb_refl. split; [reflexivity|].
    split; [dz; congruence|].
    assert (Cx : chain (list_splice h add head) x xs f).
    { apply (chain_change_last h _ xs x add f); try assumption.
      - intros y Hy Hyz. fold z in Hyz. rewrite En. dz; dsub; try tauto.
        exfalso. apply (Hd head); [right; exact Hy|left; reflexivity].
      - fold z. rewrite En, Z.eqb_refl. dz; congruence.
      - intros y Hy. rewrite Ep. dz; dsub; try reflexivity.
        + exfalso. apply (Hd f); [right; right; exact Hy|exact Hfi].
        + apply NoDup_cons_iff in Hnda as [G _]. contradiction.
      - fold z. rewrite Ep, Z.eqb_refl. reflexivity. }
    destruct ys as [|y ys]; cbn [first_of] in f; unfold f in *.
    + rewrite app_nil_r. exact Cx.
    + apply chain_app. split; [exact Cx|].
      cbn [chain] in Hch. destruct Hch as (_ & _ & D3).
      apply (chain_frame h); [| |exact D3].
      * intros w Hw. rewrite En. dz; dsub; try reflexivity.
        -- apply NoDup_cons_iff in Hndh as [G _]. contradiction.
        -- exfalso. apply (Hd z); [right; exact Hz|right; exact Hw].
      * intros w Hw. rewrite Ep. apply NoDup_cons_iff in Hndh as [G1 G2].
        apply NoDup_cons_iff in G2 as [G2 _]. dz; dsub; try reflexivity.
        -- exfalso. destruct Hw as [Hw|Hw]; [subst; apply G1; left; reflexivity|contradiction].
        -- exfalso. apply (Hd x); [right; left; reflexivity|].
           destruct Hw as [Hw|Hw]; [left; exact Hw|right; right; exact Hw].
  - intros a Hna2. rewrite En, Ep. cbn in Hna2. rewrite in_app_iff in Hna2. cbn in Hna2, Hz, Hfi.
    assert (a <> z) by (intros ->; tauto). assert (a <> f) by (intros ->; tauto).
    assert (a <> head) by (intros ->; tauto). assert (a <> x) by (intros ->; tauto).
    dz; tauto.
Qed.

Lemma list_empty_ok : forall h head xs,
  is_list h head xs -> (list_empty h head = true <-> xs = []).
Proof.
  intros h head xs H. pose proof (is_list_first _ _ _ H) as Hf. destruct H as [Hnd _].
  unfold list_empty. rewrite Hf, Z.eqb_eq. destruct xs as [|x xs]; cbn [first_of].
  - tauto.
  - split; [|discriminate]. intros ->. apply NoDup_cons_iff in Hnd as [G _]. exfalso. apply G. left. reflexivity.
Qed.

Lemma list_first_ok : forall h head x xs,
  is_list h head (x :: xs) -> list_first h head = x.
Proof. intros h head x xs H. apply (is_list_first _ _ _ H). Qed.

(** Iteration *)
Lemma for_each_from_ok : forall h head l2 l1 fuel,
  is_list h head (l1 ++ l2) -> (length l2 < fuel)%nat ->
  for_each_from fuel h head (first_of l2 head) = Some l2.
Proof.
  induction l2 as [|x l2 IH]; intros l1 fuel H Hf; (destruct fuel as [|fuel]; [cbn in Hf; lia|]).
  - cbn. rewrite Z.eqb_refl. reflexivity.
  - destruct (is_list_mid _ _ _ _ _ H) as [_ Hn].
    cbn [for_each_from first_of].
    destruct (Z.eqb_spec x head) as [->|N].
    { destruct H as [H _]. apply NoDup_cons_iff in H as [G _]. exfalso. apply G. apply in_or_app. right. left. reflexivity. }
    rewrite Hn. rewrite (IH (l1 ++ [x])); [reflexivity| |cbn in Hf; lia].
    rewrite <- app_assoc. exact H.
Qed.

Lemma list_for_each_ok : forall h head xs fuel,
  is_list h head xs -> (length xs < fuel)%nat -> list_for_each fuel h head = Some xs.
Proof.
  intros h head xs fuel H Hf. unfold list_for_each. rewrite (is_list_first _ _ _ H).
  apply (for_each_from_ok h head xs []); assumption.
Qed.

(** The mirror image of a heap: next and prev exchanged. *)
Definition mirror (h : lheap) : lheap := {| next := prev h; prev := next h |}.

Lemma chain_mirror : forall h l a b, chain h a l b -> chain (mirror h) b (rev l) a.
Proof.
  induction l as [|x l IH]; intros a b H; cbn [chain rev] in *.
  - cbn. tauto.
  - destruct H as (H1 & H2 & H3). apply chain_snoc. split; [apply IH; exact H3|]. cbn. auto.
Qed.

Lemma is_list_mirror : forall h head xs, is_list h head xs -> is_list (mirror h) head (rev xs).
Proof.
  intros h head xs [Hnd Hc]. split.
  - apply (Permutation_NoDup (l := head :: xs)); [|exact Hnd]. constructor. apply Permutation_rev.
  - apply chain_mirror. exact Hc.
Qed.

Lemma for_each_prev_mirror : forall fuel h head pos,
  for_each_prev_from fuel h head pos = for_each_from fuel (mirror h) head pos.
Proof.
  induction fuel as [|fuel IH]; intros h head pos; [reflexivity|].
  cbn. rewrite IH. reflexivity.
Qed.

Lemma list_for_each_prev_ok : forall h head xs fuel,
  is_list h head xs -> (length xs < fuel)%nat -> list_for_each_prev fuel h head = Some (rev xs).
Proof.
  intros h head xs fuel H Hf. unfold list_for_each_prev. rewrite for_each_prev_mirror.
  change (prev h head) with (next (mirror h) head).
  apply (list_for_each_ok (mirror h) head (rev xs)).
  - apply is_list_mirror. exact H.
  - rewrite rev_length. exact Hf.
Qed.

(** A loop body that removes the current position when [f] says so, leaving the
    rest of the list as it is (it may do anything to other memory). *)
Definition removes (f : Z -> bool) (head : Z) (body : lheap -> Z -> lheap) : Prop :=
  forall h l1 pos l2, is_list h head (l1 ++ pos :: l2) ->
    is_list (body h pos) head (if f pos then l1 ++ l2 else l1 ++ pos :: l2).

Lemma for_each_safe_ok : forall f head body l2 l1 h fuel,
  removes f head body ->
  is_list h head (l1 ++ l2) -> (length l2 < fuel)%nat ->
  exists hf, for_each_safe_from body fuel h head (first_of l2 head) (next h (first_of l2 head))
    = Some (hf, l2) /\ is_list hf head (l1 ++ filter (fun x => negb (f x)) l2).
Proof.
  intros f head body l2. induction l2 as [|x l2 IH]; intros l1 h fuel Hb H Hf;
    (destruct fuel as [|fuel]; [cbn in Hf; lia|]).
  - exists h. cbn. rewrite Z.eqb_refl. auto.
  - destruct (is_list_mid _ _ _ _ _ H) as [_ Hn].
    cbn [for_each_safe_from first_of].
    destruct (Z.eqb_spec x head) as [->|N].
    { destruct H as [H _]. apply NoDup_cons_iff in H as [G _]. exfalso. apply G. apply in_or_app. right. left. reflexivity. }
    rewrite Hn. pose proof (Hb h l1 x l2 H) as Hh'.
    cbn [filter]. destruct (f x); cbn [negb].
    + destruct (IH l1 (body h x) fuel Hb Hh' ltac:(cbn in Hf; lia)) as [hf [E L]].
      rewrite E. exists hf. auto.
    + assert (Hh2 : is_list (body h x) head ((l1 ++ [x]) ++ l2)) by (rewrite <- app_assoc; exact Hh').
      destruct (IH (l1 ++ [x]) (body h x) fuel Hb Hh2 ltac:(cbn in Hf; lia)) as [hf [E L]].
      rewrite E. exists hf. rewrite <- app_assoc in L. auto.
Qed.

Lemma list_for_each_safe_ok : forall f head body xs h fuel,
  removes f head body -> is_list h head xs -> (length xs < fuel)%nat ->
  exists hf, list_for_each_safe body fuel h head = Some (hf, xs) /\
    is_list hf head (filter (fun x => negb (f x)) xs).
Proof.
  intros f head body xs h fuel Hb H Hf. unfold list_for_each_safe. rewrite (is_list_first _ _ _ H).
  apply (for_each_safe_ok f head body xs [] h fuel Hb H Hf).
Qed.

Lemma list_for_each_safe_from_ok : forall f head body l1 x l2 h fuel,
  removes f head body -> is_list h head (l1 ++ x :: l2) -> (S (length l2) < fuel)%nat ->
  exists hf, list_for_each_safe_from body fuel h head x = Some (hf, x :: l2) /\
    is_list hf head (l1 ++ filter (fun x => negb (f x)) (x :: l2)).
Proof.
  intros f head body l1 x l2 h fuel Hb H Hf. unfold list_for_each_safe_from.
  apply (for_each_safe_ok f head body (x :: l2) l1 h fuel Hb H Hf).
Qed.

Lemma for_each_prev_safe_mirror : forall body fuel h head pos p,
  for_each_prev_safe_from body fuel h head pos p =
  option_map (fun '(hf, v) => (mirror hf, v))
    (for_each_safe_from (fun h x => mirror (body (mirror h) x)) fuel (mirror h) head pos p).
Proof.
  induction fuel as [|fuel IH]; intros h head pos p; [reflexivity|].
  cbn [for_each_prev_safe_from for_each_safe_from].
  destruct (pos =? head).
  - destruct h; reflexivity.
  - rewrite IH. cbn [next mirror]. change (mirror (mirror h)) with {| next := next h; prev := prev h |}.
    destruct h as [n p0]. cbn.
    destruct (for_each_safe_from _ fuel _ head p _) as [[hf v]|]; reflexivity.
Qed.

Lemma list_for_each_prev_safe_ok : forall f head body xs h fuel,
  removes f head body -> is_list h head xs -> (length xs < fuel)%nat ->
  exists hf, list_for_each_prev_safe body fuel h head = Some (hf, rev xs) /\
    is_list hf head (filter (fun x => negb (f x)) xs).
Proof.
  intros f head body xs h fuel Hb H Hf.
  assert (Hb' : removes f head (fun h x => mirror (body (mirror h) x))).
  { intros g l1 pos l2 Hg. apply is_list_mirror in Hg. rewrite rev_app_distr in Hg. cbn in Hg.
    rewrite <- app_assoc in Hg. cbn in Hg. apply Hb in Hg. apply is_list_mirror in Hg.
    destruct (f pos); rewrite rev_app_distr in Hg; cbn in Hg; rewrite ?rev_involutive in Hg.
    - exact Hg.
    - rewrite <- app_assoc in Hg. exact Hg. }
  destruct (list_for_each_safe_ok f head _ (rev xs) (mirror h) fuel Hb') as [hf [E L]].
  - apply is_list_mirror. exact H.
  - rewrite rev_length. exact Hf.
  - exists (mirror hf). unfold list_for_each_prev_safe. rewrite for_each_prev_safe_mirror.
    unfold list_for_each_safe in E. cbn [next mirror] in E. rewrite E. split; [reflexivity|].
    apply is_list_mirror in L.
    assert (R : rev (filter (fun x => negb (f x)) (rev xs)) = filter (fun x => negb (f x)) xs).
    { clear. induction xs as [|x xs IH]; [reflexivity|].
      cbn [rev filter]. rewrite filter_app, rev_app_distr, IH. cbn [filter].
      destruct (negb (f x)); reflexivity. }
    rewrite R in L. exact L.
Qed.

(** The body used by the library: list_del on the current element. *)
Lemma removes_list_del : forall f head,
  removes f head (fun h pos => if f pos then list_del h pos else h).
Proof.
  intros f head h l1 pos l2 H. destruct (f pos); [|exact H].
  apply (list_del_ok _ _ _ _ _ H).
Qed.

(** Any node of the ring can be taken as its head. *)
Lemma is_list_rotate : forall h head l1 e l2,
  is_list h head (l1 ++ e :: l2) -> is_list h e (l2 ++ head :: l1).
Proof.
  intros h head l1 e l2 [Hnd Hc]. split.
  - apply (Permutation_NoDup (l := (head :: l1) ++ (e :: l2))); [|exact Hnd].
    rewrite (Permutation_app_comm (head :: l1)). reflexivity.
  - apply chain_app in Hc as [C1 C2]. apply chain_app. split; assumption.
Qed.

(** Replacing the head of a non-empty list. *)
Lemma list_replace_head_ok : forall h old xs new_,
  is_list h old xs -> xs <> [] -> ~ In new_ (old :: xs) ->
  is_list (list_replace h old new_) new_ xs /\
  is_list (list_replace_init h old new_) new_ xs /\
  is_list (list_replace_init h old new_) old [].
Proof.
  intros h old xs new_ H Hne Hnew. destruct xs as [|x xs]; [congruence|].
  pose proof (is_list_rotate h old [] x xs H) as HR.
  assert (Hnew' : ~ In new_ (x :: xs ++ old :: [])).
  { intros K. apply Hnew. cbn in *. rewrite in_app_iff in K. cbn in K. tauto. }
  destruct (list_replace_ok h x xs old [] new_ HR Hnew') as [A _].
  destruct (list_replace_init_ok h x xs old [] new_ HR Hnew') as [B C].
  apply is_list_rotate in A. apply is_list_rotate in B. cbn in A, B. auto.
Qed.

(** A concrete heap holding several lists at once, for the examples:
    head 100 with elements 1 2 3, and head 200 with elements 7 8. *)
Definition ex_heap : lheap :=
  let h := {| next := fun _ => 0; prev := fun _ => 0 |} in
  let h := INIT_LIST_HEAD h 100 in
  let h := INIT_LIST_HEAD h 200 in
  let h := list_add_tail h 1 100 in
  let h := list_add_tail h 2 100 in
  let h := list_add_tail h 3 100 in
  let h := list_add h 8 200 in
  list_add h 7 200.

Ltac nodup_tac := repeat constructor; cbn; intuition congruence.

Lemma ex_list_100 : is_list ex_heap 100 [1; 2; 3].
Proof. split; [nodup_tac|cbn; auto 10]. Qed.
Lemma ex_list_200 : is_list ex_heap 200 [7; 8].
Proof. split; [nodup_tac|cbn; auto 10]. Qed.

(** list_replace_init on the head of an empty list does not give an empty list. *)
Lemma list_replace_init_empty_bad :
  exists h old new_, old <> new_ /\ is_list h old [] /\
    ~ (exists xs, is_list (list_replace_init h old new_) new_ xs).
Proof.
  exists (INIT_LIST_HEAD {| next := fun _ => 0; prev := fun _ => 0 |} 100), 100, 300.
  split; [lia|]. split; [split; [nodup_tac|cbn; auto]|].
  intros [xs [Hnd Hc]]. destruct xs as [|x xs].
  - cbn in Hc. destruct Hc as [E _]. discriminate.
  - cbn [chain] in Hc. destruct Hc as (E1 & E2 & _). cbn in E1. subst x. cbn in E2. discriminate.
Qed.
