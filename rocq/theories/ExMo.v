(** Concrete executions for the memory-ordering macros. *)
From Coq Require Import ZArith Bool List Relations Lia.
From Verif Require Import Archs MoModel MoSpec MoProofs.
Import ListNotations.

(** * An execution is allowed if its order can be embedded into the numbers *)
Lemma ranked_plus : forall (r : event -> event -> Prop) (rk : event -> nat),
  (forall e f, r e f -> (rk e < rk f)%nat) -> forall e f, clos_trans event r e f -> (rk e < rk f)%nat.
Proof. intros r rk H e f H0. induction H0; [auto|lia]. Qed.
Lemma ranked_star : forall (r : event -> event -> Prop) (rk : event -> nat),
  (forall e f, r e f -> (rk e < rk f)%nat) -> forall e f, star r e f -> (rk e <= rk f)%nat.
Proof. intros r rk H e f H0. induction H0 as [e f H0|e|]; [apply H in H0|..]; lia. Qed.
Lemma ranked_acyclic : forall (r : event -> event -> Prop) (rk : event -> nat),
  (forall e f, r e f -> (rk e < rk f)%nat) -> acyclic r.
Proof. intros r rk H e He. pose proof (ranked_plus r rk H e e He). lia. Qed.

Lemma ranked_allowed : forall a E (rk0 rk : event -> nat),
  wf E ->
  (forall e f, poloc E e f -> (rk0 e < rk0 f)%nat) ->
  (forall e f, com E e f -> (rk0 e < rk0 f)%nat /\ (rk e < rk f)%nat) ->
  (forall e f, ppo a E e f -> (rk e < rk f)%nat) ->
  (forall e f, fenced E e f -> (rk e < rk f)%nat) ->
  allowed a E.
Proof.
  intros a E rk0 rk Hwf Hpl Hcom Hppo Hfen.
  split; [exact Hwf|]. split.
  { apply ranked_acyclic with rk0. intros e f [H|H]; [auto|apply Hcom; exact H]. }
  assert (Hhb : forall e f, hb a E e f -> (rk e < rk f)%nat).
  { intros e f [H|[H|[H _]]]; auto. apply Hcom. left. exact H. }
  assert (Hpb : forall e f, prop_base a E e f -> (rk e < rk f)%nat).
  { intros e f (m & H & H').
    pose proof (ranked_star _ rk Hhb _ _ H') as H1.
    destruct H as [H|(n & [H _] & H2)]; [apply Hfen in H; lia|].
    apply Hfen in H2. pose proof (proj2 (Hcom _ _ (or_introl H))). lia. }
  assert (Hp : forall e f, prop a E e f -> (rk e < rk f)%nat).
  { intros e f [[H _]|(m & n & k & H1 & H2 & H3 & H4)]; [auto|].
    apply (ranked_star _ rk) in H1; [|intros; apply Hcom; assumption].
    apply (ranked_star _ rk Hpb) in H2. apply ffenced_fenced, Hfen in H3.
    apply (ranked_star _ rk Hhb) in H4. lia. }
  destruct (mca a).
  - apply ranked_acyclic with rk. intros e f [H|[H|[H _]]]; auto. apply Hcom. exact H.
  - split; [apply ranked_acyclic with rk; exact Hhb|]. split.
    + intros e f g [H _] H1 H2. pose proof (proj2 (Hcom _ _ (or_intror (or_intror H)))).
      apply Hp in H1. apply (ranked_star _ rk Hhb) in H2. lia.
    + apply ranked_acyclic with rk. intros e f [H|H]; [apply Hcom; right; left; exact H|auto].
Qed.

Lemma ppo_before : forall a E e f, ppo a E e f -> before e f.
Proof.
  assert (Hc : forall E e f, ctrl E e f -> before e f).
  { intros E e f (k & (r & x & q & _ & _ & H & _) & H' & _). eapply before_trans; eassumption. }
  intros a E e f H. destruct a; cbn in H; unfold po, poloc_w, poloc in H; intuition eauto.
Qed.
Lemma fenced_before : forall E e f, fenced E e f -> before e f.
Proof. intros E e f (k & fn & d1 & d2 & _ & H & H' & _). eapply before_trans; eassumption. Qed.

(** * Executions of two threads *)
Definition two (t0 t1 : list instr) (t : nat) : list instr :=
  match t with O => t0 | 1%nat => t1 | _ => [] end.
Definition lexec (t0 t1 : list instr) (rfl col : list (event * event)) : exec :=
  {| trace := two t0 t1; rf := fun w r => In (w, r) rfl; co := fun w w' => In (w, w') col |}.


Ltac idx H i := cbn in H; do 8 (try (destruct i as [|i]; cbn in H; try discriminate H)).
Ltac evc H e :=
  let x := fresh "x" in let t := fresh "t" in let i := fresh "i" in
  destruct e as [x|t i]; [try discriminate H|
    destruct t as [|[|t]]; cbn in H; [idx H i|idx H i|destruct i; discriminate H]].
Ltac wr H e :=
  let rel := fresh "rel" in let z := fresh "z" in
  destruct H as [H|[rel H]]; [subst e|evc H e].
Ltac rd H e := let r := fresh "r" in let q := fresh "q" in destruct H as (r & q & H); evc H e.
Ltac pairs H := cbn in H; repeat (destruct H as [H|H]; [inversion H; subst; clear H|]); try destruct H.
Ltac acc_goal := first [left; reflexivity | right; eexists; reflexivity | eexists; eexists; reflexivity].
Ltac in_goal := cbn; repeat first [left; reflexivity | right].
Ltac wf_tac :=
  split; [intros ? ? H; pairs H; eexists; (split; acc_goal)|];
  split; [intros r x H; rd H r; inversion H; subst; eexists; in_goal|];
  split; [intros ? ? ? H H'; pairs H; pairs H'; try reflexivity; discriminate|];
  split; [intros ? ? H; pairs H; eexists; (split; acc_goal)|];
  split; [intros ? ? ? H H'; pairs H; pairs H'; try discriminate; in_goal|];
  split; [intros ? H; pairs H; discriminate|];
  split; [|intros ? ? H; pairs H; discriminate];
  intros w w' x H H'; wr H w; wr H' w'; try (inversion H; subst; clear H); try (inversion H'; subst; clear H');
    first [left; reflexivity | right; left; in_goal; fail | right; right; in_goal; fail | idtac].


(** The threads run one after the other, thread [k] first: an execution in which
    every load returns the last value is allowed on every architecture. *)
Definition seq_rank (k : nat) (e : event) : nat :=
  match e with Init _ => 0 | Ev t i => (if Nat.eqb t k then 1 else 100) + i end.
Lemma seq_rank_before : forall k e f, before e f -> (seq_rank k e < seq_rank k f)%nat.
Proof. intros k [x|t i] [y|u j]; cbn; try tauto. intros [-> H]. destruct (Nat.eqb u k); lia. Qed.
Lemma seq_allowed : forall a E k, wf E ->
  (forall e f, com E e f -> (seq_rank k e < seq_rank k f)%nat) -> allowed a E.
Proof.
  intros a E k Hwf Hcom. apply ranked_allowed with (seq_rank k) (seq_rank k).
  - exact Hwf.
  - intros e f [H _]. apply seq_rank_before. exact H.
  - intros e f H. split; apply Hcom; exact H.
  - intros e f H. apply seq_rank_before. eapply ppo_before. exact H.
  - intros e f H. apply seq_rank_before. eapply fenced_before. exact H.
Qed.
Ltac com_tac := intros e f [H|[H|(w0 & H & H')]];
  [pairs H; cbn; lia|pairs H; cbn; lia|pairs H; pairs H'; try discriminate; cbn; lia].

(** ** Message passing, new values: thread 0 writes location 0 and then location
    1, thread 1 reads location 1 and then location 0. *)
Definition mp_new (t0 t1 : list instr) (w r f : nat) : exec :=
  lexec t0 t1 [(Ev 0 w, Ev 1 r); (Ev 0 0, Ev 1 f)]
    [(Init 0, Ev 0 0); (Init 1, Ev 0 w)].
Definition mp_rel (a : arch) : list instr := [St 0 false] ++ expand a (PStoreRel 1).
Definition mp_acq (a : arch) : list instr := expand a (PLoadAcq 0 1) ++ [Ld 1 0 false].
Definition mp_ctrl (a : arch) : list instr := [Ld 0 1 false; Br 0] ++ expand a PCtrl ++ [Ld 1 0 false].
Definition mp_wmb (a : arch) : list instr := [St 0 false] ++ expand a PWmb ++ [St 1 false].
Definition mp_rmb (a : arch) : list instr := [Ld 0 1 false] ++ expand a PRmb ++ [Ld 1 0 false].

Definition mp_ra (a : arch) : exec :=
  mp_new (mp_rel a) (mp_acq a) (size a (PStoreRel 1)) 0 (size a (PLoadAcq 0 1)).
Definition mp_rc (a : arch) : exec :=
  mp_new (mp_rel a) (mp_ctrl a) (size a (PStoreRel 1)) 0 (2 + size a PCtrl).
Definition mp_wr (a : arch) : exec :=
  mp_new (mp_wmb a) (mp_rmb a) (1 + size a PWmb) 0 (1 + size a PRmb).

Lemma mp_ra_allowed : forall a, allowed a (mp_ra a).
Proof. intros a. apply seq_allowed with 0%nat; destruct a; first [wf_tac; fail | com_tac]. Qed.
Lemma mp_rc_allowed : forall a, allowed a (mp_rc a).
Proof. intros a. apply seq_allowed with 0%nat; destruct a; first [wf_tac; fail | com_tac]. Qed.
Lemma mp_wr_allowed : forall a, allowed a (mp_wr a).
Proof. intros a. apply seq_allowed with 0%nat; destruct a; first [wf_tac; fail | com_tac]. Qed.

Lemma mp_ra_handover : forall a,
  handover a (mp_ra a) (Ev 0 0) (Ev 1 (size a (PLoadAcq 0 1))) /\
  writes (mp_ra a) (Ev 0 0) 0 /\ reads (mp_ra a) (Ev 1 (size a (PLoadAcq 0 1))) 0.
Proof.
  intros a.
  assert (He : writes (mp_ra a) (Ev 0 0) 0) by (right; exists false; reflexivity).
  assert (Hf : reads (mp_ra a) (Ev 1 (size a (PLoadAcq 0 1))) 0).
  { exists 1%nat, false. destruct a; reflexivity. }
  split; [|split; assumption]. apply t_step.
  split; [exists 0%Z; left; exact He|]. split; [exists 0%Z; right; exact Hf|].
  exists (Ev 0 (size a (PStoreRel 1))), (Ev 1 0). split; [right; destruct a; cbn; split; auto|]. split.
  { exists 0%nat, 1%nat, (size a (PStoreRel 1)), 1%Z. destruct a; eexists;
      (split; [exists [St 0 false], []; split; reflexivity|]); (split; [reflexivity|]); (split; [cbn; lia|]); reflexivity. }
  split; [left; reflexivity|]. left.
  exists 1%nat, 0%nat, 0%nat, 0%nat, 1%Z. destruct a; eexists;
    (split; [exists [], [Ld 1 0 false]; split; reflexivity|]); (split; [reflexivity|]); (split; [cbn; lia|]); (split; [reflexivity|]);
    right; eexists; (split; [reflexivity|]); cbn; lia.
Qed.
Lemma mp_rc_handover : forall a,
  handover a (mp_rc a) (Ev 0 0) (Ev 1 (2 + size a PCtrl)) /\
  writes (mp_rc a) (Ev 0 0) 0 /\ reads (mp_rc a) (Ev 1 (2 + size a PCtrl)) 0.
Proof.
  intros a.
  assert (He : writes (mp_rc a) (Ev 0 0) 0) by (right; exists false; reflexivity).
  assert (Hf : reads (mp_rc a) (Ev 1 (2 + size a PCtrl)) 0).
  { exists 1%nat, false. destruct a; reflexivity. }
  split; [|split; assumption]. apply t_step.
  split; [exists 0%Z; left; exact He|]. split; [exists 0%Z; right; exact Hf|].
  exists (Ev 0 (size a (PStoreRel 1))), (Ev 1 0). split; [right; destruct a; cbn; split; auto|]. split.
  { exists 0%nat, 1%nat, (size a (PStoreRel 1)), 1%Z. destruct a; eexists;
      (split; [exists [St 0 false], []; split; reflexivity|]); (split; [reflexivity|]); (split; [cbn; lia|]); reflexivity. }
  split; [left; reflexivity|]. right.
  exists (Ev 1 1). split.
  - exists 0%nat, 1%Z, false. split; [reflexivity|]. split; [reflexivity|]. split; [cbn; auto|].
    intros [z|u m] y q; cbn; [tauto|]. intros [<- Hm] [_ Hm']. lia.
  - exists 1%nat, 2%nat, 1%nat, (2 + size a PCtrl)%nat.
    split; [exists [Ld 0 1 false; Br 0], [Ld 1 0 false]; split; reflexivity|]. auto.
Qed.
Lemma mp_wr_separated : forall a,
  separated a (mp_wr a) PWmb (Ev 0 0) (Ev 0 (1 + size a PWmb)) /\
  rf (mp_wr a) (Ev 0 (1 + size a PWmb)) (Ev 1 0) /\
  separated a (mp_wr a) PRmb (Ev 1 0) (Ev 1 (1 + size a PRmb)) /\
  writes (mp_wr a) (Ev 0 0) 0 /\ writes (mp_wr a) (Ev 0 (1 + size a PWmb)) 1 /\
  reads (mp_wr a) (Ev 1 (1 + size a PRmb)) 0.
Proof.
  intros a. split.
  { exists 0%nat, 1%nat, 0%nat, (1 + size a PWmb)%nat. split; [exists [St 0 false], [St 1 false]; split; reflexivity|]. auto. }
  split; [left; reflexivity|]. split.
  { exists 1%nat, 1%nat, 0%nat, (1 + size a PRmb)%nat. split; [exists [Ld 0 1 false], [Ld 1 0 false]; split; reflexivity|]. auto. }
  split; [right; exists false; reflexivity|].
  split; [right; exists false; destruct a; reflexivity|exists 1%nat, false; destruct a; reflexivity].
Qed.

(** ** Store buffering, with full barriers, thread 0 first *)
Definition sb_mb (a : arch) (t : nat) : list instr :=
  match t with
  | O => [St 0 false] ++ expand a PMb ++ [Ld 0 1 false]
  | _ => [St 1 false] ++ expand a PMb ++ [Ld 0 0 false]
  end.
Definition sb_seq (a : arch) : exec :=
  lexec (sb_mb a 0) (sb_mb a 1) [(Init 1, Ev 0 (1 + size a PMb)); (Ev 0 0, Ev 1 (1 + size a PMb))]
    [(Init 0, Ev 0 0); (Init 1, Ev 1 0)].
Lemma sb_seq_allowed : forall a, allowed a (sb_seq a).
Proof. intros a. apply seq_allowed with 0%nat; destruct a; first [wf_tac; fail | com_tac]. Qed.
Lemma sb_seq_case : forall a,
  writes (sb_seq a) (Ev 0 0) 0 /\ reads (sb_seq a) (Ev 0 (1 + size a PMb)) 1 /\
  separated a (sb_seq a) PMb (Ev 0 0) (Ev 0 (1 + size a PMb)) /\
  writes (sb_seq a) (Ev 1 0) 1 /\ reads (sb_seq a) (Ev 1 (1 + size a PMb)) 0 /\
  separated a (sb_seq a) PMb (Ev 1 0) (Ev 1 (1 + size a PMb)) /\
  fr (sb_seq a) (Ev 0 (1 + size a PMb)) (Ev 1 0).
Proof.
  intros a. split; [right; exists false; reflexivity|].
  split; [exists 0%nat, false; destruct a; reflexivity|].
  split; [exists 0%nat, 1%nat, 0%nat, (1 + size a PMb)%nat; split; [exists [St 0 false], [Ld 0 1 false]; split; reflexivity|auto]|].
  split; [right; exists false; reflexivity|].
  split; [exists 0%nat, false; destruct a; reflexivity|].
  split; [exists 1%nat, 1%nat, 0%nat, (1 + size a PMb)%nat; split; [exists [St 1 false], [Ld 0 0 false]; split; reflexivity|auto]|].
  exists (Init 1). split; [left; reflexivity|right; left; reflexivity].
Qed.

(** * What the macros are needed for *)

(** Architectures on which plain stores and loads may be reordered. *)
Definition weak (a : arch) : bool :=
  match a with X86_64 | I386 | S390 => false | _ => true end.

Lemma no_ctrl : forall E e f, (forall k r, ins E k <> Some (Br r)) -> ~ ctrl E e f.
Proof. intros E e f H (k & (r & x & q & _ & Hk & _) & _). exact (H k r Hk). Qed.

(** ** Message passing, old value of location 0, with a plain store *)
Definition mp_old (t0 t1 : list instr) (w r f : nat) : exec :=
  lexec t0 t1 [(Ev 0 w, Ev 1 r); (Init 0, Ev 1 f)]
    [(Init 0, Ev 0 0); (Init 1, Ev 0 w)].
Definition mp_nrel (a : arch) : exec :=
  mp_old [St 0 false; St 1 false] (mp_acq a) 1 0 (size a (PLoadAcq 0 1)).
Definition rank_nrel (e : event) : nat :=
  match e with Init _ => 0 | Ev 0 0 => 100 | Ev 0 i => i | Ev _ i => 10 + i end.
Definition mp_nacq (a : arch) : exec :=
  mp_old (mp_rel a) [Ld 0 1 false; Ld 1 0 false] (size a (PStoreRel 1)) 0 1.
Definition rank_nacq (e : event) : nat :=
  match e with Init _ => 0 | Ev 1 0 => 100 | Ev 1 i => i | Ev _ i => 10 + i end.

(** Accesses of the two threads. *)
Lemma acc_lexec : forall t0 t1 rfl col t i x, acc (lexec t0 t1 rfl col) (Ev t i) x ->
  (t = 0 /\ i < length t0)%nat \/ (t = 1 /\ i < length t1)%nat.
Proof.
  intros t0 t1 rfl col t i x H.
  assert (Hn : nth_error (two t0 t1 t) i <> None).
  { destruct H as [[H|[q H]]|(r & q & H)]; [discriminate| |]; cbn in H; congruence. }
  destruct t as [|[|t]]; cbn in Hn.
  - left. split; [reflexivity|]. apply nth_error_Some. exact Hn.
  - right. split; [reflexivity|]. apply nth_error_Some. exact Hn.
  - destruct i; cbn in Hn; congruence.
Qed.
Lemma ppo_acc : forall a E e f, ppo a E e f -> (exists x, acc E e x) /\ exists y, acc E f y.
Proof.
  assert (Hc : forall E e f, ctrl E e f -> (exists x, acc E e x) /\ exists y, acc E f y).
  { intros E e f (k & (r & x & q & H & _) & _ & y & H'). split; [exists x; right; exists r, q; exact H|exists y; left; exact H']. }
  intros a E e f H. destruct a; cbn in H; unfold po, poloc_w, poloc in H;
    try (apply Hc; exact H); try (destruct H as [(_ & H & H') _]; split; assumption).
  - destruct H as [[(_ & H & H') _]|[H|[(_ & x & H & H') _]]]; [split; assumption|apply Hc; exact H|].
    split; exists x; assumption.
  - destruct H as [H|[(_ & x & H & H') _]]; [apply Hc; exact H|]. split; exists x; assumption.
Qed.
Lemma fenced_acc : forall E e f, fenced E e f -> (exists x, acc E e x) /\ exists y, acc E f y.
Proof.
  intros E e f (k & fn & d1 & d2 & _ & _ & _ & D1 & D2 & _).
  split; eapply dir_acc; eassumption.
Qed.
Lemma fenced_gap : forall E t i, ~ fenced E (Ev t i) (Ev t (S i)).
Proof.
  intros E t i (k & fn & d1 & d2 & _ & H & H' & _). destruct k as [z|u j]; cbn in *; [tauto|].
  destruct H as [_ H], H' as [_ H']. lia.
Qed.
Lemma two_no_br : forall t0 t1 rfl col, (forall r, ~ In (Br r) t0) -> (forall r, ~ In (Br r) t1) ->
  forall k r, ins (lexec t0 t1 rfl col) k <> Some (Br r).
Proof.
  intros t0 t1 rfl col H0 H1 [x|t i] r H; [discriminate|]. cbn in H.
  apply nth_error_In in H. destruct t as [|[|t]]; cbn in H; [exact (H0 r H)|exact (H1 r H)|destruct H].
Qed.

Lemma nrel_edge : forall a e f, before e f ->
  (exists x, acc (mp_nrel a) e x) -> (exists y, acc (mp_nrel a) f y) ->
  (e = Ev 0 0 /\ f = Ev 0 1) \/ (rank_nrel e < rank_nrel f)%nat.
Proof.
  intros a [z|t i] [z'|u j] Hb [x Hx] [y Hy]; cbn in Hb; try tauto. destruct Hb as [<- Hb].
  destruct (acc_lexec _ _ _ _ _ _ _ Hx) as [[-> Hi]|[-> Hi]]; cbn in Hi.
  - destruct (acc_lexec _ _ _ _ _ _ _ Hy) as [[_ Hj]|[Hj _]]; [|discriminate]; cbn in Hj.
    left. split; f_equal; lia.
  - right. cbn. lia.
Qed.
Lemma nacq_edge : forall a e f, before e f ->
  (exists x, acc (mp_nacq a) e x) -> (exists y, acc (mp_nacq a) f y) ->
  (e = Ev 1 0 /\ f = Ev 1 1) \/ (rank_nacq e < rank_nacq f)%nat.
Proof.
  intros a [z|t i] [z'|u j] Hb [x Hx] [y Hy]; cbn in Hb; try tauto. destruct Hb as [<- Hb].
  destruct (acc_lexec _ _ _ _ _ _ _ Hx) as [[-> Hi]|[-> Hi]]; cbn in Hi.
  - right. cbn. lia.
  - destruct (acc_lexec _ _ _ _ _ _ _ Hy) as [[Hj _]|[_ Hj]]; [discriminate|]; cbn in Hj.
    left. split; f_equal; lia.
Qed.
Ltac no_br := apply two_no_br; intros r H; cbn in H; repeat (destruct H as [H|H]; [discriminate H|]); exact H.
Ltac accv H := let r := fresh in let q := fresh in
  destruct H as [[H|[q H]]|(r & q & H)]; [discriminate H|..]; cbn in H; try discriminate H; inversion H; subst; clear H.
(** No accesses of one thread to one location. *)
Ltac no_poloc H := exfalso; destruct H as (x & H & H'); accv H; accv H'.

Lemma mp_nrel_allowed : forall a, weak a = true -> allowed a (mp_nrel a).
Proof.
  intros a Ha.
  assert (Hbr : forall k r, ins (mp_nrel a) k <> Some (Br r)) by (destruct a; no_br).
  apply ranked_allowed with rank_nrel rank_nrel.
  - destruct a; wf_tac.
  - intros e f [Hb (x & H & H')].
    destruct (nrel_edge a e f Hb (ex_intro _ x H) (ex_intro _ x H')) as [[-> ->]|Hr]; [|exact Hr].
    accv H; accv H'.
  - destruct a; com_tac.
  - intros e f H. destruct (ppo_acc _ _ _ _ H) as [H1 H2].
    destruct (nrel_edge a e f (ppo_before _ _ _ _ H) H1 H2) as [[-> ->]|Hr]; [exfalso|exact Hr].
    assert (Hpl : ~ poloc_w (mp_nrel a) (Ev 0 0) (Ev 0 1)).
    { intros [[_ (x & H3 & H4)] _]. accv H3; accv H4. }
    pose proof (no_ctrl _ (Ev 0 0) (Ev 0 1) Hbr) as Hc.
    destruct a; try discriminate Ha; cbn in H; try tauto.
    destruct H as [[_ [(r & x & H)|[(x & H)|[(x & H) _]]]]|[H|H]]; try tauto; discriminate H.
  - intros e f H. destruct (fenced_acc _ _ _ H) as [H1 H2].
    destruct (nrel_edge a e f (fenced_before _ _ _ H) H1 H2) as [[-> ->]|Hr]; [exfalso|exact Hr].
    exact (fenced_gap _ _ _ H).
Qed.
Lemma mp_nacq_allowed : forall a, weak a = true -> allowed a (mp_nacq a).
Proof.
  intros a Ha.
  assert (Hbr : forall k r, ins (mp_nacq a) k <> Some (Br r)) by (destruct a; no_br).
  apply ranked_allowed with rank_nacq rank_nacq.
  - destruct a; wf_tac.
  - intros e f [Hb (x & H & H')].
    destruct (nacq_edge a e f Hb (ex_intro _ x H) (ex_intro _ x H')) as [[-> ->]|Hr]; [|exact Hr].
    accv H; accv H'.
  - destruct a; com_tac.
  - intros e f H. destruct (ppo_acc _ _ _ _ H) as [H1 H2].
    destruct (nacq_edge a e f (ppo_before _ _ _ _ H) H1 H2) as [[-> ->]|Hr]; [exfalso|exact Hr].
    assert (Hpl : ~ poloc_w (mp_nacq a) (Ev 1 0) (Ev 1 1)).
    { intros [[_ (x & H3 & H4)] _]. accv H3; accv H4. }
    pose proof (no_ctrl _ (Ev 1 0) (Ev 1 1) Hbr) as Hc.
    destruct a; try discriminate Ha; cbn in H; try tauto.
    destruct H as [[_ [(r & x & H)|[(x & H)|[(x & H) _]]]]|[H|H]]; try tauto; discriminate H.
  - intros e f H. destruct (fenced_acc _ _ _ H) as [H1 H2].
    destruct (nacq_edge a e f (fenced_before _ _ _ H) H1 H2) as [[-> ->]|Hr]; [exfalso|exact Hr].
    exact (fenced_gap _ _ _ H).
Qed.

(** ** Store buffering without barriers: both threads read the old value *)
Definition sb_old : exec :=
  lexec [St 0 false; Ld 0 1 false] [St 1 false; Ld 0 0 false]
    [(Init 1, Ev 0 1); (Init 0, Ev 1 1)] [(Init 0, Ev 0 0); (Init 1, Ev 1 0)].
Definition rank_sb (e : event) : nat := match e with Init _ => 0 | Ev _ 0 => 2 | Ev _ _ => 1 end.
Lemma sb_edge : forall e f, before e f -> (exists x, acc sb_old e x) -> (exists y, acc sb_old f y) ->
  (e = Ev 0 0 /\ f = Ev 0 1) \/ (e = Ev 1 0 /\ f = Ev 1 1).
Proof.
  intros [z|t i] [z'|u j] Hb [x Hx] [y Hy]; cbn in Hb; try tauto. destruct Hb as [<- Hb].
  destruct (acc_lexec _ _ _ _ _ _ _ Hx) as [[-> Hi]|[-> Hi]], (acc_lexec _ _ _ _ _ _ _ Hy) as [[Hu Hj]|[Hu Hj]];
    try discriminate; cbn in Hi, Hj; [left|right]; split; f_equal; lia.
Qed.
Lemma sb_old_allowed : forall a, allowed a sb_old.
Proof.
  intros a.
  assert (Hbr : forall k r, ins sb_old k <> Some (Br r)) by no_br.
  apply ranked_allowed with rank_sb rank_sb.
  - wf_tac.
  - intros e f [Hb (x & H & H')].
    destruct (sb_edge e f Hb (ex_intro _ x H) (ex_intro _ x H')) as [[-> ->]|[-> ->]]; accv H; accv H'.
  - com_tac.
  - intros e f H. destruct (ppo_acc _ _ _ _ H) as [H1 H2].
    assert (Hpl : ~ poloc_w sb_old e f).
    { intros [[_ (x & H3 & H4)] _].
      destruct (sb_edge e f (ppo_before _ _ _ _ H) H1 H2) as [[-> ->]|[-> ->]]; accv H3; accv H4. }
    pose proof (no_ctrl _ e f Hbr) as Hc.
    destruct (sb_edge e f (ppo_before _ _ _ _ H) H1 H2) as [[-> ->]|[-> ->]]; exfalso;
    destruct a; cbn in H; try tauto;
    try (destruct H as [_ [(x & r & q & H)|(x & [H|(q & H)])]]; discriminate H);
    destruct H as [[_ [(r & x & H)|[(x & H)|[(x & H) _]]]]|[H|H]]; try tauto; discriminate H.
  - intros e f H. destruct (fenced_acc _ _ _ H) as [H1 H2].
    destruct (sb_edge e f (fenced_before _ _ _ H) H1 H2) as [[-> ->]|[-> ->]]; exfalso; exact (fenced_gap _ _ _ H).
Qed.

(** ** The barrier for after a control dependency is not an acquire barrier
    without the branch: thread 0 reads location 0, executes the barrier, writes
    location 1; thread 1 reads that and then writes location 0. *)
Definition lb_nobr (a : arch) : exec :=
  lexec ([Ld 0 0 false] ++ expand a PCtrl ++ [St 1 false]) ([Ld 0 1 false] ++ expand a (PStoreRel 0))
    [(Ev 1 (size a (PStoreRel 0)), Ev 0 0); (Ev 0 (1 + size a PCtrl), Ev 1 0)]
    [(Init 0, Ev 1 (size a (PStoreRel 0))); (Init 1, Ev 0 (1 + size a PCtrl))].
Definition rank_lb (e : event) : nat :=
  match e with Init _ => 0 | Ev 0 0 => 100 | Ev 0 i => i | Ev _ i => 10 + i end.
Lemma lb_edge : forall e f (a := RISCV), before e f ->
  (exists x, acc (lb_nobr a) e x) -> (exists y, acc (lb_nobr a) f y) ->
  (e = Ev 0 0 /\ f = Ev 0 2) \/ (rank_lb e < rank_lb f)%nat.
Proof.
  intros [z|t i] [z'|u j] a Hb [x Hx] [y Hy]; cbn in Hb; try tauto. destruct Hb as [<- Hb].
  destruct (acc_lexec _ _ _ _ _ _ _ Hx) as [[-> Hi]|[-> Hi]]; cbn in Hi.
  - destruct (acc_lexec _ _ _ _ _ _ _ Hy) as [[_ Hj]|[Hj _]]; [|discriminate]; cbn in Hj.
    destruct i as [|[|[|i]]]; [| |lia|lia].
    + destruct j as [|[|[|j]]]; [lia| |left; split; reflexivity|lia]. accv Hy.
    + accv Hx.
  - right. cbn. lia.
Qed.
Lemma lb_nobr_allowed : allowed RISCV (lb_nobr RISCV).
Proof.
  assert (Hbr : forall k r, ins (lb_nobr RISCV) k <> Some (Br r)) by no_br.
  apply ranked_allowed with rank_lb rank_lb.
  - wf_tac.
  - intros e f [Hb (x & H & H')].
    destruct (lb_edge e f Hb (ex_intro _ x H) (ex_intro _ x H')) as [[-> ->]|Hr]; [|exact Hr].
    accv H; accv H'.
  - com_tac.
  - intros e f H. destruct (ppo_acc _ _ _ _ H) as [H1 H2].
    destruct (lb_edge e f (ppo_before _ _ _ _ H) H1 H2) as [[-> ->]|Hr]; [exfalso|exact Hr].
    destruct H as [H|[[_ (x & H3 & H4)] _]]; [exact (no_ctrl _ _ _ Hbr H)|]. accv H3; accv H4.
  - intros e f H. destruct (fenced_acc _ _ _ H) as [H1 H2].
    destruct (lb_edge e f (fenced_before _ _ _ H) H1 H2) as [[-> ->]|Hr]; [exfalso|exact Hr].
    destruct H as (k & fn & d1 & d2 & Hk & B1 & B2 & D1 & D2 & Ho).
    destruct k as [z|u j]; [discriminate|]. destruct B1 as [<- B1], B2 as [_ B2].
    assert (j = 1)%nat as -> by lia. cbn in Hk. injection Hk as <-.
    destruct d2; [|destruct d1; discriminate Ho].
    destruct D2 as (x & r & q & D2). discriminate D2.
Qed.
