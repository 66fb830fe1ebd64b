(** Proofs about the memory-ordering macros. *)
From Coq Require Import ZArith Bool List Relations Lia.
From Verif Require Import Archs MoModel MoSpec.
Import ListNotations.

(** * Events *)
Lemma before_trans : forall e f g, before e f -> before f g -> before e g.
Proof. intros [x|t i] [y|u j] [z|v k]; cbn; try tauto. intros [-> H] [-> H']. split; [reflexivity|lia]. Qed.
Lemma before_irrefl : forall e, ~ before e e.
Proof. intros [x|t i]; cbn; [tauto|]. intros [_ H]; lia. Qed.
Lemma before_same : forall e f, before e f -> same_thread e f.
Proof. intros [x|t i] [y|u j]; cbn; tauto. Qed.
Lemma same_cases : forall e f, same_thread e f -> e = f \/ before e f \/ before f e.
Proof.
  intros [x|t i] [y|u j]; cbn; try tauto. intros ->.
  destruct (Nat.lt_trichotomy i j) as [H|[->|H]]; auto.
Qed.
Lemma same_dec : forall e f, same_thread e f \/ ~ same_thread e f.
Proof. intros [x|t i] [y|u j]; cbn; try tauto. destruct (Nat.eq_dec t u); auto. Qed.
Lemma same_sym : forall e f, same_thread e f -> same_thread f e.
Proof. intros [x|t i] [y|u j]; cbn; try tauto. auto. Qed.
Lemma same_trans : forall e f g, same_thread e f -> same_thread f g -> same_thread e g.
Proof. intros [x|t i] [y|u j] [z|v k]; cbn; try tauto. congruence. Qed.

Lemma write_not_read : forall E e x y, writes E e x -> reads E e y -> False.
Proof.
  intros E e x y [->|[rel H]] (r & q & H'); [discriminate|]. rewrite H in H'. discriminate.
Qed.
Lemma writes_fun : forall E e x y, writes E e x -> writes E e y -> x = y.
Proof.
  intros E e x y [->|[rel H]] [H'|[rel' H']].
  - congruence.
  - discriminate.
  - subst. discriminate.
  - rewrite H in H'. congruence.
Qed.
Lemma reads_fun : forall E e x y, reads E e x -> reads E e y -> x = y.
Proof. intros E e x y (r & q & H) (r' & q' & H'). rewrite H in H'. congruence. Qed.
Lemma not_fence : forall E e x f, acc E e x -> ins E e = Some (Fn f) -> False.
Proof.
  intros E e x f [[->|[rel H]]|(r & q & H)] H'; [discriminate| |]; rewrite H in H'; discriminate.
Qed.
Lemma acc_dir : forall E e x, acc E e x -> exists d, has_dir E e d.
Proof. intros E e x [H|H]; [exists W|exists R]; exists x; exact H. Qed.
Lemma dir_acc : forall E e d, has_dir E e d -> exists x, acc E e x.
Proof. intros E e [] [x H]; exists x; [right|left]; exact H. Qed.

(** * Macros *)
Lemma runs_nth : forall a E t i p k z,
  runs a E t i p -> nth_error (expand a p) k = Some z -> ins E (Ev t (i + k)) = Some z.
Proof.
  intros a E t i p k z (pre & post & H & <-) Hz. cbn. rewrite H.
  rewrite nth_error_app2 by lia. replace (length pre + k - length pre)%nat with k by lia.
  rewrite nth_error_app1; [exact Hz|]. apply nth_error_Some. congruence.
Qed.

Lemma full_orders : forall f d1 d2, full f = true -> orders f d1 d2 = true.
Proof.
  intros f d1 d2 H. unfold full in H. rewrite !andb_true_iff in H.
  destruct H as [[[H1 H2] H3] H4]. destruct d1, d2; assumption.
Qed.
Lemma ffenced_fenced : forall E e f, ffenced E e f -> fenced E e f.
Proof.
  intros E e f (k & fn & H & Hf & H1 & H2 & [x He] & [y Hy]).
  destruct (acc_dir _ _ _ He) as [d1 D1]. destruct (acc_dir _ _ _ Hy) as [d2 D2].
  exists k, fn, d1, d2. repeat (split; [assumption|]). apply full_orders. exact Hf.
Qed.

Definition ok_ord (a : arch) (E : exec) (e f : event) : Prop :=
  fenced E e f \/ (mca a = true /\ ppo a E e f).

(** A barrier of the macro lies between. *)
Lemma fence_at : forall a E t i p k fn e f d1 d2,
  runs a E t i p -> nth_error (expand a p) k = Some (Fn fn) ->
  before e (Ev t (i + k)) -> before (Ev t (i + k)) f ->
  has_dir E e d1 -> has_dir E f d2 -> orders fn d1 d2 = true -> fenced E e f.
Proof.
  intros a E t i p k fn e f d1 d2 H Hk He Hf D1 D2 Ho.
  exists (Ev t (i + k)), fn, d1, d2. split; [eapply runs_nth; eassumption|]. auto.
Qed.

Lemma acc_not_at : forall a E t i p k fn e x,
  runs a E t i p -> nth_error (expand a p) k = Some (Fn fn) -> acc E e x -> e <> Ev t (i + k).
Proof.
  intros a E t i p k fn e x H Hk He ->. eapply not_fence; [exact He|]. eapply runs_nth; eassumption.
Qed.

Lemma po_intro : forall E e f x y, before e f -> acc E e x -> acc E f y -> po E e f.
Proof. intros E e f x y H He Hf. split; [exact H|]. split; [exists x|exists y]; assumption. Qed.

Lemma release_orders : forall a E e w x,
  released a E w -> before e w -> acc E e x -> ok_ord a E e w.
Proof.
  intros a E e w x (t & i & j & y & rel & Hr & -> & Hj & Hw) Hb He.
  destruct (acc_dir _ _ _ He) as [d1 D1].
  assert (D2 : has_dir E (Ev t j) W) by (exists y; right; exists rel; exact Hw).
  assert (Hpo : po E e (Ev t j)) by (eapply po_intro; [exact Hb|exact He|left; right; exists rel; exact Hw]).
  destruct a; unfold size in Hj; cbn in Hj;
    try (right; split; [reflexivity|]; cbn;
         first [ split; [exact Hpo|right; exact D2]
               | left; split; [exact Hpo|]; right; left;
                 pose proof (runs_nth _ _ _ _ _ 0 _ Hr eq_refl) as Hz;
                 replace (i + 0)%nat with j in Hz by lia; exists y; exact Hz ]).
  all: left; assert (j = i + 1)%nat as ->;
    [ assert (Hn : j <> (i + 0)%nat) by
        (intros ->; pose proof (runs_nth _ _ _ _ _ 0 _ Hr eq_refl) as Hz; rewrite Hz in Hw; discriminate); lia | ].
  all: eapply (fence_at _ _ _ _ _ 0); [exact Hr|reflexivity| |cbn; split; [reflexivity|lia]|exact D1|exact D2|destruct d1; reflexivity].
  all: pose proof (acc_not_at _ _ _ _ _ 0 _ _ _ Hr eq_refl He) as Hne; clear - Hb Hne; destruct e as [z|u k]; cbn in Hb |- *; [tauto|];
    destruct Hb as [-> Hb]; split; [reflexivity|]; assert (k <> (i + 0)%nat) by (intros ->; congruence); lia.
Qed.

Lemma acquire_orders : forall a E r f x,
  acquired a E r f -> r <> f -> acc E f x -> before r f /\ (fenced E r f \/ ppo a E r f).
Proof.
  intros a E r f x (t & i & j & n & y & acq & Hr & -> & Hj & Hl & Hf) Hne Ha.
  destruct Hf as [->|(k & -> & Hk)]; [congruence|].
  assert (Hb : before (Ev t j) (Ev t k)) by (cbn; split; [reflexivity|]; lia).
  split; [exact Hb|].
  destruct (acc_dir _ _ _ Ha) as [d2 D2].
  assert (D1 : has_dir E (Ev t j) R) by (exists y; exists n, acq; exact Hl).
  assert (Hpo : po E (Ev t j) (Ev t k)) by (eapply po_intro; [exact Hb|right; exists n, acq; exact Hl|exact Ha]).
  destruct a; unfold size in Hj, Hk; cbn in Hj, Hk;
    try (right; cbn;
         first [ split; [exact Hpo|left; exact D1]
               | left; split; [exact Hpo|]; left;
                 pose proof (runs_nth _ _ _ _ _ 0 _ Hr eq_refl) as Hz;
                 replace (i + 0)%nat with j in Hz by lia; exists n, y; exact Hz ]).
  all: left; assert (j = i + 0)%nat as ->;
    [ assert (Hn : j <> (i + 1)%nat) by
        (intros ->; pose proof (runs_nth _ _ _ _ _ 1 _ Hr eq_refl) as Hz; rewrite Hz in Hl; discriminate); lia | ].
  all: eapply (fence_at _ _ _ _ _ 1); [exact Hr|reflexivity|cbn; split; [reflexivity|lia]|cbn; split; [reflexivity|lia]|exact D1|exact D2|destruct d2; reflexivity].
Qed.

Lemma acquire_ctrl_orders : forall a E r f x,
  acquired_ctrl a E r f -> acc E f x -> before r f /\ (fenced E r f \/ ppo a E r f).
Proof.
  intros a E r f x (b & Hd & t & i & j & k & Hr & -> & Hj & -> & Hk) Ha.
  pose proof Hd as (n & y & acq & Hl & Hbr & Hrb & _).
  assert (Hb : before r (Ev t k)).
  { eapply before_trans; [exact Hrb|]. cbn. split; [reflexivity|]. lia. }
  split; [exact Hb|].
  assert (D1 : has_dir E r R) by (exists y; exists n, acq; exact Hl).
  assert (Hpo : po E r (Ev t k)) by (eapply po_intro; [exact Hb|right; exists n, acq; exact Hl|exact Ha]).
  destruct (acc_dir _ _ _ Ha) as [d2 D2].
  assert (Hri : before r (Ev t (i + 0))).
  { eapply before_trans; [exact Hrb|]. cbn. split; [reflexivity|]. lia. }
  destruct d2.
  - destruct a; unfold size in Hk; cbn in Hk;
      try (right; cbn; split; [exact Hpo|left; exact D1]).
    all: left; eapply (fence_at _ _ _ _ _ 0); [exact Hr|reflexivity|exact Hri|cbn; split; [reflexivity|lia]|exact D1|exact D2|reflexivity].
  - assert (Hc : ctrl E r (Ev t k)).
    { exists (Ev t j). split; [exact Hd|]. split; [cbn; split; [reflexivity|lia]|exact D2]. }
    right. destruct a; cbn; auto.
Qed.

Lemma mb_orders : forall a E e f x y,
  separated a E PMb e f -> acc E e x -> acc E f y -> ffenced E e f.
Proof.
  intros a E e f x y (t & i & j & k & Hr & -> & Hj & -> & Hk) He Hf.
  assert (Hz : exists fn, nth_error (expand a PMb) 0 = Some (Fn fn) /\ full fn = true /\ size a PMb = 1%nat).
  { destruct a; cbn; eexists; (split; [reflexivity|]); split; reflexivity. }
  destruct Hz as (fn & Hz & Hfn & Hs). rewrite Hs in Hk.
  exists (Ev t (i + 0)), fn. split; [eapply runs_nth; eassumption|]. split; [exact Hfn|].
  split; [cbn; split; [reflexivity|lia]|]. split; [cbn; split; [reflexivity|lia]|].
  split; [exists x|exists y]; assumption.
Qed.

Lemma wmb_orders : forall a E e f x y,
  separated a E PWmb e f -> writes E e x -> writes E f y -> before e f /\ ok_ord a E e f.
Proof.
  intros a E e f x y (t & i & j & k & Hr & -> & Hj & -> & Hk) He Hf.
  assert (Hb : before (Ev t j) (Ev t k)) by (cbn; split; [reflexivity|lia]).
  split; [exact Hb|].
  assert (Hpo : po E (Ev t j) (Ev t k)) by (eapply po_intro; [exact Hb|left; exact He|left; exact Hf]).
  assert (D1 : has_dir E (Ev t j) W) by (exists x; exact He).
  assert (D2 : has_dir E (Ev t k) W) by (exists y; exact Hf).
  destruct a; unfold size in Hk; cbn in Hk;
    try (right; split; [reflexivity|]; cbn; split; [exact Hpo|right; exact D2]).
  all: left; eapply (fence_at _ _ _ _ _ 0); [exact Hr|reflexivity|cbn; split; [reflexivity|lia]|cbn; split; [reflexivity|lia]|exact D1|exact D2|reflexivity].
Qed.

Lemma rmb_orders : forall a E e f x y,
  separated a E PRmb e f -> reads E e x -> reads E f y -> before e f /\ (fenced E e f \/ ppo a E e f).
Proof.
  intros a E e f x y (t & i & j & k & Hr & -> & Hj & -> & Hk) He Hf.
  assert (Hb : before (Ev t j) (Ev t k)) by (cbn; split; [reflexivity|lia]).
  split; [exact Hb|].
  assert (Hpo : po E (Ev t j) (Ev t k)) by (eapply po_intro; [exact Hb|right; exact He|right; exact Hf]).
  assert (D1 : has_dir E (Ev t j) R) by (exists x; exact He).
  assert (D2 : has_dir E (Ev t k) R) by (exists y; exact Hf).
  destruct a; unfold size in Hk; cbn in Hk;
    try (right; cbn; split; [exact Hpo|left; exact D1]).
  all: left; eapply (fence_at _ _ _ _ _ 0); [exact Hr|reflexivity|cbn; split; [reflexivity|lia]|cbn; split; [reflexivity|lia]|exact D1|exact D2|reflexivity].
Qed.

(** * Relations *)
Lemma star_trans : forall r e f g, star r e f -> star r f g -> star r e g.
Proof. intros r e f g H H'. eapply rt_trans; eassumption. Qed.
Lemma star_step : forall (r : event -> event -> Prop) e f, r e f -> star r e f.
Proof. intros. apply rt_step. assumption. Qed.
Lemma star_or : forall r e f, star r e f -> e = f \/ clos_trans event r e f.
Proof.
  intros r e f H. induction H as [e f H|e|e f g H1 IH1 H2 IH2].
  - right. apply t_step. exact H.
  - left. reflexivity.
  - destruct IH1 as [->|IH1]; [exact IH2|]. destruct IH2 as [<-|IH2]; [right; exact IH1|].
    right. eapply t_trans; eassumption.
Qed.
Lemma plus_star : forall r e f, clos_trans event r e f -> star r e f.
Proof.
  intros r e f H. induction H as [e f H|e f g H1 IH1 H2 IH2].
  - apply rt_step. exact H.
  - eapply rt_trans; eassumption.
Qed.
Lemma plus_mono : forall (r s : event -> event -> Prop), (forall e f, r e f -> s e f) ->
  forall e f, clos_trans event r e f -> clos_trans event s e f.
Proof.
  intros r s H e f H0. induction H0 as [e f H0|e f g H1 IH1 H2 IH2].
  - apply t_step. auto.
  - eapply t_trans; eassumption.
Qed.
Lemma star_plus : forall r e f g, star r e f -> clos_trans event r f g -> clos_trans event r e g.
Proof.
  intros r e f g H H'. destruct (star_or _ _ _ H) as [->|H0]; [exact H'|]. eapply t_trans; eassumption.
Qed.
Lemma plus_star_plus : forall r e f g, clos_trans event r e f -> star r f g -> clos_trans event r e g.
Proof.
  intros r e f g H H'. destruct (star_or _ _ _ H') as [->|H0]; [exact H|]. eapply t_trans; eassumption.
Qed.
Lemma star_mono : forall (r s : event -> event -> Prop), (forall e f, r e f -> s e f) ->
  forall e f, star r e f -> star s e f.
Proof.
  intros r s H e f H0. induction H0 as [e f H0|e|e f g H1 IH1 H2 IH2].
  - apply rt_step. auto.
  - apply rt_refl.
  - eapply rt_trans; eassumption.
Qed.

Section Allowed.
Variables (a : arch) (E : exec).
Hypothesis Hal : allowed a E.

Lemma Hwf : wf E.
Proof. exact (proj1 Hal). Qed.
Lemma Hun : uniproc E.
Proof. exact (proj1 (proj2 Hal)). Qed.

Lemma rf_acc : forall w r, rf E w r -> exists x, writes E w x /\ reads E r x.
Proof. exact (proj1 Hwf). Qed.
Lemma rf_fun : forall w w' r, rf E w r -> rf E w' r -> w = w'.
Proof. exact (proj1 (proj2 (proj2 Hwf))). Qed.
Lemma co_acc : forall w w', co E w w' -> exists x, writes E w x /\ writes E w' x.
Proof. exact (proj1 (proj2 (proj2 (proj2 Hwf)))). Qed.
Lemma co_trans : forall w w' w'', co E w w' -> co E w' w'' -> co E w w''.
Proof. exact (proj1 (proj2 (proj2 (proj2 (proj2 Hwf))))). Qed.
Lemma co_irrefl : forall w, ~ co E w w.
Proof. exact (proj1 (proj2 (proj2 (proj2 (proj2 (proj2 Hwf)))))). Qed.
Lemma co_total : forall w w' x, writes E w x -> writes E w' x -> w = w' \/ co E w w' \/ co E w' w.
Proof. exact (proj1 (proj2 (proj2 (proj2 (proj2 (proj2 (proj2 Hwf))))))). Qed.
Lemma fr_acc : forall r w, fr E r w -> exists x, reads E r x /\ writes E w x.
Proof.
  intros r w (w0 & Hrf & Hco). destruct (rf_acc _ _ Hrf) as (x & Hw & Hr).
  destruct (co_acc _ _ Hco) as (y & Hw' & Hw1). rewrite (writes_fun _ _ _ _ Hw Hw') in Hr.
  exists y. auto.
Qed.
Lemma com_acc : forall e f, com E e f -> exists x, acc E e x /\ acc E f x.
Proof.
  intros e f [H|[H|H]]; [apply rf_acc in H|apply co_acc in H|apply fr_acc in H];
    destruct H as (x & H1 & H2); exists x; unfold acc; auto.
Qed.

(** Two- and three-step cycles that cannot be. *)
Lemma no_com_poloc : forall e f, poloc E e f -> com E f e -> False.
Proof.
  intros e f Hp Hc. apply (Hun e). eapply t_trans; apply t_step; [left; exact Hp|right; exact Hc].
Qed.
Lemma no_com2_poloc : forall e f g, poloc E e f -> com E f g -> com E g e -> False.
Proof.
  intros e f g Hp Hc Hc'. apply (Hun e).
  eapply t_trans; [apply t_step; left; exact Hp|].
  eapply t_trans; apply t_step; right; [exact Hc|exact Hc'].
Qed.
Lemma com_int : forall e f, com E e f -> same_thread e f -> before e f.
Proof.
  intros e f Hc Hs. destruct (com_acc _ _ Hc) as (x & He & Hf).
  destruct (same_cases _ _ Hs) as [->|[H|H]]; [|exact H|].
  - exfalso. apply (Hun f). apply t_step. right. exact Hc.
  - exfalso. apply (no_com_poloc f e); [|exact Hc]. split; [exact H|]. exists x. auto.
Qed.
Lemma rf_int : forall w r, rf E w r -> same_thread w r -> before w r.
Proof. intros w r H. apply com_int. left. exact H. Qed.

Lemma hb_ob : mca a = true -> forall e f, hb a E e f -> ob a E e f.
Proof.
  intros _ e f [H|[H|[H H']]]; [left; exact H|right; left; exact H|].
  right; right. split; [left; exact H|exact H'].
Qed.
Lemma ob_acyclic : mca a = true -> acyclic (ob a E).
Proof. intros H. pose proof (proj2 (proj2 Hal)) as H0. rewrite H in H0. exact H0. Qed.
Lemma hb_acyclic : acyclic (hb a E).
Proof.
  pose proof (proj2 (proj2 Hal)) as H0. destruct (mca a) eqn:Hm.
  - intros e He. apply (H0 e). eapply plus_mono; [apply hb_ob; exact Hm|exact He].
  - exact (proj1 H0).
Qed.
Lemma observation : mca a = false -> forall e f g, ext (fr E) e f -> prop a E f g -> ~ star (hb a E) g e.
Proof. intros H. pose proof (proj2 (proj2 Hal)) as H0. rewrite H in H0. exact (proj1 (proj2 H0)). Qed.
Lemma propagation : mca a = false -> acyclic (fun e f => co E e f \/ prop a E e f).
Proof. intros H. pose proof (proj2 (proj2 Hal)) as H0. rewrite H in H0. exact (proj2 (proj2 H0)). Qed.

Lemma ok_hb : forall e f, ok_ord a E e f -> hb a E e f.
Proof. intros e f [H|[_ H]]; [right; left; exact H|left; exact H]. Qed.
Lemma ok_fenced : mca a = false -> forall e f, ok_ord a E e f -> fenced E e f.
Proof. intros H e f [H'|[H' _]]; [exact H'|congruence]. Qed.

(** * Hand-over *)
Definition acquires (r f : event) : Prop := acquired a E r f \/ acquired_ctrl a E r f.

Lemma acquires_before : forall r f, acquires r f -> r = f \/ before r f.
Proof.
  intros r f [(t & i & j & n & x & q & Hr & -> & Hj & Hl & Hf)|
              (b & (n & x & q & _ & _ & Hb & _) & t & i & j & k & Hr & -> & Hj & -> & Hk)].
  - destruct Hf as [->|(k & -> & Hk)]; [left; reflexivity|]. right. cbn. split; [reflexivity|lia].
  - right. eapply before_trans; [exact Hb|]. cbn. split; [reflexivity|lia].
Qed.
Lemma acquires_up : forall r f g, acquires r f -> before f g -> (exists y, acc E g y) -> acquires r g.
Proof.
  intros r f g [(t & i & j & n & x & q & Hr & -> & Hj & Hl & Hf)|
              (b & Hd & t & i & j & k & Hr & -> & Hj & -> & Hk)] Hg Hacc.
  - left. exists t, i, j, n, x, q. repeat (split; [assumption || reflexivity|]). right.
    destruct g as [z|u m].
    { destruct f; destruct Hg. }
    exists m. destruct Hf as [->|(k & -> & Hk)]; cbn in Hg; destruct Hg as [<- Hg]; (split; [reflexivity|]); [|lia].
    assert (Hs : size a (PLoadAcq n x) = 1%nat \/
                 size a (PLoadAcq n x) = 2%nat /\
                 (exists fn, nth_error (expand a (PLoadAcq n x)) 1 = Some (Fn fn))).
    { destruct a; cbn; first [left; reflexivity | right; split; [reflexivity|eexists; reflexivity]]. }
    destruct Hs as [Hs|[Hs [fn Hfn]]]; rewrite Hs in *; [lia|].
    pose proof (runs_nth _ _ _ _ _ _ _ Hr Hfn) as Hz.
    destruct Hacc as [y Hy].
    assert (m <> (i + 1)%nat) by (intros ->; eapply not_fence; eassumption).
    lia.
  - right. exists (Ev t j). split; [exact Hd|]. destruct g as [z|u m]; [destruct Hg|].
    cbn in Hg. destruct Hg as [<- Hg]. exists t, i, j, m. repeat (split; [assumption || reflexivity|]). lia.
Qed.
Lemma acquires_hb : forall r f x, acquires r f -> acc E f x -> star (hb a E) r f.
Proof.
  intros r f x H Ha. destruct H as [H|H].
  - destruct (acquires_before _ _ (or_introl H)) as [->|Hb]; [apply rt_refl|].
    assert (Hne : r <> f) by (intros ->; eapply before_irrefl; exact Hb).
    apply rt_step. destruct (acquire_orders _ _ _ _ _ H Hne Ha) as [_ [H1|H1]]; [right; left|left]; exact H1.
  - apply rt_step. destruct (acquire_ctrl_orders _ _ _ _ _ H Ha) as [_ [H1|H1]]; [right; left|left]; exact H1.
Qed.

(** From a store-release to a load, through other threads. *)
Inductive chain : event -> event -> Prop :=
| ch_one : forall w r, ext (rf E) w r -> chain w r
| ch_more : forall w r w' r', ext (rf E) w r -> before r w' -> released a E w' -> chain w' r' -> chain w r'.

Lemma chain_app : forall w r, chain w r -> forall w' r',
  before r w' -> released a E w' -> chain w' r' -> chain w r'.
Proof.
  intros w r H. induction H as [w r H|w r w1 r1 H Hb Hr Hc IH]; intros w' r' Hb' Hr' Hc'.
  - eapply ch_more; eassumption.
  - eapply ch_more; [exact H|exact Hb|exact Hr|]. apply IH with w'; assumption.
Qed.
Lemma released_writes : forall w, released a E w -> exists x, writes E w x.
Proof. intros w (t & i & j & x & rel & _ & -> & _ & H). exists x. right. exists rel. exact H. Qed.
Lemma release_hb : forall e w x, released a E w -> before e w -> acc E e x -> hb a E e w.
Proof. intros e w x H Hb He. apply ok_hb. eapply release_orders; eassumption. Qed.
Lemma chain_ends : forall w r, chain w r -> (exists x, writes E w x) /\ exists y, reads E r y.
Proof.
  intros w r H. induction H as [w r [H _]|w r w1 r1 [H _] Hb Hr Hc [_ IH]].
  - destruct (rf_acc _ _ H) as (x & H1 & H2). split; [exists x; exact H1|exists x; exact H2].
  - destruct (rf_acc _ _ H) as (x & H1 & H2). split; [exists x; exact H1|exact IH].
Qed.
Lemma chain_hb : forall w r, chain w r -> clos_trans event (hb a E) w r.
Proof.
  intros w r H. induction H as [w r H|w r w1 r1 H Hb Hr Hc IH].
  - apply t_step. right; right. exact H.
  - eapply t_trans; [apply t_step; right; right; exact H|].
    destruct (rf_acc _ _ (proj1 H)) as (x & _ & Hx).
    eapply t_trans; [apply t_step; eapply release_hb; [exact Hr|exact Hb|right; exact Hx]|exact IH].
Qed.

Definition hand (e f : event) : Prop :=
  exists w r, (e = w \/ before e w) /\ released a E w /\ chain w r /\ acquires r f.

Lemma acq_acc_before : forall r g w y, acquires r g -> reads E r y -> g = w \/ before g w ->
  released a E w -> before r w.
Proof.
  intros r g w y Ha Hy Hg Hw. destruct (released_writes _ Hw) as [xw Hxw].
  destruct (acquires_before _ _ Ha) as [<-|Hb].
  - destruct Hg as [->|Hg]; [|exact Hg]. exfalso. eapply write_not_read; eassumption.
  - destruct Hg as [->|Hg]; [exact Hb|eapply before_trans; eassumption].
Qed.
Lemma before_le : forall e f w, before e f -> f = w \/ before f w -> before e w.
Proof. intros e f w H [->|H']; [exact H|eapply before_trans; eassumption]. Qed.

Lemma handover_hand : forall e f, handover a E e f -> before e f \/ hand e f.
Proof.
  intros e f H. apply clos_trans_tn1 in H.
  assert (Hone : forall e f, handover1 a E e f -> before e f \/ hand e f).
  { intros e0 f0 (_ & _ & w & r & He & Hw & Hrf & Ha). destruct (same_dec w r) as [Hs|Hs].
    - left. pose proof (rf_int _ _ Hrf Hs) as Hb.
      assert (Hwf0 : before w f0).
      { destruct (acquires_before _ _ Ha) as [<-|Hb']; [exact Hb|eapply before_trans; eassumption]. }
      destruct He as [->|He]; [exact Hwf0|eapply before_trans; eassumption].
    - right. exists w, r. split; [exact He|]. split; [exact Hw|]. split; [|exact Ha].
      apply ch_one. split; assumption. }
  induction H as [f H|g f H H0 IH]; [apply Hone; exact H|].
  pose proof H as (_ & Hf & w & r & Hg & Hw & Hrf & Ha).
  destruct IH as [Hb|(w1 & r1 & He & Hw1 & Hc & Ha1)].
  - apply Hone.
    assert (Hea : exists x, acc E e x).
    { clear - H0. induction H0 as [g H|h g H H0 IH]; [exact (proj1 H)|exact IH]. }
    split; [exact Hea|]. split; [exact Hf|]. exists w, r.
    split; [right; eapply before_le; eassumption|auto].
  - destruct (chain_ends _ _ Hc) as [_ [y Hy]].
    pose proof (acq_acc_before _ _ _ _ Ha1 Hy Hg Hw) as Hr1.
    destruct (same_dec w r) as [Hs|Hs].
    + right. exists w1, r1. split; [exact He|]. split; [exact Hw1|]. split; [exact Hc|].
      apply acquires_up with g; [exact Ha1| |exact Hf].
      pose proof (rf_int _ _ Hrf Hs) as Hb.
      assert (Hbf : before w f) by (eapply before_le; [exact Hb|]; destruct (acquires_before _ _ Ha); auto).
      destruct Hg as [->|Hg]; [exact Hbf|eapply before_trans; eassumption].
    + right. exists w1, r. split; [exact He|]. split; [exact Hw1|]. split; [|exact Ha].
      eapply chain_app; [exact Hc|exact Hr1|exact Hw|]. apply ch_one. split; assumption.
Qed.

Lemma hand_down : forall e e' f, hand e f -> before e' e -> hand e' f.
Proof.
  intros e e' f (w & r & He & H) Hb. exists w, r. split; [right|exact H]. eapply before_le; eassumption.
Qed.
Lemma hand_up : forall e f f' y, hand e f -> before f f' -> acc E f' y -> hand e f'.
Proof.
  intros e f f' y (w & r & He & Hw & Hc & Ha) Hb Hy. exists w, r.
  repeat (split; [assumption|]). eapply acquires_up; [exact Ha|exact Hb|exists y; exact Hy].
Qed.
Lemma hand_tail_hb : forall w r f x, chain w r -> acquires r f -> acc E f x -> clos_trans event (hb a E) w f.
Proof.
  intros w r f x Hc Ha Hx. eapply plus_star_plus; [apply chain_hb; exact Hc|].
  eapply acquires_hb; eassumption.
Qed.
Lemma hand_hb : forall e f x y, hand e f -> acc E e x -> acc E f y -> clos_trans event (hb a E) e f.
Proof.
  intros e f x y (w & r & He & Hw & Hc & Ha) Hx Hy.
  pose proof (hand_tail_hb _ _ _ _ Hc Ha Hy) as H.
  destruct He as [->|He]; [exact H|].
  eapply t_trans; [apply t_step; eapply release_hb; eassumption|exact H].
Qed.
Lemma hand_irrefl : forall e x, acc E e x -> ~ hand e e.
Proof. intros e x Hx H. apply (hb_acyclic e). eapply hand_hb; eassumption. Qed.
Lemma hand_not_before : forall e f x y, acc E e x -> acc E f y -> hand e f -> ~ before f e /\ f <> e.
Proof.
  intros e f x y Hx Hy H. split.
  - intros Hb. eapply hand_irrefl; [exact Hy|]. eapply hand_down; eassumption.
  - intros ->. eapply hand_irrefl; eassumption.
Qed.

Lemma plus_ob : mca a = true -> forall e f, clos_trans event (hb a E) e f -> clos_trans event (ob a E) e f.
Proof. intros Hm. apply plus_mono. apply hb_ob. exact Hm. Qed.

(** A communication back from [f] to [e] is between two threads. *)
Lemma com_back_ext : forall e f x, acc E e x -> acc E f x -> hand e f -> com E f e -> ~ same_thread f e.
Proof.
  intros e f x Hx Hy H Hc Hs. pose proof (com_int _ _ Hc Hs) as Hb.
  exact (proj1 (hand_not_before _ _ _ _ Hx Hy H) Hb).
Qed.

(** Cases in which the hand-over itself is through the location in question. *)
Lemma direct_uniproc : forall w r f x, rf E w r -> writes E w x -> acquires r f -> acc E f x -> r <> f ->
  com E f w -> False.
Proof.
  intros w r f x Hrf Hw Ha Hf Hne Hc. destruct (acquires_before _ _ Ha) as [->|Hb]; [congruence|].
  destruct (rf_acc _ _ Hrf) as (z & Hwz & Hrz). rewrite (writes_fun _ _ _ _ Hwz Hw) in Hrz.
  apply (no_com2_poloc r f w); [|exact Hc|left; exact Hrf].
  split; [exact Hb|]. exists x. split; [right; exact Hrz|exact Hf].
Qed.

(** Weak architectures: a store that is handed over has been propagated. *)
Lemma hand_prop : mca a = false -> forall e f x y, writes E e x -> acc E f y -> hand e f ->
  (exists r, rf E e r /\ acquires r f) \/
  (exists g, prop a E e g /\ star (hb a E) g f /\ (exists z, writes E g z) /\ prop_base a E e g).
Proof.
  intros Hm e f x y Hx Hy (w & r & He & Hw & Hc & Ha).
  destruct (released_writes _ Hw) as [xw Hxw].
  destruct He as [->|He].
  - destruct Hc as [w r Hrf|w r w' r' Hrf Hb Hw' Hc].
    + left. exists r. split; [exact (proj1 Hrf)|exact Ha].
    + right. exists w'. destruct (released_writes _ Hw') as [x' Hx'].
      assert (Hpb : prop_base a E w w').
      { exists w'. split; [|apply rt_refl]. right. exists r. split; [exact Hrf|].
        destruct (rf_acc _ _ (proj1 Hrf)) as (z & _ & Hz).
        apply ok_fenced; [exact Hm|]. eapply release_orders; [exact Hw'|exact Hb|right; exact Hz]. }
      split; [left; split; [exact Hpb|split; [exists x; exact Hx|exists x'; exact Hx']]|].
      split; [apply plus_star; eapply hand_tail_hb; eassumption|].
      split; [exists x'; exact Hx'|exact Hpb].
  - right. exists w.
    assert (Hpb : prop_base a E e w).
    { exists w. split; [|apply rt_refl]. left. apply ok_fenced; [exact Hm|].
      eapply release_orders; [exact Hw|exact He|left; exact Hx]. }
    split; [left; split; [exact Hpb|split; [exists x; exact Hx|exists xw; exact Hxw]]|].
    split; [apply plus_star; eapply hand_tail_hb; eassumption|].
    split; [exists xw; exact Hxw|exact Hpb].
Qed.
Lemma prop_base_star : forall e g f, prop_base a E e g -> star (hb a E) g f -> prop_base a E e f.
Proof. intros e g f (m & H & H') H0. exists m. split; [exact H|]. eapply rt_trans; eassumption. Qed.

Lemma hand_wr : forall e f x, writes E e x -> reads E f x -> hand e f -> ~ fr E f e.
Proof.
  intros e f x He Hf H Hfr.
  assert (Hex : ~ same_thread f e).
  { eapply com_back_ext; [left; exact He|right; exact Hf|exact H|right; right; exact Hfr]. }
  destruct (mca a) eqn:Hm.
  - apply (ob_acyclic Hm e). eapply t_trans.
    + apply plus_ob; [exact Hm|]. eapply hand_hb; [exact H|left; exact He|right; exact Hf].
    + apply t_step. right; right. split; [right; right; exact Hfr|exact Hex].
  - destruct (hand_prop Hm e f x x He (or_intror Hf) H) as [(r & Hrf & Ha)|(g & Hp & Hg & _)].
    + assert (Hne : r <> f).
      { intros ->. destruct Hfr as (w0 & H0 & H1). rewrite (rf_fun _ _ _ Hrf H0) in H1.
        exact (co_irrefl _ H1). }
      eapply direct_uniproc; [exact Hrf|exact He|exact Ha|right; exact Hf|exact Hne|right; right; exact Hfr].
    + eapply (observation Hm f e g); [split; assumption|exact Hp|exact Hg].
Qed.
Lemma hand_ww : forall e f x, writes E e x -> writes E f x -> hand e f -> ~ co E f e.
Proof.
  intros e f x He Hf H Hco.
  assert (Hex : ~ same_thread f e).
  { eapply com_back_ext; [left; exact He|left; exact Hf|exact H|right; left; exact Hco]. }
  destruct (mca a) eqn:Hm.
  - apply (ob_acyclic Hm e). eapply t_trans.
    + apply plus_ob; [exact Hm|]. eapply hand_hb; [exact H|left; exact He|left; exact Hf].
    + apply t_step. right; right. split; [right; left; exact Hco|exact Hex].
  - destruct (hand_prop Hm e f x x He (or_introl Hf) H) as [(r & Hrf & Ha)|(g & _ & Hg & _ & Hpb)].
    + assert (Hne : r <> f).
      { intros ->. destruct (rf_acc _ _ Hrf) as (z & _ & Hz). eapply write_not_read; eassumption. }
      eapply direct_uniproc; [exact Hrf|exact He|exact Ha|left; exact Hf|exact Hne|right; left; exact Hco].
    + apply (propagation Hm e). eapply t_trans; apply t_step; [right|left; exact Hco].
      left. split; [eapply prop_base_star; eassumption|]. split; exists x; assumption.
Qed.

(** What [e] read from another thread. *)
Lemma seen_prop : mca a = false -> forall w0 e f y z, ext (rf E) w0 e -> reads E e y -> acc E f z -> hand e f ->
  exists g, prop a E w0 g /\ prop_base a E w0 g /\ star (hb a E) g f.
Proof.
  intros Hm w0 e f y z Hrf Hy Hz (w & r & He & Hw & Hc & Ha).
  destruct (released_writes _ Hw) as [xw Hxw].
  destruct He as [->|He]; [exfalso; eapply write_not_read; eassumption|].
  exists w.
  assert (Hpb : prop_base a E w0 w).
  { exists w. split; [|apply rt_refl]. right. exists e. split; [exact Hrf|].
    apply ok_fenced; [exact Hm|]. eapply release_orders; [exact Hw|exact He|right; exact Hy]. }
  destruct (rf_acc _ _ (proj1 Hrf)) as (x0 & Hx0 & _).
  split; [left; split; [exact Hpb|split; [exists x0; exact Hx0|exists xw; exact Hxw]]|].
  split; [exact Hpb|]. apply plus_star. eapply hand_tail_hb; eassumption.
Qed.
Lemma seen_back_ext : forall w0 e f x, ext (rf E) w0 e -> reads E e x -> acc E f x -> acc E w0 x -> hand e f ->
  com E f w0 -> ~ same_thread f w0.
Proof.
  intros w0 e f x Hrf He Hf Hw0 H Hc Hs. pose proof (com_int _ _ Hc Hs) as Hb.
  pose proof (hand_up _ _ _ _ H Hb Hw0) as H'.
  apply (hb_acyclic e). eapply t_trans.
  - eapply hand_hb; [exact H'|right; exact He|exact Hw0].
  - apply t_step. right; right. exact Hrf.
Qed.
Lemma hand_seen_r : forall w0 e f x, ext (rf E) w0 e -> reads E e x -> reads E f x -> hand e f -> ~ fr E f w0.
Proof.
  intros w0 e f x Hrf He Hf H Hfr.
  destruct (rf_acc _ _ (proj1 Hrf)) as (z & Hw0 & Hz). rewrite (reads_fun _ _ _ _ Hz He) in Hw0.
  assert (Hex : ~ same_thread f w0).
  { eapply seen_back_ext; [exact Hrf|exact He|right; exact Hf|left; exact Hw0|exact H|right; right; exact Hfr]. }
  destruct (mca a) eqn:Hm.
  - apply (ob_acyclic Hm e). eapply t_trans.
    + apply plus_ob; [exact Hm|]. eapply hand_hb; [exact H|right; exact He|right; exact Hf].
    + eapply t_trans; apply t_step.
      * right; right. split; [right; right; exact Hfr|exact Hex].
      * apply hb_ob; [exact Hm|]. right; right. exact Hrf.
  - destruct (seen_prop Hm _ _ _ _ _ Hrf He (or_intror Hf) H) as (g & Hp & _ & Hg).
    eapply (observation Hm f w0 g); [split; assumption|exact Hp|exact Hg].
Qed.
Lemma hand_seen_w : forall w0 e f x, ext (rf E) w0 e -> reads E e x -> writes E f x -> hand e f -> ~ co E f w0.
Proof.
  intros w0 e f x Hrf He Hf H Hco.
  destruct (rf_acc _ _ (proj1 Hrf)) as (z & Hw0 & Hz). rewrite (reads_fun _ _ _ _ Hz He) in Hw0.
  assert (Hex : ~ same_thread f w0).
  { eapply seen_back_ext; [exact Hrf|exact He|left; exact Hf|left; exact Hw0|exact H|right; left; exact Hco]. }
  destruct (mca a) eqn:Hm.
  - apply (ob_acyclic Hm e). eapply t_trans.
    + apply plus_ob; [exact Hm|]. eapply hand_hb; [exact H|right; exact He|left; exact Hf].
    + eapply t_trans; apply t_step.
      * right; right. split; [right; left; exact Hco|exact Hex].
      * apply hb_ob; [exact Hm|]. right; right. exact Hrf.
  - destruct (seen_prop Hm _ _ _ _ _ Hrf He (or_introl Hf) H) as (g & _ & Hpb & Hg).
    apply (propagation Hm w0). eapply t_trans; apply t_step; [right|left; exact Hco].
    left. split; [eapply prop_base_star; eassumption|]. split; exists x; assumption.
Qed.

Lemma hand_in_order : forall e f, hand e f -> in_order E e f.
Proof.
  intros e f H x. split; [|split; [|split]].
  - intros He Hf w Hw. destruct (rf_acc _ _ Hw) as (z & Hwz & Hz). rewrite (reads_fun _ _ _ _ Hz Hf) in Hwz.
    destruct (co_total _ _ _ Hwz He) as [Heq|[Hco|Hco]]; [left; exact Heq| |right; exact Hco].
    exfalso. eapply hand_wr; [exact He|exact Hf|exact H|]. exists w. split; assumption.
  - intros He Hf. destruct (co_total _ _ _ He Hf) as [Heq|[Hco|Hco]]; [|exact Hco|].
    + exfalso. subst f. eapply hand_irrefl; [left; exact He|exact H].
    + exfalso. exact (hand_ww e f x He Hf H Hco).
  - intros He Hf w Hw. destruct (rf_acc _ _ Hw) as (z & Hwz & Hz). rewrite (reads_fun _ _ _ _ Hz He) in Hwz.
    destruct (co_total _ _ _ Hwz Hf) as [Heq|[Hco|Hco]]; [|exact Hco|].
    + exfalso. subst w. destruct (same_dec f e) as [Hs|Hs].
      * exact (proj1 (hand_not_before _ _ _ _ (or_intror He) (or_introl Hf) H) (rf_int _ _ Hw Hs)).
      * apply (hb_acyclic e). eapply t_trans.
        -- eapply hand_hb; [exact H|right; exact He|left; exact Hf].
        -- apply t_step. right; right. split; assumption.
    + exfalso. destruct (same_dec w e) as [Hs|Hs].
      * eapply hand_ww; [exact Hwz|exact Hf|eapply hand_down; [exact H|exact (rf_int _ _ Hw Hs)]|exact Hco].
      * eapply hand_seen_w; [split; [exact Hw|exact Hs]|exact He|exact Hf|exact H|exact Hco].
  - intros He Hf w w' Hw Hw'. destruct (rf_acc _ _ Hw) as (z & Hwz & Hz). rewrite (reads_fun _ _ _ _ Hz He) in Hwz.
    destruct (rf_acc _ _ Hw') as (z' & Hwz' & Hz'). rewrite (reads_fun _ _ _ _ Hz' Hf) in Hwz'.
    destruct (co_total _ _ _ Hwz Hwz') as [Heq|[Hco|Hco]]; [left; exact Heq|right; exact Hco|].
    assert (Hfr : fr E f w) by (exists w'; split; assumption).
    exfalso. destruct (same_dec w e) as [Hs|Hs].
    + eapply hand_wr; [exact Hwz|exact Hf|eapply hand_down; [exact H|exact (rf_int _ _ Hw Hs)]|exact Hfr].
    + eapply hand_seen_r; [split; [exact Hw|exact Hs]|exact He|exact Hf|exact H|exact Hfr].
Qed.

(** Within a thread this is the coherence of each location. *)
Lemma before_in_order : forall e f, before e f -> in_order E e f.
Proof.
  intros e f H x. split; [|split; [|split]].
  - intros He Hf w Hw. destruct (rf_acc _ _ Hw) as (z & Hwz & Hz). rewrite (reads_fun _ _ _ _ Hz Hf) in Hwz.
    destruct (co_total _ _ _ Hwz He) as [Heq|[Hco|Hco]]; [left; exact Heq| |right; exact Hco].
    exfalso. apply (no_com_poloc e f); [split; [exact H|exists x; unfold acc; auto]|].
    right; right. exists w. split; assumption.
  - intros He Hf. destruct (co_total _ _ _ He Hf) as [Heq|[Hco|Hco]]; [|exact Hco|].
    + exfalso. subst f. exact (before_irrefl _ H).
    + exfalso. apply (no_com_poloc e f); [split; [exact H|exists x; unfold acc; auto]|]. right; left; exact Hco.
  - intros He Hf w Hw. destruct (rf_acc _ _ Hw) as (z & Hwz & Hz). rewrite (reads_fun _ _ _ _ Hz He) in Hwz.
    assert (Hp : poloc E e f) by (split; [exact H|exists x; unfold acc; auto]).
    destruct (co_total _ _ _ Hwz Hf) as [Heq|[Hco|Hco]]; [|exact Hco|].
    + exfalso. subst w. apply (no_com_poloc e f); [exact Hp|left; exact Hw].
    + exfalso. apply (no_com2_poloc e f w); [exact Hp|right; left; exact Hco|left; exact Hw].
  - intros He Hf w w' Hw Hw'. destruct (rf_acc _ _ Hw) as (z & Hwz & Hz). rewrite (reads_fun _ _ _ _ Hz He) in Hwz.
    destruct (rf_acc _ _ Hw') as (z' & Hwz' & Hz'). rewrite (reads_fun _ _ _ _ Hz' Hf) in Hwz'.
    destruct (co_total _ _ _ Hwz Hwz') as [Heq|[Hco|Hco]]; [left; exact Heq|right; exact Hco|].
    exfalso. apply (no_com2_poloc e f w); [split; [exact H|exists x; unfold acc; auto]| |left; exact Hw].
    right; right. exists w'. split; assumption.
Qed.

Lemma handover_ok : forall e f, handover a E e f -> in_order E e f.
Proof.
  intros e f H. destruct (handover_hand _ _ H) as [Hb|Hh]; [apply before_in_order|apply hand_in_order]; assumption.
Qed.

(** * Write and read barriers *)
Lemma barriers_ok : forall e w r f x y,
  writes E e x -> writes E w y -> separated a E PWmb e w -> rf E w r ->
  reads E f x -> separated a E PRmb r f -> forall w', rf E w' f -> w' = e \/ co E e w'.
Proof.
  intros e w r f x y He Hw Hwmb Hrf Hf Hrmb w' Hw'.
  destruct (rf_acc _ _ Hrf) as (z & _ & Hr).
  destruct (wmb_orders _ _ _ _ _ _ Hwmb He Hw) as [Hew Hok].
  destruct (rmb_orders _ _ _ _ _ _ Hrmb Hr Hf) as [Hrf1 Hord].
  assert (Hhb : hb a E r f) by (destruct Hord as [Hord|Hord]; [right; left|left]; exact Hord).
  destruct (same_dec w r) as [Hs|Hs].
  { assert (Hb : before e f).
    { eapply before_trans; [exact Hew|]. eapply before_trans; [exact (rf_int _ _ Hrf Hs)|exact Hrf1]. }
    eapply (proj1 (before_in_order _ _ Hb x)); assumption. }
  assert (Hrfe : ext (rf E) w r) by (split; assumption).
  destruct (rf_acc _ _ Hw') as (z' & Hwz' & Hz'). rewrite (reads_fun _ _ _ _ Hz' Hf) in Hwz'.
  destruct (co_total _ _ _ Hwz' He) as [Heq|[Hco|Hco]]; [left; exact Heq| |right; exact Hco].
  exfalso. assert (Hfr : fr E f e) by (exists w'; split; assumption).
  assert (Hex : ~ same_thread f e).
  { intros Hs'. apply Hs. apply same_sym. eapply same_trans; [exact (before_same _ _ Hrf1)|].
    eapply same_trans; [exact Hs'|exact (before_same _ _ Hew)]. }
  destruct (mca a) eqn:Hm.
  - apply (ob_acyclic Hm e). apply (t_trans _ _ e f e).
    + apply plus_ob; [exact Hm|]. eapply t_trans; [apply t_step; apply ok_hb; exact Hok|].
      eapply t_trans; apply t_step; [right; right; exact Hrfe|exact Hhb].
    + apply t_step. right; right. split; [right; right; exact Hfr|exact Hex].
  - eapply (observation Hm f e w); [split; assumption| |].
    + left. split; [|split; [exists x; exact He|exists y; exact Hw]].
      exists w. split; [left; apply ok_fenced; assumption|apply rt_refl].
    + eapply rt_trans; apply rt_step; [right; right; exact Hrfe|exact Hhb].
Qed.

(** * Full barriers *)
Definition sc_edge (e f : event) : Prop := ffenced E e f \/ com E e f.

Lemma ffenced_down : forall e' e f x, ffenced E e f -> before e' e -> acc E e' x -> ffenced E e' f.
Proof.
  intros e' e f x (k & fn & H & Hf & H1 & H2 & He & Hy) Hb Hx.
  exists k, fn. repeat (split; [assumption|]).
  split; [eapply before_trans; eassumption|]. split; [exact H2|]. split; [exists x; exact Hx|exact Hy].
Qed.

(** Multi-copy atomic: from any point of a cycle to a full barrier on it. *)
Lemma ob_co : mca a = true -> forall w w', co E w w' -> ob a E w w'.
Proof.
  intros Hm w w' H. destruct (same_dec w w') as [Hs|Hs].
  - pose proof (com_int _ _ (or_intror (or_introl H)) Hs) as Hb.
    destruct (co_acc _ _ H) as (x & Hw & Hw'). left.
    assert (Hp : poloc_w E w w').
    { split; [split; [exact Hb|exists x; unfold acc; auto]|exists x; exact Hw']. }
    destruct a; try discriminate; cbn; auto.
    all: split; [split; [exact Hb|split; exists x; left; assumption]|right; exists x; exact Hw'].
  - right; right. split; [right; left; exact H|exact Hs].
Qed.
Lemma ob_fr : mca a = true -> forall r w, fr E r w -> ob a E r w.
Proof.
  intros Hm r w H. destruct (same_dec r w) as [Hs|Hs].
  - pose proof (com_int _ _ (or_intror (or_intror H)) Hs) as Hb.
    destruct (fr_acc _ _ H) as (x & Hr & Hw). left.
    assert (Hp : poloc_w E r w).
    { split; [split; [exact Hb|exists x; unfold acc; auto]|exists x; exact Hw]. }
    destruct a; try discriminate; cbn; auto.
    all: split; [split; [exact Hb|split; exists x; [right|left]; assumption]|right; exists x; exact Hw].
  - right; right. split; [right; right; exact H|exact Hs].
Qed.
Lemma ob_rfe : forall w r, rf E w r -> ~ same_thread w r -> ob a E w r.
Proof. intros w r H Hs. right; right. split; [left; exact H|exact Hs]. Qed.

Lemma sc_path_ob : mca a = true -> forall b c, ffenced E b c -> forall y, star sc_edge y b ->
  clos_trans event (ob a E) y c /\
  (forall x, rf E x y -> same_thread x y -> clos_trans event (ob a E) x c).
Proof.
  intros Hm b c Hbc y H. apply clos_rt_rt1n in H. induction H as [b|u y b H H0 IH].
  - split; [apply t_step; right; left; apply ffenced_fenced; exact Hbc|].
    intros x Hx Hs. apply t_step. right; left. apply ffenced_fenced.
    destruct (rf_acc _ _ Hx) as (z & Hz & _).
    eapply ffenced_down; [exact Hbc|exact (rf_int _ _ Hx Hs)|left; exact Hz].
  - destruct (IH Hbc) as [IH1 IH2]. destruct H as [H|[H|[H|H]]].
    + split.
      * eapply t_trans; [apply t_step; right; left; apply ffenced_fenced; exact H|exact IH1].
      * intros x Hx Hs. destruct (rf_acc _ _ Hx) as (z & Hz & _).
        eapply t_trans; [|exact IH1]. apply t_step. right; left. apply ffenced_fenced.
        eapply ffenced_down; [exact H|exact (rf_int _ _ Hx Hs)|left; exact Hz].
    + destruct (rf_acc _ _ H) as (z & Hz & _). split.
      * destruct (same_dec u y) as [Hs|Hs]; [apply IH2; assumption|].
        eapply t_trans; [apply t_step; apply ob_rfe; eassumption|exact IH1].
      * intros x Hx Hs. exfalso. destruct (rf_acc _ _ Hx) as (z' & _ & Hz').
        eapply write_not_read; eassumption.
    + destruct (co_acc _ _ H) as (z & Hz & _). split.
      * eapply t_trans; [apply t_step; apply ob_co; eassumption|exact IH1].
      * intros x Hx Hs. exfalso. destruct (rf_acc _ _ Hx) as (z' & _ & Hz').
        eapply write_not_read; eassumption.
    + split.
      * eapply t_trans; [apply t_step; apply ob_fr; eassumption|exact IH1].
      * intros x Hx Hs. destruct H as (w0 & H1 & H2). rewrite (rf_fun _ _ _ Hx H1) in *.
        eapply t_trans; [apply t_step; apply ob_co; eassumption|exact IH1].
Qed.

(** The others. *)
Lemma sc_path_prop : forall b c, ffenced E b c -> forall y, star sc_edge y b ->
  exists m, star (com E) y m /\ exists k, ffenced E m k /\ star (prop a E) k c.
Proof.
  intros b c Hbc y H. apply clos_rt_rt1n in H. induction H as [b|u y b H H0 IH].
  - exists b. split; [apply rt_refl|]. exists c. split; [exact Hbc|apply rt_refl].
  - destruct (IH Hbc) as (m & Hm & k & Hk & Hc). destruct H as [H|H].
    + exists u. split; [apply rt_refl|]. exists y. split; [exact H|].
      eapply rt_trans; [apply rt_step|exact Hc].
      right. exists m, m, k. split; [exact Hm|]. split; [apply rt_refl|]. split; [exact Hk|apply rt_refl].
    + exists m. split; [|exists k; split; assumption]. eapply rt_trans; [apply rt_step; exact H|exact Hm].
Qed.

Lemma sc_cycle : acyclic sc_edge.
Proof.
  assert (Hfull : forall b c, ffenced E b c -> star sc_edge c b -> False).
  { intros b c Hbc H. destruct (mca a) eqn:Hm.
    - exact (ob_acyclic Hm c (proj1 (sc_path_ob Hm b c Hbc c H))).
    - destruct (sc_path_prop b c Hbc c H) as (m & H1 & k & H2 & H3).
      apply (propagation Hm c). eapply plus_star_plus.
      + apply t_step. right. right. exists m, m, k. split; [exact H1|].
        split; [apply rt_refl|]. split; [exact H2|apply rt_refl].
      + eapply star_mono; [|exact H3]. intros; right; assumption. }
  intros e H.
  assert (Hd : forall e f, clos_trans event sc_edge e f ->
    clos_trans event (com E) e f \/ exists b c, star sc_edge e b /\ ffenced E b c /\ star sc_edge c f).
  { clear - e. intros e0 f H. induction H as [e0 f [H|H]|e0 f g H1 IH1 H2 IH2].
    - right. exists e0, f. split; [apply rt_refl|]. split; [exact H|apply rt_refl].
    - left. apply t_step. exact H.
    - destruct IH1 as [IH1|(b & c & B1 & B2 & B3)].
      + destruct IH2 as [IH2|(b & c & B1 & B2 & B3)]; [left; eapply t_trans; eassumption|].
        right. exists b, c. split; [|split; assumption]. eapply rt_trans; [apply plus_star; exact H1|exact B1].
      + right. exists b, c. split; [exact B1|]. split; [exact B2|].
        eapply rt_trans; [exact B3|apply plus_star; exact H2]. }
  destruct (Hd _ _ H) as [Hc|(b & c & B1 & B2 & B3)].
  - apply (Hun e). eapply plus_mono; [|exact Hc]. intros; right; assumption.
  - apply (Hfull b c B2). eapply rt_trans; eassumption.
Qed.
End Allowed.

Lemma full_barrier_sc : forall a E, allowed a E ->
  acyclic (fun e f => (separated a E PMb e f /\ (exists x, acc E e x) /\ exists y, acc E f y) \/ com E e f).
Proof.
  intros a E H e He. apply (sc_cycle a E H e). eapply plus_mono; [|exact He].
  intros e0 f0 [(H0 & [x Hx] & [y Hy])|H0]; [left; eapply mb_orders; eassumption|right; exact H0].
Qed.

Lemma store_buffering : forall a E e1 f1 e2 f2 x y,
  allowed a E -> writes E e1 x -> reads E f1 y -> separated a E PMb e1 f1 ->
  writes E e2 y -> reads E f2 x -> separated a E PMb e2 f2 ->
  ~ (fr E f1 e2 /\ fr E f2 e1).
Proof.
  intros a E e1 f1 e2 f2 x y Hal He1 Hf1 Hs1 He2 Hf2 Hs2 [Hfr1 Hfr2].
  apply (full_barrier_sc a E Hal e1).
  eapply t_trans; [apply t_step; left; split; [exact Hs1|split; [exists x; left; exact He1|exists y; right; exact Hf1]]|].
  eapply t_trans; [apply t_step; right; right; right; exact Hfr1|].
  eapply t_trans; [apply t_step; left; split; [exact Hs2|split; [exists y; left; exact He2|exists x; right; exact Hf2]]|].
  apply t_step. right; right; right. exact Hfr2.
Qed.
