(** C70. *)
From Coq Require Import ZArith Bool List Lia.
From Verif Require Import UtilsModel RseqIR PoolVM ListModel ListSpec ListProofs RangeModel RangeSpec.
Import ListNotations.
Local Open Scope Z_scope.

Lemma c_init_ok : forall live h p, live p = true -> c_init live h p = Ok (INIT_LIST_HEAD h p).
Proof. intros live h p H. unfold c_init, stp, stn. rewrite H. cbn [bind]. reflexivity. Qed.
Lemma c_add_ok : forall live h newp head, live newp = true -> live head = true -> live (next h head) = true -> c_add live h newp head = Ok (list_add h newp head).
Proof.
  intros live h newp head H1 H2 H3. unfold c_add, ldn, stp, stn. rewrite H2. cbn [bind]. rewrite H3. cbn [bind]. rewrite H1. cbn [bind]. reflexivity.
Qed.
Lemma c_del_ok : forall live h e, live e = true -> live (prev h e) = true -> live (next h e) = true -> c_del live h e = Ok (list_del h e).
Proof.
  intros live h e H1 H2 H3. unfold c_del, ldn, ldp, stp, stn. rewrite H1. cbn [bind]. rewrite H3. cbn [bind]. rewrite H2. reflexivity.
Qed.
Lemma c_walk_ok : forall h head live l2 l1 fuel, is_list h head (l1 ++ l2) -> (forall a, In a l2 -> live a = true) -> (length l2 < fuel)%nat ->
  c_walk fuel live h head (first_of l2 head) = Ok l2.
Proof.
  intros h head live. induction l2 as [|x l2 IH]; intros l1 fuel Hl Hlive Hf; (destruct fuel as [|fuel]; [lia|]); cbn [c_walk first_of].
  - rewrite Z.eqb_refl. reflexivity.
  - pose proof Hl as [Hn Hc]. destruct (Z.eqb_spec x head) as [->|Hne].
    { exfalso. inversion Hn as [|? ? K _]; subst. apply K. apply in_or_app. right. now left. }
    unfold ldn. rewrite (Hlive x (or_introl eq_refl)). cbn [bind]. apply chain_app in Hc. destruct Hc as [_ Hc]. rewrite (chain_next _ _ _ _ Hc).
    rewrite (IH (l1 ++ [x]) fuel); [reflexivity| |intros a Ha; apply Hlive; now right|cbn in Hf; lia]. rewrite <- app_assoc. exact Hl.
Qed.
Lemma list_del_first : forall h head x xs, is_list h head (x :: xs) -> is_list (list_del h x) head xs /\ next h x = first_of xs head /\ prev h x = head /\
  same_outside (head :: xs) h (list_del h x).
Proof.
  intros h head x xs H. destruct (list_del_ok h head [] x xs H) as (H1 & _ & H3). destruct H as [_ Hc]. cbn in Hc. destruct Hc as (_ & Hp & Hc).
  split; [exact H1|]. split; [exact (chain_next _ _ _ _ Hc)|]. split; [exact Hp|exact H3].
Qed.
Lemma same_outside_trans : forall n h1 h2 h3, same_outside n h1 h2 -> same_outside n h2 h3 -> same_outside n h1 h3.
Proof. intros n h1 h2 h3 H1 H2 a Ha. destruct (H1 a Ha) as [A B], (H2 a Ha) as [C D]. split; congruence. Qed.
Lemma same_outside_incl : forall n n' h1 h2, incl n n' -> same_outside n h1 h2 -> same_outside n' h1 h2.
Proof. intros n n' h1 h2 Hi H a Ha. apply H. intros K. exact (Ha (Hi a K)). Qed.

(** What the events mean for the ranges at that moment. *)
Definition rrule (ev : revent) (l2 : list revent) : Prop :=
  match ev with
  | RMap head r => ~ In r (ranges_of head l2)
  | RUnmap head r => In r (ranges_of head l2)
  | RWalk head l => l = ranges_of head l2
  | RFirst head r => r = hd_error (ranges_of head l2)
  | RGone head => ranges_of head l2 = []
  end.
Definition all_rules (l : list revent) : Prop := forall l1 l2 ev, l = l1 ++ ev :: l2 -> rrule ev l2.
Lemma rules_cons : forall ev l, all_rules l -> rrule ev l -> all_rules (ev :: l).
Proof.
  intros ev l H Hev l1 l2 e E. destruct l1 as [|x l1]; cbn in E; injection E as E1 E2; [subst; exact Hev|]. exact (H l1 l2 e E2).
Qed.

Lemma filter_out : forall (x : Z) xs, ~ In x xs -> filter (fun q => negb (q =? x)) xs = xs.
Proof.
  intros x. induction xs as [|y xs IH]; intros H; cbn; [reflexivity|]. destruct (Z.eqb_spec y x) as [->|_]; [destruct H; now left|]. cbn [negb]. f_equal. apply IH.
  intros K. apply H. now right.
Qed.
Lemma ranges_unmap : forall head x xs log, ranges_of head log = x :: xs -> ~ In x xs -> ranges_of head (RUnmap head x :: log) = xs.
Proof.
  intros head x xs log H Hn. cbn [ranges_of]. rewrite Z.eqb_refl, H. cbn [filter]. rewrite Z.eqb_refl. cbn [negb]. now apply filter_out.
Qed.
Lemma first_live : forall (live : Z -> bool) head xs, (forall a, In a (head :: xs) -> live a = true) -> live (first_of xs head) = true.
Proof. intros live head xs H. apply H. destruct xs; [now left|right; now left]. Qed.

(** The loop of rseq_mempool_destroy. *)
Lemma c_destroy_ok : forall xs fuel ans live h head log, is_list h head xs -> (forall a, In a (head :: xs) -> live a = true) -> (length xs < fuel)%nat ->
  ranges_of head log = xs -> all_rules log ->
  exists h' live' log', c_destroy fuel ans live h head (first_of xs head) (next h (first_of xs head)) log =
    Ok (h', live', log', (length (unmapped ans xs) =? length xs)%nat) /\
  log' = map (RUnmap head) (rev (unmapped ans xs)) ++ log /\ ranges_of head log' = skipn (length (unmapped ans xs)) xs /\
  (forall q, q <> head -> ranges_of q log' = ranges_of q log) /\ all_rules log' /\
  is_list h' head (skipn (length (unmapped ans xs)) xs) /\ same_outside (head :: xs) h h' /\
  (forall a, In a (unmapped ans xs) \/ live' a = live a) /\ (forall a, In a (head :: skipn (length (unmapped ans xs)) xs) -> live' a = true) /\
  (forall a, live' a = true -> live a = true).
Proof.
  induction xs as [|x xs IH]; intros fuel ans live h head log Hl Hlive Hf Hr Hrules; (destruct fuel as [|fuel]; [lia|]); cbn [c_destroy first_of unmapped].
  - rewrite Z.eqb_refl. exists h, live, log. cbn. split; [reflexivity|]. split; [reflexivity|]. split; [exact Hr|]. split; [auto|]. split; [exact Hrules|].
    split; [exact Hl|]. split; [intros a _; auto|]. split; [auto|]. split; [exact Hlive|auto].
  - pose proof Hl as [Hn Hc]. inversion Hn as [|? ? Hn1 Hn2]; subst. inversion Hn2 as [|? ? Hn3 Hn4]; subst.
    assert (Hxh : x <> head) by (intros ->; apply Hn1; now left). replace (x =? head) with false by (symmetry; now apply Z.eqb_neq).
    destruct (list_del_first h head x xs Hl) as (Hl1 & En & Ep & Hout).
    assert (Hlx : live x = true) by (apply Hlive; right; now left). assert (Hlh : live head = true) by (apply Hlive; now left).
    assert (Hlrest : forall a, In a (head :: xs) -> live a = true) by (intros a [->|Ha]; apply Hlive; [now left|right; now right]).
    rewrite c_del_ok; [|exact Hlx|rewrite Ep; exact Hlh|rewrite En; exact (first_live live head xs Hlrest)]. cbn [bind].
    destruct (hd true ans) eqn:Ea.
    + assert (Hl2 : forall a, In a (head :: xs) -> set_live live x false a = true).
      { intros a Ha. unfold set_live. destruct (Z.eqb_spec a x) as [->|_]; [|exact (Hlrest a Ha)]. destruct Ha as [Ha|Ha]; [congruence|destruct (Hn3 Ha)]. }
      unfold ldn at 1. rewrite En. rewrite (first_live _ head xs Hl2). cbn [bind].
      destruct (IH fuel (tl ans) (set_live live x false) (list_del h x) head (RUnmap head x :: log) Hl1 Hl2) as
        (h' & live' & log' & E & El & Er & Eo & Hrl & Hil & Hso & Hli & Hli2 & Hli3).
      { cbn in Hf. lia. } { exact (ranges_unmap head x xs log Hr Hn3). } { apply rules_cons; [exact Hrules|]. cbn. rewrite Hr. now left. }
      exists h', live', log'. split; [exact E|]. cbn [length skipn rev].
      split; [rewrite El, map_app, <- app_assoc; reflexivity|]. split; [exact Er|].
      split; [intros q Hq; rewrite (Eo q Hq); cbn [ranges_of]; replace (head =? q) with false by (symmetry; apply Z.eqb_neq; congruence); reflexivity|].
      split; [exact Hrl|]. split; [exact Hil|].
      split. { apply (same_outside_trans _ _ (list_del h x)); (eapply same_outside_incl; [|eassumption]); intros a [->|Ha]; [now left|right; now right|now left|right; now right]. }
      split. { intros a. destruct (Hli a) as [K|K]; [left; now right|]. destruct (Z.eq_dec a x) as [->|Hne]; [left; now left|]. right. rewrite K. unfold set_live.
        replace (a =? x) with false by (symmetry; now apply Z.eqb_neq). reflexivity. }
      split; [exact Hli2|]. intros a Ha. apply Hli3 in Ha. unfold set_live in Ha. destruct (a =? x); [discriminate Ha|exact Ha].
    + pose proof (is_list_first _ _ _ Hl1) as Ef. rewrite c_add_ok; [|exact Hlx|exact Hlh|rewrite Ef; exact (first_live live head xs Hlrest)]. cbn [bind].
      destruct (list_add_ok (list_del h x) head xs x Hl1) as [Hl2 Hout2]. { intros [K|K]; [congruence|exact (Hn3 K)]. }
      exists (list_add (list_del h x) x head), live, log. cbn. split; [reflexivity|]. split; [reflexivity|]. split; [exact Hr|]. split; [auto|]. split; [exact Hrules|].
      split; [exact Hl2|].
      split. { apply (same_outside_trans _ _ (list_del h x)); (eapply same_outside_incl; [|eassumption]); [intros a [->|Ha]; [now left|right; now right]|].
        intros a [->|[->|Ha]]; [right; now left|now left|right; now right]. }
      split; [auto|]. split; [exact Hlive|auto].
Qed.

Record rinv (st : rstate) : Prop := {
  ri_nd : NoDup (r_pools st);
  ri_list : forall head, In head (r_pools st) -> is_list (r_mem st) head (ranges_of head (r_log st)) /\
    forall a, In a (head :: ranges_of head (r_log st)) -> r_live st a = true;
  ri_apart : forall p q a, In p (r_pools st) -> In q (r_pools st) -> In a (p :: ranges_of p (r_log st)) -> In a (q :: ranges_of q (r_log st)) -> p = q;
  ri_none : forall head, ~ In head (r_pools st) -> ranges_of head (r_log st) = [];
  ri_log : all_rules (r_log st)
}.
Lemma rinv_start : forall h, rinv (rstart h).
Proof. intros h. constructor; cbn; auto; try (intros; contradiction); [constructor|]. intros [|x l1] l2 ev E; discriminate E. Qed.
Lemma filter_len : forall (f : Z -> bool) l, (length (filter f l) <= length l)%nat.
Proof. intros f. induction l as [|x l IH]; cbn; [lia|]. destruct (f x); cbn; lia. Qed.
Lemma ranges_len : forall head log, (length (ranges_of head log) <= length log)%nat.
Proof.
  intros head log. induction log as [|ev log IH]; [cbn; lia|]. destruct ev as [h r|h r|h l|h r|h]; cbn [ranges_of length]; try lia.
  - destruct (h =? head); cbn [length]; lia.
  - destruct (h =? head); [|lia]. pose proof (filter_len (fun q => negb (q =? r)) (ranges_of head log)). lia.
Qed.
Lemma rinv_step : forall st o, rinv st -> rallowed st o -> exists st', rrun1 o st = Ok st' /\ rinv st'.
Proof.
  intros st o HI Hok. pose proof HI as [I1 I2 I3 I4 I5]. destruct o as [head|head r|head|head|head ans|h']; cbn [rallowed] in Hok; cbn [rrun1].
  - assert (Hnew : forall q a, In q (r_pools st) -> In a (q :: ranges_of q (r_log st)) -> a <> head).
    { intros q a Hq Ha ->. destruct (I2 q Hq) as [_ K]. rewrite (K head Ha) in Hok. discriminate Hok. }
    assert (Hnp : ~ In head (r_pools st)) by (intros K; exact (Hnew head head K (or_introl eq_refl) eq_refl)).
    rewrite c_init_ok by (unfold set_live; now rewrite Z.eqb_refl). cbn [bind]. eexists. split; [reflexivity|]. constructor; cbn [r_mem r_live r_pools r_log].
    + constructor; auto.
    + intros q [<-|Hq].
      * rewrite (I4 head Hnp). split; [apply init_list|]. intros a [<-|[]]. unfold set_live. now rewrite Z.eqb_refl.
      * destruct (I2 q Hq) as [Hl Hlive]. split.
        -- eapply is_list_frame; [apply init_frame| |exact Hl]. intros a Ha [<-|[]]. exact (Hnew q _ Hq Ha eq_refl).
        -- intros a Ha. unfold set_live. destruct (a =? head); [reflexivity|exact (Hlive a Ha)].
    + intros p q a [<-|Hp] [<-|Hq] Ha Hb; [reflexivity| | |exact (I3 p q a Hp Hq Ha Hb)].
      * rewrite (I4 head Hnp) in Ha. destruct Ha as [<-|[]]. destruct (Hnew q _ Hq Hb eq_refl).
      * rewrite (I4 head Hnp) in Hb. destruct Hb as [<-|[]]. destruct (Hnew p _ Hp Ha eq_refl).
    + intros q Hq. apply I4. intros K. apply Hq. now right.
    + exact I5.
  - destruct Hok as [Hin Hr]. destruct (I2 head Hin) as [Hl Hlive].
    assert (Hnew : forall q a, In q (r_pools st) -> In a (q :: ranges_of q (r_log st)) -> a <> r).
    { intros q a Hq Ha ->. destruct (I2 q Hq) as [_ K]. rewrite (K r Ha) in Hr. discriminate Hr. }
    assert (Hsl : forall a, r_live st a = true -> set_live (r_live st) r true a = true) by (intros a Ha; unfold set_live; destruct (a =? r); auto).
    rewrite c_add_ok.
    2:{ unfold set_live. now rewrite Z.eqb_refl. } 2:{ apply Hsl, Hlive. now left. }
    2:{ apply Hsl. rewrite (is_list_first _ _ _ Hl). exact (first_live _ _ _ Hlive). }
    cbn [bind]. destruct (list_add_ok (r_mem st) head _ r Hl) as [Hl2 Hout]. { intros K. exact (Hnew head r Hin K eq_refl). }
    assert (Er : forall q, ranges_of q (RMap head r :: r_log st) = if head =? q then r :: ranges_of q (r_log st) else ranges_of q (r_log st)) by reflexivity.
    eexists. split; [reflexivity|]. constructor; cbn [r_mem r_live r_pools r_log].
    + exact I1.
    + intros q Hq. rewrite Er. destruct (Z.eqb_spec head q) as [<-|Hne].
      * split; [exact Hl2|]. intros a [<-|[<-|Ha]]; [apply Hsl, Hlive; now left|unfold set_live; now rewrite Z.eqb_refl|apply Hsl, Hlive; now right].
      * destruct (I2 q Hq) as [Hlq Hliveq]. split; [|intros a Ha; exact (Hsl a (Hliveq a Ha))].
        eapply is_list_frame; [exact Hout| |exact Hlq]. intros a Ha [K|K]; [exact (Hnew q a Hq Ha (eq_sym K))|]. exact (Hne (I3 head q a Hin Hq K Ha)).
    + assert (Hold : forall q a, In q (r_pools st) -> In a (q :: (if head =? q then r :: ranges_of q (r_log st) else ranges_of q (r_log st))) ->
        In a (q :: ranges_of q (r_log st)) \/ a = r /\ q = head).
      { intros q a Hq Ha. destruct (Z.eqb_spec head q) as [<-|_]; [|now left]. destruct Ha as [Ha|[Ha|Ha]]; [left; now left|right; auto|left; now right]. }
      intros p q a Hp Hq Ha Hb. rewrite Er in Ha, Hb. destruct (Hold p a Hp Ha) as [A|[A B]], (Hold q a Hq Hb) as [C|[C D]].
      * exact (I3 p q a Hp Hq A C).
      * destruct (Hnew p a Hp A C).
      * destruct (Hnew q a Hq C A).
      * congruence.
    + intros q Hq. rewrite Er. destruct (Z.eqb_spec head q) as [<-|_]; [destruct (Hq Hin)|exact (I4 q Hq)].
    + apply rules_cons; [exact I5|]. cbn. intros K. exact (Hnew head r Hin (or_intror K) eq_refl).
  - destruct (I2 head Hok) as [Hl Hlive]. unfold ldn at 1. rewrite (Hlive head (or_introl eq_refl)). cbn [bind]. rewrite (is_list_first _ _ _ Hl).
    rewrite (c_walk_ok _ _ _ _ [] (fuel_of st) Hl); [|intros a Ha; apply Hlive; now right|unfold fuel_of; pose proof (ranges_len head (r_log st)); lia].
    cbn [bind]. eexists. split; [reflexivity|]. constructor; cbn [with_log r_mem r_live r_pools r_log ranges_of]; auto. apply rules_cons; [exact I5|reflexivity].
  - destruct (I2 head Hok) as [Hl Hlive]. unfold ldn at 1. rewrite (Hlive head (or_introl eq_refl)). cbn [bind]. rewrite (is_list_first _ _ _ Hl).
    eexists. split; [reflexivity|]. constructor; cbn [with_log r_mem r_live r_pools r_log ranges_of]; auto. apply rules_cons; [exact I5|]. cbn [rrule].
    destruct Hl as [Hn _]. destruct (ranges_of head (r_log st)) as [|x xs]; cbn [first_of hd_error]; [now rewrite Z.eqb_refl|].
    destruct (Z.eqb_spec head x) as [->|_]; [|reflexivity]. inversion Hn as [|? ? K _]; subst. destruct K. now left.
  - destruct (I2 head Hok) as [Hl Hlive]. unfold ldn at 1. rewrite (Hlive head (or_introl eq_refl)). cbn [bind]. rewrite (is_list_first _ _ _ Hl).
    unfold ldn at 1. rewrite (first_live _ _ _ Hlive). cbn [bind].
    destruct (c_destroy_ok (ranges_of head (r_log st)) (fuel_of st) ans (r_live st) (r_mem st) head (r_log st) Hl Hlive) as
      (h' & live' & log' & E & El & Er & Eo & Hrl & Hil & Hso & Hli & Hli2 & Hli3); [unfold fuel_of; pose proof (ranges_len head (r_log st)); lia|reflexivity|exact I5|].
    rewrite E. cbn [bind]. clear E.
    assert (Hu : forall xs a0, incl (unmapped a0 xs) xs).
    { induction xs as [|x xs IH]; intros a0; cbn [unmapped]; [intros a []|]. destruct (hd true a0); [|intros a []]. intros a [->|Ha]; [now left|right; exact (IH _ a Ha)]. }
    assert (Hother : forall q, In q (r_pools st) -> q <> head -> is_list h' q (ranges_of q log') /\ (forall a, In a (q :: ranges_of q log') -> live' a = true)).
    { intros q Hq Hne. rewrite (Eo q Hne). destruct (I2 q Hq) as [Hlq Hliveq]. split.
      - eapply is_list_frame; [exact Hso| |exact Hlq]. intros a Ha Hb. exact (Hne (I3 q head a Hq Hok Ha Hb)).
      - intros a Ha. destruct (Hli a) as [K|K]; [|rewrite K; exact (Hliveq a Ha)]. destruct (Hne (I3 q head a Hq Hok Ha (or_intror (Hu _ _ a K)))). }
    assert (Hsub : forall q, In q (r_pools st) -> incl (q :: ranges_of q log') (q :: ranges_of q (r_log st))).
    { intros q Hq a [<-|Ha]; [now left|]. right. destruct (Z.eq_dec q head) as [->|Hne]; [|now rewrite (Eo q Hne) in Ha]. rewrite Er in Ha.
      rewrite <- (firstn_skipn (length (unmapped ans (ranges_of head (r_log st)))) (ranges_of head (r_log st))). apply in_or_app. now right. }
    destruct (length (unmapped ans (ranges_of head (r_log st))) =? length (ranges_of head (r_log st)))%nat eqn:Ed.
    + apply Nat.eqb_eq in Ed. rewrite Ed, skipn_all in Er, Hil. eexists. split; [reflexivity|].
      assert (Hf : forall q, In q (filter (fun q => negb (q =? head)) (r_pools st)) -> In q (r_pools st) /\ q <> head).
      { intros q K. apply filter_In in K. destruct K as [K1 K2]. apply negb_true_iff, Z.eqb_neq in K2. auto. }
      constructor; cbn [r_mem r_live r_pools r_log ranges_of].
      * apply NoDup_filter. exact I1.
      * intros q Hq. destruct (Hf q Hq) as [Hq1 Hne]. destruct (Hother q Hq1 Hne) as [A B]. split; [exact A|]. intros a Ha. unfold set_live.
        destruct (Z.eqb_spec a head) as [->|_]; [|exact (B a Ha)]. destruct (Hne (I3 q head head Hq1 Hok (Hsub q Hq1 _ Ha) (or_introl eq_refl))).
      * intros p q a Hp Hq Ha Hb. destruct (Hf p Hp) as [Hp1 _], (Hf q Hq) as [Hq1 _]. exact (I3 p q a Hp1 Hq1 (Hsub p Hp1 a Ha) (Hsub q Hq1 a Hb)).
      * intros q Hq. destruct (Z.eq_dec q head) as [->|Hne]; [exact Er|]. rewrite (Eo q Hne). apply I4. intros K. apply Hq. apply filter_In. split; [exact K|].
        apply negb_true_iff, Z.eqb_neq. exact Hne.
      * apply rules_cons; [exact Hrl|exact Er].
    + eexists. split; [reflexivity|]. constructor; cbn [r_mem r_live r_pools r_log].
      * exact I1.
      * intros q Hq. destruct (Z.eq_dec q head) as [->|Hne]; [|exact (Hother q Hq Hne)]. rewrite Er. split; [exact Hil|exact Hli2].
      * intros p q a Hp Hq Ha Hb. exact (I3 p q a Hp Hq (Hsub p Hp a Ha) (Hsub q Hq a Hb)).
      * intros q Hq. destruct (Z.eq_dec q head) as [->|Hne]; [destruct (Hq Hok)|]. rewrite (Eo q Hne). exact (I4 q Hq).
      * exact Hrl.
  - eexists. split; [reflexivity|]. constructor; cbn [r_mem r_live r_pools r_log]; auto. intros q Hq. destruct (I2 q Hq) as [Hl Hlive]. split; [|exact Hlive].
    destruct Hl as [Hn Hc]. split; [exact Hn|]. refine (chain_frame _ _ _ _ _ _ _ Hc); intros a Ha; apply Hok, Hlive; exact Ha.
Qed.
Lemma rreach_inv : forall st, rreach st -> rinv st.
Proof.
  intros st H. induction H as [h|st o st' Hr IH Hok Hrun]; [apply rinv_start|]. destruct (rinv_step st o IH Hok) as (st2 & E & HI). congruence.
Qed.
