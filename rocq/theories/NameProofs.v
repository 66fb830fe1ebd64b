(** C69. *)
From Coq Require Import ZArith Bool List Lia.
From Verif Require Import UtilsModel RseqIR PoolVM NameModel NameSpec.
Import ListNotations.
Local Open Scope Z_scope.

Definition nozero (s : str) : Prop := ~ In 0 s.
Lemma anonymous_text : anonymous = text_anonymous. Proof. reflexivity. Qed.
Lemma suffix_text : suffix = text_suffix. Proof. reflexivity. Qed.

Lemma scan_zero : forall s l, nozero s -> scan (s ++ 0 :: l) = Ok s.
Proof.
  induction s as [|c s IH]; intros l H; cbn [app scan]; [reflexivity|]. destruct (Z.eqb_spec c 0) as [->|_]; [destruct H; now left|].
  rewrite IH; [reflexivity|]. intros K. apply H. now right.
Qed.
Lemma scan_ok : forall b, In 0 b -> exists s, scan b = Ok s /\ nozero s.
Proof.
  induction b as [|c b IH]; intros H; [destruct H|]. cbn [scan]. destruct (Z.eqb_spec c 0) as [->|Hc]; [exists []; split; [reflexivity|intros []]|].
  destruct H as [->|H]; [destruct (Hc eq_refl)|]. destruct (IH H) as (s & E & Hn). rewrite E. exists (c :: s). split; [reflexivity|].
  intros [K|K]; [exact (Hc K)|exact (Hn K)].
Qed.

(** The text printed so far is in front of the buffer. *)
Lemma put_at : forall pre c x rest, put (pre ++ x :: rest) (length pre) c = Ok (pre ++ c :: rest).
Proof.
  intros pre c x rest. unfold put. rewrite app_length. cbn [length]. replace (length pre <? length pre + S (length rest))%nat with true by (symmetry; apply Nat.ltb_lt; lia).
  rewrite firstn_app, firstn_all, Nat.sub_diag. cbn [firstn]. rewrite app_nil_r. do 2 f_equal. f_equal.
  replace (S (length pre)) with (length (pre ++ [x])) by (rewrite app_length; cbn; lia).
  replace (pre ++ x :: rest) with ((pre ++ [x]) ++ rest) by (rewrite <- app_assoc; reflexivity). rewrite skipn_app, skipn_all, Nat.sub_diag. reflexivity.
Qed.
Lemma print_spec : forall s size pre rest, (0 < size)%nat -> (length pre + length rest = size)%nat -> rest <> [] ->
  exists rest', print size (pre ++ rest) (length pre) s = Ok (pre ++ firstn (size - 1 - length pre) s ++ rest', (length pre + length (firstn (size - 1 - length pre) s))%nat) /\ rest' <> [].
Proof.
  induction s as [|c s IH]; intros size pre rest Hs Hl Hr; cbn [print].
  - exists rest. rewrite firstn_nil. cbn. rewrite Nat.add_0_r. auto.
  - destruct (S (length pre) <? size)%nat eqn:E.
    + apply Nat.ltb_lt in E. destruct rest as [|x rest]; [destruct (Hr eq_refl)|]. rewrite put_at. cbn [bind].
      assert (Er : rest <> []) by (intros ->; cbn in Hl; lia).
      destruct (IH size (pre ++ [c]) rest Hs) as (rest' & Hp & Hr'); [rewrite app_length; cbn in *; lia|exact Er|].
      rewrite app_length in Hp. cbn [length] in Hp. replace (length pre + 1)%nat with (S (length pre)) in Hp by lia.
      rewrite <- app_assoc in Hp. cbn [app] in Hp. rewrite Hp. exists rest'.
      replace (size - 1 - length pre)%nat with (S (size - 1 - S (length pre))) by lia. cbn [firstn app length]. split; [|exact Hr'].
      rewrite <- app_assoc. cbn [app]. do 2 f_equal. lia.
    + apply Nat.ltb_ge in E. exists rest. assert (length rest <> 0)%nat by (destruct rest; [congruence|discriminate]).
      replace (size - 1 - length pre)%nat with 0%nat by lia. cbn. rewrite Nat.add_0_r. auto.
Qed.
Lemma snprintf_spec : forall size buf s, (0 < size)%nat -> length buf = size -> nozero s ->
  exists b, snprintf size buf s = Ok b /\ scan b = Ok (firstn (size - 1) s).
Proof.
  intros size buf s Hs Hl Hn. destruct (print_spec s size [] buf Hs) as (rest & Hp & Hr); [exact Hl|intros ->; cbn in Hl; lia|].
  cbn [app length Nat.add] in Hp. unfold snprintf. rewrite Hp. cbn [bind]. replace (size =? 0)%nat with false by (symmetry; apply Nat.eqb_neq; lia).
  rewrite Nat.sub_0_r. destruct rest as [|x rest]; [destruct (Hr eq_refl)|]. rewrite put_at. eexists. split; [reflexivity|]. apply scan_zero.
  intros K. apply Hn. rewrite <- (firstn_skipn (size - 1) s). apply in_or_app. now left.
Qed.
Lemma suffix_nozero : forall s, nozero s -> nozero (s ++ text_suffix).
Proof. intros s H K. apply in_app_or in K. destruct K as [K|K]; [exact (H K)|]. cbn in K. lia. Qed.

(** ** The invariant *)
Definition names_ok (st : nstate) (P : npool) (o : option str) : Prop :=
  match o with
  | None => p_name P = 0
  | Some s => p_name P <> 0 /\ n_heap st (p_name P) = Some (s ++ [0]) /\ nozero s /\ ~ In (p_name P) (n_own st)
  end.
Record ninv (st : nstate) : Prop := {
  ni_ids : NoDup (map fst (n_pools st));
  ni_pool : forall id P, In (id, P) (n_pools st) -> exists o, current id (n_log st) = Some o /\ names_ok st P o;
  ni_none : forall id, find_npool id (n_pools st) = None -> current id (n_log st) = None;
  ni_apart : forall id P id' P', In (id, P) (n_pools st) -> In (id', P') (n_pools st) -> p_name P = p_name P' -> p_name P <> 0 -> id = id';
  ni_own : forall p, In p (n_own st) -> n_heap st p <> None;
  ni_log : forall l1 l2 ev, n_log st = l1 ++ ev :: l2 ->
    match ev with
    | EFile id s => s = match current id l2 with Some o => label o | None => label None end
    | EReport id s => exists o, current id l2 = Some o /\ s = shown o
    | ECreate _ (Some s) => nozero s
    | _ => True
    end
}.
Lemma find_in : forall id l P, find_npool id l = Some P -> In (id, P) l.
Proof.
  intros id l P H. unfold find_npool in H. destruct (find _ l) as [[i Q]|] eqn:E; [|discriminate H]. injection H as <-. apply find_some in E.
  cbn in E. destruct E as [E1 E2]. apply Z.eqb_eq in E2. cbn. now subst i.
Qed.
Lemma find_some_in : forall id l P, In (id, P) l -> find_npool id l <> None.
Proof.
  intros id l P H. unfold find_npool. destruct (find _ l) eqn:E; [discriminate|]. apply (find_none _ _ E) in H. cbn in H. rewrite Z.eqb_refl in H. discriminate H.
Qed.
Lemma same_pool : forall (l : list (Z * npool)) id P Q, NoDup (map fst l) -> In (id, P) l -> In (id, Q) l -> P = Q.
Proof.
  induction l as [|[i R] l IH]; intros id P Q Hn HP HQ; [destruct HP|]. inversion Hn as [|? ? K1 K2]; subst. cbn in *.
  destruct HP as [HP|HP], HQ as [HQ|HQ]; [congruence| | |eauto].
  - injection HP as -> ->. destruct K1. apply in_map_iff. exists (id, Q). auto.
  - injection HQ as -> ->. destruct K1. apply in_map_iff. exists (id, P). auto.
Qed.
Lemma names_keep : forall st st' P o, names_ok st P o -> (forall p, In p (n_own st') -> In p (n_own st) \/ p <> p_name P) ->
  (p_name P <> 0 -> ~ In (p_name P) (n_own st) -> n_heap st (p_name P) <> None -> n_heap st' (p_name P) = n_heap st (p_name P)) -> names_ok st' P o.
Proof.
  intros st st' P [s|] H Ho Hh; cbn in *; [|exact H]. destruct H as (H1 & H2 & H3 & H4). split; [exact H1|]. split; [rewrite Hh; auto; congruence|].
  split; [exact H3|]. intros K. destruct (Ho _ K) as [K'|K']; [exact (H4 K')|exact (K' eq_refl)].
Qed.
(** New events. *)
Lemma log_cons : forall (R : event -> list event -> Prop) ev l, (forall l1 l2 e, l = l1 ++ e :: l2 -> R e l2) -> R ev l ->
  forall l1 l2 e, ev :: l = l1 ++ e :: l2 -> R e l2.
Proof.
  intros R ev l H Hev l1 l2 e E. destruct l1 as [|x l1]; cbn in E; injection E as -> E; [subst; exact Hev|]. subst x || idtac. exact (H l1 l2 e E).
Qed.
Definition rule (ev : event) (l2 : list event) : Prop :=
  match ev with
  | EFile id s => s = match current id l2 with Some o => label o | None => label None end
  | EReport id s => exists o, current id l2 = Some o /\ s = shown o
  | ECreate _ (Some s) => nozero s
  | _ => True
  end.

(** The name passed to memfd_create. *)
Lemma memfd_spec : forall st P o junk, names_ok st P o -> length junk = 249%nat -> memfd_name (n_heap st) (p_name P) junk = Ok (label o).
Proof.
  intros st P [s|] junk H Hj; unfold memfd_name.
  - destruct H as (H1 & H2 & H3 & _). apply Z.eqb_neq in H1. rewrite H1. unfold c_string. rewrite H2, scan_zero by exact H3. cbn [bind].
    destruct (snprintf_spec 249 junk (s ++ text_suffix)) as (b & E & Eb); [lia|exact Hj|now apply suffix_nozero|]. rewrite suffix_text, E. cbn [bind].
    rewrite Eb. reflexivity.
  - cbn in H. rewrite H. reflexivity.
Qed.
(** A range made for a pool of the program, or for one that is being created. *)
Lemma range_spec : forall st id P a o, ninv st -> names_ok st P o -> length (a_junk a) = 249%nat ->
  (current id (n_log st) = Some o \/ current id (n_log st) = None /\ o = None) ->
  exists st', create_range id P a st = Ok (a_range a, st') /\ ninv st' /\ n_heap st' = n_heap st /\ n_own st' = n_own st /\ n_pools st' = n_pools st /\
    (forall i, current i (n_log st') = current i (n_log st)) /\
    n_log st' = (if p_cow P then [EFile id (label o)] else []) ++ n_log st.
Proof.
  intros st id P a o HI Hn Hj Hc. unfold create_range. destruct (p_cow P).
  - rewrite (memfd_spec st P o _ Hn Hj). cbn [bind]. eexists. split; [reflexivity|]. split; [|repeat split; reflexivity].
    destruct HI as [I1 I2 I3 I4 I5 I6]. constructor; cbn [log_event n_heap n_own n_pools n_log current]; auto.
    refine (log_cons rule (EFile id (label o)) (n_log st) I6 _). cbn [rule]. destruct Hc as [->|[-> ->]]; reflexivity.
  - eexists. split; [reflexivity|]. split; [exact HI|]. repeat split; reflexivity.
Qed.

Lemma ninv_start : ninv nstart.
Proof.
  constructor; cbn; auto; try (intros; contradiction); [constructor|]. intros [|? l1] l2 ev E; discriminate E.
Qed.
Lemma set_other : forall h p b q, q <> p -> set_block h p b q = h q.
Proof. intros h p b q H. unfold set_block. apply Z.eqb_neq in H. now rewrite H. Qed.
Lemma set_same : forall h p b, set_block h p b p = b.
Proof. intros h p b. unfold set_block. now rewrite Z.eqb_refl. Qed.

Lemma ninv_step : forall st o, ninv st -> nallowed st o -> exists st', nrun1 o st = Ok st' /\ ninv st'.
Proof.
  intros st o HI Hok. destruct o as [id name cow a|id a|id|id|p b|p i c|p]; cbn [nallowed] in Hok; cbn [nrun1].
  - destruct Hok as (Hnone & Hj & Hd & Hname).
    destruct (range_spec st id {| p_cow := cow; p_name := 0 |} a None HI eq_refl Hj) as (st1 & E & HI1 & Eh & Eo & Ep & Ec & El).
    { right. split; [apply (ni_none _ HI _ Hnone)|reflexivity]. }
    rewrite E. cbn [bind]. destruct (a_range a); cbn [negb]; [|exists st1; auto].
    assert (Hnone1 : find_npool id (n_pools st1) = None) by now rewrite Ep.
    assert (Hnew : ~ In id (map fst (n_pools st1))).
    { intros K. apply in_map_iff in K. destruct K as ([i Q] & Ei & K). cbn in Ei. subst i. exact (find_some_in _ _ _ K Hnone1). }
    assert (Hne : forall i Q, In (i, Q) (n_pools st1) -> i <> id).
    { intros i Q Hi ->. exact (find_some_in _ _ _ Hi Hnone1). }
    destruct HI1 as [I1 I2 I3 I4 I5 I6]. destruct (Z.eqb_spec name 0) as [->|Hn0].
    + eexists. split; [reflexivity|]. constructor; cbn [n_heap n_own n_pools n_log map fst].
      * constructor; auto.
      * intros i P [K|K].
        -- injection K as <- <-. exists None. cbn. rewrite Z.eqb_refl. auto.
        -- destruct (I2 i P K) as (o & A & B). exists o. cbn. pose proof (Hne _ _ K) as K'. replace (id =? i) with false by (symmetry; apply Z.eqb_neq; congruence). auto.
      * intros i K. unfold find_npool in K. cbn in K. cbn. destruct (id =? i); [discriminate K|]. apply I3. exact K.
      * intros i P i' P' [K|K] [K'|K']; try (injection K as <- <-); try (injection K' as <- <-); cbn; intros; try congruence. eapply I4; eauto.
      * exact I5.
      * exact (log_cons rule (ECreate id None) (n_log st1) I6 Logic.I).
    + destruct Hname as [->|(Hin & b & Hb & Hz)]; [destruct (Hn0 eq_refl)|]. destruct (scan_ok b Hz) as (s & Es & Hs).
      unfold c_string. rewrite Eh, Hb, Es. cbn [bind]. destruct (Z.eqb_spec (a_dup a) 0) as [Hd0|Hd0]; [exists st1; split; [reflexivity|constructor; auto]|].
      destruct Hd as [Hd|[_ Hfr]]; [destruct (Hd0 Hd)|].
      assert (Hnown : ~ In (a_dup a) (n_own st1)). { rewrite Eo. intros K. apply (ni_own _ HI _ K). exact Hfr. }
      assert (Hnp : forall i P, In (i, P) (n_pools st1) -> p_name P <> 0 -> p_name P <> a_dup a).
      { intros i P Hi Hz' Heq. destruct (I2 i P Hi) as (o & _ & B). destruct o as [s'|]; cbn in B; [|congruence].
        destruct B as (_ & B & _). rewrite Heq, Eh, Hfr in B. discriminate B. }
      eexists. split; [reflexivity|]. constructor; cbn [n_heap n_own n_pools n_log map fst].
      * constructor; auto.
      * intros i P [K|K].
        -- injection K as <- <-. exists (Some s). cbn. rewrite Z.eqb_refl. split; [reflexivity|]. split; [exact Hd0|]. split; [apply set_same|]. auto.
        -- destruct (I2 i P K) as (o & A & B). exists o. cbn [current]. pose proof (Hne _ _ K) as K'. replace (id =? i) with false by (symmetry; apply Z.eqb_neq; congruence). split; [exact A|].
           eapply names_keep; [exact B|auto|]. cbn [n_heap]. intros Hz' _ _. rewrite <- Eh. apply set_other. exact (Hnp _ _ K Hz').
      * intros i K. unfold find_npool in K. cbn in K. cbn. destruct (id =? i); [discriminate K|]. apply I3. exact K.
      * intros i P i' P' [K|K] [K'|K'] Heq Hz'.
        -- congruence.
        -- injection K as <- <-. cbn in *. destruct (Hnp _ _ K'); congruence.
        -- injection K' as <- <-. cbn in *. destruct (Hnp _ _ K Hz' Heq).
        -- eapply I4; eauto.
      * intros p Hp. rewrite set_other by (intros ->; exact (Hnown Hp)). rewrite <- Eh. exact (I5 p Hp).
      * exact (log_cons rule (ECreate id (Some s)) (n_log st1) I6 Hs).
  - destruct Hok as (Hl & Hj). destruct (find_npool id (n_pools st)) as [P|] eqn:E; [|destruct (Hl eq_refl)].
    destruct (ni_pool _ HI _ _ (find_in _ _ _ E)) as (o & Hc & Hn).
    destruct (range_spec st id P a o HI Hn Hj (or_introl Hc)) as (st1 & E1 & HI1 & _). rewrite E1. cbn [bind snd]. eauto.
  - destruct (find_npool id (n_pools st)) as [P|] eqn:E; [|destruct (Hok eq_refl)].
    destruct (ni_pool _ HI _ _ (find_in _ _ _ E)) as (o & Hc & Hn). destruct HI as [I1 I2 I3 I4 I5 I6].
    destruct o as [s|]; cbn in Hn.
    + destruct Hn as (H1 & H2 & H3 & _). apply Z.eqb_neq in H1. rewrite H1. unfold c_string. rewrite H2, scan_zero by exact H3. cbn [bind].
      eexists. split; [reflexivity|]. constructor; cbn [log_event n_heap n_own n_pools n_log current]; auto.
      refine (log_cons rule (EReport id s) (n_log st) I6 _). exists (Some s). auto.
    + rewrite Hn. cbn. eexists. split; [reflexivity|]. constructor; cbn [log_event n_heap n_own n_pools n_log current]; auto.
      refine (log_cons rule (EReport id anonymous) (n_log st) I6 _). exists None. auto.
  - destruct (find_npool id (n_pools st)) as [P|] eqn:E; [|destruct (Hok eq_refl)]. pose proof (find_in _ _ _ E) as Hin.
    destruct (ni_pool _ HI _ _ Hin) as (o & Hc & Hn). destruct HI as [I1 I2 I3 I4 I5 I6].
    assert (Hk : forall i Q, In (i, Q) (filter (fun p => negb (fst p =? id)) (n_pools st)) -> In (i, Q) (n_pools st) /\ i <> id).
    { intros i Q K. apply filter_In in K. cbn in K. destruct K as [K1 K2]. apply negb_true_iff, Z.eqb_neq in K2. auto. }
    assert (Hgo : forall h, (forall i Q, In (i, Q) (n_pools st) -> i <> id -> p_name Q <> 0 -> h (p_name Q) = n_heap st (p_name Q)) ->
      (forall p, In p (n_own st) -> h p <> None) ->
      ninv {| n_heap := h; n_own := n_own st; n_pools := filter (fun p => negb (fst p =? id)) (n_pools st); n_log := EDestroy id :: n_log st |}).
    { intros h Hh Hown. constructor; cbn [n_heap n_own n_pools n_log].
      - clear - I1. induction (n_pools st) as [|[i Q] l IH]; [constructor|]. cbn [map fst] in I1. inversion I1 as [|? ? K1 K2]; subst. cbn [filter fst].
        destruct (negb (i =? id)); [|auto]. cbn [map fst]. constructor; [|auto]. intros K. apply K1. apply in_map_iff in K. destruct K as (x & Ex & K).
        apply filter_In in K. apply in_map_iff. exists x. tauto.
      - intros i Q K. destruct (Hk _ _ K) as [K1 K2]. destruct (I2 i Q K1) as (o' & A & B). exists o'. cbn [current].
        replace (id =? i) with false by (symmetry; apply Z.eqb_neq; congruence). split; [exact A|]. eapply names_keep; [exact B|auto|].
        cbn [n_heap]. intros Hz _ _. exact (Hh i Q K1 K2 Hz).
      - intros i K. cbn [current]. destruct (Z.eqb_spec id i) as [<-|Hne]; [reflexivity|]. apply I3. unfold find_npool in *.
        destruct (find (fun p => fst p =? i) (n_pools st)) as [[j Q]|] eqn:Ef; [|reflexivity]. exfalso. apply find_some in Ef. cbn in Ef. destruct Ef as [A B]. apply Z.eqb_eq in B. subst j.
        refine (find_some_in i (filter (fun p => negb (fst p =? id)) (n_pools st)) Q _ K). apply filter_In. split; [exact A|]. cbn. apply negb_true_iff, Z.eqb_neq. congruence.
      - intros i Q i' Q' K K'. apply I4; [apply (Hk _ _ K)|apply (Hk _ _ K')].
      - exact Hown.
      - exact (log_cons rule (EDestroy id) (n_log st) I6 Logic.I). }
    destruct o as [s|]; cbn in Hn.
    + destruct Hn as (H1 & H2 & H3 & H4). pose proof H1 as H1'. apply Z.eqb_neq in H1. rewrite H1, H2. eexists. split; [reflexivity|]. apply Hgo.
      * intros i Q Hi Hne Hz. apply set_other. intros Heq. apply Hne. symmetry. exact (I4 id P i Q Hin Hi (eq_sym Heq) H1').
      * intros p Hp. rewrite set_other by (intros ->; exact (H4 Hp)). exact (I5 p Hp).
    + rewrite Hn. cbn. eexists. split; [reflexivity|]. apply Hgo; auto.
  - destruct Hok as [Hz Hf]. destruct HI as [I1 I2 I3 I4 I5 I6]. eexists. split; [reflexivity|]. constructor; cbn [n_heap n_own n_pools n_log]; auto.
    + intros i P Hi. destruct (I2 i P Hi) as (o & A & B). exists o. split; [exact A|].
      assert (Hne : p_name P <> 0 -> p_name P <> p).
      { intros Hz' Hq. destruct o as [s|]; cbn in B; [|exact (Hz' B)]. destruct B as (_ & B & _). rewrite Hq, Hf in B. discriminate B. }
      destruct o as [s|]; cbn in B |- *; [|exact B]. destruct B as (B1 & B2 & B3 & B4). split; [exact B1|]. specialize (Hne B1). rewrite set_other by exact Hne.
      split; [exact B2|]. split; [exact B3|]. intros [K|K]; [congruence|exact (B4 K)].
    + intros q [<-|Hq]; [rewrite set_same; discriminate|]. unfold set_block. destruct (q =? p); [discriminate|exact (I5 q Hq)].
  - destruct Hok as (Hp & b & Hb & Hi). rewrite Hb. unfold put. apply Nat.ltb_lt in Hi. rewrite Hi. cbn [bind]. destruct HI as [I1 I2 I3 I4 I5 I6].
    eexists. split; [reflexivity|]. constructor; cbn [n_heap n_own n_pools n_log]; auto.
    + intros j P Hj. destruct (I2 j P Hj) as (o & A & B). exists o. split; [exact A|]. eapply names_keep; [exact B|auto|]. cbn [n_heap].
      intros _ Hno _. apply set_other. intros Hq. rewrite Hq in Hno. exact (Hno Hp).
    + intros q Hq. unfold set_block. destruct (q =? p); [discriminate|exact (I5 q Hq)].
  - destruct HI as [I1 I2 I3 I4 I5 I6]. eexists. split; [reflexivity|]. constructor; cbn [n_heap n_own n_pools n_log]; auto.
    + intros j P Hj. destruct (I2 j P Hj) as (o & A & B). exists o. split; [exact A|]. eapply names_keep; [exact B| |].
      * cbn [n_own]. intros q Hq. apply filter_In in Hq. left. apply Hq.
      * cbn [n_heap]. intros _ Hno _. apply set_other. intros Hq. rewrite Hq in Hno. exact (Hno Hok).
    + intros q Hq. apply filter_In in Hq. destruct Hq as [Hq Hne]. apply negb_true_iff, Z.eqb_neq in Hne. rewrite set_other by exact Hne. exact (I5 q Hq).
Qed.
Lemma nreach_inv : forall st, nreach st -> ninv st.
Proof.
  intros st H. induction H as [|st o st' Hr IH Hok Hrun]; [exact ninv_start|]. destruct (ninv_step st o IH Hok) as (st2 & E & HI). congruence.
Qed.

Lemma current_in : forall l id o, current id l = Some o -> In (ECreate id o) l.
Proof.
  induction l as [|ev l IH]; intros id o H; [discriminate H|]. destruct ev as [i n|i|i s|i s]; cbn in H; try (right; exact (IH _ _ H)).
  - destruct (Z.eqb_spec i id) as [->|_]; [injection H as ->; now left|right; exact (IH _ _ H)].
  - destruct (i =? id); [discriminate H|right; exact (IH _ _ H)].
Qed.
Lemma label_nozero : forall o, match o with Some s => nozero s | None => True end -> nozero (label o).
Proof.
  intros o H K. unfold label in K. assert (K' : In 0 (shown o ++ text_suffix)). { rewrite <- (firstn_skipn 248 (shown o ++ text_suffix)). apply in_or_app. now left. }
  revert K'. apply suffix_nozero. destruct o as [s|]; [exact H|]. cbn. intros K'. cbn in K'. lia.
Qed.
Lemma label_len : forall o, (0 < length (label o) <= 248)%nat.
Proof.
  intros o. unfold label. rewrite firstn_length, app_length. change (length text_suffix) with 13%nat. lia.
Qed.
Lemma label_short : forall s, (length s <= 235)%nat -> label (Some s) = s ++ text_suffix.
Proof. intros s H. unfold label. cbn [shown]. apply firstn_all2. rewrite app_length. change (length text_suffix) with 13%nat. lia. Qed.
Lemma label_long : forall s, (248 <= length s)%nat -> label (Some s) = firstn 248 s.
Proof. intros s H. unfold label. cbn [shown]. rewrite firstn_app. replace (248 - length s)%nat with 0%nat by lia. cbn [firstn]. apply app_nil_r. Qed.
