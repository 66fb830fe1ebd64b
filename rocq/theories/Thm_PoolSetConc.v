(** C56: allocations from a pool set by any number of threads at the same time.
    The machine is in PoolSetConc.v, the vocabulary in PoolSetConcSpec.v. *)
From Coq Require Import ZArith Bool List Lia.
From Verif Require Import RseqIR PoolVM PoolModel PoolWorld PoolHist PoolProps PoolSetModel PoolSetSpec PoolSetConc PoolSetConcSpec PoolSetConcProofs ExPool.
Import ListNotations.
Local Open Scope Z_scope.

(** A call that returns an item took it, at some instant of the call, from a pool of
    the set that fits, and the item was not in use; before this instant, for each
    smaller fitting size, there was an instant of the call at which the set had no
    pool of this size with room.  A call that fails reports ENOMEM, and for each
    fitting size there was an instant of the call at which the set had no pool of
    this size with room. *)
Theorem C56_served : forall e s v0 t len zero, 0 <= len < wmax e -> forall m0 tr m g,
  reachable e s v0 m0 -> run e s v0 m0 ((m0, Begin t len zero) :: tr) m -> stays t tr -> returns m t g ->
  match g with
  | Got a => exists tr1 m1 an tr2 o id P w1, tr = tr1 ++ (m1, Advance t an) :: tr2 /\
      member (m_S m1) (m_w m1) o id P /\ len <= item_len P /\
      run1 e (OMalloc id an) (m_w m1) = Ok (w1, OutItem a) /\ ~ In (id, a) (m_L m1) /\
      forall z, len <= z < item_len P -> lacked e t z tr1
  | Null err => err = ENOMEM /\ forall z, len <= z -> lacked e t z tr
  end.
Proof. exact p_conc_served. Qed.
Print Assumptions C56_served.

(** When it returns an item, the item is held by nobody else, lies in a pool that
    fits, and is zero on every CPU if the call is for a zeroed one. *)
Theorem C56_item : forall e s v0 m t an m' a k, reachable e s v0 m -> permitted e s v0 m (Advance t an) -> mstep e (Advance t an) m = Ok m' ->
  m_call m' t = Some k -> k_phase k = Returned (Got a) ->
  exists o id P, member (m_S m') (m_w m') o id P /\ In (id, a) (m_L m') /\ k_len k <= item_len P /\
    (k_zero k = true -> forall cpu j, 0 <= cpu < max_nr_cpus (pattr P) -> 0 <= j < item_len P ->
       byte (view e (w_vm (m_w m'))) (percpu_ptr P a cpu + j) = 0).
Proof. exact p_conc_content. Qed.
Print Assumptions C56_item.

(** All that is proved about histories of calls on pools holds in every such state. *)
Theorem C56_histories : forall e s v0 m, reachable e s v0 m ->
  history e s v0 (m_w m) (m_L m) (m_F m) /\ set_ok (m_S m) (m_w m).
Proof. exact p_conc_history. Qed.
Print Assumptions C56_histories.

(** Whatever the other threads do meanwhile, a call has at most 124 steps (62 in a 32-bit program), *)
Theorem C56_steps_bounded : forall e s v0 t len zero, 0 <= len < wmax e -> forall m0 tr m,
  reachable e s v0 m0 -> run e s v0 m0 ((m0, Begin t len zero) :: tr) m -> stays t tr -> steps_of t tr <= if e_wide e then 124 else 62.
Proof. exact p_conc_steps. Qed.
Print Assumptions C56_steps_bounded.

(** and none of them aborts the process if no thread writes an item it freed. *)
Theorem C56_no_false_alarm : forall e v0 m t an, reachable e true v0 m -> permitted e true v0 m (Advance t an) ->
  an_trim1 an = true -> an_trim2 an = true -> exists m', mstep e (Advance t an) m = Ok m'.
Proof. exact p_conc_no_alarm. Qed.
Print Assumptions C56_no_false_alarm.

(** ** Concrete runs, in which only thread 1 calls the set *)
Definition quiet (m : machine) : Prop := forall u, u <> 1 -> m_call m u = None.
Definition busy (m : machine) : bool :=
  match m_call m 1 with Some k => match k_phase k with Returned _ => false | _ => true end | None => false end.
Definition permittedb (m : machine) (a : act) : bool :=
  match a with
  | Begin t len _ => (t =? 1) && (match m_call m 1 with None => true | _ => false end) && (0 <=? len) && (len <? wmax e0)
  | Advance t _ => (t =? 1) && busy m
  | Leave _ => false
  | Add id => match lookup id (w_pools (m_w m)) with Some _ => true | None => false end
  | Other o => allowedb true (m_w m) (m_L m) o &&
    match o with
    | ODestroy _ _ => false
    | OFree p _ => match m_call m 1 with Some k => match k_phase k with Filling _ _ _ => false | _ => true end | None => true end
    | _ => true
    end
  end.
Lemma permittedb_ok : forall m a, quiet m -> permittedb m a = true -> permitted e0 true v0 m a.
Proof.
  intros m a Hq H. destruct a as [t len zero|t an|t|o|id]; cbn [permittedb] in H; cbn [permitted].
  - booleans. subst t. destruct (m_call m 1); [discriminate|]. auto.
  - booleans. subst t. unfold busy in *. destruct (m_call m 1) as [k|]; [|discriminate]. exists k. split; auto. intros g E. rewrite E in *. discriminate.
  - discriminate H.
  - apply andb_prop in H. destruct H as [H1 H2]. split; [now apply allowedb_ok|]. destruct o; auto; [|discriminate H2].
    intros t k o' id' Hk E. destruct (Z.eq_dec t 1) as [->|Hne]; [|rewrite Hq in Hk by exact Hne; discriminate Hk].
    rewrite Hk, E in H2. discriminate H2.
  - destruct (lookup id (w_pools (m_w m))) as [P|]; [eauto|discriminate H].
Qed.
Lemma quiet_step : forall m a m', quiet m -> permittedb m a = true -> mstep e0 a m = Ok m' -> quiet m'.
Proof.
  intros m a m' Hq H E u Hu.
  assert (Hw : forall mm k, m_call mm = m_call m -> m_call (with_call mm 1 k) u = None).
  { intros mm k Em. cbn. unfold set_call. replace (u =? 1) with false by lia. rewrite Em. auto. }
  assert (Hd : forall o mm x, do_op e0 m o = Ok (mm, x) -> m_call mm = m_call m).
  { intros o mm x Ed. unfold do_op in Ed. destruct (run1 e0 o (m_w m)) as [[w y]| |]; cbn [bind] in Ed; try discriminate Ed. injection Ed as <- _. reflexivity. }
  destruct a as [t len zero|t an|t|o|id]; cbn [mstep] in E; cbn [permittedb] in H.
  - booleans. subst t. injection E as <-. now apply Hw.
  - booleans. subst t. destruct (m_call m 1) as [k|]; [|discriminate E]. unfold advance in E. destruct (k_phase k) as [lo|o id|o id a|g].
    + destruct (find_fit _ _ _ _) as [[[o id]|]| |]; cbn [bind] in E; try discriminate E; injection E as <-; now apply Hw.
    + destruct (lookup id (w_pools (m_w m))) as [P|]; [|discriminate E]. destruct (item_len P <? k_len k); [injection E as <-; now apply Hw|].
      destruct (do_op e0 m (OMalloc id an)) as [[m1 x]| |] eqn:Ed; cbn [bind] in E; try discriminate E.
      destruct x; injection E as <-; apply Hw; eauto.
    + destruct (do_op e0 m (OFill id a (content_of (k_zero k) None))) as [[m1 x]| |] eqn:Ed; cbn [bind] in E; try discriminate E.
      injection E as <-. apply Hw. eauto.
    + discriminate E.
  - discriminate H.
  - destruct (do_op e0 m o) as [[m1 x]| |] eqn:Ed; cbn [bind] in E; try discriminate E. injection E as <-. cbn [fst]. rewrite (Hd _ _ _ Ed). now apply Hq.
  - destruct (lookup id (w_pools (m_w m))) as [P|]; [|discriminate E]. destruct (set_add_pool (m_S m) id P) as [[r er] S']. injection E as <-. now apply Hq.
Qed.

(** Runs the actions. *)
Fixpoint walk (acts : list act) (m : machine) : option (list (machine * act) * machine) :=
  match acts with
  | [] => Some ([], m)
  | a :: acts =>
    if permittedb m a then
      match mstep e0 a m with
      | Ok m1 => match walk acts m1 with Some (tr, m2) => Some ((m, a) :: tr, m2) | None => None end
      | _ => None
      end
    else None
  end.
Lemma walk_ok : forall acts m tr m2, quiet m -> walk acts m = Some (tr, m2) ->
  run e0 true v0 m tr m2 /\ quiet m2 /\ map snd tr = acts.
Proof.
  intros acts. induction acts as [|a acts IH]; intros m tr m2 Hq H; cbn [walk] in H.
  - injection H as <- <-. split; [constructor|auto].
  - destruct (permittedb m a) eqn:Hp; [|discriminate H]. destruct (mstep e0 a m) as [m1| |] eqn:E; try discriminate H.
    destruct (walk acts m1) as [[tr1 m3]|] eqn:Ew; [|discriminate H]. injection H as <- <-.
    destruct (IH m1 tr1 m3 (quiet_step _ _ _ Hq Hp E) Ew) as (H1 & H2 & H3). split; [|split; [exact H2|cbn; congruence]].
    econstructor; eauto. now apply permittedb_ok.
Qed.

(** The pool [id] is in the set and can serve 100 bytes. *)
Definition serves (an : answers) (m : machine) (id : Z) : bool :=
  match lookup id (w_pools (m_w m)) with
  | Some P => match m_S m (item_order P) with Some i => i =? id | None => false end && (100 <=? item_len P) &&
    match run1 e0 (OMalloc id an) (m_w m) with Ok (_, OutItem _) => true | _ => false end
  | None => false
  end.
Lemma serves_ok : forall m id, (forall an, serves an m id = true) -> has_room e0 100 m.
Proof.
  intros m id H. pose proof (H (grant 0)) as H0. unfold serves in H0. destruct (lookup id (w_pools (m_w m))) as [P|] eqn:El; [|discriminate H0].
  destruct (m_S m (item_order P)) as [i|] eqn:Es; [|discriminate H0]. apply andb_prop in H0. destruct H0 as [H0 _]. booleans. subst i.
  exists (item_order P), id, P. split; [split; auto|]. split; [assumption|]. intros an. specialize (H an). unfold serves in H.
  rewrite El, Es in H. apply andb_prop in H. destruct H as [_ H].
  destruct (run1 e0 (OMalloc id an) (m_w m)) as [[w []]| |]; try discriminate H. eauto.
Qed.

(** Pool 8 is full (two items of 4096 bytes), pool 9 has one item of 8192 bytes left;
    both are in the set. *)
Definition setup : list act :=
  [ Other (OCreate 8 false 4096 (Some (attrs false COW_ZERO 1)) (grant 1048576));
    Other (OMalloc 8 (grant 0)); Other (OMalloc 8 (grant 0));
    Other (OCreate 9 false 8192 (Some (attrs false COW_ZERO 1)) (grant 2097152));
    Add 8; Add 9 ].
(** Thread 1 asks for 100 bytes.  It finds pool 8 full; then another thread frees
    an item of pool 8 and takes the last one of pool 9; thread 1 finds pool 9 full. *)
Definition race : list act :=
  [ Advance 1 (grant 0); Advance 1 (grant 0);
    Other (OFree 1056768 8192); Other (OMalloc 9 (grant 0));
    Advance 1 (grant 0); Advance 1 (grant 0); Advance 1 (grant 0) ].
(** The pool that has room at each instant, from the start of the call to its end. *)
Definition roomy : list Z := [9; 9; 9; 9; 8; 8; 8; 8; 8].
(** Thread 1 asks for 100 bytes and is served by pool 9. *)
Definition calm : list act :=
  [ Advance 1 (grant 0); Advance 1 (grant 0); Advance 1 (grant 0); Advance 1 (grant 0); Advance 1 (grant 0) ].

Definition from_start (before acts : list act) : option (machine * list (machine * act) * machine) :=
  match walk before (PoolSetConc.start v0) with
  | Some (_, m0) => match walk (Begin 1 100 false :: acts) m0 with Some (tr, m) => Some (m0, tr, m) | None => None end
  | None => None
  end.
Definition result (m : machine) : option got :=
  match m_call m 1 with Some k => match k_phase k with Returned g => Some g | _ => None end | None => None end.
Fixpoint all_serve (an : answers) (ms : list machine) (ids : list Z) : bool :=
  match ms, ids with
  | [], [] => true
  | m :: ms, id :: ids => serves an m id && all_serve an ms ids
  | _, _ => false
  end.
Definition ends (before acts : list act) (ids : list Z) (an : answers) (g : got) : bool :=
  match from_start before acts with
  | Some (_, tr, m) =>
    match result m, g with Some (Got a), Got b => a =? b | Some (Null x), Null y => x =? y | _, _ => false end &&
    match ids with [] => true | _ => all_serve an (map fst tr ++ [m]) ids end
  | None => false
  end.
Lemma calm_ends : forall an, ends setup calm [] an (Got 2105344) = true.
Proof. intros an. vm_compute. reflexivity. Qed.
Lemma race_ends : forall an, ends setup race roomy an (Null ENOMEM) = true.
Proof. intros an. vm_compute. reflexivity. Qed.

Lemma from_start_ok : forall before acts m0 tr m, from_start before acts = Some (m0, tr, m) -> (forall a, In a acts -> a <> Leave 1) ->
  exists tr', tr = (m0, Begin 1 100 false) :: tr' /\ reachable e0 true v0 m0 /\ run e0 true v0 m0 tr m /\ stays 1 tr'.
Proof.
  intros before acts m0 tr m H Hnl. unfold from_start in H. destruct (walk before (PoolSetConc.start v0)) as [[tr0 m0']|] eqn:E0; [|discriminate H].
  destruct (walk (Begin 1 100 false :: acts) m0') as [[tr1 m1]|] eqn:E1; [|discriminate H]. injection H as -> <- <-.
  assert (Hq : quiet (PoolSetConc.start v0)) by (intros u _; reflexivity).
  destruct (walk_ok _ _ _ _ Hq E0) as (R0 & Hq0 & _). destruct (walk_ok _ _ _ _ Hq0 E1) as (R1 & _ & Em).
  inversion R1 as [|? a m1' tr' ? Hp E R]; subst; [discriminate Em|]. cbn [map snd] in Em. injection Em as Ea Em. rewrite Ea in *. exists tr'.
  split; auto. split; [split; [apply machine0|split; [apply space0|eauto]]|]. split; auto.
  intros m2 a2 Hin. apply Hnl. rewrite <- Em. apply in_map_iff. exists (m2, a2). auto.
Qed.
Lemma result_ok : forall m g, result m = Some g -> returns m 1 g.
Proof.
  intros m g H. unfold result in H. unfold returns. destruct (m_call m 1) as [k|]; [|discriminate H]. exists k. split; auto.
  destruct (k_phase k); try discriminate H. congruence.
Qed.
Lemma all_serve_ok : forall ms ids, (forall an, all_serve an ms ids = true) -> forall m, In m ms -> has_room e0 100 m.
Proof.
  induction ms as [|m ms IH]; intros ids H m' Hin; [destruct Hin|].
  destruct ids as [|id ids]; [discriminate (H (grant 0))|]. cbn [all_serve] in H. destruct Hin as [<-|Hin].
  - apply (serves_ok m id). intros an. apply (andb_prop _ _ (H an)).
  - apply (IH ids); auto. intros an. apply (andb_prop _ _ (H an)).
Qed.
Lemma ends_ok : forall before acts ids g, (forall an, ends before acts ids an g = true) -> (forall a, In a acts -> a <> Leave 1) ->
  exists m0 tr m, reachable e0 true v0 m0 /\ run e0 true v0 m0 ((m0, Begin 1 100 false) :: tr) m /\ stays 1 tr /\ returns m 1 g /\
    (ids <> [] -> forall m', In m' (m0 :: map fst tr ++ [m]) -> has_room e0 100 m').
Proof.
  intros before acts ids g H Hnl. unfold ends in H. destruct (from_start before acts) as [[[m0 tr] m]|] eqn:E; [|discriminate (H (grant 0))].
  destruct (from_start_ok _ _ _ _ _ E Hnl) as (tr' & -> & HR & R & Hst). exists m0, tr', m. split; auto. split; auto. split; auto. split.
  - apply result_ok. pose proof (H (grant 0)) as K. apply andb_prop in K. destruct K as [K _].
    destruct (result m) as [[a|x]|], g; try discriminate K; apply Z.eqb_eq in K; congruence.
  - intros Hne m' Hin. apply (all_serve_ok (m0 :: map fst tr' ++ [m]) ids); auto. intros an. pose proof (H an) as K. apply andb_prop in K.
    destruct K as [_ K]. destruct ids; [congruence|exact K].
Qed.
(** The steps of a call that is served by the larger pool of the set. *)
Example ex_C56 : exists m0 tr m, reachable e0 true v0 m0 /\ run e0 true v0 m0 ((m0, Begin 1 100 false) :: tr) m /\ stays 1 tr /\
  returns m 1 (Got 2105344).
Proof.
  destruct (ends_ok setup calm [] (Got 2105344)) as (m0 & tr & m & H1 & H2 & H3 & H4 & _); [exact calm_ends| |eauto 10].
  intros a Ha. cbn [calm In] in Ha. repeat (destruct Ha as [<-|Ha]; [discriminate|]). destruct Ha.
Qed.

(** The instants can differ: a call can fail although, at every instant from its
    start to its end, some fitting pool of the set had room. *)
Theorem C56_fails_only_without_room_refuted : exists e v0 t len m0 tr m, 0 <= len < wmax e /\ reachable e true v0 m0 /\
  run e true v0 m0 ((m0, Begin t len false) :: tr) m /\ stays t tr /\ returns m t (Null ENOMEM) /\
  forall m', In m' (m0 :: map fst tr ++ [m]) -> has_room e len m'.
Proof.
  destruct (ends_ok setup race roomy (Null ENOMEM)) as (m0 & tr & m & H1 & H2 & H3 & H4 & H5); [exact race_ends| |].
  - intros a Ha. cbn [race In] in Ha. repeat (destruct Ha as [<-|Ha]; [discriminate|]). destruct Ha.
  - exists e0, v0, 1, 100, m0, tr, m. split; [change (wmax e0) with (2 ^ 64); lia|]. split; [exact H1|]. split; [exact H2|]. split; [exact H3|]. split; [exact H4|]. apply H5. discriminate.
Qed.
Print Assumptions C56_fails_only_without_room_refuted.
