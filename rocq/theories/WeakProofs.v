(** Proofs about [WeakModel]. *)
From Coq Require Import ZArith Bool List Lia.
From Verif Require Import RseqIR RseqSpec RseqKernel RseqSafe RunLemmas MemLemmas Archs ArchsGood WeakModel WeakSpec.
Import ListNotations.
Local Open Scope nat_scope.

(** ** What is checked of each instruction sequence *)
Definition succs (i : instr) (pc : nat) : list nat :=
  match i with
  | IJmp l => [l]
  | IJne l | IJe l | IBne _ _ l | IBeq _ _ l => [l; S pc]
  | IExit _ => []
  | _ => [S pc]
  end.
Definition stores (i : instr) : bool := match i with ISt _ _ _ | IStB _ _ | IAddM _ _ => true | _ => false end.
Definition fences (i : instr) : bool := match i with IFence => true | _ => false end.
Definition releases (i : instr) : bool := match i with ISt r _ _ => r | _ => false end.
Definition has (n : nat) (l : list nat) : bool := existsb (Nat.eqb n) l.

(** Places that may be reached after a store with no barrier since. *)
Definition gen (P : program) (D : list nat) (pc : nat) : list nat :=
  match nth_error (code P) pc with
  | None => []
  | Some i => if stores i || (has pc D && negb (fences i)) then succs i pc else []
  end.
Definition add (D : list nat) (q : nat) : list nat := if has q D then D else q :: D.
Definition pass (P : program) (D : list nat) : list nat :=
  fold_left (fun D pc => fold_left add (gen P D pc) D) (seq 0 (length (code P))) D.
Definition dirty (P : program) : list nat := pass P (pass P (pass P [])).
Definition base_ok (P : program) : bool :=
  let D := dirty P in
  Nat.ltb 0 (cs_start P) && Nat.ltb (cs_start P) (cs_commit P) && Nat.leb (cs_commit P) (cs_abort P) &&
  negb (has 0 D) &&
  forallb (fun pc => forallb (fun q => has q D) (gen P D pc) &&
    match nth_error (code P) pc with
    | None => true
    | Some i =>
      (negb (stores i) || in_cs P pc) &&
      forallb (fun q => if Nat.leb (cs_commit P) pc then Nat.leb (cs_commit P) q else Nat.leb (Nat.min (S pc) (cs_start P)) q) (succs i pc)
    end) (seq 0 (length (code P))).
Definition order_ok (P : program) : bool :=
  match nth_error (code P) (pred (cs_commit P)) with
  | Some i => releases i || negb (has (pred (cs_commit P)) (dirty P))
  | None => false
  end.

Lemma helper_base : forall a tw rel md kd P, helper a tw rel md kd = Some P ->
  base_ok P = true /\ (rel = true -> tso a = false -> order_ok P = true).
Proof.
  intros a tw rel md kd P H. destruct kd, rel, a; try discriminate H; injection H as <-; destruct tw, md;
    (split; [vm_compute; reflexivity|intros R E; first [discriminate R | discriminate E | vm_compute; reflexivity]]).
Qed.

(** ** Logs *)
Definition owned (s : wstate) (k i n : nat) (fin : bool) : Prop :=
  exists rel ps, nth_error (w_log s i) n = Some (WS (Some k) fin rel ps).

Lemma nth_snoc : forall {A} (l : list A) e n x, nth_error (l ++ [e]) n = Some x ->
  nth_error l n = Some x \/ n = length l /\ x = e.
Proof.
  intros A l e n x H. destruct (Nat.lt_ge_cases n (length l)) as [Hn|Hn].
  - rewrite nth_error_app1 in H by exact Hn. auto.
  - rewrite nth_error_app2 in H by exact Hn. destruct (n - length l) as [|[|m]] eqn:E; cbn in H; try discriminate.
    injection H as <-. right. split; [lia|reflexivity].
Qed.
Lemma nth_keep : forall {A} (l : list A) e n x, nth_error l n = Some x -> nth_error (l ++ [e]) n = Some x.
Proof. intros A l e n x H. rewrite nth_error_app1; [exact H|]. apply nth_error_Some. congruence. Qed.
Lemma nth_lt : forall {A} (l : list A) n x, nth_error l n = Some x -> n < length l.
Proof. intros A l n x H. apply nth_error_Some. congruence. Qed.

Lemma skipn_snoc : forall {A} (l : list A) e n, n <= length l -> skipn n (l ++ [e]) = skipn n l ++ [e].
Proof. intros A l e n H. rewrite skipn_app. replace (n - length l) with 0 by lia. reflexivity. Qed.
Lemma firstn_snoc : forall {A} (l : list A) e n, n <= length l -> firstn n (l ++ [e]) = firstn n l.
Proof. intros A l e n H. rewrite firstn_app. replace (n - length l) with 0 by lia. cbn. apply app_nil_r. Qed.
Lemma ordered_snoc : forall a l e n' n, n' <= n -> n < length l -> ordered a (l ++ [e]) n' n = ordered a l n' n.
Proof.
  intros a l e n' n H1 H2. unfold ordered. rewrite !nth_error_app1 by lia.
  rewrite skipn_snoc by lia. rewrite firstn_snoc; [reflexivity|]. rewrite skipn_length. lia.
Qed.
Lemma ordered_lt : forall a l n' n, ordered a l n' n = true -> n < length l.
Proof.
  intros a l n' n H. unfold ordered in H. destruct (nth_error l n') as [[|]|]; try discriminate H.
  destruct (nth_error l n) eqn:E; [exact (nth_lt _ _ _ E)|discriminate H].
Qed.
Lemma fence_between : forall l n' q n, n' <= q -> q < n -> nth_error l q = Some WF ->
  existsb is_fence (firstn (n - n') (skipn n' l)) = true.
Proof.
  intros l n' q n H1 H2 H. apply existsb_exists. exists WF. split; [|reflexivity].
  apply nth_error_In with (n := q - n'). rewrite <- H.
  assert (E : nth_error (skipn n' l) (q - n') = nth_error l q).
  { rewrite <- (firstn_skipn n' l) at 2. pose proof (nth_lt _ _ _ H). rewrite nth_error_app2 by (rewrite firstn_length; lia).
    rewrite firstn_length. f_equal. lia. }
  rewrite <- E. rewrite <- (firstn_skipn (n - n') (skipn n' l)) at 2. rewrite nth_error_app1; [reflexivity|].
  rewrite firstn_length, skipn_length. pose proof (nth_lt _ _ _ H). lia.
Qed.
Lemma vis_mem_ok : forall i n l, vis_mem (i, n) l = true <-> In (i, n) l.
Proof.
  intros i n l. unfold vis_mem. rewrite existsb_exists. split.
  - intros ((i', n') & H & E). cbn in E. apply andb_true_iff in E. destruct E as [E1 E2].
    apply Nat.eqb_eq in E1, E2. subst. exact H.
  - intros H. exists (i, n). split; [exact H|]. cbn. rewrite !Nat.eqb_refl. reflexivity.
Qed.

Lemma log_push : forall s i e i', w_log (wpush s i e) i' = if Nat.eqb i' i then w_log s i ++ [e] else w_log s i'.
Proof. reflexivity. Qed.
Lemma push_nth : forall s i e i' n x, nth_error (w_log (wpush s i e) i') n = Some x ->
  nth_error (w_log s i') n = Some x \/ i' = i /\ n = length (w_log s i) /\ x = e.
Proof.
  intros s i e i' n x H. rewrite log_push in H. destruct (Nat.eqb i' i) eqn:E; [|auto].
  apply Nat.eqb_eq in E. subst i'. apply nth_snoc in H. destruct H as [H|[H1 H2]]; [auto|]. right. auto.
Qed.
Lemma push_keep : forall s i e i' n x, nth_error (w_log s i') n = Some x -> nth_error (w_log (wpush s i e) i') n = Some x.
Proof.
  intros s i e i' n x H. rewrite log_push. destruct (Nat.eqb i' i) eqn:E; [|exact H].
  apply Nat.eqb_eq in E. subst i'. apply nth_keep. exact H.
Qed.
Lemma push_ordered : forall a s i e i' n' n, n' <= n -> n < length (w_log s i') ->
  ordered a (w_log (wpush s i e) i') n' n = ordered a (w_log s i') n' n.
Proof.
  intros a s i e i' n' n H1 H2. rewrite log_push. destruct (Nat.eqb i' i) eqn:E; [|reflexivity].
  apply Nat.eqb_eq in E. subst i'. apply ordered_snoc; assumption.
Qed.

Section Weak.
Variables (a : arch) (g : cfg) (tw : bool) (tx : text).
Hypothesis Htx : lib_text a tw tx.

(** The call may not be overtaken by its final store. *)
Definition strong_order (P : program) : Prop := tso a = true \/ order_ok P = true.

Record winv (s : wstate) : Prop := {
  i_call : forall t k f, w_act (w_thr s t) = Some (k, f) ->
    nth_error (w_calls s) k = Some (f_call f) /\ tx (c_code (f_call f)) <> None;
  i_uniq : forall t t' k f f', w_act (w_thr s t) = Some (k, f) -> w_act (w_thr s t') = Some (k, f') -> t = t';
  i_old : forall k i n fin, owned s k i n fin -> k < length (w_calls s);
  i_one : forall k i i' n n' fin fin', owned s k i n fin -> owned s k i' n' fin' -> i = i';
  i_start : forall t k f P kd i n fin, w_act (w_thr s t) = Some (k, f) -> tx (c_code (f_call f)) = Some (P, kd) ->
    f_pc f < cs_commit P -> owned s k i n fin -> cs_start P <= f_pc f /\ i = w_cpu (w_thr s t) /\ fin = false;
  i_fence : forall t k f P kd i n fin, w_act (w_thr s t) = Some (k, f) -> tx (c_code (f_call f)) = Some (P, kd) ->
    f_pc f < cs_commit P -> has (f_pc f) (dirty P) = false -> owned s k i n fin ->
    exists q, n < q /\ nth_error (w_log s i) q = Some WF;
  i_fin : forall k i n n' fin' c P kd, owned s k i n true -> owned s k i n' fin' ->
    nth_error (w_calls s) k = Some c -> tx (c_code c) = Some (P, kd) ->
    n' <= n /\ (n' < n -> strong_order P -> ordered a (w_log s i) n' n = true);
  i_vis : forall j i n, In (i, n) (w_vis s j) ->
    (exists own fin rel ps, nth_error (w_log s i) n = Some (WS own fin rel ps)) /\
    forall n', n' < n -> ordered a (w_log s i) n' n = true -> In (i, n') (w_vis s j);
  i_self : forall i n own fin rel ps, nth_error (w_log s i) n = Some (WS own fin rel ps) -> In (i, n) (w_vis s i)
}.

Lemma tx_base : forall id P kd, tx id = Some (P, kd) -> base_ok P = true.
Proof. intros id P kd H. destruct (Htx id P kd H) as (rel & md & Hh). exact (proj1 (helper_base _ _ _ _ _ _ Hh)). Qed.

(** What [base_ok] says. *)
Lemma base_facts : forall P, base_ok P = true ->
  0 < cs_start P /\ cs_start P < cs_commit P /\ cs_commit P <= cs_abort P /\ has 0 (dirty P) = false /\
  forall pc i, nth_error (code P) pc = Some i ->
    (stores i = true -> in_cs P pc = true) /\
    forall q, In q (succs i pc) ->
      (stores i = true -> has q (dirty P) = true) /\
      (has pc (dirty P) = true -> fences i = false -> has q (dirty P) = true) /\
      (cs_commit P <= pc -> cs_commit P <= q) /\ (pc < cs_commit P -> cs_start P <= pc -> cs_start P <= q).
Proof.
  intros P H. unfold base_ok in H. cbv zeta in H. rewrite !andb_true_iff in H. destruct H as ((((H1 & H2) & H3) & H4) & H5).
  apply Nat.ltb_lt in H1, H2. apply Nat.leb_le in H3. apply negb_true_iff in H4.
  split; [exact H1|]. split; [exact H2|]. split; [exact H3|]. split; [exact H4|].
  intros pc i Hi. rewrite forallb_forall in H5. specialize (H5 pc). rewrite Hi in H5.
  rewrite !andb_true_iff in H5. destruct H5 as (G1 & G2 & G3).
  { apply List.in_seq. pose proof (nth_lt _ _ _ Hi). lia. }
  split.
  - intros E. rewrite E in G2. exact G2.
  - intros q Hq. rewrite forallb_forall in G1. unfold gen in G1. rewrite Hi in G1.
    rewrite forallb_forall in G3. specialize (G3 q Hq). repeat split.
    + intros E. rewrite E in G1. apply G1. exact Hq.
    + intros E1 E2. rewrite E1, E2 in G1. rewrite orb_true_r in G1. apply G1. exact Hq.
    + intros E. rewrite (proj2 (Nat.leb_le _ _) E) in G3. apply Nat.leb_le. exact G3.
    + intros E1 E2. rewrite (proj2 (Nat.leb_gt _ _) E1) in G3. apply Nat.leb_le in G3. lia.
Qed.

Lemma istep_succ : forall P m idx pc rs pc' rs' e rd, istep g P m idx pc rs = Some (pc', rs', e, rd) ->
  exists i, nth_error (code P) pc = Some i /\ is_wr e = stores i /\
    (is_exit e = false -> In pc' (succs i pc)) /\ (stores i = true -> pc' = S pc).
Proof.
  intros P m idx pc rs pc' rs' e rd H. unfold istep in H. destruct (nth_error (code P) pc) as [i|]; [|discriminate H].
  exists i. split; [reflexivity|]. destruct i; try discriminate H; injection H as <- <- <- <-; cbn;
    (split; [reflexivity|split; [|first [reflexivity|intros E; discriminate E]]]);
    try (intros _; left; reflexivity); try (intros E; discriminate E); intros _;
    try (destruct (rs ZF =? 0)%Z; auto); destruct (val rs a0 =? val rs b)%Z; auto.
Qed.

Lemma start_inv : forall cpus, winv (wstart cpus).
Proof.
  intros cpus. assert (N : forall k i n fin, ~ owned (wstart cpus) k i n fin).
  { intros k i n fin (rel & ps & H). cbn in H. destruct n; discriminate H. }
  constructor; cbn; try (intros; discriminate); try (intros; exfalso; eapply N; eassumption).
  - intros j i n [].
  - intros i n own fin rel ps H. destruct n; discriminate H.
Qed.

(** *** Effect of the changes of state *)
Lemma owned_thr : forall s t th k i n fin, owned (wset_thr s t th) k i n fin <-> owned s k i n fin.
Proof. intros. reflexivity. Qed.
Lemma owned_show : forall s j i n k i' n' fin, owned (wshow s j i n) k i' n' fin <-> owned s k i' n' fin.
Proof. intros. reflexivity. Qed.
Lemma owned_push : forall s i e k i' n fin, owned (wpush s i e) k i' n fin ->
  owned s k i' n fin \/ i' = i /\ n = length (w_log s i) /\ exists rel ps, e = WS (Some k) fin rel ps.
Proof.
  intros s i e k i' n fin (rel & ps & H). apply push_nth in H. destruct H as [H|(H1 & H2 & H3)].
  - left. exists rel, ps. exact H.
  - right. split; [exact H1|]. split; [exact H2|]. exists rel, ps. congruence.
Qed.
Lemma owned_keep : forall s i e k i' n fin, owned s k i' n fin -> owned (wpush s i e) k i' n fin.
Proof. intros s i e k i' n fin (rel & ps & H). exists rel, ps. apply push_keep. exact H. Qed.
Lemma owned_len : forall s k i n fin, owned s k i n fin -> n < length (w_log s i).
Proof. intros s k i n fin (rel & ps & H). exact (nth_lt _ _ _ H). Qed.

Lemma inv_fence : forall s i, winv s -> winv (wpush s i WF).
Proof.
  intros s i [A B C D E F G V S].
  assert (O : forall k i' n fin, owned (wpush s i WF) k i' n fin -> owned s k i' n fin).
  { intros k i' n fin H. apply owned_push in H. destruct H as [H|(_ & _ & rel & ps & H)]; [exact H|discriminate H]. }
  constructor; cbn [wpush w_thr w_calls w_vis].
  - exact A.
  - exact B.
  - intros k i' n fin H. exact (C _ _ _ _ (O _ _ _ _ H)).
  - intros k i1 i2 n n' fin fin' H1 H2. exact (D _ _ _ _ _ _ _ (O _ _ _ _ H1) (O _ _ _ _ H2)).
  - intros t k f P kd i' n fin H1 H2 H3 H4. exact (E _ _ _ _ _ _ _ _ H1 H2 H3 (O _ _ _ _ H4)).
  - intros t k f P kd i' n fin H1 H2 H3 H4 H5. destruct (F _ _ _ _ _ _ _ _ H1 H2 H3 H4 (O _ _ _ _ H5)) as (q & Q1 & Q2).
    exists q. split; [exact Q1|]. apply push_keep. exact Q2.
  - intros k i' n n' fin' c P kd H1 H2 H3 H4. apply O in H1, H2. destruct (G _ _ _ _ _ _ _ _ H1 H2 H3 H4) as [G1 G2].
    split; [exact G1|]. intros L1 L2. rewrite push_ordered by (try lia; exact (owned_len _ _ _ _ _ H1)). auto.
  - intros j i' n H. destruct (V _ _ _ H) as [(own & fin & rel & ps & V1) V2]. split.
    + exists own, fin, rel, ps. apply push_keep. exact V1.
    + intros n' Hn Ho. rewrite push_ordered in Ho by (try lia; exact (nth_lt _ _ _ V1)). auto.
  - intros i' n own fin rel ps H. apply push_nth in H. destruct H as [H|(_ & _ & H)]; [exact (S _ _ _ _ _ _ H)|discriminate H].
Qed.

(** Any thread that runs the call [k] has the following properties; they are all
    that is left to show when it stores. *)
Definition thr_ok (s : wstate) : Prop := forall t k f P kd i n fin,
  w_act (w_thr s t) = Some (k, f) -> tx (c_code (f_call f)) = Some (P, kd) -> f_pc f < cs_commit P -> owned s k i n fin ->
  (cs_start P <= f_pc f /\ i = w_cpu (w_thr s t) /\ fin = false) /\
  (has (f_pc f) (dirty P) = false -> exists q, n < q /\ nth_error (w_log s i) q = Some WF).

(** A store: what it must satisfy depends on who owns it. *)
Lemma inv_store : forall s i own fin rel ps t th, winv s ->
  let s' := wset_thr (wstore s i (WS own fin rel ps)) t th in
  (forall k f, w_act th = Some (k, f) -> exists f0, w_act (w_thr s t) = Some (k, f0) /\ f_call f0 = f_call f) ->
  match own with
  | None => fin = false
  | Some k => k < length (w_calls s) /\ (forall i' n' fin', owned s k i' n' fin' -> i' = i /\ fin' = false) /\
      (fin = true -> forall c P kd, nth_error (w_calls s) k = Some c -> tx (c_code c) = Some (P, kd) -> strong_order P ->
         tso a = true \/ rel = true \/ forall n' fin', owned s k i n' fin' -> exists q, n' < q /\ nth_error (w_log s i) q = Some WF)
  end ->
  thr_ok s' -> winv s'.
Proof.
  intros s i own fin rel ps t th Hi s' Hth Hown Hok. pose proof Hi as [A B C D E F G V S].
  set (e := WS own fin rel ps) in *.
  assert (El : forall i', w_log s' i' = w_log (wpush s i e) i') by reflexivity.
  assert (O : forall k i' n fi, owned s' k i' n fi -> owned s k i' n fi \/ i' = i /\ n = length (w_log s i) /\ own = Some k /\ fi = fin).
  { intros k i' n fi H. apply (owned_push s i e) in H. destruct H as [H|(H1 & H2 & r & p & H)]; [auto|]. right. subst e. injection H as -> -> _ _. auto. }
  assert (Ec : w_calls s' = w_calls s) by reflexivity.
  assert (Ea : forall u k f, w_act (w_thr s' u) = Some (k, f) -> exists f0, w_act (w_thr s u) = Some (k, f0) /\ f_call f0 = f_call f).
  { intros u k f H. cbn in H. destruct (Nat.eqb u t) eqn:Eu; [apply Nat.eqb_eq in Eu; subst u; auto|eauto]. }
  assert (Eord : forall i' n' n, n' <= n -> n < length (w_log s i') -> ordered a (w_log s' i') n' n = ordered a (w_log s i') n' n)
    by (intros; rewrite El; apply push_ordered; assumption).
  constructor.
  - intros u k f H. destruct (Ea _ _ _ H) as (f0 & H1 & H2). rewrite Ec, <- H2. exact (A _ _ _ H1).
  - intros u u' k f f' H1 H2. destruct (Ea _ _ _ H1) as (f0 & K1 & _), (Ea _ _ _ H2) as (f1 & K2 & _). exact (B _ _ _ _ _ K1 K2).
  - intros k i' n fi H. rewrite Ec. destruct (O _ _ _ _ H) as [H'|(_ & _ & -> & _)]; [exact (C _ _ _ _ H')|]. apply Hown.
  - intros k i1 i2 n n' f1 f2 H1 H2. destruct (O _ _ _ _ H1) as [K1|(-> & _ & E1 & _)], (O _ _ _ _ H2) as [K2|(-> & _ & E2 & _)].
    + exact (D _ _ _ _ _ _ _ K1 K2).
    + rewrite E2 in Hown. exact (proj1 (proj1 (proj2 Hown) _ _ _ K1)).
    + rewrite E1 in Hown. symmetry. exact (proj1 (proj1 (proj2 Hown) _ _ _ K2)).
    + reflexivity.
  - intros u k f P kd i' n fi H1 H2 H3 H4. exact (proj1 (Hok _ _ _ _ _ _ _ _ H1 H2 H3 H4)).
  - intros u k f P kd i' n fi H1 H2 H3 H4 H5. exact (proj2 (Hok _ _ _ _ _ _ _ _ H1 H2 H3 H5) H4).
  - intros k i' n n' fi c P kd H1 H2 H3 H4. rewrite Ec in H3.
    destruct (O _ _ _ _ H1) as [K1|(-> & -> & E1 & E1')], (O _ _ _ _ H2) as [K2|(E2 & E2' & E2'' & E2''')].
    + destruct (G _ _ _ _ _ _ _ _ K1 K2 H3 H4) as [G1 G2]. split; [exact G1|]. intros L1 L2. rewrite Eord by (try lia; exact (owned_len _ _ _ _ _ K1)). auto.
    + rewrite E2'' in Hown. destruct Hown as (_ & N & _). pose proof (proj2 (N _ _ _ K1)) as X. discriminate X.
    + split; [pose proof (owned_len _ _ _ _ _ K2); lia|]. intros L1 L2. rewrite E1 in Hown. destruct Hown as (_ & _ & W).
      pose proof K2 as (r2 & p2 & N2).
      unfold ordered. rewrite El, log_push, Nat.eqb_refl. rewrite (nth_keep _ _ _ _ N2).
      rewrite nth_error_app2 by lia. rewrite Nat.sub_diag. cbn [nth_error]. unfold e.
      destruct (W (eq_sym E1') _ _ _ H3 H4 L2) as [Z|[Z|Z]]; [rewrite Z; reflexivity|rewrite Z, orb_true_r; reflexivity|].
      destruct (Z _ _ K2) as (q & Q1 & Q2). rewrite (fence_between _ n' q (length (w_log s i))); [rewrite orb_true_r; reflexivity|lia|exact (nth_lt _ _ _ Q2)|].
      apply nth_keep. exact Q2.
    + split; [lia|]. intros L1. lia.
  - intros j i' n H. cbn in H. destruct (Nat.eqb j i) eqn:Ej.
    + apply Nat.eqb_eq in Ej. subst j. apply in_app_or in H. destruct H as [H|[H|[]]].
      * destruct (V _ _ _ H) as [(o & fi & r & p & V1) V2]. split.
        -- exists o, fi, r, p. rewrite El. apply push_keep. exact V1.
        -- intros n' Hn Ho. rewrite Eord in Ho by (try lia; exact (nth_lt _ _ _ V1)). cbn. rewrite Nat.eqb_refl. apply in_or_app. left. auto.
      * injection H as <- <-. split.
        -- exists own, fin, rel, ps. rewrite El, log_push, Nat.eqb_refl. rewrite nth_error_app2 by lia. rewrite Nat.sub_diag. reflexivity.
        -- intros n' Hn Ho. cbn. rewrite Nat.eqb_refl. apply in_or_app. left.
           unfold ordered in Ho. rewrite El, log_push, Nat.eqb_refl in Ho. rewrite nth_error_app1 in Ho by lia.
           destruct (nth_error (w_log s i) n') as [[|o fi r p]|] eqn:En; try discriminate Ho. exact (S _ _ _ _ _ _ En).
    + destruct (V _ _ _ H) as [(o & fi & r & p & V1) V2]. split.
      * exists o, fi, r, p. rewrite El. apply push_keep. exact V1.
      * intros n' Hn Ho. rewrite Eord in Ho by (try lia; exact (nth_lt _ _ _ V1)). cbn. rewrite Ej. auto.
  - intros i' n o fi r p H. rewrite El in H. cbn. apply push_nth in H. destruct H as [H|(-> & -> & H)].
    + pose proof (S _ _ _ _ _ _ H) as X. destruct (Nat.eqb i' i) eqn:Ei; [|exact X]. apply Nat.eqb_eq in Ei. subst i'. apply in_or_app. left. exact X.
    + rewrite Nat.eqb_refl. apply in_or_app. right. left. reflexivity.
Qed.

Lemma inv_show : forall s j i n, winv s -> may_show a s j i n = true -> winv (wshow s j i n).
Proof.
  intros s j i n [A B C D E F G V S] H. constructor; try assumption.
  - intros j' i' n' H'. cbn [wshow w_vis w_log] in *. unfold may_show in H.
    destruct (nth_error (w_log s i) n) as [[|own fin rel ps]|] eqn:En; try discriminate H.
    apply andb_true_iff in H. destruct H as [_ H]. destruct (Nat.eqb j' j) eqn:Ej; [|exact (V _ _ _ H')].
    apply Nat.eqb_eq in Ej. subst j'. apply in_app_or in H'. destruct H' as [H'|[H'|[]]].
    + destruct (V _ _ _ H') as [V1 V2]. split; [exact V1|]. intros n0 L O. apply in_or_app. left. auto.
    + injection H' as <- <-. split; [eauto|]. intros n0 L O. rewrite forallb_forall in H. specialize (H n0 ltac:(apply List.in_seq; lia)).
      rewrite O in H. cbn in H. apply vis_mem_ok in H. apply in_or_app. left. exact H.
  - intros i' n' own fin rel ps H'. cbn. pose proof (S _ _ _ _ _ _ H') as X. destruct (Nat.eqb i' j) eqn:Ej; [|exact X].
    apply Nat.eqb_eq in Ej. subst i'. apply in_or_app. left. exact X.
Qed.

Lemma inv_thr : forall s t th, winv s ->
  let s' := wset_thr s t th in
  (forall k f, w_act th = Some (k, f) -> exists f0, w_act (w_thr s t) = Some (k, f0) /\ f_call f0 = f_call f) ->
  thr_ok s' -> winv s'.
Proof.
  intros s t th [A B C D E F G V S] s' Hth Hok.
  assert (Ea : forall u k f, w_act (w_thr s' u) = Some (k, f) -> exists f0, w_act (w_thr s u) = Some (k, f0) /\ f_call f0 = f_call f).
  { intros u k f H. cbn in H. destruct (Nat.eqb u t) eqn:Eu; [apply Nat.eqb_eq in Eu; subst u; auto|eauto]. }
  constructor; try assumption.
  - intros u k f H. destruct (Ea _ _ _ H) as (f0 & H1 & H2). rewrite <- H2. exact (A _ _ _ H1).
  - intros u u' k f f' H1 H2. destruct (Ea _ _ _ H1) as (f0 & K1 & _), (Ea _ _ _ H2) as (f1 & K2 & _). exact (B _ _ _ _ _ K1 K2).
  - intros u k f P kd i n fin H1 H2 H3 H4. exact (proj1 (Hok _ _ _ _ _ _ _ _ H1 H2 H3 H4)).
  - intros u k f P kd i n fin H1 H2 H3 H4 H5. exact (proj2 (Hok _ _ _ _ _ _ _ _ H1 H2 H3 H5) H4).
Qed.

Lemma inv_thr_ok : forall s, winv s -> thr_ok s.
Proof.
  intros s [A B C D E F G V S] t k f P kd i n fin H1 H2 H3 H4. split; [exact (E _ _ _ _ _ _ _ _ H1 H2 H3 H4)|].
  intros H5. exact (F _ _ _ _ _ _ _ _ H1 H2 H3 H5 H4).
Qed.

(** Only thread [t] changes, and not the stores it owns. *)
Lemma thr_ok_set : forall s t th, winv s ->
  (forall k f P kd i n fin, w_act th = Some (k, f) -> tx (c_code (f_call f)) = Some (P, kd) -> f_pc f < cs_commit P -> owned s k i n fin ->
     (cs_start P <= f_pc f /\ i = w_cpu th /\ fin = false) /\
     (has (f_pc f) (dirty P) = false -> exists q, n < q /\ nth_error (w_log s i) q = Some WF)) ->
  thr_ok (wset_thr s t th).
Proof.
  intros s t th Hi H u k f P kd i n fin H1 H2 H3 H4. cbn in H1 |- *. destruct (Nat.eqb u t) eqn:Eu.
  - exact (H _ _ _ _ _ _ _ H1 H2 H3 H4).
  - exact (inv_thr_ok s Hi _ _ _ _ _ _ _ _ H1 H2 H3 H4).
Qed.

Lemma inv_call : forall s t c junk, winv s -> w_act (w_thr s t) = None -> tx (c_code c) <> None ->
  winv {| w_log := w_log s; w_vis := w_vis s;
          w_thr := w_thr (wset_thr s t {| w_cpu := w_cpu (w_thr s t);
            w_act := Some (length (w_calls s), {| f_call := c; f_pc := 0; f_rs := init_regs c junk |}) |});
          w_calls := w_calls s ++ [c] |}.
Proof.
  intros s t c junk [A B C D E F G V S] Ht Hc. constructor; cbn; try assumption.
  - intros u k f H. destruct (Nat.eqb u t) eqn:Eu.
    + injection H as <- <-. cbn. rewrite nth_error_app2 by lia. rewrite Nat.sub_diag. auto.
    + destruct (A _ _ _ H) as [A1 A2]. split; [apply nth_keep; exact A1|exact A2].
  - intros u u' k f f' H1 H2. destruct (Nat.eqb u t) eqn:Eu, (Nat.eqb u' t) eqn:Eu'.
    + apply Nat.eqb_eq in Eu, Eu'. congruence.
    + injection H1 as <- <-. pose proof (nth_lt _ _ _ (proj1 (A _ _ _ H2))). lia.
    + injection H2 as <- <-. pose proof (nth_lt _ _ _ (proj1 (A _ _ _ H1))). lia.
    + exact (B _ _ _ _ _ H1 H2).
  - intros k i n fin H. rewrite app_length. pose proof (C _ _ _ _ H). lia.
  - intros u k f P kd i n fin H1 H2 H3 H4. destruct (Nat.eqb u t) eqn:Eu.
    + injection H1 as <- <-. pose proof (C _ _ _ _ H4). lia.
    + exact (E _ _ _ _ _ _ _ _ H1 H2 H3 H4).
  - intros u k f P kd i n fin H1 H2 H3 H4 H5. destruct (Nat.eqb u t) eqn:Eu.
    + injection H1 as <- <-. pose proof (C _ _ _ _ H5). lia.
    + exact (F _ _ _ _ _ _ _ _ H1 H2 H3 H4 H5).
  - intros k i n n' fin' c0 P kd H1 H2 H3 H4. apply nth_snoc in H3. destruct H3 as [H3|[H3 _]]; [exact (G _ _ _ _ _ _ _ _ H1 H2 H3 H4)|].
    pose proof (C _ _ _ _ H1). lia.
Qed.

Lemma in_cs_ok : forall P pc, in_cs P pc = true <-> cs_start P <= pc < cs_commit P.
Proof. intros P pc. unfold in_cs. rewrite andb_true_iff, Nat.leb_le, Nat.ltb_lt. reflexivity. Qed.

Lemma inv_silent : forall s t k f P kd m idx pc' rs' e rd, winv s ->
  w_act (w_thr s t) = Some (k, f) -> tx (c_code (f_call f)) = Some (P, kd) ->
  istep g P m idx (f_pc f) (f_rs f) = Some (pc', rs', e, rd) -> is_wr e = false -> is_exit e = false ->
  winv (wset_thr (match nth_error (code P) (f_pc f) with Some IFence => wpush s (w_cpu (w_thr s t)) WF | _ => s end)
          t (wgo (w_thr s t) k f pc' rs')).
Proof.
  intros s t k f P kd m idx pc' rs' e rd Hi Ht Hx Hs Hw Hex.
  destruct (istep_succ _ _ _ _ _ _ _ _ _ Hs) as (i & Hn & Ew & Hsu & _). specialize (Hsu Hex).
  destruct (base_facts P (tx_base _ _ _ Hx)) as (B1 & B2 & B3 & B4 & B5).
  destruct (B5 _ _ Hn) as [_ B6]. destruct (B6 _ Hsu) as (_ & C2 & C3 & C4). clear B5 B6.
  rewrite Hn. set (s1 := match i with IFence => wpush s (w_cpu (w_thr s t)) WF | _ => s end).
  assert (E1 : w_thr s1 = w_thr s) by (subst s1; destruct i; reflexivity).
  assert (H1 : winv s1) by (subst s1; destruct i; try exact Hi; apply inv_fence; exact Hi).
  change (winv (wset_thr s1 t (wgo (w_thr s t) k f pc' rs'))).
  assert (Eo : forall k0 i0 n0 f0, owned s1 k0 i0 n0 f0 -> owned s k0 i0 n0 f0).
  { intros k0 i0 n0 f0 H. subst s1. destruct i; try exact H. apply owned_push in H. destruct H as [H|(_ & _ & r & p & H)]; [exact H|discriminate H]. }
  apply inv_thr; [exact H1| |].
  - intros k0 f0 H. cbn in H. injection H as <- <-. rewrite E1. exists f. auto.
  - apply thr_ok_set; [exact H1|]. intros k0 f0 P0 kd0 i0 n0 fin0 K1 K2 K3 K4. cbn in K1. injection K1 as <- <-. cbn in K2, K3 |- *.
    rewrite Hx in K2. injection K2 as <- <-. apply Eo in K4.
    assert (Hpc : f_pc f < cs_commit P) by (destruct (Nat.lt_ge_cases (f_pc f) (cs_commit P)) as [Y|Y]; [exact Y|specialize (C3 Y); lia]).
    destruct (i_start _ Hi _ _ _ _ _ _ _ _ Ht Hx Hpc K4) as (G1 & G2 & G3).
    split; [auto|]. intros Hd. destruct (fences i) eqn:Ef.
    + subst s1. destruct i; try discriminate Ef. exists (length (w_log s i0)). split; [exact (owned_len _ _ _ _ _ K4)|].
      rewrite log_push, G2, Nat.eqb_refl. rewrite nth_error_app2 by lia. rewrite Nat.sub_diag. reflexivity.
    + assert (Hd' : has (f_pc f) (dirty P) = false) by (destruct (has (f_pc f) (dirty P)) eqn:Y; [rewrite (C2 eq_refl eq_refl) in Hd; discriminate Hd|reflexivity]).
      destruct (i_fence _ Hi _ _ _ _ _ _ _ _ Ht Hx Hpc Hd' K4) as (q & Q1 & Q2). exists q. split; [exact Q1|].
      subst s1. destruct i; try exact Q2. discriminate Ef.
Qed.

Lemma inv_instr_store : forall s t k f P kd m idx pc' rs' ps rd rel, winv s ->
  w_act (w_thr s t) = Some (k, f) -> tx (c_code (f_call f)) = Some (P, kd) ->
  istep g P m idx (f_pc f) (f_rs f) = Some (pc', rs', EWr ps, rd) ->
  rel = match nth_error (code P) (f_pc f) with Some (ISt rel _ _) => rel | _ => false end ->
  winv (wset_thr (wstore s (w_cpu (w_thr s t)) (WS (Some k) (Nat.eqb pc' (cs_commit P)) rel ps)) t (wgo (w_thr s t) k f pc' rs')).
Proof.
  intros s t k f P kd m idx pc' rs' ps rd rel Hi Ht Hx Hs Hrel.
  destruct (istep_succ _ _ _ _ _ _ _ _ _ Hs) as (i & Hn & Ew & Hsu & Hpc'). specialize (Hsu eq_refl). cbn in Ew. symmetry in Ew. specialize (Hpc' Ew).
  destruct (base_facts P (tx_base _ _ _ Hx)) as (B1 & B2 & B3 & B4 & B5).
  destruct (B5 _ _ Hn) as [B6 B7]. specialize (B6 Ew). apply in_cs_ok in B6. destruct (B7 _ Hsu) as (C1 & _ & _ & C4). specialize (C1 Ew). clear B5 B7.
  assert (Hrel' : rel = releases i) by (rewrite Hrel, Hn; destruct i; reflexivity).
  assert (Hk : nth_error (w_calls s) k = Some (f_call f)) by exact (proj1 (i_call _ Hi _ _ _ Ht)).
  apply inv_store; [exact Hi| | |].
  - intros k0 f0 H. cbn in H. injection H as <- <-. exists f. auto.
  - split; [exact (nth_lt _ _ _ Hk)|]. split.
    + intros i' n' fin' H. destruct (i_start _ Hi _ _ _ _ _ _ _ _ Ht Hx (proj2 B6) H) as (_ & G2 & G3). auto.
    + intros Efin c P0 kd0 E1 E2 Hst. apply Nat.eqb_eq in Efin. rewrite Hk in E1. injection E1 as <-. rewrite Hx in E2. injection E2 as <- <-.
      destruct Hst as [Hst|Hst]; [auto|]. right. unfold order_ok in Hst. replace (pred (cs_commit P)) with (f_pc f) in Hst by lia.
      rewrite Hn in Hst. apply orb_true_iff in Hst. destruct Hst as [Hst|Hst]; [left; congruence|]. right.
      apply negb_true_iff in Hst. intros n' fin' H. exact (i_fence _ Hi _ _ _ _ _ _ _ _ Ht Hx (proj2 B6) Hst H).
  - intros u k0 f0 P0 kd0 i0 n0 fin0 K1 K2 K3 K4. cbn in K1. destruct (Nat.eqb u t) eqn:Eu.
    + cbn in K1. injection K1 as <- <-. cbn in K2, K3 |- *. rewrite Eu. cbn. rewrite Hx in K2. injection K2 as <- <-.
      split; [|intros Y; rewrite C1 in Y; discriminate Y].
      apply (owned_push s) in K4. destruct K4 as [K4|(-> & -> & r & p & K4)].
      * destruct (i_start _ Hi _ _ _ _ _ _ _ _ Ht Hx (proj2 B6) K4) as (_ & G2 & G3). split; [lia|auto].
      * split; [lia|]. split; [reflexivity|]. injection K4 as <- _ _. apply Nat.eqb_neq. lia.
    + assert (K4' : owned s k0 i0 n0 fin0).
      { apply (owned_push s) in K4. destruct K4 as [K4|(_ & _ & r & p & K4)]; [exact K4|]. injection K4 as <- _ _ _.
        pose proof (i_uniq _ Hi _ _ _ _ _ K1 Ht) as Y. apply Nat.eqb_neq in Eu. congruence. }
      cbn. rewrite Eu. destruct (inv_thr_ok _ Hi _ _ _ _ _ _ _ _ K1 K2 K3 K4') as [Y1 Y2]. split; [exact Y1|].
      intros Hd. destruct (Y2 Hd) as (q & Q1 & Q2). exists q. split; [exact Q1|]. apply (push_keep s). exact Q2.
Qed.

Lemma step_inv : forall s x s', winv s -> wstep a g tx s x = Some s' -> winv s'.
Proof.
  intros s x s' Hi H. destruct x as [t c junk|t m idx|t|t cpu|t rel ps|t|j i n]; cbn [wstep] in H.
  - destruct (w_act (w_thr s t)) eqn:Ht; [discriminate H|]. destruct (tx (c_code c)) eqn:Hx; [|discriminate H].
    injection H as <-. apply inv_call; [exact Hi|exact Ht|congruence].
  - destruct (w_act (w_thr s t)) as [[k f]|] eqn:Ht; [|discriminate H].
    destruct (tx (c_code (f_call f))) as [[P kd]|] eqn:Hx; [|discriminate H].
    destruct (istep g P m idx (f_pc f) (f_rs f)) as [[[[pc' rs'] e] rd]|] eqn:Hs; [|discriminate H].
    destruct e as [|ps| |x]; injection H as <-.
    + eapply inv_silent; eauto.
    + eapply inv_instr_store; eauto.
    + eapply inv_silent; eauto.
    + apply inv_thr; [exact Hi|intros k0 f0 Y; discriminate Y|]. apply thr_ok_set; [exact Hi|]. intros k0 f0 P0 kd0 i0 n0 fin0 Y. discriminate Y.
  - destruct (w_act (w_thr s t)) as [[k f]|] eqn:Ht; [|discriminate H].
    destruct (tx (c_code (f_call f))) as [[P kd]|] eqn:Hx; [|discriminate H].
    destruct (in_cs P (f_pc f)) eqn:Hcs; [|discriminate H]. injection H as <-.
    destruct (base_facts P (tx_base _ _ _ Hx)) as (B1 & B2 & B3 & B4 & B5).
    apply inv_thr; [exact Hi| |].
    + intros k0 f0 Y. cbn in Y. injection Y as <- <-. exists f. auto.
    + apply thr_ok_set; [exact Hi|]. intros k0 f0 P0 kd0 i0 n0 fin0 K1 K2 K3. cbn in K1. injection K1 as <- <-. cbn in K2, K3.
      rewrite Hx in K2. injection K2 as <- <-. lia.
  - destruct (w_act (w_thr s t)) as [[k f]|] eqn:Ht.
    + destruct (tx (c_code (f_call f))) as [[P kd]|] eqn:Hx; [|discriminate H].
      destruct (in_cs P (f_pc f)) eqn:Hcs; [discriminate H|]. injection H as <-.
      apply inv_thr; [exact Hi| |].
      * intros k0 f0 Y. cbn in Y. injection Y as <- <-. exists f. auto.
      * apply thr_ok_set; [exact Hi|]. intros k0 f0 P0 kd0 i0 n0 fin0 K1 K2 K3 K4. cbn in K1. injection K1 as <- <-.
        rewrite Hx in K2. injection K2 as <- <-. destruct (i_start _ Hi _ _ _ _ _ _ _ _ Ht Hx K3 K4) as (G1 & _).
        rewrite (proj2 (in_cs_ok P (f_pc f)) (conj G1 K3)) in Hcs. discriminate Hcs.
    + injection H as <-. apply inv_thr; [exact Hi|intros k0 f0 Y; discriminate Y|]. apply thr_ok_set; [exact Hi|]. intros k0 f0 P0 kd0 i0 n0 fin0 Y. discriminate Y.
  - destruct (w_act (w_thr s t)) eqn:Ht; [discriminate H|]. injection H as <-.
    set (e := WS None false rel ps).
    assert (Y : winv (wset_thr (wstore s (w_cpu (w_thr s t)) e) t (w_thr s t))).
    { apply inv_store; [exact Hi|intros k0 f0 Y; rewrite Ht in Y; discriminate Y|reflexivity|].
      intros u k0 f0 P0 kd0 i0 n0 fin0 K1 K2 K3 K4. cbn in K1. destruct (Nat.eqb u t) eqn:Eu; [rewrite Ht in K1; discriminate K1|].
      apply (owned_push s) in K4. destruct K4 as [K4|(_ & _ & r & p & K4)]; [|discriminate K4].
      cbn. rewrite Eu. destruct (inv_thr_ok _ Hi _ _ _ _ _ _ _ _ K1 K2 K3 K4) as [Y1 Y2]. split; [exact Y1|].
      intros Hd. destruct (Y2 Hd) as (q & Q1 & Q2). exists q. split; [exact Q1|]. apply (push_keep s). exact Q2. }
    destruct Y as [A B C D E F G V S].
    assert (Q : forall u, w_thr (wset_thr (wstore s (w_cpu (w_thr s t)) e) t (w_thr s t)) u = w_thr (wstore s (w_cpu (w_thr s t)) e) u).
    { intros u. cbn. destruct (Nat.eqb u t) eqn:Eu; [apply Nat.eqb_eq in Eu; subst u|]; reflexivity. }
    constructor; try assumption.
    + intros u. rewrite <- Q. apply A.
    + intros u u'. rewrite <- !Q. apply B.
    + intros u. rewrite <- Q. apply E.
    + intros u. rewrite <- Q. apply F.
  - destruct (w_act (w_thr s t)) eqn:Ht; [discriminate H|]. injection H as <-. apply inv_fence. exact Hi.
  - destruct (may_show a s j i n) eqn:Hm; [|discriminate H]. injection H as <-. apply inv_show; assumption.
Qed.

Lemma run_inv : forall xs s s', winv s -> wrun a g tx s xs = Some s' -> winv s'.
Proof.
  induction xs as [|x xs IH]; intros s s' Hi H; cbn in H.
  - injection H as <-. exact Hi.
  - destruct (wstep a g tx s x) as [s1|] eqn:E; [|discriminate H]. exact (IH _ _ (step_inv _ _ _ Hi E) H).
Qed.

(** ** What the other CPUs see *)
Lemma publishes : forall s k c P kd i n rel ps j,
  winv s -> nth_error (w_calls s) k = Some c -> tx (c_code c) = Some (P, kd) -> strong_order P ->
  nth_error (w_log s i) n = Some (WS (Some k) true rel ps) -> In (i, n) (w_vis s j) ->
  forall i' n' fin' rel' ps', nth_error (w_log s i') n' = Some (WS (Some k) fin' rel' ps') ->
  i' = i /\ n' <= n /\ In (i, n') (w_vis s j).
Proof.
  intros s k c P kd i n rel ps j Hi Hk Hx Hst Hn Hv i' n' fin' rel' ps' Hn'.
  assert (O1 : owned s k i n true) by (exists rel, ps; exact Hn).
  assert (O2 : owned s k i' n' fin') by (exists rel', ps'; exact Hn').
  assert (i' = i) by exact (i_one _ Hi _ _ _ _ _ _ _ O2 O1). subst i'.
  destruct (i_fin _ Hi _ _ _ _ _ _ _ _ O1 O2 Hk Hx) as [G1 G2]. split; [reflexivity|]. split; [exact G1|].
  destruct (Nat.eq_dec n' n) as [->|Hne]; [exact Hv|]. apply (proj2 (i_vis _ Hi _ _ _ Hv)); [lia|]. apply G2; [lia|exact Hst].
Qed.

(** ** The order in which stores reach a CPU *)
Definition vinv (s : wstate) : Prop := forall j l1 i n l2, w_vis s j = l1 ++ (i, n) :: l2 ->
  ~ In (i, n) l1 /\ forall n', n' < n -> ordered a (w_log s i) n' n = true -> In (i, n') l1.

Lemma snoc_split : forall {A} (l l1 l2 : list A) x y, l ++ [y] = l1 ++ x :: l2 ->
  (exists l2', l2 = l2' ++ [y] /\ l = l1 ++ x :: l2') \/ (l2 = [] /\ x = y /\ l1 = l).
Proof.
  intros A l l1 l2 x y H. destruct l2 as [|z l2] using rev_ind.
  - right. apply app_inj_tail in H. destruct H as [-> ->]. auto.
  - left. clear IHl2. exists l2. change (x :: l2 ++ [z]) with ((x :: l2) ++ [z]) in H. rewrite app_assoc in H.
    apply app_inj_tail in H. destruct H as [-> ->]. auto.
Qed.

Lemma vinv_vis : forall s s', w_vis s' = w_vis s -> winv s -> vinv s ->
  (forall i n own fin rel ps n', nth_error (w_log s i) n = Some (WS own fin rel ps) -> n' < n ->
     ordered a (w_log s' i) n' n = ordered a (w_log s i) n' n) -> vinv s'.
Proof.
  intros s s' Ev Hi Hv Ho j l1 i n l2 H. rewrite Ev in H. destruct (Hv _ _ _ _ _ H) as [V1 V2]. split; [exact V1|].
  intros n' Hn Hord. apply V2; [exact Hn|]. destruct (i_vis _ Hi j i n) as [(own & fin & rel & ps & Hn0) _].
  - rewrite H. apply in_or_app. right. left. reflexivity.
  - rewrite (Ho _ _ _ _ _ _ _ Hn0 Hn) in Hord. exact Hord.
Qed.

Lemma vinv_store : forall s i own fin rel ps, winv s -> vinv s -> vinv (wstore s i (WS own fin rel ps)).
Proof.
  intros s i own fin rel ps Hi Hv j l1 i' n l2 H. cbn [wstore wshow w_vis wpush] in H.
  change (w_log (wstore s i (WS own fin rel ps)) i') with (w_log (wpush s i (WS own fin rel ps)) i').
  assert (K : forall m0 l3, w_vis s j = l1 ++ (i', m0) :: l3 -> m0 = n ->
    ~ In (i', n) l1 /\ forall n', n' < n -> ordered a (w_log (wpush s i (WS own fin rel ps)) i') n' n = true -> In (i', n') l1).
  { intros m0 l3 E ->. destruct (Hv _ _ _ _ _ E) as [V1 V2]. split; [exact V1|]. intros n' Hn Hord.
    destruct (i_vis _ Hi j i' n) as [(o & fi & r & p & Hn0) _]; [rewrite E; apply in_or_app; right; left; reflexivity|].
    rewrite push_ordered in Hord by (try lia; exact (nth_lt _ _ _ Hn0)). auto. }
  destruct (Nat.eqb j i) eqn:Ej; [|exact (K _ _ H eq_refl)].
  apply Nat.eqb_eq in Ej. subst j. apply snoc_split in H. destruct H as [(l2' & -> & H)|(-> & Ex & ->)]; [exact (K _ _ H eq_refl)|].
  injection Ex as -> ->. split.
  - intros Hin. destruct (i_vis _ Hi _ _ _ Hin) as [(o & fi & r & p & Hn0) _]. apply nth_lt in Hn0. lia.
  - intros n' Hn Hord. unfold ordered in Hord. rewrite log_push, Nat.eqb_refl in Hord. rewrite nth_error_app1 in Hord by lia.
    destruct (nth_error (w_log s i) n') as [[|o fi r p]|] eqn:En; try discriminate Hord. exact (i_self _ Hi _ _ _ _ _ _ En).
Qed.

Lemma vinv_show : forall s j i n, winv s -> vinv s -> may_show a s j i n = true -> vinv (wshow s j i n).
Proof.
  intros s j i n Hi Hv Hm j' l1 i' n' l2 H. cbn [wshow w_vis w_log] in H |- *.
  destruct (Nat.eqb j' j) eqn:Ej; [|exact (Hv _ _ _ _ _ H)]. apply Nat.eqb_eq in Ej. subst j'.
  apply snoc_split in H. destruct H as [(l2' & -> & H)|(-> & Ex & ->)]; [exact (Hv _ _ _ _ _ H)|]. injection Ex as -> ->.
  unfold may_show in Hm. destruct (nth_error (w_log s i) n) as [[|own fin rel ps]|]; try discriminate Hm.
  apply andb_true_iff in Hm. destruct Hm as [M1 M2]. split.
  - intros Hin. apply vis_mem_ok in Hin. rewrite Hin in M1. discriminate M1.
  - intros n' Hn Hord. rewrite forallb_forall in M2. specialize (M2 n' ltac:(apply List.in_seq; lia)). rewrite Hord in M2. apply vis_mem_ok. exact M2.
Qed.

Lemma step_vinv : forall s x s', winv s -> vinv s -> wstep a g tx s x = Some s' -> vinv s'.
Proof.
  intros s x s' Hi Hv H.
  assert (T : forall t th, vinv (wset_thr s t th)) by (intros t th; apply (vinv_vis s); auto).
  assert (F : forall i, vinv (wpush s i WF)).
  { intros i. apply (vinv_vis s); auto. intros i' n o fi r p n' Hn Hl. apply push_ordered; [lia|exact (nth_lt _ _ _ Hn)]. }
  assert (S : forall i o fi r p t th, vinv (wset_thr (wstore s i (WS o fi r p)) t th)).
  { intros i o fi r p t th. exact (vinv_store s i o fi r p Hi Hv). }
  destruct x as [t c junk|t m idx|t|t cpu|t rel ps|t|j i n]; cbn [wstep] in H.
  - destruct (w_act (w_thr s t)) eqn:Ht; [discriminate H|]. destruct (tx (c_code c)) eqn:Hx; [|discriminate H].
    injection H as <-. exact Hv.
  - destruct (w_act (w_thr s t)) as [[k f]|] eqn:Ht; [|discriminate H].
    destruct (tx (c_code (f_call f))) as [[P kd]|] eqn:Hx; [|discriminate H].
    destruct (istep g P m idx (f_pc f) (f_rs f)) as [[[[pc' rs'] e] rd]|] eqn:Hs; [|discriminate H].
    destruct e as [|ps| |x]; injection H as <-; [|apply S| |apply T];
      (destruct (nth_error (code P) (f_pc f)) as [[]|]; first [apply T|exact (F (w_cpu (w_thr s t)))]).
  - destruct (w_act (w_thr s t)) as [[k f]|] eqn:Ht; [|discriminate H].
    destruct (tx (c_code (f_call f))) as [[P kd]|] eqn:Hx; [|discriminate H].
    destruct (in_cs P (f_pc f)) eqn:Hcs; [|discriminate H]. injection H as <-. apply T.
  - destruct (w_act (w_thr s t)) as [[k f]|] eqn:Ht; [|injection H as <-; apply T].
    destruct (tx (c_code (f_call f))) as [[P kd]|] eqn:Hx; [|discriminate H].
    destruct (in_cs P (f_pc f)) eqn:Hcs; [discriminate H|]. injection H as <-. apply T.
  - destruct (w_act (w_thr s t)) eqn:Ht; [discriminate H|]. injection H as <-. apply vinv_store; assumption.
  - destruct (w_act (w_thr s t)) eqn:Ht; [discriminate H|]. injection H as <-. apply F.
  - destruct (may_show a s j i n) eqn:Hm; [|discriminate H]. injection H as <-. apply vinv_show; assumption.
Qed.
Lemma run_vinv : forall xs s s', winv s -> vinv s -> wrun a g tx s xs = Some s' -> vinv s'.
Proof.
  induction xs as [|x xs IH]; intros s s' Hi Hv H; cbn in H.
  - injection H as <-. exact Hv.
  - destruct (wstep a g tx s x) as [s1|] eqn:E; [|discriminate H]. exact (IH _ _ (step_inv _ _ _ Hi E) (step_vinv _ _ _ Hi Hv E) H).
Qed.
Lemma start_vinv : forall cpus, vinv (wstart cpus).
Proof. intros cpus j l1 i n l2 H. cbn in H. destruct l1; discriminate H. Qed.

(** Nothing is forgotten. *)
Definition grows (s s' : wstate) : Prop :=
  (forall i n e, nth_error (w_log s i) n = Some e -> nth_error (w_log s' i) n = Some e) /\
  (forall j p, In p (w_vis s j) -> In p (w_vis s' j)) /\
  (forall k c, nth_error (w_calls s) k = Some c -> nth_error (w_calls s') k = Some c).
Lemma grows_refl : forall s, grows s s.
Proof. intros s. repeat split; auto. Qed.
Lemma grows_push : forall s i e, grows s (wpush s i e).
Proof. intros s i e. split; [intros; apply push_keep; assumption|]. split; auto. Qed.
Lemma grows_show : forall s j i n, grows s (wshow s j i n).
Proof.
  intros s j i n. split; [auto|]. split; [|auto]. intros j' p H. cbn. destruct (Nat.eqb j' j) eqn:E; [|exact H].
  apply Nat.eqb_eq in E. subst. apply in_or_app. auto.
Qed.
Lemma grows_trans : forall s1 s2 s3, grows s1 s2 -> grows s2 s3 -> grows s1 s3.
Proof. intros s1 s2 s3 (A & B & C) (D & E & F). split; [auto|]. split; auto. Qed.
Lemma grows_store : forall s i e, grows s (wstore s i e).
Proof. intros s i e. eapply grows_trans; [apply grows_push|apply grows_show]. Qed.
Lemma step_grows : forall s x s', wstep a g tx s x = Some s' -> grows s s'.
Proof.
  intros s x s' H. destruct x as [t c junk|t m idx|t|t cpu|t rel ps|t|j i n]; cbn [wstep] in H.
  - destruct (w_act (w_thr s t)) eqn:Ht; [discriminate H|]. destruct (tx (c_code c)) eqn:Hx; [|discriminate H].
    injection H as <-. split; [auto|]. split; [auto|]. intros k c0 H. apply nth_keep. exact H.
  - destruct (w_act (w_thr s t)) as [[k f]|] eqn:Ht; [|discriminate H].
    destruct (tx (c_code (f_call f))) as [[P kd]|] eqn:Hx; [|discriminate H].
    destruct (istep g P m idx (f_pc f) (f_rs f)) as [[[[pc' rs'] e] rd]|] eqn:Hs; [|discriminate H].
    destruct e as [|ps| |x]; injection H as <-.
    + destruct (nth_error (code P) (f_pc f)) as [[]|]; first [exact (grows_refl s)|exact (grows_push s _ WF)].
    + exact (grows_store s _ _).
    + destruct (nth_error (code P) (f_pc f)) as [[]|]; first [exact (grows_refl s)|exact (grows_push s _ WF)].
    + exact (grows_refl s).
  - destruct (w_act (w_thr s t)) as [[k f]|] eqn:Ht; [|discriminate H].
    destruct (tx (c_code (f_call f))) as [[P kd]|] eqn:Hx; [|discriminate H].
    destruct (in_cs P (f_pc f)) eqn:Hcs; [|discriminate H]. injection H as <-. exact (grows_refl s).
  - destruct (w_act (w_thr s t)) as [[k f]|] eqn:Ht; [|injection H as <-; exact (grows_refl s)].
    destruct (tx (c_code (f_call f))) as [[P kd]|] eqn:Hx; [|discriminate H].
    destruct (in_cs P (f_pc f)) eqn:Hcs; [discriminate H|]. injection H as <-. exact (grows_refl s).
  - destruct (w_act (w_thr s t)) eqn:Ht; [discriminate H|]. injection H as <-. apply grows_store.
  - destruct (w_act (w_thr s t)) eqn:Ht; [discriminate H|]. injection H as <-. apply grows_push.
  - destruct (may_show a s j i n) eqn:Hm; [|discriminate H]. injection H as <-. apply grows_show.
Qed.
Lemma run_grows : forall xs s s', wrun a g tx s xs = Some s' -> grows s s'.
Proof.
  induction xs as [|x xs IH]; intros s s' H; cbn in H.
  - injection H as <-. apply grows_refl.
  - destruct (wstep a g tx s x) as [s1|] eqn:E; [|discriminate H]. exact (grows_trans _ _ _ (step_grows _ _ _ E) (IH _ _ H)).
Qed.
Lemma wrun_app : forall xs ys s s', wrun a g tx s (xs ++ ys) = Some s' <->
  exists s1, wrun a g tx s xs = Some s1 /\ wrun a g tx s1 ys = Some s'.
Proof.
  induction xs as [|x xs IH]; intros ys s s'; cbn.
  - split; [intros H; exists s; auto|]. intros (s1 & H1 & H2). injection H1 as <-. exact H2.
  - destruct (wstep a g tx s x) as [s0|]; [apply IH|]. split; [intros H; discriminate H|]. intros (s1 & H1 & _). discriminate H1.
Qed.

(** ** Bytes *)
Lemma wr_hit : forall ps m b, In b (map fst ps) -> exists v, In (b, v) ps /\ wr m ps b = v.
Proof.
  intros ps. induction ps as [|[x v] ps IH] using rev_ind; intros m b H; [destruct H|].
  unfold wr. rewrite fold_left_app. cbn [fold_left]. unfold upd_mem at 1. cbn [fst snd]. destruct (b =? x)%Z eqn:E.
  - apply Z.eqb_eq in E. subst. exists v. split; [apply in_or_app; right; left; reflexivity|reflexivity].
  - apply Z.eqb_neq in E. rewrite map_app in H. apply in_app_or in H. destruct H as [H|[H|[]]]; [|cbn in H; congruence].
    destruct (IH m b H) as (v' & H1 & H2). exists v'. split; [apply in_or_app; auto|exact H2].
Qed.
Lemma wr_miss : forall ps m b, ~ In b (map fst ps) -> wr m ps b = m b.
Proof.
  intros ps. induction ps as [|[x v] ps IH] using rev_ind; intros m b H; [reflexivity|].
  unfold wr. rewrite fold_left_app. cbn [fold_left]. unfold upd_mem at 1. cbn [fst snd]. rewrite map_app in H. destruct (b =? x)%Z eqn:E.
  - apply Z.eqb_eq in E. subst. exfalso. apply H. apply in_or_app. right. left. reflexivity.
  - apply IH. intros H'. apply H. apply in_or_app. auto.
Qed.

Definition bytes_at (s : wstate) (p : nat * nat) : list (Z * Z) := ev_bytes (nth_error (w_log s (fst p)) (snd p)).
Lemma last_writer : forall s b l m p, In p l -> In b (map fst (bytes_at s p)) ->
  exists l1 q l2 v, l = l1 ++ q :: l2 /\ In (b, v) (bytes_at s q) /\
    (forall p', In p' l2 -> ~ In b (map fst (bytes_at s p'))) /\
    fold_left (fun m p => wr m (bytes_at s p)) l m b = v.
Proof.
  intros s b l. induction l as [|q l IH] using rev_ind; intros m p Hp Hb; [destruct Hp|].
  rewrite fold_left_app. cbn [fold_left]. destruct (in_dec Z.eq_dec b (map fst (bytes_at s q))) as [Hq|Hq].
  - destruct (wr_hit _ (fold_left (fun m p => wr m (bytes_at s p)) l m) _ Hq) as (v & H1 & H2).
    exists l, q, [], v. split; [reflexivity|]. split; [exact H1|]. split; [intros p' []|exact H2].
  - apply in_app_or in Hp. destruct Hp as [Hp|[Hp|[]]]; [|subst; contradiction].
    destruct (IH m p Hp Hb) as (l1 & q' & l2 & v & -> & H2 & H3 & H4).
    exists l1, q', (l2 ++ [q]), v. split; [rewrite <- app_assoc; reflexivity|]. split; [exact H2|]. split.
    + intros p' H'. apply in_app_or in H'. destruct H' as [H'|[H'|[]]]; [auto|subst; exact Hq].
    + rewrite wr_miss by exact Hq. exact H4.
Qed.

Lemma overlap_ok : forall b ps qs, In b (map fst ps) -> In b (map fst qs) -> overlap ps qs = true.
Proof.
  intros b ps qs H1 H2. apply in_map_iff in H1, H2. destruct H1 as (p & E1 & H1), H2 as (q & E2 & H2).
  apply existsb_exists. exists p. split; [exact H1|]. apply existsb_exists. exists q. split; [exact H2|]. apply Z.eqb_eq. congruence.
Qed.

(** A CPU that has the store [n'] of CPU [i], the only CPU that writes byte [b],
    reads that byte as stored there or later. *)
Lemma reads : forall s m0 j i n' own fin rel ps b, winv s -> vinv s ->
  nth_error (w_log s i) n' = Some (WS own fin rel ps) -> In b (map fst ps) -> In (i, n') (w_vis s j) ->
  (forall i2 n2 own2 fin2 rel2 ps2, nth_error (w_log s i2) n2 = Some (WS own2 fin2 rel2 ps2) -> In b (map fst ps2) -> i2 = i) ->
  exists n2 own2 fin2 rel2 ps2, n' <= n2 /\ nth_error (w_log s i) n2 = Some (WS own2 fin2 rel2 ps2) /\ In (b, copy_of m0 s j b) ps2.
Proof.
  intros s m0 j i n' own fin rel ps b Hi Hv Hn Hb Hin Honly.
  destruct (last_writer s b (w_vis s j) m0 (i, n') Hin) as (l1 & [i2 n2] & l2 & v & E & Q1 & Q2 & Q3).
  { unfold bytes_at. cbn. rewrite Hn. exact Hb. }
  assert (Ec : copy_of m0 s j b = v) by exact Q3. rewrite Ec. clear Q3 Ec.
  unfold bytes_at in Q1. cbn in Q1. destruct (nth_error (w_log s i2) n2) as [[|own2 fin2 rel2 ps2]|] eqn:En; try (destruct Q1; fail). cbn in Q1.
  assert (i2 = i) by (apply (Honly _ _ _ _ _ _ En); apply in_map_iff; exists (b, v); auto). subst i2.
  exists n2, own2, fin2, rel2, ps2. split; [|auto].
  destruct (Nat.le_gt_cases n' n2) as [Y|Y]; [exact Y|]. exfalso.
  assert (Hord : ordered a (w_log s i) n2 n' = true).
  { unfold ordered. rewrite En, Hn. rewrite (overlap_ok b ps2 ps); [apply orb_true_r| |exact Hb]. apply in_map_iff. exists (b, v). auto. }
  rewrite E in Hin. apply in_app_or in Hin. destruct Hin as [Hin|[Hin|Hin]].
  - apply in_split in Hin. destruct Hin as (la & lb & ->). rewrite <- app_assoc in E. cbn in E.
    destruct (Hv _ _ _ _ _ E) as [_ V2]. specialize (V2 n2 Y Hord).
    rewrite app_comm_cons, app_assoc in E. destruct (Hv _ _ _ _ _ E) as [V1 _]. apply V1. apply in_or_app. left. exact V2.
  - injection Hin as <-. lia.
  - apply (Q2 _ Hin). unfold bytes_at. cbn. rewrite Hn. exact Hb.
Qed.

(** ** What a call stores, if its loads found one memory *)
Definition has_byte (s : wstate) (k : nat) (p : Z * Z) : Prop :=
  exists i n fin rel ps, nth_error (w_log s i) n = Some (WS (Some k) fin rel ps) /\ In p ps.
Lemma has_byte_grows : forall s s' k p, grows s s' -> has_byte s k p -> has_byte s' k p.
Proof. intros s s' k p (G & _) (i & n & fin & rel & ps & H & Hp). exists i, n, fin, rel, ps. auto. Qed.

Section Contents.
Variables (k : nat) (m : mem) (idx : Z).

Record cinv (s : wstate) : Prop := {
  c_run : forall t f P kd, w_act (w_thr s t) = Some (k, f) -> tx (c_code (f_call f)) = Some (P, kd) -> f_pc f < cs_commit P ->
    exists junk r, reach g P m idx (rinit (f_call f) junk) r /\ r_pc r = f_pc f /\ r_rs r = f_rs f /\
      forall p, In p (r_w r) -> has_byte s k p;
  c_fin : forall c P kd i n rel ps, nth_error (w_calls s) k = Some c -> tx (c_code c) = Some (P, kd) -> kind_of (c_op c) = kd ->
    (idx = cpuarg c -> op_wf g (c_op c) m) ->
    nth_error (w_log s i) n = Some (WS (Some k) true rel ps) ->
    exists att, pseudo g (c_op c) m = OCommit att ps /\ forall p, In p att -> has_byte s k p }.

Lemma start_cinv : forall cpus, cinv (wstart cpus).
Proof.
  intros cpus. constructor.
  - intros t f P kd H. discriminate H.
  - intros c P kd i n rel ps H1 H2 H3 H4 H5. cbn in H5. destruct n; discriminate H5.
Qed.

(** Steps that neither start nor advance the call [k]. *)
Lemma cinv_other : forall s s', winv s -> cinv s -> grows s s' ->
  (forall t f P kd, w_act (w_thr s' t) = Some (k, f) -> tx (c_code (f_call f)) = Some (P, kd) -> f_pc f < cs_commit P ->
     exists t0, w_act (w_thr s t0) = Some (k, f)) ->
  (forall c, nth_error (w_calls s') k = Some c -> nth_error (w_calls s) k = Some c \/ forall i n fin rel ps, nth_error (w_log s' i) n <> Some (WS (Some k) fin rel ps)) ->
  (forall i n rel ps, nth_error (w_log s' i) n = Some (WS (Some k) true rel ps) -> nth_error (w_log s i) n = Some (WS (Some k) true rel ps)) ->
  cinv s'.
Proof.
  intros s s' Hi [C1 C2] Hg Hr Hc Hl. constructor.
  - intros t f P kd H1 H2 H3. destruct (Hr _ _ _ _ H1 H2 H3) as (t0 & H0). destruct (C1 _ _ _ _ H0 H2 H3) as (junk & r & R1 & R2 & R3 & R4).
    exists junk, r. split; [exact R1|]. split; [exact R2|]. split; [exact R3|]. intros p Hp. exact (has_byte_grows _ _ _ _ Hg (R4 p Hp)).
  - intros c P kd i n rel ps H1 H2 H3 H4 H5. destruct (Hc _ H1) as [H1'|H1']; [|destruct (H1' _ _ _ _ _ H5)].
    destruct (C2 _ _ _ _ _ _ _ H1' H2 H3 H4 (Hl _ _ _ _ H5)) as (att & A1 & A2). exists att. split; [exact A1|].
    intros p Hp. exact (has_byte_grows _ _ _ _ Hg (A2 p Hp)).
Qed.

Lemma step_cinv : forall s x s', winv s -> cinv s -> wstep a g tx s x = Some s' ->
  (forall t m' idx' f, x = AInstr t m' idx' -> w_act (w_thr s t) = Some (k, f) -> m' = m /\ idx' = idx) -> cinv s'.
Proof.
  intros s x s' Hi Hc H Hx0. pose proof (step_grows _ _ _ H) as Hg.
  assert (T : forall t th, s' = wset_thr s t th -> (forall f, w_act th = Some (k, f) ->
      (exists f0, w_act (w_thr s t) = Some (k, f0) /\ f_call f0 = f_call f) /\ (forall P kd, tx (c_code (f_call f)) = Some (P, kd) -> cs_commit P <= f_pc f)
      \/ w_act (w_thr s t) = Some (k, f)) -> cinv s').
  { intros t th -> Hth. apply (cinv_other s); auto. intros u f P kd K1 K2 K3. cbn in K1. destruct (Nat.eqb u t) eqn:Eu; [|eauto].
    destruct (Hth f K1) as [[_ Y]|Y]; [specialize (Y _ _ K2); lia|eauto]. }
  destruct x as [t c junk|t m' idx'|t|t cpu|t rel ps|t|j i n]; cbn [wstep] in H.
  - destruct (w_act (w_thr s t)) eqn:Ht; [discriminate H|]. destruct (tx (c_code c)) as [[P kd]|] eqn:Hx; [|discriminate H].
    injection H as <-. destruct (Nat.eq_dec k (length (w_calls s))) as [Ek|Nk].
    + assert (No : forall i n fin rel ps, nth_error (w_log s i) n <> Some (WS (Some k) fin rel ps)).
      { intros i n fin rel ps Y. pose proof (i_old _ Hi k i n fin ltac:(exists rel, ps; exact Y)). lia. }
      constructor; cbn.
      * intros u f P0 kd0 K1 K2 K3. destruct (Nat.eqb u t) eqn:Eu.
        -- injection K1 as <- <-. cbn in *. exists junk. exists (rinit c junk). split; [constructor|]. split; [reflexivity|]. split; [reflexivity|]. intros p [].
        -- pose proof (nth_lt _ _ _ (proj1 (i_call _ Hi _ _ _ K1))). lia.
      * intros c0 P0 kd0 i n rel ps K1 K2 K3 K4 K5. destruct (No _ _ _ _ _ K5).
    + apply (cinv_other s); auto.
      * intros u f P0 kd0 K1 K2 K3. cbn in K1. destruct (Nat.eqb u t) eqn:Eu; [|eauto]. injection K1 as E _. congruence.
      * intros c0 K. cbn in K. apply nth_snoc in K. destruct K as [K|[K _]]; [auto|contradiction].
  - destruct (w_act (w_thr s t)) as [[k' f]|] eqn:Ht; [|discriminate H].
    destruct (tx (c_code (f_call f))) as [[P kd]|] eqn:Hx; [|discriminate H].
    destruct (istep g P m' idx' (f_pc f) (f_rs f)) as [[[[pc' rs'] e] rd]|] eqn:Hs; [|discriminate H].
    destruct (istep_succ _ _ _ _ _ _ _ _ _ Hs) as (i & Hn & Ew & Hsu & Hpc').
    destruct (base_facts P (tx_base _ _ _ Hx)) as (B1 & B2 & B3 & B4 & B5). destruct (B5 _ _ Hn) as [B6 B7].
    destruct (Nat.eq_dec k' k) as [-> | Nk].
    + destruct (Hx0 _ _ _ _ eq_refl Ht) as [-> ->]. clear Hx0 T.
      assert (Hk : nth_error (w_calls s) k = Some (f_call f)) by exact (proj1 (i_call _ Hi _ _ _ Ht)).
      assert (Uniq : forall u f0, u <> t -> w_act (w_thr s u) <> Some (k, f0)).
      { intros u f0 Hu K. apply Hu. exact (i_uniq _ Hi _ _ _ _ _ K Ht). }
      (* the new state, except for an instruction that leaves the helper *)
      assert (Go : forall s1, is_exit e = false -> s' = wset_thr s1 t (wgo (w_thr s t) k f pc' rs') -> w_thr s1 = w_thr s -> w_calls s1 = w_calls s ->
        (forall p, In p (eff_wr e) -> has_byte s1 k p) ->
        (forall i0 n rel ps, nth_error (w_log s1 i0) n = Some (WS (Some k) true rel ps) ->
           nth_error (w_log s i0) n = Some (WS (Some k) true rel ps) \/ e = EWr ps /\ pc' = cs_commit P) -> cinv s').
      { intros s1 Hex -> E1 E2 Hb Hl. specialize (Hsu Hex). destruct (B7 _ Hsu) as (_ & _ & C3 & _). constructor.
        - intros u f0 P0 kd0 K1 K2 K3. cbn in K1. destruct (Nat.eqb u t) eqn:Eu.
          + cbn in K1. injection K1 as <-. cbn in K2, K3 |- *. rewrite Hx in K2. injection K2 as <- <-.
            assert (Hpc : f_pc f < cs_commit P) by (destruct (Nat.lt_ge_cases (f_pc f) (cs_commit P)) as [Y|Y]; [exact Y|specialize (C3 Y); lia]).
            destruct (c_run _ Hc _ _ _ _ Ht Hx Hpc) as (junk & r & R1 & R2 & R3 & R4).
            exists junk, (rnext r pc' rs' e rd). split; [|split; [reflexivity|split; [reflexivity|]]].
            * apply reach_step; [exact R1|lia| |exact K3|exact Hex]. rewrite R2, R3. exact Hs.
            * intros p Hp. cbn in Hp. apply in_app_or in Hp. destruct Hp as [Hp|Hp]; [exact (has_byte_grows _ _ _ _ Hg (R4 p Hp))|exact (Hb p Hp)].
          + rewrite E1 in K1. apply Nat.eqb_neq in Eu. destruct (Uniq _ _ Eu K1).
        - intros c0 P0 kd0 i0 n rel ps K1 K2 K3 K4 K5. cbn [wset_thr w_calls w_log] in K1, K5. rewrite E2 in K1. destruct (Hl _ _ _ _ K5) as [K|[-> ->]].
          + destruct (c_fin _ Hc _ _ _ _ _ _ _ K1 K2 K3 K4 K) as (att & A1 & A2). exists att. split; [exact A1|]. intros p Hp. exact (has_byte_grows _ _ _ _ Hg (A2 p Hp)).
          + rewrite Hk in K1. injection K1 as <-. rewrite Hx in K2. injection K2 as <- <-. cbn in Ew. symmetry in Ew.
            specialize (B6 Ew). apply in_cs_ok in B6.
            destruct (c_run _ Hc _ _ _ _ Ht Hx (proj2 B6)) as (junk & r & R1 & R2 & R3 & R4).
            assert (Hgood : good g P kd) by exact (lib_good g a tw tx Htx _ _ _ Hx).
            pose proof (proj2 Hgood (f_call f) m idx junk K3 K4) as Hsafe.
            destruct (reach_safe _ _ _ _ _ _ _ _ R1 Hsafe eq_refl eq_refl) as ((k' & Hk') & _ & _ & _).
            rewrite <- R2, <- R3 in Hs.
            inversion Hk' as [k0 x pc1 rs1 e1 rd1 S1 S2 S3 S4 S5 S6 S7 S8 S9 S10|k0 x rs1 att fin rd1 S1 S2 S3 S4 S5 S6|k0 x pc1 rs1 S1 S2 S3 S4 S5 S6|k0 x pc1 rs1 S1 S2 S3 S4 S5 S6]; subst.
            * rewrite Hs in S2. injection S2 as E3 _ _ _. lia.
            * rewrite Hs in S2. injection S2 as _ <- _. exists att. split; [exact S5|]. intros p Hp. exact (has_byte_grows _ _ _ _ Hg (R4 p (S6 p Hp))).
            * rewrite Hs in S2. discriminate S2.
            * rewrite Hs in S3. discriminate S3. }
      destruct e as [|ps| |x]; injection H as H; symmetry in H.
      * refine (Go _ eq_refl H _ _ _ _); try (destruct (nth_error (code P) (f_pc f)) as [[]|]; reflexivity); [intros p []|].
        intros i0 n rel ps K. left. destruct (nth_error (code P) (f_pc f)) as [[]|]; try exact K. apply push_nth in K. destruct K as [K|(_ & _ & K)]; [exact K|discriminate K].
      * refine (Go _ eq_refl H eq_refl eq_refl _ _).
        -- intros p Hp. cbn in Hp. exists (w_cpu (w_thr s t)), (length (w_log s (w_cpu (w_thr s t)))). do 3 eexists. split; [|exact Hp].
           cbn. rewrite Nat.eqb_refl. rewrite nth_error_app2 by lia. rewrite Nat.sub_diag. reflexivity.
        -- intros i0 n rel ps0 K. apply (push_nth s) in K. destruct K as [K|(_ & _ & K)]; [auto|]. right. injection K as K1 _ K2.
           split; [congruence|]. apply Nat.eqb_eq. congruence.
      * refine (Go _ eq_refl H _ _ _ _); try (destruct (nth_error (code P) (f_pc f)) as [[]|]; reflexivity); [intros p []|].
        intros i0 n rel ps K. left. destruct (nth_error (code P) (f_pc f)) as [[]|]; try exact K. apply push_nth in K. destruct K as [K|(_ & _ & K)]; [exact K|discriminate K].
      * rewrite H. apply (cinv_other s); [exact Hi|exact Hc|exact (grows_refl s)| |auto|auto].
        intros u f0 P0 kd0 K1 K2 K3. cbn in K1. destruct (Nat.eqb u t); [discriminate K1|eauto].
    + assert (Other : forall s1, s' = wset_thr s1 t (wgo (w_thr s t) k' f pc' rs') -> w_thr s1 = w_thr s -> w_calls s1 = w_calls s ->
        (forall i0 n rel ps, nth_error (w_log s1 i0) n = Some (WS (Some k) true rel ps) -> nth_error (w_log s i0) n = Some (WS (Some k) true rel ps)) -> cinv s').
      { intros s1 -> E1 E2 Hl. apply (cinv_other s); [exact Hi|exact Hc|exact Hg| | |exact Hl].
        - intros u f0 P0 kd0 K1 K2 K3. cbn in K1. rewrite E1 in K1. destruct (Nat.eqb u t) eqn:Eu; [|eauto]. cbn in K1. injection K1 as E _. congruence.
        - intros c0 K. cbn in K. rewrite E2 in K. auto. }
      destruct e as [|ps| |x]; injection H as H; symmetry in H.
      * refine (Other _ H _ _ _); try (destruct (nth_error (code P) (f_pc f)) as [[]|]; reflexivity).
        intros i0 n rel ps K. destruct (nth_error (code P) (f_pc f)) as [[]|]; try exact K. apply push_nth in K. destruct K as [K|(_ & _ & K)]; [exact K|discriminate K].
      * refine (Other _ H eq_refl eq_refl _). intros i0 n rel ps0 K. apply (push_nth s) in K. destruct K as [K|(_ & _ & K)]; [exact K|]. injection K as K _ _ _. congruence.
      * refine (Other _ H _ _ _); try (destruct (nth_error (code P) (f_pc f)) as [[]|]; reflexivity).
        intros i0 n rel ps K. destruct (nth_error (code P) (f_pc f)) as [[]|]; try exact K. apply push_nth in K. destruct K as [K|(_ & _ & K)]; [exact K|discriminate K].
      * rewrite H. apply (cinv_other s); [exact Hi|exact Hc|exact (grows_refl s)| |auto|auto].
        intros u f0 P0 kd0 K1 K2 K3. cbn in K1. destruct (Nat.eqb u t); [discriminate K1|eauto].
  - destruct (w_act (w_thr s t)) as [[k' f]|] eqn:Ht; [|discriminate H].
    destruct (tx (c_code (f_call f))) as [[P kd]|] eqn:Hx; [|discriminate H].
    destruct (in_cs P (f_pc f)) eqn:Hcs; [|discriminate H]. injection H as H. symmetry in H.
    destruct (base_facts P (tx_base _ _ _ Hx)) as (B1 & B2 & B3 & B4 & B5).
    apply (T _ _ H). intros f0 K. cbn in K. injection K as <- <-. left. split; [exists f; auto|]. cbn. intros P0 kd0 K. rewrite Hx in K. injection K as <- <-. exact B3.
  - destruct (w_act (w_thr s t)) as [[k' f]|] eqn:Ht.
    + destruct (tx (c_code (f_call f))) as [[P kd]|] eqn:Hx; [|discriminate H].
      destruct (in_cs P (f_pc f)) eqn:Hcs; [discriminate H|]. injection H as H. symmetry in H. apply (T _ _ H). intros f0 K. cbn in K. right. rewrite Ht. exact K.
    + injection H as H. symmetry in H. apply (T _ _ H). intros f0 K. discriminate K.
  - destruct (w_act (w_thr s t)) eqn:Ht; [discriminate H|]. injection H as <-. apply (cinv_other s); [exact Hi|exact Hc|exact Hg| |auto|].
    + intros u f0 P0 kd0 K1 K2 K3. exists u. exact K1.
    + intros i0 n r p K. apply (push_nth s) in K. destruct K as [K|(_ & _ & K)]; [exact K|discriminate K].
  - destruct (w_act (w_thr s t)) eqn:Ht; [discriminate H|]. injection H as <-. apply (cinv_other s); [exact Hi|exact Hc|exact Hg| |auto|].
    + intros u f0 P0 kd0 K1 K2 K3. exists u. exact K1.
    + intros i0 n r p K. apply (push_nth s) in K. destruct K as [K|(_ & _ & K)]; [exact K|discriminate K].
  - destruct (may_show a s j i n) eqn:Hm; [|discriminate H]. injection H as <-. apply (cinv_other s); [exact Hi|exact Hc|exact Hg| |auto|auto].
    intros u f0 P0 kd0 K1 K2 K3. exists u. exact K1.
Qed.

Lemma run_cinv : forall cpus xs s, wrun a g tx (wstart cpus) xs = Some s -> loads_from a g tx cpus xs k m idx -> cinv s.
Proof.
  intros cpus xs. induction xs as [|x xs IH] using rev_ind; intros s H Hl.
  - cbn in H. injection H as <-. apply start_cinv.
  - apply wrun_app in H. destruct H as (s1 & H1 & H2). cbn in H2. destruct (wstep a g tx s1 x) as [s2|] eqn:E; [|discriminate H2]. injection H2 as <-.
    apply (step_cinv s1 x); [exact (run_inv _ _ _ (start_inv cpus) H1)| |exact E|].
    + apply IH; [exact H1|]. intros xs1 t m' idx' xs2 s0 f -> R K. exact (Hl xs1 t m' idx' (xs2 ++ [x]) s0 f ltac:(rewrite <- app_assoc; reflexivity) R K).
    + intros t m' idx' f -> K. exact (Hl xs t m' idx' [] s1 f eq_refl H1 K).
Qed.
End Contents.
End Weak.
