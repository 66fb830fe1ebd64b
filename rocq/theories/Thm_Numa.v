(** C40: rseq_mempool_range_init_numa() submits every whole page of the range to
    move_pages() exactly once, in order (NumaModel.v). *)
From Coq Require Import ZArith Bool List Lia.
From Verif Require Import UtilsModel UtilsLemmas NumaModel.
Import ListNotations.
Local Open Scope Z_scope.

(** The first [m] pages of a range at [addr]. *)
Definition pages_of (addr page_len : Z) (m : nat) : list Z :=
  map (fun i => u64 (addr + Z.of_nat i * page_len)) (seq 0 m).

(** A well-formed call: between 1 and 4096 pages, all for [node]. *)
Definition good_call (node flags : Z) (c : call) : Prop :=
  1 <= c_count c <= 4096 /\ Z.of_nat (length (c_pages c)) = c_count c /\
  c_nodes c = repeat node (length (c_pages c)) /\ c_flags c = flags.

Lemma fill_spec : forall n k p addr pl pages pages' p', fill n k p addr pl pages = (pages', p') ->
  p' = p + Z.of_nat n /\ (forall i, i < k -> pages' i = pages i) /\
  (forall i, 0 <= i < Z.of_nat n -> pages' (k + i) = u64 (addr + u64 ((p + i) * pl))).
Proof.
  induction n as [|n IH]; intros k p addr pl pages pages' p' H; cbn [fill] in H.
  - injection H as <- <-. split; [lia|]. split; [auto|lia].
  - apply IH in H. destruct H as (-> & H1 & H2). split; [lia|]. split.
    + intros i Hi. rewrite H1 by lia. destruct (Z.eqb_spec i k); [lia|auto].
    + intros i Hi. destruct (Z.eq_dec i 0) as [->|N].
      * replace (k + 0) with k by lia. rewrite H1 by lia. rewrite Z.eqb_refl. replace (p + 0) with p by lia. reflexivity.
      * replace (k + i) with ((k + 1) + (i - 1)) by lia. rewrite H2 by lia. do 4 f_equal. lia.
Qed.

Lemma entries_spec : forall n k a, entries n k a = map (fun i => a (k + Z.of_nat i)) (seq 0 n).
Proof.
  induction n as [|n IH]; intros k a; cbn; auto. f_equal; [f_equal; lia|]. rewrite IH, <- seq_shift, map_map.
  apply map_ext. intros i. f_equal. lia.
Qed.

Lemma u64_add : forall a b, u64 (a + u64 b) = u64 (a + b).
Proof. intros a b. unfold u64. apply Z.add_mod_idemp_r. lia. Qed.

Lemma map_const : forall (x : Z) n a, map (fun _ : nat => x) (seq a n) = repeat x n.
Proof. intros x n. induction n as [|n IH]; intros a; cbn; [auto|]. rewrite IH. reflexivity. Qed.

Lemma seq_plus : forall k n, seq (0 + k) n = map (Nat.add k) (seq 0 n).
Proof.
  intros k n. generalize 0%nat. induction n as [|n IH]; intros a; cbn; auto. f_equal; [lia|]. apply (IH (S a)).
Qed.

Lemma batches_spec : forall fuel nr p addr pl pages node flags ans i cs r,
  0 <= p -> batches fuel nr p addr pl pages (fun _ => node) flags ans i = Some (cs, r) ->
  exists m, concat (map c_pages cs) = map (fun j => u64 (addr + (p + Z.of_nat j) * pl)) (seq 0 m) /\
    (forall c, In c cs -> good_call node flags c) /\
    ((r = 0 /\ Z.of_nat m = Z.max 0 (nr - p) /\ forall j, (j < length cs)%nat -> 0 <= ans (i + j)%nat) \/
     (exists l, length cs = S l /\ ans (i + l)%nat < 0 /\ r = to_int (ans (i + l)%nat) /\ p + Z.of_nat m <= nr /\
        forall j, (j < l)%nat -> 0 <= ans (i + j)%nat)).
Proof.
  induction fuel as [|fuel IH]; intros nr p addr pl pages node flags ans i cs r Hp H; cbn [batches] in H.
  - destruct (Z.ltb_spec p nr); [discriminate|]. injection H as <- <-. exists 0%nat. split; auto. split; [intros c []|].
    left. split; auto. split; [lia|]. cbn. lia.
  - destruct (Z.ltb_spec p nr) as [Hlt|Hge].
    2:{ injection H as <- <-. exists 0%nat. split; auto. split; [intros c []|]. left. split; auto. split; [lia|]. cbn. lia. }
    set (mk := if nr - p <? BATCH then nr - p else BATCH) in *.
    assert (Hmk : 1 <= mk <= BATCH /\ mk <= nr - p).
    { unfold mk, BATCH. destruct (Z.ltb_spec (nr - p) 4096); lia. }
    clearbody mk. destruct (fill (Z.to_nat mk) 0 p addr pl pages) as (pages', p') eqn:Ef.
    apply fill_spec in Ef. destruct Ef as (-> & _ & Ef). rewrite !entries_spec in H.
    set (c := {| c_count := mk; c_pages := _; c_nodes := _; c_flags := flags |}) in *.
    assert (Hc : good_call node flags c).
    { unfold good_call, c. cbn [c_count c_pages c_nodes c_flags]. unfold BATCH in Hmk. rewrite map_length, seq_length. split; [lia|]. split; [lia|]. split; auto.
      apply map_const. }
    assert (Hpg : c_pages c = map (fun j => u64 (addr + (p + Z.of_nat j) * pl)) (seq 0 (Z.to_nat mk))).
    { cbn [c c_pages]. apply map_ext_in. intros j Hj. apply in_seq in Hj. rewrite Ef by lia. rewrite u64_add. reflexivity. }
    clearbody c. destruct (Z.ltb_spec (ans i) 0) as [Hneg|Hpos].
    + injection H as <- <-. exists (Z.to_nat mk). split; [cbn; rewrite app_nil_r; auto|]. split; [intros x [<-|[]]; auto|].
      right. exists 0%nat. cbn. rewrite Nat.add_0_r. split; auto. split; auto. split; auto. split; [lia|]. lia.
    + destruct (batches fuel _ _ _ _ _ _ _ _ _) as [(cs', r')|] eqn:E; [|discriminate]. injection H as <- <-.
      apply IH in E; [|lia]. destruct E as (m & E1 & E2 & E3).
      exists (Z.to_nat mk + m)%nat. split; [|split].
      * cbn. rewrite Hpg, E1, seq_app, map_app. f_equal. rewrite seq_plus, map_map.
        apply map_ext. intros j. do 3 f_equal. lia.
      * intros x [<-|Hx]; auto.
      * destruct E3 as [(-> & E3 & E4)|(l & E3 & E4 & E5 & E6 & E7)].
        -- left. split; auto. split; [lia|]. intros [|j] Hj; [rewrite Nat.add_0_r; auto|].
           rewrite <- Nat.add_succ_comm. apply E4. cbn in Hj. lia.
        -- right. exists (S l). cbn. split; [lia|]. rewrite <- Nat.add_succ_comm. split; auto. split; auto. split; [lia|].
           intros [|j] Hj; [rewrite Nat.add_0_r; auto|]. rewrite <- Nat.add_succ_comm. apply E7. lia.
Qed.

Lemma batches_total : forall fuel nr p addr pl pages nodes flags ans i, 0 <= p -> nr - p <= Z.of_nat fuel ->
  batches fuel nr p addr pl pages nodes flags ans i <> None.
Proof.
  induction fuel as [|fuel IH]; intros nr p addr pl pages nodes flags ans i Hp Hf; cbn [batches].
  - destruct (Z.ltb_spec p nr); [lia|discriminate].
  - destruct (Z.ltb_spec p nr) as [Hlt|Hge]; [|discriminate].
    set (mk := if nr - p <? BATCH then nr - p else BATCH) in *.
    assert (Hmk : 1 <= mk <= BATCH /\ mk <= nr - p).
    { unfold mk, BATCH. destruct (Z.ltb_spec (nr - p) 4096); lia. }
    clearbody mk. destruct (fill (Z.to_nat mk) 0 p addr pl pages) as (pages', p') eqn:Ef.
    apply fill_spec in Ef. destruct Ef as (-> & _). destruct (ans i <? 0); [discriminate|].
    destruct (batches fuel _ _ _ _ _ _ _ _ _) as [(cs', r')|] eqn:E; [discriminate|]. apply IH in E; auto; lia.
Qed.

Lemma numa_pages : forall wide addr len flags page_len node mem0 ans,
  (exists k, 0 <= k < word_bits wide /\ page_len = 2 ^ k) -> 0 <= len < 2 ^ word_bits wide -> flags <> 0 -> 0 <= node ->
  exists cs r m, init_numa wide addr len flags page_len node mem0 ans = Some (cs, r) /\
    concat (map c_pages cs) = pages_of addr page_len m /\ (forall c, In c cs -> good_call node flags c) /\
    ((r = 0 /\ Z.of_nat m = len / page_len /\ forall j, (j < length cs)%nat -> 0 <= ans j) \/
     (exists l, length cs = S l /\ ans l < 0 /\ r = to_int (ans l) /\ Z.of_nat m <= len / page_len /\
        forall j, (j < l)%nat -> 0 <= ans j)).
Proof.
  intros wide addr len flags pl node mem0 ans (k & Hk & ->) Hl Hf Hn. unfold init_numa.
  destruct (Z.eqb_spec flags 0); [contradiction|]. destruct (Z.ltb_spec node 0); [lia|].
  assert (Ho : rseq_get_count_order_ulong wide (2 ^ k) = k).
  { assert (H2 : 0 < 2 ^ k < 2 ^ word_bits wide) by (split; [apply Z.pow_pos_nonneg; lia|apply Z.pow_lt_mono_r; lia]).
    destruct (count_order_correct wide (2 ^ k) H2) as (H3 & H4 & H5). specialize (H5 k). apply Z.pow_le_mono_r_iff in H4; lia. }
  rewrite Ho, Z.shiftr_div_pow2 by lia. set (nr := len / 2 ^ k). assert (Hnr : 0 <= nr) by (apply Z.div_pos; [lia|apply Z.pow_pos_nonneg; lia]).
  destruct (batches (Z.to_nat nr) nr 0 addr (2 ^ k) mem0 (fun _ => node) flags ans 0) as [(cs, r)|] eqn:E.
  2:{ exfalso. revert E. apply batches_total; lia. }
  apply batches_spec in E; [|lia]. destruct E as (m & E1 & E2 & E3). exists cs, r, m. split; auto. split; [exact E1|]. split; auto.
  destruct E3 as [(-> & E3 & E4)|(l & E3 & E4 & E5 & E6 & E7)]; [left; split; auto; split; [lia|auto]|].
  right. exists l. rewrite Z.add_0_l in E6. auto.
Qed.

Lemma NoDup_map_in : forall (f : nat -> Z) l, (forall i j, In i l -> In j l -> f i = f j -> i = j) -> NoDup l -> NoDup (map f l).
Proof.
  intros f l Hf Hn. induction Hn as [|x l Hx Hn IH]; cbn; constructor.
  - intros Hi. apply in_map_iff in Hi. destruct Hi as (j & E & Hj). apply Hf in E; cbn; auto. subst j. contradiction.
  - apply IH. intros i j Hi Hj. apply Hf; cbn; auto.
Qed.

(** ** C40 *)

(** With a page length that is a power of two, a non-zero [flags] and a known
    node: the calls carry between 1 and 4096 pages, all for the node of the CPU;
    together they submit the first [m] pages of the range in order.  Without
    error, [m] is the number of whole pages and the result is 0; otherwise the
    first error ends the sequence of calls and is returned. *)
Theorem C40_numa : forall wide addr len flags page_len node mem0 ans,
  (exists k, 0 <= k < word_bits wide /\ page_len = 2 ^ k) -> 0 <= len < 2 ^ word_bits wide -> flags <> 0 -> 0 <= node ->
  exists cs r m, init_numa wide addr len flags page_len node mem0 ans = Some (cs, r) /\
    concat (map c_pages cs) = pages_of addr page_len m /\ (forall c, In c cs -> good_call node flags c) /\
    ((r = 0 /\ Z.of_nat m = len / page_len /\ forall j, (j < length cs)%nat -> 0 <= ans j) \/
     (exists l, length cs = S l /\ ans l < 0 /\ r = to_int (ans l) /\ Z.of_nat m <= len / page_len /\
        forall j, (j < l)%nat -> 0 <= ans j)).
Proof. exact numa_pages. Qed.
Print Assumptions C40_numa.

(** Nothing is submitted, and -1 returned, without flags or without a node. *)
Theorem C40_invalid : forall wide addr len flags page_len node mem0 ans, flags = 0 \/ node < 0 ->
  init_numa wide addr len flags page_len node mem0 ans = Some ([], -1).
Proof.
  intros wide addr len flags pl node mem0 ans H. unfold init_numa. destruct (Z.eqb_spec flags 0); auto.
  destruct (Z.ltb_spec node 0); auto. lia.
Qed.
Print Assumptions C40_invalid.

(** No page is submitted twice: they have distinct addresses. *)
Theorem C40_distinct : forall addr page_len m, 0 < page_len -> Z.of_nat m * page_len <= 2 ^ 64 -> NoDup (pages_of addr page_len m).
Proof.
  intros addr pl m Hp Hm. unfold pages_of. apply NoDup_map_in; [|apply seq_NoDup].
  intros i j Hi Hj E. apply in_seq in Hi. apply in_seq in Hj. unfold u64 in E.
  assert (Hd : (addr + Z.of_nat i * pl - (addr + Z.of_nat j * pl)) mod 2 ^ 64 = 0).
  { rewrite Zminus_mod, E, Z.sub_diag. reflexivity. }
  apply Z.mod_divide in Hd; [|lia]. destruct Hd as (q & Hd).
  assert (Hq : q = 0) by nia. subst q. nia.
Qed.
Print Assumptions C40_distinct.

(** 4098 pages of 4096 bytes and a rest: two calls, of 4096 and 2 pages; if the
    first fails with -1, no second call. *)
Example C40_case :
  option_map (fun p => (map c_count (fst p), snd p)) (init_numa true 65536 (4098 * 4096 + 100) 2 4096 1 (fun _ => 0) (fun _ => 0)) = Some ([4096; 2], 0) /\
  option_map (fun p => (map c_count (fst p), snd p)) (init_numa true 65536 (4098 * 4096 + 100) 2 4096 1 (fun _ => 0) (fun _ => -1)) = Some ([4096], -1).
Proof. vm_compute. auto. Qed.
