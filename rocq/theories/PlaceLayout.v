(** Proofs for C62: structures placed in pool items are laid out as C61 asks. *)
From Coq Require Import ZArith Bool List Lia.
From Verif Require Import RseqIR RseqSpec RseqKernel MemLemmas LinSpec ClientModel ClientSpec ComposeModel ComposeSpec.
From Verif Require Import UtilsModel PoolVM PoolVMLemmas PoolModel PoolInv PoolOps PoolWorld PoolHist PoolProps PlaceModel PlaceSpec.
Import ListNotations.
Local Open Scope Z_scope.

(** The CPU whose word a byte is in. *)
Definition word_of (g : cfg) (cpus : list Z) (f : Z -> Z) (a : Z) : option Z :=
  find (fun cpu => existsb (Z.eqb a) (span (f cpu) (wsize g))) cpus.
Lemma word_of_in : forall g cpus f a cpu, word_of g cpus f a = Some cpu -> In cpu cpus /\ In a (span (f cpu) (wsize g)).
Proof.
  intros g cpus f a cpu H. apply find_some in H. destruct H as [H1 H2]. split; auto.
  apply existsb_exists in H2. destruct H2 as (x & Hx & E). apply Z.eqb_eq in E. subst. auto.
Qed.
Lemma word_of_some : forall g cpus f a cpu, words_apart g cpus f -> In cpu cpus -> In a (span (f cpu) (wsize g)) -> word_of g cpus f a = Some cpu.
Proof.
  intros g cpus f a cpu Hw Hc Ha. destruct (word_of g cpus f a) as [c|] eqn:E.
  - apply word_of_in in E. destruct E as [E1 E2]. destruct (Z.eq_dec c cpu) as [->|Hn]; auto.
    exfalso. exact (Hw c cpu E1 Hc Hn a E2 Ha).
  - unfold word_of in E. pose proof (find_none _ _ E _ Hc) as K. cbn in K.
    assert (existsb (Z.eqb a) (span (f cpu) (wsize g)) = true); [|congruence].
    apply existsb_exists. exists a. split; auto. apply Z.eqb_refl.
Qed.

Section Layout.
Variables (e : env) (v0 : vm) (g : cfg) (w : world) (L F busy : ledger) (pcs : nat -> piece) (at_ : nat -> nat -> spot).
Hypothesis HH : history e true v0 w L F.
Hypothesis Hbusy : incl busy L.
Hypothesis HP : placement e v0 g w busy pcs at_.

Lemma word_bytes : forall cpus f sp cpu a, word_at g w busy cpus f sp -> In cpu cpus -> In a (span (f cpu) (wsize g)) ->
  exists P k, In (sp_pool sp, P) (w_pools w) /\ In (sp_pool sp, sp_item sp) busy /\ 0 <= cpu < max_nr_cpus (pattr P) /\
    sp_ofs sp <= k < sp_ofs sp + Z.of_nat (wsize g) /\ 0 <= k < item_len P /\ a = percpu_ptr P (sp_item sp) cpu + k.
Proof.
  intros cpus f sp cpu a (P & H1 & H2 & H3 & H4 & H5) Hc Ha. destruct (H5 _ Hc) as [H6 H7]. apply in_span in Ha.
  exists P, (a - percpu_ptr P (sp_item sp) cpu). split; auto. split; auto. split; auto. lia.
Qed.

Lemma two_words : forall cpus f sp cpus' f' sp' cpu cpu' a, word_at g w busy cpus f sp -> word_at g w busy cpus' f' sp' ->
  In cpu cpus -> In cpu' cpus' -> In a (span (f cpu) (wsize g)) -> In a (span (f' cpu') (wsize g)) ->
  cpu = cpu' /\ ~ spots_apart g sp sp'.
Proof.
  intros cpus f sp cpus' f' sp' cpu cpu' a H H' Hc Hc' Ha Ha'.
  destruct (word_bytes _ _ _ _ _ H Hc Ha) as (P & k & A1 & A2 & A3 & A4 & A5 & A6).
  destruct (word_bytes _ _ _ _ _ H' Hc' Ha') as (P' & k' & B1 & B2 & B3 & B4 & B5 & B6).
  destruct (p_injective e true v0 w L F HH _ _ _ cpu k _ _ _ cpu' k' A1 B1 (Hbusy _ A2) (Hbusy _ B2) A3 A5 B3 B5) as (C1 & C2 & C3 & C4); [congruence|].
  split; auto. unfold spots_apart. intros [?|[?|?]]; [congruence|congruence|lia].
Qed.

Lemma word_self : forall cpus f sp, word_at g w busy cpus f sp -> words_apart g cpus f.
Proof.
  intros cpus f sp H c d Hc Hd Hn a Ha Hb. apply Hn. eapply two_words; eauto.
Qed.
Lemma word_good : forall cpus f sp cpu a, word_at g w busy cpus f sp -> In cpu cpus -> In a (span (f cpu) (wsize g)) ->
  good_write e v0 w busy a /\ mapped v0 (PoolVM.page e a) = false.
Proof.
  intros cpus f sp cpu a H Hc Ha.
  destruct (word_bytes _ _ _ _ _ H Hc Ha) as (P & k & A1 & A2 & A3 & A4 & A5 & A6).
  assert (Hb : item_byte P (sp_item sp) a) by (exists cpu, k; auto). split.
  - right. exists (sp_pool sp), P, (sp_item sp). auto.
  - eapply (p_bookkeeping e true v0 w L F HH); eauto.
Qed.

(** Bytes of a structure: a word, or its own part. *)
Lemma piece_parts : forall p a, piece_bytes g p a <->
  (exists n f cpu, nth_error (kind_words (p_kind p)) n = Some f /\ In cpu (p_cpus p) /\ In a (span (f cpu) (wsize g))) \/ own_bytes g p a.
Proof.
  intros [md cpus k] a. unfold piece_bytes, own_bytes. cbn [p_kind p_cpus].
  assert (One : forall f, (exists n f0 cpu, nth_error [f] n = Some f0 /\ In cpu cpus /\ In a (span (f0 cpu) (wsize g))) <->
    exists cpu, In cpu cpus /\ In a (span (f cpu) (wsize g))).
  { intros f. split.
    - intros (n & f0 & cpu & E & H). destruct n as [|[|n]]; cbn in E; try discriminate. injection E as <-. eauto.
    - intros (cpu & H). exists O, f, cpu. auto. }
  destruct k; cbn [kind_words]; try rewrite One; try tauto.
  - split; [contradiction|]. intros [(n & f & cpu & E & _)|[]]. destruct n; discriminate.
  - split.
    + intros [(cpu & H)|(cpu & H)]; left; [exists O, cnt, cpu|exists 1%nat, lk, cpu]; auto.
    + intros [(n & f & cpu & E & H)|[]]. destruct n as [|[|[|n]]]; cbn in E; try discriminate; injection E as <-; eauto.
Qed.

Lemma placed_good : forall i a, piece_bytes g (pcs i) a -> good_write e v0 w busy a.
Proof.
  intros i a H. apply piece_parts in H. destruct H as [(n & f & cpu & E & Hc & Ha)|H].
  - exact (proj1 (word_good _ _ _ _ _ (pl_word _ _ _ _ _ _ _ HP _ _ _ E) Hc Ha)).
  - left. eapply pl_own; eauto.
Qed.

Lemma placed_separate : separate g pcs.
Proof.
  intros i j a Hn Hi Hj. apply piece_parts in Hi, Hj.
  destruct Hi as [(n & f & cpu & E & Hc & Ha)|Hi], Hj as [(n' & f' & cpu' & E' & Hc' & Ha')|Hj].
  - destruct (two_words _ _ _ _ _ _ _ _ _ (pl_word _ _ _ _ _ _ _ HP _ _ _ E) (pl_word _ _ _ _ _ _ _ HP _ _ _ E') Hc Hc' Ha Ha') as [_ K].
    apply K. eapply pl_apart; eauto; [congruence| |]; apply nth_error_Some; congruence.
  - destruct (word_good _ _ _ _ _ (pl_word _ _ _ _ _ _ _ HP _ _ _ E) Hc Ha) as [_ K]. rewrite (pl_own _ _ _ _ _ _ _ HP _ _ Hj) in K. discriminate.
  - destruct (word_good _ _ _ _ _ (pl_word _ _ _ _ _ _ _ HP _ _ _ E') Hc' Ha') as [_ K]. rewrite (pl_own _ _ _ _ _ _ _ HP _ _ Hi) in K. discriminate.
  - eapply pl_own_apart; eauto.
Qed.

Lemma placed_ok : forall i, piece_ok g (pcs i).
Proof.
  intros i. pose proof (pl_cpus _ _ _ _ _ _ _ HP i) as Hnd. pose proof (pl_word _ _ _ _ _ _ _ HP i) as Hw.
  pose proof (pl_ok _ _ _ _ _ _ _ HP i) as Hok. pose proof (pl_own _ _ _ _ _ _ _ HP i) as Hown.
  pose proof (pl_apart _ _ _ _ _ _ _ HP i) as Hap. specialize (fun n m => Hap n i m).
  unfold piece_ok, own_ok, own_bytes in *. destruct (pcs i) as [md cpus k]. cbn [p_kind p_cpus] in *.
  assert (Hno : forall f sp cpu a, word_at g w busy cpus f sp -> In cpu cpus -> In a (span (f cpu) (wsize g)) -> mapped v0 (PoolVM.page e a) = true -> False).
  { intros f sp cpu a H Hc Ha Hm. destruct (word_good _ _ _ _ _ H Hc Ha) as [_ K]. congruence. }
  assert (Hlay : forall A f sp (hd : Z -> A) (lay : Z -> A), word_at g w busy cpus f sp -> exists lay',
    (forall cpu a, In cpu cpus -> In a (span (f cpu) (wsize g)) -> lay' a = hd cpu) /\
    forall a, mapped v0 (PoolVM.page e a) = true -> lay' a = lay a).
  { intros A f sp hd lay H. exists (fun a => match word_of g cpus f a with Some cpu => hd cpu | None => lay a end). split.
    - intros cpu a Hc Ha. rewrite (word_of_some g cpus f a cpu (word_self _ _ _ H) Hc Ha). auto.
    - intros a Hm. destruct (word_of g cpus f a) as [cpu|] eqn:E; auto. exfalso. apply word_of_in in E. destruct E. eapply Hno; eauto. }
  destruct k; cbn [kind_words] in *; auto.
  - split; auto. eapply word_self. apply (Hw O). reflexivity.
  - split; auto. eapply word_self. apply (Hw O). reflexivity.
  - split; auto. split; auto. pose proof (Hw O _ eq_refl) as W1. pose proof (Hw 1%nat _ eq_refl) as W2.
    split; [eapply word_self; eauto|]. split; [eapply word_self; eauto|].
    intros c d Hc Hd a Ha Hb. destruct (two_words _ _ _ _ _ _ _ _ _ W1 W2 Hc Hd Ha Hb) as [_ K]. apply K. apply Hap; [congruence| |]; cbn; lia.
  - destruct Hok as ((lay & _ & Ln & Lx & Ls & Lr) & Lw). split; auto.
    destruct (Hlay _ hd _ Head lay (Hw O _ eq_refl)) as (lay' & L1 & L2).
    exists lay'. split; [exact L1|]. split; [|split; [exact Lx|split; [|exact Lr]]].
    + intros n a Hn Ha. rewrite L2; [eauto|]. apply Hown. left. eauto.
    + intros t d a Hl Ha. rewrite L2; [eauto|]. apply Hown. right. eauto.
  - destruct Hok as ((lay & La) & Lr). destruct (Hlay _ ofs _ Offset lay (Hw O _ eq_refl)) as (lay' & L1 & L2).
    exists lay'. split; [exact L1|]. split; [|exact Lr]. intros cpu a Hc Ha. rewrite L2; [eauto|]. apply Hown. eauto.
  - destruct Hok as ((lay & La & Lm) & Lr). destruct (Hlay _ ofs _ Offset lay (Hw O _ eq_refl)) as (lay' & L1 & L2).
    split; [|exact Lr]. exists lay'. split; [exact L1|]. split.
    + intros cpu a Hc Ha. rewrite L2; [eauto|]. apply Hown. left. eauto.
    + intros t d a Hl Ha. rewrite L2; [eauto|]. apply Hown. right. exists t, d. auto.
Qed.
End Layout.
