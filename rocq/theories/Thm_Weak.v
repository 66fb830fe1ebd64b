(** C18: store ordering of the RELEASE and relaxed variants, for every architecture,
    program, number of CPUs and threads, and every order in which stores reach the
    CPUs that the architecture allows. *)
From Coq Require Import ZArith Bool List Lia.
From Verif Require Import RseqIR RseqSpec RseqKernel RseqSafe Archs ArchsGood ExRseq WeakModel WeakSpec WeakProofs ExWeak.
Import ListNotations.
Local Open Scope Z_scope.

Section Proofs.
Variables (a : arch) (g : cfg) (tw : bool) (tx : text).
Hypothesis Htx : lib_text a tw tx.

Lemma rel_strong : forall c P kd, release_call a tw tx c -> tx (c_code c) = Some (P, kd) -> strong_order a P.
Proof.
  intros c P kd (P' & kd' & md & H1 & H2) H. rewrite H in H1. injection H1 as <- <-.
  destruct (tso a) eqn:E; [left; exact E|right]. exact (proj2 (helper_base _ _ _ _ _ _ H2) eq_refl E).
Qed.

Lemma all_published : forall cpus xs s k c i n ps j, wrun a g tx (wstart cpus) xs = Some s ->
  nth_error (w_calls s) k = Some c -> (exists P kd, tx (c_code c) = Some (P, kd) /\ strong_order a P) ->
  final_store s k i n ps -> observes s j i n ->
  forall i' n' ps', store_of s k i' n' ps' -> i' = i /\ (n' <= n)%nat /\ observes s j i n'.
Proof.
  intros cpus xs s k c i n ps j H Hk (P & kd & Hx & Hst) (rel & Hn) Hv i' n' ps' (fin' & rel' & Hn').
  exact (publishes a tx s k c P kd i n rel ps j (run_inv a g tw tx Htx _ _ _ (start_inv a tx cpus) H) Hk Hx Hst Hn Hv i' n' fin' rel' ps' Hn').
Qed.

Lemma release_published : forall cpus xs s k c i n ps j, wrun a g tx (wstart cpus) xs = Some s ->
  nth_error (w_calls s) k = Some c -> release_call a tw tx c -> final_store s k i n ps -> observes s j i n ->
  forall i' n' ps', store_of s k i' n' ps' -> i' = i /\ (n' <= n)%nat /\ observes s j i n'.
Proof.
  intros cpus xs s k c i n ps j H Hk Hr. apply (all_published cpus xs s k c i n ps j H Hk).
  pose proof Hr as (P & kd & md & H1 & _). exists P, kd. split; [exact H1|]. exact (rel_strong c P kd Hr H1).
Qed.

Lemma tso_published : tso a = true -> forall cpus xs s k c i n ps j, wrun a g tx (wstart cpus) xs = Some s ->
  nth_error (w_calls s) k = Some c -> tx (c_code c) <> None -> final_store s k i n ps -> observes s j i n ->
  forall i' n' ps', store_of s k i' n' ps' -> i' = i /\ (n' <= n)%nat /\ observes s j i n'.
Proof.
  intros E cpus xs s k c i n ps j H Hk Hr. apply (all_published cpus xs s k c i n ps j H Hk).
  destruct (tx (c_code c)) as [[P kd]|]; [|congruence]. exists P, kd. split; [reflexivity|left; exact E].
Qed.

Lemma contents : forall cpus xs s k c i n ps m idx, wrun a g tx (wstart cpus) xs = Some s ->
  nth_error (w_calls s) k = Some c -> (exists P, tx (c_code c) = Some (P, kind_of (c_op c))) ->
  loads_from a g tx cpus xs k m idx -> (idx = c_cpu c mod 2 ^ 32 -> op_wf g (c_op c) m) -> final_store s k i n ps ->
  exists att, pseudo g (c_op c) m = OCommit att ps /\
    forall b v, In (b, v) att -> exists i' n' ps', store_of s k i' n' ps' /\ In (b, v) ps'.
Proof.
  intros cpus xs s k c i n ps m idx H Hk (P & Hx) Hl Hwf (rel & Hn).
  destruct (c_fin _ _ _ _ _ _ (run_cinv a g tw tx Htx k m idx cpus xs s H Hl) c P _ i n rel ps Hk Hx eq_refl Hwf Hn) as (att & A1 & A2).
  exists att. split; [exact A1|]. intros b v Hb. destruct (A2 _ Hb) as (i' & n' & fin' & rel' & ps' & B1 & B2).
  exists i', n', ps'. split; [exists fin', rel'; exact B1|exact B2].
Qed.

Lemma release_contents : forall cpus xs s k c i n ps j m idx, wrun a g tx (wstart cpus) xs = Some s ->
  nth_error (w_calls s) k = Some c -> release_call a tw tx c -> (exists P, tx (c_code c) = Some (P, kind_of (c_op c))) ->
  loads_from a g tx cpus xs k m idx -> (idx = c_cpu c mod 2 ^ 32 -> op_wf g (c_op c) m) ->
  final_store s k i n ps -> observes s j i n ->
  exists att, pseudo g (c_op c) m = OCommit att ps /\
    forall b v, In (b, v) att -> exists n' ps', store_of s k i n' ps' /\ In (b, v) ps' /\ observes s j i n'.
Proof.
  intros cpus xs s k c i n ps j m idx H Hk Hr HP Hl Hwf Hf Hv.
  destruct (contents cpus xs s k c i n ps m idx H Hk HP Hl Hwf Hf) as (att & A1 & A2). exists att. split; [exact A1|].
  intros b v Hb. destruct (A2 b v Hb) as (i' & n' & ps' & B1 & B2).
  destruct (release_published cpus xs s k c i n ps j H Hk Hr Hf Hv i' n' ps' B1) as (-> & _ & B3). exists n', ps'. auto.
Qed.

Lemma release_reads : forall cpus xs1 xs2 s1 s2 k c i n ps j, wrun a g tx (wstart cpus) xs1 = Some s1 -> wrun a g tx s1 xs2 = Some s2 ->
  nth_error (w_calls s1) k = Some c -> release_call a tw tx c \/ tso a = true /\ tx (c_code c) <> None ->
  final_store s1 k i n ps -> observes s1 j i n ->
  forall n' ps' b m0, store_of s1 k i n' ps' -> In b (map fst ps') ->
  (forall i2 n2 ps2, any_store s2 i2 n2 ps2 -> In b (map fst ps2) -> i2 = i) ->
  exists n2 ps2, (n' <= n2)%nat /\ any_store s2 i n2 ps2 /\ In (b, copy_of m0 s2 j b) ps2.
Proof.
  intros cpus xs1 xs2 s1 s2 k c i n ps j H1 H2 Hk Hr Hf Hv n' ps' b m0 Hs Hb Honly.
  assert (Hv' : observes s1 j i n').
  { destruct Hr as [Hr|[E Hr]]; [exact (proj2 (proj2 (release_published cpus xs1 s1 k c i n ps j H1 Hk Hr Hf Hv i n' ps' Hs)))|
      exact (proj2 (proj2 (tso_published E cpus xs1 s1 k c i n ps j H1 Hk Hr Hf Hv i n' ps' Hs)))]. }
  destruct (run_grows a g tx xs2 s1 s2 H2) as (G1 & G2 & _). destruct Hs as (fin' & rel' & Hs).
  pose proof (run_inv a g tw tx Htx _ _ _ (start_inv a tx cpus) H1) as I1.
  pose proof (run_vinv a g tw tx Htx _ _ _ (start_inv a tx cpus) (start_vinv a cpus) H1) as V1.
  destruct (reads a tx s2 m0 j i n' (Some k) fin' rel' ps' b (run_inv a g tw tx Htx _ _ _ I1 H2) (run_vinv a g tw tx Htx _ _ _ I1 V1 H2) (G1 _ _ _ Hs) Hb (G2 _ _ Hv'))
    as (n2 & own2 & fin2 & rel2 & ps2 & R1 & R2 & R3).
  - intros i2 n2 own2 fin2 rel2 ps2 K1 K2. apply (Honly i2 n2 ps2); [exists own2, fin2, rel2; exact K1|exact K2].
  - exists n2, ps2. split; [exact R1|]. split; [exists own2, fin2, rel2; exact R2|exact R3].
Qed.
End Proofs.

Lemma tso_archs : forall a, In a [X86_64; I386; S390] <-> tso a = true.
Proof. intros a. destruct a; cbn; intuition congruence. Qed.
Lemma weak_archs : forall a, In a [AARCH64; ARM; LOONGARCH; MIPS; PPC; RISCV] -> tso a = false.
Proof. intros a. destruct a; cbn; intuition congruence. Qed.

Lemma arch_reads : forall a g tw tx, lib_text a tw tx ->
  forall cpus xs1 xs2 s1 s2 k c i n ps j, wrun a g tx (wstart cpus) xs1 = Some s1 -> wrun a g tx s1 xs2 = Some s2 ->
  nth_error (w_calls s1) k = Some c -> release_call a tw tx c \/ In a [X86_64; I386; S390] /\ tx (c_code c) <> None ->
  final_store s1 k i n ps -> observes s1 j i n ->
  forall n' ps' b m0, store_of s1 k i n' ps' -> In b (map fst ps') ->
  (forall i2 n2 ps2, any_store s2 i2 n2 ps2 -> In b (map fst ps2) -> i2 = i) ->
  exists n2 ps2, (n' <= n2)%nat /\ any_store s2 i n2 ps2 /\ In (b, copy_of m0 s2 j b) ps2.
Proof.
  intros a g tw tx H cpus xs1 xs2 s1 s2 k c i n ps j H1 H2 H3 H4. apply (release_reads a g tw tx H cpus xs1 xs2 s1 s2 k c i n ps j H1 H2 H3).
  destruct H4 as [H4|[H4 H5]]; [left; exact H4|right; split; [now apply tso_archs|exact H5]].
Qed.
Lemma arch_published : forall a g tw tx, lib_text a tw tx -> In a [X86_64; I386; S390] ->
  forall cpus xs s k c i n ps j, wrun a g tx (wstart cpus) xs = Some s ->
  nth_error (w_calls s) k = Some c -> tx (c_code c) <> None -> final_store s k i n ps -> observes s j i n ->
  forall i' n' ps', store_of s k i' n' ps' -> i' = i /\ (n' <= n)%nat /\ observes s j i n'.
Proof. intros a g tw tx H Ha. apply (tso_published a g tw tx H). now apply tso_archs. Qed.

(** ** C18 *)
(** A CPU that observes the final store of a call to a RELEASE variant observes all
    stores of that call, on every architecture. *)
Theorem C18_release : forall a g tw tx, lib_text a tw tx ->
  forall cpus xs s k c i n ps j, wrun a g tx (wstart cpus) xs = Some s ->
  nth_error (w_calls s) k = Some c -> release_call a tw tx c -> final_store s k i n ps -> observes s j i n ->
  forall i' n' ps', store_of s k i' n' ps' -> i' = i /\ (n' <= n)%nat /\ observes s j i n'.
Proof. exact release_published. Qed.
Print Assumptions C18_release.

(** In terms of the pseudo-code: the final store is the documented one, and the bytes
    of the documented attempt stores are among those observed. *)
Theorem C18_release_contents : forall a g tw tx, lib_text a tw tx ->
  forall cpus xs s k c i n ps j m idx, wrun a g tx (wstart cpus) xs = Some s ->
  nth_error (w_calls s) k = Some c -> release_call a tw tx c -> (exists P, tx (c_code c) = Some (P, kind_of (c_op c))) ->
  loads_from a g tx cpus xs k m idx -> (idx = c_cpu c mod 2 ^ 32 -> op_wf g (c_op c) m) ->
  final_store s k i n ps -> observes s j i n ->
  exists att, pseudo g (c_op c) m = OCommit att ps /\
    forall b v, In (b, v) att -> exists n' ps', store_of s k i n' ps' /\ In (b, v) ps' /\ observes s j i n'.
Proof. exact release_contents. Qed.
Print Assumptions C18_release_contents.

(** In terms of loads: from then on, that CPU reads each byte the call stored as the
    call stored it, or as a later store of the same CPU did, if only that CPU writes
    the byte. *)
Theorem C18_release_reads : forall a g tw tx, lib_text a tw tx ->
  forall cpus xs1 xs2 s1 s2 k c i n ps j, wrun a g tx (wstart cpus) xs1 = Some s1 -> wrun a g tx s1 xs2 = Some s2 ->
  nth_error (w_calls s1) k = Some c -> release_call a tw tx c \/ In a [X86_64; I386; S390] /\ tx (c_code c) <> None ->
  final_store s1 k i n ps -> observes s1 j i n ->
  forall n' ps' b m0, store_of s1 k i n' ps' -> In b (map fst ps') ->
  (forall i2 n2 ps2, any_store s2 i2 n2 ps2 -> In b (map fst ps2) -> i2 = i) ->
  exists n2 ps2, (n' <= n2)%nat /\ any_store s2 i n2 ps2 /\ In (b, copy_of m0 s2 j b) ps2.
Proof. exact arch_reads. Qed.
Print Assumptions C18_release_reads.

(** Where stores stay in order, every helper does this. *)
Theorem C18_relaxed_tso : forall a g tw tx, lib_text a tw tx -> In a [X86_64; I386; S390] ->
  forall cpus xs s k c i n ps j, wrun a g tx (wstart cpus) xs = Some s ->
  nth_error (w_calls s) k = Some c -> tx (c_code c) <> None -> final_store s k i n ps -> observes s j i n ->
  forall i' n' ps', store_of s k i' n' ps' -> i' = i /\ (n' <= n)%nat /\ observes s j i n'.
Proof. exact arch_published. Qed.
Print Assumptions C18_relaxed_tso.

Lemma relaxed_bad : forall a mc, tso a = false ->
  let tx := demo_text a false in let c := wx_call mc false in
  lib_text a false tx /\ op_wf demo_cfg (c_op c) wx_m /\
  (exists P, tx (c_code c) = Some (P, kind_of (c_op c)) /\ helper a false false CPU_ID (kind_of (c_op c)) = Some P) /\
  exists xs s, wrun a demo_cfg tx (wstart (fun t => t)) xs = Some s /\ loads_from a demo_cfg tx (fun t => t) xs 0 wx_m 0 /\
    exists ps ps', final_store s 0 0 1 ps /\ observes s 1 0 1 /\ store_of s 0 0 0 ps' /\ ~ observes s 1 0 0 /\
    ldw demo_cfg (copy_of wx_m s 1) 0 = 1 /\ byte (copy_of wx_m s 1) 64 = 0.
Proof.
  intros a mc H tx c. split; [apply demo_lib|]. split; [apply wx_wf|]. split; [apply wx_prog|].
  exists (wx_acts a mc false ++ [AShow 1 0 1]). pose proof (wx_relaxed a mc H) as W. unfold wx_run in W.
  fold tx in W. destruct (wrun a demo_cfg tx (wstart (fun t => t)) (wx_acts a mc false ++ [AShow 1 0 1])) as [s|]; [|discriminate W].
  exists s. split; [reflexivity|]. split; [apply wx_loads1|]. apply andb_true_iff in W. destruct W as [W _]. unfold wx_bad in W.
  destruct (nth_error (w_log s 0) 0) as [[|[[|k']|] f' r' p']|] eqn:E0; try discriminate W.
  destruct (nth_error (w_log s 0) 1) as [[|[[|k]|] [|] r p]|] eqn:E1; try discriminate W.
  rewrite !andb_true_iff in W. destruct W as (((W1 & W2) & W3) & W4). exists p, p'.
  split; [exists r; exact E1|]. split; [apply vis_mem_ok; exact W1|]. split; [exists f', r'; exact E0|].
  split; [intros Y; apply vis_mem_ok in Y; rewrite Y in W2; discriminate W2|]. apply Z.eqb_eq in W3, W4. auto.
Qed.

Lemma arch_bad : forall a mc, In a [AARCH64; ARM; LOONGARCH; MIPS; PPC; RISCV] ->
  let tx := demo_text a false in let c := wx_call mc false in
  lib_text a false tx /\ op_wf demo_cfg (c_op c) wx_m /\
  (exists P, tx (c_code c) = Some (P, kind_of (c_op c)) /\ helper a false false CPU_ID (kind_of (c_op c)) = Some P) /\
  exists xs s, wrun a demo_cfg tx (wstart (fun t => t)) xs = Some s /\ loads_from a demo_cfg tx (fun t => t) xs 0 wx_m 0 /\
    exists ps ps', final_store s 0 0 1 ps /\ observes s 1 0 1 /\ store_of s 0 0 0 ps' /\ ~ observes s 1 0 0 /\
    ldw demo_cfg (copy_of wx_m s 1) 0 = 1 /\ byte (copy_of wx_m s 1) 64 = 0.
Proof. intros a mc H. apply relaxed_bad. now apply weak_archs. Qed.

(** Elsewhere the relaxed variants do not: on each such architecture, in a run of
    rseq_load_cbne_store_store (or memcpy_store) with RSEQ_MO_RELAXED, the other CPU
    reads the new value of the final location and the old one of the first. *)
Theorem C18_relaxed_refuted : forall a mc, In a [AARCH64; ARM; LOONGARCH; MIPS; PPC; RISCV] ->
  let tx := demo_text a false in let c := wx_call mc false in
  lib_text a false tx /\ op_wf demo_cfg (c_op c) wx_m /\
  (exists P, tx (c_code c) = Some (P, kind_of (c_op c)) /\ helper a false false CPU_ID (kind_of (c_op c)) = Some P) /\
  exists xs s, wrun a demo_cfg tx (wstart (fun t => t)) xs = Some s /\ loads_from a demo_cfg tx (fun t => t) xs 0 wx_m 0 /\
    exists ps ps', final_store s 0 0 1 ps /\ observes s 1 0 1 /\ store_of s 0 0 0 ps' /\ ~ observes s 1 0 0 /\
    ldw demo_cfg (copy_of wx_m s 1) 0 = 1 /\ byte (copy_of wx_m s 1) 64 = 0.
Proof. exact arch_bad. Qed.
Print Assumptions C18_relaxed_refuted.

(** The hypotheses are met, on every architecture: a call to a RELEASE variant whose
    final store is observed by the other CPU.  Showing it before the first store is
    not a possible step. *)
Example C18_case : forall a mc,
  let tx := demo_text a false in let c := wx_call mc true in
  lib_text a false tx /\ release_call a false tx c /\ op_wf demo_cfg (c_op c) wx_m /\
  (exists P, tx (c_code c) = Some (P, kind_of (c_op c))) /\
  wx_run a mc true [AShow 1 0 (wx_fin a true)] = None /\
  exists xs s, wrun a demo_cfg tx (wstart (fun t => t)) xs = Some s /\ loads_from a demo_cfg tx (fun t => t) xs 0 wx_m 0 /\
    exists ps ps', final_store s 0 0 (wx_fin a true) ps /\ observes s 1 0 (wx_fin a true) /\ store_of s 0 0 0 ps' /\ In (64, 7) ps' /\
    ldw demo_cfg (copy_of wx_m s 1) 0 = 1 /\ byte (copy_of wx_m s 1) 64 = 7.
Proof.
  intros a mc tx c. destruct (wx_prog a mc true) as (P & P1 & P2). split; [apply demo_lib|].
  split; [exists P, (kind_of (c_op c)), CPU_ID; auto|]. split; [apply wx_wf|]. split; [exists P; exact P1|].
  destruct (wx_release a mc) as [W0 W]. split; [exact W0|].
  exists (wx_acts a mc true ++ [AShow 1 0 0; AShow 1 0 (wx_fin a true)]). unfold wx_run in W.
  fold tx in W. destruct (wrun a demo_cfg tx (wstart (fun t => t)) (wx_acts a mc true ++ [AShow 1 0 0; AShow 1 0 (wx_fin a true)])) as [s|]; [|discriminate W].
  exists s. split; [reflexivity|]. split; [apply wx_loads|]. unfold wx_good in W.
  destruct (nth_error (w_log s 0) 0) as [[|[[|k']|] f' r' p']|] eqn:E0; try discriminate W.
  destruct (nth_error (w_log s 0) (wx_fin a true)) as [[|[[|k]|] [|] r p]|] eqn:E1; try discriminate W.
  rewrite !andb_true_iff in W. destruct W as ((((W0' & W1) & W2) & W3) & W4). exists p, p'.
  split; [exists r; exact E1|]. split; [apply vis_mem_ok; exact W1|]. split; [exists f', r'; exact E0|].
  apply existsb_exists in W0'. destruct W0' as ([x y] & X1 & X2). cbn in X2. apply andb_true_iff in X2. destruct X2 as [X2 X3].
  apply Z.eqb_eq in X2, X3, W3, W4. subst. auto.
Qed.
