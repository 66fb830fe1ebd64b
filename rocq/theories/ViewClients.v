(** The data structures of the tests on weakly ordered memory: proofs for C53. *)
From Coq Require Import ZArith Bool List Lia.
From Verif Require Import RseqIR RseqSpec RseqKernel RseqSafe MemLemmas RunLemmas RseqSim RseqOwn RseqCalls Archs ArchsGood.
From Verif Require Import LinSpec LinProofs ClientModel ClientSpec CntProofs ListClientProofs BufProofs RecProofs.
From Verif Require Import ViewModel ViewSpec OwnedProofs ViewProofs.
Import ListNotations.
Local Open Scope Z_scope.

(** A client that can do more has more runs. *)
Definition client_le {Loc} (c1 c2 : client Loc) : Prop :=
  (forall l m c, cl_call _ c1 l m c -> cl_call _ c2 l m c) /\
  (forall l c r, cl_ret _ c1 l c r = cl_ret _ c2 l c r) /\
  (forall l m ps l', cl_write _ c1 l m ps l' -> cl_write _ c2 l m ps l') /\
  (forall l m l', cl_tau _ c1 l m l' -> cl_tau _ c2 l m l') /\
  (forall l l', cl_sig _ c1 l l' -> cl_sig _ c2 l l') /\
  (forall l, cl_done _ c1 l -> cl_done _ c2 l).

Lemma step_le : forall Loc g tx (c1 c2 : client Loc) s l s', client_le c1 c2 ->
  step g tx c1 s l s' -> step g tx c2 s l s'.
Proof.
  intros Loc g tx c1 c2 s l s' (H1 & H2 & H3 & H4 & H5 & H6) Hs.
  destruct Hs; try (rewrite H2); econstructor; eauto.
Qed.

Lemma wpath_le : forall Loc g tx (c1 c2 : client Loc), client_le c1 c2 -> forall W wtr W',
  wpath g tx c1 W wtr W' -> wpath g tx c2 W wtr W'.
Proof.
  intros Loc g tx c1 c2 Hle W wtr W' H. induction H as [|W wtr W' l W'' H IH Hs Hok]; [constructor|].
  econstructor; eauto. destruct Hs. econstructor; eauto. eapply step_le; eauto.
Qed.

Lemma weak_sc : forall (Loc : Type) g a tw tx (cl : client Loc) s0,
  lib_text a tw tx -> initial s0 -> owned_client g cl (abs_init s0) ->
  forall wtr W, wpath g tx cl (wstart s0) wtr W ->
  exists tr m, path g tx cl s0 tr (set_m (w_core W) m) /\ same_steps wtr tr /\ forall x, newest (w_hist W x) (m x).
Proof.
  intros Loc g a tw tx cl s0 Htx Hi Ho wtr W Hp.
  destruct (weak_is_sc Loc g a tw tx cl s0 Htx Hi Ho wtr W Hp) as (tr & s & P1 & P2 & P3 & P4 & P5).
  exists tr, (s_mem s). split; [|auto]. replace (set_m (w_core W) (s_mem s)) with s; auto.
  unfold set_m. rewrite <- P3, <- P4. destruct s; reflexivity.
Qed.

Lemma same_labels : forall Loc (wtr tr : list (state Loc * clabel)), same_steps wtr tr -> map snd tr = map snd wtr.
Proof. intros Loc wtr tr H. induction H as [|p q wtr tr [E _] H IH]; cbn; congruence. Qed.

(** ** Counter *)
Lemma inc_owned : forall g md cpus cnt s0, NoDup cpus -> words_apart g cpus cnt ->
  owned_client g (inc_client md cpus cnt) (abs_init s0).
Proof.
  intros g md cpus cnt s0 Hnd Hap. set (T0 := total g cpus cnt (s_mem s0)). set (cl := inc_client md cpus cnt).
  pose proof (inc_code g md cpus cnt) as Hcl.
  apply (inv_owned inc_loc g cl unit (c_glob inc_loc g cpus cnt 1 T0) (c_ctx inc_loc md cpus cnt 1) (c_absent) (c_own g md cpus cnt)) with (gh0 := tt).
  - apply own_fixed; [reflexivity|]. apply (c_inv inc_loc g md cpus cnt 1 cl Hnd Hap Hcl T0).
  - apply (c_wf inc_loc g md cpus cnt 1 Hap T0).
  - intros gh es m t d l ps l' _ _ [].
  - intros gh es m t d l m' _ _ _. split; [|split]; auto.
  - apply (c_init inc_loc g md cpus cnt 1 T0); [apply abs_init_idle|reflexivity].
Qed.

Theorem counter_weak : forall g a tw tx md cpus cnt s0,
  lib_text a tw tx -> initial s0 -> NoDup cpus -> words_apart g cpus cnt ->
  forall wtr W, wpath g tx (inc_client md cpus cnt) (wstart s0) wtr W ->
  exists m n, (forall x, newest (w_hist W x) (m x)) /\
    wrap g (total g cpus cnt m) = wrap g (total g cpus cnt (s_mem s0) + n) /\
    count is_ret0 (map snd wtr) <= n /\
    n <= count is_ret0 (map snd wtr) + (count is_call (map snd wtr) - count is_ret (map snd wtr)) /\
    (quiescent (w_core W) -> n = count is_ret0 (map snd wtr)).
Proof.
  intros g a tw tx md cpus cnt s0 Htx Hi Hnd Hap wtr W Hp.
  destruct (weak_sc _ g a tw tx _ s0 Htx Hi (inc_owned g md cpus cnt s0 Hnd Hap) wtr W Hp) as (tr & m & P1 & P2 & P3).
  destruct (counter_sum _ g a tw tx md cpus cnt 1 _ s0 Htx Hi Hnd Hap (inc_code g md cpus cnt) tr _ P1) as (n & N1 & N2).
  exists m, n. split; auto. rewrite (same_labels _ _ _ P2) in N2. rewrite Z.mul_1_r in N1. split; auto.
Qed.

(** ** List *)
Lemma any_range : forall g m p v, any_load g m p v -> 0 <= v < wmod g.
Proof. intros g m p v H. exact H. Qed.

Lemma list_owned : forall g md cpus nodes hd off nodesz slot live s0, initial s0 ->
  list_layout g cpus nodes hd off nodesz slot live -> list_start g cpus nodes hd off slot s0 ->
  owned_client g (list_client_of g md cpus hd off nodesz slot live (any_load g)) (abs_init s0).
Proof.
  intros g md cpus nodes hd off nodesz slot live s0 Hi (lay & Lh & Ln & Lx & Ls & Lr) Hst.
  destruct (list_inv0 g md cpus nodes hd off slot live s0 Hi Hst) as (L0 & gh0 & _ & H0).
  eapply (inv_owned list_loc g _ lgh (p_glob g cpus nodes hd off L0) (p_ctx g md cpus hd off slot live) p_absent (p_own md lay)); [| | | |exact H0].
  - apply (p_inv_own g md cpus nodes hd off nodesz slot live (any_load g) (any_range g) lay Lh Ln Lx Ls Lr L0).
  - apply (p_wf g md cpus nodes hd off nodesz slot live lay Lh Ln Lx Ls L0).
  - intros gh es m t d l ps l' HG HC Hw x Hx.
    destruct (p_write_own g md cpus nodes hd off nodesz slot live (any_load g) lay Ln Lx L0 _ _ _ _ _ _ _ _ HG HC Hw x Hx) as (n & E & _ & J).
    unfold p_own. now rewrite E, J.
  - intros gh es m t d l m' HG HC Hm. split; [|split]; auto.
    intros l' [H|[H|(E & ->)]]; [left; exact H|right; left; exact H|]. right. right. split; auto.
    destruct HC as (H1 & H2 & H3). cbn [a_loc a_act] in *. rewrite E in H3. destruct H3 as [Hv _].
    rewrite H1, H2. f_equal. f_equal. apply ldw_agree. intros x Hx. apply Hm. unfold p_own. now rewrite (Ls t d x Hv Hx).
Qed.

Lemma list_any : forall g md cpus hd off nodesz slot live,
  client_le (list_client g md cpus hd off nodesz slot live) (list_client_of g md cpus hd off nodesz slot live (any_load g)).
Proof.
  intros. split; [auto|]. split; [auto|]. split; [auto|]. split; [|auto].
  intros l m l' [(cpu & n & h1 & h2 & e & E & Hc & Eh & He & ->)|H]; [|right; exact H].
  left. exists cpu, n, h1, h2, e. repeat split; auto; rewrite He; apply ldw_range.
Qed.

Theorem list_weak : forall g a tw tx md cpus nodes hd off nodesz slot live s0,
  lib_text a tw tx -> initial s0 -> list_layout g cpus nodes hd off nodesz slot live ->
  list_start g cpus nodes hd off slot s0 ->
  forall wtr W, wpath g tx (list_client g md cpus hd off nodesz slot live) (wstart s0) wtr W ->
  exists m tr, (forall x, newest (w_hist W x) (m x)) /\ same_steps wtr tr /\
    (exists whr, nodes_conserved g cpus nodes hd off slot (set_m (w_core W) m) whr) /\
    exists L0 evs L,
      (forall cpu, In cpu cpus -> chain g off (s_mem s0) (ldw g (s_mem s0) (hd cpu)) (L0 cpu)) /\
      linearization g (popped_node g) tr (set_m (w_core W) m) evs /\ list_run g hd L0 evs = Some L /\
      (forall cpu, In cpu cpus -> chain g off m (ldw g m (hd cpu)) (L cpu)).
Proof.
  intros g a tw tx md cpus nodes hd off nodesz slot live s0 Htx Hi Hl Hst wtr W Hp.
  apply (wpath_le _ _ _ _ _ (list_any g md cpus hd off nodesz slot live)) in Hp.
  destruct (weak_sc _ g a tw tx _ s0 Htx Hi (list_owned g md cpus nodes hd off nodesz slot live s0 Hi Hl Hst) wtr W Hp) as (tr & m & P1 & P2 & P3).
  exists m, tr. split; auto. split; auto.
  exact (list_conserved g a tw tx md cpus nodes hd off nodesz slot live (any_load g) s0 Htx Hi Hl Hst (any_range g) tr _ P1).
Qed.

(** ** Buffer of pointers *)
Lemma buf_owned : forall g md cpus ofs arr buflen S0 s0,
  buf_layout g cpus ofs arr buflen -> (forall t, map x_loc (t_ctx (s_thr s0 t)) = [B_idle]) ->
  buffers_hold g cpus ofs arr (s_mem s0) S0 -> (forall cpu, In cpu cpus -> (length (S0 cpu) <= buflen cpu)%nat) ->
  owned_client g (buf_client_of g md cpus (any_load g) ofs arr buflen) (abs_init s0).
Proof.
  intros g md cpus ofs arr buflen S0 s0 (lay & Lo & La & Lr) Hst Hb Hlen.
  eapply (inv_owned buf_loc g _ (stacks Z) (b_glob g cpus ofs arr buflen S0) (b_ctx g md cpus ofs arr buflen) b_absent (b_own md lay));
    [| | | |exact (buf_inv0 g md cpus ofs arr buflen S0 s0 Hst Hb Hlen)].
  - apply own_fixed; [reflexivity|]. apply (b_inv g md cpus (any_load g) ofs arr buflen lay Lo La Lr S0).
  - apply (b_wf g md cpus ofs arr buflen lay Lo La S0).
  - intros gh es m t d l ps l' _ _ [].
  - intros gh es m t d l m' _ _ _. split; [|split]; auto.
Qed.

Lemma buf_any : forall g md cpus ofs arr buflen,
  client_le (buf_client g md cpus ofs arr buflen) (buf_client_of g md cpus (any_load g) ofs arr buflen).
Proof.
  intros. split; [auto|]. split; [auto|]. split; [auto|]. split; [|auto].
  intros l m l' H. cbn in *. destruct l as [|v|v cpu o| |cpu o|cpu o v|b|o]; auto.
  - destruct H as (cpu & o & H1 & -> & H2). exists cpu, (ldw g m (ofs cpu)). split; auto. split; auto. apply ldw_range.
  - destruct H as (cpu & o & H1 & -> & H2). exists cpu, (ldw g m (ofs cpu)). split; auto. split; auto. apply ldw_range.
  - destruct H as (v & -> & H2). exists (ldw g m (arr_slot g arr cpu (o - 1))). split; auto. apply ldw_range.
Qed.

Theorem buf_weak : forall g a tw tx md cpus ofs arr buflen S0 s0,
  lib_text a tw tx -> initial s0 -> buf_layout g cpus ofs arr buflen ->
  (forall t, map x_loc (t_ctx (s_thr s0 t)) = [B_idle]) ->
  buffers_hold g cpus ofs arr (s_mem s0) S0 -> (forall cpu, In cpu cpus -> (length (S0 cpu) <= buflen cpu)%nat) ->
  forall wtr W, wpath g tx (buf_client g md cpus ofs arr buflen) (wstart s0) wtr W ->
  exists m tr evs S, (forall x, newest (w_hist W x) (m x)) /\ same_steps wtr tr /\
    linearization g any_res tr (set_m (w_core W) m) evs /\ buf_run buflen S0 evs = Some S /\
    buffers_hold g cpus ofs arr m S /\ (forall cpu, In cpu cpus -> (length (S cpu) <= buflen cpu)%nat).
Proof.
  intros g a tw tx md cpus ofs arr buflen S0 s0 Htx Hi Hl Hst Hb Hlen wtr W Hp.
  apply (wpath_le _ _ _ _ _ (buf_any g md cpus ofs arr buflen)) in Hp.
  destruct (weak_sc _ g a tw tx _ s0 Htx Hi (buf_owned g md cpus ofs arr buflen S0 s0 Hl Hst Hb Hlen) wtr W Hp) as (tr & m & P1 & P2 & P3).
  destruct (buffers_are_stacks g a tw tx md cpus (any_load g) ofs arr buflen S0 s0 Htx Hi Hl Hst Hb Hlen tr _ P1) as (evs & S & H).
  exists m, tr, evs, S. auto.
Qed.

(** ** Buffer of records *)
Lemma rec_owned : forall g md cpus ofs arr buflen reclen arg out live S0 s0,
  rec_layout g cpus ofs arr buflen reclen arg out live ->
  (forall t, map x_loc (t_ctx (s_thr s0 t)) = [{| rl_tid := t; rl_depth := 0; rl_pc := M_idle |}]) ->
  rec_buffers_hold g cpus ofs arr reclen (s_mem s0) S0 -> (forall cpu, In cpu cpus -> (length (S0 cpu) <= buflen cpu)%nat) ->
  owned_client g (rec_client_of md cpus live (any_load g) ofs arr buflen reclen arg out) (abs_init s0).
Proof.
  intros g md cpus ofs arr buflen reclen arg out live S0 s0 ((lay & Lo & La & Lm) & Lr & Lb & Ld & Lx) Hst Hb Hlen.
  eapply (inv_owned rec_loc g _ (stacks (list Z)) (r_glob g cpus ofs arr buflen reclen S0)
    (r_ctx md cpus ofs arr buflen reclen arg out live) r_absent (r_own md lay));
    [| | | |exact (rec_inv0 g md cpus ofs arr buflen reclen arg out live S0 s0 Hst Hb Hlen)].
  - apply own_fixed; [reflexivity|]. apply (r_inv g md cpus ofs arr buflen reclen arg out live (any_load g) lay Lo La Lm Lr Ld Lx S0).
  - apply (r_wf g md cpus ofs arr buflen reclen arg out live (any_load g) lay Lo La Lm Lr Lb S0).
  - intros gh es m t d l ps l' HG (H1 & H2 & H) (item & E & -> & ->) x Hx.
    cbn [a_loc a_act] in *. rewrite E in H. destruct H as (Hv & Hl & _).
    rewrite put_keys, Hl, H1, H2 in Hx. unfold r_own. now rewrite (Lm t d x Hv (or_introl Hx)).
  - intros gh es m t d l m' _ _ _. split; [|split]; auto.
Qed.

Lemma rec_any : forall g md cpus ofs arr buflen reclen arg out live,
  client_le (rec_client g md cpus live ofs arr buflen reclen arg out) (rec_client_of md cpus live (any_load g) ofs arr buflen reclen arg out).
Proof.
  intros. split; [auto|]. split; [auto|]. split; [auto|]. split; [|auto].
  intros l m l' H. cbn in *. destruct (rl_pc l); auto.
  - destruct H as (cpu & o & H1 & -> & H2). exists cpu, (ldw g m (ofs cpu)). split; auto. split; auto. apply ldw_range.
  - destruct H as (cpu & o & H1 & -> & H2). exists cpu, (ldw g m (ofs cpu)). split; auto. split; auto. apply ldw_range.
Qed.

Theorem rec_weak : forall g a tw tx md cpus ofs arr buflen reclen arg out live S0 s0,
  lib_text a tw tx -> initial s0 -> rec_layout g cpus ofs arr buflen reclen arg out live ->
  (forall t, map x_loc (t_ctx (s_thr s0 t)) = [{| rl_tid := t; rl_depth := 0; rl_pc := M_idle |}]) ->
  rec_buffers_hold g cpus ofs arr reclen (s_mem s0) S0 -> (forall cpu, In cpu cpus -> (length (S0 cpu) <= buflen cpu)%nat) ->
  forall wtr W, wpath g tx (rec_client g md cpus live ofs arr buflen reclen arg out) (wstart s0) wtr W ->
  exists m tr evs S, (forall x, newest (w_hist W x) (m x)) /\ same_steps wtr tr /\
    linearization g popped_record tr (set_m (w_core W) m) evs /\ rec_run buflen S0 evs = Some S /\
    rec_buffers_hold g cpus ofs arr reclen m S /\ (forall cpu, In cpu cpus -> (length (S cpu) <= buflen cpu)%nat).
Proof.
  intros g a tw tx md cpus ofs arr buflen reclen arg out live S0 s0 Htx Hi Hl Hst Hb Hlen wtr W Hp.
  apply (wpath_le _ _ _ _ _ (rec_any g md cpus ofs arr buflen reclen arg out live)) in Hp.
  destruct (weak_sc _ g a tw tx _ s0 Htx Hi (rec_owned g md cpus ofs arr buflen reclen arg out live S0 s0 Hl Hst Hb Hlen) wtr W Hp) as (tr & m & P1 & P2 & P3).
  destruct (records_are_whole g a tw tx md cpus ofs arr buflen reclen arg out live (any_load g) S0 s0 Htx Hi Hl Hst Hb Hlen tr _ P1) as (evs & S & H).
  exists m, tr, evs, S. auto.
Qed.
