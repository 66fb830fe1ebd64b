(** C66: pools in the child after fork(). *)
From Coq Require Import ZArith Bool List Lia.
From Verif Require Import UtilsModel RseqIR PoolVM PoolModel PoolVMLemmas PoolWorld PoolHist PoolProps ExPool ForkSpec ForkProofs ForkTame.
Import ListNotations.
Local Open Scope Z_scope.

(** ** An example
    A pool with zeroed memory and one with initial values, with two items and one item. *)
Definition osf : list op :=
  [ OCreate 8 false 16 (Some (attrs false COW_ZERO 1)) (grant 1048576);
    OMalloc 8 (grant 0); OFill 8 1056768 (Bytes [9]); OMalloc 8 (grant 0); OFill 8 1056784 (Bytes [8; 7]);
    OCreate 7 true 12 (Some (attrs false COW_INIT 0)) (grant 2097152);
    OMalloc 7 (grant 0); OFill 7 2105344 Any; OWrite [(2105344 + 8192 + 5, 77)] ].
(** What the child does: it writes to an item, frees one, allocates it again, and uses a
    pool of its own with initial values. *)
Definition osc : list op :=
  [ OWrite [(1056768 + 8192, 5)]; OFree 1056784 8192; OMalloc 8 (grant 0); OFill 8 1056784 (Bytes [3]);
    OCreate 5 false 16 (Some (attrs true COW_INIT 0)) (grant 4194304); OMalloc 5 (grant 0); OFill 5 4202496 (Bytes [1]) ].
Definition forked : state :=
  (child e0 (after true osf), inherited (after true osf) (live true osf), inherited (after true osf) (freed true osf)).
Definition grown : state := match play true osc forked with Some st => st | None => start end.
Definition child_plays : bool := match play true osc forked with Some _ => true | None => false end.
(** The item 7 is gone, the items of 8 are there; in the end it has an item of 5 as well; a
    byte of the first item is 5 for the child, and the parent's is the one it was. *)
Definition test_fork : bool :=
  gives true osf [(7, 2105344); (8, 1056784); (8, 1056768)] [] 7 false COW_INIT 16 && child_plays &&
  same_ledger (snd (fst forked)) [(8, 1056784); (8, 1056768)] &&
  same_ledger (snd (fst grown)) [(5, 4202496); (8, 1056784); (8, 1056768)] &&
  (byte (view e0 (w_vm (fst (fst grown)))) (1056768 + 8192) =? 5) &&
  (byte (view e0 (w_vm (after true osf))) (1056768 + 8192) =? 9).
Lemma test_fork_ok : test_fork = true.
Proof. vm_compute. reflexivity. Qed.
Lemma v0_ordinary : ordinary v0.
Proof. intros q. cbn. auto. Qed.
Lemma play_on : forall s keep os w0 L0 F0 w L F w' L' F', goes_on e0 s v0 keep w0 L0 F0 w L F ->
  play s os (w, L, F) = Some (w', L', F') -> goes_on e0 s v0 keep w0 L0 F0 w' L' F'.
Proof.
  intros s keep os. induction os as [|o os IH]; intros w0 L0 F0 w L F w' L' F' Hr Hp; cbn [play] in Hp.
  - injection Hp as <- <- <-. exact Hr.
  - destruct (allowedb s w L o) eqn:Ea; [|discriminate].
    destruct (run1 e0 o w) as [[w1 x]| |] eqn:E; try discriminate. eapply IH; [|exact Hp].
    eapply on_step; eauto. now apply allowedb_ok.
Qed.
Definition ex_fork : Prop :=
  ordinary v0 /\ history e0 true v0 (after true osf) (live true osf) (freed true osf) /\ plain_fork e0 v0 (after true osf) /\
  (exists P, lookup 7 (w_pools (after true osf)) = Some P /\ populate_policy (pattr P) = COW_INIT /\ robust_set (pattr P) = false) /\
  (exists P, lookup 8 (w_pools (after true osf)) = Some P /\ populate_policy (pattr P) = COW_ZERO) /\
  inherited (after true osf) (live true osf) = [(8, 1056784); (8, 1056768)] /\
  exists w1 F1, (forall keep, goes_on e0 true v0 keep (child e0 (after true osf)) (inherited (after true osf) (live true osf))
      (inherited (after true osf) (freed true osf)) w1 [(5, 4202496); (8, 1056784); (8, 1056768)] F1) /\
    byte (view e0 (w_vm w1)) (1056768 + 8192) = 5 /\ byte (view e0 (w_vm (after true osf))) (1056768 + 8192) = 9.
Lemma has8 : match lookup 8 (w_pools (after true osf)) with Some P => populate_policy (pattr P) =? COW_ZERO | None => false end = true.
Proof. vm_compute. reflexivity. Qed.
Lemma split_test : gives true osf [(7, 2105344); (8, 1056784); (8, 1056768)] [] 7 false COW_INIT 16 = true /\ child_plays = true /\
  same_ledger (snd (fst forked)) [(8, 1056784); (8, 1056768)] = true /\
  same_ledger (snd (fst grown)) [(5, 4202496); (8, 1056784); (8, 1056768)] = true /\
  (byte (view e0 (w_vm (fst (fst grown)))) (1056768 + 8192) =? 5) = true /\
  (byte (view e0 (w_vm (after true osf))) (1056768 + 8192) =? 9) = true.
Proof.
  pose proof test_fork_ok as H. unfold test_fork in H.
  apply andb_prop in H. destruct H as [H H6]. apply andb_prop in H. destruct H as [H H5]. apply andb_prop in H. destruct H as [H H4].
  apply andb_prop in H. destruct H as [H H3]. apply andb_prop in H. destruct H as [H1 H2].
  exact (conj H1 (conj H2 (conj H3 (conj H4 (conj H5 H6))))).
Qed.
Lemma grown_on : child_plays = true -> forall keep, goes_on e0 true v0 keep (fst (fst forked)) (snd (fst forked)) (snd forked) (fst (fst grown)) (snd (fst grown)) (snd grown).
Proof.
  intros H keep. unfold child_plays in H. unfold grown. destruct (play true osc forked) as [[[w1 L1] F1]|] eqn:E; [|discriminate H].
  cbn [fst snd]. apply (play_on true keep osc _ _ _ (fst (fst forked)) (snd (fst forked)) (snd forked)); [apply on_start|].
  destruct forked as [[w L] F]. exact E.
Qed.
Example ex_C66 : ex_fork.
Proof.
  destruct split_test as (H1 & H2 & H3 & H4 & H5 & H6). pose proof (gives_ok _ _ _ _ _ _ _ _ H1) as (Hh & _ & _ & G4 & G5 & G6 & _).
  split; [exact v0_ordinary|]. split; [exact Hh|]. split; [exact (hist_forks e0 _ _ _ _ _ v0_ordinary Hh)|].
  split; [exists (pool_of true osf 7); exact (conj G4 (conj G6 G5))|]. split.
  { pose proof has8 as K. destruct (lookup 8 (w_pools (after true osf))) as [P|]; [|discriminate K]. exists P. split; [reflexivity|]. now apply Z.eqb_eq. }
  apply same_ledger_ok in H3, H4. apply Z.eqb_eq in H5, H6. split; [exact H3|].
  pose proof (grown_on H2) as Hg. exists (fst (fst grown)), (snd grown). split; [|exact (conj H5 H6)].
  intros keep. specialize (Hg keep). rewrite H4 in Hg. exact Hg.
Qed.

(** ** The theorems *)
(** A program that does not use madvise() itself can fork at any time, and its child is
    again a program of which all the theorems about pools hold ([history] is their
    hypothesis): it goes on with the pools without initial values and the items in them. *)
Theorem C66_child_goes_on : forall e s v0 w L F, history e s v0 w L F -> ordinary v0 ->
  plain_fork e v0 w /\
  forall keep w1 L1 F1, goes_on e s v0 keep (child e w) (inherited w L) (inherited w F) w1 L1 F1 -> history e s v0 w1 L1 F1.
Proof.
  intros e s v0 w L F HH H0. pose proof (hist_forks e s v0 w L F H0 HH) as Hp. split; [exact Hp|].
  intros keep w1 L1 F1 H. eapply on_history; [exact (fork_history e s v0 w L F HH Hp)|exact H].
Qed.
Print Assumptions C66_child_goes_on.

(** The items the child has are the live items of the pools without initial values. *)
Theorem C66_child_items : forall w L id a, In (id, a) (inherited w L) <->
  In (id, a) L /\ exists P, lookup id (w_pools w) = Some P /\ populate_policy (pattr P) <> COW_INIT.
Proof. exact p_items. Qed.
Print Assumptions C66_child_items.

(** In such a pool the child finds every byte as the parent had it. *)
Theorem C66_child_sees_the_same : forall e s v0 w L F, history e s v0 w L F ->
  forall id P a, lookup id (w_pools w) = Some P -> populate_policy (pattr P) <> COW_INIT -> in_pool e P a ->
  lookup id (w_pools (child e w)) = Some P /\
  mapped (w_vm (child e w)) (page e a) = true /\ view e (w_vm (child e w)) a = view e (w_vm w) a.
Proof. exact p_same. Qed.
Print Assumptions C66_child_sees_the_same.

(** So it does in the program's own memory. *)
Theorem C66_own_memory_is_the_same : forall e s v0 w L F, history e s v0 w L F -> ordinary v0 ->
  forall a, mapped v0 (page e a) = true ->
  mapped (w_vm (child e w)) (page e a) = true /\ view e (w_vm (child e w)) a = view e (w_vm w) a.
Proof.
  intros e s v0 w L F HH H0 a Ha. exact (p_same_own e s v0 w L F HH a (hist_forks e s v0 w L F H0 HH) Ha).
Qed.
Print Assumptions C66_own_memory_is_the_same.

(** A pool with initial values can be destroyed at any later time in the child, also in
    the child of a child, as long as nobody else unmaps the headers, all that is left of
    it.  Nothing else changes. *)
Theorem C66_inherited_pool_destroyed : forall e s v0 w L F, history e s v0 w L F -> ordinary v0 ->
  forall id P, lookup id (w_pools w) = Some P -> populate_policy (pattr P) = COW_INIT ->
  forall (keep : Z -> Prop) an w1 L1 F1, (forall a, in_headers e P a -> keep a) ->
  goes_on e s v0 keep (child e w) (inherited w L) (inherited w F) w1 L1 F1 ->
  let here := {| w_vm := w_vm w1; w_pools := (id, P) :: w_pools w1 |} in
  run1 e (ODestroy id an) here <> Undef /\
  ((robust_set (pattr P) = false \/ forall a, ~ In (id, a) L) -> (forall a, an_munmap an a = true) ->
   exists w', run1 e (ODestroy id an) here = Ok (w', OutRet 0) /\
     (forall a, in_headers e P a -> mapped (w_vm w1) (page e a) = true /\ mapped (w_vm w') (page e a) = false) /\
     (forall a, ~ in_headers e P a ->
        mapped (w_vm w') (page e a) = mapped (w_vm w1) (page e a) /\ view e (w_vm w') a = view e (w_vm w1) a)).
Proof.
  intros e s v0 w L F HH H0 id P Hl Hpol keep an w1 L1 F1 Hk H.
  exact (p_later e s v0 w L F HH id P Hl Hpol keep an w1 L1 F1 Hk (hist_forks e s v0 w L F H0 HH) H).
Qed.
Print Assumptions C66_inherited_pool_destroyed.

(** Afterwards the child goes on as before, whatever munmap answered, and can destroy the
    other pools it inherited: their headers may be among [keep]. *)
Theorem C66_goes_on_after_destroy : forall e s v0 w L F, history e s v0 w L F -> ordinary v0 ->
  forall id P, lookup id (w_pools w) = Some P -> populate_policy (pattr P) = COW_INIT ->
  forall (keep : Z -> Prop) an w1 L1 F1 w' x, (forall a, keep a -> ~ in_headers e P a) ->
  goes_on e s v0 (fun a => in_headers e P a \/ keep a) (child e w) (inherited w L) (inherited w F) w1 L1 F1 ->
  run1 e (ODestroy id an) {| w_vm := w_vm w1; w_pools := (id, P) :: w_pools w1 |} = Ok (w', x) ->
  goes_on e s v0 keep (child e w) (inherited w L) (inherited w F) {| w_vm := w_vm w'; w_pools := w_pools w1 |} L1 F1.
Proof.
  intros e s v0 w L F HH H0 id P Hl Hpol keep an w1 L1 F1 w' x Hk H Hrun.
  exact (p_after e s v0 w L F HH id P Hl Hpol keep an w1 L1 F1 w' x Hk (hist_forks e s v0 w L F H0 HH) H Hrun).
Qed.
Print Assumptions C66_goes_on_after_destroy.
(** In the example the child destroys the pool 7, which it inherited, in the end. *)
Example ex_C66_after : exists w1 F1 w' P,
  lookup 7 (w_pools (after true osf)) = Some P /\
  goes_on e0 true v0 (fun a => in_headers e0 P a \/ False) (child e0 (after true osf)) (inherited (after true osf) (live true osf))
    (inherited (after true osf) (freed true osf)) w1 [(5, 4202496); (8, 1056784); (8, 1056768)] F1 /\
  run1 e0 (ODestroy 7 (grant 0)) {| w_vm := w_vm w1; w_pools := (7, P) :: w_pools w1 |} = Ok (w', OutRet 0) /\
  goes_on e0 true v0 (fun _ => False) (child e0 (after true osf)) (inherited (after true osf) (live true osf))
    (inherited (after true osf) (freed true osf)) {| w_vm := w_vm w'; w_pools := w_pools w1 |} [(5, 4202496); (8, 1056784); (8, 1056768)] F1.
Proof.
  destruct ex_C66 as (H0 & Hh & _ & (P & Hl & Hpol & Hrob) & _ & _ & w1 & F1 & Hg & _). specialize (Hg (fun a => in_headers e0 P a \/ False)).
  destruct (C66_inherited_pool_destroyed e0 true v0 _ _ _ Hh H0 7 P Hl Hpol _ (grant 0) w1 _ F1 (fun a Ha => or_introl Ha) Hg) as [_ K].
  destruct (K (or_introl Hrob) (fun a => eq_refl)) as (w' & Hrun & _). clear K. exists w1, F1, w', P.
  exact (conj Hl (conj Hg (conj Hrun (C66_goes_on_after_destroy e0 true v0 _ _ _ Hh H0 7 P Hl Hpol (fun _ => False) (grant 0) w1 _ F1 w' _ (fun a f _ => f) Hg Hrun)))).
Qed.
(** And something that the rest of the process can do meanwhile: it maps the page 300 and
    fills it with 7. *)
Lemma free300 : mapped (w_vm (after true osf)) 300 = false.
Proof. vm_compute. reflexivity. Qed.
Example ex_rest : exists v', rest_acts e0 v0 (after true osf) v' /\ mapped v' 300 = true /\ view e0 v' (300 * 4096) = 7.
Proof.
  destruct ex_C66 as (_ & Hh & _). pose proof free300 as Hm. eexists. split.
  - apply (rest_maps e0 true v0 _ _ _ Hh 300 7 Hm). intros p El. pose proof (hist_inv e0 _ _ _ _ _ Hh) as HW.
    destruct (wf_mapped _ _ (wi_wf _ _ _ _ _ _ HW) _ _ El) as [_ K]. rewrite Hm in K. discriminate K.
  - split; reflexivity.
Qed.
(** The headers of two pools are apart. *)
Lemma C66_headers_apart : forall e s v0 w L F, history e s v0 w L F ->
  forall id P id' P' a, lookup id (w_pools w) = Some P -> lookup id' (w_pools w) = Some P' -> in_headers e P a -> in_headers e P' a -> id = id'.
Proof.
  intros e s v0 w L F HH id P id' P' a Hl Hl' Ha Ha'. pose proof (hist_inv e _ _ _ _ _ HH) as HW.
  apply (wi_apart _ _ _ _ _ _ HW id P id' P' a); try (now apply lookup_in).
  - exact (headers_in e s v0 w L F HH id P Hl a Ha).
  - exact (headers_in e s v0 w L F HH id' P' Hl' a Ha').
Qed.

(** Its items cannot be freed in the child: the calls would touch memory that is not there. *)
Theorem C66_items_with_initial_values_usable_refuted : exists e v0 w L F id P a,
  history e true v0 w L F /\ ordinary v0 /\ lookup id (w_pools w) = Some P /\ populate_policy (pattr P) = COW_INIT /\ In (id, a) L /\
  run1 e (OFree a (stride (pattr P))) {| w_vm := fork e (w_vm w); w_pools := w_pools w |} = Undef.
Proof.
  destruct split_test as (H1 & _). pose proof (gives_ok _ _ _ _ _ _ _ _ H1) as (Hh & EL & _ & G4 & _ & G6 & _ & G8 & _).
  exists e0, v0, (after true osf), (live true osf), (freed true osf), 7, (pool_of true osf 7), 2105344.
  split; [exact Hh|]. split; [exact v0_ordinary|]. split; [exact G4|]. split; [exact G6|]. split; [rewrite EL; left; reflexivity|].
  rewrite G8.
  assert (T : match run1 e0 (OFree 2105344 8192) {| w_vm := fork e0 (w_vm (after true osf)); w_pools := w_pools (after true osf) |} with Undef => true | _ => false end = true)
    by (vm_compute; reflexivity).
  destruct (run1 e0 (OFree 2105344 8192) _); [discriminate T|discriminate T|reflexivity].
Qed.
Print Assumptions C66_items_with_initial_values_usable_refuted.
