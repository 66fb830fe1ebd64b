(** C69: names of pools and of the files behind their memory. *)
From Coq Require Import ZArith Bool List Lia.
From Verif Require Import UtilsModel RseqIR PoolVM NameModel NameSpec NameProofs.
Import ListNotations.
Local Open Scope Z_scope.

(** Whatever names a program gives its pools, of any length and any bytes, and whatever it
    does to its own strings afterwards, no call reads or writes outside a block or in
    freed memory. *)
Theorem C69_names_never_fault : forall st o, nreach st -> nallowed st o -> exists st', nrun1 o st = Ok st'.
Proof. intros st o H Hok. destruct (ninv_step st o (nreach_inv st H) Hok) as (st' & E & _). eauto. Qed.

(** Every name given to memfd_create is a string of 1 to 248 bytes: the kernel, which
    takes up to 249, refuses none for its length. *)
Theorem C69_file_names_fit : forall st id s, nreach st -> In (EFile id s) (n_log st) -> (0 < length s <= 248)%nat /\ ~ In 0 s.
Proof.
  intros st id s H Hin. pose proof (ni_log _ (nreach_inv st H)) as HL. apply in_split in Hin. destruct Hin as (l1 & l2 & E).
  pose proof (HL l1 l2 _ E) as Hs. cbn beta iota in Hs. destruct (current id l2) as [o|] eqn:Ec; subst s.
  - split; [apply label_len|]. apply label_nozero. destruct o as [s|]; [|exact Logic.I]. pose proof (current_in _ _ _ Ec) as K. apply in_split in K.
    destruct K as (m1 & m2 & Em). rewrite Em in E. rewrite app_comm_cons, app_assoc in E. exact (HL _ _ _ E).
  - split; [apply label_len|]. apply label_nozero. exact Logic.I.
Qed.

(** A pool is created with the name the program's string has at that moment. *)
Theorem C69_created_with : forall st id name cow a st' s, nallowed st (NCreate id name cow a) -> nrun1 (NCreate id name cow a) st = Ok st' ->
  current id (n_log st) = None -> current id (n_log st') = Some (Some s) -> name <> 0 /\ c_string (n_heap st) name = Ok s.
Proof.
  intros st id name cow a st' s _ Hrun Hc0 Hc. cbn [nrun1] in Hrun. destruct (create_range id _ a st) as [[ok st1]| |] eqn:E; cbn [bind] in Hrun; try discriminate Hrun.
  assert (Hh : n_heap st1 = n_heap st /\ current id (n_log st1) = None).
  { unfold create_range in E. destruct (p_cow _); [|injection E as _ <-; auto]. destruct (memfd_name _ _ _); cbn [bind] in E; try discriminate E. injection E as _ <-. auto. }
  destruct Hh as [Eh Ec1]. destruct ok; cbn [negb] in Hrun; [|injection Hrun as <-; congruence].
  destruct (Z.eqb_spec name 0) as [->|Hn]; [injection Hrun as <-; cbn in Hc; rewrite Z.eqb_refl in Hc; discriminate Hc|].
  split; [exact Hn|]. rewrite Eh in Hrun. destruct (c_string (n_heap st) name) as [t| |]; cbn [bind] in Hrun; try discriminate Hrun.
  destruct (a_dup a =? 0); injection Hrun as <-; [congruence|]. cbn in Hc. rewrite Z.eqb_refl in Hc. congruence.
Qed.

(** A file made for a pool after its creation is called as the pool was when it was
    created, followed by ":rseq-mempool" and cut after 248 bytes, and so whatever has
    happened to the program's string since; without a name, "<anonymous>" is used. *)
Theorem C69_later_files_named : forall st l1 l2 id s o, nreach st -> n_log st = l1 ++ EFile id s :: l2 -> current id l2 = Some o ->
  s = firstn 248 (match o with Some n => n | None => text_anonymous end ++ text_suffix).
Proof. intros st l1 l2 id s o H E Hc. pose proof (ni_log _ (nreach_inv st H) _ _ _ E) as Hs. cbn beta iota in Hs. rewrite Hc in Hs. exact Hs. Qed.
(** In particular a name of up to 235 bytes appears in full. *)
Theorem C69_short_names_in_full : forall st l1 l2 id s n, nreach st -> n_log st = l1 ++ EFile id s :: l2 -> current id l2 = Some (Some n) ->
  (length n <= 235)%nat -> s = n ++ text_suffix.
Proof. intros st l1 l2 id s n H E Hc Hl. rewrite (C69_later_files_named st l1 l2 id s (Some n) H E Hc). exact (label_short n Hl). Qed.
(** And a pool with initial values that grows does make such a file. *)
Theorem C69_growing_makes_file : forall st id a st' P o, nreach st -> nallowed st (NRange id a) -> nrun1 (NRange id a) st = Ok st' ->
  find_npool id (n_pools st) = Some P -> p_cow P = true -> current id (n_log st) = Some o -> n_log st' = EFile id (label o) :: n_log st.
Proof.
  intros st id a st' P o H [_ Hj] Hrun Hf Hcow Hc. pose proof (nreach_inv st H) as HI. destruct (ni_pool _ HI _ _ (find_in _ _ _ Hf)) as (o' & Hc' & Hn).
  rewrite Hc in Hc'. injection Hc' as <-. cbn [nrun1] in Hrun. rewrite Hf in Hrun.
  destruct (range_spec st id P a o HI Hn Hj (or_introl Hc)) as (st1 & E1 & _ & _ & _ & _ & _ & El). rewrite E1 in Hrun. cbn [bind snd] in Hrun. injection Hrun as <-.
  rewrite El, Hcow. reflexivity.
Qed.

(** A message about a pool shows the name it was created with, or "<anonymous>". *)
Theorem C69_messages_show_name : forall st l1 l2 id s, nreach st -> n_log st = l1 ++ EReport id s :: l2 ->
  exists o, current id l2 = Some o /\ s = match o with Some n => n | None => text_anonymous end.
Proof. intros st l1 l2 id s H E. exact (ni_log _ (nreach_inv st H) _ _ _ E). Qed.

(** The first file of a pool, made while the pool is being created, never has its name: it
    is always "<anonymous>:rseq-mempool". *)
Theorem C69_first_file_anonymous : forall st l1 l2 id s, nreach st -> n_log st = l1 ++ EFile id s :: l2 -> current id l2 = None -> s = text_anonymous ++ text_suffix.
Proof. intros st l1 l2 id s H E Hc. pose proof (ni_log _ (nreach_inv st H) _ _ _ E) as Hs. cbn beta iota in Hs. rewrite Hc in Hs. exact Hs. Qed.

(** A history: the program has the string "ab", creates the pool 7 with it, overwrites and
    frees it, and the pool grows and is reported on. *)
Definition ex_ans : nanswers := {| a_junk := repeat 9 249; a_range := true; a_dup := 200 |}.
Definition ex_ops : list nop := [NAlloc 100 [97; 98; 0]; NCreate 7 100 true ex_ans; NStore 100 0 120; NFree 100; NRange 7 ex_ans; NReport 7].
Fixpoint nrun (ops : list nop) (st : nstate) : res nstate := match ops with [] => Ok st | o :: ops => do st <- nrun1 o st; nrun ops st end.
Definition ex_at (n : nat) : nstate := match nrun (firstn n ex_ops) nstart with Ok st => st | _ => nstart end.
Lemma ex_reach : nreach (ex_at 1) /\ nallowed (ex_at 1) (NCreate 7 100 true ex_ans) /\ nreach (ex_at 2) /\ nreach (ex_at 6).
Proof.
  assert (H1 : nreach (ex_at 1)). { refine (nreach_step nstart (NAlloc 100 [97; 98; 0]) _ nreach_start _ eq_refl). split; [discriminate|reflexivity]. }
  assert (A1 : nallowed (ex_at 1) (NCreate 7 100 true ex_ans)).
  { cbn [nallowed]. split; [reflexivity|]. split; [reflexivity|]. split; [right; split; [discriminate|reflexivity]|]. right. split; [now left|].
    exists [97; 98; 0]. split; [reflexivity|]. cbn. auto. }
  assert (H2 : nreach (ex_at 2)). { refine (nreach_step (ex_at 1) _ _ H1 A1 _). vm_compute. reflexivity. }
  assert (H3 : nreach (ex_at 3)).
  { refine (nreach_step (ex_at 2) (NStore 100 0 120) _ H2 _ _); [|vm_compute; reflexivity]. split; [now left|]. exists [97; 98; 0]. split; [reflexivity|]. cbn. lia. }
  assert (H4 : nreach (ex_at 4)). { refine (nreach_step (ex_at 3) (NFree 100) _ H3 _ _); [now left|vm_compute; reflexivity]. }
  assert (H5 : nreach (ex_at 5)). { refine (nreach_step (ex_at 4) (NRange 7 ex_ans) _ H4 _ _); [|vm_compute; reflexivity]. split; [discriminate|reflexivity]. }
  assert (H6 : nreach (ex_at 6)). { refine (nreach_step (ex_at 5) (NReport 7) _ H5 _ _); [discriminate|vm_compute; reflexivity]. }
  exact (conj H1 (conj A1 (conj H2 H6))).
Qed.
Example ex_C69 : nreach (ex_at 6) /\
  n_log (ex_at 6) = [EReport 7 [97; 98]; EFile 7 ([97; 98] ++ text_suffix); ECreate 7 (Some [97; 98]); EFile 7 (text_anonymous ++ text_suffix)].
Proof. split; [apply ex_reach|vm_compute; reflexivity]. Qed.

(** That every file made for a pool carries the name given for the pool is false: the one
    made by the call that creates it does not. *)
Theorem C69_all_files_named_refuted : exists st id name a st' n f, nreach st /\ nallowed st (NCreate id name true a) /\
  nrun1 (NCreate id name true a) st = Ok st' /\ nreach st' /\ c_string (n_heap st) name = Ok n /\
  n_log st' = ECreate id (Some n) :: EFile id f :: n_log st /\ f <> firstn 248 (n ++ text_suffix).
Proof.
  destruct ex_reach as (H1 & A1 & H2 & _). exists (ex_at 1), 7, 100, ex_ans, (ex_at 2), [97; 98], (text_anonymous ++ text_suffix).
  split; [exact H1|]. split; [exact A1|]. split; [vm_compute; reflexivity|]. split; [exact H2|]. split; [reflexivity|].
  split; [vm_compute; reflexivity|]. vm_compute. discriminate.
Qed.

Print Assumptions C69_names_never_fault.
Print Assumptions C69_file_names_fit.
Print Assumptions C69_created_with.
Print Assumptions C69_later_files_named.
Print Assumptions C69_short_names_in_full.
Print Assumptions C69_growing_makes_file.
Print Assumptions C69_messages_show_name.
Print Assumptions C69_first_file_anonymous.
Print Assumptions C69_all_files_named_refuted.
