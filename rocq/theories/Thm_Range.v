(** C70: the ranges of a pool, linked through their own memory. *)
From Coq Require Import ZArith Bool List Lia.
From Verif Require Import UtilsModel RseqIR PoolVM ListModel ListSpec ListProofs RangeModel RangeSpec RangeProofs.
Import ListNotations.
Local Open Scope Z_scope.

(** Whatever happens to any number of pools, and whichever calls of munmap fail, no call
    touches memory that is not mapped, and every loop ends. *)
Theorem C70_no_unmapped_access : forall st o, rreach st -> rallowed st o -> exists st', rrun1 o st = Ok st'.
Proof. intros st o H Hok. destruct (rinv_step st o (rreach_inv st H) Hok) as (st' & E & _). eauto. Qed.

(** Every walk over the ranges of a pool visits those mapped for it and not unmapped
    since, each once, the newest first. *)
Theorem C70_walks_visit_all : forall st l1 l2 head l, rreach st -> r_log st = l1 ++ RWalk head l :: l2 -> l = ranges_of head l2.
Proof. intros st l1 l2 head l H E. exact (ri_log _ (rreach_inv st H) l1 l2 _ E). Qed.
(** The range looked at for room is the newest one, if there is any. *)
Theorem C70_first_is_newest : forall st l1 l2 head r, rreach st -> r_log st = l1 ++ RFirst head r :: l2 -> r = hd_error (ranges_of head l2).
Proof. intros st l1 l2 head r H E. exact (ri_log _ (rreach_inv st H) l1 l2 _ E). Qed.
(** The ranges of a pool are distinct, accessible, and of no other pool. *)
Theorem C70_ranges_distinct : forall st head, rreach st -> In head (r_pools st) ->
  NoDup (ranges_of head (r_log st)) /\ (forall r, In r (ranges_of head (r_log st)) -> r_live st r = true) /\
  (forall q r, In q (r_pools st) -> In r (ranges_of head (r_log st)) -> In r (ranges_of q (r_log st)) -> q = head).
Proof.
  intros st head H Hin. pose proof (rreach_inv st H) as HI. destruct (ri_list _ HI head Hin) as [[Hn _] Hl]. split; [inversion Hn; auto|].
  split; [intros r Hr; apply Hl; now right|]. intros q r Hq Ha Hb. exact (ri_apart _ HI q head r Hq Hin (or_intror Hb) (or_intror Ha)).
Qed.

(** Destroying a pool unmaps its ranges, newest first, up to the first failure of munmap.
    Without failure the pool is gone; after one it is still there, with the other ranges,
    and destroying it can be tried again. *)
Theorem C70_destroy : forall st head ans st', rreach st -> In head (r_pools st) -> rrun1 (ODestroy head ans) st = Ok st' ->
  let xs := ranges_of head (r_log st) in
  let u := unmapped ans xs in
  let log := map (RUnmap head) (rev u) ++ r_log st in
  (u = xs -> r_log st' = RGone head :: log /\ ~ In head (r_pools st')) /\
  (u <> xs -> r_log st' = log /\ In head (r_pools st')) /\
  ranges_of head (r_log st') = skipn (length u) xs.
Proof.
  intros st head ans st' H Hin Hrun xs u log. destruct (rreach_inv st H) as [I1 I2 I3 I4 I5]. destruct (I2 head Hin) as [Hl Hlive].
  cbn [rrun1] in Hrun. unfold ldn at 1 in Hrun. rewrite (Hlive head (or_introl eq_refl)) in Hrun. cbn [bind] in Hrun. rewrite (is_list_first _ _ _ Hl) in Hrun.
  unfold ldn at 1 in Hrun. rewrite (first_live _ _ _ Hlive) in Hrun. cbn [bind] in Hrun.
  destruct (c_destroy_ok (ranges_of head (r_log st)) (fuel_of st) ans (r_live st) (r_mem st) head (r_log st) Hl Hlive) as
    (h' & live' & log' & E & El & Er & _); [unfold fuel_of; pose proof (ranges_len head (r_log st)); lia|reflexivity|exact I5|].
  rewrite E in Hrun. cbn [bind] in Hrun. clear E. fold xs in El, Er, Hrun. fold u in El, Er, Hrun. fold log in El.
  assert (Hu : length u = length xs -> u = xs).
  { subst u. clearbody xs. clear. revert ans. induction xs as [|x xs IH]; intros ans Hlen; [reflexivity|]. cbn [unmapped] in *. destruct (hd true ans); [|discriminate Hlen].
    cbn in Hlen. injection Hlen as Hlen. f_equal. exact (IH _ Hlen). }
  destruct (length u =? length xs)%nat eqn:Ed; injection Hrun as <-; cbn [r_log r_pools ranges_of].
  - apply Nat.eqb_eq in Ed. split; [|split; [|exact Er]].
    + intros _. rewrite El. split; [reflexivity|]. intros K. apply filter_In in K. rewrite Z.eqb_refl in K. destruct K as [_ K]. discriminate K.
    + intros K. destruct (K (Hu Ed)).
  - apply Nat.eqb_neq in Ed. split; [|split; [|exact Er]].
    + intros K. destruct Ed. now rewrite K.
    + intros _. auto.
Qed.
(** Only ranges a pool has are unmapped for it (so none twice), and a pool that is gone has
    no range left. *)
Theorem C70_unmapped_once : forall st l1 l2 head r, rreach st -> r_log st = l1 ++ RUnmap head r :: l2 -> In r (ranges_of head l2).
Proof. intros st l1 l2 head r H E. exact (ri_log _ (rreach_inv st H) l1 l2 _ E). Qed.
Theorem C70_gone_leaves_no_range : forall st l1 l2 head, rreach st -> r_log st = l1 ++ RGone head :: l2 -> ranges_of head l2 = [].
Proof. intros st l1 l2 head H E. exact (ri_log _ (rreach_inv st H) l1 l2 _ E). Qed.

(** Two pools, one with three ranges; destroying it fails at the second range; its memory
    is used for something else; a walk; destroying it again. *)
Definition ex_zero : lheap := {| next := fun _ => 0; prev := fun _ => 0 |}.
Definition ex_rops : list rop := [OOpen 100; OGrow 100 1; OOpen 200; OGrow 200 7; OGrow 100 2; OGrow 100 3; ODestroy 100 [true; false]; OWalk 100; OFirst 100; OGrow 200 3; OWalk 200; ODestroy 100 []; OWalk 200].
Definition rallowedb (st : rstate) (o : rop) : bool :=
  match o with
  | OOpen head => negb (r_live st head)
  | OGrow head r => existsb (Z.eqb head) (r_pools st) && negb (r_live st r)
  | OWalk head | OFirst head | ODestroy head _ => existsb (Z.eqb head) (r_pools st)
  | OOther _ => false
  end.
Lemma rallowedb_ok : forall st o, rallowedb st o = true -> rallowed st o.
Proof.
  assert (K : forall x l, existsb (Z.eqb x) l = true -> In x l) by (intros x l H; apply existsb_exists in H; destruct H as (y & H & E); apply Z.eqb_eq in E; now subst).
  intros st [head|head r|head|head|head ans|h'] H; cbn in *; try exact (K _ _ H); [now apply negb_true_iff in H| |discriminate H].
  apply andb_true_iff in H. destruct H as [A B]. apply negb_true_iff in B. split; [exact (K _ _ A)|exact B].
Qed.
Fixpoint rrunb (ops : list rop) (st : rstate) : option rstate :=
  match ops with
  | [] => Some st
  | o :: ops => if rallowedb st o then match rrun1 o st with Ok st => rrunb ops st | _ => None end else None
  end.
Lemma rrunb_ok : forall ops st st', rreach st -> rrunb ops st = Some st' -> rreach st'.
Proof.
  induction ops as [|o ops IH]; intros st st' H E; cbn [rrunb] in E; [injection E as <-; exact H|].
  destruct (rallowedb st o) eqn:Eb; [|discriminate E]. destruct (rrun1 o st) as [st1| |] eqn:Er; try discriminate E.
  exact (IH st1 st' (rreach_step st o st1 H (rallowedb_ok _ _ Eb) Er) E).
Qed.
Example ex_C70 : exists st, rreach st /\ r_log st =
  [RWalk 200 [3; 7]; RGone 100; RUnmap 100 1; RUnmap 100 2; RWalk 200 [3; 7]; RMap 200 3; RFirst 100 (Some 2); RWalk 100 [2; 1]; RUnmap 100 3;
   RMap 100 3; RMap 100 2; RMap 200 7; RMap 100 1].
Proof.
  destruct (rrunb ex_rops (rstart ex_zero)) as [st|] eqn:E.
  - exists st. split; [exact (rrunb_ok _ _ _ (rreach_start ex_zero) E)|]. apply (f_equal (option_map r_log)) in E. vm_compute in E. injection E as E. symmetry. exact E.
  - apply (f_equal (option_map r_log)) in E. vm_compute in E. discriminate E.
Qed.

Print Assumptions C70_no_unmapped_access.
Print Assumptions C70_walks_visit_all.
Print Assumptions C70_first_is_newest.
Print Assumptions C70_ranges_distinct.
Print Assumptions C70_destroy.
Print Assumptions C70_unmapped_once.
Print Assumptions C70_gone_leaves_no_range.
