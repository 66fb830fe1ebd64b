From Coq Require Import ZArith Bool List Lia Znumtheory.
From Verif Require Import UtilsModel UtilsLemmas RseqIR MemLemmas PoolVM PoolVMLemmas PoolModel PoolInv PoolOps PoolWorld PoolMalloc PoolCreate PoolHist PoolProps.
Import ListNotations.
Local Open Scope Z_scope.

(** ** A pool has a range from the start *)
Lemma nr_create : forall e P an v o P' v', range_create e P an v = Ok (o, P', v') -> nr_ranges P <= nr_ranges P'.
Proof.
  intros e P an v o P' v' H. unfold range_create, bind in H.
  repeat match type of H with
  | (let '(_, _) := ?x in _) = _ => destruct x
  | match ?x with _ => _ end = _ => destruct x
  end; try discriminate H; injection H as <- <- <-; cbn; lia.
Qed.
Lemma nr_malloc : forall e P an v x P' v', malloc_locked e P an v = Ok (x, P', v') -> nr_ranges P <= nr_ranges P'.
Proof.
  intros e P an v x P' v' H. unfold malloc_locked in H.
  destruct (negb (free_list_head P =? 0)).
  - destruct (find_range _ _) as [r|]; [|discriminate H]. destruct (negb (accessible _ _ _ _)); [discriminate H|].
    destruct (check_poison_item _ _ _ _ _) as [u| |]; cbn [bind] in H; try discriminate H.
    destruct (set_alloc_slot _ _ _ _) as [r'| |]; cbn [bind] in H; try discriminate H. injection H as <- <- <-. cbn. lia.
  - set (room := match range_list P with [] => false | r :: _ => _ end) in H. destruct room.
    + cbn [bind] in H. destruct (range_list P) as [|r l]; cbn [bind] in H; [discriminate H|].
      destruct (set_alloc_slot _ _ _ _) as [r'| |]; cbn [bind] in H; try discriminate H. injection H as <- <- <-. cbn. lia.
    + destruct (range_create e P an v) as [[[o P1] v1]| |] eqn:E; cbn [bind] in H; try discriminate H.
      apply nr_create in E. destruct o as [r|]; cbn [bind] in H.
      * cbn [set_ranges range_list bind] in H.
        destruct (set_alloc_slot _ _ _ _) as [r'| |]; cbn [bind] in H; try discriminate H. injection H as <- <- <-. cbn. lia.
      * injection H as <- <- <-. exact E.
Qed.
Lemma nr_free : forall e P r ptr st v P' v', free_in e P r ptr st v = Ok (P', v') -> nr_ranges P <= nr_ranges P'.
Proof.
  intros e P r ptr st v P' v' H. unfold free_in in H.
  destruct (clear_alloc_slot _ _ _ _) as [r'| |]; cbn [bind] in H; try discriminate H.
  destruct (if poison_set _ then _ else _) as [v1| |]; cbn [bind] in H; try discriminate H.
  destruct (negb _); [discriminate H|]. injection H as <- <-. cbn. lia.
Qed.

Lemma set_pool_in : forall id P l i Q, In (i, Q) (set_pool id P l) -> In (i, Q) l \/ (i, Q) = (id, P).
Proof.
  intros id P l i Q H. unfold set_pool in H. apply in_map_iff in H. destruct H as ([j R] & E & Hin). cbn [fst] in E.
  destruct (j =? id); [right; symmetry; exact E|left; rewrite <- E; exact Hin].
Qed.

Lemma find_owner_in : forall l b id P r, find_owner l b = Some (id, P, r) -> In (id, P) l.
Proof.
  induction l as [|[i Q] l IH]; intros b id P r H; cbn [find_owner] in H; [discriminate H|].
  destruct (find_range (range_list Q) b) as [r'|]; [injection H as <- <- <-; left; reflexivity|right; exact (IH b id P r H)].
Qed.

Lemma has_range : forall e s v0 w L F id P, history e s v0 w L F -> In (id, P) (w_pools w) -> 1 <= nr_ranges P.
Proof.
  intros e s v0 w L F id P (Hm & Hs & Hr). revert id P. induction Hr as [|w L F o w' x Hr IH Hok Hrun|w L F Hr IH Hpl|w L F v' Hr IH Hra]; intros id P Hin.
  - destruct Hin.
  - assert (HH : history e s v0 w L F) by (exact (conj Hm (conj Hs Hr))).
    pose proof (hist_inv e _ _ _ _ _ HH) as HW.
    destruct o as [i named len at_ an|i an|i item c|ptr sd|ps|i an]; cbn [run1] in Hrun.
    + destruct Hok as (Hnone & Hlen & Hat & Hfit).
      pose proof (mempool_create_spec e (hist_env e _ _ _ _ _ HH) named len at_ an (w_vm w) Hlen Hat (hist_cp e _ _ _ _ _ HH) Hfit (wi_wf _ _ _ _ _ _ HW)) as Hp.
      destruct Hp as [Hp|o Hp Ht|Hno|o v' Hacc Hwf' Hfr Hr'|o P' v' Hacc Ea El Eo HI' Hwf' Hfr Hreg Hnr]; cbn [bind] in Hrun; try discriminate Hrun; injection Hrun as <- <-.
      * exact (IH _ _ Hin).
      * exact (IH _ _ Hin).
      * cbn [w_pools] in Hin. destruct Hin as [E|Hin]; [injection E as <- <-; lia|exact (IH _ _ Hin)].
    + destruct (lookup i (w_pools w)) as [Q|] eqn:El; [|discriminate Hrun].
      destruct (malloc_locked e Q an (w_vm w)) as [[[o Q'] v']| |] eqn:E; cbn [bind] in Hrun; try discriminate Hrun.
      apply nr_malloc in E. pose proof (IH _ _ (lookup_in _ _ _ El)) as K.
      destruct o as [[[r off] addr]|]; injection Hrun as <- <-; cbn [w_pools] in Hin; apply set_pool_in in Hin;
        (destruct Hin as [Hin|Eq]; [exact (IH _ _ Hin)|injection Eq as -> ->; lia]).
    + destruct (lookup i (w_pools w)) as [Q|]; [|discriminate Hrun]. destruct (find_range _ _) as [r|]; [|discriminate Hrun].
      destruct (fill_item _ _ _ _ _ _) as [v'| |]; cbn [bind] in Hrun; try discriminate Hrun. injection Hrun as <- <-. exact (IH _ _ Hin).
    + destruct (find_owner _ _) as [[[i Q] r]|] eqn:El; [|discriminate Hrun].
      destruct (free_in e Q r ptr sd (w_vm w)) as [[Q' v']| |] eqn:E; cbn [bind] in Hrun; try discriminate Hrun.
      apply nr_free in E. pose proof (IH _ _ (find_owner_in _ _ _ _ _ El)) as K.
      injection Hrun as <- <-. cbn [w_pools] in Hin. apply set_pool_in in Hin.
      destruct Hin as [Hin|Eq]; [exact (IH _ _ Hin)|injection Eq as -> ->; lia].
    + destruct (forallb _ ps); [|discriminate Hrun]. injection Hrun as <- <-. exact (IH _ _ Hin).
    + destruct (lookup i (w_pools w)) as [Q|]; [|discriminate Hrun].
      destruct (mempool_destroy _ _ _ _) as [[[ret o] v']| |]; cbn [bind] in Hrun; try discriminate Hrun.
      injection Hrun as <- <-. cbn [w_pools] in Hin. unfold del_pool in Hin. apply filter_In in Hin. exact (IH _ _ (proj1 Hin)).
  - cbn [child w_pools] in Hin. apply filter_In in Hin. exact (IH _ _ (proj1 Hin)).
  - exact (IH _ _ Hin).
Qed.
