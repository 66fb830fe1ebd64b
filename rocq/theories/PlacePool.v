(** Proofs for C62, pool side: the memory of the program under pool calls and stores. *)
From Coq Require Import ZArith Bool List Lia Znumtheory.
From Verif Require Import UtilsModel UtilsLemmas RseqIR MemLemmas PoolVM PoolVMLemmas PoolModel PoolInv PoolItem PoolMap PoolRange PoolBitmap PoolOps PoolMalloc PoolFree PoolWorld PoolDestroy PoolCreate PoolHist PoolProps.
Import ListNotations.
Local Open Scope Z_scope.

Section Pool.
Variable e : env.
Notation psz := (e_page e).
Notation page := (PoolVM.page e).
Notation history := (history e).
Notation good_write := (good_write e).

Definition is_store (o : op) : bool := match o with OWrite _ => true | _ => false end.

Lemma own_frame_w : forall (s : bool) (v0 : vm) (w : world) (L F : ledger), env_ok e -> 0 <= e_ncpus e -> winv e s v0 w L F ->
  forall o w' y, allowed e s v0 w L o -> run1 e o w = Ok (w', y) -> is_store o = false ->
  vframe e (fun a => mapped v0 (page a) = true) (w_vm w) (w_vm w').
Proof.
  intros s v0 w L F He Hcp HW o w' y Hok Hrun Hns. pose proof (wi_wf _ _ _ _ _ _ HW) as Hwf.
  assert (Hm : forall a, mapped v0 (page a) = true -> mapped (w_vm w) (page a) = true) by (intros a Ha; apply (wi_own _ _ _ _ _ _ HW _ Ha)).
  assert (Hout : forall id P r off, In (id, P) (w_pools w) -> In r (range_list P) ->
    forall a, mapped v0 (page a) = true -> ~ inF P r off (item_len P) a).
  { intros id P r off Hin Hr a Ha Hx. destruct (wi_own _ _ _ _ _ _ HW _ Ha) as [_ K]. apply (K _ _ Hin). exists r. split; auto.
    pose proof (wi_pools _ _ _ _ _ _ HW _ _ Hin) as HI. eapply inF_region; eauto; [apply HI|].
    pose proof (pi_ranges _ _ _ _ _ HI) as HF. rewrite Forall_forall in HF. auto. }
  destruct o as [id' named len at_ an|id' an|id' item c|ptr st|ps|id' an]; try discriminate.
  - destruct Hok as (Hnone & Hlen & Hat & Hfit). cbn [run1] in Hrun.
    pose proof (mempool_create_spec e He named len at_ an (w_vm w) Hlen Hat Hcp Hfit Hwf) as Hp.
    destruct Hp as [Hp|o Hp Ht|Hno|o v' Hacc Hwf' Hfr Hr'|o P' v' Hacc Ea El Eo HI' Hwf' Hfr Hreg Hnr]; try discriminate Hrun;
      cbn in Hrun; injection Hrun as <- <-; cbn [w_vm]; auto using vframe_refl; eapply vframe_sub; eauto.
  - destruct Hok as (P' & Hl). cbn [run1] in Hrun. rewrite Hl in Hrun.
    pose proof (lookup_in _ _ _ Hl) as Hin'. pose proof (wi_pools _ _ _ _ _ _ HW _ _ Hin') as HI'.
    pose proof (malloc_locked_spec e P' (items id' F) (items id' L) an (w_vm w) HI' Hwf) as Hp.
    destruct Hp as [Ef Ht|b free' Ef Hrob Hnp|b free' r' off P2 Ef Hpo HS Hr' Ea Hd Ho Hol Hnr Hg HI2
      |b r' off P2 v' Ef HS Hr' Ea Hd Ho Hol Hg HI2 Hwf' Hfr|v' Ef Hfull Hwhy Hwf' Hfr]; try discriminate Hrun;
      cbn [bind] in Hrun; injection Hrun as <- <-; cbn [w_vm]; auto using vframe_refl; eapply vframe_sub; eauto.
  - destruct Hok as (P' & Hl & Hlive & Hc). pose proof (lookup_in _ _ _ Hl) as Hin'.
    destruct (fill_run e s v0 w L F HW id' P' item c Hin' Hlive Hc) as (w2 & r' & E & _ & _ & Hr' & Hb & _ & Hfr & _).
    rewrite E in Hrun. injection Hrun as <- <-. eapply vframe_sub; [exact Hfr|]. intros a Ha. eapply Hout; eauto.
  - destruct Hok as (id' & P' & Hl & Hlive & ->). pose proof (lookup_in _ _ _ Hl) as Hin'.
    destruct (free_run e s v0 w L F HW id' P' ptr Hin' Hlive) as (w2 & r' & P2 & E & _ & _ & _ & _ & Hr' & Hb & _ & Hfr & _).
    rewrite E in Hrun. injection Hrun as <- <-. eapply vframe_sub; [exact Hfr|]. intros a Ha. eapply Hout; eauto.
  - destruct Hok as (P' & Hl). cbn [run1] in Hrun. rewrite Hl in Hrun.
    pose proof (lookup_in _ _ _ Hl) as Hin'. pose proof (wi_pools _ _ _ _ _ _ HW _ _ Hin') as HI'.
    pose proof (mempool_destroy_spec e P' (items id' F) (items id' L) an (w_vm w) HI' Hwf) as Hp.
    destruct Hp as [Hrob Hlk|b Hrob Hlk Hb Hnp|Po v' Hok Hwf' Hfr Hmp Hun Hall Hany]; try discriminate Hrun.
    cbn [bind] in Hrun. injection Hrun as <- <-. cbn [w_vm]. eapply vframe_sub; [exact Hfr|].
    intros a Ha Hp. destruct (wi_own _ _ _ _ _ _ HW _ Ha) as [_ K]. apply (K _ _ Hin'). exact Hp.
Qed.

Section One.
Variables (s : bool) (v0 : vm) (w : world) (L F : ledger).
Hypothesis HH : history s v0 w L F.
Let HW : winv e s v0 w L F := hist_inv e _ _ _ _ _ HH.
Notation v := (w_vm w).

(** Pool calls leave the program's own memory alone. *)
Lemma own_frame : forall o w' y, allowed e s v0 w L o -> run1 e o w = Ok (w', y) -> is_store o = false ->
  vframe e (fun a => mapped v0 (page a) = true) v (w_vm w').
Proof. exact (own_frame_w s v0 w L F (hist_env e _ _ _ _ _ HH) (hist_cp e _ _ _ _ _ HH) HW). Qed.

(** A pool keeps its geometry until it is destroyed. *)
Lemma pool_stays : forall id P o w' y, In (id, P) (w_pools w) -> allowed e s v0 w L o -> run1 e o w = Ok (w', y) ->
  match o with ODestroy id' _ => id' <> id | _ => True end ->
  exists P', In (id, P') (w_pools w') /\ same P P'.
Proof.
  intros id P o w' y Hin Hok Hrun Hd. pose proof (wi_wf _ _ _ _ _ _ HW) as Hwf.
  assert (Hset : forall id' P1 P2, In (id', P1) (w_pools w) -> same P1 P2 -> exists P', In (id, P') (set_pool id' P2 (w_pools w)) /\ same P P').
  { intros id' P1 P2 H1 HS. destruct (Z.eq_dec id' id) as [->|Hn].
    - rewrite (unique_pool e s v0 w L F HW _ _ _ H1 Hin) in HS. exists P2. split; auto. unfold set_pool. apply in_map_iff.
      exists (id, P). cbn. now rewrite Z.eqb_refl.
    - exists P. split; [|apply same_refl]. unfold set_pool. apply in_map_iff. exists (id, P). cbn.
      replace (id =? id') with false by lia. auto. }
  destruct o as [id' named len at_ an|id' an|id' item c|ptr st|ps|id' an].
  - cbn [run1] in Hrun. destruct (mempool_create e named len at_ an v) as [[[P1|err] v1]| |]; cbn [bind] in Hrun; try discriminate;
      injection Hrun as <- <-; cbn [w_pools]; exists P; (split; [|apply same_refl]); auto. right; auto.
  - destruct Hok as (P' & Hl). cbn [run1] in Hrun. rewrite Hl in Hrun.
    pose proof (lookup_in _ _ _ Hl) as Hin'. pose proof (wi_pools _ _ _ _ _ _ HW _ _ Hin') as HI'.
    pose proof (malloc_locked_spec e P' (items id' F) (items id' L) an v HI' Hwf) as Hp.
    destruct Hp as [Ef Ht|b free' Ef Hrob Hnp|b free' r' off P2 Ef Hpo HS Hr' Ea Hd' Ho Hol Hnr Hg HI2
      |b r' off P2 v' Ef HS Hr' Ea Hd' Ho Hol Hg HI2 Hwf' Hfr|v' Ef Hfull Hwhy Hwf' Hfr]; try discriminate Hrun;
      cbn [bind] in Hrun; injection Hrun as <- <-; cbn [w_pools]; eapply Hset; eauto using same_refl.
  - destruct Hok as (P' & Hl & Hlive & Hc). pose proof (lookup_in _ _ _ Hl) as Hin'.
    destruct (fill_run e s v0 w L F HW id' P' item c Hin' Hlive Hc) as (w2 & r' & E & Ew & _).
    rewrite E in Hrun. injection Hrun as <- <-. rewrite Ew. exists P. split; [auto|apply same_refl].
  - destruct Hok as (id' & P' & Hl & Hlive & ->). pose proof (lookup_in _ _ _ Hl) as Hin'.
    destruct (free_run e s v0 w L F HW id' P' ptr Hin' Hlive) as (w2 & r' & P2 & E & Ew & HS & _).
    rewrite E in Hrun. injection Hrun as <- <-. rewrite Ew. eapply Hset; eauto.
  - cbn [run1] in Hrun. destruct (forallb _ ps); [|discriminate]. injection Hrun as <- <-. cbn. exists P. split; [auto|apply same_refl].
  - cbn [run1] in Hrun. destruct (lookup id' (w_pools w)) as [P1|]; [|discriminate].
    destruct (mempool_destroy e P1 an v) as [[[r Po] v']| |]; cbn [bind] in Hrun; try discriminate. injection Hrun as <- <-. cbn.
    exists P. split; [|apply same_refl]. unfold del_pool. apply filter_In. split; auto. cbn.
    replace (id =? id') with false by lia. reflexivity.
Qed.

(** Usable memory is mapped. *)
Lemma good_mapped : forall a, good_write v0 w L a -> mapped v (page a) = true.
Proof.
  intros a [Ha|(id & P & it & Hin & Hl & Hb)]; [apply (wi_own _ _ _ _ _ _ HW _ Ha)|].
  destruct (byte_place e s v0 w L F HH id P it a Hin) as (r & Hr & HR & _ & _ & _ & _ & _ & Hreg); auto; [apply in_or_app; auto|].
  apply (r_map _ _ _ _ HR). auto.
Qed.

(** The program's own pages are not shared with anything. *)
Hypothesis Hown : forall a, mapped v0 (page a) = true -> link v (page a) = None.

Lemma good_alias : forall x a, good_write v0 w L x -> good_write v0 w L a -> aliases e v x a -> a = x.
Proof.
  intros x a Hx Ha Hal.
  destruct Ha as [Ha|(id & P & it & Hin & Hl & Hb)].
  - destruct Hal as [->|[Hlk _]]; auto. rewrite (Hown _ Ha) in Hlk. discriminate.
  - assert (Hl1 : In (id, it) (F ++ L)) by (apply in_or_app; auto).
    destruct (byte_place e s v0 w L F HH _ _ _ _ Hin Hl1 Hb) as (r & Hr & HR & _ & _ & _ & _ & _ & H6).
    pose proof (wi_pools _ _ _ _ _ _ HW _ _ Hin) as HI. pose proof (pi_geom _ _ _ _ _ HI) as HG.
    assert (Hrx : region r x) by (eapply alias_region; eauto).
    destruct Hx as [Hx|(id' & P' & it' & Hin' & Hl' & Hb')].
    + exfalso. destruct (wi_own _ _ _ _ _ _ HW _ Hx) as [_ K]. apply (K _ _ Hin). exists r. auto.
    + assert (Hl2 : In (id', it') (F ++ L)) by (apply in_or_app; auto).
      destruct (byte_place e s v0 w L F HH _ _ _ _ Hin' Hl2 Hb') as (r' & Hr' & HR' & K1 & K2 & K3 & K4 & K5 & K6).
      assert (id' = id).
      { apply (wi_apart _ _ _ _ _ _ HW id' P' id P x); auto; [exists r'|exists r]; auto. }
      subst id'. pose proof (unique_pool e s v0 w L F HW _ _ _ Hin Hin'). subst P'.
      assert (r' = r).
      { destruct (ordpairs_in _ _ _ (pi_apart _ _ _ _ _ HI) Hr' Hr) as [|Hap]; auto. exfalso.
        exact (apart_regions r' r x Hap K6 Hrx). }
      subst r'. eapply alias_cpu; eauto.
Qed.
End One.

(** Stores and the address space. *)
Lemma store_agrees : forall (G : Z -> Prop) ps v m, 0 < psz -> vmwf e v ->
  (forall x, In x (map fst ps) -> G x) -> (forall x a, G x -> G a -> aliases e v x a -> a = x) ->
  (forall a, G a -> m a = PoolVM.view e v a) -> forall a, G a -> wr m ps a = PoolVM.view e (store e v ps) a.
Proof.
  intros G ps. induction ps as [|[x b] ps IH]; intros v m Hp Hwf HG Hal Hm a Ha; [apply Hm; auto|].
  rewrite (store_cons e). cbn [wr fold_left]. apply IH; auto.
  - now apply store1_wf.
  - intros y Hy. apply HG. right; auto.
  - intros y c Hy Hc H. apply aliases_store1 in H. auto.
  - intros c Hc. destruct (view_store1 e Hp v x b c Hwf) as [V1 V2]. unfold upd_mem. cbn [fst snd].
    destruct (Z.eqb_spec c x) as [->|Hn]; [symmetry; apply V1; left; auto|].
    etransitivity; [apply Hm; auto|]. symmetry. apply V2. intros H. apply Hn. apply Hal; auto. apply HG. left; auto.
Qed.

Lemma hist_links : forall v0 w L F, (forall q, link v0 q = None) -> history true v0 w L F ->
  forall a, mapped v0 (page a) = true -> link (w_vm w) (page a) = None.
Proof.
  intros v0 w L F H0 (Hm & Hs & Hr). induction Hr as [|w live freed o w' x Hr IH Hok Hrun|w live freed Hr IH Hpl|w live freed v' Hr IH Hra]; intros a Ha; [apply H0| | |].
  3:{ cbn [w_vm]. destruct (link v' (page a)) as [q|] eqn:El; [|reflexivity]. destruct (ra_link _ _ _ _ Hra _ _ El) as [K _].
      rewrite (IH a Ha) in K. discriminate K. }
  2:{ cbn [child w_vm fork link]. rewrite (IH a Ha). now destruct (dontfork (w_vm w) (page a)). }
  specialize (IH a Ha).
  assert (HH : history true v0 w live freed) by (split; [auto|split; auto]).
  destruct (is_store o) eqn:E.
  - destruct o as [| | | |ps|]; try discriminate. cbn [run1] in Hrun. destruct (forallb _ ps); [|discriminate]. injection Hrun as <- <-.
    cbn. apply store_link_none. auto.
  - pose proof (own_frame true v0 w live freed HH o w' x Hok Hrun E) as Hfr.
    destruct (link (w_vm w') (page a)) as [q|] eqn:El; auto.
    rewrite (fr_link _ _ _ _ Hfr _ q a El Ha (or_introl eq_refl)) in IH. discriminate.
Qed.
End Pool.
