(** Invariant of the interleaved pool calls: definitions and the lemmas about
    memory and filling. *)
From Coq Require Import ZArith Bool List Lia Znumtheory Permutation.
From Verif Require Import UtilsModel UtilsLemmas RseqIR MemLemmas PoolVM PoolVMLemmas PoolModel PoolInv PoolItem PoolMap PoolRange PoolBitmap PoolOps PoolMalloc PoolFree PoolDestroy PoolWorld PoolCreate PoolHist MicroModel.
Import ListNotations.
Local Open Scope Z_scope.

(** The mutex a thread has, and the item only it may use. *)
Definition locks (tk : task) : option Z :=
  match tk with
  | TIdle | TWant _ _ | TFill _ _ _ _ => None
  | _ => pool_of tk
  end.

(** Bytes of an item in every area. *)
Definition ibytes (P : pool) (a x : Z) : Prop :=
  exists i k, 0 <= i < na P /\ 0 <= k < item_len P /\ x = a + strd P * i + k.

Section MInv.
Variable e : env.
Hypothesis He : env_ok e.
Hypothesis Hcp : 0 <= e_ncpus e.
Notation page := (PoolVM.page e).
Notation geom := (geom e).
Notation rinv := (rinv e).
Notation pinv := (pinv e).
Notation poisoned := (poisoned e).
Notation vmwf := (vmwf e).
Notation view := (view e).

Definition cleared (P : pool) (ptr : Z) : pool :=
  match find_range (range_list P) (free_base e ptr (strd P)) with
  | Some r =>
    match clear_alloc_slot e P r (Z.land ptr (strd P - 1)) with
    | Ok r' => set_ranges P (put_range (range_list P) r')
    | _ => P
    end
  | None => P
  end.
(** What a thread in the middle of a call has done to the fields of the pool. *)
Definition eff (tk : task) (P : pool) : pool :=
  match tk with
  | TMCheck _ _ _ nxt _ => set_head P nxt
  | TFHead _ ptr _ | TFPoison _ ptr _ _ | TFLink _ ptr _ | TFPush _ ptr => cleared P ptr
  | _ => P
  end.
Definition actual (lk : Z -> option Z) (ts : Z -> task) (id : Z) (P : pool) : pool :=
  match lk id with None => P | Some t => eff (ts t) P end.
Definition acts lk ts (G : list (Z * pool)) : list (Z * pool) := map (fun ip => (fst ip, actual lk ts (fst ip) (snd ip))) G.

(** ** Filling *)
Definition good1 (v : vm) (y : Z * Z) : Prop := byte (view v) (fst y) = snd y mod 256.
Definition area (P : pool) (a : Z) (W : Z -> bytes) (i : Z) : bytes := W (a + strd P * i).
Definition rest_ok (P : pool) (a : Z) (W : Z -> bytes) (rest : list bytes) : Prop :=
  forall ws, In ws rest -> exists i, 0 <= i < ncpus P /\ ws = area P a W i.
Definition phase_ok (P : pool) (a : Z) (W : Z -> bytes) (v : vm) (ph : phase) : Prop :=
  match ph with
  | PStore todo rest => rest_ok P a W rest /\ exists i, 0 <= i < nd P /\ incl todo (area P a W i) /\
      (forall y, In y (area P a W i) -> In y todo \/ good1 v y) /\
      forall j, 0 <= j < nd P -> area P a W j = area P a W i \/ In (area P a W j) rest \/ (i < ncpus P /\ good e v (area P a W j))
  | PCmp todo all rest => rest_ok P a W rest /\ exists i, 0 <= i < ncpus P /\ all = area P a W i /\ incl todo all /\
      (forall y, In y all -> In y todo \/ good1 v y) /\
      forall j, 0 <= j < nd P -> area P a W j = area P a W i \/ In (area P a W j) rest \/ good e v (area P a W j)
  | PEnd => forall j, 0 <= j < nd P -> good e v (area P a W j)
  end.

Lemma good_good1 : forall v ws, (forall y, In y ws -> good1 v y) -> good e v ws.
Proof. intros v ws H x b Hin. exact (H _ Hin). Qed.
Lemma good1_good : forall v ws y, good e v ws -> In y ws -> good1 v y.
Proof. intros v ws [x b] H Hin. exact (H _ _ Hin). Qed.

Lemma pick_spec : forall k y l z todo, pick k y l = (z, todo) ->
  In z (y :: l) /\ incl todo (y :: l) /\ (forall u, In u (y :: l) -> u = z \/ In u todo) /\ length todo = length l.
Proof.
  intros k y l z todo H. unfold pick in H. destruct (nth_error (y :: l) k) as [u|] eqn:E.
  - injection H as <- <-. set (L := y :: l) in *.
    destruct (nth_error_split _ _ E) as (l1 & l2 & EL & Hl).
    assert (E1 : firstn k L = l1).
    { rewrite EL. rewrite <- Hl. rewrite firstn_app, firstn_all, Nat.sub_diag. cbn. apply app_nil_r. }
    assert (E2 : skipn (S k) L = l2).
    { rewrite EL. rewrite skipn_app. rewrite skipn_all2 by lia. replace (S k - length l1)%nat with 1%nat by lia. reflexivity. }
    assert (Hlen : length l = (length l1 + length l2)%nat).
    { assert (length L = length (l1 ++ u :: l2)) by now rewrite EL. unfold L in H. rewrite app_length in H. cbn in H. lia. }
    change (In u L /\ incl (firstn k L ++ skipn (S k) L) L /\ (forall w, In w L -> w = u \/ In w (firstn k L ++ skipn (S k) L)) /\ length (firstn k L ++ skipn (S k) L) = length l).
    rewrite E1, E2. clearbody L. subst L. split; [|split; [|split]].
    + apply in_elt.
    + intros w Hw. rewrite in_app_iff in *. cbn. tauto.
    + intros w Hw. rewrite in_app_iff in *. cbn in Hw. destruct Hw as [Hw|[Hw|Hw]]; auto.
    + rewrite app_length. lia.
  - injection H as <- <-. split; [now left|]. split; [intros w; now right|]. split; [|reflexivity]. intros u [<-|Hu]; auto.
Qed.

Lemma phase_next : forall P a W v rest, rest_ok P a W rest ->
  (forall j, 0 <= j < nd P -> In (area P a W j) rest \/ good e v (area P a W j)) -> phase_ok P a W v (next rest).
Proof.
  intros P a W v rest Hr H. destruct rest as [|w rest]; cbn [next phase_ok].
  - intros j Hj. destruct (H j Hj) as [[]|H']; auto.
  - split; [intros ws Hw; apply Hr; now right|]. destruct (Hr w) as (i & Hi & ->); [now left|].
    exists i. split; [exact Hi|]. split; [reflexivity|]. split; [apply incl_refl|]. split; [auto|].
    intros j Hj. destruct (H j Hj) as [[E|Hin]|Hg]; auto.
Qed.

(** The start of filling, with plain addresses. *)
Definition start (P : pool) (a : Z) (W : Z -> bytes) : phase :=
  let rest := map (area P a W) (cpus P) in
  if cow_init P then PStore (area P a W (ncpus P)) rest else next rest.
Lemma phase_start : forall P a W v, geom P -> phase_ok P a W v (start P a W).
Proof.
  intros P a W v HG. pose proof (g_cpus _ _ HG) as Hc.
  assert (Hr : rest_ok P a W (map (area P a W) (cpus P))).
  { intros ws Hw. apply in_map_iff in Hw. destruct Hw as (i & <- & Hi). unfold cpus in Hi. apply in_zseq in Hi. exists i. split; [lia|reflexivity]. }
  assert (Hin : forall j, 0 <= j < ncpus P -> In (area P a W j) (map (area P a W) (cpus P))).
  { intros j Hj. apply in_map. unfold cpus. apply in_zseq. lia. }
  unfold start. destruct (cow_init P) eqn:Ec.
  - cbn [phase_ok]. split; [exact Hr|]. exists (ncpus P). unfold nd. rewrite Ec. split; [lia|]. split; [apply incl_refl|].
    split; [auto|]. intros j Hj. assert (j = ncpus P \/ 0 <= j < ncpus P) as [->|Hj'] by lia; auto.
  - apply phase_next; auto. intros j Hj. unfold nd in Hj. rewrite Ec in Hj. left. apply Hin. lia.
Qed.

Section Step.
Variables (P : pool) (a : Z) (W : Z -> bytes) (v : vm) (r : range) (off : Z).
Hypothesis HG : geom P.
Hypothesis Hwf : vmwf v.
Hypothesis HR : rinv P v r.
Hypothesis Ea : a = base r + off.
Hypothesis Ho : 0 <= off.
Hypothesis Hol : off + item_len P <= strd P.
Hypothesis HW : block W (item_len P).

Lemma area_key : forall i y, In y (area P a W i) -> a + strd P * i <= fst y < a + strd P * i + item_len P.
Proof. intros i y Hy. apply (proj2 (HW (a + strd P * i)) (fst y)). now apply in_map. Qed.
Lemma area_ibytes : forall i y, 0 <= i < nd P -> In y (area P a W i) -> ibytes P a (fst y).
Proof.
  intros i y Hi Hy. pose proof (area_key i y Hy). pose proof (na_bounds P). exists i, (fst y - (a + strd P * i)). split; [lia|]. split; lia.
Qed.
Lemma ibytes_inF : forall x, ibytes P a x <-> inF P r off (item_len P) x.
Proof.
  intros x. pose proof (strd_pos _ _ HG). split.
  - intros (i & k & Hi & Hk & ->). rewrite Ea. replace (base r + off + strd P * i + k) with (base r + strd P * i + (off + k)) by ring.
    apply inF_area; auto; lia.
  - intros [H1 H2]. destruct (area_dec _ _ _ _ H H1) as (i & Hi & E). exists i, ((x - base r) mod strd P - off).
    split; [lia|]. split; [lia|]. lia.
Qed.
Lemma ibytes_mapped : forall x, ibytes P a x -> mapped v (page x) = true.
Proof. intros x Hx. apply (r_map _ _ _ _ HR). apply ibytes_inF in Hx. eapply inF_region; eauto. Qed.

(** One byte stored leaves the other bytes of the area, and, unless it is an initial
    value, the other areas. *)
Lemma poke_good : forall i x b j u, 0 <= i < nd P -> 0 <= j < nd P -> In (x, b) (area P a W i) -> In u (area P a W j) ->
  j = i \/ i < ncpus P -> good1 v u \/ u = (x, b) -> good1 (store1 e v (x, b)) u.
Proof.
  intros i x b j u Hi Hj Hx Hu Hij Hg.
  pose proof (area_key i _ Hx) as Kx. pose proof (area_key j _ Hu) as Ku. cbn [fst] in Kx.
  destruct (view_store1 e (g_psz _ _ HG) v x b (fst u) Hwf) as [V1 V2].
  assert (Hal : aliases e v x (fst u) -> fst u = x).
  { intros Hal. destruct (Z_lt_dec i (ncpus P)) as [Hlt|Hge].
    - eapply (alias_cpu e P v r x (fst u)); eauto. pose proof (strd_pos _ _ HG). nia.
    - destruct Hij as [->|]; [|lia]. destruct Hal as [E|[Hl _]]; auto. exfalso.
      assert (Hreg : region r (fst u)).
      { eapply inF_region; eauto. apply ibytes_inF. eapply area_ibytes; eauto. }
      destruct (r_link _ _ _ _ HR _ _ Hl) as (_ & Hp & _); [left; eapply region_page; eauto|].
      assert (i = ncpus P) by (pose proof (nd_bounds P); lia). subst i.
      pose proof (page_down e (fst u) (base r + strd P * ncpus P) (g_psz _ _ HG)) as Hpd.
      assert (base r + strd P * ncpus P <= page (fst u) * e_page e); [|lia]. apply Hpd; [|lia].
      apply Z.divide_add_r; [eapply base_div; eauto|]. apply Z.divide_mul_l. apply (psz_strd _ _ HG). }
  unfold good1, byte. destruct (Z.eq_dec (fst u) x) as [E|Hne].
  - rewrite V1 by (left; exact E). assert (j = i).
    { pose proof (strd_pos _ _ HG). pose proof (item_pos _ _ HG). rewrite E in Ku. assert (i < j \/ j < i \/ i = j) as [?|[?|?]] by lia; auto; exfalso; nia. }
    subst j. destruct u as [y c]. cbn [fst snd] in *. subst y.
    rewrite (proj1 (HW (a + strd P * i)) x b c Hx Hu). reflexivity.
  - rewrite V2 by (intros K; apply Hne, Hal, K). destruct Hg as [Hg| ->]; [exact Hg|]. exfalso. apply Hne. reflexivity.
Qed.

Lemma phase_step : forall k ph, phase_ok P a W v ph ->
  exists ph' v', fill_byte e k ph v = Ok (ph', v') /\ phase_ok P a W v' ph' /\
    (v' = v \/ exists x b, v' = store1 e v (x, b) /\ ibytes P a x).
Proof.
  intros k ph Hp. destruct ph as [todo rest|todo all rest|].
  - destruct Hp as (Hr & i & Hi & Hincl & Hdone & Hother). destruct todo as [|y todo]; cbn [fill_byte].
    + exists (next rest), v. split; [reflexivity|]. split; [|now left]. apply phase_next; auto.
      assert (Hgi : good e v (area P a W i)) by (apply good_good1; intros u Hu; destruct (Hdone u Hu) as [[]|]; auto).
      intros j Hj. destruct (Hother j Hj) as [E|[E|[_ E]]]; auto. right. now rewrite E.
    + destruct (pick k y todo) as [[x b] todo'] eqn:Ek. cbn [fst snd]. destruct (pick_spec _ _ _ _ _ Ek) as (Hz & Hin & Hcov & _).
      assert (Hx : In (x, b) (area P a W i)) by (apply Hincl; exact Hz).
      rewrite (ibytes_mapped x) by (exact (area_ibytes i _ Hi Hx)).
      eexists _, _. split; [reflexivity|]. split; [|right; exists x, b; split; [reflexivity|exact (area_ibytes i _ Hi Hx)]].
      split; [exact Hr|]. exists i. split; [exact Hi|]. split; [intros u Hu; apply Hincl, Hin, Hu|]. split.
      * intros u Hu. destruct (Hdone u Hu) as [Ht|Hg].
        -- destruct (Hcov u Ht) as [->|Ht']; [|left; exact Ht']. right. eapply (poke_good i x b i); eauto.
        -- right. eapply (poke_good i x b i); eauto.
      * intros j Hj. destruct (Hother j Hj) as [E|[E|[Hlt Hg]]]; auto. right. right. split; auto.
        apply good_good1. intros u Hu. eapply (poke_good i x b j); eauto. left. eapply good1_good; eauto.
  - destruct Hp as (Hr & i & Hi & -> & Hincl & Hdone & Hother). pose proof (nd_bounds P) as HB. destruct todo as [|y todo]; cbn [fill_byte].
    + exists (next rest), v. split; [reflexivity|]. split; [|now left]. apply phase_next; auto.
      assert (Hgi : good e v (area P a W i)) by (apply good_good1; intros u Hu; destruct (Hdone u Hu) as [[]|]; auto).
      intros j Hj. destruct (Hother j Hj) as [E|[E|E]]; auto. right. now rewrite E.
    + destruct (pick k y todo) as [[x b] todo'] eqn:Ek. cbn [fst snd]. destruct (pick_spec _ _ _ _ _ Ek) as (Hz & Hin & Hcov & _).
      assert (Hx : In (x, b) (area P a W i)) by (apply Hincl; exact Hz).
      rewrite (ibytes_mapped x) by (eapply (area_ibytes i (x, b)); auto; lia). cbn [negb].
      destruct (byte (view v) x =? b mod 256) eqn:Eb.
      * apply Z.eqb_eq in Eb. exists (PCmp todo' (area P a W i) rest), v. split; [reflexivity|]. split; [|now left].
        split; [exact Hr|]. exists i. split; [exact Hi|]. split; [reflexivity|]. split; [intros u Hu; apply Hincl, Hin, Hu|]. split; auto.
        intros u Hu. destruct (Hdone u Hu) as [Ht|Hg]; auto. destruct (Hcov u Ht) as [->|Ht']; auto.
      * exists (PStore (area P a W i) rest), v. split; [reflexivity|]. split; [|now left].
        split; [exact Hr|]. exists i. split; [lia|]. split; [apply incl_refl|]. split; [auto|].
        intros j Hj. destruct (Hother j Hj) as [E|[E|E]]; auto. right. right. split; [lia|auto].
  - exists PEnd, v. split; [reflexivity|]. split; [exact Hp|now left].
Qed.

Lemma phase_frame : forall v' ph, (forall x, ibytes P a x -> view v' x = view v x) -> phase_ok P a W v ph -> phase_ok P a W v' ph.
Proof.
  intros v' ph Hv Hp.
  assert (H1 : forall i u, 0 <= i < nd P -> In u (area P a W i) -> good1 v u -> good1 v' u).
  { intros i u Hi Hu Hg. unfold good1, byte in *. rewrite Hv; auto. eapply area_ibytes; eauto. }
  assert (H2 : forall i, 0 <= i < nd P -> good e v (area P a W i) -> good e v' (area P a W i)).
  { intros i Hi Hg. apply good_good1. intros u Hu. eapply H1; eauto. eapply good1_good; eauto. }
  pose proof (nd_bounds P) as HB. destruct ph as [todo rest|todo all rest|]; cbn [phase_ok] in *.
  - destruct Hp as (Hr & i & Hi & Hincl & Hdone & Hother). split; [exact Hr|]. exists i. split; [exact Hi|]. split; [exact Hincl|]. split.
    + intros u Hu. destruct (Hdone u Hu); eauto.
    + intros j Hj. destruct (Hother j Hj) as [E|[E|[E1 E2]]]; auto.
  - destruct Hp as (Hr & i & Hi & -> & Hincl & Hdone & Hother). split; [exact Hr|]. exists i. split; [exact Hi|]. split; [reflexivity|]. split; [exact Hincl|]. split.
    + intros u Hu. destruct (Hdone u Hu); auto. right. eapply (H1 i); eauto. lia.
    + intros j Hj. destruct (Hother j Hj) as [E|[E|E2]]; auto.
  - auto.
Qed.

Lemma start_eq : forall P' r', same P P' -> twin r r' -> fill_start e P' r' off W = start P' a W.
Proof.
  intros P' r' HS (E1 & _ & E3 & _). unfold fill_start, start. cbv zeta.
  pose proof (item_pos _ _ HG) as Hip.
  assert (Er : map (fun i => W (range_percpu_ptr e r' i off (strd P'))) (cpus P') = map (area P' a W) (cpus P')).
  { apply map_ext_in. intros i Hi. unfold cpus in Hi. rewrite (s_attr P P' HS) in Hi. apply in_zseq in Hi. unfold area. f_equal.
    unfold range_percpu_ptr. rewrite E1, (s_attr P P' HS).
    change (range_percpu_ptr e r i off (strd P) = a + strd P * i). rewrite (PoolItem.percpu_ptr e P v) by (auto; lia). lia. }
  rewrite Er. unfold range_init_ptr. rewrite E3. change (match init r with None => None | Some b => Some (uw (e_wide e) (b + off)) end) with (range_init_ptr e r off).
  rewrite (init_ptr e P v) by (auto; lia). rewrite (s_cow P P' HS). destruct (cow_init P); auto.
  unfold area. rewrite (s_attr P P' HS). do 2 f_equal. lia.
Qed.
End Step.
End MInv.
