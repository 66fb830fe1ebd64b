(** Proofs for C72: the loops of the test. *)
From Coq Require Import ZArith Bool List Lia Znumtheory.
From Verif Require Import UtilsModel UtilsLemmas RseqIR RseqSpec MemLemmas PoolVM PoolVMLemmas PoolModel PoolInv PoolItem PoolMap PoolRange PoolBitmap PoolOps PoolMalloc PoolFree PoolWorld PoolDestroy PoolCreate PoolHist PoolProps PoolProps2 PoolProps3 PoolProps4 PlacePool ListModel ListSpec ListProofs TestModel TestNr TestProofs.
Import ListNotations.
Local Open Scope Z_scope.

Section Proofs.
Variable e : env.
Variable v0 : vm.
Variables (id s nc il mr head : Z).
Notation page := (PoolVM.page e).
Notation history := (history e true v0).
Notation W := (wsz e).
Hypothesis Hlink : forall q, link v0 q = None.
Hypothesis Hhead : forall k, 0 <= k < 2 * W -> mapped v0 (page (head + k)) = true.
Hypothesis Hrange : 0 <= head < wmax e.
Hypothesis Hsize : 5 * W <= il.
Notation geo := (geo id s nc il mr).
Notation waddr := (waddr e s head).
Notation wvalid := (wvalid id nc).
Notation rd := (rd e s head).
Notation naddr := (naddr e s head).
Notation nvalid := (nvalid id).
Notation shows := (shows e id s head).

Definition nodes (xs : list Z) : list Z := map (fun a => naddr (NI a)) xs.

(** What the program knows in its loops: the items [xs] in the order of the list, of
    which [ys] have not been changed. *)
Record inv (w : world) (L F : ledger) (h : lheap) (xs ys : list Z) : Prop := {
  i_hist : history w L F;
  i_geo : exists P, geo w P;
  i_live : forall a, In (id, a) L <-> In a xs;
  i_shows : shows w L h;
  i_list : is_list h head (nodes xs);
  i_back : forall a, In a xs -> rd w (WI a 0 2) = a;
  i_zero : forall a cpu, In a ys -> 0 <= cpu < nc -> rd w (WI a cpu 0) = 0
}.
(** The items of other pools. *)
Definition others_live (L L' : ledger) : Prop := forall i a, i <> id -> (In (i, a) L' <-> In (i, a) L).

Lemma naddr_not_head : forall w L F P a, history w L F -> geo w P -> In (id, a) L -> naddr (NI a) <> head.
Proof.
  intros w L F P a HH HG Ha E.
  pose proof (naddr_inj e v0 id s nc il mr head Hhead Hsize w L F P (NI a) N0 HH HG Ha Logic.I E) as Q. discriminate Q.
Qed.

Lemma first_valid : forall L xs, (forall a, In (id, a) L <-> In a xs) -> exists m, nvalid L m /\ first_of (nodes xs) head = naddr m.
Proof.
  intros L [|x xs] H; [exists N0; split; [exact Logic.I|reflexivity]|].
  exists (NI x). split; [apply H; left; reflexivity|reflexivity].
Qed.
Lemma last_valid : forall L xs, (forall a, In (id, a) L <-> In a xs) -> exists m, nvalid L m /\ last_of head (nodes xs) = naddr m.
Proof.
  intros L xs H. assert (K : last_of head (nodes xs) = head \/ In (last_of head (nodes xs)) (nodes xs)).
  { clear H. generalize (nodes xs) as l. intros l. generalize head. induction l as [|x l IH]; intros b; [left; reflexivity|].
    rewrite last_of_cons. destruct (IH x) as [E|E]; [right; left; symmetry; exact E|right; right; exact E]. }
  destruct K as [E|E].
  - exists N0. split; [exact Logic.I|exact E].
  - unfold nodes in E at 2. apply in_map_iff in E. destruct E as (x & E & Hx). exists (NI x). split; [apply H; exact Hx|symmetry; exact E].
Qed.

Variable ans : nat -> answers.
Hypothesis Hans : forall k, an_trim1 (ans k) = true /\ an_trim2 (ans k) = true.

(** One round of the first loop. *)
Lemma fill_round : forall w L F h xs k a w1 F1 P1, inv w L F h xs xs ->
  history w1 ((id, a) :: L) F1 -> geo w1 P1 -> ~ In (id, a) L -> (forall l, wvalid L l -> rd w1 l = rd w l) ->
  (forall cpu i, 0 <= cpu < nc -> 0 <= i < 5 -> rd w1 (WI a cpu i) = 0) ->
  exists w2 w3 h' xs', st e w1 (pptr s a 0 + BACKREF e) a = Ok w2 /\
    (if Nat.odd k then m_add e head w2 (pptr s a 0 + NODE e) else m_add_tail e head w2 (pptr s a 0 + NODE e)) = Ok w3 /\
    inv w3 ((id, a) :: L) F1 h' xs' xs' /\ length xs' = S (length xs).
Proof.
  intros w L F h xs k a w1 F1 P1 HI HH1 HG1 Hni Hk Hz. set (L1 := (id, a) :: L) in *.
  pose proof (i_live _ _ _ _ _ _ HI) as Hlv. pose proof (nc_pos e v0 id s nc il mr w1 L1 F1 P1 HH1 HG1) as Hnc.
  assert (Ha1 : In (id, a) L1) by (left; reflexivity).
  assert (Hax : ~ In a xs) by (intros Q; apply Hni; apply Hlv; exact Q).
  assert (Hlv1 : forall b, In (id, b) L1 <-> In b (a :: xs)).
  { intros b. cbn [In L1]. rewrite Hlv. split; (intros [Q|Q]; [left|right; exact Q]); [injection Q as ->; reflexivity|subst b; reflexivity]. }
  (* the heap of the list, with the new node *)
  set (h1 := {| next := fun z => if z =? naddr (NI a) then 0 else next h z; prev := fun z => if z =? naddr (NI a) then 0 else prev h z |}).
  assert (Hne : forall z, In z (head :: nodes xs) -> z <> naddr (NI a)).
  { intros z [<-|Hz'] E; [exact (naddr_not_head _ _ _ _ _ HH1 HG1 Ha1 (eq_sym E))|].
    apply in_map_iff in Hz'. destruct Hz' as (x & Ex & Hx). rewrite E in Ex.
    pose proof (naddr_inj e v0 id s nc il mr head Hhead Hsize w1 L1 F1 P1 (NI x) (NI a) HH1 HG1) as Q. cbn [TestProofs.nvalid] in Q.
    specialize (Q (proj2 (Hlv1 x) (or_intror Hx)) Ha1 Ex). injection Q as ->. exact (Hax Hx). }
  assert (HL1 : is_list h1 head (nodes xs)).
  { destruct (i_list _ _ _ _ _ _ HI) as [Hnd Hch]. split; [exact Hnd|]. refine (chain_frame h h1 _ _ _ _ _ Hch);
      intros z Hz'; cbn [h1 next prev]; (replace (z =? naddr (NI a)) with false; [reflexivity|symmetry; apply Z.eqb_neq; apply Hne; exact Hz']). }
  assert (HS1 : shows w1 L1 h1).
  { intros n Hn. destruct (Z.eq_dec (naddr n) (naddr (NI a))) as [E|E].
    - apply (naddr_inj e v0 id s nc il mr head Hhead Hsize w1 L1 F1 P1 n (NI a) HH1 HG1 Hn Ha1) in E. subst n.
      cbn [h1 next prev nx pv]. rewrite Z.eqb_refl. split; apply Hz; lia.
    - assert (Hn' : nvalid L n).
      { destruct n as [|b]; [exact Logic.I|]. cbn [TestProofs.nvalid] in Hn |- *. destruct Hn as [Q|Q]; [|exact Q]. injection Q as <-. exfalso. apply E. reflexivity. }
      destruct (i_geo _ _ _ _ _ _ HI) as (P & HG).
      destruct (nx_valid e v0 id s nc il mr w L F P n (i_hist _ _ _ _ _ _ HI) HG Hn') as [V1 V2].
      cbn [h1 next prev]. replace (naddr n =? naddr (NI a)) with false by (symmetry; apply Z.eqb_neq; exact E).
      rewrite (Hk _ V1), (Hk _ V2). exact (i_shows _ _ _ _ _ _ HI n Hn'). }
  (* the back reference *)
  assert (V2 : wvalid L1 (WI a 0 2)) by (split; [exact Ha1|lia]).
  pose proof (item_range e v0 id s nc il mr head Hrange Hsize w1 L1 F1 P1 a HH1 HG1 Ha1) as Hra. destruct (W_pos e) as [HWp _].
  destruct (st_ok e v0 id s nc il mr head Hlink Hhead Hsize w1 L1 F1 P1 (WI a 0 2) a HH1 HG1 V2 ltac:(lia)) as (w2 & E2 & HH2 & Ep2 & Er2 & Ho2).
  pose proof (geo_pools id s nc il mr w1 w2 P1 Ep2 HG1) as HG2.
  assert (HS2 : shows w2 L1 h1).
  { intros n Hn. destruct (nx_valid e v0 id s nc il mr w1 L1 F1 P1 n HH1 HG1 Hn) as [U1 U2].
    rewrite (Ho2 _ U1), (Ho2 _ U2); [exact (HS1 n Hn)| |]; intros Q; destruct n; cbn in Q; discriminate Q. }
  exists w2. replace (pptr s a 0 + BACKREF e) with (waddr (WI a 0 2)) by (cbn [TestProofs.waddr]; unfold pptr, BACKREF; ring).
  change (pptr s a 0 + NODE e) with (naddr (NI a)).
  (* what both ways of adding have in common *)
  assert (Hfin : forall w3 h' xs', stepped e v0 id s nc head w2 w3 L1 F1 -> shows w3 L1 h' -> is_list h' head (nodes xs') ->
    (forall b, In b xs' <-> In b (a :: xs)) -> inv w3 L1 F1 h' xs' xs').
  { intros w3 h' xs' (HH3 & Ep3 & Ho3) HS3 HL3 Hx'. constructor.
    - exact HH3.
    - exists P1. exact (geo_pools id s nc il mr w2 w3 P1 Ep3 HG2).
    - intros b. rewrite Hx'. apply Hlv1.
    - exact HS3.
    - exact HL3.
    - intros b Hb. apply Hx' in Hb. rewrite Ho3; [|split; [apply Hlv1; exact Hb|lia]|cbn; lia].
      destruct (Z.eq_dec b a) as [->|Hba]; [exact Er2|]. destruct Hb as [Q|Hb]; [exfalso; apply Hba; symmetry; exact Q|].
      rewrite Ho2; [|split; [apply Hlv1; right; exact Hb|lia]|intros Q; injection Q as Q; exact (Hba Q)].
      rewrite Hk; [apply (i_back _ _ _ _ _ _ HI b Hb)|split; [apply Hlv; exact Hb|lia]].
    - intros b cpu Hb Hc. apply Hx' in Hb. rewrite Ho3; [|split; [apply Hlv1; exact Hb|lia]|cbn; lia].
      rewrite Ho2; [|split; [apply Hlv1; exact Hb|lia]|intros Q; injection Q as _ Q; lia].
      destruct Hb as [<-|Hb]; [apply Hz; lia|].
      rewrite Hk; [apply (i_zero _ _ _ _ _ _ HI b cpu Hb Hc)|split; [apply Hlv; exact Hb|lia]]. }
  assert (Hnew : ~ In (naddr (NI a)) (head :: nodes xs)) by (intros Q; exact (Hne _ Q eq_refl)).
  destruct (Nat.odd k).
  - destruct (first_valid L xs Hlv) as (m & Hm & Em).
    assert (Hm1 : nvalid L1 m) by (destruct m; [exact Logic.I|right; exact Hm]).
    destruct (m_add_ok e v0 id s nc il mr head Hlink Hhead Hrange Hsize w2 L1 F1 P1 h1 (NI a) m HH2 HG2 HS2 Ha1 Hm1) as (w3 & E3 & T3 & S3).
    { rewrite (chain_next _ _ _ _ (proj2 HL1)). exact Em. }
    exists w3, (list_add h1 (naddr (NI a)) head), (a :: xs). split; [exact E2|]. split; [exact E3|]. split; [|reflexivity].
    apply (Hfin w3 _ (a :: xs) T3 S3); [|intros b; reflexivity]. exact (proj1 (list_add_ok h1 head (nodes xs) (naddr (NI a)) HL1 Hnew)).
  - destruct (last_valid L xs Hlv) as (m & Hm & Em).
    assert (Hm1 : nvalid L1 m) by (destruct m; [exact Logic.I|right; exact Hm]).
    destruct (m_add_tail_ok e v0 id s nc il mr head Hlink Hhead Hrange Hsize w2 L1 F1 P1 h1 (NI a) m HH2 HG2 HS2 Ha1 Hm1) as (w3 & E3 & T3 & S3).
    { rewrite (chain_prev _ _ _ _ (proj2 HL1)). exact Em. }
    exists w3, (list_add_tail h1 (naddr (NI a)) head), (xs ++ [a]). split; [exact E2|]. split; [exact E3|].
    split; [|rewrite app_length; cbn; lia].
    apply (Hfin w3 _ (xs ++ [a]) T3 S3).
    + unfold nodes. rewrite map_app. exact (proj1 (list_add_tail_ok h1 head (nodes xs) (naddr (NI a)) HL1 Hnew)).
    + intros b. rewrite in_app_iff. cbn [In]. tauto.
Qed.

Lemma fill_ok : forall fuel k w L F h xs, inv w L F h xs xs -> count id L = Z.of_nat k -> length xs = k ->
  fill e id s head ans fuel k w = Ok None /\ (mr = 0 \/ Z.of_nat (k + fuel) <= mr * (s / il)) \/
  exists k' wb w' L' F' h' xs' P, fill e id s head ans fuel k w = Ok (Some (k', wb, w')) /\
    inv w' L' F' h' xs' xs' /\ length xs' = k' /\ (1 <= k')%nat /\ (k' < k + fuel)%nat /\ count id L' = Z.of_nat k' /\ others_live L L' /\ geo wb P /\
    (mr <> 0 /\ Z.of_nat k' = mr * (s / il) \/ ~ system_grants e P (ans k') (w_vm wb)).
Proof.
  induction fuel as [|fuel IH]; intros k w L F h xs HI Hcnt Hlen.
  - left. split; [reflexivity|]. destruct (Z.eq_dec mr 0) as [Hmr|Hmr]; [left; exact Hmr|right]. destruct (i_geo _ _ _ _ _ _ HI) as (P & Hl & Hs & Hn & Hil & Hm).
    pose proof (p_capacity e _ _ _ _ _ (i_hist _ _ _ _ _ _ HI) id P (lookup_in _ _ _ Hl)) as K. rewrite Hm, Hs, Hil in K. specialize (K Hmr). lia.
  - destruct (i_geo _ _ _ _ _ _ HI) as (P & HG). destruct (Hans k) as [Ht1 Ht2].
    destruct (alloc_ok e v0 id s nc il mr head Hhead Hsize w L F P (ans k) Zeroed (i_hist _ _ _ _ _ _ HI) HG Ht1 Ht2 (or_introl eq_refl))
      as [a w1 F1 P1 Ea HH1 HG1 Hni Hk Hz _|w1 Ea HH1 HG1 Hk HcF HcL Hwhy]; cbn [fill]; rewrite Ea; cbn [bind].
    + destruct (fill_round w L F h xs k a w1 F1 P1 HI HH1 HG1 Hni Hk (Hz eq_refl)) as (w2 & w3 & h' & xs' & E2 & E3 & HI3 & Hl3).
      rewrite E2. cbn [bind]. rewrite E3. cbn [bind].
      destruct (IH (S k) w3 ((id, a) :: L) F1 h' xs' HI3) as [[E Hw]|(k' & wb & w' & L' & F' & h2 & xs2 & P2 & E & HI' & Hl' & Hk' & Hf' & Hc' & Hoth & HGb & Hw)].
      { unfold count in *. cbn [filter fst]. rewrite Z.eqb_refl. cbn [length]. lia. }
      { lia. }
      { left. split; [exact E|]. destruct Hw as [Hw|Hw]; [left; exact Hw|right; lia]. }
      right.       exists k', wb, w', L', F', h2, xs2, P2. split; [exact E|]. split; [exact HI'|]. split; [exact Hl'|]. split; [exact Hk'|]. split; [lia|]. split; [exact Hc'|].
      split; [|split; [exact HGb|exact Hw]].
      intros i b Hi. rewrite (Hoth i b Hi). cbn [In]. split; [intros [Q|Q]; [injection Q as Q _; exfalso; apply Hi; symmetry; exact Q|exact Q]|intros Q; right; exact Q].
    + right. exists k, w, w1, L, F, h, xs, P. split; [reflexivity|]. split.
      { destruct HI as [X1 X2 X3 X4 X5 X6 X7]. constructor; [exact HH1|exists P; exact HG1|exact X3| |exact X5| |].
        - intros n Hn. destruct (nx_valid e v0 id s nc il mr w L F P n X1 HG Hn) as [U1 U2]. rewrite (Hk _ U1), (Hk _ U2). exact (X4 n Hn).
        - intros b Hb. rewrite Hk; [exact (X6 b Hb)|]. pose proof (nc_pos e v0 id s nc il mr w L F P X1 HG). split; [apply X3; exact Hb|lia].
        - intros b cpu Hb Hc. rewrite Hk; [exact (X7 b cpu Hb Hc)|]. split; [apply X3; exact Hb|lia]. }
      split; [exact Hlen|]. split; [lia|]. split; [lia|]. split; [exact Hcnt|]. split; [intros i b Hi; reflexivity|]. split; [exact HG|].
      destruct Hwhy as [[Hm Hw]|Hw]; [left; split; [exact Hm|lia]|right; exact Hw].
Qed.

(** The walk that checks and changes the values. *)
Lemma bump_ok : forall a cpus w L F P, history w L F -> geo w P -> In (id, a) L -> NoDup cpus ->
  (forall c, In c cpus -> 0 <= c < nc /\ rd w (WI a c 0) = 0) ->
  exists w', bump e s a cpus w = Ok w' /\ history w' L F /\ w_pools w' = w_pools w /\
    (forall l, wvalid L l -> (forall c, l <> WI a c 0) -> rd w' l = rd w l).
Proof.
  intros a cpus. induction cpus as [|c cpus IH]; intros w L F P HH HG Ha Hnd Hc.
  - exists w. split; [reflexivity|]. split; [exact HH|]. split; [reflexivity|]. intros l _ _. reflexivity.
  - destruct (Hc c (or_introl eq_refl)) as [Hcn Hz]. assert (V : wvalid L (WI a c 0)) by (split; [exact Ha|lia]).
    assert (EA : pptr s a c + VALUE0 = waddr (WI a c 0)) by (cbn [TestProofs.waddr]; unfold pptr, VALUE0; ring).
    pose proof (ld_ok e v0 id s nc il mr head Hhead Hsize w L F P (WI a c 0) HH HG V) as EL. rewrite Hz in EL.
    destruct (W_pos e) as [HWp _]. pose proof (item_range e v0 id s nc il mr head Hrange Hsize w L F P a HH HG Ha) as Hra.
    destruct (st_ok e v0 id s nc il mr head Hlink Hhead Hsize w L F P (WI a c 0) (0 + 1) HH HG V ltac:(lia)) as (w1 & E1 & HH1 & Ep1 & _ & Ho1).
    cbn [bump]. rewrite EA, EL. cbn [bind]. change (negb (0 =? 0)) with false. cbv iota. rewrite E1. cbn [bind].
    inversion Hnd as [|? ? Hni Hnd']; subst.
    destruct (IH w1 L F P HH1 (geo_pools id s nc il mr w w1 P Ep1 HG) Ha Hnd') as (w' & E & HH' & Ep & Ho).
    { intros d Hd. destruct (Hc d (or_intror Hd)) as [Hdn Hdz]. split; [exact Hdn|]. rewrite Ho1; [exact Hdz|split; [exact Ha|lia]|].
      intros Q. injection Q as ->. exact (Hni Hd). }
    exists w'. split; [exact E|]. split; [exact HH'|]. split; [rewrite Ep; exact Ep1|].
    intros l Hv Hl. rewrite (Ho l Hv Hl). apply Ho1; [exact Hv|apply Hl].
Qed.

(** The node after one of the list. *)
Lemma node_next : forall h pre a ys, is_list h head (nodes (pre ++ a :: ys)) -> next h (naddr (NI a)) = first_of (nodes ys) head.
Proof.
  intros h pre a ys [_ Hch]. unfold nodes in Hch. rewrite map_app in Hch. cbn [map] in Hch. apply chain_app in Hch.
  exact (chain_next _ _ _ _ (proj2 Hch)).
Qed.
Lemma nodes_nodup : forall h xs, is_list h head (nodes xs) -> NoDup xs.
Proof. intros h xs [Hnd _]. inversion Hnd as [|? ? _ Hnd']; subst. exact (NoDup_map_inv _ _ Hnd'). Qed.
Lemma back_addr : forall a, naddr (NI a) - NODE e + BACKREF e = waddr (WI a 0 2).
Proof. intros a. cbn [TestProofs.waddr]. change (naddr (NI a)) with (pptr s a 0 + NODE e). unfold pptr, BACKREF. ring. Qed.

Lemma check_ok : forall ys fuel pre w L F h, inv w L F h (pre ++ ys) ys -> (length ys < fuel)%nat ->
  exists w', check e s nc head fuel (first_of (nodes ys) head) w = Ok (Some w') /\ inv w' L F h (pre ++ ys) [].
Proof.
  induction ys as [|a ys IH]; intros fuel pre w L F h HI Hf; (destruct fuel as [|fuel]; [exfalso; cbn in Hf; lia|]).
  - exists w. cbn [check first_of nodes map]. rewrite Z.eqb_refl. split; [reflexivity|exact HI].
  - pose proof (i_hist _ _ _ _ _ _ HI) as HH. destruct (i_geo _ _ _ _ _ _ HI) as (P & HG). pose proof (i_live _ _ _ _ _ _ HI) as Hlv.
    pose proof (nc_pos e v0 id s nc il mr w L F P HH HG) as Hnc.
    assert (Hin : In a (pre ++ a :: ys)) by (apply in_or_app; right; left; reflexivity).
    assert (Ha : In (id, a) L) by (apply Hlv; exact Hin).
    assert (V2 : wvalid L (WI a 0 2)) by (split; [exact Ha|lia]).
    pose proof (ld_ok e v0 id s nc il mr head Hhead Hsize w L F P (WI a 0 2) HH HG V2) as EL.
    rewrite (i_back _ _ _ _ _ _ HI a Hin) in EL.
    destruct (bump_ok a (zseq 0 nc) w L F P HH HG Ha (NoDup_zseq 0 nc)) as (w1 & E1 & HH1 & Ep1 & Ho1).
    { intros c Hc. apply in_zseq in Hc. split; [lia|]. apply (i_zero _ _ _ _ _ _ HI); [left; reflexivity|lia]. }
    pose proof (geo_pools id s nc il mr w w1 P Ep1 HG) as HG1.
    pose proof (nodes_nodup _ _ (i_list _ _ _ _ _ _ HI)) as Hnd.
    assert (Hnotin : ~ In a ys) by (apply NoDup_remove_2 in Hnd; intros Q; apply Hnd; apply in_or_app; right; exact Q).
    assert (HI1 : inv w1 L F h ((pre ++ [a]) ++ ys) ys).
    { rewrite <- app_assoc. cbn [app]. destruct HI as [X1 X2 X3 X4 X5 X6 X7]. constructor; [exact HH1|exists P; exact HG1|exact X3| |exact X5| |].
      - intros n Hn. destruct (nx_valid e v0 id s nc il mr w L F P n HH HG Hn) as [U1 U2].
        rewrite (Ho1 _ U1), (Ho1 _ U2); [exact (X4 n Hn)| |]; intros c Q; destruct n; cbn in Q; discriminate Q.
      - intros b Hb. rewrite Ho1; [exact (X6 b Hb)|split; [apply X3; exact Hb|lia]|intros c Q; discriminate Q].
      - intros b c Hb Hc. rewrite Ho1; [exact (X7 b c (or_intror Hb) Hc)| |intros d Q; injection Q as -> _; exact (Hnotin Hb)].
        split; [apply X3; apply in_or_app; right; right; exact Hb|lia]. }
    pose proof (ld_next e v0 id s nc il mr head Hhead Hsize w1 L F P h (NI a) HH1 HG1 (i_shows _ _ _ _ _ _ HI1) Ha) as EN.
    rewrite (node_next h pre a ys (i_list _ _ _ _ _ _ HI)) in EN.
    destruct (IH fuel (pre ++ [a]) w1 L F h HI1) as (w' & E & HI'); [cbn in Hf; lia|].
    exists w'. rewrite <- app_assoc in HI'. cbn [app] in HI'. split; [|exact HI'].
    cbn [check nodes map first_of].
    replace (naddr (NI a) =? head) with false by (symmetry; apply Z.eqb_neq; exact (naddr_not_head _ _ _ _ _ HH HG Ha)).
    rewrite (back_addr a), EL. cbn [bind]. rewrite E1. cbn [bind]. rewrite EN. cbn [bind]. exact E.
Qed.

(** Freeing one item. *)
Lemma free_ok : forall w L F P a, history w L F -> geo w P -> In (id, a) L ->
  exists w' L' F' P' y, run1 e (OFree a s) w = Ok (w', y) /\ history w' L' F' /\ geo w' P' /\
    (forall l, wvalid L' l -> wvalid L l /\ rd w' l = rd w l) /\
    (forall b, In (id, b) L' <-> In (id, b) L /\ b <> a) /\ others_live L L'.
Proof.
  intros w L F P a HH HG Ha. pose proof HG as (Hl & Hs & _ & _ & _).
  destruct (p_free_ok e _ _ _ _ _ HH id P a Hl Ha) as (w' & E). rewrite Hs in E.
  assert (Hal : allowed e true v0 w L (OFree a s)) by (exists id, P; split; [exact Hl|split; [exact Ha|symmetry; exact Hs]]).
  destruct (call_geo e v0 id s nc il mr w L F P (OFree a s) w' OutUnit HH HG Hal E Logic.I) as (P' & HG').
  pose proof (hist_step e _ _ _ _ _ _ _ _ HH Hal E) as HH'. cbn [live_after] in HH'.
  set (L' := filter (fun i => negb (snd i =? a)) L) in *.
  assert (Hin : forall i b, In (i, b) L' <-> In (i, b) L /\ b <> a).
  { intros i b. unfold L'. rewrite filter_In. cbn [snd]. rewrite negb_true_iff, Z.eqb_neq. reflexivity. }
  exists w', L', (freed_after (OFree a s) OutUnit L F), P', OutUnit. split; [exact E|]. split; [exact HH'|]. split; [exact HG'|]. split; [|split].
  - intros l Hv. assert (Hvl : wvalid L l).
    { destruct l as [i|b c i]; cbn [TestProofs.wvalid] in Hv |- *; [exact Hv|]. destruct Hv as [Q1 Q2]. split; [exact (proj1 (proj1 (Hin id b) Q1))|exact Q2]. }
    split; [exact Hvl|]. refine (call_keeps e v0 id s nc il mr head Hhead Hsize w L F P (OFree a s) w' OutUnit l HH HG Hal E eq_refl Hvl _).
    destruct l as [i|b c i]; [exact Logic.I|]. destruct Hv as [Q _]. intros Q'. exact (proj2 (proj1 (Hin id b) Q) (eq_sym Q')).
  - intros b. exact (Hin id b).
  - intros i b Hi. rewrite Hin. split; [intros [Q _]; exact Q|intros Q; split; [exact Q|]].
    intros ->. apply Hi. apply (one_owner e true v0 w L F i id a (hist_inv e _ _ _ _ _ HH)); apply in_or_app; left; assumption.
Qed.

(** The walk that frees the items: [h] is what the links were before it. *)
Lemma free_all_ok : forall ys fuel pre w L F P h, history w L F -> geo w P -> (forall a, In (id, a) L <-> In a ys) -> shows w L h ->
  is_list h head (nodes (pre ++ ys)) -> (forall a, In a ys -> rd w (WI a 0 2) = a) -> (length ys < fuel)%nat ->
  exists w' L' F' P', free_all e s head fuel (first_of (nodes ys) head) (next h (first_of (nodes ys) head)) w = Ok (Some w') /\
    history w' L' F' /\ geo w' P' /\ (forall a, ~ In (id, a) L') /\ others_live L L'.
Proof.
  induction ys as [|a ys IH]; intros fuel pre w L F P h HH HG Hlv HS HL HB Hf; (destruct fuel as [|fuel]; [exfalso; cbn in Hf; lia|]).
  - exists w, L, F, P. cbn [free_all first_of nodes map]. rewrite Z.eqb_refl. split; [reflexivity|]. split; [exact HH|]. split; [exact HG|].
    split; [intros a Q; apply Hlv in Q; destruct Q|intros i b _; reflexivity].
  - pose proof (nc_pos e v0 id s nc il mr w L F P HH HG) as Hnc.
    assert (Ha : In (id, a) L) by (apply Hlv; left; reflexivity).
    assert (V2 : wvalid L (WI a 0 2)) by (split; [exact Ha|lia]).
    pose proof (ld_ok e v0 id s nc il mr head Hhead Hsize w L F P (WI a 0 2) HH HG V2) as EL. rewrite (HB a (or_introl eq_refl)) in EL.
    destruct (free_ok w L F P a HH HG Ha) as (w1 & L1 & F1 & P1 & y & E1 & HH1 & HG1 & Hk1 & Hl1 & Ho1).
    pose proof (nodes_nodup _ _ HL) as Hnd.
    assert (Hnotin : ~ In a ys) by (apply NoDup_remove_2 in Hnd; intros Q; apply Hnd; apply in_or_app; right; exact Q).
    assert (Hlv1 : forall b, In (id, b) L1 <-> In b ys).
    { intros b. rewrite Hl1, Hlv. cbn [In]. split; [intros [[Q|Q] N]; [exfalso; apply N; symmetry; exact Q|exact Q]|].
      intros Q. split; [right; exact Q|]. intros ->. exact (Hnotin Q). }
    assert (HS1 : shows w1 L1 h).
    { intros n Hn. destruct (nx_valid e v0 id s nc il mr w1 L1 F1 P1 n HH1 HG1 Hn) as [U1 U2].
      rewrite (proj2 (Hk1 _ U1)), (proj2 (Hk1 _ U2)). apply HS. destruct n as [|b]; [exact Logic.I|]. exact (proj1 (proj1 (Hl1 b) Hn)). }
    pose proof (node_next h pre a ys HL) as EN. destruct (first_valid L1 ys Hlv1) as (m & Hm & Em).
    pose proof (ld_next e v0 id s nc il mr head Hhead Hsize w1 L1 F1 P1 h m HH1 HG1 HS1 Hm) as EM. rewrite <- Em in EM.
    destruct (IH fuel (pre ++ [a]) w1 L1 F1 P1 h HH1 HG1 Hlv1 HS1) as (w' & L' & F' & P' & E & HH' & HG' & Hno & Hoth).
    { rewrite <- app_assoc. exact HL. }
    { intros b Hb. rewrite (proj2 (Hk1 (WI b 0 2) ltac:(split; [apply Hlv1; exact Hb|lia]))). apply HB. right. exact Hb. }
    { cbn in Hf. lia. }
    exists w', L', F', P'. split; [|split; [exact HH'|split; [exact HG'|split; [exact Hno|]]]].
    + cbn [free_all nodes map first_of].
      replace (naddr (NI a) =? head) with false by (symmetry; apply Z.eqb_neq; exact (naddr_not_head _ _ _ _ _ HH HG Ha)).
      rewrite (back_addr a), EL. cbn [bind]. rewrite E1. cbn [bind fst]. rewrite EN, EM. cbn [bind]. exact E.
    + intros i b Hi. rewrite (Hoth i b Hi). exact (Ho1 i b Hi).
Qed.

(** The whole test. *)
Lemma test_ok : forall w L F P an1 an2 an3 fuel, history w L F -> geo w P -> (forall a, ~ In (id, a) L) ->
  an_trim1 an1 = true -> an_trim2 an1 = true -> an_trim1 an2 = true -> an_trim2 an2 = true -> (forall a, an_munmap an3 a = true) ->
  test_fill e id s nc head ans an1 an2 an3 fuel w = Ok None /\ (mr = 0 \/ Z.of_nat fuel <= mr * (s / il)) \/
  exists t Pr L' F', test_fill e id s nc head ans an1 an2 an3 fuel w = Ok (Some t) /\
    (1 <= t_count t)%nat /\ geo (t_refused t) Pr /\
    (mr <> 0 /\ Z.of_nat (t_count t) = mr * (s / il) \/ ~ system_grants e Pr (ans (t_count t)) (w_vm (t_refused t))) /\
    t_values t = true /\ t_ret t = Some 0 /\ lookup id (w_pools (t_end t)) = None /\
    history (t_end t) L' F' /\ forall x, In x L' <-> In x L.
Proof.
  intros w L F P an1 an2 an3 fuel HH HG Hno T11 T12 T21 T22 Hun.
  assert (HS0 : shows w L {| next := fun _ => rd w (WH 0); prev := fun _ => rd w (WH 1) |}).
  { intros [|a] Hn; [split; reflexivity|destruct (Hno a Hn)]. }
  destruct (m_init_ok e v0 id s nc il mr head Hlink Hhead Hrange Hsize w L F P _ HH HG HS0) as (w1 & E1 & (HH1 & Ep1 & Ho1) & h1 & HS1 & HL1).
  pose proof (geo_pools id s nc il mr w w1 P Ep1 HG) as HG1.
  assert (HI1 : inv w1 L F h1 [] []).
  { constructor; [exact HH1|exists P; exact HG1| |exact HS1|exact HL1|intros a []|intros a c []].
    intros a. split; [intros Q; destruct (Hno a Q)|intros []]. }
  assert (Hc0 : count id L = Z.of_nat 0).
  { unfold count. replace (filter (fun i => fst i =? id) L) with (@nil (Z * Z)); [reflexivity|]. symmetry.
    destruct (filter (fun i => fst i =? id) L) as [|[i a] l] eqn:E; [reflexivity|exfalso].
    assert (Q : In (i, a) (filter (fun i => fst i =? id) L)) by (rewrite E; left; reflexivity).
    apply filter_In in Q. cbn [fst] in Q. destruct Q as [Q1 Q2]. apply Z.eqb_eq in Q2. subst i. exact (Hno a Q1). }
  destruct (fill_ok fuel 0 w1 L F h1 [] HI1 Hc0 eq_refl) as [[E2 Hw]|(k & wb & w2 & L2 & F2 & h2 & xs & Pb & E2 & HI2 & Hlen & Hk & Hkf & Hc2 & Ho2 & HGb & Hwhy)].
  { left. split; [|exact Hw]. unfold test_fill. rewrite E1. cbn [bind]. rewrite E2. reflexivity. }
  right.
  destruct (i_geo _ _ _ _ _ _ HI2) as (P2 & HG2). pose proof (i_hist _ _ _ _ _ _ HI2) as HH2.
  assert (Hcap : (length xs < fuel)%nat) by (rewrite Hlen; exact Hkf).
  pose proof (ld_next e v0 id s nc il mr head Hhead Hsize w2 L2 F2 P2 h2 N0 HH2 HG2 (i_shows _ _ _ _ _ _ HI2) Logic.I) as EL2. cbn [TestProofs.naddr] in EL2.
  pose proof (chain_next _ _ _ _ (proj2 (i_list _ _ _ _ _ _ HI2))) as EN2. rewrite EN2 in EL2.
  destruct (check_ok xs fuel [] w2 L2 F2 h2 HI2 Hcap) as (w3 & E3 & HI3). cbn [app] in HI3.
  destruct (i_geo _ _ _ _ _ _ HI3) as (P3 & HG3). pose proof (i_hist _ _ _ _ _ _ HI3) as HH3.
  pose proof (ld_next e v0 id s nc il mr head Hhead Hsize w3 L2 F2 P3 h2 N0 HH3 HG3 (i_shows _ _ _ _ _ _ HI3) Logic.I) as EL3. cbn [TestProofs.naddr] in EL3. rewrite EN2 in EL3.
  destruct (first_valid L2 xs (i_live _ _ _ _ _ _ HI3)) as (m & Hm & Em).
  pose proof (ld_next e v0 id s nc il mr head Hhead Hsize w3 L2 F2 P3 h2 m HH3 HG3 (i_shows _ _ _ _ _ _ HI3) Hm) as EM. rewrite <- Em in EM.
  destruct (free_all_ok xs fuel [] w3 L2 F2 P3 h2 HH3 HG3 (i_live _ _ _ _ _ _ HI3) (i_shows _ _ _ _ _ _ HI3) (i_list _ _ _ _ _ _ HI3)
    (i_back _ _ _ _ _ _ HI3) Hcap) as (w4 & L4 & F4 & P4 & E4 & HH4 & HG4 & Hno4 & Ho4).
  assert (Hzero : forall M : ledger, (forall a, ~ In (id, a) M) -> ~ 1 <= count id M).
  { intros M HM. unfold count. destruct (filter (fun i => fst i =? id) M) as [|[i a] l] eqn:E; [cbn; lia|exfalso].
    assert (Q : In (i, a) (filter (fun i => fst i =? id) M)) by (rewrite E; left; reflexivity).
    apply filter_In in Q. cbn [fst] in Q. destruct Q as [Q1 Q2]. apply Z.eqb_eq in Q2. subst i. exact (HM a Q1). }
  destruct (alloc_ok e v0 id s nc il mr head Hhead Hsize w4 L4 F4 P4 an1 Zeroed HH4 HG4 T11 T12 (or_introl eq_refl))
    as [a w5 F5 P5 E5 HH5 HG5 _ _ _ _|w5 _ _ _ _ _ Q _]; [|destruct (Hzero _ Hno4 Q)].
  destruct (free_ok w5 _ F5 P5 a HH5 HG5 (or_introl eq_refl)) as (w6 & L6 & F6 & P6 & y6 & E6 & HH6 & HG6 & _ & Hl6 & Ho6).
  assert (Hno6 : forall b, ~ In (id, b) L6).
  { intros b Q. apply Hl6 in Q. destruct Q as [[Q|Q] N]; [injection Q as Q; exact (N (eq_sym Q))|exact (Hno4 b Q)]. }
  destruct (alloc_ok e v0 id s nc il mr head Hhead Hsize w6 L6 F6 P6 an2 (Bytes (init_value e)) HH6 HG6 T21 T22 (or_intror eq_refl))
    as [b w7 F7 P7 E7 HH7 HG7 _ _ _ Hv7|w7 _ _ _ _ _ Q _]; [|destruct (Hzero _ Hno6 Q)].
  destruct (Hv7 eq_refl) as [V0 V1]. pose proof (nc_pos e v0 id s nc il mr w7 _ F7 P7 HH7 HG7) as Hnc.
  pose proof (ld_ok e v0 id s nc il mr head Hhead Hsize w7 _ F7 P7 (WI b 0 0) HH7 HG7 ltac:(split; [left; reflexivity|lia])) as EV0.
  pose proof (ld_ok e v0 id s nc il mr head Hhead Hsize w7 _ F7 P7 (WI b 0 1) HH7 HG7 ltac:(split; [left; reflexivity|lia])) as EV1.
  rewrite V0 in EV0. rewrite V1 in EV1.
  replace (waddr (WI b 0 0)) with (b + VALUE0) in EV0 by (cbn [TestProofs.waddr]; unfold VALUE0; ring).
  replace (waddr (WI b 0 1)) with (b + VALUE1 e) in EV1 by (cbn [TestProofs.waddr]; unfold VALUE1; ring).
  destruct (free_ok w7 _ F7 P7 b HH7 HG7 (or_introl eq_refl)) as (w8 & L8 & F8 & P8 & y8 & E8 & HH8 & HG8 & _ & Hl8 & Ho8).
  assert (Hno8 : forall c, ~ In (id, c) L8).
  { intros c Q. apply Hl8 in Q. destruct Q as [[Q|Q] N]; [injection Q as Q; exact (N (eq_sym Q))|exact (Hno6 c Q)]. }
  assert (Hal : allowed e true v0 w8 L8 (ODestroy id an3)) by (exists P8; exact (proj1 HG8)).
  destruct (p_no_alarm e _ _ _ _ _ HH8 (ODestroy id an3) eq_refl Hal Hno8) as (w9 & x & E9).
  destruct (p_destroy_unmaps e _ _ _ _ _ HH8 id P8 an3 w9 x (proj1 HG8) Hun E9) as (Ex & Hgone & _). subst x.
  pose proof (hist_step e _ _ _ _ _ _ _ _ HH8 Hal E9) as HH9.
  eexists {| t_count := k; t_refused := wb; t_end := w9; t_values := true; t_ret := Some 0 |}, Pb, _, _.
  cbn [t_count t_refused t_end t_values t_ret]. split; [|split; [exact Hk|split; [exact HGb|split; [exact Hwhy|split; [reflexivity|split; [reflexivity|split; [exact Hgone|split; [exact HH9|]]]]]]]].
  - unfold test_fill. rewrite E1. cbn [bind]. rewrite E2. cbn [bind]. rewrite EL2. cbn [bind]. rewrite E3. cbn [bind].
    rewrite EL3. cbn [bind]. rewrite EM. cbn [bind]. rewrite E4. cbn [bind]. rewrite E5. cbn [bind]. rewrite E6. cbn [bind fst].
    rewrite E7. cbn [bind]. rewrite EV0. cbn [bind]. rewrite EV1. cbn [bind]. rewrite E8. cbn [bind fst]. rewrite E9. cbn [bind fst snd]. reflexivity.
  - intros [i c]. cbn [live_after]. rewrite filter_In. cbn [fst]. rewrite negb_true_iff, Z.eqb_neq.
    destruct (Z.eq_dec i id) as [->|Hi].
    + split; [intros [_ Q]; destruct (Q eq_refl)|intros Q; destruct (Hno c Q)].
    + assert (X : forall M a0, In (i, c) ((id, a0) :: M) <-> In (i, c) M).
      { intros M a0. cbn [In]. split; [intros [Q|Q]; [injection Q as Q _; destruct (Hi (eq_sym Q))|exact Q]|intros Q; right; exact Q]. }
      rewrite (Ho8 i c Hi), X, (Ho6 i c Hi), X, (Ho4 i c Hi), (Ho2 i c Hi). split; [intros [Q _]; exact Q|intros Q; split; [exact Q|exact Hi]].
Qed.
End Proofs.
