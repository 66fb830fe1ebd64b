(** Proofs about heap blocks, descriptors and mutexes (C64). *)
From Coq Require Import ZArith Bool List Lia Permutation.
From Verif Require Import UtilsModel RseqIR PoolVM PoolModel PoolWorld PoolSetModel ResSpec ResModel.
From Verif Require SmpModel.
Import ListNotations.
Local Open Scope Z_scope.

(** ** Triples for the monitor *)
Definition runs {A} (b : books) (m : wr A) (Q : A -> books -> Prop) : Prop :=
  match monitor (fst m) b with
  | Wrong => False
  | Impossible => True
  | Fine b' => match snd m with Ok x => Q x b' | _ => True end
  end.

Lemma monitor_app : forall l l' b,
  monitor (l ++ l') b = match monitor l b with Fine b => monitor l' b | x => x end.
Proof. induction l as [|ev l IH]; intros; cbn [app monitor]; [reflexivity|]. destruct (event_of ev b); auto. Qed.

Lemma runs_ret : forall A (x : A) b (Q : A -> books -> Prop), Q x b -> runs b (wret x) Q.
Proof. intros. exact H. Qed.
Lemma runs_lift : forall A (r : res A) b (Q : A -> books -> Prop), (forall x, r = Ok x -> Q x b) -> runs b (lift r) Q.
Proof. intros. unfold runs. cbn. destruct r; auto. Qed.
Lemma runs_bind : forall A B (m : wr A) (f : A -> wr B) b (Q' : A -> books -> Prop) Q,
  runs b m Q' -> (forall x b', snd m = Ok x -> Q' x b' -> runs b' (f x) Q) -> runs b (wbind m f) Q.
Proof.
  intros A B [t r] f b Q' Q H K. unfold runs in *. cbn in H |- *.
  destruct r as [x| |]; cbn.
  - specialize (K x). destruct (f x) as [t' r'] eqn:Ef. cbn in *. rewrite monitor_app.
    destruct (monitor t b) as [b'| |]; auto. specialize (K b' eq_refl H). exact K.
  - destruct (monitor t b); auto.
  - destruct (monitor t b); auto.
Qed.
Lemma runs_imp : forall A (m : wr A) b (Q Q' : A -> books -> Prop),
  runs b m Q -> (forall x b', Q x b' -> Q' x b') -> runs b m Q'.
Proof. unfold runs. intros. destruct (monitor (fst m) b); auto. destruct (snd m); auto. Qed.

(** ** Lists *)
Lemma has_in : forall l x, has l x = true <-> In x l.
Proof.
  intros. unfold has. rewrite existsb_exists. split.
  - intros (y & Hy & E). apply Z.eqb_eq in E. subst. exact Hy.
  - intros. exists x. split; [assumption|]. apply Z.eqb_refl.
Qed.
Lemma has_not : forall l x, has l x = false <-> ~ In x l.
Proof. intros. rewrite <- has_in. destruct (has l x); split; intros; try congruence; auto. Qed.
Lemma drop_not : forall l x, ~ In x l -> drop l x = l.
Proof.
  induction l as [|y l IH]; intros; [reflexivity|]. cbn. destruct (Z.eqb_spec y x) as [->|N]; cbn.
  - exfalso. apply H. left. reflexivity.
  - f_equal. apply IH. intros K. apply H. right. exact K.
Qed.
Lemma perm_filter : forall A (f : A -> bool) l l', Permutation l l' -> Permutation (filter f l) (filter f l').
Proof.
  induction 1; cbn.
  - constructor.
  - destruct (f x); [constructor|]; assumption.
  - destruct (f x), (f y); try constructor; apply Permutation_refl.
  - eapply Permutation_trans; eassumption.
Qed.
Lemma drop_perm : forall l x l', NoDup l -> Permutation l (x :: l') -> Permutation (drop l x) l'.
Proof.
  intros l x l' N P. assert (N' : NoDup (x :: l')) by (eapply Permutation_NoDup; eauto).
  inversion N' as [|? ? H1 H2]; subst.
  assert (Permutation (drop l x) (drop (x :: l') x)) by (apply perm_filter; exact P).
  cbn in H. rewrite Z.eqb_refl in H. cbn in H. fold (drop l' x) in H. rewrite (drop_not l' x H1) in H. exact H.
Qed.

(** What the books say, up to order. *)
Record st (b : books) (H M F : list Z) (h : option Z) : Prop := {
  st_heap : Permutation (heap b) H;
  st_mut : Permutation (mutexes b) M;
  st_fds : Permutation (fds b) F;
  st_held : held b = h;
  st_nh : NoDup H; st_nm : NoDup M; st_nf : NoDup F
}.

Lemma st_perm : forall b H M F h H' M' F', st b H M F h -> Permutation H H' -> Permutation M M' -> Permutation F F' ->
  st b H' M' F' h.
Proof.
  intros b H M F h H' M' F' [] P1 P2 P3.
  constructor; auto; try (eapply Permutation_trans; eassumption); eapply Permutation_NoDup; eauto.
Qed.

Section Ev.
Variables (b : books) (H M F : list Z) (h : option Z).
Hypothesis HS : st b H M F h.
Lemma in_heap : forall p, In p (heap b) <-> In p H.
Proof. intros. split; apply Permutation_in; [|apply Permutation_sym]; apply HS. Qed.
Lemma in_mut : forall p, In p (mutexes b) <-> In p M.
Proof. intros. split; apply Permutation_in; [|apply Permutation_sym]; apply HS. Qed.
Lemma in_fds : forall p, In p (fds b) <-> In p F.
Proof. intros. split; apply Permutation_in; [|apply Permutation_sym]; apply HS. Qed.

Lemma r_alloc : forall p, runs b (emit (EAlloc p)) (fun _ b' => st b' (p :: H) M F h /\ ~ In p H).
Proof.
  intros p. unfold runs. cbn. destruct (has (heap b) p) eqn:E; [exact Logic.I|].
  apply has_not in E. rewrite in_heap in E. split; [|exact E]. destruct HS.
  constructor; cbn; auto. constructor; auto.
Qed.
Lemma r_free0 : runs b (emit (EFree 0)) (fun _ b' => st b' H M F h).
Proof. unfold runs. cbn. exact HS. Qed.
Lemma r_free : forall p H', Permutation H (p :: H') -> p <> 0 -> ~ In p M ->
  runs b (emit (EFree p)) (fun _ b' => st b' H' M F h).
Proof.
  intros p H' P N0 NM. unfold runs. cbn. destruct (Z.eqb_spec p 0); [contradiction|].
  assert (E : has (heap b) p = true).
  { apply has_in. apply in_heap. eapply Permutation_in; [apply Permutation_sym; exact P|]. left; reflexivity. }
  assert (E2 : has (mutexes b) p = false) by (apply has_not; rewrite in_mut; exact NM).
  rewrite E, E2. cbn. destruct HS as [Ph Pm Pf Hh Nh Nm Nf].
  assert (NH : NoDup (p :: H')) by (eapply Permutation_NoDup; eauto).
  constructor; cbn; auto.
  - apply drop_perm.
    + eapply Permutation_NoDup; [apply Permutation_sym; exact Ph|exact Nh].
    + eapply Permutation_trans; eassumption.
  - inversion NH; assumption.
Qed.
Lemma r_touch : forall p, In p H -> runs b (emit (ETouch p)) (fun _ b' => st b' H M F h).
Proof.
  intros p Hp. unfold runs. cbn. assert (E : has (heap b) p = true) by (apply has_in; apply in_heap; exact Hp).
  rewrite E. exact HS.
Qed.
Lemma r_open : forall fd, runs b (emit (EOpen fd)) (fun _ b' => st b' H M (fd :: F) h).
Proof.
  intros p. unfold runs. cbn. destruct (has (fds b) p) eqn:E; [exact Logic.I|].
  apply has_not in E. rewrite in_fds in E. destruct HS. constructor; cbn; auto. constructor; auto.
Qed.
Lemma r_close : forall fd F', Permutation F (fd :: F') -> runs b (emit (EClose fd)) (fun _ b' => st b' H M F' h).
Proof.
  intros p F' P. unfold runs. cbn.
  assert (E : has (fds b) p = true).
  { apply has_in. apply in_fds. eapply Permutation_in; [apply Permutation_sym; exact P|]. left; reflexivity. }
  rewrite E. destruct HS as [Ph Pm Pf Hh Nh Nm Nf].
  assert (NH : NoDup (p :: F')) by (eapply Permutation_NoDup; eauto).
  constructor; cbn; auto.
  - apply drop_perm.
    + eapply Permutation_NoDup; [apply Permutation_sym; exact Pf|exact Nf].
    + eapply Permutation_trans; eassumption.
  - inversion NH; assumption.
Qed.
Lemma r_init : forall m, In m H -> ~ In m M -> runs b (emit (EInit m)) (fun _ b' => st b' H (m :: M) F h).
Proof.
  intros m Hm NM. unfold runs. cbn. assert (E : has (heap b) m = true) by (apply has_in; apply in_heap; exact Hm).
  assert (E2 : has (mutexes b) m = false) by (apply has_not; rewrite in_mut; exact NM).
  rewrite E, E2. cbn. destruct HS. constructor; cbn; auto. constructor; auto.
Qed.
Lemma r_lock : forall m, h = None -> In m M -> runs b (emit (ELock m)) (fun _ b' => st b' H M F (Some m)).
Proof.
  intros m Eh Hm. unfold runs. cbn. rewrite (st_held _ _ _ _ _ HS), Eh.
  assert (E : has (mutexes b) m = true) by (apply has_in; apply in_mut; exact Hm). rewrite E.
  destruct HS. constructor; cbn; auto.
Qed.
Lemma r_use : forall m, h = Some m -> runs b (emit (EUse m)) (fun _ b' => st b' H M F (Some m)).
Proof.
  intros m Eh. unfold runs. cbn. unfold holds. rewrite (st_held _ _ _ _ _ HS), Eh, Z.eqb_refl. rewrite <- Eh. exact HS.
Qed.
Lemma r_unlock : forall m, h = Some m -> runs b (emit (EUnlock m)) (fun _ b' => st b' H M F None).
Proof.
  intros m Eh. unfold runs. cbn. unfold holds. rewrite (st_held _ _ _ _ _ HS), Eh, Z.eqb_refl.
  destruct HS. constructor; cbn; auto.
Qed.
Lemma r_kill : forall m M', h = None -> Permutation M (m :: M') -> runs b (emit (EKill m)) (fun _ b' => st b' H M' F None).
Proof.
  intros p M' Eh P. unfold runs. cbn. unfold holds. rewrite (st_held _ _ _ _ _ HS), Eh.
  assert (E : has (mutexes b) p = true).
  { apply has_in. apply in_mut. eapply Permutation_in; [apply Permutation_sym; exact P|]. left; reflexivity. }
  rewrite E. cbn. destruct HS as [Ph Pm Pf Hh Nh Nm Nf]. rewrite Eh in Hh.
  assert (NH : NoDup (p :: M')) by (eapply Permutation_NoDup; eauto).
  constructor; cbn; auto.
  - apply drop_perm.
    + eapply Permutation_NoDup; [apply Permutation_sym; exact Pm|exact Nm].
    + eapply Permutation_trans; eassumption.
  - inversion NH; assumption.
Qed.
End Ev.

(** ** Blocks of the objects *)
Definition has_bm (r : range) : bool := match alloc_bitmap r with Some _ => true | None => false end.
Record pok (p : rpool) : Prop := {
  pk_len : length (bitmaps p) = length (range_list (core p));
  pk_ranges : Forall (fun r => has_bm r = robust_set (pattr (core p))) (range_list (core p));
  pk_bms : Forall (fun b => negb (b =? 0) = robust_set (pattr (core p))) (bitmaps p);
  pk_self : self p <> 0
}.

Section P.
Variable e : env.

Ltac bnd := eapply runs_bind; [|let b := fresh "b" in let HS := fresh "HS" in let u := fresh "u" in intros u b _ HS].

Lemma s_range_destroy : forall an r bm acc v b H M F h,
  st b (nz bm ++ H) M F h -> ~ In bm M ->
  runs b (range_destroy_r e an r bm acc v)
    (fun x b' => st b' H M F h /\ (fst (fst x) = false -> exists a, an_munmap an a = false)).
Proof.
  intros an r bm acc v b H M F h HS NM. unfold range_destroy_r, destroy_alloc_bitmap_r.
  eapply runs_bind with (Q' := fun _ b' => st b' H M F h).
  - unfold nz in HS. destruct (Z.eqb_spec bm 0) as [->|N].
    + apply runs_ret. exact HS.
    + bnd; [eapply r_touch; [exact HS|left; reflexivity]|]. cbn in HS0.
      eapply runs_bind with (Q' := fun _ b' => st b' (bm :: H) M F h).
      { apply runs_lift. intros. exact HS0. }
      intros r' b1 _ HS1. bnd; [eapply r_free; [exact HS1|apply Permutation_refl|exact N|exact NM]|].
      apply runs_ret. exact HS2.
  - intros r' b1 _ HS1.
    destruct acc.
    + destruct (an_munmap an (mmap_addr r')) eqn:E; apply runs_ret; cbn; split; auto; try congruence. eauto.
    + destruct (an_munmap an (header r')) eqn:E; apply runs_ret; cbn; split; auto; try congruence. eauto.
Qed.

Lemma s_close : forall fd b H M F h, st b H M (if fd <? 0 then F else fd :: F) h ->
  runs b (memfd_close fd) (fun _ b' => st b' H M F h).
Proof.
  intros fd b H M F h HS. unfold memfd_close. destruct (fd <? 0).
  - apply runs_ret. exact HS.
  - eapply r_close; [exact HS|apply Permutation_refl].
Qed.
Lemma s_memfd : forall s b H M F h, st b H M F h ->
  runs b (memfd_create_init s) (fun fd b' => st b' H M (if fd <? 0 then F else fd :: F) h).
Proof.
  intros s b H M F h HS. unfold memfd_create_init. destruct (s_fd s <? 0) eqn:E.
  - apply runs_ret. rewrite E. exact HS.
  - bnd; [eapply r_open; exact HS|]. destruct (s_trunc s); cbn [negb].
    + apply runs_ret. rewrite E. exact HS0.
    + bnd; [eapply r_close; [exact HS0|apply Permutation_refl]|]. apply runs_ret. exact HS1.
Qed.

Definition same_pool (P P' : pool) : Prop := range_list P' = range_list P /\ pattr P' = pattr P.

Definition made_range (P : pool) (H M F : list Z) (h : option Z) (x : option (range * Z) * pool * PoolVM.vm) (b' : books) : Prop :=
    same_pool P (snd (fst x)) /\
    match fst (fst x) with
    | None => st b' H M F h
    | Some (r, bm) => st b' (nz bm ++ H) M F h /\ has_bm r = robust_set (pattr P) /\ negb (bm =? 0) = robust_set (pattr P)
    end.

Lemma s_error_alloc : forall P an memfd bm r v b H M F h,
  st b (nz bm ++ H) M (if memfd <? 0 then F else memfd :: F) h -> ~ In bm M ->
  runs b (error_alloc_r e P an memfd bm r v) (made_range P H M F h).
Proof.
  intros P an memfd bm r v' b' H M F h HS' Hn. unfold error_alloc_r. bnd; [eapply s_close; exact HS'|]. cbn beta in HS.
  eapply runs_bind; [eapply s_range_destroy; [exact HS|exact Hn]|].
  intros [[ok r'] v''] b2 _ [HS2 _]. apply runs_ret. split; [split; reflexivity|exact HS2].
Qed.
Lemma s_after_init : forall P s bs r v b H M F h, st b H M F h -> incl M H -> ~ In 0 M -> has_bm r = false ->
  runs b (after_init_r e P s bs r v) (made_range P H M F h).
Proof.
  intros P s bs r v' b' H M F h HS' Hi H0 Hr. unfold after_init_r. cbv zeta.
  eapply runs_bind with (Q' := fun y b' => match y with
    | None => st b' H M F h
    | Some (r, bm) => st b' (nz bm ++ H) M F h /\ has_bm r = robust_set (pattr P) /\ negb (bm =? 0) = robust_set (pattr P) /\ ~ In bm M
    end).
  - destruct (robust_set (pattr P)).
    + destruct (Z.eqb_spec (s_bitmap s) 0) as [E|N]; [apply runs_ret; exact HS'|].
      eapply runs_bind; [eapply r_alloc; exact HS'|]. intros [] b2 _ [HS2 Hn]. apply runs_ret.
      unfold nz. destruct (Z.eqb_spec (s_bitmap s) 0); [contradiction|]. split; [exact HS2|]. split; [reflexivity|]. split; [reflexivity|]. auto.
    + apply runs_ret. split; [exact HS'|]. split; [exact Hr|]. split; [reflexivity|]. exact H0.
  - intros [[r2 bm]|] b2 _ Hq.
    + destruct Hq as (HS2 & E1 & E2 & E3).
      match goal with |- context [match ?iv with Some v => wret _ | None => _ end] => destruct iv end.
      * apply runs_ret. split; [split; reflexivity|]. cbn. split; [exact HS2|]. split; [exact E1|]. exact E2.
      * apply s_error_alloc; assumption.
    + apply s_error_alloc; assumption.
Qed.

Lemma s_range_create : forall P s v b H M F h, st b H M F h -> incl M H -> ~ In 0 M ->
  runs b (range_create_r e P s v) (made_range P H M F h).
Proof.
  intros P s v b H M F h HS Hi H0. unfold range_create_r. cbv zeta.
  destruct (negb (max_nr_ranges (pattr P) =? 0) && (max_nr_ranges (pattr P) <=? nr_ranges P)).
  { apply runs_ret. split; [split; reflexivity|exact HS]. }
  eapply runs_bind with (Q' := fun _ b' => st b' H M F h).
  { apply runs_lift. intros. exact HS. }
  intros m b1 _ HS1. destruct m as [[[bs hd0]|] v1]; [|apply runs_ret; split; [split; reflexivity|exact HS1]].
  match goal with |- context [Build_range ?a1 ?a2 ?a3 ?a4 ?a5 ?a6 ?a7] => set (r0 := Build_range a1 a2 a3 a4 a5 a6 a7) end.
  assert (Hr0 : has_bm r0 = false) by reflexivity.
  clearbody r0.
  destruct (init r0) as [ip|]; [|apply s_after_init; assumption].
  bnd; [eapply s_memfd; exact HS1|]. cbn beta in HS0. rename u into fd.
  destruct (fd <? 0) eqn:Efd; [apply s_error_alloc; [rewrite Efd; exact HS0|exact H0]|].
  assert (Herr' : forall r v, runs b0 (error_alloc_r e P (plain s) fd 0 r v) (made_range P H M F h)).
  { intros. apply s_error_alloc; [rewrite Efd; exact HS0|exact H0]. }
  destruct (an_map_init (plain s)); cbn [negb]; [|apply Herr'].
  destruct (type (pattr P) =? TYPE_PERCPU); cbn [negb]; [|apply runs_lift; intros x Hx; discriminate Hx].
  destruct (forallb (an_map_cpu (plain s)) (cpus P)); cbn [negb]; [|apply Herr'].
  destruct (an_dontfork (plain s)); cbn [negb]; [|apply Herr'].
  destruct (an_wipe (plain s)); cbn [negb]; [|apply Herr'].
  bnd; [eapply s_close; rewrite Efd; exact HS0|]. apply s_after_init; assumption.
Qed.

Lemma in_nz : forall x p, In x (nz p) <-> x = p /\ p <> 0.
Proof.
  intros. unfold nz. destruct (Z.eqb_spec p 0) as [->|N]; cbn; split; intros H.
  - destruct H.
  - destruct H as [_ H]. apply H. reflexivity.
  - destruct H as [->|[]]. auto.
  - destruct H as [-> _]. auto.
Qed.
Lemma in_nzs : forall x l, In x (nzs l) <-> In x l /\ x <> 0.
Proof.
  intros. unfold nzs. rewrite in_flat_map. split.
  - intros (y & Hy & E). apply in_nz in E. destruct E as [-> E]. auto.
  - intros [Hx N]. exists x. split; [exact Hx|]. apply in_nz. auto.
Qed.

Lemma s_destroy_ranges : forall P an acc l bms v b H M F h,
  st b (nzs bms ++ H) M F h -> length bms = length l -> (forall x, In x bms -> ~ In x M) ->
  runs b (destroy_ranges_r e P an acc l bms v) (fun x b' =>
    match fst x with
    | None => st b' H M F h
    | Some (_, bms') => st b' (nzs bms' ++ H) M F h /\ exists a, an_munmap an a = false
    end).
Proof.
  intros P an acc l. induction l as [|r l IH]; intros bms v b H M F h HS Hl HN; destruct bms as [|bm bms]; try discriminate Hl;
    cbn [destroy_ranges_r].
  - apply runs_ret. exact HS.
  - cbn [hd tl]. eapply runs_bind.
    + eapply s_range_destroy with (H := nzs bms ++ H).
      * cbn [nzs flat_map] in HS. rewrite <- app_assoc in HS. exact HS.
      * apply HN. left. reflexivity.
    + intros [[ok r'] v'] c1 _ [HS1 Hok]. cbn in Hok. destruct ok.
      * apply IH; [exact HS1|cbn in Hl; lia|]. intros. apply HN. right. assumption.
      * apply runs_ret. cbn. split; [exact HS1|]. apply Hok. reflexivity.
Qed.

Lemma s_destroy : forall p s v b K MK F,
  st b (pblocks p ++ K) (self p :: MK) F None -> incl MK K -> pok p -> ~ In 0 (self p :: MK) ->
  runs b (mempool_destroy_r e p s v) (fun x b' =>
    match snd (fst x) with
    | None => st b' K MK F None
    | Some p' => st b' (pblocks p' ++ K) (self p' :: MK) F None /\ self p' = self p /\ exists a, an_munmap (plain s) a = false
    end).
Proof.
  intros p s v b K MK F HS Hi Hp H0. unfold mempool_destroy_r. cbv zeta.
  assert (Hnd : NoDup (pblocks p ++ K)) by apply HS.
  assert (Hnm : NoDup (self p :: MK)) by apply HS.
  assert (Hdis : forall x, In x (nz (name p) ++ nzs (bitmaps p)) -> ~ In x (self p :: MK)).
  { intros x Hx [E|E].
    - subst x. cbn [pblocks app] in Hnd. inversion Hnd as [|? ? Hn _]; subst. apply Hn. apply in_or_app. left. exact Hx.
    - apply Hi in E. cbn [pblocks app] in Hnd. inversion Hnd as [|? ? _ Hn]; subst.
      clear - Hx E Hn. revert Hn Hx. generalize (nz (name p) ++ nzs (bitmaps p)). intros l Hn Hx.
      induction l as [|y l IH]; [destruct Hx|]. cbn in Hn. inversion Hn; subst. destruct Hx as [->|Hx]; [|apply IH; assumption].
      apply H1. apply in_or_app. right. exact E. }
  bnd; [eapply r_touch; [exact HS|left; reflexivity]|]. cbn beta in HS0.
  eapply runs_bind with (Q' := fun _ b' => st b' (pblocks p ++ K) (self p :: MK) F None); [apply runs_lift; intros; exact HS0|].
  intros acc c1 _ HS1.
  eapply runs_bind with (Q' := fun _ b' => st b' (pblocks p ++ K) (self p :: MK) F None); [apply runs_lift; intros; exact HS1|].
  intros [] c2 _ HS2.
  eapply runs_bind with (Q' := fun _ b' => st b' (pblocks p ++ K) (self p :: MK) F None); [apply runs_lift; intros; exact HS2|].
  intros [] c3 _ HS3.
  eapply runs_bind; [eapply s_destroy_ranges with (H := self p :: nz (name p) ++ K) (M := self p :: MK) (h := None) (F := F)| ].
  - eapply st_perm; [exact HS3| |apply Permutation_refl|apply Permutation_refl].
    unfold pblocks. rewrite app_comm_cons. rewrite <- app_comm_cons.
    eapply Permutation_trans; [|apply Permutation_middle]. cbn [app]. constructor.
    rewrite <- app_assoc. rewrite !app_assoc. apply Permutation_app_tail. apply Permutation_app_comm.
  - apply Hp.
  - intros x Hx. destruct (Z.eq_dec x 0) as [->|N]; [exact H0|]. apply Hdis. apply in_or_app. right. apply in_nzs. auto.
  - intros [rest v'] c4 _ Hq. cbn [fst] in Hq. destruct rest as [[P' bms']|].
    + destruct Hq as [HS4 Hex]. apply runs_ret. cbn [snd fst self]. split; [|split; [reflexivity|exact Hex]].
      eapply st_perm; [exact HS4| |apply Permutation_refl|apply Permutation_refl].
      unfold pblocks. cbn [self name bitmaps]. eapply Permutation_trans; [apply Permutation_sym; apply Permutation_middle|].
      cbn [app]. constructor. rewrite <- app_assoc. rewrite !app_assoc. apply Permutation_app_tail. apply Permutation_app_comm.
    + bnd; [eapply r_kill; [exact Hq|reflexivity|apply Permutation_refl]|]. cbn beta in HS4.
      bnd; [eapply r_touch; [exact HS4|left; reflexivity]|]. cbn beta in HS5.
      eapply runs_bind with (Q' := fun _ b' => st b' (self p :: K) MK F None).
      * destruct (Z.eq_dec (name p) 0) as [E|N].
        -- rewrite E. unfold nz in HS5. rewrite E in HS5. apply r_free0. exact HS5.
        -- eapply r_free; [exact HS5| |exact N|].
           ++ unfold nz. destruct (Z.eqb_spec (name p) 0); [contradiction|]. cbn. apply perm_swap.
           ++ intros Hx. apply (Hdis (name p)); [|right; exact Hx]. apply in_or_app. left. apply in_nz. auto.
      * intros [] c6 _ HS6. bnd; [eapply r_free; [exact HS6|apply Permutation_refl|apply Hp|]|].
        -- inversion Hnm; assumption.
        -- apply runs_ret. exact HS7.
Qed.

Definition created (s : sys) (K MK F : list Z) (x : rmade * PoolVM.vm) (b' : books) : Prop :=
  match fst x with
  | RMade p => st b' (pblocks p ++ K) (self p :: MK) F None /\ pok p
  | RFailed _ => exists L LM, st b' (L ++ K) (LM ++ MK) F None /\ incl LM L /\ ~ In 0 LM /\ (always s -> L = [] /\ LM = [])
  end.
Lemma s_create : forall named len at_ s v b K MK F,
  st b K MK F None -> incl MK K -> ~ In 0 MK ->
  runs b (mempool_create_r e named len at_ s v) (created s K MK F).
Proof.
  intros named len at_ s v b K MK F HS Hi H0. unfold mempool_create_r.
  assert (Hfail : forall err v b, st b K MK F None -> runs b (wret (RFailed err, v)) (created s K MK F)).
  { intros. apply runs_ret. exists [], []. split; [assumption|]. split; [intros ? []|]. split; [intros []|]. auto. }
  eapply runs_bind with (Q' := fun _ b' => st b' K MK F None); [apply runs_lift; intros; exact HS|].
  intros [[[len' order] a]|err] c1 _ HS1; [|apply Hfail; exact HS1].
  destruct (Z.eqb_spec (s_pool s) 0) as [E|N]; [apply Hfail; exact HS1|].
  eapply runs_bind; [eapply r_alloc; exact HS1|]. intros [] c2 _ [HS2 Hn].
  bnd; [eapply r_touch; [exact HS2|left; reflexivity]|]. cbn beta in HS0.
  bnd; [eapply r_init; [exact HS0|left; reflexivity|intros Hx; apply Hn; apply Hi; exact Hx]|]. cbn beta in HS3. cbv zeta.
  assert (H0' : ~ In 0 (s_pool s :: MK)) by (intros [E|E]; [congruence|contradiction]).
  assert (Hi' : incl (s_pool s :: MK) (s_pool s :: K)) by (intros x [->|Hx]; [left; reflexivity|right; apply Hi; exact Hx]).
  set (P := Build_pool _ _ _ _ _ _).
  assert (Hdes : forall p v b, self p = s_pool s -> pok p -> st b (pblocks p ++ K) (self p :: MK) F None ->
    runs b (dw y <- mempool_destroy_r e p s v; let '(_, _, v) := y in wret (RFailed ENOMEM, v)) (created s K MK F)).
  { intros p v' b' Es Hp HS'. eapply runs_bind; [eapply s_destroy; [exact HS'|exact Hi|exact Hp|rewrite Es; exact H0']|].
    intros [[ret op] v''] b'' _ Hq. cbn in Hq. destruct op as [p'|].
    - destruct Hq as (HS'' & Es' & a0 & Ha). apply runs_ret. exists (pblocks p'), [self p'].
      split; [exact HS''|]. split; [intros x [<-|[]]; left; reflexivity|]. split.
      + intros [E|[]]. rewrite Es', Es in E. congruence.
      + intros Hal. exfalso. cbn in Ha. rewrite Hal in Ha. discriminate Ha.
    - apply Hfail. exact Hq. }
  eapply runs_bind; [eapply s_range_create; [exact HS3|exact Hi'|exact H0']|].
  intros [[or P'] v'] c5 _ [[Er Ea] Hq]. cbn [fst snd] in Er, Ea, Hq. destruct or as [[r bm]|].
  - destruct Hq as (HS5 & E1 & E2).
    assert (Hpok : forall nm, pok {| core := set_ranges P' (r :: range_list P'); self := s_pool s; name := nm; bitmaps := [bm] |}).
    { intros nm. constructor; cbn; rewrite ?Er; cbn; auto; rewrite ?Ea; auto. }
    assert (HS6 : st c5 (s_pool s :: nzs [bm] ++ K) (s_pool s :: MK) F None).
    { eapply st_perm; [exact HS5| |apply Permutation_refl|apply Permutation_refl].
      cbn [nzs flat_map]. rewrite app_nil_r. apply Permutation_sym, Permutation_middle. }
    destruct named.
    + destruct (Z.eqb_spec (s_name s) 0) as [E|Nn].
      * apply Hdes; [reflexivity|apply Hpok|exact HS6].
      * eapply runs_bind; [eapply r_alloc; exact HS6|]. intros [] c7 _ [HS7 _]. apply runs_ret. cbn [fst].
        split; [|apply Hpok]. unfold pblocks. cbn [self name bitmaps]. unfold nz at 1. destruct (Z.eqb_spec (s_name s) 0); [contradiction|].
        eapply st_perm; [exact HS7|apply perm_swap|apply Permutation_refl|apply Permutation_refl].
    + apply runs_ret. cbn [fst]. split; [exact HS6|apply Hpok].
  - apply Hdes; [reflexivity| |exact Hq]. constructor; cbn; rewrite ?Er; cbn; auto.
Qed.

(** ** Allocation and free *)
Definition kept (p p' : rpool) (K MK F : list Z) (b' : books) : Prop :=
  st b' (pblocks p' ++ K) (self p' :: MK) F None /\ self p' = self p /\ name p' = name p /\ pok p'.

Lemma has_bm_slot : forall P r o r', set_alloc_slot e P r o = Ok r' -> has_bm r' = has_bm r.
Proof.
  intros P r o r' Hs. unfold set_alloc_slot in Hs. destruct (alloc_bitmap r) eqn:E; [|inversion Hs; subst; reflexivity].
  destruct (nth_error l _); [|discriminate Hs]. destruct (negb _); [discriminate Hs|]. inversion Hs; subst.
  unfold has_bm. rewrite E. reflexivity.
Qed.
Lemma has_bm_clear : forall P r o r', clear_alloc_slot e P r o = Ok r' -> has_bm r' = has_bm r.
Proof.
  intros P r o r' Hs. unfold clear_alloc_slot in Hs. destruct (alloc_bitmap r) eqn:E; [|inversion Hs; subst; reflexivity].
  destruct (nth_error l _); [|discriminate Hs]. destruct (_ =? 0); [discriminate Hs|]. inversion Hs; subst.
  unfold has_bm. rewrite E. reflexivity.
Qed.
Lemma put_range_bm : forall l r rb, Forall (fun r => has_bm r = rb) l -> has_bm r = rb ->
  Forall (fun r => has_bm r = rb) (put_range l r).
Proof.
  intros l r rb Hl Hr. unfold put_range. apply Forall_map. eapply Forall_impl; [|exact Hl].
  intros x Hx. cbn. destruct (base x =? base r); assumption.
Qed.
Lemma put_range_length : forall l r, length (put_range l r) = length l.
Proof. intros. unfold put_range. apply map_length. Qed.
Lemma find_range_in : forall l b r, find_range l b = Some r -> In r l.
Proof. intros l b r Hf. apply find_some in Hf. apply Hf. Qed.

Lemma s_malloc_locked : forall p s v b K MK F,
  st b (pblocks p ++ K) (self p :: MK) F None -> incl MK K -> pok p -> ~ In 0 (self p :: MK) ->
  runs b (malloc_locked_r e p s v) (fun x b' => kept p (snd (fst x)) K MK F b').
Proof.
  intros p s v b K MK F HS Hi Hp H0. unfold malloc_locked_r. cbv zeta.
  assert (Hi' : incl (self p :: MK) (pblocks p ++ K)).
  { intros x [<-|Hx]; [left; reflexivity|]. apply in_or_app. right. apply Hi. exact Hx. }
  bnd; [eapply r_lock; [exact HS|reflexivity|left; reflexivity]|]. cbn beta in HS0.
  bnd; [eapply r_use; [exact HS0|reflexivity]|]. cbn beta in HS1.
  set (mid := fun (P : pool) (bms : list Z) (b' : books) =>
    st b' (pblocks {| core := P; self := self p; name := name p; bitmaps := bms |} ++ K) (self p :: MK) F (Some (self p)) /\
    pok {| core := P; self := self p; name := name p; bitmaps := bms |}).
  assert (Hmid0 : forall b' P, st b' (pblocks p ++ K) (self p :: MK) F (Some (self p)) ->
    range_list P = range_list (core p) -> pattr P = pattr (core p) -> mid P (bitmaps p) b').
  { intros b' P Hs E1 E2. split; [exact Hs|]. destruct Hp. constructor; cbn; rewrite ?E1, ?E2; auto. }
  eapply runs_bind with (Q' := fun x b' => let '(found, P, bms, _) := x in mid P bms b' /\
    match found with Some (r, _, _) => has_bm r = robust_set (pattr P) | None => True end).
  - destruct (negb (free_list_head (core p) =? 0)).
    + match goal with |- context [find_range ?l ?q] => destruct (find_range l q) as [r|] eqn:Ef end;
        [|apply runs_lift; intros x Hx; discriminate Hx].
      destruct (negb (accessible e v (free_list_head (core p)) (wsz e))); [apply runs_lift; intros x Hx; discriminate Hx|].
      bnd; [eapply r_use; [exact HS1|reflexivity]|]. cbn beta in HS2.
      eapply runs_bind with (Q' := fun _ b' => st b' (pblocks p ++ K) (self p :: MK) F (Some (self p))); [apply runs_lift; intros; exact HS2|].
      intros [] c3 _ HS3. apply runs_ret. split; [apply Hmid0; [exact HS3|reflexivity|reflexivity]|].
      apply find_range_in in Ef. destruct Hp as [_ Hr _ _]. rewrite Forall_forall in Hr. apply Hr. exact Ef.
    + bnd; [eapply r_use; [exact HS1|reflexivity]|]. cbn beta in HS2.
      eapply runs_bind with (Q' := fun y b' => let '(_, P, bms, _) := y in mid P bms b').
      * match goal with |- context [if ?c then _ else _] => destruct c end.
        -- apply runs_ret. apply Hmid0; [exact HS2|reflexivity|reflexivity].
        -- eapply runs_bind; [eapply s_range_create; [exact HS2|exact Hi'|exact H0]|].
           intros [[or P'] v'] c5 _ [[Er Ea] Hq]. cbn [fst snd] in Er, Ea, Hq. destruct or as [[r bm]|].
           ++ destruct Hq as (HS5 & E1 & E2). bnd; [eapply r_use; [exact HS5|reflexivity]|]. cbn beta in HS3.
              apply runs_ret. split.
              ** eapply st_perm; [exact HS3| |apply Permutation_refl|apply Permutation_refl].
                 unfold pblocks. cbn [self name bitmaps nzs flat_map]. fold (nzs (bitmaps p)).
                 eapply Permutation_trans; [apply Permutation_sym; apply Permutation_middle|]. cbn [app]. constructor.
                 rewrite !app_assoc. apply Permutation_app_tail. rewrite <- app_assoc.
                 rewrite !app_assoc. apply Permutation_app_tail. apply Permutation_app_comm.
              ** destruct Hp as [p1 p2 p3 p4]. constructor; cbn; rewrite ?Er, ?Ea; auto.
           ++ apply runs_ret. apply Hmid0; [exact Hq|exact Er|exact Ea].
      * intros [[[found P'] bms] v'] c5 _ [HS5 Hp5]. destruct found.
        -- destruct (range_list P') as [|r l] eqn:El; [apply runs_lift; intros x Hx; discriminate Hx|].
           bnd; [eapply r_use; [exact HS5|reflexivity]|]. cbn beta in HS3. apply runs_ret.
           destruct Hp5 as [p1 p2 p3 p4]. cbn in p1, p2, p3, p4. rewrite El in p1, p2.
           assert (Hr : has_bm r = robust_set (pattr P')) by (inversion p2; assumption).
           split; [split; [exact HS3|]|exact Hr].
           constructor; cbn [core self name bitmaps range_list set_ranges pattr]; auto.
           ++ rewrite put_range_length. exact p1.
           ++ apply put_range_bm; [exact p2|exact Hr].
        -- apply runs_ret. split; [split; assumption|trivial].
  - intros [[[found P'] bms] v'] c5 _ [[HS5 Hp5] Hf]. destruct found as [[[r o] ad]|].
    + bnd; [eapply r_use; [exact HS5|reflexivity]|]. cbn beta in HS2.
      eapply runs_bind with (Q' := fun r' b' => st b' (pblocks {| core := P'; self := self p; name := name p; bitmaps := bms |} ++ K) (self p :: MK) F (Some (self p)) /\
        has_bm r' = robust_set (pattr P')).
      { apply runs_lift. intros r' Hr'. split; [exact HS2|]. apply has_bm_slot in Hr'. congruence. }
      intros r' c6 _ [HS6 Hr']. bnd; [eapply r_unlock; [exact HS6|reflexivity]|]. cbn beta in HS3.
      apply runs_ret. split; [exact HS3|]. split; [reflexivity|]. split; [reflexivity|].
      destruct Hp5 as [p1 p2 p3 p4]. constructor; cbn [core self name bitmaps range_list set_ranges pattr fst snd] in *; auto.
      * rewrite put_range_length. exact p1.
      * apply put_range_bm; assumption.
    + bnd; [eapply r_unlock; [exact HS5|reflexivity]|]. cbn beta in HS2. apply runs_ret.
      split; [exact HS2|]. split; [reflexivity|]. split; [reflexivity|]. exact Hp5.
Qed.

Lemma s_malloc : forall p c n s v b K MK F,
  st b (pblocks p ++ K) (self p :: MK) F None -> incl MK K -> pok p -> ~ In 0 (self p :: MK) ->
  runs b (percpu_malloc_r e p c n s v) (fun x b' => kept p (snd (fst x)) K MK F b').
Proof.
  intros p c n s v b K MK F HS Hi Hp H0. unfold percpu_malloc_r.
  bnd; [eapply r_touch; [exact HS|left; reflexivity]|]. cbn beta in HS0.
  destruct (item_len (core p) <? n).
  { apply runs_ret. repeat (split; [assumption || reflexivity|]). exact Hp. }
  eapply runs_bind; [eapply s_malloc_locked; eassumption|].
  intros [[found p'] v'] c1 _ Hk. cbn [fst snd] in Hk. destruct found as [[[r o] ad]|].
  - destruct Hk as (HS1 & E1 & E2 & Hp1).
    bnd; [eapply r_touch; [exact HS1|left; reflexivity]|]. cbn beta in HS2.
    eapply runs_bind with (Q' := fun _ b' => kept p p' K MK F b').
    { apply runs_lift. intros. repeat (split; [assumption|]). exact Hp1. }
    intros v'' c2 _ Hk. apply runs_ret. exact Hk.
  - apply runs_ret. exact Hk.
Qed.

Lemma s_free_in : forall p r ptr strd v b K MK F,
  st b (pblocks p ++ K) (self p :: MK) F None -> pok p -> In r (range_list (core p)) ->
  runs b (free_in_r e p r ptr strd v) (fun x b' => kept p (fst x) K MK F b').
Proof.
  intros p r ptr strd v b K MK F HS Hp Hr. unfold free_in_r. cbv zeta.
  bnd; [eapply r_lock; [exact HS|reflexivity|left; reflexivity]|]. cbn beta in HS0.
  bnd; [eapply r_use; [exact HS0|reflexivity]|]. cbn beta in HS1.
  eapply runs_bind with (Q' := fun x b' => st b' (pblocks p ++ K) (self p :: MK) F (Some (self p)) /\
    pok {| core := fst x; self := self p; name := name p; bitmaps := bitmaps p |}).
  { apply runs_lift. intros [P' v'] Hx. split; [exact HS1|].
    unfold free_in in Hx. destruct (clear_alloc_slot e (core p) r (Z.land ptr (strd - 1))) as [r'| |] eqn:Ec; cbn [bind] in Hx; try discriminate Hx.
    match type of Hx with bind ?a _ = _ => destruct a as [v1| |]; cbn [bind] in Hx; try discriminate Hx end.
    destruct (negb _); [discriminate Hx|]. inversion Hx; subst. clear Hx. destruct Hp as [p1 p2 p3 p4].
    constructor; cbn [core self name bitmaps range_list set_ranges set_head pattr fst]; auto.
    - rewrite put_range_length. exact p1.
    - apply put_range_bm; [exact p2|]. apply has_bm_clear in Ec. rewrite Ec. rewrite Forall_forall in p2. apply p2. exact Hr. }
  intros [P' v'] c2 _ [HS2 Hp2]. cbn [fst] in Hp2.
  bnd; [eapply r_use; [exact HS2|reflexivity]|]. cbn beta in HS3.
  bnd; [eapply r_unlock; [exact HS3|reflexivity]|]. cbn beta in HS4.
  apply runs_ret. split; [exact HS4|]. split; [reflexivity|]. split; [reflexivity|]. exact Hp2.
Qed.

(** ** The world *)
Record winv (h : option Z) (w : rworld) (L LM : list Z) (b : books) : Prop := {
  wi_st : st b (blocks w ++ L) (mus w ++ LM) [] h;
  wi_incl : incl LM L;
  wi_nz : ~ In 0 (mus w ++ LM);
  wi_pok : Forall pok (rpools w);
  wi_attr : ~ In 0 (rattrs w)
}.

Lemma selfs_incl : forall l, incl (map self l) (flat_map pblocks l).
Proof.
  intros l x Hx. apply in_map_iff in Hx. destruct Hx as (p & <- & Hp). apply in_flat_map. exists p. split; [exact Hp|left; reflexivity].
Qed.
Lemma mus_incl : forall w, incl (mus w) (blocks w).
Proof.
  intros w x Hx. unfold mus in Hx. unfold blocks. apply in_app_or in Hx. destruct Hx as [Hx|Hx].
  - apply in_or_app. left. apply selfs_incl. exact Hx.
  - apply in_or_app. right. apply in_or_app. left. exact Hx.
Qed.
Lemma winv_incl : forall h w L LM b, winv h w L LM b -> incl (mus w ++ LM) (blocks w ++ L).
Proof.
  intros h w L LM b [] x Hx. apply in_app_or in Hx. apply in_or_app. destruct Hx as [Hx|Hx]; [left; apply mus_incl|right; auto]; assumption.
Qed.

Lemma find_split : forall id l p, find_pool id l = Some p ->
  exists l1 l2, l = l1 ++ p :: l2 /\ self p = id.
Proof.
  intros id l p Hf. unfold find_pool in Hf. pose proof (find_some _ _ Hf) as [Hin E]. apply Z.eqb_eq in E.
  apply in_split in Hin. destruct Hin as (l1 & l2 & ->). eauto.
Qed.
Lemma put_pool_split : forall l1 p l2 p', NoDup (map self (l1 ++ p :: l2)) -> self p' = self p ->
  put_pool p' (l1 ++ p :: l2) = l1 ++ p' :: l2.
Proof.
  intros l1 p l2 p' Hn E. unfold put_pool. rewrite map_app. cbn [map]. rewrite <- E, Z.eqb_refl.
  rewrite map_app in Hn. cbn [map] in Hn. apply NoDup_remove_2 in Hn. rewrite <- E in Hn.
  assert (K : forall l, ~ In (self p') (map self l) -> map (fun q => if self q =? self p' then p' else q) l = l).
  { clear. induction l as [|q l IH]; intros Hn; [reflexivity|]. cbn [map In] in *. destruct (Z.eqb_spec (self q) (self p')) as [E|N].
    - exfalso. apply Hn. left. exact E.
    - rewrite IH; [reflexivity|]. intros K. apply Hn. right. exact K. }
  rewrite !K; [reflexivity| |]; intros Hx; apply Hn; apply in_or_app; auto.
Qed.
Lemma drop_pool_split : forall l1 p l2, NoDup (map self (l1 ++ p :: l2)) -> drop_pool (self p) (l1 ++ p :: l2) = l1 ++ l2.
Proof.
  intros l1 p l2 Hn. unfold drop_pool. rewrite filter_app. cbn [filter]. rewrite Z.eqb_refl. cbn [negb].
  rewrite map_app in Hn. cbn [map] in Hn. apply NoDup_remove_2 in Hn.
  assert (K : forall l, ~ In (self p) (map self l) -> filter (fun q => negb (self q =? self p)) l = l).
  { clear. induction l as [|q l IH]; intros Hn; [reflexivity|]. cbn [map In filter] in *. destruct (Z.eqb_spec (self q) (self p)) as [E|N].
    - exfalso. apply Hn. left. exact E.
    - cbn. rewrite IH; [reflexivity|]. intros K. apply Hn. right. exact K. }
  rewrite !K; [reflexivity| |]; intros Hx; apply Hn; apply in_or_app; auto.
Qed.

(** The rest of the world, seen from one of its pools. *)
Definition restH (w : rworld) (l1 l2 : list rpool) (L : list Z) : list Z :=
  flat_map pblocks (l1 ++ l2) ++ (map fst (rsets w) ++ rattrs w) ++ L.
Definition restM (w : rworld) (l1 l2 : list rpool) (LM : list Z) : list Z :=
  map self (l1 ++ l2) ++ map fst (rsets w) ++ LM.

Lemma perm_blocks : forall w l1 p l2 v L, Permutation
  (pblocks p ++ restH w l1 l2 L)
  (blocks {| rv := v; rpools := l1 ++ p :: l2; rsets := rsets w; rattrs := rattrs w |} ++ L).
Proof.
  intros. unfold restH, blocks. cbn [rpools rsets rattrs]. rewrite !flat_map_app. cbn [flat_map].
  rewrite <- !app_assoc. rewrite !app_assoc. do 3 apply Permutation_app_tail.
  apply Permutation_app_tail. apply Permutation_app_comm.
Qed.
Lemma perm_mus : forall w l1 p l2 v LM, Permutation
  (self p :: restM w l1 l2 LM)
  (mus {| rv := v; rpools := l1 ++ p :: l2; rsets := rsets w; rattrs := rattrs w |} ++ LM).
Proof.
  intros. unfold restM, mus. cbn [rpools rsets]. rewrite !map_app. cbn [map]. rewrite <- !app_assoc. cbn [app].
  apply Permutation_middle.
Qed.
Lemma rest_incl : forall w l1 l2 L LM, incl LM L -> incl (restM w l1 l2 LM) (restH w l1 l2 L).
Proof.
  intros w l1 l2 L LM Hi x Hx. unfold restM in Hx. unfold restH. rewrite !in_app_iff in *.
  destruct Hx as [Hx|[Hx|Hx]]; auto. left. apply selfs_incl. exact Hx.
Qed.

Record focus (w : rworld) (p : rpool) (l1 l2 : list rpool) : Prop := {
  fo_split : rpools w = l1 ++ p :: l2;
  fo_nodup : NoDup (map self (l1 ++ p :: l2));
  fo_pok : pok p;
  fo_rest : Forall pok (l1 ++ l2)
}.
Lemma winv_selfs : forall h w L LM b, winv h w L LM b -> NoDup (map self (rpools w)).
Proof.
  intros h w L LM b [[_ _ _ _ _ Hn _] _ _ _ _]. unfold mus in Hn. rewrite <- app_assoc in Hn.
  revert Hn. generalize (map fst (rsets w) ++ LM). intros l. induction (map self (rpools w)) as [|x k IH]; intros Hn; [constructor|].
  cbn in Hn. inversion Hn; subst. constructor; [|apply IH; assumption]. intros Hx. apply H1. apply in_or_app. left. exact Hx.
Qed.
Lemma in_focus : forall h w L LM b id p, winv h w L LM b -> find_pool id (rpools w) = Some p ->
  self p = id /\ exists l1 l2, focus w p l1 l2 /\
  st b (pblocks p ++ restH w l1 l2 L) (self p :: restM w l1 l2 LM) [] h /\ ~ In 0 (self p :: restM w l1 l2 LM).
Proof.
  intros h w L LM b id p Hw Hf. destruct (find_split _ _ _ Hf) as (l1 & l2 & E & Es). split; [exact Es|].
  pose proof (winv_selfs _ _ _ _ _ Hw) as Hn. exists l1, l2.
  assert (Ew : w = {| rv := rv w; rpools := l1 ++ p :: l2; rsets := rsets w; rattrs := rattrs w |}) by (rewrite <- E; destruct w; reflexivity).
  destruct Hw as [HS Hi H0 Hp Ha]. rewrite E in Hn, Hp. split; [|split].
  - constructor; auto.
    + apply Forall_app in Hp. destruct Hp as [_ Hp]. inversion Hp; assumption.
    + apply Forall_app in Hp. destruct Hp as [Hp1 Hp]. apply Forall_app. inversion Hp; auto.
  - rewrite Ew in HS at 1 2. eapply st_perm; [exact HS| | |apply Permutation_refl]; apply Permutation_sym; [apply perm_blocks|apply perm_mus].
  - intros Hx. apply H0. rewrite Ew at 1. eapply Permutation_in; [apply perm_mus|exact Hx].
Qed.
Lemma un_focus : forall h w L LM b p p' l1 l2 v, focus w p l1 l2 -> self p' = self p -> pok p' -> incl LM L -> ~ In 0 (rattrs w) ->
  st b (pblocks p' ++ restH w l1 l2 L) (self p' :: restM w l1 l2 LM) [] h -> ~ In 0 (self p' :: restM w l1 l2 LM) ->
  winv h (with_pool_r w p' v) L LM b.
Proof.
  intros h w L LM b p p' l1 l2 v [E Hn Hp Hr] Es Hp' Hi Ha HS H0. unfold with_pool_r.
  rewrite E, put_pool_split by assumption. constructor; auto.
  - eapply st_perm; [exact HS|apply perm_blocks|apply perm_mus|apply Permutation_refl].
  - intros Hx. apply H0. eapply Permutation_in; [apply Permutation_sym; apply perm_mus|exact Hx].
  - cbn [rpools]. apply Forall_app in Hr. destruct Hr as [H1 H2]. apply Forall_app. split; [exact H1|]. constructor; assumption.
Qed.
(** Without the pool [p]; [p'] are what is left of it, in blocks nobody knows of. *)
Lemma un_focus_drop : forall w L LM b p l1 l2 v, focus w p l1 l2 -> incl LM L -> ~ In 0 (rattrs w) ->
  ~ In 0 (self p :: restM w l1 l2 LM) ->
  st b (restH w l1 l2 L) (restM w l1 l2 LM) [] None ->
  winv None {| rv := v; rpools := drop_pool (self p) (rpools w); rsets := rsets w; rattrs := rattrs w |} L LM b.
Proof.
  intros w L LM b p l1 l2 v [E Hn Hp Hr] Hi Ha H0 HS. rewrite E, drop_pool_split by assumption. constructor; auto.
  - unfold blocks, mus. cbn [rpools rsets rattrs]. rewrite <- !app_assoc. unfold restH, restM in HS. rewrite <- app_assoc in HS. exact HS.
  - intros Hx. apply H0. right. unfold restM. unfold mus in Hx. cbn [rpools rsets] in Hx. rewrite <- app_assoc in Hx. exact Hx.
Qed.
Lemma rest_leak : forall w l1 l2 L p', Permutation (pblocks p' ++ restH w l1 l2 L) (restH w l1 l2 (pblocks p' ++ L)).
Proof.
  intros. unfold restH. rewrite !app_assoc. apply Permutation_app_tail. rewrite <- !app_assoc.
  eapply Permutation_trans; [apply Permutation_app_comm|]. rewrite <- !app_assoc. apply Permutation_refl.
Qed.
Lemma rest_leakm : forall w l1 l2 LM x, Permutation (x :: restM w l1 l2 LM) (restM w l1 l2 (x :: LM)).
Proof.
  intros. unfold restM. rewrite !app_assoc. apply Permutation_middle.
Qed.

Definition goes_to {A} (ok : Prop) (f : A -> rworld) (L LM : list Z) (x : A) (b' : books) : Prop :=
  exists L' LM', winv None (f x) (L' ++ L) (LM' ++ LM) b' /\ (ok -> L' = [] /\ LM' = []).

Lemma goes_same : forall A ok (f : A -> rworld) L LM x b, winv None (f x) L LM b -> goes_to ok f L LM x b.
Proof. intros. exists [], []. split; [assumption|auto]. Qed.

Lemma s_destroy_w : forall w L LM b id p s, winv None w L LM b -> find_pool id (rpools w) = Some p ->
  runs b (mempool_destroy_r e p s (rv w))
    (goes_to (always s) (fun x : Z * option rpool * PoolVM.vm =>
       {| rv := snd x; rpools := drop_pool id (rpools w); rsets := rsets w; rattrs := rattrs w |}) L LM).
Proof.
  intros w L LM b id p s Hw Hf. destruct (in_focus _ _ _ _ _ _ _ Hw Hf) as (Es & l1 & l2 & Hfo & HS & H0).
  eapply runs_imp; [eapply s_destroy; [exact HS|apply rest_incl; apply Hw|apply Hfo|exact H0]|].
  intros [[ret op] v'] b' Hq. cbn [fst snd] in Hq. subst id. destruct op as [p'|].
  - destruct Hq as (HS' & Es' & a & Ha). exists (pblocks p'), [self p']. split.
    + cbn [snd]. eapply un_focus_drop; [exact Hfo| |apply Hw| |].
      * intros x [<-|Hx]; [left; reflexivity|]. apply in_or_app. right. apply Hw. exact Hx.
      * intros Hx. apply H0. destruct Hx as [Hx|Hx]; [left; exact Hx|].
        cbn [app] in Hx. eapply Permutation_in in Hx; [|apply Permutation_sym; apply rest_leakm].
        destruct Hx as [Hx|Hx]; [left; congruence|right; exact Hx].
      * eapply st_perm; [exact HS'|apply rest_leak|cbn [app]; apply rest_leakm|apply Permutation_refl].
    + intros Hal. exfalso. cbn in Ha. rewrite Hal in Ha. discriminate Ha.
  - apply goes_same. cbn [snd]. eapply un_focus_drop; [exact Hfo|apply Hw|apply Hw|exact H0|exact Hq].
Qed.

Lemma s_malloc_w : forall w L LM b id p c n s, winv None w L LM b -> find_pool id (rpools w) = Some p ->
  runs b (percpu_malloc_r e p c n s (rv w)) (fun x b' => winv None (with_pool_r w (snd (fst x)) (snd x)) L LM b').
Proof.
  intros w L LM b id p c n s Hw Hf. destruct (in_focus _ _ _ _ _ _ _ Hw Hf) as (Es & l1 & l2 & Hfo & HS & H0).
  eapply runs_imp; [eapply s_malloc; [exact HS|apply rest_incl; apply Hw|apply Hfo|exact H0]|].
  intros [[g p'] v'] b' (HS' & E1 & E2 & Hp'). cbn [fst snd] in *.
  eapply un_focus; [exact Hfo|exact E1|exact Hp'|apply Hw|apply Hw|exact HS'|]. rewrite E1. exact H0.
Qed.

Lemma owner_find : forall l b p r, NoDup (map self l) -> find_owner_r l b = Some (p, r) ->
  find_pool (self p) l = Some p /\ In r (range_list (core p)).
Proof.
  induction l as [|q l IH]; intros b p r Hn Hf; [discriminate Hf|]. cbn in Hf.
  unfold find_pool. cbn [find]. cbn [map] in Hn. inversion Hn as [|? ? Hn1 Hn2]; subst.
  destruct (find_range (range_list (core q)) b) eqn:Er.
  - inversion Hf; subst. rewrite Z.eqb_refl. split; [reflexivity|]. eapply find_range_in. exact Er.
  - destruct (IH _ _ _ Hn2 Hf) as [H1 H2]. split; [|exact H2]. destruct (Z.eqb_spec (self q) (self p)) as [E|N]; [|exact H1].
    exfalso. apply Hn1. rewrite E. unfold find_pool in H1. apply find_some in H1. apply in_map. apply H1.
Qed.

Lemma st_touch_mu : forall h w L LM b id, winv h w L LM b -> In id (mus w) ->
  runs b (emit (ETouch id)) (fun _ b' => winv h w L LM b').
Proof.
  intros h w L LM b id Hw Hin. eapply runs_imp; [eapply r_touch; [apply Hw|]|].
  - apply in_or_app. left. apply mus_incl. exact Hin.
  - intros u b' HS. destruct Hw. constructor; auto.
Qed.
Lemma st_lock_mu : forall w L LM b id, winv None w L LM b -> In id (mus w) ->
  runs b (emit (ELock id)) (fun _ b' => winv (Some id) w L LM b').
Proof.
  intros w L LM b id Hw Hin. eapply runs_imp; [eapply r_lock; [apply Hw|reflexivity|]|].
  - apply in_or_app. left. exact Hin.
  - intros u b' HS. destruct Hw. constructor; auto.
Qed.
Lemma st_unlock_mu : forall w L LM b id, winv (Some id) w L LM b ->
  runs b (emit (EUnlock id)) (fun _ b' => winv None w L LM b').
Proof.
  intros w L LM b id Hw. eapply runs_imp; [eapply r_unlock; [apply Hw|reflexivity]|].
  intros u b' HS. destruct Hw. constructor; auto.
Qed.
Lemma st_use_mu : forall w L LM b id, winv (Some id) w L LM b ->
  runs b (emit (EUse id)) (fun _ b' => winv (Some id) w L LM b').
Proof.
  intros w L LM b id Hw. eapply runs_imp; [eapply r_use; [apply Hw|reflexivity]|].
  intros u b' HS. destruct Hw. constructor; auto.
Qed.
Lemma pool_in_mus : forall id w p, find_pool id (rpools w) = Some p -> In id (mus w).
Proof.
  intros id w p Hf. apply find_some in Hf. destruct Hf as [Hin E]. apply Z.eqb_eq in E. subst id.
  unfold mus. apply in_or_app. left. apply in_map. exact Hin.
Qed.

Lemma s_set_malloc : forall os id E c len ans w L LM b, winv (Some id) w L LM b -> In id (map fst (rsets w)) ->
  runs b (set_malloc_from_r e os id E c len ans w) (fun x b' => winv None (snd x) L LM b').
Proof.
  induction os as [|o os IH]; intros id E c len ans w L LM b Hw Hin; cbn [set_malloc_from_r].
  - eapply runs_bind; [apply st_unlock_mu; exact Hw|]. intros u b1 _ H1. apply runs_ret. exact H1.
  - eapply runs_bind; [apply st_use_mu; exact Hw|]. intros u b1 _ H1. destruct (E o) as [h|]; [|apply IH; assumption].
    destruct (find_pool h (rpools w)) as [p|] eqn:Ef; [|apply runs_lift; intros x Hx; discriminate Hx].
    eapply runs_bind; [eapply st_touch_mu; [exact H1|eapply pool_in_mus; exact Ef]|]. intros u2 b2 _ H2.
    destruct (len <=? item_len (core p)); [|apply IH; assumption].
    eapply runs_bind; [apply st_unlock_mu; exact H2|]. intros u3 b3 _ H3.
    eapply runs_bind; [eapply s_malloc_w; [exact H3|exact Ef]|]. intros [[g p'] v'] b4 _ H4. cbn [fst snd] in H4.
    destruct g as [a|err]; [apply runs_ret; exact H4|].
    destruct (err =? ENOMEM); [|apply runs_ret; exact H4].
    assert (Hin' : In id (mus (with_pool_r w p' v'))) by (unfold mus; apply in_or_app; right; exact Hin).
    eapply runs_bind; [eapply st_touch_mu; [exact H4|exact Hin']|]. intros u5 b5 _ H5.
    eapply runs_bind; [eapply st_lock_mu; [exact H5|exact Hin']|]. intros u6 b6 _ H6.
    apply IH; [exact H6|exact Hin].
Qed.

Lemma sets_drop : forall (l : list (Z * pset)) id, NoDup (map fst l) -> In id (map fst l) ->
  Permutation (map fst l) (id :: map fst (filter (fun x => negb (fst x =? id)) l)).
Proof.
  induction l as [|[k E] l IH]; intros id Hn Hin; [destruct Hin|]. cbn [map fst] in *. inversion Hn as [|? ? Hn1 Hn2]; subst.
  cbn [filter fst]. destruct (Z.eqb_spec k id) as [->|N]; cbn [negb].
  - constructor. assert (K : forall k : list (Z * pset), ~ In id (map fst k) -> filter (fun x => negb (fst x =? id)) k = k).
    { clear. induction k as [|[k' E'] k IH]; intros Hn; [reflexivity|]. cbn [map fst In filter] in *.
      destruct (Z.eqb_spec k' id) as [->|]; cbn [negb]; [exfalso; apply Hn; auto|]. rewrite IH; [reflexivity|]. intros Hx. apply Hn. auto. }
    rewrite K by exact Hn1. apply Permutation_refl.
  - destruct Hin as [Hx|Hx]; [contradiction|]. cbn [map fst]. eapply Permutation_trans; [|apply perm_swap]. constructor. apply IH; assumption.
Qed.

Lemma s_set_destroy : forall os id E ans w L LM b, winv None w L LM b -> In id (map fst (rsets w)) ->
  runs b (set_destroy_from_r e os id E ans w) (goes_to (forall o, always (ans o)) snd L LM).
Proof.
  induction os as [|o os IH]; intros id E ans w L LM b Hw Hin; cbn [set_destroy_from_r].
  - assert (HN : NoDup (mus w ++ LM)) by apply Hw.
    assert (HNf : NoDup (map fst (rsets w))).
    { unfold mus in HN. rewrite <- app_assoc in HN. revert HN. generalize (map fst (rsets w)). clear. intros k HN.
      induction (map self (rpools w)) as [|x l IH]; [|inversion HN; auto]. cbn in HN.
      induction k as [|y k IH]; [constructor|]. cbn in HN. inversion HN; subst. constructor; [|apply IH; assumption].
      intros K. apply H1. apply in_or_app. auto. }
    pose proof (sets_drop _ _ HNf Hin) as HP.
    set (sets' := filter (fun x : Z * pset => negb (fst x =? id)) (rsets w)) in *.
    assert (PM : Permutation (mus w ++ LM) (id :: (map self (rpools w) ++ map fst sets') ++ LM)).
    { unfold mus. eapply Permutation_trans; [apply Permutation_app_tail; apply Permutation_app_head; exact HP|].
      rewrite app_comm_cons. apply Permutation_app_tail. apply Permutation_sym. apply Permutation_middle. }
    assert (PH : Permutation (blocks w ++ L) (id :: (flat_map pblocks (rpools w) ++ map fst sets' ++ rattrs w) ++ L)).
    { unfold blocks. rewrite app_comm_cons. apply Permutation_app_tail.
      eapply Permutation_trans; [apply Permutation_app_head; apply Permutation_app_tail; exact HP|]. cbn [app].
      apply Permutation_sym, Permutation_middle. }
    assert (Nid : id <> 0).
    { intros ->. apply (wi_nz _ _ _ _ _ Hw). unfold mus. rewrite !in_app_iff. auto. }
    bnd; [eapply r_kill; [apply Hw|reflexivity|exact PM]|]. cbn beta in HS.
    bnd; [eapply r_free; [exact HS|exact PH|exact Nid|]|].
    + assert (HN2 : NoDup (id :: (map self (rpools w) ++ map fst sets') ++ LM)) by (eapply Permutation_NoDup; eauto).
      inversion HN2; assumption.
    + apply runs_ret. apply goes_same. cbn [snd]. destruct Hw as [_ Hi H0 Hp Ha]. constructor; auto.
      intros Hx. apply H0. eapply Permutation_in; [apply Permutation_sym; exact PM|]. right. exact Hx.
  - eapply runs_bind; [eapply st_touch_mu; [exact Hw|unfold mus; apply in_or_app; right; exact Hin]|]. intros u b1 _ H1.
    destruct (E o) as [h|]; [|apply IH; assumption].
    destruct (find_pool h (rpools w)) as [p|] eqn:Ef; [|apply runs_lift; intros x Hx; discriminate Hx].
    eapply runs_bind; [eapply s_destroy_w; [exact H1|exact Ef]|]. intros [[ret op] v'] b2 _ (L1 & LM1 & H2 & Hok). cbn [snd] in H2.
    destruct (negb (ret =? 0)).
    + apply runs_ret. exists L1, LM1. split; [exact H2|]. intros Hal. apply Hok. apply Hal.
    + eapply runs_imp; [apply IH; [exact H2|exact Hin]|]. intros x b3 (L2 & LM2 & H3 & Hok2).
      exists (L2 ++ L1), (LM2 ++ LM1). rewrite <- !app_assoc. split; [exact H3|]. intros Hal.
      destruct (Hok (Hal o)) as [-> ->]. destruct (Hok2 Hal) as [-> ->]. auto.
Qed.

Lemma find_set_in : forall id l E, find_set id l = Some E -> In id (map fst l).
Proof.
  intros id l E Hf. unfold find_set in Hf. destruct (find _ l) as [[k E']|] eqn:Hx; [|discriminate Hf].
  apply find_some in Hx. destruct Hx as [Hin Eq]. apply Z.eqb_eq in Eq. cbn in Eq. subst k. apply in_map_iff. exists (id, E'). auto.
Qed.
Lemma put_set_fst : forall id E l, map fst (put_set id E l) = map fst l.
Proof.
  intros. unfold put_set. rewrite map_map. apply map_ext. intros [k x]. cbn. destruct (Z.eqb_spec k id); cbn; congruence.
Qed.

Lemma s_run : forall o w L LM b, winv None w L LM b ->
  runs b (run_r e o w) (goes_to (unmap_ok o) fst L LM).
Proof.
  intros o w L LM b Hw. destruct o; cbn [run_r unmap_ok].
  - (* create *)
    eapply runs_bind; [eapply s_create; [apply Hw|eapply winv_incl; exact Hw|apply Hw]|].
    intros [m v'] b' _ Hq. unfold created in Hq. cbn [fst] in Hq. destruct m as [p|err].
    + destruct Hq as [HS Hp]. apply runs_ret. apply goes_same. destruct Hw as [HS0 Hi H0 Hpk Ha]. constructor; auto.
      * cbn [fst]. unfold blocks, mus. cbn [rpools rsets rattrs flat_map map]. unfold blocks, mus in HS.
        rewrite <- !app_assoc. rewrite <- !app_assoc in HS. exact HS.
      * cbn [fst]. unfold mus. cbn [rpools rsets map]. intros [Hx|Hx]; [apply (pk_self _ Hp); exact Hx|apply H0; exact Hx].
      * cbn [fst rpools]. constructor; assumption.
    + destruct Hq as (L' & LM' & HS & Hi' & H0' & Hok). apply runs_ret. exists L', LM'. split; [|exact Hok].
      destruct Hw as [HS0 Hi H0 Hpk Ha]. constructor; auto; cbn [fst].
      * eapply st_perm; [exact HS| | |apply Permutation_refl]; rewrite !app_assoc; apply Permutation_app_tail; apply Permutation_app_comm.
      * apply incl_app; [apply incl_appl; exact Hi'|apply incl_appr; exact Hi].
      * intros Hx. rewrite !in_app_iff in Hx. destruct Hx as [Hx|[Hx|Hx]]; [|contradiction|]; apply H0; apply in_or_app; auto.
  - (* malloc *)
    destruct (find_pool id (rpools w)) as [p|] eqn:Ef; [|apply runs_lift; intros x Hx; discriminate Hx].
    eapply runs_bind; [eapply s_malloc_w; [exact Hw|exact Ef]|]. intros [[g p'] v'] b' _ Hq. cbn [fst snd] in Hq.
    destruct g; apply runs_ret; apply goes_same; exact Hq.
  - (* free *)
    destruct (find_owner_r (rpools w) (free_base e ptr strd)) as [[p r]|] eqn:Ef; [|apply runs_lift; intros x Hx; discriminate Hx].
    apply owner_find in Ef; [|eapply winv_selfs; exact Hw]. destruct Ef as [Ef Hr].
    destruct (in_focus _ _ _ _ _ _ _ Hw Ef) as (Es & l1 & l2 & Hfo & HS & H0).
    eapply runs_bind; [eapply s_free_in; [exact HS|apply Hfo|exact Hr]|].
    intros [p' v'] b' _ (HS' & E1 & E2 & Hp'). cbn [fst] in *. apply runs_ret. apply goes_same. cbn [fst].
    eapply un_focus; [exact Hfo|exact E1|exact Hp'|apply Hw|apply Hw|exact HS'|]. rewrite E1. exact H0.
  - (* write *)
    destruct (forallb _ ps); [|apply runs_lift; intros x Hx; discriminate Hx]. apply runs_ret. apply goes_same.
    destruct Hw. constructor; auto.
  - (* destroy *)
    destruct (find_pool id (rpools w)) as [p|] eqn:Ef; [|apply runs_lift; intros x Hx; discriminate Hx].
    eapply runs_bind; [eapply s_destroy_w; [exact Hw|exact Ef]|]. intros [[ret op] v'] b' _ (L1 & LM1 & H1 & Hok). cbn [snd] in H1.
    apply runs_ret. exists L1, LM1. split; [exact H1|exact Hok].
  - (* set create *)
    destruct (Z.eqb_spec p 0) as [->|N]; [apply runs_ret; apply goes_same; exact Hw|].
    eapply runs_bind; [eapply r_alloc; apply Hw|]. intros u b1 _ [HS Hn].
    bnd; [eapply r_init; [exact HS|left; reflexivity|intros Hx; apply Hn; eapply winv_incl; [exact Hw|exact Hx]]|].
    apply runs_ret. apply goes_same. destruct Hw as [HS1 Hi H0 Hpk Ha]. constructor; auto; cbn [fst].
    + eapply st_perm; [exact HS0| | |apply Permutation_refl]; unfold blocks, mus; cbn [rpools rsets rattrs map fst];
        rewrite app_comm_cons; apply Permutation_app_tail; apply Permutation_middle.
    + intros Hx. unfold mus in Hx. cbn [rpools rsets map fst] in Hx.
      assert (Hx' : In 0 ((p :: mus w) ++ LM)).
      { eapply Permutation_in; [|exact Hx]. apply Permutation_app_tail. apply Permutation_sym. apply Permutation_middle. }
      destruct Hx' as [Hx'|Hx']; [congruence|contradiction].
  - (* set add *)
    destruct (find_set set (rsets w)) as [E|] eqn:Es; [|apply runs_lift; intros x Hx; discriminate Hx].
    destruct (find_pool id (rpools w)) as [p|] eqn:Ef; [|apply runs_lift; intros x Hx; discriminate Hx].
    apply find_set_in in Es. assert (Hin : In set (mus w)) by (unfold mus; apply in_or_app; right; exact Es).
    eapply runs_bind; [eapply st_touch_mu; [exact Hw|eapply pool_in_mus; exact Ef]|]. intros u1 b1 _ H1.
    eapply runs_bind; [eapply st_lock_mu; [exact H1|exact Hin]|]. intros u2 b2 _ H2.
    eapply runs_bind; [eapply st_use_mu; exact H2|]. intros u3 b3 _ H3.
    destruct (set_add_pool E id (core p)) as [[ret err] E'].
    eapply runs_bind; [eapply st_unlock_mu; exact H3|]. intros u4 b4 _ H4.
    apply runs_ret. apply goes_same. cbn [fst]. destruct H4. constructor; auto; unfold blocks, mus in *; cbn [rpools rsets rattrs] in *; rewrite put_set_fst; assumption.
  - (* set malloc *)
    destruct (find_set set (rsets w)) as [E|] eqn:Es; [|apply runs_lift; intros x Hx; discriminate Hx].
    apply find_set_in in Es. assert (Hin : In set (mus w)) by (unfold mus; apply in_or_app; right; exact Es).
    unfold set_malloc_r. cbv zeta.
    eapply runs_bind with (Q' := fun x b' => winv None (snd x) L LM b').
    + eapply runs_bind; [eapply st_touch_mu; [exact Hw|exact Hin]|]. intros u1 b1 _ H1.
      eapply runs_bind; [eapply st_lock_mu; [exact H1|exact Hin]|]. intros u2 b2 _ H2.
      apply s_set_malloc; assumption.
    + intros [g w'] b' _ H1. cbn [snd] in H1. destruct g; apply runs_ret; apply goes_same; exact H1.
  - (* set destroy *)
    destruct (find_set set (rsets w)) as [E|] eqn:Es; [|apply runs_lift; intros x Hx; discriminate Hx].
    apply find_set_in in Es.
    eapply runs_bind; [apply s_set_destroy; [exact Hw|exact Es]|]. intros [ret w'] b' _ (L1 & LM1 & H1 & Hok).
    apply runs_ret. exists L1, LM1. split; [exact H1|exact Hok].
  - (* attr create *)
    destruct (Z.eqb_spec p 0) as [->|N]; [apply runs_ret; apply goes_same; exact Hw|].
    eapply runs_bind; [eapply r_alloc; apply Hw|]. intros u b1 _ [HS Hn]. apply runs_ret. apply goes_same.
    destruct Hw as [HS1 Hi H0 Hpk Ha]. constructor; auto; cbn [fst].
    + eapply st_perm; [exact HS| |apply Permutation_refl|apply Permutation_refl]. unfold blocks. cbn [rpools rsets rattrs].
      rewrite app_comm_cons. apply Permutation_app_tail. rewrite !app_assoc. apply Permutation_middle.
    + cbn [rattrs]. intros [Hx|Hx]; [congruence|contradiction].
  - (* attr destroy *)
    destruct (Z.eqb_spec p 0) as [->|N]; cbn [orb].
    + bnd; [apply r_free0; apply Hw|]. apply runs_ret. apply goes_same. destruct Hw as [HS1 Hi H0 Hpk Ha].
      cbn [fst]. rewrite drop_not by exact Ha. constructor; auto.
    + destruct (has (rattrs w) p) eqn:Eh; [|apply runs_lift; intros x Hx; discriminate Hx]. apply has_in in Eh.
      assert (Hnd : NoDup (blocks w ++ L)) by apply Hw.
      assert (HNa : NoDup (rattrs w)).
      { unfold blocks in Hnd. rewrite <- !app_assoc in Hnd. revert Hnd. clear. intros Hnd.
        assert (K : forall (k l : list Z), NoDup (k ++ l) -> NoDup l).
        { induction k; intros l Hl; [exact Hl|]. inversion Hl; auto. }
        apply K in Hnd. apply K in Hnd. revert Hnd. generalize (rattrs w). intros k. induction k as [|y k IH]; intros Hnd; [constructor|].
        inversion Hnd; subst. constructor; [|apply IH; assumption]. intros Hx. apply H1. apply in_or_app. auto. }
      destruct (in_split _ _ Eh) as (k1 & k2 & Ek).
      assert (PA : Permutation (rattrs w) (p :: drop (rattrs w) p)).
      { assert (Pk : Permutation (rattrs w) (p :: k1 ++ k2)) by (rewrite Ek; apply Permutation_sym, Permutation_middle).
        eapply Permutation_trans; [exact Pk|]. constructor. apply Permutation_sym. apply drop_perm; assumption. }
      assert (PH : Permutation (blocks w ++ L) (p :: (flat_map pblocks (rpools w) ++ map fst (rsets w) ++ drop (rattrs w) p) ++ L)).
      { unfold blocks. rewrite app_comm_cons. apply Permutation_app_tail.
        eapply Permutation_trans; [apply Permutation_app_head; apply Permutation_app_head; exact PA|].
        rewrite !app_assoc. apply Permutation_sym, Permutation_middle. }
      bnd; [eapply r_free; [apply Hw|exact PH|exact N|]|].
      * intros Hx.
        assert (Hnd2 : NoDup (p :: (flat_map pblocks (rpools w) ++ map fst (rsets w) ++ drop (rattrs w) p) ++ L)) by (eapply Permutation_NoDup; eauto).
        inversion Hnd2 as [|? ? Hn2 _]; subst. apply Hn2. unfold mus in Hx. rewrite !in_app_iff in *.
        destruct Hx as [[Hx|Hx]|Hx]; [left; left; apply selfs_incl; exact Hx|auto|right; apply Hw; exact Hx].
      * apply runs_ret. apply goes_same. destruct Hw as [HS1 Hi H0 Hpk Ha]. constructor; auto; cbn [fst rattrs].
        intros Hx. apply Ha. unfold drop in Hx. apply filter_In in Hx. apply Hx.
Qed.
End P.
