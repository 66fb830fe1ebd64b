(** The calls with their events compute what PoolModel.v and PoolSetModel.v say (C64). *)
From Coq Require Import ZArith Bool List Lia.
From Verif Require Import UtilsModel RseqIR PoolVM PoolModel PoolWorld PoolSetModel ResSpec ResModel ResProofs.
Import ListNotations.
Local Open Scope Z_scope.

Definition rmap {A B} (f : A -> B) (r : res A) : res B :=
  match r with Ok x => Ok (f x) | Abort => Abort | Undef => Undef end.

Lemma snd_bind : forall A B (m : wr A) (f : A -> wr B),
  snd (wbind m f) = match snd m with Ok x => snd (f x) | Abort => Abort | Undef => Undef end.
Proof. intros A B [t r] f. destruct r as [x| |]; cbn; auto. destruct (f x). reflexivity. Qed.
Lemma snd_emit : forall B ev (f : unit -> wr B), snd (wbind (emit ev) f) = snd (f tt).
Proof. intros. rewrite snd_bind. reflexivity. Qed.
Lemma snd_lift : forall A B (r : res A) (f : A -> wr B),
  snd (wbind (lift r) f) = match r with Ok x => snd (f x) | Abort => Abort | Undef => Undef end.
Proof. intros. rewrite snd_bind. reflexivity. Qed.
Lemma snd_ret : forall A B (x : A) (f : A -> wr B), snd (wbind (wret x) f) = snd (f x).
Proof. intros. rewrite snd_bind. reflexivity. Qed.

Lemma snd_close : forall B fd (f : unit -> wr B), snd (wbind (memfd_close fd) f) = snd (f tt).
Proof. intros. rewrite snd_bind. unfold memfd_close. destruct (fd <? 0); reflexivity. Qed.

Section E.
Variable e : env.

Definition bm_ok (r : range) (bm : Z) : Prop := has_bm r = negb (bm =? 0).

Lemma er_range_destroy : forall an r bm acc v, bm_ok r bm ->
  snd (range_destroy_r e an r bm acc v) = range_destroy e an r acc v.
Proof.
  intros an r bm acc v Hb. unfold range_destroy_r, range_destroy, destroy_alloc_bitmap_r. rewrite snd_bind.
  unfold bm_ok in Hb. destruct (bm =? 0); cbn [negb] in Hb.
  - cbn [snd wret]. unfold has_bm in Hb. unfold destroy_alloc_bitmap. destruct (alloc_bitmap r); [discriminate Hb|].
    cbn. destruct acc; destruct (an_munmap an _); reflexivity.
  - rewrite snd_emit, snd_lift. destruct (destroy_alloc_bitmap e r) as [r'| |]; cbn; [|reflexivity|reflexivity].
    destruct acc; destruct (an_munmap an _); reflexivity.
Qed.

Definition no_bm (x : option (range * Z) * pool * PoolVM.vm) : option range * pool * PoolVM.vm :=
  let '(o, P, v) := x in (match o with Some (r, _) => Some r | None => None end, P, v).
Lemma er_error_alloc : forall P an memfd bm r v, bm_ok r bm ->
  rmap no_bm (snd (error_alloc_r e P an memfd bm r v)) =
  match range_destroy e an r true v with Ok (_, _, v) => Ok (None, P, v) | Abort => Abort | Undef => Undef end.
Proof.
  intros P an memfd bm r v Hb. unfold error_alloc_r. rewrite snd_close, snd_bind, er_range_destroy by exact Hb. destruct (range_destroy e an r true v) as [[[ok r'] v']| |]; reflexivity.
Qed.
Definition good (P : pool) (x : res (option (range * Z) * pool * PoolVM.vm)) : Prop :=
  match x with
  | Ok (o, P', _) => range_list P' = range_list P /\ match o with Some (r, bm) => bm_ok r bm | None => True end
  | _ => True
  end.
Lemma good_error : forall P an memfd bm r v, good P (snd (error_alloc_r e P an memfd bm r v)).
Proof.
  intros. unfold error_alloc_r. rewrite snd_close, snd_bind. destruct (snd (range_destroy_r e an r bm true v)) as [[[ok r'] v']| |]; cbn; auto.
Qed.
Definition after_plain (P : pool) (an : answers) (b : Z) (r : range) (v : PoolVM.vm) : res (option range * pool * PoolVM.vm) :=
  let at_ := pattr P in
  let error_alloc r v := match range_destroy e an r true v with Ok (_, _, v) => Ok (None, P, v) | Abort => Abort | Undef => Undef end in
  if robust_set at_ && negb (an_bitmap an) then error_alloc r v
  else
  let r := if robust_set at_ then set_bitmap r (Some (repeat 0 (Z.to_nat (bitmap_words e P)))) else r in
  let iv := if init_set at_
            then if type at_ =? TYPE_GLOBAL then run_init_global e P an b v
                 else run_init e P an b (cpus P) v
            else Some v in
  match iv with
  | None => error_alloc r v
  | Some v => Ok (Some r, set_nr P (nr_ranges P + 1), v)
  end.
Lemma er_after_init : forall P s b r v, has_bm r = false ->
  rmap no_bm (snd (after_init_r e P s b r v)) = after_plain P (plain s) b r v /\ good P (snd (after_init_r e P s b r v)).
Proof.
  intros P s b r v Hr. unfold after_init_r, after_plain. cbv zeta. rewrite snd_bind.
  replace (an_bitmap (plain s)) with (negb (s_bitmap s =? 0)) by reflexivity. rewrite negb_involutive.
  destruct (robust_set (pattr P)); cbn [andb].
  - destruct (s_bitmap s =? 0) eqn:E; cbn [snd wret].
    + split; [apply er_error_alloc; exact Hr|apply good_error].
    + rewrite snd_emit. cbn [snd wret].
      assert (Hb : forall l, bm_ok (set_bitmap r (Some l)) (s_bitmap s)) by (intros; unfold bm_ok; rewrite E; reflexivity).
      match goal with |- context [match ?iv with Some v => wret _ | None => _ end] => destruct iv end.
      * cbn [snd wret]. split; [reflexivity|]. split; [reflexivity|apply Hb].
      * split; [apply er_error_alloc; apply Hb|apply good_error].
  - cbn [snd wret]. match goal with |- context [match ?iv with Some v => wret _ | None => _ end] => destruct iv end.
    + cbn [snd wret]. split; [reflexivity|]. split; [reflexivity|exact Hr].
    + split; [apply er_error_alloc; exact Hr|apply good_error].
Qed.

Lemma er_range_create : forall P s v,
  rmap no_bm (snd (range_create_r e P s v)) = range_create e P (plain s) v /\ good P (snd (range_create_r e P s v)).
Proof.
  intros P s v. unfold range_create_r, range_create. cbv zeta.
  destruct (negb (max_nr_ranges (pattr P) =? 0) && (max_nr_ranges (pattr P) <=? nr_ranges P)).
  { split; [reflexivity|]. split; [reflexivity|exact Logic.I]. }
  rewrite snd_lift. destruct (aligned_mmap_anonymous _ _ _ _ _ _ _ _ _) as [[[[bs hd0]|] v1]| |]; cbn [PoolVM.bind];
    [|split; [reflexivity|first [exact Logic.I|split; [reflexivity|exact Logic.I]]]..].
  match goal with |- context [Build_range ?a1 ?a2 ?a3 ?a4 ?a5 ?a6 ?a7] => set (r0 := Build_range a1 a2 a3 a4 a5 a6 a7) end.
  assert (Hr0 : has_bm r0 = false) by reflexivity. clearbody r0.
  assert (HA : forall b v, rmap no_bm (snd (after_init_r e P s b r0 v)) = after_plain P (plain s) b r0 v /\
     good P (snd (after_init_r e P s b r0 v))) by (intros; apply er_after_init; exact Hr0).
  assert (HE : forall fd v, rmap no_bm (snd (error_alloc_r e P (plain s) fd 0 r0 v)) =
      match range_destroy e (plain s) r0 true v with Ok (_, _, v) => Ok (None, P, v) | Abort => Abort | Undef => Undef end /\
     good P (snd (error_alloc_r e P (plain s) fd 0 r0 v))).
  { intros fd v2. split; [apply er_error_alloc; exact Hr0|apply good_error]. }
  destruct (init r0) as [ip|]; [|apply HA].
  rewrite snd_bind. unfold memfd_create_init.
  replace (an_memfd (plain s)) with ((0 <=? s_fd s) && s_trunc s) by reflexivity.
  destruct (Z.ltb_spec (s_fd s) 0) as [H1|H1].
  - cbn [snd wret]. destruct (Z.ltb_spec (s_fd s) 0); [|lia]. destruct (Z.leb_spec 0 (s_fd s)); [lia|]. cbn [andb negb]. apply HE.
  - destruct (Z.leb_spec 0 (s_fd s)); [|lia]. rewrite snd_emit. destruct (s_trunc s); cbn [andb negb]; [|rewrite snd_emit; cbn [snd wret]; apply HE].
    cbn [snd wret]. destruct (Z.ltb_spec (s_fd s) 0); [lia|].
    destruct (an_map_init (plain s)); cbn [negb]; [|apply HE].
    destruct (type (pattr P) =? TYPE_PERCPU); cbn [negb]; [|split; [reflexivity|exact Logic.I]].
    destruct (forallb (an_map_cpu (plain s)) (cpus P)); cbn [negb]; [|apply HE].
    destruct (an_dontfork (plain s)); cbn [negb]; [|apply HE].
    destruct (an_wipe (plain s)); cbn [negb]; [|apply HE].
    rewrite snd_close. apply HA.
Qed.

Lemma er_destroy_ranges : forall P an acc l bms v, Forall2 bm_ok l bms ->
  rmap (fun x : option (pool * list Z) * PoolVM.vm => (match fst x with Some (P, _) => Some P | None => None end, snd x))
    (snd (destroy_ranges_r e P an acc l bms v)) = destroy_ranges e P an acc l v.
Proof.
  intros P an acc l bms v HF. revert v. induction HF as [|r bm l bms Hb HF IH]; intros v; [reflexivity|].
  cbn [destroy_ranges_r destroy_ranges hd tl]. rewrite snd_bind, er_range_destroy by exact Hb.
  destruct (range_destroy e an r acc v) as [[[ok r'] v']| |]; cbn [PoolVM.bind]; [|reflexivity|reflexivity].
  destruct ok; [apply IH|reflexivity].
Qed.
Lemma er_destroy : forall p s v, Forall2 bm_ok (range_list (core p)) (bitmaps p) ->
  rmap (fun x : Z * option rpool * PoolVM.vm => let '(r, o, v) := x in (r, option_map core o, v)) (snd (mempool_destroy_r e p s v))
  = mempool_destroy e (core p) (plain s) v.
Proof.
  intros p s v HF. unfold mempool_destroy_r, mempool_destroy. rewrite snd_emit, snd_lift.
  destruct (pool_mappings_accessible e (core p) v) as [acc| |]; cbn [PoolVM.bind]; [|reflexivity|reflexivity]. rewrite snd_lift.
  destruct (check_free_list e (core p) v acc) as [u| |]; cbn [PoolVM.bind]; [|reflexivity|reflexivity]. rewrite snd_lift.
  destruct (check_pool_poison e (core p) v acc) as [u'| |]; cbn [PoolVM.bind]; [|reflexivity|reflexivity]. rewrite snd_bind.
  rewrite <- (er_destroy_ranges (core p) (plain s) acc _ _ v HF).
  destruct (snd (destroy_ranges_r e (core p) (plain s) acc (range_list (core p)) (bitmaps p) v)) as [[[[P' bms]|] v']| |]; reflexivity.
Qed.

Lemma er_create : forall named len at_ s v,
  rmap (fun x : rmade * PoolVM.vm => (match fst x with RMade p => Made (core p) | RFailed err => Failed err end, snd x))
    (snd (mempool_create_r e named len at_ s v)) = mempool_create e named len at_ (plain s) v /\
  (forall p v', snd (mempool_create_r e named len at_ s v) = Ok (RMade p, v') -> self p = s_pool s).
Proof.
  intros named len at_ s v. unfold mempool_create_r, mempool_create. rewrite snd_lift.
  destruct (complete_attr e len at_) as [[[[l o] a]|err]| |]; cbn [PoolVM.bind];
    [|split; [reflexivity|intros p v' K; discriminate K]..].
  replace (an_calloc (plain s)) with (negb (s_pool s =? 0)) by reflexivity. rewrite negb_involutive.
  destruct (s_pool s =? 0); [split; [reflexivity|intros p v' K; discriminate K]|].
  rewrite !snd_emit, snd_bind. cbv zeta.
  match goal with |- context [range_create_r e ?P s v] => set (P0 := P); destruct (er_range_create P0 s v) as [E1 E2] end.
  rewrite <- E1.
  destruct (snd (range_create_r e P0 s v)) as [[[[[r bm]|] P'] v']| |]; cbn [rmap no_bm PoolVM.bind];
    [| |split; [reflexivity|intros p v' K; discriminate K]..].
  - destruct E2 as [El Eb]. cbn [range_list P0] in El.
    replace (an_strdup (plain s)) with (negb (s_name s =? 0)) by reflexivity.
    destruct named; cbn [andb]; [|split; [reflexivity|intros p v1 K; inversion K; reflexivity]].
    rewrite negb_involutive. destruct (s_name s =? 0).
    + set (p := {| core := set_ranges P' (r :: range_list P'); self := s_pool s; name := 0; bitmaps := [bm] |}).
      assert (HD : rmap (fun x : Z * option rpool * PoolVM.vm => let '(r, o, v) := x in (r, option_map core o, v)) (snd (mempool_destroy_r e p s v'))
        = mempool_destroy e (set_ranges P' (r :: range_list P')) (plain s) v').
      { apply er_destroy. cbn [core p range_list set_ranges bitmaps]. rewrite El. constructor; [exact Eb|constructor]. }
      rewrite <- HD, snd_bind. destruct (snd (mempool_destroy_r e p s v')) as [[[ret o'] v2]| |];
        (split; [reflexivity|intros p1 v1 K; discriminate K]).
    + rewrite snd_emit. split; [reflexivity|intros p v1 K; inversion K; reflexivity].
  - destruct E2 as [El _]. cbn [range_list P0] in El.
    set (p := {| core := P'; self := s_pool s; name := 0; bitmaps := [] |}).
    assert (HD : rmap (fun x : Z * option rpool * PoolVM.vm => let '(r, o, v) := x in (r, option_map core o, v)) (snd (mempool_destroy_r e p s v'))
        = mempool_destroy e P' (plain s) v').
    { apply (er_destroy p). cbn [core p bitmaps]. rewrite El. constructor. }
    rewrite <- HD, snd_bind. destruct (snd (mempool_destroy_r e p s v')) as [[[ret o'] v2]| |];
        (split; [reflexivity|intros p1 v1 K; discriminate K]).
Qed.

Definition cored (x : option (range * Z * Z) * rpool * PoolVM.vm) : option (range * Z * Z) * pool * PoolVM.vm :=
  let '(o, p, v) := x in (o, core p, v).
Lemma er_malloc_locked : forall p s v,
  rmap cored (snd (malloc_locked_r e p s v)) = malloc_locked e (core p) (plain s) v /\
  (forall o p' v', snd (malloc_locked_r e p s v) = Ok (o, p', v') -> self p' = self p).
Proof.
  intros p s v. unfold malloc_locked_r, malloc_locked. cbv zeta. rewrite !snd_emit, snd_bind.
  set (m1 := if negb (free_list_head (core p) =? 0) then _ else _).
  set (m2 := if negb (free_list_head (core p) =? 0) then _ else _).
  assert (EM : rmap (fun x : option (range * Z * Z) * pool * list Z * PoolVM.vm => let '(o, P, _, v) := x in (o, P, v)) (snd m1) = m2).
  { subst m1 m2. destruct (negb (free_list_head (core p) =? 0)).
    - destruct (find_range _ _) as [r|]; [|reflexivity]. destruct (negb (accessible e v (free_list_head (core p)) (wsz e))); [reflexivity|].
      rewrite snd_emit, snd_lift. destruct (check_poison_item _ _ _ _ _) as [u| |]; reflexivity.
    - rewrite snd_emit, snd_bind.
      set (m3 := if match range_list (core p) with [] => false | _ => _ end then _ else _).
      set (m4 := if match range_list (core p) with [] => false | _ => _ end then _ else _).
      assert (EM' : rmap (fun x : bool * pool * list Z * PoolVM.vm => let '(o, P, _, v) := x in (o, P, v)) (snd m3) = m4).
      { subst m3 m4. destruct (match range_list (core p) with [] => false | _ => _ end); [reflexivity|].
        rewrite snd_bind. destruct (er_range_create (core p) s v) as [E1 _]. rewrite <- E1.
        destruct (snd (range_create_r e (core p) s v)) as [[[[[r bm]|] P'] v']| |]; reflexivity. }
      rewrite <- EM'. destruct (snd m3) as [[[[ok P'] bms] v']| |]; [|reflexivity|reflexivity]. cbn [rmap PoolVM.bind].
      destruct ok; [|reflexivity]. destruct (range_list P'); reflexivity. }
  rewrite <- EM. destruct (snd m1) as [[[[o P'] bms] v']| |]; cbn [rmap PoolVM.bind];
    [|split; [reflexivity|intros o p' v' K; discriminate K]..].
  destruct o as [[[r off] a]|].
  - rewrite snd_emit, snd_lift. destruct (set_alloc_slot e P' r off) as [r'| |]; cbn [PoolVM.bind];
      [|split; [reflexivity|intros o p' v2 K; discriminate K]..].
    rewrite snd_emit. split; [reflexivity|]. intros o p' v2 K. inversion K. reflexivity.
  - rewrite snd_emit. split; [reflexivity|]. intros o p' v2 K. inversion K. reflexivity.
Qed.
Lemma er_malloc : forall p c n s v,
  rmap (fun x : got * rpool * PoolVM.vm => let '(g, p, v) := x in (g, core p, v)) (snd (percpu_malloc_r e p c n s v))
    = percpu_malloc e (core p) c n (plain s) v /\
  (forall g p' v', snd (percpu_malloc_r e p c n s v) = Ok (g, p', v') -> self p' = self p).
Proof.
  intros p c n s v. unfold percpu_malloc_r, percpu_malloc. rewrite snd_emit.
  destruct (item_len (core p) <? n); [split; [reflexivity|intros g p' v' K; inversion K; reflexivity]|].
  rewrite snd_bind. destruct (er_malloc_locked p s v) as [E1 E2]. rewrite <- E1.
  destruct (snd (malloc_locked_r e p s v)) as [[[[[[r off] a]|] p'] v']| |]; cbn [rmap cored PoolVM.bind].
  - rewrite snd_emit, snd_lift. destruct (fill_item e (core p') r off c v') as [v2| |]; cbn [PoolVM.bind].
    + split; [reflexivity|]. intros g p2 v3 K. inversion K; subst. eapply E2. reflexivity.
    + split; [reflexivity|intros g p2 v3 K; discriminate K].
    + split; [reflexivity|intros g p2 v3 K; discriminate K].
  - split; [reflexivity|]. intros g p2 v3 K. inversion K; subst. eapply E2. reflexivity.
  - split; [reflexivity|intros g p2 v3 K; discriminate K].
  - split; [reflexivity|intros g p2 v3 K; discriminate K].
Qed.
Lemma er_free : forall p r ptr strd v,
  snd (free_in_r e p r ptr strd v) =
  rmap (fun x : pool * PoolVM.vm => ({| core := fst x; self := self p; name := name p; bitmaps := bitmaps p |}, snd x))
    (free_in e (core p) r ptr strd v).
Proof.
  intros. unfold free_in_r. rewrite !snd_emit, snd_lift. destruct (free_in e (core p) r ptr strd v) as [[P' v']| |]; reflexivity.
Qed.

(** ** Worlds *)
Definition tag (p : rpool) : Z * pool := (self p, core p).
Lemma er_lookup : forall id l, lookup id (map tag l) = option_map core (find_pool id l).
Proof.
  intros id l. unfold lookup, find_pool. induction l as [|p l IH]; [reflexivity|]. cbn. destruct (self p =? id); [reflexivity|exact IH].
Qed.
Lemma er_put : forall l p id, self p = id -> set_pool id (core p) (map tag l) = map tag (put_pool p l).
Proof.
  intros l p id E. unfold set_pool, put_pool. rewrite !map_map. apply map_ext. intros q. cbn. rewrite E.
  destruct (self q =? id); [unfold tag; rewrite E|]; reflexivity.
Qed.
Lemma er_drop : forall l id, del_pool id (map tag l) = map tag (drop_pool id l).
Proof.
  intros l id. unfold del_pool, drop_pool. induction l as [|q l IH]; [reflexivity|]. cbn. destruct (self q =? id); cbn; [exact IH|]. rewrite IH. reflexivity.
Qed.
Lemma er_owner : forall l b, find_owner (map tag l) b = option_map (fun x : rpool * range => (self (fst x), core (fst x), snd x)) (find_owner_r l b).
Proof.
  intros l b. induction l as [|p l IH]; [reflexivity|]. cbn. destruct (find_range (range_list (core p)) b); [reflexivity|exact IH].
Qed.
Lemma pok_bm : forall p, pok p -> Forall2 bm_ok (range_list (core p)) (bitmaps p).
Proof.
  intros p [Hl Hr Hb _]. revert Hl Hr Hb. generalize (bitmaps p). generalize (robust_set (pattr (core p))). intros rb.
  induction (range_list (core p)) as [|r l IH]; intros [|bm bms] Hl Hr Hb; try discriminate Hl; [constructor|].
  inversion Hr; subst. inversion Hb; subst. constructor; [|apply IH; auto]. unfold bm_ok. congruence.
Qed.
Lemma find_pool_pok : forall id l p, Forall pok l -> find_pool id l = Some p -> pok p /\ self p = id.
Proof.
  intros id l p HF Hf. apply find_some in Hf. destruct Hf as [Hin E]. apply Z.eqb_eq in E. split; [|exact E].
  rewrite Forall_forall in HF. auto.
Qed.

Definition ew {A} (x : A * rworld) : A * world := (fst x, plain_world (snd x)).
Lemma er_with : forall w p v id, self p = id -> with_pool (plain_world w) id (core p) v = plain_world (with_pool_r w p v).
Proof.
  intros w p v id E. unfold with_pool, with_pool_r, plain_world. cbn [rv rpools w_pools]. f_equal. apply er_put. exact E.
Qed.
Lemma er_set_malloc : forall os id E c len ans w,
  rmap ew (snd (set_malloc_from_r e os id E c len ans w)) = set_malloc_from e os E c len (fun o => plain (ans o)) (plain_world w) /\
  (forall g w', snd (set_malloc_from_r e os id E c len ans w) = Ok (g, w') -> rsets w' = rsets w).
Proof.
  induction os as [|o os IH]; intros id E c len ans w; cbn [set_malloc_from_r set_malloc_from]; rewrite snd_emit.
  - split; [reflexivity|]. intros g w' K. inversion K. reflexivity.
  - destruct (E o) as [h|]; [|apply IH]. unfold plain_world at 1. cbn [w_pools]. fold tag. rewrite er_lookup.
    destruct (find_pool h (rpools w)) as [p|] eqn:Ef; cbn [option_map]; [|split; [reflexivity|intros g w' K; discriminate K]].
    assert (Es : self p = h) by (apply find_some in Ef; destruct Ef as [_ Q]; apply Z.eqb_eq in Q; exact Q).
    rewrite snd_emit. destruct (len <=? item_len (core p)); [|apply IH].
    rewrite snd_emit, snd_bind. destruct (er_malloc p c len (ans o) (rv w)) as [E1 E2].
    replace (w_vm (plain_world w)) with (rv w) by reflexivity. rewrite <- E1.
    destruct (snd (percpu_malloc_r e p c len (ans o) (rv w))) as [[[g p'] v']| |]; cbn [rmap PoolVM.bind];
      [|split; [reflexivity|intros g w' K; discriminate K]..].
    specialize (E2 _ _ _ eq_refl). rewrite Es in E2.
    destruct g as [a|err].
    + split; [unfold ew; cbn [rmap snd wret fst]; rewrite (er_with w p' v' h E2); reflexivity|intros g w' K; inversion K; reflexivity].
    + rewrite (er_with w p' v' h E2). destruct (err =? ENOMEM).
      * rewrite !snd_emit. destruct (IH id E c len ans (with_pool_r w p' v')) as [I1 I2]. split; [exact I1|].
        intros g w' K. rewrite (I2 g w' K). reflexivity.
      * split; [reflexivity|intros g w' K; inversion K; reflexivity].
Qed.
Lemma er_set_destroy : forall os id E ans w, Forall pok (rpools w) ->
  rmap (fun x : Z * rworld => (fst x, plain_world (snd x))) (snd (set_destroy_from_r e os id E ans w))
    = rmap (fun x : Z * pset * world => (fst (fst x), snd x)) (set_destroy_from e os E (fun o => plain (ans o)) (plain_world w)) /\
  (forall r w', snd (set_destroy_from_r e os id E ans w) = Ok (r, w') ->
     rsets w' = if r =? 0 then filter (fun x => negb (fst x =? id)) (rsets w) else rsets w).
Proof.
  induction os as [|o os IH]; intros id E ans w HF; cbn [set_destroy_from_r set_destroy_from]; rewrite snd_emit.
  - rewrite snd_emit. split; [reflexivity|]. intros g w' K. inversion K. reflexivity.
  - destruct (E o) as [h|]; [|apply IH; exact HF]. unfold plain_world at 2. cbn [w_pools]. fold tag. rewrite er_lookup.
    destruct (find_pool h (rpools w)) as [p|] eqn:Ef; cbn [option_map]; [|split; [reflexivity|intros g w' K; discriminate K]].
    destruct (find_pool_pok _ _ _ HF Ef) as [Hp Es]. rewrite snd_bind.
    replace (w_vm (plain_world w)) with (rv w) by reflexivity. rewrite <- (er_destroy p (ans o) (rv w) (pok_bm _ Hp)).
    destruct (snd (mempool_destroy_r e p (ans o) (rv w))) as [[[ret p'] v']| |]; cbn [rmap PoolVM.bind];
      [|split; [reflexivity|intros g w' K; discriminate K]..].
    set (w1 := {| rv := v'; rpools := drop_pool h (rpools w); rsets := rsets w; rattrs := rattrs w |}).
    replace {| w_vm := v'; w_pools := del_pool h (w_pools (plain_world w)) |} with (plain_world w1)
      by (unfold plain_world; cbn [rv rpools w1 w_pools]; f_equal; symmetry; apply er_drop).
    destruct (ret =? 0) eqn:Er; cbn [negb].
    + destruct (IH id (fun o' => if o' =? o then None else E o') ans w1) as [I1 I2].
      * cbn [rpools w1]. rewrite Forall_forall in *. intros q Hq. apply HF. unfold drop_pool in Hq. apply filter_In in Hq. apply Hq.
      * split; [exact I1|]. intros r w' K. apply (I2 r w' K).
    + split; [reflexivity|]. intros r w' K. inversion K; subst. rewrite Er. reflexivity.
Qed.

Definition erased (x : rworld * rout) : world * list (Z * pset) * rout := (plain_world (fst x), rsets (fst x), snd x).
Lemma er_run : forall o w, Forall pok (rpools w) -> (match o with RAttrDestroy p => p = 0 \/ In p (rattrs w) | _ => True end) ->
  rmap erased (snd (run_r e o w)) = run_plain e o (plain_world w) (rsets w).
Proof.
  intros o w HF Ha. destruct o; cbn [run_r run_plain].
  - rewrite snd_bind. destruct (er_create named len at_ s (rv w)) as [E1 E2].
    replace (w_vm (plain_world w)) with (rv w) by reflexivity. rewrite <- E1.
    destruct (snd (mempool_create_r e named len at_ s (rv w))) as [[[p|err] v']| |]; try reflexivity.
    cbn. unfold erased. cbn. unfold plain_world. cbn. rewrite (E2 p v' eq_refl). reflexivity.
  - unfold plain_world at 1. cbn [w_pools]. fold tag. rewrite er_lookup.
    destruct (find_pool id (rpools w)) as [p|] eqn:Ef; cbn [option_map]; [|reflexivity].
    destruct (find_pool_pok _ _ _ HF Ef) as [Hp Es].
    rewrite snd_bind. destruct (er_malloc p c init_len s (rv w)) as [E1 E2].
    replace (w_vm (plain_world w)) with (rv w) by reflexivity. rewrite <- E1.
    destruct (snd (percpu_malloc_r e p c init_len s (rv w))) as [[[g p'] v']| |]; cbn [rmap PoolVM.bind]; try reflexivity.
    specialize (E2 _ _ _ eq_refl). rewrite Es in E2.
    rewrite (er_with w p' v' id E2). destruct g; reflexivity.
  - cbn [run1]. unfold plain_world at 1. cbn [w_pools]. fold tag. rewrite er_owner.
    destruct (find_owner_r (rpools w) (free_base e ptr strd)) as [[p r]|]; cbn [option_map fst snd]; [|reflexivity].
    rewrite snd_bind, er_free. replace (w_vm (plain_world w)) with (rv w) by reflexivity.
    destruct (free_in e (core p) r ptr strd (rv w)) as [[P' v']| |]; cbn [rmap PoolVM.bind]; try reflexivity.
    cbn [fst snd wret rmap]. unfold erased. cbn [fst snd].
    f_equal. f_equal. f_equal. symmetry. apply (er_with w {| core := P'; self := self p; name := name p; bitmaps := bitmaps p |} v' (self p) eq_refl).
  - cbn [run1]. replace (w_vm (plain_world w)) with (rv w) by reflexivity.
    destruct (forallb _ ps); reflexivity.
  - cbn [run1]. unfold plain_world at 1. cbn [w_pools]. fold tag. rewrite er_lookup.
    destruct (find_pool id (rpools w)) as [p|] eqn:Ef; cbn [option_map]; [|reflexivity].
    destruct (find_pool_pok _ _ _ HF Ef) as [Hp Es].
    rewrite snd_bind. replace (w_vm (plain_world w)) with (rv w) by reflexivity.
    rewrite <- (er_destroy p s (rv w) (pok_bm _ Hp)).
    destruct (snd (mempool_destroy_r e p s (rv w))) as [[[ret p'] v']| |]; cbn [rmap PoolVM.bind]; try reflexivity.
    cbn [fst snd wret rmap]. unfold erased. cbn [fst snd rsets]. f_equal. f_equal. f_equal.
    unfold plain_world. cbn [rv rpools w_pools]. f_equal. symmetry. apply er_drop.
  - destruct (p =? 0); [reflexivity|]. rewrite !snd_emit. reflexivity.
  - destruct (find_set set (rsets w)) as [E|]; [|reflexivity]. unfold plain_world at 1. cbn [w_pools]. fold tag. rewrite er_lookup.
    destruct (find_pool id (rpools w)) as [p|]; cbn [option_map]; [|reflexivity]. rewrite !snd_emit.
    destruct (set_add_pool E id (core p)) as [[ret err] E']. rewrite snd_emit. reflexivity.
  - destruct (find_set set (rsets w)) as [E|]; [|reflexivity]. rewrite snd_bind. unfold set_malloc_r, set_malloc. cbv zeta. rewrite !snd_emit.
    match goal with |- context [set_malloc_from_r e ?os set E c len ans w] => destruct (er_set_malloc os set E c len ans w) as [E1 E2]; rewrite <- E1;
      destruct (snd (set_malloc_from_r e os set E c len ans w)) as [[g w']| |] end; try reflexivity.
    specialize (E2 g w' eq_refl). destruct g; cbn; unfold erased; cbn [fst snd]; rewrite E2; reflexivity.
  - destruct (find_set set (rsets w)) as [E|]; [|reflexivity]. rewrite snd_bind. unfold set_destroy.
    match goal with |- context [set_destroy_from_r e ?os set E ans w] => destruct (er_set_destroy os set E ans w HF) as [E1 E2];
      destruct (set_destroy_from e os E (fun o => plain (ans o)) (plain_world w)) as [[[ret E'] w1]| |];
      destruct (snd (set_destroy_from_r e os set E ans w)) as [[ret' w']| |] end; try discriminate E1; try reflexivity.
    cbn in E1. inversion E1; subst. specialize (E2 _ _ eq_refl). cbn. unfold erased. cbn [fst snd]. rewrite E2. reflexivity.
  - destruct (p =? 0); [reflexivity|]. rewrite snd_emit. reflexivity.
  - assert (Eb : (p =? 0) || has (rattrs w) p = true).
    { destruct Ha as [->|Hin]; [reflexivity|]. apply orb_true_intro. right. apply has_in. exact Hin. }
    rewrite Eb, snd_emit. reflexivity.
Qed.
End E.
