(** C64: what the calls of include/rseq/mempool.h, and the inquiry of the number of
    CPUs, do with heap blocks, file descriptors and mutexes. *)
From Coq Require Import ZArith Bool List Lia Permutation.
From Verif Require Import UtilsModel RseqIR PoolVM PoolModel PoolWorld PoolSetModel ResSpec ResModel ResProofs ResErase ResHist ExPool.
From Verif Require SmpModel ExSmp.
Import ListNotations.
Local Open Scope Z_scope.

(** A program: a robust pool with a name and two ranges, a pool with initial values
    (hence a memory file), a set with both, an attribute object. *)
Definition sys_of (p nm bm fd a : Z) : sys :=
  {| s_pool := p; s_name := nm; s_bitmap := bm; s_fd := fd; s_trunc := true; s_rest := grant a |}.
Definition at_robust : attr :=
  {| init_set := false; robust_set := true; type := TYPE_PERCPU; stride := 4096; max_nr_cpus := 1;
     max_nr_ranges := 0; poison_set := false; poison := 0; populate_policy := COW_ZERO |}.
Definition prog : list rop :=
  [ RAttrCreate 400;
    RCreate true 4096 (Some at_robust) (sys_of 100 101 102 (-1) 819200);
    RCreate false 16 (Some (attrs false COW_INIT 0)) (sys_of 200 0 0 3 1638400);
    RSetCreate 300;
    RSetAdd 300 200;
    RSetMalloc 300 Any 8 (fun _ => sys_of 0 0 0 (-1) 0);
    RMalloc 100 Any 0 (sys_of 0 0 0 (-1) 0);
    RMalloc 100 Any 0 (sys_of 0 0 103 (-1) 2457600) ].
Fixpoint run_all (e : env) (os : list rop) (w : rworld) (t : list event) : option (rworld * list event) :=
  match os with
  | [] => Some (w, t)
  | o :: os => match run_r e o w with (t', Ok (w', _)) => run_all e os w' (t ++ t') | _ => None end
  end.
Lemma run_all_ran : forall (P : rop -> Prop) e v os w t w' t', run_all e os w t = Some (w', t') -> (forall o, In o os -> P o) ->
  ran P e v w t -> ran P e v w' t'.
Proof.
  induction os as [|o os IH]; intros w t w' t' H HP R; cbn in H.
  - inversion H; subst. exact R.
  - destruct (run_r e o w) as [t1 [[w1 x]| |]] eqn:E; try discriminate H. eapply IH; [exact H|intros; apply HP; right; assumption|].
    eapply ran_step; [exact R|apply HP; left; reflexivity|exact E].
Qed.
Definition start : rworld := {| rv := v0; rpools := []; rsets := []; rattrs := [] |}.
Definition summary (x : option (rworld * list event)) : option (verdict * nat * nat) :=
  match x with Some (w, t) => Some (monitor t books0, length (rpools w), length t) | None => None end.
(** Another one, which gives everything back. *)
Definition prog_end : list rop :=
  [ RAttrCreate 400;
    RCreate true 16 (Some at_robust) (sys_of 100 101 102 (-1) 819200);
    RCreate false 16 (Some (attrs false COW_INIT 0)) (sys_of 200 0 0 3 1638400);
    RSetCreate 300;
    RSetAdd 300 200;
    RSetMalloc 300 Any 8 (fun _ => sys_of 0 0 0 (-1) 0);
    RMalloc 100 Any 0 (sys_of 0 0 0 (-1) 0);
    RFree 1646592 8192; RFree 827392 4096;
    RSetDestroy 300 (fun _ => sys_of 0 0 0 (-1) 0); RDestroy 100 (sys_of 0 0 0 (-1) 0); RAttrDestroy 400 ].

(** No call, from any state that calls can reach, and whatever the allocator and the
    system answer, frees a block twice or uses it after that, closes a descriptor it
    does not own, or misuses a mutex, not even in a call that ends in an abort. *)
Theorem C64_no_misuse : forall P e v0 w t o,
  ran P e v0 w t -> monitor (t ++ fst (run_r e o w)) books0 <> Wrong.
Proof. exact ran_next. Qed.
Print Assumptions C64_no_misuse.

(** Between calls no descriptor of the library is open and no mutex is held. *)
Theorem C64_descriptors_closed : forall P e v0 w t b,
  ran P e v0 w t -> monitor t books0 = Fine b -> fds b = [] /\ held b = None.
Proof.
  intros P e v0 w t b R M. destruct (ran_fine _ _ _ _ _ _ R M) as (L & LM & Hw & _). destruct (wi_st _ _ _ _ _ Hw).
  split; [apply perm_nil_r; assumption|assumption].
Qed.
Print Assumptions C64_descriptors_closed.

(** As long as munmap succeeds, the live blocks are those of the program's objects:
    per pool itself, its name and one bitmap for each range of a robust pool; per set
    and attribute object itself.  The mutexes are those of pools and sets. *)
Theorem C64_nothing_leaks : forall e v0 w t b,
  ran unmap_ok e v0 w t -> monitor t books0 = Fine b ->
  Permutation (heap b) (blocks w) /\ Permutation (mutexes b) (mus w) /\
  Forall (fun p => length (nzs (bitmaps p)) = if robust_set (pattr (core p)) then length (range_list (core p)) else 0%nat) (rpools w).
Proof.
  intros e v0 w t b R M. destruct (ran_fine _ _ _ _ _ _ R M) as (L & LM & Hw & Hc). destruct (Hc (fun o H => H)) as [-> ->].
  destruct Hw as [[] _ _ Hp _]. rewrite !app_nil_r in *. split; [assumption|]. split; [assumption|].
  eapply Forall_impl; [|exact Hp]. intros p [Hl _ Hb _]. revert Hb. rewrite <- Hl. clear.
  generalize (bitmaps p). intros l Hb. destruct (robust_set (pattr (core p))); induction Hb as [|x l Hx Hb IH]; auto;
    unfold nzs in *; cbn [flat_map]; unfold nz at 1; destruct (x =? 0); try discriminate Hx; cbn; congruence.
Qed.
Print Assumptions C64_nothing_leaks.

(** When the program has destroyed all of its objects, nothing is left. *)
Theorem C64_all_given_back : forall e v0 w t b,
  ran unmap_ok e v0 w t -> monitor t books0 = Fine b -> rpools w = [] -> rsets w = [] -> rattrs w = [] ->
  heap b = [] /\ mutexes b = [] /\ fds b = [] /\ held b = None.
Proof.
  intros e v0 w t b R M E1 E2 E3. destruct (C64_nothing_leaks _ _ _ _ _ R M) as (H1 & H2 & _).
  unfold blocks, mus in *. rewrite E1, E2 in *. rewrite E3 in H1. destruct (C64_descriptors_closed _ _ _ _ _ _ R M).
  split; [apply perm_nil_r; exact H1|]. split; [apply perm_nil_r; exact H2|]. auto.
Qed.
Print Assumptions C64_all_given_back.

(** A creation that fails, at whatever step, leaves the blocks and the mutexes as
    they were. *)
Theorem C64_failed_create : forall P e v0 w t b named len at_ s t' w' err b',
  ran P e v0 w t -> monitor t books0 = Fine b ->
  run_r e (RCreate named len at_ s) w = (t', Ok (w', RNull err)) -> always s -> monitor (t ++ t') books0 = Fine b' ->
  Permutation (heap b') (heap b) /\ Permutation (mutexes b') (mutexes b) /\ fds b' = [] /\ rpools w' = rpools w.
Proof.
  intros P e v0 w t b named len at_ s t' w' err b' R M E Ha M'.
  destruct (ran_fine _ _ _ _ _ _ R M) as (L & LM & Hw & _). pose proof (s_run e (RCreate named len at_ s) w L LM b Hw) as Q.
  rewrite monitor_app, M in M'. unfold runs in Q. rewrite E in Q. cbn [fst snd] in Q. rewrite M' in Q.
  destruct Q as (L' & LM' & Hw' & Hc). destruct (Hc Ha) as [-> ->]. cbn [fst app] in Hw'.
  assert (Ew : rpools w' = rpools w /\ rsets w' = rsets w /\ rattrs w' = rattrs w).
  { cbn [run_r] in E. apply (f_equal snd) in E. rewrite snd_bind in E. cbn [snd] in E.
    destruct (snd (mempool_create_r e named len at_ s (rv w))) as [[[p|er] v']| |]; try discriminate E. inversion E. auto. }
  destruct Ew as (E1 & E2 & E3). destruct Hw as [HS1 _ _ _ _]. destruct Hw' as [HS2 _ _ _ _].
  assert (Eb : blocks w' = blocks w) by (unfold blocks; rewrite E1, E2, E3; reflexivity).
  assert (Em : mus w' = mus w) by (unfold mus; rewrite E1, E2; reflexivity). rewrite Eb, Em in HS2.
  destruct HS1, HS2. split; [|split; [|split; [apply perm_nil_r; assumption|exact E1]]].
  - eapply Permutation_trans; [eassumption|apply Permutation_sym; assumption].
  - eapply Permutation_trans; [eassumption|apply Permutation_sym; assumption].
Qed.
Print Assumptions C64_failed_create.

(** Destroying a pool frees its blocks, and only these. *)
Theorem C64_destroy_frees : forall P e v0 w t b id p s t' w' b',
  ran P e v0 w t -> monitor t books0 = Fine b -> find_pool id (rpools w) = Some p ->
  run_r e (RDestroy id s) w = (t', Ok (w', RRet 0)) -> always s -> monitor (t ++ t') books0 = Fine b' ->
  Permutation (heap b) (pblocks p ++ heap b') /\ Permutation (mutexes b) (id :: mutexes b').
Proof.
  intros P e v0 w t b id p s t' w' b' R M Hf E Ha M'.
  destruct (ran_fine _ _ _ _ _ _ R M) as (L & LM & Hw & _). pose proof (s_run e (RDestroy id s) w L LM b Hw) as Q.
  rewrite monitor_app, M in M'. unfold runs in Q. rewrite E in Q. cbn [fst snd] in Q. rewrite M' in Q.
  destruct Q as (L' & LM' & Hw' & Hc). destruct (Hc Ha) as [-> ->]. cbn [fst app] in Hw'.
  assert (Ew : rpools w' = drop_pool id (rpools w) /\ rsets w' = rsets w /\ rattrs w' = rattrs w).
  { cbn [run_r] in E. rewrite Hf in E. apply (f_equal snd) in E. rewrite snd_bind in E. cbn [snd] in E.
    destruct (snd (mempool_destroy_r e p s (rv w))) as [[[ret o] v']| |]; try discriminate E. inversion E. auto. }
  destruct Ew as (E1 & E2 & E3). destruct (in_focus _ _ _ _ _ _ _ Hw Hf) as (Es & l1 & l2 & [F1 F2 F3 F4] & HS & _).
  rewrite F1, <- Es, drop_pool_split in E1 by exact F2.
  destruct Hw' as [HS2 _ _ _ _]. unfold blocks, mus in HS2. rewrite E1, E2, E3 in HS2. destruct HS, HS2. split.
  - eapply Permutation_trans; [eassumption|]. apply Permutation_app_head. eapply Permutation_trans; [|apply Permutation_sym; eassumption].
    unfold restH. rewrite <- !app_assoc. apply Permutation_refl.
  - eapply Permutation_trans; [eassumption|]. rewrite Es. constructor. eapply Permutation_trans; [|apply Permutation_sym; eassumption].
    unfold restM. rewrite <- !app_assoc. apply Permutation_refl.
Qed.
Print Assumptions C64_destroy_frees.

(** Not so when munmap fails: rseq_mempool_destroy returns 0 all the same, and the
    pool, which the program has no use of any more, stays allocated. *)
Definition no_unmap : sys :=
  {| s_pool := 0; s_name := 0; s_bitmap := 0; s_fd := -1; s_trunc := true; s_rest := answer false 0 |}.
Definition leak_prog : list rop := [ RCreate false 16 (Some (attrs false COW_ZERO 0)) (sys_of 200 0 0 (-1) 1638400) ].
Definition leaks (x : option (rworld * list event)) (id : Z) (s : sys) : bool :=
  match x with
  | None => false
  | Some (w, t) =>
    match run_r e0 (RDestroy id s) w with
    | (t', Ok (w', RRet ret)) =>
      match rpools w', rsets w', rattrs w', monitor (t ++ t') books0 with
      | [], [], [], Fine b => (ret =? 0) && match heap b with [y] => y =? id | _ => false end
      | _, _, _, _ => false
      end
    | _ => false
    end
  end.
Lemma leaks_ok : leaks (run_all e0 leak_prog start []) 200 no_unmap = true.
Proof. vm_compute. reflexivity. Qed.
Theorem C64_unmap_failure_leaks_refuted : exists e v0 w t id s t' w' b,
  ran unmap_ok e v0 w t /\ run_r e (RDestroy id s) w = (t', Ok (w', RRet 0)) /\
  rpools w' = [] /\ rsets w' = [] /\ rattrs w' = [] /\ monitor (t ++ t') books0 = Fine b /\ heap b = [id].
Proof.
  pose proof leaks_ok as Hl. unfold leaks in Hl.
  destruct (run_all e0 leak_prog start []) as [[w t]|] eqn:E; [|discriminate Hl].
  destruct (run_r e0 (RDestroy 200 no_unmap) w) as [t' [[w' [| | |ret]]| |]] eqn:E2; try discriminate Hl.
  destruct (rpools w') eqn:E3; [|discriminate Hl]. destruct (rsets w') eqn:E4; [|discriminate Hl].
  destruct (rattrs w') eqn:E5; [|discriminate Hl]. destruct (monitor (t ++ t') books0) as [b| |] eqn:E6; try discriminate Hl.
  apply andb_prop in Hl. destruct Hl as [H1 H2]. apply Z.eqb_eq in H1. subst ret.
  destruct (heap b) as [|y [|z l]] eqn:E7; try discriminate H2. apply Z.eqb_eq in H2. subst y.
  exists e0, v0, w, t, 200, no_unmap, t', w', b. split.
  { eapply run_all_ran; [exact E| |constructor]. intros o [<-|[]]. intros a. reflexivity. }
  rewrite E3, E4, E5, E6, E7. auto 10.
Qed.
Print Assumptions C64_unmap_failure_leaks_refuted.

(** Apart from these effects the calls do what PoolModel.v and PoolSetModel.v say: the
    same results, address space, pools and sets, so that the other theorems on pools
    are about the same calls. *)
Theorem C64_same_results : forall P e v0 w t b o,
  ran P e v0 w t -> monitor t books0 = Fine b ->
  (forall p, o = RAttrDestroy p -> p = 0 \/ In p (rattrs w)) ->
  match snd (run_r e o w) with Ok (w', x) => Ok (plain_world w', rsets w', x) | Abort => Abort | Undef => Undef end
  = run_plain e o (plain_world w) (rsets w).
Proof.
  intros P e v0 w t b o R M Ha. destruct (ran_fine _ _ _ _ _ _ R M) as (L & LM & Hw & _).
  rewrite <- er_run; [|apply Hw|destruct o; auto]. destruct (snd (run_r e o w)) as [[w' x]| |]; reflexivity.
Qed.
Print Assumptions C64_same_results.

(** Threads that make any calls, in any interleaving: whoever uses data protected by
    a mutex holds it, so no two threads do at the same time. *)
Theorem C64_mutexes_exclude : forall e l s t u m k j,
  (forall t, calls e (l t)) -> goes_on {| todo := l; owner := fun _ => None |} s ->
  todo s t = EUse m :: k -> todo s u = EUse m :: j -> t = u /\ owner s m = Some t.
Proof.
  intros e l s t u m k j Hl Hg Ht Hu.
  assert (I0 : tinv s).
  { eapply tinv_on; [exact Hg|]. exists (fun _ => None). cbn. split; [|intros; split; intros K; discriminate K].
    intros t0. eapply disc_calls. apply Hl. }
  pose proof (tinv_use _ _ _ _ I0 Ht) as H1. pose proof (tinv_use _ _ _ _ I0 Hu) as H2. split; congruence.
Qed.
Print Assumptions C64_mutexes_exclude.
(** And they never all wait for each other. *)
Theorem C64_no_deadlock : forall e l s t,
  (forall t, calls e (l t)) -> goes_on {| todo := l; owner := fun _ => None |} s ->
  todo s t <> [] -> exists u s', goes s u s'.
Proof.
  intros e l s t Hl Hg Ht.
  assert (I0 : tinv s).
  { eapply tinv_on; [exact Hg|]. exists (fun _ => None). cbn. split; [|intros; split; intros K; discriminate K].
    intros t0. eapply disc_calls. apply Hl. }
  eapply tinv_go; [exact I0|exact Ht].
Qed.
Print Assumptions C64_no_deadlock.

(** Asking for the number of CPUs: the answer is that of SmpModel.v, and when it
    comes every file and directory opened for it is closed.  [Impossible] is a system
    that hands out a descriptor in use. *)
Theorem C64_cpu_count_closes : forall lb cache x fd fd1 fd2 b,
  snd (get_len_r lb cache x fd fd1 fd2) = SmpModel.get_len lb cache x /\
  (SmpModel.get_len lb cache x <> SmpModel.Blocked ->
   monitor (fst (get_len_r lb cache x fd fd1 fd2)) b = Fine b \/ monitor (fst (get_len_r lb cache x fd fd1 fd2)) b = Impossible).
Proof.
  intros lb cache x fd fd1 fd2 b. split; [apply er_get_len|]. intros N. apply closes_get. rewrite er_get_len. exact N.
Qed.
Print Assumptions C64_cpu_count_closes.

(** The program above is such a history, in which the allocator and the system
    behave. *)
Definition books_of (x : option (rworld * list event)) : option (books * nat * nat * nat) :=
  match x with
  | Some (w, t) => match monitor t books0 with Fine b => Some (b, length (rpools w), length (rsets w), length (rattrs w)) | _ => None end
  | None => None
  end.
Lemma ok_prog : forall o, In o (prog ++ prog_end) -> unmap_ok o.
Proof. intros o H. cbn in H. repeat (destruct H as [<-|H]; [cbn; intros; try intros a; try reflexivity; exact Logic.I|]). destruct H. Qed.
Lemma prog_books : books_of (run_all e0 prog start []) =
  Some ({| heap := [103; 300; 200; 101; 102; 100; 400]; fds := []; mutexes := [300; 200; 100]; held := None |}, 2%nat, 1%nat, 1%nat).
Proof. vm_compute. reflexivity. Qed.
Lemma prog_end_books : books_of (run_all e0 prog_end start []) = Some (books0, 0%nat, 0%nat, 0%nat).
Proof. vm_compute. reflexivity. Qed.
Lemma books_of_some : forall x b n1 n2 n3, books_of x = Some (b, n1, n2, n3) ->
  exists w t, x = Some (w, t) /\ monitor t books0 = Fine b /\ length (rpools w) = n1 /\ length (rsets w) = n2 /\ length (rattrs w) = n3.
Proof.
  intros [[w t]|] b n1 n2 n3 H; cbn in H; [|discriminate H]. destruct (monitor t books0) eqn:E; try discriminate H. inversion H; subst.
  exists w, t. auto.
Qed.
Example C64_prog : exists w t b,
  ran unmap_ok e0 v0 w t /\ monitor t books0 = Fine b /\ length (rpools w) = 2%nat /\
  heap b = [103; 300; 200; 101; 102; 100; 400] /\ mutexes b = [300; 200; 100].
Proof.
  destruct (books_of_some _ _ _ _ _ prog_books) as (w & t & Er & Em & El & _).
  exists w, t. eexists. split.
  { eapply run_all_ran; [exact Er| |constructor]. intros o H. apply ok_prog. apply in_or_app. left. exact H. }
  split; [exact Em|]. split; [exact El|]. split; reflexivity.
Qed.
Example C64_prog_end : exists w t,
  ran unmap_ok e0 v0 w t /\ monitor t books0 = Fine books0 /\ rpools w = [] /\ rsets w = [] /\ rattrs w = [].
Proof.
  destruct (books_of_some _ _ _ _ _ prog_end_books) as (w & t & Er & Em & E1 & E2 & E3).
  exists w, t. split.
  { eapply run_all_ran; [exact Er| |constructor]. intros o H. apply ok_prog. apply in_or_app. right. exact H. }
  split; [exact Em|]. destruct (rpools w); [|discriminate E1]. destruct (rsets w); [|discriminate E2]. destruct (rattrs w); [|discriminate E3]. auto.
Qed.
(** A creation that fails in the middle: the memory file is open when madvise fails. *)
Definition failing : sys :=
  {| s_pool := 200; s_name := 201; s_bitmap := 0; s_fd := 3; s_trunc := true;
     s_rest := {| an_mmap := Some 1638400; an_trim1 := true; an_trim2 := true; an_memfd := true; an_map_init := true;
        an_map_cpu := fun _ => true; an_dontfork := false; an_wipe := true; an_bitmap := true;
        an_init := fun _ => Some []; an_munmap := fun _ => true; an_calloc := true; an_strdup := true |} |}.
Example C64_failing : always failing /\
  let x := run_r e0 (RCreate true 16 (Some (attrs false COW_INIT 0)) failing) start in
  match snd x with Ok (_, y) => y = RNull ENOMEM | _ => False end /\
  fst x = [EAlloc 200; ETouch 200; EInit 200; EOpen 3; EClose 3; ETouch 200; EKill 200; ETouch 200; EFree 0; EFree 200].
Proof. split; [intros a; reflexivity|]. split; vm_compute; reflexivity. Qed.
(** A thread that allocates from the set twice, as any number of others may do meanwhile. *)
Definition set_call : rop := RSetMalloc 300 Any 8 (fun _ => sys_of 0 0 0 (-1) 0).
Definition ev_eqb (x y : event) : bool :=
  match x, y with ELock a, ELock b | EUse a, EUse b => a =? b | _, _ => false end.
Definition traces (x : option (rworld * list event)) (evs : list event) : bool :=
  match x with
  | Some (w, t) =>
    match run_r e0 set_call w with
    | (l, Ok _) => (match monitor (t ++ l) books0 with Fine _ => true | _ => false end) && forallb (fun ev => existsb (ev_eqb ev) l) evs
    | _ => false
    end
  | None => false
  end.
Lemma traces_ok : traces (run_all e0 (firstn 5 prog) start []) [ELock 300; EUse 300; ELock 200; EUse 200] = true.
Proof. vm_compute. reflexivity. Qed.
Example C64_calls : exists l, calls e0 (l ++ l) /\ In (ELock 300) l /\ In (EUse 300) l /\ In (ELock 200) l /\ In (EUse 200) l.
Proof.
  assert (K : forall x evs, traces x evs = true -> exists w t l y b, x = Some (w, t) /\ run_r e0 set_call w = (l, Ok y) /\
    monitor (t ++ l) books0 = Fine b /\ forallb (fun ev => existsb (ev_eqb ev) l) evs = true).
  { intros [[w t]|] evs H; cbn [traces] in H; [|discriminate H]. destruct (run_r e0 set_call w) as [l [y| |]] eqn:E; try discriminate H.
    apply andb_prop in H. destruct H as [H1 H2]. destruct (monitor (t ++ l) books0) as [b| |] eqn:Em; try discriminate H1.
    exists w, t, l, y, b. auto. }
  destruct (K _ _ traces_ok) as (w & t & l & y & b & Er & Eq & Em & Hf).
  assert (Hc : call_trace e0 l).
  { exists (fun _ => True), v0, w, t, set_call, y, b.
    split; [eapply run_all_ran; [exact Er|intros; exact Logic.I|constructor]|]. split; [exact Eq|exact Em]. }
  assert (Hin : forall ev, existsb (ev_eqb ev) l = true -> In ev l).
  { intros ev H. apply existsb_exists in H. destruct H as (x & Hx & E). destruct ev, x; try discriminate E; apply Z.eqb_eq in E; subst; exact Hx. }
  rewrite forallb_forall in Hf.
  exists l. split; [apply calls_more; [exact Hc|]; rewrite <- (app_nil_r l); apply calls_more; [exact Hc|constructor]|].
  split; [apply Hin, Hf; cbn; auto|]. split; [apply Hin, Hf; cbn; auto|]. split; apply Hin, Hf; cbn; auto.
Qed.
(** The mask cannot be read, then both directory scans answer. *)
Example C64_count :
  get_len_r 64 0 {| SmpModel.e_open := true; SmpModel.e_file := []; SmpModel.e_reads := [SmpModel.RError]; SmpModel.e_junk := fun _ => 0;
     SmpModel.e_sc1 := 0; SmpModel.e_sc2 := 0; SmpModel.e_dir1 := ExSmp.small_dir; SmpModel.e_dir2 := ExSmp.small_dir |} 3 3 3
  = ([EOpen 3; EClose 3; EOpen 3; EClose 3; EOpen 3; EClose 3], SmpModel.Len 12).
Proof. vm_compute. reflexivity. Qed.
