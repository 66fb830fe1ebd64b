(** C71: ranges created and destroyed by several threads at the same time. *)
From Coq Require Import ZArith Znumtheory Bool List Lia.
From Verif Require Import MapModel MapSpec MapProofs.
Import ListNotations.
Local Open Scope Z_scope.
Definition page_size_ok (ps : Z) : Prop := exists j, 0 <= j /\ ps = 2 ^ j.

(** However the system calls of ranges in the making or being destroyed interleave with
    each other and with those of the rest of the process, a call or access made for a range
    is about memory that this range has at that moment; what is mapped, unmapped and
    advised is whole pages. *)
Theorem C71_own_memory_only : forall ps w g c a n, page_size_ok ps -> mreach ps false w -> about_to w g c -> concerns c = Some (a, n) ->
  0 < n /\ (forall x, a <= x < a + n -> w_owner w x = Some g) /\ match c with CTouch _ _ => True | _ => (ps | a) /\ (ps | n) end.
Proof.
  intros ps w g c a n Hps H (k & Hk) Hc. destruct (wi_safe _ _ (mreach_winv ps Hps w H) g _ Hk) as (_ & cf & _ & _ & Hs).
  destruct c as [m|a' m|a' m|a' m|a' m|]; cbn in Hc; try discriminate Hc; injection Hc as -> ->; cbn [safe] in Hs.
  - destruct Hs as ((A & B) & C & D & _). exact (conj A (conj B (conj C D))).
  - destruct Hs as ((A & B) & C & D & _). exact (conj A (conj B (conj C D))).
  - destruct Hs as ((A & B) & C & D & _). exact (conj A (conj B (conj C D))).
  - destruct Hs as ((A & B) & _). exact (conj A (conj B Logic.I)).
Qed.

(** So no call made for one range changes what another range, or the rest of the process,
    has. *)
Theorem C71_others_memory_kept : forall ps w g r w' x g', page_size_ok ps -> mreach ps false w -> mallowed ps false (MRun g r) w ->
  mrun1 ps (MRun g r) w = Some w' -> g' <> g -> w_owner w x = Some g' <-> w_owner w' x = Some g'.
Proof.
  intros ps w g r w' x g' Hps H Hok Hrun Hne. cbn [mallowed] in Hok. cbn [mrun1] in Hrun. destruct (w_prog w g) as [[|c k]|] eqn:Ep; try discriminate Hrun.
  assert (Hown : forall a n, concerns c = Some (a, n) -> forall y, a <= y < a + n -> w_owner w y = Some g).
  { intros a n Hc. apply (C71_own_memory_only ps w g c a n Hps H); [now exists k|exact Hc]. }
  destruct c as [n|a n|a n|a n|a n|].
  - destruct (Z.eqb_spec r MAP_FAILED) as [E|Hr]; injection Hrun as <-; cbn [w_owner]; [tauto|]. destruct Hok as [K|(_ & _ & K)]; [destruct (Hr K)|].
    destruct (in_or r n x) as [Hx|Hx]; [rewrite fill_in by exact Hx; rewrite (K x Hx); split; intros; congruence|rewrite fill_out by exact Hx; tauto].
  - destruct (r =? 0); injection Hrun as <-; cbn [w_owner]; [|tauto]. destruct (in_or a n x) as [Hx|Hx]; [rewrite fill_in by exact Hx; rewrite (Hown a n eq_refl x Hx); split; intros; congruence|rewrite fill_out by exact Hx; tauto].
  - destruct (r =? 0); injection Hrun as <-; cbn [w_owner]; [|tauto]. destruct (in_or a n x) as [Hx|Hx]; [rewrite fill_in by exact Hx; rewrite (Hown a n eq_refl x Hx); split; intros; congruence|rewrite fill_out by exact Hx; tauto].
  - injection Hrun as <-. cbn. tauto.
  - injection Hrun as <-. cbn. tauto.
  - injection Hrun as <-. cbn. tauto.
Qed.

(** A range that was made has exactly its header pages and its areas, the first of them at
    a multiple of the stride. *)
Theorem C71_made_has_exactly : forall ps w g h b l c, page_size_ok ps -> mreach ps false w -> w_prog w g = Some (PDone (Made h b l)) -> w_cfg w g = Some c ->
  has_exactly w g h l /\ b = h + 2 * ps /\ (c_stride c | b) /\
  l = 2 * ps + c_stride c * Z.of_nat (c_cpus c) + (if c_cow c then c_stride c else 0) + (if c_robust c then c_stride c else 0).
Proof.
  intros ps w g h b l c Hps H Hp Hc. destruct (wi_safe _ _ (mreach_winv ps Hps w H) g _ Hp) as (_ & c' & Hc' & _ & Hs). rewrite Hc in Hc'. injection Hc' as <-.
  cbn [safe fin] in Hs. destruct Hs as (H1 & H2 & _ & _ & _ & H6 & H7). split; [exact H1|]. split; [exact H2|]. split; [exact H6|]. rewrite H7. unfold range_len. lia.
Qed.
(** A call that made no range, or destroyed one, leaves nothing behind unless munmap was
    refused. *)
Theorem C71_nothing_left : forall ps w g x, page_size_ok ps -> mreach ps false w -> w_prog w g = Some (PDone NoRange) -> w_refused w g = false -> w_owner w x <> Some g.
Proof.
  intros ps w g x Hps H Hp Hr. destruct (wi_safe _ _ (mreach_winv ps Hps w H) g _ Hp) as (_ & c' & _ & _ & Hs). cbn [safe fin] in Hs. rewrite Hr in Hs.
  destruct Hs as [K|K]; [discriminate K|exact (K x)].
Qed.

(** ** Examples *)
Definition ex_w0 : mworld := {| w_owner := fun x => if x <? 4096 then Some 0 else None; w_prog := fun _ => None; w_cfg := fun _ => None; w_refused := fun _ => false |}.
Definition ex_cfg : cfg := {| c_stride := 8192; c_cpus := 2; c_cow := true; c_robust := true; c_init := true; c_global := false |}.
Fixpoint mruns (ps : Z) (xs : list mact) (w : mworld) : option mworld :=
  match xs with [] => Some w | x :: xs => match mrun1 ps x w with Some w => mruns ps xs w | None => None end end.
Definition ex_run (ps : Z) (xs : list mact) : mworld := match mruns ps xs ex_w0 with Some w => w | None => ex_w0 end.
(** A sufficient test of [mallowed]; for new memory, that it lies above [top], below which
    everything in use is. *)
Definition uses_below (top : Z) (w : mworld) : Prop := forall x, top <= x -> w_owner w x = None.
Definition allowedb (ps : Z) (holes : bool) (top : Z) (x : mact) (w : mworld) : option Z :=
  match x with
  | MDestroy _ => Some top
  | MRun g r => match w_prog w g with
                | Some (PSys (CMmap n) _) => if r =? MAP_FAILED then Some top else if (0 <? r) && (r mod ps =? 0) && (top <=? r) && (0 <? n) then Some (r + n) else None
                | Some (PSys (CFixed a n) _) => if a + n <=? top then Some top else None
                | _ => Some top end
  | MHole g b m => match w_prog w g with Some (PSys (CFixed a n) _) => if holes && (0 <? m) && (a <=? b) && (b + m <=? a + n) then Some top else None | _ => None end
  | _ => None
  end.
Lemma below_fill : forall top top' w a n v p c f, uses_below top w -> top <= top' -> a + n <= top' \/ v = None ->
  uses_below top' {| w_owner := fill a n v (w_owner w); w_prog := p; w_cfg := c; w_refused := f |}.
Proof.
  intros top top' w a n v p c f H Ht Hv x Hx. cbn [w_owner]. destruct (in_or a n x) as [Hi|Hi]; [rewrite fill_in by exact Hi; destruct Hv as [K|K]; [lia|exact K]|].
  rewrite fill_out by exact Hi. apply H. lia.
Qed.
Lemma below_same : forall top w p c f, uses_below top w -> uses_below top {| w_owner := w_owner w; w_prog := p; w_cfg := c; w_refused := f |}.
Proof. intros top w p c f H x Hx. exact (H x Hx). Qed.
Lemma allowedb_ok : forall ps holes top x w top' w', 0 < ps -> allowedb ps holes top x w = Some top' -> uses_below top w -> mrun1 ps x w = Some w' ->
  mallowed ps holes x w /\ uses_below top' w'.
Proof.
  intros ps holes top x w top' w' Hps Ha Hb Hrun. destruct x as [g c|g|g r|g b n|a n|a n]; cbn [allowedb] in Ha; try discriminate Ha; cbn [mallowed]; cbn [mrun1] in Hrun.
  - injection Ha as <-. split; [exact Logic.I|]. destruct (w_prog w g) as [[[h b l| |]|]|]; try discriminate Hrun. injection Hrun as <-. now apply below_same.
  - destruct (w_prog w g) as [[|c k]|]; try discriminate Hrun. destruct c as [n|a n|a n|a n|a n|].
    + destruct (Z.eqb_spec r MAP_FAILED) as [E|E].
      * injection Ha as <-. injection Hrun as <-. split; [now left|now apply below_same].
      * destruct ((0 <? r) && (r mod ps =? 0) && (top <=? r) && (0 <? n)) eqn:Et; [|discriminate Ha]. injection Ha as <-. injection Hrun as <-.
        apply andb_true_iff in Et. destruct Et as [Et E4]. apply andb_true_iff in Et. destruct Et as [Et E3]. apply andb_true_iff in Et. destruct Et as [E1 E2].
        apply Z.ltb_lt in E1, E4. apply Z.leb_le in E3. apply Z.eqb_eq in E2. split.
        -- right. split; [exact E1|]. split; [apply Z.mod_divide; [lia|exact E2]|]. intros x Hx. apply Hb. lia.
        -- apply (below_fill top); [exact Hb|lia|left; lia].
    + injection Ha as <-. split; [exact Logic.I|]. destruct (r =? 0); injection Hrun as <-; [apply (below_fill top); [exact Hb|lia|now right]|now apply below_same].
    + destruct (Z.leb_spec (a + n) top); [|discriminate Ha]. injection Ha as <-. split; [exact Logic.I|].
      destruct (r =? 0); injection Hrun as <-; [apply (below_fill top); [exact Hb|lia|now left]|now apply below_same].
    + injection Ha as <-. injection Hrun as <-. split; [exact Logic.I|now apply below_same].
    + injection Ha as <-. injection Hrun as <-. split; [exact Logic.I|now apply below_same].
    + injection Ha as <-. injection Hrun as <-. split; [exact Logic.I|now apply below_same].
  - destruct (w_prog w g) as [[|c k]|]; try discriminate Hrun. destruct c as [m|a m|a m|a m|a m|]; try discriminate Hrun.
    destruct (holes && (0 <? n) && (a <=? b) && (b + n <=? a + m)) eqn:Et; [|discriminate Ha]. injection Ha as <-. injection Hrun as <-.
    apply andb_true_iff in Et. destruct Et as [Et E4]. apply andb_true_iff in Et. destruct Et as [Et E3]. apply andb_true_iff in Et. destruct Et as [E1 E2].
    apply Z.ltb_lt in E2. apply Z.leb_le in E3, E4. split; [exact (conj E1 (conj E2 (conj E3 E4)))|]. apply (below_fill top); [exact Hb|lia|now right].
Qed.
Fixpoint runb (ps : Z) (holes : bool) (top : Z) (xs : list mact) (w : mworld) : option mworld :=
  match xs with
  | [] => Some w
  | x :: xs => match allowedb ps holes top x w, mrun1 ps x w with Some top, Some w => runb ps holes top xs w | _, _ => None end
  end.
Lemma runb_ok : forall ps holes xs top w w', 0 < ps -> uses_below top w -> mreach ps holes w -> runb ps holes top xs w = Some w' -> mreach ps holes w'.
Proof.
  intros ps holes. induction xs as [|x xs IH]; intros top w w' Hps Hb Hr E; cbn [runb] in E; [injection E as <-; exact Hr|].
  destruct (allowedb ps holes top x w) as [top1|] eqn:Ea; [|discriminate E]. destruct (mrun1 ps x w) as [w1|] eqn:Er; [|discriminate E].
  destruct (allowedb_ok ps holes top x w top1 w1 Hps Ea Hb Er) as [A B]. exact (IH top1 w1 w' Hps B (mreach_step ps holes w x w1 Hr A Er) E).
Qed.
Lemma ex_start : forall holes, mreach 4096 holes (ex_run 4096 [MStart 1 ex_cfg; MStart 2 ex_cfg]) /\ uses_below 4096 (ex_run 4096 [MStart 1 ex_cfg; MStart 2 ex_cfg]).
Proof.
  intros holes. assert (Hc : cfg_ok 4096 ex_cfg). { split; [exists 13; split; [lia|reflexivity]|]. split; cbn; lia. }
  assert (H0 : mreach 4096 holes ex_w0). { apply mreach_start. split; [|reflexivity]. intros x. cbn. destruct (x <? 4096); auto. }
  assert (H1 : mreach 4096 holes (ex_run 4096 [MStart 1 ex_cfg])). { refine (mreach_step _ _ ex_w0 (MStart 1 ex_cfg) _ H0 _ eq_refl). split; [discriminate|]. split; [reflexivity|exact Hc]. }
  split; [refine (mreach_step _ _ _ (MStart 2 ex_cfg) _ H1 _ eq_refl); split; [discriminate|]; split; [reflexivity|exact Hc]|].
  intros x Hx. cbn. replace (x <? 4096) with false by (symmetry; apply Z.ltb_ge; exact Hx). reflexivity.
Qed.
(** Two ranges with initial values are made at the same time, both after trimming. *)
Definition ex_acts : list mact :=
  [MRun 1 4096; MRun 2 53248; MRun 1 0; MRun 2 0; MRun 2 0; MRun 1 0; MRun 1 0; MRun 2 0; MRun 1 0; MRun 2 0; MRun 1 0; MRun 2 0; MRun 1 0; MRun 2 0;
   MRun 1 0; MRun 1 0; MRun 1 0; MRun 1 0; MRun 1 0; MRun 1 0; MRun 1 0; MRun 2 0; MRun 2 0; MRun 2 0; MRun 2 0; MRun 2 0; MRun 2 0; MRun 2 0].
Definition done_of (w : mworld) (g : Z) : option outcome := match w_prog w g with Some (PDone r) => Some r | _ => None end.
Definition call_of (w : mworld) (g : Z) : option call := match w_prog w g with Some (PSys c _) => Some c | _ => None end.
Example ex_C71 : exists w, mreach 4096 false w /\ w_prog w 1 = Some (PDone (Made 8192 16384 40960)) /\ w_prog w 2 = Some (PDone (Made 57344 65536 40960)) /\ w_cfg w 1 = Some ex_cfg.
Proof.
  destruct (ex_start false) as [H0 Hb]. destruct (runb 4096 false 4096 ex_acts (ex_run 4096 [MStart 1 ex_cfg; MStart 2 ex_cfg])) as [w|] eqn:E.
  - exists w. split; [exact (runb_ok 4096 false ex_acts 4096 _ w ltac:(lia) Hb H0 E)|].
    assert (E2 : option_map (fun w => (w_prog w 1, w_prog w 2, w_cfg w 1)) (runb 4096 false 4096 ex_acts (ex_run 4096 [MStart 1 ex_cfg; MStart 2 ex_cfg])) =
      Some (Some (PDone (Made 8192 16384 40960)), Some (PDone (Made 57344 65536 40960)), Some ex_cfg)) by (vm_compute; reflexivity).
    rewrite E in E2. cbn [option_map] in E2. injection E2 as E2 E3 E4. exact (conj E2 (conj E3 E4)).
  - assert (E2 : match runb 4096 false 4096 ex_acts (ex_run 4096 [MStart 1 ex_cfg; MStart 2 ex_cfg]) with Some _ => true | None => false end = true) by (vm_compute; reflexivity).
    rewrite E in E2. discriminate E2.
Qed.

(** If a failing mmap with MAP_FIXED leaves a hole, as POSIX allows, that is no longer so:
    the error path unmaps the whole range, hole included, and with it whatever the rest of
    the process has mapped there in the meantime. *)
Definition ex_hole : list mact := [MRun 1 4096; MRun 1 0; MRun 1 0; MRun 1 0].
(** The calls of the error path after a failed MAP_FIXED. *)
Definition error_path (w : mworld) : option (Z * Z * Z * Z) :=
  match w_prog w 1 with
  | Some (PSys (CFixed a n) k) =>
    match k MAP_FAILED with
    | PSys CCall k2 => match k2 0 with PSys (CTouch _ _) k3 => match k3 0 with PSys (CUnmap a' n') _ => Some (a, n, a', n') | _ => None end | _ => None end
    | _ => None
    end
  | _ => None
  end.
Lemma ex_error_path : option_map error_path (runb 4096 true 4096 ex_hole (ex_run 4096 [MStart 1 ex_cfg; MStart 2 ex_cfg])) = Some (Some (32768, 8192, 8192, 40960)).
Proof. vm_compute. reflexivity. Qed.
(** One call of a program, with the answer 0. *)
Lemma plain_step : forall w g c k, mreach 4096 true w -> w_prog w g = Some (PSys c k) -> (c = CCall \/ exists a n, c = CTouch a n) ->
  mreach 4096 true {| w_owner := w_owner w; w_prog := upd (w_prog w) g (Some (k 0)); w_cfg := w_cfg w; w_refused := w_refused w |}.
Proof.
  intros w g c k H Hp Hc. refine (mreach_step _ _ w (MRun g 0) _ H _ _).
  - cbn [mallowed]. rewrite Hp. destruct Hc as [->|(a & n & ->)]; exact Logic.I.
  - cbn [mrun1]. rewrite Hp. destruct Hc as [->|(a & n & ->)]; reflexivity.
Qed.
Lemma hole_then : forall w a n a' n', mreach 4096 true w -> error_path w = Some (a, n, a', n') -> 0 < n -> a' <= a -> a + n <= a' + n' ->
  exists w' g x, mreach 4096 true w' /\ about_to w' g (CUnmap a' n') /\ a' <= x < a' + n' /\ w_owner w' x = Some 0.
Proof.
  intros w a n a' n' H E Hn Ha1 Ha2. unfold error_path in E. destruct (w_prog w 1) as [[|c k]|] eqn:Ep; try discriminate E. destruct c as [m|b m|b m|b m|b m|]; try discriminate E.
  destruct (k MAP_FAILED) as [|c2 k2] eqn:E2; [discriminate E|]. destruct c2; try discriminate E. destruct (k2 0) as [|c3 k3] eqn:E3; [discriminate E|]. destruct c3 as [m3|b3 m3|b3 m3|b3 m3|b3 m3|]; try discriminate E.
  destruct (k3 0) as [|c4 k4] eqn:E4; [discriminate E|]. destruct c4 as [m4|b4 m4|b4 m4|b4 m4|b4 m4|]; try discriminate E. injection E as -> -> -> ->.
  set (w1 := {| w_owner := fill a n None (w_owner w); w_prog := upd (w_prog w) 1 (Some (k MAP_FAILED)); w_cfg := w_cfg w; w_refused := w_refused w |}).
  assert (H1 : mreach 4096 true w1).
  { refine (mreach_step _ _ w (MHole 1 a n) w1 H _ _); [|cbn [mrun1]; rewrite Ep; reflexivity]. cbn [mallowed]. rewrite Ep. split; [reflexivity|]. split; [exact Hn|]. lia. }
  set (w2 := {| w_owner := fill a n (Some 0) (w_owner w1); w_prog := w_prog w1; w_cfg := w_cfg w1; w_refused := w_refused w1 |}).
  assert (H2 : mreach 4096 true w2).
  { refine (mreach_step _ _ w1 (MRestMap a n) w2 H1 _ eq_refl). intros x Hx. apply fill_in. exact Hx. }
  assert (P2 : w_prog w2 1 = Some (PSys CCall k2)) by (cbn [w2 w1 w_prog]; rewrite upd_same, E2; reflexivity).
  pose proof (plain_step w2 1 _ _ H2 P2 (or_introl eq_refl)) as H3. rewrite E3 in H3.
  pose proof (plain_step _ 1 (CTouch b3 m3) k3 H3 (upd_same _ _ _ _) (or_intror (ex_intro _ b3 (ex_intro _ m3 eq_refl)))) as H5. rewrite E4 in H5.
  eexists _, 1, a. split; [exact H5|]. split; [exists k4; cbn [w_prog]; apply upd_same|]. split; [lia|]. cbn [w_owner w2]. apply fill_in. lia.
Qed.
Theorem C71_holes_refuted : exists w g a n x, mreach 4096 true w /\ about_to w g (CUnmap a n) /\ a <= x < a + n /\ w_owner w x = Some 0 /\
  exists w', mallowed 4096 true (MRun g 0) w /\ mrun1 4096 (MRun g 0) w = Some w' /\ w_owner w' x = None.
Proof.
  destruct (ex_start true) as [H0 Hb]. pose proof ex_error_path as E2.
  destruct (runb 4096 true 4096 ex_hole (ex_run 4096 [MStart 1 ex_cfg; MStart 2 ex_cfg])) as [w1|] eqn:E; [|discriminate E2].
  cbn [option_map] in E2. injection E2 as E2. pose proof (runb_ok 4096 true ex_hole 4096 _ w1 ltac:(lia) Hb H0 E) as H1.
  destruct (hole_then w1 _ _ _ _ H1 E2) as (w' & g & x & A & B & C & D); [lia|lia|lia|].
  exists w', g, 8192, 40960, x. split; [exact A|]. split; [exact B|]. split; [exact C|]. split; [exact D|]. destruct B as (k & Hk).
  eexists. cbn [mallowed mrun1]. rewrite Hk. split; [exact Logic.I|]. split; [reflexivity|]. cbn [w_owner]. apply fill_in. exact C.
Qed.

Print Assumptions C71_own_memory_only.
Print Assumptions C71_others_memory_kept.
Print Assumptions C71_made_has_exactly.
Print Assumptions C71_nothing_left.
Print Assumptions C71_holes_refuted.
