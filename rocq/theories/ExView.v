(** A concrete run on weakly ordered memory that no sequentially consistent run
    matches, for C53. *)
From Coq Require Import ZArith Bool List Lia.
From Verif Require Import RseqIR RseqSpec RseqKernel RseqSafe MemLemmas RunLemmas RseqSim RseqOwn RseqCalls RseqProps Archs ArchsGood.
From Verif Require Import LinSpec ClientModel ClientSpec Replay ExRseq ClientReplay ExClients ViewModel ViewSpec ViewSc.
Import ListNotations.
Local Open Scope Z_scope.

(** ** Replayed runs whose steps all change something *)
Section MReplay.
Variable Loc : Type.
Variable cl : client Loc.
Variables (g : cfg) (tx : text) (n : nat) (p : player Loc).
Hypothesis Hp : plays cl p.
Variable others : nat -> thread Loc.
Hypothesis Hoth : forall t, t_on (others t) = None.
(** A way to tell local states apart. *)
Variable nq : Loc -> Loc -> bool.
Hypothesis Hnq : forall l, nq l l = false.

Definition who (a : cact) : nat :=
  match a with
  | CInstr t | CCall t | CTau t _ | CWrite t | CPreempt t | CResume t _ | CSignal t | CSigret t => t
  end.
Definition onq (o o' : option (Z * Z)) : bool :=
  match o, o' with None, Some _ | Some _, None => true | _, _ => false end.
Definition actq (x x' : ctx Loc) : bool :=
  match x_act x, x_act x' with
  | None, Some _ | Some _, None => true
  | Some f, Some f' => negb (Nat.eqb (f_pc f) (f_pc f'))
  | None, None => false
  end.
Definition changedb (th th' : thread Loc) : bool :=
  onq (t_on th) (t_on th') || negb (Nat.eqb (length (t_ctx th)) (length (t_ctx th'))) ||
  match t_ctx th, t_ctx th' with
  | x :: _, x' :: _ => actq x x' || nq (x_loc x) (x_loc x')
  | _, _ => false
  end.
Lemma changedb_ok : forall th th', changedb th th' = true -> th' <> th.
Proof.
  intros th th' H ->. unfold changedb in H. rewrite Nat.eqb_refl in H. cbn in H.
  assert (E : onq (t_on th) (t_on th) = false) by (destruct (t_on th); reflexivity). rewrite E in H. cbn in H.
  destruct (t_ctx th) as [|x k]; [discriminate H|]. rewrite Hnq in H. unfold actq in H.
  destruct (x_act x); [rewrite Nat.eqb_refl in H|]; discriminate H.
Qed.

Lemma cdo1_acts : forall s a l s', cdo1 Loc cl g tx n p s a = Some (l, s') ->
  changedb (s_thr s (who a)) (s_thr s' (who a)) = true -> acts (who a) s l s'.
Proof.
  intros s a l s' H Hc. apply changedb_ok in Hc.
  assert (Hg : forall t (X : option (clabel * RseqKernel.state Loc)),
     (if negb (onb Loc n s t) then None else X) = Some (l, s') -> X = Some (l, s')).
  { intros t X HX. destruct (onb Loc n s t); [exact HX|discriminate HX]. }
  assert (Ho : forall t th u, u <> t -> s_thr (set_t s t th) u = s_thr s u) by (intros; now apply set_t_other).
  destruct a; cbn [cdo1 who] in *.
  - apply Hg in H. destruct (t_ctx (s_thr s t)) as [|[lo [f|]] k]; try discriminate H.
    destruct (tx (c_code (f_call f))) as [[P kd]|]; [|discriminate H].
    destruct (s_loaded s (c_code (f_call f))); [|discriminate H].
    destruct (istep g P (s_mem s) (index (t_area (s_thr s t)) (pmode P)) (f_pc f) (f_rs f)) as [[[[pc' rs'] e] rd]|]; [|discriminate H].
    destruct e as [|ps| |x]; [| | |destruct (exit_ret x); [|discriminate H]]; injection H as <- <-;
      (split; [intros u Hu; apply Ho; auto|auto]).
  - apply Hg in H. destruct (t_ctx (s_thr s t)) as [|[lo [f|]] k]; try discriminate H.
    destruct (pl_call p lo (s_mem s)) as [c|]; [|discriminate H].
    destruct (tx (c_code c)) as [[P kd]|]; [|discriminate H]. destruct (s_loaded s (c_code c)); [|discriminate H].
    destruct (kind_eqb kd (kind_of (c_op c)) && mode_eqb (pmode P) (c_mode c) &&
           (- 2 ^ 31 <=? c_cpu c) && (c_cpu c <? 2 ^ 31) && t_reg (s_thr s t)); [|discriminate H].
    injection H as <- <-. split; [intros u Hu; apply Ho; auto|auto].
  - apply Hg in H. destruct (t_ctx (s_thr s t)) as [|[lo [f|]] k]; try discriminate H.
    destruct (pl_tau p lo (s_mem s) z); [|discriminate H]. injection H as <- <-. split; [intros u Hu; apply Ho; auto|auto].
  - apply Hg in H. destruct (t_ctx (s_thr s t)) as [|[lo [f|]] k]; try discriminate H.
    destruct (pl_write p lo (s_mem s)) as [[ps l']|]; [|discriminate H]. injection H as <- <-.
    split; [intros u Hu; apply Ho; auto|auto].
  - apply Hg in H. injection H as <- <-. split; [intros u Hu; apply Ho; auto|auto].
  - destruct (Nat.ltb t n && _ && _ && _ && _); [|discriminate H]. injection H as <- <-.
    split; [intros u Hu; apply Ho; auto|auto].
  - apply Hg in H. destruct (t_ctx (s_thr s t)) as [|x k]; [discriminate H|].
    destruct (pl_sig p (x_loc x)); [|discriminate H]. injection H as <- <-. split; [intros u Hu; apply Ho; auto|auto].
  - apply Hg in H. destruct (t_ctx (s_thr s t)) as [|[lo [f|]] [|x k]]; try discriminate H.
    destruct (pl_done p lo); [|discriminate H]. injection H as <- <-. split; [intros u Hu; apply Ho; auto|auto].
Qed.

Fixpoint mreplay (P : nat -> bool) (s : RseqKernel.state Loc) (al : list cact) : option (list (RseqKernel.state Loc * clabel) * RseqKernel.state Loc) :=
  match al with
  | [] => Some ([], s)
  | a :: al =>
    if skipb Loc s a then mreplay P s al else
    match cdo1 Loc cl g tx n p s a with
    | Some (l, s1) =>
      if changedb (s_thr s (who a)) (s_thr s1 (who a)) && P (who a)
      then match mreplay P s1 al with Some (tr, s2) => Some ((s, l) :: tr, s2) | None => None end
      else None
    | None => None
    end
  end.

Lemma moves_app : forall P s tr s', moves g tx cl P s tr s' -> forall tr' s'',
  moves g tx cl P s' tr' s'' -> moves g tx cl P s (tr ++ tr') s''.
Proof.
  intros P s tr s' H tr' s'' H'. induction H'.
  - rewrite app_nil_r. auto.
  - rewrite app_assoc. econstructor; eauto.
Qed.

Lemma mreplay_moves : forall P al s tr s', mreplay P s al = Some (tr, s') -> stays n others s ->
  moves g tx cl (fun t => P t = true) s tr s' /\ stays n others s'.
Proof.
  intros P. induction al as [|a al IH]; cbn [mreplay]; intros s tr s' H Hq.
  - injection H as <- <-. split; auto. constructor.
  - destruct (skipb Loc s a); [eauto|]. destruct (cdo1 Loc cl g tx n p s a) as [[l s1]|] eqn:E; [|discriminate H].
    destruct (changedb (s_thr s (who a)) (s_thr s1 (who a)) && P (who a)) eqn:Ec; [|discriminate H].
    apply andb_prop in Ec. destruct Ec as [Ec Ep].
    destruct (mreplay P s1 al) as [[tr1 s2]|] eqn:Er; [|discriminate H]. injection H as <- <-.
    destruct (cdo1_ok Loc cl g tx n p Hp others Hoth _ _ _ _ E Hq) as (H1 & H2 & H5).
    destruct (IH _ _ _ Er H2) as [H3 H4]. split; auto.
    change ((s, l) :: tr1) with ([(s, l)] ++ tr1). eapply moves_app; eauto.
    change [(s, l)] with ([] ++ [(s, l)]). econstructor; [constructor|exact H1|exact H5|exact Ep|].
    apply (cdo1_acts s a l s1 E Ec).
Qed.
End MReplay.

(** ** Facts about single steps *)
Section Facts.
Variable Loc : Type.
Variables (g : cfg) (tx : text) (cl : client Loc).

Lemma moves_path : forall P s tr s', moves g tx cl P s tr s' -> path g tx cl s tr s'.
Proof. intros P s tr s' H. induction H; econstructor; eauto. Qed.

Lemma moves_others : forall P s tr s', moves g tx cl P s tr s' -> forall u, ~ P u -> s_thr s' u = s_thr s u.
Proof.
  intros P s tr s' H. induction H as [|s tr s' t l s'' H IH Hs Hok HP Ha]; intros u Hu; auto.
  rewrite (proj1 Ha u); auto. intros ->. contradiction.
Qed.

Definition mem_after (m : mem) (ls : list clabel) : mem := fold_left (fun m l => wr m (wrote l)) ls m.
Lemma path_mem : forall s tr s', path g tx cl s tr s' -> s_mem s' = mem_after (s_mem s) (map snd tr).
Proof.
  intros s tr s' H. induction H as [|s tr s' l s'' H IH Hs]; auto.
  rewrite map_app. unfold mem_after in *. rewrite fold_left_app. cbn [map snd fold_left]. rewrite <- IH.
  apply (step_mem _ _ _ _ _ _ _ Hs).
Qed.

Lemma path_split : forall s tr s', path g tx cl s tr s' -> forall tr1 x l tr2, tr = tr1 ++ (x, l) :: tr2 ->
  path g tx cl s tr1 x /\ exists y, step g tx cl x l y /\ match tr2 with [] => y = s' | (z, _) :: _ => y = z end.
Proof.
  intros s tr s' H. induction H as [|s tr s' l s'' H IH Hs Hok]; intros tr1 x l0 tr2 E.
  - destruct tr1; discriminate E.
  - destruct (@exists_last _ ((x, l0) :: tr2)) as (q & a & Eq); [discriminate|]. rewrite Eq, app_assoc in E.
    apply app_inj_tail in E. destruct E as [E <-]. destruct q as [|b q].
    + cbn in Eq. injection Eq as -> -> ->. rewrite app_nil_r in E. subst tr. split; auto. exists s''. auto.
    + cbn in Eq. injection Eq as <- ->. destruct (IH _ _ _ _ E) as (P1 & y & P2 & P3). split; auto. exists y. split; auto.
      destruct q as [|[z lz] q]; cbn; auto.
Qed.

Lemma fixup_none : forall ld (th : thread Loc), match t_ctx th with x :: _ => x_act x = None | [] => True end ->
  t_ctx (fixup tx ld th) = t_ctx th.
Proof.
  intros ld th H. unfold fixup. destruct (negb (t_reg th)); auto. destruct (rseq_cs (t_area th)) as [id|]; auto.
  destruct (if ld id then tx id else None) as [[P kd]|]; auto. destruct (negb (desc_ok P)); auto.
  destruct (t_ctx th) as [|[l [f|]] k] eqn:E; [| |]; cbn in *; auto; discriminate H.
Qed.

Lemma only_tau : forall (s s' : RseqKernel.state Loc) t l l', step g tx cl s Ltau s' ->
  t_ctx (s_thr s t) = [{| x_loc := l; x_act := None |}] -> t_ctx (s_thr s' t) = [{| x_loc := l'; x_act := None |}] ->
  l' <> l -> cl_tau _ cl l (s_mem s) l'.
Proof.
  intros s s' t l l' H E E' Hn.
  assert (Hc : t_ctx (s_thr s' t) <> t_ctx (s_thr s t)) by (rewrite E, E'; intros F; injection F as F; auto).
  assert (Ho : forall u th, s' = set_t s u th -> u = t /\ t_ctx th = [{| x_loc := l'; x_act := None |}]).
  { intros u th ->. destruct (Nat.eq_dec u t) as [->|Hu]; [rewrite set_t_same in E'; auto|].
    exfalso. apply Hc. rewrite set_t_other by auto. reflexivity. }
  assert (Hx : t_ctx (fixup tx (s_loaded s) (s_thr s t)) = t_ctx (s_thr s t)) by (apply fixup_none; rewrite E; reflexivity).
  inversion H; subst; clear H; try (exfalso; apply Hc; reflexivity);
    match goal with |- context [s_mem s] => idtac end;
    match type of Ho with context [set_t s ?u ?th = _] => destruct (Ho u th eq_refl) as [-> Eth] end; clear Ho.
  - congruence.
  - cbn in Eth. rewrite E in *. congruence.
  - exfalso. cbn in Eth. rewrite E in Eth. congruence.
  - exfalso. cbn in Eth. rewrite E in Eth. congruence.
  - exfalso. rewrite fixup_none in Eth.
    + destruct (t_reg _) in Eth; cbn in Eth; rewrite E in Eth; congruence.
    + destruct (t_reg _); cbn; rewrite E; reflexivity.
  - exfalso. rewrite Hx, E in Eth. congruence.
  - exfalso. cbn in Eth. rewrite Hx, E in Eth. discriminate Eth.
  - exfalso. congruence.
  - exfalso. cbn in Eth. rewrite E in Eth. congruence.
  - exfalso. cbn in Eth. rewrite E in Eth. congruence.
Qed.
End Facts.

(** ** A stale offset *)
Definition buf_nq (l l' : buf_loc) : bool :=
  match l, l' with B_idle, B_push _ | B_push _, B_push2 _ _ _ => true | _, _ => false end.
Lemma buf_nq_refl : forall l, buf_nq l l = false.
Proof. intros []; reflexivity. Qed.

(** Thread 0 pushes 7 on CPU 0.  After that thread 1, on CPU 1, begins a push of 9
    on CPU 0 and still reads 0 as the offset of that buffer.  It calls the helper,
    is moved to CPU 0 after thread 0 has left it, and the helper compares the
    offset: it must see thread 0's store. *)
Definition stale_acts1 : list cact := [CTau 0 7; CTau 0 0; CCall 0] ++ fin 0.
Definition stale_acts2 : list cact := [CPreempt 0; CPreempt 1; CResume 1 0; CCall 1] ++ fin 1.
Definition at1 (l : buf_loc) (s : RseqKernel.state buf_loc) : RseqKernel.state buf_loc :=
  set_t s 1 (set_ctx (s_thr s 1) [{| x_loc := l; x_act := None |}]).

Lemma returned_same : forall Loc t r (w tr : list (RseqKernel.state Loc * clabel)), same_steps w tr -> returned t r tr = true ->
  forall a b, returned t r (a ++ w ++ b) = true.
Proof.
  intros Loc t r w tr Hs Hr a b. unfold returned in *. rewrite !existsb_app. apply orb_true_iff. right. apply orb_true_iff. left.
  induction Hs as [|a1 b1 w' tr' (E & _) Hs IH]; [exact Hr|]. cbn in *. rewrite E. apply orb_true_iff in Hr. apply orb_true_iff.
  destruct Hr as [Hr|Hr]; auto.
Qed.
Lemma same_snd : forall Loc (w tr : list (RseqKernel.state Loc * clabel)), same_steps w tr -> map snd tr = map snd w.
Proof. intros Loc w tr H. induction H as [|p q w tr [E _] H IH]; cbn; congruence. Qed.

Lemma ex_stale : exists wtr W m, wpath demo_cfg dx ex_buf_client (wstart buf_s0) wtr W /\
  returned 0 0 wtr = true /\ returned 1 1 wtr = true /\
  (forall x, newest (w_hist W x) (m x)) /\ ldw demo_cfg m (ex_ofs 0) = 1 /\ ldw demo_cfg m (ex_arr 0) = 7 /\
  forall tr s, path demo_cfg dx ex_buf_client buf_s0 tr s -> ~ same_steps wtr tr.
Proof.
  set (o0 := fun t : nat => idle_thread B_idle None).
  set (rep := mreplay buf_loc ex_buf_client demo_cfg dx 2 buf_player buf_nq).
  set (chk := match rep (Nat.eqb 0) buf_s0 stale_acts1 with
    | Some (tr1, s1) => returned 0 0 tr1 && (ldw demo_cfg (s_mem s1) (ex_ofs 0) =? 1) &&
        match rep (fun _ => true) (at1 (B_push2 9 0 0) (at1 (B_push 9) s1)) stale_acts2 with
        | Some (p :: tr2, s2) => returned 1 1 (p :: tr2) && (ldw demo_cfg (s_mem s2) (ex_ofs 0) =? 1) &&
            (ldw demo_cfg (s_mem s2) (ex_arr 0) =? 7)
        | _ => false end
    | None => false end).
  assert (H : chk = true) by (vm_compute; reflexivity). unfold chk in H. clear chk.
  destruct (rep (Nat.eqb 0) buf_s0 stale_acts1) as [[tr1 s1]|] eqn:E1; [|discriminate H].
  apply andb_prop in H. destruct H as [H H']. apply andb_prop in H. destruct H as [F1 F2]. apply Z.eqb_eq in F2.
  destruct (rep (fun _ => true) (at1 (B_push2 9 0 0) (at1 (B_push 9) s1)) stale_acts2) as [[[|p tr2] s2]|] eqn:E2; try discriminate H'.
  apply andb_prop in H'. destruct H' as [H F5]. apply andb_prop in H. destruct H as [F3 F4]. apply Z.eqb_eq in F4, F5.
  destruct (mreplay_moves buf_loc ex_buf_client demo_cfg dx 2 buf_player buf_plays o0 (fun _ => eq_refl) buf_nq buf_nq_refl
    _ _ _ _ _ E1 (cstart_stays mem0 (fun _ => B_idle))) as [M1 Q1].
  assert (T1 : s_thr s1 1 = idle_thread B_idle (Some (1, 1))).
  { rewrite (moves_others _ _ _ _ _ _ _ _ M1 1); [reflexivity|]. discriminate. }
  set (sa := at1 (B_push 9) s1) in *. set (sb := at1 (B_push2 9 0 0) sa) in *.
  assert (Ta : s_thr sa 1 = idle_thread (B_push 9) (Some (1, 1))).
  { unfold sa, at1. rewrite set_t_same, T1. reflexivity. }
  assert (Tb : s_thr sb 1 = idle_thread (B_push2 9 0 0) (Some (1, 1))).
  { unfold sb, at1. rewrite set_t_same, Ta. reflexivity. }
  assert (Q2 : stays 2 o0 sb) by (apply stays_set; [|lia]; apply stays_set; [exact Q1|lia]).
  destruct (mreplay_moves buf_loc ex_buf_client demo_cfg dx 2 buf_player buf_plays o0 (fun _ => eq_refl) buf_nq buf_nq_refl
    _ _ _ _ _ E2 Q2) as [M2 _].
  destruct (moves_weak _ _ _ _ _ _ _ _ M1 (wstart buf_s0) (agrees_start _ buf_s0)) as (w1 & W1 & P1 & P2 & P3 & P4 & P5).
  assert (Run : forall (s : RseqKernel.state buf_loc) l, s_thr s 1 = idle_thread l (Some (1, 1)) -> running (s_thr s 1)).
  { intros s l E. rewrite E. split; [discriminate|reflexivity]. }
  assert (Sa : step demo_cfg dx ex_buf_client s1 Ltau sa).
  { apply (S_local buf_loc demo_cfg dx ex_buf_client s1 1 B_idle [] (B_push 9)).
    - exact (Run _ _ T1).
    - rewrite T1. reflexivity.
    - left. exists 9. split; [|reflexivity]. change (wmod demo_cfg) with 18446744073709551616. lia. }
  assert (Aa : acts 1 s1 Ltau sa).
  { split; [intros u Hu; apply set_t_other; auto|]. left. rewrite T1, Ta. discriminate. }
  destruct (step_weak _ _ _ _ W1 s1 1 Ltau sa P3 Sa Aa) as (W2 & R1 & R2 & R3 & R4 & R5).
  assert (Old : sees W2 1 mem0).
  { intros x. exists 0%nat. split; [apply R3, P4; left; reflexivity|].
    rewrite R5; [|reflexivity|rewrite T1, Ta; reflexivity]. rewrite P5 by discriminate. apply le_n. }
  assert (Sb : step demo_cfg dx ex_buf_client (set_m sa mem0) Ltau (set_m sb mem0)).
  { apply (S_local buf_loc demo_cfg dx ex_buf_client (set_m sa mem0) 1 (B_push 9) [] (B_push2 9 0 0)).
    - exact (Run _ _ Ta).
    - change (s_thr (set_m sa mem0) 1) with (s_thr sa 1). rewrite Ta. reflexivity.
    - exists 0, 0. split; [left; reflexivity|]. split; reflexivity. }
  assert (Ab : acts 1 sa Ltau (set_m sb mem0)).
  { split; [intros u Hu; unfold sb, at1; cbn; destruct (Nat.eqb_spec u 1); [contradiction|reflexivity]|].
    left. change (s_thr (set_m sb mem0) 1) with (s_thr sb 1). rewrite Ta, Tb. discriminate. }
  destruct (step_seen _ _ _ _ W2 sa 1 mem0 Ltau sb (set_m sb mem0) R2 Old Sb Ab eq_refl eq_refl) as (W3 & V1 & V2 & _).
  destruct (moves_weak _ _ _ _ _ _ _ _ M2 W3 V2) as (w2 & W4 & U1 & U2 & [U3 U4] & _).
  set (wa := (w_core W1, Ltau)). set (wb := (w_core W2, Ltau)).
  exists (w1 ++ [wa] ++ [wb] ++ w2), W4, (s_mem s2).
  split; [|split; [|split; [|split; [|split; [|split]]]]].
  - eapply wpath_app; [exact P1|]. eapply wpath_app; [|eapply wpath_app; [|exact U1]].
    + change [wa] with ([] ++ [wa]). econstructor; [constructor|exact R1|exact Logic.I].
    + change [wb] with ([] ++ [wb]). econstructor; [constructor|exact V1|exact Logic.I].
  - exact (returned_same _ _ _ w1 tr1 P2 F1 [] ([wa] ++ [wb] ++ w2)).
  - pose proof (returned_same _ _ _ w2 (p :: tr2) U2 F3 (w1 ++ [wa] ++ [wb]) []) as X. rewrite app_nil_r in X.
    rewrite <- !app_assoc in X. exact X.
  - intros x. destruct (U4 x) as (i & H1 & H2 & _). exists i. split; auto.
  - exact F4.
  - exact F5.
  - intros tr s Hp Hs.
    apply Forall2_app_inv_l in Hs. destruct Hs as (t1 & rest & G1 & Hs & ->).
    inversion Hs as [|? [sx la] ? rest' Ga Hs' e1 e2]; subst. clear Hs.
    inversion Hs' as [|? [sy lb] ? t2 Gb Hs e1 e2]; subst. clear Hs'.
    cbn in Ga, Gb. destruct Ga as (<- & _ & _). destruct Gb as (<- & Gb & _).
    destruct p as [z lz].
    destruct (path_split _ _ _ _ _ _ _ (moves_path _ _ _ _ _ _ _ _ M2) [] z lz tr2 eq_refl) as [Z1 _].
    assert (z = sb) as ->.
    { revert Z1. generalize sb. clear. intros sb Z1. inversion Z1 as [|s tr s' l s'' ? ? ? E1 E2]; [reflexivity|]. destruct tr; discriminate. }
    inversion U2 as [|[z' lz'] ? w2' ? Uz U2' e1 e2]; subst. inversion Hs as [|? [y ly] ? t3 Gy _]; subst.
    cbn in Uz, Gy. destruct Uz as (_ & Uz & _). destruct Gy as (_ & Gy & _).
    destruct (path_split _ _ _ _ _ _ _ Hp (t1 ++ [(sx, Ltau)]) sy Ltau ((y, ly) :: t3)) as (X1 & y' & X2 & X3).
    { rewrite <- app_assoc. reflexivity. }
    subst y'. apply path_mem in X1.
    assert (Em : s_mem sy = s_mem s1).
    { rewrite X1, (path_mem _ _ _ _ _ _ _ (moves_path _ _ _ _ _ _ _ _ M1)), map_app, (same_snd _ _ _ G1), (same_snd _ _ _ P2).
      unfold mem_after. rewrite fold_left_app. reflexivity. }
    destruct R2 as [R2 _].
    assert (Ty : s_thr sy 1 = s_thr sa 1) by (rewrite <- Gb, <- R2; reflexivity).
    assert (Ty' : s_thr y 1 = s_thr sb 1) by (rewrite <- Gy, Uz; reflexivity).
    destruct (only_tau _ _ _ _ sy y 1 (B_push 9) (B_push2 9 0 0) X2) as (cpu & o & K1 & K2 & K3).
    + rewrite Ty, Ta. reflexivity.
    + rewrite Ty', Tb. reflexivity.
    + discriminate.
    + destruct (o =? Z.of_nat (ex_len cpu)); [discriminate K3|]. injection K3 as <- <-.
      unfold plain_load in K2. rewrite Em, F2 in K2. discriminate K2.
Qed.

(** ** The run of C11_case *)
Definition inc_nq (l l' : inc_loc) : bool :=
  match l, l' with Inc_read _, Inc_read _ => false | Inc_read _, _ => true | _, _ => false end.
Lemma ex_moves : exists tr s, moves demo_cfg dx (inc_client CPU_ID two ex_cnt) (fun _ => True) inc_s0 tr s /\
  count is_call (map snd tr) = 6 /\ count is_ret0 (map snd tr) = 3.
Proof.
  set (rep := mreplay inc_loc (inc_client CPU_ID two ex_cnt) demo_cfg dx 2 inc_player inc_nq (fun _ => true) inc_s0 inc_acts).
  set (chk := match rep with Some (tr, s) => (count is_call (map snd tr) =? 6) && (count is_ret0 (map snd tr) =? 3) | None => false end).
  assert (H : chk = true) by (vm_compute; reflexivity). unfold chk in H. clear chk.
  destruct rep as [[tr s]|] eqn:E; [|discriminate H]. apply andb_prop in H. destruct H as [F1 F2]. apply Z.eqb_eq in F1, F2.
  destruct (mreplay_moves inc_loc (inc_client CPU_ID two ex_cnt) demo_cfg dx 2 inc_player inc_plays
    (fun t => idle_thread (Inc_read (inc_iter t)) None) (fun _ => eq_refl) inc_nq
    ltac:(intros []; reflexivity) _ _ _ _ _ E (cstart_stays mem0 (fun t => Inc_read (inc_iter t)))) as [M _].
  exists tr, s. split; [|auto]. clear - M. induction M; econstructor; eauto.
Qed.
