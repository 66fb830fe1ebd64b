(** Histories, threads and the CPU count for heap blocks, descriptors and mutexes (C64). *)
From Coq Require Import ZArith Bool List Lia Permutation PeanoNat.
From Verif Require Import UtilsModel RseqIR PoolVM PoolModel PoolWorld PoolSetModel ResSpec ResModel ResProofs ResErase.
From Verif Require SmpModel.
Import ListNotations.
Local Open Scope Z_scope.

(** ** Histories *)
Definition hist_ok (P : rop -> Prop) (w : rworld) (t : list event) : Prop :=
  match monitor t books0 with
  | Wrong => False
  | Impossible => True
  | Fine b => exists L LM, winv None w L LM b /\ ((forall o, P o -> unmap_ok o) -> L = [] /\ LM = [])
  end.
Lemma ran_ok : forall P e v0 w t, ran P e v0 w t -> hist_ok P w t.
Proof.
  intros P e v0 w t H. induction H as [|w t o t' w' x H IH Ho E].
  - unfold hist_ok. cbn. exists [], []. split; [|auto]. constructor; cbn.
    + constructor; cbn; auto using NoDup_nil, Permutation_refl.
    + intros ? [].
    + intros [].
    + constructor.
    + intros [].
  - unfold hist_ok in *. rewrite monitor_app. destruct (monitor t books0) as [b| |]; auto.
    destruct IH as (L & LM & Hw & Hcl). pose proof (s_run e o w L LM b Hw) as R. rewrite E in R. unfold runs in R. cbn [fst snd] in R.
    destruct (monitor t' b) as [b'| |]; auto. destruct R as (L' & LM' & Hw' & Hcl'). cbn [fst] in Hw'.
    exists (L' ++ L), (LM' ++ LM). split; [exact Hw'|]. intros HP. destruct (Hcl HP) as [-> ->].
    destruct (Hcl' (HP o Ho)) as [-> ->]. auto.
Qed.
Lemma ran_next : forall P e v0 w t o, ran P e v0 w t -> monitor (t ++ fst (run_r e o w)) books0 <> Wrong.
Proof.
  intros P e v0 w t o H. apply ran_ok in H. unfold hist_ok in H. rewrite monitor_app. destruct (monitor t books0) as [b| |]; [|discriminate|destruct H].
  destruct H as (L & LM & Hw & _). pose proof (s_run e o w L LM b Hw) as R. unfold runs in R.
  destruct (monitor (fst (run_r e o w)) b); [discriminate|discriminate|destruct R].
Qed.
Lemma ran_fine : forall P e v0 w t b, ran P e v0 w t -> monitor t books0 = Fine b ->
  exists L LM, winv None w L LM b /\ ((forall o, P o -> unmap_ok o) -> L = [] /\ LM = []).
Proof. intros P e v0 w t b H E. apply ran_ok in H. unfold hist_ok in H. rewrite E in H. exact H. Qed.
Lemma perm_nil_r : forall (l : list Z), Permutation l [] -> l = [].
Proof. intros l H. apply Permutation_nil. apply Permutation_sym. exact H. Qed.

(** ** Threads *)
Fixpoint disc (h : option Z) (l : list event) : Prop :=
  match l with
  | [] => h = None
  | ELock m :: l => h = None /\ disc (Some m) l
  | EUse m :: l => h = Some m /\ disc h l
  | EUnlock m :: l => h = Some m /\ disc None l
  | _ :: l => disc h l
  end.
Lemma disc_monitor : forall l b b', monitor l b = Fine b' -> held b' = None -> disc (held b) l.
Proof.
  induction l as [|ev l IH]; intros b b' H Hh; cbn in H.
  - inversion H; subst. exact Hh.
  - destruct (event_of ev b) as [b1| |] eqn:E; [|discriminate H|discriminate H]. pose proof (IH b1 b' H Hh) as D.
    destruct ev; cbn [disc event_of] in *.
    + destruct (has (heap b) p); [discriminate E|]. inversion E; subst. exact D.
    + destruct (p =? 0); [inversion E; subst; exact D|]. destruct (has (heap b) p && negb (has (mutexes b) p)); [|discriminate E]. inversion E; subst. exact D.
    + destruct (has (heap b) p); [|discriminate E]. inversion E; subst. exact D.
    + destruct (has (fds b) fd); [discriminate E|]. inversion E; subst. exact D.
    + destruct (has (fds b) fd); [|discriminate E]. inversion E; subst. exact D.
    + destruct (has (heap b) m && negb (has (mutexes b) m)); [|discriminate E]. inversion E; subst. exact D.
    + destruct (held b); [discriminate E|]. destruct (has (mutexes b) m); [|discriminate E]. inversion E; subst. split; [reflexivity|exact D].
    + unfold holds in E. destruct (held b) as [h|] eqn:Eh; [|discriminate E]. destruct (Z.eqb_spec h m) as [->|]; [|discriminate E].
      inversion E; subst. split; [reflexivity|]. rewrite Eh in D. exact D.
    + unfold holds in E. destruct (held b) as [h|] eqn:Eh; [|discriminate E]. destruct (Z.eqb_spec h m) as [->|]; [|discriminate E].
      inversion E; subst. split; [reflexivity|]. exact D.
    + destruct (has (mutexes b) m && negb (holds b m)); [|discriminate E]. inversion E; subst. exact D.
Qed.
Lemma disc_app : forall l l' h, disc h l -> disc None l' -> disc h (l ++ l').
Proof.
  induction l as [|ev l IH]; intros l' h H H'; cbn [app disc] in *; [rewrite H; exact H'|].
  destruct ev; try (apply IH; assumption); destruct H; split; auto.
Qed.

Lemma disc_calls : forall e l, calls e l -> disc None l.
Proof.
  intros e l H. induction H as [|l l' (P & v0 & w & t & o & [w' x] & b & R & E & M) H IH]; [reflexivity|]. apply disc_app; [|exact IH].
  assert (R' : ran (fun _ => True) e v0 w' (t ++ l)).
  { eapply ran_step with (o := o) (x := x); [|exact Logic.I|exact E]. clear - R. induction R; [constructor|]. eapply ran_step; eauto. }
  apply ran_fine with (b := b) in R'; [|exact M]. destruct R' as (L & LM & Hw & _). rewrite monitor_app in M.
  pose proof R as R0. apply ran_ok in R0. unfold hist_ok in R0. destruct (monitor t books0) as [b0| |] eqn:E0; try discriminate M.
  destruct R0 as (L0 & LM0 & Hw0 & _). rewrite <- (st_held _ _ _ _ _ (wi_st _ _ _ _ _ Hw0)).
  eapply disc_monitor; [exact M|]. apply (st_held _ _ _ _ _ (wi_st _ _ _ _ _ Hw)).
Qed.

Definition tinv (s : threads) : Prop :=
  exists h : nat -> option Z, (forall t, disc (h t) (todo s t)) /\ (forall t m, owner s m = Some t <-> h t = Some m).
Lemma tinv_goes : forall s t s', tinv s -> goes s t s' -> tinv s'.
Proof.
  intros s t s' (h & Hd & Ho) H. destruct H as [s t ev l E Hm].
  pose proof (Hd t) as D. rewrite E in D.
  assert (Hsame : disc (h t) l -> owner_after ev t (owner s) = owner s -> tinv {| todo := upd (todo s) t l; owner := owner_after ev t (owner s) |}).
  { intros D' Eo. exists h. cbn [todo owner]. rewrite Eo. split; [|exact Ho]. intros u. unfold upd. destruct (Nat.eqb_spec u t) as [->|]; [exact D'|apply Hd]. }
  destruct ev; cbn [disc owner_after may_go] in *; try (apply Hsame; [exact D|reflexivity]).
  - (* lock *)
    destruct D as [D1 D2]. exists (upd h t (Some m)). cbn [todo owner]. split.
    + intros u. unfold upd. destruct (Nat.eqb_spec u t) as [->|]; [exact D2|apply Hd].
    + intros u n. unfold own, upd. destruct (Z.eqb_spec n m) as [->|Nm]; destruct (Nat.eqb_spec u t) as [->|Nu].
      * split; reflexivity.
      * split; intros K; [inversion K; congruence|]. apply Ho in K. rewrite Hm in K. discriminate K.
      * split; intros K; [|inversion K; congruence]. apply Ho in K. rewrite D1 in K. discriminate K.
      * apply Ho.
  - apply Hsame; [apply D|reflexivity].
  - (* unlock *)
    destruct D as [D1 D2]. exists (upd h t None). cbn [todo owner]. split.
    + intros u. unfold upd. destruct (Nat.eqb_spec u t) as [->|]; [exact D2|apply Hd].
    + intros u n. unfold own, upd. destruct (Z.eqb_spec n m) as [->|Nm]; destruct (Nat.eqb_spec u t) as [->|Nu].
      * split; intros K; discriminate K.
      * split; intros K; [discriminate K|]. apply Ho in K. apply Ho in D1. congruence.
      * split; intros K; [|discriminate K]. apply Ho in K. congruence.
      * apply Ho.
Qed.
Lemma tinv_on : forall s s', goes_on s s' -> tinv s -> tinv s'.
Proof. intros s s' H. induction H as [|s s' t s'' H IH H']; intros K; [exact K|]. eapply tinv_goes; [apply IH; exact K|exact H']. Qed.
Lemma tinv_use : forall s t m l, tinv s -> todo s t = EUse m :: l -> owner s m = Some t.
Proof. intros s t m l (h & Hd & Ho) E. pose proof (Hd t) as D. rewrite E in D. apply Ho. apply D. Qed.
Lemma tinv_go : forall s t, tinv s -> todo s t <> [] -> exists u s', goes s u s'.
Proof.
  intros s t (h & Hd & Ho) Ht. destruct (todo s t) as [|ev l] eqn:E; [contradiction|].
  assert (Hgo : forall u ev l, todo s u = ev :: l -> (forall m, ev <> ELock m) -> exists u s', goes s u s').
  { intros u ev' l' E' N. eexists u, _. eapply goes_one; [exact E'|]. destruct ev'; cbn; auto. exfalso. eapply N. reflexivity. }
  destruct ev; try (eapply Hgo; [exact E|intros ? K; discriminate K]).
  destruct (owner s m) as [u|] eqn:Eo.
  - pose proof Eo as Eh. apply Ho in Eh. pose proof (Hd u) as D. rewrite Eh in D. destruct (todo s u) as [|ev' l'] eqn:E'; [discriminate D|].
    eapply Hgo; [exact E'|]. intros m' ->. destruct D as [D _]. discriminate D.
  - eexists t, _. eapply goes_one; [exact E|]. exact Eo.
Qed.

(** ** The CPU count *)
Lemma er_fallback : forall lb sc1 sc2 f1 f2 d1 d2, snd (fallback_r lb sc1 sc2 f1 f2 d1 d2) = SmpModel.fallback lb sc1 sc2 d1 d2.
Proof. intros. unfold fallback_r, SmpModel.fallback. destruct (SmpModel.plus1 _); [|reflexivity]. destruct (z <? sc1); reflexivity. Qed.
Lemma er_compute : forall lb x fd f1 f2, snd (compute_len_r lb x fd f1 f2) = SmpModel.compute_len lb x.
Proof.
  intros. unfold compute_len_r, SmpModel.compute_len.
  pose proof (er_fallback lb (SmpModel.e_sc1 x) (SmpModel.e_sc2 x) f1 f2 (SmpModel.e_dir1 x) (SmpModel.e_dir2 x)) as E.
  destruct (fallback_r lb (SmpModel.e_sc1 x) (SmpModel.e_sc2 x) f1 f2 (SmpModel.e_dir1 x) (SmpModel.e_dir2 x)) as [t o].
  cbn [snd] in E. subst o. destruct (SmpModel.fallback _ _ _ _ _); (destruct (negb (SmpModel.e_open x)); [reflexivity|]);
    cbv zeta; (destruct (SmpModel.read_loop _ _ _ _ _); [|reflexivity|reflexivity]);
    (destruct (Nat.eqb total 0); [reflexivity|]); destruct (SmpModel.max_cpuid_from_mask _ _ _ _); reflexivity.
Qed.
Lemma er_get_len : forall lb c x fd f1 f2, snd (get_len_r lb c x fd f1 f2) = SmpModel.get_len lb c x.
Proof.
  intros. unfold get_len_r, SmpModel.get_len. destruct (negb (c =? 0)); [reflexivity|].
  pose proof (er_compute lb x fd f1 f2) as E. destruct (compute_len_r lb x fd f1 f2) as [t o]. cbn [snd] in E. subst o.
  destruct (SmpModel.compute_len lb x); reflexivity.
Qed.

(** Either the books are as before, or the system handed out a descriptor in use. *)
Definition closes (t : list event) : Prop := forall b, monitor t b = Fine b \/ monitor t b = Impossible.
Lemma closes_app : forall t t', closes t -> closes t' -> closes (t ++ t').
Proof. intros t t' H H' b. rewrite monitor_app. destruct (H b) as [->| ->]; auto. Qed.
Lemma closes_pair : forall fd, closes [EOpen fd; EClose fd].
Proof.
  intros fd b. cbn. destruct (has (fds b) fd) eqn:E; [auto|]. left. cbn. rewrite Z.eqb_refl. cbn.
  apply has_not in E. fold (drop (fds b) fd). rewrite drop_not by exact E. destruct b; reflexivity.
Qed.
Lemma closes_nil : closes [].
Proof. intros b. left. reflexivity. Qed.
Lemma closes_scan : forall fd d, closes (scan_events fd d).
Proof. intros fd [l|]; [apply closes_pair|apply closes_nil]. Qed.
Lemma closes_fallback : forall lb sc1 sc2 f1 f2 d1 d2, closes (fst (fallback_r lb sc1 sc2 f1 f2 d1 d2)).
Proof.
  intros. unfold fallback_r. destruct (SmpModel.plus1 _) as [z|]; [|apply closes_scan]. destruct (z <? sc1); [apply closes_scan|].
  apply closes_app; apply closes_scan.
Qed.
Lemma closes_compute : forall lb x fd f1 f2, snd (compute_len_r lb x fd f1 f2) <> SmpModel.Blocked -> closes (fst (compute_len_r lb x fd f1 f2)).
Proof.
  intros lb x fd f1 f2. unfold compute_len_r.
  pose proof (closes_fallback lb (SmpModel.e_sc1 x) (SmpModel.e_sc2 x) f1 f2 (SmpModel.e_dir1 x) (SmpModel.e_dir2 x)) as C.
  destruct (fallback_r lb (SmpModel.e_sc1 x) (SmpModel.e_sc2 x) f1 f2 (SmpModel.e_dir1 x) (SmpModel.e_dir2 x)) as [t o]. cbn [fst] in C.
  assert (K : forall t, closes t -> closes (EOpen fd :: EClose fd :: t)) by (intros t0 H0; apply (closes_app [EOpen fd; EClose fd]); [apply closes_pair|exact H0]).
  assert (C' : closes (fst (match o with Some n => (t, SmpModel.Len n) | None => (t, SmpModel.Overflow) end))) by (destruct o; exact C).
  set (fb := match o with Some n => (t, SmpModel.Len n) | None => (t, SmpModel.Overflow) end) in *. clearbody fb.
  destruct (negb (SmpModel.e_open x)); [intros _; exact C'|]. cbv zeta.
  destruct (SmpModel.read_loop _ _ _ _ _); cbn [fst snd]; intros N; [|apply K; exact C'|exfalso; apply N; reflexivity].
  destruct (Nat.eqb total 0); [apply K; exact C'|]. destruct (SmpModel.max_cpuid_from_mask _ _ _ _); cbn [fst]; apply K; first [exact C'|apply closes_nil].
Qed.
Lemma closes_get : forall lb c x fd f1 f2, snd (get_len_r lb c x fd f1 f2) <> SmpModel.Blocked -> closes (fst (get_len_r lb c x fd f1 f2)).
Proof.
  intros lb c x fd f1 f2. unfold get_len_r. destruct (negb (c =? 0)); [intros _; apply closes_nil|].
  pose proof (closes_compute lb x fd f1 f2) as C. destruct (compute_len_r lb x fd f1 f2) as [t o]. cbn [fst snd] in *.
  destruct o; cbn [fst snd]; intros N; apply C; auto; discriminate.
Qed.
