(** C63: the number of CPUs given by rseq_get_max_nr_cpus() when threads call it
    at the same time. *)
From Coq Require Import ZArith Bool List Lia.
From Verif Require Import SmpModel SmpSpec SmpProofs ExSmp Thm_Smp SmpRace SmpRaceProofs.
Import ListNotations.
Local Open Scope Z_scope.

(** A length other than 0 is one that some call computed from the system's answers. *)
Theorem C63_returned_was_computed : forall lb tr s t v, rrun lb tr s -> In (LRet t v) tr -> v <> 0 ->
  1 <= v /\ exists u e, In (LComp u e) tr /\ compute_len lb e = Len v.
Proof. exact returns_computed. Qed.
Print Assumptions C63_returned_was_computed.

(** 0 is only returned to a thread whose own computation gave nothing. *)
Theorem C63_zero_after_own_failure : forall lb tr s t, rrun lb tr s -> In (LRet t 0) tr ->
  exists e n, In (LComp t e) tr /\ compute_len lb e = Len n /\ n < 1.
Proof.
  intros lb tr s t H Hi. destruct (z_ret _ _ _ (inv0_run _ _ _ H) t Hi) as (e & A & n & B & C). exists e, n. auto.
Qed.
Print Assumptions C63_zero_after_own_failure.

(** Once a call returned a length, no call that comes later returns 0. *)
Theorem C63_never_back_to_zero : forall lb tr s i j t u v w, rrun lb tr s -> before tr i j ->
  nth_error tr i = Some (LRet t v) -> nth_error tr j = Some (LRet u w) -> v <> 0 -> w <> 0.
Proof. exact never_back. Qed.
Print Assumptions C63_never_back_to_zero.

(** If the mask file can be read, all calls of all threads return the same
    length, and it is the right one. *)
Theorem C63_same_for_all : forall lb s rs tr st, 32 <= lb -> mask_text s rs -> (forall cpu, possible rs cpu -> cpu < INT_MAX) -> rrun lb tr st ->
  (forall t e, In (LComp t e) tr -> (mask_file e s \/ mask_file e (s ++ [10])) /\ (length (e_file e) < CPUMASK_SIZE)%nat) ->
  exists n, possible rs (n - 1) /\ (forall cpu, possible rs cpu -> cpu < n) /\ forall t v, In (LRet t v) tr -> v = n.
Proof. exact mask_returns. Qed.
Print Assumptions C63_same_for_all.

(** Whatever the system answers: if one call returned a length before any other
    call began, all later calls return it. *)
Theorem C63_first_call_fixes : forall lb k t v tr s, rrun lb tr s ->
  nth_error tr k = Some (LRet t v) -> v <> 0 -> (forall i l, (i <= k)%nat -> nth_error tr i = Some l -> who l = t) ->
  (forall i u, (k < i)%nat -> nth_error tr i = Some (LCall u) -> before tr k i) ->
  (forall i, (i < k)%nat -> forall w, nth_error tr i <> Some (LRet t w)) ->
  forall i u w, (k <= i)%nat -> nth_error tr i = Some (LRet u w) -> w = v.
Proof. exact first_fixes. Qed.
Print Assumptions C63_first_call_fixes.

(** ** Cases *)

(** Build a run from its labels and from which of the values each load returns. *)
Definition exec (lb : Z) (s : rstate) (x : label * nat) : option rstate :=
  let '(l, i) := x in
  match l with
  | LCall t => match at_ s t with Out => Some {| vals := vals s; seen := seen s; at_ := set (at_ s) t Check |} | _ => None end
  | LLoad t => match at_ s t, nth_error (vals s) i with
      | Check, Some c => if (seen s t <=? i)%nat then Some {| vals := vals s; seen := set (seen s) t i; at_ := set (at_ s) t (if c =? 0 then Update else Last) |} else None
      | _, _ => None end
  | LComp t e => match at_ s t, compute_len lb e with
      | Update, Len n => Some {| vals := vals s; seen := seen s; at_ := set (at_ s) t (if n <? 1 then Last else Put n) |}
      | _, _ => None end
  | LStore t n => match at_ s t with
      | Put m => if m =? n then Some {| vals := vals s ++ [n]; seen := set (seen s) t (length (vals s)); at_ := set (at_ s) t Last |} else None
      | _ => None end
  | LRet t v => match at_ s t, nth_error (vals s) i with
      | Last, Some c => if ((seen s t <=? i)%nat && (c =? v))%bool then Some {| vals := vals s; seen := set (seen s) t i; at_ := set (at_ s) t Out |} else None
      | _, _ => None end
  | LSync t u => Some {| vals := vals s; seen := set (seen s) t (Nat.max (seen s t) (seen s u)); at_ := at_ s |}
  end.
Fixpoint execs (lb : Z) (s : rstate) (xs : list (label * nat)) : option rstate :=
  match xs with [] => Some s | x :: r => match exec lb s x with Some s' => execs lb s' r | None => None end end.
Lemma exec_step : forall lb s l i s', exec lb s (l, i) = Some s' -> rstep lb s l s'.
Proof.
  intros lb s l i s' H. destruct l as [t|t|t e|t n|t v|t u]; cbn in H.
  - destruct (at_ s t) eqn:E; try discriminate H. injection H as <-. now constructor.
  - destruct (at_ s t) eqn:E; try discriminate H. destruct (nth_error (vals s) i) as [c|] eqn:E2; try discriminate H.
    destruct (seen s t <=? i)%nat eqn:E3; [|discriminate H]. injection H as <-. apply Nat.leb_le in E3. now constructor.
  - destruct (at_ s t) eqn:E; try discriminate H. destruct (compute_len lb e) as [n| | |] eqn:E2; try discriminate H.
    injection H as <-. now constructor.
  - destruct (at_ s t) as [| | |m|] eqn:E; try discriminate H. destruct (m =? n) eqn:E2; [|discriminate H].
    apply Z.eqb_eq in E2. subst m. injection H as <-. now constructor.
  - destruct (at_ s t) eqn:E; try discriminate H. destruct (nth_error (vals s) i) as [c|] eqn:E2; try discriminate H.
    destruct (seen s t <=? i)%nat eqn:E3; [|discriminate H]. destruct (c =? v) eqn:E4; [|discriminate H].
    apply Z.eqb_eq in E4. subst c. injection H as <-. apply Nat.leb_le in E3. now constructor.
  - injection H as <-. constructor.
Qed.
Lemma execs_run : forall lb xs tr s s', rrun lb tr s -> execs lb s xs = Some s' -> rrun lb (tr ++ map fst xs) s'.
Proof.
  intros lb xs. induction xs as [|[l i] xs IH]; intros tr s s' Hr He; cbn [execs map fst] in *.
  - injection He as <-. now rewrite app_nil_r.
  - destruct (exec lb s (l, i)) as [s1|] eqn:E; [|discriminate He].
    change (l :: map fst xs) with ([l] ++ map fst xs). rewrite app_assoc.
    eapply IH; [|eassumption]. econstructor; [eassumption|]. eapply exec_step; eassumption.
Qed.
Lemma execs_start : forall lb xs, match execs lb start xs with Some _ => True | None => False end -> exists s, rrun lb (map fst xs) s.
Proof.
  intros lb xs H. destruct (execs lb start xs) as [s|] eqn:E; [|contradiction]. exists s.
  exact (execs_run lb xs [] start s (rrun_nil lb) E).
Qed.

(** Threads 0 and 1 both find the cache empty and read the mask "0-3,8"; thread 2
    calls later and does not see thread 0's store at first. *)
Definition mask_env : env := env_of (small_mask ++ [10]) small_reads.
Definition race_x : list (label * nat) :=
  [(LCall 0, 0); (LCall 1, 0); (LLoad 0, 0); (LLoad 1, 0); (LComp 0 mask_env, 0); (LComp 1 mask_env, 0); (LStore 0 9, 0);
   (LRet 0 9, 1); (LCall 2, 0); (LLoad 2, 0); (LComp 2 mask_env, 0); (LStore 2 9, 0); (LStore 1 9, 0); (LRet 2 9, 3); (LRet 1 9, 3)]%nat.
Definition race : list label := map fst race_x.
Example C63_same_case :
  (exists s, rrun 64 race s) /\ mask_text small_mask [(0, 3); (8, 8)] /\
  (forall cpu, possible [(0, 3); (8, 8)] cpu -> cpu < INT_MAX) /\
  (forall t e, In (LComp t e) race -> (mask_file e small_mask \/ mask_file e (small_mask ++ [10])) /\ (length (e_file e) < CPUMASK_SIZE)%nat).
Proof.
  split; [apply execs_start; vm_compute; exact I|].
  split. { exact (proj1 C42_case). }
  split.
  - intros cpu (a & b & [E|[E|[]]] & Hc); injection E as <- <-; unfold INT_MAX; lia.
  - intros t e Hi. assert (E : e = mask_env).
    { cbn in Hi. repeat (destruct Hi as [Hi|Hi]; [try discriminate Hi; injection Hi; auto|]). contradiction. }
    subst e. split.
    + right. exact (proj1 (proj2 C42_case)).
    + apply Nat.ltb_lt. vm_compute. reflexivity.
Qed.

(** Thread 0's call is the first and returns 9; then it creates threads 1 and 2,
    for which the system would answer 1: they get 9 too. *)
Definition bad_env : env := env_dir 1 1 None None.
Definition first_x : list (label * nat) :=
  [(LCall 0, 0); (LLoad 0, 0); (LComp 0 mask_env, 0); (LStore 0 9, 0); (LRet 0 9, 1); (LSync 1 0, 0); (LCall 1, 0);
   (LSync 2 0, 0); (LLoad 1, 1); (LCall 2, 0); (LLoad 2, 1); (LRet 1 9, 1); (LRet 2 9, 1)]%nat.
Definition first : list label := map fst first_x.
Example C63_first_case :
  (exists s, rrun 64 first s) /\ nth_error first 4 = Some (LRet 0 9) /\
  (forall i l, (i <= 4)%nat -> nth_error first i = Some l -> who l = 0%nat) /\
  (forall i u, (4 < i)%nat -> nth_error first i = Some (LCall u) -> before first 4 i) /\
  (forall i, (i < 4)%nat -> forall w, nth_error first i <> Some (LRet 0 w)).
Proof.
  split; [apply execs_start; vm_compute; exact I|]. split; [reflexivity|]. split; [|split].
  - intros i l Hi H. do 5 (destruct i as [|i]; [injection H as <-; reflexivity|]). lia.
  - intros i u Hi H.
    do 13 (destruct i as [|i]; [try lia; try discriminate H;
      first [ apply (b_trans first 4 5 6);
                [apply (b_sync first 4 5 (LRet 0 9) 1 0); [lia|reflexivity..] | apply (b_same first 5 6 (LSync 1 0) (LCall 1)); [lia|reflexivity..]]
            | apply (b_trans first 4 7 9);
                [apply (b_sync first 4 7 (LRet 0 9) 2 0); [lia|reflexivity..] | apply (b_same first 7 9 (LSync 2 0) (LCall 2)); [lia|reflexivity..]] ]|]).
    destruct i; discriminate H.
  - intros i Hi w H. do 4 (destruct i as [|i]; [discriminate H|]). lia.
Qed.

(** A call that fails to find anything returns 0, and the next call of that thread
    may find the length. *)
Definition zero_x : list (label * nat) :=
  [(LCall 0, 0); (LLoad 0, 0); (LComp 0 (env_dir (-1) (-1) None None), 0); (LRet 0 0, 0);
   (LCall 0, 0); (LLoad 0, 0); (LComp 0 mask_env, 0); (LStore 0 9, 0); (LRet 0 9, 1); (LCall 0, 0); (LLoad 0, 1); (LRet 0 9, 1)]%nat.
Example C63_zero_case : (exists s, rrun 64 (map fst zero_x) s) /\ In (LRet 0 0) (map fst zero_x) /\ In (LRet 0 9) (map fst zero_x) /\
  before (map fst zero_x) 8 11 /\ nth_error (map fst zero_x) 8 = Some (LRet 0 9).
Proof.
  split; [apply execs_start; vm_compute; exact I|]. split; [cbn; tauto|]. split; [cbn; tauto|].
  split; [|reflexivity]. apply (b_same _ 8 11 (LRet 0 9) (LRet 0 9)); [lia|reflexivity..].
Qed.

(** ** The length may change

    When threads 0 and 1 make their first calls at the same time and the system
    answers them differently (thread 1 cannot open the mask file, and sysconf() gives
    it 1), thread 0 gets 9 from its first call and 1 from its second, although
    CPU 8 is possible.  Arrays and pools made after that are too short. *)
Definition change_x : list (label * nat) :=
  [(LCall 0, 0); (LLoad 0, 0); (LCall 1, 0); (LLoad 1, 0); (LComp 0 mask_env, 0); (LComp 1 bad_env, 0);
   (LStore 0 9, 0); (LRet 0 9, 1); (LStore 1 1, 0); (LRet 1 1, 2); (LCall 0, 0); (LLoad 0, 2); (LRet 0 1, 2)]%nat.
Theorem C63_may_change_refuted : exists tr s i j t v w, rrun 64 tr s /\ (i < j)%nat /\
  nth_error tr i = Some (LRet t v) /\ nth_error tr j = Some (LRet t w) /\ v <> 0 /\ w <> v /\
  (exists cpu, possible [(0, 3); (8, 8)] cpu /\ w <= cpu) /\ exists e, In (LComp t e) tr /\ mask_text small_mask [(0, 3); (8, 8)] /\ mask_file e (small_mask ++ [10]).
Proof.
  destruct (execs_start 64 change_x) as [s Hs]; [vm_compute; exact I|].
  exists (map fst change_x), s, 7%nat, 12%nat, 0%nat, 9, 1.
  split; [exact Hs|]. split; [lia|]. split; [reflexivity|]. split; [reflexivity|]. split; [lia|]. split; [lia|].
  split; [exists 8; split; [exists 8, 8; split; [cbn; tauto|lia]|lia]|].
  exists mask_env. split; [cbn; tauto|]. split; [exact (proj1 C42_case)|exact (proj1 (proj2 C42_case))].
Qed.
Print Assumptions C63_may_change_refuted.
