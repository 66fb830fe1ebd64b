(** Concrete runs of the registration machine. *)
From Coq Require Import ZArith Bool List Lia.
From Verif Require Import RegModel RegSpec.
Import ListNotations.
Local Open Scope Z_scope.

(** A system on which librseq owns the registration; the kernel says [aux]. *)
Definition own_sys (aux : Z) : sys :=
  {| libc_off := Some 64; libc_size := Some 0; libc_flags := Some 0; k_has := true; k_aux := aux; tls_off := -1024 |}.
(** A system with a registration by libc, which says 32 bytes, of a kernel with 28. *)
Definition libc_sys : sys :=
  {| libc_off := Some 64; libc_size := Some 32; libc_flags := Some 0; k_has := true; k_aux := 28; tls_off := -1024 |}.

Lemma own_sys_not_libc : forall aux, ~ libc_active (own_sys aux).
Proof. intros aux (a & b & c & _ & H & _ & N). cbn in H. congruence. Qed.
Lemma own_sys_sane : forall aux, 0 <= aux <= 1024 -> sane (own_sys aux).
Proof. intros aux H. split; auto. cbn. intros size E. injection E as <-. lia. Qed.
Lemma libc_sys_active : libc_active libc_sys.
Proof. exists 64, 32, 0. repeat split; discriminate. Qed.
Lemma libc_sys_sane : sane libc_sys.
Proof. split; [cbn; lia|]. cbn. intros size E. injection E as <-. lia. Qed.

(** Schedules: what happens next. *)
Inductive act := ACall (t : nat) (c : api) | ASpawn (t u : nat) | AStep (t : nat) (i : nat).

(** One step of thread [t]; if it reads, position [i]. *)
Definition next (y : sys) (s : state) (a : act) : option (label * state) :=
  let rd t v i := if Nat.leb (views s t v) i then nth_error (hist s v) i else None in
  match a with
  | ACall t c =>
    match pcs s t with
    | Idle => if match c with CUnreg => inited s t | _ => true end
              then Some (LCall t c, goto s t (match c with CUnreg => U_own | _ => I_load c end) (views s t)) else None
    | _ => None
    end
  | ASpawn t u =>
    match pcs s u with
    | Idle => if inited s t then
        Some (LSpawn t u, {| hist := hist s; rel := rel s; owner := owner s; lview := lview s; kreg := kreg s;
           pcs := pcs s; views := upd (views s) u (join (views s u) (views s t)); inited := upd (inited s) u true |}) else None
    | _ => None
    end
  | AStep t i =>
    match pcs s t with
    | I_load c => match rd t VDone i with
        | Some z => Some (LTau, goto s t (if z =? 0 then I_lock c else I_ret c) (join (see (views s t) VDone i) (rel s i)))
        | None => None end
    | I_lock c => match owner s with
        | None => Some (LTau, {| hist := hist s; rel := rel s; owner := Some t; lview := lview s; kreg := kreg s;
           pcs := upd (pcs s) t (I_check c); views := upd (views s) t (join (views s t) (lview s)); inited := inited s |})
        | Some _ => None end
    | I_check c => match rd t VDone i with
        | Some z => if z =? 0 then match init_stores y with
                      | Some ws => Some (LTau, goto s t (I_store c ws) (see (views s t) VDone i))
                      | None => None end
                    else Some (LTau, goto s t (I_unlock c) (see (views s t) VDone i))
        | None => None end
    | I_store c ((v, z) :: ws) => Some (LStore t v z, store s t v z (I_store c ws) false)
    | I_store c [] => Some (LTau, goto s t (I_done c) (views s t))
    | I_done c => Some (LStore t VDone 1, store s t VDone 1 (I_unlock c) true)
    | I_unlock c => Some (LTau, {| hist := hist s; rel := rel s; owner := None; lview := views s t; kreg := kreg s;
           pcs := upd (pcs s) t (I_ret c); views := views s; inited := inited s |})
    | I_ret c => Some (LTau, {| hist := hist s; rel := rel s; owner := owner s; lview := lview s; kreg := kreg s;
           pcs := upd (pcs s) t (after_init c); views := views s; inited := upd (inited s) t true |})
    | R_own => match rd t VOwn i with
        | Some z => Some (LTau, goto s t (if z =? 0 then P_ret CReg 0 else R_len) (see (views s t) VOwn i)) | None => None end
    | R_len => match rd t VSize i with
        | Some z => Some (LTau, goto s t (R_sys (min_alloc z)) (see (views s t) VSize i)) | None => None end
    | R_sys len => let ok := sys_register y (kreg s t) len in
        Some (LSys t CReg len ok, {| hist := hist s; rel := rel s; owner := owner s; lview := lview s;
           kreg := if ok then upd (kreg s) t (Some len) else kreg s;
           pcs := upd (pcs s) t (if ok then R_size else R_failed); views := views s; inited := inited s |})
    | R_failed => match rd t VSize i with
        | Some z => if z <=? 0 then Some (LTau, goto s t (P_ret CReg (-1)) (see (views s t) VSize i))
                    else Some (LAbort t, goto s t P_dead (see (views s t) VSize i))
        | None => None end
    | R_size => match rd t VSize i with
        | Some z => Some (LTau, goto s t (if z =? 0 then R_set else P_ret CReg 0) (see (views s t) VSize i)) | None => None end
    | R_set => match feature_size y with
        | Some f => Some (LStore t VSize f, store s t VSize f (P_ret CReg 0) false) | None => None end
    | U_own => match rd t VOwn i with
        | Some z => Some (LTau, goto s t (if z =? 0 then P_ret CUnreg 0 else U_len) (see (views s t) VOwn i)) | None => None end
    | U_len => match rd t VSize i with
        | Some z => Some (LTau, goto s t (U_sys (min_alloc z)) (see (views s t) VSize i)) | None => None end
    | U_sys len => let ok := sys_unregister y (kreg s t) len in
        Some (LSys t CUnreg len ok, {| hist := hist s; rel := rel s; owner := owner s; lview := lview s;
           kreg := if ok then upd (kreg s) t None else kreg s;
           pcs := upd (pcs s) t (P_ret CUnreg (if ok then 0 else -1)); views := views s; inited := inited s |})
    | P_ret c r => Some (LRet t c r, goto s t Idle (views s t))
    | Idle | P_dead => None
    end
  end.

Lemma next_step : forall y s a l s', next y s a = Some (l, s') -> step y s l s'.
Proof.
  intros y s a l s' H.
  assert (RD : forall t v i z, (if Nat.leb (views s t v) i then nth_error (hist s v) i else None) = Some z -> readable s t v i z).
  { intros t v i z E. destruct (Nat.leb_spec (views s t v) i); [|discriminate]. split; auto. }
  destruct a as [t c|t u|t i]; cbn in H.
  - destruct (pcs s t) eqn:Ep; try discriminate. destruct c; cbn in H.
    + injection H as <- <-. apply (S_call y s t CInit); auto. discriminate.
    + injection H as <- <-. apply (S_call y s t CReg); auto. discriminate.
    + destruct (inited s t) eqn:Ei; [|discriminate]. injection H as <- <-. apply (S_call y s t CUnreg); auto.
  - destruct (pcs s u) eqn:Ep; try discriminate. destruct (inited s t) eqn:Ei; [|discriminate].
    injection H as <- <-. apply S_spawn; auto.
  - destruct (pcs s t) eqn:Ep; try discriminate.
    + destruct (if Nat.leb _ _ then _ else _) eqn:E; [|discriminate]. injection H as <- <-. eapply S_load; eauto.
    + destruct (owner s) eqn:E; [discriminate|]. injection H as <- <-. eapply S_lock; eauto.
    + destruct (if Nat.leb _ _ then _ else _) as [z|] eqn:E; [|discriminate]. destruct (Z.eqb_spec z 0) as [->|N].
      * destruct (init_stores y) eqn:Ei; [|discriminate]. injection H as <- <-. eapply S_first; eauto.
      * injection H as <- <-. eapply S_check; eauto.
    + destruct ws as [|(v, z) ws]; injection H as <- <-; [eapply S_stored|eapply S_store]; eauto.
    + injection H as <- <-. eapply S_done; eauto.
    + injection H as <- <-. eapply S_unlock; eauto.
    + injection H as <- <-. eapply S_inited; eauto.
    + destruct (if Nat.leb _ _ then _ else _) eqn:E; [|discriminate]. injection H as <- <-. eapply S_rown; eauto.
    + destruct (if Nat.leb _ _ then _ else _) eqn:E; [|discriminate]. injection H as <- <-. eapply S_rlen; eauto.
    + injection H as <- <-. eapply S_rsys; eauto.
    + destruct (if Nat.leb _ _ then _ else _) as [z|] eqn:E; [|discriminate]. destruct (Z.leb_spec z 0).
      * injection H as <- <-. eapply S_failed; eauto.
      * injection H as <- <-. eapply S_incoherent; eauto.
    + destruct (if Nat.leb _ _ then _ else _) eqn:E; [|discriminate]. injection H as <- <-. eapply S_rsize; eauto.
    + destruct (feature_size y) eqn:E; [|discriminate]. injection H as <- <-. eapply S_rset; eauto.
    + destruct (if Nat.leb _ _ then _ else _) eqn:E; [|discriminate]. injection H as <- <-. eapply S_uown; eauto.
    + destruct (if Nat.leb _ _ then _ else _) eqn:E; [|discriminate]. injection H as <- <-. eapply S_ulen; eauto.
    + injection H as <- <-. eapply S_usys; eauto.
    + injection H as <- <-. eapply S_ret; eauto.
Qed.

Fixpoint play (y : sys) (s : state) (acts : list act) : option (list label * state) :=
  match acts with
  | [] => Some ([], s)
  | a :: r => match next y s a with
              | Some (l, s') => match play y s' r with Some (tr, s2) => Some (l :: tr, s2) | None => None end
              | None => None
              end
  end.
Lemma play_run : forall y acts s tr0 tr s', run y tr0 s -> play y s acts = Some (tr, s') -> run y (tr0 ++ tr) s'.
Proof.
  intros y acts. induction acts as [|a acts IH]; intros s tr0 tr s' R H; cbn in H.
  - injection H as <- <-. rewrite app_nil_r. auto.
  - destruct (next y s a) as [(l, s1)|] eqn:E; [|discriminate]. destruct (play y s1 acts) as [(tr1, s2)|] eqn:E'; [|discriminate].
    injection H as <- <-. apply next_step in E. change (l :: tr1) with ([l] ++ tr1). rewrite app_assoc.
    apply IH with (s := s1); auto. econstructor; eauto.
Qed.

(** The events of a schedule. *)
Definition events (y : sys) (acts : list act) : list label :=
  match play y initial acts with Some (tr, _) => tr | None => [] end.
Definition ending (y : sys) (acts : list act) : state :=
  match play y initial acts with Some (_, s) => s | None => initial end.
Lemma events_run : forall y acts, (if play y initial acts then true else false) = true -> run y (events y acts) (ending y acts).
Proof.
  intros y acts H. unfold events, ending. destruct (play y initial acts) as [(tr, s)|] eqn:E; [|discriminate].
  apply (play_run _ _ _ [] _ _ (run_nil y) E).
Qed.

Definition steps (t : nat) (is : list nat) : list act := map (AStep t) is.

(** Threads 0 and 1 race to register: thread 1 finds the lock taken, and later
    finds the initialisation done; thread 1 still reads the old size 0. *)
Definition race : list act :=
  ACall 0 CReg :: ACall 1 CReg :: steps 0 [0]%nat ++ steps 1 [0]%nat ++ (* both read init_done = 0 *)
  steps 0 [0; 0; 0; 0; 0; 0; 0; 0; 0]%nat ++                               (* lock, check, 4 stores, done, unlock *)
  steps 1 [0; 1; 0; 0]%nat ++                                            (* lock, check, unlock, return *)
  steps 0 [0; 1; 1; 0; 1; 0; 0]%nat ++                                    (* register, set the size *)
  steps 1 [1; 1; 0; 1; 0; 0]%nat.                                        (* register, set the size again *)

(** Register, unregister, register again. *)
Definition first_call : list act := ACall 0 CReg :: steps 0 [0; 0; 0; 0; 0; 0; 0; 0; 0; 0; 0; 1; 1; 0; 1; 0; 0]%nat.
Definition unregister : list act := ACall 0 CUnreg :: steps 0 [1; 2; 0; 0]%nat.
Definition again : list act := ACall 0 CReg :: steps 0 [1; 0; 1; 2; 0; 2]%nat.
