(** Symbolic execution of one instruction sequence: tactics and lemmas used to
    prove [good]. *)
From Coq Require Import ZArith Bool List Lia.
From Verif Require Import RseqIR RseqSpec RseqKernel RseqSafe.
Import ListNotations.
Local Open Scope Z_scope.


(** One instruction, given the instruction. *)
Definition exec1 (g : cfg) (m : mem) (idx : Z) (pc : nat) (rs : regs) (i : instr)
  : option (nat * regs * eff * list Z) :=
    match i with
    | IMov d s => Some (S pc, setr rs d (val rs s), ENone, [])
    | ILd d a => Some (S pc, setr rs d (ldw g m (val rs a)), ENone, span (val rs a) (wsize g))
    | ISt _ a s => Some (S pc, rs, EWr (stw g (val rs a) (val rs s)), [])
    | ILdB d a => Some (S pc, setr rs d (byte m (val rs a)), ENone, [val rs a])
    | IStB a s => Some (S pc, rs, EWr [(val rs a, val rs s mod 256)], [])
    | IAdd d a b => Some (S pc, setr rs d (wrap g (val rs a + val rs b)), ENone, [])
    | IAddM a s =>
        Some (S pc, rs, EWr (stw g (val rs a) (wrap g (ldw g m (val rs a) + val rs s))),
              span (val rs a) (wsize g))
    | IIdx d => Some (S pc, setr rs d idx, ENone, [])
    | ICmp a b => Some (S pc, setr rs ZF (if val rs a =? val rs b then 1 else 0), ENone, [])
    | ICmpM a b =>
        Some (S pc, setr rs ZF (if ldw g m (val rs a) =? val rs b then 1 else 0), ENone,
              span (val rs a) (wsize g))
    | ICmpIdx b => Some (S pc, setr rs ZF (if idx =? val rs b then 1 else 0), ENone, [])
    | IJne l => Some (if rs ZF =? 0 then l else S pc, rs, ENone, [])
    | IJe l => Some (if rs ZF =? 0 then S pc else l, rs, ENone, [])
    | IBne a b l => Some (if val rs a =? val rs b then S pc else l, rs, ENone, [])
    | IBeq a b l => Some (if val rs a =? val rs b then l else S pc, rs, ENone, [])
    | IJmp l => Some (l, rs, ENone, [])
    | ICs => Some (S pc, rs, ECs, [])
    | IFence => Some (S pc, rs, ENone, [])
    | ISig => None
    | IExit x => Some (pc, rs, EExit x, [])
    end.

Lemma istep_exec1 : forall g P m idx pc rs i r,
  nth_error (code P) pc = Some i -> exec1 g m idx pc rs i = r -> istep g P m idx pc rs = r.
Proof. intros. unfold istep. rewrite H. exact H0. Qed.

Lemma Safe_mono : forall g P c m idx k k' s,
  Safe g P c m idx k s -> (k <= k')%nat -> Safe g P c m idx k' s.
Proof.
  intros g P c m idx k k' s H. revert k'.
  induction H; intros k' Hk; (destruct k' as [|k']; [lia|]).
  - eapply Safe_in; eauto. apply IHSafe. lia.
  - eapply Safe_commit; eauto.
  - eapply Safe_fail; eauto.
  - eapply Safe_abort; eauto.
Qed.

Ltac nat_lt := apply Nat.ltb_lt; vm_compute; reflexivity.
Ltac nat_le := apply Nat.leb_le; vm_compute; reflexivity.

(** Reduce register lookups in [H]. *)
Ltac regs_in H :=
  cbn [exec1 val setr reg_eqb reg_id Nat.eqb init_regs arg c_op c_cpu] in H;
  unfold setr in H;
  cbn [exec1 val setr reg_eqb reg_id Nat.eqb init_regs arg c_op c_cpu] in H.

Lemma eqb_flip : forall a b r, (a =? b) = r -> (b =? a) = r.
Proof. intros a b r <-. apply Z.eqb_sym. Qed.

Ltac rew_in H :=
  repeat match goal with
         | E : (?a =? ?b) = _ |- _ => rewrite E in H
         | E : (?a =? ?b) = ?r |- _ => rewrite (eqb_flip a b r E) in H
         | E : ?f ?r = _ |- _ =>
             lazymatch type of r with reg => rewrite E in H end
         end.

Lemma byte_mod : forall m a, byte m a mod 256 = byte m a.
Proof. intros. unfold byte. apply Z.mod_mod. lia. Qed.

Lemma in_span : forall a n i, (i < n)%nat -> In (a + Z.of_nat i) (span a n).
Proof.
  intros. unfold span. apply (in_map (fun i => a + Z.of_nat i)). apply in_seq. lia.
Qed.

Lemma in_memcpy : forall m dst src n i, (i < n)%nat ->
  In (dst + Z.of_nat i, byte m (src + Z.of_nat i)) (memcpy_bytes m dst src n).
Proof.
  intros. unfold memcpy_bytes.
  apply (in_map (fun i => (dst + Z.of_nat i, byte m (src + Z.of_nat i)))). apply in_seq. lia.
Qed.

Lemma incl_memcpy : forall m dst src n w,
  (forall i, (i < n)%nat -> In (dst + Z.of_nat i, byte m (src + Z.of_nat i)) w) ->
  incl (memcpy_bytes m dst src n) w.
Proof.
  unfold memcpy_bytes. intros m dst src n w H x Hx.
  apply in_map_iff in Hx. destruct Hx as (i & <- & Hi). apply in_seq in Hi. apply H. lia.
Qed.

(** After copying byte [i] of an ascending copy. *)
Lemma copied_up : forall m dst src i w,
  (forall j, (j < i)%nat -> In (dst + Z.of_nat j, byte m (src + Z.of_nat j)) w) ->
  forall j, (j < S i)%nat -> In (dst + Z.of_nat j, byte m (src + Z.of_nat j))
    (w ++ [(dst + Z.of_nat i, byte m (src + Z.of_nat i) mod 256)]).
Proof.
  intros. apply in_or_app. destruct (Nat.eq_dec j i) as [->|].
  - right. left. now rewrite byte_mod.
  - left. apply H. lia.
Qed.

(** The same for a descending copy: bytes [n .. len-1] are copied. *)
Lemma copied_down : forall m dst src n len w,
  (forall j, (S n <= j < len)%nat -> In (dst + Z.of_nat j, byte m (src + Z.of_nat j)) w) ->
  forall j, (n <= j < len)%nat -> In (dst + Z.of_nat j, byte m (src + Z.of_nat j))
    (w ++ [(dst + Z.of_nat n, byte m (src + Z.of_nat n) mod 256)]).
Proof.
  intros. apply in_or_app. destruct (Nat.eq_dec j n) as [->|].
  - right. left. now rewrite byte_mod.
  - left. apply H. lia.
Qed.

Lemma wmod_pos : forall g, 0 < wmod g.
Proof. intros. unfold wmod. apply Z.pow_pos_nonneg; lia. Qed.

Lemma wrap_small : forall g x, 0 <= x < wmod g -> wrap g x = x.
Proof. intros. unfold wrap. now apply Z.mod_small. Qed.

(** Use the recorded comparisons in the goal. *)
Ltac rew_goal :=
  repeat match goal with
         | E : (?a =? ?b) = _ |- _ => rewrite E
         end.

Ltac incl_tac :=
  first [ apply incl_nil_l | apply incl_refl
        | (apply incl_memcpy; assumption)
        | (let x := fresh in intros x [<- | []]; apply in_or_app; right; apply in_span; lia)
        | (let x := fresh in intros x [<- | []]; rewrite byte_mod; apply in_memcpy; lia)
        | apply incl_appl; incl_tac | apply incl_appr; incl_tac
        | (let x := fresh in let h := fresh in
           intros x h; cbn in h |- *; repeat rewrite in_app_iff in *; tauto) ].

Ltac foot_tac :=
  unfold attempts, read_foot, pseudo; cbn [c_op eff_wr]; rew_goal;
  cbv beta iota zeta; incl_tac.

Ltac wr_tac :=
  first [ exact Logic.I
        | eexists; eexists; split;
          [unfold pseudo; cbn [c_op]; rew_goal; cbv beta iota zeta; reflexivity | incl_tac] ].

Ltac ff_tac :=
  unfold fail_fast; cbn [r_rd c_op one_compare];
  first [ (intros _ _; right; reflexivity) | (intros _ _; left; reflexivity)
        | (let h := fresh in intros h; discriminate h)
        | (let h := fresh in intros _ h; exfalso; unfold pseudo in h; cbn [c_op] in h; rew_in h;
           cbv beta iota zeta in h; discriminate h) ].

Ltac idx_tac :=
  match goal with
  | E : (?i =? ?x) = true |- ?i = cpuarg _ => exact (proj1 (Z.eqb_eq _ _) E)
  | E : (?i =? ?x) = false |- ?i <> cpuarg _ => exact (proj1 (Z.eqb_neq _ _) E)
  end.

(** One instruction that stays in the sequence, leaves it by failing or
    aborting, or commits. *)
Ltac sym_step :=
  lazymatch goal with
  | |- Safe ?g ?P ?c ?m ?idx _ {| r_pc := ?pc; r_rs := ?rs; r_rd := _; r_w := _ |} =>
    let r := eval vm_compute in (nth_error (code P) pc) in
    lazymatch r with
    | Some ?i =>
      let H := fresh "Hstep" in
      assert (H : istep g P m idx pc rs = exec1 g m idx pc rs i)
        by (refine (istep_exec1 g P m idx pc rs i _ _ eq_refl); vm_compute; reflexivity);
      let e := fresh "e" in let He := fresh "He" in
      remember (exec1 g m idx pc rs i) as e eqn:He;
      regs_in He; rew_in He; cbn [Z.eqb Pos.eqb] in He;
      repeat match type of He with
             | context [?x + ldw ?g' ?m' ?a'] => rewrite (Z.add_comm x (ldw g' m' a')) in He
             end;
      subst e;
      first
        [ eapply Safe_in;
          [ nat_lt | exact H | nat_lt | reflexivity
          | first [left; nat_le | right; idx_tac]
          | first [left; split; reflexivity | right; idx_tac]
          | foot_tac | wr_tac | ff_tac | clear H; unfold rnext; cbn [r_pc r_rs r_rd r_w app eff_wr]; rewrite ?app_nil_r ]
        | eapply Safe_commit;
          [ split; [nat_le | nat_lt] | exact H | idx_tac | foot_tac
          | unfold pseudo; cbn [c_op]; rew_goal; cbv beta iota zeta; reflexivity
          | cbn [r_w]; incl_tac ]
        | eapply Safe_fail;
          [ split; [nat_le | nat_lt] | exact H | nat_le | vm_compute; reflexivity | idx_tac
          | unfold pseudo; cbn [c_op]; rew_goal; reflexivity ]
        | eapply Safe_abort;
          [ split; [nat_le | nat_lt] | nat_le | exact H | nat_le | vm_compute; reflexivity
          | idx_tac ] ]
    end
  end.

Ltac sym_start :=
  let Hwf := fresh "Hwf" in
  intros [code op cpu md0] m idx junk Hkd Hwf; destruct op; try discriminate Hkd;
  cbn [c_op c_cpu c_mode c_code] in *; unfold step_bound, rinit; cbn [op_len c_op];
  unfold cpuarg in *; cbn [c_cpu] in *;
  destruct (idx =? cpu mod 2 ^ 32) eqn:?E.

(** Case analysis on the comparisons the pseudo-code makes. *)
Ltac sym_cases :=
  try match goal with
      | |- Safe ?g _ {| c_code := _; c_op := ?op; c_cpu := _; c_mode := _ |} ?m _ _ _ =>
        lazymatch op with
        | CbneStore ?v ?e _ => destruct (ldw g m v =? e) eqn:?E
        | CbeqStoreAddLoadStore ?v ?e _ _ => destruct (ldw g m v =? e) eqn:?E
        | CbneStoreStore ?v ?e _ _ _ => destruct (ldw g m v =? e) eqn:?E
        | CbneMemcpyStore ?v ?e _ _ _ _ => destruct (ldw g m v =? e) eqn:?E
        | CbneLoadCbneStore ?v ?e ?v2 ?e2 _ =>
            destruct (ldw g m v =? e) eqn:?E; destruct (ldw g m v2 =? e2) eqn:?E
        end
      end.

(** Straight-line sequences. *)
Ltac sym_run := sym_start; sym_cases; cbn [Nat.add Nat.mul]; repeat sym_step.

(** Values of the registers of a state built by the steps. *)
Ltac reg_val :=
  unfold setr; cbn [reg_eqb reg_id Nat.eqb init_regs arg c_op c_cpu];
  try assumption; try reflexivity; try lia.

(** Case split for memcpy before running: empty copy, or at least one byte. *)
Ltac memcpy_cases :=
  sym_start; sym_cases;
  try match goal with
      | E : (_ =? _ mod _) = true, E0 : (ldw _ _ _ =? _) = true |- _ =>
        match goal with Hwf : _ = _ -> op_wf _ (CbneMemcpyStore _ _ ?dst ?src ?len _) ?m |- _ =>
          destruct (proj2 (Hwf (proj1 (Z.eqb_eq _ _) E)) (proj1 (Z.eqb_eq _ _) E0)) as (? & ? & ? & ?);
          destruct len as [|len];
          [ assert ((Z.of_nat 0 =? 0) = true) by reflexivity;
            assert (forall j, (j < 0)%nat -> In (dst + Z.of_nat j, byte m (src + Z.of_nat j)) [])
              by (intros; lia)
          | assert ((Z.of_nat (S len) =? 0) = false) by (apply Z.eqb_neq; lia) ]
        end
      end; cbn [Nat.add].
