(** The helpers give back the registers of their input operands: a check on the
    instructions (which register or scratch slot still holds which operand at
    each place), its soundness, and its result for every helper. *)
From Coq Require Import ZArith Bool List Lia Arith.
From Verif Require Import RseqIR RseqSpec RseqKernel Archs.
Import ListNotations.
Local Open Scope nat_scope.

(** The registers of the operands of the asm statements (RseqIR.v: [reg]). *)
Definition inputs : list reg :=
  [Rcpu; Rv; Rexpect; Rnewv; Rexpectnot; Rvoffp; Rload; Rcount; Rptr; Roff; Rinc; Rv2; Rexpect2; Rnewv2; Rdst; Rsrc; Rlen].

(** Where a thread can be in a helper entered with the registers [rs0], whatever
    the other threads do to the memory and wherever the kernel moves the thread:
    an interrupted critical section continues at its abort handler. *)
Inductive run_of (g : cfg) (P : program) (rs0 : regs) : nat -> regs -> Prop :=
| run_start : run_of g P rs0 0 rs0
| run_step m idx pc rs pc' rs' e rd : run_of g P rs0 pc rs -> istep g P m idx pc rs = Some (pc', rs', e, rd) -> run_of g P rs0 pc' rs'
| run_abort pc rs : run_of g P rs0 pc rs -> cs_start P <= pc < cs_commit P -> run_of g P rs0 (cs_abort P) rs.

(** ** The check *)
Definition facts := list (reg * reg).   (* the register holds what the operand held *)
Definition feq (a b : reg * reg) : bool := reg_eqb (fst a) (fst b) && reg_eqb (snd a) (snd b).
Definition has (F : facts) (x : reg * reg) : bool := existsb (feq x) F.
Definition sub (F G : facts) : bool := forallb (has G) F.
Definition drop (d : reg) (F : facts) : facts := filter (fun x => negb (reg_eqb (fst x) d)) F.
Definition moved (d s : reg) (F : facts) : facts :=
  map (fun x => (d, snd x)) (filter (fun x => reg_eqb (fst x) s) F) ++ drop d F.
Definition transfer (i : instr) (F : facts) : facts :=
  match i with
  | IMov d (R s) => moved d s F
  | IMov d (K _) => drop d F
  | ILd d _ | ILdB d _ | IAdd d _ _ | IIdx d => drop d F
  | ICmp _ _ | ICmpM _ _ | ICmpIdx _ => drop ZF F
  | _ => F
  end.
Definition succs (i : instr) (pc : nat) : list nat :=
  match i with
  | IJne l | IJe l | IBne _ _ l | IBeq _ _ l => [S pc; l]
  | IJmp l => [l]
  | ISig => []
  | IExit _ => [pc]
  | _ => [S pc]
  end.
Definition table := list (option facts).
Definition at_ (T : table) (pc : nat) : option facts := nth pc T None.
Definition below (T : table) (F : facts) (pc : nat) : bool :=
  match at_ T pc with Some G => sub G F | None => false end.
(** The operands whose registers the program writes: the others need no facts. *)
Definition target (i : instr) : option reg :=
  match i with
  | IMov d _ | ILd d _ | ILdB d _ | IAdd d _ _ | IIdx d => Some d
  | ICmp _ _ | ICmpM _ _ | ICmpIdx _ => Some ZF
  | _ => None
  end.
Definition writes (r : reg) (i : instr) : bool := match target i with Some d => reg_eqb r d | None => false end.
Definition touched (P : program) : list reg := filter (fun r => existsb (writes r) (code P)) inputs.
Definition exit_ok (l : list reg) (i : instr) (F : facts) : bool :=
  match i with IExit _ => forallb (fun r => has F (r, r)) l | _ => true end.
Definition check_at (l : list reg) (P : program) (T : table) (pc : nat) : bool :=
  match at_ T pc with
  | None => true
  | Some F =>
    (if (cs_start P <=? pc) && (pc <? cs_commit P) then below T F (cs_abort P) else true) &&
    match nth_error (code P) pc with
    | None => true
    | Some i => exit_ok l i F && forallb (below T (transfer i F)) (succs i pc)
    end
  end.
Definition start_facts (l : list reg) : facts := map (fun r => (r, r)) l.
Definition check (l : list reg) (P : program) (T : table) : bool :=
  below T (start_facts l) 0 && forallb (check_at l P T) (seq 0 (length T)).

(** Finding the table: propagate from the entry, as often as there are instructions. *)
Definition meet (T : table) (pc : nat) (F : facts) : table :=
  firstn pc T ++ (match at_ T pc with
                  | None => Some F
                  | Some G => Some (filter (has F) G)
                  end) :: skipn (S pc) T.
Definition round1 (P : program) (T : table) (pc : nat) : table :=
  match at_ T pc with
  | None => T
  | Some F =>
    let T := if (cs_start P <=? pc) && (pc <? cs_commit P) then meet T (cs_abort P) F else T in
    match nth_error (code P) pc with
    | None => T
    | Some i => fold_left (fun T p => meet T p (transfer i F)) (succs i pc) T
    end
  end.
Definition rounds (l : list reg) (P : program) (n : nat) : table :=
  Nat.iter n (fun T => fold_left (round1 P) (seq 0 (length (code P))) T)
    (Some (start_facts l) :: repeat None (length (code P))).

(** ** Soundness *)
Definition holds (F : facts) (rs0 rs : regs) : Prop := forall r s, In (r, s) F -> rs r = rs0 s.

Lemma reg_eqb_eq : forall a b, reg_eqb a b = true <-> a = b.
Proof.
  intros a b. unfold reg_eqb. rewrite Nat.eqb_eq. split; [|intros ->; reflexivity].
  destruct a, b; cbn; intros H; try reflexivity; discriminate H.
Qed.
Lemma has_in : forall F x, has F x = true -> In x F.
Proof.
  intros F [a b] H. apply existsb_exists in H. destruct H as ([c d] & Hin & H). unfold feq in H. cbn in H.
  apply andb_prop in H. destruct H as [H1 H2]. apply reg_eqb_eq in H1, H2. now subst.
Qed.
Lemma sub_holds : forall F G rs0 rs, sub F G = true -> holds G rs0 rs -> holds F rs0 rs.
Proof.
  intros F G rs0 rs H HG r s Hin. apply HG. apply has_in. unfold sub in H. rewrite forallb_forall in H. now apply H.
Qed.
Lemma drop_holds : forall d v F rs0 rs, holds F rs0 rs -> holds (drop d F) rs0 (setr rs d v).
Proof.
  intros d v F rs0 rs H r s Hin. apply filter_In in Hin. destruct Hin as [Hin E]. cbn in E. unfold setr.
  destruct (reg_eqb r d); [discriminate|]. now apply H.
Qed.
Lemma moved_holds : forall d s F rs0 rs, holds F rs0 rs -> holds (moved d s F) rs0 (setr rs d (rs s)).
Proof.
  intros d s F rs0 rs H r q Hin. unfold moved in Hin. apply in_app_or in Hin. destruct Hin as [Hin|Hin].
  - apply in_map_iff in Hin. destruct Hin as ([a b] & E & Hin). apply filter_In in Hin. destruct Hin as [Hin E2].
    cbn in *. injection E as <- <-. apply reg_eqb_eq in E2. subst a. unfold setr.
    replace (reg_eqb d d) with true by (symmetry; now apply reg_eqb_eq). now apply H.
  - exact (drop_holds d (rs s) F rs0 rs H r q Hin).
Qed.

Lemma step_facts : forall g P m idx pc rs pc' rs' e rd i F rs0,
  nth_error (code P) pc = Some i -> istep g P m idx pc rs = Some (pc', rs', e, rd) -> holds F rs0 rs ->
  holds (transfer i F) rs0 rs' /\ In pc' (succs i pc).
Proof.
  intros g P m idx pc rs pc' rs' e rd i F rs0 Hi Hs HF. unfold istep in Hs. rewrite Hi in Hs.
  destruct i; try discriminate Hs; injection Hs as <- <- <- <-; cbn [transfer succs];
    try (split; [try apply drop_holds; exact HF|now left]).
  - destruct s as [r|z]; cbn [val]; (split; [|now left]); [now apply moved_holds|now apply drop_holds].
  - split; [exact HF|]. destruct (rs ZF =? 0)%Z; cbn; auto.
  - split; [exact HF|]. destruct (rs ZF =? 0)%Z; cbn; auto.
  - split; [exact HF|]. destruct (val rs a =? val rs b)%Z; cbn; auto.
  - split; [exact HF|]. destruct (val rs a =? val rs b)%Z; cbn; auto.
Qed.

Lemma at_bound : forall T pc F, at_ T pc = Some F -> In pc (seq 0 (length T)).
Proof.
  intros T pc F H. apply in_seq. split; [lia|]. cbn. destruct (Nat.lt_ge_cases pc (length T)) as [|Hge]; auto.
  unfold at_ in H. rewrite nth_overflow in H; [discriminate|auto].
Qed.
Lemma check_sound : forall g l P T rs0, check l P T = true -> forall pc rs, run_of g P rs0 pc rs ->
  exists F, at_ T pc = Some F /\ holds F rs0 rs.
Proof.
  intros g l P T rs0 Hc. unfold check in Hc. apply andb_prop in Hc. destruct Hc as [H0 Hc]. rewrite forallb_forall in Hc.
  intros pc rs Hr. induction Hr as [|m idx pc rs pc' rs' e rd Hr IH Hs|pc rs Hr IH Hcs].
  - unfold below in H0. destruct (at_ T 0) as [G|]; [|discriminate]. exists G. split; auto. eapply sub_holds; [exact H0|].
    intros r s Hin. apply in_map_iff in Hin. destruct Hin as (x & E & _). injection E as <- <-. reflexivity.
  - destruct IH as (F & EF & HF). pose proof (Hc _ (at_bound _ _ _ EF)) as Hk. unfold check_at in Hk. rewrite EF in Hk.
    apply andb_prop in Hk. destruct Hk as [_ Hk].
    destruct (nth_error (code P) pc) as [i|] eqn:Ei; [|unfold istep in Hs; rewrite Ei in Hs; discriminate].
    apply andb_prop in Hk. destruct Hk as [_ Hk]. destruct (step_facts _ _ _ _ _ _ _ _ _ _ i F rs0 Ei Hs HF) as [HF' Hin].
    rewrite forallb_forall in Hk. specialize (Hk _ Hin). unfold below in Hk. destruct (at_ T pc') as [G|]; [|discriminate].
    exists G. split; auto. eapply sub_holds; eauto.
  - destruct IH as (F & EF & HF). pose proof (Hc _ (at_bound _ _ _ EF)) as Hk. unfold check_at in Hk. rewrite EF in Hk.
    apply andb_prop in Hk. destruct Hk as [Hk _].
    replace ((cs_start P <=? pc) && (pc <? cs_commit P)) with true in Hk
      by (symmetry; apply andb_true_intro; split; [apply Nat.leb_le|apply Nat.ltb_lt]; lia).
    unfold below in Hk. destruct (at_ T (cs_abort P)) as [G|]; [|discriminate]. exists G. split; auto. eapply sub_holds; eauto.
Qed.

Lemma check_keeps : forall g l P T rs0, check l P T = true -> forall pc rs, run_of g P rs0 pc rs ->
  forall x, nth_error (code P) pc = Some (IExit x) -> forall r, In r l -> rs r = rs0 r.
Proof.
  intros g l P T rs0 Hc pc rs Hr x Hi r Hin. destruct (check_sound g l P T rs0 Hc pc rs Hr) as (F & EF & HF).
  unfold check in Hc. apply andb_prop in Hc. destruct Hc as [_ Hc]. rewrite forallb_forall in Hc.
  pose proof (Hc _ (at_bound _ _ _ EF)) as Hk. unfold check_at in Hk. rewrite EF, Hi in Hk.
  apply andb_prop in Hk. destruct Hk as [_ Hk]. apply andb_prop in Hk. destruct Hk as [Hk _].
  cbn [exit_ok] in Hk. rewrite forallb_forall in Hk. apply HF. apply has_in. now apply Hk.
Qed.

(** Registers that no instruction writes keep their values. *)
Lemma untouched : forall g P rs0 r, existsb (writes r) (code P) = false -> forall pc rs, run_of g P rs0 pc rs -> rs r = rs0 r.
Proof.
  intros g P rs0 r Hw pc rs Hr. induction Hr as [|m idx pc rs pc' rs' e rd Hr IH Hs|]; auto.
  unfold istep in Hs. destruct (nth_error (code P) pc) as [i|] eqn:Ei; [|discriminate Hs].
  assert (Hi : writes r i = false).
  { destruct (writes r i) eqn:E; auto. rewrite <- Hw. symmetry. apply existsb_exists. exists i. split; auto. now apply nth_error_In in Ei. }
  unfold writes in Hi. destruct i; try discriminate Hs; injection Hs as <- <- <- <-; auto; cbn [target] in Hi; unfold setr; rewrite Hi; exact IH.
Qed.

(** ** Every helper *)
Definition checked (P : program) : bool := let l := touched P in check l P (rounds l P 2).
Definition kinds : list kind := [KCbneStore; KAddStore; KPop; KAddLoadLoad; KCbne2; KStoreStore; KMemcpy].
Definition archs : list arch := [X86_64; I386; AARCH64; ARM; LOONGARCH; MIPS; PPC; RISCV; S390].
Definition all_checked : bool :=
  forallb (fun a => forallb (fun k => forallb (fun tw => forallb (fun rel => forallb (fun md =>
    match helper a tw rel md k with Some P => checked P | None => true end)
    [CPU_ID; MM_CID]) [true; false]) [true; false]) kinds) archs.
Lemma all_ok : all_checked = true.
Proof. vm_compute. reflexivity. Qed.
Lemma helper_checked : forall a tw rel md kd P, helper a tw rel md kd = Some P -> checked P = true.
Proof.
  intros a tw rel md kd P H. pose proof all_ok as A. unfold all_checked in A.
  rewrite forallb_forall in A. specialize (A a ltac:(destruct a; cbn; tauto)).
  rewrite forallb_forall in A. specialize (A kd ltac:(destruct kd; cbn; tauto)).
  rewrite forallb_forall in A. specialize (A tw ltac:(destruct tw; cbn; tauto)).
  rewrite forallb_forall in A. specialize (A rel ltac:(destruct rel; cbn; tauto)).
  rewrite forallb_forall in A. specialize (A md ltac:(destruct md; cbn; tauto)).
  rewrite H in A. exact A.
Qed.

Lemma helpers_keep_operands : forall g a tw rel md kd P rs0 pc rs x, helper a tw rel md kd = Some P ->
  run_of g P rs0 pc rs -> nth_error (code P) pc = Some (IExit x) -> forall r, In r inputs -> rs r = rs0 r.
Proof.
  intros g a tw rel md kd P rs0 pc rs x H Hr Hx r Hin. destruct (existsb (writes r) (code P)) eqn:E.
  - apply (check_keeps g (touched P) P _ rs0 (helper_checked _ _ _ _ _ _ H) pc rs Hr x Hx r). apply filter_In. auto.
  - exact (untouched g P rs0 r E pc rs Hr).
Qed.
