(** The exit points that the helpers record for debuggers: a check on the branches
    of every helper, and its soundness. *)
From Coq Require Import ZArith Bool List Lia Arith.
From Verif Require Import RseqIR RseqSpec RseqKernel Archs RseqKeep.
Import ListNotations.
Local Open Scope nat_scope.

(** ** Specification *)
(** The thread is in the critical section. *)
Definition inside (P : program) (pc : nat) : Prop := cs_start P <= pc < cs_commit P.
(** What a debugger knows: the post-commit and abort addresses of the descriptor
    and the recorded exit points. *)
Definition known_exits (P : program) : list nat := cs_commit P :: cs_abort P :: cs_exits P.
(** The thread goes from [pc] to [pc'], whatever is in memory and whichever CPU it
    runs on, possibly interrupted, and meets none of [D] on its way. *)
Inductive unseen (g : cfg) (P : program) (D : list nat) (pc : nat) (rs : regs) : nat -> regs -> Prop :=
| un_here : unseen g P D pc rs pc rs
| un_step m idx pc1 rs1 pc2 rs2 e rd : unseen g P D pc rs pc1 rs1 -> istep g P m idx pc1 rs1 = Some (pc2, rs2, e, rd) ->
    ~ In pc2 D -> unseen g P D pc rs pc2 rs2
| un_abort pc1 rs1 : unseen g P D pc rs pc1 rs1 -> inside P pc1 -> ~ In (cs_abort P) D -> unseen g P D pc rs (cs_abort P) rs1.

(** ** The check *)
Definition mem_nat (n : nat) (l : list nat) : bool := existsb (Nat.eqb n) l.
Lemma mem_nat_in : forall n l, mem_nat n l = true <-> In n l.
Proof.
  intros n l. unfold mem_nat. rewrite existsb_exists. split.
  - intros (x & Hx & E). apply Nat.eqb_eq in E. now subst.
  - intros H. exists n. split; auto. apply Nat.eqb_refl.
Qed.
Definition inb (P : program) (pc : nat) : bool := (cs_start P <=? pc) && (pc <? cs_commit P).
Lemma inb_ok : forall P pc, inb P pc = true <-> inside P pc.
Proof. intros P pc. unfold inb, inside. rewrite andb_true_iff, Nat.leb_le, Nat.ltb_lt. tauto. Qed.
Definition nexts (P : program) (pc : nat) : list nat :=
  (if inb P pc then [cs_abort P] else []) ++ match nth_error (code P) pc with Some i => succs i pc | None => [] end.
(** The addresses that can be reached, depth first. *)
Fixpoint closure (n : nat) (P : program) (D work A : list nat) : list nat :=
  match n, work with
  | S n, pc :: work => if mem_nat pc A || mem_nat pc D then closure n P D work A else closure n P D (nexts P pc ++ work) (pc :: A)
  | _, _ => A
  end.
Definition closed (P : program) (D A : list nat) : bool :=
  forallb (fun pc => forallb (fun n => mem_nat n A || mem_nat n D) (nexts P pc)) A.
Definition is_exit (P : program) (pc : nat) : bool := match nth_error (code P) pc with Some (IExit _) => true | _ => false end.

Lemma step_nexts : forall g P m idx pc rs pc' rs' e rd, istep g P m idx pc rs = Some (pc', rs', e, rd) -> In pc' (nexts P pc).
Proof.
  intros g P m idx pc rs pc' rs' e rd H. unfold nexts. apply in_or_app. right. unfold istep in H.
  destruct (nth_error (code P) pc) as [i|]; [|discriminate H].
  destruct i; try discriminate H; injection H as <- <- <- <-; cbn [succs];
    repeat match goal with |- context [if ?b then _ else _] => destruct b end; cbn; auto.
Qed.
Lemma closed_unseen : forall g P D A, closed P D A = true -> forall pc rs, In pc A ->
  forall pc' rs', unseen g P D pc rs pc' rs' -> In pc' A.
Proof.
  intros g P D A Hc pc rs Hin pc' rs' Hu. unfold closed in Hc. rewrite forallb_forall in Hc.
  assert (K : forall a n, In a A -> In n (nexts P a) -> ~ In n D -> In n A).
  { intros a n Ha Hn Hd. specialize (Hc a Ha). rewrite forallb_forall in Hc. specialize (Hc n Hn).
    apply orb_prop in Hc. destruct Hc as [Hc|Hc]; apply mem_nat_in in Hc; [exact Hc|contradiction]. }
  induction Hu as [|m idx pc1 rs1 pc2 rs2 e rd Hu IH Hs Hd|pc1 rs1 Hu IH Hi Hd]; auto.
  - exact (K _ _ IH (step_nexts _ _ _ _ _ _ _ _ _ _ Hs) Hd).
  - apply (K _ _ IH); auto. unfold nexts. apply inb_ok in Hi. rewrite Hi. now left.
Qed.

(** From the section, no way out of the helper that misses the known exits. *)
Definition section_pcs (P : program) : list nat := seq (cs_start P) (cs_commit P - cs_start P).
Definition guarded (P : program) : bool :=
  let A := closure (4 * length (code P)) P (known_exits P) (section_pcs P) [] in
  forallb (fun pc => mem_nat pc A) (section_pcs P) && closed P (known_exits P) A && forallb (fun pc => negb (is_exit P pc)) A.
(** Each branch out of the section goes to a known exit. *)
Definition direct (P : program) : bool :=
  forallb (fun pc => match nth_error (code P) pc with
    | Some i => forallb (fun n => inb P n || mem_nat n (known_exits P)) (succs i pc) | None => true end) (section_pcs P).
(** The recorded exits are results other than success; the helper gives such results
    at recorded exits only. *)
Definition exit_at (P : program) (pc : nat) : option exit := match nth_error (code P) pc with Some (IExit x) => Some x | _ => None end.
Definition failing (x : option exit) : bool := match x with Some XNe | Some XBug => true | _ => false end.
Definition exact_exits (P : program) : bool :=
  let A := closure (4 * length (code P)) P [] [0] [] in
  mem_nat 0 A && closed P [] A &&
  forallb (fun d => failing (exit_at P d) && mem_nat d A && negb (inb P d)) (cs_exits P) &&
  forallb (fun pc => negb (failing (exit_at P pc)) || mem_nat pc (cs_exits P)) A.
(** The copies whose teardown restores the operands at labels of their own. *)
Definition with_teardown (a : arch) (kd : kind) : bool :=
  match kd, a with KMemcpy, (X86_64 | LOONGARCH | MIPS | S390) => true | _, _ => false end.
Definition exits_checked (a : arch) (kd : kind) (P : program) : bool :=
  guarded P && exact_exits P && (with_teardown a kd || direct P).
Definition all_exits : bool :=
  forallb (fun a => forallb (fun k => forallb (fun tw => forallb (fun rel => forallb (fun md =>
    match helper a tw rel md k with Some P => exits_checked a k P | None => true end)
    [CPU_ID; MM_CID]) [true; false]) [true; false]) kinds) archs.
Lemma all_exits_ok : all_exits = true.
Proof. vm_compute. reflexivity. Qed.
Lemma helper_exits : forall a tw rel md kd P, helper a tw rel md kd = Some P -> exits_checked a kd P = true.
Proof.
  intros a tw rel md kd P H. pose proof all_exits_ok as A. unfold all_exits in A.
  rewrite forallb_forall in A. specialize (A a ltac:(destruct a; cbn; tauto)).
  rewrite forallb_forall in A. specialize (A kd ltac:(destruct kd; cbn; tauto)).
  rewrite forallb_forall in A. specialize (A tw ltac:(destruct tw; cbn; tauto)).
  rewrite forallb_forall in A. specialize (A rel ltac:(destruct rel; cbn; tauto)).
  rewrite forallb_forall in A. specialize (A md ltac:(destruct md; cbn; tauto)).
  rewrite H in A. exact A.
Qed.

(** ** What it means *)
Lemma section_in : forall P pc, inside P pc -> In pc (section_pcs P).
Proof. intros P pc H. unfold inside in H. unfold section_pcs. apply in_seq. lia. Qed.

Lemma stopped : forall g a tw rel md kd P, helper a tw rel md kd = Some P -> forall pc rs, inside P pc ->
  forall pc' rs', unseen g P (known_exits P) pc rs pc' rs' -> exit_at P pc' = None.
Proof.
  intros g a tw rel md kd P H pc rs Hi pc' rs' Hu. pose proof (helper_exits _ _ _ _ _ _ H) as C.
  unfold exits_checked in C. apply andb_prop in C. destruct C as [C _]. apply andb_prop in C. destruct C as [C _].
  unfold guarded in C. apply andb_prop in C. destruct C as [C C3]. apply andb_prop in C. destruct C as [C1 C2].
  rewrite forallb_forall in C1, C3. specialize (C1 pc (section_in P pc Hi)). apply mem_nat_in in C1.
  pose proof (closed_unseen g P _ _ C2 pc rs C1 pc' rs' Hu) as K. specialize (C3 pc' K).
  unfold is_exit in C3. unfold exit_at. destruct (nth_error (code P) pc') as [[]|]; auto. discriminate C3.
Qed.

Lemma branches : forall g a tw rel md kd P, helper a tw rel md kd = Some P -> with_teardown a kd = false ->
  forall m idx pc rs pc' rs' e rd, inside P pc -> istep g P m idx pc rs = Some (pc', rs', e, rd) ->
  inside P pc' \/ In pc' (known_exits P).
Proof.
  intros g a tw rel md kd P H Ht m idx pc rs pc' rs' e rd Hi Hs. pose proof (helper_exits _ _ _ _ _ _ H) as C.
  unfold exits_checked in C. rewrite Ht in C. apply andb_prop in C. destruct C as [_ C]. cbn [orb] in C.
  unfold direct in C. rewrite forallb_forall in C. specialize (C pc (section_in P pc Hi)).
  unfold istep in Hs. destruct (nth_error (code P) pc) as [i|] eqn:Ei; [|discriminate Hs].
  rewrite forallb_forall in C.
  assert (K : In pc' (succs i pc)).
  { destruct i; try discriminate Hs; injection Hs as <- <- <- <-; cbn [succs];
    repeat match goal with |- context [if ?b then _ else _] => destruct b end; cbn; auto. }
  specialize (C pc' K). apply orb_prop in C. destruct C as [C|C]; [left; now apply inb_ok|right; now apply mem_nat_in].
Qed.

Lemma run_unseen : forall g P rs0 pc rs, run_of g P rs0 pc rs -> unseen g P [] 0 rs0 pc rs.
Proof.
  intros g P rs0 pc rs H. induction H as [|m idx pc rs pc' rs' e rd H IH Hs|pc rs H IH Hi].
  - apply un_here.
  - eapply un_step; eauto.
  - apply (un_abort _ _ _ _ _ _ _ IH); auto.
Qed.
Lemma failures_recorded : forall g a tw rel md kd P, helper a tw rel md kd = Some P -> forall rs0 pc rs,
  run_of g P rs0 pc rs -> exit_at P pc = Some XNe \/ exit_at P pc = Some XBug -> In pc (cs_exits P).
Proof.
  intros g a tw rel md kd P H rs0 pc rs Hr Hx. pose proof (helper_exits _ _ _ _ _ _ H) as C.
  unfold exits_checked in C. apply andb_prop in C. destruct C as [C _]. apply andb_prop in C. destruct C as [_ C].
  unfold exact_exits in C. apply andb_prop in C. destruct C as [C C4]. apply andb_prop in C. destruct C as [C _].
  apply andb_prop in C. destruct C as [C1 C2]. apply mem_nat_in in C1.
  pose proof (closed_unseen g P _ _ C2 0 rs0 C1 pc rs (run_unseen _ _ _ _ _ Hr)) as K.
  rewrite forallb_forall in C4. specialize (C4 pc K). apply orb_prop in C4. destruct C4 as [C4|C4].
  - destruct Hx as [E|E]; rewrite E in C4; discriminate C4.
  - now apply mem_nat_in.
Qed.
Lemma recorded_fail : forall a tw rel md kd P, helper a tw rel md kd = Some P -> forall d, In d (cs_exits P) ->
  ~ inside P d /\ (exit_at P d = Some XNe \/ exit_at P d = Some XBug).
Proof.
  intros a tw rel md kd P H d Hd. pose proof (helper_exits _ _ _ _ _ _ H) as C.
  unfold exits_checked in C. apply andb_prop in C. destruct C as [C _]. apply andb_prop in C. destruct C as [_ C].
  unfold exact_exits in C. apply andb_prop in C. destruct C as [C _]. apply andb_prop in C. destruct C as [_ C].
  rewrite forallb_forall in C. specialize (C d Hd). apply andb_prop in C. destruct C as [C Ci]. apply andb_prop in C. destruct C as [C _].
  split.
  - intros Hi. apply inb_ok in Hi. rewrite Hi in Ci. discriminate Ci.
  - destruct (exit_at P d) as [[]|]; auto; discriminate C.
Qed.
