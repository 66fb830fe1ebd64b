(** Definitions used in the statements of C04, C08 and C19. *)
From Coq Require Import ZArith Bool List.
From Verif Require Import RseqIR RseqSpec RseqKernel RseqSafe.
Import ListNotations.
Local Open Scope Z_scope.

(** Memory orders a helper supports: relaxed (0) for all, and release (3) for
    the two store-store helpers (include/rseq/rseq.h:28-33). *)
Definition supported_mo (op : opcall) (mo : Z) : bool :=
  match kind_of op with
  | KStoreStore | KMemcpy => (mo =? 0) || (mo =? 3)
  | _ => mo =? 0
  end.

Section Props.
Variable Loc : Type.
Notation state := (state Loc).

(** Thread [t] is inside call [c], past the comparison of the index field with
    the cpu argument and not yet past the committing store. *)
Definition in_window (tx : text) (s : state) (t : nat) (c : call) : Prop :=
  exists l f k P kd, t_ctx _ (s_thr _ s t) = {| x_loc := l; x_act := Some f |} :: k /\
    f_call f = c /\ tx (c_code c) = Some (P, kd) /\ (check_pc P < f_pc f < cs_commit P)%nat.

(** Anywhere in the critical section. *)
Definition in_section (tx : text) (f : frame) : Prop :=
  exists P kd, tx (c_code (f_call f)) = Some (P, kd) /\ (cs_start P <= f_pc f < cs_commit P)%nat.

(** A step unloads code only if no thread's area points to its descriptor
    (rseq_prepare_unload(), include/rseq/rseq.h:216-231). *)
Definition unload_ok (s s' : state) : Prop :=
  forall id, s_loaded _ s id = true -> s_loaded _ s' id = false ->
    forall t, rseq_cs (t_area _ (s_thr _ s t)) <> Some id.

Inductive careful_exec (g : cfg) (tx : text) (cl : client Loc) : state -> list clabel -> state -> Prop :=
  | careful_nil : forall s, careful_exec g tx cl s [] s
  | careful_snoc : forall s ls s' l s'', careful_exec g tx cl s ls s' -> step Loc g tx cl s' l s'' ->
      call_ok _ s' l -> unload_ok s' s'' -> careful_exec g tx cl s (ls ++ [l]) s''.

(** In the run [tr] from [s] to [s'], thread [t] calls rseq_prepare_unload()
    outside of code [id] and does not call code [id] again. *)
Definition prepared_in (g : cfg) (tx : text) (cl : client Loc) (s : state) (tr : list (state * clabel))
    (s' : state) (t id : nat) : Prop :=
  exists tr1 sc tr2, path Loc g tx cl s tr1 sc /\
    (forall x, In x (t_ctx _ (s_thr _ sc t)) -> ~ in_code _ id x) /\
    path Loc g tx cl (set_t _ sc t (set_cs _ (s_thr _ sc t) None)) tr2 s' /\
    tr = tr1 ++ (sc, Ltau) :: tr2 /\
    forall sx c, In (sx, Lcall t c) tr2 -> c_code c <> id.

(** Runs in which unregistered threads may pass any cpu argument. *)
Inductive steps (g : cfg) (tx : text) (cl : client Loc) : state -> list clabel -> state -> Prop :=
  | steps_nil : forall s, steps g tx cl s [] s
  | steps_cons : forall s l s' ls s'', step Loc g tx cl s l s' -> steps g tx cl s' ls s'' ->
      steps g tx cl s (l :: ls) s''.
End Props.
