(** Definitions used in the statement of C52. *)
From Coq Require Import ZArith Bool List.
From Verif Require Import RseqIR RseqSpec RseqKernel.
Import ListNotations.
Local Open Scope Z_scope.

Section Race.
Variable Loc : Type.
Notation state := (state Loc).

(** In state [s], the next instruction of thread [t], which runs, belongs to its
    call [c] and reads ([w] = false) or writes ([w] = true) the byte at [x]. *)
Definition touches (g : cfg) (tx : text) (s : state) (t : nat) (c : call) (w : bool) (x : Z) : Prop :=
  running _ (s_thr _ s t) /\
  exists l f k P kd pc' rs' e rd,
    t_ctx _ (s_thr _ s t) = {| x_loc := l; x_act := Some f |} :: k /\ f_call f = c /\
    tx (c_code c) = Some (P, kd) /\
    istep g P (s_mem _ s) (index (t_area _ (s_thr _ s t)) (pmode P)) (f_pc f) (f_rs f) = Some (pc', rs', e, rd) /\
    if w then exists ps, e = EWr ps /\ In x (map fst ps) else In x rd.

(** Thread [t] runs on CPU (or with mm_cid) number [i]. *)
Definition holds (s : state) (md : imode) (i : Z) (t : nat) : Prop := on_index (t_on _ (s_thr _ s t)) md = Some i.

(** Between [s1] and [s2], [t] is switched out from CPU (mm_cid) [i], and after that
    [u] is switched in there. *)
Definition switched (g : cfg) (tx : text) (cl : client Loc) (s1 : state) (tr : list (state * clabel)) (s2 : state)
    (md : imode) (i : Z) (t u : nat) : Prop :=
  exists A sp lp sp' B sr lr sr' D,
    tr = A ++ (sp, lp) :: B ++ (sr, lr) :: D /\
    path Loc g tx cl s1 A sp /\ step Loc g tx cl sp lp sp' /\
    path Loc g tx cl sp' B sr /\ step Loc g tx cl sr lr sr' /\ path Loc g tx cl sr' D s2 /\
    holds sp md i t /\ t_on _ (s_thr _ sp' t) = None /\
    t_on _ (s_thr _ sr u) = None /\ holds sr' md i u.
End Race.
