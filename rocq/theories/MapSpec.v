(** The notions in which C71 is stated. *)
From Coq Require Import ZArith Bool List.
From Verif Require Import MapModel.
Local Open Scope Z_scope.

(** The memory that a call is about. *)
Definition concerns (c : call) : option (Z * Z) :=
  match c with CUnmap a n | CFixed a n | CAdvise a n | CTouch a n => Some (a, n) | CMmap _ | CCall => None end.
(** The range [g] is about to make this call. *)
Definition about_to (w : mworld) (g : Z) (c : call) : Prop := exists k, w_prog w g = Some (PSys c k).
(** The bytes of the range [g] are exactly these. *)
Definition has_exactly (w : mworld) (g a n : Z) : Prop := forall x, w_owner w x = Some g <-> a <= x < a + n.
