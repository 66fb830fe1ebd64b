(** Specification vocabulary for fork and registration (C75). *)
From Coq Require Import ZArith Bool List.
From Verif Require Import RegModel.
Import ListNotations.
Local Open Scope Z_scope.

(** At a fork by [t]: no thread is inside the locked part of the initialisation,
    or the initialisation is complete. *)
Definition settled (s : state) (t : nat) : Prop := owner s = None \/ last (hist s VDone) 0 = 1.

(** The kernel holds a registration for thread [t]. *)
Definition has_registration (s : state) (t : nat) : Prop := kreg s t <> None.
