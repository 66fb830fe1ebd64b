(** When C can subtract two words taken as signed numbers. *)
From Coq Require Import ZArith.
Local Open Scope Z_scope.

(** The value of a word of [bits] bits read as a signed number (two's complement). *)
Definition as_signed (bits x : Z) : Z := (x + 2 ^ (bits - 1)) mod 2 ^ bits - 2 ^ (bits - 1).
(** The difference is a signed number of [bits] bits; otherwise subtracting is undefined. *)
Definition subtractable (bits x y : Z) : Prop :=
  - 2 ^ (bits - 1) <= as_signed bits x - as_signed bits y < 2 ^ (bits - 1).
