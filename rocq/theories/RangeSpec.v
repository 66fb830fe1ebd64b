(** The notions in which C70 is stated. *)
From Coq Require Import ZArith Bool List.
From Verif Require Import RangeModel.
Import ListNotations.
Local Open Scope Z_scope.

(** The ranges of a pool: those mapped for it and not unmapped since, newest first. *)
Fixpoint ranges_of (head : Z) (log : list revent) : list Z :=
  match log with
  | [] => []
  | RMap h r :: l => if h =? head then r :: ranges_of head l else ranges_of head l
  | RUnmap h r :: l => if h =? head then filter (fun q => negb (q =? r)) (ranges_of head l) else ranges_of head l
  | _ :: l => ranges_of head l
  end.
(** What destroying a pool with the ranges [xs] does when munmap answers [ans] in turn:
    the ranges before the first failure are unmapped, in order. *)
Fixpoint unmapped (ans : list bool) (xs : list Z) : list Z :=
  match xs with
  | [] => []
  | x :: xs => if hd true ans then x :: unmapped (tl ans) xs else []
  end.
