(** Specification of well-formed circular lists, for the statements about
    src/list.h.  [is_list h head xs]: starting from [head], following next links
    visits exactly [xs] and comes back to [head], prev links are the reverse,
    and all the nodes are distinct. *)
From Coq Require Import ZArith List.
From Verif Require Import ListModel.
Import ListNotations.
Local Open Scope Z_scope.

Fixpoint chain (h : lheap) (a : Z) (l : list Z) (b : Z) : Prop :=
  match l with
  | [] => next h a = b /\ prev h b = a
  | x :: l' => next h a = x /\ prev h x = a /\ chain h x l' b
  end.

Definition is_list (h : lheap) (head : Z) (xs : list Z) : Prop :=
  NoDup (head :: xs) /\ chain h head xs head.

(** The two heaps agree outside the given nodes. *)
Definition same_outside (nodes : list Z) (h h' : lheap) : Prop :=
  forall a, ~ In a nodes -> next h' a = next h a /\ prev h' a = prev h a.
