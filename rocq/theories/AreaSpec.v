(** What the per-thread area promises, and what the toolchain promises about
    thread-local objects. *)
From Coq Require Import ZArith Bool List.
From Verif Require Import LayoutModel RegModel AreaModel.
Import ListNotations.
Local Open Scope Z_scope.

(** The address is a byte of the object [o] in thread [t]. *)
Definition in_object (p : program) (t : nat) (o : Z * Z) (a : Z) : Prop :=
  exists i, 0 <= i < snd o /\ a = p_tp p t + fst o + i.

(** [o] lies in the address space in every thread. *)
Definition fits (p : program) (o : Z * Z) : Prop :=
  0 <= snd o /\ forall t, 0 <= p_tp p t + fst o /\ p_tp p t + fst o + snd o <= word (p_build p).

(** Static thread-local storage as the ELF ABI lays it out: thread pointers are
    addresses; the offset of __rseq_abi satisfies the alignment of the variable in every
    thread; the objects lie in the address space and apart from each other. *)
Definition abi_layout (p : program) : Prop :=
  (forall t, 0 <= p_tp p t < word (p_build p)) /\
  (forall t, (p_tp p t + p_tprel p) mod var_align = 0) /\
  (forall o, In o ((p_tprel p, var_size (p_build p)) :: p_others p) -> fits p o) /\
  (forall o, In o (p_others p) ->
     fst o + snd o <= p_tprel p \/ p_tprel p + var_size (p_build p) <= fst o).

(** The memory that src/rseq.c:67-72 says is set aside for the kernel. *)
Definition reserved (p : program) (t : nat) (a : Z) : Prop :=
  area p t <= a < area p t + 1024.
