(** What the program may expect to read from its items (C38). Definitions only. *)
From Coq Require Import ZArith Bool List.
From Verif Require Import CowModel.
Import ListNotations.
Local Open Scope Z_scope.

(** The value that byte x of a CPU must have after the events [h] (newest first):
    the last value stored there, or that given to malloc_init or zmalloc when the
    item was last allocated; nothing is promised of bytes that were neither
    stored nor initialised since then. Items are [len] bytes long. *)
Fixpoint expect (len : Z) (h : list event) (cpu x : Z) : option Z :=
  match h with
  | [] => None
  | EStore _ cpu' x' b :: h => if (cpu' =? cpu) && (x' =? x) then Some b else expect len h cpu x
  | EMalloc _ it c :: h =>
    if (it * len <=? x) && (x <? it * len + len)
    then match c with Some bs => nth_error bs (Z.to_nat (x - it * len)) | None => None end
    else expect len h cpu x
  | EFree _ it :: h => if (it * len <=? x) && (x <? it * len + len) then None else expect len h cpu x
  | _ :: h => expect len h cpu x
  end.

(** Every load of the program returned what it had to. *)
Definition loads_right (len : Z) (h : list event) : Prop :=
  forall h1 h2 t cpu x b, h = h1 ++ ELoad t cpu x b :: h2 -> forall v, expect len h2 cpu x = Some v -> b = v.

(** The same for the stores alone: the value of a byte that the program has stored
    since the item was allocated. *)
Fixpoint stored (len : Z) (h : list event) (cpu x : Z) : option Z :=
  match h with
  | [] => None
  | EStore _ cpu' x' b :: h => if (cpu' =? cpu) && (x' =? x) then Some b else stored len h cpu x
  | EMalloc _ it _ :: h | EFree _ it :: h => if (it * len <=? x) && (x <? it * len + len) then None else stored len h cpu x
  | _ :: h => stored len h cpu x
  end.
Definition stores_kept (len : Z) (h : list event) : Prop :=
  forall h1 h2 t cpu x b, h = h1 ++ ELoad t cpu x b :: h2 -> forall v, stored len h2 cpu x = Some v -> b = v.

(** The pool is one that rseq_mempool_create makes: items of at least 8 bytes;
    robust pools have a poison value. *)
Definition cfg_ok (g : cfg) : Prop :=
  0 < c_page g /\ 8 <= c_len g /\ 0 < c_cpus g /\ (c_robust g = true -> c_poison g <> None).
(** What a new range shows: the zero page, or the init area, of any content. *)
Definition first_file (g : cfg) (file : Z -> Z) : Prop := c_init g = false -> forall x, file x = 0.
