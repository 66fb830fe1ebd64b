(** Model of src/list.h: circular doubly linked lists in a pointer heap.

    A heap gives, for every node address, its two link fields
    (struct list_head, src/list.h:36-38).  Every C assignment is one functional
    update, in program order, with the right-hand side evaluated in the current
    heap, so aliasing between the nodes is modelled faithfully.  list_entry and
    container_of (src/list.h:21-26, 125) only shift pointers by a constant and
    are not modelled: positions are the addresses of the embedded nodes. *)
From Coq Require Import ZArith Bool List.
Import ListNotations.
Local Open Scope Z_scope.

Record lheap := { next : Z -> Z; prev : Z -> Z }.

(** Assignment  p->next = v  and  p->prev = v. *)
Definition set_next (h : lheap) (p v : Z) : lheap :=
  {| next := fun a => if a =? p then v else next h a; prev := prev h |}.
Definition set_prev (h : lheap) (p v : Z) : lheap :=
  {| next := next h; prev := fun a => if a =? p then v else prev h a |}.

(** src/list.h:45-46 INIT_LIST_HEAD: (ptr)->next = (ptr)->prev = (ptr). *)
Definition INIT_LIST_HEAD (h : lheap) (p : Z) : lheap :=
  set_next (set_prev h p p) p p.

(** src/list.h:52-58 *)
Definition list_add (h : lheap) (newp head : Z) : lheap :=
  let h := set_prev h (next h head) newp in
  let h := set_next h newp (next h head) in
  let h := set_prev h newp head in
  let h := set_next h head newp in
  h.

(** src/list.h:62-68 *)
Definition list_add_tail (h : lheap) (newp head : Z) : lheap :=
  let h := set_next h (prev h head) newp in
  let h := set_next h newp head in
  let h := set_prev h newp (prev h head) in
  let h := set_prev h head newp in
  h.

(** src/list.h:72-76 __list_del *)
Definition list_del__ (h : lheap) (p n : Z) : lheap :=
  let h := set_prev h n p in
  let h := set_next h p n in
  h.

(** src/list.h:80-83 *)
Definition list_del (h : lheap) (elem : Z) : lheap :=
  list_del__ h (prev h elem) (next h elem).

(** src/list.h:87-91 *)
Definition list_del_init (h : lheap) (elem : Z) : lheap :=
  INIT_LIST_HEAD (list_del h elem) elem.

(** src/list.h:95-99 *)
Definition list_move (h : lheap) (elem head : Z) : lheap :=
  list_add (list_del__ h (prev h elem) (next h elem)) elem head.

(** src/list.h:103-109 *)
Definition list_replace (h : lheap) (old new_ : Z) : lheap :=
  let h := set_next h new_ (next h old) in
  let h := set_prev h new_ (prev h old) in
  let h := set_next h (prev h new_) new_ in
  let h := set_prev h (next h new_) new_ in
  h.

(** src/list.h:113-122 *)
Definition list_splice (h : lheap) (add head : Z) : lheap :=
  if add =? next h add then h
  else
    let h := set_prev h (next h add) head in
    let h := set_next h (prev h add) (next h head) in
    let h := set_prev h (next h head) (prev h add) in
    let h := set_next h head (next h add) in
    h.

(** src/list.h:128-129 list_first_entry (up to the container offset). *)
Definition list_first (h : lheap) (head : Z) : Z := next h head.

(** src/list.h:183-186 *)
Definition list_empty (h : lheap) (head : Z) : bool := head =? next h head.

(** src/list.h:189-196 *)
Definition list_replace_init (h : lheap) (old new_ : Z) : lheap :=
  let head := next h old in
  let h := list_del h old in
  let h := list_add_tail h new_ head in
  INIT_LIST_HEAD h old.

(** src/list.h:132-133, 156-159 list_for_each / list_for_each_entry: the
    sequence of positions visited by a body that leaves the list alone.  The
    C loop may not terminate on a malformed list: [None] when [fuel] runs out. *)
Fixpoint for_each_from (fuel : nat) (h : lheap) (head pos : Z) : option (list Z) :=
  match fuel with
  | O => None
  | S fuel =>
      if pos =? head then Some []
      else option_map (cons pos) (for_each_from fuel h head (next h pos))
  end.
Definition list_for_each (fuel : nat) (h : lheap) (head : Z) : option (list Z) :=
  for_each_from fuel h head (next h head).

(** src/list.h:145-146, 161-164 list_for_each_prev / list_for_each_entry_reverse *)
Fixpoint for_each_prev_from (fuel : nat) (h : lheap) (head pos : Z) : option (list Z) :=
  match fuel with
  | O => None
  | S fuel =>
      if pos =? head then Some []
      else option_map (cons pos) (for_each_prev_from fuel h head (prev h pos))
  end.
Definition list_for_each_prev (fuel : nat) (h : lheap) (head : Z) : option (list Z) :=
  for_each_prev_from fuel h head (prev h head).

(** src/list.h:139-142, 166-170 list_for_each_safe / list_for_each_entry_safe:
    [p] is read before the body runs.  The body may change the heap. *)
Fixpoint for_each_safe_from (body : lheap -> Z -> lheap) (fuel : nat)
    (h : lheap) (head pos p : Z) : option (lheap * list Z) :=
  match fuel with
  | O => None
  | S fuel =>
      if pos =? head then Some (h, [])
      else
        let h' := body h pos in
        option_map (fun '(hf, vis) => (hf, pos :: vis))
          (for_each_safe_from body fuel h' head p (next h' p))
  end.
Definition list_for_each_safe (body : lheap -> Z -> lheap) (fuel : nat)
    (h : lheap) (head : Z) : option (lheap * list Z) :=
  for_each_safe_from body fuel h head (next h head) (next h (next h head)).

(** src/list.h:176-179 list_for_each_entry_safe_from *)
Definition list_for_each_safe_from (body : lheap -> Z -> lheap) (fuel : nat)
    (h : lheap) (head pos : Z) : option (lheap * list Z) :=
  for_each_safe_from body fuel h head pos (next h pos).

(** src/list.h:150-153 list_for_each_prev_safe *)
Fixpoint for_each_prev_safe_from (body : lheap -> Z -> lheap) (fuel : nat)
    (h : lheap) (head pos p : Z) : option (lheap * list Z) :=
  match fuel with
  | O => None
  | S fuel =>
      if pos =? head then Some (h, [])
      else
        let h' := body h pos in
        option_map (fun '(hf, vis) => (hf, pos :: vis))
          (for_each_prev_safe_from body fuel h' head p (prev h' p))
  end.
Definition list_for_each_prev_safe (body : lheap -> Z -> lheap) (fuel : nat)
    (h : lheap) (head : Z) : option (lheap * list Z) :=
  for_each_prev_safe_from body fuel h head (prev h head) (prev h (prev h head)).
