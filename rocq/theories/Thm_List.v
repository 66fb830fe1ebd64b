(** C47, C48: the helpers of src/list.h implement sequences. *)
From Coq Require Import ZArith Bool List.
From Verif Require Import ListModel ListSpec ListProofs.
Import ListNotations.
Local Open Scope Z_scope.

Theorem C47_init : forall h p,
  is_list (INIT_LIST_HEAD h p) p [] /\ same_outside [p] h (INIT_LIST_HEAD h p).
Proof. exact (fun h p => conj (init_list h p) (init_frame h p)). Qed.
Print Assumptions C47_init.

Theorem C47_list_add : forall h head xs newp,
  is_list h head xs -> ~ In newp (head :: xs) ->
  is_list (list_add h newp head) head (newp :: xs) /\
  same_outside (newp :: head :: xs) h (list_add h newp head).
Proof. exact list_add_ok. Qed.
Print Assumptions C47_list_add.

Theorem C47_list_add_tail : forall h head xs newp,
  is_list h head xs -> ~ In newp (head :: xs) ->
  is_list (list_add_tail h newp head) head (xs ++ [newp]) /\
  same_outside (newp :: head :: xs) h (list_add_tail h newp head).
Proof. exact list_add_tail_ok. Qed.
Print Assumptions C47_list_add_tail.

(** list_del: the element leaves the list; its own links keep their old values
    (which is what list_for_each_safe-less loops would still follow). *)
Theorem C47_list_del : forall h head l1 e l2,
  is_list h head (l1 ++ e :: l2) ->
  is_list (list_del h e) head (l1 ++ l2) /\
  (next (list_del h e) e = next h e /\ prev (list_del h e) e = prev h e) /\
  same_outside (head :: l1 ++ l2) h (list_del h e).
Proof. exact list_del_ok. Qed.
Print Assumptions C47_list_del.

Theorem C47_list_del_init : forall h head l1 e l2,
  is_list h head (l1 ++ e :: l2) ->
  is_list (list_del_init h e) head (l1 ++ l2) /\ is_list (list_del_init h e) e [] /\
  same_outside (head :: l1 ++ e :: l2) h (list_del_init h e).
Proof. exact list_del_init_ok. Qed.
Print Assumptions C47_list_del_init.

Theorem C47_list_move_same : forall h head l1 e l2,
  is_list h head (l1 ++ e :: l2) ->
  is_list (list_move h e head) head (e :: l1 ++ l2) /\
  same_outside (head :: l1 ++ e :: l2) h (list_move h e head).
Proof. exact list_move_same_ok. Qed.
Print Assumptions C47_list_move_same.

Theorem C47_list_move_other : forall h head l1 e l2 head2 ys,
  is_list h head (l1 ++ e :: l2) -> is_list h head2 ys ->
  (forall x, In x (head :: l1 ++ e :: l2) -> ~ In x (head2 :: ys)) ->
  is_list (list_move h e head2) head (l1 ++ l2) /\
  is_list (list_move h e head2) head2 (e :: ys) /\
  same_outside ((head :: l1 ++ e :: l2) ++ head2 :: ys) h (list_move h e head2).
Proof. exact list_move_other_ok. Qed.
Print Assumptions C47_list_move_other.

Theorem C47_list_replace : forall h head l1 old l2 new_,
  is_list h head (l1 ++ old :: l2) -> ~ In new_ (head :: l1 ++ old :: l2) ->
  is_list (list_replace h old new_) head (l1 ++ new_ :: l2) /\
  same_outside (new_ :: head :: l1 ++ l2) h (list_replace h old new_).
Proof. exact list_replace_ok. Qed.
Print Assumptions C47_list_replace.

Theorem C47_list_replace_init : forall h head l1 old l2 new_,
  is_list h head (l1 ++ old :: l2) -> ~ In new_ (head :: l1 ++ old :: l2) ->
  is_list (list_replace_init h old new_) head (l1 ++ new_ :: l2) /\
  is_list (list_replace_init h old new_) old [].
Proof. exact list_replace_init_ok. Qed.
Print Assumptions C47_list_replace_init.

(** Replacing the head of a non-empty list. *)
Theorem C47_list_replace_head : forall h old xs new_,
  is_list h old xs -> xs <> [] -> ~ In new_ (old :: xs) ->
  is_list (list_replace h old new_) new_ xs /\
  is_list (list_replace_init h old new_) new_ xs /\
  is_list (list_replace_init h old new_) old [].
Proof. exact list_replace_head_ok. Qed.
Print Assumptions C47_list_replace_head.

(** Limit of the code: on the head of an EMPTY list list_replace_init leaves the
    new head malformed, so the non-emptiness hypothesis above is needed. *)
Theorem C47_list_replace_init_empty_refuted :
  exists h old new_, old <> new_ /\ is_list h old [] /\
    ~ (exists xs, is_list (list_replace_init h old new_) new_ xs).
Proof. exact list_replace_init_empty_bad. Qed.
Print Assumptions C47_list_replace_init_empty_refuted.

Theorem C47_list_splice : forall h add xs head ys,
  is_list h add xs -> is_list h head ys ->
  (forall x, In x (add :: xs) -> ~ In x (head :: ys)) ->
  is_list (list_splice h add head) head (xs ++ ys) /\
  same_outside (add :: xs ++ head :: ys) h (list_splice h add head).
Proof. exact list_splice_ok. Qed.
Print Assumptions C47_list_splice.

Theorem C47_list_empty : forall h head xs,
  is_list h head xs -> (list_empty h head = true <-> xs = []).
Proof. exact list_empty_ok. Qed.
Print Assumptions C47_list_empty.

Theorem C47_list_first : forall h head x xs,
  is_list h head (x :: xs) -> list_first h head = x.
Proof. exact list_first_ok. Qed.
Print Assumptions C47_list_first.

(** Lists that share no node with the modified ones are untouched. *)
Theorem C47_other_lists : forall nodes h h' hd xs,
  same_outside nodes h h' -> (forall x, In x (hd :: xs) -> ~ In x nodes) ->
  is_list h hd xs -> is_list h' hd xs.
Proof. exact is_list_frame. Qed.
Print Assumptions C47_other_lists.

(** A heap with two non-trivial lists meets the hypotheses above. *)
Example C47_ex : is_list ex_heap 100 ([1] ++ 2 :: [3]) /\ is_list ex_heap 200 [7; 8] /\
  is_list (list_move ex_heap 2 200) 200 [2; 7; 8] /\
  is_list (list_splice ex_heap 100 200) 200 [1; 2; 3; 7; 8] /\
  is_list (list_replace_init ex_heap 2 9) 100 [1; 9; 3].
Proof.
  split; [exact ex_list_100|]. split; [exact ex_list_200|].
  split; [|split]; (split; [nodup_tac|cbn; auto 20]).
Qed.

(** C48: iteration *)
Theorem C48_for_each : forall h head xs fuel,
  is_list h head xs -> (length xs < fuel)%nat -> list_for_each fuel h head = Some xs.
Proof. exact list_for_each_ok. Qed.
Print Assumptions C48_for_each.

Theorem C48_for_each_prev : forall h head xs fuel,
  is_list h head xs -> (length xs < fuel)%nat -> list_for_each_prev fuel h head = Some (rev xs).
Proof. exact list_for_each_prev_ok. Qed.
Print Assumptions C48_for_each_prev.

Theorem C48_for_each_safe : forall f head body xs h fuel,
  (forall h l1 pos l2, is_list h head (l1 ++ pos :: l2) ->
     is_list (body h pos) head (if f pos : bool then l1 ++ l2 else l1 ++ pos :: l2)) ->
  is_list h head xs -> (length xs < fuel)%nat ->
  exists hf, list_for_each_safe body fuel h head = Some (hf, xs) /\
    is_list hf head (filter (fun x => negb (f x)) xs).
Proof. exact list_for_each_safe_ok. Qed.
Print Assumptions C48_for_each_safe.

Theorem C48_for_each_safe_from : forall f head body l1 x l2 h fuel,
  (forall h l1 pos l2, is_list h head (l1 ++ pos :: l2) ->
     is_list (body h pos) head (if f pos : bool then l1 ++ l2 else l1 ++ pos :: l2)) ->
  is_list h head (l1 ++ x :: l2) -> (S (length l2) < fuel)%nat ->
  exists hf, list_for_each_safe_from body fuel h head x = Some (hf, x :: l2) /\
    is_list hf head (l1 ++ filter (fun x => negb (f x)) (x :: l2)).
Proof. exact list_for_each_safe_from_ok. Qed.
Print Assumptions C48_for_each_safe_from.

Theorem C48_for_each_prev_safe : forall f head body xs h fuel,
  (forall h l1 pos l2, is_list h head (l1 ++ pos :: l2) ->
     is_list (body h pos) head (if f pos : bool then l1 ++ l2 else l1 ++ pos :: l2)) ->
  is_list h head xs -> (length xs < fuel)%nat ->
  exists hf, list_for_each_prev_safe body fuel h head = Some (hf, rev xs) /\
    is_list hf head (filter (fun x => negb (f x)) xs).
Proof. exact list_for_each_prev_safe_ok. Qed.
Print Assumptions C48_for_each_prev_safe.

(** The body hypothesis is met by "list_del the elements selected by f". *)
Theorem C48_removal_body : forall f head h l1 pos l2,
  is_list h head (l1 ++ pos :: l2) ->
  is_list (if f pos : bool then list_del h pos else h) head
    (if f pos then l1 ++ l2 else l1 ++ pos :: l2).
Proof. exact removes_list_del. Qed.
Print Assumptions C48_removal_body.

Example C48_ex :
  list_for_each 10 ex_heap 100 = Some [1; 2; 3] /\
  list_for_each_prev 10 ex_heap 100 = Some [3; 2; 1] /\
  option_map snd (list_for_each_safe (fun h p => if Z.odd p then list_del h p else h) 10 ex_heap 100)
    = Some [1; 2; 3].
Proof. repeat split. Qed.
