(** Specification of C42 and C43: what the text of the mask and the names of the
    directories mean. *)
From Coq Require Import ZArith Bool List.
From Verif Require Import SmpModel.
Import ListNotations.
Local Open Scope Z_scope.

(** ** Decimal numerals *)
Definition digit (c : Z) : Prop := 48 <= c <= 57.
(** The number a string of digits stands for, most significant digit first. *)
Fixpoint value (s : list Z) : Z :=
  match s with
  | [] => 0
  | c :: r => (c - 48) * 10 ^ Z.of_nat (length r) + value r
  end.
Definition numeral (s : list Z) (n : Z) : Prop := s <> [] /\ Forall digit s /\ value s = n.

(** ** Masks: "0", "0-3", "0-3,8,10-11" ... *)
Inductive item_text : list Z -> Z * Z -> Prop :=
  | it_one : forall s a, numeral s a -> item_text s (a, a)
  | it_range : forall s t a b, numeral s a -> numeral t b -> a < b -> item_text (s ++ 45 :: t) (a, b).
Inductive mask_text : list Z -> list (Z * Z) -> Prop :=
  | mt_last : forall s r, item_text s r -> mask_text s [r]
  | mt_more : forall s t r r' rs, item_text s r -> mask_text t (r' :: rs) -> snd r < fst r' ->
      mask_text (s ++ 44 :: t) (r :: r' :: rs).
(** The CPU is possible according to the mask. *)
Definition possible (rs : list (Z * Z)) (cpu : Z) : Prop := exists a b, In (a, b) rs /\ a <= cpu <= b.

(** The mask file can be opened and contains [s]; reads may be short and may be
    interrupted, and do not fail. *)
Definition mask_file (e : env) (s : list Z) : Prop :=
  e_open e = true /\ e_file e = s /\ ~ In RError (e_reads e).

(** Enough reads are answered for the loop to reach the end of the file. *)
Definition is_short (a : ranswer) : bool := match a with RShort _ => true | _ => false end.
Definition enough_reads (e : env) : Prop :=
  (length (e_file e) < length (filter is_short (e_reads e)))%nat.

(** ** Directories *)

(** The entry is a directory named "cpu" followed by a decimal number. *)
Definition cpu_dir (d : dirent) (n : Z) : Prop :=
  d_isdir d = true /\ exists s, d_name d = [99; 112; 117] ++ s /\ numeral s n.
(** White space in the C locale. *)
Definition white (c : Z) : Prop := c = 32 \/ 9 <= c <= 13.
(** Directory names on which strtol() is more liberal than that: "cpu" followed
    by white space or a sign. *)
Definition odd_name (d : dirent) : Prop :=
  exists c r, d_name d = [99; 112; 117] ++ c :: r /\ (white c \/ c = 43 \/ c = 45).

(** [n] is one more than the highest CPU directory, 0 if there is none. *)
Definition dir_len (l : listing) (n : Z) : Prop :=
  match l with
  | None => n = 0
  | Some ds => (forall d k, In d ds -> cpu_dir d k -> k < n) /\
               (n = 0 \/ exists d, In d ds /\ cpu_dir d (n - 1))
  end.
(** The listing has no odd names, and no CPU number of INT_MAX or more. *)
Definition sane_listing (l : listing) : Prop :=
  match l with
  | None => True
  | Some ds => forall d, In d ds -> ~ odd_name d /\ forall k, cpu_dir d k -> k < INT_MAX
  end.

(** ** Unusable masks *)
Definition no_sep (s : list Z) : Prop := forall c, In c s -> c <> 44 /\ c <> 45.
(** [t] is the part of [s] after its last separator. *)
Definition last_part (s t : list Z) : Prop :=
  no_sep t /\ (s = t \/ exists p c, s = p ++ c :: t /\ (c = 44 \/ c = 45) /\ p <> []) .
Definition not_number (t : list Z) : Prop :=
  match t with [] => True | c :: _ => ~ digit c /\ ~ white c /\ c <> 43 end.
(** The text of the mask has no usable number at the end: none at all, or one
    that is too large. *)
Definition bad_text (s : list Z) : Prop :=
  exists t, last_part s t /\
    (not_number t \/ exists u r n, t = u ++ r /\ numeral u n /\ INT_MAX <= n).
(** A read fails before the end of the file or of the buffer is reached. *)
Definition asked (a : ranswer) : nat := match a with RShort n => Nat.max 1 n | _ => O end.
Definition read_fails (e : env) : Prop :=
  e_open e = true /\ exists pre post, e_reads e = pre ++ RError :: post /\ ~ In RError pre /\
    (list_sum (map asked pre) <= length (e_file e))%nat /\ (list_sum (map asked pre) < CPUMASK_SIZE)%nat.
(** The mask cannot be read, or has nothing usable. *)
Definition bad_mask (e : env) : Prop :=
  e_open e = false \/ read_fails e \/
  (exists s, mask_file e s /\ (length s < CPUMASK_SIZE)%nat /\ ~ In 0 s /\ (s = [] \/ bad_text s)).
