(** The notions in which C69 is stated. *)
From Coq Require Import ZArith Bool List Ascii String.
From Verif Require Import UtilsModel RseqIR PoolVM NameModel.
Import ListNotations.
Local Open Scope string_scope.
Local Open Scope list_scope.
Local Open Scope Z_scope.

(** The bytes of a text. *)
Fixpoint bytes_of (s : string) : str :=
  match s with EmptyString => [] | String c s => Z.of_nat (nat_of_ascii c) :: bytes_of s end.
Definition text_anonymous : str := bytes_of "<anonymous>".
Definition text_suffix : str := bytes_of ":rseq-mempool".

(** The name a pool was created with, if it exists at this point (newest event first). *)
Fixpoint current (id : Z) (l : list event) : option (option str) :=
  match l with
  | [] => None
  | ECreate i n :: l => if i =? id then Some n else current id l
  | EDestroy i :: l => if i =? id then None else current id l
  | _ :: l => current id l
  end.
(** What a message shows, and what a file should be called: the name, or "<anonymous>",
    followed by ":rseq-mempool", cut after 248 bytes. *)
Definition shown (n : option str) : str := match n with Some s => s | None => text_anonymous end.
Definition label (n : option str) : str := firstn 248 (shown n ++ text_suffix).
