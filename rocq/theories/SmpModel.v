(** Model of src/smp.c: how many CPUs a per-CPU array must have room for.
    Definitions only.  Strings are lists of bytes (the terminating NUL is not in
    the list); [lb] is the number of bits of a long (32 or 64).  What the system
    answers (open, read, readdir, sysconf) is given by an environment. *)
From Coq Require Import ZArith Bool List.
Import ListNotations.
Local Open Scope Z_scope.

Definition INT_MAX : Z := 2 ^ 31 - 1.
Definition long_max (lb : Z) : Z := 2 ^ (lb - 1) - 1.
(** Conversion of a long to an int, as gcc and clang do it. *)
Definition to_int (z : Z) : Z := (z + 2 ^ 31) mod 2 ^ 32 - 2 ^ 31.

(** ** strtol(3) and strtoul(3) with base 10, in the C locale *)
Definition isspace (c : Z) : bool := (c =? 32) || ((9 <=? c) && (c <=? 13)).
Definition isdigit (c : Z) : bool := (48 <=? c) && (c <=? 57).
Fixpoint skip_space (s : list Z) : list Z :=
  match s with c :: r => if isspace c then skip_space r else s | [] => [] end.
(** [true]: a minus sign *)
Definition get_sign (s : list Z) : bool * list Z :=
  match s with c :: r => if c =? 45 then (true, r) else if c =? 43 then (false, r) else (false, s) | [] => (false, []) end.
Fixpoint get_digits (s : list Z) (acc : Z) : Z * list Z :=
  match s with c :: r => if isdigit c then get_digits r (10 * acc + (c - 48)) else (acc, s) | [] => (acc, []) end.
(** None: no number, endptr = nptr *)
Definition get_number (s : list Z) : option (bool * Z * list Z) :=
  let (neg, r) := get_sign (skip_space s) in
  match r with
  | c :: _ => if isdigit c then let (v, r') := get_digits r 0 in Some (neg, v, r') else None
  | [] => None
  end.
Definition strtol (lb : Z) (s : list Z) : option (Z * list Z) :=
  match get_number s with
  | Some (neg, v, r) =>
      Some (if neg then Z.max (- v) (- 2 ^ (lb - 1)) else Z.min v (long_max lb), r)
  | None => None
  end.
Definition strtoul (lb : Z) (s : list Z) : option (Z * list Z) :=
  match get_number s with
  | Some (neg, v, r) =>
      Some (if 2 ^ lb <=? v then 2 ^ lb - 1 else if neg then (- v) mod 2 ^ lb else v, r)
  | None => None
  end.

(** ** The directory: _get_max_cpuid_from_sysfs(), src/smp.c:31-75 *)

(** One entry of readdir(): is it a directory (d_type == DT_DIR), and its name. *)
Record dirent := { d_isdir : bool; d_name : list Z }.
(** None: opendir() failed; otherwise the entries readdir() returns. *)
Definition listing := option (list dirent).

(** strncmp(name, "cpu", 3) == 0: what follows *)
Definition after_cpu (name : list Z) : option (list Z) :=
  match name with
  | a :: b :: c :: r => if (a =? 99) && (b =? 112) && (c =? 117) then Some r else None
  | _ => None
  end.
(** src/smp.c:46-62 *)
Definition scan_entry (lb : Z) (max : Z) (d : dirent) : Z :=
  if d_isdir d then
    match after_cpu (d_name d) with
    | Some r =>
      match strtol lb r with
      | Some (id, []) => if (id <? long_max lb) && (max <? id) then id else max
      | _ => max
      end
    | None => max
    end
  else max.
Definition max_cpuid_from_sysfs (lb : Z) (d : listing) : Z :=
  match d with
  | None => -1
  | Some l =>
    let max := fold_left (scan_entry lb) l (-1) in
    (* src/smp.c:67-72 *)
    if (max <? 0) || (INT_MAX <? max) then -1 else max
  end.

(** ** get_num_possible_cpus_fallback(), src/smp.c:113-119.  The macro __max
    (src/smp.c:24) evaluates the larger of its arguments twice, so sysconf() and
    the directory scan may answer twice.  None: signed integer overflow. *)
Definition plus1 (x : Z) : option Z := if x =? INT_MAX then None else Some (x + 1).
Definition fallback (lb : Z) (sc1 sc2 : Z) (d1 d2 : listing) : option Z :=
  match plus1 (max_cpuid_from_sysfs lb d1) with
  | Some b => if b <? sc1 then Some (to_int sc2) else plus1 (max_cpuid_from_sysfs lb d2)
  | None => None
  end.

(** ** Reading the mask: get_cpu_mask_from_sysfs(), src/smp.c:131-177 *)

(** What read() does each time: return at most [n] bytes (at least one if there
    are any left), fail with EINTR, or fail otherwise. *)
Inductive ranswer := RShort (n : nat) | REintr | RError.

Definition put (buf : nat -> Z) (at_ : nat) (bs : list Z) : nat -> Z :=
  fun i => if (Nat.leb at_ i && Nat.ltb i (at_ + length bs))%bool then nth (i - at_) bs 0 else buf i.

Inductive rresult :=
  | RGot (buf : nat -> Z) (total : nat)
  | RFail                               (* error other than EINTR *)
  | RBlocked.                           (* no more answers: still in the loop *)

(** src/smp.c:147-162; [file] is the content of the file *)
Fixpoint read_loop (file : list Z) (max : nat) (ans : list ranswer) (buf : nat -> Z) (total : nat) : rresult :=
  match ans with
  | [] => RBlocked
  | RError :: _ => RFail
  | REintr :: ans' => read_loop file max ans' buf total
  | RShort n :: ans' =>
    let bs := firstn (Nat.min (Nat.max 1 n) (max - total)) (skipn total file) in
    let buf' := put buf total bs in
    let total' := (total + length bs)%nat in
    if (Nat.ltb total' max && negb (Nat.eqb (length bs) 0))%bool
    then read_loop file max ans' buf' total' else RGot buf' total'
  end.

(** src/smp.c:164-171: NUL termination; total <= 4096, so it fits an int *)
Definition terminate (max : nat) (buf : nat -> Z) (total : nat) : nat -> Z :=
  put buf (if Nat.ltb total max then total else (max - 1)%nat) [0].

(** ** Parsing the mask: get_max_cpuid_from_mask(), src/smp.c:203-229 *)

(** The C string that starts at [buf + i], [n] bytes of the buffer being left;
    None: no NUL in the buffer (read out of bounds). *)
Fixpoint cstring (buf : nat -> Z) (n i : nat) : option (list Z) :=
  match n with
  | O => None
  | S n' => if buf i =? 0 then Some []
            else match cstring buf n' (S i) with Some r => Some (buf i :: r) | None => None end
  end.
Definition is_sep (c : Z) : bool := (c =? 44) || (c =? 45).
(** src/smp.c:214-220 *)
Fixpoint scan_back (buf : nat -> Z) (i : nat) : nat :=
  match i with
  | O => O
  | S i' => if is_sep (buf i) then S i else scan_back buf i'
  end.

Inductive presult := PMax (id : Z) | PBad | POob.
(** [size] is the size of the buffer *)
Definition max_cpuid_from_mask (lb : Z) (size : nat) (buf : nat -> Z) (len : nat) : presult :=
  match len with
  | O => PBad
  | S l =>
    let i := scan_back buf l in
    match cstring buf (size - i) i with
    | None => POob
    | Some s =>
      match strtoul lb s with
      | Some (v, _) => if v <? INT_MAX then PMax v else PBad
      | None => PBad
      end
    end
  end.

(** ** update_possible_cpus_array_len_cache(), src/smp.c:231-259, and
    get_possible_cpus_array_len(), src/smp.c:272-278 *)
Definition CPUMASK_SIZE : nat := 64 * 64.

(** What the system answers during one call; [e_junk] is the initial content of
    the buffer on the stack. *)
Record env := {
  e_open : bool; e_file : list Z; e_reads : list ranswer;
  e_junk : nat -> Z;
  e_sc1 : Z; e_sc2 : Z; e_dir1 : listing; e_dir2 : listing }.

Inductive outcome := Len (n : Z) | Overflow | Oob | Blocked.

Definition compute_len (lb : Z) (e : env) : outcome :=
  let fb := match fallback lb (e_sc1 e) (e_sc2 e) (e_dir1 e) (e_dir2 e) with
            | Some n => Len n | None => Overflow end in
  if negb (e_open e) then fb else
  match read_loop (e_file e) CPUMASK_SIZE (e_reads e) (e_junk e) 0 with
  | RBlocked => Blocked
  | RFail => fb
  | RGot buf total =>
    if Nat.eqb total 0 then fb else
    match max_cpuid_from_mask lb CPUMASK_SIZE (terminate CPUMASK_SIZE buf total) total with
    | PMax id => Len (id + 1)
    | PBad => fb
    | POob => Oob
    end
  end.

(** One call: the new cache (possible_cpus_array_len_cache) and the value
    returned, which is the new cache. *)
Definition get_len (lb : Z) (cache : Z) (e : env) : outcome :=
  if negb (cache =? 0) then Len cache else
  match compute_len lb e with
  | Len n => if n <? 1 then Len cache else Len n
  | o => o
  end.

(** A sequence of calls in a process, starting with cache [c]: the values
    returned, or what went wrong. *)
Fixpoint calls (lb : Z) (c : Z) (es : list env) : list outcome :=
  match es with
  | [] => []
  | e :: es' => match get_len lb c e with
                | Len n => Len n :: calls lb n es'
                | o => [o]
                end
  end.
