(** What a program relies on about heap blocks, file descriptors and mutexes (C64).
    Definitions only; nothing here refers to the library.

    Events are what a thread does with them; [monitor] is the contract of malloc(3),
    free(3), close(2) and pthread mutexes. *)
From Coq Require Import ZArith Bool List.
Import ListNotations.
Local Open Scope Z_scope.

(** Blocks are named by their address, a mutex by the block that holds it. *)
Inductive event :=
| EAlloc (p : Z)          (* malloc, calloc, strdup returned p *)
| EFree (p : Z)           (* free(p) *)
| ETouch (p : Z)          (* block p is read or written *)
| EOpen (fd : Z)          (* memfd_create, open, opendir returned fd *)
| EClose (fd : Z)         (* close, closedir *)
| EInit (m : Z)           (* pthread_mutex_init *)
| ELock (m : Z)
| EUse (m : Z)            (* data protected by the mutex is read or written *)
| EUnlock (m : Z)
| EKill (m : Z).          (* pthread_mutex_destroy *)

(** Live blocks, open descriptors, mutexes that exist, and the one held. *)
Record books := { heap : list Z; fds : list Z; mutexes : list Z; held : option Z }.
Definition books0 : books := {| heap := []; fds := []; mutexes := []; held := None |}.

Definition has (l : list Z) (x : Z) : bool := existsb (Z.eqb x) l.
Definition drop (l : list Z) (x : Z) : list Z := filter (fun y => negb (y =? x)) l.
Definition holds (b : books) (m : Z) : bool := match held b with Some h => h =? m | None => false end.

(** [Impossible]: the allocator handed out a live block, or the system an open
    descriptor.  [Wrong]: the thread broke the contract: a double free, a free of
    something else than a block, a use after free, a close of a descriptor that is
    not open, a mutex used before its initialisation, locked twice, unlocked or its
    data used without holding it, destroyed while held, or freed alive; free(NULL)
    is allowed.  A thread that holds a mutex takes no other one. *)
Inductive verdict := Fine (b : books) | Impossible | Wrong.

Definition event_of (ev : event) (b : books) : verdict :=
  match ev with
  | EAlloc p => if has (heap b) p then Impossible
                else Fine {| heap := p :: heap b; fds := fds b; mutexes := mutexes b; held := held b |}
  | EFree p =>
    if p =? 0 then Fine b
    else if has (heap b) p && negb (has (mutexes b) p)
    then Fine {| heap := drop (heap b) p; fds := fds b; mutexes := mutexes b; held := held b |} else Wrong
  | ETouch p => if has (heap b) p then Fine b else Wrong
  | EOpen fd => if has (fds b) fd then Impossible
                else Fine {| heap := heap b; fds := fd :: fds b; mutexes := mutexes b; held := held b |}
  | EClose fd => if has (fds b) fd
                 then Fine {| heap := heap b; fds := drop (fds b) fd; mutexes := mutexes b; held := held b |} else Wrong
  | EInit m => if has (heap b) m && negb (has (mutexes b) m)
               then Fine {| heap := heap b; fds := fds b; mutexes := m :: mutexes b; held := held b |} else Wrong
  | ELock m => match held b with
               | Some _ => Wrong
               | None => if has (mutexes b) m
                         then Fine {| heap := heap b; fds := fds b; mutexes := mutexes b; held := Some m |} else Wrong
               end
  | EUse m => if holds b m then Fine b else Wrong
  | EUnlock m => if holds b m
                 then Fine {| heap := heap b; fds := fds b; mutexes := mutexes b; held := None |} else Wrong
  | EKill m => if has (mutexes b) m && negb (holds b m)
               then Fine {| heap := heap b; fds := fds b; mutexes := drop (mutexes b) m; held := held b |} else Wrong
  end.
Fixpoint monitor (l : list event) (b : books) : verdict :=
  match l with
  | [] => Fine b
  | ev :: l => match event_of ev b with Fine b => monitor l b | x => x end
  end.

(** ** Several threads
    Each has events left to do; a mutex is held by at most one thread, and a thread
    that wants a held mutex waits. *)
Record threads := { todo : nat -> list event; owner : Z -> option nat }.
Definition upd {A} (f : nat -> A) (t : nat) (x : A) : nat -> A := fun u => if Nat.eqb u t then x else f u.
Definition own (f : Z -> option nat) (m : Z) (x : option nat) : Z -> option nat := fun n => if n =? m then x else f n.
Definition owner_after (ev : event) (t : nat) (f : Z -> option nat) : Z -> option nat :=
  match ev with ELock m => own f m (Some t) | EUnlock m => own f m None | _ => f end.
Definition may_go (ev : event) (f : Z -> option nat) : Prop :=
  match ev with ELock m => f m = None | _ => True end.
Inductive goes : threads -> nat -> threads -> Prop :=
| goes_one s t ev l : todo s t = ev :: l -> may_go ev (owner s) ->
    goes s t {| todo := upd (todo s) t l; owner := owner_after ev t (owner s) |}.
Inductive goes_on : threads -> threads -> Prop :=
| goes_none s : goes_on s s
| goes_more s s' t s'' : goes_on s s' -> goes s' t s'' -> goes_on s s''.
