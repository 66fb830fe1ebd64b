(** Vocabulary of C53: client code that follows an ownership discipline. *)
From Coq Require Import ZArith Bool List.
From Verif Require Import RseqIR RseqSpec RseqKernel RseqSim RseqOwn ViewModel.
Import ListNotations.
Local Open Scope Z_scope.

(** The newest store to a byte. *)
Definition newest (h : list (nat * Z)) (b : Z) : Prop :=
  exists i, In (i, b) h /\ forall j c, In (j, c) h -> (j, c) = (i, b) \/ (j < i)%nat.

(** [m'] agrees with [m] on the bytes that belong to thread [t]. *)
Definition same_own_bytes (own : Z -> owner) (t : nat) (m m' : mem) : Prop :=
  forall x, own x = OThr t -> m' x = m x.

(** The ownership discipline, judged in the abstract machine only (sequentially
    consistent memory, helpers in one step).  At any time every byte belongs to
    the data of one CPU (or mm_cid), to one thread, or to nobody.
    - A helper call in progress on its CPU only touches bytes of that CPU, and
      bytes of the calling thread; and its arguments are usable.
    - Plain stores are to bytes of the storing thread, and what client code does
      only depends on bytes of its thread.
    - Bytes change owner only when a helper call takes effect, between the
      calling thread and the CPU of the call. *)
Definition owned_client {Loc} (g : cfg) (cl : client Loc) (a0 : astate Loc) : Prop :=
  exists OWN : astate Loc -> (Z -> owner) -> Prop,
    (exists own, OWN a0 own) /\
    (forall a own, OWN a own ->
      (forall t c, in_flight a t c ->
         op_wf g (c_op c) (a_mem a) /\ forall x, In x (touched g (c_op c) (a_mem a)) -> usable own t c x) /\
      (forall t l k, a_thr a t = {| a_loc := l; a_act := None |} :: k ->
         (forall ps l', cl_write _ cl l (a_mem a) ps l' -> forall x, In x (map fst ps) -> own x = OThr t) /\
         (forall m, same_own_bytes own t (a_mem a) m ->
            (forall c, cl_call _ cl l m c -> cl_call _ cl l (a_mem a) c) /\
            (forall ps l', cl_write _ cl l m ps l' -> cl_write _ cl l (a_mem a) ps l') /\
            (forall l', cl_tau _ cl l m l' -> cl_tau _ cl l (a_mem a) l'))) /\
      (forall l a', astep g cl a l a' -> exists own', OWN a' own' /\
         forall x, own' x = own x \/
           exists t c ps, l = ALcommit t c ps /\ usable own t c x /\ usable own' t c x)).

(** The run [tr] of the sequentially consistent machine takes the same steps as
    the run [wtr]: same labels, and the same threads before each step. *)
Definition same_steps {Loc} (wtr tr : list (state Loc * clabel)) : Prop :=
  Forall2 (fun p q => snd p = snd q /\ s_thr (fst p) = s_thr (fst q) /\ s_loaded (fst p) = s_loaded (fst q)) wtr tr.

(** The runs of the sequentially consistent machine in which every step changes
    something; [P] restricts the threads that take steps. *)
Inductive moves {Loc} (g : cfg) (tx : text) (cl : client Loc) (P : nat -> Prop) :
    state Loc -> list (state Loc * clabel) -> state Loc -> Prop :=
  | moves_nil : forall s, moves g tx cl P s [] s
  | moves_snoc : forall s tr s' t l s'', moves g tx cl P s tr s' -> step g tx cl s' l s'' ->
      call_ok s' l -> P t -> acts t s' l s'' -> moves g tx cl P s (tr ++ [(s', l)]) s''.
