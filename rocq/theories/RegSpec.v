(** What initialisation and registration should do, in terms of the program's
    environment and of the events of a run.  Nothing here depends on the model's
    steps. *)
From Coq Require Import ZArith Bool List.
From Verif Require Import RegModel.
Import ListNotations.
Local Open Scope Z_scope.

(** libc provides an active registration: its three symbols exist and the size
    is not 0. *)
Definition libc_active (y : sys) : Prop :=
  exists off size fl, libc_off y = Some off /\ libc_size y = Some size /\ libc_flags y = Some fl /\ size <> 0.

(** The feature size of the kernel: the original 20 bytes if it does not say. *)
Definition features (y : sys) : Z := if Z.eq_dec (k_aux y) 0 then 20 else k_aux y.

(** The feature size in use when libc owns the registration: sizes 20 and 32 of
    libc may mean anything up to 32. *)
Definition libc_features (y : sys) (n : Z) : Prop :=
  exists size, libc_size y = Some size /\
    ((size = 20 \/ size = 32) /\ n = Z.min 32 (features y) \/ size <> 20 /\ size <> 32 /\ n = size).

(** The final value of a public symbol, rseq_size excepted. *)
Definition final (y : sys) (v : var) (z : Z) : Prop :=
  match v with
  | VDone => z = 1
  | VOff => libc_active y /\ libc_off y = Some z \/ ~ libc_active y /\ z = tls_off y
  | VFlags => libc_active y /\ libc_flags y = Some z \/ ~ libc_active y /\ z = 0
  | VOwn => libc_active y /\ z = 0 \/ ~ libc_active y /\ z = 1
  | VSize => False
  end.

(** The environment keeps to the contract: feature sizes fit the area that
    librseq reserves (the code asserts it), libc sizes fit an int. *)
Definition sane (y : sys) : Prop :=
  0 <= k_aux y <= 1024 /\ (forall size, libc_size y = Some size -> 0 <= size < 2 ^ 31).

(** ** Events *)

(** The values stored to [v], in order. *)
Fixpoint stores (v : var) (tr : list label) : list Z :=
  match tr with
  | [] => []
  | LStore _ u z :: r => if var_eqb u v then z :: stores v r else stores v r
  | _ :: r => stores v r
  end.

(** A registration was accepted by the kernel. *)
Definition registration (tr : list label) : Prop := exists t len, In (LSys t CReg len true) tr.

(** Thread [t] is registered at the end of [tr]: the last request of it that the
    kernel accepted was to register. *)
Definition registered (t : nat) (tr : list label) : Prop :=
  exists a len b, tr = a ++ LSys t CReg len true :: b /\ forall len', ~ In (LSys t CUnreg len' true) b.

(** The last call or request of thread [t]. *)
Definition mine (t : nat) (l : label) : Prop :=
  match l with LCall u _ | LSys u _ _ _ => u = t | _ => False end.
Definition latest (t : nat) (tr : list label) (l : label) : Prop :=
  mine t l /\ exists a b, tr = a ++ l :: b /\ forall x, In x b -> ~ mine t x.

(** Initialisation happened before: the thread returned from a call of the
    library, or was created by a thread of which that holds. *)
Inductive knows : list label -> nat -> Prop :=
  | knows_ret : forall tr t c r, In (LRet t c r) tr -> knows tr t
  | knows_spawn : forall tr p t a b, tr = a ++ LSpawn p t :: b -> knows a p -> knows tr t.

(** A successful registration happened before: the thread was told of its own, or
    was created by a thread of which that holds. *)
Inductive knows_registered : list label -> nat -> Prop :=
  | kr_ret : forall tr t, In (LRet t CReg 0) tr -> knows_registered tr t
  | kr_spawn : forall tr p t a b, tr = a ++ LSpawn p t :: b -> knows_registered a p -> knows_registered tr t.
