(** C60: the per-thread area belongs to the calling thread, and the kernel
    writes nowhere else.

    rseq_get_abi() gives every thread its own area; registration hands the kernel
    only memory of that area.  The second half holds as long as the kernel's
    feature size is at most 32: the size of the object is 32 bytes, whatever its
    alignment, so a kernel with more features overwrites the next thread-local
    object. *)
From Coq Require Import ZArith Bool List Lia.
From Verif Require Import LayoutModel RegModel RegSpec ExReg AreaModel AreaSpec AreaProofs.
Import ListNotations.
Local Open Scope Z_scope.

(** Whichever thread [t0] initialises the library (or whichever wins the race to
    do so), every thread [t] to which initialisation happened before gets from rseq_get_abi() the
    address of its own area, and the fields of struct rseq_abi at that address are
    bytes of its own object. *)
Theorem C60_own_area : forall p t0 y, abi_layout p -> ~ libc_active y -> sane y ->
  forall tr s t i off, run (with_tls p t0 y) tr s -> knows tr t -> readable s t VOff i off ->
  get_abi p t off = p_tp p t + p_tprel p /\
  (forall f sz al n, In (f, (sz, al)) (members (p_build p)) -> 0 <= n < sz ->
     in_object p t (p_tprel p, var_size (p_build p)) (get_abi p t off + offset_of (p_build p) f + n)).
Proof. intros p t0 y HP N S tr s t i off. apply (own_area p t0 y tr s t i off HP N S). Qed.
Print Assumptions C60_own_area.

(** Threads with different thread pointers have different areas. *)
Theorem C60_areas_differ : forall p t0 y, abi_layout p -> ~ libc_active y -> sane y ->
  forall tr s t u i j a b, run (with_tls p t0 y) tr s -> knows tr t -> knows tr u ->
  readable s t VOff i a -> readable s u VOff j b ->
  get_abi p t a = get_abi p u b -> p_tp p t = p_tp p u.
Proof. intros p t0 y HP N S tr s t u i j a b. apply (apart p t0 y tr s t u i j a b HP N S). Qed.
Print Assumptions C60_areas_differ.

(** The area has any alignment the kernel may ask for that passes the assertion on
    AT_RSEQ_ALIGN (a power of two up to 1024). *)
Theorem C60_aligned : forall p t k, abi_layout p -> 0 <= k -> 2 ^ k <= 1024 -> area p t mod 2 ^ k = 0.
Proof.
  intros p t k HP H1 H2. apply aligned; auto. split; auto.
  change 1024 with (2 ^ 10) in H2. apply Z.pow_le_mono_r_iff in H2; lia.
Qed.
Print Assumptions C60_aligned.

(** With a kernel whose features fit 32 bytes: every registration has length 32,
    and what the kernel updates are bytes of the object of the registered thread
    and of no other thread-local object.  Missing: feature sizes above 32, for
    which it is false, see below. *)
Theorem C60_kernel_writes_partial : forall p t0 y, abi_layout p -> sane y -> features y <= 32 ->
  forall tr s, run (with_tls p t0 y) tr s -> forall t len, In (LSys t CReg len true) tr ->
  len = 32 /\ forall n, may_update y len n = true ->
    in_object p t (p_tprel p, var_size (p_build p)) (area p t + n) /\
    forall o, In o (p_others p) -> ~ in_object p t o (area p t + n).
Proof. exact kernel_inside. Qed.
Print Assumptions C60_kernel_writes_partial.

(** With any kernel that passes the assertion on AT_RSEQ_FEATURE_SIZE, the updates
    stay within the 1024 bytes that src/rseq.c:67-72 takes to be its own. *)
Theorem C60_kernel_writes_1024 : forall p t0 y, sane y ->
  forall tr s, run (with_tls p t0 y) tr s -> forall t len, In (LSys t CReg len true) tr ->
  forall n, may_update y len n = true -> reserved p t (area p t + n).
Proof. exact kernel_reserved. Qed.
Print Assumptions C60_kernel_writes_1024.

(** ** A concrete program *)

(** x86-64; the area 1024 bytes below the thread pointer, 8 bytes of another
    library behind it, and a buffer of 512 bytes. *)
Definition prog : program :=
  {| p_build := Amd64; p_tp := fun t => 2 ^ 30 + 2 ^ 20 * (Z.of_nat t mod 2 ^ 20); p_tprel := -1024;
     p_others := [(-992, 8); (-512, 512)] |}.

Lemma prog_layout : abi_layout prog.
Proof.
  assert (B : forall t, 0 <= Z.of_nat t mod 2 ^ 20 < 2 ^ 20) by (intros t; apply Z.mod_pos_bound; lia).
  assert (W : word Amd64 = 2 ^ 64) by reflexivity.
  unfold abi_layout, fits. cbn [prog p_build p_tp p_tprel p_others]. rewrite W, var_size_32. split; [|split; [|split]].
  - intros t. specialize (B t). lia.
  - intros t. unfold var_align.
    replace (2 ^ 30 + 2 ^ 20 * (Z.of_nat t mod 2 ^ 20) + -1024) with ((2 ^ 20 + 2 ^ 10 * (Z.of_nat t mod 2 ^ 20) - 1) * 1024) by lia.
    apply Z.mod_mul. lia.
  - intros o [<-|[<-|[<-|[]]]]; cbn [fst snd]; (split; [lia|]); intros t; specialize (B t); lia.
  - intros o [<-|[<-|[]]]; cbn [fst snd]; lia.
Qed.

(** Thread 0 registers; then thread 1 does. *)
Definition two : list act := first_call ++ ACall 1 CReg :: steps 1 [1; 0; 1; 2; 0; 2; 0]%nat.

(** Two threads with a kernel of 28 bytes of features: both know of the
    initialisation that thread 0 did, and each computes its own area. *)
Example C60_case :
  let y := own_sys 28 in let y' := with_tls prog 0 y in
  abi_layout prog /\ ~ libc_active y /\ sane y /\ features y <= 32 /\
  run y' (events y' two) (ending y' two) /\ knows (events y' two) 1 /\
  readable (ending y' two) 1 VOff 1 (-1024) /\
  get_abi prog 0 (-1024) = 2 ^ 30 - 1024 /\ get_abi prog 1 (-1024) = 2 ^ 30 + 2 ^ 20 - 1024 /\
  In (LSys 1 CReg 32 true) (events y' two) /\ may_update y 32 24 = true /\ may_update y 32 28 = false.
Proof.
  intros y y'. split; [apply prog_layout|]. split; [apply own_sys_not_libc|]. split; [apply own_sys_sane; lia|].
  split; [vm_compute; discriminate|]. split; [apply events_run; vm_compute; reflexivity|].
  split; [apply knows_ret with (c := CReg) (r := 0); vm_compute; tauto|].
  split; [split; [vm_compute; lia|vm_compute; reflexivity]|].
  split; [vm_compute; reflexivity|]. split; [vm_compute; reflexivity|].
  split; [vm_compute; tauto|]. split; vm_compute; reflexivity.
Qed.

(** The full claim is false: with a kernel of 36 bytes of features the second
    thread registers with length 36, and the kernel's update of the bytes from 32
    on falls into the object of another library, which the toolchain may put
    directly behind the 32 bytes of the structure. *)
Theorem C60_kernel_writes_refuted : exists p t0 y tr s t len n o,
  abi_layout p /\ ~ libc_active y /\ sane y /\ run (with_tls p t0 y) tr s /\
  In (LSys t CReg len true) tr /\ may_update y len n = true /\
  In o (p_others p) /\ in_object p t o (area p t + n).
Proof.
  exists prog, 0%nat, (own_sys 36), (events (with_tls prog 0 (own_sys 36)) two), (ending (with_tls prog 0 (own_sys 36)) two),
    1%nat, 36, 32, (-992, 8).
  split; [apply prog_layout|]. split; [apply own_sys_not_libc|]. split; [apply own_sys_sane; lia|].
  split; [apply events_run; vm_compute; reflexivity|]. split; [vm_compute; tauto|]. split; [vm_compute; reflexivity|].
  split; [left; reflexivity|]. exists 0. split; [cbn [snd]; lia|vm_compute; reflexivity].
Qed.
Print Assumptions C60_kernel_writes_refuted.
