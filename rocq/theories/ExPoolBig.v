(** Sizes that overflow size_t: witnesses for C21 and C32. *)
From Coq Require Import ZArith Bool List Lia.
From Verif Require Import UtilsModel RseqIR PoolVM PoolModel PoolWorld PoolHist ExPool.
Import ListNotations.
Local Open Scope Z_scope.

(** A stride of 16 GiB and 2^30 + 1 CPUs: 2^64 + 2^34 bytes. *)
Definition big (strd n : Z) : attr :=
  {| init_set := false; robust_set := false; type := TYPE_PERCPU; stride := strd; max_nr_cpus := n;
     max_nr_ranges := 1; poison_set := false; poison := 0; populate_policy := COW_ZERO |}.
Definition big_at : Z := 17179860992.   (* 2^34 - 8192 *)
Definition big_an : answers := grant big_at.

Lemma big_ok : forall s n, 0 <= s < 2 ^ 64 -> attr_ok e0 (big s n).
Proof. intros s n H. change (wmax e0) with (2 ^ 64). constructor; cbn; auto; lia. Qed.
Lemma e0_ok : machine_ok e0.
Proof. split; [exists 12; split; [cbn; lia|reflexivity]|cbn; lia]. Qed.
Lemma v0_ok : address_space_ok e0 v0.
Proof. split; [|split]; cbn; [discriminate|discriminate|]. intros a H H'. congruence. Qed.

Definition big_vm1 : vm :=
  {| data := fun x => if (big_at <=? x) && (x <? big_at + 34359742464) then 0 else data v0 x;
     mapped := fun q => in_pages e0 big_at 34359742464 q || mapped v0 q;
     link := fun q => if in_pages e0 big_at 34359742464 q then None else link v0 q;
     populated := fun q => negb (in_pages e0 big_at 34359742464 q) && populated v0 q;
     dontfork := fun q => negb (in_pages e0 big_at 34359742464 q) && dontfork v0 q;
     wipefork := fun q => negb (in_pages e0 big_at 34359742464 q) && wipefork v0 q |}.
Lemma mmap_here : forall e v len a, 0 < len -> len mod e_page e = 0 -> a mod e_page e = 0 -> e_page e <= a -> a + len <= user_limit e ->
  (forall i, 0 <= i -> mapped v (page e a + i) = false) ->
  mmap_anon e v len (Some a) = Some (a,
      {| data := fun x => if (a <=? x) && (x <? a + len) then 0 else data v x;
         mapped := fun q => in_pages e a len q || mapped v q;
         link := fun q => if in_pages e a len q then None else link v q;
         populated := fun q => negb (in_pages e a len q) && populated v q;
         dontfork := fun q => negb (in_pages e a len q) && dontfork v q;
         wipefork := fun q => negb (in_pages e a len q) && wipefork v q |}).
Proof.
  intros e v len a H1 H2 H3 H4 H5 H6. unfold mmap_anon.
  assert (H : forallb (fun i => negb (mapped v (page e a + i))) (zseq 0 (len / e_page e)) = true).
  { apply forallb_forall. intros i Hi. unfold zseq in Hi. apply in_map_iff in Hi. destruct Hi as (k & <- & _).
    rewrite H6; [reflexivity|lia]. }
  rewrite H. apply Z.ltb_lt in H1. apply Z.eqb_eq in H2, H3. apply Z.leb_le in H4, H5. rewrite H1, H2, H3, H4, H5. reflexivity.
Qed.
Lemma big_mmap : mmap_anon e0 v0 34359742464 (Some big_at) = Some (big_at, big_vm1).
Proof.
  refine (mmap_here e0 v0 34359742464 big_at _ _ _ _ _ _); [reflexivity|reflexivity|reflexivity|discriminate|discriminate|].
  intros i Hi. change (page e0 big_at) with 4194302. cbn [v0 mapped]. apply Z.eqb_neq. lia.
Qed.
Ltac step := match goal with |- context [if ?c then _ else _] => let b := eval vm_compute in c in
   match b with true => idtac | false => idtac end; change c with b; cbv iota end.
Definition big_vm2 : vm := munmap e0 big_vm1 34359738368 17179865088.
Lemma big_aligned : aligned_mmap_anonymous e0 v0 4096 17179869184 17179869184 8192 (Some big_at) true true =
  Ok (Some (17179869184, big_at), big_vm2).
Proof.
  unfold aligned_mmap_anonymous. cbv zeta. repeat step.
  match goal with |- context [mmap_anon e0 v0 ?l _] => change l with 34359742464 end.
  rewrite big_mmap. cbv beta iota zeta. repeat step. cbn [bind]. repeat step. cbn [bind]. repeat step. reflexivity.
Qed.
Definition big_at_ : attr := big (2 ^ 34) (2 ^ 30 + 1).
Definition big_P0 : pool := {| range_list := []; nr_ranges := 0; item_len := 64; item_order := 6;
                free_list_head := 0; pattr := big_at_ |}.
Definition big_r : range := {| header := big_at; base := 17179869184; init := None; next_unused := 0; mmap_addr := big_at; mmap_len := 17179877376;
   alloc_bitmap := None |}.
Lemma big_range : range_create e0 big_P0 big_an v0 = Ok (Some big_r, set_nr big_P0 1, big_vm2).
Proof.
  unfold range_create. cbv zeta. step.
  match goal with |- context [aligned_mmap_anonymous e0 v0 ?p ?l ?s ?h ?c ?t ?u] => change (aligned_mmap_anonymous e0 v0 p l s h c t u) with
    (aligned_mmap_anonymous e0 v0 4096 17179869184 17179869184 8192 (Some big_at) true true) end.
  rewrite big_aligned. cbn [bind init]. change (populate_policy (pattr big_P0) =? COW_INIT) with false. cbv iota.
  change (robust_set (pattr big_P0)) with false. change (init_set (pattr big_P0)) with false. cbn [andb]. reflexivity. 
Qed.

Definition big_P1 := set_ranges (set_nr big_P0 1) [big_r].
Lemma big_create : mempool_create e0 true 64 (Some big_at_) big_an v0 = Ok (Made big_P1, big_vm2).
Proof.
  unfold mempool_create. replace (complete_attr e0 64 (Some big_at_)) with (@Ok (Z * Z * attr + Z) (inl (64, 6, big_at_))) by (vm_compute; reflexivity).
  cbn [bind]. change (negb (an_calloc big_an)) with false. cbv iota zeta. fold big_P0. rewrite big_range. reflexivity.
Qed.
Definition big_P2 := set_ranges big_P1 [set_unused big_r 64].
Lemma big_malloc : malloc_locked e0 big_P1 big_an big_vm2 = Ok (Some (set_unused big_r 64, 0, 17179869184), big_P2, big_vm2).
Proof. reflexivity. Qed.
Lemma p_overflow : exists e v0 len at_ an an' w1 w2 P a cpu,
  machine_ok e /\ address_space_ok e v0 /\ 0 <= len < wmax e /\ attr_ok e at_ /\ max_nr_cpus at_ < 2 ^ 31 /\
  run1 e (OCreate 1 true len (Some at_) an) {| w_vm := v0; w_pools := [] |} = Ok (w1, OutMade) /\
  run1 e (OMalloc 1 an') w1 = Ok (w2, OutItem a) /\
  In (1, P) (w_pools w2) /\ 0 <= cpu < max_nr_cpus (pattr P) /\
  mapped (w_vm w2) (page e (percpu_ptr P a cpu)) = false.
Proof.
  exists e0, v0, 64, big_at_, big_an, big_an, {| w_vm := big_vm2; w_pools := [(1, big_P1)] |},
    {| w_vm := big_vm2; w_pools := [(1, big_P2)] |}, big_P2, 17179869184, 1.
  split; [exact e0_ok|]. split; [exact v0_ok|]. split; [change (wmax e0) with (2 ^ 64); lia|]. split; [apply big_ok; lia|]. split; [reflexivity|].
  split; [unfold run1; cbn [w_vm w_pools]; rewrite big_create; reflexivity|].
  split; [unfold run1; cbn [w_vm w_pools lookup]; change (lookup 1 [(1, big_P1)]) with (Some big_P1); cbv iota; rewrite big_malloc; reflexivity|].
  split; [now left|]. split; [cbn; lia|].
  vm_compute; reflexivity.
Qed.

(** A stride of 2^63 bytes. *)
Lemma p_abort : exists e v at_, machine_ok e /\ address_space_ok e v /\ attr_ok e at_ /\
  (exists o, accepted e 64 at_ o) /\
  forall an, an_calloc an = true -> mempool_create e false 64 (Some at_) an v = Abort.
Proof.
  exists e0, v0, (big (2 ^ 63) 1). split; [exact e0_ok|]. split; [exact v0_ok|]. split; [apply big_ok; lia|]. split.
  - exists 6. split; [cbn; lia|]. split; [lia|]. split.
    { intros k Hk Hl. destruct (Z_lt_le_dec k 6); [|lia]. assert (2 ^ k <= 2 ^ 5) by (apply Z.pow_le_mono_r; lia). lia. }
    split; [right; reflexivity|]. split; [left; cbn; lia|]. split; [cbn; lia|]. split; [cbn; lia|]. exists 63. reflexivity.
  - intros an Ha. destruct an. cbn in Ha. subst. reflexivity.
Qed.
