(** C39: a COW_ZERO pool does not write to the memory of an idle CPU, after every
    history of calls and program writes (PoolQuietSpec.v: [quiet]), for every page
    size, byte order, number of CPUs, stride, item length and answer of the
    system, with any number of other pools of any kind. *)
From Coq Require Import ZArith Bool List Lia Znumtheory.
From Verif Require Import UtilsModel RseqIR PoolVM PoolVMLemmas PoolModel PoolInv PoolWorld PoolHist PoolProps PoolQuietSpec PoolQuiet ExPool.
Import ListNotations.
Local Open Scope Z_scope.

Lemma idle_part : forall e strict v0 id cpu lo g w L F P x, machine_ok e -> address_space_ok e v0 ->
  quiet e strict v0 id (fun P x => part e P cpu lo g /\ lo <= x < lo + g) w L F ->
  lookup id (w_pools w) = Some P -> lazy P cpu -> part e P cpu lo g -> lo <= x < lo + g ->
  populated (w_vm w) (page e x) = false /\ view e (w_vm w) x = 0.
Proof.
  intros e strict v0 id cpu lo g w L F P x (He & Hn) Hv Hq Hl Hz Hp Hx.
  pose proof (space_wf _ _ Hv) as Hwf.
  assert (HS : still e id cpu lo g w) by (apply (quiet_still e He Hn strict v0 id cpu lo g _ w L F Hwf (fun Q y HQ Hy => conj HQ Hy) Hq)).
  assert (HW : winv e strict v0 w L F) by (apply (reach_inv e He Hn strict v0 w L F Hwf); exact (quiet_reach _ _ _ _ _ _ _ _ Hq)).
  split; [exact (HS P Hl Hz Hp x Hx)|].
  pose proof (wi_pools _ _ _ _ _ _ HW _ _ (lookup_in _ _ _ Hl)) as HI. pose proof (pi_ranges _ _ _ _ _ HI) as HF. rewrite Forall_forall in HF.
  pose proof Hp as (Hg & Hgp & Hgi & r & k & Hr & Hk & Hgk & Elo). pose proof Hz as (_ & _ & _ & Hc & _).
  pose proof (lazy_cow _ _ Hz) as Hcw.
  eapply part_zero with (P := P) (cpu := cpu) (g := g) (r := r) (k := k); eauto.
  - apply (pi_geom _ _ _ _ _ HI).
  - apply (wi_wf _ _ _ _ _ _ HW).
  - intros y Hy. exact (HS P Hl Hz Hp y Hy).
Qed.

Lemma idle_cpu : forall e strict v0 id cpu w L F P x, machine_ok e -> address_space_ok e v0 ->
  quiet e strict v0 id (fun P => on_cpu P cpu) w L F ->
  lookup id (w_pools w) = Some P -> lazy P cpu -> on_cpu P cpu x ->
  populated (w_vm w) (page e x) = false /\ view e (w_vm w) x = 0.
Proof.
  intros e strict v0 id cpu w L F P x Hm Hv Hq Hl Hz (r & Hr & Hx).
  assert (HW : winv e strict v0 w L F) by (apply (reach_inv e (proj1 Hm) (proj2 Hm) strict v0 w L F (space_wf _ _ Hv)); exact (quiet_reach _ _ _ _ _ _ _ _ Hq)).
  pose proof (wi_pools _ _ _ _ _ _ HW _ _ (lookup_in _ _ _ Hl)) as HI. pose proof (pi_geom _ _ _ _ _ HI) as HG.
  apply idle_part with (strict := strict) (v0 := v0) (id := id) (cpu := cpu) (lo := base r + stride (pattr P) * cpu) (g := stride (pattr P)) (L := L) (F := F) (P := P); auto.
  - clear - Hq. induction Hq as [|w L F o w' y Hq IH Hal Hrun Hzc Hsp|w L F Hq IH Hpl|w L F v' Hq IH Hra]; [constructor| |now apply quiet_fork|now apply quiet_rest].
    eapply quiet_step; eauto.
    destruct o; cbn [spares] in *; auto. intros Q z HQ Hz ((Hg & _ & _ & r' & k & Hr' & Hk & Hgk & Elo) & Hzb).
    apply (Hsp Q z HQ Hz). exists r'. split; auto. nia.
  - split; [apply (strd_pos _ _ HG)|]. split; [apply (psz_strd _ _ HG)|]. split; [apply (item_strd _ _ HG)|].
    exists r, 0. split; auto. split; [lia|]. split; [lia|]. lia.
  - lia.
Qed.

(** ** C39 *)
(** As long as the program only asks for zero contents in the pool and does not
    itself write to the pool's memory for the CPU, no page of that memory has been
    written since it was mapped: it has no memory of its own, and reads as zero. *)
Theorem C39_idle_cpu : forall e strict v0 id cpu w L F P x, machine_ok e -> address_space_ok e v0 ->
  quiet e strict v0 id (fun P => on_cpu P cpu) w L F ->
  lookup id (w_pools w) = Some P -> lazy P cpu -> on_cpu P cpu x ->
  populated (w_vm w) (page e x) = false /\ view e (w_vm w) x = 0.
Proof. exact idle_cpu. Qed.
Print Assumptions C39_idle_cpu.

(** The same for any part of that memory made of whole pages and whole items: what
    the program writes elsewhere, on this CPU or others, does not matter. *)
Theorem C39_idle_part : forall e strict v0 id cpu lo g w L F P x, machine_ok e -> address_space_ok e v0 ->
  quiet e strict v0 id (fun P x => part e P cpu lo g /\ lo <= x < lo + g) w L F ->
  lookup id (w_pools w) = Some P -> lazy P cpu -> part e P cpu lo g -> lo <= x < lo + g ->
  populated (w_vm w) (page e x) = false /\ view e (w_vm w) x = 0.
Proof. exact idle_part. Qed.
Print Assumptions C39_idle_part.

(** ** A history that meets the hypotheses *)
Definition sparesb (id cpu : Z) (w : world) (o : op) : bool :=
  match o with
  | OWrite ps => match lookup id (w_pools w) with
    | Some P => forallb (fun p => negb (existsb (fun r => (base r + stride (pattr P) * cpu <=? fst p) &&
                                                     (fst p <? base r + stride (pattr P) * (cpu + 1))) (range_list P))) ps
    | None => true end
  | OFill i _ (Bytes bs) => negb (i =? id) || forallb (Z.eqb 0) bs
  | _ => true
  end.
Fixpoint hush (id cpu : Z) (os : list op) (w : world) : bool :=
  match os with
  | [] => true
  | o :: os => sparesb id cpu w o && match run1 e0 o w with Ok (w', _) => hush id cpu os w' | _ => false end
  end.
Lemma sparesb_ok : forall id cpu w o, sparesb id cpu w o = true -> zero_content id o /\ spares id (fun P => on_cpu P cpu) w o.
Proof.
  intros id cpu w o H. destruct o as [| | ? ? c| |ps|]; cbn [sparesb zero_content spares] in *; auto.
  - destruct c as [| |bs]; auto. split; auto. intros E. rewrite E, Z.eqb_refl in H. cbn in H. apply Forall_forall. intros b Hb.
    rewrite forallb_forall in H. apply Z.eqb_eq. auto.
  - split; auto. intros P x HP Hx (r & Hr & Hin). rewrite HP in H. apply in_map_iff in Hx. destruct Hx as (p & <- & Hp).
    rewrite forallb_forall in H. specialize (H p Hp). apply negb_true_iff in H.
    assert (Hf : existsb (fun r => (base r + stride (pattr P) * cpu <=? fst p) && (fst p <? base r + stride (pattr P) * (cpu + 1))) (range_list P) = true).
    { apply existsb_exists. exists r. split; auto. apply andb_true_iff. lia. }
    congruence.
Qed.
Lemma play_quiet : forall s id cpu os w lv fr, quiet e0 s v0 id (fun P => on_cpu P cpu) w lv fr -> hush id cpu os w = true ->
  forall w' lv' fr', play s os (w, lv, fr) = Some (w', lv', fr') -> quiet e0 s v0 id (fun P => on_cpu P cpu) w' lv' fr'.
Proof.
  intros s id cpu os. induction os as [|o os IH]; intros w lv fr Hr Hh w' lv' fr' Hp; cbn [play hush] in Hp, Hh.
  - injection Hp as <- <- <-. exact Hr.
  - destruct (allowedb s w lv o) eqn:Ea; [|discriminate].
    destruct (run1 e0 o w) as [[w1 x]| |] eqn:E; try discriminate. apply andb_prop in Hh. destruct Hh as (H1 & H2).
    apply sparesb_ok in H1. eapply IH; [|exact H2|exact Hp]. eapply quiet_step; eauto; [now apply allowedb_ok| |]; apply H1.
Qed.

(** A robust COW_ZERO pool of two CPUs: an item zeroed, one initialised with zeros,
    one not; the program writes the first on CPU 0 and frees it, and it is used
    again; another pool, initialised with 1, 2, 3, is written on both CPUs. *)
Definition os_idle : list op :=
  [ OCreate 7 true 12 (Some (attrs true COW_ZERO 0)) (grant 1048576);
    OMalloc 7 (grant 0); OFill 7 1056768 Zeroed;
    OWrite [(1056768, 11); (1056775, 12)];
    OMalloc 7 (grant 0); OFill 7 1056784 (Bytes [0; 0; 0; 0]);
    OCreate 8 true 12 (Some (attrs true COW_INIT 0)) (grant 2097152);
    OMalloc 8 (grant 0); OFill 8 2105344 (Bytes [1; 2; 3]);
    OWrite [(2105344 + 8192, 4)];
    OFree 1056768 8192;
    OMalloc 7 (grant 0); OFill 7 1056768 Any;
    OMalloc 7 (grant 0); OFill 7 1056800 Zeroed ].
Lemma played : forall id cpu os, plays true os = true -> hush id cpu os {| w_vm := v0; w_pools := [] |} = true ->
  quiet e0 true v0 id (fun P => on_cpu P cpu) (after true os) (live true os) (freed true os).
Proof.
  intros id cpu os Hp Hh. Transparent after live freed final plays. unfold plays in Hp. unfold after, live, freed, final.
  destruct (play true os start) as [[[w lv] fr]|] eqn:E; [|discriminate].
  eapply play_quiet; [apply quiet_start|exact Hh|exact E].
Qed.
Global Opaque after live freed final plays.
Definition in_cpu (P : pool) (cpu x : Z) : bool :=
  existsb (fun r => (base r + stride (pattr P) * cpu <=? x) && (x <? base r + stride (pattr P) * (cpu + 1))) (range_list P).
Lemma in_cpu_ok : forall P cpu x, in_cpu P cpu x = true -> on_cpu P cpu x.
Proof. intros P cpu x H. apply existsb_exists in H. destruct H as (r & Hr & H). exists r. split; auto. lia. Qed.
Example ex_C39 : machine_ok e0 /\ address_space_ok e0 v0 /\
  quiet e0 true v0 7 (fun P => on_cpu P 1) (after true os_idle) (live true os_idle) (freed true os_idle) /\
  lookup 7 (w_pools (after true os_idle)) = Some (pool_of true os_idle 7) /\ lazy (pool_of true os_idle 7) 1 /\
  on_cpu (pool_of true os_idle 7) 1 (1056768 + 8192) /\
  live true os_idle = [(7, 1056800); (7, 1056768); (8, 2105344); (7, 1056784)] /\
  populated (w_vm (after true os_idle)) (page e0 1056768) = true /\
  populated (w_vm (after true os_idle)) (page e0 (1056768 + 8192)) = false.
Proof.
  split; [apply machine0|]. split; [apply space0|].
  split; [apply played; vm_compute; reflexivity|].
  destruct (described true os_idle 7 true COW_ZERO 16) as (El & Er & Ep & Ei & Es & Ec); [vm_compute; reflexivity|].
  split; [exact El|]. split.
  { split; [exact Ep|]. split; [vm_compute; reflexivity|]. split; [intros _; vm_compute; reflexivity|]. split; [rewrite Ec; lia|]. now left. }
  split; [apply in_cpu_ok; vm_compute; reflexivity|]. split; [vm_compute; reflexivity|]. split; vm_compute; reflexivity.
Qed.

(** CPU 0 of a pool that is not robust is written by free: it holds the links. *)
Example ex_C39_cpu0 :
  let os := [ OCreate 7 true 12 (Some (attrs false COW_ZERO 0)) (grant 1048576); OMalloc 7 (grant 0); OFill 7 1056768 Zeroed; OFree 1056768 8192 ] in
  plays true os = true /\ populated (w_vm (after true (firstn 3 os))) (page e0 1056768) = false /\
  populated (w_vm (after true os)) (page e0 1056768) = true /\ populated (w_vm (after true os)) (page e0 (1056768 + 8192)) = false.
Proof. cbv zeta. repeat split; vm_compute; reflexivity. Qed.
