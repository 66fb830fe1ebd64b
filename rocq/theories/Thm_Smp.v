(** C42 and C43: how many CPUs per-CPU arrays must have room for (src/smp.c).
    [get_len lb cache e] is one call of get_possible_cpus_array_len() with the
    given cached value, the system answering as [e] says (SmpModel.v); the
    meaning of masks and directory names is in SmpSpec.v. *)
From Coq Require Import ZArith Bool List Lia.
From Verif Require Import SmpModel SmpSpec SmpProofs ExSmp.
Import ListNotations.
Local Open Scope Z_scope.

(** ** C42 *)

(** A well-formed mask, with or without newline, that fits the buffer, however
    the reads are split and interrupted: the length is the highest possible CPU
    plus one; and the call returns if reads are answered. *)
Theorem C42_array_len : forall lb e s rs, 32 <= lb -> mask_text s rs -> (forall cpu, possible rs cpu -> cpu < INT_MAX) ->
  mask_file e s \/ mask_file e (s ++ [10]) -> (length (e_file e) < CPUMASK_SIZE)%nat ->
  (forall n, get_len lb 0 e = Len n -> possible rs (n - 1) /\ forall cpu, possible rs cpu -> cpu < n) /\
  (enough_reads e -> exists n, get_len lb 0 e = Len n).
Proof. exact mask_len. Qed.
Print Assumptions C42_array_len.

(** The mask "0-3,8", read in pieces with interruptions. *)
Example C42_case :
  mask_text small_mask [(0, 3); (8, 8)] /\ mask_file (env_of (small_mask ++ [10]) small_reads) (small_mask ++ [10]) /\
  enough_reads (env_of (small_mask ++ [10]) small_reads) /\
  get_len 64 0 (env_of (small_mask ++ [10]) small_reads) = Len 9.
Proof.
  split; [|split; [|split]].
  - change small_mask with ((show 9 0 ++ 45 :: show 9 3) ++ 44 :: show 9 8).
    apply mt_more; [apply it_range|apply mt_last, it_one|reflexivity]; try lia; apply show_numeral; split; try lia; reflexivity.
  - split; [reflexivity|]. split; [reflexivity|]. cbn. intuition discriminate.
  - cbn. unfold enough_reads. cbn. lia.
  - vm_compute. reflexivity.
Qed.

(** Once a call has returned a length, all later calls return the same,
    whatever the system then answers. *)
Theorem C42_cached : forall lb es c n, 32 <= lb -> 0 <= c -> n <> 0 ->
  In (Len n) (calls lb c es) -> forall i j, nth_error (calls lb c es) i = Some (Len n) ->
  (i <= j)%nat -> (j < length es)%nat -> nth_error (calls lb c es) j = Some (Len n).
Proof. exact len_stable. Qed.
Print Assumptions C42_cached.

Example C42_cached_case :
  calls 64 0 [env_dir 0 0 None None; env_of small_mask small_reads; env_dir 100 100 None None] = [Len 0; Len 9; Len 9].
Proof. vm_compute. reflexivity. Qed.

(** The bound on the length of the text is needed: a longer mask is cut, perhaps
    in the middle of a number, and possible CPUs end up beyond the array. *)
Theorem C42_long_masks_refuted : exists e s rs n, mask_text s rs /\ (forall cpu, possible rs cpu -> cpu < INT_MAX) /\
  mask_file e s /\ get_len 64 0 e = Len n /\ exists cpu, possible rs cpu /\ n <= cpu.
Proof.
  exists (env_of long_mask [RShort 4096]), long_mask, long_ranges, 186. split; [exact long_mask_ok|]. split; [|split; [|split]].
  - intros cpu (a & b & [E|Hi] & Hc); [inversion E; subst; unfold INT_MAX; lia|].
    assert (H : possible (odds 3 1200) cpu) by (exists a, b; auto). apply odds_bound in H. unfold INT_MAX. lia.
  - split; [reflexivity|]. split; [reflexivity|]. cbn. intuition discriminate.
  - vm_compute. reflexivity.
  - exists (3 + 2 * Z.of_nat 1200). split; [|lia]. destruct (odds_last 1200 3) as (a & b & Hi & Hc).
    exists a, b. split; [right; exact Hi|exact Hc].
Qed.
Print Assumptions C42_long_masks_refuted.

(** ** C43 *)

(** When the mask cannot be read or has no usable number: the maximum of what
    sysconf says and one more than the highest cpuN directory, or 0.  ([Blocked]:
    read is interrupted again and again.) *)
Theorem C43_fallback_partial : forall lb e n, 32 <= lb -> bad_mask e ->
  e_sc1 e = e_sc2 e -> e_dir1 e = e_dir2 e ->
  sane_listing (e_dir1 e) -> dir_len (e_dir1 e) n -> - 2 ^ 31 <= e_sc1 e <= INT_MAX ->
  get_len lb 0 e = Blocked \/ get_len lb 0 e = Len (Z.max 0 (Z.max (e_sc1 e) n)).
Proof. exact fallback_len. Qed.
Print Assumptions C43_fallback_partial.

(** Directories cpufreq, cpu0, cpu11, cpuidle; sysconf says 4. *)
Example C43_case :
  bad_mask (env_dir 4 4 small_dir small_dir) /\ sane_listing small_dir /\ dir_len small_dir 12 /\
  get_len 64 0 (env_dir 4 4 small_dir small_dir) = Len 12 /\ get_len 64 0 (env_dir 40 40 small_dir small_dir) = Len 40.
Proof.
  split; [left; reflexivity|]. split; [exact small_dir_sane|]. split; [exact small_dir_len|]. vm_compute. auto.
Qed.
(** Texts without a usable number: "0-" and "0-9999999999". *)
Example C43_bad_texts : bad_text [48; 45] /\ bad_text (48 :: 45 :: show 11 9999999999).
Proof.
  split.
  - exists []. split; [|left; exact I]. split; [intros c []|]. right. exists [48], 45. repeat split; auto. discriminate.
  - assert (Hn : numeral (show 11 9999999999) 9999999999) by (apply show_numeral; split; [lia|reflexivity]).
    exists (show 11 9999999999). split; [split|].
    + eapply numeral_nosep; eauto.
    + right. exists [48], 45. repeat split; auto. discriminate.
    + right. exists (show 11 9999999999), [], 9999999999. rewrite app_nil_r. repeat split; auto; try apply Hn. unfold INT_MAX. lia.
Qed.

(** Whatever the system answers: the result is not negative, 0 is not cached, a
    cached value stays, and nothing is read outside of the buffer. *)
Theorem C43_never_negative : forall lb c e, 32 <= lb -> 0 <= c ->
  get_len lb c e <> Oob /\ (forall n, get_len lb c e = Len n -> 0 <= n /\ (c <> 0 -> n = c)).
Proof. exact len_safe. Qed.
Print Assumptions C43_never_negative.

(** A directory whose number does not fit a long is passed over. *)
Theorem C43_unrepresentable_ignored : forall lb c e ds1 d ds2 k, cpu_dir d k -> long_max lb <= k ->
  get_len lb c (with_dirs e (Some (ds1 ++ d :: ds2))) = get_len lb c (with_dirs e (Some (ds1 ++ ds2))).
Proof. exact huge_ignored. Qed.
Print Assumptions C43_unrepresentable_ignored.
Example C43_unrepresentable_case : cpu_dir (dir true (show 12 3000000000)) 3000000000 /\ long_max 32 <= 3000000000 /\
  get_len 32 0 (with_dirs (env_dir 1 1 None None) (Some [dir true [51]; dir true (show 12 3000000000)])) = Len 4.
Proof.
  split; [|split; [vm_compute; discriminate|vm_compute; reflexivity]].
  split; auto. exists (show 12 3000000000). split; auto. apply show_numeral. split; [lia|reflexivity].
Qed.

(** The hypotheses of [C43_fallback_partial] are needed.  A directory cpu2147483647 makes
    the addition of one overflow. *)
Theorem C43_overflow_refuted : exists e, bad_mask e /\ get_len 64 0 e = Overflow.
Proof.
  exists (env_dir 4 4 (Some [dir true (show 11 2147483647)]) (Some [dir true (show 11 2147483647)])).
  split; [left; reflexivity|vm_compute; reflexivity].
Qed.
Print Assumptions C43_overflow_refuted.

(** A directory with a larger number makes the scan forget the others: with a
    directory cpu3, sysconf saying 1, the length is 1. *)
Theorem C43_forgets_directories_refuted : exists e d ds, bad_mask e /\ e_dir1 e = Some ds /\ e_dir2 e = Some ds /\
  e_sc1 e = e_sc2 e /\ In d ds /\ cpu_dir d 3 /\ get_len 64 0 e = Len 1.
Proof.
  exists (env_dir 1 1 (Some [dir true [51]; dir true (show 11 3000000000)]) (Some [dir true [51]; dir true (show 11 3000000000)])),
    (dir true [51]), [dir true [51]; dir true (show 11 3000000000)].
  split; [left; reflexivity|]. repeat (split; [reflexivity || (left; reflexivity)|]). split; [|vm_compute; reflexivity].
  split; auto. exists [51]. split; auto. split; [discriminate|]. split; [repeat constructor; unfold digit; lia|reflexivity].
Qed.
Print Assumptions C43_forgets_directories_refuted.

(** sysconf() is called twice by the macro __max: if the second answer is
    smaller, the length is below that of the directories. *)
Theorem C43_sysconf_twice_refuted : exists e n, bad_mask e /\ e_dir1 e = e_dir2 e /\ sane_listing (e_dir1 e) /\
  dir_len (e_dir1 e) n /\ exists k, get_len 64 0 e = Len k /\ k < n.
Proof.
  exists (env_dir 16 2 small_dir small_dir), 12. split; [left; reflexivity|]. split; [reflexivity|].
  split; [exact small_dir_sane|]. split; [exact small_dir_len|]. exists 2. split; [vm_compute; reflexivity|lia].
Qed.
Print Assumptions C43_sysconf_twice_refuted.
