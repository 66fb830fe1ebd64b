(** Concrete texts for Thm_Smp.v. *)
From Coq Require Import ZArith Bool List Lia.
From Verif Require Import SmpModel SmpSpec SmpProofs.
Import ListNotations.
Local Open Scope Z_scope.

(** Decimal representation of numbers below 10^f. *)
Fixpoint show (f : nat) (n : Z) : list Z :=
  match f with
  | O => [48]
  | S f' => if n <? 10 then [48 + n] else show f' (n / 10) ++ [48 + n mod 10]
  end.
Lemma value_snoc : forall s c, value (s ++ [c]) = 10 * value s + (c - 48).
Proof.
  induction s as [|x s IH]; intros c; cbn [app value length].
  - cbn [Z.of_nat]. change (10 ^ 0) with 1. lia.
  - rewrite IH, app_length. cbn [length]. replace (Z.of_nat (length s + 1)) with (Z.of_nat (length s) + 1) by lia.
    rewrite Z.pow_add_r by lia. change (10 ^ 1) with 10. ring.
Qed.
Lemma show_numeral : forall f n, 0 <= n < 10 ^ Z.of_nat f -> numeral (show f n) n.
Proof.
  induction f as [|f IH]; intros n H.
  - cbn [Z.of_nat] in H. change (10 ^ 0) with 1 in H. assert (n = 0) by lia. subst. split; [discriminate|].
    split; [repeat constructor; unfold digit; lia|reflexivity].
  - cbn [show]. destruct (Z.ltb_spec n 10).
    + split; [discriminate|]. split; [repeat constructor; unfold digit; lia|]. cbn [value length Z.of_nat].
      change (10 ^ 0) with 1. lia.
    + rewrite Nat2Z.inj_succ, Z.pow_succ_r in H by lia.
      assert (Hd : 0 <= n / 10 < 10 ^ Z.of_nat f) by (split; [apply Z.div_pos; lia|apply Z.div_lt_upper_bound; lia]).
      destruct (IH _ Hd) as (_ & H2 & H3). pose proof (Z.mod_pos_bound n 10 ltac:(lia)).
      split; [intros E; apply app_eq_nil in E; destruct E; discriminate|]. split.
      * apply Forall_app. split; auto. repeat constructor; unfold digit; lia.
      * rewrite value_snoc, H3. pose proof (Z.div_mod n 10 ltac:(lia)). lia.
Qed.

(** k, k + 2, ..., k + 2 n *)
Fixpoint odds_text (k : Z) (n : nat) : list Z :=
  match n with O => show 9 k | S n' => show 9 k ++ 44 :: odds_text (k + 2) n' end.
Fixpoint odds (k : Z) (n : nat) : list (Z * Z) :=
  match n with O => [(k, k)] | S n' => (k, k) :: odds (k + 2) n' end.
Lemma odds_mask : forall n k, 0 <= k -> k + 2 * Z.of_nat n < 10 ^ 9 -> mask_text (odds_text k n) (odds k n).
Proof.
  assert (Hi : forall k, 0 <= k < 10 ^ 9 -> item_text (show 9 k) (k, k)).
  { intros k H. apply it_one. apply show_numeral. exact H. }
  induction n as [|n IH]; intros k H1 H2.
  - apply mt_last. apply Hi. lia.
  - specialize (IH (k + 2) ltac:(lia) ltac:(lia)). cbn [odds_text odds].
    assert (E : exists rs, odds (k + 2) n = (k + 2, k + 2) :: rs) by (destruct n; cbn; eauto).
    destruct E as (rs & E). rewrite E in *. apply mt_more; auto; [apply Hi; lia|cbn; lia].
Qed.
Lemma odds_bound : forall n k cpu, possible (odds k n) cpu -> k <= cpu <= k + 2 * Z.of_nat n.
Proof.
  induction n as [|n IH]; intros k cpu (a & b & Hi & Hc); cbn in Hi.
  - destruct Hi as [E|[]]. inversion E; subst. lia.
  - destruct Hi as [E|Hi]; [inversion E; subst; lia|]. assert (H : possible (odds (k + 2) n) cpu) by (exists a, b; auto).
    apply IH in H. lia.
Qed.
Lemma odds_last : forall n k, possible (odds k n) (k + 2 * Z.of_nat n).
Proof.
  induction n as [|n IH]; intros k.
  - exists k, k. cbn. split; auto. lia.
  - destruct (IH (k + 2)) as (a & b & Hi & Hc). exists a, b. split; [right; auto|lia].
Qed.

(** "0-1,3,5,...,2403" is longer than the buffer: the text is cut in the middle
    of 1859, after "185". *)
Definition long_mask : list Z := (show 9 0 ++ 45 :: show 9 1) ++ 44 :: odds_text 3 1200.
Definition long_ranges : list (Z * Z) := (0, 1) :: odds 3 1200.
Lemma long_mask_ok : mask_text long_mask long_ranges.
Proof.
  unfold long_mask, long_ranges. pose proof (odds_mask 1200 3 ltac:(lia) ltac:(reflexivity)) as H.
  change (odds 3 1200) with ((3, 3) :: odds 5 1199) in *. apply mt_more; auto; [|reflexivity].
  apply it_range; [apply show_numeral; split; [lia|reflexivity]|apply show_numeral; split; [lia|reflexivity]|lia].
Qed.

(** An environment with the given mask, read in one go, and otherwise failing. *)
Definition env_of (file : list Z) (reads : list ranswer) : env :=
  {| e_open := true; e_file := file; e_reads := reads; e_junk := fun _ => 120;
     e_sc1 := -1; e_sc2 := -1; e_dir1 := None; e_dir2 := None |}.

(** "0-3,8" followed by a newline, read byte by byte with interruptions *)
Definition small_mask : list Z := [48; 45; 51; 44; 56].
Definition small_reads : list ranswer :=
  [RShort 1; REintr; RShort 1; RShort 2; REintr; RShort 0; RShort 1; RShort 9; RShort 4096].

(** Directories "cpufreq", "cpu0", "cpu11", "cpuidle", and a file "cpu77". *)
Definition dir (b : bool) (s : list Z) : dirent := {| d_isdir := b; d_name := [99; 112; 117] ++ s |}.
Definition small_dir : listing :=
  Some [dir true [102; 114; 101; 113]; dir true [48]; dir true [49; 49]; dir true [105; 100; 108; 101]; dir false [55; 55]].
Definition env_dir (sc1 sc2 : Z) (d1 d2 : listing) : env :=
  {| e_open := false; e_file := []; e_reads := []; e_junk := fun _ => 120;
     e_sc1 := sc1; e_sc2 := sc2; e_dir1 := d1; e_dir2 := d2 |}.
Lemma dir_inv : forall b s n, cpu_dir (dir b s) n -> b = true /\ Forall digit s /\ value s = n.
Proof. intros b s n (H & t & E & (_ & H2 & H3)). cbn in *. injection E as <-. auto. Qed.
Lemma dir_odd : forall b s, odd_name (dir b s) -> exists c r, s = c :: r /\ (white c \/ c = 43 \/ c = 45).
Proof. intros b s (c & r & E & H). cbn in E. injection E as ->. eauto. Qed.
Lemma small_dir_len : dir_len small_dir 12.
Proof.
  split.
  - intros d k Hd Hk. cbn in Hd. unfold digit in *.
    destruct Hd as [<-|[<-|[<-|[<-|[<-|[]]]]]]; apply dir_inv in Hk; destruct Hk as (Hb & Hf & <-); try discriminate; cbn; try lia;
      inversion Hf; subst; unfold digit in *; lia.
  - right. exists (dir true [49; 49]). split; [cbn; auto 10|]. split; auto. exists [49; 49]. split; auto.
    split; [discriminate|]. split; [repeat constructor; unfold digit; lia|reflexivity].
Qed.
Lemma small_dir_sane : sane_listing small_dir.
Proof.
  intros d Hd. cbn in Hd. split.
  - intros Ho. destruct Hd as [<-|[<-|[<-|[<-|[<-|[]]]]]]; apply dir_odd in Ho; destruct Ho as (c & r & E & H);
      injection E as <- <-; unfold white in H; cbn in H; intuition (discriminate || lia).
  - intros k Hk. destruct Hd as [<-|[<-|[<-|[<-|[<-|[]]]]]]; apply dir_inv in Hk; destruct Hk as (Hb & Hf & <-); reflexivity.
Qed.
