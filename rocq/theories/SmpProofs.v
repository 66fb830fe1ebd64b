(** Proofs of C42 and C43. *)
From Coq Require Import ZArith Bool List Lia.
From Verif Require Import SmpModel SmpSpec.
Import ListNotations.
Local Open Scope Z_scope.

(** ** Numbers *)
Lemma isdigit_digit : forall c, isdigit c = true <-> digit c.
Proof. intros c. unfold isdigit, digit. rewrite andb_true_iff, !Z.leb_le. lia. Qed.

Lemma get_digits_app : forall u r acc, Forall digit u ->
  get_digits (u ++ r) acc = get_digits r (acc * 10 ^ Z.of_nat (length u) + value u).
Proof.
  induction u as [|c u IH]; intros r acc H.
  - cbn [app value length Z.of_nat]. f_equal. change (10 ^ 0) with 1. lia.
  - inversion H; subst. cbn [app get_digits]. apply isdigit_digit in H2. rewrite H2, IH by auto. f_equal.
    cbn [value length]. rewrite Nat2Z.inj_succ, Z.pow_succ_r by lia. ring.
Qed.

Lemma value_nonneg : forall u, Forall digit u -> 0 <= value u.
Proof.
  induction u as [|c u IH]; intros H; cbn [value]; [lia|]. inversion H; subst. specialize (IH H3). unfold digit in H2.
  apply Z.add_nonneg_nonneg; auto. apply Z.mul_nonneg_nonneg; [lia|]. apply Z.pow_nonneg. lia.
Qed.

Lemma get_digits_mono : forall s acc, 0 <= acc -> acc <= fst (get_digits s acc).
Proof.
  induction s as [|c s IH]; intros acc H; cbn [get_digits]; [cbn; lia|]. destruct (isdigit c) eqn:E; [|cbn; lia].
  apply isdigit_digit in E. unfold digit in E. specialize (IH (10 * acc + (c - 48)) ltac:(lia)). lia.
Qed.

Lemma isspace_white : forall c, isspace c = true <-> white c.
Proof.
  intros c. unfold isspace, white. rewrite orb_true_iff, andb_true_iff, Z.eqb_eq, !Z.leb_le. reflexivity.
Qed.
Lemma not_white : forall c, ~ white c -> isspace c = false.
Proof. intros c H. destruct (isspace c) eqn:E; auto. apply isspace_white in E. contradiction. Qed.
Lemma digit_not_space : forall c, digit c -> isspace c = false.
Proof. intros c H. unfold digit in H. unfold isspace. destruct (Z.eqb_spec c 32), (Z.leb_spec 9 c), (Z.leb_spec c 13); cbn; auto; lia. Qed.

Lemma get_number_num : forall u r n, numeral u n ->
  get_number (u ++ r) = Some (false, fst (get_digits r n), snd (get_digits r n)).
Proof.
  intros u r n (H1 & H2 & H3). destruct u as [|c u]; [congruence|]. unfold get_number.
  assert (Hc : digit c) by (inversion H2; auto).
  cbn [app skip_space]. rewrite (digit_not_space c Hc). unfold get_sign.
  unfold digit in Hc. destruct (Z.eqb_spec c 45); [lia|]. destruct (Z.eqb_spec c 43); [lia|].
  assert (Hd : isdigit c = true) by (apply isdigit_digit; unfold digit; lia). rewrite Hd.
  rewrite app_comm_cons, get_digits_app by auto. rewrite H3. replace (0 * 10 ^ Z.of_nat (length (c :: u)) + n) with n by lia.
  destruct (get_digits r n). reflexivity.
Qed.

Lemma get_number_not : forall t, not_number t -> (forall c r, t = c :: r -> c <> 45) -> get_number t = None.
Proof.
  intros [|c r] H H45; [reflexivity|]. cbn in H. destruct H as (H1 & H2 & H3). unfold get_number. cbn [skip_space].
  rewrite (not_white c H2). unfold get_sign. specialize (H45 c r eq_refl).
  destruct (Z.eqb_spec c 45); [lia|]. destruct (Z.eqb_spec c 43); [lia|].
  destruct (isdigit c) eqn:E; auto. apply isdigit_digit in E. tauto.
Qed.

(** ** Reading *)
Definition holds (buf : nat -> Z) (s : list Z) : Prop := forall i, (i < length s)%nat -> buf i = nth i s 0.

Lemma put_in : forall buf k bs i, (k <= i < k + length bs)%nat -> put buf k bs i = nth (i - k) bs 0.
Proof.
  intros. unfold put. replace (Nat.leb k i) with true by (symmetry; apply Nat.leb_le; lia).
  replace (Nat.ltb i (k + length bs)) with true by (symmetry; apply Nat.ltb_lt; lia). reflexivity.
Qed.
Lemma put_out : forall buf k bs i, ~ (k <= i < k + length bs)%nat -> put buf k bs i = buf i.
Proof.
  intros. unfold put. destruct (Nat.leb k i) eqn:E1; auto. destruct (Nat.ltb i (k + length bs)) eqn:E2; auto.
  apply Nat.leb_le in E1. apply Nat.ltb_lt in E2. lia.
Qed.

Lemma nth_firstn_lt : forall (l : list Z) n i, (i < n)%nat -> nth i (firstn n l) 0 = nth i l 0.
Proof.
  induction l as [|x l IH]; intros n i H; [rewrite firstn_nil; destruct i; reflexivity|].
  destruct n; [lia|]. destruct i; cbn; auto. apply IH. lia.
Qed.
Lemma nth_skipn' : forall (l : list Z) n i, nth i (skipn n l) 0 = nth (n + i) l 0.
Proof.
  induction l as [|x l IH]; intros n i; [rewrite skipn_nil; destruct i, n; reflexivity|].
  destruct n; cbn; auto.
Qed.

Lemma put_more : forall file buf k n, holds buf (firstn k file) -> (k <= length file)%nat ->
  let bs := firstn n (skipn k file) in
  holds (put buf k bs) (firstn (k + length bs) file) /\ (k + length bs <= length file)%nat.
Proof.
  intros file buf k n H Hk bs. assert (Hl : (length bs <= length file - k)%nat).
  { unfold bs. rewrite firstn_length, skipn_length. lia. }
  split; [|lia]. intros i Hi. rewrite firstn_length in Hi. rewrite nth_firstn_lt by lia.
  destruct (Nat.lt_ge_cases i k).
  - rewrite put_out by lia. rewrite H by (rewrite firstn_length; lia). apply nth_firstn_lt. lia.
  - rewrite put_in by lia. unfold bs. rewrite nth_firstn_lt.
    + rewrite nth_skipn'. f_equal. lia.
    + unfold bs in Hi. rewrite firstn_length, skipn_length in Hi. lia.
Qed.

Lemma read_loop_got : forall file max ans buf k buf' total,
  read_loop file max ans buf k = RGot buf' total -> holds buf (firstn k file) -> (k <= length file)%nat -> (k < max)%nat ->
  total = Nat.min (length file) max /\ holds buf' (firstn total file).
Proof.
  induction ans as [|a ans IH]; intros buf k buf' total H Hb Hk Hm; [discriminate|].
  destruct a as [n| |]; cbn [read_loop] in H; [|eauto|discriminate].
  set (bs := firstn (Nat.min (Nat.max 1 n) (max - k)) (skipn k file)) in *.
  destruct (put_more file buf k (Nat.min (Nat.max 1 n) (max - k)) Hb Hk) as [P1 P2]. fold bs in P1, P2.
  assert (Hl : (length bs = Nat.min (Nat.min (Nat.max 1 n) (max - k)) (length file - k))%nat).
  { unfold bs. rewrite firstn_length, skipn_length. reflexivity. }
  destruct (Nat.ltb_spec (k + length bs) max) as [Hlt|Hge]; cbn [andb] in H.
  - destruct (Nat.eqb_spec (length bs) 0) as [E0|N0]; cbn [negb] in H.
    + injection H as <- <-. split; [lia|exact P1].
    + eapply IH; eauto.
  - injection H as <- <-. split; [lia|exact P1].
Qed.

Lemma read_loop_not_fail : forall file max ans buf k, ~ In RError ans -> read_loop file max ans buf k <> RFail.
Proof.
  induction ans as [|a ans IH]; intros buf k H; [discriminate|]. destruct a; cbn [read_loop].
  - destruct (_ && _)%bool; [|discriminate]. apply IH. intros Hi. apply H. right. auto.
  - apply IH. intros Hi. apply H. right. auto.
  - exfalso. apply H. left. auto.
Qed.

Lemma read_loop_enough : forall file max ans buf k,
  (length file - k < length (filter is_short ans))%nat -> ~ In RError ans -> read_loop file max ans buf k <> RBlocked.
Proof.
  induction ans as [|a ans IH]; intros buf k H He; [cbn in H; lia|]. destruct a; cbn [read_loop filter is_short length] in *.
  - destruct (_ && _)%bool eqn:E; [|discriminate]. apply andb_true_iff in E. destruct E as [_ E].
    apply negb_true_iff, Nat.eqb_neq in E. apply IH; [|intros Hi; apply He; right; auto].
    rewrite firstn_length, skipn_length in E |- *. lia.
  - apply IH; auto. intros Hi; apply He; right; auto.
  - exfalso. apply He. left. auto.
Qed.

Lemma read_loop_error : forall pre post file max buf k, ~ In RError pre ->
  (k + list_sum (map asked pre) <= length file)%nat -> (k + list_sum (map asked pre) < max)%nat ->
  read_loop file max (pre ++ RError :: post) buf k = RFail.
Proof.
  induction pre as [|a pre IH]; intros post file max buf k Hn H1 H2; [reflexivity|].
  assert (Hn' : ~ In RError pre) by (intros Hi; apply Hn; right; auto).
  destruct a; cbn [app read_loop map asked list_sum fold_right] in *.
  - change (fold_right Nat.add 0%nat (map asked pre)) with (list_sum (map asked pre)) in *.
    rewrite firstn_length, skipn_length.
    replace (Nat.min (Nat.min (Nat.max 1 n) (max - k)) (length file - k)) with (Nat.max 1 n) by lia.
    replace (Nat.ltb (k + Nat.max 1 n) max) with true by (symmetry; apply Nat.ltb_lt; lia).
    replace (Nat.eqb (Nat.max 1 n) 0) with false by (symmetry; apply Nat.eqb_neq; lia). cbn [andb negb].
    apply IH; auto; lia.
  - change (fold_right Nat.add 0%nat (map asked pre)) with (list_sum (map asked pre)) in *. apply IH; auto; lia.
  - exfalso. apply Hn. left. auto.
Qed.

(** ** The string in the buffer *)
Lemma holds_nil : forall buf, holds buf [].
Proof. intros buf i H. cbn in H. lia. Qed.

Lemma cstring_ok : forall s buf i n, holds buf s -> buf (length s) = 0 -> ~ In 0 s -> (i <= length s)%nat -> (length s < i + n)%nat ->
  cstring buf n i = Some (skipn i s).
Proof.
  intros s buf i n Hb H0 Hn. revert i. induction n as [|n IH]; intros i Hi Hl; [lia|]. cbn [cstring].
  destruct (Nat.eq_dec i (length s)) as [->|Hne].
  - rewrite H0, Z.eqb_refl, skipn_all. reflexivity.
  - assert (Hin : In (nth i s 0) s) by (apply nth_In; lia). pose proof (Hb i ltac:(lia)) as Eb.
    destruct (Z.eqb_spec (buf i) 0); [congruence|]. rewrite IH by lia.
    f_equal. rewrite Eb. clear - Hne Hi. assert (Hlt : (i < length s)%nat) by lia. clear Hne Hi. revert i Hlt.
    induction s as [|x s IH]; intros [|i] H; cbn in *; try lia; auto. apply IH. lia.
Qed.

Lemma cstring_some : forall buf n i, (exists j, (i <= j < i + n)%nat /\ buf j = 0) -> exists s, cstring buf n i = Some s.
Proof.
  induction n as [|n IH]; intros i (j & Hj & E); [lia|]. cbn [cstring]. destruct (Z.eqb_spec (buf i) 0); [eauto|].
  destruct (IH (S i)) as (s & ->); [|eauto]. exists j. split; auto. assert (j <> i) by congruence. lia.
Qed.

Lemma scan_back_le : forall buf i, (scan_back buf i <= S i)%nat.
Proof. induction i as [|i IH]; cbn [scan_back]; [lia|]. destruct (is_sep _); lia. Qed.

Lemma is_sep_ok : forall c, is_sep c = true <-> c = 44 \/ c = 45.
Proof. intros c. unfold is_sep. rewrite orb_true_iff, !Z.eqb_eq. tauto. Qed.

(** No separator in positions [1 .. i]. *)
Lemma scan_back_none : forall buf i, (forall j, (1 <= j <= i)%nat -> is_sep (buf j) = false) -> scan_back buf i = O.
Proof.
  induction i as [|i IH]; intros H; cbn [scan_back]; auto. rewrite H by lia. apply IH. intros j Hj. apply H. lia.
Qed.
Lemma scan_back_at : forall buf i k, (1 <= k <= i)%nat -> is_sep (buf k) = true ->
  (forall j, (k < j <= i)%nat -> is_sep (buf j) = false) -> scan_back buf i = S k.
Proof.
  induction i as [|i IH]; intros k Hk Hs H; [lia|]. cbn [scan_back]. destruct (Nat.eq_dec k (S i)) as [->|Hn].
  - rewrite Hs. reflexivity.
  - rewrite H by lia. apply IH; auto; [lia|]. intros j Hj. apply H. lia.
Qed.

Lemma last_part_scan : forall s t buf, last_part s t -> holds buf s -> s <> [] ->
  skipn (scan_back buf (length s - 1)) s = t /\ (scan_back buf (length s - 1) <= length s)%nat.
Proof.
  intros s t buf [Hn [->|(p & c & -> & Hc & Hp)]] Hb Hs.
  - rewrite scan_back_none; [split; [reflexivity|lia]|]. intros j Hj. destruct (is_sep (buf j)) eqn:E; auto.
    apply is_sep_ok in E. rewrite Hb in E by lia. assert (Hi : In (nth j t 0) t) by (apply nth_In; lia).
    apply Hn in Hi. lia.
  - assert (Hl : length (p ++ c :: t) = S (length p + length t)) by (rewrite app_length; cbn; lia).
    rewrite (scan_back_at buf _ (length p)).
    + split; [|rewrite Hl; lia]. clear. induction p; cbn; auto.
    + destruct p; [congruence|]. cbn [length] in *. lia.
    + apply is_sep_ok. rewrite Hb by lia. rewrite app_nth2 by lia. rewrite Nat.sub_diag. cbn. tauto.
    + intros j Hj. destruct (is_sep (buf j)) eqn:E; auto. apply is_sep_ok in E. rewrite Hb in E by lia.
      rewrite app_nth2 in E by lia. destruct (j - length p)%nat as [|k] eqn:Ek; [lia|]. cbn in E.
      assert (Hi : In (nth k t 0) t) by (apply nth_In; lia). apply Hn in Hi. lia.
Qed.

(** A file that fits in the buffer is parsed as its text. *)
Lemma terminate_holds : forall max buf s, (length s < max)%nat -> holds buf s ->
  holds (terminate max buf (length s)) s /\ terminate max buf (length s) (length s) = 0.
Proof.
  intros max buf s Hl H. unfold terminate. replace (Nat.ltb (length s) max) with true by (symmetry; apply Nat.ltb_lt; lia). split.
  - intros i Hi. rewrite put_out by (cbn; lia). auto.
  - rewrite put_in by (cbn; lia). rewrite Nat.sub_diag. reflexivity.
Qed.

Definition parse_text (lb : Z) (t : list Z) : presult :=
  match strtoul lb t with Some (v, _) => if v <? INT_MAX then PMax v else PBad | None => PBad end.

Lemma parse_ok : forall lb max buf s t, (length s < max)%nat -> holds buf s -> ~ In 0 s -> s <> [] -> last_part s t ->
  max_cpuid_from_mask lb max (terminate max buf (length s)) (length s) = parse_text lb t.
Proof.
  intros lb max buf s t Hl Hb Hn Hs Ht. destruct (terminate_holds max buf s Hl Hb) as [T1 T2].
  destruct (last_part_scan s t _ Ht T1 Hs) as [S1 S2].
  unfold max_cpuid_from_mask. destruct (length s) as [|l] eqn:El; [destruct s; cbn in El; congruence|].
  replace (S l - 1)%nat with l in * by lia. rewrite (cstring_ok s); auto; try lia.
  - rewrite S1. reflexivity.
  - rewrite El. exact T2.
Qed.

Lemma compute_text : forall lb e s t, mask_file e s -> (length s < CPUMASK_SIZE)%nat -> ~ In 0 s -> s <> [] -> last_part s t ->
  compute_len lb e = Blocked \/
  compute_len lb e = match parse_text lb t with
    | PMax id => Len (id + 1) | POob => Oob
    | PBad => match fallback lb (e_sc1 e) (e_sc2 e) (e_dir1 e) (e_dir2 e) with Some n => Len n | None => Overflow end end.
Proof.
  intros lb e s t (Ho & Hf & He) Hl Hn Hs Ht. unfold compute_len. rewrite Ho. cbn [negb]. rewrite Hf.
  destruct (read_loop s CPUMASK_SIZE (e_reads e) (e_junk e) 0) as [buf total| |] eqn:E; auto.
  - right. apply read_loop_got in E; [|apply holds_nil|lia|unfold CPUMASK_SIZE; lia].
    destruct E as [-> E]. rewrite Nat.min_l in * by lia. rewrite firstn_all in E.
    destruct (Nat.eqb_spec (length s) 0) as [E0|_]; [destruct s; cbn in E0; congruence|].
    rewrite (parse_ok lb CPUMASK_SIZE buf s t) by auto. reflexivity.
  - exfalso. eapply read_loop_not_fail; eauto.
Qed.

Lemma get_len_not_blocked : forall lb e, enough_reads e -> ~ In RError (e_reads e) -> compute_len lb e <> Blocked.
Proof.
  intros lb e H He. unfold compute_len. destruct (e_open e); cbn [negb].
  - pose proof (read_loop_enough (e_file e) CPUMASK_SIZE (e_reads e) (e_junk e) 0) as Hr. rewrite Nat.sub_0_r in Hr.
    specialize (Hr H He). destruct (read_loop _ _ _ _ _) as [b n| |]; try congruence.
    + destruct (Nat.eqb n 0); [destruct (fallback _ _ _ _ _); discriminate|].
      destruct (max_cpuid_from_mask _ _ _ _); try discriminate. destruct (fallback _ _ _ _ _); discriminate.
    + destruct (fallback _ _ _ _ _); discriminate.
  - destruct (fallback _ _ _ _ _); discriminate.
Qed.

(** ** Masks *)
Lemma numeral_digits : forall u n c, numeral u n -> In c u -> 48 <= c <= 57.
Proof. intros u n c (_ & H & _) Hi. rewrite Forall_forall in H. apply (H c Hi). Qed.
Lemma numeral_nosep : forall u n, numeral u n -> no_sep u.
Proof. intros u n H c Hc. apply (numeral_digits _ _ _ H) in Hc. lia. Qed.
Lemma numeral_nonneg : forall u n, numeral u n -> 0 <= n.
Proof. intros u n (_ & H & <-). apply value_nonneg; auto. Qed.

Lemma mask_chars : forall s rs, mask_text s rs -> (forall c, In c s -> c <> 0 /\ c <> 10) /\ s <> [].
Proof.
  assert (Hit : forall s r, item_text s r -> (forall c, In c s -> c <> 0 /\ c <> 10) /\ s <> []).
  { intros s r H. destruct H as [s a Ha|s t a b Ha Hb Hl].
    - split; [|apply Ha]. intros c Hc. apply (numeral_digits _ _ _ Ha) in Hc. lia.
    - split; [|destruct s; discriminate]. intros c Hc. apply in_app_or in Hc. destruct Hc as [Hc|[<-|Hc]]; try lia.
      + apply (numeral_digits _ _ _ Ha) in Hc. lia.
      + apply (numeral_digits _ _ _ Hb) in Hc. lia. }
  intros s rs H. induction H; [eauto|]. apply Hit in H. split; [|destruct s; discriminate].
  intros c Hc. apply in_app_or in Hc. destruct Hc as [Hc|[<-|Hc]]; try lia; [apply H|apply IHmask_text]; auto.
Qed.

(** The last number of the text is the highest CPU. *)
Lemma mask_last : forall s rs, mask_text s rs -> exists u n,
  numeral u n /\ (s = u \/ exists p c, s = p ++ c :: u /\ (c = 44 \/ c = 45) /\ p <> []) /\
  possible rs n /\ (forall cpu, possible rs cpu -> cpu <= n) /\ (forall a b, In (a, b) rs -> a <= b).
Proof.
  assert (Hit : forall s a b, item_text s (a, b) -> a <= b /\ exists u, numeral u b /\ (s = u \/ exists p c, s = p ++ c :: u /\ (c = 44 \/ c = 45) /\ p <> [])).
  { intros s a b H. inversion H; subst.
    - split; [lia|]. exists s. auto.
    - split; [lia|]. exists t. split; auto. right. exists s0, 45. repeat split; auto. apply H2. }
  intros s rs H. induction H as [s [a b] H|s t [a b] [a' b'] rs H Ht IH Hlt].
  - apply Hit in H. destruct H as (Hab & u & Hu & Hs). exists u, b. split; auto. split; auto. split; [|split].
    + exists a, b. cbn. split; auto. lia.
    + intros cpu (x & y & [E|[]] & Hxy). injection E as <- <-. lia.
    + intros x y [E|[]]. injection E as <- <-. lia.
  - apply Hit in H. destruct H as (Hab & u0 & Hu0 & Hs0). destruct IH as (u & n & Hu & Hs & (x & y & Hin & Hxy) & Hmax & Hord).
    cbn [fst snd] in Hlt. exists u, n. split; auto. split; [|split; [|split]].
    + right. destruct Hs as [->|(p & c & -> & Hc & Hp)].
      * exists s, 44. repeat split; auto. destruct Hs0 as [->|(p & c & -> & _)]; [apply Hu0|destruct p; discriminate].
      * exists (s ++ 44 :: p), c. rewrite <- app_assoc. repeat split; auto. destruct s; discriminate.
    + exists x, y. split; [right; auto|auto].
    + intros cpu (x' & y' & [E|Hi] & Hxy').
      * injection E as <- <-. assert (a' <= b') by (apply Hord; left; auto).
        specialize (Hmax a'). assert (possible ((a', b') :: rs) a') by (exists a', b'; split; [left; auto|lia]). apply Hmax in H0. lia.
      * apply Hmax. exists x', y'. auto.
    + intros x' y' [E|Hi]; [injection E as <- <-; lia|auto].
Qed.

Lemma parse_numeral : forall lb u r n, 32 <= lb -> numeral u n -> (r = [] \/ r = [10]) -> n < INT_MAX ->
  parse_text lb (u ++ r) = PMax n.
Proof.
  intros lb u r n Hlb Hu Hr Hn. unfold parse_text, strtoul. rewrite (get_number_num u r n Hu).
  replace (get_digits r n) with (n, r) by (destruct Hr as [-> | ->]; reflexivity). cbn [fst snd].
  pose proof (numeral_nonneg _ _ Hu). assert (2 ^ 32 <= 2 ^ lb) by (apply Z.pow_le_mono_r; lia).
  unfold INT_MAX in *. destruct (Z.leb_spec (2 ^ lb) n); [lia|]. destruct (Z.ltb_spec n (2 ^ 31 - 1)); [reflexivity|lia].
Qed.

Lemma parse_bad : forall lb t, 32 <= lb -> no_sep t ->
  (not_number t \/ exists u r n, t = u ++ r /\ numeral u n /\ INT_MAX <= n) -> parse_text lb t = PBad.
Proof.
  intros lb t Hlb Hns [H|(u & r & n & -> & Hu & Hn)]; unfold parse_text, strtoul.
  - rewrite get_number_not; auto. intros c r ->. specialize (Hns c). cbn in Hns. assert (c <> 44 /\ c <> 45) by auto. lia.
  - rewrite (get_number_num u r n Hu). pose proof (numeral_nonneg _ _ Hu). pose proof (get_digits_mono r n H).
    assert (2 ^ 32 <= 2 ^ lb) by (apply Z.pow_le_mono_r; lia). unfold INT_MAX in *.
    destruct (Z.leb_spec (2 ^ lb) (fst (get_digits r n))).
    + destruct (Z.ltb_spec (2 ^ lb - 1) (2 ^ 31 - 1)); [lia|reflexivity].
    + destruct (Z.ltb_spec (fst (get_digits r n)) (2 ^ 31 - 1)); [lia|reflexivity].
Qed.

(** ** C42 *)
Theorem mask_len : forall lb e s rs, 32 <= lb -> mask_text s rs -> (forall cpu, possible rs cpu -> cpu < INT_MAX) ->
  mask_file e s \/ mask_file e (s ++ [10]) -> (length (e_file e) < CPUMASK_SIZE)%nat ->
  (forall n, get_len lb 0 e = Len n -> possible rs (n - 1) /\ forall cpu, possible rs cpu -> cpu < n) /\
  (enough_reads e -> exists n, get_len lb 0 e = Len n).
Proof.
  intros lb e s rs Hlb Hm Hp Hf Hl. destruct (mask_chars s rs Hm) as [Hc Hs0].
  destruct (mask_last s rs Hm) as (u & n & Hu & Hsu & Hpn & Hmax & _).
  assert (Hn : n < INT_MAX) by auto. pose proof (numeral_nonneg _ _ Hu) as Hn0.
  assert (exists nl, (nl = [] \/ nl = [10]) /\ mask_file e (s ++ nl)) as (nl & Hnl & Hf').
  { destruct Hf as [Hf|Hf]; [exists []; rewrite app_nil_r; auto|exists [10]; auto]. }
  assert (HL : last_part (s ++ nl) (u ++ nl)).
  { split.
    - intros c Hi. apply in_app_or in Hi. destruct Hi as [Hi|Hi]; [apply (numeral_nosep _ _ Hu _ Hi)|].
      destruct Hnl as [-> | ->]; cbn in Hi; [contradiction|]. destruct Hi as [<-|[]]. lia.
    - destruct Hsu as [->|(p & c & -> & Hc' & Hp')]; [left; auto|]. right. exists p, c. rewrite <- app_assoc. auto. }
  assert (Hlen : (length (s ++ nl) < CPUMASK_SIZE)%nat).
  { destruct Hf' as (_ & E & _). rewrite E in Hl. exact Hl. }
  assert (H0 : ~ In 0 (s ++ nl)).
  { intros Hi. apply in_app_or in Hi. destruct Hi as [Hi|Hi]; [apply Hc in Hi; lia|].
    destruct Hnl as [-> | ->]; cbn in Hi; [contradiction|]. destruct Hi as [?|[]]. lia. }
  assert (Hne : s ++ nl <> []) by (destruct s; [congruence|discriminate]).
  pose proof (compute_text lb e (s ++ nl) (u ++ nl) Hf' Hlen H0 Hne HL) as Hcl.
  rewrite (parse_numeral lb u nl n Hlb Hu Hnl Hn) in Hcl.
  assert (E : compute_len lb e = Blocked \/ get_len lb 0 e = Len (n + 1)).
  { destruct Hcl as [Hcl|Hcl]; [auto|]. right. unfold get_len. cbn [Z.eqb negb]. rewrite Hcl.
    destruct (Z.ltb_spec (n + 1) 1); [lia|reflexivity]. }
  split.
  - intros n' Hn'. destruct E as [E|E].
    + unfold get_len in Hn'. cbn [Z.eqb negb] in Hn'. rewrite E in Hn'. discriminate.
    + rewrite E in Hn'. injection Hn' as <-. replace (n + 1 - 1) with n by lia. split; auto.
      intros cpu Hcpu. apply Hmax in Hcpu. lia.
  - intros He. destruct E as [E|E]; [|eauto]. exfalso. revert E. apply get_len_not_blocked; auto. apply Hf'.
Qed.

(** ** Directories *)
Lemma strtol_all : forall lb s n, numeral s n -> strtol lb s = Some (Z.min n (long_max lb), []).
Proof.
  intros lb s n H. unfold strtol. pose proof (get_number_num s [] n H) as E. rewrite app_nil_r in E. rewrite E. reflexivity.
Qed.

Lemma get_digits_all : forall s acc v, get_digits s acc = (v, []) -> Forall digit s /\ v = acc * 10 ^ Z.of_nat (length s) + value s.
Proof.
  induction s as [|c s IH]; intros acc v H; cbn [get_digits] in H.
  - injection H as <-. split; auto. cbn [value length Z.of_nat]. change (10 ^ 0) with 1. lia.
  - destruct (isdigit c) eqn:E; [|discriminate]. apply isdigit_digit in E. destruct (IH _ _ H) as [H1 H2]. split; auto.
    rewrite H2. cbn [value length]. rewrite Nat2Z.inj_succ, Z.pow_succ_r by lia. ring.
Qed.

Lemma strtol_numeral : forall lb r id, strtol lb r = Some (id, []) ->
  (forall c r', r = c :: r' -> isspace c = false /\ c <> 43 /\ c <> 45) ->
  exists n, numeral r n /\ id = Z.min n (long_max lb).
Proof.
  intros lb r id H Hodd. unfold strtol, get_number in H. destruct r as [|c r]; [discriminate|].
  destruct (Hodd c r eq_refl) as (O1 & O2 & O3). cbn [skip_space] in H. rewrite O1 in H. unfold get_sign in H.
  destruct (Z.eqb_spec c 45); [congruence|]. destruct (Z.eqb_spec c 43); [congruence|].
  destruct (isdigit c) eqn:Ed; [|discriminate]. destruct (get_digits (c :: r) 0) as [v r'] eqn:E. injection H as <- ->.
  apply get_digits_all in E. destruct E as [E1 E2]. exists v. split; [|reflexivity]. split; [discriminate|]. split; [auto|lia].
Qed.

Lemma after_cpu_ok : forall name r, after_cpu name = Some r <-> name = [99; 112; 117] ++ r.
Proof.
  intros name r. unfold after_cpu. destruct name as [|a [|b [|c l]]]; cbn; try (split; [discriminate|intros H; discriminate H]).
  destruct (Z.eqb_spec a 99), (Z.eqb_spec b 112), (Z.eqb_spec c 117); cbn; split; intros H; try discriminate; try congruence.
Qed.

Lemma scan_entry_ok : forall lb max d, 32 <= lb -> ~ odd_name d -> (forall k, cpu_dir d k -> k < INT_MAX) ->
  (scan_entry lb max d = max /\ forall k, cpu_dir d k -> k <= max) \/
  (max < scan_entry lb max d /\ cpu_dir d (scan_entry lb max d) /\ forall k, cpu_dir d k -> k = scan_entry lb max d).
Proof.
  intros lb max d Hlb Hodd Hk. unfold scan_entry.
  assert (Hlm : INT_MAX <= long_max lb).
  { unfold INT_MAX, long_max. assert (2 ^ 31 <= 2 ^ (lb - 1)) by (apply Z.pow_le_mono_r; lia). lia. }
  assert (Huniq : forall k k', cpu_dir d k -> cpu_dir d k' -> k = k').
  { intros k k' (_ & s & E & (_ & _ & V)) (_ & s' & E' & (_ & _ & V')). rewrite E in E'. apply app_inv_head in E'. congruence. }
  destruct (d_isdir d) eqn:Ed; [|left; split; auto; intros k [H _]; congruence].
  destruct (after_cpu (d_name d)) as [r|] eqn:Ea.
  - apply after_cpu_ok in Ea.
    assert (Hr : forall c r', r = c :: r' -> isspace c = false /\ c <> 43 /\ c <> 45).
    { intros c r' ->. destruct (isspace c) eqn:Es; [exfalso; apply Hodd; exists c, r'; apply isspace_white in Es; auto|].
      split; auto. split; intros ->; apply Hodd; eexists _, r'; eauto. }
    destruct (strtol lb r) as [[id [|x rest]]|] eqn:Es.
    + destruct (strtol_numeral lb r id Es Hr) as (n & Hn & ->).
      assert (Hd : cpu_dir d n) by (split; auto; exists r; auto). specialize (Hk n Hd).
      replace (Z.min n (long_max lb)) with n by lia.
      destruct (Z.ltb_spec n (long_max lb)); [|lia]. cbn [andb]. destruct (Z.ltb_spec max n).
      * right. split; [auto|]. split; [auto|]. intros k Hk2. apply Huniq; auto.
      * left. split; auto. intros k Hk'. rewrite (Huniq k n) by auto. lia.
    + left. split; auto. intros k (_ & s & E & Hs). rewrite Ea in E. apply app_inv_head in E. subst s.
      rewrite (strtol_all lb r k Hs) in Es. discriminate.
    + left. split; auto. intros k (_ & s & E & Hs). rewrite Ea in E. apply app_inv_head in E. subst s.
      rewrite (strtol_all lb r k Hs) in Es. discriminate.
  - left. split; auto. intros k (_ & s & E & Hs). apply after_cpu_ok in E. congruence.
Qed.

Lemma scan_all : forall lb ds max, 32 <= lb -> (forall d, In d ds -> ~ odd_name d /\ forall k, cpu_dir d k -> k < INT_MAX) ->
  let m := fold_left (scan_entry lb) ds max in
  max <= m /\ (forall d k, In d ds -> cpu_dir d k -> k <= m) /\ (m = max \/ exists d, In d ds /\ cpu_dir d m).
Proof.
  intros lb ds. induction ds as [|d ds IH]; intros max Hlb H m; cbn [fold_left] in m.
  - unfold m. split; [lia|]. split; [intros d k []|auto].
  - destruct (IH (scan_entry lb max d) Hlb ltac:(intros d' Hd'; apply H; right; auto)) as (I1 & I2 & I3). fold m in I1, I2, I3.
    destruct (H d ltac:(left; auto)) as [Ho Hk].
    destruct (scan_entry_ok lb max d Hlb Ho Hk) as [[E K]|(E & D & K)].
    + rewrite E in *. split; auto. split; [|destruct I3 as [I3|(d' & Hd' & HD)]; [auto|right; exists d'; split; [right; auto|auto]]].
      intros d' k [<-|Hd'] Hck; [specialize (K k Hck); lia|eauto].
    + split; [lia|]. split.
      * intros d' k [<-|Hd'] Hck; [rewrite (K k Hck); auto|eauto].
      * destruct I3 as [I3|(d' & Hd' & HD)].
        -- right. exists d. split; [left; auto|]. rewrite I3. auto.
        -- right. exists d'. split; [right; auto|auto].
Qed.

(** A number that does not fit a long is passed over. *)
Lemma scan_entry_huge : forall lb max d k, cpu_dir d k -> long_max lb <= k -> scan_entry lb max d = max.
Proof.
  intros lb max d k (Hd & s & E & Hs) Hk. unfold scan_entry. rewrite Hd.
  replace (after_cpu (d_name d)) with (Some s) by (symmetry; now apply after_cpu_ok).
  rewrite (strtol_all lb s k Hs). replace (Z.min k (long_max lb)) with (long_max lb) by lia.
  rewrite Z.ltb_irrefl. reflexivity.
Qed.
Definition with_dirs (e : env) (d : listing) : env :=
  {| e_open := e_open e; e_file := e_file e; e_reads := e_reads e; e_junk := e_junk e;
     e_sc1 := e_sc1 e; e_sc2 := e_sc2 e; e_dir1 := d; e_dir2 := d |}.
Lemma huge_ignored : forall lb c e ds1 d ds2 k, cpu_dir d k -> long_max lb <= k ->
  get_len lb c (with_dirs e (Some (ds1 ++ d :: ds2))) = get_len lb c (with_dirs e (Some (ds1 ++ ds2))).
Proof.
  intros lb c e ds1 d ds2 k Hd Hk.
  assert (E : max_cpuid_from_sysfs lb (Some (ds1 ++ d :: ds2)) = max_cpuid_from_sysfs lb (Some (ds1 ++ ds2))).
  { unfold max_cpuid_from_sysfs. rewrite !fold_left_app. cbn [fold_left]. rewrite (scan_entry_huge lb _ d k Hd Hk). reflexivity. }
  unfold get_len, compute_len, fallback, with_dirs. cbn [e_open e_file e_reads e_junk e_sc1 e_sc2 e_dir1 e_dir2]. rewrite E. reflexivity.
Qed.

Lemma cpu_dir_nonneg : forall d k, cpu_dir d k -> 0 <= k.
Proof. intros d k (_ & s & _ & Hs). eapply numeral_nonneg; eauto. Qed.

Lemma max_sysfs : forall lb l n, 32 <= lb -> sane_listing l -> dir_len l n -> max_cpuid_from_sysfs lb l = n - 1 /\ 0 <= n <= INT_MAX.
Proof.
  intros lb [ds|] n Hlb Hs Hd; cbn in *; [|subst; unfold INT_MAX; lia].
  destruct (scan_all lb ds (-1) Hlb Hs) as (S1 & S2 & S3). set (m := fold_left (scan_entry lb) ds (-1)) in *.
  destruct Hd as [D1 D2].
  assert (Hm : m = n - 1).
  { destruct S3 as [S3|(d & Hi & HD)].
    - destruct D2 as [->|(d & Hi & HD)]; [lia|]. pose proof (S2 _ _ Hi HD). pose proof (cpu_dir_nonneg _ _ HD). lia.
    - pose proof (D1 _ _ Hi HD). pose proof (cpu_dir_nonneg _ _ HD). destruct D2 as [->|(d' & Hi' & HD')]; [lia|].
      pose proof (S2 _ _ Hi' HD'). lia. }
  assert (Hb : m < INT_MAX).
  { destruct S3 as [S3|(d & Hi & HD)]; [unfold INT_MAX; lia|]. destruct (Hs d Hi) as [_ Hk]. auto. }
  clearbody m. subst m. unfold INT_MAX in *. destruct (Z.ltb_spec (n - 1) 0); cbn [orb].
  - split; lia.
  - destruct (Z.ltb_spec 2147483647 (n - 1)); lia.
Qed.

Lemma to_int_id : forall z, - 2 ^ 31 <= z < 2 ^ 31 -> to_int z = z.
Proof. intros z H. unfold to_int. rewrite Z.mod_small by lia. lia. Qed.

Lemma fallback_ok : forall lb sc l n, 32 <= lb -> sane_listing l -> dir_len l n -> - 2 ^ 31 <= sc <= INT_MAX ->
  fallback lb sc sc l l = Some (Z.max sc n).
Proof.
  intros lb sc l n Hlb Hs Hd Hsc. destruct (max_sysfs lb l n Hlb Hs Hd) as [E B]. unfold fallback. rewrite E. unfold plus1.
  unfold INT_MAX in *. destruct (Z.eqb_spec (n - 1) (2 ^ 31 - 1)); [lia|]. replace (n - 1 + 1) with n by lia.
  destruct (Z.ltb_spec n sc); [rewrite to_int_id by lia|]; f_equal; lia.
Qed.

(** ** C43 *)
Lemma bad_mask_fallback : forall lb e, 32 <= lb -> bad_mask e ->
  compute_len lb e = Blocked \/
  compute_len lb e = match fallback lb (e_sc1 e) (e_sc2 e) (e_dir1 e) (e_dir2 e) with Some n => Len n | None => Overflow end.
Proof.
  intros lb e Hlb [H|[H|(s & Hf & Hl & H0 & [->|(t & Ht & Hbad)])]].
  - right. unfold compute_len. rewrite H. reflexivity.
  - right. destruct H as (Ho & pre & post & E & Hn & H1 & H2). unfold compute_len. rewrite Ho, E. cbn [negb].
    rewrite read_loop_error; auto.
  - destruct Hf as (Ho & Hf & He). unfold compute_len. rewrite Ho, Hf. cbn [negb].
    destruct (read_loop [] CPUMASK_SIZE (e_reads e) (e_junk e) 0) as [buf total| |] eqn:E; auto.
    apply read_loop_got in E; [|apply holds_nil|cbn; lia|unfold CPUMASK_SIZE; lia]. destruct E as [-> _]. right. reflexivity.
  - destruct s as [|x s].
    + destruct Ht as [_ [<-|(p & c & Es & _)]]; [|destruct p; discriminate].
      destruct Hf as (Ho & Hf & He). unfold compute_len. rewrite Ho, Hf. cbn [negb].
      destruct (read_loop [] CPUMASK_SIZE (e_reads e) (e_junk e) 0) as [buf total| |] eqn:E; auto.
      apply read_loop_got in E; [|apply holds_nil|cbn; lia|unfold CPUMASK_SIZE; lia]. destruct E as [-> _]. right. reflexivity.
    + pose proof (compute_text lb e (x :: s) t Hf Hl H0 ltac:(discriminate) Ht) as Hc.
      rewrite (parse_bad lb t Hlb (proj1 Ht) Hbad) in Hc. exact Hc.
Qed.

Theorem fallback_len : forall lb e n, 32 <= lb -> bad_mask e ->
  e_sc1 e = e_sc2 e -> e_dir1 e = e_dir2 e ->
  sane_listing (e_dir1 e) -> dir_len (e_dir1 e) n -> - 2 ^ 31 <= e_sc1 e <= INT_MAX ->
  get_len lb 0 e = Blocked \/ get_len lb 0 e = Len (Z.max 0 (Z.max (e_sc1 e) n)).
Proof.
  intros lb e n Hlb Hb E1 E2 Hs Hd Hsc. unfold get_len. cbn [Z.eqb negb].
  destruct (bad_mask_fallback lb e Hlb Hb) as [E|E]; rewrite E; auto. right.
  rewrite <- E1, <- E2, (fallback_ok lb _ _ n) by auto. destruct (Z.ltb_spec (Z.max (e_sc1 e) n) 1).
  - f_equal. destruct (max_sysfs lb _ n Hlb Hs Hd) as [_ B]. lia.
  - f_equal. lia.
Qed.

(** Whatever the system answers, no result is negative, 0 is not cached, nothing
    is read outside of the buffer, and what is cached stays. *)
Lemma parse_in_bounds : forall lb max buf total, (0 < max)%nat -> (total <= max)%nat ->
  max_cpuid_from_mask lb max (terminate max buf total) total <> POob.
Proof.
  intros lb max buf total Hm Ht. unfold max_cpuid_from_mask. destruct total as [|l]; [discriminate|].
  set (b := terminate max buf (S l)). pose proof (scan_back_le b l) as Hle.
  assert (Hz : exists j, (scan_back b l <= j < max)%nat /\ b j = 0).
  { destruct (Nat.ltb_spec (S l) max) as [Hlt|Hge].
    - exists (S l). split; [lia|]. unfold b, terminate. destruct (Nat.ltb_spec (S l) max); [|lia].
      rewrite put_in by (cbn; lia). rewrite Nat.sub_diag. reflexivity.
    - assert (Hb : b l = 0).
      { unfold b, terminate. destruct (Nat.ltb_spec (S l) max); [lia|]. rewrite put_in by (cbn; lia).
        replace (l - (max - 1))%nat with O by lia. reflexivity. }
      exists l. split; auto.
      (* the scan starts at the NUL, which is no separator *)
      destruct l as [|l']; [cbn; lia|]. cbn [scan_back]. rewrite Hb. cbn [is_sep Z.eqb orb].
      pose proof (scan_back_le b l'). lia. }
  destruct Hz as (j & Hj & E).
  destruct (cstring_some b (max - scan_back b l) (scan_back b l)) as (s & ->).
  - exists j. split; auto. lia.
  - destruct (strtoul lb s) as [[v r]|]; [destruct (v <? INT_MAX)|]; discriminate.
Qed.

Lemma get_digits_nonneg : forall s acc, 0 <= acc -> 0 <= fst (get_digits s acc).
Proof. intros s acc H. pose proof (get_digits_mono s acc H). lia. Qed.
Lemma strtoul_nonneg : forall lb s v r, 0 <= lb -> strtoul lb s = Some (v, r) -> 0 <= v.
Proof.
  intros lb s v r Hlb H. unfold strtoul, get_number in H. destruct (get_sign (skip_space s)) as [neg t].
  destruct t as [|c t]; [discriminate|]. destruct (isdigit c); [|discriminate].
  pose proof (get_digits_nonneg (c :: t) 0 ltac:(lia)) as Hn. destruct (get_digits (c :: t) 0) as [w t']. cbn [fst] in Hn.
  assert (0 < 2 ^ lb) by (apply Z.pow_pos_nonneg; lia).
  injection H as <- _. destruct (Z.leb_spec (2 ^ lb) w); [lia|]. destruct neg; [|lia]. apply Z.mod_pos_bound; lia.
Qed.

Theorem len_safe : forall lb c e, 32 <= lb -> 0 <= c ->
  get_len lb c e <> Oob /\ (forall n, get_len lb c e = Len n -> 0 <= n /\ (c <> 0 -> n = c)).
Proof.
  intros lb c e Hlb Hc. unfold get_len. destruct (Z.eqb_spec c 0) as [->|Hne]; cbn [negb].
  - split.
    + assert (Ho : compute_len lb e <> Oob).
      { unfold compute_len. destruct (e_open e); cbn [negb].
        - destruct (read_loop _ _ _ _ _) as [b n| |] eqn:E; try discriminate.
          + apply read_loop_got in E; [|apply holds_nil|lia|unfold CPUMASK_SIZE; lia]. destruct E as [-> _].
            destruct (Nat.eqb _ 0); [destruct (fallback _ _ _ _ _); discriminate|].
            set (total := Nat.min _ _).
            pose proof (parse_in_bounds lb CPUMASK_SIZE b total ltac:(unfold CPUMASK_SIZE; lia) ltac:(unfold total; lia)) as Hp.
            destruct (max_cpuid_from_mask _ _ _ _); try congruence. destruct (fallback _ _ _ _ _); discriminate.
          + destruct (fallback _ _ _ _ _); discriminate.
        - destruct (fallback _ _ _ _ _); discriminate. }
      destruct (compute_len lb e) as [n| | |]; try congruence. destruct (n <? 1); discriminate.
    + intros n H. split; [|congruence]. destruct (compute_len lb e) as [k| | |]; try discriminate.
      destruct (Z.ltb_spec k 1); injection H as <-; lia.
  - split; [discriminate|]. intros n H. injection H as <-. split; auto.
Qed.

Theorem len_stable : forall lb es c n, 32 <= lb -> 0 <= c -> n <> 0 ->
  In (Len n) (calls lb c es) -> forall i j, nth_error (calls lb c es) i = Some (Len n) ->
  (i <= j)%nat -> (j < length es)%nat -> nth_error (calls lb c es) j = Some (Len n).
Proof.
  intros lb es. induction es as [|e es IH]; intros c n Hlb Hc Hn Hin i j Hi Hij Hj; [cbn in Hj; lia|].
  cbn [calls] in *. destruct (get_len lb c e) as [m| | |] eqn:E.
  - destruct (len_safe lb c e Hlb Hc) as [_ Hs]. destruct (Hs m E) as [Hm Hst].
    destruct i as [|i].
    + cbn in Hi. injection Hi as ->. destruct j as [|j]; [reflexivity|]. cbn in *.
      assert (Hall : forall k, (k < length es)%nat -> nth_error (calls lb n es) k = Some (Len n)).
      { clear - Hn. induction es as [|e es IH]; intros k Hk; cbn in Hk; [lia|]. cbn [calls].
        assert (E : get_len lb n e = Len n) by (unfold get_len; destruct (Z.eqb_spec n 0); [congruence|reflexivity]).
        rewrite E. destruct k; [reflexivity|]. cbn. apply IH. lia. }
      apply Hall. lia.
    + destruct j as [|j]; [lia|]. cbn in *. apply (IH m n Hlb Hm Hn) with (i := i); auto; try lia.
      apply nth_error_In in Hi. exact Hi.
  - destruct i as [|[|i]]; discriminate.
  - destruct i as [|[|i]]; discriminate.
  - destruct i as [|[|i]]; discriminate.
Qed.
