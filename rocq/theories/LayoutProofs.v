(** Proofs about the bytes for the kernel and for debuggers. *)
From Coq Require Import ZArith Bool List Lia.
From Verif Require Import LayoutModel LayoutSpec.
Import ListNotations.
Local Open Scope Z_scope.

(** * Bytes *)

Lemma le_bytes_length : forall n v, length (le_bytes n v) = n.
Proof. induction n; intros; cbn [le_bytes length]; auto. Qed.
Lemma int_bytes_length : forall o n v, length (int_bytes o n v) = n.
Proof. intros [] n v; cbn [int_bytes]; rewrite ?rev_length; apply le_bytes_length. Qed.
Lemma pow256 : forall n, 256 ^ Z.of_nat (S n) = 256 * 256 ^ Z.of_nat n.
Proof. intros. rewrite Nat2Z.inj_succ, Z.pow_succ_r; lia. Qed.
Lemma le_value_bytes : forall n v, le_value (le_bytes n v) = v mod 256 ^ Z.of_nat n.
Proof.
  induction n; intros v. { cbn. now rewrite Z.mod_1_r. }
  cbn [le_bytes le_value]. rewrite IHn, pow256.
  rewrite (Z.rem_mul_r v 256 (256 ^ Z.of_nat n)); [reflexivity|lia|].
  apply Z.pow_pos_nonneg; lia.
Qed.
Lemma int_value_bytes : forall o n v, int_value o (int_bytes o n v) = v mod 256 ^ Z.of_nat n.
Proof. intros [] n v; cbn [int_value int_bytes]; rewrite ?rev_involutive; apply le_value_bytes. Qed.
Lemma le_value_app : forall l k, le_value (l ++ k) = le_value l + 256 ^ Z.of_nat (length l) * le_value k.
Proof.
  induction l; intros k. { cbn [app length le_value]. change (256 ^ Z.of_nat 0) with 1. lia. }
  cbn [app length le_value]. rewrite IHl, pow256. ring.
Qed.

Lemma bytes_at_length : forall m a n, length (bytes_at m a n) = n.
Proof. intros. unfold bytes_at. now rewrite map_length, seq_length. Qed.
Lemma bytes_at_app : forall m a n k, bytes_at m a (n + k) = bytes_at m a n ++ bytes_at m (a + Z.of_nat n) k.
Proof.
  intros. unfold bytes_at. rewrite seq_app, map_app. f_equal. cbn [plus].
  replace n with (n + 0)%nat at 1 by lia. generalize 0%nat. induction k; intros x; cbn [seq map]; auto. f_equal.
  - f_equal. lia.
  - replace (S (n + x)) with (n + S x)%nat by lia. apply IHk.
Qed.
Lemma bytes_at_ext : forall m m' a n, (forall i, 0 <= i < Z.of_nat n -> m (a + i) = m' (a + i)) -> bytes_at m a n = bytes_at m' a n.
Proof.
  intros m m' a n H. unfold bytes_at. apply map_ext_in. intros i Hi. apply in_seq in Hi. apply H. lia.
Qed.
Lemma nth_bytes_at : forall m a n i, 0 <= i < Z.of_nat n -> nth (Z.to_nat i) (bytes_at m a n) 0 = m (a + i).
Proof.
  intros m a n i H. unfold bytes_at.
  rewrite nth_indep with (d' := (fun i => m (a + Z.of_nat i)) 0%nat) by (rewrite map_length, seq_length; lia).
  rewrite (map_nth (fun i => m (a + Z.of_nat i))). rewrite seq_nth by lia. f_equal. lia.
Qed.

(** A 64-bit access as two 32-bit accesses. *)
Lemma load_halves : forall o m a, load o m a 8 =
  match o with Little => load o m a 4 + 2 ^ 32 * load o m (a + 4) 4 | Big => 2 ^ 32 * load o m a 4 + load o m (a + 4) 4 end.
Proof.
  intros o m a. unfold load. change 8%nat with (4 + 4)%nat. rewrite bytes_at_app. change (Z.of_nat 4) with 4.
  destruct o; unfold int_value.
  - rewrite le_value_app, bytes_at_length. reflexivity.
  - rewrite rev_app_distr, le_value_app, rev_length, bytes_at_length. change (256 ^ Z.of_nat 4) with (2 ^ 32). lia.
Qed.

(** * Loaded directives *)

Lemma pad_nonneg : forall a n, 0 <= pad a n.
Proof. intros a n. unfold pad. destruct (0 <? n) eqn:E; [|lia]. apply Z.ltb_lt in E. apply Z.mod_pos_bound; lia. Qed.
Lemma pad_aligns : forall a n, 0 < n -> (a + pad a n) mod n = 0.
Proof.
  intros a n H. unfold pad. destruct (Z.ltb_spec 0 n); [|lia]. rewrite Zplus_mod_idemp_r. rewrite Z.add_opp_diag_r. apply Z.mod_0_l. lia.
Qed.
Definition one (b : build) (fill : Z -> Z) (env : label -> Z) (a : Z) (d : item) : list Z :=
  match d with
  | DByte v => [v mod 256]
  | DLong e => int_bytes (data_order b) 4 (eval env e)
  | DQuad e => int_bytes (data_order b) 8 (eval env e)
  | DInst v => int_bytes (code_order b) 4 v
  | DBalign n => map (fun i => fill (a + Z.of_nat i)) (seq 0 (Z.to_nat (pad a n)))
  | DLabel _ => []
  end.
Lemma emit_cons : forall b fill env a d l,
  emit b fill env a (d :: l) = one b fill env a d ++ emit b fill env (a + Z.of_nat (length (one b fill env a d))) l.
Proof. reflexivity. Qed.
Lemma one_length : forall b fill env a d, Z.of_nat (length (one b fill env a d)) = size a d.
Proof.
  intros. destruct d; cbn [one size length]; rewrite ?int_bytes_length; try reflexivity.
  rewrite map_length, seq_length, Z2Nat.id; [reflexivity|apply pad_nonneg].
Qed.
Fixpoint sizes (a : Z) (l : list item) : Z :=
  match l with [] => 0 | d :: l => size a d + sizes (a + size a d) l end.
Lemma emit_length : forall b fill env l a, Z.of_nat (length (emit b fill env a l)) = sizes a l.
Proof.
  induction l as [|d l IH]; intros a; [reflexivity|]. rewrite emit_cons, app_length, Nat2Z.inj_add, one_length, IH. reflexivity.
Qed.
Lemma emit_app : forall b fill env l k a, emit b fill env a (l ++ k) = emit b fill env a l ++ emit b fill env (a + sizes a l) k.
Proof.
  induction l as [|d l IH]; intros k a. { cbn. f_equal. lia. }
  cbn [app]. rewrite !emit_cons, one_length, IH, app_assoc. cbn [sizes]. rewrite Z.add_assoc. reflexivity.
Qed.
Lemma places_app : forall l k a, places a (l ++ k) = places a l ++ places (a + sizes a l) k.
Proof.
  induction l as [|d l IH]; intros k a. { cbn. f_equal. lia. }
  cbn [app places]. rewrite IH, app_assoc. cbn [sizes]. rewrite Z.add_assoc. reflexivity.
Qed.
Lemma app_split : forall (A : Type) (l k l' k' : list A), length l = length l' -> l ++ k = l' ++ k' -> l = l' /\ k = k'.
Proof.
  induction l as [|x l IH]; intros k [|y l'] k' L E; try discriminate L; [auto|].
  cbn [app] in E. injection E as -> E. destruct (IH k l' k') as [-> ->]; auto.
Qed.
Lemma loaded_app : forall b env m l k a, loaded b env m a (l ++ k) ->
  loaded b env m a l /\ loaded b env m (a + sizes a l) k.
Proof.
  intros b env m l k a (fill & Hb & Hp). rewrite emit_app, app_length, bytes_at_app in Hb.
  apply app_split in Hb; [|apply bytes_at_length]. destruct Hb as [H1 H2].
  rewrite (emit_length b fill env l a) in H2. rewrite places_app in Hp.
  split; exists fill; split; auto; intros x y H; apply Hp, in_or_app; auto.
Qed.
Lemma loaded_cons : forall b env m d l a, loaded b env m a (d :: l) -> loaded b env m a [d] /\ loaded b env m (a + size a d) l.
Proof.
  intros b env m d l a H. change (d :: l) with ([d] ++ l) in H. apply loaded_app in H. cbn [sizes] in H. now rewrite Z.add_0_r in H.
Qed.

(** Small directives. *)
Lemma loaded_label : forall b env m a x, loaded b env m a [DLabel x] -> env x = a.
Proof. intros b env m a x (fill & _ & H). apply H. left. reflexivity. Qed.
Lemma loaded_long : forall b env m a e, loaded b env m a [DLong e] -> load (data_order b) m a 4 = eval env e mod 2 ^ 32.
Proof.
  intros b env m a e (fill & H & _). cbn [emit length app] in H. rewrite app_nil_r, int_bytes_length in H. unfold load. rewrite H.
  apply int_value_bytes.
Qed.
Lemma loaded_quad : forall b env m a e, loaded b env m a [DQuad e] -> load (data_order b) m a 8 = eval env e mod 2 ^ 64.
Proof.
  intros b env m a e (fill & H & _). cbn [emit length app] in H. rewrite app_nil_r, int_bytes_length in H. unfold load. rewrite H.
  apply int_value_bytes.
Qed.
Lemma loaded_inst : forall b env m a v, loaded b env m a [DInst v] -> load (code_order b) m a 4 = v mod 2 ^ 32.
Proof.
  intros b env m a e (fill & H & _). cbn [emit length app] in H. rewrite app_nil_r, int_bytes_length in H. unfold load. rewrite H.
  apply int_value_bytes.
Qed.
Lemma loaded_byte : forall b env m a v, loaded b env m a [DByte v] -> m a = v mod 256.
Proof.
  intros b env m a e (fill & H & _). cbn [emit length app] in H. unfold bytes_at in H. cbn [seq map] in H. rewrite Z.add_0_r in H. congruence.
Qed.
(** The bytes of a word, from its value in the order in which it was written. *)
Lemma loaded_long_bytes : forall b env m a e, loaded b env m a [DLong e] -> bytes_at m a 4 = int_bytes (data_order b) 4 (eval env e).
Proof.
  intros b env m a e (fill & H & _). cbn [emit length app] in H. now rewrite app_nil_r, int_bytes_length in H.
Qed.
Lemma loaded_inst_bytes : forall b env m a v, loaded b env m a [DInst v] -> bytes_at m a 4 = int_bytes (code_order b) 4 v.
Proof.
  intros b env m a e (fill & H & _). cbn [emit length app] in H. now rewrite app_nil_r, int_bytes_length in H.
Qed.

(** * Pointers *)

Lemma address64 : forall b v, is_address b v -> 0 <= v < 2 ^ 64.
Proof.
  intros b v. unfold is_address. assert (2 ^ 32 < 2 ^ 64) by reflexivity. assert (2 ^ 31 < 2 ^ 64) by reflexivity.
  destruct b as [| | | | | | | | | | |[] o i| | | | |]; cbn; lia.
Qed.
Lemma address32 : forall b v, is_address b v -> ptr_bytes b = 4%nat -> 0 <= v < 2 ^ 32.
Proof.
  intros b v H E. unfold is_address in H. rewrite E in H. destruct b; try exact H. change (2 ^ 31) with 2147483648 in H. change (2 ^ 32) with 4294967296. lia.
Qed.
Lemma u64_ptr_sizes : forall b e a, sizes a (u64_ptr b e) = 8.
Proof. intros b e a. destruct b as [| | | | | | | | | | |[] [] i| | | | |]; reflexivity. Qed.
Lemma two_longs : forall b env m a x y, loaded b env m a [DLong x; DLong y] ->
  load (data_order b) m a 4 = eval env x mod 2 ^ 32 /\ load (data_order b) m (a + 4) 4 = eval env y mod 2 ^ 32.
Proof.
  intros b env m a x y H. apply loaded_cons in H. destruct H as [H1 H2]. cbn [size] in H2.
  split; now apply loaded_long.
Qed.
Lemma loaded_ptr : forall b env m a e, loaded b env m a (u64_ptr b e) -> is_address b (eval env e) ->
  load (data_order b) m a 8 = eval env e.
Proof.
  intros b env m a e H A. pose proof (address64 _ _ A) as A64.
  destruct b as [| | | | | | | | | | |[] [] i| | | | |]; cbn [u64_ptr] in H;
  try (apply loaded_quad in H; rewrite H; apply Z.mod_small; exact A64);
  (pose proof (address32 _ _ A eq_refl) as A32; apply two_longs in H; destruct H as [H1 H2]; rewrite load_halves; cbn [data_order] in *; rewrite H1, H2;
   cbn [eval]; rewrite (Z.mod_small (eval env e)) by exact A32; rewrite Z.mod_0_l by (compute; discriminate); lia).
Qed.

(** * Descriptors *)

Lemma offset_address : forall b s p, is_address b s -> is_address b p -> s <= p -> is_address b (p - s).
Proof. intros b s p. unfold is_address. lia. Qed.
Lemma cs_fields_sizes : forall b v f s p k a, sizes a (cs_fields b v f s p k) = 32.
Proof. intros. destruct b as [| | | | | | | | | | |[] [] i| | | | |]; reflexivity. Qed.
Lemma sizes_app : forall l k a, sizes a (l ++ k) = sizes a l + sizes (a + sizes a l) k.
Proof.
  induction l as [|d l IH]; intros k a. { cbn. rewrite Z.add_0_r. reflexivity. }
  cbn [app sizes]. rewrite IH, !Z.add_assoc. reflexivity.
Qed.
Lemma loaded_cs_fields : forall b env m a s, well_placed b env s ->
  loaded b env m a (cs_fields b (Num 0) (Num 0) (Lab (s_start s)) (Sub (s_post s) (s_start s)) (Lab (s_abort s))) ->
  describes env s (kernel_descriptor b m a).
Proof.
  intros b env m a s (W1 & W2 & W3 & W4) H. unfold cs_fields in H.
  apply loaded_app in H. destruct H as [H1 H]. apply loaded_app in H. destruct H as [H2 H].
  apply loaded_app in H. destruct H as [H3 H]. rewrite u64_ptr_sizes in H. apply loaded_app in H. destruct H as [H4 H5].
  rewrite u64_ptr_sizes in H5. cbn [u32 sizes size] in *.
  unfold describes, kernel_descriptor.
  apply loaded_long in H1. apply loaded_long in H2.
  apply loaded_ptr in H3; [|exact W1]. apply loaded_ptr in H4; [|cbn [eval]; apply offset_address; assumption]. apply loaded_ptr in H5; [|exact W3].
  replace (a + (4 + 0) + (4 + 0)) with (a + 8) in * by lia. replace (a + 8 + 8) with (a + 16) in * by lia. replace (a + 16 + 8) with (a + 24) in * by lia.
  replace (a + (4 + 0)) with (a + 4) in H2 by lia. rewrite H1, H2, H3, H4, H5. cbn [eval]. reflexivity.
Qed.
Lemma loaded_table : forall b env m a s l, well_placed b env s ->
  loaded b env m a ([DBalign 32; DLabel l] ++ cs_fields b (Num 0) (Num 0) (Lab (s_start s)) (Sub (s_post s) (s_start s)) (Lab (s_abort s))) ->
  describes env s (kernel_descriptor b m (env l)) /\ env l mod 32 = 0 /\ env l = a + pad a 32.
Proof.
  intros b env m a s l W H. apply loaded_app in H. destruct H as [H1 H2]. cbn [sizes size] in H2.
  apply loaded_cons in H1. destruct H1 as [_ H1]. apply loaded_label in H1. cbn [size] in H1.
  replace (a + (pad a 32 + (0 + 0))) with (env l) in H2 by lia. split; [now apply loaded_cs_fields|].
  rewrite H1. split; [|reflexivity]. apply pad_aligns. lia.
Qed.
Theorem p_descriptors : forall b env m a l, loaded b env m a (rseq_cs_section b l) -> Forall (well_placed b env) l ->
  forall s, In s l -> describes env s (kernel_descriptor b m (env (s_table s))) /\ env (s_table s) mod 32 = 0.
Proof.
  intros b env m a l. revert a. induction l as [|t l IH]; intros a H W s Hin; [destruct Hin|].
  unfold rseq_cs_section in H. cbn [flat_map] in H. apply loaded_app in H. destruct H as [H1 H2]. inversion W; subst.
  destruct Hin as [->|Hin]; [|eapply IH; eauto].
  apply loaded_table in H1; [|assumption]. tauto.
Qed.
(** The whole section is an array of descriptors, without gaps if it is aligned. *)
Lemma pad_aligned : forall a n, 0 < n -> a mod n = 0 -> pad a n = 0.
Proof.
  intros a n H E. unfold pad. destruct (0 <? n); [|reflexivity]. apply Z.mod_opp_l_z; lia.
Qed.
Theorem p_descriptor_array : forall b env m a l, loaded b env m a (rseq_cs_section b l) -> a mod 32 = 0 ->
  forall i s, nth_error l i = Some s -> env (s_table s) = a + 32 * Z.of_nat i.
Proof.
  intros b env m a l. revert a. induction l as [|t l IH]; intros a H A i s Hi; [destruct i; discriminate Hi|].
  unfold rseq_cs_section in H. cbn [flat_map] in H. apply loaded_app in H. destruct H as [H1 H2].
  unfold table_cs in H1, H2. rewrite sizes_app in H2. cbn [sizes size] in H2. rewrite cs_fields_sizes in H2.
  rewrite (pad_aligned a 32) in H2 by (auto; lia). destruct i as [|i].
  - injection Hi as ->. apply loaded_app in H1. destruct H1 as [H1 _]. apply loaded_cons in H1. destruct H1 as [_ H1].
    apply loaded_label in H1. cbn [size] in H1. rewrite (pad_aligned a 32) in H1 by (auto; lia). lia.
  - cbn [nth_error] in Hi. rewrite (IH _ H2) with (i := i) (s := s); auto.
    + rewrite Nat2Z.inj_succ. lia.
    + replace (a + (0 + (0 + 0) + 32)) with (a + 1 * 32) by lia. rewrite Z.mod_add; lia.
Qed.

(** * Arrays of addresses *)

Lemma array64_cons : forall b m a n, array64 b m a (S n) = load (data_order b) m a 8 :: array64 b m (a + 8) n.
Proof.
  intros. unfold array64. cbn [seq map]. f_equal. { f_equal. lia. }
  rewrite <- seq_shift, map_map. apply map_ext. intros i. f_equal. lia.
Qed.
Theorem p_ptr_array : forall b env m a l, loaded b env m a (ptr_array_section b l) ->
  Forall (fun s => is_address b (env (s_table s))) l -> array64 b m a (length l) = map (fun s => env (s_table s)) l.
Proof.
  intros b env m a l. revert a. induction l as [|s l IH]; intros a H W; [reflexivity|].
  unfold ptr_array_section in H. cbn [flat_map] in H. apply loaded_app in H. destruct H as [H1 H2]. unfold table_ptr in H1, H2.
  rewrite u64_ptr_sizes in H2. inversion W; subst. cbn [length map]. rewrite array64_cons. f_equal.
  - now apply loaded_ptr in H1.
  - now apply IH.
Qed.
Theorem p_exit_array : forall b env m a l, loaded b env m a (exit_point_section b l) ->
  Forall (fun p => is_address b (env (fst p)) /\ is_address b (env (snd p))) l ->
  array64 b m a (2 * length l) = flat_map (fun p => [env (fst p); env (snd p)]) l.
Proof.
  intros b env m a l. revert a. induction l as [|s l IH]; intros a H W; [reflexivity|].
  unfold exit_point_section in H. cbn [flat_map] in H. apply loaded_app in H. destruct H as [H1 H2]. unfold exit_point in H1, H2.
  rewrite sizes_app, !u64_ptr_sizes in H2. apply loaded_app in H1. destruct H1 as [H0 H1]. rewrite u64_ptr_sizes in H1. inversion W as [|? ? [W1 W2] W3]; subst.
  replace (2 * length (s :: l))%nat with (S (S (2 * length l))) by (cbn [length]; lia). rewrite !array64_cons. cbn [flat_map app]. f_equal.
  - now apply loaded_ptr in H0.
  - f_equal. + now apply loaded_ptr in H1. + replace (a + 8 + 8) with (a + (8 + 8)) by lia. now apply IH.
Qed.

(** * Abort handlers *)

Lemma word_of_bytes : forall o o' m a v, bytes_at m a 4 = int_bytes o 4 v -> load o' m a 4 = int_value o' (int_bytes o 4 v).
Proof. intros o o' m a v H. unfold load. now rewrite H. Qed.
Lemma halves_of_bytes : forall o m a v, bytes_at m a 4 = int_bytes o 4 v ->
  2 ^ 16 * load o m a 2 + load o m (a + 2) 2 =
  2 ^ 16 * int_value o (firstn 2 (int_bytes o 4 v)) + int_value o (skipn 2 (int_bytes o 4 v)).
Proof.
  intros o m a v H. rewrite <- H. change 4%nat with (2 + 2)%nat. rewrite bytes_at_app. unfold load.
  change (Z.of_nat 2) with 2. reflexivity.
Qed.
(** A word loaded before a label, at the end of a list. *)
Lemma before_label : forall b env m a d x, size (a) d = 4 -> loaded b env m a [d; DLabel x] ->
  env x = a + 4 /\ loaded b env m a [d].
Proof.
  intros b env m a d x S H. apply loaded_cons in H. destruct H as [H1 H2]. apply loaded_label in H2. split; [lia|exact H1].
Qed.
Definition sig_word (b : build) : item := match b with Aarch64LE | Aarch64BE => DInst rseq_sig_code | _ => DLong (Num (rseq_sig b)) end.
Lemma abort_word : forall b env m a s c, loaded b env m a (define_abort b s c) ->
  loaded b env m (env (s_abort s) - 4) [sig_word b].
Proof.
  intros b env m a s c H.
  assert (K : exists l a', define_abort b s c = l ++ [sig_word b; DLabel (s_abort s)] /\ a' = a + sizes a l).
  { destruct b; cbn [define_abort sig_word];
    [exists [DByte 0x0f; DByte 0xb9; DByte 0x3d]|exists [DByte 0x0f; DByte 0xb9; DByte 0x3d]|exists [DByte 0x0f; DByte 0xb9; DByte 0x3d]
    |eexists|eexists|eexists|exists []|exists []|exists []|exists []|exists []|eexists|exists []|exists []|exists [DBalign 4]|exists [DBalign 4]|eexists];
    eexists; (split; [|reflexivity]); try reflexivity; unfold u32; rewrite !app_assoc; rewrite <- (app_assoc _ [DLong _] [DLabel _]); reflexivity. }
  destruct K as (l & a' & E & ->). rewrite E in H. apply loaded_app in H. destruct H as [_ H].
  apply before_label in H; [|destruct b; reflexivity]. destruct H as [H1 H2]. rewrite H1.
  replace (a + sizes a l + 4 - 4) with (a + sizes a l) by lia. exact H2.
Qed.
Theorem p_signature : forall b env m a s c, loaded b env m a (define_abort b s c) ->
  kernel_signature b m (env (s_abort s)) = rseq_sig b.
Proof.
  intros b env m a s c H. apply abort_word in H. unfold kernel_signature.
  destruct b as [| | | | | | | | | | |[] [] []| | | | |]; cbn [sig_word] in H;
  try (apply loaded_long in H; rewrite H; reflexivity).
  - apply loaded_inst_bytes in H. rewrite (word_of_bytes _ _ _ _ _ H). reflexivity.
  - apply loaded_inst_bytes in H. rewrite (word_of_bytes _ _ _ _ _ H). reflexivity.
Qed.
Theorem p_traps : forall b env m a s c, b <> ArmBE32 -> loaded b env m a (define_abort b s c) ->
  traps_before b m (env (s_abort s)).
Proof.
  intros b env m a s c NB H. pose proof (abort_word _ _ _ _ _ _ H) as K.
  assert (X : match b with Amd64 | X32 | I386 => True | _ => False end -> bytes_at m (env (s_abort s) - 7) 2 = [0x0f; 0xb9]).
  { intros X. assert (E : define_abort b s c = [DByte 0x0f; DByte 0xb9; DByte 0x3d; DLong (Num (rseq_sig b)); DLabel (s_abort s)])
      by (destruct b; try destruct X; reflexivity).
    rewrite E in H. apply loaded_cons in H. destruct H as [H1 H]. apply loaded_cons in H. destruct H as [H2 H].
    apply loaded_cons in H. destruct H as [_ H]. apply loaded_cons in H. destruct H as [_ H]. apply loaded_label in H. cbn [size] in *.
    apply loaded_byte in H1. apply loaded_byte in H2. unfold bytes_at. cbn [seq map]. rewrite H.
    change (Z.of_nat 0) with 0. change (Z.of_nat 1) with 1.
    replace (a + 1 + 1 + 1 + 4 - 7 + 0) with a by lia. replace (a + 1 + 1 + 1 + 4 - 7 + 1) with (a + 1) by lia. rewrite H1, H2. reflexivity. }
  destruct b as [| | | | | | | | | | |[] [] []| | | | |]; cbn [sig_word] in K; unfold traps_before; try (apply X; exact Logic.I); try congruence;
  unfold fetch;
  first [ apply loaded_long_bytes in K | apply loaded_inst_bytes in K ]; cbn [data_order code_order eval] in *;
  first [ rewrite (halves_of_bytes _ _ _ _ K); reflexivity | rewrite (word_of_bytes _ _ _ _ _ K); reflexivity ].
Qed.
(** The copy of the descriptor next to the abort handler. *)
Theorem p_copy : forall b env m a s c, has_copy b = true -> well_placed b env s -> loaded b env m a (define_abort b s c) ->
  describes env s (kernel_descriptor b m (env c)) /\ env c mod 32 = 0.
Proof.
  intros b env m a s c C W H.
  assert (K : exists k, define_abort b s c =
    ([DBalign 32; DLabel c] ++ cs_fields b (Num 0) (Num 0) (Lab (s_start s)) (Sub (s_post s) (s_start s)) (Lab (s_abort s))) ++ k).
  { destruct b; try discriminate C; eexists; cbn [define_abort]; rewrite <- app_assoc; reflexivity. }
  destruct K as (k & K). rewrite K in H. apply loaded_app in H. destruct H as [H _]. apply loaded_table in H; [|exact W]. tauto.
Qed.

(** * The per-thread area *)

Lemma load_store_same : forall o m a n v, load o (store o m a n v) a n = v mod 256 ^ Z.of_nat n.
Proof.
  intros o m a n v. unfold load. rewrite <- int_value_bytes with (o := o). f_equal.
  apply nth_ext with (d := 0) (d' := 0); rewrite bytes_at_length; [now rewrite int_bytes_length|]. intros i Hi.
  rewrite <- (Nat2Z.id i) at 1. rewrite nth_bytes_at by lia. unfold store.
  destruct (Z.leb_spec a (a + Z.of_nat i)); [|lia]. destruct (Z.ltb_spec (a + Z.of_nat i) (a + Z.of_nat n)); [|lia].
  cbn [andb]. f_equal. lia.
Qed.
Lemma load_store_other : forall o o' m a n v x k, x + Z.of_nat k <= a \/ a + Z.of_nat n <= x -> load o' (store o m a n v) x k = load o' m x k.
Proof.
  intros o o' m a n v x k H. unfold load. f_equal. apply bytes_at_ext. intros i Hi. unfold store.
  destruct (Z.leb_spec a (x + i)), (Z.ltb_spec (x + i) (a + Z.of_nat n)); cbn [andb]; auto; lia.
Qed.

Theorem p_layout : forall b f, offset_of b f = kernel_offset f.
Proof. intros b f. destruct b, f; reflexivity. Qed.
Lemma index_offset_ok : forall b c, index_offset b c = kernel_offset (if c then MmCid else CpuId).
Proof. intros b c. destruct b, c; reflexivity. Qed.

(** Addresses. *)
Lemma sext32_id : forall v, - 2 ^ 31 <= v < 2 ^ 31 -> sext32 v = v.
Proof. intros v H. unfold sext32. rewrite Z.mod_small; lia. Qed.
Lemma lor_add : forall a b n, 0 <= n -> 0 <= b < 2 ^ n -> a mod 2 ^ n = 0 -> Z.lor a b = a + b.
Proof.
  intros a b n Hn Hb Ha. assert (E : Z.land a b = 0).
  { apply Z.bits_inj'. intros i Hi. rewrite Z.land_spec, Z.bits_0. destruct (Z.lt_ge_cases i n).
    - rewrite <- (Z.mod_pow2_bits_low a n i) by lia. rewrite Ha, Z.bits_0. reflexivity.
    - rewrite <- (Z.mod_small b (2 ^ n)) by lia. rewrite Z.mod_pow2_bits_high by lia. apply andb_false_r. }
  rewrite <- Z.lxor_lor, <- Z.add_nocarry_lxor; auto.
Qed.

Ltac powers := repeat match goal with
  | |- context [2 ^ ?n] => let v := eval vm_compute in (2 ^ n) in change (2 ^ n) with v
  | H : context [2 ^ ?n] |- _ => let v := eval vm_compute in (2 ^ n) in change (2 ^ n) with v in H end.
Lemma ppc64_address : forall d, 0 <= d < 2 ^ 64 -> descriptor_address Ppc64BE 0 d = d.
Proof.
  intros d H. cbn [descriptor_address].
  assert (H2 : 0 <= (d / 2 ^ 32) mod 2 ^ 16 < 2 ^ 16) by (apply Z.mod_pos_bound; reflexivity).
  assert (H1 : 0 <= (d / 2 ^ 16) mod 2 ^ 16 < 2 ^ 16) by (apply Z.mod_pos_bound; reflexivity).
  assert (H0 : 0 <= d mod 2 ^ 16 < 2 ^ 16) by (apply Z.mod_pos_bound; reflexivity).
  rewrite (lor_add ((sext16 _ * _) mod _) _ 16); [|lia|exact H2|unfold sext16; powers; Z.to_euclidean_division_equations; lia].
  rewrite (lor_add ((_ * 2 ^ 32) mod _) _ 32); [|lia|powers; lia|powers; Z.to_euclidean_division_equations; lia].
  rewrite (lor_add _ (d mod 2 ^ 16) 16); [|lia|exact H0|powers; Z.to_euclidean_division_equations; lia].
  unfold sext16. powers. Z.to_euclidean_division_equations. lia.
Qed.
Theorem p_address : forall b ip d, is_address b d -> reaches b ip d -> descriptor_address b ip d = d.
Proof.
  intros b ip d A R. pose proof (address64 _ _ A) as A64.
  destruct b; try reflexivity; cbn [descriptor_address reaches] in *.
  - rewrite sext32_id by exact R. replace (ip + (d - ip)) with d by lia. now apply Z.mod_small.
  - rewrite sext32_id by exact R. replace (ip + (d - ip)) with d by lia. now apply Z.mod_small.
  - replace (ip + (d - ip)) with d by lia. apply Z.mod_small. exact A.
  - rewrite (Z.mod_small (_ + 2 ^ 20)) by (powers; lia). replace ((_ + _) * 2 ^ 12 + d mod 2 ^ 12) with d; [now apply Z.mod_small|].
    pose proof (Z.div_mod d (2 ^ 12)) as E. powers. lia.
  - rewrite (Z.mod_small (_ + 2 ^ 20)) by (powers; lia). replace ((_ + _) * 2 ^ 12 + d mod 2 ^ 12) with d; [now apply Z.mod_small|].
    pose proof (Z.div_mod d (2 ^ 12)) as E. powers. lia.
  - pose proof (address32 Ppc32 d A eq_refl) as A32. unfold sext16. powers. Z.to_euclidean_division_equations. lia.
  - exact (ppc64_address d A64).
  - exact (ppc64_address d A64).
  - destruct R as (E1 & E2 & R). apply Z.even_spec in E1. apply Z.even_spec in E2. destruct E1 as [x ->], E2 as [y ->].
    replace (2 * x - 2 * y) with ((x - y) * 2) by lia. rewrite Z.div_mul by lia. rewrite sext32_id by (powers; lia).
    replace (2 * y + 2 * (x - y)) with (2 * x) by lia. now apply Z.mod_small.
  - destruct R as (E1 & E2 & R). apply Z.even_spec in E1. apply Z.even_spec in E2. destruct E1 as [x ->], E2 as [y ->].
    replace (2 * x - 2 * y) with ((x - y) * 2) by lia. rewrite Z.div_mul by lia. rewrite sext32_id by (powers; lia).
    replace (2 * y + 2 * (x - y)) with (2 * x) by lia. now apply Z.mod_small.
Qed.

(** The two halves of the descriptor pointer, low half first. *)
Definition low (b : build) : Z := match data_order b with Little => 8 | Big => 12 end.
Definition high (b : build) : Z := match data_order b with Little => 12 | Big => 8 end.
Lemma pointer_halves : forall b m abi, kernel_rseq_cs b m abi =
  load (data_order b) m (abi + low b) 4 + 2 ^ 32 * load (data_order b) m (abi + high b) 4.
Proof.
  intros b m abi. unfold kernel_rseq_cs, low, high. rewrite load_halves. destruct (data_order b); replace (abi + 8 + 4) with (abi + 12) by lia; lia.
Qed.
Lemma arch_ptr_low : forall b, ptr_bytes b = 4%nat -> arch_ptr_offset b = low b.
Proof. intros b. destruct b as [| | | | | | | | | | |[] [] i| | | | |]; intros E; try discriminate E; reflexivity. Qed.
Lemma arch_ptr_whole : forall b, ptr_bytes b = 8%nat -> arch_ptr_offset b = 8.
Proof. intros b. destruct b as [| | | | | | | | | | |[] [] i| | | | |]; intros E; try discriminate E; reflexivity. Qed.
Lemma ptr_bytes_cases : forall b, ptr_bytes b = 4%nat \/ ptr_bytes b = 8%nat.
Proof. intros b. destruct b as [| | | | | | | | | | |[] [] i| | | | |]; auto. Qed.
Lemma store_cs_cases : forall b, store_cs_at b = (8, 8%nat) \/ store_cs_at b = (low b, 4%nat) /\ ptr_bytes b = 4%nat.
Proof. intros b. destruct b as [| | | | | | | | | | |[] [] i| | | | |]; auto. Qed.

(** Invariant: the pointer is a pointer of the build; the high half is zero if
    pointers have 32 bits. *)
Definition area (b : build) (m : memory) (abi p : Z) : Prop :=
  kernel_rseq_cs b m abi = p /\ (ptr_bytes b = 4%nat -> load (data_order b) m (abi + high b) 4 = 0).
(** The halves of a 64-bit store. *)
Lemma le_bytes_app : forall n k v, le_bytes (n + k) v = le_bytes n v ++ le_bytes k (v / 256 ^ Z.of_nat n).
Proof.
  induction n; intros k v. { cbn [plus le_bytes app]. change (256 ^ Z.of_nat 0) with 1. now rewrite Z.div_1_r. }
  cbn [plus le_bytes app]. rewrite IHn, pow256. do 2 f_equal. f_equal.
  apply Z.div_div; [lia|apply Z.pow_pos_nonneg; lia].
Qed.
Lemma store_bytes : forall o m a n v, bytes_at (store o m a n v) a n = int_bytes o n v.
Proof.
  intros o m a n v. apply nth_ext with (d := 0) (d' := 0); rewrite bytes_at_length; [now rewrite int_bytes_length|]. intros i Hi.
  rewrite <- (Nat2Z.id i) at 1. rewrite nth_bytes_at by lia. unfold store.
  destruct (Z.leb_spec a (a + Z.of_nat i)); [|lia]. destruct (Z.ltb_spec (a + Z.of_nat i) (a + Z.of_nat n)); [|lia].
  cbn [andb]. f_equal. lia.
Qed.
Lemma high_half : forall b m abi p, load (data_order b) (store (data_order b) m (abi + 8) 8 p) (abi + high b) 4 = (p / 2 ^ 32) mod 2 ^ 32.
Proof.
  intros b m abi p. pose proof (store_bytes (data_order b) m (abi + 8) 8 p) as E. change 8%nat with (4 + 4)%nat in E at 2 3.
  rewrite bytes_at_app in E. unfold int_bytes in E. change (Z.of_nat 4) with 4 in E. replace (abi + 8 + 4) with (abi + 12) in E by lia.
  unfold high, load. destruct (data_order b).
  - rewrite le_bytes_app in E. apply app_split in E; [|rewrite bytes_at_length, le_bytes_length; reflexivity]. destruct E as [_ E]. rewrite E.
    cbn [int_value]. rewrite le_value_bytes. reflexivity.
  - rewrite le_bytes_app, rev_app_distr in E. apply app_split in E; [|rewrite bytes_at_length, rev_length, le_bytes_length; reflexivity].
    destruct E as [E _]. rewrite E. cbn [int_value]. rewrite rev_involutive, le_value_bytes. reflexivity.
Qed.
Lemma whole_store : forall b m abi p, (p = 0 \/ is_address b p) -> area b (store (data_order b) m (abi + 8) 8 p) abi p.
Proof.
  intros b m abi p A. split.
  - unfold kernel_rseq_cs. rewrite load_store_same. apply Z.mod_small. change (256 ^ Z.of_nat 8) with (2 ^ 64).
    destruct A as [-> | A]; [|now apply address64 in A]. powers. lia.
  - intros B4. rewrite high_half. destruct A as [-> | A]; [reflexivity|]. apply address32 in A; [|exact B4]. now rewrite Z.div_small.
Qed.
Lemma half_store : forall b m abi q p, area b m abi q -> ptr_bytes b = 4%nat -> 0 <= p < 2 ^ 32 ->
  area b (store (data_order b) m (abi + low b) 4 p) abi p.
Proof.
  intros b m abi q p [_ Hh] B4 Hp. specialize (Hh B4).
  assert (E : load (data_order b) (store (data_order b) m (abi + low b) 4 p) (abi + high b) 4 = 0).
  { rewrite load_store_other; [exact Hh|]. unfold low, high. destruct (data_order b); lia. }
  split; [|auto]. rewrite pointer_halves, load_store_same, E. rewrite Z.mod_small; [lia|exact Hp].
Qed.
Lemma happen_area : forall b abi m q e, area b m abi q -> permitted b e ->
  area b (happen b abi m e) abi (match e with Start _ d => d | Unload | Reset => 0 | Update _ _ => q end).
Proof.
  intros b abi m q e H P. destruct e as [ip d| | |f v]; cbn [happen permitted] in *.
  - destruct P as [A R]. unfold store_cs. rewrite p_address by assumption.
    destruct (store_cs_cases b) as [-> | [-> B4]]; cbn [fst snd].
    + apply whole_store. auto.
    + eapply half_store; eauto. now apply address32 in A.
  - unfold clear_cs. destruct (ptr_bytes_cases b) as [B|B]; rewrite B.
    + rewrite arch_ptr_low by exact B. eapply half_store; eauto. powers. lia.
    + rewrite arch_ptr_whole by exact B. apply whole_store. auto.
  - apply whole_store. auto.
  - destruct P as [P _]. assert (D : forall x, 8 <= x <= 12 -> forall o k, x + Z.of_nat k <= 16 -> load o (kernel_store b m abi f v) (abi + x) k = load o m (abi + x) k).
    { intros x Hx o k Hk. unfold kernel_store. apply load_store_other. destruct f; cbn [kernel_offset]; try congruence; lia. }
    destruct H as [H1 H2]. split.
    + unfold kernel_rseq_cs in *. rewrite D; [exact H1|lia|cbn; lia].
    + intros B. rewrite D; [auto|unfold high; destruct (data_order b); lia|unfold high; destruct (data_order b); cbn; lia].
Qed.
Lemma start_area : forall b m abi, no_descriptor m abi -> area b m abi 0.
Proof.
  intros b m abi H. unfold no_descriptor in H. change 8%nat with (4 + 4)%nat in H. rewrite bytes_at_app in H. change (repeat 0 (4 + 4)) with (repeat 0 4 ++ repeat 0 4) in H.
  apply app_split in H; [|rewrite bytes_at_length; reflexivity]. destruct H as [H1 H2]. change (Z.of_nat 4) with 4 in H2. replace (abi + 8 + 4) with (abi + 12) in H2 by lia.
  assert (L : forall o, load o m (abi + 8) 4 = 0) by (intros []; unfold load; rewrite H1; reflexivity).
  assert (K : forall o, load o m (abi + 12) 4 = 0) by (intros []; unfold load; rewrite H2; reflexivity).
  split; [rewrite pointer_halves|intros _]; unfold low, high; destruct (data_order b); rewrite ?L, ?K; reflexivity.
Qed.
Lemma area_history : forall b abi m h, no_descriptor m abi -> Forall (permitted b) h -> area b (area_after b abi m h) abi (pointer_after h).
Proof.
  intros b abi m h H. induction 1 as [|e h P F IH]; [now apply start_area|]. cbn [area_after fold_right pointer_after].
  fold (area_after b abi m h). apply (happen_area b abi _ _ e IH) in P. destruct e; exact P.
Qed.
Theorem p_pointer : forall b abi m h, no_descriptor m abi -> Forall (permitted b) h ->
  kernel_rseq_cs b (area_after b abi m h) abi = pointer_after h.
Proof. intros b abi m h H F. apply (area_history b abi m h H F). Qed.

(** The 32-bit fields. *)
Lemma store_cs_range : forall b, 8 <= fst (store_cs_at b) /\ fst (store_cs_at b) + Z.of_nat (snd (store_cs_at b)) <= 16.
Proof. intros b. destruct b as [| | | | | | | | | | |[] [] i| | | | |]; vm_compute; split; discriminate. Qed.
Lemma clear_range : forall b, 8 <= arch_ptr_offset b /\ arch_ptr_offset b + Z.of_nat (ptr_bytes b) <= 16.
Proof. intros b. destruct b as [| | | | | | | | | | |[] [] i| | | | |]; vm_compute; split; discriminate. Qed.
Lemma outside : forall f, f <> RseqCs -> kernel_offset f + 4 <= 8 \/ 16 <= kernel_offset f.
Proof. intros f H. destruct f; cbn; try congruence; lia. Qed.
Lemma member_eqb_ok : forall f g, member_eqb f g = true <-> f = g.
Proof. intros f g. destruct f, g; cbn; split; congruence. Qed.
Theorem p_fields : forall b abi m h f, Forall (permitted b) h -> f <> RseqCs ->
  load_member b (area_after b abi m h) abi f = field_after (load_member b m abi f) f h.
Proof.
  intros b abi m h f F N. unfold load_member. rewrite p_layout. induction F as [|e h P F IH]; [reflexivity|].
  cbn [area_after fold_right field_after]. fold (area_after b abi m h).
  pose proof (outside f N) as O. destruct e as [ip d| | |g v]; cbn [happen].
  - unfold store_cs. rewrite load_store_other; [exact IH|]. pose proof (store_cs_range b). change (Z.of_nat 4) with 4. lia.
  - unfold clear_cs. rewrite load_store_other; [exact IH|]. pose proof (clear_range b). change (Z.of_nat 4) with 4. lia.
  - rewrite load_store_other; [exact IH|]. change (Z.of_nat 4) with 4. change (Z.of_nat 8) with 8. lia.
  - destruct P as [Pg Pv]. unfold kernel_store. destruct (member_eqb g f) eqn:E.
    + apply member_eqb_ok in E. subst g. rewrite load_store_same. apply Z.mod_small. exact Pv.
    + rewrite load_store_other; [exact IH|]. change (Z.of_nat 4) with 4.
      destruct f, g; try congruence; try discriminate E; cbn [kernel_offset]; lia.
Qed.
Theorem p_index : forall b m abi c, load_index b m abi c = load_member b m abi (if c then MmCid else CpuId).
Proof. intros b m abi c. unfold load_index, load_member. now rewrite index_offset_ok, p_layout. Qed.
