(** The invariant behind C38. *)
From Coq Require Import ZArith Bool List Lia.
From Verif Require Import CowModel CowSpec.
Import ListNotations.
Local Open Scope Z_scope.

Lemma zseq_in : forall n a x, In x (zseq n a) <-> a <= x < a + Z.of_nat n.
Proof.
  induction n as [|n IH]; intros a x; cbn [zseq In]; [lia|]. rewrite IH. lia.
Qed.
Lemma has_in : forall k l, has k l = true <-> In k l.
Proof.
  intros k l. unfold has. rewrite existsb_exists. split; [intros (y & H & E); apply Z.eqb_eq in E; now subst|intros H; exists k; split; auto; apply Z.eqb_refl].
Qed.
Lemma has_below : forall k n, 0 <= n -> (has k (below n) = true <-> 0 <= k < n).
Proof. intros k n Hn. rewrite has_in. unfold below. rewrite zseq_in. lia. Qed.
Lemma has_drop : forall j k l, has j (drop k l) = true <-> has j l = true /\ j <> k.
Proof. intros j k l. rewrite !has_in. unfold drop. rewrite filter_In. rewrite negb_true_iff, Z.eqb_neq. tauto. Qed.
Lemma has_drop_false : forall j k l, has j (drop k l) = false -> has j l = false \/ j = k.
Proof.
  intros j k l H. destruct (Z.eq_dec j k); auto. left. destruct (has j l) eqn:E; auto.
  assert (has j (drop k l) = true) by (apply has_drop; auto). congruence.
Qed.
Lemma upd_same : forall (A : Type) (f : Z -> A) k v, upd f k v k = v.
Proof. intros. unfold upd. now rewrite Z.eqb_refl. Qed.
Lemma upd_other : forall (A : Type) (f : Z -> A) k v x, x <> k -> upd f k v x = f x.
Proof. intros. unfold upd. apply Z.eqb_neq in H. now rewrite H. Qed.

Section Proofs.
Variable g : cfg.
Hypothesis Hg : cfg_ok g.
Notation len := (c_len g).
Notation pg := (pg g).
Notation item := (item g).

Lemma len_pos : 0 < len. Proof. destruct Hg as (_ & H & _). lia. Qed.
Lemma item_at : forall it k, 0 <= k < len -> item (it * len + k) = it.
Proof. intros it k H. unfold CowModel.item. rewrite Z.div_add_l by lia. rewrite Z.div_small; lia. Qed.
Lemma item_in : forall it x, ((it * len <=? x) && (x <? it * len + len)) = (item x =? it).
Proof.
  intros it x. pose proof len_pos. unfold CowModel.item. pose proof (Z.div_mod x len ltac:(lia)). pose proof (Z.mod_pos_bound x len ltac:(lia)).
  destruct (x / len =? it) eqn:E.
  - apply Z.eqb_eq in E. subst it. apply andb_true_iff. lia.
  - apply Z.eqb_neq in E. apply andb_false_iff. assert (x / len < it \/ it < x / len) as [H2|H2] by lia; [left; apply Z.leb_gt|right; apply Z.ltb_ge]; nia.
Qed.

(** Reading byte x of the CPU gives v now, and as long as nobody writes it. *)
Definition shows (s : state) (cpu x v : Z) : Prop :=
  match s_page s cpu (pg x) with
  | Private m => m x = v
  | Copying snap => match snap x with Some b => b = v | None => s_file s x = v end
  | Shared => s_file s x = v
  end.
Definition zinv (s : state) : Prop := c_init g = false ->
  (forall x, s_file s x = 0) /\ forall cpu p snap x b, s_page s cpu p = Copying snap -> snap x = Some b -> b = 0.
(** The claims about the bytes in D survive. *)
Definition keep (D : Z -> Prop) (s s' : state) : Prop :=
  forall x, D x -> s_file s' x = s_file s x /\ forall cpu v, shows s cpu x v -> shows s' cpu x v.

Lemma keep_refl : forall D s s', s_file s' = s_file s -> s_page s' = s_page s -> keep D s s'.
Proof. intros D s s' E1 E2 x _. rewrite E1. split; auto. intros cpu v. unfold shows. now rewrite E1, E2. Qed.
Lemma keep_trans : forall D s1 s2 s3, keep D s1 s2 -> keep D s2 s3 -> keep D s1 s3.
Proof. intros D s1 s2 s3 H1 H2 x Hx. destruct (H1 x Hx) as (A & B), (H2 x Hx) as (C & E). split; [congruence|auto]. Qed.

Lemma store_spec : forall s cpu x b s', store g s cpu x b = Some s' ->
  s_file s' = s_file s /\ s_item s' = s_item s /\ s_task s' = s_task s /\ shows s' cpu x b /\ (zinv s -> zinv s') /\
  forall cpu' x' v, (cpu' <> cpu \/ x' <> x) -> shows s cpu' x' v -> shows s' cpu' x' v.
Proof.
  intros s cpu x b s' H. unfold store in H. destruct (s_page s cpu (pg x)) as [| |m] eqn:E; try discriminate. injection H as <-.
  split; [reflexivity|]. split; [reflexivity|]. split; [reflexivity|]. split; [|split].
  - unfold shows. cbn [s_page set_page]. rewrite upd_same, upd_same. apply upd_same.
  - intros Hz Hi. destruct (Hz Hi) as (Z1 & Z2). split; auto. intros cpu' p snap y b' Ep Es. cbn [s_page set_page] in Ep. unfold upd in Ep at 1.
    destruct (cpu' =? cpu) eqn:Ec; [|eapply Z2; eauto]. unfold upd in Ep at 1. destruct (p =? pg x) eqn:Epp; [discriminate|eapply Z2; [|exact Es]; eauto].
  - intros cpu' x' v Hne. unfold shows. cbn [s_page s_file set_page]. unfold upd at 1. destruct (cpu' =? cpu) eqn:Ec; auto.
    apply Z.eqb_eq in Ec. subst cpu'. unfold upd at 1. destruct (pg x' =? pg x) eqn:Epp; auto.
    apply Z.eqb_eq in Epp. rewrite Epp, E. rewrite upd_other; auto. lia.
Qed.

Hypothesis Hk : k_serial g = true \/ c_init g = false.
Lemma load_spec : forall s cpu x b, zinv s -> cpu <> -1 -> load g s cpu x = Some b -> shows s cpu x b.
Proof.
  intros s cpu x b Hz Hc H. unfold load in H. unfold shows. assert (cpu =? -1 = false) as E by lia. rewrite E in H.
  destruct (s_page s cpu (pg x)) as [|snap|m] eqn:Ep; try (now injection H).
  destruct Hk as [Hs|Hi]; [rewrite Hs in H; discriminate|]. destruct (k_serial g); [discriminate|]. injection H as <-.
  destruct (snap x) as [b|] eqn:Es; auto. destruct (Hz Hi) as (Z1 & Z2). rewrite (Z2 _ _ _ _ _ Ep Es), Z1. reflexivity.
Qed.
Lemma load_shown : forall s cpu x b v, cpu <> -1 -> zinv s -> load g s cpu x = Some b -> shows s cpu x v -> b = v.
Proof.
  intros s cpu x b v Hc Hz Hl Hs. pose proof (load_spec _ _ _ _ Hz Hc Hl) as H. unfold shows in *.
  destruct (s_page s cpu (pg x)) as [|snap|m]; [congruence| |congruence]. destruct (snap x); congruence.
Qed.

Definition at_ (bs : list Z) (k : Z) : Z := nth (Z.to_nat k) bs 0.
Definition blen (bs : list Z) : Z := Z.of_nat (length bs).
Definition filed (s : state) (it : Z) (bs : list Z) : Prop := c_init g = true -> forall k, 0 <= k < blen bs -> s_file s (it * len + k) = at_ bs k.
Definition upto (s : state) (it : Z) (bs : list Z) (c : Z) : Prop :=
  forall cpu k, 0 <= cpu < c -> 0 <= k < blen bs -> shows s cpu (it * len + k) (at_ bs k).
Definition inside (todo : list Z) (n : Z) : Prop := forall k, has k todo = true -> 0 <= k < n.
Definition cpu_part (s : state) (it : Z) (bs : list Z) (c : Z) (todo : list Z) : Prop :=
  0 <= c < c_cpus g /\ inside todo (blen bs) /\ filed s it bs /\ upto s it bs c /\
  forall k, 0 <= k < blen bs -> has k todo = false -> shows s c (it * len + k) (at_ bs k).
Definition pinv (s : state) (it : Z) (bs : list Z) (ph : phase) : Prop :=
  match ph with
  | PFile todo => c_init g = true /\ inside todo (blen bs) /\
                  forall k, 0 <= k < blen bs -> has k todo = false -> s_file s (it * len + k) = at_ bs k
  | PCmp c todo | PCopy c todo => cpu_part s it bs c todo
  end.

Lemma blen_nn : forall bs, 0 <= blen bs. Proof. intros. unfold blen. lia. Qed.
Lemma all_inside : forall n, 0 <= n -> inside (below n) n.
Proof. intros n Hn k H. apply has_below in H; auto. Qed.
Lemma drop_inside : forall k l n, inside l n -> inside (drop k l) n.
Proof. intros k l n H j Hj. apply has_drop in Hj. apply H. exact (proj1 Hj). Qed.
Lemma new_part : forall s it bs c, 0 <= c < c_cpus g -> filed s it bs -> upto s it bs c -> cpu_part s it bs c (below (blen bs)).
Proof.
  intros s it bs c Hc Hf Hu. split; auto. split; [apply all_inside, blen_nn|]. split; auto. split; auto.
  intros k Hk' E. assert (has k (below (blen bs)) = true) by (apply has_below; auto using blen_nn). congruence.
Qed.
Lemma first_pinv : forall s it bs, pinv s it bs (first_phase g (blen bs)).
Proof.
  intros s it bs. unfold first_phase. destruct Hg as (_ & _ & Hc & _). destruct (c_init g) eqn:E; cbn [pinv].
  - split; auto. split; [apply all_inside, blen_nn|]. intros k Hk' E2. assert (has k (below (blen bs)) = true) by (apply has_below; auto using blen_nn). congruence.
  - apply new_part; [lia|unfold filed; congruence|]. intros cpu k H. lia.
Qed.
Lemma done_next : forall s it bs c, cpu_part s it bs c [] -> upto s it bs (c + 1).
Proof.
  intros s it bs c (Hc & _ & _ & Hu & Hd) cpu k Hcpu Hk'. destruct (Z.eq_dec cpu c) as [->|]; [apply Hd; auto|apply Hu; auto; lia].
Qed.

Definition outcome (s : state) (it : Z) (bs : list Z) (o : option phase) : Prop :=
  match o with Some ph => pinv s it bs ph | None => filed s it bs /\ upto s it bs (c_cpus g) end.
Lemma next_ok : forall s it bs c, cpu_part s it bs c [] ->
  outcome s it bs (if c + 1 <? c_cpus g then Some (PCmp (c + 1) (below (Z.of_nat (length bs)))) else None).
Proof.
  intros s it bs c H. pose proof (done_next _ _ _ _ H) as Hu. pose proof H as (Hc & _ & Hf & _). destruct (c + 1 <? c_cpus g) eqn:E; cbn [outcome pinv].
  - apply new_part; auto. lia.
  - split; auto. assert (E2 : c + 1 = c_cpus g) by lia. rewrite <- E2. exact Hu.
Qed.

Lemma fill_ok : forall s it bs ph k s' o, zinv s -> blen bs <= len -> pinv s it bs ph -> fill_step g s it bs ph k = Some (s', o) ->
  keep (fun x => item x <> it) s s' /\ zinv s' /\ s_item s' = s_item s /\ s_task s' = s_task s /\ outcome s' it bs o.
Proof.
  intros s it bs ph k s' o Hz Hn Hp H. pose proof len_pos as Hlp.
  assert (Same : forall o', Some (s, o') = Some (s', o) -> outcome s it bs o' ->
    keep (fun x => item x <> it) s s' /\ zinv s' /\ s_item s' = s_item s /\ s_task s' = s_task s /\ outcome s' it bs o).
  { intros o' E Ho. injection E as <- <-. split; [now apply keep_refl|]. auto. }
  unfold fill_step in H. cbv zeta in H. destruct ph as [todo|c todo|c todo]; cbn [pinv] in Hp.
  - destruct Hp as (Hi & Hin & Hf). destruct todo as [|j todo].
    + apply Same in H; auto. assert (Hff : filed s it bs) by (intros _ k' Hk'; now apply Hf).
      destruct Hg as (_ & _ & Hc & _). destruct (0 <? c_cpus g) eqn:E; [|lia]. cbn [outcome pinv]. apply new_part; auto; [lia|]. intros cpu k' Hb. lia.
    + remember (j :: todo) as l eqn:El. clear El. destruct (has k l) eqn:Eh; [|discriminate]. injection H as <- <-. pose proof (Hin k Eh) as Hkb.
      split; [|split; [|split; [reflexivity|split; [reflexivity|]]]].
      * intros x Hx. assert (x <> it * len + k) by (intros ->; apply Hx; apply item_at; lia).
        assert (Ef : upd (s_file s) (it * len + k) (nth (Z.to_nat k) bs 0) x = s_file s x) by (apply upd_other; auto).
        split; [exact Ef|]. intros cpu v. unfold shows. cbn [s_page s_file set_file]. rewrite Ef. auto.
      * intros E. congruence.
      * cbn [outcome pinv]. split; auto. split; [now apply drop_inside|]. intros k' Hk' E. cbn [s_file set_file]. unfold upd.
        destruct (it * len + k' =? it * len + k) eqn:Ek; [unfold at_; f_equal; lia|]. apply Hf; auto. apply has_drop_false in E. destruct E; auto. lia.
  - destruct todo as [|j todo]; [apply Same in H; auto; now apply next_ok|].
    remember (j :: todo) as l eqn:El. clear El. destruct (has k l) eqn:Eh; [|discriminate]. destruct (load g s c (it * len + k)) as [b|] eqn:Eld; [|discriminate].
    apply Same in H; auto. pose proof Hp as (Hc & Hin & Hf & Hu & Hd). destruct (b =? _) eqn:Eb; cbn [outcome pinv].
    + split; auto. split; [now apply drop_inside|]. split; auto. split; auto. intros k' Hk' E. apply has_drop_false in E. destruct E as [E|E]; [auto|].
      subst k'. apply Z.eqb_eq in Eb. unfold at_. rewrite <- Eb. apply load_spec; auto. lia.
    + now apply new_part.
  - destruct todo as [|j todo]; [apply Same in H; auto; now apply next_ok|].
    remember (j :: todo) as l eqn:El. clear El. destruct (has k l) eqn:Eh; [|discriminate]. destruct (store g s c (it * len + k) _) as [s1|] eqn:Est; [|discriminate].
    injection H as <- <-. apply store_spec in Est. destruct Est as (E1 & E2 & E3 & Hsh & Hz' & Hoth). pose proof Hp as (Hc & Hin & Hf & Hu & Hd). pose proof (Hin k Eh) as Hkb.
    split; [|split; [auto|split; [auto|split; [auto|]]]].
    + intros x Hx. assert (x <> it * len + k) by (intros ->; apply Hx; apply item_at; lia). rewrite E1. split; auto.
    + cbn [outcome pinv]. split; auto. split; [now apply drop_inside|]. split; [unfold filed; rewrite E1; auto|]. split.
      * intros cpu k' Hcpu Hk'. apply Hoth; [lia|]. now apply Hu.
      * intros k' Hk' E. destruct (Z.eq_dec k' k) as [->|Hne]; [exact Hsh|]. apply Hoth; [lia|]. apply Hd; auto. apply has_drop_false in E. tauto.
Qed.

(** ** Claims about items survive what happens elsewhere *)
Definition poisoned (s : state) (it : Z) : Prop := forall p, c_poison g = Some p ->
  (c_init g = true -> forall k, 0 <= k < len -> s_file s (it * len + k) = p k) /\
  forall cpu k, 0 <= cpu < c_cpus g -> 0 <= k < len -> shows s cpu (it * len + k) (p k).
Definition tinv (s : state) (a : task) : Prop :=
  match a with
  | TIdle | TDead => True
  | TCheck it c cpu todo => c_robust g = true /\ poisoned s it /\ (cpu = -1 -> c_init g = true) /\ -1 <= cpu < c_cpus g /\ inside todo len /\
                            match c with Some bs => blen bs <= len | None => True end
  | TFill it bs ph => blen bs <= len /\ pinv s it bs ph
  | TPoison it bs ph => (exists p, c_poison g = Some p /\ bs = poison_bytes g p) /\ pinv s it bs ph
  | TLink it todo => c_robust g = false /\ inside todo 8
  end.
Definition titem (a : task) : option Z :=
  match a with
  | TIdle | TDead => None
  | TCheck it _ _ _ | TFill it _ _ | TPoison it _ _ | TLink it _ => Some it
  end.
Definition reads (s : state) (h : list event) (it : Z) : Prop :=
  forall cpu x v, 0 <= cpu < c_cpus g -> item x = it -> expect len h cpu x = Some v -> shows s cpu x v.

Section Keep.
Variables (D : Z -> Prop) (s s' : state) (it : Z).
Hypothesis HK : keep D s s'.
Hypothesis HD : forall x, item x = it -> D x.
Lemma keep_at : forall k, 0 <= k < len -> D (it * len + k).
Proof. intros k H. apply HD. now apply item_at. Qed.
Lemma filed_keep : forall bs, blen bs <= len -> filed s it bs -> filed s' it bs.
Proof. intros bs Hn H Hi k Hk'. rewrite (proj1 (HK _ (keep_at k ltac:(lia)))). now apply H. Qed.
Lemma upto_keep : forall bs c, blen bs <= len -> upto s it bs c -> upto s' it bs c.
Proof. intros bs c Hn H cpu k Hc Hk'. apply (proj2 (HK _ (keep_at k ltac:(lia)))). now apply H. Qed.
Lemma part_keep : forall bs c todo, blen bs <= len -> cpu_part s it bs c todo -> cpu_part s' it bs c todo.
Proof.
  intros bs c todo Hn (Hc & Hin & Hf & Hu & Hd). split; auto. split; auto. split; [now apply filed_keep|]. split; [now apply upto_keep|].
  intros k Hk' E. apply (proj2 (HK _ (keep_at k ltac:(lia)))). now apply Hd.
Qed.
Lemma pinv_keep : forall bs ph, blen bs <= len -> pinv s it bs ph -> pinv s' it bs ph.
Proof.
  intros bs [todo|c todo|c todo] Hn H; cbn [pinv] in *; try (now apply part_keep).
  destruct H as (Hi & Hin & Hf). split; auto. split; auto. intros k Hk' E. rewrite (proj1 (HK _ (keep_at k ltac:(lia)))). now apply Hf.
Qed.
Lemma poisoned_keep : poisoned s it -> poisoned s' it.
Proof.
  intros H p Hp. destruct (H p Hp) as (A & B). split.
  - intros Hi k Hk'. rewrite (proj1 (HK _ (keep_at k Hk'))). now apply A.
  - intros cpu k Hc Hk'. apply (proj2 (HK _ (keep_at k Hk'))). now apply B.
Qed.
Lemma reads_keep : forall h, reads s h it -> reads s' h it.
Proof. intros h H cpu x v Hc Hx E. apply (proj2 (HK x (HD x Hx))). now apply H. Qed.
End Keep.

Lemma poison_len : forall p, blen (poison_bytes g p) = len.
Proof.
  intros p. unfold blen, poison_bytes. rewrite map_length. unfold below. pose proof len_pos.
  assert (H2 : forall n a, length (zseq n a) = n) by (induction n; cbn; auto). rewrite H2. lia.
Qed.
Lemma zseq_nth : forall n a k, (k < n)%nat -> nth k (zseq n a) 0 = a + Z.of_nat k.
Proof. induction n as [|n IH]; intros a k H; [lia|]. destruct k; cbn [zseq nth]; [lia|]. rewrite IH; lia. Qed.
Lemma poison_at : forall p k, 0 <= k < len -> at_ (poison_bytes g p) k = p k.
Proof.
  intros p k Hk'. unfold at_, poison_bytes. rewrite nth_indep with (d' := p 0).
  - rewrite map_nth. unfold below. rewrite zseq_nth by lia. f_equal. lia.
  - pose proof (poison_len p) as H. unfold blen, poison_bytes in H. lia.
Qed.
Lemma poison_done : forall s it p, c_poison g = Some p -> filed s it (poison_bytes g p) -> upto s it (poison_bytes g p) (c_cpus g) -> poisoned s it.
Proof.
  intros s it p Hp Hf Hu q Hq. rewrite Hp in Hq. injection Hq as <-. split.
  - intros Hi k Hk'. rewrite (Hf Hi k) by (rewrite poison_len; auto). now apply poison_at.
  - intros cpu k Hc Hk'. rewrite <- (poison_at p k) by auto. apply Hu; auto. now rewrite poison_len.
Qed.
Lemma tinv_keep : forall (D : Z -> Prop) s s' a, keep D s s' -> (forall it x, titem a = Some it -> item x = it -> D x) -> tinv s a -> tinv s' a.
Proof.
  intros D s s' a HK HD H. destruct a; cbn [tinv] in *; auto.
  - destruct H as (A & B & C). split; auto. split; auto. eapply poisoned_keep; eauto. intros x Hx. eapply HD; eauto. reflexivity.
  - destruct H as (A & B). split; auto. eapply pinv_keep; eauto. intros x Hx. eapply HD; eauto. reflexivity.
  - destruct H as ((p & A & E) & B). split; [exists p; auto|]. eapply pinv_keep; eauto; [|subst bs; rewrite poison_len; lia]. intros x Hx. eapply HD; eauto. reflexivity.
Qed.

Record inv (s : state) (h : list event) : Prop := {
  v_zero : zinv s;
  v_busy : forall t it, titem (s_task s t) = Some it -> s_item s it = Busy;
  v_one : forall t t' it, titem (s_task s t) = Some it -> titem (s_task s t') = Some it -> t = t';
  v_task : forall t, tinv s (s_task s t);
  v_live : forall it, s_item s it = Live -> reads s h it;
  v_freed : forall it, s_item s it = Freed -> c_robust g = true -> poisoned s it
}.

(** The general step: thread t changes its task, and the status of an item it that
    is its own; memory changes only within that item. *)
Lemma inv_step : forall s h s' ev t it, inv s h ->
  (forall t' it', t' <> t -> titem (s_task s t') = Some it' -> it' <> it) ->
  keep (fun x => item x <> it) s s' -> zinv s' ->
  (forall t', t' <> t -> s_task s' t' = s_task s t') -> (forall it', it' <> it -> s_item s' it' = s_item s it') ->
  (forall cpu x, item x <> it -> expect len (ev :: h) cpu x = expect len h cpu x) ->
  (titem (s_task s' t) = None \/ (titem (s_task s' t) = Some it /\ s_item s' it = Busy)) ->
  tinv s' (s_task s' t) ->
  (s_item s' it = Live -> reads s' (ev :: h) it) -> (s_item s' it = Freed -> c_robust g = true -> poisoned s' it) ->
  inv s' (ev :: h).
Proof.
  intros s h s' ev t it HI Hown HK Hz Ht Hi He Hti Htv Hl Hf.
  assert (Hit : forall t' it', t' <> t -> titem (s_task s' t') = Some it' -> titem (s_task s t') = Some it' /\ it' <> it).
  { intros t' it' Hne E. rewrite Ht in E by auto. split; auto. eapply Hown; eauto. }
  constructor; auto.
  - intros t' it' E. destruct (Z.eq_dec t' t) as [->|Hne].
    + destruct Hti as [Hn|(Hs & Hb)]; [congruence|]. replace it' with it by congruence. exact Hb.
    + destruct (Hit t' it' Hne E) as (E2 & Hn2). rewrite Hi by auto. eapply v_busy; eauto.
  - intros t1 t2 it' E1 E2. destruct (Z.eq_dec t1 t) as [H1|H1], (Z.eq_dec t2 t) as [H2|H2]; try congruence.
    + exfalso. destruct (Hit t2 it' H2 E2) as (_ & Hn2). destruct Hti as [Hn|(Hs & _)]; congruence.
    + exfalso. destruct (Hit t1 it' H1 E1) as (_ & Hn2). destruct Hti as [Hn|(Hs & _)]; congruence.
    + destruct (Hit t1 it' H1 E1) as (E1' & _), (Hit t2 it' H2 E2) as (E2' & _). eapply v_one; eauto.
  - intros t'. destruct (Z.eq_dec t' t) as [->|Hne]; auto. rewrite Ht by auto.
    eapply tinv_keep; [exact HK| |apply (v_task _ _ HI)]. intros it' x E Hx. cbv beta. rewrite Hx. eapply Hown; eauto.
  - intros it' E. destruct (Z.eq_dec it' it) as [->|Hne]; auto. rewrite Hi in E by auto.
    intros cpu x v Hc Hx Hex. rewrite He in Hex by (rewrite Hx; auto). apply (proj2 (HK x ltac:(cbv beta; rewrite Hx; auto))). eapply v_live; eauto.
  - intros it' E Hr. destruct (Z.eq_dec it' it) as [->|Hne]; auto. rewrite Hi in E by auto.
    eapply poisoned_keep; [exact HK| |eapply v_freed; eauto]. intros x Hx. cbv beta. rewrite Hx. auto.
Qed.
(** Steps that change no item and no task, and keep what all bytes show. *)
Lemma inv_kernel : forall s h s', inv s h -> keep (fun _ => True) s s' -> zinv s' -> s_task s' = s_task s -> s_item s' = s_item s ->
  forall ev, (forall cpu x, expect len (ev :: h) cpu x = expect len h cpu x) -> inv s' (ev :: h).
Proof.
  intros s h s' HI HK Hz Et Ei ev He. constructor; auto.
  - rewrite Et, Ei. apply (v_busy _ _ HI).
  - rewrite Et. apply (v_one _ _ HI).
  - intros t. rewrite Et. eapply tinv_keep; [exact HK|intros; exact Logic.I|apply (v_task _ _ HI)].
  - intros it E. rewrite Ei in E. intros cpu x v Hc Hx Hex. rewrite He in Hex. apply (proj2 (HK x Logic.I)). eapply v_live; eauto.
  - intros it E Hr. rewrite Ei in E. eapply poisoned_keep; [exact HK|intros; exact Logic.I|eapply v_freed; eauto].
Qed.

Lemma first_inv : forall file, first_file g file -> inv (start file) [].
Proof.
  intros file Hf. constructor; cbn; try discriminate; auto.
  intros Hi. split; [intros x; apply Hf; auto|]. cbn. discriminate.
Qed.

Lemma page_bytes_in : forall x, In x (page_bytes g (pg x)).
Proof.
  intros x. unfold page_bytes. apply zseq_in. destruct Hg as (Hp & _). unfold CowModel.pg. pose proof (Z.div_mod x (c_page g) ltac:(lia)).
  pose proof (Z.mod_pos_bound x (c_page g) ltac:(lia)). lia.
Qed.
Lemma keep_page : forall s cpu p v, zinv s -> s_page s cpu p <> v ->
  (forall x, pg x = p -> forall w, shows s cpu x w -> shows (set_page s cpu p v) cpu x w) ->
  (c_init g = false -> forall snap x b, v = Copying snap -> snap x = Some b -> b = 0) ->
  keep (fun _ => True) s (set_page s cpu p v) /\ zinv (set_page s cpu p v).
Proof.
  intros s cpu p v Hz Hne Hs Hc. split.
  - intros x _. split; [reflexivity|]. intros cpu' w H. destruct (Z.eq_dec cpu' cpu) as [->|Hn].
    + destruct (Z.eq_dec (pg x) p) as [E|E]; [now apply Hs|]. unfold shows in *. cbn [s_page s_file set_page]. rewrite upd_same, upd_other; auto.
    + unfold shows in *. cbn [s_page s_file set_page]. rewrite upd_other; auto.
  - intros Hi. destruct (Hz Hi) as (Z1 & Z2). split; auto. intros cpu' p' snap x b E Es. cbn [s_page set_page] in E. unfold upd in E at 1.
    destruct (cpu' =? cpu) eqn:Ec; [|eapply Z2; eauto]. unfold upd in E at 1. destruct (p' =? p) eqn:Ep; [|eapply Z2; eauto]. eapply Hc; eauto.
Qed.

(** Changing only the task of an idle or working thread. *)
Lemma own_item : forall s h t it, inv s h -> titem (s_task s t) = Some it -> forall t' it', t' <> t -> titem (s_task s t') = Some it' -> it' <> it.
Proof. intros s h t it HI E t' it' Hne E' ->. apply Hne. eapply v_one; eauto. Qed.
Lemma idle_item : forall s h t it, inv s h -> s_item s it <> Busy -> forall t' it', t' <> t -> titem (s_task s t') = Some it' -> it' <> it.
Proof. intros s h t it HI Hn t' it' Hne E' ->. apply Hn. eapply v_busy; eauto. Qed.

Lemma load_file : forall s x b, load g s (-1) x = Some b -> b = s_file s x.
Proof. intros s x b H. unfold load in H. cbn in H. congruence. Qed.

Lemma nth_error_at : forall bs k, 0 <= k < blen bs -> nth_error bs (Z.to_nat k) = Some (at_ bs k).
Proof. intros bs k H. unfold at_. apply nth_error_nth'. unfold blen in H. lia. Qed.

(** What the program reads once malloc returns. *)
Lemma fresh_reads : forall s h t it c, match c with Some bs => blen bs <= len /\ upto s it bs (c_cpus g) | None => True end ->
  reads s (EMalloc t it c :: h) it.
Proof.
  intros s h t it c H cpu x v Hc Hx E. cbn [expect] in E. rewrite item_in, Hx, Z.eqb_refl in E. destruct c as [bs|]; [|discriminate].
  destruct H as (Hn & Hu). pose proof (item_in it x) as Hin. rewrite Hx, Z.eqb_refl in Hin. apply andb_true_iff in Hin.
  assert (Hk' : 0 <= x - it * len < blen bs).
  { assert (nth_error bs (Z.to_nat (x - it * len)) <> None) as Hne by congruence. apply nth_error_Some in Hne. unfold blen. lia. }
  rewrite nth_error_at in E by auto. injection E as <-. replace x with (it * len + (x - it * len)) at 1 by lia. now apply Hu.
Qed.

Lemma zinv_same : forall s s', s_file s' = s_file s -> s_page s' = s_page s -> zinv s -> zinv s'.
Proof. intros s s' E1 E2 H Hi. rewrite E1, E2. now apply H. Qed.
Lemma pinv_same : forall s s' it bs ph, s_file s' = s_file s -> s_page s' = s_page s -> blen bs <= len -> pinv s it bs ph -> pinv s' it bs ph.
Proof. intros s s' it bs ph E1 E2 Hn H. eapply pinv_keep with (D := fun _ => True); eauto. now apply keep_refl. Qed.
Lemma poisoned_same : forall s s' it, s_file s' = s_file s -> s_page s' = s_page s -> poisoned s it -> poisoned s' it.
Proof. intros s s' it E1 E2 H. eapply poisoned_keep with (D := fun _ => True); eauto. now apply keep_refl. Qed.
Lemma upto_same : forall s s' it bs c, s_file s' = s_file s -> s_page s' = s_page s -> blen bs <= len -> upto s it bs c -> upto s' it bs c.
Proof. intros s s' it bs c E1 E2 Hn H. eapply upto_keep with (D := fun _ => True); eauto. now apply keep_refl. Qed.

(** Starting the initialisation of an item held by t, whatever was done before. *)
Lemma begin_ok : forall s h s0 t it c s' ev, inv s h -> s_file s0 = s_file s -> s_page s0 = s_page s ->
  (forall t' it', t' <> t -> titem (s_task s t') = Some it' -> it' <> it) ->
  (forall t', t' <> t -> s_task s0 t' = s_task s t') -> (forall it', it' <> it -> s_item s0 it' = s_item s it') ->
  s_item s0 it = Busy -> match c with Some bs => blen bs <= len | None => True end ->
  begin_fill g s0 t it c = Some (s', ev) -> inv s' (ev :: h).
Proof.
  intros s h s0 t it c s' ev HI E1 E2 Hown Ht Hi Hb Hn H. unfold begin_fill in H. destruct c as [bs|].
  - injection H as <- <-. apply (inv_step s h _ _ t it); auto; cbn [s_task s_item s_file s_page set_task set_item].
    + apply keep_refl; auto.
    + apply (zinv_same s); auto. apply (v_zero _ _ HI).
    + intros t' Hne. rewrite upd_other; auto.
    + rewrite upd_same. cbn [titem]. auto.
    + rewrite upd_same. cbn [tinv]. split; auto. apply first_pinv.
    + congruence.
    + congruence.
  - injection H as <- <-. apply (inv_step s h _ _ t it); auto; cbn [s_task s_item s_file s_page set_task set_item].
    + apply keep_refl; auto.
    + apply (zinv_same s); auto. apply (v_zero _ _ HI).
    + intros t' Hne. rewrite upd_other; auto.
    + intros it' Hne. rewrite upd_other; auto.
    + intros cpu x Hx. cbn [expect]. rewrite item_in. apply Z.eqb_neq in Hx. now rewrite Hx.
    + rewrite upd_same. cbn [titem]. auto.
    + rewrite upd_same. exact Logic.I.
    + intros _. apply fresh_reads. exact Logic.I.
    + rewrite upd_same. discriminate.
Qed.
(** The end of free. *)
Lemma link_ok : forall s h s0 t it ev, inv s h -> keep (fun x => item x <> it) s s0 -> zinv s0 ->
  (forall t' it', t' <> t -> titem (s_task s t') = Some it' -> it' <> it) ->
  (forall t', t' <> t -> s_task s0 t' = s_task s t') -> (forall it', it' <> it -> s_item s0 it' = s_item s it') ->
  (forall cpu x, item x <> it -> expect len (ev :: h) cpu x = expect len h cpu x) ->
  s_item s0 it = Busy -> (c_robust g = true -> poisoned s0 it) -> inv (begin_link g s0 t it) (ev :: h).
Proof.
  intros s h s0 t it ev HI HK Hz Hown Ht Hi He Hb Hp. unfold begin_link. destruct (c_robust g) eqn:Er.
  - apply (inv_step s h _ _ t it); auto; cbn [s_task s_item s_file s_page set_task set_item].
    + intros t' Hne. rewrite upd_other; auto.
    + intros it' Hne. rewrite upd_other; auto.
    + rewrite upd_same. auto.
    + rewrite upd_same. exact Logic.I.
    + rewrite upd_same. discriminate.
  - apply (inv_step s h _ _ t it); auto; cbn [s_task s_item s_file s_page set_task set_item].
    + intros t' Hne. rewrite upd_other; auto.
    + rewrite upd_same. auto.
    + rewrite upd_same. cbn [tinv]. split; auto. apply all_inside. lia.
    + congruence.
    + congruence.
Qed.

Ltac routine HI HK :=
  lazymatch goal with
  | |- keep _ _ _ => first [solve [apply keep_refl; reflexivity] | solve [eapply keep_trans; [exact HK|apply keep_refl; reflexivity]] | idtac]
  | |- zinv _ => first [assumption | solve [apply (v_zero _ _ HI)] | idtac]
  | |- forall t' : Z, _ <> _ -> _ = _ => solve [intros t' Hne; cbn [s_task s_item set_task set_item set_file]; rewrite ?upd_other by auto; congruence]
  | |- forall cpu x : Z, _ -> expect _ _ _ _ = _ =>
      solve [reflexivity | intros cpu x Hx; cbn [expect]; rewrite ?item_in; apply Z.eqb_neq in Hx; rewrite ?Hx; reflexivity]
  | |- _ \/ _ => cbn [s_task s_item set_task set_item set_file]; rewrite ?upd_same; cbn [titem]; solve [auto | right; split; [reflexivity|congruence]]
  | |- tinv _ _ => cbn [s_task set_task]; rewrite ?upd_same; cbn [tinv]; first [exact Logic.I | idtac]
  | |- _ -> reads _ _ _ => cbn [s_item set_task set_item set_file]; rewrite ?upd_same; first [discriminate | congruence | idtac]
  | |- _ -> _ -> poisoned _ _ => cbn [s_item set_task set_item set_file]; rewrite ?upd_same; first [discriminate | congruence | idtac]
  | |- _ => idtac
  end.
Lemma call_ok : forall s h t k b s' ev, inv s h -> call_step g s t k b = Some (s', ev) -> inv s' (ev :: h) /\ ev <> EAbort t.
Proof.
  intros s h t k b s' ev HI H. unfold call_step in H. pose proof (v_task _ _ HI t) as HT. pose proof (v_zero _ _ HI) as Hz.
  assert (Hown : forall it, titem (s_task s t) = Some it -> forall t' it', t' <> t -> titem (s_task s t') = Some it' -> it' <> it) by (intros; eapply own_item; eauto).
  assert (Hbusy : forall it, titem (s_task s t) = Some it -> s_item s it = Busy) by (intros; eapply v_busy; eauto).
  destruct (s_task s t) as [|it c cpu todo|it bs ph|it bs ph|it todo|] eqn:Et; try discriminate; cbn [tinv titem] in HT, Hown, Hbusy;
    specialize (Hown it eq_refl); specialize (Hbusy it eq_refl).
  - destruct HT as (Hr & Hpo & Hc1 & Hcb & Hin & Hn). destruct todo as [|j todo].
    + destruct (cpu + 1 <? c_cpus g) eqn:Ec.
      * injection H as <- <-. split; [|discriminate]. apply (inv_step s h _ _ t it); [exact HI|exact Hown|..]; routine HI HI.
        split; auto. split; [now apply (poisoned_same s)|]. split; [lia|]. split; [lia|]. split; auto. apply all_inside. pose proof len_pos. lia.
      * split; [apply (begin_ok s h s t it c); auto|]. unfold begin_fill, returns in H. destruct c; injection H as <- <-; discriminate.
    + remember (j :: todo) as l eqn:El. clear El. destruct (has k l) eqn:Eh; [|discriminate]. pose proof (Hin k Eh) as Hkb.
      destruct (load g s cpu (it * len + k)) as [v|] eqn:Eld; [|discriminate]. destruct (c_poison g) as [p|] eqn:Ep; [|discriminate].
      assert (Ev : v = p k).
      { destruct (Hpo p Ep) as (A & B). destruct (Z.eq_dec cpu (-1)) as [->|Hne].
        - apply load_file in Eld. rewrite Eld. apply A; auto.
        - eapply load_shown; [exact Hne|exact Hz|exact Eld|]. apply B; auto. lia. }
      rewrite Ev, Z.eqb_refl in H. injection H as <- <-. split; [|discriminate].
      apply (inv_step s h _ _ t it); [exact HI|exact Hown|..]; routine HI HI.
      split; auto. split; [now apply (poisoned_same s)|]. split; auto. split; auto. split; auto. now apply drop_inside.
  - destruct HT as (Hn & Hp). destruct (fill_step g s it bs ph k) as [[s1 [ph'|]]|] eqn:Ef; try discriminate;
      apply fill_ok in Ef; auto; destruct Ef as (HK & Hz1 & Ei & Ets & Ho); cbn [outcome] in Ho.
    + injection H as <- <-. split; [|discriminate]. apply (inv_step s h _ _ t it); [exact HI|exact Hown|..]; routine HI HK.
      split; [exact Hn|exact Ho].
    + unfold returns in H. injection H as <- <-. split; [|discriminate]. destruct Ho as (Hf & Hu).
      apply (inv_step s h _ _ t it); [exact HI|exact Hown|..]; routine HI HK.
      intros _. apply fresh_reads. split; auto.
  - destruct HT as ((p & Hp1 & ->) & Hp). assert (Hn : blen (poison_bytes g p) <= len) by (rewrite poison_len; lia).
    destruct (fill_step g s it (poison_bytes g p) ph k) as [[s1 [ph'|]]|] eqn:Ef; try discriminate;
      apply fill_ok in Ef; auto; destruct Ef as (HK & Hz1 & Ei & Ets & Ho); cbn [outcome] in Ho.
    + injection H as <- <-. split; [|discriminate]. apply (inv_step s h _ _ t it); [exact HI|exact Hown|..]; routine HI HK.
      split; [eauto|exact Ho].
    + injection H as <- <-. split; [|discriminate]. destruct Ho as (Hf & Hu). apply (link_ok s h); auto.
      * intros t' _. now rewrite Ets.
      * intros it' _. now rewrite Ei.
      * now rewrite Ei.
      * intros _. eapply poison_done; eauto.
  - destruct HT as (Hr & Hin). destruct todo as [|j todo].
    + injection H as <- <-. split; [|discriminate]. apply (inv_step s h _ _ t it); [exact HI|exact Hown|..]; routine HI HI.
    + remember (j :: todo) as l eqn:El. clear El. destruct (has k l) eqn:Eh; [|discriminate]. pose proof (Hin k Eh) as Hkb.
      assert (Hkl : 0 <= k < len) by (destruct Hg as (_ & ? & _); lia). cbv zeta in H. destruct (c_init g) eqn:Ein.
      * injection H as <- <-. split; [|discriminate]. apply (inv_step s h _ _ t it); [exact HI|exact Hown|..]; routine HI HI.
        -- intros x Hx. assert (x <> it * len + k) by (intros ->; apply Hx; now apply item_at).
           assert (Ef : upd (s_file s) (it * len + k) b x = s_file s x) by (now apply upd_other).
           split; [exact Ef|]. intros cpu v. unfold shows. cbn [s_page s_file set_file set_task]. rewrite Ef. auto.
        -- intros E. congruence.
        -- split; auto. now apply drop_inside.
      * destruct (store g s 0 (it * len + k) b) as [s1|] eqn:Est; [|discriminate]. injection H as <- <-. split; [|discriminate].
        apply store_spec in Est. destruct Est as (E1 & E2 & E3 & _ & Hz1 & Hoth).
        apply (inv_step s h _ _ t it); [exact HI|exact Hown|..]; routine HI HI.
        -- intros x Hx. assert (x <> it * len + k) by (intros ->; apply Hx; now apply item_at). cbn [s_file set_task]. rewrite E1. split; auto.
           intros cpu v Hs. change (shows s1 cpu x v). apply Hoth; auto.
        -- apply (zinv_same s1); auto.
        -- split; auto. now apply drop_inside.
Qed.

Lemma step_ok : forall s h a s' ev, inv s h -> step g s a = Some (s', ev) ->
  inv s' (ev :: h) /\ (forall t, ev <> EAbort t) /\
  forall t cpu x b, ev = ELoad t cpu x b -> forall v, expect len h cpu x = Some v -> b = v.
Proof.
  intros s h a s' ev HI H. pose proof (v_zero _ _ HI) as Hz. destruct a as [t it c|t it|t cpu x b|t cpu x|t k b|cpu p|cpu x|cpu p]; cbn [step] in H.
  - destruct (idle s t) eqn:Eid; [|discriminate]. cbn [andb] in H. destruct (0 <=? it); [|discriminate]. destruct (it <? c_items g); [|discriminate]. cbn [andb] in H.
    destruct (match c with Some bs => _ | None => true end) eqn:Ec in H; [|discriminate].
    assert (Hn : match c with Some bs => blen bs <= len | None => True end) by (destruct c; auto; unfold blen; lia).
    assert (Hev : (forall t0, ev <> EAbort t0) /\ forall t0 cpu x b, ev = ELoad t0 cpu x b -> forall v, expect len h cpu x = Some v -> b = v).
    { destruct (s_item s it); try discriminate; [|destruct (c_robust g); [injection H as <- <-; split; discriminate|]];
        unfold begin_fill, returns in H; destruct c; injection H as <- <-; split; discriminate. }
    split; [|exact Hev]. clear Hev. unfold idle in Eid. destruct (s_task s t) eqn:Et; try discriminate.
    destruct (s_item s it) eqn:Eit; try discriminate.
    + apply (begin_ok s h (set_item s it Busy) t it c); auto; cbn [s_item s_task set_item].
      * apply (idle_item s h t it HI). congruence.
      * intros it' Hne. now rewrite upd_other.
      * apply upd_same.
    + destruct (c_robust g) eqn:Er.
      * injection H as <- <-. apply (inv_step s h _ _ t it); [exact HI|..]; routine HI HI.
        -- apply (idle_item s h t it HI). congruence.
        -- split; auto. split; [apply (poisoned_same s); auto; now apply (v_freed _ _ HI)|].
           destruct Hg as (_ & Hl8 & Hcp & _). split; [destruct (c_init g); auto; lia|]. split; [destruct (c_init g); lia|]. split; auto. apply all_inside. lia.
      * apply (begin_ok s h (set_item s it Busy) t it c); auto; cbn [s_item s_task set_item].
        -- apply (idle_item s h t it HI). congruence.
        -- intros it' Hne. now rewrite upd_other.
        -- apply upd_same.
  - destruct (idle s t && live s it) eqn:Eb; [|discriminate]. apply andb_prop in Eb. destruct Eb as (Eid & Elv).
    unfold idle in Eid. destruct (s_task s t) eqn:Et; try discriminate. unfold live in Elv. destruct (s_item s it) eqn:Eit; try discriminate.
    assert (He : forall cpu x, item x <> it -> expect len (EFree t it :: h) cpu x = expect len h cpu x).
    { intros cpu x Hx. cbn [expect]. rewrite item_in. apply Z.eqb_neq in Hx. now rewrite Hx. }
    assert (Ho : forall t' it', t' <> t -> titem (s_task s t') = Some it' -> it' <> it) by (apply (idle_item s h t it HI); congruence).
    destruct (c_poison g) as [p|] eqn:Ep; injection H as <- <-; (split; [|split; discriminate]).
    + apply (inv_step s h _ _ t it); [exact HI|exact Ho|..]; routine HI HI.
      split; [eauto|]. rewrite <- (poison_len p). apply first_pinv.
    + apply (link_ok s h); auto; cbn [s_item s_task set_item].
      * apply keep_refl; reflexivity.
      * intros it' Hne. now rewrite upd_other.
      * apply upd_same.
      * intros Hr. destruct Hg as (_ & _ & _ & Hrp). exfalso. now apply Hrp.
  - destruct (idle s t && cpu_ok g cpu && live s (item x)) eqn:Eb; [|discriminate]. apply andb_prop in Eb. destruct Eb as (Eb & Elv). apply andb_prop in Eb. destruct Eb as (Eid & Ecp).
    destruct (store g s cpu x b) as [s1|] eqn:Est; [|discriminate]. injection H as <- <-. split; [|split; discriminate].
    apply store_spec in Est. destruct Est as (E1 & E2 & E3 & Hsh & Hz1 & Hoth). unfold live in Elv. destruct (s_item s (item x)) eqn:Eit; try discriminate.
    unfold idle in Eid. destruct (s_task s t) eqn:Et; try discriminate.
    apply (inv_step s h _ _ t (item x)); [exact HI|..].
    + apply (idle_item s h t _ HI). congruence.
    + intros y Hy. rewrite E1. split; auto. intros cpu' v. apply Hoth. right. congruence.
    + auto.
    + intros t' _. now rewrite E3.
    + intros it' _. now rewrite E2.
    + intros cpu' y Hy. cbn [expect]. destruct ((cpu =? cpu') && (x =? y)) eqn:E; auto. exfalso. apply Hy. f_equal. lia.
    + rewrite E3, Et. auto.
    + rewrite E3, Et. exact Logic.I.
    + intros _ cpu' y v Hc Hy E. cbn [expect] in E. destruct ((cpu =? cpu') && (x =? y)) eqn:Ey.
      * injection E as <-. assert (cpu' = cpu) by lia. assert (y = x) by lia. subst. exact Hsh.
      * apply Hoth; [lia|]. eapply (v_live _ _ HI); eauto.
    + rewrite E2, Eit. discriminate.
  - destruct (idle s t && cpu_ok g cpu && live s (item x)) eqn:Eb; [|discriminate]. apply andb_prop in Eb. destruct Eb as (Eb & Elv). apply andb_prop in Eb. destruct Eb as (Eid & Ecp).
    destruct (load g s cpu x) as [b|] eqn:Eld; [|discriminate]. injection H as <- <-. unfold live in Elv. destruct (s_item s (item x)) eqn:Eit; try discriminate.
    unfold cpu_ok in Ecp. split; [|split; [discriminate|]].
    + apply (inv_kernel s h); auto. apply keep_refl; reflexivity.
    + intros t0 cpu0 x0 b0 E v Hex. injection E as <- <- <- <-. eapply load_shown; [|exact Hz|exact Eld|]; [lia|].
      eapply (v_live _ _ HI); eauto. lia.
  - apply call_ok with (h := h) in H as Hc; auto. destruct Hc as (Hc & Hna). split; auto. unfold call_step in H.
    assert (Hev : (exists it c, ev = EMalloc t it c) \/ ev = ETau \/ ev = EAbort t).
    { destruct (s_task s t) as [|it c cpu [|j todo]|it bs ph|it bs ph|it [|j todo]|]; try discriminate;
        repeat match type of H with
        | context [match ?d with _ => _ end] => destruct d; try discriminate
        | context [if ?d then _ else _] => destruct d; try discriminate
        | begin_fill _ _ _ _ ?c = _ => unfold begin_fill, returns in H; destruct c
        | returns _ _ _ _ = _ => unfold returns in H
        end; injection H as _ <-; eauto. }
    destruct Hev as [(it & c & ->)|[->| ->]]; [split; discriminate|split; discriminate|]. now exfalso.
  - destruct (s_page s cpu p) eqn:Ep; try discriminate. injection H as <- <-. split; [|split; discriminate].
    destruct (keep_page s cpu p (Copying (fun _ => None))) as (A & B); auto; [congruence| |intros _ snap x b E; injection E as <-; discriminate|apply (inv_kernel s h); auto].
    intros x Hx w. unfold shows. cbn [s_page s_file set_page]. rewrite Hx, Ep, !upd_same. auto.
  - destruct (s_page s cpu (pg x)) as [|snap|] eqn:Ep; try discriminate. destruct (snap x) eqn:Esx; [discriminate|]. injection H as <- <-. split; [|split; discriminate].
    set (sn := upd snap x (Some (s_file s x))).
    assert (A : keep (fun _ => True) s (set_page s cpu (pg x) (Copying sn))).
    { intros y _. split; [reflexivity|]. intros cpu' w Hs. unfold shows in *. cbn [s_page s_file set_page]. unfold upd at 1.
      destruct (cpu' =? cpu) eqn:Ec; auto. apply Z.eqb_eq in Ec. subst cpu'. unfold upd at 1. destruct (pg y =? pg x) eqn:Ey; auto.
      apply Z.eqb_eq in Ey. rewrite Ey, Ep in Hs. unfold sn, upd. destruct (y =? x) eqn:Exy; auto. apply Z.eqb_eq in Exy. subst y.
      rewrite Esx in Hs. exact Hs. }
    apply (inv_kernel s h); auto.
    intros Hi. destruct (Hz Hi) as (Z1 & Z2). split; auto. intros cpu' p' snap' y b E Es. cbn [s_page set_page] in E. unfold upd in E at 1.
    destruct (cpu' =? cpu) eqn:Ec; [|eapply Z2; eauto]. unfold upd in E at 1. destruct (p' =? pg x) eqn:Epp; [|eapply Z2; eauto].
    injection E as <-. unfold sn, upd in Es. destruct (y =? x); [injection Es as <-; apply Z1|eapply Z2; eauto].
  - destruct (s_page s cpu p) as [|snap|] eqn:Ep; try discriminate. destruct (forallb _ _) eqn:Ef in H; [|discriminate]. injection H as <- <-. split; [|split; discriminate].
    rewrite forallb_forall in Ef.
    destruct (keep_page s cpu p (Private (fun x => match snap x with Some b => b | None => 0 end))) as (A & B); auto; [congruence| |discriminate|apply (inv_kernel s h); auto].
    intros x Hx w. unfold shows. cbn [s_page s_file set_page]. rewrite Hx, Ep, !upd_same. specialize (Ef x). rewrite <- Hx in Ef.
    specialize (Ef (page_bytes_in x)). destruct (snap x); [auto|discriminate].
Qed.

Lemma run_ok : forall file h s, first_file g file -> run g (start file) h s ->
  inv s h /\ loads_right len h /\ forall t, ~ In (EAbort t) h.
Proof.
  intros file h s Hf H. induction H as [|h s a s' ev Hr (HI & HL & HA) Hs].
  - split; [now apply first_inv|]. split; [|auto]. intros h1 h2 t cpu x b E. destruct h1; discriminate.
  - destruct (step_ok _ _ _ _ _ HI Hs) as (HI' & Hna & Hld). split; auto. split.
    + intros h1 h2 t cpu x b E v Hv. destruct h1 as [|e h1]; cbn [app] in E; injection E as -> E.
      * subst h2. eapply Hld; eauto.
      * eapply HL; eauto.
    + intros t [E|Hin]; [now apply (Hna t)|now apply (HA t)].
Qed.
End Proofs.

(** ** Stores, whatever the kernel does *)
Section Stores.
Variable g : cfg.
Hypothesis Hg : cfg_ok g.
Notation len := (c_len g).
Notation pg := (pg g).
Notation item := (item g).

(** The page is private and holds v. *)
Definition holds (s : state) (cpu x v : Z) : Prop := match s_page s cpu (pg x) with Private m => m x = v | _ => False end.
Definition hkeep (D : Z -> Prop) (s s' : state) : Prop := forall x, D x -> forall cpu v, holds s cpu x v -> holds s' cpu x v.
Lemma hkeep_page : forall D s s', s_page s' = s_page s -> hkeep D s s'.
Proof. intros D s s' E x _ cpu v. unfold holds. now rewrite E. Qed.
Lemma store_holds : forall s cpu x b s', store g s cpu x b = Some s' -> s_item s' = s_item s /\ s_task s' = s_task s /\ holds s' cpu x b /\
  forall cpu' x' v, (cpu' <> cpu \/ x' <> x) -> holds s cpu' x' v -> holds s' cpu' x' v.
Proof.
  intros s cpu x b s' H. unfold store in H. destruct (s_page s cpu (pg x)) as [| |m] eqn:E; try discriminate. injection H as <-.
  split; [reflexivity|]. split; [reflexivity|]. split.
  - unfold holds. cbn [s_page set_page]. rewrite upd_same, upd_same. apply upd_same.
  - intros cpu' x' v Hne. unfold holds. cbn [s_page set_page]. unfold upd at 1. destruct (cpu' =? cpu) eqn:Ec; auto.
    apply Z.eqb_eq in Ec. subst cpu'. unfold upd at 1. destruct (pg x' =? pg x) eqn:Epp; auto.
    apply Z.eqb_eq in Epp. rewrite Epp, E. rewrite upd_other; auto. lia.
Qed.
Lemma load_holds : forall s cpu x b v, cpu <> -1 -> load g s cpu x = Some b -> holds s cpu x v -> b = v.
Proof.
  intros s cpu x b v Hc H Hh. unfold load in H. assert (E : cpu =? -1 = false) by lia. rewrite E in H. unfold holds in Hh.
  destruct (s_page s cpu (pg x)); [contradiction|contradiction|congruence].
Qed.

Definition bounded (a : task) : Prop :=
  match a with
  | TFill _ bs ph | TPoison _ bs ph => blen bs <= len /\ match ph with PFile l | PCmp _ l | PCopy _ l => inside l (blen bs) end
  | TLink _ todo => inside todo 8
  | _ => True
  end.
Definition reads2 (s : state) (h : list event) (it : Z) : Prop :=
  forall cpu x v, item x = it -> stored len h cpu x = Some v -> holds s cpu x v.
Record inv2 (s : state) (h : list event) : Prop := {
  u_busy : forall t it, titem (s_task s t) = Some it -> s_item s it = Busy;
  u_one : forall t t' it, titem (s_task s t) = Some it -> titem (s_task s t') = Some it -> t = t';
  u_check : forall t it c cpu l, s_task s t = TCheck it c cpu l -> match c with Some bs => blen bs <= len | None => True end;
  u_task : forall t, bounded (s_task s t);
  u_live : forall it, s_item s it = Live -> reads2 s h it
}.
Lemma inv2_step : forall s h s' ev t it, inv2 s h ->
  (forall t' it', t' <> t -> titem (s_task s t') = Some it' -> it' <> it) ->
  hkeep (fun x => item x <> it) s s' ->
  (forall t', t' <> t -> s_task s' t' = s_task s t') -> (forall it', it' <> it -> s_item s' it' = s_item s it') ->
  (forall cpu x, item x <> it -> stored len (ev :: h) cpu x = stored len h cpu x) ->
  (titem (s_task s' t) = None \/ (titem (s_task s' t) = Some it /\ s_item s' it = Busy)) ->
  (forall it c cpu l, s_task s' t = TCheck it c cpu l -> match c with Some bs => blen bs <= len | None => True end) ->
  bounded (s_task s' t) -> (s_item s' it = Live -> reads2 s' (ev :: h) it) -> inv2 s' (ev :: h).
Proof.
  intros s h s' ev t it HI Hown HK Ht Hi He Hti Hch Htv Hl.
  assert (Hit : forall t' it', t' <> t -> titem (s_task s' t') = Some it' -> titem (s_task s t') = Some it' /\ it' <> it).
  { intros t' it' Hne E. rewrite Ht in E by auto. split; auto. eapply Hown; eauto. }
  constructor; auto.
  - intros t' it' E. destruct (Z.eq_dec t' t) as [->|Hne].
    + destruct Hti as [Hn|(Hs & Hb)]; [congruence|]. replace it' with it by congruence. exact Hb.
    + destruct (Hit t' it' Hne E) as (E2 & Hn2). rewrite Hi by auto. eapply u_busy; eauto.
  - intros t1 t2 it' E1 E2. destruct (Z.eq_dec t1 t) as [H1|H1], (Z.eq_dec t2 t) as [H2|H2]; try congruence.
    + exfalso. destruct (Hit t2 it' H2 E2) as (_ & Hn2). destruct Hti as [Hn|(Hs & _)]; congruence.
    + exfalso. destruct (Hit t1 it' H1 E1) as (_ & Hn2). destruct Hti as [Hn|(Hs & _)]; congruence.
    + destruct (Hit t1 it' H1 E1) as (E1' & _), (Hit t2 it' H2 E2) as (E2' & _). eapply u_one; eauto.
  - intros t' it' c cpu l E. destruct (Z.eq_dec t' t) as [->|Hne]; [exact (Hch _ _ _ _ E)|]. rewrite Ht in E by auto. exact (u_check _ _ HI _ _ _ _ _ E).
  - intros t'. destruct (Z.eq_dec t' t) as [->|Hne]; auto. rewrite Ht by auto. apply (u_task _ _ HI).
  - intros it' E. destruct (Z.eq_dec it' it) as [->|Hne]; auto. rewrite Hi in E by auto.
    intros cpu x v Hx Hex. rewrite He in Hex by (rewrite Hx; auto). apply (HK x); [cbv beta; rewrite Hx; auto|]. eapply u_live; eauto.
Qed.
Lemma inv2_kernel : forall s h s', inv2 s h -> hkeep (fun _ => True) s s' -> s_task s' = s_task s -> s_item s' = s_item s ->
  forall ev, (forall cpu x, stored len (ev :: h) cpu x = stored len h cpu x) -> inv2 s' (ev :: h).
Proof.
  intros s h s' HI HK Et Ei ev He. constructor; rewrite ?Et, ?Ei; try apply HI.
  intros it E cpu x v Hx Hex. rewrite He in Hex. apply (HK x Logic.I). eapply u_live; eauto.
Qed.

Lemma fill_holds : forall s it bs ph k s' o, blen bs <= len -> match ph with PFile l | PCmp _ l | PCopy _ l => inside l (blen bs) end ->
  fill_step g s it bs ph k = Some (s', o) ->
  hkeep (fun x => item x <> it) s s' /\ s_item s' = s_item s /\ s_task s' = s_task s /\
  match o with Some (PFile l) | Some (PCmp _ l) | Some (PCopy _ l) => inside l (blen bs) | None => True end.
Proof.
  intros s it bs ph k s' o Hn Hp H. pose proof (blen_nn bs) as Hb0.
  assert (Same : forall o', Some (s, o') = Some (s', o) -> match o' with Some (PFile l) | Some (PCmp _ l) | Some (PCopy _ l) => inside l (blen bs) | None => True end ->
    hkeep (fun x => item x <> it) s s' /\ s_item s' = s_item s /\ s_task s' = s_task s /\
    match o with Some (PFile l) | Some (PCmp _ l) | Some (PCopy _ l) => inside l (blen bs) | None => True end).
  { intros o' E Ho. injection E as <- <-. split; [now apply hkeep_page|]. auto. }
  assert (Nx : forall c, match (if c + 1 <? c_cpus g then Some (PCmp (c + 1) (below (Z.of_nat (length bs)))) else None) with
    Some (PFile l) | Some (PCmp _ l) | Some (PCopy _ l) => inside l (blen bs) | None => True end).
  { intros c. destruct (_ <? _); auto. now apply all_inside. }
  unfold fill_step in H. cbv zeta in H. destruct ph as [todo|c todo|c todo].
  - destruct todo as [|j todo].
    + apply Same in H; auto. destruct (0 <? c_cpus g); auto. now apply all_inside.
    + remember (j :: todo) as l eqn:El. clear El. destruct (has k l) eqn:Eh; [|discriminate]. injection H as <- <-.
      split; [now apply hkeep_page|]. split; auto. split; auto. now apply drop_inside.
  - destruct todo as [|j todo]; [apply Same in H; auto; apply Nx|].
    remember (j :: todo) as l eqn:El. clear El. destruct (has k l) eqn:Eh; [|discriminate]. destruct (load g s c (it * len + k)) as [b|] eqn:Eld; [|discriminate].
    apply Same in H; auto. destruct (b =? _); [now apply drop_inside|now apply all_inside].
  - destruct todo as [|j todo]; [apply Same in H; auto; apply Nx|].
    remember (j :: todo) as l eqn:El. clear El. destruct (has k l) eqn:Eh; [|discriminate]. destruct (store g s c (it * len + k) _) as [s1|] eqn:Est; [|discriminate].
    injection H as <- <-. apply store_holds in Est. destruct Est as (E2 & E3 & _ & Hoth). pose proof (Hp k Eh) as Hkb.
    split; [|split; [auto|split; [auto|now apply drop_inside]]].
    intros x Hx cpu v. apply Hoth. right. intros ->. apply Hx. apply item_at; auto. lia.
Qed.

Ltac routine2 HI HK :=
  lazymatch goal with
  | |- hkeep _ _ _ => first [exact HK | solve [apply hkeep_page; reflexivity] | idtac]
  | |- forall t' : Z, _ <> _ -> _ = _ => solve [intros t' Hne; cbn [s_task s_item set_task set_item set_file]; rewrite ?upd_other by auto; first [congruence | auto]]
  | |- forall cpu x : Z, _ -> stored _ _ _ _ = _ =>
      solve [assumption | reflexivity | intros cpu x Hx; cbn [stored]; rewrite ?item_in by auto; apply Z.eqb_neq in Hx; rewrite ?Hx; reflexivity]
  | |- _ \/ _ => cbn [s_task s_item set_task set_item set_file]; rewrite ?upd_same; cbn [titem]; solve [auto | right; split; [reflexivity|congruence]]
  | |- forall (_ : Z) (_ : option (list Z)) (_ : Z) (_ : list Z), _ => cbn [s_task set_task]; rewrite ?upd_same; first [discriminate | idtac]
  | |- bounded _ => cbn [s_task set_task]; rewrite ?upd_same; cbn [bounded]; first [exact Logic.I | idtac]
  | |- _ -> reads2 _ _ _ => cbn [s_item set_task set_item set_file]; rewrite ?upd_same; first [discriminate | congruence | idtac]
  | |- _ => idtac
  end.

Lemma new_reads2 : forall s h t it c, reads2 s (EMalloc t it c :: h) it.
Proof. intros s h t it c cpu x v Hx E. cbn [stored] in E. rewrite item_in, Hx, Z.eqb_refl in E by auto. discriminate. Qed.
Lemma begin_ok2 : forall s h s0 t it c s' ev, inv2 s h -> s_page s0 = s_page s ->
  (forall t' it', t' <> t -> titem (s_task s t') = Some it' -> it' <> it) ->
  (forall t', t' <> t -> s_task s0 t' = s_task s t') -> (forall it', it' <> it -> s_item s0 it' = s_item s it') ->
  s_item s0 it = Busy -> match c with Some bs => blen bs <= len | None => True end ->
  begin_fill g s0 t it c = Some (s', ev) -> inv2 s' (ev :: h).
Proof.
  intros s h s0 t it c s' ev HI E2 Hown Ht Hi Hb Hn H. unfold begin_fill in H. destruct c as [bs|]; injection H as <- <-;
    (apply (inv2_step s h _ _ t it); [exact HI|exact Hown|..]; routine2 HI HI);
    try (apply hkeep_page; exact E2).
  - split; auto. unfold first_phase. destruct (c_init g); apply all_inside, blen_nn.
  - intros _. apply new_reads2.
Qed.
Lemma link_ok2 : forall s h s0 t it ev, inv2 s h -> hkeep (fun x => item x <> it) s s0 ->
  (forall t' it', t' <> t -> titem (s_task s t') = Some it' -> it' <> it) ->
  (forall t', t' <> t -> s_task s0 t' = s_task s t') -> (forall it', it' <> it -> s_item s0 it' = s_item s it') ->
  (forall cpu x, item x <> it -> stored len (ev :: h) cpu x = stored len h cpu x) ->
  s_item s0 it = Busy -> inv2 (begin_link g s0 t it) (ev :: h).
Proof.
  intros s h s0 t it ev HI HK Hown Ht Hi He Hb. unfold begin_link. destruct (c_robust g).
  - apply (inv2_step s h _ _ t it); [exact HI|exact Hown|exact HK|..]; routine2 HI HI.
  - apply (inv2_step s h _ _ t it); [exact HI|exact Hown|exact HK|..]; routine2 HI HI.
    apply all_inside. lia.
Qed.

Lemma call_ok2 : forall s h t k b s' ev, inv2 s h -> call_step g s t k b = Some (s', ev) -> inv2 s' (ev :: h).
Proof.
  intros s h t k b s' ev HI H. unfold call_step in H. pose proof (u_task _ _ HI t) as HT. pose proof (u_check _ _ HI t) as HC.
  assert (Hown : forall it, titem (s_task s t) = Some it -> forall t' it', t' <> t -> titem (s_task s t') = Some it' -> it' <> it).
  { intros it E t' it' Hne E' ->. apply Hne. eapply u_one; eauto. }
  assert (Hbusy : forall it, titem (s_task s t) = Some it -> s_item s it = Busy) by (intros; eapply u_busy; eauto).
  destruct (s_task s t) as [|it c cpu todo|it bs ph|it bs ph|it todo|] eqn:Et; try discriminate; cbn [bounded titem] in HT, Hown, Hbusy;
    specialize (Hown it eq_refl); specialize (Hbusy it eq_refl).
  - specialize (HC it c cpu todo eq_refl). destruct todo as [|j todo].
    + destruct (cpu + 1 <? c_cpus g) eqn:Ec.
      * injection H as <- <-. apply (inv2_step s h _ _ t it); [exact HI|exact Hown|..]; routine2 HI HI.
        intros ? ? ? ? E. injection E as <- <- <- <-. exact HC.
      * apply (begin_ok2 s h s t it c); auto.
    + remember (j :: todo) as l eqn:El. clear El. destruct (has k l) eqn:Eh; [|discriminate].
      destruct (load g s cpu (it * len + k)) as [v|] eqn:Eld; [|discriminate]. destruct (c_poison g) as [p|] eqn:Ep; [|discriminate].
      destruct (v =? p k); injection H as <- <-; (apply (inv2_step s h _ _ t it); [exact HI|exact Hown|..]; routine2 HI HI).
      intros ? ? ? ? E. injection E as <- <- <- <-. exact HC.
  - destruct HT as (Hn & Hp). destruct (fill_step g s it bs ph k) as [[s1 [ph'|]]|] eqn:Ef; try discriminate;
      apply fill_holds in Ef; auto; destruct Ef as (HK & Ei & Ets & Ho).
    + injection H as <- <-. apply (inv2_step s h _ _ t it); [exact HI|exact Hown|..]; routine2 HI HK. split; auto.
    + unfold returns in H. injection H as <- <-. apply (inv2_step s h _ _ t it); [exact HI|exact Hown|..]; routine2 HI HK. intros _. apply new_reads2.
  - destruct HT as (Hn & Hp). destruct (fill_step g s it bs ph k) as [[s1 [ph'|]]|] eqn:Ef; try discriminate;
      apply fill_holds in Ef; auto; destruct Ef as (HK & Ei & Ets & Ho).
    + injection H as <- <-. apply (inv2_step s h _ _ t it); [exact HI|exact Hown|..]; routine2 HI HK. split; auto.
    + injection H as <- <-. apply (link_ok2 s h); auto; rewrite ?Ei, ?Ets; auto.
  - destruct todo as [|j todo].
    + injection H as <- <-. apply (inv2_step s h _ _ t it); [exact HI|exact Hown|..]; routine2 HI HI.
    + remember (j :: todo) as l eqn:El. clear El. destruct (has k l) eqn:Eh; [|discriminate]. pose proof (HT k Eh) as Hkb.
      assert (Hkl : 0 <= k < len) by (destruct Hg as (_ & ? & _); lia). cbv zeta in H. destruct (c_init g) eqn:Ein.
      * injection H as <- <-. apply (inv2_step s h _ _ t it); [exact HI|exact Hown|..]; routine2 HI HI. now apply drop_inside.
      * destruct (store g s 0 (it * len + k) b) as [s1|] eqn:Est; [|discriminate]. injection H as <- <-.
        apply store_holds in Est. destruct Est as (E2 & E3 & _ & Hoth).
        apply (inv2_step s h _ _ t it); [exact HI|exact Hown|..]; routine2 HI HI.
        -- intros x Hx cpu v Hs. change (holds s1 cpu x v). apply Hoth; auto. right. intros ->. apply Hx. now apply item_at.
        -- now apply drop_inside.
Qed.

Lemma step_ok2 : forall s h a s' ev, inv2 s h -> step g s a = Some (s', ev) ->
  inv2 s' (ev :: h) /\ forall t cpu x b, ev = ELoad t cpu x b -> forall v, stored len h cpu x = Some v -> b = v.
Proof.
  intros s h a s' ev HI H.
  assert (Hidle : forall t it, s_item s it <> Busy -> forall t' it', t' <> t -> titem (s_task s t') = Some it' -> it' <> it).
  { intros t it Hn t' it' _ E ->. apply Hn. eapply u_busy; eauto. }
  destruct a as [t it c|t it|t cpu x b|t cpu x|t k b|cpu p|cpu x|cpu p]; cbn [step] in H.
  - destruct (idle s t) eqn:Eid; [|discriminate]. cbn [andb] in H. destruct (0 <=? it); [|discriminate]. destruct (it <? c_items g); [|discriminate]. cbn [andb] in H.
    destruct (match c with Some bs => _ | None => true end) eqn:Ec in H; [|discriminate].
    assert (Hn : match c with Some bs => blen bs <= len | None => True end) by (destruct c; auto; unfold blen; lia).
    split.
    + unfold idle in Eid. destruct (s_task s t) eqn:Et; try discriminate.
      assert (Hb : forall Hx : s_item s it <> Busy, begin_fill g (set_item s it Busy) t it c = Some (s', ev) -> inv2 s' (ev :: h)).
      { intros Hx Hf. refine (begin_ok2 s h (set_item s it Busy) t it c s' ev HI eq_refl (Hidle t it Hx) (fun _ _ => eq_refl) _ _ Hn Hf); cbn [s_item set_item].
        - intros it' Hne. now rewrite upd_other.
        - apply upd_same. }
      destruct (s_item s it) eqn:Eit; try discriminate.
      * apply Hb; auto. congruence.
      * destruct (c_robust g) eqn:Er; [|apply Hb; auto; congruence].
        injection H as <- <-. apply (inv2_step s h _ _ t it); [exact HI|..]; routine2 HI HI.
        -- apply Hidle. congruence.
        -- intros ? ? ? ? E. injection E as <- <- <- <-. exact Hn.
    + destruct (s_item s it); try discriminate; [|destruct (c_robust g); [injection H as <- <-; discriminate|]];
        unfold begin_fill, returns in H; destruct c; injection H as <- <-; discriminate.
  - destruct (idle s t && live s it) eqn:Eb; [|discriminate]. apply andb_prop in Eb. destruct Eb as (Eid & Elv).
    unfold idle in Eid. destruct (s_task s t) eqn:Et; try discriminate. unfold live in Elv. destruct (s_item s it) eqn:Eit; try discriminate.
    assert (Ho : forall t' it', t' <> t -> titem (s_task s t') = Some it' -> it' <> it) by (apply Hidle; congruence).
    destruct (c_poison g) as [p|] eqn:Ep; injection H as <- <-; (split; [|discriminate]).
    + apply (inv2_step s h _ _ t it); [exact HI|exact Ho|..]; routine2 HI HI. rewrite (poison_len g Hg p). split; [lia|].
      unfold first_phase. destruct Hg as (_ & Hl8 & _). destruct (c_init g); apply all_inside; lia.
    + apply (link_ok2 s h); auto; cbn [s_item s_task set_item].
      * apply hkeep_page; reflexivity.
      * intros it' Hne. now rewrite upd_other.
      * intros cpu x Hx. cbn [stored]. rewrite item_in by auto. apply Z.eqb_neq in Hx. now rewrite Hx.
      * apply upd_same.
  - destruct (idle s t && cpu_ok g cpu && live s (item x)) eqn:Eb; [|discriminate]. apply andb_prop in Eb. destruct Eb as (Eb & Elv). apply andb_prop in Eb. destruct Eb as (Eid & Ecp).
    destruct (store g s cpu x b) as [s1|] eqn:Est; [|discriminate]. injection H as <- <-. split; [|discriminate].
    apply store_holds in Est. destruct Est as (E2 & E3 & Hsh & Hoth). unfold live in Elv. destruct (s_item s (item x)) eqn:Eit; try discriminate.
    unfold idle in Eid. destruct (s_task s t) eqn:Et; try discriminate.
    apply (inv2_step s h _ _ t (item x)); [exact HI|..].
    + apply Hidle. congruence.
    + intros y Hy cpu' v. apply Hoth. right. congruence.
    + intros t' _. now rewrite E3.
    + intros it' _. now rewrite E2.
    + intros cpu' y Hy. cbn [stored]. destruct ((cpu =? cpu') && (x =? y)) eqn:E; auto. exfalso. apply Hy. f_equal. lia.
    + rewrite E3, Et. auto.
    + rewrite E3, Et. discriminate.
    + rewrite E3, Et. exact Logic.I.
    + intros _ cpu' y v Hy E. cbn [stored] in E. destruct ((cpu =? cpu') && (x =? y)) eqn:Ey.
      * injection E as <-. assert (cpu' = cpu) by lia. assert (y = x) by lia. subst. exact Hsh.
      * apply Hoth; [lia|]. eapply (u_live _ _ HI); eauto.
  - destruct (idle s t && cpu_ok g cpu && live s (item x)) eqn:Eb; [|discriminate]. apply andb_prop in Eb. destruct Eb as (Eb & Elv). apply andb_prop in Eb. destruct Eb as (Eid & Ecp).
    destruct (load g s cpu x) as [b|] eqn:Eld; [|discriminate]. injection H as <- <-. unfold live in Elv. destruct (s_item s (item x)) eqn:Eit; try discriminate.
    unfold cpu_ok in Ecp. split.
    + apply (inv2_kernel s h); auto. apply hkeep_page; reflexivity.
    + intros t0 cpu0 x0 b0 E v Hex. injection E as <- <- <- <-. eapply load_holds; [|exact Eld|]; [lia|]. eapply (u_live _ _ HI); eauto.
  - split; [now apply (call_ok2 s h t k b)|]. unfold call_step in H.
    destruct (s_task s t) as [|it c cpu [|j todo]|it bs ph|it bs ph|it [|j todo]|]; try discriminate;
        repeat match type of H with
        | context [match ?d with _ => _ end] => destruct d; try discriminate
        | context [if ?d then _ else _] => destruct d; try discriminate
        | begin_fill _ _ _ _ ?c = _ => unfold begin_fill, returns in H; destruct c
        | returns _ _ _ _ = _ => unfold returns in H
        end; injection H as _ <-; discriminate.
  - destruct (s_page s cpu p) eqn:Ep; try discriminate. injection H as <- <-. split; [|discriminate].
    apply (inv2_kernel s h); auto. intros y _ cpu' v. unfold holds. cbn [s_page set_page]. unfold upd at 1.
    destruct (cpu' =? cpu) eqn:Ec; auto. apply Z.eqb_eq in Ec. subst cpu'. unfold upd. destruct (pg y =? p) eqn:Ey; auto.
    apply Z.eqb_eq in Ey. rewrite Ey, Ep. contradiction.
  - destruct (s_page s cpu (pg x)) as [|snap|] eqn:Ep; try discriminate. destruct (snap x); [discriminate|]. injection H as <- <-. split; [|discriminate].
    apply (inv2_kernel s h); auto. intros y _ cpu' v. unfold holds. cbn [s_page set_page]. unfold upd at 1.
    destruct (cpu' =? cpu) eqn:Ec; auto. apply Z.eqb_eq in Ec. subst cpu'. unfold upd at 1. destruct (pg y =? pg x) eqn:Ey; auto.
    apply Z.eqb_eq in Ey. rewrite Ey, Ep. contradiction.
  - destruct (s_page s cpu p) as [|snap|] eqn:Ep; try discriminate. destruct (forallb _ _) in H; [|discriminate]. injection H as <- <-. split; [|discriminate].
    apply (inv2_kernel s h); auto. intros y _ cpu' v. unfold holds. cbn [s_page set_page]. unfold upd at 1.
    destruct (cpu' =? cpu) eqn:Ec; auto. apply Z.eqb_eq in Ec. subst cpu'. unfold upd at 1. destruct (pg y =? p) eqn:Ey; auto.
    apply Z.eqb_eq in Ey. rewrite Ey, Ep. contradiction.
Qed.

Lemma run_kept : forall file h s, run g (start file) h s -> inv2 s h /\ stores_kept len h.
Proof.
  intros file h s H. induction H as [|h s a s' ev Hr (HI & HL) Hs].
  - split; [constructor; cbn; try discriminate; auto|]. intros h1 h2 t cpu x b E. destruct h1; discriminate.
  - destruct (step_ok2 _ _ _ _ _ HI Hs) as (HI' & Hld). split; auto.
    intros h1 h2 t cpu x b E v Hv. destruct h1 as [|e h1]; cbn [app] in E; injection E as -> E.
    + subst h2. eapply Hld; eauto.
    + eapply HL; eauto.
Qed.
End Stores.
