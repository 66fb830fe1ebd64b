(** Concrete histories of pool calls, used to show that the theorems of
    Thm_Pool.v apply to something.  Pages of 4096 bytes, a stride of 8192 bytes,
    two CPUs, items of 16 bytes. *)
From Coq Require Import ZArith Bool List Lia Znumtheory.
From Verif Require Import UtilsModel RseqIR PoolVM PoolModel PoolWorld PoolMap PoolHist PoolProps PoolProps2 PoolProps3.
Import ListNotations.
Local Open Scope Z_scope.

Definition e0 : env := {| e_page := 4096; e_big := false; e_ncpus := 2; e_wide := true |}.
(** The program owns page 16, where it wrote. *)
Definition v0 : vm :=
  {| data := fun _ => 0; mapped := fun q => q =? 16; link := fun _ => None; populated := fun q => q =? 16;
     dontfork := fun _ => false; wipefork := fun _ => false |}.
(** The system accepts everything, and maps at [a]; munmap answers [u]. *)
Definition answer (u : bool) (a : Z) : answers :=
  {| an_mmap := Some a; an_trim1 := true; an_trim2 := true; an_memfd := true; an_map_init := true;
     an_map_cpu := fun _ => true; an_dontfork := true; an_wipe := true; an_bitmap := true;
     an_init := fun _ => Some []; an_munmap := fun _ => u; an_calloc := true; an_strdup := true |}.
Definition grant : Z -> answers := answer true.
Definition attrs (robust : bool) (policy ranges : Z) : attr :=
  {| init_set := false; robust_set := robust; type := TYPE_PERCPU; stride := 8192; max_nr_cpus := 0;
     max_nr_ranges := ranges; poison_set := false; poison := 0; populate_policy := policy |}.

(** ** Running a list of calls, and checking that they are allowed *)
Definition in_item (P : pool) (a x : Z) : bool :=
  (0 <=? x - a) && ((x - a) / stride (pattr P) <? max_nr_cpus (pattr P)) && ((x - a) mod stride (pattr P) <? item_len P) &&
  (0 <? stride (pattr P)).
Definition writeb (s : bool) (w : world) (lv : ledger) (x : Z) : bool :=
  mapped v0 (page e0 x) ||
  existsb (fun i => match lookup (fst i) (w_pools w) with Some P => in_item P (snd i) x | None => false end) lv ||
  negb s && existsb (fun ip => robust_set (pattr (snd ip)) && existsb (fun r =>
    (base r <=? x) && (x <? base r + stride (pattr (snd ip)) * copies (snd ip))) (range_list (snd ip))) (w_pools w).
Definition knows (lv : ledger) (id a : Z) : bool := existsb (fun i => same_item i (id, a)) lv.
Definition allowedb (s : bool) (w : world) (lv : ledger) (o : op) : bool :=
  match o with
  | OCreate id _ len at_ _ =>
    let a := attr_of at_ in
    match lookup id (w_pools w) with Some _ => false | None => true end &&
    (0 <=? len) && (len <? wmax e0) && ((type a =? TYPE_PERCPU) || (type a =? TYPE_GLOBAL)) &&
    (0 <=? stride a) && (stride a <? wmax e0) && (0 <=? poison a) && (poison a <? wmax e0) &&
    (0 <=? max_nr_ranges a) && (max_nr_ranges a <? wmax e0) && (want_stride a * (want_cpus e0 a + 5) <? wmax e0)
  | OMalloc id _ | ODestroy id _ => match lookup id (w_pools w) with Some _ => true | None => false end
  | OFill id item c =>
    match lookup id (w_pools w) with
    | Some P => knows lv id item &&
      match c with
      | Bytes bs => forallb (fun b => (0 <=? b) && (b <? 256)) bs && (Z.of_nat (length bs) <=? item_len P)
      | _ => true
      end
    | None => false
    end
  | OFree ptr strd =>
    existsb (fun i => (snd i =? ptr) &&
      match lookup (fst i) (w_pools w) with Some P => strd =? stride (pattr P) | None => false end) lv
  | OWrite ps => forallb (fun p => writeb s w lv (fst p)) ps
  end.

Lemma knows_in : forall lv id a, knows lv id a = true -> In (id, a) lv.
Proof.
  intros lv id a H. apply existsb_exists in H. destruct H as ([i b] & Hin & H). unfold same_item in H. cbn in H.
  apply andb_prop in H. destruct H as [H1 H2]. apply Z.eqb_eq in H1, H2. now subst.
Qed.
Ltac booleans :=
  repeat match goal with
  | H : _ && _ = true |- _ => apply andb_prop in H; destruct H
  | H : (_ <=? _) = true |- _ => apply Z.leb_le in H
  | H : (_ <? _) = true |- _ => apply Z.ltb_lt in H
  | H : (_ =? _) = true |- _ => apply Z.eqb_eq in H
  end.
Lemma writeb_ok : forall s w lv x, writeb s w lv x = true ->
  good_write e0 v0 w lv x \/ s = false /\ stray_write w x.
Proof.
  intros s w lv x H. unfold writeb in H. apply orb_prop in H. destruct H as [H|H].
  - left. apply orb_prop in H. destruct H as [H|H]; [now left|]. right. apply existsb_exists in H.
    destruct H as ([id a] & Hin & H). cbn [fst snd] in H. destruct (lookup id (w_pools w)) as [P|] eqn:El; [|discriminate].
    exists id, P, a. split; [now apply lookup_in|]. split; auto. unfold in_item in H. booleans.
    exists ((x - a) / stride (pattr P)), ((x - a) mod stride (pattr P)).
    pose proof (Z.mod_pos_bound (x - a) (stride (pattr P)) ltac:(lia)).
    pose proof (Z.div_mod (x - a) (stride (pattr P)) ltac:(lia)).
    split; [split; [apply Z.div_pos; lia|auto]|]. split; [lia|]. unfold percpu_ptr. lia.
  - right. apply andb_prop in H. destruct H as [H1 H]. split; [now destruct s|]. apply existsb_exists in H.
    destruct H as ([id P] & Hin & H). cbn [fst snd] in H. apply andb_prop in H. destruct H as [Hrob H].
    apply existsb_exists in H. destruct H as (r & Hr & H). booleans. exists id, P, r. auto.
Qed.
Lemma allowedb_ok : forall s w lv o, allowedb s w lv o = true -> allowed e0 s v0 w lv o.
Proof.
  intros s w lv o H. destruct o; cbn [allowedb] in H; cbn [allowed].
  - destruct (lookup id (w_pools w)); [discriminate|]. booleans. split; auto. split; [lia|]. split; [|unfold fits; lia].
    constructor; try lia. all: match goal with H : _ || _ = true |- _ => apply orb_prop in H; destruct H as [K|K]; apply Z.eqb_eq in K; auto end.
  - destruct (lookup id (w_pools w)) as [P|]; [exists P; auto|discriminate].
  - destruct (lookup id (w_pools w)) as [P|]; [exists P|discriminate]. booleans. split; auto. split; [now apply knows_in|].
    destruct c; cbn; auto. booleans. split; auto. apply Forall_forall. intros b Hb.
    match goal with H : forallb _ _ = true |- _ => rewrite forallb_forall in H; specialize (H _ Hb) end. booleans. auto.
  - apply existsb_exists in H. destruct H as ([id a] & Hin & H). cbn [fst snd] in H. booleans. subst a.
    destruct (lookup id (w_pools w)) as [P|] eqn:El; [|discriminate]. booleans. exists id, P. auto.
  - intros x Hx. apply in_map_iff in Hx. destruct Hx as (p & <- & Hp). rewrite forallb_forall in H.
    apply writeb_ok. now apply H.
  - destruct (lookup id (w_pools w)) as [P|]; [exists P; auto|discriminate].
Qed.

Definition state : Type := world * ledger * ledger.
Fixpoint play (s : bool) (os : list op) (st : state) : option state :=
  match os with
  | [] => Some st
  | o :: os =>
    let '(w, lv, fr) := st in
    if allowedb s w lv o then
      match run1 e0 o w with
      | Ok (w', x) => play s os (w', live_after o x lv, freed_after o x lv fr)
      | _ => None
      end
    else None
  end.
Definition start : state := ({| w_vm := v0; w_pools := [] |}, [], []).
Definition final (s : bool) (os : list op) : state := match play s os start with Some st => st | None => start end.
Definition after (s : bool) (os : list op) : world := fst (fst (final s os)).
Definition live (s : bool) (os : list op) : ledger := snd (fst (final s os)).
Definition freed (s : bool) (os : list op) : ledger := snd (final s os).
Definition plays (s : bool) (os : list op) : bool := match play s os start with Some _ => true | None => false end.

Lemma play_reach : forall s os w lv fr, reach e0 s v0 w lv fr ->
  forall w' lv' fr', play s os (w, lv, fr) = Some (w', lv', fr') -> reach e0 s v0 w' lv' fr'.
Proof.
  intros s os. induction os as [|o os IH]; intros w lv fr Hr w' lv' fr' Hp; cbn [play] in Hp.
  - injection Hp as <- <- <-. exact Hr.
  - destruct (allowedb s w lv o) eqn:Ea; [|discriminate].
    destruct (run1 e0 o w) as [[w1 x]| |] eqn:E; try discriminate. eapply IH; [|exact Hp].
    eapply reach_step; eauto. now apply allowedb_ok.
Qed.

Lemma space0 : address_space_ok e0 v0.
Proof. unfold address_space_ok. cbn. split; [discriminate|]. split; [discriminate|auto]. Qed.
Lemma machine0 : machine_ok e0.
Proof. split; [exists 12; cbn; lia|cbn; lia]. Qed.

Lemma play_history : forall s os, plays s os = true -> history e0 s v0 (after s os) (live s os) (freed s os).
Proof.
  intros s os Hp. split; [apply machine0|]. split; [apply space0|].
  unfold plays in Hp. unfold after, live, freed, final.
  destruct (play s os start) as [[[w lv] fr]|] eqn:E; [|discriminate].
  eapply play_reach; [|exact E]. constructor.
Qed.

(** ** A robust copy-on-write pool
    Three allocations, the second zeroed, the third initialised with 1, 2, 3; the
    program writes its first item on CPU 1; the second is freed. *)
Definition os1 : list op :=
  [ OCreate 7 true 12 (Some (attrs true COW_INIT 0)) (grant 1048576);
    OMalloc 7 (grant 0); OFill 7 1056768 Any;
    OMalloc 7 (grant 0); OFill 7 1056784 Zeroed;
    OMalloc 7 (grant 0); OFill 7 1056800 (Bytes [1; 2; 3]);
    OWrite [(1056768 + 8192 + 5, 77)];
    OFree 1056784 8192 ].

Definition no_pool : pool :=
  {| range_list := []; nr_ranges := 0; item_len := 0; item_order := 0; free_list_head := 0; pattr := attr0 |}.
Definition pool_of (s : bool) (os : list op) (id : Z) : pool :=
  match lookup id (w_pools (after s os)) with Some P => P | None => no_pool end.

(** The same, and everything is freed. *)
Definition os1f : list op := os1 ++ [ OFree 1056800 8192; OFree 1056768 8192 ].

(** ** A limited pool that is full: two items of 4096 bytes in its only range *)
Definition os2 : list op :=
  [ OCreate 8 false 4096 (Some (attrs false COW_ZERO 1)) (grant 1048576);
    OMalloc 8 (grant 0); OFill 8 1056768 (Bytes [9]); OMalloc 8 (grant 0); OFill 8 1060864 (Bytes [8; 7]) ].

(** ** A program that writes an item after freeing it *)
Definition os3 : list op := os1 ++ [ OWrite [(1056784 + 8192 + 15, 1)] ].

(** What the two pools are. *)
Definition describes (P : pool) (id : Z) (w : world) (robust : bool) (policy len : Z) : bool :=
  match lookup id (w_pools w) with
  | Some _ => true
  | None => false
  end && Bool.eqb (robust_set (pattr P)) robust && (populate_policy (pattr P) =? policy) && (item_len P =? len) &&
  (stride (pattr P) =? 8192) && (max_nr_cpus (pattr P) =? 2).
Lemma described : forall s os id robust policy len, describes (pool_of s os id) id (after s os) robust policy len = true ->
  lookup id (w_pools (after s os)) = Some (pool_of s os id) /\
  robust_set (pattr (pool_of s os id)) = robust /\ populate_policy (pattr (pool_of s os id)) = policy /\
  item_len (pool_of s os id) = len /\ stride (pattr (pool_of s os id)) = 8192 /\ max_nr_cpus (pattr (pool_of s os id)) = 2.
Proof.
  intros s os id robust policy len H. unfold describes in H. booleans.
  match goal with K : Bool.eqb _ _ = true |- _ => apply Bool.eqb_prop in K end.
  repeat split; auto. unfold pool_of. destruct (lookup id (w_pools (after s os))); [reflexivity|discriminate].
Qed.

(** One computation per history. *)
Fixpoint same_ledger (a b : ledger) : bool :=
  match a, b with
  | [], [] => true
  | x :: a, y :: b => (fst x =? fst y) && (snd x =? snd y) && same_ledger a b
  | _, _ => false
  end.
Lemma same_ledger_ok : forall a b, same_ledger a b = true -> a = b.
Proof.
  induction a as [|[x y] a IH]; intros [|[x' y'] b] H; try discriminate H; [reflexivity|]. cbn [same_ledger fst snd] in H. booleans.
  subst. f_equal. now apply IH.
Qed.
Definition nonempty {A} (l : list A) : bool := match l with [] => false | _ => true end.
Definition gives (s : bool) (os : list op) (L F : ledger) (id : Z) (robust : bool) (policy len : Z) : bool :=
  match play s os start with
  | Some (w, lv, fr) =>
    same_ledger lv L && same_ledger fr F &&
    match lookup id (w_pools w) with Some P => describes P id w robust policy len && nonempty (range_list P) | None => false end
  | None => false
  end.
Lemma gives_ok : forall s os L F id robust policy len, gives s os L F id robust policy len = true ->
  history e0 s v0 (after s os) (live s os) (freed s os) /\ live s os = L /\ freed s os = F /\
  lookup id (w_pools (after s os)) = Some (pool_of s os id) /\
  robust_set (pattr (pool_of s os id)) = robust /\ populate_policy (pattr (pool_of s os id)) = policy /\
  item_len (pool_of s os id) = len /\ stride (pattr (pool_of s os id)) = 8192 /\ max_nr_cpus (pattr (pool_of s os id)) = 2.
Proof.
  intros s os L F id robust policy len H. unfold gives in H. destruct (play s os start) as [[[w lv] fr]|] eqn:E; [|discriminate H].
  destruct (lookup id (w_pools w)) as [P|] eqn:El; [|rewrite andb_false_r in H; discriminate H]. booleans.
  split; [apply play_history; unfold plays; rewrite E; reflexivity|].
  split; [unfold live, final; rewrite E; now apply same_ledger_ok|]. split; [unfold freed, final; rewrite E; now apply same_ledger_ok|].
  apply described. unfold pool_of, after, final. rewrite E. cbn [fst]. rewrite El. assumption.
Qed.
Lemma gives_ranges : forall s os L F id robust policy len, gives s os L F id robust policy len = true ->
  range_list (pool_of s os id) <> [].
Proof.
  intros s os L F id robust policy len H. unfold gives in H. destruct (play s os start) as [[[w lv] fr]|] eqn:E; [|discriminate H].
  destruct (lookup id (w_pools w)) as [P|] eqn:El; [|rewrite andb_false_r in H; discriminate H]. booleans.
  unfold pool_of, after, final. rewrite E. cbn [fst]. rewrite El. intros K. rewrite K in *. discriminate.
Qed.
Definition ex1 : Prop :=
  history e0 true v0 (after true os1) (live true os1) (freed true os1) /\
  live true os1 = [(7, 1056800); (7, 1056768)] /\ freed true os1 = [(7, 1056784)] /\
  lookup 7 (w_pools (after true os1)) = Some (pool_of true os1 7) /\
  robust_set (pattr (pool_of true os1 7)) = true /\ populate_policy (pattr (pool_of true os1 7)) = COW_INIT /\
  item_len (pool_of true os1 7) = 16 /\ stride (pattr (pool_of true os1 7)) = 8192 /\
  max_nr_cpus (pattr (pool_of true os1 7)) = 2.
Lemma ex1_ok : ex1.
Proof. apply gives_ok. vm_compute. reflexivity. Qed.
Definition ex1f : Prop :=
  history e0 true v0 (after true os1f) (live true os1f) (freed true os1f) /\
  live true os1f = [] /\ freed true os1f = [(7, 1056768); (7, 1056800); (7, 1056784)] /\
  lookup 7 (w_pools (after true os1f)) = Some (pool_of true os1f 7) /\
  robust_set (pattr (pool_of true os1f 7)) = true /\ populate_policy (pattr (pool_of true os1f 7)) = COW_INIT /\
  item_len (pool_of true os1f 7) = 16 /\ stride (pattr (pool_of true os1f 7)) = 8192 /\
  max_nr_cpus (pattr (pool_of true os1f 7)) = 2.
Lemma ex1f_ok : ex1f.
Proof. apply gives_ok. vm_compute. reflexivity. Qed.
Definition ex2 : Prop :=
  history e0 true v0 (after true os2) (live true os2) (freed true os2) /\
  live true os2 = [(8, 1060864); (8, 1056768)] /\ freed true os2 = [] /\
  lookup 8 (w_pools (after true os2)) = Some (pool_of true os2 8) /\
  robust_set (pattr (pool_of true os2 8)) = false /\ populate_policy (pattr (pool_of true os2 8)) = COW_ZERO /\
  item_len (pool_of true os2 8) = 4096 /\ stride (pattr (pool_of true os2 8)) = 8192 /\
  max_nr_cpus (pattr (pool_of true os2 8)) = 2.
Lemma ex2_gives : gives true os2 [(8, 1060864); (8, 1056768)] [] 8 false COW_ZERO 4096 = true.
Proof. vm_compute. reflexivity. Qed.
Lemma ex2_ok : ex2.
Proof. exact (gives_ok _ _ _ _ _ _ _ _ ex2_gives). Qed.
Definition ex3 : Prop :=
  history e0 false v0 (after false os3) (live false os3) (freed false os3) /\
  live false os3 = [(7, 1056800); (7, 1056768)] /\ freed false os3 = [(7, 1056784)] /\
  lookup 7 (w_pools (after false os3)) = Some (pool_of false os3 7) /\
  robust_set (pattr (pool_of false os3 7)) = true /\ populate_policy (pattr (pool_of false os3 7)) = COW_INIT /\
  item_len (pool_of false os3 7) = 16 /\ stride (pattr (pool_of false os3 7)) = 8192 /\
  max_nr_cpus (pattr (pool_of false os3 7)) = 2.
Lemma ex3_ok : ex3.
Proof. apply gives_ok. vm_compute. reflexivity. Qed.
(** Only vm_compute is to unfold these. *)
Global Opaque final after live freed pool_of plays.
Definition outcome (r : res (world * out)) : option out := match r with Ok (_, x) => Some x | _ => None end.
Definition aborts (r : res (world * out)) : bool := match r with Abort => true | _ => false end.
Definition grants (v : vm) (len : Z) (a : option Z) : bool := match mmap_anon e0 v len a with Some _ => true | None => false end.
Lemma grants_ok : forall v len a, grants v len a = true -> mmap_anon e0 v len a <> None.
Proof. intros v len a H E. unfold grants in H. rewrite E in H. discriminate. Qed.

(** munmap fails when the full pool is destroyed *)
Lemma destroy_unreported_example : exists e v0 w L F id P an w',
  history e true v0 w L F /\ lookup id (w_pools w) = Some P /\ run1 e (ODestroy id an) w = Ok (w', OutRet 0) /\
  exists r a, In r (range_list P) /\ mmap_addr r <= a < mmap_addr r + mmap_len r /\ mapped (w_vm w') (page e a) = true.
Proof.
  destruct ex2_ok as (HH & EL & _ & El & Hrob & _).
  assert (Er : exists r l, range_list (pool_of true os2 8) = r :: l).
  { pose proof (gives_ranges _ _ _ _ _ _ _ _ ex2_gives) as H. destruct (range_list (pool_of true os2 8)) as [|r l]; [congruence|eauto]. }
  destruct Er as (r & l & Er).
  destruct (p_destroy_unreported e0 true v0 _ _ _ HH 8 _ (answer false 0) r l El Hrob Er eq_refl) as (w' & H1 & H2 & _).
  exists e0, v0, (after true os2), (live true os2), (freed true os2), 8, (pool_of true os2 8), (answer false 0), w'.
  split; [exact HH|]. split; [exact El|]. split; [exact H1|].
  assert (Hb : In (8, 1056768) (live true os2)) by (rewrite EL; right; left; reflexivity).
  destruct (p_mapped e0 true v0 _ _ _ HH 8 _ 1056768 (lookup_in _ _ _ El) Hb) as [_ Hm].
  destruct ex2_ok as (_ & _ & _ & _ & _ & _ & Ei & _ & Ec).
  destruct (Hm 0 0 ltac:(rewrite Ec; lia) ltac:(rewrite Ei; lia)) as (Hm1 & r' & Hr' & Hin).
  exists r', (percpu_ptr (pool_of true os2 8) 1056768 0 + 0). rewrite H2. split; [exact Hr'|]. split; [exact Hin|exact Hm1].
Qed.

(** The robust pool of the first history is destroyed in a forked child. *)
Lemma child_abort_example : exists e v0 w L F id P an,
  history e true v0 w L F /\ lookup id (w_pools w) = Some P /\ populate_policy (pattr P) = COW_INIT /\
  run1 e (ODestroy id an) {| w_vm := fork e (w_vm w); w_pools := w_pools w |} = Abort.
Proof.
  destruct ex1_ok as (HH & EL & _ & El & Hrob & Hp & _).
  exists e0, v0, (after true os1), (live true os1), (freed true os1), 7, (pool_of true os1 7), (grant 0).
  split; [exact HH|]. split; [exact El|]. split; [exact Hp|].
  destruct (p_child e0 true v0 _ _ _ HH 7 _ (grant 0) El Hp) as (_ & _ & _ & H). apply H.
  - exact Hrob.
  - exists 1056800. rewrite EL. left. reflexivity.
  - intros a. reflexivity.
Qed.
