(** A concrete case for C62: a counter of pushes and the offset word of a buffer
    in one item of a pool, the arrays in the program's own memory, and pool calls
    in between. *)
From Coq Require Import ZArith Bool List Lia.
From Verif Require Import RseqIR RseqSpec RseqKernel RseqSim RseqCalls LinSpec ClientModel ClientSpec.
From Verif Require Import Replay ExRseq Archs ArchsGood ClientReplay ExClients ComposeModel ComposeSpec.
From Verif Require Import UtilsModel PoolVM PoolModel PoolWorld PoolMap PoolHist PoolProps ExPool PlaceModel PlaceSpec PlacePool PlaceFinal.
Import ListNotations.
Local Open Scope Z_scope.

(** ** Running given steps *)
Inductive jact := JC (a : cact) | JP (t : nat) (o : op).

Section JReplay.
Variable Loc : Type.
Variable cl : client Loc.
Variables (g : cfg) (tx : text) (n : nat) (p : player Loc).
Hypothesis Hp : ClientReplay.plays cl p.
Variable others : nat -> thread Loc.
Hypothesis Hoth : forall t, t_on (others t) = None.
Variable pcs : nat -> piece.
Variable turn : Loc -> option nat.
Variable vw : forall i, Loc -> piece_loc (pcs i).
Variable busy : ledger.

Definition pool_callb (o : op) : bool :=
  match o with
  | OCreate _ _ _ _ _ | OMalloc _ _ => true
  | OFill id a _ => negb (existsb (fun i => (fst i =? id) && (snd i =? a)) busy)
  | OFree a _ => negb (existsb (fun i => snd i =? a) busy)
  | ODestroy id _ => negb (existsb (fun i => fst i =? id) busy)
  | OWrite _ => false
  end.
Lemma pool_callb_ok : forall o, pool_callb o = true -> pool_call busy o.
Proof.
  intros o H. destruct o; cbn [pool_callb] in H; cbn [pool_call]; auto; try discriminate; apply negb_true_iff in H.
  - intros Hin. rewrite (proj2 (existsb_exists _ _)) in H; [discriminate|]. eexists. split; [exact Hin|]. cbn. rewrite !Z.eqb_refl. reflexivity.
  - intros id Hin. rewrite (proj2 (existsb_exists _ _)) in H; [discriminate|]. eexists. split; [exact Hin|]. cbn. rewrite Z.eqb_refl. reflexivity.
  - intros a Hin. rewrite (proj2 (existsb_exists _ _)) in H; [discriminate|]. eexists. split; [exact Hin|]. cbn. rewrite Z.eqb_refl. reflexivity.
Qed.

Definition jdo1 (j : jstate Loc) (a : jact) : option (clabel * jstate Loc) :=
  let s := j_s j in let w := j_w j in let L := j_live j in let F := j_freed j in
  match a with
  | JC a =>
    match cdo1 Loc cl g tx n p s a with
    | Some (Lwr t bs, s') =>
      if forallb (fun b => writeb true w L (fst b)) bs then
        match run1 e0 (OWrite bs) w with Ok (w', _) => Some (Lwr t bs, Build_jstate s' w' L F) | _ => None end
      else None
    | Some (l, s') => Some (l, Build_jstate s' w L F)
    | None => None
    end
  | JP t o =>
    match t_ctx (s_thr s t) with
    | {| x_loc := l; x_act := None |} :: k =>
      if onb Loc n s t && match turn l with None => true | Some _ => false end && pool_callb o && allowedb true w L o then
        match run1 e0 o w with
        | Ok (w', x) =>
          let bs := changed e0 (s_mem s) w' (live_after o x L) in
          Some (Lwr t bs, Build_jstate (set_m (set_t s t (set_ctx (s_thr s t) ({| x_loc := l; x_act := None |} :: k))) (wr (s_mem s) bs))
            w' (live_after o x L) (freed_after o x L F))
        | _ => None
        end
      else None
    | _ => None
    end
  end.

Definition jok (j : jstate Loc) : Prop :=
  ClientReplay.stays n others (j_s j) /\ history e0 true v0 (j_w j) (j_live j) (j_freed j) /\
  agrees e0 v0 (s_mem (j_s j)) (j_w j) (j_live j).

Lemma step_wr_mem : forall s t bs s', step g tx cl s (Lwr t bs) s' -> s_mem s' = wr (s_mem s) bs.
Proof. intros s t bs s' H. inversion H; subst; reflexivity. Qed.
Lemma step_same_mem : forall s l s', step g tx cl s l s' -> (forall t bs, l <> Lwr t bs) -> s_mem s' = s_mem s.
Proof. intros s l s' H Hn. inversion H; subst; try reflexivity; exfalso; eapply Hn; reflexivity. Qed.

Lemma jdo1_ok : forall j a l j', jdo1 j a = Some (l, j') -> jok j ->
  jstep e0 v0 g tx pcs turn vw cl busy j l j' /\ jok j'.
Proof.
  intros [s w L F] a l j' H (Hst & HH & Hag). unfold jdo1 in H. unfold jok. cbn [j_s j_w j_live j_freed] in *. destruct a as [a|t o].
  - destruct (cdo1 Loc cl g tx n p s a) as [[cl0 s']|] eqn:E; [|discriminate].
    destruct (cdo1_ok Loc cl g tx n p Hp others Hoth s a cl0 s' E Hst) as (S1 & S2 & S3).
    destruct cl0; try (inversion H; subst; cbn [j_s j_w j_live j_freed]; split; [apply J_step; auto; intros; discriminate|];
      split; [auto|]; split; [auto|]; rewrite (step_same_mem _ _ _ S1) by (intros; discriminate); auto).
    destruct (forallb (fun b => writeb true w L (fst b)) ps) eqn:El; [|discriminate].
    destruct (run1 e0 (OWrite ps) w) as [[w' x]| |] eqn:Er; try discriminate.
    inversion H; subst. cbn [j_s j_w j_live j_freed].
    assert (Hgw : forall b, In b (map fst ps) -> good_write e0 v0 w L b).
    { intros b Hb. rewrite forallb_forall in El. apply in_map_iff in Hb. destruct Hb as (q & <- & Hq).
      destruct (writeb_ok true w L _ (El _ Hq)) as [|[? _]]; [auto|discriminate]. }
    split; [eapply J_store; eauto|]. split; [auto|].
    assert (Hal : allowed e0 true v0 w L (OWrite ps)) by (intros b Hb; left; auto).
    pose proof Er as Er'. cbn [run1] in Er'. destruct (forallb (fun q => mapped (w_vm w) (PoolVM.page e0 (fst q))) ps); [|discriminate Er'].
    injection Er' as <- <-.
    split; [exact (hist_step e0 true v0 w L F (OWrite ps) _ _ HH Hal Er)|].
    intros b Hb. rewrite (step_wr_mem _ _ _ _ S1). cbn [w_vm].
    apply (store_agrees e0 (fun a => good_write e0 v0 w L a)); auto.
    + reflexivity.
    + apply (wi_wf _ _ _ _ _ _ (hist_inv e0 _ _ _ _ _ HH)).
    + intros y c Hy Hc' Hali. eapply (good_alias e0 true v0 w L F HH); eauto. eapply hist_links; eauto.
  - destruct (t_ctx (s_thr s t)) as [|[lo [f|]] k] eqn:Ek; try discriminate.
    destruct (onb Loc n s t && _ && _ && _) eqn:E; [|discriminate]. repeat rewrite andb_true_iff in E. destruct E as (((E1 & E2) & E3) & E4).
    destruct (turn lo) eqn:Etu; [discriminate|].
    destruct (run1 e0 o w) as [[w' x]| |] eqn:Er; try discriminate. inversion H; subst.
    destruct (onb_ok Loc n s t E1) as [R1 R2].
    apply pool_callb_ok in E3. apply allowedb_ok in E4.
    assert (Hch : changes e0 v0 (s_mem s) w L w' (live_after o x L) (changed e0 (s_mem s) w' (live_after o x L))).
    { eapply changed_ok; eauto. destruct o; auto; contradiction. }
    split; [|cbn [j_s j_w j_live j_freed]; split; [|split]].
    + eapply (J_call Loc e0 v0 g tx pcs turn vw cl busy s w L F t lo k lo o w' x); eauto.
    + apply stays_setm. apply stays_set; auto.
    + eapply hist_step; eauto.
    + exact (proj1 Hch).
Qed.

Fixpoint jreplay (j : jstate Loc) (acts : list jact) : option (list (RseqKernel.state Loc * clabel) * jstate Loc) :=
  match acts with
  | [] => Some ([], j)
  | a :: acts =>
    if match a with JC a => skipb Loc (j_s j) a | JP _ _ => false end then jreplay j acts else
    match jdo1 j a with
    | Some (l, j1) => match jreplay j1 acts with Some (tr, j2) => Some ((j_s j, l) :: tr, j2) | None => None end
    | None => None
    end
  end.
Variable j0 : jstate Loc.
Notation jp := (jpath e0 v0 g tx pcs turn vw cl busy j0).
Lemma jreplay_path : forall acts tr j tr' j', jp tr j -> jok j -> jreplay j acts = Some (tr', j') ->
  jp (tr ++ tr') j' /\ jok j'.
Proof.
  induction acts as [|a acts IH]; cbn [jreplay]; intros tr j tr' j' Hj Hst H.
  - inversion H; subst. rewrite app_nil_r. auto.
  - destruct (match a with JC a => skipb Loc (j_s j) a | JP _ _ => false end); [eauto|].
    destruct (jdo1 j a) as [[l j1]|] eqn:E; [|discriminate].
    destruct (jreplay j1 acts) as [[tr1 j2]|] eqn:Er; [|discriminate]. inversion H; subst.
    destruct (jdo1_ok _ _ _ _ E Hst) as [S1 S2].
    change ((j_s j, l) :: tr1) with ([(j_s j, l)] ++ tr1). rewrite app_assoc. eapply IH; eauto. econstructor; eauto.
Qed.

Definition jends (acts : list jact) (f : list (RseqKernel.state Loc * clabel) -> jstate Loc -> bool) : bool :=
  match jreplay j0 acts with Some (tr, j) => f tr j | None => false end.
Lemma jends_path : forall acts f, jends acts f = true -> jok j0 -> exists tr j, jp tr j /\ f tr j = true.
Proof.
  intros acts f H Hst. unfold jends in H. destruct (jreplay j0 acts) as [[tr j]|] eqn:E; [|discriminate].
  exists tr, j. split; auto. apply (jreplay_path acts [] j0 tr j); auto. constructor.
Qed.
End JReplay.

(** ** The program *)
Definition osP : list op :=
  [ OCreate 7 true 14 (Some (attrs false COW_ZERO 0)) (grant 1048576); OMalloc 7 (grant 0); OFill 7 1056768 Zeroed ].
Definition pushed (c : Z) : Z := 1056768 + 8192 * c.
Definition offs (c : Z) : Z := 1056768 + 8192 * c + 8.
Definition arrs (c : Z) : Z := 66560 + 32 * c.
Definition two_parts (i : nat) : piece :=
  match i with
  | 0%nat => {| p_mode := CPU_ID; p_cpus := two; p_kind := K_count pushed 5 |}
  | 1%nat => {| p_mode := CPU_ID; p_cpus := two; p_kind := K_buf offs arrs ex_len (plain_load demo_cfg) |}
  | _ => {| p_mode := CPU_ID; p_cpus := []; p_kind := K_nothing |}
  end.
Definition spots (i n : nat) : spot := {| sp_pool := 7; sp_item := 1056768; sp_ofs := match i with 0%nat => 0 | _ => 8 end |}.
Record prog_loc := { g_turn : option nat; g_buf : buf_loc }.
Definition prog_view (i : nat) (l : prog_loc) : piece_loc (two_parts i) :=
  match i return piece_loc (two_parts i) with 0%nat => tt | 1%nat => g_buf l | _ => tt end.
Definition buffer := buf_client demo_cfg CPU_ID two offs arrs ex_len.
(** Outside the structures, it writes to a second item. *)
Definition prog : client prog_loc :=
  {| cl_call := fun l m c => match g_turn l with
       | Some 0%nat => cl_call _ (count_client CPU_ID two pushed 5) tt m c
       | Some 1%nat => cl_call _ buffer (g_buf l) m c
       | _ => False end;
     cl_ret := fun l c r => match g_turn l with
       | Some 0%nat => {| g_turn := None; g_buf := g_buf l |}
       | Some 1%nat => {| g_turn := Some 1%nat; g_buf := cl_ret _ buffer (g_buf l) c r |}
       | _ => l end;
     cl_write := fun l _ bs l' => g_turn l = None /\ map fst bs = [1056784 + 8192 + 5] /\ l' = l;
     cl_tau := fun l m l' =>
       g_buf l' = g_buf l \/
       (g_turn l = Some 1%nat /\ g_turn l' = Some 1%nat /\ cl_tau _ buffer (g_buf l) m (g_buf l'));
     cl_sig := fun _ l' => l' = {| g_turn := None; g_buf := B_idle |};
     cl_done := fun l => g_buf l = B_idle |}.
Definition pushes : player buf_loc :=
  {| pl_call := fun l _ => match l with
       | B_push2 v cpu o => Some {| c_code := 5; c_op := CbneStoreStore (offs cpu) o (arr_slot demo_cfg arrs cpu o) v (o + 1);
                                    c_cpu := cpu; c_mode := CPU_ID |}
       | _ => None end;
     pl_tau := fun l m z => match l with
       | B_idle | B_pushed _ | B_popped _ => if (0 <? z) && (z <? 1000) then Some (B_push z) else Some B_idle
       | B_push v => if inb z then Some (if ldw demo_cfg m (offs z) =? 2 then B_pushed false else B_push2 v z (ldw demo_cfg m (offs z))) else None
       | _ => None end;
     pl_write := fun _ _ => None;
     pl_sig := fun _ => Some B_idle;
     pl_done := fun l => match l with B_idle => true | _ => false end |}.
Lemma pushes_plays : ClientReplay.plays buffer pushes.
Proof.
  assert (Hz : forall z l', (if (0 <? z) && (z <? 1000) then Some (B_push z) else Some B_idle) = Some l' ->
    (exists v, 0 <= v < wmod demo_cfg /\ l' = B_push v) \/ l' = B_pop \/ l' = B_idle).
  { intros z l' H. destruct ((0 <? z) && (z <? 1000)) eqn:E; injection H as <-; auto.
    apply andb_true_iff in E. rewrite !Z.ltb_lt in E. left. exists z. split; auto. change (wmod demo_cfg) with 18446744073709551616. lia. }
  split; [|split; [|split; [|split]]].
  - intros [] m c H; try discriminate; cbn in H; injection H as <-; cbn; auto.
  - intros [] m z l' H; try discriminate; cbn in H; try (apply (Hz z); exact H).
    destruct (inb z) eqn:E; [|discriminate]. injection H as <-. cbn. exists z, (ldw demo_cfg m (offs z)). split; [apply inb_ok; auto|split; reflexivity].
  - discriminate.
  - intros l l' H. injection H as <-. reflexivity.
  - intros [] H; try discriminate. reflexivity.
Qed.
Definition prog_player : player prog_loc :=
  {| pl_call := fun l m => match g_turn l with
       | Some 0%nat => Some {| c_code := 1; c_op := AddStore (pushed 0) 5; c_cpu := 0; c_mode := CPU_ID |}
       | Some 1%nat => pl_call pushes (g_buf l) m
       | _ => None end;
     pl_tau := fun l m z =>
       if z =? 2000 then Some {| g_turn := Some 0%nat; g_buf := g_buf l |} else
       if z =? 2001 then Some {| g_turn := Some 1%nat; g_buf := g_buf l |} else
       if z =? 2002 then Some {| g_turn := None; g_buf := g_buf l |} else
       match g_turn l, pl_tau pushes (g_buf l) m z with
       | Some 1%nat, Some b => Some {| g_turn := Some 1%nat; g_buf := b |}
       | _, _ => None end;
     pl_write := fun l _ => match g_turn l with None => Some ([(1056784 + 8192 + 5, 77)], l) | _ => None end;
     pl_sig := fun _ => Some {| g_turn := None; g_buf := B_idle |};
     pl_done := fun l => match g_buf l with B_idle => true | _ => false end |}.
Lemma prog_plays : ClientReplay.plays prog prog_player.
Proof.
  destruct pushes_plays as (B1 & B2 & _ & _ & _).
  split; [|split; [|split; [|split]]].
  - intros [[[|[|i]]|] b] m c H; try discriminate; cbn [pl_call prog_player g_turn g_buf] in H.
    + injection H as <-. cbn [prog cl_call g_turn count_client c_mode c_op c_cpu]. repeat split; left; reflexivity.
    + apply B1 in H. exact H.
  - intros [tu b] m z l' H. cbn [pl_tau prog_player g_turn g_buf] in H.
    destruct (z =? 2000); [injection H as <-; left; reflexivity|].
    destruct (z =? 2001); [injection H as <-; left; reflexivity|].
    destruct (z =? 2002); [injection H as <-; left; reflexivity|].
    destruct tu as [[|[|i]]|]; try discriminate.
    destruct (pl_tau pushes b m z) as [b'|] eqn:E; [|discriminate].
    injection H as <-. right. cbn [g_turn g_buf]. apply B2 in E. auto.
  - intros [[i|] b] m ps l' H; [discriminate|]. injection H as <- <-. split; [reflexivity|]. split; reflexivity.
  - intros l l' H. injection H as <-. reflexivity.
  - intros [tu []] H; try discriminate. reflexivity.
Qed.
Lemma part_bytes0 : forall a, piece_bytes demo_cfg (two_parts 0) a -> exists c, In c two /\ pushed c <= a < pushed c + 8.
Proof. intros a (cpu & Hc & Hs). exists cpu. split; auto. apply BufProofs.in_span in Hs. cbn [wsize demo_cfg] in Hs. lia. Qed.
Lemma part_bytes1 : forall a, piece_bytes demo_cfg (two_parts 1) a ->
  exists c, In c two /\ (offs c <= a < offs c + 8 \/ arrs c <= a < arrs c + 16).
Proof.
  intros a [(cpu & Hc & Hs)|(cpu & Hc & Hs)]; exists cpu; (split; [exact Hc|]); apply BufProofs.in_span in Hs; cbn [wsize demo_cfg] in Hs.
  - left. lia.
  - right. change (Z.of_nat (ex_len cpu * 8)) with 16 in Hs. lia.
Qed.
Lemma prog_uses : uses demo_cfg two_parts g_turn prog_view prog.
Proof.
  split.
  - intros [[[|[|i]]|] b] m c H; cbn [cl_call prog g_turn g_buf] in H; try contradiction.
    + exists 0%nat. split; [reflexivity|exact H].
    + exists 1%nat. split; [reflexivity|exact H].
  - intros [tu b] c r i H. cbn [g_turn] in H. subst tu. destruct i as [|[|i]].
    + split; [reflexivity|]. intros [|[|j]] Hj; [congruence|reflexivity|reflexivity].
    + split; [reflexivity|]. intros [|[|j]] Hj; [reflexivity|congruence|reflexivity].
    + split; [reflexivity|]. intros [|[|j]] Hj; reflexivity.
  - intros l m bs l' (H1 & H2 & H3). subst l'. right. split; [exact H1|]. split; [|reflexivity].
    intros i x Hx. rewrite H2 in Hx. destruct Hx as [<-|[]]. destruct i as [|[|i]].
    + intros Hb. apply part_bytes0 in Hb. destruct Hb as (c & Hc & Hb). apply two_cases in Hc. unfold pushed in Hb. destruct Hc as [-> | ->]; lia.
    + intros Hb. apply part_bytes1 in Hb. destruct Hb as (c & Hc & Hb). apply two_cases in Hc. unfold offs, arrs in Hb. destruct Hc as [-> | ->]; lia.
    + intros [].
  - intros l m l' [H|(H1 & H2 & H3)].
    + right. intros [|[|j]]; [reflexivity|exact H|reflexivity].
    + left. exists 1%nat. split; [exact H1|]. split; [exact H3|]. intros [|[|j]] Hj; [reflexivity|congruence|reflexivity].
  - intros l l' H [|[|i]]; [exact Logic.I| |exact Logic.I]. cbn in H. subst l'. reflexivity.
  - intros l H [|[|i]]; [exact Logic.I|exact H|exact Logic.I].
Qed.

(** ** The start *)
Lemma osP_gives : gives true osP [(7, 1056768)] [] 7 false COW_ZERO 16 = true.
Proof. vm_compute. reflexivity. Qed.
Definition wP : world := after true osP.
Definition in_use : ledger := [(7, 1056768)].
Definition prog_s0 : RseqKernel.state prog_loc := cstart (PoolVM.view e0 (w_vm wP)) (fun _ => {| g_turn := None; g_buf := B_idle |}).
Definition prog_j0 : jstate prog_loc := Build_jstate prog_s0 wP in_use [].
Lemma prog_history : history e0 true v0 (j_w prog_j0) (j_live prog_j0) (j_freed prog_j0).
Proof.
  destruct (gives_ok _ _ _ _ _ _ _ _ osP_gives) as (H & H1 & H2 & _). rewrite H1, H2 in H. exact H.
Qed.
Lemma prog_agrees : agrees e0 v0 (s_mem (j_s prog_j0)) (j_w prog_j0) (j_live prog_j0).
Proof. intros a _. reflexivity. Qed.
Lemma prog_placement : placement e0 v0 demo_cfg (j_w prog_j0) in_use two_parts spots.
Proof.
  destruct (gives_ok _ _ _ _ _ _ _ _ osP_gives) as (_ & _ & _ & E1 & _ & _ & E2 & E3 & E4).
  assert (W : forall f o, 0 <= o -> o + 8 <= 16 -> (forall c, f c = 1056768 + 8192 * c + o) ->
    word_at demo_cfg (j_w prog_j0) in_use two f {| sp_pool := 7; sp_item := 1056768; sp_ofs := o |}).
  { intros f o H1 H2 Hf. exists (pool_of true osP 7). cbn [sp_pool sp_item sp_ofs]. split; [apply lookup_in; exact E1|].
    split; [left; reflexivity|]. split; [exact H1|]. rewrite E2. split; [exact H2|].
    intros c Hc. rewrite E4. unfold percpu_ptr. rewrite E3. split; [apply two_cases in Hc; lia|]. rewrite Hf. reflexivity. }
  split.
  - intros [|[|i]]; cbn [two_parts p_cpus]; [exact two_nodup|exact two_nodup|constructor].
  - intros [|[|i]] [|[|n]] f H; try discriminate H; inversion H; subst f; clear H.
    + apply W; [lia|lia|]. intros c. unfold pushed. ring.
    + apply W; [lia|lia|]. intros c. reflexivity.
  - intros [|[|i]] n [|[|j]] m Hne Hn Hm; cbn [two_parts p_kind kind_words length] in Hn, Hm; try lia; right; right; cbn; try lia.
    + exfalso. apply Hne. f_equal. lia.
    + exfalso. apply Hne. f_equal. lia.
  - intros [|[|i]] a Ha; try contradiction. destruct Ha as (c & Hc & Hs). apply BufProofs.in_span in Hs.
    change (Z.of_nat (ex_len c * wsize demo_cfg)) with 16 in Hs.
    unfold PoolVM.page, arrs in *. cbn [mapped v0 e_page e0]. apply Z.eqb_eq. apply two_cases in Hc.
    symmetry. apply (Z.div_unique a 4096 16 (a - 65536)); [left|]; destruct Hc as [-> | ->]; lia.
  - intros [|[|i]] [|[|j]] a Hn Hi Hj; try congruence; contradiction.
  - intros [|[|i]]; try exact Logic.I. split.
    + exists (fun a => Array ((a - 66560) / 32)). intros c a Hc Ha. apply BufProofs.in_span in Ha.
      change (Z.of_nat (ex_len c * wsize demo_cfg)) with 16 in Ha. f_equal. unfold arrs in Ha. symmetry.
      apply (Z.div_unique _ 32 c (a - 66560 - 32 * c)); [left|]; lia.
    + intros c _. reflexivity.
Qed.
Lemma offs_zero : forall c, In c two -> ldw demo_cfg (s_mem prog_s0) (offs c) = 0.
Proof. intros c Hc. apply two_cases in Hc. destruct Hc as [-> | ->]; vm_compute; reflexivity. Qed.
Lemma prog_start : forall i, piece_start demo_cfg (two_parts i) (seen two_parts g_turn prog_view i prog_s0).
Proof.
  intros [|[|i]]; [exact Logic.I| |exact Logic.I].
  split; [intros t; reflexivity|]. exists (fun _ => []). split; [|intros; cbn; lia].
  intros cpu Hc. split; [exact (offs_zero cpu Hc)|exact Logic.I].
Qed.
