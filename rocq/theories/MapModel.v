(** Ranges created and destroyed by several threads at the same time, system call by
    system call.  Executable definitions only, no proofs.

    A range in the making is a program that makes calls and goes on with their answers;
    the calls of all programs interleave.  Only who has which byte of the address space is
    kept.  Simplified: sizes do not wrap around, the alignment tests are those of
    arithmetic, and the asserts are left out (C21, C33 have all that for one call). *)
From Coq Require Import ZArith Bool List.
Import ListNotations.
Local Open Scope Z_scope.

(** Calls, and accesses to the memory of the range.  [CCall]: memfd_create and ftruncate,
    close, calloc, which do not concern the address space of the range. *)
Inductive call := CMmap (n : Z) | CUnmap (a n : Z) | CFixed (a n : Z) | CAdvise (a n : Z) | CTouch (a n : Z) | CCall.
Inductive outcome := Made (header base len : Z) | NoRange | Aborted.
(** Answers: the address or -1 for mmap, 0 for success otherwise. *)
Inductive prog := PDone (r : outcome) | PSys (c : call) (k : Z -> prog).

Definition MAP_FAILED : Z := -1.
Section Create.
(** rseq_get_page_len() *)
Variable ps : Z.

(** 622-699  aligned_mmap_anonymous, with what its caller does next *)
Definition trim (len hl ptr count : Z) (k : option (Z * Z) -> prog) : prog :=
  let min := (hl + len) / ps in                                      (* 644 *)
  if min <? count then                                               (* 676-687 *)
    PSys (CUnmap (ptr + min * ps) ((count - min) * ps)) (fun r => if r =? 0 then k (Some (ptr + hl, ptr)) else PDone Aborted)
  else k (Some (ptr + hl, ptr)).
Definition aligned_mmap (len al hl : Z) (k : option (Z * Z) -> prog) : prog :=
  if (len <? ps) || (al <? ps) || negb (len mod al =? 0) || negb (hl mod ps =? 0) then k None     (* 629-642 *)
  else
  let count := (hl + len + al - ps) / ps in                          (* 645 *)
  PSys (CMmap (count * ps)) (fun ptr =>                              (* 649 *)
    if ptr =? MAP_FAILED then k None
    else if (ptr + hl) mod al =? 0 then trim len hl ptr count k      (* 658 *)
    else
      let extra := (- (ptr + hl)) mod al in                          (* 664 *)
      PSys (CUnmap ptr extra) (fun r =>                              (* 666 *)
        if r =? 0 then trim len hl (ptr + extra) (count - extra / ps) k else PDone Aborted)).

(** The attributes that matter here. *)
Record cfg := { c_stride : Z; c_cpus : nat; c_cow : bool; c_robust : bool; c_init : bool; c_global : bool }.
Definition header_len : Z := 2 * ps.                                 (* 757 *)
Definition range_len (c : cfg) : Z :=                                (* 758-762 *)
  c_stride c * Z.of_nat (c_cpus c) + (if c_cow c then c_stride c else 0) + (if c_robust c then c_stride c else 0).

(** 600-615 rseq_mempool_range_destroy in the process that made the range: the description
    of the range, in the page before [base], is read, then all is unmapped. *)
Definition range_destroy (header base len : Z) (k : Z -> prog) : prog :=
  PSys (CTouch (base - ps) ps) (fun _ => PSys (CUnmap header len) k).
(** 858-861 error_alloc; the answer of munmap is not looked at *)
Definition error_alloc (header base len : Z) : prog := PSys CCall (fun _ => range_destroy header base len (fun _ => PDone NoRange)).

(** One call after the other for cpu, cpu + 1, ...; [fail] if one fails: 790-798, 841-849 *)
Fixpoint per_cpu (n : nat) (cpu : Z) (f : Z -> call) (fail k : prog) : prog :=
  match n with
  | O => k
  | S n => PSys (f cpu) (fun r => if r =? 0 then per_cpu n (cpu + 1) f fail k else fail)
  end.
(** 740-862  rseq_mempool_range_create (the limit on the number of ranges, 750-754, aside) *)
Definition range_create (c : cfg) : prog :=
  let s := c_stride c in
  aligned_mmap (range_len c) s header_len (fun m =>                  (* 763 *)
  match m with
  | None => PDone NoRange
  | Some (base, header) =>
    let len := header_len + range_len c in
    let fail := error_alloc header base len in
    let step c k := PSys c (fun r => if r =? 0 then k else fail) in
    let made := PDone (Made header base len) in
    let init :=                                                      (* 831-854: the program's callback *)
      if c_init c then
        if c_global c then step (CTouch base s) made
        else per_cpu (c_cpus c) 0 (fun cpu => CTouch (base + s * cpu) s) fail made
      else made in
    let bitmap := if c_robust c then step CCall init else init in    (* 827-830 *)
    PSys (CTouch (base - ps) ps) (fun _ =>                           (* 767-772 *)
    if c_cow c then
      step CCall (                                                   (* 777 *)
      step (CFixed (base + s * Z.of_nat (c_cpus c)) s) (             (* 780 *)
      per_cpu (c_cpus c) 0 (fun cpu => CFixed (base + s * cpu) s) fail (     (* 790-798 *)
      step (CAdvise base (range_len c)) (                            (* 804 *)
      PSys (CTouch header 1) (fun _ =>                               (* 813 *)
      step (CAdvise header ps) (                                     (* 814 *)
      PSys CCall (fun _ => bitmap)))))))                             (* 823 *)
    else bitmap)
  end).
End Create.

(** Who has a byte: nobody, the rest of the process (0), or the range with this number. *)
(** [w_cfg]: how the range was asked for; [w_refused]: whether a munmap of the last call on it failed. *)
Record mworld := { w_owner : Z -> option Z; w_prog : Z -> option prog; w_cfg : Z -> option cfg; w_refused : Z -> bool }.
Definition fill (a n : Z) (v : option Z) (o : Z -> option Z) : Z -> option Z := fun x => if (a <=? x) && (x <? a + n) then v else o x.
Definition upd {A} (f : Z -> A) (g : Z) (v : A) : Z -> A := fun x => if x =? g then v else f x.
(** Actions: a thread starts creating a range, or destroying one that was made; one
    program goes on with this answer; a call of mmap with MAP_FIXED fails and leaves a
    hole, as POSIX allows ("some of the mappings ... may have been unmapped"); the rest of
    the process maps and unmaps memory. *)
Inductive mact := MStart (g : Z) (c : cfg) | MDestroy (g : Z) | MRun (g r : Z) | MHole (g b n : Z) | MRestMap (a n : Z) | MRestUnmap (a n : Z).
Definition mrun1 (ps : Z) (x : mact) (w : mworld) : option mworld :=
  match x with
  | MStart g c => Some {| w_owner := w_owner w; w_prog := upd (w_prog w) g (Some (range_create ps c));
      w_cfg := upd (w_cfg w) g (Some c); w_refused := upd (w_refused w) g false |}
  | MDestroy g =>                                                    (* 913-917 *)
    match w_prog w g with
    | Some (PDone (Made h b l)) =>
      Some {| w_owner := w_owner w; w_cfg := w_cfg w; w_refused := upd (w_refused w) g false;
              w_prog := upd (w_prog w) g (Some (range_destroy ps h b l (fun r => PDone (if r =? 0 then NoRange else Made h b l)))) |}
    | _ => None
    end
  | MRun g r =>
    match w_prog w g with
    | Some (PSys c k) =>
      let go o f := Some {| w_owner := o; w_prog := upd (w_prog w) g (Some (k r)); w_cfg := w_cfg w; w_refused := f |} in
      match c with
      | CMmap n => if r =? MAP_FAILED then go (w_owner w) (w_refused w) else go (fill r n (Some g) (w_owner w)) (w_refused w)
      | CUnmap a n => if r =? 0 then go (fill a n None (w_owner w)) (w_refused w) else go (w_owner w) (upd (w_refused w) g true)
      | CFixed a n => if r =? 0 then go (fill a n (Some g) (w_owner w)) (w_refused w) else go (w_owner w) (w_refused w)
      | _ => go (w_owner w) (w_refused w)
      end
    | _ => None
    end
  | MHole g b n =>
    match w_prog w g with
    | Some (PSys (CFixed _ _) k) => Some {| w_owner := fill b n None (w_owner w); w_prog := upd (w_prog w) g (Some (k MAP_FAILED)); w_cfg := w_cfg w; w_refused := w_refused w |}
    | _ => None
    end
  | MRestMap a n => Some {| w_owner := fill a n (Some 0) (w_owner w); w_prog := w_prog w; w_cfg := w_cfg w; w_refused := w_refused w |}
  | MRestUnmap a n => Some {| w_owner := fill a n None (w_owner w); w_prog := w_prog w; w_cfg := w_cfg w; w_refused := w_refused w |}
  end.

(** What pool creation has checked (C32): page size and stride are powers of two. *)
Definition cfg_ok (ps : Z) (c : cfg) : Prop := (exists k, 0 <= k /\ c_stride c = 2 ^ k) /\ ps <= c_stride c /\ (1 <= c_cpus c)%nat.
Definition free_area (w : mworld) (a n : Z) : Prop := forall x, a <= x < a + n -> w_owner w x = None.
(** What program and system may do.  [holes]: whether MHole may happen. *)
Definition mallowed (ps : Z) (holes : bool) (x : mact) (w : mworld) : Prop :=
  match x with
  | MStart g c => g <> 0 /\ w_prog w g = None /\ cfg_ok ps c
  | MDestroy g => True
  | MRun g r =>
    match w_prog w g with
    | Some (PSys (CMmap n) _) => r = MAP_FAILED \/ 0 < r /\ (ps | r) /\ free_area w r n
    | _ => True
    end
  | MHole g b m =>
    holes = true /\ 0 < m /\ match w_prog w g with Some (PSys (CFixed a n) _) => a <= b /\ b + m <= a + n | _ => False end
  | MRestMap a n => free_area w a n
  | MRestUnmap a n => forall x, a <= x < a + n -> w_owner w x = Some 0
  end.
Definition mstart (w : mworld) : Prop := (forall x, w_owner w x = None \/ w_owner w x = Some 0) /\ (forall g, w_prog w g = None).
Inductive mreach (ps : Z) (holes : bool) : mworld -> Prop :=
| mreach_start w : mstart w -> mreach ps holes w
| mreach_step w x w' : mreach ps holes w -> mallowed ps holes x w -> mrun1 ps x w = Some w' -> mreach ps holes w'.
