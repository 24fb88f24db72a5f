(** FlowAccumulation(props, accum): include/richdem/methods/flow_accumulation_generic.hpp:33-97.
    Proportions and accumulation are exact rationals (the code uses float proportions and any
    accumulation type; rounding is not modelled). Cells are addressed by flat index, as in the code. *)
From Coq Require Import ZArith List Lia Bool QArith Qcanon.
From Verif Require Import Base Res Kahn FlowModel.
Open Scope Z_scope.

Definition posq (q : Qc) : bool := if Qclt_le_dec 0 q then true else false.   (* q > 0 *)
Definition eqq (a b : Qc) : bool := if Qc_eq_dec a b then true else false.

(** constants.hpp:88 ACCUM_NO_DATA *)
Definition ACCUM_NO_DATA : Qc := Q2Qc (-1).

(** Array3D.hpp:378-384 getIN(i,n) = data[9*i+n]: undefined outside *)
Definition getIN (sz : Z) (props : Z -> nat -> Qc) (i : Z) (n : nat) : res Qc :=
  if (0 <=? i) && (i <? sz) then Ok (props i n) else Undef.
(** Array3D.hpp:242-245 isNoData(i) *)
Definition isND (sz : Z) (props : Z -> nat -> Qc) (nd : Qc) (i : Z) : res bool :=
  do v <- getIN sz props i 0%nat; Ok (eqq v nd).
(** Array2D operator()(i) *)
Definition aat {A} (sz : Z) (g : Z -> A) (i : Z) : res A := if (0 <=? i) && (i <? sz) then Ok (g i) else Undef.
Definition aset {A} (g : Z -> A) (i : Z) (v : A) : Z -> A := kupd Z.eqb g i v.

(** Array2D.hpp:858 _nshift = {0,-1,-w-1,-w,-w+1,1,w+1,w,w-1} *)
Definition nshift8 (w : Z) (n : nat) : Z := nth n [0; -1; -w-1; -w; -w+1; 1; w+1; w; w-1] 0.

Notation fstate := (@kst Z Qc).

(** lines 55-62: one direction of one interior cell in the dependency loop *)
Definition fa_dep_dir (sz w : Z) (props : Z -> nat -> Qc) (ci : Z) (n : nat) (deps : Z -> Z) : res (Z -> Z) :=
  do p <- getIN sz props ci n;
  if posq p then do d <- aat sz deps (ci + nshift8 w n); Ok (aset deps (ci + nshift8 w n) (d + 1))
  else Ok deps.
(** lines 51-62 *)
Definition interior_cells (w h : Z) : list Z :=
  flat_map (fun y => map (fun x => y * w + x) (zrange 1 (Z.to_nat (w - 2)))) (zrange 1 (Z.to_nat (h - 2))).
Definition fa_deps (sz w h : Z) (props : Z -> nat -> Qc) (nd : Qc) : res (Z -> Z) :=
  forM (interior_cells w h) (fun ci deps =>
    do b <- isND sz props nd ci;
    if b then Ok deps else forM (dirs D8) (fa_dep_dir sz w props ci) deps) (fun _ => 0).

(** lines 66-69: sources, in index order *)
Definition fa_sources (sz : Z) (props : Z -> nat -> Qc) (nd : Qc) (deps : Z -> Z) : list Z :=
  filter (fun i => (deps i =? 0) && negb (eqq (props i 0%nat) nd)) (zrange 0 (Z.to_nat sz)).

(** lines 84-94: one direction of the cell taken off the queue *)
Definition fa_send (sz w : Z) (props : Z -> nat -> Qc) (nd : Qc) (ci : Z) (c_accum : Qc) (n : nat) (s : fstate) : res fstate :=
  do p <- getIN sz props ci n;
  if negb (posq p) then Ok s
  else let ni := ci + nshift8 w n in
    do b <- isND sz props nd ni;
    if b then Ok s
    else let acc := aset (k_val s) ni (k_val s ni + p * c_accum)%Qc in
         let dep := aset (k_dep s) ni (k_dep s ni - 1) in
         Ok (mkK dep acc (if dep ni =? 0 then k_q s ++ [ni] else k_q s)).
Definition fa_body (sz w : Z) (props : Z -> nat -> Qc) (nd : Qc) (ci : Z) (s : fstate) : res fstate :=
  forM (dirs D8) (fa_send sz w props nd ci (k_val s ci)) s.

(** lines 33-97. [None]: the while loop has not finished within size() iterations. *)
Definition FlowAccumulation (pw ph : Z) (props : Z -> nat -> Qc) (nd : Qc) (aw ah : Z) (accum : Z -> Qc) : option (res (Z -> Qc)) :=
  if negb ((aw =? pw) && (ah =? ph)) then Some Thrown
  else let sz := pw * ph in
    match fa_deps sz aw ph props nd with
    | Ok deps =>
        match whileR kpop (fa_body sz aw props nd) (Z.to_nat sz) 0 (mkK deps accum (fa_sources sz props nd deps)) with
        | Some (Ok s) => Some (Ok (fun i => if (0 <=? i) && (i <? sz) && eqq (props i 0%nat) nd then ACCUM_NO_DATA else k_val s i))
        | Some Thrown => Some Thrown
        | Some Undef => Some Undef
        | None => None
        end
    | Thrown => Some Thrown
    | Undef => Some Undef
    end.
