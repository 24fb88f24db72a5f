(** D8 flow directions and D8 flow accumulation.
    Models include/richdem/flowmet/d8_flowdirs.hpp and include/richdem/methods/d8_methods.hpp:47-136.
    Elevations and areas are mathematical integers (any totally ordered elevation values without NaN,
    and area types wide enough for the cell count). Logging and progress bars are omitted. *)
From Coq Require Import ZArith List Lia Bool.
From Verif Require Import Base Res Kahn.
Open Scope Z_scope.

(** Array2D.hpp:898-915 operator()(x,y): an access outside the raster is undefined behaviour. *)
Definition gat {A} (w h : Z) (g : grid A) (x y : Z) : res A :=
  if inGrid w h x y then Ok (g x y) else Undef.

(** constants.hpp:80,76 *)
Definition NO_FLOW : Z := 0.
Definition FLOWDIR_NO_DATA : Z := 255.

(** Array2D.hpp:788-810 *)
Definition isTopLeft (w h x y : Z) : bool := (x =? 0) && (y =? 0).
Definition isTopRight (w h x y : Z) : bool := (x =? w - 1) && (y =? 0).
Definition isBottomLeft (w h x y : Z) : bool := (x =? 0) && (y =? h - 1).
Definition isBottomRight (w h x y : Z) : bool := (x =? w - 1) && (y =? h - 1).
Definition isTopRow (w h x y : Z) : bool := y =? 0.
Definition isBottomRow (w h x y : Z) : bool := y =? h - 1.
Definition isLeftCol (w h x y : Z) : bool := x =? 0.
Definition isRightCol (w h x y : Z) : bool := x =? w - 1.

(** d8_flowdirs.hpp:63-72: one iteration of the neighbour loop; the state is (minimum_elevation, flowdir) *)
Definition fd_step (elev : grid Z) (w h x y : Z) (n : nat) (st : Z * Z) : res (Z * Z) :=
  let '(m, fd) := st in
  do v <- gat w h elev (x + dx D8 n) (y + dy D8 n);
  if (v <? m) || ((v =? m) && (fd >? 0) && Z.even fd && Nat.odd n)
  then Ok (v, Z.of_nat n) else Ok (m, fd).

(** d8_flowdirs.hpp:33-75 d8_FlowDir *)
Definition d8_FlowDir (elev : grid Z) (w h x y : Z) : res Z :=
  do m0 <- gat w h elev x y;
  let loop := do st <- forM (dirs D8) (fd_step elev w h x y) (m0, NO_FLOW); Ok (snd st) in
  if isEdgeCell w h x y then
    if isTopLeft w h x y then Ok 2
    else if isBottomLeft w h x y then Ok 8
    else if isTopRight w h x y then Ok 4
    else if isBottomRight w h x y then Ok 6
    else if isLeftCol w h x y then Ok 1
    else if isRightCol w h x y then Ok 5
    else if isTopRow w h x y then Ok 3
    else if isBottomRow w h x y then Ok 7
    else loop
  else loop.

(** d8_flowdirs.hpp:98-124 d8_flow_directions. The loop over rows is an OpenMP parallel for; an iteration
    reads only the DEM and writes only its own cell, so an execution is given by the order [order] in
    which the cells happen to be written. *)
Definition d8_flow_directions (elev : grid Z) (nd w h : Z) (order : list (Z * Z)) : res (grid Z) :=
  forM order (fun p fd =>
    let '(x, y) := p in
    do e <- gat w h elev x y;
    if e =? nd then Ok (gset fd x y FLOWDIR_NO_DATA)
    else do d <- d8_FlowDir elev w h x y; Ok (gset fd x y d)) (fun _ _ => NO_FLOW).

(** ** d8_flow_accum *)
Definition cellt : Type := Z * Z.
Definition ceqb (a b : cellt) : bool := (fst a =? fst b) && (snd a =? snd b).
(** dependency, area and the queue of sources; rasters indexed by (x,y) pairs *)
Notation astate := (@kst cellt Z).
Definition cset {B} : (cellt -> B) -> cellt -> B -> (cellt -> B) := kupd ceqb.

(** d8x[n], d8y[n] for a value [n] taken from a raster: undefined outside the tables *)
Definition off8 (n : Z) : res (Z * Z) := do a <- rd d8x n; do b <- rd d8y n; Ok (a, b).

(** rows top to bottom, within a row left to right *)
Definition scan (w h : Z) : list cellt :=
  flat_map (fun y => map (fun x => (x, y)) (zrange 0 (Z.to_nat w))) (zrange 0 (Z.to_nat h)).

(** d8_methods.hpp:70-93, one iteration of the dependency loop *)
Definition dep_step (fd : grid Z) (fnd w h : Z) (c : cellt) (s : astate) : res astate :=
  let '(x, y) := c in
  do n <- gat w h fd x y;
  if n =? fnd then Ok (mkK (k_dep s) (cset (k_val s) c (-1)) (k_q s))
  else if n =? NO_FLOW then Ok s
  else do o <- off8 n;
    let nx := x + fst o in
    let ny := y + snd o in
    if negb (inGrid w h nx ny) then Ok s
    else Ok (mkK (cset (k_dep s) (nx, ny) (k_dep s (nx, ny) + 1)) (k_val s) (k_q s)).

(** d8_methods.hpp:104-128, the body of the while loop for the cell [c] taken off the queue *)
Definition accum_step (fd : grid Z) (fnd w h : Z) (c : cellt) (s : astate) : res astate :=
  let '(x, y) := c in
  let s1 := mkK (k_dep s) (cset (k_val s) c (k_val s c + 1)) (k_q s) in
  do n <- gat w h fd x y;
  if n =? NO_FLOW then Ok s1
  else do o <- off8 n;
    let nx := x + fst o in
    let ny := y + snd o in
    if negb (inGrid w h nx ny) then Ok s1
    else do m <- gat w h fd nx ny;
      if m =? fnd then Ok s1
      else let area' := cset (k_val s1) (nx, ny) (k_val s1 (nx, ny) + k_val s1 c) in
           let dep' := cset (k_dep s1) (nx, ny) (k_dep s1 (nx, ny) - 1) in
           Ok (mkK dep' area' (if dep' (nx, ny) =? 0 then k_q s1 ++ [(nx, ny)] else k_q s1)).

(** [while(queue not empty)] with a body that may fail; [None] = not finished within [fuel] iterations *)
Fixpoint whileR {S C : Type} (pop : nat -> S -> option (C * S)) (body : C -> S -> res S)
    (fuel : nat) (i : nat) (s : S) : option (res S) :=
  match pop i s with
  | None => Some (Ok s)
  | Some (c, s1) =>
      match fuel with
      | O => None
      | Datatypes.S f =>
          match body c s1 with
          | Ok s2 => whileR pop body f (Datatypes.S i) s2
          | Thrown => Some Thrown
          | Undef => Some Undef
          end
      end
  end.

(** d8_methods.hpp:95-128: locate the sources, then run the work queue *)
Definition accum_rest (fd : grid Z) (fnd w h : Z) (s : astate) : option (res (cellt -> Z)) :=
  let src := filter (fun c => (k_dep s c =? 0) && negb (fd (fst c) (snd c) =? fnd)) (scan w h) in
  match whileR kpop (accum_step fd fnd w h) (Z.to_nat w * Z.to_nat h) 0 (mkK (k_dep s) (k_val s) src) with
  | Some (Ok s') => Some (Ok (k_val s'))
  | Some Thrown => Some Thrown
  | Some Undef => Some Undef
  | None => None
  end.

(** d8_methods.hpp:47-136 d8_flow_accum(flowdirs, area). [order] is the order in which the iterations
    of the parallel dependency loop take effect, each iteration atomically (the non-atomic increments
    are modelled below). The result is the area raster. *)
Definition d8_flow_accum (fd : grid Z) (fnd w h : Z) (order : list cellt) : option (res (cellt -> Z)) :=
  match forM order (dep_step fd fnd w h) (mkK (fun _ => 0) (fun _ => 0) []) with
  | Ok s => accum_rest fd fnd w h s
  | Thrown => Some Thrown
  | Undef => Some Undef
  end.

(** ** The dependency loop at the granularity of memory accesses
    d8_methods.hpp:68-93: [#pragma omp parallel for] over rows with [++dependency(nx,ny)], which is a
    load of dependency(nx,ny) into a register followed by a store, with no synchronisation. Cells of
    one row are handled in order by one thread; rows may run in different threads. *)
Inductive access := Ld (c : cellt) | St (c : cellt).
Definition acell (a : access) : cellt := match a with Ld c => c | St c => c end.

(** the cell whose dependency [c] increments: d8_methods.hpp:78-91 (codes 0..8 assumed) *)
Definition dep_target (fd : grid Z) (fnd w h : Z) (c : cellt) : option cellt :=
  let n := fd (fst c) (snd c) in
  if n =? fnd then None else if n =? NO_FLOW then None
  else let t := (fst c + dx D8 (Z.to_nat n), snd c + dy D8 (Z.to_nat n)) in
       if inGrid w h (fst t) (snd t) then Some t else None.

(** what the thread handling row [y] does to the dependency raster *)
Definition row_accesses (fd : grid Z) (fnd w h y : Z) : list access :=
  flat_map (fun x => match dep_target fd fnd w h (x, y) with Some _ => [Ld (x, y); St (x, y)] | None => [] end)
           (zrange 0 (Z.to_nat w)).

(** an interleaving of the rows' accesses *)
Definition interleaving (fd : grid Z) (fnd w h : Z) (sched : list access) : Prop :=
  (forall a, In a sched -> 0 <= snd (acell a) < h) /\
  forall y, 0 <= y < h -> filter (fun a => snd (acell a) =? y) sched = row_accesses fd fnd w h y.

(** effect of one access on the dependency raster and the registers *)
Definition access_step (fd : grid Z) (fnd w h : Z) (st : (cellt -> Z) * (cellt -> Z)) (a : access) :
    (cellt -> Z) * (cellt -> Z) :=
  let '(dep, reg) := st in
  match a with
  | Ld c => match dep_target fd fnd w h c with Some t => (dep, cset reg c (dep t)) | None => st end
  | St c => match dep_target fd fnd w h c with Some t => (cset dep t (reg c + 1), reg) | None => st end
  end.

(** d8_flow_accum when the dependency loop runs under the interleaving [sched]. NoData cells get area
    -1 from their own iteration (d8_methods.hpp:72-75). *)
Definition d8_flow_accum_par (fd : grid Z) (fnd w h : Z) (sched : list access) : option (res (cellt -> Z)) :=
  let dep := fst (fold_left (access_step fd fnd w h) sched (fun _ => 0, fun _ => 0)) in
  accum_rest fd fnd w h (mkK dep (fun c => if inGrid w h (fst c) (snd c) && (fd (fst c) (snd c) =? fnd) then -1 else 0) []).
