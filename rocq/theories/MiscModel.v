(** Models of misc/misc_methods.hpp (BucketFill, BucketFillFromEdges, Perimeter), misc/conversion.hpp,
    apps/rd_taudem_d8_to_richdem_d8.cpp and apps/rd_fill_spill_merge.cpp. The surface area is in AreaModel.v. *)
From Coq Require Import ZArith List Lia Bool QArith QArith.Qcanon.
From Verif Require Import Base Res DHModel FSMModel.
Import ListNotations.
Open Scope Z_scope.

(** ** misc_methods.hpp:258-298 BucketFill
    Cells are named by their flat index y*width+x (Array2D::xyToI, iToxy, Array2D.hpp:566-590; rasters of equal
    dimensions of fewer than 2^32 cells). [seeds]: the vector, its back first. Access with an index outside the raster is undefined. Values
    are compared for equality only. [None]: out of fuel. *)
Definition neighbours_of (t : topology) (w h : Z) (chk : grid Z) (cv sv : Z) (set : grid Z) (x y : Z) (seeds : list Z) : list Z :=
  fold_left (fun q n =>                                              (* lines 288-296 *)
    let x' := x + dx t n in let y' := y + dy t n in
    if inGrid w h x' y' then
      if (chk x' y' =? cv) && negb (set x' y' =? sv) then (y' * w + x') :: q else q
    else q) (dirs t) seeds.
Fixpoint BucketFill (t : topology) (w h : Z) (chk : grid Z) (cv sv : Z) (fuel : nat) (seeds : list Z) (set : grid Z) : option (res (grid Z)) :=
  match seeds with
  | [] => Some (Ok set)
  | c :: q =>                                                        (* lines 275-276 *)
      match fuel with
      | O => None
      | S f =>
          if (0 <=? c) && (c <? w * h) then
            let x := c mod w in let y := c / w in                    (* line 285, iToxy *)
            if negb (chk x y =? cv) || (set x y =? sv) then BucketFill t w h chk cv sv f q set   (* lines 279-281 *)
            else let set' := gset set x y sv in                      (* line 283 *)
                 BucketFill t w h chk cv sv f (neighbours_of t w h chk cv sv set' x y q) set'
          else Some Undef
      end
  end.
(** misc_methods.hpp:316-334 BucketFillFromEdges. The vector's back is the last seed pushed. *)
Definition edge_seeds (w h : Z) : list Z :=
  rev (flat_map (fun y => [y * w + 0; y * w + (w - 1)]) (zrange 0 (Z.to_nat h)) ++
       flat_map (fun x => [0 * w + x; (h - 1) * w + x]) (zrange 0 (Z.to_nat w))).
Definition BucketFillFromEdges (t : topology) (w h : Z) (chk : grid Z) (cv sv : Z) (fuel : nat) (set : grid Z) : option (res (grid Z)) :=
  BucketFill t w h chk cv sv fuel (edge_seeds w h) set.

(** ** misc_methods.hpp:188-240 Perimeter
    Each thread counts over its rows ([parts]: the rows of each thread), the counts are added up at the end
    (OpenMP reduction); unsigned ints, i.e. modulo 2^32. *)
Definition u32 (z : Z) : Z := z mod 2 ^ 32.
Record perim := mkPerim { p_cells : Z; p_horz : Z; p_vert : Z }.
Definition add_perim (a b : perim) : perim :=
  mkPerim (u32 (p_cells a + p_cells b)) (u32 (p_horz a + p_horz b)) (u32 (p_vert a + p_vert b)).
Fixpoint touches_outside (w h x y : Z) (ns : list nat) : bool :=    (* lines 211-217: the loop breaks at the first hit *)
  match ns with [] => false | n :: ns' => if negb (inGrid w h (x + dx D8 n) (y + dy D8 n)) then true else touches_outside w h x y ns' end.
Definition perim_cell (square : bool) (w h : Z) (arr : grid Z) (nd : Z) (y : Z) (s : perim) (x : Z) : perim :=
  if arr x y =? nd then s else                                       (* lines 208-209 *)
  if negb square then
    if touches_outside w h x y (dirs D8) then mkPerim (u32 (p_cells s + 1)) (p_horz s) (p_vert s) else s
  else fold_left (fun s n =>                                         (* lines 219-226 *)
    let x' := x + dx D8 n in let y' := y + dy D8 n in
    if negb (inGrid w h x' y') || (arr x' y' =? nd) then
      if dx D8 n =? 0 then mkPerim (p_cells s) (u32 (p_horz s + 1)) (p_vert s)
      else if dy D8 n =? 0 then mkPerim (p_cells s) (p_horz s) (u32 (p_vert s + 1))
      else s
    else s) (dirs D8) s.
Definition perim_row (square : bool) (w h : Z) (arr : grid Z) (nd : Z) (s : perim) (y : Z) : perim :=
  fold_left (perim_cell square w h arr nd y) (zrange 0 (Z.to_nat w)) s.
Definition Perimeter (square : bool) (w h : Z) (arr : grid Z) (nd : Z) (lx ly : Qc) (parts : list (list Z)) : Qc :=
  let zero := mkPerim 0 0 0 in
  let s := fold_left add_perim (map (fun rows => fold_left (perim_row square w h arr nd) rows zero) parts) zero in
  if square then (Q2Qc (inject_Z (p_horz s)) * lx + Q2Qc (inject_Z (p_vert s)) * ly)%Qc   (* lines 234-237 *)
  else Q2Qc (inject_Z (p_cells s)).

(** ** misc/conversion.hpp:11-32 convert_arc_flowdirs_to_richdem_d8
    The output raster keeps what it held in cells not reached before the exception; we return the output only. *)
Definition arc_code (a : Z) : res Z :=
  match a with
  | 0 => Ok 0 | 1 => Ok 5 | 2 => Ok 6 | 4 => Ok 7 | 8 => Ok 8 | 16 => Ok 1 | 32 => Ok 2 | 64 => Ok 3 | 128 => Ok 4
  | _ => Thrown
  end.
(** the cells in the order of their flat index *)
Definition scan_order (w h : Z) : list (Z * Z) := flat_map (fun y => map (fun x => (x, y)) (zrange 0 (Z.to_nat w))) (zrange 0 (Z.to_nat h)).
Definition convert_arc (w h : Z) (arc rd0 : grid Z) : res (grid Z) :=
  forM (scan_order w h) (fun c g => do v <- arc_code (arc (fst c) (snd c)); Ok (gset g (fst c) (snd c) v)) rd0.
(** apps/rd_taudem_d8_to_richdem_d8.cpp:9-22 (values of an integer raster) *)
Definition taudem_table : list Z := [0;5;4;3;2;1;8;7;6].
Definition convert_taudem (w h nd : Z) (inp : grid Z) : res (grid Z) :=
  forM (scan_order w h) (fun c g =>
    let v := g (fst c) (snd c) in
    if v =? nd then Ok g
    else if (0 <=? v) && (v <=? 8) then do r <- rd taudem_table v; Ok (gset g (fst c) (snd c) r)
    else Thrown) inp.

(** ** apps/rd_fill_spill_merge.cpp:48-103
    [water]: the surface water on input; result: the surface water and the hydrologic surface height that are saved.
    [sorted], [parts], [order], [tbs]: the orders in which std::sort leaves equal outlets and in which the threads work
    (see DHModel, FSMModel); the tie order [fun _ => 0] is the radix heap's, the most recent entry first. Lines 68-75: the loop body depends on its own cell only. Line 101 leaves NoData cells. *)
Definition label0 : grid Z := fun _ _ => NO_DEP.
Definition fsm_main (w h : Z) (topo : grid Z) (nd ocean_level : Z) (sorted : list outlet -> list outlet) (parts : list (list (Z * Z)))
    (order : list (Z * Z)) (tbs : Z -> nat -> nat) (fuel : nat) (water : Z * Z -> Qc) : option (res ((Z * Z -> Qc) * (Z * Z -> Qc))) :=
  then_ (BucketFillFromEdges D8 w h topo ocean_level OCEAN fuel label0) (fun lab =>
  let sea c := (topo (fst c) (snd c) =? nd) || (lab (fst c) (snd c) =? OCEAN) in
  let lab0 : grid Z := fun x y => if sea (x, y) then OCEAN else lab x y in
  let wtd c := if sea c then 0%Qc else water c in
  then_ (GetDepressionHierarchy D8 w h topo (fun _ => 0%nat) sorted parts lab0 (fun _ _ => 0)) (fun r =>
  let '(lab1, fd, deps) := r in
  then_ (FillSpillMerge w h topo lab1 fd deps order tbs (repeat 0%Qc (length deps)) wtd) (fun r2 =>
  let wtd' := fst r2 in
  Some (Ok (wtd', fun c => if topo (fst c) (snd c) =? nd then wtd' c else (wtd' c + Q2Qc (inject_Z (topo (fst c) (snd c))))%Qc))))).
