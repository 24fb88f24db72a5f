(** Models of apps/rd_d8_flowdirs.cpp, apps/rd_flood_for_flowdirs.cpp and apps/rd_loop_check.cpp. GDAL
    input and output is left out: a program is a function from the raster read to the raster written. *)
From Coq Require Import ZArith List Lia Bool.
From Verif Require Import Base Res FlowModel FlatsModel PFModel.
Open Scope Z_scope.

(** apps/rd_d8_flowdirs.cpp:12-25 PerformAlgorithm: the filled elevations and the directions. [tb] breaks
    ties in the priority queue, [o1] and [o2] are the orders of the parallel loops. *)
Definition rd_d8_flowdirs (tb : nat -> nat) (top : Z) (e : grid Z) (nd w h : Z) (o1 o2 : list cellt) : option (res (grid Z * grid Z)) :=
  match PriorityFlood_Barnes2014 tb D8 w h e with
  | Some filled => barnes_flat_resolution_d8 top filled nd w h false o1 o2 []
  | None => None
  end.

(** Array2D.hpp:715-719 flipVert, as proved of its memory operations in C12_flipVert *)
Definition flip_rows {A} (h : Z) (g : grid A) : grid A := fun x y => g x (h - 1 - y).

(** apps/rd_flood_for_flowdirs.cpp:11-58 PerformAlgorithm. [eastless]: geotransform[1]<0; [southup]:
    geotransform[5]>0; flowdirs.resize(elevations) copies the geotransform (Array2D.hpp:874-878), so both
    pairs of flips are taken or not taken together. flipHorz is undefined for every raster with a cell
    (C12_flipHorz_out_of_bounds_refuted). *)
Definition rd_flood_for_flowdirs (tb : nat -> nat) (top : Z) (e : grid Z) (nd w h : Z) (eastless southup : bool)
    (o1 o2 : list cellt) : option (res (grid Z)) :=
  if eastless then Some Undef
  else
    match rd_d8_flowdirs tb top (if southup then flip_rows h e else e) nd w h o1 o2 with
    | Some (Ok (_, fd)) => Some (Ok (if southup then flip_rows h fd else fd))
    | Some Thrown => Some Thrown
    | Some Undef => Some Undef
    | None => None
    end.

(** apps/rd_loop_check.cpp:8-44: what FollowPath prints. *)
Inductive printed := Line (x y n : Z) | Blank.

Definition u64 (z : Z) : Z := z mod 2 ^ 64.
(** rd_loop_check.cpp:22-40: [k] iterations are left of [maxlen]; path_len is maxlen - k + 1 inside the body. The result
    says whether the loop ran to its end. Reading d8x[n] for n outside 0..8 is undefined. *)
Fixpoint follow (fd : grid Z) (fnd w h maxlen : Z) (k : nat) (x y : Z) : res (list printed * bool) :=
  match k with
  | O => Ok ([], true)
  | S k' =>
      let path_len := maxlen - Z.of_nat k' in
      let n := fd x y in
      let out := if u64 (maxlen - 10) <? path_len then [Line x y n] else [] in
      if (fd x y =? fnd) || (n =? NO_FLOW) then Ok (out, false)
      else if (n <? 0) || (8 <? n) then Undef
      else
        let nx := x + nth (Z.to_nat n) d8x 0 in let ny := y + nth (Z.to_nat n) d8y 0 in
        if negb (inGrid w h nx ny) then Ok (out, false)
        else do r <- follow fd fnd w h maxlen k' nx ny; Ok (out ++ fst r, snd r)
  end.
(** rd_loop_check.cpp:8-44 FollowPath: max_path_length is the width (line 19 overwrites line 18) *)
Definition FollowPath (fd : grid Z) (fnd w h x0 y0 : Z) : res (list printed) :=
  do r <- follow fd fnd w h w (Z.to_nat w) x0 y0;
  Ok (fst r ++ (if snd r && (u64 (w - 10) <? w + 1) then [Blank] else [])).
(** rd_loop_check.cpp:48-57 PerformAlgorithm *)
Definition rd_loop_check (fd : grid Z) (fnd w h : Z) : res (list printed) :=
  forM (list_prod (zrange 0 (Z.to_nat h)) (zrange 0 (Z.to_nat w)))
    (fun p out => do o <- FollowPath fd fnd w h (snd p) (fst p); Ok (out ++ o)) [].
