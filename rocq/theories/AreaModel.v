(** Model of misc/misc_methods.hpp:41-165 dem_surface_area over the real numbers (the code computes with doubles). *)
From Coq Require Import ZArith Reals List Bool.
From Verif Require Import Base Res.
Import ListNotations.
Open Scope R_scope.

(** line 50 *)
Definition euc_dist (a b : R) : R := sqrt (a ^ 2 + b ^ 2).
(** constants.hpp:47 n8_diag *)
Definition n8_diag : list bool := [false; false; true; false; true; false; true; false; true].
Definition diag (n : nat) : bool := nth n n8_diag false.

Section Area.
  (** [e]: elevations; [nodata]: which cells hold NoData; [gt1], [gt5]: geotransform[1], geotransform[5] *)
  Variables (w h : Z) (e : grid R) (nodata : grid bool) (zscale gt1 gt5 : R).
  (** Array2D.hpp:1378-1399 *)
  Definition cell_area : R := Rabs (gt1 * gt5).
  Definition xdist : R := Rabs gt1.
  Definition ydist : R := Rabs gt5.
  Definition planar_diag_dist : R := euc_dist xdist ydist.
  (** lines 117-130: the elevation of neighbour [n], that of the cell itself if there is no data *)
  Definition nb_elev (x y : Z) (n : nat) : R :=
    if inGrid w h (x + dx D8 n) (y + dy D8 n) && negb (nodata (x + dx D8 n)%Z (y + dy D8 n)%Z)
    then zscale * e (x + dx D8 n)%Z (y + dy D8 n)%Z else zscale * e x y.
  (** lines 92-152 *)
  Definition tri_area (x y : Z) (n : nat) : R :=
    let nn := if Nat.eqb (n + 1) 9 then 1%nat else (n + 1)%nat in
    let '(dn, ndn) := if negb (diag n) then (nn, n) else (n, nn) in
    let my_elev := zscale * e x y in
    let dn_elev := nb_elev x y dn in
    let ndn_elev := nb_elev x y ndn in
    let planar_dist_dn := planar_diag_dist in
    let planar_dist_ndn := if (dy D8 ndn =? 0)%Z then xdist else ydist in
    let planar_dist_bn := if (dy D8 ndn =? 0)%Z then ydist else xdist in
    let elev_diff_dn := dn_elev - my_elev in
    let elev_diff_ndn := ndn_elev - my_elev in
    let elev_diff_bn := ndn_elev - dn_elev in
    let surf_dist_dn := euc_dist planar_dist_dn elev_diff_dn / 2 in
    let surf_dist_ndn := euc_dist planar_dist_ndn elev_diff_ndn / 2 in
    let surf_dist_bn := euc_dist planar_dist_bn elev_diff_bn / 2 in
    let s := (surf_dist_dn + surf_dist_ndn + surf_dist_bn) / 2 in
    sqrt (s * (s - surf_dist_dn) * (s - surf_dist_ndn) * (s - surf_dist_bn)).
  Definition fudge_factor : R := / 10000.                           (* line 56 *)
  (** lines 82-161: one cell *)
  Definition area_cell (y x : Z) (area : R) : res R :=
    if nodata x y then Ok area else
    let a := fold_left (fun a n => a + tri_area x y n) (dirs D8) 0 in
    if Rlt_dec a cell_area then
      if Rge_dec (a + fudge_factor) cell_area then Ok (area + cell_area) else Thrown
    else Ok (area + a).
  (** lines 77-163: each thread sums over its rows, the sums are added up. An exception inside the parallel region counts as thrown. *)
  Definition area_rows (rows : list Z) : res R :=
    forM rows (fun y area => forM (zrange 0 (Z.to_nat w)) (area_cell y) area) 0.
  Definition total_area (parts : list (list Z)) : res R :=
    forM parts (fun rows area => do a <- area_rows rows; Ok (area + a)) 0.
  (** lines 165-172. [ndc]: numDataCells() *)
  Definition dem_surface_area (parts : list (list Z)) (ndc : Z) : res R :=
    do area <- total_area parts;
    let planar := IZR ndc * cell_area in
    if Rlt_dec area planar then Ok planar else Ok area.
End Area.
