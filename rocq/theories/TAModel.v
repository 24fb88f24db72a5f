(** Model of methods/terrain_attributes.hpp over the real numbers (the code computes with doubles and stores floats). *)
From Coq Require Import ZArith Reals List Bool.
From Verif Require Import Base.
Import ListNotations.
Open Scope R_scope.

(** std::atan2. atan2(0,0): the code only calls it with a zero first argument that is +0 (difference of equal numbers) and a
    zero second argument that is -0 (negated difference of equal numbers), for which IEEE 754 prescribes pi. *)
Definition atan2 (y x : R) : R :=
  if Rlt_dec 0 x then atan (y / x)
  else if Rlt_dec x 0 then if Rle_dec 0 y then atan (y / x) + PI else atan (y / x) - PI
  else if Rlt_dec 0 y then PI / 2 else if Rlt_dec y 0 then - (PI / 2) else PI.

Section Raster.
  (** [e]: elevations; [nodata]: which cells hold NoData; [gt1], [gt5]: geotransform[1], geotransform[5] *)
  Variables (w h : Z) (e : grid R) (nodata : grid bool) (zscale gt1 gt5 : R).
  (** Array2D.hpp:1378-1389 *)
  Definition lengthX : R := Rabs gt1.
  Definition lengthY : R := Rabs gt5.

  (** lines 152-155, 192-221 TerrainSetup *)
  Record vars := mkV { va : R; vb : R; vc : R; vd : R; ve : R; vf : R; vg : R; vh : R; vi : R }.
  Definition look (x y x' y' : Z) : R := if inGrid w h x' y' && negb (nodata x' y') then e x' y' else e x y.
  Definition TerrainSetup (x y : Z) : vars :=
    mkV (zscale * look x y (x - 1) (y - 1)) (zscale * look x y x (y - 1)) (zscale * look x y (x + 1) (y - 1))
        (zscale * look x y (x - 1) y) (zscale * e x y) (zscale * look x y (x + 1) y)
        (zscale * look x y (x - 1) (y + 1)) (zscale * look x y x (y + 1)) (zscale * look x y (x + 1) (y + 1)).

  (** lines 157-160, 223-243 TerrainCurvatureSetup *)
  Record curves := mkC { cL : R; cD : R; cE : R; cF : R; cG : R; cH : R }.
  Definition TerrainCurvatureSetup (x y : Z) : curves :=
    let t := TerrainSetup x y in
    let L := lengthX in
    mkC L (((vd t + vf t) / 2 - ve t) / L / L) (((vb t + vh t) / 2 - ve t) / L / L) ((- va t + vc t + vg t - vi t) / 4 / L / L)
        ((- vd t + vf t) / 2 / L) ((vb t - vh t) / 2 / L).

  (** lines 253-254 = 270-271 *)
  Definition dzdx (t : vars) : R := ((vc t + 2 * vf t + vi t) - (va t + 2 * vd t + vg t)) / 8 / lengthX.
  Definition dzdy (t : vars) : R := ((vg t + 2 * vh t + vi t) - (va t + 2 * vb t + vc t)) / 8 / lengthY.
  (** lines 248-262 *)
  Definition Terrain_Aspect (x y : Z) : R :=
    let t := TerrainSetup x y in
    let the_aspect := 180 / PI * atan2 (dzdy t) (- dzdx t) in
    if Rlt_dec the_aspect 0 then 90 - the_aspect
    else if Rgt_dec the_aspect 90 then 360 - the_aspect + 90
    else 90 - the_aspect.
  (** lines 266-276 *)
  Definition Terrain_Slope_RiseRun (x y : Z) : R :=
    let t := TerrainSetup x y in sqrt (dzdx t * dzdx t + dzdy t * dzdy t).
  (** lines 278-283 *)
  Definition Terrain_Curvature (x y : Z) : R := let p := TerrainCurvatureSetup x y in -2 * (cD p + cE p) * 100.
  (** lines 285-293 *)
  Definition Terrain_Planform_Curvature (x y : Z) : R :=
    let p := TerrainCurvatureSetup x y in
    if Req_EM_T (cG p) 0 then if Req_EM_T (cH p) 0 then 0
      else -2 * (cD p * cH p * cH p + cE p * cG p * cG p - cF p * cG p * cH p) / (cG p * cG p + cH p * cH p) * 100
    else -2 * (cD p * cH p * cH p + cE p * cG p * cG p - cF p * cG p * cH p) / (cG p * cG p + cH p * cH p) * 100.
  (** lines 295-303 *)
  Definition Terrain_Profile_Curvature (x y : Z) : R :=
    let p := TerrainCurvatureSetup x y in
    if Req_EM_T (cG p) 0 then if Req_EM_T (cH p) 0 then 0
      else 2 * (cD p * cG p * cG p + cE p * cH p * cH p + cF p * cG p * cH p) / (cG p * cG p + cH p * cH p) * 100
    else 2 * (cD p * cG p * cG p + cE p * cH p * cH p + cF p * cG p * cH p) / (cG p * cG p + cH p * cH p) * 100.
  (** lines 305-318 *)
  Definition Terrain_Slope_Percent (x y : Z) : R := Terrain_Slope_RiseRun x y * 100.
  Definition Terrain_Slope_Radian (x y : Z) : R := atan (Terrain_Slope_RiseRun x y).
  Definition Terrain_Slope_Degree (x y : Z) : R := atan (Terrain_Slope_RiseRun x y) * 180 / PI.

  (** lines 336-356 TerrainProcessor. [parts]: the rows of each thread, thread after thread (no cell is written twice and the
      elevations are not written, so that every interleaving has the effect of one such order); [ond]: the NoData value of the
      output, which resize (Array2D.hpp:873-878) does not change; resize clears the output. *)
  Definition TerrainProcessor (func : Z -> Z -> R) (ond : R) (parts : list (list Z)) : grid R :=
    fold_left (fun out rows => fold_left (fun out y => fold_left (fun out x =>
      gset out x y (if nodata x y then ond else func x y)) (zrange 0 (Z.to_nat w)) out) rows out) parts (fun _ _ => 0).
  (** lines 371-524 *)
  Definition TA_slope_riserun := TerrainProcessor Terrain_Slope_RiseRun.
  Definition TA_slope_percentage := TerrainProcessor Terrain_Slope_Percent.
  Definition TA_slope_degrees := TerrainProcessor Terrain_Slope_Degree.
  Definition TA_slope_radians := TerrainProcessor Terrain_Slope_Radian.
  Definition TA_aspect := TerrainProcessor Terrain_Aspect.
  Definition TA_curvature := TerrainProcessor Terrain_Curvature.
  Definition TA_planform_curvature := TerrainProcessor Terrain_Planform_Curvature.
  Definition TA_profile_curvature := TerrainProcessor Terrain_Profile_Curvature.
End Raster.

(** lines 29-59 TA_SPI and 83-112 TA_CTI. [area]: flow_accumulation.getCellArea(); [None]: an exception (unequal dimensions). The
    loops write every cell once, independently (collapse(2)): [order] lists the cells in the order they are done. *)
Definition index_loop (w h w' h' : Z) (acc slope : grid R) (and_ snd_ : R) (f : R -> R -> R) (order : list (Z * Z)) : option (grid R) :=
  if negb (w =? w')%Z || negb (h =? h')%Z then None
  else Some (fold_left (fun out c =>
    gset out (fst c) (snd c)
      (if Req_EM_T (acc (fst c) (snd c)) and_ then -1
       else if Req_EM_T (slope (fst c) (snd c)) snd_ then -1
       else f (acc (fst c) (snd c)) (slope (fst c) (snd c)))) order (fun _ _ => 0)).
Definition TA_SPI (w h w' h' : Z) (acc slope : grid R) (and_ snd_ area : R) (order : list (Z * Z)) : option (grid R) :=
  index_loop w h w' h' acc slope and_ snd_ (fun a s => ln (a / area * (s + / 1000))) order.
Definition TA_CTI (w h w' h' : Z) (acc slope : grid R) (and_ snd_ area : R) (order : list (Z * Z)) : option (grid R) :=
  index_loop w h w' h' acc slope and_ snd_ (fun a s => ln (a / area / (s + / 1000))) order.
