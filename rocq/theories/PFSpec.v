(** Specifications used by the Priority-Flood properties, independent of the algorithms. *)
From Coq Require Import ZArith List Lia.
From Verif Require Import Base RasterSpec.
Open Scope Z_scope.

(** A path of cells that all carry label [k], along which [lv] never increases, from (x,y) to (sx,sy). *)
Inductive label_path (t : topology) (w h : Z) (lab lv : grid Z) (k sx sy : Z) : Z -> Z -> Prop :=
| lp_here : in_raster w h sx sy -> lab sx sy = k -> label_path t w h lab lv k sx sy sx sy
| lp_step x y x' y' : in_raster w h x y -> lab x y = k -> adjacent t x y x' y' -> lv x' y' <= lv x y ->
    label_path t w h lab lv k sx sy x' y' -> label_path t w h lab lv k sx sy x y.

(** A cell that filling would raise. *)
Definition sunk (t : topology) (w h : Z) (e : grid Z) (x y : Z) : Prop :=
  exists L, drainage_level t w h e x y L /\ e x y < L.

(** Two sunk cells in the same pool: connected through sunk cells. *)
Inductive same_pool (t : topology) (w h : Z) (e : grid Z) (x y : Z) : Z -> Z -> Prop :=
| sp_here : sunk t w h e x y -> same_pool t w h e x y x y
| sp_step x' y' x'' y'' : same_pool t w h e x y x' y' -> adjacent t x' y' x'' y'' -> sunk t w h e x'' y'' ->
    same_pool t w h e x y x'' y''.

(** D8 direction codes as documented (constants.hpp:27-36): 1 = left, then clockwise. *)
Definition code_dx (d : Z) : Z := if (d =? 1) || (d =? 2) || (d =? 8) then -1
                                  else if (d =? 4) || (d =? 5) || (d =? 6) then 1 else 0.
Definition code_dy (d : Z) : Z := if (d =? 2) || (d =? 3) || (d =? 4) then -1
                                  else if (d =? 6) || (d =? 7) || (d =? 8) then 1 else 0.

(** Following the direction codes [fd] from (x,y) one leaves the raster or stops in a NoData cell after
    finitely many steps, without ever standing on terrain higher than [L]. *)
Inductive flow_exits (w h : Z) (e fd : grid Z) (noData L : Z) : Z -> Z -> Prop :=
| fe_off x y : in_raster w h x y -> e x y <= L -> 1 <= fd x y <= 8 ->
    ~ in_raster w h (x + code_dx (fd x y)) (y + code_dy (fd x y)) -> flow_exits w h e fd noData L x y
| fe_nodata x y : in_raster w h x y -> e x y <= L -> e x y = noData -> fd x y = 0 -> flow_exits w h e fd noData L x y
| fe_step x y : in_raster w h x y -> e x y <= L -> 1 <= fd x y <= 8 ->
    flow_exits w h e fd noData L (x + code_dx (fd x y)) (y + code_dy (fd x y)) -> flow_exits w h e fd noData L x y.

(** A path of strictly decreasing elevation to the raster edge or to a NoData cell. *)
Inductive strictly_drains (t : topology) (w h : Z) (e : grid Z) (noData : Z) : Z -> Z -> Prop :=
| sd_edge x y : on_edge w h x y -> strictly_drains t w h e noData x y
| sd_nodata x y : in_raster w h x y -> e x y = noData -> strictly_drains t w h e noData x y
| sd_step x y x' y' : in_raster w h x y -> adjacent t x y x' y' -> e x' y' < e x y ->
    strictly_drains t w h e noData x' y' -> strictly_drains t w h e noData x y.

(** A set of sunk cells [b] shares one spill cell: a cell that is not itself sunk, at the level of every
    cell of [b], and next to every pool of [b]. *)
Definition shares_spill (t : topology) (w h : Z) (e : grid Z) (b : list (Z * Z)) : Prop :=
  exists sx sy, in_raster w h sx sy /\ drainage_level t w h e sx sy (e sx sy) /\
    forall x y, In (x, y) b -> drainage_level t w h e x y (e sx sy) /\
      exists x' y', same_pool t w h e x y x' y' /\ adjacent t x' y' sx sy.
