(** Specification of depression breaching. *)
From Coq Require Import ZArith List.
From Verif Require Import Base RasterSpec.
Open Scope Z_scope.

(** Cells with data, and those of them where water leaves: on the edge of the raster or next to a NoData cell. *)
Definition is_data (w h nd : Z) (e : grid Z) (x y : Z) : Prop := in_raster w h x y /\ e x y <> nd.
Definition is_outlet (t : topology) (w h nd : Z) (e : grid Z) (x y : Z) : Prop :=
  is_data w h nd e x y /\ (on_edge w h x y \/ exists x' y', in_raster w h x' y' /\ adjacent t x y x' y' /\ e x' y' = nd).

(** Water on surface [D] runs from the cell over data cells, never uphill, to an outlet. *)
Inductive runs_off (t : topology) (w h nd : Z) (e D : grid Z) : Z -> Z -> Prop :=
| ro_out x y : is_outlet t w h nd e x y -> runs_off t w h nd e D x y
| ro_step x y x' y' : is_data w h nd e x y -> adjacent t x y x' y' -> D x' y' <= D x y -> runs_off t w h nd e D x' y' -> runs_off t w h nd e D x y.
(** ... and downhill in every step *)
Inductive runs_down (t : topology) (w h nd : Z) (e D : grid Z) : Z -> Z -> Prop :=
| rd_out x y : is_outlet t w h nd e x y -> runs_down t w h nd e D x y
| rd_step x y x' y' : is_data w h nd e x y -> adjacent t x y x' y' -> D x' y' < D x y -> runs_down t w h nd e D x' y' -> runs_down t w h nd e D x y.

(** From the cell an outlet can be reached over data cells on which the surface [D] is not above [L]. *)
Inductive leaves_at (t : topology) (w h nd : Z) (e D : grid Z) (L : Z) : Z -> Z -> Prop :=
| la_out x y : is_outlet t w h nd e x y -> D x y <= L -> leaves_at t w h nd e D L x y
| la_step x y x' y' : is_data w h nd e x y -> D x y <= L -> adjacent t x y x' y' -> leaves_at t w h nd e D L x' y' -> leaves_at t w h nd e D L x y.
(** (x,y) and (x',y') are joined by data cells on which [D] is not above [L]. *)
Inductive joined_at (w h nd : Z) (t : topology) (e D : grid Z) (L : Z) : Z -> Z -> Z -> Z -> Prop :=
| ja_here x y : is_data w h nd e x y -> D x y <= L -> joined_at w h nd t e D L x y x y
| ja_step x y x1 y1 x2 y2 : is_data w h nd e x y -> D x y <= L -> adjacent t x y x1 y1 -> joined_at w h nd t e D L x1 y1 x2 y2 -> joined_at w h nd t e D L x y x2 y2.

(** [F] is [e] with its single-cell pits raised: an inner data cell that lies below all its neighbours stands at the level
    of the lowest of them (with epsilon gradients: [down] of it), every other cell is unchanged. *)
Definition pit_cell (t : topology) (w h nd : Z) (e : grid Z) (x y : Z) : Prop :=
  is_data w h nd e x y /\ ~ is_outlet t w h nd e x y /\ forall x' y', adjacent t x y x' y' -> e x y < e x' y'.
Definition pits_raised (down : Z -> Z) (t : topology) (w h nd : Z) (e F : grid Z) : Prop :=
  forall x y, in_raster w h x y ->
    (pit_cell t w h nd e x y -> exists x1 y1, adjacent t x y x1 y1 /\ (forall x2 y2, adjacent t x y x2 y2 -> e x1 y1 <= e x2 y2) /\ F x y = down (e x1 y1)) /\
    (~ pit_cell t w h nd e x y -> F x y = e x y).
(** an inner data cell without lower neighbour *)
Definition no_lower (t : topology) (w h nd : Z) (e F : grid Z) (x y : Z) : Prop :=
  is_data w h nd e x y /\ ~ is_outlet t w h nd e x y /\ forall x' y', adjacent t x y x' y' -> F x y <= F x' y'.
