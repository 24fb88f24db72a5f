(** Independent vocabulary of the property statements: what "adjacent", "edge", "drainage level" mean.
    Nothing here refers to the algorithms or to the direction tables. *)
From Coq Require Import ZArith List Lia.
From Verif Require Import Base.
Open Scope Z_scope.

Definition in_raster (w h x y : Z) : Prop := 0 <= x < w /\ 0 <= y < h.
Definition on_edge (w h x y : Z) : Prop := in_raster w h x y /\ (x = 0 \/ y = 0 \/ x = w - 1 \/ y = h - 1).

(** Two distinct cells are D8-adjacent if they touch, D4-adjacent if they share a side. *)
Definition adjacent (t : topology) (x y x' y' : Z) : Prop :=
  match t with
  | D8 => (x, y) <> (x', y') /\ Z.abs (x - x') <= 1 /\ Z.abs (y - y') <= 1
  | D4 => Z.abs (x - x') + Z.abs (y - y') = 1
  end.

(** Water standing at level [L] in cell (x,y) can leave the raster: there is a path of adjacent cells to
    the edge on which the terrain [e] never exceeds [L]. *)
Inductive drains (t : topology) (w h : Z) (e : grid Z) (L : Z) : Z -> Z -> Prop :=
| drains_edge x y : on_edge w h x y -> e x y <= L -> drains t w h e L x y
| drains_step x y x' y' : in_raster w h x y -> e x y <= L -> adjacent t x y x' y' ->
    drains t w h e L x' y' -> drains t w h e L x y.

(** The minimax drainage level: the smallest level at which the cell drains. *)
Definition drainage_level (t : topology) (w h : Z) (e : grid Z) (x y L : Z) : Prop :=
  drains t w h e L x y /\ forall L', drains t w h e L' x y -> L <= L'.
