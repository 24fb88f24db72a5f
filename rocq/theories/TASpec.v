(** What the properties of the terrain attributes say, independent of the code. *)
From Coq Require Import ZArith Reals List.
From Verif Require Import Base RasterSpec AreaSpec.
Import ListNotations.
Open Scope R_scope.

Section Surface.
  Variables (w h : Z) (e : grid R) (nodata : grid bool) (zscale lx ly : R) (x y : Z).
  (** [z i j]: the height of the surface at the neighbour i columns east and j rows south (level where there is no data) *)
  Definition heights (z : Z -> Z -> R) : Prop :=
    forall i j, (Z.abs i <= 1)%Z -> (Z.abs j <= 1)%Z -> height w h e nodata zscale x y (x + i) (y + j) (z i j).

  (** Slope: the gradient of the plane that fits the nine heights best. Squared distances at the straight neighbours
      count twice, those at the diagonal neighbours once (Horn 1981) and at the cell itself [k] times, whatever [k]. *)
  Definition misfit (z : Z -> Z -> R) (k gx gy c : R) : R :=
    let d i j := (z i j - (c + gx * (IZR i * lx) + gy * (IZR j * ly))) ^ 2 in
    d (-1)%Z (-1)%Z + 2 * d 0%Z (-1)%Z + d 1%Z (-1)%Z + 2 * d (-1)%Z 0%Z + k * d 0%Z 0%Z + 2 * d 1%Z 0%Z + d (-1)%Z 1%Z + 2 * d 0%Z 1%Z + d 1%Z 1%Z.
  (** [gx]: rise to the east; [gy]: rise to the south *)
  Definition best_fit (gx gy : R) : Prop :=
    exists z, heights z /\ forall k, 0 <= k -> exists c, forall gx' gy' c', misfit z k gx gy c <= misfit z k gx' gy' c'.

  (** Curvature: the polynomial of Zevenbergen and Thorne 1987 through the nine heights, in coordinates east and north *)
  Record poly := mkPoly { pA : R; pB : R; pC : R; pD : R; pE : R; pF : R; pG : R; pH : R; pI : R }.
  Definition peval (p : poly) (u v : R) : R :=
    pA p * u ^ 2 * v ^ 2 + pB p * u ^ 2 * v + pC p * u * v ^ 2 + pD p * u ^ 2 + pE p * v ^ 2 + pF p * u * v + pG p * u + pH p * v + pI p.
  Definition through (p : poly) : Prop :=
    exists z, heights z /\ forall i j, (Z.abs i <= 1)%Z -> (Z.abs j <= 1)%Z -> peval p (IZR i * lx) (- IZR j * ly) = z i j.
End Surface.

(** A curve [f] has slope [s] and second derivative [r] at 0. *)
Definition bends (f : R -> R) (s r : R) : Prop :=
  exists f', (forall t, derivable_pt_lim f t (f' t)) /\ f' 0 = s /\ derivable_pt_lim f' 0 r.
Definition unit_vector (u v : R) : Prop := u * u + v * v = 1.
(** [theta] degrees clockwise from north point to (east, north) *)
Definition bearing (theta east north : R) : Prop :=
  0 <= theta < 360 /\ exists r, 0 < r /\ east = r * sin (theta * PI / 180) /\ north = r * cos (theta * PI / 180).
