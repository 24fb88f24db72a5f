(** The area of a terrain surface, independent of the code: vectors and their cross product. *)
From Coq Require Import ZArith Reals List.
From Verif Require Import Base RasterSpec.
Import ListNotations.
Open Scope R_scope.

Definition vec := (R * R * R)%type.
Definition cross (u v : vec) : vec :=
  let '(a, b, c) := u in let '(a', b', c') := v in (b * c' - c * b', c * a' - a * c', a * b' - b * a').
Definition norm (u : vec) : R := let '(a, b, c) := u in sqrt (a * a + b * b + c * c).
(** the area of the triangle spanned by two vectors *)
Definition triangle (u v : vec) : R := norm (cross u v) / 2.

Section Surface.
  Variables (w h : Z) (e : grid R) (nodata : grid bool) (zscale lx ly : R).
  Definition has_data (x y : Z) : Prop := in_raster w h x y /\ nodata x y = false.
  (** [z] is the height of the surface at the centre of cell (x',y') as seen from (x,y): where there is no data, the surface is level *)
  Definition height (x y x' y' : Z) (z : R) : Prop :=
    (has_data x' y' -> z = zscale * e x' y') /\ (~ has_data x' y' -> z = zscale * e x y).
  (** from the centre of the cell half way to the neighbour in direction (i,j), on the surface *)
  Definition halfway (x y i j : Z) (u : vec) : Prop :=
    exists z, height x y (x + i) (y + j) z /\ u = (IZR i * lx / 2, IZR j * ly / 2, (z - zscale * e x y) / 2).
  (** the eight triangles of the surface of a cell *)
  Definition cell_surface (x y : Z) (a : R) : Prop :=
    exists u1 u2 u3 u4 u5 u6 u7 u8,
      halfway x y (-1) 0 u1 /\ halfway x y (-1) (-1) u2 /\ halfway x y 0 (-1) u3 /\ halfway x y 1 (-1) u4 /\
      halfway x y 1 0 u5 /\ halfway x y 1 1 u6 /\ halfway x y 0 1 u7 /\ halfway x y (-1) 1 u8 /\
      a = triangle u1 u2 + triangle u2 u3 + triangle u3 u4 + triangle u4 u5 + triangle u5 u6 + triangle u6 u7 + triangle u7 u8 + triangle u8 u1.
  Definition rsum (l : list R) : R := fold_right Rplus 0 l.
  (** the area of the surface of all data cells *)
  Definition surface (a : R) : Prop :=
    exists l f, NoDup l /\ (forall x y, In (x, y) l <-> has_data x y) /\ (forall x y, has_data x y -> cell_surface x y (f (x, y))) /\
      a = rsum (map f l).
End Surface.
