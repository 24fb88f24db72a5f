(** Steepest descent over the eight triangular facets around a cell (Tarboton 1997), and upslope areas, independently of
    the code. *)
From Coq Require Import ZArith Reals List Bool Permutation.
From Verif Require Import Base RasterSpec.
Import ListNotations.
Open Scope R_scope.

(** Offsets of a horizontal or vertical neighbour [p] and of a diagonal neighbour [q] next to it: together with the cell
    they form one of the eight triangles around the cell. *)
Definition triangle (p q : Z * Z) : Prop :=
  (Z.abs (fst p) + Z.abs (snd p) = 1 /\ Z.abs (fst q) = 1 /\ Z.abs (snd q) = 1 /\ fst p * fst q + snd p * snd q = 1)%Z.

(** The point [u p + v q] of the triangle's cone, seen from the cell: how far it is, and how far the plane through the
    three cells has fallen there (elevations [e], cells one unit apart) *)
Definition dist (p q : Z * Z) (u v : R) : R :=
  sqrt ((u * IZR (fst p) + v * IZR (fst q)) ^ 2 + (u * IZR (snd p) + v * IZR (snd q)) ^ 2).
Definition drop (e : grid R) (x y : Z) (p q : Z * Z) (u v : R) : R :=
  u * (e x y - e (x + fst p)%Z (y + snd p)%Z) + v * (e x y - e (x + fst q)%Z (y + snd q)%Z).
(** The angle [th] (counterclockwise from east; rows are numbered from the top) points towards [u p + v q]. *)
Definition heading (th : R) (p q : Z * Z) (u v : R) : Prop :=
  u * IZR (fst p) + v * IZR (fst q) = dist p q u v * cos th /\ u * IZR (snd p) + v * IZR (snd q) = - dist p q u v * sin th.

(** [s] is the steepest descent from the cell, and [th] a direction in which the terrain falls so steeply. *)
Definition steepest (e : grid R) (x y : Z) (th s : R) : Prop :=
  (exists p q u v, triangle p q /\ 0 <= u /\ 0 <= v /\ 0 < dist p q u v /\ heading th p q u v /\ drop e x y p q u v = s * dist p q u v) /\
  (forall p q u v, triangle p q -> 0 <= u -> 0 <= v -> drop e x y p q u v <= s * dist p q u v).
(** nowhere around the cell does the terrain fall *)
Definition no_descent (e : grid R) (x y : Z) : Prop :=
  forall p q u v, triangle p q -> 0 <= u -> 0 <= v -> drop e x y p q u v <= 0.

(** The neighbour in direction [k] * 45 degrees *)
Definition compass (k : Z) : Z * Z :=
  match (k mod 8)%Z with
  | 0 => (1, 0) | 1 => (1, -1) | 2 => (0, -1) | 3 => (-1, -1) | 4 => (-1, 0) | 5 => (-1, 1) | 6 => (0, 1) | _ => (1, 1)
  end%Z.
Definition step (c : Z * Z) (k : Z) : Z * Z := (fst c + fst (compass k), snd c + snd (compass k))%Z.

(** The part of a cell's area that goes to the neighbour in direction [k], if its flow direction is [th] in [0,2 pi]:
    a direction less than 1e-6 of 45 degrees beyond a neighbour's counts as that neighbour's; otherwise the area is
    divided between the two neighbours on either side (for the way it is divided see [C77_larger_share_refuted]). *)
Definition share (th : R) (k : Z) (s : R) : Prop :=
  exists j : Z, let q := 4 * th / PI in
    (0 <= q - IZR j < 1 / 1000000 /\ (k = j /\ s = 1)) \/
    (1 / 1000000 <= q - IZR j < 1 /\ ((k = j /\ s = q - IZR j) \/ (k = (j + 1)%Z /\ s = IZR j + 1 - q))).

(** [d] sends the part [s] of its area to [c]. Cells with the flow direction 0 send nothing. *)
Definition isdata (w h : Z) (fd : grid R) (fnd : R) (c : Z * Z) : Prop :=
  in_raster w h (fst c) (snd c) /\ fd (fst c) (snd c) <> fnd.
Definition sends (w h : Z) (fd : grid R) (fnd : R) (d c : Z * Z) (s : R) : Prop :=
  isdata w h fd fnd d /\ isdata w h fd fnd c /\ fd (fst d) (snd d) <> 0 /\
  exists k, share (fd (fst d) (snd d)) k s /\ c = step d k.
Inductive below (w h : Z) (fd : grid R) (fnd : R) : Z * Z -> Z * Z -> Prop :=
| below_one d c s : sends w h fd fnd d c s -> below w h fd fnd d c
| below_more d m c s : below w h fd fnd d m -> sends w h fd fnd m c s -> below w h fd fnd d c.
(** some cell on a loop sends area to [c], directly or not *)
Definition after_loop (w h : Z) (fd : grid R) (fnd : R) (c : Z * Z) : Prop :=
  exists v, below w h fd fnd v v /\ (v = c \/ below w h fd fnd v c).
(** [a] is the sum of what the cells in [L] send to [c], given their areas *)
Inductive received (w h : Z) (fd : grid R) (fnd : R) (area : Z * Z -> R) (c : Z * Z) : list (Z * Z) -> R -> Prop :=
| rec_nil : received w h fd fnd area c [] 0
| rec_send d s L a : sends w h fd fnd d c s -> received w h fd fnd area c L a ->
    received w h fd fnd area c (d :: L) (area d * s + a)
| rec_not d L a : (forall s, ~ sends w h fd fnd d c s) -> received w h fd fnd area c L a ->
    received w h fd fnd area c (d :: L) a.
