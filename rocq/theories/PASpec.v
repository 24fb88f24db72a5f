(** Vocabulary of the statements about parallel_d8_accum: flow directions on a big raster cut into tiles. *)
From Coq Require Import ZArith List.
From Verif Require Import Base FlowSpec FlowModel RasterSpec PPFModel PPFSpec.
Open Scope Z_scope.

Section Spec.
  Variables (L : layout) (fnd : Z).
  (** The raster of flow directions in one piece; missing tiles hold NoData. *)
  Definition whole : grid Z := fun x y => if nul L (col L x) (row L y) then fnd else mosaic L x y.

  Definition same_tile (p q : Z * Z) : Prop := col L (fst p) = col L (fst q) /\ row L (snd p) = row L (snd q).
  Definition gives_inside (p q : Z * Z) : Prop := gives whole fnd (W L) (H L) p q /\ same_tile p q.
  (** water of [p] passes through [q] without leaving the tile *)
  Inductive within : Z * Z -> Z * Z -> Prop :=
  | within_here p : within p p
  | within_on p q r : within p q -> gives_inside q r -> within p r.
  (** water of [p] ends up in a loop within its tile *)
  Definition trapped (p : Z * Z) : Prop := exists q r, within p q /\ within q r /\ gives_inside r q.
  (** the cell shares a side with a cell of another tile (that may be missing) *)
  Definition at_seam (p : Z * Z) : Prop :=
    exists x y, in_raster (W L) (H L) x y /\ adjacent D4 (fst p) (snd p) x y /\ ~ same_tile p (x, y).
  (** Where two cells touch there is no gap: no two tiles touch at a corner with the other two tiles there both missing. *)
  Definition no_pinch : Prop := forall x y x' y', here L x y -> here L x' y' -> adjacent D8 x y x' y' -> here L x y' \/ here L x' y.
  (** every row of tiles has at least two rows of cells *)
  Definition two_rows : Prop := 2 <= bh L /\ H L mod bh L <> 1.
  (** the perimeter of a tile can be numbered with 16 bits *)
  Definition fits : Prop := Z.min (bw L) (W L) + Z.min (bh L) (H L) <= 32766.
End Spec.
