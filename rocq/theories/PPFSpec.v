(** Vocabulary of the statements about parallel_priority_flood: a big raster cut into tiles, some of them possibly missing. *)
From Coq Require Import ZArith List.
From Verif Require Import Base FlowModel RasterSpec PPFModel.
Open Scope Z_scope.

Section Spec.
  Variable L : layout.
  Definition proper : Prop := 0 < W L /\ 0 < H L /\ 0 < bw L /\ 0 < bh L.
  (** Tile column and row of a cell of the big raster *)
  Definition col (x : Z) : Z := x / bw L.
  Definition row (y : Z) : Z := y / bh L.
  (** Where the cell stands in the file of its tile: tiles may be stored mirrored; the last column and row may be narrower. *)
  Definition place (x y : Z) : cellt :=
    let tw := Z.min (bw L) (W L - col x * bw L) in let th := Z.min (bh L) (H L - row y * bh L) in
    (if flipH L then tw - 1 - x mod bw L else x mod bw L, if flipV L then th - 1 - y mod bh L else y mod bh L).
  (** The big raster *)
  Definition mosaic (x y : Z) : Z := files L (col x) (row y) (fst (place x y)) (snd (place x y)).
  (** The cell of the output that corresponds to the cell of the big raster, if there is a file for the tile *)
  Definition out_at (outp : Z -> Z -> option (cellt -> Z)) (x y : Z) : option Z :=
    match outp (col x) (row y) with Some o => Some (o (place x y)) | None => None end.

  Definition missing (x y : Z) : Prop := in_raster (W L) (H L) x y /\ nul L (col x) (row y) = true.
  Definition here (x y : Z) : Prop := in_raster (W L) (H L) x y /\ nul L (col x) (row y) = false.
  Definition complete : Prop := forall x y, ~ missing x y.

  (** The cells from which the program lets water leave: those on the border of the big raster, and those that share a side
      with a cell of a missing tile that is not in the first row or column of tiles. *)
  Definition leaves (x y : Z) : Prop :=
    on_edge (W L) (H L) x y \/ exists x' y', missing x' y' /\ 0 < col x' /\ 0 < row y' /\ adjacent D4 x y x' y'.
  Inductive runs_off (z : Z) : Z -> Z -> Prop :=
  | ro_leaves x y : here x y -> leaves x y -> mosaic x y <= z -> runs_off z x y
  | ro_step x y x' y' : here x y -> mosaic x y <= z -> adjacent D8 x y x' y' -> runs_off z x' y' -> runs_off z x y.
  (** the lowest level at which water standing in the cell can leave *)
  Definition off_level (x y z : Z) : Prop := runs_off z x y /\ forall z', runs_off z' x y -> z <= z'.
End Spec.
