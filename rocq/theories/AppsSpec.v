(** What the programs of apps/ promise about flow directions. *)
From Coq Require Import ZArith List.
From Verif Require Import Base RasterSpec FlatsSpec FlowSpec.
Open Scope Z_scope.

(** The last cell of a flow path: its direction leads off the raster or into a NoData cell. *)
Definition exit_cell (fd : grid Z) (fnd w h : Z) (p : cell) : Prop :=
  data fd fnd w h p /\ exists q, toward (fd (fst p) (snd p)) (fst p) (snd p) (fst q) (snd q) /\ ~ data fd fnd w h q.

(** In [k] moves the directions lead from [p] to [q]. *)
Inductive moves (fd : grid Z) (fnd w h : Z) : nat -> cell -> cell -> Prop :=
| moves_0 p : moves fd fnd w h 0 p p
| moves_S k p q r : data fd fnd w h p -> toward (fd (fst p) (snd p)) (fst p) (snd p) (fst q) (snd q) -> inside w h q ->
    moves fd fnd w h k q r -> moves fd fnd w h (S k) p r.
(** The path from [p] is at least [k] moves long. *)
Definition path_at_least (fd : grid Z) (fnd w h : Z) (k : nat) (p : cell) : Prop := exists q, moves fd fnd w h k p q.
