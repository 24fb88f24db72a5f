(** What the flat-resolution properties say, independent of the algorithms. *)
From Coq Require Import ZArith List.
From Verif Require Import Base RasterSpec.
Open Scope Z_scope.

Notation cell := (Z * Z)%type.
Definition elev_at (e : grid Z) (p : cell) : Z := e (fst p) (snd p).
Definition inside (w h : Z) (p : cell) : Prop := in_raster w h (fst p) (snd p).
Definition touching (p q : cell) : Prop := adjacent D8 (fst p) (snd p) (fst q) (snd q).
(** a cell of the raster that is not NoData *)
Definition has_data (e : grid Z) (nd w h : Z) (p : cell) : Prop := inside w h p /\ elev_at e p <> nd.

(** A cell with no local gradient: an interior data cell all of whose neighbours are data cells and none
    is lower. *)
Definition flat_cell (e : grid Z) (nd w h : Z) (p : cell) : Prop :=
  has_data e nd w h p /\ ~ on_edge w h (fst p) (snd p) /\
  forall q, touching p q -> has_data e nd w h q /\ elev_at e p <= elev_at e q.

(** A cell without a D8 flow direction: an interior data cell with no lower neighbour (NoData cells count
    with the elevation they happen to hold). *)
Definition no_flow_cell (e : grid Z) (nd w h : Z) (p : cell) : Prop :=
  has_data e nd w h p /\ ~ on_edge w h (fst p) (snd p) /\
  forall q, touching p q -> elev_at e p <= elev_at e q.

(** ** Flats, for a given notion of flat cell *)
Section Flats.
  Variables (e : grid Z) (nd w h : Z) (flat : cell -> Prop).

  Definition level_step (p q : cell) : Prop :=
    has_data e nd w h p /\ has_data e nd w h q /\ touching p q /\ elev_at e p = elev_at e q.
  (** connected through cells of equal elevation *)
  Inductive same_flat : cell -> cell -> Prop :=
  | same_flat_here p : has_data e nd w h p -> same_flat p p
  | same_flat_step p q r : same_flat p q -> level_step q r -> same_flat p r.
  (** an outlet of a flat: a cell with a local gradient touching a flat cell of the same elevation *)
  Definition outlet (p : cell) : Prop :=
    has_data e nd w h p /\ ~ flat p /\ exists q, flat q /\ level_step p q.
  Definition drainable (p : cell) : Prop := exists q, outlet q /\ same_flat q p.
  (** a flat cell below higher ground *)
  Definition high_edge (p : cell) : Prop :=
    flat p /\ exists q, has_data e nd w h q /\ touching p q /\ elev_at e p < elev_at e q.

  (** [p] can be reached in [n] steps from an outlet (from a high edge) over flat cells of equal elevation *)
  Inductive from_outlet : nat -> cell -> Prop :=
  | fo_0 p : outlet p -> from_outlet 0 p
  | fo_S n p q : from_outlet n p -> level_step p q -> flat q -> from_outlet (S n) q.
  Inductive from_high : nat -> cell -> Prop :=
  | fh_0 p : high_edge p -> from_high 0 p
  | fh_S n p q : from_high n p -> level_step p q -> flat q -> from_high (S n) q.
  Definition least (P : nat -> Prop) (n : nat) : Prop := P n /\ forall m, P m -> (n <= m)%nat.
  Definition outlet_dist (p : cell) (n : nat) : Prop := least (fun n => from_outlet n p) n.
  Definition high_dist (p : cell) (n : nat) : Prop := least (fun n => from_high n p) n.
  (** the greatest distance from a high edge within the flat of [p] *)
  Definition high_extent (p : cell) (n : nat) : Prop :=
    (exists q, same_flat p q /\ high_dist q n) /\ forall q m, same_flat p q -> high_dist q m -> (m <= n)%nat.

  (** The increment [m] of cell [p] in the flat mask: twice the distance to the nearest outlet, plus the
      distance still to go to the point of the flat farthest from higher ground. *)
  Definition mask_value (p : cell) (m : Z) : Prop :=
    (exists t, outlet_dist p t /\
       ((exists a b, high_dist p a /\ high_extent p b /\ m = 2 * (Z.of_nat t + 1) + (Z.of_nat b - Z.of_nat a)) \/
        ((forall a, ~ from_high a p) /\ m = 2 * (Z.of_nat t + 1)))) \/
    ((forall t, ~ from_outlet t p) /\ m = 0).
End Flats.
