(** What the properties of the miscellaneous methods say, independent of the code. *)
From Coq Require Import ZArith List.
From Verif Require Import Base RasterSpec FlatsSpec.
Open Scope Z_scope.

(** A paint operation: paint spreads from the [seed] cells over adjacent cells that hold [cv] in [chk] and are not painted
    [sv] beforehand in [set]. *)
Section Paint.
  Variables (t : topology) (w h : Z) (chk : grid Z) (cv sv : Z) (set : grid Z) (seed : cell -> Prop).
  Definition paintable (p : cell) : Prop := inside w h p /\ elev_at chk p = cv /\ elev_at set p <> sv.
  Inductive painted : cell -> Prop :=
  | painted_seed p : seed p -> paintable p -> painted p
  | painted_next p q : painted p -> adjacent t (fst p) (snd p) (fst q) (snd q) -> paintable q -> painted q.
End Paint.

(** the cell with flat index [i] *)
Definition numbered_cell (w i : Z) (p : cell) : Prop := i = snd p * w + fst p /\ 0 <= fst p < w.

(** Sides of data cells at which the data ends: upper/lower ([horizontal]) and left/right ([vertical]). *)
Section Border.
  Variables (w h : Z) (arr : grid Z) (nd : Z).
  Definition data (p : cell) : Prop := inside w h p /\ elev_at arr p <> nd.
  Definition horizontal_side (s : cell * cell) : Prop :=
    data (fst s) /\ ~ data (snd s) /\ fst (snd s) = fst (fst s) /\ Z.abs (snd (snd s) - snd (fst s)) = 1.
  Definition vertical_side (s : cell * cell) : Prop :=
    data (fst s) /\ ~ data (snd s) /\ snd (snd s) = snd (fst s) /\ Z.abs (fst (snd s) - fst (fst s)) = 1.
End Border.

(** [n] things have property [P] *)
Definition there_are {A} (n : Z) (P : A -> Prop) : Prop := exists l, NoDup l /\ (forall a, In a l <-> P a) /\ Z.of_nat (length l) = n.

(** Direction codes of other programs. ArcGIS: 1 = east, then clockwise in powers of two. TauDEM: 1 = east, then
    counterclockwise. 0: no flow. *)
Inductive arc_toward : Z -> Z -> Z -> Z -> Z -> Prop :=
| arc_E x y : arc_toward 1 x y (x + 1) y
| arc_SE x y : arc_toward 2 x y (x + 1) (y + 1)
| arc_S x y : arc_toward 4 x y x (y + 1)
| arc_SW x y : arc_toward 8 x y (x - 1) (y + 1)
| arc_W x y : arc_toward 16 x y (x - 1) y
| arc_NW x y : arc_toward 32 x y (x - 1) (y - 1)
| arc_N x y : arc_toward 64 x y x (y - 1)
| arc_NE x y : arc_toward 128 x y (x + 1) (y - 1).
Inductive taudem_toward : Z -> Z -> Z -> Z -> Z -> Prop :=
| tau_E x y : taudem_toward 1 x y (x + 1) y
| tau_NE x y : taudem_toward 2 x y (x + 1) (y - 1)
| tau_N x y : taudem_toward 3 x y x (y - 1)
| tau_NW x y : taudem_toward 4 x y (x - 1) (y - 1)
| tau_W x y : taudem_toward 5 x y (x - 1) y
| tau_SW x y : taudem_toward 6 x y (x - 1) (y + 1)
| tau_S x y : taudem_toward 7 x y x (y + 1)
| tau_SE x y : taudem_toward 8 x y (x + 1) (y + 1).

(** The sea of a terrain with an ocean level: cells without data, and cells at the ocean level connected with the edge of the
    raster through cells at the ocean level. *)
Inductive open_sea (w h : Z) (topo : grid Z) (level : Z) : cell -> Prop :=
| open_edge p : on_edge w h (fst p) (snd p) -> elev_at topo p = level -> open_sea w h topo level p
| open_next p q : open_sea w h topo level p -> touching p q -> inside w h q -> elev_at topo q = level -> open_sea w h topo level q.
Definition sea (w h : Z) (topo : grid Z) (nd level : Z) (p : cell) : Prop :=
  (inside w h p /\ elev_at topo p = nd) \/ open_sea w h topo level p.
(** somewhere the sea touches land *)
Definition coast (w h : Z) (topo : grid Z) (nd level : Z) : Prop :=
  exists p q, inside w h p /\ inside w h q /\ sea w h topo nd level p /\ ~ sea w h topo nd level q /\ touching p q.
(** the cell (0,0) is higher than the cells around it *)
Definition high_corner (w h : Z) (topo : grid Z) : Prop :=
  forall q, inside w h q -> touching (0, 0) q -> elev_at topo q < elev_at topo (0, 0).
