(** What the flow-direction and accumulation properties say, independent of the algorithms. *)
From Coq Require Import ZArith List.
From Verif Require Import Base RasterSpec.
Open Scope Z_scope.

(** The eight direction codes of RichDEM: 1 = left, then clockwise; 0 = no flow.
    [toward d x y x' y']: direction [d] leads from (x,y) to (x',y'). *)
Inductive toward : Z -> Z -> Z -> Z -> Z -> Prop :=
| toward_W x y : toward 1 x y (x - 1) y
| toward_NW x y : toward 2 x y (x - 1) (y - 1)
| toward_N x y : toward 3 x y x (y - 1)
| toward_NE x y : toward 4 x y (x + 1) (y - 1)
| toward_E x y : toward 5 x y (x + 1) y
| toward_SE x y : toward 6 x y (x + 1) (y + 1)
| toward_S x y : toward 7 x y x (y + 1)
| toward_SW x y : toward 8 x y (x - 1) (y + 1).

(** Preference among equally low neighbours: straight directions first, then the smaller code. *)
Definition straight (d : Z) : Prop := d = 1 \/ d = 3 \/ d = 5 \/ d = 7.
Definition preferred (d n : Z) : Prop :=
  (straight d /\ (straight n -> d <= n)) \/ (~ straight d /\ ~ straight n /\ d <= n).

(** How an edge cell leaves the raster along one axis: towards smaller coordinates in the first
    column/row, towards larger ones in the last, not at all otherwise. *)
Definition outward (k size : Z) : Z := if k =? 0 then -1 else if k =? size - 1 then 1 else 0.

(** The direction [d] assigned to data cell (x,y) of DEM [e] is right. *)
Definition right_direction (e : grid Z) (w h x y d : Z) : Prop :=
  (on_edge w h x y -> toward d x y (x + outward x w) (y + outward y h)) /\
  (in_raster w h x y -> ~ on_edge w h x y ->
     (d = 0 /\ forall n x' y', toward n x y x' y' -> e x y <= e x' y') \/
     (exists xd yd, toward d x y xd yd /\ e xd yd < e x y /\
        forall n x' y', toward n x y x' y' ->
          e xd yd <= e x' y' /\ (e xd yd = e x' y' -> preferred d n))).

(** ** Flow networks given by direction codes *)
Definition data (fd : grid Z) (fnd w h : Z) (p : Z * Z) : Prop :=
  in_raster w h (fst p) (snd p) /\ fd (fst p) (snd p) <> fnd.
(** cell [p] passes its water on to cell [q] *)
Definition gives (fd : grid Z) (fnd w h : Z) (p q : Z * Z) : Prop :=
  data fd fnd w h p /\ data fd fnd w h q /\ toward (fd (fst p) (snd p)) (fst p) (snd p) (fst q) (snd q).
(** water from [p] passes through [q] *)
Inductive passes (fd : grid Z) (fnd w h : Z) : Z * Z -> Z * Z -> Prop :=
| passes_here p : passes fd fnd w h p p
| passes_on p q r : passes fd fnd w h p q -> gives fd fnd w h q r -> passes fd fnd w h p r.
(** [p] lies on a flow loop *)
Definition looping (fd : grid Z) (fnd w h : Z) (p : Z * Z) : Prop :=
  exists q, passes fd fnd w h p q /\ gives fd fnd w h q p.
Definition below_loop (fd : grid Z) (fnd w h : Z) (p : Z * Z) : Prop :=
  exists q, looping fd fnd w h q /\ passes fd fnd w h q p.
(** the number of data cells whose water passes through [p], [p] included *)
Definition upstream_count (fd : grid Z) (fnd w h : Z) (p : Z * Z) (k : Z) : Prop :=
  exists U, NoDup U /\ (forall q, In q U <-> data fd fnd w h q /\ passes fd fnd w h q p) /\ k = Z.of_nat (length U).
(** every data cell holds a direction code *)
Definition codes_ok (fd : grid Z) (fnd w h : Z) : Prop :=
  forall x y, in_raster w h x y -> fd x y <> fnd -> 0 <= fd x y <= 8.

(** for a cell below a loop: the number of cells whose water reaches it without touching a loop *)
Definition loop_free_count (fd : grid Z) (fnd w h : Z) (p : Z * Z) (k : Z) : Prop :=
  exists U, NoDup U /\
    (forall q, In q U <-> data fd fnd w h q /\
       exists d, passes fd fnd w h q d /\ ~ below_loop fd fnd w h d /\ gives fd fnd w h d p) /\
    k = Z.of_nat (length U).
