(** What the properties of the Python package are stated with. *)
From Coq Require Import ZArith List Bool String.
From Verif Require Import Base Res PyModel.
Open Scope Z_scope.
Open Scope list_scope.

Section Spec.
  Context {E : env}.
  Notation obj := (obj (F E)). Notation state := (state (F E) (V E)).

  (** the element of memory block [b] at position [i] *)
  Definition mem_at (s : state) (b : nat) (i : Z) : option (V E) :=
    match nth_error (s_mem s) b with Some l => ix l i | None => None end.
  Definition object (s : state) (r : nat) : option obj := nth_error (s_objs s) r.

  (** the array [r] is a raster of [h] rows of [w] cells which, row by row, contain [l] *)
  Definition shows (s : state) (r : nat) (h w : Z) (l : list (V E)) : Prop :=
    exists o, object s r = Some o /\ o_shape o = [h; w] /\ Z.of_nat (length l) = h * w /\
      forall y x, 0 <= y < h -> 0 <= x < w -> elem s o [y; x] = ix l (y * w + x).
  (** the array [r] has [h] rows of [w] cells of 9 values each, which contain [l] *)
  Definition shows3 (s : state) (r : nat) (h w : Z) (l : list (V E)) : Prop :=
    exists o, object s r = Some o /\ o_shape o = [h; w; 9] /\ Z.of_nat (length l) = h * w * 9 /\
      forall y x k, 0 <= y < h -> 0 <= x < w -> 0 <= k < 9 -> elem s o [y; x; k] = ix l ((y * w + x) * 9 + k).
  (** the positions in memory of the cells of [o] *)
  Definition cell_of (o : obj) (h w : Z) (b : nat) (i : Z) : Prop :=
    b = o_block o /\ exists y x, 0 <= y < h /\ 0 <= x < w /\ i = o_off o + dot [y; x] (o_strides o).

  (** every array that existed is still there, with the same attributes, over unchanged memory *)
  Definition keeps (s s' : state) : Prop :=
    (forall r o, object s r = Some o -> object s' r = Some o) /\
    (forall b i v, mem_at s b i = Some v -> mem_at s' b i = Some v).
  (** [r] is a new array, over memory no array used *)
  Definition fresh (s s' : state) (r : nat) : Prop :=
    object s r = None /\ exists o, object s' r = Some o /\ nth_error (s_mem s) (o_block o) = None.
  (** only the cells of array [r] and the no_data and history of this object may have changed *)
  Definition only_touches (s s' : state) (r : nat) (o : obj) (h w : Z) : Prop :=
    (forall r' o', r' <> r -> object s r' = Some o' -> object s' r' = Some o') /\
    (exists o', object s' r = Some o' /\ o_kind o' = o_kind o /\ o_block o' = o_block o /\ o_off o' = o_off o /\ o_shape o' = o_shape o /\
       o_strides o' = o_strides o /\ o_dtype o' = o_dtype o /\ o_geo o' = o_geo o /\ o_proj o' = o_proj o) /\
    (forall b i v, ~ cell_of o h w b i -> mem_at s b i = Some v -> mem_at s' b i = Some v).

  (** [r] is a usable elevation model: an rdarray of [h] rows and [w] columns of a native type, containing [l]; C++ is told the
      NoData value [nd] *)
  Definition raster (s : state) (r : nat) (o : obj) (h w : Z) (l : list (V E)) (nd : V E) : Prop :=
    object s r = Some o /\ o_kind o = KRd /\ o_dtype o <> Other /\ 0 < h /\ 0 < w /\ o_shape o = [h; w] /\ length (o_strides o) = 2%nat /\
    shows s r h w l /\ cvt E (o_dtype o) (match o_nodata o with Some n => n | None => PInt (-9999) end) = Ok nd.
  Definition contiguous (o : obj) : bool := c_contiguous (o_shape o) (o_strides o).
End Spec.

(** The flow metrics by their documented names (__init__.py:507-523): the C++ metric behind each, and whether it needs an exponent.
    "Dinf" is an alias of "Tarboton". *)
Definition metrics : list (string * (string * bool)) :=
  [("Tarboton", ("Tarboton", false)); ("Dinf", ("Tarboton", false)); ("Quinn", ("Quinn", false)); ("Holmgren", ("Holmgren", true)); ("Freeman", ("Freeman", true));
   ("FairfieldLeymarieD8", ("FairfieldLeymarieD8", false)); ("FairfieldLeymarieD4", ("FairfieldLeymarieD4", false)); ("Rho8", ("Rho8", false)); ("Rho4", ("Rho4", false));
   ("OCallaghanD8", ("OCallaghanD8", false)); ("OCallaghanD4", ("OCallaghanD4", false)); ("D8", ("D8", false)); ("D4", ("D4", false))]%string.
(** method [m] with exponent argument [e] runs the metric [c] with the arguments [args] *)
Definition runs {F} (m : string) (e : option (num F)) (c : string) (args : list (num F)) : Prop :=
  exists b, In (m, (c, b)) metrics /\ (if b then exists x, e = Some x /\ args = [x] else args = []).
(** the attributes of TerrainAttribute (__init__.py:743-755) *)
Definition attributes : list string :=
  ["slope_riserun"; "slope_percentage"; "slope_degrees"; "slope_radians"; "aspect"; "curvature"; "planform_curvature"; "profile_curvature"]%string.
(** the C++ function behind FillDepressions (pywrapper.hpp:32-35) *)
Definition fill_function (epsilon : bool) (t : topology) : string :=
  match epsilon, t with false, D8 => "rdFillDepressionsD8" | false, D4 => "rdFillDepressionsD4" | true, D8 => "rdPFepsilonD8" | true, D4 => "rdPFepsilonD4" end.
Definition breach_function (t : topology) : string := match t with D8 => "rdBreachDepressionsD8" | D4 => "rdBreachDepressionsD4" end.
Definition topology_name (t : topology) : string := match t with D8 => "D8" | D4 => "D4" end.

(** the three functions that alter an elevation model *)
Inductive operation := Fill (epsilon : bool) (t : topology) | Breach (t : topology) | Flats.
Definition run {E : env} (op : operation) (dem : nat) (in_place : bool) : py (F E) (V E) (option nat) :=
  match op with
  | Fill eps t => FillDepressions dem eps in_place (topology_name t)
  | Breach t => BreachDepressions dem in_place (topology_name t)
  | Flats => ResolveFlats dem in_place
  end.
Definition cpp_function (op : operation) : string :=
  match op with Fill eps t => fill_function eps t | Breach t => breach_function t | Flats => "rdResolveFlatsEpsilon" end.
