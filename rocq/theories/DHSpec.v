(** What the depression-hierarchy properties say, independent of the algorithm. *)
From Coq Require Import ZArith List Permutation Sorting.Sorted.
From Verif Require Import Base Res RasterSpec FlatsSpec DHModel.
Open Scope Z_scope.

Section Terrain.
  Variables (t : topology) (w h : Z) (dem : grid Z).

  Definition neighbours (p q : cell) : Prop := adjacent t (fst p) (snd p) (fst q) (snd q).

  (** The caller marks the ocean with label 0 and the land with label 2^32-1. *)
  Definition valid_labels (lab0 : grid Z) : Prop :=
    forall p, inside w h p -> elev_at lab0 p = 0 \/ elev_at lab0 p = 2 ^ 32 - 1.
  Definition ocean_cell (lab0 : grid Z) (p : cell) : Prop := inside w h p /\ elev_at lab0 p = 0.
  Definition land_cell (lab0 : grid Z) (p : cell) : Prop := inside w h p /\ elev_at lab0 p <> 0.
  Definition has_coast (lab0 : grid Z) : Prop :=
    exists p q, ocean_cell lab0 p /\ land_cell lab0 q /\ neighbours p q.
  (** a land cell without lower neighbour *)
  Definition pit (lab0 : grid Z) (p : cell) : Prop :=
    land_cell lab0 p /\ forall q, inside w h q -> neighbours p q -> elev_at dem p <= elev_at dem q.

  (** Following flow directions from [p] one arrives at [r], without leaving the watershed and without
      ever going up. *)
  Inductive runs_to (lab fd : grid Z) : cell -> cell -> Prop :=
  | runs_here p : inside w h p -> runs_to lab fd p p
  | runs_step p n q r : inside w h p -> In n (dirs t) -> elev_at fd p = Z.of_nat n ->
      q = (fst p + dx t n, snd p + dy t n) -> elev_at lab q = elev_at lab p -> elev_at dem q <= elev_at dem p ->
      runs_to lab fd q r -> runs_to lab fd p r.

  (** [lab] partitions the raster into the watersheds of the ocean (0) and of the [pits] (1, 2, ...);
      [fd] leads every cell to the ocean or to the pit of its watershed. *)
  Record watersheds (lab0 fd0 lab fd : grid Z) (pits : list cell) : Prop := {
    ws_label : forall p, inside w h p -> 0 <= elev_at lab p <= Z.of_nat (length pits);
    ws_ocean : forall p, ocean_cell lab0 p -> elev_at lab p = 0 /\ elev_at fd p = elev_at fd0 p;
    ws_pit : forall k p, nth_error pits k = Some p ->
      pit lab0 p /\ elev_at lab p = Z.of_nat k + 1 /\ elev_at fd p = elev_at fd0 p;
    ws_drain : forall p, inside w h p -> exists r, runs_to lab fd p r /\
      ((elev_at lab p = 0 /\ ocean_cell lab0 r) \/
       exists k, elev_at lab p = Z.of_nat k + 1 /\ nth_error pits k = Some r) }.

  (** [z] is the lowest level at which water passes between the regions [A] and [B] over the pass cell [c]. *)
  Definition pass (A B : cell -> Prop) (c : cell) (z : Z) : Prop :=
    exists p q, inside w h p /\ inside w h q /\ A p /\ B q /\ neighbours p q /\
      z = Z.max (elev_at dem p) (elev_at dem q) /\ (c = p \/ c = q) /\ elev_at dem c = z.
  Definition lowest_pass (A B : cell -> Prop) (c : cell) (z : Z) : Prop :=
    pass A B c z /\ forall c' z', pass A B c' z' -> z <= z'.

  (** Water at level [L] in [p] reaches a cell of [O] *)
  Inductive escapes (O : cell -> Prop) (L : Z) : cell -> Prop :=
  | esc_here p : inside w h p -> O p -> elev_at dem p <= L -> escapes O L p
  | esc_step p q : inside w h p -> elev_at dem p <= L -> neighbours p q -> escapes O L q -> escapes O L p.
  Definition escape_level (O : cell -> Prop) (p : cell) (L : Z) : Prop :=
    escapes O L p /\ forall L', escapes O L' p -> L <= L'.
End Terrain.

(** Let [p] be a lowest cell of a watershed of the land. Its neighbours not higher than it belong to the same watershed
    or drain into the ocean: no two flat bottoms touch. *)
Definition bottoms_apart (t : topology) (w h : Z) (dem lab : grid Z) : Prop :=
  forall p q, inside w h p -> inside w h q -> neighbours t p q -> elev_at dem q <= elev_at dem p -> elev_at lab p <> 0 ->
    (forall c, inside w h c -> elev_at lab c = elev_at lab p -> elev_at dem p <= elev_at dem c) ->
    elev_at lab q = elev_at lab p \/ elev_at lab q = 0.
(** Among the cells of lowest elevation the queue returns the one pushed last. (In the model the queue is a list, pushes
    go to its front, and choice 0 is the first candidate.) *)
Definition most_recent_first (i : nat) : nat := 0%nat.

(** [k] is [d] or one of its descendants in the hierarchy *)
Inductive part_of (deps : list dep) : Z -> Z -> Prop :=
| part_refl k : part_of deps k k
| part_up k d r : part_of deps k d -> ix deps d = Some r -> d_ocean_parent r = false ->
    d_parent r <> NO_PARENT -> part_of deps k (d_parent r).
(** the cells draining into depression [d], subdepressions included *)
Definition region (lab : grid Z) (deps : list dep) (d : Z) (p : cell) : Prop := part_of deps (elev_at lab p) d.
Definition outside (lab : grid Z) (deps : list dep) (d : Z) (p : cell) : Prop := ~ region lab deps d p.

(** the depression records of the leaves, numbered from 1 *)
Definition leaves (dem : grid Z) (pits : list cell) : list dep :=
  map (fun kp => leaf_dep (snd kp) (elev_at dem (snd kp)) (fst kp)) (combine (zrange 1 (length pits)) pits).

(** [db] lists, once for every pair of touching watersheds, the lowest pass between them. *)
Definition all_passes (t : topology) (w h : Z) (dem lab : grid Z) (n : Z) (db : list outlet) : Prop :=
  NoDup (map (fun o => (o_a o, o_b o)) db) /\
  (forall o, In o db -> 0 <= o_a o < o_b o /\ o_b o < n /\
     lowest_pass t w h dem (fun p => elev_at lab p = o_a o) (fun p => elev_at lab p = o_b o) (o_cell o) (o_elev o)) /\
  (forall p q, inside w h p -> inside w h q -> neighbours t p q -> elev_at lab p < elev_at lab q ->
     exists o, In o db /\ o_a o = elev_at lab p /\ o_b o = elev_at lab q).

(** following parent pointers (over ocean links too) one arrives at the ocean *)
Inductive flows_to_ocean (deps : list dep) : Z -> Prop :=
| fto_ocean : flows_to_ocean deps 0
| fto_parent k r : ix deps k = Some r -> d_parent r <> NO_PARENT -> flows_to_ocean deps (d_parent r) -> flows_to_ocean deps k.

(** The shape of a depression hierarchy with watersheds 0..n-1 (0 is the ocean). *)
Record well_formed (n : Z) (deps : list dep) : Prop := {
  wf_size : n <= Z.of_nat (length deps) < 2 * n;
  wf_ocean : exists r, ix deps 0 = Some r /\ d_parent r = NO_PARENT /\ d_ocean_parent r = false /\ d_out_elev r = None;
  (** every other depression has a parent: either it spills into a watershed that reaches the ocean ... *)
  wf_parent : forall d r, ix deps d = Some r -> d <> 0 ->
    (d_ocean_parent r = true /\ 0 <= d_parent r < n /\ d_geolink r = d_parent r /\ d_odep r = NO_VALUE) \/
    (** ... or it is one of the two children of a metadepression, and overflows into the other one *)
    (d_ocean_parent r = false /\ d < d_parent r < Z.of_nat (length deps) /\ n <= d_parent r /\
     exists p, ix deps (d_parent r) = Some p /\
       ((d = d_lchild p /\ d_odep r = d_rchild p) \/ (d = d_rchild p /\ d_odep r = d_lchild p)) /\
       0 <= d_geolink r < n /\ part_of deps (d_geolink r) (d_odep r));
  wf_leaf : forall d r, ix deps d = Some r -> d < n -> d_lchild r = NO_VALUE /\ d_rchild r = NO_VALUE;
  wf_meta : forall d r, ix deps d = Some r -> n <= d -> d_lchild r <> d_rchild r /\
    forall c, c = d_lchild r \/ c = d_rchild r -> 1 <= c < d /\
      exists q, ix deps c = Some q /\ d_parent q = d /\ d_ocean_parent q = false;
  wf_linked : forall d r, ix deps d = Some r -> NoDup (d_ocean_linked r) /\
    forall k, In k (d_ocean_linked r) <-> exists q, ix deps k = Some q /\ d_ocean_parent q = true /\ d_parent q = d;
  wf_flows : forall d, 0 <= d < Z.of_nat (length deps) -> flows_to_ocean deps d;
  (** outlets do not get lower towards the root *)
  wf_levels : forall d r, ix deps d = Some r -> d <> 0 -> exists z, d_out_elev r = Some z /\
    forall p z', d_ocean_parent r = false -> ix deps (d_parent r) = Some p -> d_out_elev p = Some z' -> z <= z';
  wf_label : forall d r, ix deps d = Some r -> d_label r = d;
  wf_pit : forall d r, ix deps d = Some r -> n <= d -> exists q, ix deps (d_lchild r) = Some q /\ d_pit r = d_pit q }.

(** The depression that holds a cell of watershed [k] and elevation [e]: the smallest one around it whose
    outlet is not below the cell; [0] if there is none. *)
Definition reaches (deps : list dep) (e d : Z) : Prop :=
  d <> 0 /\ exists r z, ix deps d = Some r /\ d_out_elev r = Some z /\ e <= z.
Definition holder (deps : list dep) (k e d : Z) : Prop :=
  (part_of deps k d /\ reaches deps e d /\ forall d', part_of deps k d' -> reaches deps e d' -> part_of deps d d') \/
  (d = 0 /\ forall d', part_of deps k d' -> ~ reaches deps e d').

(** [l] lists the cells of depression [d] that lie under its outlet level [z] *)
Definition cells_under (w h : Z) (dem lab : grid Z) (deps : list dep) (d z : Z) (l : list cell) : Prop :=
  NoDup l /\ forall c, In c l <-> inside w h c /\ region lab deps d c /\ elev_at dem c <= z.
Definition zsum (l : list Z) : Z := fold_right Z.add 0 l.
(** the water a depression holds when filled to level [z] *)
Definition depth_sum (dem : grid Z) (z : Z) (l : list cell) : Z := zsum (map (fun c => z - elev_at dem c) l).

(** std::sort leaves the outlets in some order by elevation *)
Definition sorting_of (db s : list outlet) : Prop :=
  Permutation s db /\ StronglySorted (fun a b => o_elev a <= o_elev b) s.
(** every cell of the raster is handled by exactly one thread, once *)
Definition each_cell_once (w h : Z) (parts : list (list cell)) : Prop :=
  NoDup (concat parts) /\ forall c, In c (concat parts) <-> inside w h c.
