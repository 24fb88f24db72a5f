(** What the fill-spill-merge properties say, independent of the algorithm. *)
From Coq Require Import ZArith List Permutation QArith Qcanon.
From Verif Require Import Base Res QcTac RasterSpec FlatsSpec FlowSpec DHModel DHSpec.
Open Scope Z_scope.

(** ** Surface water running downhill *)
Section Runoff.
  Variables (fd : grid Z) (w h : Z).
  (** the code of [p] leads to [q] *)
  Definition flows (p q : cell) : Prop :=
    inside w h p /\ inside w h q /\ toward (elev_at fd p) (fst p) (snd p) (fst q) (snd q).
  (** every cell holds 0 (no flow) or a direction code leading to a cell of the raster *)
  Definition directions_ok : Prop :=
    forall p, inside w h p -> elev_at fd p = 0 \/ exists q, flows p q.
  Inductive flows_on : cell -> cell -> Prop :=
  | fo_here p : flows_on p p
  | fo_step p q r : flows_on p q -> flows q r -> flows_on p r.
  Definition circulates (p : cell) : Prop := exists q, flows_on p q /\ flows q p.

  (** The corner cell (0,0) has flat index 0, which the code also uses for "no downstream neighbour". *)
  Definition corner : cell := (0, 0).
  Definition corner_fed : Prop := exists p, flows p corner.
  (** the cell's water goes into the depression, not to another cell *)
  Definition delivers (p : cell) : Prop :=
    inside w h p /\ (elev_at fd p = 0 \/ flows p corner).
  (** the cell's water goes to the cell [q] *)
  Definition passes_to (p q : cell) : Prop := flows p q /\ q <> corner.
  Inductive goes_through : cell -> cell -> Prop :=
  | gt_here p : goes_through p p
  | gt_step p q r : goes_through p q -> passes_to q r -> goes_through p r.
  (** [p] never gets its turn: it is downstream of a loop, or of the corner cell if that has donors *)
  Definition blocked (p : cell) : Prop :=
    exists q, goes_through q p /\ ((exists r, goes_through q r /\ passes_to r q) \/ (q = corner /\ corner_fed)).

  Definition listing (P : cell -> Prop) (l : list cell) : Prop := NoDup l /\ forall c, In c l <-> P c.

  (** [X p]: all the water that arrives at [p] added to its water table; [p] passes on what exceeds 0. *)
  Definition arrivals (wtd X : cell -> Qc) : Prop :=
    forall p, inside w h p -> ~ blocked p ->
      exists D, listing (fun d => passes_to d p) D /\
        X p = (wtd p + qsum (map (fun d => qmax 0 (X d)) D))%Qc.
  (** water tables afterwards *)
  Definition settled (wtd X wtd' : cell -> Qc) : Prop :=
    (forall p, inside w h p -> ~ blocked p -> wtd' p = qmin 0 (X p)) /\
    (forall p, inside w h p -> blocked p ->
      exists D, listing (fun d => passes_to d p /\ ~ blocked d) D /\
        wtd' p = (wtd p + qsum (map (fun d => qmax 0 (X d)) D))%Qc).
  (** water in the depressions afterwards *)
  Definition collected (lab : grid Z) (X : cell -> Qc) (wv wv' : list Qc) : Prop :=
    length wv' = length wv /\
    forall l a, ix wv l = Some a ->
      exists D, listing (fun d => delivers d /\ ~ blocked d /\ elev_at lab d = l) D /\
        ix wv' l = Some (a + qsum (map (fun d => qmax 0 (X d)) D))%Qc.
End Runoff.

(** total water of a raster: water tables (relative to the surface) *)
Definition surface_total (w h : Z) (wtd : cell -> Qc) : Qc := qsum (map wtd (cells w h)).

(** ** Water in the depression hierarchy *)
(** the volumes GetDepressionHierarchy computes: not negative, and a metadepression holds at least what
    its two children hold *)
Record volumes_ok (n : Z) (deps : list dep) : Prop := {
  vo_volume : forall d r, ix deps d = Some r -> d <> 0 -> exists v, d_vol r = Some v /\ 0 <= v;
  vo_meta : forall d r rl rr v vl vr, ix deps d = Some r -> n <= d ->
    ix deps (d_lchild r) = Some rl -> ix deps (d_rchild r) = Some rr ->
    d_vol r = Some v -> d_vol rl = Some vl -> d_vol rr = Some vr -> vl + vr <= v }.

(** following parents (over ocean links too) from [k] one arrives at [d] *)
Inductive upstream (deps : list dep) : Z -> Z -> Prop :=
| us_here d : upstream deps d d
| us_up k r d : ix deps k = Some r -> d_parent r <> NO_PARENT -> upstream deps (d_parent r) d -> upstream deps k d.

(** The water a depression and its subdepressions hold: water_vol counts the water of the subdepressions
    too, but stays 0 as long as the water fits into them. *)
Inductive holds (deps : list dep) (wv : list Qc) : Z -> Qc -> Prop :=
| hl_leaf d r q : ix deps d = Some r -> d_lchild r = NO_VALUE -> ix wv d = Some q -> holds deps wv d q
| hl_merged d r q : ix deps d = Some r -> d_lchild r <> NO_VALUE -> ix wv d = Some q -> q <> 0%Qc -> holds deps wv d q
| hl_split d r a b : ix deps d = Some r -> d_lchild r <> NO_VALUE -> ix wv d = Some 0%Qc ->
    holds deps wv (d_lchild r) a -> holds deps wv (d_rchild r) b -> holds deps wv d (a + b)%Qc.
(** ... and all the depressions that spill into it, directly or not. [d = 0]: all the water there is. *)
Definition holds_upstream (deps : list dep) (wv : list Qc) (d : Z) (q : Qc) : Prop :=
  exists l (f : Z -> Qc), NoDup l /\
    (forall t, In t l <-> t = d \/ (t <> d /\ upstream deps t d /\ exists r, ix deps t = Some r /\ d_ocean_parent r = true)) /\
    (forall t, In t l -> holds deps wv t (f t)) /\ q = qsum (map f l).

(** the state MoveWaterIntoPits leaves: no water is owed, metadepressions are empty *)
Definition pits_only (n : Z) (deps : list dep) (wv : list Qc) : Prop :=
  length wv = length deps /\ forall d q, ix wv d = Some q -> (0 <= q)%Qc /\ (n <= d -> q = 0%Qc).
(** no depression but the ocean holds more than its volume; a metadepression holds water only if both
    children are full, and then it holds at least what they hold together *)
Definition levelled (deps : list dep) (wv : list Qc) : Prop :=
  length wv = length deps /\
  (forall d r q, ix deps d = Some r -> ix wv d = Some q -> (0 <= q)%Qc /\
     (d <> 0 -> exists v, d_vol r = Some v /\ (q <= zq v)%Qc)) /\
  (forall d r q c rc, ix deps d = Some r -> d_lchild r <> NO_VALUE -> ix wv d = Some q -> q <> 0%Qc ->
     c = d_lchild r \/ c = d_rchild r -> ix deps c = Some rc -> exists v, d_vol rc = Some v /\ ix wv c = Some (zq v)) /\
  (forall d r q rl rr vl vr, ix deps d = Some r -> ix wv d = Some q -> q <> 0%Qc ->
     ix deps (d_lchild r) = Some rl -> ix deps (d_rchild r) = Some rr -> d_vol rl = Some vl -> d_vol rr = Some vr ->
     (zq vl + zq vr <= q)%Qc).

(** ** Spreading water over the cells of a depression *)
(** amounts and levels closer than this are the same to the code *)
Definition tolerance : Qc := Q2Qc (1 # 1000000).
Definition within (d a b : Qc) : Prop := (a - d <= b /\ b <= a + d)%Qc.
Definition times (n : nat) (q : Qc) : Qc := (zq (Z.of_nat n) * q)%Qc.

Section Lake.
  Variables (w h : Z) (dem lab : grid Z) (labels : list Z) (out : cell).
  Definition in_dep (c : cell) : Prop := inside w h c /\ In (elev_at lab c) labels.
  (** [A]: the flooded cells; [sill]: the cell damming the water, which may absorb some *)
  Record lake (A : list cell) (sill : cell) (level : Qc) (wtd wtd' : cell -> Qc) : Prop := {
    lk_cells : NoDup A /\ forall a, In a A -> in_dep a /\ a <> out;
    lk_water : forall a, In a A -> (wtd a <= 0)%Qc /\ wtd' a = qmax 0 (level - zq (elev_at dem a));
    lk_sill : ~ In sill A /\ (in_dep sill \/ sill = out) /\ (wtd sill <= wtd' sill)%Qc;
    lk_other : forall c, ~ In c A -> c <> sill -> wtd' c = wtd c }.
End Lake.

Section Basin.
  Variables (w h : Z) (dem lab : grid Z) (labels : list Z).
  Notation in_dep := (in_dep w h lab labels).
  (** from [p] one gets to the cell inside the depression without rising above [z] *)
  Inductive joined (z : Z) (p : cell) : cell -> Prop :=
  | jn_here : in_dep p -> elev_at dem p <= z -> joined z p p
  | jn_step q r : joined z p q -> neighbours D8 q r -> in_dep r -> elev_at dem r <= z -> joined z p r.
  (** the water under level [z] over the cells [R] *)
  Definition volume_under (z : Z) (R : list cell) : Z := zsum (map (fun c => Z.max 0 (z - elev_at dem c)) R).
  (** A depression seen from the cell [pit]: above the level [s] its cells fill up like one basin. For a
      depression without subdepressions [s] is its lowest level; for a metadepression it is the level at
      which the children merge. *)
  Record basin (pit out : cell) (s : Z) (R : list cell) : Prop := {
    ba_pit : in_dep pit /\ elev_at dem pit <= s;
    ba_out : inside w h out /\ s <= elev_at dem out;
    ba_cells : NoDup R /\ forall c, In c R <-> in_dep c /\ elev_at dem c <= elev_at dem out;
    ba_joined : forall z c, s <= z <= elev_at dem out -> in_dep c -> elev_at dem c <= z -> joined z pit c }.
  (** The water [vol] suffices to fill everything below the level [s] *)
  Definition reaches_level (out : cell) (s : Z) (R : list cell) (wtd : cell -> Qc) (vol : Qc) : Prop :=
    (forall c, In c R -> s <= elev_at dem c) \/
    ((zq (volume_under s R) - qsum (map wtd (filter (fun c => elev_at dem c <=? s) R)) <= vol)%Qc /\
     (s < elev_at dem out \/ wtd out = 0%Qc)).
  (** saturated ground, or amounts measured in millionths *)
  Definition millionths (q : Qc) : Prop := exists k, q = (zq k * tolerance)%Qc.
  Definition measured (out : cell) (R : list cell) (wtd : cell -> Qc) (vol : Qc) : Prop :=
    (forall c, In c R \/ c = out -> wtd c = 0%Qc) \/
    (millionths vol /\ forall c, In c R \/ c = out -> millionths (wtd c)).
  (** The depression with outlet [out] holds a lake of level [level]: every cell below the level is covered up to
      it, the other cells are not covered but may have absorbed water, and nothing else has changed. *)
  Record filled (out : cell) (level : Qc) (wtd wtd' : cell -> Qc) : Prop := {
    fi_covered : forall c, in_dep c -> (zq (elev_at dem c) < level)%Qc -> wtd' c = (level - zq (elev_at dem c))%Qc;
    fi_dry : forall c, in_dep c \/ c = out -> (level <= zq (elev_at dem c))%Qc -> (wtd c <= wtd' c)%Qc /\ (wtd' c <= qmax 0 (wtd c))%Qc;
    fi_other : forall c, ~ in_dep c -> c <> out -> wtd' c = wtd c }.
End Basin.

(** ** The whole of FillSpillMerge *)
(** every pit is lower than all its neighbours: no depression has volume 0 *)
Definition strict_pits (w h : Z) (dem lab0 : grid Z) : Prop :=
  forall p q, pit D8 w h dem lab0 p -> inside w h q -> neighbours D8 p q -> elev_at dem p < elev_at dem q.
(** no water anywhere above one of its neighbours: every lake is flat, and its shore is not below it *)
Definition at_rest (w h : Z) (dem : grid Z) (wtd : cell -> Qc) : Prop :=
  (forall c, inside w h c -> (0 <= wtd c)%Qc) /\
  (forall p q, inside w h p -> inside w h q -> neighbours D8 p q -> (0 < wtd p)%Qc ->
     (zq (elev_at dem p) + wtd p <= zq (elev_at dem q) + wtd q)%Qc).
(** a millionth for every depression and two for every cell *)
Definition allowance (w h : Z) (deps : list dep) : Qc := times (length deps + 2 * Z.to_nat (w * h)) tolerance.
(** Rain [wtd] on a terrain whose hierarchy is [deps] with watersheds [lab]; afterwards there is [wtd'] on the
    cells, and [wv'] in the depressions' records. *)
Record water_settled (w h : Z) (dem lab0 lab : grid Z) (deps : list dep) (wtd wtd' : cell -> Qc) (wv' : list Qc) : Prop := {
  wf_rest : at_rest w h dem wtd';
  (* the ocean swallows what reaches it *)
  wf_sea : forall c, ocean_cell w h lab0 c -> wtd' c = 0%Qc;
  (* nowhere does the water stand higher than the level at which it finds a way to the ocean *)
  wf_escape : forall p L, inside w h p -> (0 < wtd' p)%Qc -> escapes D8 w h dem (ocean_cell w h lab0) L p ->
    (zq (elev_at dem p) + wtd' p <= zq L)%Qc;
  wf_levelled : levelled deps wv';
  (* the depressions' records and the water on their cells agree *)
  wf_placed : forall d r q l, ix deps d = Some r -> d <> 0 -> ix wv' d = Some q -> q <> 0%Qc ->
    d_ocean_parent r = true \/ ix wv' (d_parent r) = Some 0%Qc ->
    listing (fun c => inside w h c /\ region lab deps d c) l ->
    within (times (S (length l)) tolerance) q (qsum (map wtd' l));
  (* a depression that is not full keeps all the rain that fell into it *)
  wf_kept : forall d r v q l, ix deps d = Some r -> d <> 0 -> d_vol r = Some v -> ix wv' d = Some q -> (q < zq v)%Qc ->
    listing (fun c => inside w h c /\ region lab deps d c) l ->
    (qsum (map wtd l) - allowance w h deps <= qsum (map wtd' l))%Qc;
  (* all the rain is on the land or has gone to the ocean *)
  wf_balance : exists sea, ix wv' 0 = Some sea /\ (0 <= sea)%Qc /\
    within (allowance w h deps) (surface_total w h wtd) (surface_total w h wtd' + sea) }.
