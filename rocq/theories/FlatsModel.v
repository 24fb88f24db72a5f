(** Finding and resolving flats.
    Models include/richdem/flats/find_flats.hpp, include/richdem/flats/Barnes2014.hpp (all but
    ResolveFlatsFlowdirs_Barnes2014, which cannot be instantiated: Array2D has no member at()),
    include/richdem/flats/flats.hpp and include/richdem/flats/flat_resolution.hpp.
    Elevations are integers standing for the (totally ordered, NaN-free) representable values; the int
    mask, label and height values are mathematical integers. Logging, progress bars and the counters
    that are only logged (cells_without_flow, raise_warn) are omitted. *)
From Coq Require Import ZArith List Lia Bool.
From Verif Require Import Base Res BFS FlowModel.
Open Scope Z_scope.

(** [for(n..) if(p(n)) {found; break;}] *)
Fixpoint anyM {I} (is : list I) (p : I -> res bool) : res bool :=
  match is with [] => Ok false | i :: is' => do b <- p i; if b then Ok true else anyM is' p end.
(** the same, reporting what was found *)
Fixpoint firstM {I A} (is : list I) (p : I -> res (option A)) : res (option A) :=
  match is with
  | [] => Ok None
  | i :: is' => do r <- p i; match r with Some a => Ok (Some a) | None => firstM is' p end
  end.
(** [for(n..) if(p(n)) v.push_back(..)] *)
Fixpoint collectM {I A} (is : list I) (p : I -> res (option A)) : res (list A) :=
  match is with
  | [] => Ok []
  | i :: is' => do r <- p i; do l <- collectM is' p; Ok (match r with Some a => a :: l | None => l end)
  end.

Definition step8 (c : cellt) (n : nat) : cellt := (fst c + dx D8 n, snd c + dy D8 n).

(** ** find_flats.hpp *)
(** find_flats.hpp:10-12 *)
Definition FLAT_NO_DATA : Z := -1.
Definition NOT_A_FLAT : Z := 0.
Definition IS_A_FLAT : Z := 1.

(** find_flats.hpp:43-65, one cell *)
Definition find_flat_cell (elev : grid Z) (nd w h x y : Z) : res Z :=
  do e <- gat w h elev x y;
  if e =? nd then Ok FLAT_NO_DATA
  else if isEdgeCell w h x y then Ok NOT_A_FLAT
  else do b <- anyM (dirs D8) (fun n => do v <- gat w h elev (x + dx D8 n) (y + dy D8 n); Ok ((v <? e) || (v =? nd)));
       Ok (if b then NOT_A_FLAT else IS_A_FLAT).

(** find_flats.hpp:28-69 FindFlats. [order]: the order in which the cells of the parallel loop are
    written; an iteration reads only the DEM and writes only its own cell. *)
Definition FindFlats (elev : grid Z) (nd w h : Z) (order : list cellt) : res (grid Z) :=
  forM order (fun c fl => do v <- find_flat_cell elev nd w h (fst c) (snd c); Ok (gset fl (fst c) (snd c) v))
       (fun _ _ => 0).

(** ** Barnes2014.hpp and flat_resolution.hpp
    The two files contain the same algorithm over different status rasters. *)
Record codes := mkCodes {
  q_nd : Z -> bool;     (* the status of a NoData cell *)
  q_flat : Z -> bool;   (* no local gradient *)
  q_flow : Z -> bool;   (* has a local gradient *)
  q_skip : bool }.      (* find edges: neighbours with NoData status are skipped *)
(** Barnes2014.hpp:330,344-345,355: flats.isNoData, IS_A_FLAT, NOT_A_FLAT *)
Definition flats_codes : codes := mkCodes (fun v => v =? FLAT_NO_DATA) (fun v => v =? IS_A_FLAT) (fun v => v =? NOT_A_FLAT) false.
(** flat_resolution.hpp:395,404,406,409: flowdirs.noData() = FLOWDIR_NO_DATA (d8_flowdirs.hpp:108) and NO_FLOW *)
Definition dirs_codes : codes := mkCodes (fun v => v =? FLOWDIR_NO_DATA) (fun v => v =? NO_FLOW) (fun v => negb (v =? NO_FLOW)) true.

Inductive edge_kind := LowEdge | HighEdge.

Section Resolve.
  Variable K : codes.
  Variables w h : Z.

  (** Barnes2014.hpp:333-362, flat_resolution.hpp:399-413: one neighbour of the focal cell *)
  Definition edge_probe (st elev : grid Z) (c : cellt) (s : Z) (n : nat) : res (option edge_kind) :=
    let '(nx, ny) := step8 c n in
    if negb (inGrid w h nx ny) then Ok None
    else do sn <- gat w h st nx ny;
      if q_skip K && q_nd K sn then Ok None
      else do en <- gat w h elev nx ny;
        do e <- gat w h elev (fst c) (snd c);
        if q_flow K s && q_flat K sn && (en =? e) then Ok (Some LowEdge)
        else if q_flat K s && (e <? en) then Ok (Some HighEdge)
        else Ok None.

  (** Barnes2014.hpp:309-369 FindFlatEdges, flat_resolution.hpp:382-418 find_flat_edges: the edge queues
      (low_edges, high_edges). In Barnes2014.hpp the loop over all cells is parallel and the pushes are in
      critical sections, so [order] may be any order of the cells; in flat_resolution.hpp the loop runs
      column by column. *)
  Definition find_edges (st elev : grid Z) (order : list cellt) : res (list cellt * list cellt) :=
    forM order (fun c q =>
      do s <- gat w h st (fst c) (snd c);
      if q_nd K s then Ok q
      else do r <- firstM (dirs D8) (edge_probe st elev c s);
        Ok (match r with
            | None => q
            | Some LowEdge => (fst q ++ [c], snd q)
            | Some HighEdge => (fst q, snd q ++ [c])
            end)) ([], []).

  (** Barnes2014.hpp:257-279, flat_resolution.hpp:343-354: the body of the flood *)
  Definition label_visit (elev : grid Z) (target label : Z) (c : cellt) (labels : grid Z) : res (grid Z * list cellt) :=
    do e <- gat w h elev (fst c) (snd c);
    if negb (e =? target) then Ok (labels, [])
    else do l <- gat w h labels (fst c) (snd c);
      if l >? 0 then Ok (labels, [])
      else Ok (gset labels (fst c) (snd c) label,
               filter (fun d => inGrid w h (fst d) (snd d)) (map (step8 c) (dirs D8))).

  (** Barnes2014.hpp:244-280 LabelFlat, flat_resolution.hpp:332-355 label_this *)
  Definition LabelFlat (elev : grid Z) (c : cellt) (label : Z) (labels : grid Z) : option (res (grid Z)) :=
    dof target <- Some (gat w h elev (fst c) (snd c));
    fifo_loop (label_visit elev target label) (1 + 9 * (Z.to_nat w * Z.to_nat h)) [c] labels.

  (** Barnes2014.hpp:438-441, flat_resolution.hpp:484-487; the state is (labels, group_number) *)
  Definition label_all (elev : grid Z) (low : list cellt) : option (res (grid Z * Z)) :=
    forF low (fun c s =>
      dof l <- Some (gat w h (fst s) (fst c) (snd c));
      if l =? 0 then dof labels' <- LabelFlat elev c (snd s) (fst s); Some (Ok (labels', snd s + 1))
      else Some (Ok s)) (fun _ _ => 0, 1).

  (** Barnes2014.hpp:446-453, flat_resolution.hpp:493-495: high edges with a label *)
  Definition keep_labelled (labels : grid Z) (high : list cellt) : res (list cellt) :=
    collectM high (fun c => do l <- gat w h labels (fst c) (snd c); Ok (if l =? 0 then None else Some c)).

  (** Barnes2014.hpp:95-105,196-206, flat_resolution.hpp:186-193,286-293: neighbours of the same flat to push *)
  Definition grad_nbrs (st labels : grid Z) (c : cellt) : res (list cellt) :=
    collectM (dirs D8) (fun n =>
      let '(nx, ny) := step8 c n in
      if negb (inGrid w h nx ny) then Ok None
      else do ln <- gat w h labels nx ny;
        do lc <- gat w h labels (fst c) (snd c);
        if ln =? lc then do s <- gat w h st nx ny; Ok (if q_flat K s then Some (nx, ny) else None)
        else Ok None).

  (** mask raster and flat_height vector *)
  Notation gstate := (grid Z * list Z)%type.

  (** Barnes2014.hpp:89-105, flat_resolution.hpp:181-193 *)
  Definition away_visit (st labels : grid Z) (c : cellt) (loops : Z) (s : gstate) : res (gstate * list cellt) :=
    do m <- gat w h (fst s) (fst c) (snd c);
    if m >? 0 then Ok (s, [])
    else do l <- gat w h labels (fst c) (snd c);
      do height' <- wr (snd s) l loops;
      do new <- grad_nbrs st labels c;
      Ok ((gset (fst s) (fst c) (snd c) loops, height'), new).

  (** Barnes2014.hpp:187-206, flat_resolution.hpp:278-293 *)
  Definition towards_visit (st labels : grid Z) (c : cellt) (loops : Z) (s : gstate) : res (gstate * list cellt) :=
    do m <- gat w h (fst s) (fst c) (snd c);
    if m >? 0 then Ok (s, [])
    else do m' <- (if negb (m =? 0)
                   then do l <- gat w h labels (fst c) (snd c); do H <- rd (snd s) l; Ok ((H + m) + 2 * loops)
                   else Ok (2 * loops));
      do new <- grad_nbrs st labels c;
      Ok ((gset (fst s) (fst c) (snd c) m', snd s), new).

  (** iterations the gradient loops may take for a queue of [k] start cells *)
  Definition grad_fuel (k : nat) : nat := 2 * (k + 9 * (Z.to_nat w * Z.to_nat h)) + 1.

  (** Barnes2014.hpp:62-110, flat_resolution.hpp:152-198 BuildAwayGradient *)
  Definition BuildAwayGradient (st labels : grid Z) (high : list cellt) (s : gstate) : option (res gstate) :=
    level_loop (away_visit st labels) (grad_fuel (length high)) (map Some high ++ [None]) 1 s.

  (** Barnes2014.hpp:152-211, flat_resolution.hpp:242-298 BuildTowardsCombinedGradient; the negation of
      the mask is a parallel loop over all cells in which every iteration touches only its own cell *)
  Definition BuildTowardsCombinedGradient (st labels : grid Z) (low : list cellt) (s : gstate) : option (res gstate) :=
    level_loop (towards_visit st labels) (grad_fuel (length low)) (map Some low ++ [None]) 1
      ((fun x y => if inGrid w h x y then - fst s x y else fst s x y), snd s).

  (** Barnes2014.hpp:416-467 GetFlatMask after FindFlats, flat_resolution.hpp:448-517 resolve_flats_barnes:
      (flat_mask, labels) *)
  Definition flat_mask_of (st elev : grid Z) (order : list cellt) : option (res (grid Z * grid Z)) :=
    dof edges <- Some (find_edges st elev order);
    let low := fst edges in
    let high := snd edges in
    if Nat.eqb (length low) 0 then Some (Ok (fun _ _ => 0, fun _ _ => 0))
    else
      dof lg <- label_all elev low;
      let labels := fst lg in
      dof high' <- Some (keep_labelled labels high);
      dof s1 <- BuildAwayGradient st labels high' (fun _ _ => 0, repeat 0 (Z.to_nat (snd lg)));
      dof s2 <- BuildTowardsCombinedGradient st labels low s1;
      Some (Ok (fst s2, labels)).
End Resolve.

(** Barnes2014.hpp:398-467 GetFlatMask(elevations, flat_mask, labels); [o1], [o2]: orders in which the
    iterations of the two parallel loops (FindFlats, FindFlatEdges) take effect *)
Definition GetFlatMask (elev : grid Z) (nd w h : Z) (o1 o2 : list cellt) : option (res (grid Z * grid Z)) :=
  dof st <- Some (FindFlats elev nd w h o1);
  flat_mask_of flats_codes w h st elev o2.

(** flat_resolution.hpp:448-517 resolve_flats_barnes(elevations, flowdirs, flat_mask, labels) *)
Definition resolve_flats_barnes (elev fd : grid Z) (w h : Z) : option (res (grid Z * grid Z)) :=
  flat_mask_of dirs_codes w h fd elev (cells w h).

(** [next]: the effect of elevations(x,y)=std::nextafter(elevations(x,y),infinity) on an elevation.
    For a floating point DEM the elevations are numbered in increasing order, so this is the successor,
    except at infinity ([top]). *)
Definition next_float (top v : Z) : Z := if v =? top then top else v + 1.
(** For an integer DEM std::numeric_limits<U>::infinity() is 0, std::nextafter moves the (double) value
    towards 0 and the assignment truncates towards 0. *)
Definition next_int (v : Z) : Z := if v =? 0 then 0 else if v >? 0 then v - 1 else v + 1.

(** Barnes2014.hpp:496-550 ResolveFlatsEpsilon_Barnes2014, flat_resolution.hpp:546-582 d8_flats_alter_dem
    (next_float: U is float there). The check that only feeds a warning is omitted. [order]: the interior
    cells in any order. *)
Definition alter_dem (next : Z -> Z) (w h : Z) (mask labels elev : grid Z) (order : list cellt) : res (grid Z) :=
  forM order (fun c g =>
    do l <- gat w h labels (fst c) (snd c);
    if l =? 0 then Ok g
    else do m <- gat w h mask (fst c) (snd c);
      do e <- gat w h g (fst c) (snd c);
      Ok (gset g (fst c) (snd c) (Nat.iter (Z.to_nat m) next e))) elev.

(** cells with 1<=x<w-1 and 1<=y<h-1 *)
Definition interior_cells (w h : Z) : list cellt :=
  list_prod (zrange 1 (Z.to_nat (w - 2))) (zrange 1 (Z.to_nat (h - 2))).

(** flats.hpp:21-28 ResolveFlatsEpsilon *)
Definition ResolveFlatsEpsilon (next : Z -> Z) (elev : grid Z) (nd w h : Z) (o1 o2 o3 : list cellt) : option (res (grid Z)) :=
  dof ml <- GetFlatMask elev nd w h o1 o2;
  Some (alter_dem next w h (fst ml) (snd ml) elev o3).

(** flat_resolution.hpp:53-62, one neighbour; state (minimum_elevation, flowdir) *)
Definition masked_step (mask labels : grid Z) (w h x y : Z) (n : nat) (st : Z * Z) : res (Z * Z) :=
  let '(m, fd) := st in
  let nx := x + dx D8 n in
  let ny := y + dy D8 n in
  do ln <- gat w h labels nx ny;
  do lc <- gat w h labels x y;
  if negb (ln =? lc) then Ok st
  else do v <- gat w h mask nx ny;
    if (v <? m) || ((v =? m) && (fd >? 0) && Z.even fd && Nat.odd n)
    then Ok (v, Z.of_nat n) else Ok st.

(** flat_resolution.hpp:42-65 d8_masked_FlowDir *)
Definition d8_masked_FlowDir (mask labels : grid Z) (w h x y : Z) : res Z :=
  do m0 <- gat w h mask x y;
  do st <- forM (dirs D8) (masked_step mask labels w h x y) (m0, NO_FLOW);
  Ok (snd st).

(** flat_resolution.hpp:97-116 d8_flow_flats; flat_mask.noData() is -1 (flat_resolution.hpp:471).
    [order]: the interior cells in any order. *)
Definition d8_flow_flats (mask labels : grid Z) (w h : Z) (order : list cellt) (fd : grid Z) : res (grid Z) :=
  forM order (fun c g =>
    do m <- gat w h mask (fst c) (snd c);
    if m =? -1 then Ok g
    else do d <- gat w h g (fst c) (snd c);
      if d =? NO_FLOW
      then do d' <- d8_masked_FlowDir mask labels w h (fst c) (snd c); Ok (gset g (fst c) (snd c) d')
      else Ok g) fd.

(** flat_resolution.hpp:588-605 barnes_flat_resolution_d8(elevations, flowdirs, alter): the final
    elevations and flow directions. [o1], [o2], [o3]: orders of the parallel loops. *)
Definition barnes_flat_resolution_d8 (top : Z) (elev : grid Z) (nd w h : Z) (alter : bool) (o1 o2 o3 : list cellt) :
    option (res (grid Z * grid Z)) :=
  dof fd <- Some (d8_flow_directions elev nd w h o1);
  dof ml <- resolve_flats_barnes elev fd w h;
  if alter then
    dof e' <- Some (alter_dem (next_float top) w h (fst ml) (snd ml) elev o2);
    dof fd' <- Some (d8_flow_directions e' nd w h o3);
    Some (Ok (e', fd'))
  else
    dof fd' <- Some (d8_flow_flats (fst ml) (snd ml) w h o2 fd);
    Some (Ok (elev, fd')).
