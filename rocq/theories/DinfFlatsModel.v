(** Model of flats/flat_resolution_dinf.hpp over the real numbers (the float cast of the result is not modelled).
    Elevations are integers (any totally ordered NaN-free values for the flats; the D-infinity slopes take them as
    numbers). *)
From Coq Require Import ZArith Reals List Bool.
From Verif Require Import Base Res BFS FlowModel FlatsModel TAModel DinfModel.
Import ListNotations.
Open Scope Z_scope.

(** flat_resolution_dinf.hpp:15 *)
Definition d8_to_dinf : list R := [-1; 4 * PI / 4; 3 * PI / 4; 2 * PI / 4; 1 * PI / 4; 0; 7 * PI / 4; 6 * PI / 4; 5 * PI / 4]%R.

(** flat_resolution_dinf.hpp:30-56: one pass of the loop over the facets; the state is (nmax, smax, rmax) *)
Definition masked_facet_step (w h : Z) (mask groups : grid Z) (x y : Z) (n : Z) (st : Z * R * R) : res (Z * R * R) :=
  let '(nmax, smax, rmax) := st in
  do x1 <- rd dx_e1 n; do y1 <- rd dy_e1 n; do x2 <- rd dx_e2 n; do y2 <- rd dy_e2 n;
  do g1 <- gat w h groups (x + x1) (y + y1);
  do g <- gat w h groups x y;
  if negb (g1 =? g) then Ok st
  else
    do g2 <- gat w h groups (x + x2) (y + y2);
    if negb (g2 =? g) then Ok st
    else
      do e0 <- gat w h mask x y;
      do e1 <- gat w h mask (x + x1) (y + y1);
      do e2 <- gat w h mask (x + x2) (y + y2);
      let '(r, s) := facet (IZR e0) (IZR e1) (IZR e2) in
      if Rgt_dec s smax then Ok (n, s, r) else Ok st.

(** flat_resolution_dinf.hpp:17-71 dinf_masked_FlowDir *)
Definition dinf_masked_FlowDir (w h : Z) (mask groups : grid Z) (x y : Z) : res R :=
  do st <- forM [0; 1; 2; 3; 4; 5; 6; 7] (masked_facet_step w h mask groups x y) (-1, 0%R, 0%R);
  let '(nmax, smax, rmax) := st in
  if negb (nmax =? -1) then do f <- rd af nmax; do c <- rd ac nmax; Ok (f * rmax + c * PI / 2)%R
  else
    do b <- firstM (dirs D8) (fun n =>
      do gn <- gat w h groups (x + dx D8 n) (y + dy D8 n);
      do g <- gat w h groups x y;
      if gn =? g then
        do mn <- gat w h mask (x + dx D8 n) (y + dy D8 n);
        do m <- gat w h mask x y;
        Ok (if mn <? m then Some n else None)
      else Ok None);
    match b with Some n => rd d8_to_dinf (Z.of_nat n) | None => Ok 0%R end.

(** flat_resolution_dinf.hpp:73-95 dinf_flow_flats; flat_mask.noData() is -1 (flat_resolution.hpp:471).
    [order]: the cells with 1<=x<w-1, 1<=y<h-1 in the order in which the threads write them *)
Definition dinf_flow_flats (w h : Z) (mask groups : grid Z) (order : list cellt) (fd : grid R) : res (grid R) :=
  forM order (fun c g =>
    do m <- gat w h mask (fst c) (snd c);
    if m =? -1 then Ok g
    else do d <- gat w h g (fst c) (snd c);
      if Req_EM_T d 0 then do d' <- dinf_masked_FlowDir w h mask groups (fst c) (snd c); Ok (gset g (fst c) (snd c) d')
      else Ok g) fd.

(** resolve_flats_barnes looks at the directions only to compare them with noData() and NO_FLOW
    (flat_resolution.hpp:186,286,395-409): the outcomes of these comparisons as the codes of FlatsModel *)
Definition status (fd : grid R) : grid Z := fun x y =>
  if Req_EM_T (fd x y) dinf_NO_DATA then FLOWDIR_NO_DATA else if Req_EM_T (fd x y) 0 then FlowModel.NO_FLOW else 1.

(** flat_resolution_dinf.hpp:97-108 resolve_flats_barnes_dinf *)
Definition resolve_flats_barnes_dinf (w h : Z) (elev : grid Z) (nd : Z) (o1 o2 : list cellt) : option (res (grid R)) :=
  dof fd <- Some (dinf_flow_directions w h (fun x y => IZR (elev x y)) (IZR nd) o1);
  dof ml <- resolve_flats_barnes elev (status fd) w h;
  Some (dinf_flow_flats w h (fst ml) (snd ml) o2 fd).
