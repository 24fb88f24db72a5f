(** Model of flowmet/dinf_flowdirs.hpp and methods/dinf_methods.hpp over the real numbers (the code stores the angles as
    floats and accumulates in the type of the area raster; rounding is not modelled). Asserts that fail are [Undef]. *)
From Coq Require Import ZArith Reals List Bool.
From Verif Require Import Base Res Kahn FlowModel TAModel.
Import ListNotations.
Open Scope Z_scope.

(** dinf_flowdirs.hpp:25-30 *)
Definition dy_e1 : list Z := [0; -1; -1; 0; 0; 1; 1; 0].
Definition dx_e1 : list Z := [1; 0; 0; -1; -1; 0; 0; 1].
Definition dy_e2 : list Z := [-1; -1; -1; -1; 1; 1; 1; 1].
Definition dx_e2 : list Z := [1; 1; -1; -1; -1; -1; 1; 1].
Definition ac : list R := [0; 1; 1; 2; 2; 3; 3; 4]%R.
Definition af : list R := [1; -1; 1; -1; 1; -1; 1; -1]%R.

(** std::atan2 as called here, with zeros that are differences of equal numbers, hence +0: atan2(+0,+0) = +0 *)
Definition datan2 (y x : R) : R := if Req_EM_T y 0 then if Req_EM_T x 0 then 0%R else atan2 y x else atan2 y x.

(** dinf_flowdirs.hpp:78-106: slope and clipped angle of one facet; d1 = d2 = 1 *)
Definition facet (e0 e1 e2 : R) : R * R :=
  (let s1 := (e0 - e1) / 1 in
   let s2 := (e1 - e2) / 1 in
   let r := datan2 s2 s1 in
   if Rlt_dec r 0 then (0, s1)
   else if Rgt_dec r (datan2 1 1) then (datan2 1 1, (e0 - e2) / sqrt (1 * 1 + 1 * 1))
   else (r, sqrt (s1 * s1 + s2 * s2)))%R.

(** dinf_flowdirs.hpp:74-113: one pass of the loop over the facets; the state is (nmax, smax, rmax) *)
Definition facet_step (w h : Z) (elev : grid R) (x y : Z) (n : Z) (st : Z * R * R) : res (Z * R * R) :=
  let '(nmax, smax, rmax) := st in
  do x1 <- rd dx_e1 n; do y1 <- rd dy_e1 n; do x2 <- rd dx_e2 n; do y2 <- rd dy_e2 n;
  do e0 <- gat w h elev x y;
  do e1 <- gat w h elev (x + x1) (y + y1);
  do e2 <- gat w h elev (x + x2) (y + y2);
  let '(r, s) := facet e0 e1 e2 in
  if Rgt_dec s smax then Ok (n, s, r) else Ok st.

(** dinf_flowdirs.hpp:45-121 dinf_FlowDir; NO_FLOW is 0 *)
Definition dinf_FlowDir (w h : Z) (elev : grid R) (x y : Z) : res R :=
  let rest :=
    do st <- forM [0; 1; 2; 3; 4; 5; 6; 7] (facet_step w h elev x y) (-1, 0%R, 0%R);
    let '(nmax, smax, rmax) := st in
    if nmax =? -1 then Ok 0%R
    else do f <- rd af nmax; do c <- rd ac nmax; Ok (f * rmax + c * PI / 2)%R in
  if isEdgeCell w h x y then
    if (x =? 0) && (y =? 0) then Ok (3 * PI / 4)%R
    else if (x =? 0) && (y =? h - 1) then Ok (5 * PI / 4)%R
    else if (x =? w - 1) && (y =? 0) then Ok (1 * PI / 4)%R
    else if (x =? w - 1) && (y =? h - 1) then Ok (7 * PI / 4)%R
    else if x =? 0 then Ok (4 * PI / 4)%R
    else if x =? w - 1 then Ok (0 * PI / 4)%R
    else if y =? 0 then Ok (2 * PI / 4)%R
    else if y =? h - 1 then Ok (6 * PI / 4)%R
    else rest
  else rest.

(** dinf_flowdirs.hpp:23,135-160 dinf_flow_directions. [order]: the order in which the threads write the cells *)
Definition dinf_NO_DATA : R := (-1)%R.
Definition dinf_flow_directions (w h : Z) (elev : grid R) (nd : R) (order : list cellt) : res (grid R) :=
  forM order (fun p fd =>
    let '(x, y) := p in
    do e <- gat w h elev x y;
    if Req_EM_T e nd then Ok (gset fd x y dinf_NO_DATA)
    else do d <- dinf_FlowDir w h elev x y; Ok (gset fd x y d)) (fun _ _ => 0%R).

(** dinf_methods.hpp:26-27 *)
Definition dinf_dx : list Z := [1; 1; 0; -1; -1; -1; 0; 1; 1].
Definition dinf_dy : list Z := [0; -1; -1; -1; 0; 1; 1; 1; 0].

(** dinf_methods.hpp:54-77 where_do_i_flow: (nhigh, nlow). The conversion to int cuts off the fraction of a number that
    is not negative; std::round of such a number *)
Definition where_do_i_flow (flowdir : R) : res (Z * Z) :=
  (if Rle_dec 0 flowdir then
     if Rle_dec flowdir (2 * PI + / 1000000) then
       let q := flowdir / (PI / 4) in
       let k := Int_part q in
       let '(nhigh, nlow) :=
         (if Rlt_dec (Rabs (q - IZR k)) (/ 1000000) then (Int_part (q + 1 / 2), -1)
          else ((k + 1), k))%Z in
       if (0 <=? nhigh)%Z && (nhigh <=? 8)%Z then Ok (nhigh, nlow) else Undef
     else Undef
   else Undef)%R.

(** dinf_methods.hpp:80-90 area_proportion: (phigh, plow) *)
Definition area_proportion (flowdir : R) (nhigh nlow : Z) : R * R :=
  (if (nlow =? -1)%Z then (1, 0)
   else let phigh := (IZR nhigh * (PI / 4) - flowdir) / (PI / 4) in (phigh, 1 - phigh))%R.

(** dependency, area and the queue of sources *)
Notation rstate := (@kst cellt R).

Definition isND (fnd v : R) : bool := if Req_EM_T v fnd then true else false.

Definition inc (d : cellt -> Z) (c : cellt) : cellt -> Z := cset d c (d c + 1).

(** dinf_methods.hpp:153-184: one pass of the dependency loop *)
Definition di_dep (w h : Z) (fd : grid R) (fnd : R) (c : cellt) (s : rstate) : res rstate :=
  let '(x, y) := c in
  do v <- gat w h fd x y;
  if isND fnd v then Ok (mkK (cset (k_dep s) c 9) (cset (k_val s) c dinf_NO_DATA) (k_q s))
  else if Req_EM_T v 0 then Ok s
  else
    do nn <- where_do_i_flow v;
    let '(n_high, n_low) := nn in
    do hx <- rd dinf_dx n_high; do hy <- rd dinf_dy n_high;
    do d1 <- (if n_low =? -1 then Ok (k_dep s)
              else do lx <- rd dinf_dx n_low; do ly <- rd dinf_dy n_low;
                   if inGrid w h (x + lx) (y + ly) then
                     do m <- gat w h fd (x + lx) (y + ly);
                     if isND fnd m then Ok (k_dep s) else Ok (inc (k_dep s) (x + lx, y + ly))
                   else Ok (k_dep s));
    do d2 <- (if inGrid w h (x + hx) (y + hy) then
                do m <- gat w h fd (x + hx) (y + hy);
                if isND fnd m then Ok d1 else Ok (inc d1 (x + hx, y + hy))
              else Ok d1);
    Ok (mkK d2 (k_val s) (k_q s)).

(** [(--dependency(m))==0] and the push *)
Definition dec_push (m : cellt) (s : rstate) : rstate :=
  let d' := k_dep s m - 1 in
  mkK (cset (k_dep s) m d') (k_val s) (if d' =? 0 then k_q s ++ [m] else k_q s).
Definition add_area (m : cellt) (v : R) (s : rstate) : rstate :=
  mkK (k_dep s) (cset (k_val s) m (k_val s m + v)%R) (k_q s).

(** dinf_methods.hpp:214-248: the body of the while loop for the cell taken off the queue *)
Definition di_step (w h : Z) (fd : grid R) (fnd : R) (c : cellt) (s : rstate) : res rstate :=
  let '(x, y) := c in
  do v <- gat w h fd x y;
  if isND fnd v then Ok s
  else
    let s1 := add_area c 1%R s in
    if Req_EM_T v 0 then Ok s1
    else
      do nn <- where_do_i_flow v;
      let '(n_high, n_low) := nn in
      do hx <- rd dinf_dx n_high; do hy <- rd dinf_dy n_high;
      let hc := (x + hx, y + hy) in
      let '(phigh, plow) := area_proportion v n_high n_low in
      do s2 <- (if inGrid w h (x + hx) (y + hy) then
                  do m <- gat w h fd (x + hx) (y + hy);
                  if isND fnd m then Ok s1 else Ok (add_area hc (k_val s1 c * phigh)%R s1)
                else Ok s1);
      do s3 <- (if n_low =? -1 then Ok s2
                else do lx <- rd dinf_dx n_low; do ly <- rd dinf_dy n_low;
                     if inGrid w h (x + lx) (y + ly) then
                       do m <- gat w h fd (x + lx) (y + ly);
                       if isND fnd m then Ok s2
                       else Ok (dec_push (x + lx, y + ly) (add_area (x + lx, y + ly) (k_val s2 c * plow)%R s2))
                     else Ok s2);
      if inGrid w h (x + hx) (y + hy) then
        do m <- gat w h fd (x + hx) (y + hy);
        if isND fnd m then Ok s3 else Ok (dec_push hc s3)
      else Ok s3.

(** dinf_methods.hpp:116-251 dinf_upslope_area. [order]: the order in which the passes of the parallel dependency loop
    take effect, each as a whole (the increments of the counters by different threads are a data race, as in C19). *)
Definition dinf_upslope_area (w h : Z) (fd : grid R) (fnd : R) (order : list cellt) : option (res (cellt -> R)) :=
  match forM order (di_dep w h fd fnd) (mkK (fun _ => 0) (fun _ => 0%R) []) with
  | Ok s =>
      let src := filter (fun c => negb (isND fnd (fd (fst c) (snd c))) &&
                                  negb (if Req_EM_T (fd (fst c) (snd c)) 0 then true else false) &&
                                  (k_dep s c =? 0)) (scan w h) in
      match whileR kpop (di_step w h fd fnd) (Z.to_nat w * Z.to_nat h) 0 (mkK (k_dep s) (k_val s) src) with
      | Some (Ok s') => Some (Ok (k_val s'))
      | Some Thrown => Some Thrown
      | Some Undef => Some Undef
      | None => None
      end
  | Thrown => Some Thrown
  | Undef => Some Undef
  end.
