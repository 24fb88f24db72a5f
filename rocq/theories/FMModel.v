(** Flow metrics FM_*: include/richdem/flowmet/*.hpp.
    Elevations, slopes and proportions are exact rationals (the code uses the elevation type, double and
    float; rounding is not modelled). Random numbers, std::pow, std::atan2 and sqrt are parameters. *)
From Coq Require Import ZArith List Lia Bool QArith Qcanon.
From Verif Require Import Base Res Kahn FlowModel FAModel.
Open Scope Z_scope.

(** constants.hpp:83-85 *)
Definition NO_FLOW_GEN : Qc := Q2Qc (-1).
Definition HAS_FLOW_GEN : Qc := 0%Qc.
Definition NO_DATA_GEN : Qc := Q2Qc (-2).

(** one cell of an Array3D<float>: slots 0..8 (Array3D.hpp:378-384) *)
Definition row : Type := nat -> Qc.
Definition rset (r : row) (n : nat) (v : Qc) : row := fun k => if Nat.eqb k n then v else r k.
Definition ltq (a b : Qc) : bool := if Qclt_le_dec a b then true else false.   (* a < b *)

Section FM.
  (** the DEM: elevation, NoData value, width, height *)
  Variables (elev : grid Qc) (nd : Qc) (w h : Z).

  (** The loop common to all metrics: OCallaghan1984.hpp:26-45, Fairfield1991.hpp:24-41,
      Holmgren1994.hpp:25-46, Freeman1991.hpp:25-42, Tarboton1997.hpp:20-70. [cellf x y r] is the rest of
      the body, which reads the DEM and reads and writes only the slots [r] of its own cell; the OpenMP
      schedule is therefore given by the order in which the cells are processed. [props] has the
      dimensions of the DEM (as all callers construct it). *)
  Definition FM (cellf : Z -> Z -> row -> res row) (order : list (Z * Z)) : res (Z -> row) :=
    forM order (fun c props =>
      let '(x, y) := c in
      do e <- gat w h elev x y;
      if eqq e nd then Ok (aset props (y * w + x) (rset (props (y * w + x)) 0 NO_DATA_GEN))
      else if isEdgeCell w h x y then Ok props
      else do r <- cellf x y (props (y * w + x)); Ok (aset props (y * w + x) r)) (fun _ _ => NO_FLOW_GEN).

  (** ** FM_OCallaghan, FM_D8, FM_D4: OCallaghan1984.hpp:47-76. [maxe] is numeric_limits<elev_t>::max().
      The assert names a variable that does not exist, so it must be compiled out. *)
  Definition oc_step (t : topology) (x y : Z) (e : Qc) (n : nat) (acc : nat * Qc) : res (nat * Qc) :=
    do ne <- gat w h elev (x + dx t n) (y + dy t n);
    if eqq ne nd then Ok acc
    else if negb (ltq ne e) then Ok acc
    else if ltq ne (snd acc) then Ok (n, ne) else Ok acc.
  Definition oc_cell (t : topology) (maxe : Qc) (x y : Z) (r : row) : res row :=
    do e <- gat w h elev x y;
    do b <- forM (dirs t) (oc_step t x y e) (0%nat, maxe);
    if Nat.eqb (fst b) 0 then Ok r
    else Ok (rset (rset r 0 HAS_FLOW_GEN) (fst b) 1%Qc).
  Definition FM_OCallaghan (t : topology) (maxe : Qc) := FM (oc_cell t maxe).

  (** ** FM_FairfieldLeymarie, FM_Rho8, FM_Rho4: Fairfield1991.hpp:43-82.
      [rnd x y n] is what uniform_rand_real(0,1) returns when cell (x,y) looks in direction n. *)
  Definition rho_factor (t : topology) (u : Qc) (n : nat) : Qc :=
    match t with
    | D8 => if nth n n8_diag false then (/ (Q2Qc 2 - u))%Qc else 1%Qc
    | D4 => if (Nat.eqb n 2 || Nat.eqb n 4)%bool then (/ (/ u - 1))%Qc else 1%Qc   (* D4_NORTH = 2, D4_SOUTH = 4 *)
    end.
  Definition ff_step (t : topology) (rnd : Z -> Z -> nat -> Qc) (x y : Z) (e : Qc) (n : nat) (acc : nat * Qc) : res (nat * Qc) :=
    if negb (inGrid w h (x + dx t n) (y + dy t n)) then Ok acc
    else do ne <- gat w h elev (x + dx t n) (y + dy t n);
    if eqq ne nd then Ok acc
    else if negb (ltq ne e) then Ok acc
    else let rho := ((e - ne) * rho_factor t (rnd x y n) n)%Qc in
         if ltq (snd acc) rho then Ok (n, rho) else Ok acc.
  Definition ff_cell (t : topology) (rnd : Z -> Z -> nat -> Qc) (x y : Z) (r : row) : res row :=
    do e <- gat w h elev x y;
    do b <- forM (dirs t) (ff_step t rnd x y e) (0%nat, 0%Qc);
    if Nat.eqb (fst b) 0 then Ok r
    else Ok (rset (rset r 0 HAS_FLOW_GEN) (fst b) 1%Qc).
  Definition FM_FairfieldLeymarie (t : topology) (rnd : Z -> Z -> nat -> Qc) := FM (ff_cell t rnd).

  (** ** FM_Holmgren (and FM_Quinn), FM_Freeman: Holmgren1994.hpp:48-88, Freeman1991.hpp:44-87.
      [wt rise n] is std::pow(rise/dr[n]*L[n],xparam), respectively std::pow(rise/dr[n],xparam). *)
  (** wt is only used for n in 1..8 *)
  Definition mfd_step (wt : Qc -> nat -> Qc) (x y : Z) (e : Qc) (n : nat) (acc : row * Qc) : res (row * Qc) :=
    if negb (inGrid w h (x + dx D8 n) (y + dy D8 n)) then Ok acc
    else do ne <- gat w h elev (x + dx D8 n) (y + dy D8 n);
    if eqq ne nd then Ok acc
    else if ltq ne e then let v := wt (e - ne)%Qc n in Ok (rset (fst acc) n v, (snd acc + v)%Qc)
    else Ok acc.
  Definition mfd_norm (ic : Qc) (n : nat) (r : row) : res row :=
    if posq (r n) then Ok (rset r n (r n * ic)%Qc) else Ok (rset r n 0%Qc).
  Definition mfd_cell (wt : Qc -> nat -> Qc) (x y : Z) (r : row) : res row :=
    do e <- gat w h elev x y;
    do a <- forM (dirs D8) (mfd_step wt x y e) (r, 0%Qc);
    if posq (snd a) then forM (dirs D8) (mfd_norm (/ snd a)%Qc) (rset (fst a) 0 HAS_FLOW_GEN)
    else Ok (fst a).
  Definition FM_MFD (wt : Qc -> nat -> Qc) := FM (mfd_cell wt).

  (** ** FM_Tarboton, FM_Dinfinity: Tarboton1997.hpp:22-150. [dang] is the float atan2(1,1), [pi4] is
      M_PI/4, [eps] is 1e-7, [at2 s2 s1] is std::atan2(s2,s1), [hyp s1 s2] is sqrt(s1*s1+s2*s2) and
      [rt2] is sqrt(d1*d1+d2*d2). *)
  Record trig := { dang : Qc; pi4 : Qc; eps : Qc; rt2 : Qc; at2 : Qc -> Qc -> Qc; hyp : Qc -> Qc -> Qc }.
  Definition dy_e1 (n : nat) : Z := nth n [0; 0; -1; -1; 0; 0; 1; 1; 0] 0.
  Definition dx_e1 (n : nat) : Z := nth n [0; -1; 0; 0; 1; 1; 0; 0; -1] 0.
  Definition dy_e2 (n : nat) : Z := nth n [0; -1; -1; -1; -1; 1; 1; 1; 1] 0.
  Definition dx_e2 (n : nat) : Z := nth n [0; -1; -1; 1; 1; 1; 1; -1; -1] 0.
  Definition af_pos (n : nat) : bool := nth n [false; false; true; false; true; false; true; false; true] false.  (* af[n]==1 *)
  Definition nwrap (n : nat) : nat := if Nat.eqb n 9 then 1%nat else n.

  (** (nmax, smax, rmax); nmax = 0 stands for the code's -1 *)
  Definition tb_step (T : trig) (x y : Z) (n : nat) (acc : nat * Qc * Qc) : res (nat * Qc * Qc) :=
    if negb (inGrid w h (x + dx_e1 n) (y + dy_e1 n)) then Ok acc
    else do e1 <- gat w h elev (x + dx_e1 n) (y + dy_e1 n);
    if eqq e1 nd then Ok acc
    else if negb (inGrid w h (x + dx_e2 n) (y + dy_e2 n)) then Ok acc
    else do e2 <- gat w h elev (x + dx_e2 n) (y + dy_e2 n);
    if eqq e2 nd then Ok acc
    else do e0 <- gat w h elev x y;
    let s1 := (e0 - e1)%Qc in
    let s2 := (e1 - e2)%Qc in
    let r := at2 T s2 s1 in
    let rs := if ltq r (eps T) then (0%Qc, s1)
              else if ltq (dang T - eps T)%Qc r then (dang T, ((e0 - e2) / rt2 T)%Qc)
              else (r, hyp T s1 s2) in
    if ltq (snd (fst acc)) (snd rs) then Ok (n, snd rs, fst rs) else Ok acc.
  Definition tb_cell (T : trig) (x y : Z) (r : row) : res row :=
    do b <- forM (dirs D8) (tb_step T x y) (0%nat, 0%Qc, 0%Qc);
    let '(n, s, rm) := b in
    if Nat.eqb n 0 then Ok r
    else
      let r := rset r 0 HAS_FLOW_GEN in
      let rm := if af_pos n && eqq rm 0%Qc then dang T
                else if af_pos n && eqq rm (dang T) then 0%Qc
                else if af_pos n then (pi4 T - rm)%Qc else rm in
      if eqq rm 0%Qc then Ok (rset r n 1%Qc)
      else if eqq rm (dang T) then Ok (rset r (nwrap (n + 1)) 1%Qc)
      else Ok (rset (rset r n (rm / pi4 T)%Qc) (nwrap (n + 1)) (1 - rm / pi4 T)%Qc).
  Definition FM_Tarboton (T : trig) := FM (tb_cell T).
End FM.

(** Holmgren1994.hpp:22-24 L1, L2, L; constants.hpp:36,67 SQRT2, dr (the literals are rationals).
    [pw] stands for std::pow(_,xparam). *)
Definition SQRT2 : Qc := Q2Qc (1414213562373095048801688724209698078569671875376948 # 1000000000000000000000000000000000000000000000000000).
Definition dr (n : nat) : Qc := if nth n n8_diag false then SQRT2 else if Nat.eqb n 0 then 0%Qc else 1%Qc.
Definition LH (n : nat) : Qc := if nth n n8_diag false then Q2Qc (354 # 1000) else if Nat.eqb n 0 then 0%Qc else Q2Qc (1 # 2).
Definition holmgren_wt (pw : Qc -> Qc) (rise : Qc) (n : nat) : Qc := pw (rise / dr n * LH n)%Qc.
Definition freeman_wt (pw : Qc -> Qc) (rise : Qc) (n : nat) : Qc := pw (rise / dr n)%Qc.
Definition FM_Holmgren elev nd w h (pw : Qc -> Qc) := FM_MFD elev nd w h (holmgren_wt pw).
Definition FM_Freeman elev nd w h (pw : Qc -> Qc) := FM_MFD elev nd w h (freeman_wt pw).
(** Quinn1991.hpp:12-16: Holmgren with exponent 1 *)
Definition FM_Quinn elev nd w h := FM_Holmgren elev nd w h (fun q => q).
