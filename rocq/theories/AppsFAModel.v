(** The program apps/rd_flow_accumulation.cpp on raster files. D8 is modelled in full: the flow metric (FMModel), which only compares elevations and is run on their ranks (AppsDepModel),
    and the accumulation in IEEE arithmetic (FAFModel). The other five metrics are parameters. *)
From Coq Require Import ZArith List Lia Bool String Ascii QArith Qcanon.
From Flocq Require Import Core BinarySingleNaN.
From Verif Require Import Base Res ArrModel Kahn FlowModel FAModel FMModel FAFModel PyModel PyIntModel PyNumModel GDALModel AppsGDALModel AppsDepModel.
Open Scope Z_scope.
Open Scope list_scope.

(** the rank of numeric_limits<T>::max() *)
Definition largest (T : dtype) : Z :=
  match T with Float32 => (2 ^ 24 - 1) * 2 ^ 253 | Float64 => (2 ^ 53 - 1) * 2 ^ 2045 | _ => dmax T end.
(** a rational as a double: exact if it is one and not smaller than 2^-1023 *)
Definition dbl (q : Qc) : float64 := Bdiv mode_NE (f64_of_Z (Qnum q)) (f64_of_Z (Zpos (Qden q))).
(** Array2D.hpp:1378-1381 getCellArea *)
Definition getCellArea (g : list Qc) : res float64 := do g1 <- rd g 1; do g5 <- rd g 5; Ok (Babs (Bmult mode_NE (dbl g1) (dbl g5))).
(** Array2D.hpp:1406-1410 scale: NoData cells are left out *)
Definition scale (nd x : float64) (v : float64) : float64 := if Beqb v nd then v else Bmult mode_NE v x.

(** methods/flow_accumulation.hpp:27 FA_D8 with weights 1. The D8 metric writes only the integers -2, -1, 0 and 1, which are floats. [order]: the order in which threads process cells *)
Definition FA_D8 (order : list (Z * Z)) (maxe w h : Z) (e : grid Z) (nd : Z) : res (Z -> float64) :=
  let q := fun z => Q2Qc (inject_Z z) in
  do P <- FM_OCallaghan (fun x y => q (e x y)) (q nd) w h D8 (q maxe) order;
  match FlowAccumulationF w h (fun i n => f32_of_Z (Qnum (P i n))) w h (fun _ => f64_of_Z 1) with Some r => r | None => Undef end.

Section Apps.
  Variable convert : dtype -> val -> val.
  Variable now prog : string.
  Variable writable : string -> bool.
  Variable analysis : string.
  Variable order : list (Z * Z).
  (** std::stof *)
  Variable stof : string -> res float32.
  (** what algorithms 2 to 6 compute, cell by cell *)
  Variable others : Z -> float32 -> garr -> res (Z -> float64).

  (** rd_flow_accumulation.cpp:15-37 the switch. 7, 8 and 9 print a message; other numbers do nothing *)
  Definition accumulate (n : Z) (param : float32) (a : garr) (l : list val) : res (Z -> float64) :=
    if n =? 1 then FA_D8 order (largest (g_type a)) (g_w a) (g_h a) (elevations a l) (rank (g_nd a))
    else if (2 <=? n) && (n <=? 6) then others n param a
    else Ok (fun _ => f64_of_Z 1).
  (** rd_flow_accumulation.cpp:9-44, 74-92. The accumulation is an Array2D<double> with the description of the DEM, NoData value -1 (Array2D.hpp:114, constants.hpp:88) *)
  Definition rd_flow_accumulation (fs : files) (inp out alg : string) (param : option string) : res (Z * files) :=
    do n <- stoi alg;
    do q <- (if (n =? 4) || (n =? 5) || (n =? 7) || (n =? 8) || (n =? 9)
             then match param with None => Ok None | Some s => do p <- stof s; Ok (Some p) end
             else Ok (Some (f32_of_Z 0)));
    match q with
    | None => Ok (-1, fs)
    | Some p =>
        route convert fs inp (fun a =>
          do a <- loadData convert fs a;
          match g_data a with
          | None => Undef
          | Some l =>
              do _ <- cells a l;
              do acc <- accumulate n p a l;
              do area <- getCellArea (g_geo a);
              let nd := f64_of_Z (-1) in
              save now prog writable analysis fs
                (mkG Float64 (g_w a) (g_h a) (g_xoff a) (g_yoff a) (VD nd) (g_geo a) (g_proj a) (g_meta a) EmptyString
                   (Some (window (fun x y => VD (scale nd area (acc (y * g_w a + x)))) 0 0 (g_w a) (g_h a)))) out
          end) (-1, fs)
    end.
End Apps.
