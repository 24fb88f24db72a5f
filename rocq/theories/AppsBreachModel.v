(** The program apps/rd_depressions_breach.cpp on raster files. Breaching completely without gradients, which only compares elevations and copies them, is run on their ranks
    (AppsDepModel, BreachModel); so is selective breaching of unsigned integers. The other modes, which subtract elevations or take neighbouring floats, are a parameter. *)
From Coq Require Import ZArith List Lia Bool String Ascii QArith Qcanon.
From Flocq Require Import Core BinarySingleNaN.
From Verif Require Import Base Res ArrModel BreachModel FAFModel PyModel PyIntModel PyNumModel GDALModel AppsGDALModel AppsDepModel AppsFAModel.
Open Scope Z_scope.
Open Scope list_scope.

(** rd_depressions_breach.cpp:49-73 the words of the command line; anything else is a runtime_error *)
Definition mode_of (s : string) : res lmode :=
  if String.eqb s "COMPLETE" then Ok COMPLETE else if String.eqb s "SELECTIVE" then Ok SELECTIVE else if String.eqb s "CONSTRAINED" then Ok CONSTRAINED else Thrown.
Definition eps_of (s : string) : res bool := if String.eqb s "EPS" then Ok true else if String.eqb s "NOEPS" then Ok false else Thrown.
Definition fill_of (s : string) : res bool := if String.eqb s "FILL" then Ok true else if String.eqb s "NOFILL" then Ok false else Thrown.

(** the rank of numeric_limits<T>::lowest() *)
Definition lowest (T : dtype) : Z := match T with Float32 | Float64 => - largest T | _ => dmin T end.

Section Apps.
  Variable convert : dtype -> val -> val.
  Variable now prog : string.
  Variable writable : string -> bool.
  Variable analysis : string.
  Variable tb : nat -> nat.
  (** std::stod *)
  Variable stod : string -> res float64.
  (** Lindsay2016 in the other modes: mode, gradients, filling, path length, depth, raster *)
  Variable others : lmode -> bool -> bool -> Z -> val -> garr -> res (grid Z).

  (** the call in rd_depressions_breach.cpp:25; complete breaching does not look at the two limits. In selective breaching the depth of a path is a difference of elevations, computed in their
      type, which for unsigned types cannot overflow: Lindsay2016.hpp:338 subtracts the smaller one. *)
  Definition breach (m : lmode) (eps fill : bool) (maxlen : Z) (maxdepth : val) (a : garr) (l : list val) : res (grid Z) :=
    let run m := match Lindsay2016 tb m (fun z => z) (fun z => z) fill maxlen (rank maxdepth) (g_w a) (g_h a) (rank (g_nd a)) (largest (g_type a)) (lowest (g_type a)) (elevations a l) with
                 | Some r => r
                 | None => Undef
                 end in
    match m, eps, g_type a with
    | COMPLETE, false, _ => run COMPLETE
    | SELECTIVE, false, (Uint8 | Uint16 | Uint32) => run SELECTIVE
    | _, _, _ => others m eps fill maxlen maxdepth a
    end.
  (** rd_depressions_breach.cpp:12-30, 49-79. uint32_t max_path_len = std::stoul(...); (T)max_depth is undefined if the type cannot hold the number *)
  Definition rd_depressions_breach (fs : files) (inp out mode eps fill maxlen maxdepth : string) : res (Z * files) :=
    do m <- mode_of mode; do e <- eps_of eps; do f <- fill_of fill; do n <- stoul maxlen; do d <- stod maxdepth;
    route convert fs inp (fun a =>
      do a <- loadData convert fs a;
      match g_data a with
      | None => Undef
      | Some l =>
          do md <- of_double (g_type a) d;
          do _ <- cells a l;
          do r <- breach m e f (n mod 2 ^ 32) md a l;
          save now prog writable analysis fs (with_elevations a r) out
      end) (-1, fs).
End Apps.
