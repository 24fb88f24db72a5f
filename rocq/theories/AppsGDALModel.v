(** Command line programs that read a raster file, change its description or compare files: apps/router.hpp, rd_no_data.cpp, rd_geotransform.cpp, rd_projection.cpp, rd_processing_history.cpp,
    rd_expand_dimensions.cpp, rd_compare.cpp, rd_hist.cpp, on top of the model of raster files (GDALModel). The result of a program is its exit status and the files, or what it prints. *)
From Coq Require Import ZArith List Lia Bool String Ascii QArith Qcanon.
From Flocq Require Import Core BinarySingleNaN.
From Verif Require Import Base Res ArrModel FAFModel PyModel PyIntModel PyNumModel GDALModel.
Open Scope Z_scope.
Open Scope list_scope.

(** std::stoi(s): white space, a sign, digits; whatever follows is ignored. invalid_argument without a digit, out_of_range if the number does not fit an int. *)
Definition isspace (a : ascii) : bool := let n := nat_of_ascii a in (Nat.leb 9 n && Nat.leb n 13) || Nat.eqb n 32.
Definition digit (a : ascii) : option Z := let n := Z.of_nat (nat_of_ascii a) in if (48 <=? n) && (n <=? 57) then Some (n - 48) else None.
Fixpoint skip_space (s : string) : string := match s with String a r => if isspace a then skip_space r else s | EmptyString => s end.
Fixpoint digits (s : string) (acc : Z) : Z := match s with String a r => match digit a with Some d => digits r (10 * acc + d) | None => acc end | EmptyString => acc end.
Definition starts_with_digit (s : string) : bool := match s with String a _ => match digit a with Some _ => true | None => false end | EmptyString => false end.
Definition stoi (s : string) : res Z :=
  let s := skip_space s in
  let '(neg, s) := match s with String a r => if Ascii.eqb a "-" then (true, r) else if Ascii.eqb a "+" then (false, r) else (false, s) | EmptyString => (false, s) end in
  if starts_with_digit s
  then let n := digits s 0 in let n := if neg then - n else n in if (- 2 ^ 31 <=? n) && (n <? 2 ^ 31) then Ok n else Thrown
  else Thrown.

(** (T)i for an int i: integer types wrap around *)
Definition cast_int (T : dtype) (i : Z) : val :=
  match T with Float32 => VF (f32_of_Z i) | Float64 => VD (f64_of_Z i) | _ => VI (wrap_to T i) end.

(** Array2D.hpp:830-832 setNoData; geotransform and projection are public *)
Definition set_nd (a : garr) (v : val) : garr := mkG (g_type a) (g_w a) (g_h a) (g_xoff a) (g_yoff a) v (g_geo a) (g_proj a) (g_meta a) (g_file a) (g_data a).
Definition set_geo (a : garr) (g : list Qc) : garr := mkG (g_type a) (g_w a) (g_h a) (g_xoff a) (g_yoff a) (g_nd a) g (g_proj a) (g_meta a) (g_file a) (g_data a).
Definition set_proj (a : garr) (p : string) : garr := mkG (g_type a) (g_w a) (g_h a) (g_xoff a) (g_yoff a) (g_nd a) (g_geo a) p (g_meta a) (g_file a) (g_data a).

Section Apps.
  Variable convert : dtype -> val -> val.
  Variable now prog : string.
  Variable writable : string -> bool.
  (** std::stod, as an exact number; throws for texts that are not numbers *)
  Variable stod : string -> res Qc.
  (** the command line, which becomes the line of history *)
  Variable analysis : string.

  (** router.hpp:8-50: the file is opened, without its data, as an array of its own type; -1 for other types; peekGDALType throws if the file cannot be opened *)
  Definition route {R} (fs : files) (name : string) (k : garr -> res R) (minus1 : R) : res R :=
    match fs name with
    | None => Thrown
    | Some ds => if has_gdal_type (ds_type ds) then do a <- loadGDAL convert (ds_type ds) fs name 0 0 0 0 false false; k a else Ok minus1
    end.
  (** an Array2D<int8_t> of the file without data, as the programs use to look at a file's description *)
  Definition peek (fs : files) (name : string) : res garr := loadGDAL convert Int8 fs name 0 0 0 0 false false.
  Definition save (fs : files) (a : garr) (out : string) : res (Z * files) := do r <- saveGDAL now prog writable fs a out analysis 0 0; Ok (0, fst r).
  (** [PerformAlgorithm(...); return 0;] *)
  Definition main0 (r : res (Z * files)) : res (Z * files) := do q <- r; Ok (0, snd q).

  (** rd_no_data.cpp:9-14, 30-35 with three arguments *)
  Definition rd_no_data (fs : files) (inp out nodata : string) : res (Z * files) :=
    main0 (route fs inp (fun a => do a <- loadData convert fs a; do n <- stoi nodata; save fs (set_nd a (cast_int (g_type a) n)) out) (-1, fs)).
  (** rd_no_data.cpp:30-32 with one argument: what is printed. The value is an int8_t, which a stream prints as the character with that code. *)
  Definition rd_no_data_show (fs : files) (inp : string) : res string :=
    do a <- peek fs inp; match g_nd a with VI z => Ok (String (ascii_of_N (Z.to_N (z mod 256))) EmptyString) | _ => Undef end.

  (** rd_geotransform.cpp:20-27 *)
  Fixpoint set_coefs (args : list string) (i : nat) (g : list Qc) : res (list Qc) :=
    match args with
    | [] => Ok g
    | s :: r => if String.eqb s "x" then set_coefs r (S i) g
                else do v <- stod s; do g' <- wr g (Z.of_nat i) v; set_coefs r (S i) g'
    end.
  (** rd_geotransform.cpp:7-30, 56-70 *)
  Definition rd_geotransform (fs : files) (inp out : string) (args : list string) : res (Z * files) :=
    main0 (route fs inp (fun a => do a <- loadData convert fs a; do g <- set_coefs args 0 (g_geo a); save fs (set_geo a g) out) (-1, fs)).
  (** rd_geotransform.cpp:40-48: geotransform, width and height printed *)
  Definition rd_geotransform_show (fs : files) (inp : string) : res (list Qc * Z * Z) := do a <- peek fs inp; Ok (g_geo a, g_w a, g_h a).

  (** rd_projection.cpp:8-22, 38-41 *)
  Definition rd_projection (fs : files) (inp out templatefile : string) : res (Z * files) :=
    main0 (route fs inp (fun a =>
      do a <- loadData convert fs a;
      do p <- match templatefile with
              | String c r => if Ascii.eqb c ":" then Ok r else do t <- peek fs templatefile; Ok (g_proj t)
              | EmptyString => do t <- peek fs templatefile; Ok (g_proj t)
              end;
      save fs (set_proj a p) out) (-1, fs)).

  (** rd_processing_history.cpp:16-23: the history printed; None for "No processing history!" *)
  Definition rd_processing_history (fs : files) (inp : string) : res (option string) :=
    do a <- peek fs inp;
    match mget HIST (g_meta a) with Some (String c r) => Ok (Some (String c r)) | _ => Ok None end.

  (** rd_expand_dimensions.cpp:9-27, 40-45; [junk]: contents of fresh memory. Array2D::expand is that of ArrModel. *)
  Variable junk : nat -> list val.
  Definition rd_expand_dimensions (fs : files) (inp out : string) (width height : string) : res (Z * files) :=
    do new_width <- stoi width; do new_height <- stoi height;
    main0 (route fs inp (fun a =>
      do a <- loadData convert fs a;
      if new_width <? g_w a then Ok (-1, fs)
      else if new_height <? g_h a then Ok (-1, fs)
      else match g_data a with
           | None => Undef
           | Some l =>
               do b <- expand junk (mkA (g_w a) (g_h a) (g_nd a) NO_I (nshift_table (g_w a)) true l) new_width new_height (g_nd a);
               save fs (mkG (g_type a) (a_w b) (a_h b) (g_xoff a) (g_yoff a) (a_nodata b) (g_geo a) (g_proj a) (g_meta a) (g_file a) (Some (a_data b))) out
           end) (-1, fs)).

  (** a != b for values of types T and U: the usual arithmetic conversions. With a double both become doubles, with a float both floats, with a uint32_t both uint32_t, else both int. *)
  Definition to_f32 (v : val) : float32 := match v with VI z => f32_of_Z z | VF f => f | VD x => f32_of_f64 x end.
  Definition to_Z (v : val) : Z := match v with VI z => z | _ => 0 end.
  Definition is_type (d T U : dtype) : bool := dtype_eqb T d || dtype_eqb U d.
  Definition differ (T U : dtype) (a b : val) : bool :=
    if is_type Float64 T U then negb (Beqb (to_double a) (to_double b))
    else if is_type Float32 T U then negb (Beqb (to_f32 a) (to_f32 b))
    else if is_type Uint32 T U then negb (to_Z a mod 2 ^ 32 =? to_Z b mod 2 ^ 32)
    else negb (to_Z a =? to_Z b).
  (** what rd_compare prints: which of geotransform, NoData value, projection, width, height differ; the number of values that differ *)
  Record comparison := mkCmp { cmp_geo : bool; cmp_nd : bool; cmp_proj : bool; cmp_w : bool; cmp_h : bool; cmp_count : Z }.
  (** rd_compare.cpp:8-30: every cell of the first is compared with the one with the same number in the second, which need not have so many (reading further is undefined) *)
  Definition compare_arrays (fs : files) (a b : garr) : res comparison :=
    do a <- loadData convert fs a; do b <- loadData convert fs b;
    match g_data a, g_data b with
    | Some la, Some lb =>
        do n <- size (mkA (g_w a) (g_h a) (g_nd a) NO_I [] true la);
        do c <- forM (zrange 0 (Z.to_nat n)) (fun i c => do x <- rd la i; do y <- rd lb i; Ok (if differ (g_type a) (g_type b) x y then c + 1 else c)) 0;
        Ok (mkCmp (if list_eq_dec Qc_eq_dec (g_geo a) (g_geo b) then false else true) (differ (g_type a) (g_type b) (g_nd a) (g_nd b))
              (negb (String.eqb (g_proj a) (g_proj b))) (negb (g_w a =? g_w b)) (negb (g_h a =? g_h b)) c)
    | _, _ => Undef
    end.
  (** rd_compare.cpp:35-45: both files go through the router; None if nothing is printed *)
  Definition rd_compare (fs : files) (A B : string) : res (option comparison) :=
    route fs A (fun a => route fs B (fun b => do c <- compare_arrays fs a b; Ok (Some c)) None) None.

  (** std::unordered_map<T,int>: counts[v]++. Keys are compared with ==. *)
  Fixpoint count_in (T : dtype) (v : val) (m : list (val * Z)) : list (val * Z) :=
    match m with
    | [] => [(v, 1)]
    | (k, n) :: r => if differ T T v k then (k, n) :: count_in T v r else (k, n + 1) :: r
    end.
  (** (int)noData(): undefined outside the range of int *)
  Definition as_int (v : val) : res Z := match v with VI z => Ok (s32 z) | _ => do r <- of_double Int32 (to_double v); match r with VI z => Ok z | _ => Undef end end.
  (** rd_hist.cpp:9-24: the NoData value and the counts printed (in no particular order) *)
  Definition rd_hist (fs : files) (inp : string) : res (option (Z * list (val * Z))) :=
    route fs inp (fun a =>
      do a <- loadData convert fs a;
      match g_data a with
      | None => Undef
      | Some l =>
          do n <- size (mkA (g_w a) (g_h a) (g_nd a) NO_I [] true l);
          do m <- forM (zrange 0 (Z.to_nat n)) (fun i m => do v <- rd l i; Ok (count_in (g_type a) v m)) [];
          do nd <- as_int (g_nd a);
          Ok (Some (nd, m))
      end) None.
End Apps.
