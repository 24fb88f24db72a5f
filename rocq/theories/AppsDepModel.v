(** Command line programs for depressions: apps/rd_depressions_flood.cpp, rd_depressions_has.cpp, rd_depressions_mask.cpp, on raster files of every type the programs open.
    The algorithms (PFModel, ZhouModel) only compare elevations and copy them, so they are run on the ranks of the values: integers in the same order. *)
From Coq Require Import ZArith List Lia Bool String Ascii QArith Qcanon.
From Flocq Require Import Core BinarySingleNaN.
From Verif Require Import Base Res ArrModel PFModel ZhouModel FAFModel PyModel PyIntModel PyNumModel GDALModel AppsGDALModel.
Open Scope Z_scope.
Open Scope list_scope.

(** The rank of a value: an integer its own, a floating point number its multiple of the smallest positive one, infinity the power of two that would come next. NaN, which is
    neither less nor greater than anything, has no sensible rank; it gets one of its own. *)
Definition frank {prec emax} (f : binary_float prec emax) : Z :=
  let emin := 3 - emax - prec in
  match f with
  | B754_zero _ => 0
  | B754_infinity s => cond_Zopp s (2 ^ (emax - emin))
  | B754_nan => 2 ^ (emax - emin + 1)
  | B754_finite s m e _ => cond_Zopp s (Zpos m * 2 ^ (e - emin))
  end.
Definition rank (v : val) : Z := match v with VI z => z | VF f => frank f | VD f => frank f end.
(** the value with a rank; the zero is the positive one *)
Definition unrank (T : dtype) (z : Z) : val :=
  match T with
  | Float32 => VF (binary_normalize 24 128 _ _ mode_NE z (-149) false)
  | Float64 => VD (binary_normalize 53 1024 _ _ mode_NE z (-1074) false)
  | _ => VI z
  end.

(** std::stoul(s), 64 bits: white space, a sign, digits; a negative number is taken modulo 2^64; out_of_range if the number without its sign does not fit *)
Definition stoul (s : string) : res Z :=
  let s := skip_space s in
  let '(neg, s) := match s with String a r => if Ascii.eqb a "-" then (true, r) else if Ascii.eqb a "+" then (false, r) else (false, s) | EmptyString => (false, s) end in
  if starts_with_digit s
  then let n := digits s 0 in if n <? 2 ^ 64 then Ok (if neg then (- n) mod 2 ^ 64 else n) else Thrown
  else Thrown.

Section Apps.
  Variable convert : dtype -> val -> val.
  Variable now prog : string.
  Variable writable : string -> bool.
  Variable analysis : string.
  (** the order in which a std::priority_queue returns equal elements *)
  Variable tb : nat -> nat.

  (** the elevations of an array, and an array with other elevations *)
  Definition elevations (a : garr) (l : list val) : grid Z := fun x y => rank (cell_at (g_w a) l x y).
  Definition with_elevations (a : garr) (r : grid Z) : garr :=
    mkG (g_type a) (g_w a) (g_h a) (g_xoff a) (g_yoff a) (g_nd a) (g_geo a) (g_proj a) (g_meta a) (g_file a)
      (Some (window (fun x y => unrank (g_type a) (r x y)) 0 0 (g_w a) (g_h a))).
  (** the number of cells (Barnes2014.hpp:527, 636, 890; in Zhou2016.hpp:145-148 the cell numbers are ints): undefined from 2^31 on *)
  Definition cells (a : garr) (l : list val) : res Z := size (mkA (g_w a) (g_h a) (g_nd a) NO_I [] true l).
  Definition lift {B} (o : option B) : res B := match o with Some b => Ok b | None => Undef end.

  (** rd_depressions_flood.cpp:12-24 *)
  Definition flood (max_dep_size : Z) (w h : Z) (e : grid Z) : option (grid Z) :=
    if max_dep_size =? 0 then PriorityFlood_Zhou2016 tb w h e else PriorityFlood_max_dep tb max_dep_size D8 w h e.
  (** rd_depressions_flood.cpp:11-24, 39-42. uint32_t max_dep_size = std::stoul(...) *)
  Definition rd_depressions_flood (fs : files) (inp out max_size : string) : res (Z * files) :=
    do n <- stoul max_size;
    route convert fs inp (fun a =>
      do a <- loadData convert fs a;
      match g_data a with
      | None => Undef
      | Some l => do _ <- cells a l; do r <- lift (flood (n mod 2 ^ 32) (g_w a) (g_h a) (elevations a l)); save now prog writable analysis fs (with_elevations a r) out
      end) (-1, fs).

  (** rd_depressions_has.cpp:10-20, 33: what is printed; None for nothing *)
  Definition rd_depressions_has (fs : files) (inp : string) : res (option string) :=
    route convert fs inp (fun a =>
      do a <- loadData convert fs a;
      match g_data a with
      | None => Undef
      | Some l =>
          do _ <- cells a l;
          do b <- lift (HasDepressions tb D8 (g_w a) (g_h a) (elevations a l));
          Ok (Some (if b : bool then "m Depressions found." else "m No depressions found.")%string)
      end) None.

  (** rd_depressions_mask.cpp:9-20, 37. Array2D<uint8_t> mask(elevation) (Array2D.hpp:364-374) copies the description but not the data, the NoData value or the file's name;
      pit_mask resizes it and sets the NoData value 3. NoData elevations are those equal to the NoData value, which NaN never is. *)
  Definition rd_depressions_mask (fs : files) (inp out : string) : res (Z * files) :=
    route convert fs inp (fun a =>
      do a <- loadData convert fs a;
      match g_data a with
      | None => Undef
      | Some l =>
          do _ <- cells a l;
          do m <- lift (pit_mask tb D8 (g_w a) (g_h a) (elevations a l) (rank (g_nd a)));
          save now prog writable analysis fs
            (mkG Uint8 (g_w a) (g_h a) (g_xoff a) (g_yoff a) (VI 3) (g_geo a) (g_proj a) (g_meta a) EmptyString
               (Some (window (fun x y => VI (m x y)) 0 0 (g_w a) (g_h a)))) out
      end) (-1, fs).
End Apps.
