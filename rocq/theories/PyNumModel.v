(** How a Python NoData value reaches the C++ side and comes back: pywrapper.hpp:132-142 (ten overloads of setNoData, tried by pybind11 in the
    order float, double, int8 ... int64, uint8 ... uint64; first pass without conversions, second pass with), Array2D.hpp:668-684 (isNoData),
    __init__.py:204-221 (wrap, copyFromWrapped). *)
From Coq Require Import ZArith List Lia Bool String.
From Flocq Require Import Core BinarySingleNaN.
From Verif Require Import Base Res FAFModel PyModel PyIntModel.
Open Scope Z_scope.

(** conversion double -> float, round to nearest even *)
Definition f32_of_f64 (x : float64) : float32 :=
  match x with
  | B754_zero s => B754_zero s
  | B754_infinity s => B754_infinity s
  | B754_nan => B754_nan
  | B754_finite s m e _ => binary_normalize 24 128 _ _ mode_NE (if s then Zneg m else Zpos m) e s
  end.
(** an element of an array *)
Inductive val := VI (z : Z) | VF (f : float32) | VD (f : float64).

(** (T)ndval for a float [f]; converting to an integer type is undefined unless the truncated value is in range *)
Definition cast_float (d : dtype) (f : float32) : res val :=
  match d with
  | Float32 => Ok (VF f)
  | Float64 => Ok (VD (f64_of_f32 f))
  | Other => Thrown
  | _ => if is_finite f && (dmin d <=? Btrunc f) && (Btrunc f <=? dmax d) then Ok (VI (Btrunc f)) else Undef
  end.
(** (T)ndval for an integer *)
Definition cast_int (d : dtype) (z : Z) : res val :=
  match d with
  | Float32 => Ok (VF (f32_of_Z z))
  | Float64 => Ok (VD (f64_of_Z z))
  | Other => Thrown
  | _ => Ok (VI (wrap_to d z))
  end.
(** A Python float takes the first overload (float). A Python int takes the first of the integer overloads that can hold it; if none can, the
    second pass hands it to the float overload, through a double (Python raises if it is too big for one). *)
Definition setNoData (d : dtype) (n : num float64) : res val :=
  match n with
  | PFloat x => cast_float d (f32_of_f64 x)
  | PInt z => if (- 2 ^ 63 <=? z) && (z <? 2 ^ 64) then cast_int d z
              else if is_finite (f64_of_Z z) then cast_float d (f32_of_f64 (f64_of_Z z)) else Thrown
  end.
(** wrapped.noData() as a Python number *)
Definition noData (d : dtype) (v : val) : num float64 :=
  match v with VI z => PInt z | VF f => PFloat (f64_of_f32 f) | VD x => PFloat x end.
(** isNoData: _data[i]==no_data *)
Definition isNoData (v nd : val) : bool :=
  match v, nd with VI a, VI b => a =? b | VF a, VF b => Beqb a b | VD a, VD b => Beqb a b | _, _ => false end.
Definition lit_val (d : dtype) (z : Z) : val := match d with Float32 => VF (f32_of_Z z) | Float64 => VD (f64_of_Z z) | _ => VI z end.
Definition num_env (eng : string -> list (num float64) -> list (aval val) -> eout val) : env := mkEnv float64 val setNoData noData lit_val eng.
