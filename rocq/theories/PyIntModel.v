(** The C++ side of FillDepressions (without epsilon) and BreachDepressions for integer arrays, for use behind the Python package:
    the raster handed over is the row-major block of PyModel.v; pywrapper.hpp:32-33, 39-40 bind the names. *)
From Coq Require Import ZArith List Lia Bool String.
From Verif Require Import Base Res PyModel ZhouModel BreachModel.
Open Scope Z_scope.
Open Scope list_scope.

(** smallest value and number of values of the integer dtypes *)
Definition dmin (d : dtype) : Z := match d with Int8 => -2^7 | Int16 => -2^15 | Int32 => -2^31 | Int64 => -2^63 | _ => 0 end.
Definition dcount (d : dtype) : Z :=
  match d with Int8 | Uint8 => 2^8 | Int16 | Uint16 => 2^16 | Int32 | Uint32 => 2^32 | _ => 2^64 end.
Definition dmax (d : dtype) : Z := dmin d + dcount d - 1.
Definition is_int (d : dtype) : bool := match d with Float32 | Float64 | Other => false | _ => true end.
(** conversion of an integer to an integer type: modulo *)
Definition wrap_to (d : dtype) (z : Z) : Z := dmin d + (z - dmin d) mod dcount d.

(** Array2D.hpp: cell (x,y) is element y*width+x *)
Definition grid_of (w : Z) (l : list Z) : grid Z := fun x y => nth (Z.to_nat (y * w + x)) l 0.
Definition list_of (w h : Z) (g : grid Z) : list Z := flat_map (fun y => map (fun x => g x y) (zrange 0 (Z.to_nat w))) (zrange 0 (Z.to_nat h)).

Definition opt_eng (w h nd : Z) (r : option (res (grid Z))) : eout Z :=
  match r with Some (Ok g) => EOk (list_of w h g) nd | _ => EUndef end.
(** [tb]: how the priority queues order equal elements *)
Definition eng_int (tb : nat -> nat) (f : string) (args : list (num Empty_set)) (arrs : list (aval Z)) : eout Z :=
  match arrs with
  | [a] =>
      let w := v_w a in let h := v_h a in let e := grid_of w (v_data a) in
      if String.eqb f "rdFillDepressionsD8" then opt_eng w h (v_nd a) (option_map Ok (FillDepressions tb D8 w h e))
      else if String.eqb f "rdFillDepressionsD4" then opt_eng w h (v_nd a) (option_map Ok (FillDepressions tb D4 w h e))
      else if String.eqb f "rdBreachDepressionsD8" then opt_eng w h (v_nd a) (CompleteBreaching_Lindsay2016 tb D8 w h (v_nd a) (dmax (v_dtype a)) e)
      else if String.eqb f "rdBreachDepressionsD4" then opt_eng w h (v_nd a) (CompleteBreaching_Lindsay2016 tb D4 w h (v_nd a) (dmax (v_dtype a)) e)
      else EUndef
  | _ => EUndef
  end.
Definition int_env (tb : nat -> nat) : env :=
  mkEnv Empty_set Z (fun d n => match n with PInt z => Ok (wrap_to d z) | PFloat x => match x with end end) (fun _ v => PInt v) (fun _ z => z) (eng_int tb).
