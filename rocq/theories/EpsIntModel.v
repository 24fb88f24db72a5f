(** Priority-Flood+Epsilon on integer rasters, as bound by the Python package. *)
From Coq Require Import ZArith List Bool String.
From Verif Require Import Base Res PFModel PyModel PyIntModel.
Import ListNotations.
Open Scope Z_scope.
Open Scope list_scope.

(** Barnes2014.hpp:423-451: five overloads for integer types throw; they are chosen by calls that leave the element type to be deduced
    (depressions.hpp:23). [rdPFepsilonD8] and [rdPFepsilonD4] (pywrapper.hpp:34-35) name the element type as a second template argument, which only
    the general template (335-420) has, so for integer arrays too it is the general template that runs. *)

(** numeric_limits<int>::infinity() is 0, so std::nextafter(c.z, infinity) of Barnes2014.hpp:404-408 is the double next to c.z towards 0 (both
    arguments are converted to double; exact for the types of up to 32 bits). For c.z > 0 it lies between c.z-1 and c.z, for c.z < 0 between c.z and
    c.z+1, and for 0 it is 0. [int_below v z]: the comparison of the integer v with it; [int_next z]: its conversion back to an integer.
    (EpsIntFloat.v derives both from IEEE arithmetic.) *)
Definition int_below (v z : Z) : bool := if 0 <? z then v <? z else v <=? z.
Definition int_next (z : Z) : Z := if 0 <? z then z - 1 else if z <? 0 then z + 1 else 0.

(** Barnes2014.hpp:399-411, with integer elements *)
Definition epsi_visit (noData : Z) (c : item) (s : bstate) (n : nat) (nx ny : Z) : bstate :=
  let cl := gset (b_closed s) nx ny true in
  if b_elev s nx ny =? noData then
    mkB cl (b_elev s) (b_open s) (b_pit s ++ [mkItem nx ny noData])
  else if int_below (b_elev s nx ny) (iz c) then
    mkB cl (gset (b_elev s) nx ny (int_next (iz c))) (b_open s) (b_pit s ++ [mkItem nx ny (int_next (iz c))])
  else
    mkB cl (b_elev s) (mkItem nx ny (b_elev s nx ny) :: b_open s) (b_pit s).

(** Barnes2014.hpp:391-412 *)
Definition epsi_body (noData : Z) (t : topology) (w h : Z) (c : item) (s : bstate) : bstate :=
  fold_left (visit t w h b_closed (epsi_visit noData c) (ix c) (iy c)) (dirs t) s.

(** Barnes2014.hpp:335-420 for an integer element type of up to 32 bits; the queues are those of the general model ([eps_pop], lines 375-388) *)
Definition PriorityFloodEpsilon_int (tb : nat -> nat) (noData : Z) (t : topology) (w h : Z) (e : grid Z) : option (grid Z) :=
  option_map b_elev
    (while_pop (eps_pop tb) (epsi_body noData t w h) (pf_fuel w h) 0 (mkB (init_closed w h) e (seeds w h e) [])).

(** the functions behind the Python package for integer arrays of up to 32 bits: those of PyIntModel.v and pywrapper.hpp:34-35 *)
Definition eng_eps (tb : nat -> nat) (f : string) (args : list (num Empty_set)) (arrs : list (aval Z)) : eout Z :=
  match arrs with
  | [a] =>
      let w := v_w a in let h := v_h a in let e := grid_of w (v_data a) in
      if String.eqb f "rdPFepsilonD8" then opt_eng w h (v_nd a) (option_map Ok (PriorityFloodEpsilon_int tb (v_nd a) D8 w h e))
      else if String.eqb f "rdPFepsilonD4" then opt_eng w h (v_nd a) (option_map Ok (PriorityFloodEpsilon_int tb (v_nd a) D4 w h e))
      else eng_int tb f args arrs
  | _ => EUndef
  end.
Definition eps_env (tb : nat -> nat) : env :=
  mkEnv Empty_set Z (fun d n => match n with PInt z => Ok (wrap_to d z) | PFloat x => match x with end end) (fun _ v => PInt v) (fun _ z => z) (eng_eps tb).
