(** The C++ side of FlowAccumulation for three flow metrics, for use behind the Python package: methods/flow_accumulation.hpp:15-27
    (a metric into a new proportions array, then FlowAccumulation). pywrapper.hpp:55-67 bind the names. Numbers are exact rationals.
    Metrics with random numbers, powers or trigonometry are left out here: they take parameters (FMModel.v). *)
From Coq Require Import ZArith List Lia Bool String QArith Qcanon.
From Verif Require Import Base Res FAModel FMModel PyModel.
Open Scope Z_scope.
Open Scope list_scope.

Definition qgrid_of (w : Z) (l : list Qc) : grid Qc := fun x y => nth (Z.to_nat (y * w + x)) l 0%Qc.
Definition metric_of (f : string) (elev : grid Qc) (nd : Qc) (w h : Z) (maxe : Qc) (order : list (Z * Z)) : option (res (Z -> nat -> Qc)) :=
  if String.eqb f "FA_D8" || String.eqb f "FA_OCallaghanD8" then Some (FM_OCallaghan elev nd w h D8 maxe order)
  else if String.eqb f "FA_Quinn" then Some (FM_Quinn elev nd w h order)
  else None.
(** [maxe]: the largest elevation of the type; [order]: the order in which the parallel loops of the metrics visit the cells *)
Definition eng_flow (maxe : Qc) (order : Z -> Z -> list (Z * Z)) (f : string) (args : list (num Qc)) (arrs : list (aval Qc)) : eout Qc :=
  match arrs with
  | [a; acc] =>
      match metric_of f (qgrid_of (v_w a) (v_data a)) (v_nd a) (v_w a) (v_h a) maxe (order (v_w a) (v_h a)) with
      | Some (Ok P) =>
          match FAModel.FlowAccumulation (v_w a) (v_h a) P NO_DATA_GEN (v_w acc) (v_h acc) (fun i => nth (Z.to_nat i) (v_data acc) 0%Qc) with
          | Some (Ok A) => EOk (map A (zrange 0 (Z.to_nat (v_h acc * v_w acc)))) ACCUM_NO_DATA
          | Some Thrown => EThrow (v_data acc)
          | _ => EUndef
          end
      | _ => EUndef
      end
  | _ => EUndef
  end.
Definition flow_env (maxe : Qc) (order : Z -> Z -> list (Z * Z)) : env :=
  mkEnv Qc Qc (fun _ n => match n with PInt z => Ok (Q2Qc (inject_Z z)) | PFloat x => Ok x end) (fun _ v => PFloat v) (fun _ z => Q2Qc (inject_Z z)) (eng_flow maxe order).
